(** The invariant of an aggregation: the sets hold exactly the aggregates of the rows. *)
From Coq Require Import Permutation.
From Verif Require Import Base JsonModel JsonSpec ValueModel ValueProps HashModel HashProofs SetModel SetProofs SetProps
  AggModel AggSpec AggFacts AggProofs.
Local Open Scope nat_scope.

Definition dkey (k : list value) (z : Z) (col : nat) : list value := k ++ [VInt z; VInt (Z.of_nat col)].
Lemma dkey_ok n k z col : plain_key n k -> plain_key (n + 2) (dkey k z col).
Proof.
  intros [L F]. split; [unfold dkey; rewrite app_length; cbn; lia|]. apply Forall_app. split; [exact F|].
  repeat constructor.
Qed.
Lemma dkey_inj k z c k' z' c' : length k = length k' -> dkey k z c = dkey k' z' c' -> k = k' /\ z = z' /\ c = c'.
Proof.
  intros L H. unfold dkey in H.
  assert (k = k') as ->.
  { apply (f_equal (firstn (length k))) in H. rewrite firstn_app, firstn_all, Nat.sub_diag in H. cbn in H.
    rewrite L, firstn_app, firstn_all, Nat.sub_diag in H. cbn in H. rewrite !app_nil_r in H. exact H. }
  apply app_inv_head in H. injection H as -> H. split; [reflexivity|]. split; [reflexivity|]. lia.
Qed.

Lemma vals_app R W k col : vals (R ++ W) k col = vals R k col ++ vals W k col.
Proof. unfold vals. apply flat_map_app. Qed.
Lemma vals_in R k col z : In z (vals R k col) -> In k (map fst R).
Proof.
  unfold vals. intros H. apply in_flat_map in H as ([k' v] & Hr & Hz). cbn in Hz.
  destruct (key_eq_dec k' k) as [->|]; [|destruct Hz]. apply (in_map fst R (k, v)) in Hr. exact Hr.
Qed.
Lemma vals_length R k col : length (vals R k col) <= length R.
Proof.
  induction R as [|[k' v] R IH]; [cbn; lia|]. change ((k', v) :: R) with ([(k', v)] ++ R). rewrite vals_app.
  rewrite !app_length. cbn [length]. assert (length (vals [(k', v)] k col) <= 1); [|lia].
  unfold vals. cbn. destruct (key_eq_dec k' k); cbn; [|lia]. destruct (nth_error v col) as [[]|]; cbn; lia.
Qed.

Lemma upd_col_nth l col f i : nth_error (upd_col l col f) i = if i =? col then option_map f (nth_error l i) else nth_error l i.
Proof.
  revert col i; induction l as [|x l IH]; intros [|col] [|i]; cbn; auto; destruct (_ =? _); reflexivity.
Qed.
Lemma upd_col_length l col f : length (upd_col l col f) = length l.
Proof. revert col; induction l as [|x l IH]; intros [|col]; cbn; auto. Qed.

Lemma firstn_S {X} (l : list X) c x : nth_error l c = Some x -> firstn (S c) l = firstn c l ++ [x].
Proof. revert c; induction l as [|y l IH]; intros [|c] H; cbn in *; try discriminate; [congruence|]. f_equal. now apply IH. Qed.
Section I.
Variable mag : Z -> Z -> Z.
Hypothesis Hmag : memcmp_ok mag.
Variable aggs : list agg.
Variable n : nat.
Notation eqb := (store_compare_keys mag).
Notation mok := (plain_key n).
Notation dok := (plain_key (n + 2)).
Notation row := (list value * list value)%type.
Let EQm := plain_keys_eq mag n Hmag.
Let EQd := plain_keys_eq mag (n + 2) Hmag.
Notation minv := (@inv (list value) (list state) eqb keys_hash mok).
Notation dinv := (@inv (list value) unit eqb keys_hash dok).
Notation mget := (@get (list value) (list state) eqb).
Notation dget := (@get (list value) unit eqb).

(** the main set against the rows: keys and the aggregates without DISTINCT *)
Definition Main (m : mset) (R : list row) : Prop :=
  minv m /\
  (forall k, mok k -> (mget m k <> None <-> In k (map fst R))) /\
  (forall k st, mok k -> mget m k = Some st -> length st = length aggs /\
     forall col a, nth_error aggs col = Some a -> adistinct a = false ->
       nth_error st col = Some (agg_spec (atype a) (vals R k col))).
(** the aggregates with DISTINCT against the distinct set *)
Definition Dist (m : mset) (d : dset) : Prop :=
  forall k st, mok k -> mget m k = Some st ->
    forall col a, nth_error aggs col = Some a -> adistinct a = true ->
      exists l, nth_error st col = Some (agg_spec (atype a) l) /\ NoDup l /\
                (forall z, In z l <-> dget d (dkey k z col) <> None).
(** the distinct set against the rows *)
Definition DSet (d : dset) (R : list row) : Prop :=
  dinv d /\
  forall dk, dok dk -> (dget d dk <> None <->
    exists k z col a, mok k /\ dk = dkey k z col /\ nth_error aggs col = Some a /\ adistinct a = true /\ In z (vals R k col)).
Definition Rel (md : mset * dset) (R : list row) : Prop := Main (fst md) R /\ Dist (fst md) (snd md) /\ DSet (snd md) R.

Lemma Rel_empty : Rel (set_empty, set_empty) [].
Proof.
  split; [split; [apply inv_empty|split]|split].
  - intros k _. cbn. split; [congruence|intros []].
  - intros k st _ H. discriminate.
  - intros k st _ H. discriminate.
  - split; [apply inv_empty|]. intros dk _. cbn. split; [congruence|]. intros (k & z & col & a & _ & _ & _ & _ & []).
Qed.
(* only the values of the rows matter *)
Lemma Rel_vals md R R' : (forall k, mok k -> (In k (map fst R) <-> In k (map fst R'))) -> (forall k col, vals R k col = vals R' k col) ->
  Rel md R -> Rel md R'.
Proof.
  intros HK HV ((I & K & C) & D & (I2 & S)). split; [split; [exact I|split]|split; [exact D|split; [exact I2|]]].
  - intros k Hk. rewrite K by exact Hk. now apply HK.
  - intros k st Hk G. destruct (C k st Hk G) as [L P]. split; [exact L|]. intros col a Ha Hd. rewrite <- HV. now apply P.
  - intros dk Hdk. rewrite S by exact Hdk. split; intros (k & z & col & a & ? & ? & ? & ? & ?); exists k, z, col, a; [rewrite <- HV|rewrite HV]; auto.
Qed.

(** a new key *)
Lemma step_key m d R k : Rel (m, d) R -> mok k ->
  exists r ex m1, set_upsert eqb keys_hash (new_row aggs) m k 0 = Some (r, ex, m1) /\
    nth_error (keys m1) r = Some k /\ Rel (m1, d) (R ++ [(k, [])]).
Proof.
  intros ((I & K & C) & D & (I2 & S)) Hk. cbn [fst snd] in *.
  destruct (upsert_get eqb keys_hash (new_row aggs) mok EQm m k 0%Z I Hk (or_introl eq_refl)) as (r & ex & m1 & E & I1 & Hr & Hex & G & Go).
  exists r, ex, m1. split; [exact E|]. split; [exact Hr|].
  assert (forall k' col, vals (R ++ [(k, [])]) k' col = vals R k' col) as HV.
  { intros k' col. rewrite vals_app. unfold vals at 2. cbn. destruct (key_eq_dec k k'); [|now rewrite app_nil_r].
    rewrite app_nil_r. destruct col; cbn; now rewrite app_nil_r. }
  split; [split; [exact I1|split]|split].
  - intros k' Hk'. cbn. rewrite map_app, in_app_iff. cbn. destruct (key_eq_dec k k') as [<-|N].
    + rewrite G. split; [auto|discriminate].
    + rewrite Go by auto. rewrite K by exact Hk'. tauto.
  - cbn. intros k' st Hk' H. destruct (key_eq_dec k k') as [<-|N].
    + rewrite G in H. injection H as <-. destruct (mget m k) as [st0|] eqn:E0.
      * destruct (C k st0 Hk E0) as [L P]. split; [exact L|]. intros col a Ha Hd. rewrite HV. now apply P.
      * split; [apply map_length|]. intros col a Ha Hd. rewrite HV. unfold new_row. rewrite nth_error_map, Ha. cbn.
        destruct (vals R k col) as [|z l] eqn:Ev; [reflexivity|]. exfalso.
        apply (K k Hk); [|exact E0]. eapply vals_in. rewrite Ev. now left.
    + rewrite Go in H by auto. destruct (C k' st Hk' H) as [L P]. split; [exact L|]. intros col a Ha Hd. rewrite HV. now apply P.
  - cbn. intros k' st Hk' H col a Ha Hd. destruct (key_eq_dec k k') as [<-|N].
    + rewrite G in H. injection H as <-. destruct (mget m k) as [st0|] eqn:E0.
      * exact (D k st0 Hk E0 col a Ha Hd).
      * exists []. unfold new_row. rewrite nth_error_map, Ha. split; [reflexivity|]. split; [constructor|].
        intros z. split; [intros []|]. intros H. exfalso. apply S in H; [|now apply dkey_ok].
        destruct H as (k1 & z1 & c1 & a1 & Hk1 & Eq & _ & _ & Hz). apply dkey_inj in Eq as (<- & _ & _); [|destruct Hk, Hk1; congruence].
        apply (K k Hk); [|exact E0]. eapply vals_in; eauto.
    + rewrite Go in H by auto. exact (D k' st Hk' H col a Ha Hd).
  - split; [exact I2|]. intros dk Hdk. cbn. rewrite S by exact Hdk. split; intros (k1 & z1 & c1 & a1 & ? & ? & ? & ? & ?); exists k1, z1, c1, a1; [rewrite HV|rewrite <- HV with (k' := k1)]; auto.
Qed.

(* one more value of the last row *)
Lemma vals_next R k vs c v : nth_error vs c = Some v -> forall k' col,
  vals (R ++ [(k, firstn (S c) vs)]) k' col =
  vals (R ++ [(k, firstn c vs)]) k' col ++
    (if key_eq_dec k k' then if col =? c then match v with VInt z => [z] | _ => [] end else [] else []).
Proof.
  intros H k' col. rewrite !vals_app, <- app_assoc. f_equal. unfold vals. cbn [flat_map fst snd].
  destruct (key_eq_dec k k') as [E|N]; [|reflexivity]. rewrite !app_nil_r.
  rewrite (firstn_S vs c v H).
  assert (c < length vs) as L by (apply nth_error_Some; congruence).
  destruct (Nat.eqb_spec col c) as [->|Nc].
  - rewrite nth_error_app2 by (rewrite firstn_length; lia). replace (c - length (firstn c vs)) with 0 by (rewrite firstn_length; lia).
    cbn. rewrite (proj2 (nth_error_None (firstn c vs) c)) by (rewrite firstn_length; lia). destruct v; reflexivity.
  - rewrite app_nil_r. destruct (Nat.lt_ge_cases col c) as [C|C].
    + rewrite nth_error_app1 by (rewrite firstn_length; lia). reflexivity.
    + rewrite (proj2 (nth_error_None (firstn c vs ++ [v]) col)) by (rewrite app_length, firstn_length; cbn; lia).
      rewrite (proj2 (nth_error_None (firstn c vs) col)) by (rewrite firstn_length; lia). reflexivity.
Qed.

Definition small (R : list row) : Prop := (Z.of_nat (length R) < 2 ^ 31)%Z.

Lemma keys_row_of (m : mset) r k : nth_error (keys m) r = Some k -> option_map fst (nth_error (srows m) r) = Some k.
Proof. now rewrite keys_nth. Qed.

(** one column of a row *)
Lemma step_col_plain m d R k vs c z a r : Rel (m, d) (R ++ [(k, firstn c vs)]) -> small (R ++ [(k, [])]) -> mok k ->
  nth_error (keys m) r = Some k -> nth_error vs c = Some (VInt z) -> i64 z -> nth_error aggs c = Some a -> adistinct a = false ->
  Rel (set_update m r (fun l => upd_col l c (fun s => agg_compute (atype a) s z)), d) (R ++ [(k, firstn (S c) vs)]).
Proof.
  intros ((I & K & C) & D & (I2 & S)) Sm Hk Hr Hv Hz Ha Hd. cbn [fst snd] in *.
  set (f := fun l => upd_col l c (fun s => agg_compute (atype a) s z)).
  pose proof (vals_next R k vs c (VInt z) Hv) as V.
  destruct (update_get eqb keys_hash mok EQm m r f k I Hr) as [G Go].
  split; [split; [now apply update_inv|split]|split].
  - intros k' Hk'. cbn [fst]. rewrite map_app, in_app_iff. cbn. destruct (key_eq_dec k k') as [<-|N].
    + rewrite G. specialize (K k Hk). rewrite map_app, in_app_iff in K. cbn in K.
      destruct (mget m k); cbn; split; intros; auto; try discriminate. exfalso. tauto.
    + rewrite Go by auto. rewrite K by exact Hk'. rewrite map_app, in_app_iff. cbn. tauto.
  - cbn [fst]. intros k' st Hk' H. destruct (key_eq_dec k k') as [<-|N].
    + rewrite G in H. destruct (mget m k) as [st0|] eqn:E0; [|discriminate]. cbn in H. injection H as <-.
      destruct (C k st0 Hk E0) as [L P]. split; [unfold f; rewrite upd_col_length; exact L|].
      intros col a' Ha' Hd'. unfold f. rewrite upd_col_nth, V. destruct (key_eq_dec k k); [|congruence].
      destruct (Nat.eqb_spec col c) as [->|Nc].
      * assert (a' = a) as -> by congruence. rewrite (P c a Ha Hd). cbn. f_equal. apply compute_spec; [exact Hz|].
        pose proof (vals_length (R ++ [(k, firstn c vs)]) k c) as LL. rewrite app_length in LL. cbn in LL.
        unfold small in Sm. rewrite app_length in Sm. cbn in Sm.
        (* at most one value per row, and none yet of this row *)
        assert (length (vals (R ++ [(k, firstn c vs)]) k c) <= length R) as LR; [|lia].
        rewrite vals_app, app_length. pose proof (vals_length R k c). assert (vals [(k, firstn c vs)] k c = []) as ->; [|cbn; lia].
        unfold vals. cbn. destruct (key_eq_dec k k); [|reflexivity].
        rewrite (proj2 (nth_error_None (firstn c vs) c)); [reflexivity|]. rewrite firstn_length. lia.
      * rewrite app_nil_r. now apply P.
    + rewrite Go in H by auto. destruct (C k' st Hk' H) as [L P]. split; [exact L|]. intros col a' Ha' Hd'. rewrite V.
      destruct (key_eq_dec k k'); [congruence|]. rewrite app_nil_r. now apply P.
  - cbn [fst snd]. intros k' st Hk' H col a' Ha' Hd'. destruct (key_eq_dec k k') as [<-|N].
    + rewrite G in H. destruct (mget m k) as [st0|] eqn:E0; [|discriminate]. cbn in H. injection H as <-.
      unfold f. rewrite upd_col_nth. destruct (Nat.eqb_spec col c) as [->|Nc]; [congruence|].
      exact (D k st0 Hk E0 col a' Ha' Hd').
    + rewrite Go in H by auto. exact (D k' st Hk' H col a' Ha' Hd').
  - cbn [snd]. split; [exact I2|]. intros dk Hdk. rewrite S by exact Hdk.
    split; intros (k1 & z1 & c1 & a1 & H1 & H2 & H3 & H4 & H5); exists k1, z1, c1, a1; (split; [exact H1|]; split; [exact H2|]; split; [exact H3|]; split; [exact H4|]).
    + rewrite V. apply in_or_app. now left.
    + rewrite V in H5. apply in_app_or in H5 as [H5|H5]; [exact H5|]. destruct (key_eq_dec k k1); [|destruct H5].
      destruct (Nat.eqb_spec c1 c) as [->|]; [congruence|destruct H5].
Qed.

(** the main set changes only in columns with DISTINCT *)
Definition same_plain (m m' : mset) : Prop :=
  minv m' /\
  forall k, mok k -> (mget m' k = None <-> mget m k = None) /\
    forall st', mget m' k = Some st' -> exists st, mget m k = Some st /\ length st' = length st /\
      forall col a, nth_error aggs col = Some a -> adistinct a = false -> nth_error st' col = nth_error st col.
Lemma same_plain_refl m : minv m -> same_plain m m.
Proof. intros I. split; [exact I|]. intros k Hk. split; [tauto|]. intros st H. exists st. auto. Qed.
Lemma Main_ext m m' R R' : Main m R -> same_plain m m' -> (forall k, mok k -> (In k (map fst R) <-> In k (map fst R'))) ->
  (forall k col a, nth_error aggs col = Some a -> adistinct a = false -> vals R' k col = vals R k col) -> Main m' R'.
Proof.
  intros (I & K & C) (I' & P) HK HV. split; [exact I'|]. split.
  - intros k Hk. rewrite <- HK by exact Hk. rewrite <- K by exact Hk. destruct (P k Hk) as [Q _]. tauto.
  - intros k st' Hk G. destruct (P k Hk) as [_ Q]. destruct (Q st' G) as (st & G0 & L & N).
    destruct (C k st Hk G0) as [L0 C0]. split; [congruence|]. intros col a Ha Hd. rewrite (N col a Ha Hd), (HV k col a Ha Hd). now apply C0.
Qed.

(** one value of a DISTINCT aggregate *)
Lemma dist_add m d k c a z r h0 : minv m -> dinv d -> Dist m d -> mok k -> nth_error (keys m) r = Some k ->
  nth_error aggs c = Some a -> adistinct a = true -> i64 z ->
  (forall l, NoDup l -> (forall x, In x l <-> dget d (dkey k x c) <> None) -> (Z.of_nat (length l) < 2 ^ 31)%Z) ->
  h0 = 0%Z \/ h0 = keys_hash (dkey k z c) ->
  exists rd ex d1, set_upsert eqb keys_hash tt d (dkey k z c) h0 = Some (rd, ex, d1) /\ dinv d1 /\
    (forall x, dok x -> (dget d1 x <> None <-> x = dkey k z c \/ dget d x <> None)) /\
    (ex = true <-> dget d (dkey k z c) <> None) /\
    let m' := if ex : bool then m else set_update m r (fun l => upd_col l c (fun s => agg_compute (atype a) s z)) in
    Dist m' d1 /\ same_plain m m' /\ keys m' = keys m.
Proof.
  intros I I2 D Hk Hr Ha Hd Hz Bd Hh.
  destruct (upsert_get eqb keys_hash tt dok EQd d (dkey k z c) h0 I2 (dkey_ok n k z c Hk) Hh) as (rd & ex & d1 & E & I3 & _ & Hex & G & Go).
  exists rd, ex, d1. split; [exact E|]. split; [exact I3|].
  assert (forall x, dok x -> (dget d1 x <> None <-> x = dkey k z c \/ dget d x <> None)) as DS.
  { intros x Hx. destruct (key_eq_dec x (dkey k z c)) as [->|N].
    - rewrite G. split; [auto|discriminate].
    - rewrite Go by auto. tauto. }
  split; [exact DS|]. split; [exact Hex|]. cbv zeta. destruct ex.
  - split; [|split; [now apply same_plain_refl|reflexivity]].
    intros k' st Hk' Gk col a' Ha' Hd'. destruct (D k' st Hk' Gk col a' Ha' Hd') as (l & N1 & N2 & N3).
    exists l. split; [exact N1|]. split; [exact N2|]. intros x. rewrite N3, DS by now apply dkey_ok.
    split; [auto|]. intros [->|Q]; [now apply Hex|exact Q].
  - set (f := fun l => upd_col l c (fun s => agg_compute (atype a) s z)).
    destruct (update_get eqb keys_hash mok EQm m r f k I Hr) as [Gm Gmo].
    assert (dget d (dkey k z c) = None) as Nd.
    { destruct (dget d (dkey k z c)) eqn:E0; [|reflexivity]. assert (false = true) by (apply Hex; discriminate). discriminate. }
    split; [|split; [|apply update_keys]].
    + intros k' st Hk' Gk col a' Ha' Hd'. destruct (key_eq_dec k k') as [<-|N].
      * rewrite Gm in Gk. destruct (mget m k) as [st0|] eqn:E0; [|discriminate]. cbn in Gk. injection Gk as <-.
        destruct (D k st0 Hk E0 col a' Ha' Hd') as (l & N1 & N2 & N3). unfold f. rewrite upd_col_nth.
        destruct (Nat.eqb_spec col c) as [->|Nc].
        { assert (a' = a) as -> by congruence. exists (l ++ [z]). split; [|split].
          - rewrite N1. cbn. f_equal. apply compute_spec; [exact Hz|]. now apply Bd.
          - assert (~ In z l) as NI by (rewrite N3; congruence).
            apply (Permutation_NoDup (Permutation_cons_append l z)). now constructor.
          - intros x. rewrite in_app_iff, N3, DS by now apply dkey_ok. cbn. split.
            + intros [Q|[->|[]]]; auto.
            + intros [Q|Q]; [|auto]. apply dkey_inj in Q as (_ & -> & _); [|reflexivity]. auto. }
        { exists l. split; [exact N1|]. split; [exact N2|]. intros x. rewrite N3, DS by now apply dkey_ok.
          split; [auto|]. intros [Q|Q]; [|exact Q]. apply dkey_inj in Q as (_ & _ & ?); [congruence|reflexivity]. }
      * rewrite Gmo in Gk by auto. destruct (D k' st Hk' Gk col a' Ha' Hd') as (l & N1 & N2 & N3).
        exists l. split; [exact N1|]. split; [exact N2|]. intros x. rewrite N3, DS by now apply dkey_ok.
        split; [auto|]. intros [Q|Q]; [|exact Q]. apply dkey_inj in Q as (? & _ & _); [congruence|]. destruct Hk, Hk'; congruence.
    + split; [now apply update_inv|]. intros k' Hk'. destruct (key_eq_dec k k') as [<-|N].
      * rewrite Gm. split; [destruct (mget m k); cbn; split; congruence|]. intros st' H.
        destruct (mget m k) as [st0|] eqn:E0; [|discriminate]. cbn in H. injection H as <-. exists st0. split; [reflexivity|].
        split; [apply upd_col_length|]. intros col a' Ha' Hd'. unfold f. rewrite upd_col_nth.
        destruct (Nat.eqb_spec col c) as [->|]; [congruence|reflexivity].
      * rewrite Gmo by auto. split; [tauto|]. intros st' H. exists st'. auto.
Qed.

Lemma step_col_distinct m d R k vs c z a r : Rel (m, d) (R ++ [(k, firstn c vs)]) -> small (R ++ [(k, [])]) -> mok k ->
  nth_error (keys m) r = Some k -> nth_error vs c = Some (VInt z) -> i64 z -> nth_error aggs c = Some a -> adistinct a = true ->
  exists rd ex d1, set_upsert eqb keys_hash tt d (dkey k z c) 0 = Some (rd, ex, d1) /\
    let m' := if ex : bool then m else set_update m r (fun l => upd_col l c (fun s => agg_compute (atype a) s z)) in
    Rel (m', d1) (R ++ [(k, firstn (S c) vs)]) /\ nth_error (keys m') r = Some k.
Proof.
  intros (M & D & (I2 & S)) Sm Hk Hr Hv Hz Ha Hd. cbn [fst snd] in *.
  pose proof (vals_next R k vs c (VInt z) Hv) as V.
  assert (forall x, dget d (dkey k x c) <> None <-> In x (vals (R ++ [(k, firstn c vs)]) k c)) as DV.
  { intros x. rewrite S by now apply dkey_ok. split.
    - intros (k1 & z1 & c1 & a1 & H1 & H2 & H3 & H4 & H5). apply dkey_inj in H2 as (<- & <- & <-); [exact H5|]. destruct Hk, H1; congruence.
    - intros H. exists k, x, c, a. auto. }
  destruct (dist_add m d k c a z r 0%Z (proj1 M) I2 D Hk Hr Ha Hd Hz) as (rd & ex & d1 & E & I3 & DS & Hex & D' & SP & KE).
  { intros l N1 N2. assert (length l <= length R) as L.
    - assert (length (vals (R ++ [(k, firstn c vs)]) k c) <= length R) as LR.
      { rewrite vals_app, app_length. pose proof (vals_length R k c). assert (vals [(k, firstn c vs)] k c = []) as ->; [|cbn; lia].
        unfold vals. cbn. destruct (key_eq_dec k k); [|reflexivity].
        rewrite (proj2 (nth_error_None (firstn c vs) c)); [reflexivity|]. rewrite firstn_length. lia. }
      pose proof (NoDup_incl_length N1 (l' := vals (R ++ [(k, firstn c vs)]) k c)) as Q. apply Nat.le_trans with (2 := LR). apply Q.
      intros x Hx. apply DV. now apply N2.
    - unfold small in Sm. rewrite app_length in Sm. cbn in Sm. lia. }
  { now left. }
  exists rd, ex, d1. split; [exact E|]. cbv zeta in *. split; [|exact (eq_trans (f_equal (fun l => nth_error l r) KE) Hr)].
  split; [|split]; cbn [fst snd].
  - eapply Main_ext; [exact M|exact SP| |].
    + intros k' _. rewrite !map_app. reflexivity.
    + intros k' col a' Ha' Hd'. rewrite V. destruct (key_eq_dec k k'); [|now rewrite app_nil_r].
      destruct (Nat.eqb_spec col c) as [->|]; [congruence|now rewrite app_nil_r].
  - exact D'.
  - split; [exact I3|]. intros dk Hdk. rewrite DS, S by exact Hdk. split.
    + intros [->|(k1 & z1 & c1 & a1 & H1 & H2 & H3 & H4 & H5)].
      * exists k, z, c, a. split; [exact Hk|]. split; [reflexivity|]. split; [exact Ha|]. split; [exact Hd|].
        rewrite V. destruct (key_eq_dec k k); [|congruence]. rewrite Nat.eqb_refl. apply in_or_app. right. now left.
      * exists k1, z1, c1, a1. split; [exact H1|]. split; [exact H2|]. split; [exact H3|]. split; [exact H4|].
        rewrite V. apply in_or_app. now left.
    + intros (k1 & z1 & c1 & a1 & H1 & H2 & H3 & H4 & H5). rewrite V in H5. apply in_app_or in H5 as [H5|H5].
      * right. exists k1, z1, c1, a1. auto.
      * destruct (key_eq_dec k k1) as [<-|]; [|destruct H5]. destruct (Nat.eqb_spec c1 c) as [->|]; [|destruct H5].
        destruct H5 as [<-|[]]. left. exact H2.
Qed.
Lemma step_col_null md R k vs c : nth_error vs c = Some VNull -> Rel md (R ++ [(k, firstn c vs)]) -> Rel md (R ++ [(k, firstn (S c) vs)]).
Proof.
  intros Hv. apply Rel_vals.
  - intros k' _. rewrite !map_app. reflexivity.
  - intros k' col. rewrite (vals_next R k vs c VNull Hv). destruct (key_eq_dec k k'); [|now rewrite app_nil_r].
    destruct (col =? c); now rewrite app_nil_r.
Qed.

Lemma agg_write_ok R k vs r : small (R ++ [(k, [])]) -> mok k -> length vs = length aggs ->
  Forall (fun v => v = VNull \/ exists z, v = VInt z /\ i64 z) vs ->
  forall c as' vs' m d, skipn c aggs = as' -> skipn c vs = vs' -> nth_error (keys m) r = Some k ->
  Rel (m, d) (R ++ [(k, firstn c vs)]) ->
  exists md, agg_write mag as' vs' c m d r = Ok md /\ Rel md (R ++ [(k, vs)]).
Proof.
  intros Sm Hk L F c as'; revert c. induction as' as [|a as' IH]; intros c vs' m d Ea Ev Hr HR.
  - assert (length aggs <= c) as LC by (apply (f_equal (@length _)) in Ea; rewrite skipn_length in Ea; cbn in Ea; lia).
    exists (m, d). split; [destruct vs'; reflexivity|]. rewrite firstn_all2 in HR by lia. exact HR.
  - assert (c < length aggs) as LC by (apply (f_equal (@length _)) in Ea; rewrite skipn_length in Ea; cbn in Ea; lia).
    destruct vs' as [|v vs']; [apply (f_equal (@length _)) in Ev; rewrite skipn_length in Ev; cbn in Ev; lia|].
    assert (forall X (l : list X) c x r, skipn c l = x :: r -> nth_error l c = Some x /\ skipn (S c) l = r) as SK.
    { clear. intros X l. induction l as [|y l IH]; intros [|c] x r H; cbn in *; try discriminate.
      - injection H as -> ->. auto.
      - now apply IH. }
    destruct (SK _ _ _ _ _ Ea) as [Na Ea']. destruct (SK _ _ _ _ _ Ev) as [Nv Ev'].
    pose proof (proj1 (Forall_forall _ _) F v (nth_error_In _ _ Nv)) as [->|(z & -> & Hz)].
    + cbn [agg_write]. apply IH; auto. now apply step_col_null.
    + cbn [agg_write int_of bind]. destruct (adistinct a) eqn:Hd.
      * rewrite (keys_row_of m r k Hr). cbn [lift bind].
        destruct (step_col_distinct m d R k vs c z a r HR Sm Hk Hr Nv Hz Na Hd) as (rd & ex & d1 & E & HR' & Hr').
        change (k ++ [VInt z; VInt (Z.of_nat c)]) with (dkey k z c). rewrite E. cbn [lift bind]. cbv zeta in HR', Hr'.
        destruct ex; apply IH; auto.
      * apply IH; auto.
        { now rewrite update_keys. }
        { now apply step_col_plain. }
Qed.

Lemma agg_row_ok R md row : Rel md R -> small (R ++ [row]) -> scan_row_ok aggs n row ->
  exists md', agg_row mag aggs md row = Ok md' /\ Rel md' (R ++ [row]).
Proof.
  destruct md as [m d], row as [k vs]. intros HR Sm (Hk & L & F). cbn [fst snd] in *. unfold agg_row. cbn [fst snd].
  destruct (step_key m d R k HR Hk) as (r & ex & m1 & E & Hr & HR1). rewrite E. cbn [lift bind].
  apply (agg_write_ok R k vs r); auto.
  unfold small in *. rewrite app_length in *. exact Sm.
Qed.
Lemma agg_scan_ok rows : forall R md, Rel md R -> small (R ++ rows) -> Forall (scan_row_ok aggs n) rows ->
  exists md', agg_scan mag aggs md rows = Ok md' /\ Rel md' (R ++ rows).
Proof.
  induction rows as [|row rows IH]; intros R md HR Sm F; cbn [agg_scan].
  - exists md. rewrite app_nil_r. auto.
  - destruct (agg_row_ok R md row HR) as (md1 & E & HR1).
    { unfold small in *. rewrite app_length in *. cbn in *. lia. }
    { exact (Forall_inv F). }
    rewrite E. cbn [bind]. destruct (IH (R ++ [row]) md1 HR1) as (md2 & E2 & HR2).
    { rewrite <- app_assoc. exact Sm. }
    { exact (Forall_inv_tail F). }
    exists md2. split; [exact E2|]. rewrite <- app_assoc in HR2. exact HR2.
Qed.
End I.
