(** Properties C08, C31, C32 and C67: rows, keys and partitions. *)
From Coq Require Import Permutation.
From Verif Require Import Base OrderLib JsonModel JsonSpec JsonProofs JsonOrder.
From Verif Require Import RowModel RowSpec RowProofs RowKeys RowMap.

(** ** every row reads back *)
Lemma meant_eff cols refs vals generated identity : length vals = length cols -> one_identity cols -> Forall (ref_ok refs) vals ->
  Forall2 fits cols (meant_row refs generated cols vals) -> Forall column_ok cols ->
  row_get_identity (first_identity cols 0) refs vals generated = Ok identity ->
  meant_row refs generated cols vals = map (fun cv => eff refs (Some identity) (fst cv) (snd cv)) (combine cols vals).
Proof.
  intros Len One Hr Hf Hc Hi. unfold meant_row. apply map_ext_in. intros [c v] Hin. cbn [fst snd]. unfold meant, eff. destruct (c_identity c) eqn:Ei; [|destruct v; try reflexivity; cbn [nth]; now destruct (nth i refs DNull)].
  assert (Hpos : exists i, nth_error cols i = Some c /\ nth_error vals i = Some v).
  { clear -Hin. revert vals Hin. induction cols as [|a cols IH]; intros [|b vals] H; cbn in H; try contradiction. destruct H as [H|H]; [injection H as -> ->; now exists 0%nat|]. destruct (IH _ H) as (i & A & B). now exists (S i). }
  destruct Hpos as (i & Ec & Ev).
  assert (Fi : first_identity cols 0 = Some i).
  { clear -One Ec Ei. assert (G : forall cols i o, (length (filter c_identity cols) <= 1)%nat -> nth_error cols i = Some c -> first_identity cols o = Some (o + i)%nat).
    { clear One Ec. intros l. induction l as [|a l IH]; intros j o H E; destruct j as [|j]; cbn [nth_error first_identity filter] in *; try discriminate.
      - injection E as ->. rewrite Ei. f_equal. lia.
      - destruct (c_identity a); [|rewrite (IH j (S o)) by assumption; f_equal; lia]. exfalso. cbn [length] in H. assert (X : In c (filter c_identity l)) by (apply filter_In; split; [eapply nth_error_In; eassumption|exact Ei]). destruct (filter c_identity l); [contradiction|cbn in H; lia]. }
    apply (G cols i 0%nat One Ec). }
  rewrite Fi in Hi. cbn [row_get_identity] in Hi. rewrite Ev in Hi. cbn [bind] in Hi. destruct (deref_ok refs v) as (x & Ed & Ex & Nx). { rewrite Forall_forall in Hr. apply Hr. eapply nth_error_In; eassumption. }
  rewrite Ed in Hi. cbn [bind] in Hi. rewrite <- Ex. destruct x; cbn [bind] in Hi; try discriminate; congruence.
Qed.
Lemma F2_map_combine {A B} (P : A -> B -> Prop) (f : A * B -> B) : forall l m, Forall2 P l (map f (combine l m)) -> length m = length l -> Forall2 (fun a b => P a (f (a, b))) l m.
Proof. induction l as [|a l IH]; intros [|b m] H L; cbn in *; try discriminate; [constructor|]. inversion H; subst. constructor; [assumption|]. apply IH; [assumption|congruence]. Qed.
Lemma insert_row mem cols refs vals generated identity : heap_ok mem -> insert_ok cols refs vals generated -> row_get_identity (first_identity cols 0) refs vals generated = Ok identity ->
  exists row, row_create mem cols vals refs (Some identity) = Ok row /\ Row cols (meant_row refs generated cols vals) row /\ row_size row = Ok (zlen row).
Proof.
  intros Hm (Len & Hc & One & Hr & Hf & Sm) Hi. pose proof (meant_eff cols refs vals generated identity Len One Hr Hf Hc Hi) as E. pose proof (F2_map_combine _ _ _ _ Hf Len) as Hf0. rewrite E in *.
  apply create_row; try assumption; [discriminate|]. apply F2_map_combine in Hf; [|exact Len]. cbn [fst snd] in Hf.
  assert (Hn : exists z, identity = DInt z) by (unfold row_get_identity in Hi; destruct (first_identity cols 0); [|injection Hi as <-; eexists; reflexivity]; destruct (nth_error vals n); [|discriminate]; cbn [bind] in Hi; destruct (deref refs d); cbn [bind] in Hi; try discriminate; destruct a; try discriminate; injection Hi as <-; eexists; reflexivity).
  clear -Hf Hn. induction Hf as [|c v l m H _ IH]; constructor; [|exact IH]. split; [exact H|]. intros Ei. unfold eff. rewrite Ei. destruct Hn as (z & ->). discriminate.
Qed.
Lemma identity_total cols refs vals generated : insert_ok cols refs vals generated -> exists identity, row_get_identity (first_identity cols 0) refs vals generated = Ok identity.
Proof.
  intros (Len & Hc & One & Hr & Hf & Sm). destruct (first_identity cols 0) as [i|] eqn:Fi; [|eexists; reflexivity].
  assert (G : forall l o i, first_identity l o = Some i -> exists c, (o <= i)%nat /\ nth_error l (i - o) = Some c /\ c_identity c = true).
  { induction l as [|a l IH]; intros o j H; cbn [first_identity] in H; [discriminate|]. destruct (c_identity a) eqn:Ea; [injection H as ->; exists a; rewrite Nat.sub_diag; split; [lia|split; [reflexivity|exact Ea]]|].
    destruct (IH _ _ H) as (c & L & E & I). exists c. split; [lia|]. split; [|exact I]. replace (j - o)%nat with (S (j - S o)) by lia. exact E. }
  destruct (G _ _ _ Fi) as (c & _ & Ec & Ei). rewrite Nat.sub_0_r in Ec. cbn [row_get_identity]. destruct (nth_error vals i) as [v|] eqn:Ev; cycle 1. { apply nth_error_None in Ev. apply nth_error_len in Ec. lia. }
  cbn [bind]. destruct (deref_ok refs v) as (x & Ed & Ex & Nx). { rewrite Forall_forall in Hr. apply Hr. eapply nth_error_In; eassumption. }
  rewrite Ed. cbn [bind]. destruct x; try (eexists; reflexivity); exfalso;
  (apply F2_map_combine in Hf; [|exact Len]; assert (F : fits c (meant refs generated c v));
    [clear -Hf Ec Ev; revert i vals Hf Ec Ev; induction cols as [|a cols IH]; intros i vals Hf Ec Ev; destruct i as [|i]; cbn in Ec; try discriminate; inversion Hf as [|? ? ? ? F1 F2]; subst; cbn in Ev; [injection Ec as <-; injection Ev as <-; exact F1|eapply IH; eassumption]
    |rewrite Forall_forall in Hc; destruct (Hc c (nth_error_In _ _ Ec)) as [_ T]; destruct (T Ei) as [T1 _]; unfold meant in F; rewrite <- Ex in F; destruct F as [[? _]|F]; [discriminate|]; unfold holds in F; rewrite T1 in F; exact F]).
Qed.
Lemma update_can cols vs ups sorted : update_ok cols vs ups -> sort_updates ups [] = Some sorted -> length vs = length cols ->
  ascending 0 sorted /\ can_set cols sorted /\ updated vs sorted = updated vs ups.
Proof.
  intros [Hu _] Hs Len. destruct (sort_updates_ok ups [] sorted) as (A & _ & F); [eapply Forall_impl; [|exact Hu]; cbn; tauto|constructor|exact Hs|]. cbn [assoc] in F.
  split; [exact A|]. split.
  - intros i c v Ec Ea. rewrite F in Ea. clear -Hu Ec Ea. induction ups as [|[o u] ups IH]; [discriminate|]. inversion Hu as [|? ? (H0 & c' & Ec' & Hi & Hf) Hu']; subst. cbn [fst snd assoc] in *.
    destruct (Z.eqb_spec o (Z.of_nat i)) as [-> |N]; [|now apply IH]. rewrite Nat2Z.id in Ec'. rewrite Ec in Ec'. injection Ec' as <-. injection Ea as <-. auto.
  - apply (upd_from_ext 0). intros j _. apply F.
Qed.
Lemma updated_fits cols vs ups : Forall2 fits cols vs -> update_ok cols vs ups -> Forall2 fits cols (updated vs ups).
Proof.
  intros Hf [Hu _]. assert (G : forall cols' vs' i, Forall2 fits cols' vs' -> (forall j c, nth_error cols' j = Some c -> nth_error cols (i + j) = Some c) -> Forall2 fits cols' (upd_from i vs' ups)).
  { clear Hf. induction cols' as [|c cols' IH]; intros vs' i H Hn; inversion H as [|? ? ? ? H1 H2]; subst; [constructor|]. unfold upd_from. cbn [length seq combine map fst snd]. constructor.
    - destruct (assoc (Z.of_nat i) ups) as [v|] eqn:Ea; [|exact H1]. specialize (Hn 0%nat c eq_refl). rewrite Nat.add_0_r in Hn. clear -Hu Ea Hn. induction ups as [|[o u] ups IH]; [discriminate|]. inversion Hu as [|? ? (H0 & c' & Ec' & Hi & Hf) Hu']; subst. cbn [fst snd assoc] in *.
      destruct (Z.eqb_spec o (Z.of_nat i)) as [-> |N]; [|now apply IH]. rewrite Nat2Z.id in Ec'. congruence.
    - apply IH; [exact H2|]. intros j c0 Hj. rewrite plus_Sn_m, plus_n_Sm. apply Hn. exact Hj. }
  apply (G cols vs 0%nat Hf). auto.
Qed.
Lemma made_row cols vs row : made cols vs row -> Row cols vs row /\ row_size row = Ok (zlen row) /\ Forall2 fits cols vs /\ Forall column_ok cols.
Proof.
  induction 1 as [mem cols refs vals generated identity row Hm Hi Hid E|mem cols vs src ups sorted row Hm _ (R & _ & F & C) Hu Hs E|cols vs row c _ (R & S & F & C) Hc Hn One].
  - destruct (insert_row mem cols refs vals generated identity Hm Hi Hid) as (row' & E' & R & S). rewrite E in E'. injection E' as <-. destruct Hi as (_ & Hc & _ & _ & Hf & _). auto.
  - assert (Len : length vs = length cols) by (symmetry; apply (F2_len F)). destruct (update_can cols vs ups sorted Hu Hs Len) as (A & Cs & U).
    destruct (update_row mem src cols vs sorted Hm R C A Cs) as (row' & E' & R' & S'); [rewrite U; apply Hu|]. rewrite E in E'. injection E' as <-. rewrite U in R'. split; [exact R'|]. split; [exact S'|]. split; [now apply updated_fits|exact C].
  - split; [now apply row_extend|]. split; [exact S|]. split; [|apply Forall_app; split; [exact C|now constructor]]. apply Forall2_app; [exact F|]. constructor; [left; auto|constructor].
Qed.

(** C31: whatever the history of a row, each of its columns reads back the value that the user gave,
    NULL or the generated identity included; the size kept in the row is its length.
    Partial: for values that fit the columns; see C31_int_refuted, C31_float_refuted,
    C31_update_identity_refuted *)
Theorem C31_partial cols vs row : made cols vs row ->
  length vs = length cols /\ row_size row = Ok (zlen row) /\
  forall i c v, nth_error cols i = Some c -> nth_error vs i = Some v -> row_read row c (Z.of_nat i) = Ok v.
Proof.
  intros H. destruct (made_row cols vs row H) as (R & S & F & _). split; [symmetry; apply (F2_len F)|]. split; [exact S|]. intros i c v. now apply row_reads.
Qed.
Print Assumptions C31_partial.
(** INSERT and UPDATE never fail, and never read or write outside of the row, for values that fit *)
Theorem C31_insert_partial mem cols refs vals generated : heap_ok mem -> insert_ok cols refs vals generated ->
  exists identity row, row_get_identity (first_identity cols 0) refs vals generated = Ok identity /\ row_create mem cols vals refs (Some identity) = Ok row.
Proof. intros Hm Hi. destruct (identity_total _ _ _ _ Hi) as (i & Ei). destruct (insert_row mem _ _ _ _ _ Hm Hi Ei) as (row & E & _). eauto. Qed.
Print Assumptions C31_insert_partial.
Theorem C31_update_partial mem cols vs src ups : heap_ok mem -> made cols vs src -> update_ok cols vs ups ->
  (NoDup (map fst ups) -> exists sorted, sort_updates ups [] = Some sorted) /\
  forall sorted, sort_updates ups [] = Some sorted -> exists row, row_update mem src cols sorted = Ok row.
Proof.
  intros Hm H Hu. destruct (made_row _ _ _ H) as (R & _ & F & C). split.
  - destruct Hu as [Hu _]. assert (G : forall ups acc, Forall (fun u => 0 <= fst u) ups -> NoDup (map fst ups) -> ascending 0 acc -> (forall u, In u ups -> assoc (fst u) acc = None) -> exists s, sort_updates ups acc = Some s).
    { clear. induction ups as [|u ups IH]; intros acc Hp Nd A N; [eexists; reflexivity|]. cbn [sort_updates]. inversion Hp as [|? ? P1 P2]; subst. cbn [map] in Nd. inversion Nd as [|? ? N1 N2]; subst. pose proof (sort_insert_ok u acc 0 A P1) as S.
      destruct (sort_insert u acc) as [acc'|]; [|destruct S; apply N; now left]. destruct S as (A' & _ & Fa). apply IH; try assumption. intros w Hw. rewrite Fa. destruct (Z.eqb_spec (fst u) (fst w)) as [E|_]; [|apply N; now right]. destruct N1. rewrite E. now apply in_map. }
    intros Nd. apply (G ups []); [eapply Forall_impl; [|exact Hu]; cbn; tauto|exact Nd|constructor|reflexivity].
  - intros sorted Hs. assert (Len : length vs = length cols) by (symmetry; apply (F2_len F)). destruct (update_can cols vs ups sorted Hu Hs Len) as (A & Cs & U).
    destruct (update_row mem src cols vs sorted Hm R C A Cs) as (row' & E' & _); [rewrite U; apply Hu|]. eauto.
Qed.
Print Assumptions C31_update_partial.

(** NOT NULL: a NULL for a column that does not allow it is an error *)
Definition relax (c : column) : column := mkcol (c_type c) (c_size c) (c_identity c) false.
Lemma data_size_relax refs : forall cols vals, data_size (map relax cols) vals refs = data_size cols vals refs.
Proof. induction cols as [|c cols IH]; intros [|v vals]; cbn [map data_size]; try reflexivity. rewrite IH. reflexivity. Qed.
Lemma encode_relax c v refs identity x : value_data_encode v (relax c) refs identity = Ok x ->
  value_data_encode v c refs identity = (match x with None => if c_not_null c then Err else Ok None | Some bs => Ok (Some bs) end).
Proof.
  unfold value_data_encode, relax. cbn [c_type c_size c_identity c_not_null]. destruct (deref refs v) as [d| |]; cbn [bind]; try discriminate.
  destruct (if c_identity c then match identity with Some i => Ok i | None => UB end else Ok d) as [w| |]; cbn [bind]; try discriminate.
  destruct w; try (intros E; injection E as <-; reflexivity); intros E; rewrite E; destruct x as [bs|]; try reflexivity;
    exfalso; destruct (c_type c); try discriminate; repeat (match type of E with context [if ?b then _ else _] => destruct b end; try discriminate).
Qed.
Lemma create_loop_relax refs identity : forall cols vals row pos i r,
  create_loop row pos i (map relax cols) vals refs identity = Ok r ->
  (exists c v, In (c, v) (combine cols vals) /\ c_not_null c = true /\ value_data_encode v (relax c) refs identity = Ok None) ->
  create_loop row pos i cols vals refs identity = Err.
Proof.
  induction cols as [|c cols IH]; intros [|v vals] row pos i r H (c0 & v0 & Hin & Hn & He); cbn [map create_loop combine] in *; try contradiction.
  destruct (value_data_encode v (relax c) refs identity) as [x| |] eqn:E; cbn [bind] in H; try discriminate. rewrite (encode_relax _ _ _ _ _ E).
  destruct Hin as [Hin|Hin].
  - injection Hin as -> ->. rewrite E in He. injection He as ->. rewrite Hn. reflexivity.
  - destruct x as [bs|]; cbn [bind].
    + destruct (poke row pos bs); cbn [bind] in *; try discriminate. destruct (row_set a i pos); cbn [bind] in *; try discriminate. eapply IH; [exact H|]. exists c0, v0. auto.
    + destruct (c_not_null c); [reflexivity|]. cbn [bind]. destruct (row_set row i 0); cbn [bind] in *; try discriminate. eapply IH; [exact H|]. exists c0, v0. auto.
Qed.
Theorem C31_not_null_partial mem cols refs vals generated : heap_ok mem -> insert_ok (map relax cols) refs vals generated ->
  (exists i c, nth_error cols i = Some c /\ c_not_null c = true /\ nth_error (meant_row refs generated cols vals) i = Some DNull) ->
  exists identity, row_get_identity (first_identity cols 0) refs vals generated = Ok identity /\ row_create mem cols vals refs (Some identity) = Err.
Proof.
  intros Hm Hi (i & c & Ec & Hn & Ev). destruct (identity_total _ _ _ _ Hi) as (identity & Ei). destruct (insert_row mem _ _ _ _ _ Hm Hi Ei) as (row & E & _).
  assert (FI : forall l o, first_identity (map relax l) o = first_identity l o) by (induction l as [|a l IH]; intros o; cbn [map first_identity relax c_identity]; [reflexivity|]; destruct (c_identity a); auto).
  rewrite FI in Ei. exists identity. split; [exact Ei|]. unfold row_create in *. rewrite data_size_relax in E. rewrite map_length in E. destruct (data_size cols vals refs); cbn [bind] in *; try discriminate.
  destruct (row_allocate mem _ a); cbn [bind] in *; try discriminate. destruct (row_data a0 _); cbn [bind] in *; try discriminate. eapply create_loop_relax; [exact E|].
  destruct Hi as (Len & Hc & One & Hr & Hf & _). rewrite map_length in Len.
  assert (Hv : exists v, nth_error vals i = Some v) by (destruct (nth_error vals i) eqn:X; [eauto|]; apply nth_error_None in X; apply nth_error_len in Ec; lia). destruct Hv as (v & Hv).
  assert (Hin : In (c, v) (combine cols vals)) by (clear -Ec Hv; revert i vals Ec Hv; induction cols as [|a cols IH]; intros [|i] [|b vals] Ec Hv; cbn in *; try discriminate; [left; congruence|right; eapply IH; eassumption]).
  exists c, v. split; [exact Hin|]. split; [exact Hn|].
  assert (M : meant refs generated c v = DNull). { unfold meant_row in Ev. rewrite nth_error_map in Ev. assert (X : nth_error (combine cols vals) i = Some (c, v)) by (clear -Ec Hv; revert i vals Ec Hv; induction cols as [|a cols IH]; intros [|i] [|b vals] Ec Hv; cbn in *; try discriminate; [congruence|now apply IH]). rewrite X in Ev. cbn in Ev. congruence. }
  destruct (deref_ok refs v) as (x & Ed & Ex & Nx). { rewrite Forall_forall in Hr. apply Hr. eapply nth_error_In; eassumption. }
  unfold meant in M. rewrite <- Ex in M. unfold value_data_encode. rewrite Ed. cbn [bind relax c_identity]. destruct x; try discriminate. destruct (c_identity c); [discriminate|]. reflexivity.
Qed.
Print Assumptions C31_not_null_partial.

(** witnesses *)
Definition zeros (n : Z) : list Z := repeat 0 (Z.to_nat n).
Lemma zeros_ok : heap_ok zeros.
Proof. intros n Hn. unfold zlen, zeros. rewrite repeat_length. lia. Qed.
Definition t1 : list column :=
  [mkcol TInt 8 true true; mkcol TString 0 false false; mkcol TInt 4 false true; mkcol TDouble 4 false false; mkcol TTimestamp 8 false false].
Definition v1 : list dval := [DNull; DRef 0; DInt (-7); DDouble 4609434218613702656; DNull].
Lemma v1_ok : insert_ok t1 [DString [104; 105]] v1 42.
Proof.
  assert (C : Forall column_ok t1) by (unfold t1; repeat (apply Forall_cons; [split; [cbn; tauto|cbn; intros; try discriminate; auto]|]); constructor).
  split; [reflexivity|]. split; [exact C|]. split; [vm_compute; lia|]. split; [|split].
  - unfold v1. repeat constructor. exists (DString [104; 105]). split; [reflexivity|discriminate].
  - unfold meant_row, t1, v1. cbn [combine map fst snd meant nth c_identity]. repeat apply Forall2_cons; try apply Forall2_nil; unfold fits, holds; cbn [c_type c_size c_not_null Z.eqb Pos.eqb]; [right; unfold signed; lia|right; reflexivity|right; unfold signed; lia|right|left; auto].
    exists 1069547520. split; [unfold float_bits; lia|reflexivity].
  - vm_compute. split; congruence.
Qed.
Example C31_nonvacuous : exists row row', made t1 (meant_row [DString [104; 105]] 42 t1 v1) row /\
  made (t1 ++ [mkcol TVector 0 false false]) [DInt 42; DString [1]; DInt (-7); DNull; DNull; DVector [5; 6]] row'.
Proof.
  destruct (C31_insert_partial zeros t1 _ _ _ zeros_ok v1_ok) as (identity & row & Ei & Er).
  pose proof (made_insert zeros t1 _ _ _ identity row zeros_ok v1_ok Ei Er) as M.
  assert (C : column_ok (mkcol TVector 0 false false)) by (split; cbn; [reflexivity|discriminate]).
  pose proof (made_add _ _ _ (mkcol TVector 0 false false) M C eq_refl ltac:(vm_compute; lia)) as M2.
  set (cols := t1 ++ [mkcol TVector 0 false false]) in *. set (vs := meant_row _ 42 t1 v1 ++ [DNull]) in *.
  assert (U : update_ok cols vs [(5, DVector [5; 6]); (1, DString [1]); (3, DNull)]).
  { split; [|vm_compute; split; congruence]. repeat constructor; cbn [fst snd]; try lia; eexists; (split; [reflexivity|]); (split; [reflexivity|]); unfold fits, holds; cbn.
    - right. split; [repeat constructor; lia|lia].
    - right. reflexivity.
    - left. auto. }
  destruct (C31_update_partial zeros cols vs row _ zeros_ok M2 U) as [_ H]. destruct (H _ eq_refl) as (row' & E).
  exists row, row'. split; [exact M|]. exact (made_update zeros cols vs row _ _ row' zeros_ok M2 U eq_refl E).
Qed.

(** C31 is false for a value that the width of an int column does not hold: it is stored truncated,
    without an error (value_data.h:75-99) *)
Theorem C31_int_refuted : exists mem c row, heap_ok mem /\ column_ok c /\ c_type c = TInt /\
  row_create mem [c] [DInt 300] [] (Some (DInt 0)) = Ok row /\ row_read row c 0 = Ok (DInt 44).
Proof.
  exists zeros, (mkcol TInt 1 false false). eexists. split; [exact zeros_ok|]. split; [split; [cbn; auto|discriminate]|]. split; [reflexivity|]. split; [vm_compute; reflexivity|vm_compute; reflexivity].
Qed.
Print Assumptions C31_int_refuted.
(** ... for a double in a 4 byte column: 0.1 reads back as 0.100000001490116... *)
Theorem C31_float_refuted : exists mem c row, heap_ok mem /\ column_ok c /\ c_type c = TDouble /\
  row_create mem [c] [DDouble 4591870180066957722] [] (Some (DInt 0)) = Ok row /\ row_read row c 0 = Ok (DDouble 4591870180174331904).
Proof.
  exists zeros, (mkcol TDouble 4 false false). eexists. split; [exact zeros_ok|]. split; [split; [cbn; auto|discriminate]|]. split; [reflexivity|]. split; [vm_compute; reflexivity|vm_compute; reflexivity].
Qed.
Print Assumptions C31_float_refuted.
(** ... and an UPDATE of an identity column that is not a key (ALTER TABLE ADD COLUMN c SERIAL)
    dereferences a NULL pointer: row.c:248 calls value_data_encode without an identity *)
Theorem C31_update_identity_refuted : exists mem cols vs row, heap_ok mem /\ made cols vs row /\
  sort_updates [(1, DInt 5)] [] = Some [(1, DInt 5)] /\ row_update mem row cols [(1, DInt 5)] = UB.
Proof.
  set (k := mkcol TInt 8 false true). set (s := mkcol TInt 8 true false).
  assert (I : insert_ok [k] [] [DInt 1] 0).
  { split; [reflexivity|]. split; [constructor; [split; [cbn; auto|discriminate]|constructor]|]. split; [vm_compute; lia|]. split; [repeat constructor|]. split; [|vm_compute; split; congruence].
    cbn. constructor; [right; unfold holds; cbn; unfold signed; lia|constructor]. }
  set (row := match row_create zeros [k] [DInt 1] [] (Some (DInt 0)) with Ok r => r | _ => [] end).
  pose proof (made_insert zeros [k] [] [DInt 1] 0 (DInt 0) row zeros_ok I eq_refl ltac:(vm_compute; reflexivity)) as M.
  pose proof (made_add _ _ _ s M ltac:(split; [cbn; auto|intros _; split; [reflexivity|cbn; auto]]) eq_refl ltac:(vm_compute; lia)) as M2.
  exists zeros, ([k] ++ [s]), (meant_row [] 0 [k] [DInt 1] ++ [DNull]), row. split; [exact zeros_ok|]. split; [exact M2|]. split; [reflexivity|]. vm_compute. reflexivity.
Qed.
Print Assumptions C31_update_identity_refuted.

(** ** keys *)
Lemma made_keyed cols ks vs row : made cols vs row -> key_ok cols ks -> keyed cols ks vs.
Proof.
  intros M K k Hk. destruct (made_row _ _ _ M) as (_ & _ & F & _). destruct (K k Hk) as (c & Ec & Kc & Hn). exists c.
  assert (X : exists v, nth_error vs k = Some v /\ fits c v) by (clear -F Ec; revert k Ec; induction F as [|a b l m H _ IH]; intros [|k] Ec; cbn in *; try discriminate; [injection Ec as <-; eauto|now apply IH]).
  destruct X as (v & Ev & [[_ N]|H]); [congruence|]. exists v. auto.
Qed.
Lemma csgn_sign c : csgn c = sign c. Proof. now destruct c. Qed.
(** C32: over the rows of a table the comparison of an index is a total order, and it is the order of
    the key values: ints and timestamps by value, uuids and strings by their bytes, column by column.
    Partial: the columns of the key must not be NULL; see C32_refuted *)
Theorem C32_partial mag cols ks : memcmp_ok mag -> key_ok cols ks ->
  (forall va a vb b, made cols va a -> made cols vb b ->
     exists r, compare mag cols ks a b = Ok r /\ Z.sgn r = sign (key_order_of ks va vb) /\ (r = 0 <-> key_of ks va = key_of ks vb)) /\
  (forall va a vb b r r', made cols va a -> made cols vb b -> compare mag cols ks a b = Ok r -> compare mag cols ks b a = Ok r' -> Z.sgn r' = - Z.sgn r) /\
  (forall va a vb b vc c r1 r2 r3, made cols va a -> made cols vb b -> made cols vc c ->
     compare mag cols ks a b = Ok r1 -> compare mag cols ks b c = Ok r2 -> compare mag cols ks a c = Ok r3 -> r1 <= 0 -> r2 <= 0 -> r3 <= 0 /\ (r3 = 0 -> r1 = 0 /\ r2 = 0)).
Proof.
  intros Hm HK.
  assert (S : forall va a vb b, made cols va a -> made cols vb b -> exists r, compare mag cols ks a b = Ok r /\ Z.sgn r = sign (lexZZ (codes ks va) (codes ks vb)) /\ key_order_of ks va vb = lexZZ (codes ks va) (codes ks vb)).
  { intros va a vb b Ma Mb. pose proof (made_keyed _ _ _ _ Ma HK) as Ka. pose proof (made_keyed _ _ _ _ Mb HK) as Kb. destruct (compare_sgn mag Hm cols ks va vb a b (proj1 (made_row _ _ _ Ma)) (proj1 (made_row _ _ _ Mb)) Ka Kb) as (r & E & G).
    exists r. rewrite <- (key_order_codes cols ks va vb Ka Kb). auto. }
  split; [|split].
  - intros va a vb b Ma Mb. pose proof (made_keyed _ _ _ _ Ma HK) as Ka. pose proof (made_keyed _ _ _ _ Mb HK) as Kb. destruct (S _ _ _ _ Ma Mb) as (r & E & G & O). exists r. split; [exact E|]. split; [now rewrite O|]. split.
    + intros ->. destruct (lexZZ (codes ks va) (codes ks vb)) eqn:L; try discriminate. apply lexZZ_eq in L. unfold key_of. apply map_ext_in. intros k Hk. exact (codes_eq cols ks va vb Ka Kb L k Hk).
    + intros Ek. assert (L : codes ks va = codes ks vb). { unfold codes, key_of in *. clear -Ek. induction ks as [|k ks IH]; [reflexivity|]. cbn [map] in *. injection Ek as E1 E2. rewrite E1. f_equal. now apply IH. }
      apply lexZZ_eq in L. rewrite L in G. cbn in G. lia.
  - intros va a vb b r r' Ma Mb E E'. destruct (S _ _ _ _ Ma Mb) as (x & Ex & G & _). destruct (S _ _ _ _ Mb Ma) as (y & Ey & G' & _). assert (x = r) by congruence. assert (y = r') by congruence. subst x y. rewrite G, G', (lexZZ_opp (codes ks va)). now destruct (lexZZ _ _).
  - intros va a vb b vc c r1 r2 r3 Ma Mb Mc E1 E2 E3 L1 L2. destruct (S _ _ _ _ Ma Mb) as (x & Ex & G1 & _). destruct (S _ _ _ _ Mb Mc) as (y & Ey & G2 & _). destruct (S _ _ _ _ Ma Mc) as (z & Ez & G3 & _).
    assert (x = r1) by congruence. assert (y = r2) by congruence. assert (z = r3) by congruence. subst x y z.
    destruct (lexZZ (codes ks va) (codes ks vb)) eqn:A; [apply lexZZ_eq in A; rewrite A in G3| |cbn in G1; lia].
    + destruct (lexZZ (codes ks vb) (codes ks vc)) eqn:B; cbn in *; lia.
    + destruct (lexZZ (codes ks vb) (codes ks vc)) eqn:B; [apply lexZZ_eq in B; rewrite <- B in G3; rewrite A in G3; cbn in *; lia| |cbn in G2; lia].
      rewrite (lexZZ_trans _ _ _ A B) in G3. cbn in *. lia.
Qed.
Print Assumptions C32_partial.
Example C32_nonvacuous : exists va a vb b, made t1 va a /\ made t1 vb b /\ key_ok t1 [2%nat; 0%nat] /\ compare Z.sub t1 [2%nat; 0%nat] a b = Ok (-1).
Proof.
  destruct (C31_insert_partial zeros t1 _ _ _ zeros_ok v1_ok) as (identity & row & Ei & Er). vm_compute in Ei. injection Ei as <-.
  assert (U : update_ok t1 (meant_row [DString [104; 105]] 42 t1 v1) [(2, DInt 9)]).
  { split; [|vm_compute; split; congruence]. repeat constructor; cbn [fst snd]; try lia; eexists; (split; [reflexivity|]); (split; [reflexivity|]). right. unfold holds; cbn. unfold signed. lia. }
  pose proof (made_insert zeros t1 _ _ _ _ row zeros_ok v1_ok eq_refl Er) as M. destruct (C31_update_partial zeros t1 _ row _ zeros_ok M U) as [_ H]. destruct (H _ eq_refl) as (row' & E).
  vm_compute in Er. injection Er as <-. exists (meant_row [DString [104; 105]] 42 t1 v1). eexists. exists (updated (meant_row [DString [104; 105]] 42 t1 v1) [(2, DInt 9)]), row'. split; [exact M|]. split; [exact (made_update zeros t1 _ _ _ _ row' zeros_ok M U eq_refl E)|].
  split; [intros k [<-|[<-|[]]]; eexists; (split; [reflexivity|]); split; cbn; auto|]. vm_compute in E. injection E as <-. vm_compute. reflexivity.
Qed.
(** C32 is false when a column of the index holds NULL: CREATE INDEX accepts a column of a table whose
    rows hold NULL there (compiler/parser/parse_table.c:52 only sets NOT NULL for the time after), and
    comparing such a row dereferences a NULL pointer (db/row/compare.h:22-44) *)
Theorem C32_refuted : exists cols k vs row c, made cols vs row /\ nth_error cols k = Some c /\ key_col c /\ forall mag, compare mag cols [k] row row = UB.
Proof.
  set (n := mkcol TInt 8 false false).
  assert (I : insert_ok [n] [] [DNull] 0).
  { split; [reflexivity|]. split; [constructor; [split; [cbn; auto|discriminate]|constructor]|]. split; [vm_compute; lia|]. split; [repeat constructor|]. split; [|vm_compute; split; congruence].
    cbn. constructor; [left; auto|constructor]. }
  set (row := match row_create zeros [n] [DNull] [] (Some (DInt 0)) with Ok r => r | _ => [] end).
  exists [n], 0%nat. eexists. exists row, n. split; [exact (made_insert zeros [n] [] [DNull] 0 (DInt 0) row zeros_ok I eq_refl ltac:(vm_compute; reflexivity))|].
  split; [reflexivity|]. split; [cbn; auto|]. intros mag. vm_compute. reflexivity.
Qed.
Print Assumptions C32_refuted.

(** C67: a search key made of values for the first columns of a key finds its place: it is above every
    row whose key is lower than the values, below every row whose key is higher, not above any row
    that has these values, and equal to the row that has them if there is a value for each column *)
Theorem C67_search_key mem mag cols ks vals : heap_ok mem -> memcmp_ok mag -> key_ok cols ks -> NoDup ks ->
  (forall o k c d, nth_error ks o = Some k -> nth_error cols k = Some c -> nth_error vals o = Some d -> holds c d) ->
  fold_right Z.add 0 (map weight vals) + 20 * Z.of_nat (length cols) + 7 <= 2147483647 -> Z.of_nat (length cols) <= 65535 ->
  exists key, row_create_key mem cols ks vals = Ok key /\
    forall vs row, made cols vs row -> no_negative_time cols ks vs -> exists r, compare mag cols ks key row = Ok r /\
      match prefix_order ks vals vs with
      | Gt => 0 < r
      | Lt => r < 0
      | Eq => r <= 0 /\ ((length ks <= length vals)%nat -> r = 0)
      end.
Proof.
  intros Hm Hg HK Nd Hv S1 S2.
  assert (KS : ksearch cols ks vals). { split; [exact Nd|]. split; [|exact Hv]. intros k Hk. destruct (HK k Hk) as (c & Ec & Kc & _). eauto. }
  destruct (key_row mem cols ks vals Hm KS) as (key & Ek & Rk). { split; rewrite kcols_len; [pose proof (key_weight cols ks vals KS); lia|exact S2]. }
  exists key. split; [exact Ek|]. intros vs row M Ht. pose proof (made_keyed _ _ _ _ M HK) as Kr.
  assert (Kk : keyed cols ks (kcols ks vals 0 cols)).
  { intros k Hk. destruct (HK k Hk) as (c & Ec & Kc & _). exists c, (kcol ks vals k c). split; [exact Ec|]. split; [exact Kc|]. split; [exact (kcols_nth ks vals cols 0 k c Ec)|].
    unfold kcol. destruct (in_split _ _ Hk) as (p & q & E). assert (Np : ~ In k p). { intros Hi. rewrite E in Nd. apply NoDup_remove_2 in Nd. apply Nd. apply in_or_app. now left. }
    assert (FC : find_column ks k 0 = Some (length p)) by (rewrite E; rewrite (find_column_at p k q 0 Np); reflexivity). rewrite FC. destruct (nth_error vals (length p)) as [d|] eqn:En; cbn [kv]; [|now apply least_holds].
    apply (Hv (length p) k c d); try assumption. rewrite E, nth_error_app2, Nat.sub_diag by lia. reflexivity. }
  destruct (compare_sgn mag Hg cols ks _ vs key row Rk (proj1 (made_row _ _ _ M)) Kk Kr) as (r & Er & Sr). exists r. split; [exact Er|].
  pose proof (search_order cols ks vals vs KS Kr Ht ks [] eq_refl) as O. cbn [length skipn] in O. destruct (prefix_order ks vals vs).
  - destruct O as [O1 O2]. split; [destruct (key_order_of ks _ vs); [cbn in Sr; lia|cbn in Sr; lia|now destruct O1]|]. intros L. rewrite (O2 L) in Sr. cbn in Sr. lia.
  - rewrite O in Sr. cbn in Sr. lia.
  - rewrite O in Sr. cbn in Sr. lia.
Qed.
Print Assumptions C67_search_key.
Definition t2 : list column := [mkcol TString 0 false true; mkcol TInt 8 false true; mkcol TTimestamp 8 false true].
Example C67_nonvacuous : exists key vs row, row_create_key zeros t2 [0%nat; 2%nat; 1%nat] [DString [97]] = Ok key /\ made t2 vs row /\
  prefix_order [0%nat; 2%nat; 1%nat] [DString [97]] vs = Eq /\ compare Z.sub t2 [0%nat; 2%nat; 1%nat] key row = Ok (-1).
Proof.
  assert (I : insert_ok t2 [] [DString [97]; DInt (-5); DInt 0] 0).
  { split; [reflexivity|]. split; [unfold t2; repeat (apply Forall_cons; [split; [cbn; tauto|cbn; intros; discriminate]|]); constructor|]. split; [vm_compute; lia|]. split; [repeat constructor|]. split; [|vm_compute; split; congruence].
    unfold meant_row, t2. cbn [combine map fst snd meant nth c_identity]. repeat apply Forall2_cons; try apply Forall2_nil; right; unfold holds; cbn [c_type c_size]; [reflexivity|unfold signed; lia|unfold signed; lia]. }
  set (row := match row_create zeros t2 [DString [97]; DInt (-5); DInt 0] [] (Some (DInt 0)) with Ok r => r | _ => [] end).
  eexists. eexists. exists row. split; [vm_compute; reflexivity|]. split; [exact (made_insert zeros t2 [] _ 0 (DInt 0) row zeros_ok I eq_refl ltac:(vm_compute; reflexivity))|]. split; vm_compute; reflexivity.
Qed.

(** ** partitions *)
(** C08: a table of 1 to 8192 partitions maps every hash value to exactly one of its partitions, every
    partition owns a hash value, and the map does not depend on the order in which the partitions are
    found (the order of the directory at restart) *)
Theorem C08_mapping count parts : part_mgr_create count = Ok parts -> forall found, Permutation parts found ->
  exists m, map_parts part_mapping_create found = Ok m /\ Z.of_nat (length parts) = count /\
    (forall hash, exists p, In p parts /\ map_at m hash = Some p /\ inside p (hash mod PART_MAPPING_MAX) /\ forall q, In q parts -> inside q (hash mod PART_MAPPING_MAX) -> q = p) /\
    (forall p, In p parts -> exists hash, 0 <= hash /\ map_at m hash = Some p).
Proof.
  intros H found P. unfold part_mgr_create in H. destruct (Z.ltb_spec count 1); [discriminate|]. destruct (Z.ltb_spec PART_MAPPING_MAX count); [discriminate|]. cbn [orb] in H. injection H as <-.
  assert (Hc : 1 <= count <= PART_MAPPING_MAX) by lia. pose proof (create_loop_ok count Hc (Z.to_nat count) 0 ltac:(lia) ltac:(lia)) as [F M]. cbv zeta in F, M. rewrite Z.mul_0_l in F, M.
  pose proof (pieces_cover count) as Cov. set (parts := part_create_loop (Z.to_nat count) 0 count 0) in *. clearbody parts. rewrite Forall_forall in F.
  assert (Ok' : Forall part_ok found) by (apply Forall_forall; intros p Hp; apply (pieces_ok count p Hc); apply F; apply (Permutation_in _ (Permutation_sym P) Hp)).
  destruct (map_parts_ok found part_mapping_create) as (m & E & L & N); [unfold part_mapping_create; apply repeat_length|exact Ok'|].
  assert (U : forall z p q, In p parts -> In q parts -> inside p z -> inside q z -> q = p) by (intros z p q Hp Hq Ip Iq; symmetry; apply (pieces_disjoint count p q z Hc); auto).
  assert (G : forall z p, 0 <= z < PART_MAPPING_MAX -> In p parts -> inside p z -> nth (Z.to_nat z) m None = Some p).
  { intros z p Hz Hp Ip. destruct (N (Z.to_nat z)) as [G _]. rewrite Z2Nat.id in G by lia. apply G; [apply (Permutation_in _ P Hp)|exact Ip|]. intros q Hq Iq. apply (U z); auto. apply (Permutation_in _ (Permutation_sym P) Hq). }
  exists m. split; [exact E|]. split; [|split].
  - apply (f_equal (@length Z)) in M. rewrite !map_length, seq_length in M. lia.
  - intros hash. pose proof (Z.mod_pos_bound hash PART_MAPPING_MAX ltac:(reflexivity)) as B. destruct (Cov (hash mod PART_MAPPING_MAX) Hc B) as (p & Hp & Ip). exists p. split; [exact Hp|]. split; [|split; [exact Ip|intros q Hq Iq; eapply U; eauto]].
    unfold map_at. now apply G.
  - intros p Hp. destruct (pieces_ok count p Hc (F p Hp)) as [[P1 P2] P3]. exists (p_min p). split; [exact P1|]. unfold map_at. rewrite Z.mod_small by lia. apply G; [lia|exact Hp|unfold inside; lia].
Qed.
Print Assumptions C08_mapping.
(** C08: an INSERT, a lookup by key and recovery or replication send the same key to the same
    partition *)
Theorem C08_routing m cols ks : key_ok cols ks ->
  (forall refs vals generated identity, insert_ok cols refs vals generated -> row_get_identity (first_identity cols 0) refs vals generated = Ok identity ->
     row_map m cols ks refs vals (Some identity) = row_map_keys m cols ks (key_of ks (meant_row refs generated cols vals))) /\
  (forall vs row, made cols vs row -> part_mapping_map m cols ks row = row_map_keys m cols ks (key_of ks vs)) /\
  (forall vs row, made cols vs row -> exists p, part_mapping_map m cols ks row = Ok p).
Proof.
  intros HK. split; [|split].
  - intros refs vals generated identity I Ei. unfold row_map, row_map_keys, value_hash_row, value_hash_keys, key_of.
    destruct (insert_row zeros cols refs vals generated identity zeros_ok I Ei) as (row & Er & _). pose proof (made_insert zeros cols refs vals generated identity row zeros_ok I Ei Er) as M.
    pose proof (made_keyed _ _ _ _ M HK) as Kd. rewrite (hash_keys_ok cols ks _ Kd). destruct I as (Len & Hc & One & Hr & Hf & Sm). rewrite (hash_row_ok cols ks refs vals (Some identity) (meant_row refs generated cols vals)); try assumption; try reflexivity; [|discriminate].
    intros k c v Hk Ec Ev. pose proof (meant_eff cols refs vals generated identity Len One Hr Hf Hc Ei) as X.
    assert (Cb : nth_error (combine cols vals) k = Some (c, v)) by (clear -Ec Ev; revert k vals Ec Ev; induction cols as [|a cols IH]; intros [|i] [|b vals] Ec Ev; cbn in *; try discriminate; [congruence|now apply IH]).
    assert (Y : meant refs generated c v = eff refs (Some identity) c v). { apply (f_equal (fun l => nth_error l k)) in X. unfold meant_row in X. rewrite !nth_error_map, Cb in X. cbn in X. congruence. }
    unfold meant_row. rewrite nth_error_map, Cb. cbn [option_map fst snd]. f_equal. rewrite Y. unfold meant, eff in Y |- *. destruct (c_identity c) eqn:Ic; [|destruct v; try reflexivity; destruct (nth i refs DNull); reflexivity].
    destruct (match v with DRef i => nth i refs DNull | _ => v end); congruence.
  - intros vs row M. pose proof (made_keyed _ _ _ _ M HK) as Kd. unfold part_mapping_map, row_map_keys, row_hash, value_hash_keys, key_of. rewrite (hash_keys_ok cols ks _ Kd), (row_hash_ok cols ks vs row (proj1 (made_row _ _ _ M)) Kd). reflexivity.
  - intros vs row M. pose proof (made_keyed _ _ _ _ M HK) as Kd. unfold part_mapping_map, row_hash. rewrite (row_hash_ok cols ks vs row (proj1 (made_row _ _ _ M)) Kd). destruct (vhash_total cols ks vs Kd 0) as (z & ->). eexists. reflexivity.
Qed.
Print Assumptions C08_routing.
Example C08_nonvacuous : exists parts m, part_mgr_create 3 = Ok parts /\ map p_min parts = [0; 2730; 5460] /\ map p_max parts = [2730; 5460; 8192] /\
  map_parts part_mapping_create parts = Ok m /\ row_map_keys m t1 [0%nat] [DInt 42] = Ok (nth_error parts 1).
Proof.
  assert (E : part_mgr_create 3 = Ok [mkpart 0 0 2730; mkpart 1 2730 5460; mkpart 2 5460 8192]) by (vm_compute; reflexivity).
  destruct (C08_mapping 3 _ E _ (Permutation_refl _)) as (m & Em & _ & Hm & _). clear E.
  exists [mkpart 0 0 2730; mkpart 1 2730 5460; mkpart 2 5460 8192], m. split; [reflexivity|]. split; [reflexivity|]. split; [reflexivity|]. split; [exact Em|].
  assert (Hh : exists h, value_hash_keys t1 [0%nat] [DInt 42] = Ok h /\ (2730 <=? h mod PART_MAPPING_MAX) && (h mod PART_MAPPING_MAX <? 5460) = true) by (eexists; split; vm_compute; reflexivity).
  destruct Hh as (h & Eh & Bh). unfold row_map_keys. rewrite Eh. cbn [bind nth_error].
  destruct (Hm h) as (p & _ & Ep & _ & U). rewrite Ep. rewrite (U (mkpart 1 2730 5460)); [reflexivity|right; left; reflexivity|].
  clear -Bh. unfold inside; cbn [p_min p_max]. lia.
Qed.
