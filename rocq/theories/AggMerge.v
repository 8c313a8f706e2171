(** Merge of the aggregates of two partitions. *)
From Coq Require Import Permutation.
From Verif Require Import Base JsonModel JsonSpec ValueModel ValueProps HashModel HashProofs SetModel SetProofs SetProps
  AggModel AggSpec AggFacts AggProofs AggInv.
Local Open Scope nat_scope.

Section M.
Variable mag : Z -> Z -> Z.
Hypothesis Hmag : memcmp_ok mag.
Variable aggs : list agg.
Variable n : nat.
Notation eqb := (store_compare_keys mag).
Notation mok := (plain_key n).
Notation dok := (plain_key (n + 2)).
Notation row := (list value * list value)%type.
Let EQm := plain_keys_eq mag n Hmag.
Let EQd := plain_keys_eq mag (n + 2) Hmag.
Notation minv := (@inv (list value) (list state) eqb keys_hash mok).
Notation dinv := (@inv (list value) unit eqb keys_hash dok).
Notation mget := (@get (list value) (list state) eqb).
Notation dget := (@get (list value) unit eqb).
Notation Main := (Main mag aggs n).
Notation Dist := (Dist mag aggs n).
Notation DSet := (DSet mag aggs n).
Notation Rel := (Rel mag aggs n).
Notation same_plain := (same_plain mag aggs n).

Lemma merge_cols_nth gs : forall a b col, length a = length gs -> length b = length gs ->
  nth_error (merge_cols gs a b) col =
  match nth_error gs col, nth_error a col, nth_error b col with
  | Some g, Some x, Some y => Some (if adistinct g then x else agg_merge (atype g) x y)
  | _, _, _ => None
  end.
Proof.
  induction gs as [|g gs IH]; intros [|x a] [|y b] col La Lb; try discriminate.
  - destruct col; reflexivity.
  - destruct col as [|col]; cbn; [reflexivity|]. apply IH; [now injection La|now injection Lb].
Qed.
Lemma merge_cols_length gs : forall a b, length (merge_cols gs a b) = length a.
Proof. induction gs as [|g gs IH]; intros [|x a] [|y b]; cbn; auto. Qed.

Definition get_or (o : option (list state)) : list state := match o with Some a => a | None => new_row aggs end.

(** agg_merge_set *)
Lemma merge_slots_ok (m0 wm : mset) : minv wm -> forall slots P m,
  minv m ->
  (forall k, mok k -> mget m k = if in_dec key_eq_dec k P then Some (merge_cols aggs (get_or (mget m0 k)) (get_or (mget wm k))) else mget m0 k) ->
  (forall h r, In (h, r) (slots_of slots) -> In (h, r) (entries keys_hash (keys wm))) ->
  NoDup (slots_of slots) ->
  (forall h r k, In (h, r) (slots_of slots) -> nth_error (keys wm) r = Some k -> ~ In k P) ->
  exists m', merge_slots mag aggs m wm slots = Ok m' /\ minv m' /\
    exists P', (forall k, In k P' <-> In k P \/ exists h r, In (h, r) (slots_of slots) /\ nth_error (keys wm) r = Some k) /\
    forall k, mok k -> mget m' k = if in_dec key_eq_dec k P' then Some (merge_cols aggs (get_or (mget m0 k)) (get_or (mget wm k))) else mget m0 k.
Proof.
  intros IW. induction slots as [|[[h r]|] slots IH]; intros P m I G HE ND Fr; cbn [merge_slots slots_of] in *.
  - exists m. split; [reflexivity|]. split; [exact I|]. exists P. split; [|exact G].
    intros k. split; [auto|]. intros [?|(h & r & [] & _)]; auto.
  - pose proof (HE h r (or_introl eq_refl)) as He. apply entries_in in He as (k & Hk & Hh).
    pose proof Hk as Hk'. rewrite keys_nth in Hk'. destruct (nth_error (srows wm) r) as [[k0 st]|] eqn:Er; [|discriminate].
    cbn in Hk'. injection Hk' as ->. cbn [lift bind].
    assert (mok k) as Ok_k by (eapply (inv_ok_nth eqb keys_hash mok wm r k st IW Er)).
    assert (mget wm k = Some st) as Gw by (apply (get_some eqb keys_hash mok EQm wm k st IW Ok_k); eauto).
    destruct (upsert_get eqb keys_hash (new_row aggs) mok EQm m k h I Ok_k (or_intror (eq_sym Hh))) as (r1 & ex & m1 & E & I1 & Hr1 & _ & G1 & Go1).
    rewrite E. cbn [lift bind].
    set (m2 := set_update m1 r1 (fun l => merge_cols aggs l st)).
    destruct (update_get eqb keys_hash mok EQm m1 r1 (fun l => merge_cols aggs l st) k I1 Hr1) as [G2 Go2]. fold m2 in G2, Go2.
    assert (~ In k P) as NP by (eapply Fr; [left; reflexivity|exact Hk]).
    destruct (IH (k :: P) m2) as (m' & E' & I' & P' & HP' & G').
    + now apply update_inv.
    + intros k' Hk'. destruct (key_eq_dec k k') as [<-|N].
      * destruct (in_dec key_eq_dec k (k :: P)) as [_|C]; [|exfalso; apply C; now left].
        rewrite G2, G1. cbn. rewrite Gw. cbn. f_equal. rewrite (G k Ok_k).
        destruct (in_dec key_eq_dec k P); [contradiction|]. reflexivity.
      * rewrite Go2, Go1, G by auto. destruct (in_dec key_eq_dec k' P) as [A|A], (in_dec key_eq_dec k' (k :: P)) as [B|B]; auto.
        { exfalso. apply B. now right. }
        { exfalso. destruct B; [congruence|contradiction]. }
    + intros h' r' H. apply HE. now right.
    + now inversion ND.
    + intros h' r' k' H Hk2 [<-|C].
      * assert (r' = r) as ->.
        { eapply (i_distinct _ _ _ wm IW); [exact Hk2|exact Hk|]. now apply EQm. }
        pose proof (HE h' r (or_intror H)) as He2. apply entries_in in He2 as (k2 & Hk3 & Hh3).
        rewrite Hk in Hk3. injection Hk3 as <-. inversion ND as [|? ? Nin _]. apply Nin. congruence.
      * eapply Fr; [right; exact H|exact Hk2|exact C].
    + exists m'. split; [exact E'|]. split; [exact I'|]. exists P'. split; [|exact G'].
      intros k'. rewrite HP'. cbn. split.
      * intros [[<-|?]|(h' & r' & H1 & H2)]; [right; exists h, r; auto|auto|right; exists h', r'; auto].
      * intros [?|(h' & r' & [H1|H1] & H2)]; [auto|injection H1 as <- <-; left; left; congruence|right; exists h', r'; auto].
  - apply IH; auto.
Qed.

Lemma merge_set_ok m d wm R W : Main m R -> Dist m d -> DSet d R -> Main wm W -> small (R ++ W) ->
  exists m', agg_merge_set mag aggs m wm = Ok m' /\ Main m' (R ++ W) /\ Dist m' d.
Proof.
  intros (I & K & C) D (I2 & S) (IW & KW & CW) Sm.
  destruct (slots_entries eqb keys_hash mok wm IW) as [ND SE].
  destruct (merge_slots_ok m wm IW (stab wm) [] m I) as (m' & E & I' & P & HP & G).
  - intros k Hk. destruct (in_dec key_eq_dec k []) as [[]|_]. reflexivity.
  - intros h r H. now apply SE.
  - exact ND.
  - intros h r k _ _ [].
  - exists m'. split; [exact E|].
    assert (forall k, mok k -> (In k P <-> mget wm k <> None)) as HPW.
    { intros k Hk. rewrite HP. split.
      - intros [[]|(h & r & H1 & H2)] C0. apply (get_none eqb keys_hash mok EQm wm k IW Hk) in C0. apply C0. eapply nth_error_In; eauto.
      - intros H. right. destruct (mget wm k) as [st|] eqn:Ew; [|congruence].
        apply (get_some eqb keys_hash mok EQm wm k st IW Hk) in Ew as (r & Er).
        exists (keys_hash k), r. assert (nth_error (keys wm) r = Some k) as Hr by (rewrite keys_nth, Er; reflexivity).
        split; [|exact Hr]. apply SE, entries_in. eauto. }
    assert (forall k, mok k -> mget m k = None -> forall col, vals R k col = []) as VN.
    { intros k Hk Hn col. destruct (vals R k col) as [|z l] eqn:Ev; [reflexivity|]. exfalso. apply (K k Hk); [|exact Hn].
      eapply vals_in. rewrite Ev. now left. }
    assert (forall k, mok k -> mget wm k = None -> forall col, vals W k col = []) as VNW.
    { intros k Hk Hn col. destruct (vals W k col) as [|z l] eqn:Ev; [reflexivity|]. exfalso. apply (KW k Hk); [|exact Hn].
      eapply vals_in. rewrite Ev. now left. }
    assert (forall k, mok k -> length (get_or (mget m k)) = length aggs) as Lm.
    { intros k Hk. destruct (mget m k) as [st|] eqn:E0; cbn; [apply (C k st Hk E0)|apply map_length]. }
    assert (forall k, mok k -> length (get_or (mget wm k)) = length aggs) as Lw.
    { intros k Hk. destruct (mget wm k) as [st|] eqn:E0; cbn; [apply (CW k st Hk E0)|apply map_length]. }
    assert (forall k col a, mok k -> nth_error aggs col = Some a -> adistinct a = false ->
              nth_error (get_or (mget m k)) col = Some (agg_spec (atype a) (vals R k col))) as Sm1.
    { intros k col a Hk Ha Hd. destruct (mget m k) as [st|] eqn:E0; cbn [get_or].
      - now apply (C k st Hk E0).
      - rewrite (VN k Hk E0). unfold new_row. rewrite nth_error_map, Ha. reflexivity. }
    assert (forall k col a, mok k -> nth_error aggs col = Some a -> adistinct a = false ->
              nth_error (get_or (mget wm k)) col = Some (agg_spec (atype a) (vals W k col))) as Sw1.
    { intros k col a Hk Ha Hd. destruct (mget wm k) as [st|] eqn:E0; cbn [get_or].
      - now apply (CW k st Hk E0).
      - rewrite (VNW k Hk E0). unfold new_row. rewrite nth_error_map, Ha. reflexivity. }
    split; [split; [exact I'|split]|].
    + intros k Hk. rewrite G, map_app, in_app_iff, <- K, <- KW by exact Hk. specialize (HPW k Hk).
      destruct (in_dec key_eq_dec k P) as [A|A]; [split; [tauto|discriminate]|tauto].
    + intros k st Hk H. rewrite G in H by exact Hk. destruct (in_dec key_eq_dec k P) as [A|A].
      * injection H as <-. split; [rewrite merge_cols_length; now apply Lm|]. intros col a Ha Hd.
        rewrite merge_cols_nth by auto. rewrite Ha, (Sm1 k col a Hk Ha Hd), (Sw1 k col a Hk Ha Hd), Hd. f_equal.
        rewrite vals_app. apply merge_spec. pose proof (vals_length R k col). pose proof (vals_length W k col).
        unfold small in Sm. rewrite app_length in Sm. lia.
      * destruct (C k st Hk H) as [L Q]. split; [exact L|]. intros col a Ha Hd. rewrite vals_app, VNW, app_nil_r; auto.
        destruct (mget wm k) eqn:E0; [|reflexivity]. exfalso. apply A, HPW; [exact Hk|congruence].
    + intros k st Hk H col a Ha Hd. rewrite G in H by exact Hk. destruct (in_dec key_eq_dec k P) as [A|A].
      * injection H as <-.
        assert (exists l, nth_error (get_or (mget m k)) col = Some (agg_spec (atype a) l) /\ NoDup l /\ (forall z, In z l <-> dget d (dkey k z col) <> None)) as (l & N1 & N2 & N3).
        { destruct (mget m k) as [st0|] eqn:E0; cbn [get_or]; [exact (D k st0 Hk E0 col a Ha Hd)|].
          exists []. unfold new_row. rewrite nth_error_map, Ha. split; [reflexivity|]. split; [constructor|].
          intros z. split; [intros []|]. intros Hz. exfalso. apply S in Hz; [|now apply dkey_ok].
          destruct Hz as (k1 & z1 & c1 & a1 & Hk1 & Eq & _ & _ & Hv). apply dkey_inj in Eq as (<- & _ & _); [|destruct Hk, Hk1; congruence].
          rewrite (VN k Hk E0) in Hv. destruct Hv. }
        exists l. split; [|auto]. rewrite merge_cols_nth by auto. rewrite Ha, N1, Hd.
        assert (col < length (get_or (mget wm k))) as LC by (rewrite Lw by exact Hk; apply nth_error_Some; congruence).
        destruct (nth_error (get_or (mget wm k)) col) eqn:E1; [reflexivity|]. apply nth_error_None in E1. lia.
      * exact (D k st Hk H col a Ha Hd).
Qed.

(** free_values of the rows of the distinct set, up to three aggregates *)
Lemma combine_seq_nth {X} (l : list X) s i : nth_error (combine (seq s (length l)) l) i = option_map (fun x => (s + i, x)) (nth_error l i).
Proof.
  revert s i; induction l as [|x l IH]; intros s [|i]; cbn; auto.
  - now rewrite Nat.add_0_r.
  - rewrite IH. destruct (nth_error l i); cbn; [|reflexivity]. do 2 f_equal. lia.
Qed.
Lemma map_combine_id (k : list value) (f : nat -> value -> value) : (forall j v, j < length k -> f j v = v) ->
  map (fun '(j, v) => f j v) (combine (seq 0 (length k)) k) = k.
Proof.
  intros H. apply nth_ext with (d := VNull) (d' := VNull).
  - rewrite map_length, combine_length, seq_length. lia.
  - intros i Hi. rewrite map_length, combine_length, seq_length in Hi.
    assert (forall (l : list value) d, nth i l d = match nth_error l i with Some x => x | None => d end) as N.
    { intros l d. clear. revert i. induction l; intros [|i]; cbn; auto. }
    rewrite !N, nth_error_map, combine_seq_nth. destruct (nth_error k i) as [v|] eqn:E; cbn; [|reflexivity].
    apply H. apply nth_error_Some. congruence.
Qed.
Lemma free_ok rows r cnt : Forall (fun k => length k = n + 2) rows -> r < length rows -> cnt <= n + 3 ->
  exists rows', free_values rows (1 + (n + 2)) r cnt = Ok rows' /\ length rows' = length rows /\
    Forall (fun k => length k = n + 2) rows' /\ (forall i, i <> r -> nth_error rows' i = nth_error rows i).
Proof.
  intros F Hr Hc. unfold free_values.
  replace (length rows * (1 + (n + 2)) <? r * (1 + (n + 2)) + cnt) with false by (symmetry; apply Nat.ltb_ge; nia).
  eexists. split; [reflexivity|]. split; [rewrite map_length, combine_length, seq_length; lia|]. split.
  - apply Forall_forall. intros k H. apply in_map_iff in H as ([i k0] & <- & H). rewrite map_length, combine_length, seq_length.
    apply in_combine_r in H. rewrite (proj1 (Forall_forall _ _) F k0 H). lia.
  - intros i Hi. rewrite nth_error_map, combine_seq_nth. destruct (nth_error rows i) as [k|] eqn:E; [|reflexivity]. cbn [option_map]. f_equal.
    assert (length k = n + 2) as L by (apply (proj1 (Forall_forall _ _) F k); eapply nth_error_In; eauto).
    apply (map_combine_id k (fun j v => if (r * (1 + (n + 2)) <=? (0 + i) * (1 + (n + 2)) + 1 + j) && ((0 + i) * (1 + (n + 2)) + 1 + j <? r * (1 + (n + 2)) + cnt) then VNull else v)).
    intros j v Hj. destruct (Nat.leb_spec (r * (1 + (n + 2))) ((0 + i) * (1 + (n + 2)) + 1 + j)); [|reflexivity].
    destruct (Nat.ltb_spec ((0 + i) * (1 + (n + 2)) + 1 + j) (r * (1 + (n + 2)) + cnt)); [|reflexivity]. exfalso.
    assert (i < r \/ i > r) as [?|?] by lia; nia.
Qed.

Lemma same_plain_trans a b c : same_plain a b -> same_plain b c -> same_plain a c.
Proof.
  intros [_ P] [I Q]. split; [exact I|]. intros k Hk. destruct (P k Hk) as [P1 P2]. destruct (Q k Hk) as [Q1 Q2].
  split; [tauto|]. intros st H. destruct (Q2 st H) as (st1 & H1 & L1 & N1). destruct (P2 st1 H1) as (st2 & H2 & L2 & N2).
  exists st2. split; [exact H2|]. split; [congruence|]. intros col a0 Ha Hd. rewrite (N1 col a0 Ha Hd). eauto.
Qed.

Lemma merge_distinct_ok (m0 : mset) (d0 wd : dset) (R W : list row) : length aggs <= 3 ->
  Main m0 (R ++ W) -> DSet d0 R -> DSet wd W -> small (R ++ W) ->
  (forall k col z, In z (vals W k col) -> i64 z) ->
  forall slots P m d wrows,
    same_plain m0 m -> Dist m d -> dinv d ->
    (forall x, dok x -> (dget d x <> None <-> dget d0 x <> None \/ In x P)) ->
    (forall x, In x P -> dget wd x <> None /\ dok x) ->
    length wrows = length (keys wd) -> Forall (fun k => length k = n + 2) wrows ->
    (forall h r, In (h, r) (slots_of slots) -> In (h, r) (entries keys_hash (keys wd)) /\ nth_error wrows r = nth_error (keys wd) r) ->
    NoDup (slots_of slots) ->
  exists m' d', merge_distinct mag aggs n m d wrows slots = Ok (m', d') /\ same_plain m0 m' /\ Dist m' d' /\ dinv d' /\
    exists P', (forall x, In x P' <-> In x P \/ exists h r, In (h, r) (slots_of slots) /\ nth_error (keys wd) r = Some x) /\
      (forall x, dok x -> (dget d' x <> None <-> dget d0 x <> None \/ In x P')).
Proof.
  intros C3 HM (I0 & S0) (IW & SW) Sm Hi. induction slots as [|[[h r]|] slots IH];
    intros P m d wrows SP D I G HP LW FW HE ND; cbn [merge_distinct slots_of] in *.
  - exists m, d. split; [reflexivity|]. split; [exact SP|]. split; [exact D|]. split; [exact I|]. exists P. split; [|exact G].
    intros x. split; [auto|]. intros [?|(? & ? & [] & _)]; auto.
  - destruct (HE h r (or_introl eq_refl)) as [He Hw]. apply entries_in in He as (x & Hx & Hh).
    rewrite Hw, Hx. cbn [lift bind].
    assert (In x (keys wd)) as Inx by (eapply nth_error_In; eauto).
    assert (dok x) as Okx by (apply (proj1 (Forall_forall dok (keys wd)) (i_ok _ _ _ wd IW)); exact Inx).
    assert (dget wd x <> None) as Gwx by (intros C0; apply (get_none eqb keys_hash dok EQd wd x IW Okx) in C0; contradiction).
    pose proof Gwx as Gwx'. apply SW in Gwx' as (k & z & c & a & Hk & -> & Ha & Hd & Hz); [|exact Okx].
    assert (length k = n) as Lk by (destruct Hk; assumption).
    assert (In k (map fst (R ++ W))) as Kin by (rewrite map_app; apply in_or_app; right; eapply vals_in; eauto).
    assert (minv m) as Im by (destruct SP; assumption).
    assert (mget m k <> None) as Gm.
    { destruct SP as [_ SP]. destruct (SP k Hk) as [Q _]. rewrite Q. apply HM; assumption. }
    assert (exists r0, nth_error (keys m) r0 = Some k) as (r0 & Hr0).
    { destruct (mget m k) as [st|] eqn:E0; [|congruence]. apply (get_some eqb keys_hash mok EQm m k st Im Hk) in E0 as (r0 & E0).
      exists r0. rewrite keys_nth, E0. reflexivity. }
    assert (forall l, NoDup l -> (forall y, In y l <-> dget d (dkey k y c) <> None) -> (Z.of_nat (length l) < 2 ^ 31)%Z) as Bd.
    { intros l N1 N2. assert (length l <= length (vals (R ++ W) k c)) as LL.
      - apply NoDup_incl_length; [exact N1|]. intros y Hy. apply N2, G in Hy; [|now apply dkey_ok]. rewrite vals_app. apply in_or_app.
        assert (forall T ds, DSet ds T -> dget ds (dkey k y c) <> None -> In y (vals T k c)) as U.
        { intros T ds (_ & ST) Q. apply ST in Q; [|now apply dkey_ok]. destruct Q as (k1 & z1 & c1 & a1 & Hk1 & Eq & _ & _ & Hv).
          apply dkey_inj in Eq as (<- & <- & <-); [exact Hv|]. destruct Hk1; congruence. }
        destruct Hy as [Hy|Hy]; [left; eapply U; [split; [exact I0|exact S0]|exact Hy]|].
        right. apply (U W wd); [split; [exact IW|exact SW]|]. now apply HP.
      - pose proof (vals_length (R ++ W) k c). unfold small in Sm. lia. }
    destruct (dist_add mag Hmag aggs n m d k c a z r0 h Im I D Hk Hr0 Ha Hd (Hi _ _ _ Hz) Bd (or_intror (eq_sym Hh)))
      as (rd & ex & d1 & E & I1 & DS & Hex & D1 & SP1 & _).
    rewrite E. cbn [lift bind]. cbv zeta in D1, SP1.
    assert (r < length wrows) as Lr by (rewrite LW; apply nth_error_Some; congruence).
    destruct (free_ok wrows r (length aggs + n) FW Lr ltac:(lia)) as (wrows' & Ef & Lf & Ff & Nf).
    assert (exists m1, (if ex : bool then Ok m else
       do (r, _, m1) <- lift (set_upsert eqb keys_hash (new_row aggs) m (firstn n (dkey k z c)) 0);
       match nth_error (dkey k z c) (n + 1), nth_error (dkey k z c) n with
       | Some (VInt col), Some e =>
         do z <- int_of e;
         match nth_error aggs (Z.to_nat col) with
         | Some a => Ok (set_update m1 r (fun l => upd_col l (Z.to_nat col) (fun s => agg_compute (atype a) s z)))
         | None => UB
         end
       | _, _ => UB
       end) = Ok m1 /\ Dist m1 d1 /\ same_plain m m1) as (m1 & Em & Dm & SPm).
    { destruct ex; [exists m; auto|].
      assert (firstn n (dkey k z c) = k) as -> by (unfold dkey; rewrite firstn_app, Lk, Nat.sub_diag, firstn_all2 by lia; cbn; apply app_nil_r).
      assert (nth_error (dkey k z c) (n + 1) = Some (VInt (Z.of_nat c))) as -> by (unfold dkey; rewrite nth_error_app2 by lia; replace (n + 1 - length k) with 1 by lia; reflexivity).
      assert (nth_error (dkey k z c) n = Some (VInt z)) as -> by (unfold dkey; rewrite nth_error_app2 by lia; replace (n - length k) with 0 by lia; reflexivity).
      destruct (upsert_get eqb keys_hash (new_row aggs) mok EQm m k 0%Z Im Hk (or_introl eq_refl)) as (r1 & ex1 & m1 & E1 & I1m & Hr1 & _ & G1 & Go1).
      rewrite E1. cbn [lift bind int_of]. rewrite Nat2Z.id, Ha. eexists. split; [reflexivity|].
      assert (forall k', mok k' -> mget m1 k' = mget m k') as GE.
      { intros k' Hk'. destruct (key_eq_dec k' k) as [->|Nk]; [|now apply Go1]. rewrite G1. destruct (mget m k); congruence. }
      assert (Dist m1 d) as D1m by (intros k' st' Hk' Hg; rewrite GE in Hg by exact Hk'; exact (D k' st' Hk' Hg)).
      destruct (dist_add mag Hmag aggs n m1 d k c a z r1 h I1m I D1m Hk Hr1 Ha Hd (Hi _ _ _ Hz) Bd (or_intror (eq_sym Hh)))
        as (rd2 & ex2 & d2 & E2 & _ & _ & _ & D2 & SP2 & _).
      rewrite E in E2. injection E2 as <- <- <-. cbv zeta in D2, SP2. split; [exact D2|].
      eapply same_plain_trans; [|exact SP2]. split; [exact I1m|]. intros k' Hk'. rewrite GE by exact Hk'. split; [tauto|].
      intros st' Hg. exists st'. auto. }
    rewrite Em. cbn [bind]. rewrite Ef. cbn [bind].
    destruct (IH (dkey k z c :: P) m1 d1 wrows') as (m' & d' & E' & SP' & D' & I' & P' & HP' & G').
    + eapply same_plain_trans; eauto.
    + exact Dm.
    + exact I1.
    + intros y Hy. rewrite DS, G by exact Hy. cbn. split.
      * intros [->|[?|?]]; auto.
      * intros [?|[<-|?]]; auto.
    + intros y [<-|Hy]; [auto|now apply HP].
    + congruence.
    + exact Ff.
    + intros h' r' H. destruct (HE h' r' (or_intror H)) as [He' Hw']. split; [exact He'|].
      rewrite Nf; [exact Hw'|]. intros ->. inversion ND as [|? ? Nin _]. apply Nin.
      apply entries_in in He' as (x' & Hx' & Hh'). rewrite Hx in Hx'. injection Hx' as <-. congruence.
    + now inversion ND.
    + exists m', d'. split; [exact E'|]. split; [exact SP'|]. split; [exact D'|]. split; [exact I'|]. exists P'. split; [|exact G'].
      intros y. rewrite HP'. cbn. split.
      * intros [[<-|?]|(h' & r' & H1 & H2)]; [right; exists h, r; auto|auto|right; exists h', r'; auto].
      * intros [?|(h' & r' & [H1|H1] & H2)]; [auto|injection H1 as <- <-; left; left; congruence|right; exists h', r'; auto].
  - apply IH; auto.
Qed.

(** agg_merge_sets *)
Definition no_distinct : Prop := existsb adistinct aggs = false.
Lemma rows_vals rows : Forall (scan_row_ok aggs n) rows -> forall k col z, In z (vals rows k col) -> i64 z.
Proof.
  intros F k col z H. unfold vals in H. apply in_flat_map in H as ([k' vs] & Hr & Hz). cbn in Hz.
  destruct (key_eq_dec k' k); [|destruct Hz]. destruct (nth_error vs col) as [v|] eqn:E; [|destruct Hz].
  destruct (proj1 (Forall_forall _ _) F _ Hr) as (_ & _ & Fv). cbn in Fv.
  destruct (proj1 (Forall_forall _ _) Fv v (nth_error_In _ _ E)) as [->|(z' & -> & B)]; [destruct Hz|].
  destruct Hz as [<-|[]]. exact B.
Qed.
Lemma merge_step_ok m d wm wd R W : Rel (m, d) R -> Rel (wm, wd) W -> small (R ++ W) -> Forall (scan_row_ok aggs n) W ->
  length aggs <= 3 \/ no_distinct ->
  exists m1 md', agg_merge_set mag aggs m wm = Ok m1 /\
    (if existsb adistinct aggs then merge_distinct mag aggs n m1 d (map fst (srows wd)) (stab wd) else Ok (m1, d)) = Ok md' /\
    Rel md' (R ++ W).
Proof.
  intros (M & D & S) (MW & DW & SW) Sm F H3. cbn [fst snd] in *.
  destruct (merge_set_ok m d wm R W M D S MW Sm) as (m1 & E & M1 & D1). exists m1.
  destruct (existsb adistinct aggs) eqn:Ed.
  - destruct H3 as [H3|H3]; [|unfold no_distinct in H3; congruence].
    destruct (slots_entries eqb keys_hash dok wd (proj1 SW)) as [ND SE].
    destruct (merge_distinct_ok m1 d wd R W H3 M1 S SW Sm (rows_vals W F) (stab wd) [] m1 d (map fst (srows wd))) as (m' & d' & E' & SP & D' & I' & P & HP & G).
    + apply same_plain_refl. apply M1.
    + exact D1.
    + apply S.
    + intros x _. cbn. tauto.
    + intros x [].
    + reflexivity.
    + apply Forall_forall. intros k Hk. apply (proj1 (Forall_forall dok (keys wd)) (i_ok _ _ _ wd (proj1 SW)) k Hk).
    + intros h r H. split; [now apply SE|reflexivity].
    + exact ND.
    + exists (m', d'). split; [exact E|]. split; [exact E'|]. split; [|split; [exact D'|split; [exact I'|]]]; cbn [fst snd].
      * eapply Main_ext; [exact M1|exact SP|tauto|reflexivity].
      * assert (forall x, dok x -> (In x P <-> dget wd x <> None)) as PW.
        { intros x Hx. rewrite HP. split.
          - intros [[]|(h & r & H1 & H2)] C0. apply (get_none eqb keys_hash dok EQd wd x (proj1 SW) Hx) in C0. apply C0. eapply nth_error_In; eauto.
          - intros H. right. destruct (dget wd x) as [u|] eqn:Ew; [|congruence].
            apply (get_some eqb keys_hash dok EQd wd x u (proj1 SW) Hx) in Ew as (r & Er).
            assert (nth_error (keys wd) r = Some x) as Hr by (rewrite keys_nth, Er; reflexivity).
            exists (keys_hash x), r. split; [|exact Hr]. apply SE, entries_in. eauto. }
        destruct S as [_ S]. destruct SW as [IW SW]. intros x Hx. rewrite G, PW, S, SW by exact Hx. split.
        { intros [(k & z & c & a & H1 & H2 & H4 & H5 & H6)|(k & z & c & a & H1 & H2 & H4 & H5 & H6)]; exists k, z, c, a; rewrite vals_app, in_app_iff; tauto. }
        { intros (k & z & c & a & H1 & H2 & H4 & H5 & H6). rewrite vals_app in H6. apply in_app_or in H6 as [H6|H6]; [left|right]; exists k, z, c, a; auto. }
  - exists (m1, d). split; [exact E|]. split; [reflexivity|]. split; [exact M1|]. split; [exact D1|]. cbn [snd].
    destruct S as [I S]. split; [exact I|]. intros x Hx. rewrite S by exact Hx.
    assert (forall c a, nth_error aggs c = Some a -> adistinct a = true -> False) as No.
    { intros c a H1 H2. assert (existsb adistinct aggs = true) by (apply existsb_exists; exists a; split; [eapply nth_error_In; eauto|exact H2]). congruence. }
    split; intros (k & z & c & a & H1 & H2 & H4 & H5 & H6); exfalso; eauto.
Qed.
Lemma merge_all_ok parts : forall l R md, Rel md R -> Forall2 Rel l parts -> small (R ++ concat parts) ->
  Forall (Forall (scan_row_ok aggs n)) parts -> length aggs <= 3 \/ no_distinct ->
  exists md', merge_all mag aggs n md l = Ok md' /\ Rel md' (R ++ concat parts).
Proof.
  induction parts as [|W parts IH]; intros l R md HR F2 Sm F H3; inversion F2 as [|[wm wd] W' l' parts' HW F2' Q1 Q2]; subst.
  - exists md. cbn. rewrite app_nil_r. auto.
  - destruct md as [m d]. cbn [merge_all fst snd concat].
    assert (small (R ++ W)) as Sm1 by (unfold small in *; cbn [concat] in Sm; rewrite !app_length in *; lia).
    destruct (Nat.eqb_spec (length (srows wm)) 0) as [E0|E0].
    + assert (W = []) as ->.
      { destruct W as [|[k vs] W]; [reflexivity|]. exfalso. destruct HW as ((IW & KW & _) & _). cbn [fst snd] in *.
        pose proof (Forall_inv (Forall_inv F)) as (Hk & _). cbn in Hk.
        apply (KW k Hk); [now left|]. unfold get. destruct (srows wm); [reflexivity|discriminate]. }
      cbn [app]. apply IH; auto. exact (Forall_inv_tail F).
    + destruct (merge_step_ok m d wm wd R W HR HW Sm1 (Forall_inv F) H3) as (m1 & md' & E1 & E2 & HR').
      rewrite E1. cbn [bind]. rewrite E2. cbn [bind].
      destruct (IH l' (R ++ W) md' HR' F2') as (md2 & E3 & HR3).
      * rewrite <- app_assoc. exact Sm.
      * exact (Forall_inv_tail F).
      * exact H3.
      * exists md2. split; [exact E3|]. rewrite <- app_assoc in HR3. exact HR3.
Qed.
Lemma scan_all_ok parts : small (concat parts) -> Forall (Forall (scan_row_ok aggs n)) parts ->
  exists l, scan_all mag aggs parts = Ok l /\ Forall2 Rel l parts.
Proof.
  induction parts as [|W parts IH]; intros Sm F; cbn [scan_all].
  - exists []. split; [reflexivity|constructor].
  - cbn [concat] in Sm. destruct (agg_scan_ok mag Hmag aggs n W [] (set_empty, set_empty) (Rel_empty mag aggs n)) as (md & E & HR).
    { unfold small in *. rewrite app_length in Sm. cbn [app]. lia. }
    { exact (Forall_inv F). }
    unfold agg_partition. rewrite E. cbn [bind]. destruct IH as (l & El & Fl).
    { unfold small in *. rewrite app_length in Sm. lia. }
    { exact (Forall_inv_tail F). }
    rewrite El. cbn [bind]. exists (md :: l). split; [reflexivity|]. constructor; assumption.
Qed.
Lemma agg_select_ok parts : small (concat parts) -> Forall (Forall (scan_row_ok aggs n)) parts -> length aggs <= 3 \/ no_distinct ->
  exists md, agg_select mag aggs n parts = Ok (srows (fst md)) /\ Rel md (concat parts).
Proof.
  intros Sm F H3. unfold agg_select. destruct (scan_all_ok parts Sm F) as (l & E & F2). rewrite E. cbn [bind].
  destruct parts as [|W parts]; inversion F2 as [|md W' l' parts' HW F2' Q1 Q2]; subst; cbn [agg_merge_sets].
  - exists (set_empty, set_empty). split; [reflexivity|]. apply Rel_empty.
  - destruct (merge_all_ok parts l' W md HW F2') as (md' & E' & HR).
    + exact Sm.
    + exact (Forall_inv_tail F).
    + exact H3.
    + rewrite E'. cbn [bind]. exists md'. auto.
Qed.
End M.
