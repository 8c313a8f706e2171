From Coq Require Import Permutation.
From Verif Require Import Base JsonModel JsonSpec RowModel RowSpec RowProofs RowKeys RowMap RowProps ScanModel ScanSpec ScanProofs.

Lemma read_ok cols vs r : made cols vs r -> read_columns r 0 cols = Ok vs.
Proof.
  intros M. destruct (C31_partial cols vs r M) as (Len & _ & R).
  assert (G : forall cs us i, length us = length cs -> (forall j c v, nth_error cs j = Some c -> nth_error us j = Some v -> row_read r c (i + Z.of_nat j) = Ok v) -> read_columns r i cs = Ok us).
  { induction cs as [|c cs IH]; intros us i L H; destruct us as [|u us]; cbn in L; try discriminate; [reflexivity|]. cbn [read_columns].
    pose proof (H 0%nat c u eq_refl eq_refl) as H0. rewrite Z.add_0_r in H0. rewrite H0. cbn [bind].
    rewrite (IH us (i + 1)); [reflexivity|lia|]. intros j d v Hd Hv. pose proof (H (S j) d v Hd Hv) as Hj. replace (i + Z.of_nat (S j)) with (i + 1 + Z.of_nat j) in Hj by lia. exact Hj. }
  apply G; [exact Len|]. intros j c v Hc Hv. exact (R j c v Hc Hv).
Qed.
Lemma made_fun cols vs vs' r : made cols vs r -> made cols vs' r -> vs = vs'.
Proof. intros A B. apply read_ok in A, B. congruence. Qed.

Section Scan.
Variable mag : Z -> Z -> Z.
Variable mem : Z -> list Z.
Variable junk : operand -> Z.
Variable mixed : cmpop -> dval -> dval -> bool.
Variable stale : Z.
Variable cols : list column.
Variable t : table.
Variable w : option cond.
Hypothesis Hmem : heap_ok mem.
Hypothesis Hmag : memcmp_ok mag.
Hypothesis Ht : table_ok cols t.
Hypothesis Hw : where_ok cols t w.
Notation Inv := (Inv mixed cols w).
Notation Invs := (Invs mixed cols w).
Notation matches := (matches mixed cols w).

Definition where_value (vs : list dval) : res bool := match w with None => Ok true | Some c => cond_value mixed (Some vs) c end.
Lemma where_open vs : length vs = length cols -> exists b, where_value vs = Ok b /\ (b = true <-> where_true mixed vs w).
Proof.
  intros L. destruct Hw as (Hn & _). unfold where_value, where_true. revert Hn. destruct w as [c|]; intros Hn; [|exists true; tauto]. apply cond_open. intros o Ho m k. rewrite L. apply (Hn o m k Ho).
Qed.
Definition row_true (r : list Z) : bool :=
  match read_columns r 0 cols with Ok vs => match where_value vs with Ok b => b | _ => false end | _ => false end.
Lemma row_true_iff vs r : made cols vs r -> (row_true r = true <-> where_true mixed vs w) /\ where_value vs = Ok (row_true r).
Proof.
  intros M. unfold row_true. rewrite (read_ok _ _ _ M). destruct (where_open vs) as (b & -> & Hb); [exact (proj1 (C31_partial _ _ _ M))|]. split; [exact Hb|reflexivity].
Qed.
Lemma row_true_matches vs r : made cols vs r -> row_true r = true -> matches vs.
Proof. intros M R. split; [exact (proj1 (proj2 (proj2 (made_row _ _ _ M))))|]. now apply (row_true_iff vs r M). Qed.

Definition path_ok (ks : keys) (p : path) : Prop :=
  Invs 0 ks (pa_keys p) /\ (pa_lookup p = true -> Forall is_eq (pa_keys p)) /\
  (match pa_keys p with [] => True | pk :: _ => pk_stop pk = None end -> pa_stop p = 0%nat).

Lemma keycols x : In x (t_idx t) -> forall k, In k (x_keys x) -> exists c, keycol cols t k c.
Proof. intros Hx k Hk. destruct (to_keys _ _ Ht x Hx) as (_ & _ & K). destruct (K k Hk) as (c & Ec & Kc & Nn). exists c. split; [exact Ec|]. split; [exact Kc|]. split; [exact Nn|]. eauto. Qed.

Lemma create_ok x : In x (t_idx t) -> exists p, path_create mag junk (x_keys x) (wops w) = Ok p /\ path_ok (x_keys x) p.
Proof.
  intros Hx. unfold path_create. destruct (path_loop_ok mag junk mixed cols t w Hw (x_keys x) (keycols x Hx) 0 true true) as (l & n1 & n2 & n3 & -> & I & Le & Eq & St).
  cbn [bind]. eexists. split; [reflexivity|]. unfold path_ok; cbn [pa_keys pa_lookup pa_stop]. split; [exact I|]. split; [|exact St].
  intros E. apply Nat.eqb_eq in E. destruct (Eq E) as [Z0|[_ F]]; [|exact F]. destruct (to_keys _ _ Ht x Hx) as (N & _). contradiction.
Qed.

Lemma choose_ok idx : forall pp px order at_, (forall x, In x idx -> In x (t_idx t)) -> (forall i x, nth_error idx i = Some x -> nth_error (t_idx t) (order + i) = Some x) ->
  path_ok (x_keys px) pp -> nth_error (t_idx t) at_ = Some px ->
  exists p x i, path_choose mag junk (wops w) pp px idx order at_ = Ok (p, x, i) /\ nth_error (t_idx t) i = Some x /\ path_ok (x_keys x) p.
Proof.
  induction idx as [|x idx IH]; intros pp px order at_ Hi Hn Hp Ha; cbn [path_choose]; [eauto 6|].
  destruct (create_ok x (Hi x (or_introl eq_refl))) as (p & -> & Op). cbn [bind].
  assert (Hn' : forall i y, nth_error idx i = Some y -> nth_error (t_idx t) (S order + i) = Some y). { intros i y E. rewrite <- (Hn (S i) y E). f_equal. lia. }
  destruct (path_prepare_match pp px p x).
  - apply IH; auto; [intros y Hy; apply Hi; now right|]. rewrite <- (Hn 0%nat x eq_refl). f_equal. lia.
  - apply IH; auto. intros y Hy; apply Hi; now right.
Qed.
Lemma prepare_ok use : (forall i, use = Some i -> (i < length (t_idx t))%nat) ->
  exists pp p x i, path_prepare_target mag junk (t_idx t) use w = Ok (pp, (p, x, i)) /\ nth_error (t_idx t) i = Some x /\ path_ok (x_keys x) p /\ path_ok (primary t) pp.
Proof.
  intros Hu. unfold path_prepare_target, primary. change (match w with Some c => path_ops c | None => [] end) with (wops w). pose proof (to_idx _ _ Ht) as Ne. destruct (t_idx t) as [|pr rest] eqn:Ei; [congruence|].
  assert (Hp : In pr (t_idx t)) by (rewrite Ei; now left). destruct (create_ok pr Hp) as (pp & Epp & Op). destruct use as [i|].
  - destruct (nth_error (pr :: rest) i) as [x|] eqn:Ex; [|exfalso; apply nth_error_None in Ex; specialize (Hu i eq_refl); lia].
    destruct (create_ok x) as (p & -> & Opx); [rewrite Ei; exact (nth_error_In _ _ Ex)|]. cbn [bind]. destruct (Nat.eqb i 0) eqn:E0.
    + apply Nat.eqb_eq in E0. subst i. cbn in Ex. injection Ex as <-. cbn [bind]. exists p, p, pr, 0%nat. auto.
    + rewrite Epp. cbn [bind]. exists pp, p, x, i. auto.
  - rewrite Epp. cbn [bind]. destruct (choose_ok rest pp pr 1 0) as (p & x & i & -> & Ex & Opx); auto.
    + intros y Hy. rewrite Ei. now right.
    + intros i x E. rewrite Ei. exact E.
    + rewrite Ei. reflexivity.
    + cbn [bind]. rewrite Ei in Ex. eauto 10.
Qed.

(** ** the key of the scan *)
Lemma scan_key_ok l : forall order ks, (forall k, In k ks -> exists c, keycol cols t k c) -> Invs order ks l ->
  exists vals, scan_key l = Ok vals /\ (length vals <= length ks)%nat /\
    (forall o k c d, nth_error ks o = Some k -> nth_error cols k = Some c -> nth_error vals o = Some d -> holds c d /\ Z.of_nat (length cols) * (weight d + 20) + 7 <= 2147483647) /\
    (forall vs, matches vs -> prefix_order ks vals vs <> Gt) /\
    (Forall is_eq l -> length vals = length ks /\ forall vs, matches vs -> prefix_order ks vals vs = Eq /\ vals = key_of ks vs).
Proof.
  induction l as [|pk l IH]; intros order ks Hk I; (destruct ks as [|k ks]; cbn in I; [|try (destruct I; fail)]); try (destruct I; fail).
  - exists []. split; [reflexivity|]. split; [cbn; lia|]. split; [intros n k c d E; destruct n; discriminate|]. split; [intros vs _; cbn; discriminate|]. intros _. split; [reflexivity|]. intros vs _. split; reflexivity.
  - destruct I as [Ik Il]. cbn [scan_key]. destruct (Hk k (or_introl eq_refl)) as (c0 & Kc). destruct (pk_start pk) as [[o v]|] eqn:Es.
    + destruct (iv_start _ _ _ _ _ _ Ik o v Es) as [Bv Hv]. rewrite (fixed_value None v (proj2 Bv)). cbn [bind].
      destruct (IH (S order) ks (fun j Hj => Hk j (or_intror Hj)) Il) as (vals & -> & Le & Ty & Po & Lk). cbn [bind].
      destruct (bound_typed cols t w Hw k c0 v Kc Bv) as (Tv & _ & Wv).
      eexists. split; [reflexivity|]. split; [cbn; lia|]. split; [|split].
      * intros [|n] k' c d Ek Ec Ed; cbn in Ek, Ed; [injection Ek as <-; injection Ed as <-|exact (Ty n k' c d Ek Ec Ed)]. assert (c = c0) by (destruct Kc as (E & _); congruence). subst c. auto.
      * intros vs M. cbn [prefix_order]. destruct (Hv vs M) as [H1 _]. destruct (val_order (operand_in [] v) (nth k vs DNull)); [now apply Po|discriminate|congruence].
      * intros F. inversion F as [|? ? F1 F2]; subst. destruct (Lk F2) as [L1 L2]. split; [cbn; lia|]. intros vs M. destruct (L2 vs M) as [L3 L4].
        destruct F1 as (v' & Ev'). rewrite Es in Ev'. injection Ev' as -> <-. destruct (Hv vs M) as [_ H2]. specialize (H2 eq_refl). cbn [prefix_order key_of map]. rewrite H2. split; [exact L3|]. unfold key_of in L4. rewrite <- L4. f_equal.
        apply val_order_eq; [|exact H2]. apply (holds_kind c0); [exact (proj1 (proj2 Kc))|exact Tv|]. exact (col_holds cols t k c0 vs Kc (proj1 M)).
    + exists []. split; [reflexivity|]. split; [cbn; lia|]. split; [intros n k' c d _ _ E; destruct n; discriminate|]. split; [intros vs _; cbn; discriminate|].
      intros F. inversion F as [|? ? (v & Ev) F2]; subst. congruence.
Qed.
Lemma as_keys_ok ks : (forall k, In k ks -> exists c, keycol cols t k c) -> forall vals, (length vals <= length ks)%nat ->
  (forall o k c d, nth_error ks o = Some k -> nth_error cols k = Some c -> nth_error vals o = Some d -> holds c d) -> as_keys stale cols ks vals = vals.
Proof.
  induction ks as [|k ks IH]; intros Hk vals Le Ty; destruct vals as [|v vals]; cbn in Le; try lia; try reflexivity. cbn [as_keys].
  destruct (Hk k (or_introl eq_refl)) as (c & Ec & Kc & _). f_equal.
  - rewrite (nth_error_nth _ _ _ Ec). pose proof (Ty 0%nat k c v eq_refl Ec eq_refl) as Hv. clear -Hv Kc. unfold as_key, holds, key_col in *. destruct (c_type c); try reflexivity; try contradiction.
    all: destruct v; try contradiction; try reflexivity; destruct (c_size c =? 16); reflexivity.
  - apply IH; [intros j Hj; apply Hk; now right|lia|]. intros o k' c' d E1 E2 E3. exact (Ty (S o) k' c' d E1 E2 E3).
Qed.
Lemma weights_sum vals : Forall (fun d => Z.of_nat (length cols) * (weight d + 20) + 7 <= 2147483647) vals -> (length vals <= length cols)%nat ->
  fold_right Z.add 0 (map weight vals) + 20 * Z.of_nat (length cols) + 7 <= 2147483647.
Proof.
  intros F L. assert (W : forall d, 0 <= weight d) by (intros d0; unfold weight, zlen; destruct d0; lia).
  pose proof (to_cols _ _ Ht) as Hc. remember (Z.of_nat (length cols)) as n eqn:En.
  assert (G : forall l, Forall (fun d => n * (weight d + 20) + 7 <= 2147483647) l -> n * fold_right Z.add 0 (map weight l) + Z.of_nat (length l) * (20 * n + 7) <= Z.of_nat (length l) * 2147483647).
  { induction 1 as [|d l Hd Hl IH]; [cbn; lia|]. cbn [map fold_right length]. rewrite Nat2Z.inj_succ. nia. }
  specialize (G vals F). destruct (Z.eq_dec n 0) as [N0|N0].
  - destruct vals; [cbn [map fold_right]; lia|]. exfalso. cbn [length] in L. lia.
  - assert (Hn : 0 < n) by lia. assert (Lz : Z.of_nat (length vals) <= n) by lia. set (S := fold_right Z.add 0 (map weight vals)) in *. clearbody S.
    assert (n * S + Z.of_nat (length vals) * (20 * n + 7) <= Z.of_nat (length vals) * 2147483647) by exact G.
    assert (n * S <= n * (2147483647 - (20 * n + 7))) by nia. nia.
Qed.

(** ** the loop *)
Notation go_value stop vs := (match stop with None => Ok true | Some (o, a, b) => cmp_value mixed (Some vs) o a b end) (only parsing).
Definition stop_ok (stop : option (cmpop * operand * operand)) (l : list (list Z)) : Prop :=
  forall l1 r l2 vs, l = l1 ++ r :: l2 -> made cols vs r -> exists g, go_value stop vs = Ok g /\ (g = false -> row_true r = false /\ forall b, In b l2 -> row_true b = false).
Lemma filter_none {A} (f : A -> bool) l : (forall a, In a l -> f a = false) -> filter f l = [].
Proof. induction l as [|a l IH]; intros H; [reflexivity|]. cbn. rewrite (H a) by now left. apply IH. intros b Hb. apply H. now right. Qed.
Lemma scan_loop_ok stop once l : (forall r, In r l -> exists vs, made cols vs r) -> stop_ok stop l ->
  (once = true -> forall b, In b (tl l) -> row_true b = false) ->
  scan_loop mixed cols stop w once l = Ok (filter row_true l).
Proof.
  induction l as [|r l IH]; intros Hm Hs Ho; [reflexivity|]. cbn [scan_loop filter]. destruct (Hm r (or_introl eq_refl)) as (vs & M). rewrite (read_ok _ _ _ M). cbn [bind].
  destruct (Hs [] r l vs eq_refl M) as (g & -> & Hg). cbn [bind]. destruct g.
  - pose proof (proj2 (row_true_iff vs r M)) as Ew. unfold where_value in Ew. rewrite Ew. cbn [bind].
    assert (E : (if once then Ok [] else scan_loop mixed cols stop w once l) = Ok (filter row_true l)).
    { destruct once; [rewrite filter_none; [reflexivity|exact (Ho eq_refl)]|]. apply IH; [intros q Hq; apply Hm; now right| |discriminate].
      intros l1 q l2 us -> Mq. apply (Hs (r :: l1) q l2 us eq_refl Mq). }
    rewrite E. cbn [bind]. reflexivity.
  - destruct (Hg eq_refl) as [H1 H2]. rewrite H1, (filter_none _ l H2). reflexivity.
Qed.

Lemma key_order_opp ks a : forall b, key_order_of ks b a = CompOpp (key_order_of ks a b).
Proof. intros b. induction ks as [|k ks IH]; [reflexivity|]. cbn. rewrite (val_order_opp (nth k a DNull)). destruct (val_order (nth k a DNull) (nth k b DNull)); cbn; auto. Qed.
Lemma prefix_key ks a b : prefix_order ks (key_of ks a) b = key_order_of ks a b.
Proof. induction ks as [|k ks IH]; [reflexivity|]. cbn. unfold key_of in IH. destruct (val_order _ _); auto. Qed.
Lemma key_order_key ks a b : (forall k, In k ks -> exists c, keycol cols t k c) -> Forall2 fits cols a -> Forall2 fits cols b -> key_order_of ks a b = Eq -> key_of ks a = key_of ks b.
Proof.
  intros Hk Fa Fb. induction ks as [|k ks IH]; [reflexivity|]. cbn. destruct (Hk k (or_introl eq_refl)) as (c & Kc).
  destruct (val_order (nth k a DNull) (nth k b DNull)) eqn:E; try discriminate. intros H. f_equal; [|apply IH; auto; intros j Hj; apply Hk; now right].
  apply val_order_eq; [|exact E]. apply (holds_kind c); [exact (proj1 (proj2 Kc))|now apply (col_holds cols t)|now apply (col_holds cols t)].
Qed.
Lemma made_fits vs r : made cols vs r -> Forall2 fits cols vs.
Proof. intros M. exact (proj1 (proj2 (proj2 (made_row _ _ _ M)))). Qed.

Lemma below_sat o a b u : same_kind a b -> same_kind b u -> val_order a b <> Gt ->
  ((o = OpLt \/ o = OpLe) -> sat mixed o b u -> sat mixed o a u) /\ ((o = OpGt \/ o = OpGe) -> sat mixed o u b -> sat mixed o u a).
Proof.
  intros K1 K2 L. assert (K3 : same_kind a u) by (destruct a, b; cbn in *; try tauto; destruct u; tauto).
  assert (K2' : same_kind u b) by (destruct b, u; cbn in *; tauto). assert (K3' : same_kind u a) by (destruct a, u; cbn in *; tauto).
  assert (O : val_order a u = Lt \/ val_order a u = val_order b u \/ val_order b u = Gt).
  { destruct (val_order a b) eqn:E; [apply val_order_eq in E; [subst; auto|exact K1]| |congruence]. destruct (val_order b u) eqn:E2; auto.
    - apply val_order_eq in E2; [|exact K2]. subst u. rewrite E. auto.
    - left. exact (val_order_trans a b u K1 K2 E E2). }
  split; intros [-> | ->] S; apply sat_order in S; auto; apply sat_order; auto; rewrite ?(val_order_opp a u), ?(val_order_opp b u) in *;
    destruct (val_order a u), (val_order b u); cbn in *; intuition congruence.
Qed.

Lemma stop_tree x k ks pk l : In x (t_idx t) -> x_hash x = false -> x_keys x = k :: ks -> Inv 0 k pk ->
  (forall r, In r l -> exists vs, made cols vs r) -> in_order cols x l -> stop_ok (pk_stop pk) l.
Proof.
  intros Hx Xh Xk I Hm Ho l1 r l2 vs -> M. destruct (pk_stop pk) as [[[o a] b]|] eqn:Es; [|exists true; split; [reflexivity|discriminate]].
  destruct (iv_stop _ _ _ _ _ _ I o a b Es) as (_ & Hc & _ & Sh). destruct (cmps_operands w _ _ _ Hc) as [Oa Ob]. destruct Hw as (Hn & _).
  pose proof (proj1 (C31_partial _ _ _ M)) as Len.
  rewrite cmp_open; [|intros m j; rewrite Len; exact (Hn a m j Oa)|intros m j; rewrite Len; exact (Hn b m j Ob)]. eexists. split; [reflexivity|]. intros Eg.
  assert (Ng : ~ sat mixed o (operand_in vs a) (operand_in vs b)) by (intros S; apply compare_sat in S; congruence). split.
  - destruct (row_true r) eqn:R; [|reflexivity]. exfalso. apply Ng. apply (cmps_true mixed vs w o a b); [|exact Hc]. now apply (row_true_iff vs r M).
  - intros q Hq. destruct (row_true q) eqn:R; [|reflexivity]. exfalso. destruct (Hm q) as (us & Mq); [apply in_or_app; right; now right|].
    pose proof (row_true_matches us q Mq R) as [_ Tq]. pose proof (cmps_true mixed us w o a b Tq Hc) as Sq.
    assert (Lt0 : key_order_of (x_keys x) vs us = Lt).
    { assert (P : ForallOrdPairs (fun a b => forall va vb, made cols va a -> made cols vb b -> if x_hash x then key_of (x_keys x) va <> key_of (x_keys x) vb else key_order_of (x_keys x) va vb = Lt) (r :: l2)).
      { clear -Ho. unfold in_order in Ho. induction l1 as [|z l1 IH]; [exact Ho|]. apply IH. cbn in Ho. now inversion Ho. }
      inversion P as [|? ? P1 P2]; subst. rewrite Forall_forall in P1. specialize (P1 q Hq vs us M Mq). rewrite Xh in P1. exact P1. }
    rewrite Xk in Lt0. cbn in Lt0. assert (N : val_order (nth k vs DNull) (nth k us DNull) <> Gt) by (destruct (val_order (nth k vs DNull) (nth k us DNull)); congruence).
    destruct (keycols x Hx k) as (c & Kc); [rewrite Xk; now left|].
    assert (H1 : holds c (nth k vs DNull)) by (apply (col_holds cols t); [exact Kc|exact (made_fits _ _ M)]). assert (H2 : holds c (nth k us DNull)) by (apply (col_holds cols t); [exact Kc|exact (made_fits _ _ Mq)]).
    pose proof (proj1 (proj2 Kc)) as Kk. apply Ng. destruct Sh as [(Ol & Eo & Br)|(Or & _ & Eo & Bl)].
    + rewrite (own_in a k vs Ol), (fixed_in b vs []) by exact (proj2 Br). rewrite (own_in a k us Ol), (fixed_in b us []) in Sq by exact (proj2 Br).
      destruct (bound_typed cols t w Hw k c b Kc Br) as (Tb & _). refine (proj1 (below_sat o _ _ _ _ _ N) Eo Sq); eapply holds_kind; eauto.
    + rewrite (own_in b k vs Or), (fixed_in a vs []) by exact (proj2 Bl). rewrite (own_in b k us Or), (fixed_in a us []) in Sq by exact (proj2 Bl).
      destruct (bound_typed cols t w Hw k c a Kc Bl) as (Ta & _). refine (proj2 (below_sat o _ _ _ _ _ N) Eo Sq); eapply holds_kind; eauto.
Qed.

Lemma open_tree_ok ks key l : (forall r, In r l -> exists rc, compare mag cols ks key r = Ok rc /\ (row_true r = true -> rc <= 0)) ->
  exists l1 l2, l = l1 ++ l2 /\ open_tree mag cols ks key l = Ok l2 /\ (forall r, In r l1 -> row_true r = false) /\
    forall r l3, l2 = r :: l3 -> exists rc, compare mag cols ks key r = Ok rc /\ rc <= 0.
Proof.
  induction l as [|r l IH]; intros H; [exists [], []; repeat split; auto; try discriminate; intros ? []|]. cbn [open_tree].
  destruct (H r (or_introl eq_refl)) as (rc & Erc & Hr). rewrite Erc. cbn [bind]. destruct (0 <? rc) eqn:E.
  - destruct IH as (l1 & l2 & -> & -> & H1 & H2); [intros q Hq; apply H; now right|]. exists (r :: l1), l2. split; [reflexivity|]. split; [reflexivity|]. split; [|exact H2].
    intros q [<-|Hq]; [|now apply H1]. destruct (row_true r); [|reflexivity]. specialize (Hr eq_refl). apply Z.ltb_lt in E. lia.
  - exists [], (r :: l). split; [reflexivity|]. split; [reflexivity|]. split; [intros ? []|]. intros q l3 [= <- <-]. exists rc. split; [exact Erc|]. apply Z.ltb_ge in E. lia.
Qed.
Lemma open_hash_ok ks key l : (forall r, In r l -> exists rc, compare mag cols ks key r = Ok rc /\ (row_true r = true -> rc = 0)) ->
  exists l1 l2, l = l1 ++ l2 /\ open_hash mag cols ks key l = Ok l2 /\ (forall r, In r l1 -> row_true r = false) /\
    forall r l3, l2 = r :: l3 -> compare mag cols ks key r = Ok 0.
Proof.
  induction l as [|r l IH]; intros H; [exists [], []; repeat split; auto; try discriminate; intros ? []|]. cbn [open_hash].
  destruct (H r (or_introl eq_refl)) as (rc & Erc & Hr). rewrite Erc. cbn [bind]. destruct (rc =? 0) eqn:E.
  - apply Z.eqb_eq in E. subst rc. exists [], (r :: l). split; [reflexivity|]. split; [reflexivity|]. split; [intros ? []|]. intros q l3 [= <- <-]. exact Erc.
  - destruct IH as (l1 & l2 & -> & -> & H1 & H2); [intros q Hq; apply H; now right|]. exists (r :: l1), l2. split; [reflexivity|]. split; [reflexivity|]. split; [|exact H2].
    intros q [<-|Hq]; [|now apply H1]. destruct (row_true r); [|reflexivity]. specialize (Hr eq_refl). apply Z.eqb_neq in E. lia.
Qed.

Lemma nth_error_Some_lt {A} (l : list A) i a : nth_error l i = Some a -> (i < length l)%nat.
Proof. intros E. apply nth_error_Some. congruence. Qed.
Lemma fop_tail {A} (R : A -> A -> Prop) l1 : forall l2, ForallOrdPairs R (l1 ++ l2) -> ForallOrdPairs R l2.
Proof. induction l1 as [|a l1 IH]; intros l2 H; [exact H|]. apply IH. cbn in H. now inversion H. Qed.

Lemma scan_table_ok x p l : In x (t_idx t) -> path_ok (x_keys x) p ->
  (forall r, In r l -> exists vs, made cols vs r /\ no_negative_time cols (x_keys x) vs) -> in_order cols x l ->
  scan_table mag mem mixed stale cols p x w l = Ok (filter row_true l).
Proof.
  intros Hx (I & Lk & St) Hr Ho. destruct (to_keys _ _ Ht x Hx) as (Ne & Nd & KO). pose proof (keycols x Hx) as KC.
  assert (Hm : forall r, In r l -> exists vs, made cols vs r) by (intros r Hi; destruct (Hr r Hi) as (vs & M & _); eauto).
  destruct (x_keys x) as [|k ks] eqn:Xk; [congruence|]. destruct (pa_keys p) as [|pk pks] eqn:Pk; [destruct I|].
  pose proof I as [I0 _].
  assert (Hh : x_hash x = true -> pk_stop pk = None).
  { intros Xh. destruct (pk_stop pk) as [[[o a] b]|] eqn:Es; [|reflexivity]. destruct (iv_stop _ _ _ _ _ _ I0 o a b Es) as (_ & _ & U & _). exfalso. destruct Hw as (_ & _ & _ & _ & _ & HH). exact (HH x k ks Hx Xh Xk U). }
  unfold scan_table. rewrite Pk, Xk.
  replace (x_hash x && Nat.ltb 0 (pa_stop p)) with false. 2:{ destruct (x_hash x); [|reflexivity]. rewrite (St (Hh eq_refl)). reflexivity. }
  destruct (scan_key_ok (pk :: pks) 0 (k :: ks) KC I) as (vals & -> & Le & Ty & Po & Eqs). cbn [bind].
  rewrite (as_keys_ok (k :: ks) KC vals Le) by (intros o j c d E1 E2 E3; exact (proj1 (Ty o j c d E1 E2 E3))).
  assert (Wf : Forall (fun d => Z.of_nat (length cols) * (weight d + 20) + 7 <= 2147483647) vals).
  { apply Forall_forall. intros d Hd. apply In_nth_error in Hd. destruct Hd as (o & Eo). destruct (nth_error (k :: ks) o) as [j|] eqn:Ej; [|exfalso; apply nth_error_None in Ej; apply nth_error_Some_lt in Eo; lia].
    destruct (KC j (nth_error_In _ _ Ej)) as (c & Ec & _). exact (proj2 (Ty o j c d Ej Ec Eo)). }
  assert (Lc : (length vals <= length cols)%nat).
  { etransitivity; [exact Le|]. rewrite <- (seq_length (length cols) 0). apply NoDup_incl_length; [exact Nd|]. intros j Hj. destruct (KC j Hj) as (c & Ec & _). apply in_seq. apply nth_error_Some_lt in Ec. lia. }
  destruct (C67_search_key mem mag cols (k :: ks) vals Hmem Hmag KO Nd) as (key & -> & Ck).
  { intros o j c d E1 E2 E3. exact (proj1 (Ty o j c d E1 E2 E3)). } { exact (weights_sum vals Wf Lc). } { exact (to_cols _ _ Ht). }
  cbn [bind].
  assert (Cmp : forall r, In r l -> exists vs rc, made cols vs r /\ compare mag cols (k :: ks) key r = Ok rc /\
    match prefix_order (k :: ks) vals vs with Gt => 0 < rc | Lt => rc < 0 | Eq => rc <= 0 /\ ((length (k :: ks) <= length vals)%nat -> rc = 0) end).
  { intros r Hi. destruct (Hr r Hi) as (vs & M & Tm). destruct (Ck vs r M Tm) as (rc & Erc & Hrc). eauto. }
  assert (HL : pa_lookup p = true -> length vals = length (k :: ks) /\ forall vs, matches vs -> prefix_order (k :: ks) vals vs = Eq /\ vals = key_of (k :: ks) vs) by (intros E; exact (Eqs (Lk E))).
  destruct (x_hash x) eqn:Xh.
  - assert (Sn : pk_stop pk = None) by (apply Hh; reflexivity). rewrite Sn. destruct (pa_lookup p) eqn:El.
    + destruct (HL eq_refl) as [L1 L2].
      destruct (open_hash_ok (k :: ks) key l) as (l1 & l2 & -> & -> & F1 & F2).
      { intros r Hi. destruct (Cmp r Hi) as (vs & rc & M & Erc & Hrc). exists rc. split; [exact Erc|]. intros R. destruct (L2 vs (row_true_matches vs r M R)) as [P _]. rewrite P in Hrc. apply Hrc. lia. }
      cbn [bind]. rewrite filter_app, (filter_none row_true l1 F1). cbn [app]. apply scan_loop_ok; [intros r Hi; apply Hm, in_or_app; now right|intros q1 r q2 vs _ _; exists true; split; [reflexivity|discriminate]|].
      intros _ b Hb. destruct l2 as [|f l2]; [destruct Hb|]. cbn [tl] in Hb. destruct (row_true b) eqn:R; [|reflexivity]. exfalso.
      destruct (Cmp f) as (vf & rf & Mf & Erf & Hrf); [apply in_or_app; right; now left|]. destruct (Hm b) as (vb & Mb); [apply in_or_app; right; now right|].
      destruct (L2 vb (row_true_matches vb b Mb R)) as [_ Vb]. rewrite (F2 f l2 eq_refl) in Erf. injection Erf as <-. rewrite Vb, prefix_key in Hrf.
      assert (Ek : key_order_of (k :: ks) vb vf = Eq) by (destruct (key_order_of (k :: ks) vb vf); [reflexivity|lia|lia]).
      apply key_order_key in Ek; [|exact KC|exact (made_fits _ _ Mb)|exact (made_fits _ _ Mf)].
      apply fop_tail in Ho. inversion Ho as [|? ? P1 P2]; subst. rewrite Forall_forall in P1. specialize (P1 b Hb vf vb Mf Mb). rewrite Xh in P1. rewrite Xk in P1. congruence.
    + cbn [bind]. apply scan_loop_ok; [exact Hm|intros q1 r q2 vs _ _; exists true; split; [reflexivity|discriminate]|]. cbn. discriminate.
  - destruct (open_tree_ok (k :: ks) key l) as (l1 & l2 & El & -> & F1 & F2).
    { intros r Hi. destruct (Cmp r Hi) as (vs & rc & M & Erc & Hrc). exists rc. split; [exact Erc|]. intros R. pose proof (Po vs (row_true_matches vs r M R)) as P. destruct (prefix_order (k :: ks) vals vs); [tauto|lia|congruence]. }
    cbn [bind]. subst l. rewrite filter_app, (filter_none row_true l1 F1). cbn [app].
    pose proof (fop_tail _ l1 l2 Ho) as Ho2. assert (Hm2 : forall r, In r l2 -> exists vs, made cols vs r) by (intros r Hi; apply Hm, in_or_app; now right).
    apply scan_loop_ok; [exact Hm2|exact (stop_tree x k ks pk l2 Hx Xh Xk I0 Hm2 Ho2)|].
    intros Eo b Hb. apply andb_true_iff in Eo. destruct Eo as [E1 _]. destruct (HL E1) as [L1 L2]. destruct l2 as [|f l2]; [destruct Hb|]. cbn [tl] in Hb. destruct (row_true b) eqn:R; [|reflexivity]. exfalso.
    destruct (Cmp f) as (vf & rf & Mf & Erf & Hrf); [apply in_or_app; right; now left|]. destruct (Hm2 b) as (vb & Mb); [now right|].
    destruct (L2 vb (row_true_matches vb b Mb R)) as [_ Vb]. destruct (F2 f l2 eq_refl) as (rc & Erc & Lrc). assert (rc = rf) by congruence. subst rc. rewrite Vb, prefix_key in Hrf.
    inversion Ho2 as [|? ? P1 P2]; subst. rewrite Forall_forall in P1. specialize (P1 b Hb vf vb Mf Mb). rewrite Xh, Xk in P1. rewrite key_order_opp, P1 in Hrf. cbn in Hrf. lia.
Qed.
End Scan.
