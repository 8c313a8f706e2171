(** C75: an index never changes the result of a query. *)
From Coq Require Import Permutation.
From Verif Require Import Base JsonModel JsonSpec RowModel RowSpec RowProofs RowKeys RowMap RowProps ScanModel ScanSpec ScanProofs ScanProofs2 ScanEx.

Section Query.
Variable mag : Z -> Z -> Z.
Variable mem : Z -> list Z.
Variable junk : operand -> Z.
Variable mixed : cmpop -> dval -> dval -> bool.
Variable stale : Z.
Variable cols : list column.
Variable t : table.
Variable w : option cond.
Hypothesis Hmem : heap_ok mem.
Hypothesis Hmag : memcmp_ok mag.
Hypothesis Ht : table_ok cols t.
Hypothesis Hw : where_ok cols t w.
Notation row_true := (row_true mixed cols w).

Lemma in_rows_of tp r : In tp (t_parts t) -> In r (hd [] (tp_rows tp)) -> In r (rows_of t).
Proof. intros H1 H2. unfold rows_of. apply in_concat. exists (hd [] (tp_rows tp)). split; [apply in_map_iff; eauto|exact H2]. Qed.
Lemma part_made tp r : In tp (t_parts t) -> In r (hd [] (tp_rows tp)) -> exists vs p, made cols vs r /\ part_mapping_map (t_map t) cols (primary t) r = Ok (Some p) /\ p_id p = p_id (tp_part tp).
Proof. intros H1. apply (to_parts _ _ Ht tp H1). Qed.

Lemma scan_parts_ok x i p : nth_error (t_idx t) i = Some x -> path_ok mixed cols w (x_keys x) p -> forall parts, incl parts (t_parts t) ->
  exists rs, scan_parts mag mem mixed stale cols p x i w parts = Ok rs /\ Permutation rs (filter row_true (concat (map (fun tp => hd [] (tp_rows tp)) parts))).
Proof.
  intros Ex Op. induction parts as [|tp parts IH]; intros Hi; [exists []; split; [reflexivity|constructor]|]. cbn [scan_parts map concat].
  pose proof (Hi tp (or_introl eq_refl)) as Hp. destruct (to_parts _ _ Ht tp Hp) as (Len & Perm & Ord & _).
  destruct (nth_error (tp_rows tp) i) as [l|] eqn:El; [|exfalso; apply nth_error_None in El; apply nth_error_Some_lt in Ex; lia].
  pose proof (nth_error_In _ _ Ex) as Hx. rewrite (scan_table_ok mag mem junk mixed stale cols t w Hmem Hmag Ht Hw x p l Hx Op).
  - cbn [bind]. destruct IH as (b & -> & Pb); [intros q Hq; apply Hi; now right|]. cbn [bind]. eexists. split; [reflexivity|]. rewrite filter_app. apply Permutation_app; [|exact Pb].
    pose proof (Perm i l El) as P. clear -P. induction P; cbn; try (destruct (row_true x)); auto; [destruct (row_true y); auto; constructor|etransitivity; eassumption].
  - intros r Hr. pose proof (Permutation_in r (Perm i l El) Hr) as Hr'. destruct (part_made tp r Hp Hr') as (vs & _ & M & _). exists vs. split; [exact M|]. exact (to_time _ _ Ht r vs (in_rows_of tp r Hp Hr') M x Hx).
  - exact (Ord i x l Ex El).
Qed.

Lemma nodup_app {A} (l1 l2 : list A) : NoDup l1 -> NoDup l2 -> (forall a, In a l1 -> In a l2 -> False) -> NoDup (l1 ++ l2).
Proof. induction 1 as [|a l Hn Hd IH]; intros H2 H; [exact H2|]. cbn. constructor; [|apply IH; [exact H2|intros b Hb; apply H; now right]]. intros Hi. apply in_app_or in Hi. destruct Hi as [Hi|Hi]; [contradiction|]. exact (H a (or_introl eq_refl) Hi). Qed.
Lemma rows_nodup : NoDup (rows_of t).
Proof.
  unfold rows_of. pose proof (to_ids _ _ Ht) as Hid. assert (Hp : incl (t_parts t) (t_parts t)) by apply incl_refl. revert Hid Hp. generalize (t_parts t) at 1 2 4. induction l as [|tp l IH]; intros Hid Hp; cbn [map concat]; [constructor|].
  inversion Hid as [|? ? Hn Hid']; subst. pose proof (Hp tp (or_introl eq_refl)) as Htp. destruct (to_parts _ _ Ht tp Htp) as (Len & Perm & Ord & _). apply nodup_app.
  - pose proof (to_idx _ _ Ht) as Ne. destruct (t_idx t) as [|x idx] eqn:Ei; [congruence|]. destruct (tp_rows tp) as [|l0 ls] eqn:El; [constructor|]. cbn [hd] in *. specialize (Ord 0%nat x l0 eq_refl eq_refl). unfold in_order in Ord.
    assert (Hm : forall r, In r l0 -> exists vs, made cols vs r). { intros r Hr. destruct (part_made tp r Htp) as (vs & _ & M & _); [rewrite El; exact Hr|eauto]. }
    clear -Ord Hm. induction Ord as [|a l Ha Ho IHo]; constructor; [|apply IHo; intros r Hr; apply Hm; now right]. intros Hi. rewrite Forall_forall in Ha. destruct (Hm a (or_introl eq_refl)) as (vs & M). specialize (Ha a Hi vs vs M M). destruct (x_hash x); [congruence|].
    clear -Ha. induction (x_keys x) as [|k ks IHk]; cbn in Ha; [discriminate|]. replace (val_order (nth k vs DNull) (nth k vs DNull)) with Eq in Ha; [auto|]. symmetry. pose proof (val_order_opp (nth k vs DNull) (nth k vs DNull)) as E. destruct (val_order _ _); cbn in E; congruence.
  - apply IH; [exact Hid'|]. intros q Hq. apply Hp. now right.
  - intros r H1 H2. apply in_concat in H2. destruct H2 as (lr & H2 & H3). apply in_map_iff in H2. destruct H2 as (tq & <- & Hq).
    destruct (part_made tp r Htp H1) as (_ & p1 & _ & E1 & I1). destruct (part_made tq r (Hp tq (or_intror Hq)) H3) as (_ & p2 & _ & E2 & I2). rewrite E1 in E2. injection E2 as <-.
    apply Hn. apply in_map_iff. exists tq. split; [congruence|exact Hq].
Qed.

Definition rows_true (rs : list (list Z)) : Prop := NoDup rs /\ forall r, In r rs <-> In r (rows_of t) /\ exists vs, made cols vs r /\ where_true mixed vs w.
Lemma made_of r : In r (rows_of t) -> exists vs, made cols vs r.
Proof. intros H. unfold rows_of in H. apply in_concat in H. destruct H as (l & H1 & H2). apply in_map_iff in H1. destruct H1 as (tp & <- & Hp). destruct (part_made tp r Hp H2) as (vs & _ & M & _). eauto. Qed.
Lemma perm_rows_true rs : Permutation rs (filter row_true (rows_of t)) -> rows_true rs.
Proof.
  intros P. split; [apply (Permutation_NoDup (Permutation_sym P)), NoDup_filter, rows_nodup|]. intros r. split.
  - intros H. apply (Permutation_in _ P) in H. apply filter_In in H. destruct H as [H1 H2]. split; [exact H1|]. destruct (made_of r H1) as (vs & M). exists vs. split; [exact M|]. now apply (row_true_iff mixed cols t w Hw vs r M).
  - intros (H1 & vs & M & T). apply (Permutation_in _ (Permutation_sym P)). apply filter_In. split; [exact H1|]. now apply (row_true_iff mixed cols t w Hw vs r M).
Qed.

Lemma primary_in : exists x, In x (t_idx t) /\ primary t = x_keys x.
Proof. unfold primary. pose proof (to_idx _ _ Ht) as Ne. destruct (t_idx t) as [|x l]; [congruence|]. exists x. split; [now left|reflexivity]. Qed.

(** rows of the other partitions are not true *)
Lemma only_part q : (forall r vs p, In r (rows_of t) -> made cols vs r -> row_true r = true -> part_mapping_map (t_map t) cols (primary t) r = Ok (Some p) -> p = q) ->
  filter row_true (concat (map (fun tp => hd [] (tp_rows tp)) (filter (fun tp => same_part (tp_part tp) q) (t_parts t)))) = filter row_true (rows_of t).
Proof.
  intros H. unfold rows_of. assert (Hi : incl (t_parts t) (t_parts t)) by apply incl_refl. revert Hi. generalize (t_parts t) at 1 3 4. induction l as [|tp l IH]; intros Hi; [reflexivity|]. cbn [filter].
  assert (Hi' : incl l (t_parts t)) by (intros z Hz; apply Hi; now right). pose proof (Hi tp (or_introl eq_refl)) as Hp. cbn [map concat]. rewrite filter_app. destruct (same_part (tp_part tp) q) eqn:E.
  - cbn [map concat]. rewrite filter_app. 
 f_equal. apply IH, Hi'.
  - rewrite IH by exact Hi'. rewrite (@filter_none row row_true (hd [] (tp_rows tp))); [reflexivity|]. intros r Hr. destruct (row_true r) eqn:R; [|reflexivity]. exfalso.
    destruct (part_made tp r Hp Hr) as (vs & p & M & Em & Ep). rewrite (H r vs p (in_rows_of tp r Hp Hr) M R Em) in Ep. unfold same_part in E. apply Z.eqb_neq in E. congruence.
Qed.

Lemma hash_total ks : (forall k, In k ks -> exists c, keycol cols t k c) -> forall vals h, length vals = length ks ->
  (forall o k c d, nth_error ks o = Some k -> nth_error cols k = Some c -> nth_error vals o = Some d -> holds c d) -> exists z, value_hash_keys_from h cols ks vals = Ok z.
Proof.
  induction ks as [|k ks IH]; intros Hk vals h L Ty; destruct vals as [|v vals]; cbn in L; try lia; [eexists; reflexivity|]. cbn [value_hash_keys_from].
  destruct (Hk k (or_introl eq_refl)) as (c & Ec & Kc & _). rewrite Ec. cbn [bind]. pose proof (Ty 0%nat k c v eq_refl Ec eq_refl) as Hv.
  assert (Y : exists z, value_hash_refs v c [] None h = Ok z). { unfold value_hash_refs, holds, key_col in *. destruct (c_type c); try contradiction; destruct v; try contradiction; cbn; eauto. }
  destruct Y as (z & ->). cbn [bind]. apply IH; [intros j Hj; apply Hk; now right|lia|]. intros o k' c' d E1 E2 E3. exact (Ty (S o) k' c' d E1 E2 E3).
Qed.

Lemma query_ok use : (forall i, use = Some i -> (i < length (t_idx t))%nat) -> exists rs, query mag mem mixed stale cols junk t use w = Ok rs /\ rows_true rs.
Proof.
  intros Hu. unfold query. destruct (prepare_ok mag junk mixed cols t w Ht Hw use Hu) as (pp & p & x & i & -> & Ex & Op & Opp). cbn [bind].
  destruct (pa_lookup pp) eqn:El.
  - destruct primary_in as (px & Hpx & Epx). pose proof (keycols cols t Ht px Hpx) as KC. rewrite <- Epx in KC. destruct Opp as (I & Lk & _).
    destruct (scan_key_ok junk mixed cols t w Hw (pa_keys pp) 0 (primary t) KC I) as (vals & -> & Le & Ty & _ & Eqs). cbn [bind]. destruct (Eqs (Lk El)) as [L1 L2].
    destruct (hash_total (primary t) KC vals 0 L1) as (h & Eh). { intros o k c d E1 E2 E3. exact (proj1 (Ty o k c d E1 E2 E3)). }
    assert (Em0 : row_map_keys (t_map t) cols (match t_idx t with [] => [] | pr :: _ => x_keys pr end) vals = Ok (map_at (t_map t) h)) by exact (f_equal (fun z => do h0 <- z; Ok (map_at (t_map t) h0)) Eh).
    rewrite Em0. cbn [bind]. destruct (to_map _ _ Ht h) as (q & Eq). rewrite Eq.
    destruct (scan_parts_ok x i p Ex Op (filter (fun tp => same_part (tp_part tp) q) (t_parts t))) as (rs & -> & P); [intros tp Hp; now apply filter_In in Hp|].
    exists rs. split; [reflexivity|]. apply perm_rows_true. rewrite only_part in P; [exact P|]. intros r vs p' Hr M R Em.
    destruct (L2 vs (row_true_matches mixed cols t w Hw vs r M R)) as [_ Ev]. destruct (C08_routing (t_map t) cols (primary t)) as (_ & Rt & _); [rewrite Epx; apply (to_keys _ _ Ht px Hpx)|].
    rewrite (Rt vs r M), <- Ev in Em. unfold row_map_keys, value_hash_keys in Em. rewrite Eh in Em. cbn [bind] in Em. congruence.
  - destruct (scan_parts_ok x i p Ex Op (t_parts t) (incl_refl _)) as (rs & -> & P). exists rs. split; [reflexivity|]. now apply perm_rows_true.
Qed.

Lemma vhash_same ks a b : (forall k, In k ks -> nth_error a k = nth_error b k) -> forall h, vhash h cols ks a = vhash h cols ks b.
Proof.
  induction ks as [|k ks IH]; intros H h; [reflexivity|]. cbn [vhash]. rewrite (H k (or_introl eq_refl)). destruct (nth_error cols k); [|reflexivity]. destruct (nth_error b k); [|reflexivity].
  destruct (value_hash _ _ _); cbn [bind]; [apply IH; intros j Hj; apply H; now right|reflexivity|reflexivity].
Qed.
Lemma inner_ok use merged : (forall i, use = Some i -> (i < length (t_idx t))%nat) ->
  (forall x, In x (t_idx t) -> incl (primary t) (x_keys x)) ->
  (forall i x, nth_error (t_idx t) i = Some x -> Permutation (merged i) (rows_of t) /\ in_order cols x (merged i)) ->
  exists rs, scan_inner mag mem mixed stale cols junk t use w merged = Ok rs /\ rows_true rs.
Proof.
  intros Hu Hinc Hmg. unfold scan_inner. destruct (prepare_ok mag junk mixed cols t w Ht Hw use Hu) as (pp & p & x & i & -> & Ex & Op & _). cbn [bind].
  pose proof (nth_error_In _ _ Ex) as Hx. destruct (pa_lookup p) eqn:El.
  - destruct (to_keys _ _ Ht x Hx) as (Ne & Nd & KO). pose proof (keycols cols t Ht x Hx) as KC. pose proof Op as (I & Lk & _).
    destruct (scan_key_ok junk mixed cols t w Hw (pa_keys p) 0 (x_keys x) KC I) as (vals & -> & Le & Ty & _ & Eqs). cbn [bind]. destruct (Eqs (Lk El)) as [L1 L2].
    rewrite (as_keys_ok mixed stale cols t (x_keys x) KC vals Le) by (intros o j c d E1 E2 E3; exact (proj1 (Ty o j c d E1 E2 E3))).
    assert (KS : ksearch cols (x_keys x) vals). { split; [exact Nd|]. split; [intros k Hk; destruct (KO k Hk) as (c & Ec & Kc & _); eauto|intros o j c d E1 E2 E3; exact (proj1 (Ty o j c d E1 E2 E3))]. }
    assert (Wf : Forall (fun d => Z.of_nat (length cols) * (weight d + 20) + 7 <= 2147483647) vals).
    { apply Forall_forall. intros d Hd. apply In_nth_error in Hd. destruct Hd as (o & Eo). destruct (nth_error (x_keys x) o) as [j|] eqn:Ej; [|exfalso; apply nth_error_None in Ej; apply nth_error_Some_lt in Eo; lia].
      destruct (KC j (nth_error_In _ _ Ej)) as (c & Ec & _). exact (proj2 (Ty o j c d Ej Ec Eo)). }
    assert (Lc : (length vals <= length cols)%nat).
    { etransitivity; [exact Le|]. rewrite <- (seq_length (length cols) 0). apply NoDup_incl_length; [exact Nd|]. intros j Hj. destruct (KC j Hj) as (c & Ec & _). apply in_seq. apply nth_error_Some_lt in Ec. lia. }
    destruct (key_row mem cols (x_keys x) vals Hmem KS) as (key & -> & Rk). { split; rewrite kcols_len; [pose proof (key_weight cols (x_keys x) vals KS); pose proof (weights_sum mixed cols t Ht vals Wf Lc); lia|exact (to_cols _ _ Ht)]. }
    cbn [bind].
    assert (At : forall k c, In k (x_keys x) -> nth_error cols k = Some c -> exists o, nth_error (x_keys x) o = Some k /\ kcol (x_keys x) vals k c = nth o vals DNull /\ (o < length vals)%nat).
    { intros k c Hk Ec. destruct (in_split _ _ Hk) as (a & b & E). assert (Np : ~ In k a). { intros Hi. rewrite E in Nd. apply NoDup_remove_2 in Nd. apply Nd. apply in_or_app. now left. }
      exists (length a). assert (Lo : (length a < length vals)%nat) by (rewrite L1, E, app_length; cbn [length]; lia). split; [rewrite E, nth_error_app2, Nat.sub_diag by lia; reflexivity|]. split; [|exact Lo].
      unfold kcol. rewrite E, (find_column_at a k b 0 Np). cbn [Nat.add]. destruct (nth_error vals (length a)) as [d|] eqn:En; [|apply nth_error_None in En; lia]. cbn [kv]. symmetry. now apply nth_error_nth. }
    assert (Kk : keyed cols (primary t) (kcols (x_keys x) vals 0 cols)).
    { intros k Hk. apply (Hinc x Hx) in Hk. destruct (KO k Hk) as (c & Ec & Kc & _). exists c, (kcol (x_keys x) vals k c). split; [exact Ec|]. split; [exact Kc|]. split; [exact (kcols_nth (x_keys x) vals cols 0 k c Ec)|].
      destruct (At k c Hk Ec) as (o & Eo & -> & Lo). destruct (nth_error vals o) as [d|] eqn:En; [|apply nth_error_None in En; lia]. rewrite (nth_error_nth _ _ _ En). exact (proj1 (Ty o k c d Eo Ec En)). }
    destruct (vhash_total cols (primary t) _ Kk 0) as (h & Eh).
    assert (Em0 : part_mapping_map (t_map t) cols (match t_idx t with [] => [] | pr :: _ => x_keys pr end) key = Ok (map_at (t_map t) h)).
    { pose proof (row_hash_ok cols (primary t) _ key Rk Kk 0) as E. rewrite Eh in E. exact (f_equal (fun z => do h0 <- z; Ok (map_at (t_map t) h0)) E). }
    rewrite Em0. cbn [bind]. destruct (to_map _ _ Ht h) as (q & Eq). rewrite Eq.
    destruct (scan_parts_ok x i p Ex Op (filter (fun tp => same_part (tp_part tp) q) (t_parts t))) as (rs & -> & P); [intros tp Hp; now apply filter_In in Hp|].
    exists rs. split; [reflexivity|]. apply perm_rows_true. rewrite only_part in P; [exact P|]. intros r vs p' Hr M R Em.
    destruct (L2 vs (row_true_matches mixed cols t w Hw vs r M R)) as [_ Ev].
    assert (Kp : key_ok cols (primary t)) by (intros k Hk; exact (KO k (Hinc x Hx k Hk))). pose proof (made_keyed _ _ _ _ M Kp) as Kr.
    pose proof (row_hash_ok cols (primary t) vs r (proj1 (made_row _ _ _ M)) Kr 0) as E.
    rewrite (vhash_same (primary t) vs (kcols (x_keys x) vals 0 cols)) in E.
    + rewrite Eh in E. unfold part_mapping_map, row_hash in Em. rewrite E in Em. cbn [bind] in Em. congruence.
    + intros k Hk. destruct (Kr k Hk) as (c & v & Ec & _ & Ek & _). apply (Hinc x Hx) in Hk. rewrite Ek, (kcols_nth (x_keys x) vals cols 0 k c Ec). cbn [Nat.add]. destruct (At k c Hk Ec) as (o & Eo & -> & Lo). f_equal.
      rewrite Ev. unfold key_of. rewrite <- (nth_error_nth _ _ DNull Ek). symmetry. rewrite (nth_indep _ DNull (nth 0%nat vs DNull)) by (rewrite Ev in Lo; exact Lo). rewrite map_nth with (f := fun j => nth j vs DNull). now rewrite (nth_error_nth _ _ _ Eo).
  - destruct (Hmg i x Ex) as [P O]. rewrite (scan_table_ok mag mem junk mixed stale cols t w Hmem Hmag Ht Hw x p (merged i) Hx Op).
    + eexists. split; [reflexivity|]. apply perm_rows_true. clear -P. induction P; cbn; try (destruct (row_true x)); auto; [destruct (row_true y); auto; constructor|etransitivity; eassumption].
    + intros r Hr. pose proof (Permutation_in r P Hr) as Hr'. destruct (made_of r Hr') as (vs & M). exists vs. split; [exact M|exact (to_time _ _ Ht r vs Hr' M x Hx)].
    + exact O.
Qed.
End Query.

(** ** C75 *)
(** A SELECT, UPDATE or DELETE finds exactly the rows of the table for which WHERE is true, each of them
    once: whatever indexes the table has, whichever of them is used, whatever partitions there are.
    Partial: for conditions that meet [where_ok]; the refuted theorems below are about the others. *)
Theorem C75_partial mag mem junk mixed stale cols t w use : memcmp_ok mag -> heap_ok mem ->
  table_ok cols t -> where_ok cols t w -> (forall i, use = Some i -> (i < length (t_idx t))%nat) ->
  exists rs, query mag mem mixed stale cols junk t use w = Ok rs /\ NoDup rs /\
    forall r, In r rs <-> In r (rows_of t) /\ exists vs, made cols vs r /\ where_true mixed vs w.
Proof. intros Hg Hm Ht Hw Hu. exact (query_ok mag mem junk mixed stale cols t w Hm Hg Ht Hw use Hu). Qed.
Print Assumptions C75_partial.
(** two tables with the same rows give the same result, whatever their indexes and partitions are and
    whichever index the query is told to use *)
Theorem C75_index_partial mag mem junk mixed stale cols t u w use use' : memcmp_ok mag -> heap_ok mem ->
  table_ok cols t -> where_ok cols t w -> table_ok cols u -> where_ok cols u w ->
  (forall i, use = Some i -> (i < length (t_idx t))%nat) -> (forall i, use' = Some i -> (i < length (t_idx u))%nat) ->
  Permutation (rows_of t) (rows_of u) ->
  exists rs rs', query mag mem mixed stale cols junk t use w = Ok rs /\ query mag mem mixed stale cols junk u use' w = Ok rs' /\ Permutation rs rs'.
Proof.
  intros Hg Hm Ht Hw Hu Hw' Ut Uu P. destruct (query_ok mag mem junk mixed stale cols t w Hm Hg Ht Hw use Ut) as (rs & E & N & H). destruct (query_ok mag mem junk mixed stale cols u w Hm Hg Hu Hw' use' Uu) as (rs' & E' & N' & H').
  exists rs, rs'. split; [exact E|]. split; [exact E'|]. apply NoDup_Permutation; [exact N|exact N'|]. intros r. rewrite H, H'. split; intros [H1 H2]; (split; [|exact H2]); [exact (Permutation_in _ P H1)|exact (Permutation_in _ (Permutation_sym P) H1)].
Qed.
Print Assumptions C75_index_partial.
(** the inner table of a join and the table of a subquery, if the key of every index includes the primary
    key *)
Theorem C75_inner_partial mag mem junk mixed stale cols t w use merged : memcmp_ok mag -> heap_ok mem ->
  table_ok cols t -> where_ok cols t w -> (forall i, use = Some i -> (i < length (t_idx t))%nat) ->
  (forall x, In x (t_idx t) -> incl (primary t) (x_keys x)) ->
  (forall i x, nth_error (t_idx t) i = Some x -> Permutation (merged i) (rows_of t) /\ in_order cols x (merged i)) ->
  exists rs, scan_inner mag mem mixed stale cols junk t use w merged = Ok rs /\ NoDup rs /\
    forall r, In r rs <-> In r (rows_of t) /\ exists vs, made cols vs r /\ where_true mixed vs w.
Proof. intros Hg Hm Ht Hw Hu Hi Hmg. exact (inner_ok mag mem junk mixed stale cols t w Hm Hg Ht Hw use merged Hu Hi Hmg). Qed.
Print Assumptions C75_inner_partial.

Definition ecol (k : nat) : operand := OName (mkname (Some k) false DNull).
Definition eint (z : Z) : operand := OLit (DInt z).
(** name >= 'a' AND name < 'c' AND id > 0 *)
Definition ew : cond := CAnd (CCmp OpGe (ecol 2) (OLit (DString [97]))) (CAnd (CCmp OpLt (ecol 2) (OLit (DString [99]))) (CCmp OpGt (ecol 0) (eint 0))).
(** id = 3 AND n = outer.column AND name BETWEEN 'a' AND 'z' *)
Definition ew' : cond := CAnd (CAnd (CCmp OpEq (ecol 0) (eint 3)) (CCmp OpEq (ecol 1) (OName (mkname None true (DInt 0))))) (CBetween (ecol 2) (OLit (DString [97])) (OLit (DString [122]))).
Lemma no_own v : ~ uses_own (OLit v).
Proof. intros (n & [] & _). Qed.
Lemma ew_ok : where_ok ecols et (Some ew) /\ where_ok ecols et (Some ew').
Proof.
  assert (G : forall x, In x eidx -> x_hash x = true -> x_keys x = [1%nat; 0%nat]) by (intros x [<-|[<-|[<-|[<-|[]]]]]; cbn; congruence).
  split; (split; [|split; [|split; [|split; [|split]]]]); unfold names_exist, no_shadowing, subqueries_ok, between_ok, typed, hash_ok; cbn [operands cond_operands app betweens_of betweens ew ew'].
  - intros o n k Ho Hn E. cbn in Ho. repeat (destruct Ho as [<-|Ho]; [cbn in Hn; repeat (destruct Hn as [<-|Hn]; [cbn in E; inversion E; subst; cbn; lia|]); now destruct Hn|]). destruct Ho.
  - intros o n Ho Hn E. cbn in Ho. repeat (destruct Ho as [<-|Ho]; [cbn in Hn; repeat (destruct Hn as [<-|Hn]; [cbn in E; discriminate|]); now destruct Hn|]). destruct Ho.
  - intros names inner f n Ho. cbn in Ho. repeat (destruct Ho as [Ho|Ho]; [discriminate Ho|]). destruct Ho.
  - intros e x y [].
  - intros x k c v _ _ Ec (o & l & r & Hc & Hv) _. cbn in Hc. repeat (destruct Hc as [Hc|Hc]; [injection Hc as <- <- <-|]); try now destruct Hc.
    all: destruct Hv as [[(n & En & Ek) ->]|[(n & En & Ek) ->]]; try discriminate En; injection En as <-; cbn in Ek; injection Ek as <-; cbn in Ec; injection Ec as <-; cbn; (split; [try reflexivity; unfold signed; lia|split; [discriminate|lia]]).
  - intros x k ks Hx Hh Ek (o & l & r & Hc & Hv). rewrite (G x Hx Hh) in Ek. injection Ek as <- _. cbn in Hc. repeat (destruct Hc as [Hc|Hc]; [injection Hc as <- <- <-|]); try now destruct Hc.
    all: destruct Hv as [[(n & En & Ek) Ho]|[(n & En & Ek) Ho]]; try discriminate En; injection En as <-; cbn in Ek; discriminate Ek.
  - intros o n k Ho Hn E. cbn in Ho. repeat (destruct Ho as [<-|Ho]; [cbn in Hn; repeat (destruct Hn as [<-|Hn]; [cbn in E; inversion E; subst; cbn; lia|]); now destruct Hn|]). destruct Ho.
  - intros o n Ho Hn E. cbn in Ho. repeat (destruct Ho as [<-|Ho]; [cbn in Hn; repeat (destruct Hn as [<-|Hn]; [cbn in E; first [discriminate E|reflexivity]|]); now destruct Hn|]). destruct Ho.
  - intros names inner f n Ho. cbn in Ho. repeat (destruct Ho as [Ho|Ho]; [discriminate Ho|]). destruct Ho.
  - intros e x y [H|[]]. injection H as <- <- <-. split; intros k Hk; [apply no_own|]. destruct Hk as (n & En & _). discriminate En.
  - intros x k c v _ _ Ec (o & l & r & Hc & Hv) _. cbn in Hc. repeat (destruct Hc as [Hc|Hc]; [injection Hc as <- <- <-|]); try now destruct Hc.
    all: destruct Hv as [[(n & En & Ek) ->]|[(n & En & Ek) ->]]; try discriminate En; injection En as <-; cbn in Ek; try discriminate Ek; injection Ek as <-; cbn in Ec; injection Ec as <-; cbn; (split; [try reflexivity; unfold signed; lia|split; [discriminate|lia]]).
  - intros x k ks Hx Hh Ek (o & l & r & Hc & Hv). rewrite (G x Hx Hh) in Ek. injection Ek as <- _. cbn in Hc. repeat (destruct Hc as [Hc|Hc]; [injection Hc as <- <- <-|]); try now destruct Hc.
    all: destruct Hv as [[(n & En & Ek) Ho]|[(n & En & Ek) Ho]]; try discriminate En; injection En as <-; cbn in Ek; try discriminate Ek; now destruct Ho.
Qed.

Example C75_nonvacuous : table_ok ecols et /\ where_ok ecols et (Some ew) /\ where_ok ecols et (Some ew') /\
  query Z.sub zeros (fun _ _ _ => false) 0 ecols (fun _ => 0) et None (Some ew) = Ok [r2; r1] /\
  query Z.sub zeros (fun _ _ _ => false) 0 ecols (fun _ => 0) et (Some 0%nat) (Some ew) = Ok [r2; r1] /\
  (exists pp p, path_prepare_target Z.sub (fun _ => 0) eidx None (Some ew) = Ok (pp, (p, mkindex [2%nat; 0%nat] false false, 2%nat))) /\
  exists rs, query Z.sub zeros (fun _ _ _ => false) 0 ecols (fun _ => 0) et None (Some ew') = Ok rs /\ NoDup rs /\ forall r, In r rs <-> r = r3.
Proof.
  split; [exact et_ok|]. split; [apply ew_ok|]. split; [apply ew_ok|]. split; [vm_compute; reflexivity|]. split; [vm_compute; reflexivity|]. split; [eexists; eexists; vm_compute; reflexivity|].
  destruct (C75_partial Z.sub zeros (fun _ => 0) (fun _ _ _ => false) 0 ecols et (Some ew') None (fun x y => eq_refl) zeros_ok et_ok (proj2 ew_ok)) as (rs & E & N & H); [discriminate|].
  exists rs. split; [exact E|]. split; [exact N|]. intros r. rewrite H. split.
  - intros (Hr & vs & M & T). cbn in Hr. destruct Hr as [<-|[<-|[<-|[]]]]; [| |reflexivity]; exfalso; [rewrite (made_fun _ _ _ _ M made2) in T|rewrite (made_fun _ _ _ _ M made1) in T]; cbn in T; destruct T as [[T _] _]; discriminate T.
  - intros ->. split; [cbn; tauto|]. exists v3. split; [exact made3|]. cbn. repeat split; discriminate.
Qed.
Definition ew_inner : cond := CCmp OpEq (ecol 0) (eint 3).
Example C75_inner_nonvacuous : exists cols t, table_ok cols t /\ where_ok cols t (Some ew_inner) /\ (forall x, In x (t_idx t) -> incl (primary t) (x_keys x)) /\ length (rows_of t) = 3%nat /\
  exists merged, forall i x, nth_error (t_idx t) i = Some x -> Permutation (merged i) (rows_of t) /\ in_order cols x (merged i).
Proof.
  exists ecols, (mktable [mkindex [0%nat] false true; mkindex [2%nat; 0%nat] false false] emap [mktp ep0 [[r2]; [r2]]; mktp ep1 [[r1; r3]; [r1; r3]]]).
  assert (Sub : forall x, In x [mkindex [0%nat] false true; mkindex [2%nat; 0%nat] false false] -> In x eidx) by (intros x [<-|[<-|[]]]; cbn; tauto).
  split; [|split; [|split; [|split; [reflexivity|]]]].
  - constructor.
    + discriminate.
    + intros x Hx. apply e_keys, Sub, Hx.
    + cbn. lia.
    + intros tp [<-|[<-|[]]]; [pose proof (to_parts _ _ et_ok _ (or_introl eq_refl)) as (_ & A & B & C)|pose proof (to_parts _ _ et_ok _ (or_intror (or_introl eq_refl))) as (_ & A & B & C)]; cbn [tp_rows tp_part hd primary t_idx t_map x_keys et eidx] in *; (split; [reflexivity|split; [|split; [|exact C]]]).
      * intros [|[|[|i]]] l E; cbn in E; try discriminate; injection E as <-; apply Permutation_refl.
      * intros [|[|[|i]]] x l Ex El; cbn in Ex, El; try discriminate; injection Ex as <-; injection El as <-; apply e_one.
      * intros [|[|[|i]]] l E; cbn in E; try discriminate; injection E as <-; apply Permutation_refl.
      * intros [|[|[|i]]] x l Ex El; cbn in Ex, El; try discriminate; injection Ex as <-; injection El as <-; [apply (B 0%nat _ _ eq_refl eq_refl)|apply (B 2%nat _ _ eq_refl eq_refl)].
    + exact (to_ids _ _ et_ok).
    + exact (to_map _ _ et_ok).
    + intros r vs Hr M x Hx. exact (to_time _ _ et_ok r vs Hr M x (Sub x Hx)).
  - split; [|split; [|split; [|split; [|split]]]]; unfold names_exist, no_shadowing, subqueries_ok, between_ok, typed, hash_ok; cbn [operands cond_operands app betweens_of betweens ew_inner].
    + intros o n k [<-|[<-|[]]] Hn E; cbn in Hn; [|destruct Hn]. destruct Hn as [<-|[]]. cbn in E. injection E as <-. cbn. lia.
    + intros o n [<-|[<-|[]]] Hn E; cbn in Hn; [|destruct Hn]. destruct Hn as [<-|[]]. discriminate E.
    + intros names inner f n [Ho|[Ho|[]]]; discriminate Ho.
    + intros e x y [].
    + intros x k c v _ _ Ec (o & l & r & [Hc|[]] & Hv) _. injection Hc as <- <- <-. destruct Hv as [[(n & En & Ek) ->]|[(n & En & Ek) ->]]; try discriminate En; injection En as <-; cbn in Ek; injection Ek as <-; cbn in Ec; injection Ec as <-; cbn. split; [unfold signed; lia|split; [discriminate|lia]].
    + intros x k ks [<-|[<-|[]]]; discriminate.
  - intros x [<-|[<-|[]]] k; cbn; tauto.
  - exists (fun i => match i with 0%nat => [r1; r2; r3] | _ => [r2; r1; r3] end). intros [|[|[|i]]] x Ex; cbn in Ex; try discriminate; injection Ex as <-; cbn [rows_of t_parts map tp_rows hd concat app].
    + split; [apply perm_swap|]. unfold in_order. cbn [x_hash x_keys]. repeat constructor; intros va vb Ma Mb; first [rewrite (made_fun _ _ _ _ Ma made1)|rewrite (made_fun _ _ _ _ Ma made2)]; first [rewrite (made_fun _ _ _ _ Mb made2)|rewrite (made_fun _ _ _ _ Mb made3)]; reflexivity.
    + split; [apply Permutation_refl|]. unfold in_order. cbn [x_hash x_keys]. repeat constructor; intros va vb Ma Mb; first [rewrite (made_fun _ _ _ _ Ma made1)|rewrite (made_fun _ _ _ _ Ma made2)]; first [rewrite (made_fun _ _ _ _ Mb made1)|rewrite (made_fun _ _ _ _ Mb made3)]; reflexivity.
Qed.

(** ** where the full property is false of the code *)
(** the property for one condition: the query finds exactly the rows for which it is true *)
Definition finds (cols : list column) (t : table) (w : cond) (result : (cmpop -> dval -> dval -> bool) -> Z -> (operand -> Z) -> res (list (list Z))) : Prop :=
  forall mixed stale junk, exists rs, result mixed stale junk = Ok rs /\ forall r, In r rs <-> In r (rows_of t) /\ exists vs, made cols vs r /\ is_true mixed vs w.
Definition run (use : option nat) (w : cond) mixed stale junk := query Z.sub zeros mixed stale ecols junk et use (Some w).
Definition run_inner (use : option nat) (w : cond) merged mixed stale junk := scan_inner Z.sub zeros mixed stale ecols junk et use (Some w) merged.
Lemma not_finds t w result : result (fun _ _ _ => true) 0 (fun _ => 0) = UB -> ~ finds ecols t w result.
Proof. intros E H. destruct (H (fun _ _ _ => true) 0 (fun _ => 0)) as (rs & E' & _). congruence. Qed.
(** SELECT ... WHERE id > 1.5 with an index of id: the bits of the double are the key, and the rows 2
    and 3 are not found *)
Theorem C75_double_refuted : table_ok ecols et /\
  let w := CCmp OpGt (ecol 0) (OLit (DDouble 4609434218613702656)) in
  (forall mixed stale junk, run None w mixed stale junk = Ok []) /\ ~ finds ecols et w (run None w).
Proof.
  split; [exact et_ok|]. cbv zeta. assert (E : forall mixed stale junk, run None (CCmp OpGt (ecol 0) (OLit (DDouble 4609434218613702656))) mixed stale junk = Ok []) by (intros; vm_compute; reflexivity).
  split; [exact E|]. intros H. destruct (H (fun _ _ _ => true) 0 (fun _ => 0)) as (rs & E' & Hr). rewrite E in E'. injection E' as <-. apply (Hr r2). split; [cbn; tauto|]. exists v2. split; [exact made2|reflexivity].
Qed.
Print Assumptions C75_double_refuted.
(** an int column: [n > -4294967295] is the key 1, and the row with n = 0 is not found *)
Theorem C75_int32_refuted : table_ok ecols et /\
  let w := CCmp OpGt (ecol 1) (eint (-4294967295)) in
  (forall mixed stale junk, run None w mixed stale junk = Ok [r2; r1]) /\ ~ finds ecols et w (run None w).
Proof.
  split; [exact et_ok|]. cbv zeta. assert (E : forall mixed stale junk, run None (CCmp OpGt (ecol 1) (eint (-4294967295))) mixed stale junk = Ok [r2; r1]) by (intros; vm_compute; reflexivity).
  split; [exact E|]. intros H. destruct (H (fun _ _ _ => true) 0 (fun _ => 0)) as (rs & E' & Hr). rewrite E in E'. injection E' as <-.
  destruct (proj2 (Hr r3)) as [X|[X|[]]]; [split; [cbn; tauto|]; exists v3; split; [exact made3|reflexivity]| |]; vm_compute in X; discriminate X.
Qed.
Print Assumptions C75_int32_refuted.
(** WHERE id = NULL, id = 1.0: the hash of the value of the primary key aborts the server *)
Theorem C75_null_refuted : table_ok ecols et /\ forall v, v = DNull \/ (exists bits, v = DDouble bits) ->
  ~ finds ecols et (CCmp OpEq (ecol 0) (OLit v)) (run None (CCmp OpEq (ecol 0) (OLit v))).
Proof. split; [exact et_ok|]. intros v [->|(bits & ->)]; apply not_finds; vm_compute; reflexivity. Qed.
Print Assumptions C75_null_refuted.
(** id BETWEEN n AND 10: n is read before there is a row *)
Theorem C75_between_refuted : table_ok ecols et /\
  ~ finds ecols et (CBetween (ecol 0) (ecol 1) (eint 10)) (run None (CBetween (ecol 0) (ecol 1) (eint 10))).
Proof. split; [exact et_ok|]. apply not_finds. vm_compute. reflexivity. Qed.
Print Assumptions C75_between_refuted.
(** n < 7 USE INDEX of a hash index of n: the compiler writes to a random position *)
Theorem C75_hash_refuted : table_ok ecols et /\ ~ finds ecols et (CCmp OpLt (ecol 1) (eint 7)) (run (Some 3%nat) (CCmp OpLt (ecol 1) (eint 7))).
Proof. split; [exact et_ok|]. apply not_finds. vm_compute. reflexivity. Qed.
Print Assumptions C75_hash_refuted.
(** a name that is a column of this table and of an outer table: id = n *)
Theorem C75_shadow_refuted : table_ok ecols et /\ forall v,
  let w := CCmp OpEq (ecol 0) (OName (mkname (Some 1%nat) true v)) in ~ finds ecols et w (run None w).
Proof. split; [exact et_ok|]. intros v. cbv zeta. apply not_finds. vm_compute. reflexivity. Qed.
Print Assumptions C75_shadow_refuted.
(** name > 'a' AND name > 5 *)
Theorem C75_types_refuted : table_ok ecols et /\
  let w := CAnd (CCmp OpGt (ecol 2) (OLit (DString [97]))) (CCmp OpGt (ecol 2) (eint 5)) in ~ finds ecols et w (run None w).
Proof. split; [exact et_ok|]. cbv zeta. apply not_finds. vm_compute. reflexivity. Qed.
Print Assumptions C75_types_refuted.
(** a join or a subquery by a UNIQUE index (n): the partition of the key row is that of a NULL id *)
Theorem C75_inner_refuted : table_ok ecols et /\ forall merged, ~ finds ecols et (CCmp OpEq (ecol 1) (eint 5)) (run_inner None (CCmp OpEq (ecol 1) (eint 5)) merged).
Proof. split; [exact et_ok|]. intros merged. apply not_finds. vm_compute. reflexivity. Qed.
Print Assumptions C75_inner_refuted.
