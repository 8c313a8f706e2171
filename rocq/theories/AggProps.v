(** C57, C58: distributed aggregates. *)
From Coq Require Import Permutation.
From Verif Require Import Base JsonModel JsonSpec ValueModel ValueProps HashModel HashProofs SetModel SetProofs SetProps
  AggModel AggSpec AggFacts AggProofs AggInv AggMerge.
Local Open Scope nat_scope.

Section P.
Variable mag : Z -> Z -> Z.
Hypothesis Hmag : memcmp_ok mag.
Variable aggs : list agg.
Variable n : nat.
Lemma Rel_groups md R : Rel mag aggs n md R -> Forall (fun r => plain_key n (fst r)) R ->
  groups_ok aggs R (srows (fst md)).
Proof.
  destruct md as [m d]. intros ((I & K & C) & D & (I2 & S)) F. cbn [fst snd] in *.
  assert (forall k, In k (map fst (srows m)) -> plain_key n k) as OKk.
  { intros k H. apply in_map_iff in H as ([k' a] & <- & H). apply In_nth_error in H as (r & H).
    exact (inv_ok_nth _ _ _ m r k' a I H). }
  pose proof (plain_keys_eq mag n Hmag) as EQ.
  constructor.
  - apply NoDup_nth_error. intros i j Hi H. destruct (nth_error (map fst (srows m)) i) as [k|] eqn:E;
      [|apply nth_error_None in E; lia].
    apply (i_distinct _ _ _ m I i j k k); auto; try (rewrite nth_error_map in *; exact E).
    apply EQ; [| |reflexivity]; apply OKk; eapply nth_error_In; exact E.
  - intros k. split; intros H.
    + pose proof (OKk k H) as Hk. apply (K k Hk). intros C0. apply (get_none _ _ _ EQ m k I Hk) in C0. contradiction.
    + assert (plain_key n k) as Hk.
      { apply in_map_iff in H as (r & <- & H). exact (proj1 (Forall_forall _ _) F r H). }
      apply (K k Hk) in H. destruct (get (store_compare_keys mag) m k) as [st|] eqn:E; [|congruence].
      apply (get_some _ _ _ EQ m k st I Hk) in E as (r & E). apply (in_map fst (srows m) (k, st)). eapply nth_error_In; eauto.
  - intros k st H. assert (plain_key n k) as Hk by (apply OKk; apply (in_map fst (srows m) (k, st)); exact H).
    apply In_nth_error in H as (r & H).
    assert (get (store_compare_keys mag) m k = Some st) as G by (apply (get_some _ _ _ EQ m k st I Hk); eauto).
    destruct (C k st Hk G) as [L P]. split; [exact L|]. intros col a Ha. unfold agg_of.
    destruct (adistinct a) eqn:Ed; [|now apply P].
    destruct (D k st Hk G col a Ha Ed) as (l & El & ND & HI). rewrite El. f_equal. apply agg_spec_perm.
    apply NoDup_Permutation; [exact ND|apply NoDup_nodup|]. intros z. rewrite HI, nodup_In, S by now apply dkey_ok.
    split.
    + intros (k1 & z1 & c1 & a1 & Hk1 & Eq & _ & _ & Hv). apply dkey_inj in Eq as (<- & <- & <-); [exact Hv|].
      destruct Hk, Hk1; congruence.
    + intros Hv. exists k, z, col, a. auto.
Qed.
End P.

(** C57: however the rows are spread over the partitions, the merged result of a SELECT with
    GROUP BY and COUNT/MIN/MAX/SUM/AVG (with DISTINCT or not) has exactly one row per group,
    with the aggregates of all rows of the group.  Partial: integer arguments, fewer than
    2^31 rows, keys without NaN, -0.0 and JSON, and, if there is a DISTINCT aggregate, no
    more than three aggregates. *)
Theorem C57_distributed_aggregates_partial : forall mag aggs n parts,
  memcmp_ok mag ->
  (Z.of_nat (length (concat parts)) < 2 ^ 31)%Z ->
  Forall (Forall (scan_row_ok aggs n)) parts ->
  length aggs <= 3 \/ existsb adistinct aggs = false ->
  exists result, agg_select mag aggs n parts = Ok result /\ groups_ok aggs (concat parts) result.
Proof.
  intros mag aggs n parts Hm Sm F H3. destruct (agg_select_ok mag Hm aggs n parts Sm F H3) as (md & E & R).
  exists (srows (fst md)). split; [exact E|]. apply (Rel_groups mag Hm aggs n); [exact R|].
  apply Forall_concat. eapply Forall_impl; [|exact F]. intros rows Fr. eapply Forall_impl; [|exact Fr]. intros r Hr. apply Hr.
Qed.
Print Assumptions C57_distributed_aggregates_partial.

(** the same rows in other partitions give the same groups *)
Theorem C57_partitioning_invisible_partial : forall mag aggs n parts parts' result result',
  memcmp_ok mag ->
  (Z.of_nat (length (concat parts)) < 2 ^ 31)%Z ->
  Forall (Forall (scan_row_ok aggs n)) parts ->
  length aggs <= 3 \/ existsb adistinct aggs = false ->
  Permutation (concat parts) (concat parts') ->
  Forall (Forall (scan_row_ok aggs n)) parts' ->
  agg_select mag aggs n parts = Ok result -> agg_select mag aggs n parts' = Ok result' ->
  Permutation result result'.
Proof.
  intros mag aggs n parts parts' res res' Hm Sm F H3 P F' E E'.
  destruct (C57_distributed_aggregates_partial mag aggs n parts Hm Sm F H3) as (r1 & E1 & [N1 K1 A1]).
  rewrite E in E1. injection E1 as <-.
  destruct (C57_distributed_aggregates_partial mag aggs n parts' Hm) as (r2 & E2 & [N2 K2 A2]); auto.
  { now rewrite <- (Permutation_length P). }
  rewrite E' in E2. injection E2 as <-.
  assert (forall k, In k (map fst (concat parts)) <-> In k (map fst (concat parts'))) as KK.
  { intros k. split; apply Permutation_in; [|apply Permutation_sym]; now apply Permutation_map. }
  assert (forall k col, Permutation (vals (concat parts) k col) (vals (concat parts') k col)) as VV.
  { intros k col. unfold vals. now apply Permutation_flat_map. }
  assert (forall a k col, agg_of a (vals (concat parts) k col) = agg_of a (vals (concat parts') k col)) as AA.
  { intros a k col. unfold agg_of. apply agg_spec_perm. destruct (adistinct a); [|apply VV].
    apply NoDup_Permutation; try apply NoDup_nodup. intros z. rewrite !nodup_In. split; apply Permutation_in; [|apply Permutation_sym]; apply VV. }
  assert (forall l : list state, forall l', length l = length aggs -> length l' = length aggs ->
     (forall col a, nth_error aggs col = Some a -> nth_error l col = nth_error l' col) -> l = l') as EXT.
  { clear. induction aggs as [|a g IH]; intros [|x l] [|y l'] L L' H; try discriminate; [reflexivity|].
    pose proof (H 0 a eq_refl) as H0. injection H0 as ->. f_equal. apply IH; try (now injection L); try (now injection L').
    intros col b Hb. exact (H (S col) b Hb). }
  assert (forall {X Y} (l : list (X * Y)), NoDup (map fst l) -> NoDup l) as ND by (intros X Y l H; eapply NoDup_map_inv; exact H).
  assert (forall r1 r2, NoDup (map fst r1) -> (forall k, In k (map fst r1) -> In k (map fst r2)) ->
     (forall k st, In (k, st) r1 -> length st = length aggs /\ forall col a, nth_error aggs col = Some a -> nth_error st col = Some (agg_of a (vals (concat parts) k col))) ->
     (forall k st, In (k, st) r2 -> length st = length aggs /\ forall col a, nth_error aggs col = Some a -> nth_error st col = Some (agg_of a (vals (concat parts) k col))) ->
     forall x, In x r1 -> In x r2) as INC.
  { intros q1 q2 Nq Kq B1 B2 [k st] H. assert (In k (map fst q2)) as Hk by (apply Kq, (in_map fst q1 (k, st)); exact H).
    apply in_map_iff in Hk as ([k' st'] & Ek & H'). cbn in Ek. subst k'.
    destruct (B1 k st H) as [L B]. destruct (B2 k st' H') as [L' B']. rewrite (EXT st st'); auto.
    intros col a Ha. rewrite (B col a Ha), (B' col a Ha). reflexivity. }
  assert (forall k st, In (k, st) res' -> length st = length aggs /\ forall col a, nth_error aggs col = Some a -> nth_error st col = Some (agg_of a (vals (concat parts) k col))) as A2'.
  { intros k st H. destruct (A2 k st H) as [L B]. split; [exact L|]. intros col a Ha. rewrite AA. now apply B. }
  apply NoDup_Permutation; [now apply ND|now apply ND|]. intros x. split; apply INC; auto.
  - intros k Hk. now apply K2, KK, K1.
  - intros k Hk. now apply K1, KK, K2.
Qed.
Print Assumptions C57_partitioning_invisible_partial.

Ltac rows_ok :=
  repeat match goal with |- Forall (Forall _) _ => constructor | |- Forall (scan_row_ok _ _) _ => constructor end;
  (split; [split; [reflexivity|repeat constructor]|split; [reflexivity|]]);
  repeat (apply Forall_cons; [first [left; reflexivity|right; eexists; split; [reflexivity|lia]]|]); apply Forall_nil.
(** three partitions, three groups, DISTINCT and NULL *)
Definition nv_aggs : list agg := [mkagg ACount true; mkagg ASum false; mkagg AAvg false].
Definition nv_parts : list (list (list value * list value)) :=
  [[([VInt 1], [VInt 5; VInt 5; VInt 5]); ([VInt 2], [VInt 7; VNull; VInt 7])];
   [];
   [([VInt 1], [VInt 5; VInt (-2); VInt 1]); ([VInt 1], [VInt 6; VInt 1; VNull]); ([VInt 3], [VNull; VNull; VNull])]].
Example C57_nonvacuous :
  memcmp_ok Z.sub /\ (Z.of_nat (length (concat nv_parts)) < 2 ^ 31)%Z /\ Forall (Forall (scan_row_ok nv_aggs 1)) nv_parts /\
  length nv_aggs <= 3 /\ existsb adistinct nv_aggs = true /\
  agg_select Z.sub nv_aggs 1 nv_parts =
    Ok [([VInt 1], [SInt 2; SInt 4; SAvg 6 2]); ([VInt 2], [SInt 1; SNull; SAvg 7 1]); ([VInt 3], [SNull; SNull; SNull])].
Proof.
  split; [intros x y; lia|]. split; [vm_compute; reflexivity|]. split; [|split; [cbn; lia|split; [reflexivity|vm_compute; reflexivity]]].
  rows_ok.
Qed.

(** C57 is false of the code with four aggregates of which one is DISTINCT: the merge frees
    values behind the end of the distinct set (agg.c:302 uses the row size of the other
    set).  The four-aggregate query runs out of bounds, the same query with three is right *)
Definition row4 (k v : Z) : list value * list value := ([VInt k], [VInt v; VInt v; VInt v; VInt v]).
Definition aggs4 : list agg := mkagg ACount true :: repeat (mkagg ACount false) 3.
Theorem C57_distinct_out_of_bounds_refuted : exists parts,
  Forall (Forall (scan_row_ok aggs4 1)) parts /\ length (concat parts) = 2 /\
  agg_select Z.sub aggs4 1 parts = UB.
Proof.
  exists [[row4 1 10]; [row4 1 10]]. split; [|split; [reflexivity|vm_compute; reflexivity]].
  rows_ok.
Qed.
Print Assumptions C57_distinct_out_of_bounds_refuted.

(** C58: AVG over integers is the quotient, rounded to zero, of the sum and the count.
    Partial: sums that are not negative and fit into int64 *)
Theorem C58_avg_int_partial : forall l, l <> [] -> (0 <= zsum l < 2 ^ 63)%Z -> (Z.of_nat (length l) < 2 ^ 63)%Z ->
  exists s c, agg_spec AAvg l = SAvg s c /\ avg_int s c = Ok (Z.quot (zsum l) (Z.of_nat (length l))).
Proof.
  intros l Hl Hs Hc. destruct l as [|x r]; [congruence|]. cbn [agg_spec]. eexists. eexists. split; [reflexivity|].
  assert (1 <= Z.of_nat (length (x :: r)))%Z by (cbn [length]; lia). generalize dependent (x :: r). intros l _ Hs Hc H1.
  rewrite wrap64_id by (unfold i64; lia). unfold avg_int.
  destruct (Z.eqb_spec (Z.of_nat (length l)) 0); [lia|]. rewrite (Z.mod_small (zsum l)) by lia.
  rewrite Z.quot_div_nonneg by lia. rewrite wrap64_id; [reflexivity|]. unfold i64.
  pose proof (Z.div_pos (zsum l) (Z.of_nat (length l)) ltac:(lia) ltac:(lia)).
  pose proof (Z.div_le_upper_bound (zsum l) (Z.of_nat (length l)) (zsum l) ltac:(lia) ltac:(nia)). lia.
Qed.
Print Assumptions C58_avg_int_partial.
(** the average of a negative sum: the division is unsigned.  AVG(-1, -2, -3) is not -2 *)
Theorem C58_negative_refuted : exists l s c, (zsum l = -6 /\ length l = 3%nat)%Z /\ agg_spec AAvg l = SAvg s c /\
  avg_int s c = Ok 6148914691236517203%Z.
Proof. exists [-1; -2; -3]%Z, (-6)%Z, 3%Z. split; [split; reflexivity|]. split; vm_compute; reflexivity. Qed.
Print Assumptions C58_negative_refuted.
Example C58_nonvacuous : exists l, l <> [] /\ (0 <= zsum l < 2 ^ 63)%Z /\ zsum l = 16%Z /\ length l = 3 /\
  avg_int 16 3 = Ok 5%Z.
Proof. exists [10; -1; 7]%Z. split; [discriminate|]. split; [split; vm_compute; [discriminate|reflexivity]|]. split; [|split]; vm_compute; reflexivity. Qed.
