(** C05, C41, C42: merge of ordered results, LIMIT/OFFSET, UNION. *)
From Coq Require Import Permutation Sorted.
From Verif Require Import Base TreeSpec JsonModel JsonSpec UnionModel UnionProofs.

(** [cmp a b <= 0]: a comes before b or is equal to it *)
Definition nondecreasing {A} (cmp : A -> A -> Z) (l : list A) : Prop := StronglySorted (fun a b => cmp a b <= 0) l.
Definition increasing {A} (cmp : A -> A -> Z) (l : list A) : Prop := StronglySorted (fun a b => cmp a b < 0) l.

(** without LIMIT and OFFSET: cunion_limit/cunion_offset are not called
    (union.c:48-49 limit = INT64_MAX, offset = 0) *)
Definition no_limit {A} (cmp : A -> A -> Z) (t : utype) (inputs : list (list A)) : list A :=
  union_rows cmp t inputs INT64_MAX 0.

Lemma start_advance {A} (l : list (list A)) : advance_current (mkust l None) = l.
Proof. reflexivity. Qed.

Lemma yields_exists {A} (cmp : A -> A -> Z) t (l : list (list A)) :
  exists r, yields cmp t (mkust l None) r /\ (length r <= total l)%nat.
Proof.
  destruct t.
  - exists (concat l). split; [|unfold total; lia].
    exact (all_yields cmp _ (mkust l None) (le_n _)).
  - destruct (ordered_yields cmp _ (mkust l None) (le_n _)) as (r & Y & P). exists r. split; [exact Y|].
    apply Permutation_length in P. rewrite start_advance in P. unfold total. lia.
  - destruct (ordered_yields cmp _ (mkust l None) (le_n _)) as (r & Y & P).
    exists (dedup_n cmp (length r) r). split; [eapply distinct_yields; [now constructor|lia]|].
    apply Permutation_length in P. rewrite start_advance in P. pose proof (dedup_length cmp (length r) r). unfold total. lia.
Qed.

(** C41: for every kind of union, every input, every comparison, every OFFSET and
    LIMIT (of less than 2^63 - 1 rows). *)
Theorem C41_limit_offset : forall (A : Type) (cmp : A -> A -> Z) (t : utype) (inputs : list (list A)) (limit : Z) (offset : nat),
  0 <= limit -> Z.of_nat (length (concat inputs)) < INT64_MAX ->
  union_rows cmp t inputs limit offset = firstn (Z.to_nat limit) (skipn offset (no_limit cmp t inputs)).
Proof.
  intros A cmp t L lim o Hl HT. destruct (yields_exists cmp t L) as (r & Y & B).
  unfold no_limit. rewrite !(union_rows_yields cmp t L r _ _ Y B) by (try exact HT; unfold INT64_MAX; lia).
  cbn [skipn]. do 2 f_equal. symmetry. apply firstn_all2. unfold total in *. unfold INT64_MAX in *. lia.
Qed.
Print Assumptions C41_limit_offset.
Example C41_nonvacuous :
  union_rows Z.sub UALL [[5; 1]; []; [4; 2; 9]] 2 2 = [4; 2] /\ union_rows Z.sub UALL [[5; 1]; []; [4; 2; 9]] 10 4 = [9] /\
  union_rows Z.sub UALL [[5; 1]; []; [4; 2; 9]] 0 1 = [].
Proof. vm_compute. auto. Qed.

(** C05 (part): for comparisons with results -1, 0, 1 (integer, date, timestamp,
    double and uuid columns), every number of inputs, sorted, possibly empty: the merge
    returns every row exactly once and in order.  [UORDERED] is the merge of ORDER BY
    results, [tree_merge] the scan of an index over several partitions. *)
Theorem C05_merge_sorted_partial : forall (A : Type) (cmp : A -> A -> Z) (inputs : list (list A)),
  key_order cmp -> three_valued cmp -> Forall (nondecreasing cmp) inputs ->
  Z.of_nat (length (concat inputs)) < INT64_MAX ->
  Permutation (concat inputs) (no_limit cmp UORDERED inputs) /\ nondecreasing cmp (no_limit cmp UORDERED inputs).
Proof.
  intros A cmp L KO TV HS HT. destruct (ordered_yields cmp _ (mkust L None) (le_n _)) as (r & Y & P).
  rewrite start_advance in P. pose proof (Permutation_length P) as PL.
  unfold no_limit. rewrite (union_rows_yields cmp UORDERED L r _ _ Y) by (unfold total, INT64_MAX in *; lia).
  cbn [skipn]. rewrite firstn_all2 by (unfold total, INT64_MAX in *; lia). split; [exact P|].
  exact (ordered_sorted cmp KO TV _ _ Y HS).
Qed.
Print Assumptions C05_merge_sorted_partial.

Lemma tree_merge_yields {A} (cmp : A -> A -> Z) s r : yields cmp UORDERED s r -> forall f, (length r < f)%nat -> tree_merge_loop cmp f s = r.
Proof.
  induction 1 as [s s' E|s s' x l E Y IH]; intros f Hf; cbn [length] in Hf; (destruct f as [|f]; [lia|]); cbn [tree_merge_loop];
    cbn [ustep] in E; rewrite E; [reflexivity|]. f_equal. apply IH. lia.
Qed.
Theorem C05_tree_merge_sorted_partial : forall (A : Type) (cmp : A -> A -> Z) (inputs : list (list A)),
  key_order cmp -> three_valued cmp -> Forall (nondecreasing cmp) inputs ->
  Permutation (concat inputs) (tree_merge cmp inputs) /\ nondecreasing cmp (tree_merge cmp inputs).
Proof.
  intros A cmp L KO TV HS. destruct (ordered_yields cmp _ (mkust L None) (le_n _)) as (r & Y & P).
  rewrite start_advance in P. pose proof (Permutation_length P) as PL.
  unfold tree_merge. rewrite (tree_merge_yields cmp _ r Y) by (unfold total; lia). split; [exact P|].
  exact (ordered_sorted cmp KO TV _ _ Y HS).
Qed.
Print Assumptions C05_tree_merge_sorted_partial.

Definition cmp3 (a b : Z) : Z := (if b <? a then 1 else 0) - (if a <? b then 1 else 0).
Lemma cmp3_ok : key_order cmp3 /\ three_valued cmp3.
Proof.
  unfold cmp3. split.
  - split; intros a b; [|intros c]; destruct (Z.ltb_spec a b), (Z.ltb_spec b a); cbn; try lia;
      destruct (Z.ltb_spec b c), (Z.ltb_spec c b), (Z.ltb_spec a c), (Z.ltb_spec c a); cbn; lia.
  - intros a b. destruct (b <? a), (a <? b); cbn; tauto.
Qed.
Example C05_nonvacuous : Forall (nondecreasing cmp3) [[1; 4; 4]; []; [2; 4; 7]; [0]] /\
  no_limit cmp3 UORDERED [[1; 4; 4]; []; [2; 4; 7]; [0]] = [0; 1; 2; 4; 4; 4; 7] /\
  tree_merge cmp3 [[1; 4; 4]; []; [2; 4; 7]; [0]] = [0; 1; 2; 4; 4; 4; 7].
Proof.
  split; [|vm_compute; auto].
  repeat first [apply Forall_cons | apply Forall_nil | apply SSorted_cons | apply SSorted_nil | (unfold nondecreasing)]; vm_compute; discriminate.
Qed.

(** C05 is false of the code for string columns: str_compare_fn returns the value of
    memcmp, of which C fixes only the sign; with the difference of the bytes (glibc)
    the merge returns 'c' before 'a'. *)
Theorem C05_string_merge_refuted : exists mag inputs, memcmp_ok mag /\
  Forall (nondecreasing (str_compare_fn mag)) inputs /\
  ~ nondecreasing (str_compare_fn mag) (no_limit (str_compare_fn mag) UORDERED inputs) /\
  ~ nondecreasing (str_compare_fn mag) (tree_merge (str_compare_fn mag) inputs).
Proof.
  exists Z.sub, [[[99]]; [[97]]]. split; [unfold memcmp_ok; intros; reflexivity|]. split.
  - repeat first [apply Forall_cons | apply Forall_nil | apply SSorted_cons | apply SSorted_nil | (unfold nondecreasing)].
  - change (no_limit (str_compare_fn Z.sub) UORDERED [[[99]]; [[97]]]) with [[99]; [97]].
    change (tree_merge (str_compare_fn Z.sub) [[[99]]; [[97]]]) with [[99]; [97]].
    split; intros H; inversion H as [|? ? _ F]; subst; pose proof (Forall_inv F) as F0; vm_compute in F0; congruence.
Qed.
Print Assumptions C05_string_merge_refuted.

(** C42: UNION ALL returns all the rows of all the inputs *)
Theorem C42_union_all : forall (A : Type) (cmp : A -> A -> Z) (inputs : list (list A)),
  Z.of_nat (length (concat inputs)) < INT64_MAX ->
  no_limit cmp UALL inputs = concat inputs.
Proof.
  intros A cmp L HT. unfold no_limit.
  rewrite (union_rows_yields cmp UALL L (concat L) _ _ (all_yields cmp _ (mkust L None) (le_n _))) by (unfold total, INT64_MAX in *; lia).
  cbn [skipn]. apply firstn_all2. unfold INT64_MAX in *. lia.
Qed.
Print Assumptions C42_union_all.

(** C42 (part): UNION of sorted inputs returns strictly increasing rows (so no two equal
    rows), each of them a row of an input, and some row for every row of an input. *)
Theorem C42_union_distinct_partial : forall (A : Type) (cmp : A -> A -> Z) (inputs : list (list A)),
  key_order cmp -> three_valued cmp -> Forall (nondecreasing cmp) inputs ->
  Z.of_nat (length (concat inputs)) < INT64_MAX ->
  let out := no_limit cmp UDISTINCT inputs in
  increasing cmp out /\ (forall x, In x out -> In x (concat inputs)) /\
  (forall x, In x (concat inputs) -> exists y, In y out /\ cmp y x = 0).
Proof.
  intros A cmp L KO TV HS HT. destruct (ordered_yields cmp _ (mkust L None) (le_n _)) as (r & Y & P).
  rewrite start_advance in P. pose proof (Permutation_length P) as PL.
  pose proof (distinct_yields cmp (length r) (mkust L None) r ltac:(now constructor) (le_n _)) as YD.
  pose proof (dedup_length cmp (length r) r) as DL. cbv zeta.
  unfold no_limit. rewrite (union_rows_yields cmp UDISTINCT L _ _ _ YD) by (unfold total, INT64_MAX in *; lia).
  cbn [skipn]. rewrite firstn_all2 by (unfold total, INT64_MAX in *; lia). split; [|split].
  - apply (dedup_sorted cmp KO TV), (ordered_sorted cmp KO TV _ _ Y HS).
  - intros x Hx. apply dedup_in in Hx. eapply Permutation_in; [symmetry; exact P|exact Hx].
  - intros x Hx. apply (dedup_cover cmp KO TV); [lia|]. eapply Permutation_in; [exact P|exact Hx].
Qed.
Print Assumptions C42_union_distinct_partial.
Example C42_nonvacuous : no_limit cmp3 UDISTINCT [[1; 4; 4]; []; [2; 4; 7]; [0; 7]] = [0; 1; 2; 4; 7] /\
  no_limit cmp3 UALL [[1; 4; 4]; []; [2; 4; 7]; [0]] = [1; 4; 4; 2; 4; 7; 0].
Proof. vm_compute. auto. Qed.

(** C42 is false of the code for string columns (same cause as C05): a value comes twice *)
Theorem C42_string_union_refuted : exists mag inputs, memcmp_ok mag /\
  Forall (nondecreasing (str_compare_fn mag)) inputs /\ ~ NoDup (no_limit (str_compare_fn mag) UDISTINCT inputs).
Proof.
  exists Z.sub, [[[99]]; [[97]; [99]]]. split; [unfold memcmp_ok; intros; reflexivity|]. split.
  - repeat first [apply Forall_cons | apply Forall_nil | apply SSorted_cons | apply SSorted_nil | (unfold nondecreasing)]; vm_compute; discriminate.
  - change (no_limit (str_compare_fn Z.sub) UDISTINCT [[[99]]; [[97]; [99]]]) with [[99]; [97]; [99]].
    intros H. inversion H as [|? ? N _]. apply N. right. now left.
Qed.
Print Assumptions C42_string_union_refuted.
