(** C84: SELECT with WHERE, DISTINCT, ORDER BY, LIMIT and OFFSET. *)
From Coq Require Import Permutation Sorted.
From Verif Require Import Base TreeSpec UnionModel UnionProofs UnionProps SelModel SelSpec SelProofs SelAnswer.

Section Props.
Context {V : Type} (vnull : V) (vcmp : V -> V -> Z).
Context (qsort : (list V -> list V -> Z) -> list (list V) -> list (list V)).

(** the values come back in the order of the index already: what both plans test *)
Definition by_index (q : @query V) (t : target) : bool := has_order q && (t_table t && (t_tree t && match_index q t)).

Lemma has_order_nil : forall q : @query V, has_order q = false -> order_by q = [].
Proof. intros q H. unfold has_order in H. destruct (order_by q); [reflexivity|discriminate]. Qed.

Lemma push_limit_ok : forall q : @query V, query_ok q -> sum_ok q ->
  exists lv, match push_limit q with Some lm => lim_value lm = Ok lv | None => True end /\
  (push_limit q = None \/ (exists lm, push_limit q = Some lm) /\
    forall (a b : list (list V)), firstn (Z.to_nat lv) a = firstn (Z.to_nat lv) b -> window q a = window q b).
Proof.
  intros q Q S. unfold push_limit. destruct (q_limit q) as [l|] eqn:El.
  - destruct (q_offset q) as [o|] eqn:Eo.
    + exists (l + o). split.
      * cbn. specialize (S l o El Eo). destruct (Z.ltb_spec INT64_MAX (l + o)); [lia|reflexivity].
      * right. split; [eexists; reflexivity|]. intros a b E. eapply window_firstn; eassumption.
    + exists l. split; [reflexivity|]. right. split; [eexists; reflexivity|]. intros a b E. eapply window_firstn_no; eassumption.
  - exists 0. split; [exact I|]. left. reflexivity.
Qed.

Lemma taken_none : forall (lm : option lim) lv (l : list (list V)), taken (lreg lm lv) None l =
  match lm with Some _ => firstn (Z.to_nat lv) l | None => l end.
Proof. intros [lm|] lv l; reflexivity. Qed.

(** the replies of the partitions, by induction over the partitions *)
Lemma parts_exist : forall q t parts (f : list (list V) -> list (list V)),
  (forall part, exists fuel, select_part vnull vcmp qsort q t part fuel = Some (Ok (the_store q (f part), []))) ->
  Forall2 (fun part reply => exists fuel, select_part vnull vcmp qsort q t part fuel = Some (Ok (reply, [])))
          parts (map (the_store q) (map f parts)).
Proof. intros q t parts f H. induction parts as [|p ps IH]; cbn; constructor; [apply H|exact IH]. Qed.

(** C84: a SELECT of a table, for every query, any number of partitions with any
    rows: every partition answers, the session answers, and the rows it returns
    are the window (OFFSET, LIMIT) of all the selected rows in an order that
    ORDER BY allows, or of the different selected rows. *)
Theorem C84_select_partial : forall q t parts,
  key_order vcmp -> three_valued vcmp -> qsort_ok qsort ->
  query_ok q -> sum_ok q ->
  Forall (in_index_order vnull vcmp t) parts -> (q_distinct q = true -> unique_keys vnull vcmp t parts) ->
  Z.of_nat (length (concat parts)) < INT64_MAX ->
  exists replies fuel out,
    Forall2 (fun part reply => exists f, select_part vnull vcmp qsort q t part f = Some (Ok (reply, []))) parts replies /\
    select_recv vnull vcmp qsort q t replies fuel = Some (Ok (out, [])) /\
    answer vnull vcmp q (concat parts) (visible out).
Proof.
  intros q t parts KO TV QS Q S HP HU HT.
  set (c := store_compare vnull vcmp (length (q_ret q)) (map snd (order_by q))).
  assert (CO : key_order c) by (apply scmp_order; assumption).
  set (keptp := fun p : list (list V) => map (pushed vnull q) (filter (keeps q) p)).
  destruct (push_limit_ok q Q S) as (lv & Hlv & Hw).
  (* what every partition sends *)
  set (cutp := fun l : list (list V) => match push_limit q with Some _ => firstn (Z.to_nat lv) l | None => l end).
  (* a scan with LIMIT *)
  assert (Scan : forall ord typ Ss0, Ss0 = map keptp parts ->
    (ord = false -> order_by q = []) -> Forall (nondecreasing c) Ss0 ->
    plan_pushdown q t = ([CmdScan ord (push_limit q) None], [CmdRecv ord]) ->
    typ = (if ord then (if q_distinct q then UDISTINCT else UORDERED) else UALL) ->
    (q_distinct q = true -> differ c (concat Ss0)) ->
    exists replies fuel out,
      Forall2 (fun part reply => exists f, select_part vnull vcmp qsort q t part f = Some (Ok (reply, []))) parts replies /\
      select_recv vnull vcmp qsort q t replies fuel = Some (Ok (out, [])) /\
      answer vnull vcmp q (concat parts) (visible out)).
  { intros ord typ Ss0 HS Ho HN Hplan Htyp HD.
    exists (map (the_store q) (map (fun p => cutp (keptp p)) parts)).
    destruct (exec_recv vnull vcmp qsort [] (map (the_store q) (map (fun p => cutp (keptp p)) parts)) q ord [] Q) as [fuel F].
    exists fuel, (union_store vnull vcmp (the_union q typ (map (the_store q) (map (fun p => cutp (keptp p)) parts)))).
    split; [|split].
    - apply (parts_exist q t parts (fun p => cutp (keptp p))). intros part. unfold select_part. rewrite Hplan. cbn [fst].
      destruct (exec_scan vnull vcmp qsort part [] q ord (push_limit q) None lv [] Hlv Ho) as [f Hf].
      exists f. rewrite Hf. unfold cutp, keptp. rewrite taken_none. destruct (push_limit q); [rewrite firstn_map|]; reflexivity.
    - unfold select_recv. rewrite Hplan. cbn [snd]. rewrite Htyp. exact F.
    - assert (HC : concat Ss0 = map (pushed vnull q) (filter (keeps q) (concat parts))).
      { rewrite concat_kept. subst Ss0. reflexivity. }
      assert (HL : Z.of_nat (length (concat (map (fun p => cutp (keptp p)) parts))) < INT64_MAX).
      { assert (L : (length (concat (map (fun p => cutp (keptp p)) parts)) <= length (concat Ss0))%nat).
        { subst Ss0. clear. induction parts as [|p ps IH]; [reflexivity|]. cbn. rewrite !app_length. unfold cutp at 1.
          destruct (push_limit q); rewrite ?firstn_length; lia. }
        rewrite HC in L. pose proof (kept_length vnull q (concat parts)). lia. }
      rewrite visible_union by assumption. fold c.
      destruct Hw as [Hno|[[lm Hlm] Hw]].
      + assert (E : map (fun p => cutp (keptp p)) parts = Ss0).
        { subst Ss0. unfold cutp. rewrite Hno. reflexivity. }
        rewrite E. destruct ord.
        * rewrite Htyp. apply union_full; [exact KO|exact TV|exact HT| |exact HN].
          rewrite HC. reflexivity.
        * rewrite Htyp. specialize (Ho eq_refl).
          rewrite C42_union_all by (rewrite <- E; exact HL).
          apply answer_plain; [apply (not_distinct q Q Ho)|rewrite HC; reflexivity|apply nondecreasing_zero; exact Ho].
      + assert (E : map (fun p => cutp (keptp p)) parts = map (firstn (Z.to_nat lv)) Ss0).
        { subst Ss0. unfold cutp. rewrite Hlm, map_map. reflexivity. }
        rewrite E. apply (union_cut vnull vcmp KO TV q (qsort c)).
        * intros l. apply (QS c l CO).
        * exact HT.
        * exact HC.
        * exact HN.
        * exact Hw.
        * destruct ord; [right; exact Htyp|left; split; [exact Htyp|apply Ho; reflexivity]].
        * exact HD. }
  unfold plan_pushdown in *. destruct (has_order q) eqn:HO.
  - destruct (t_table t && (t_tree t && match_index q t)) eqn:Hm.
    + apply andb_true_iff in Hm. destruct Hm as [Ht Hm]. apply andb_true_iff in Hm. destruct Hm as [Htree Hm].
      assert (Hi : t_table t && t_tree t = true) by (rewrite Ht, Htree; reflexivity).
      apply (Scan true (if q_distinct q then UDISTINCT else UORDERED) (map keptp parts) eq_refl); [discriminate| |reflexivity|reflexivity|].
      * apply Forall_forall. intros l Hl. apply in_map_iff in Hl. destruct Hl as (p & <- & Hp).
        rewrite Forall_forall in HP. apply (sorted_kept vnull vcmp q t p Hm). exact (HP p Hp Hi).
      * intros D. assert (HC : concat (map keptp parts) = map (pushed vnull q) (filter (keeps q) (concat parts)))
          by (rewrite concat_kept; reflexivity).
        rewrite HC. eapply fop_filter_map; [|exact (HU D Hi)].
        cbn. intros x y Hxy. unfold c. rewrite (scmp_key vnull vcmp q t x y Hm). exact Hxy.
    + (* sorted by the partitions *)
      clear Scan.
      assert (Hplan : plan_pushdown q t = ([CmdScan true None None; CmdSort], [CmdRecv true])).
      { unfold plan_pushdown. rewrite HO, Hm. reflexivity. }
      set (f := fun p => qsort c (keptp p)).
      exists (map (the_store q) (map f parts)).
      destruct (exec_recv vnull vcmp qsort [] (map (the_store q) (map f parts)) q true [] Q) as [fuel F].
      exists fuel, (union_store vnull vcmp (the_union q (if q_distinct q then UDISTINCT else UORDERED) (map (the_store q) (map f parts)))).
      assert (HC : Permutation (concat (map f parts)) (map (pushed vnull q) (filter (keeps q) (concat parts)))).
      { rewrite concat_kept. unfold f. clear - QS CO. induction parts as [|p ps IH]; [constructor|]. cbn.
        apply Permutation_app; [|exact IH]. symmetry. apply (QS c (keptp p) CO). }
      split; [|split].
      * apply (parts_exist q t parts f). intros part. unfold select_part. rewrite Hplan. cbn [fst].
        destruct (exec_sorted vnull vcmp qsort part [] q []) as [fl Hf]. exists fl. exact Hf.
      * unfold select_recv. rewrite Hplan. exact F.
      * rewrite visible_union.
        -- fold c. apply union_full; [exact KO|exact TV|exact HT|exact HC|].
           apply Forall_forall. intros l Hl. apply in_map_iff in Hl. destruct Hl as (p & <- & Hp). apply (QS c (keptp p) CO).
        -- exact Q.
        -- rewrite (Permutation_length HC). pose proof (kept_length vnull q (concat parts)). lia.
  - pose proof (has_order_nil q HO) as HN.
    apply (Scan false UALL (map keptp parts) eq_refl (fun _ => HN)); [|reflexivity|reflexivity|].
    + apply Forall_forall. intros l _. apply nondecreasing_zero. exact HN.
    + intros D. rewrite (not_distinct q Q HN) in D. discriminate.
Qed.

(** C84 for a SELECT that the session runs itself (inside of another statement, or
    over VALUES, a function, a CTE): the same, and the values [stack] that the
    statement around it has computed before stay — unless the ORDER BY is the key
    of a tree index of the only table (C84_subquery_order_exact). *)
Theorem C84_subquery_partial : forall q t src stack,
  key_order vcmp -> three_valued vcmp -> qsort_ok qsort -> query_ok q ->
  by_index q t = false ->
  Z.of_nat (length src) < INT64_MAX ->
  exists fuel out, select_main vnull vcmp qsort q t src stack fuel = Some (Ok (out, stack)) /\
    answer vnull vcmp q src (visible out).
Proof.
  intros q t src stack KO TV QS Q HB HT.
  set (c := store_compare vnull vcmp (length (q_ret q)) (map snd (order_by q))).
  assert (CO : key_order c) by (apply scmp_order; assumption).
  set (kept := map (pushed vnull q) (filter (keeps q) src)).
  unfold select_main, plan_main, by_index in *. destruct (has_order q) eqn:HO.
  - cbn [andb] in HB. rewrite HB. unfold plan_order_by.
    destruct (QS c kept CO) as [P1 S1].
    destruct (negb (q_distinct q) && negb (is_some (q_limit q)) && negb (is_some (q_offset q))) eqn:E.
    + rewrite app_nil_r. destruct (exec_sorted vnull vcmp qsort src [] q stack) as [fuel F].
      exists fuel. eexists. split; [exact F|].
      apply andb_true_iff in E. destruct E as [E E3]. apply andb_true_iff in E. destruct E as [E1 E2].
      assert (D : q_distinct q = false) by (destruct (q_distinct q); [discriminate|reflexivity]).
      unfold visible. cbn [the_store st_cols st_rows].
      pose proof (answer_plain vnull vcmp q src (qsort c kept) D) as A.
      assert (W : window q (qsort c kept) = qsort c kept).
      { unfold window. destruct (q_limit q); [discriminate|]. destruct (q_offset q); [discriminate|]. reflexivity. }
      rewrite W in A. apply A; [symmetry; exact P1|exact S1].
    + destruct (exec_sorted_union vnull vcmp qsort src [] q stack Q) as [fuel F].
      exists fuel. eexists. split; [exact F|].
      assert (HL : Z.of_nat (length (concat [qsort c kept])) < INT64_MAX).
      { pose proof (Permutation_length P1) as PL. pose proof (kept_length vnull q src) as KL.
        change (length kept <= length src)%nat in KL. cbn [concat]. rewrite app_nil_r.
        apply Z.le_lt_trans with (Z.of_nat (length src)); [|exact HT]. apply Nat2Z.inj_le. etransitivity; [|exact KL].
        apply Nat.eq_le_incl. symmetry. exact PL. }
      pose proof (visible_union vnull vcmp q Q (if q_distinct q then UDISTINCT else UORDERED) [qsort c kept] HL) as VU.
      cbn [map] in VU. fold c in VU. unfold c, kept in VU |- *. rewrite VU. fold c. fold kept.
      pose proof (union_full vnull vcmp KO TV q [src] [qsort c kept]) as A. cbn [concat] in A. rewrite !app_nil_r in A.
      apply A; [exact HT|symmetry; exact P1|constructor; [exact S1|constructor]].
  - pose proof (has_order_nil q HO) as HN. unfold plan_scan.
    destruct (exec_scan vnull vcmp qsort src [] q false (option_map LInt (q_limit q)) (q_offset q)
                (match q_limit q with Some l => l | None => 0 end) stack) as [fuel F].
    { destruct (q_limit q); reflexivity. }
    { intros _. exact HN. }
    exists fuel. eexists. split; [exact F|]. unfold visible. cbn [the_store st_cols st_rows].
    pose proof (answer_plain vnull vcmp q src kept (not_distinct q Q HN)) as A.
    assert (E : map (pushed vnull q) (taken (lreg (option_map LInt (q_limit q)) (match q_limit q with Some l => l | None => 0 end)) (q_offset q) (filter (keeps q) src))
                = window q kept).
    { unfold kept. rewrite <- window_map. f_equal. unfold taken, window.
      destruct (q_limit q), (q_offset q); reflexivity. }
    rewrite E. apply A; [reflexivity|apply nondecreasing_zero; exact HN].
Qed.

(** what the other subqueries do (plan.c:150-163 with emit_select.c:252-282: the set
    has no keys, but on_match has pushed them): every row has the last values of
    "what is selected, then the keys", and the first values stay on the stack. *)
Theorem C84_subquery_order_exact : forall q t src stack, by_index q t = true ->
  let k := length (order_by q) in
  let rows := map (pushed vnull q) (window q (filter (keeps q) src)) in
  exists fuel, select_main vnull vcmp qsort q t src stack fuel =
    Some (Ok (mkstore (length (q_ret q)) 0 [] (map (skipn k) rows), stack ++ concat (map (firstn k) rows))).
Proof.
  intros q t src stack HB k rows. unfold by_index in HB. apply andb_true_iff in HB. destruct HB as [HO Hm].
  unfold select_main, plan_main. rewrite HO, Hm. unfold plan_scan.
  set (lm := option_map LInt (q_limit q)). set (lv := match q_limit q with Some l => l | None => 0 end).
  set (code := program q [CmdScan false lm (q_offset q)]).
  assert (Hat : at_ code 0 (emit_scan 0 q false lm (q_offset q))).
  { apply (at_here vnull vcmp code [] _ [ORet]). unfold code, program. cbn [emit_plan emit_cmd app]. rewrite app_nil_r. reflexivity. }
  assert (Hl : match lm with Some x => lim_value x = Ok lv | None => True end) by (unfold lm, lv; destruct (q_limit q); reflexivity).
  destruct (run_scan vnull vcmp qsort src [] code 0 q false lm (q_offset q) lv stack 0 0 [] (mkstore 0 0 [] []) None Hat Hl) as (l' & o' & S).
  cbv zeta in S. unfold new_set in S. cbn [st_cols st_keys] in S. rewrite Nat.add_0_r in S.
  assert (E : taken (lreg lm lv) (q_offset q) (filter (keeps q) src) = window q (filter (keeps q) src)).
  { unfold lm, lv, taken, window. destruct (q_limit q), (q_offset q); reflexivity. }
  assert (Fold : forall l st0 rows0, fold_left (add1 vnull q (length (q_ret q))) l (st0, rows0) =
     (st0 ++ concat (map (firstn k) (map (pushed vnull q) l)), rows0 ++ map (skipn k) (map (pushed vnull q) l))).
  { induction l as [|r l IH]; intros st0 rows0; [cbn; rewrite !app_nil_r; reflexivity|].
    cbn [fold_left map concat].
    assert (L : length (pushed vnull q r) = (length (q_ret q) + k)%nat) by (unfold pushed, k; rewrite app_length, !map_length; reflexivity).
    assert (A : add1 vnull q (length (q_ret q)) (st0, rows0) r
                = (st0 ++ firstn k (pushed vnull q r), rows0 ++ [skipn k (pushed vnull q r)])).
    { unfold add1. cbn [fst snd]. rewrite app_length, L.
      replace (length st0 + (length (q_ret q) + k) - length (q_ret q))%nat with (length st0 + k)%nat by lia.
      rewrite firstn_app_2, skipn_app. rewrite (skipn_all2 st0) by lia.
      replace (length st0 + k - length st0)%nat with k by lia. reflexivity. }
    rewrite A, IH, <- !app_assoc. reflexivity. }
  rewrite E, Fold in S. cbn [fst snd app] in S. unfold rows_of in S. cbn [st_cols st_keys st_order] in S.
  destruct (finish vnull vcmp qsort src [] code stack _ S) as [f F].
  { unfold code, program. cbn [emit_plan emit_cmd s_pc]. rewrite app_nil_r. apply (at_end vnull vcmp). reflexivity. }
  exists f. exact F.
Qed.

(** LIMIT + OFFSET is computed by the partitions: if the sum is not an int64 the
    statement fails, for any rows, although it has an answer *)
Theorem C84_limit_overflow_refuted : forall q t part l o,
  q_limit q = Some l -> q_offset q = Some o -> INT64_MAX < l + o ->
  has_order q = false \/ by_index q t = true ->
  exists fuel, select_part vnull vcmp qsort q t part fuel = Some Err.
Proof.
  intros q t part l o El Eo Hs Hc. exists 2%nat. unfold select_part.
  assert (E : exists ord rest, program q (fst (plan_pushdown q t)) =
     (if ord : bool then OSet (length (q_ret q)) (length (order_by q)) (map snd (order_by q)) else OSet (length (q_ret q)) 0 []) :: OLimit (LSum l o) :: rest).
  { assert (P : exists ord, fst (plan_pushdown q t) = [CmdScan ord (Some (LSum l o)) None]).
    { unfold plan_pushdown, push_limit. rewrite El, Eo. destruct Hc as [Hc|Hc].
      - rewrite Hc. exists false. reflexivity.
      - unfold by_index in Hc. apply andb_true_iff in Hc. destruct Hc as [HO Hm]. rewrite HO, Hm. exists true. reflexivity. }
    destruct P as [ord P]. rewrite P. exists ord. eexists. unfold program. cbn [emit_plan emit_cmd]. unfold emit_scan, scan_head.
    cbv zeta. destruct ord; reflexivity. }
  destruct E as (ord & rest & E). rewrite E. cbn [exec step start s_pc nth_error].
  destruct ord; cbn [nth_error s_pc step lim_value bind]; destruct (Z.ltb_spec INT64_MAX (l + o)); try lia; reflexivity.
Qed.

(** more steps change nothing: the results above are the results *)
Theorem C84_result_is_final : forall src replies code fuel x r n,
  exec vnull vcmp qsort src replies code fuel x = Some r -> exec vnull vcmp qsort src replies code (fuel + n) x = Some r.
Proof.
  intros src replies code fuel. induction fuel as [|f IH]; intros x r n H; [discriminate|].
  cbn [Nat.add exec] in *. destruct (step vnull vcmp qsort src replies code x) as [[y|]| |]; [|exact H..]. apply IH, H.
Qed.
End Props.
Print Assumptions C84_select_partial.
Print Assumptions C84_subquery_partial.
Print Assumptions C84_subquery_order_exact.
Print Assumptions C84_limit_overflow_refuted.
Print Assumptions C84_result_is_final.

(** ** concrete cases *)
Fixpoint ins_row (cmp : list Z -> list Z -> Z) (x : list Z) (l : list (list Z)) : list (list Z) :=
  match l with [] => [x] | y :: l' => if cmp x y <=? 0 then x :: l else y :: ins_row cmp x l' end.
Definition isort (cmp : list Z -> list Z -> Z) (l : list (list Z)) : list (list Z) := fold_right (ins_row cmp) [] l.
Lemma ins_perm : forall cmp x l, Permutation (x :: l) (ins_row cmp x l).
Proof.
  intros cmp x l. induction l as [|y m IH]; cbn; [reflexivity|].
  destruct (cmp x y <=? 0); [reflexivity|]. rewrite perm_swap. constructor. exact IH.
Qed.
Lemma isort_ok : qsort_ok isort.
Proof.
  intros cmp l KO. induction l as [|x l [P S]]; [split; constructor|]. change (isort cmp (x :: l)) with (ins_row cmp x (isort cmp l)). split.
  - rewrite <- ins_perm. constructor. exact P.
  - clear P. unfold nondecreasing in *. revert S. generalize (isort cmp l). intros m S. induction S as [|y m S IH F]; cbn; [repeat constructor|].
    destruct (Z.leb_spec (cmp x y) 0) as [H|H].
    + constructor; [constructor; assumption|]. constructor; [exact H|]. eapply Forall_impl; [|exact F].
      cbn. intros z Hz. exact (ko_trans _ KO x y z H Hz).
    + constructor; [exact IH|]. apply Forall_forall. intros z Hz.
      apply (Permutation_in _ (Permutation_sym (ins_perm cmp x m))) in Hz. destruct Hz as [<-|Hz].
      * pose proof (cmp_gt cmp KO x y H). lia.
      * rewrite Forall_forall in F. exact (F z Hz).
Qed.

(** table: id (key of a tree index), data *)
Definition tab := mkt true [0%nat] true.
Definition part1 := [[1; 30]; [4; 10]; [6; 20]].
Definition part2 := [[2; 10]; [3; 40]; [5; 30]].
Definition get (x : option (res (@store Z * list Z))) : list (list Z) * list Z :=
  match x with Some (Ok (s, st)) => (visible s, st) | _ => ([], []) end.
Definition sel (q : @query Z) (parts : list (list (list Z))) : list (list Z) :=
  fst (get (select_recv 0 cmp3 isort q tab
    (flat_map (fun p => match select_part 0 cmp3 isort q tab p 200 with Some (Ok (s, _)) => [s] | _ => [] end) parts) 200)).
(** SELECT data FROM t WHERE id > 1 ORDER BY id LIMIT 2 OFFSET 1;
    ... ORDER BY data DESC, id LIMIT 3; SELECT DISTINCT data; no ORDER BY, LIMIT 4 OFFSET 1 *)
Definition q1 := mkq [ECol 1] false (Some (fun r => 1 <? nth 0 r 0)) [(@ECol Z 0, true)] (Some 2) (Some 1).
Definition q2 := mkq [ECol 1] false None [(@ECol Z 1, false); (ECol 0, true)] (Some 3) None.
Definition q3 := mkq [@ECol Z 1] true None [] None None.
Definition q4 := mkq [@ECol Z 0] false None [] (Some 4) (Some 1).
Example C84_select_nonvacuous :
  key_order cmp3 /\ three_valued cmp3 /\ qsort_ok isort /\ query_ok q1 /\ sum_ok q1 /\
  Forall (in_index_order 0 cmp3 tab) [part1; part2] /\ unique_keys 0 cmp3 tab [part1; part2] /\
  by_index q1 tab = true /\ by_index q2 tab = false /\
  sel q1 [part1; part2] = [[40]; [10]] /\ sel q2 [part1; part2] = [[40]; [30]; [30]] /\
  sel q3 [part1; part2] = [[10]; [20]; [30]; [40]] /\ sel q4 [part1; part2] = [[4]; [6]; [2]; [3]].
Proof.
  split; [apply cmp3_ok|]. split; [apply cmp3_ok|]. split; [apply isort_ok|].
  split; [|split; [|split; [|split]]].
  - split; [|split; [|split]]; cbn; intros; try discriminate; try congruence.
    + injection H as <-. unfold INT64_MAX. lia.
    + injection H as <-. unfold INT64_MAX. lia.
  - intros l o H1 H2. injection H1 as <-. injection H2 as <-. unfold INT64_MAX. lia.
  - repeat first [apply Forall_cons | apply Forall_nil | apply SSorted_cons | apply SSorted_nil | match goal with |- in_index_order _ _ _ _ => intros _ end]; vm_compute; discriminate.
  - intros _. unfold part1, part2. cbn [concat app].
    repeat first [apply FOP_cons | apply FOP_nil | apply Forall_cons | apply Forall_nil]; vm_compute; discriminate.
  - vm_compute. repeat split; reflexivity.
Qed.

(** SELECT 7, (SELECT data FROM t ORDER BY id LIMIT 1): the subquery returns the id,
    and what is on the stack for the outer row has changed *)
Definition q5 := mkq [ECol 1] false None [(@ECol Z 0, true)] (Some 1) None.
Theorem C84_subquery_order_refuted :
  key_order cmp3 /\ three_valued cmp3 /\ qsort_ok isort /\ query_ok q5 /\ in_index_order 0 cmp3 tab part1 /\
  exists fuel out stack, select_main 0 cmp3 isort q5 tab part1 [7] fuel = Some (Ok (out, stack)) /\
    ~ answer 0 cmp3 q5 part1 (visible out) /\ stack <> [7].
Proof.
  split; [apply cmp3_ok|]. split; [apply cmp3_ok|]. split; [apply isort_ok|].
  split; [|split].
  - split; [|split; [|split]]; cbn; intros; try discriminate; try congruence. injection H as <-. unfold INT64_MAX. lia.
  - intros _. unfold part1. repeat first [apply Forall_cons | apply Forall_nil | apply SSorted_cons | apply SSorted_nil]; vm_compute; discriminate.
  - destruct (C84_subquery_order_exact 0 cmp3 isort q5 tab part1 [7] eq_refl) as [fuel H].
    exists fuel. eexists. eexists. split; [exact H|]. split; [|vm_compute; discriminate].
    intros (full & P & _ & E). 
    assert (F : In ([1]) (map fst full)).
    { revert E. generalize (map fst full). intros l E. change ([[1]] = firstn 1 l) in E.
      destruct l as [|x m]; [discriminate|]. cbn in E. injection E as <-. left. reflexivity. }
    apply in_map_iff in F. destruct F as (p & Ep & Hp). apply (Permutation_in _ P) in Hp. vm_compute in Hp.
    destruct Hp as [<-|[<-|[<-|[]]]]; discriminate.
Qed.
Print Assumptions C84_subquery_order_refuted.
Example C84_subquery_nonvacuous : by_index q2 tab = false /\ get (select_main 0 cmp3 isort q2 tab part1 [7] 200) = ([[30]; [20]; [10]], [7]) /\
  by_index q5 tab = true /\ get (select_main 0 cmp3 isort q5 tab part1 [7] 200) = ([[1]], [7; 30]).
Proof. vm_compute. auto. Qed.
Definition q6 := mkq [@ECol Z 0] false None [] (Some INT64_MAX) (Some 1).
Example C84_limit_overflow_nonvacuous : query_ok q6 /\ has_order q6 = false /\
  select_part 0 cmp3 isort q6 tab part1 5 = Some Err /\ answer 0 cmp3 q6 part1 [[4]; [6]].
Proof.
  split; [|split; [reflexivity|split; [reflexivity|]]].
  - split; [|split; [|split]]; cbn; intros; try discriminate; try congruence; injection H as <-; unfold INT64_MAX; lia.
  - exists (selected 0 q6 part1). split; [reflexivity|]. split.
    + unfold ordered. cbn. repeat first [apply SSorted_cons | apply SSorted_nil | apply Forall_cons | apply Forall_nil]; cbn; lia.
    + cbn [q_distinct]. unfold window, q6. cbn [q_limit q_offset]. symmetry. apply firstn_all2.
      apply Nat2Z.inj_le. rewrite Z2Nat.id by (unfold INT64_MAX; lia). vm_compute. discriminate.
Qed.
