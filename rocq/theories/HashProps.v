(** C03 and C04: the hash index as a map, and the scan of several partitions. *)
From Verif Require Import Base HashModel HashSpec HashProofs.

(** C03 (part): as long as at most 128 rows are ever written (the index is then never
    rehashed) and, after a first delete, INSERT is only given absent keys, the index
    is a map: for every hash function and every such history of writes, upserts,
    deletes, replaces through an iterator, lookups and scans. *)
Theorem C03_hash_index_map_partial : forall (row_hash : Z -> Z) (ops : list hop),
  (writes ops <= 128)%nat -> fresh_inserts empty_map false ops ->
  exists h xs, hrun row_hash hash_create ops = Ok (h, xs) /\ spec_run empty_map ops xs.
Proof.
  intros rh ops H F. unfold hash_create.
  apply (hrun_ok rh ops (store_create 256) empty_map false 0 (inv_create rh) eq_refl); [|exact F].
  change (nonempty (rows (store_create 256))) with 0%nat. lia.
Qed.
Print Assumptions C03_hash_index_map_partial.

(** ... in particular for every history without deletes, *)
Theorem C03_no_delete_partial : forall (row_hash : Z -> Z) (ops : list hop),
  (writes ops <= 128)%nat -> forallb (fun o => negb (is_delete o)) ops = true ->
  exists h xs, hrun row_hash hash_create ops = Ok (h, xs) /\ spec_run empty_map ops xs.
Proof.
  intros rh ops H D. apply C03_hash_index_map_partial; [exact H|].
  clear H. generalize empty_map. induction ops as [|o ops IH]; intros m; [exact I|].
  cbn [forallb] in D. apply andb_prop in D as [D0 D1]. cbn [fresh_inserts]. split; [destruct o; try exact I; discriminate|].
  destruct (is_delete o); [discriminate|]. cbn. now apply IH.
Qed.
Print Assumptions C03_no_delete_partial.

(** ... and for every history whose writes are upserts. *)
Theorem C03_upsert_only_partial : forall (row_hash : Z -> Z) (ops : list hop),
  (writes ops <= 128)%nat -> (forall r, ~ In (HReplaceBy r) ops) ->
  exists h xs, hrun row_hash hash_create ops = Ok (h, xs) /\ spec_run empty_map ops xs.
Proof.
  intros rh ops H D. apply C03_hash_index_map_partial; [exact H|].
  clear H. generalize empty_map. generalize false. induction ops as [|o ops IH]; intros b m; [exact I|].
  cbn [fresh_inserts]. split.
  - destruct o; try exact I. exfalso. apply (D r). now left.
  - apply IH. intros r Hr. apply (D r). now right.
Qed.
Print Assumptions C03_upsert_only_partial.

(** a history with a collision chain of three keys, a delete in its middle, lookups
    past the tombstone and a re-insert *)
Definition demo_ops : list hop :=
  [HReplaceBy (mkhrow 7 1); HReplaceBy (mkhrow 263 2); HReplaceBy (mkhrow 519 3); HDelete 263;
   HFind 519; HFind 263; HUpsert (mkhrow 519 9); HReplaceBy (mkhrow 263 4); HReplace (mkhrow 7 5); HScan].
Example C03_nonvacuous : (writes demo_ops <= 128)%nat /\ fresh_inserts empty_map false demo_ops /\
  (do (_, xs) <- hrun (fun k => k) hash_create demo_ops; Ok xs) =
  Ok [ORow None; ORow None; ORow None; ORow (Some (mkhrow 263 2)); ORow (Some (mkhrow 519 3)); ORow None;
      ORow (Some (mkhrow 519 3)); ORow None; ORow (Some (mkhrow 7 1));
      ORows [mkhrow 7 5; mkhrow 263 4; mkhrow 519 3]].
Proof. split; [vm_compute; lia|]. split; [vm_compute; repeat split; intros; congruence|]. vm_compute. reflexivity. Qed.

(** C03 is false of the code (1): INSERT of a present key after a delete reuses the
    slot of the deleted row: no previous row is reported (so no duplicate key error
    is raised) and the scan returns two rows with the same key. *)
Definition dup_ops : list hop :=
  [HReplaceBy (mkhrow 0 1); HReplaceBy (mkhrow 256 2); HDeleteBy 0; HReplaceBy (mkhrow 256 3); HScan].
Theorem C03_duplicate_key_refuted : exists (row_hash : Z -> Z) ops h xs,
  hrun row_hash hash_create ops = Ok (h, xs) /\ ~ spec_run empty_map ops xs /\
  exists l, last xs (ORow None) = ORows l /\ ~ NoDup (map hkey l).
Proof.
  exists (fun k => k), dup_ops. do 2 eexists. split; [vm_compute; reflexivity|]. split.
  - intros H. cbn in H. destruct H as (_ & _ & _ & H & _). vm_compute in H. discriminate.
  - eexists. split; [reflexivity|]. intros H. vm_compute in H. inversion H as [|? ? N _]. apply N. now left.
Qed.
Print Assumptions C03_duplicate_key_refuted.

(** C03 is false of the code (2): with inserts only, the 129th row starts a rehash;
    moving the first row of a collision chain makes the second one invisible to
    lookups. *)
Definition lost_ops : list hop :=
  HReplaceBy (mkhrow 1 1) :: HReplaceBy (mkhrow 257 2) ::
  map (fun i => HReplaceBy (mkhrow (Z.of_nat i + 3) 0)) (seq 0 127) ++ [HFind 257].
(* a boolean test of the answers of the operations on keys *)
Definition row_eqb (a b : option hrow) : bool :=
  match a, b with
  | Some x, Some y => (hkey x =? hkey y) && (hval x =? hval y)
  | None, None => true
  | _, _ => false
  end.
Lemma row_eqb_refl a : row_eqb a a = true.
Proof. destruct a; cbn; [|reflexivity]. now rewrite !Z.eqb_refl. Qed.
Fixpoint rows_ok (m : hmap) (ops : list hop) (xs : list hout) : bool :=
  match ops, xs with
  | o :: ops', x :: xs' =>
    match o, x with
    | HFind k, ORow p => row_eqb p (m k)
    | _, _ => true
    end && rows_ok (spec_map m o) ops' xs'
  | _, _ => true
  end.
Lemma spec_run_rows_ok ops : forall m xs, spec_run m ops xs -> rows_ok m ops xs = true.
Proof.
  induction ops as [|o ops IH]; intros m [|x xs] H; cbn in H |- *; try reflexivity; try tauto.
  destruct H as [H0 H1]. rewrite (IH _ _ H1), andb_true_r. destruct o, x; try reflexivity.
  cbn in H0. subst. apply row_eqb_refl.
Qed.
Definition lost_result := Eval vm_compute in
  match hrun (fun k => k) hash_create lost_ops with Ok (h, xs) => (h, xs) | _ => (hash_create, []) end.
Theorem C03_lost_row_refuted : exists (row_hash : Z -> Z) ops h xs,
  hrun row_hash hash_create ops = Ok (h, xs) /\ ~ spec_run empty_map ops xs /\
  forallb (fun o => negb (is_delete o)) ops = true.
Proof.
  exists (fun k => k), lost_ops, (fst lost_result), (snd lost_result). split; [vm_compute; reflexivity|].
  split; [|vm_compute; reflexivity].
  intros H. apply spec_run_rows_ok in H. revert H. vm_compute. discriminate.
Qed.
Print Assumptions C03_lost_row_refuted.

(** C03 is false of the code (3): when every slot holds a row or a deleted mark, a
    lookup of an absent key raises an error instead of finding nothing. *)
Definition churn_ops : list hop :=
  flat_map (fun i => [HUpsert (mkhrow (Z.of_nat i) 0); HDeleteBy (Z.of_nat i)]) (seq 0 256) ++ [HFind 0].
Theorem C03_overflow_refuted : exists (row_hash : Z -> Z) ops, hrun row_hash hash_create ops = Err.
Proof. exists (fun k => k), churn_ops. vm_compute. reflexivity. Qed.
Print Assumptions C03_overflow_refuted.

(** ** C04 *)
(** the scan of partitions [parts] (the rows of each, in the order its own iterator
    returns them): every row of every partition exactly once *)
Definition complete_scan {A} (parts : list (list A)) (r : res (list A)) : Prop := r = Ok (concat parts).

Lemma set_nth_same {A} (l : list (list A)) i d : (i < length l)%nat -> set_nth l i (nth i l d) = l.
Proof. revert i; induction l as [|x l IH]; intros [|i] H; cbn in *; try lia; auto. f_equal. apply IH. lia. Qed.

Lemma set_nth_twice {A} (l : list A) i x y : set_nth (set_nth l i x) i y = set_nth l i y.
Proof. revert i; induction l as [|z l IH]; intros [|i]; cbn; auto. now rewrite IH. Qed.

Lemma merge_rows_current {A} (l : list (list A)) i (rest : list A) : forall n, (i < length l)%nat -> rest <> [] ->
  (length rest < n)%nat ->
  merge_rows n (mkmerge (set_nth l i rest) (Some i) i) =
    if (S i <? length l)%nat then Ok rest else UB.
Proof.
  induction rest as [|x rest IH]; intros n Hi Hne Hn; [congruence|].
  destruct n as [|n]; [cbn in Hn; lia|]. cbn [merge_rows].
  unfold merge_at. cbn [cur_it its]. rewrite set_nth_eq by exact Hi. cbn [hd_error].
  unfold merge_next. cbn [cur_it its cur_order]. rewrite set_nth_twice. rewrite !set_nth_eq by exact Hi. cbn [tl].
  destruct rest as [|y rest].
  - unfold merge_advance. rewrite set_nth_length. destruct (S i <? length l)%nat eqn:E.
    + cbn [bind]. destruct n; cbn; reflexivity.
    + replace (nth_error (set_nth l i []) (S i)) with (@None (list A)); [reflexivity|].
      symmetry. apply nth_error_None. rewrite set_nth_length. lia.
  - cbn [bind]. cbn [length] in Hn. rewrite IH; [|exact Hi|congruence|cbn [length]; lia].
    destruct (S i <? length l)%nat; reflexivity.
Qed.

Lemma first_nonempty_spec {A} (l : list (list A)) : forall k,
  match first_nonempty l k with
  | Some i => exists pre x r post, l = pre ++ (x :: r) :: post /\ i = (k + length pre)%nat /\ concat pre = []
  | None => concat l = []
  end.
Proof.
  induction l as [|x l IH]; intros k; cbn; [reflexivity|]. destruct x as [|a x].
  - specialize (IH (S k)). destruct (first_nonempty l (S k)).
    + destruct IH as (pre & y & r & post & -> & -> & E). exists ([] :: pre), y, r, post. cbn. repeat split; auto; lia.
    + exact IH.
  - exists [], a, x, l. cbn. repeat split; lia.
Qed.

(** what a scan of several partitions does, for every number and content of them:
    the rows of the first partition that is not empty, and then either the end or, if
    that partition is the last one, a read outside of the list of partitions *)
Lemma merge_scan_exact {A} (parts : list (list A)) n : (length (concat parts) < n)%nat ->
  (concat parts = [] /\ merge_rows n (merge_open parts) = Ok []) \/
  (exists pre x r post, parts = pre ++ (x :: r) :: post /\ concat pre = [] /\
     merge_rows n (merge_open parts) = match post with [] => UB | _ => Ok (x :: r) end).
Proof.
  intros Hn. unfold merge_open. pose proof (first_nonempty_spec parts 0) as F.
  destruct (first_nonempty parts 0) as [i|].
  - right. destruct F as (pre & x & r & post & -> & -> & E). exists pre, x, r, post. split; [reflexivity|]. split; [exact E|].
    set (l := pre ++ (x :: r) :: post) in *. set (i := (0 + length pre)%nat).
    assert (i < length l)%nat as Hi by (unfold l, i; rewrite app_length; cbn; lia).
    assert (nth i l [] = x :: r) as Hx by (unfold l, i; rewrite Nat.add_0_l, app_nth2 by lia; now rewrite Nat.sub_diag).
    replace l with (set_nth l i (x :: r)) at 1 by (rewrite <- Hx; now apply set_nth_same).
    rewrite merge_rows_current; [|exact Hi|congruence|].
    + unfold l, i. rewrite app_length. cbn [length]. destruct post; cbn [length].
      * destruct (S (0 + length pre) <? length pre + 1)%nat eqn:E2; [lia|reflexivity].
      * destruct (S (0 + length pre) <? length pre + S (S (length post)))%nat eqn:E2; [reflexivity|lia].
    + unfold l in Hn. rewrite concat_app, app_length in Hn. cbn [concat] in Hn. rewrite app_length in Hn. lia.
  - left. split; [exact F|]. destruct n; reflexivity.
Qed.

(** C04 (part): a scan is complete when no partition has a row, or when only one
    partition has rows and it is not the last of the list. *)
Theorem C04_merge_scan_partial : forall (A : Type) (pre : list (list A)) (rows : list A) (post : list (list A)) n,
  concat pre = [] -> concat post = [] -> post <> [] -> (length rows < n)%nat ->
  complete_scan (pre ++ rows :: post) (merge_rows n (merge_open (pre ++ rows :: post))).
Proof.
  intros A pre rows post n H1 H2 H3 Hn. unfold complete_scan.
  assert (concat (pre ++ rows :: post) = rows) as C by (rewrite concat_app, H1; cbn; rewrite H2; apply app_nil_r).
  destruct (merge_scan_exact (pre ++ rows :: post) n) as [[E R]|(p & x & r & q & E & E2 & R)]; [rewrite C; exact Hn| |].
  - rewrite R, E. reflexivity.
  - rewrite R, C. rewrite E in C. rewrite concat_app, E2 in C. cbn in C.
    destruct q as [|q0 q].
    + exfalso. rewrite app_nil_r in C. subst rows.
      (* the last partition of the list has rows, but it is in [post] *)
      assert (last (pre ++ (x :: r) :: post) [] = x :: r) as L by (rewrite E; apply last_last).
      destruct (exists_last H3) as (post' & z & ->). rewrite app_comm_cons, app_assoc, last_last in L.
      rewrite concat_app in H2. cbn in H2. rewrite L in H2. destruct (concat post'); discriminate.
    + assert (concat (q0 :: q) = []) as Q.
      { assert (length (concat (pre ++ rows :: post)) = length rows) as L1 by (rewrite concat_app, H1; cbn; rewrite H2, app_nil_r; reflexivity).
        (* [rows] is the only partition with rows, and (x :: r) is one *)
        assert (In (x :: r) (pre ++ rows :: post)) as HI by (rewrite E; apply in_or_app; right; now left).
        assert (forall l y, concat l = [] -> In y l -> y = @nil A) as CN.
        { intros l y Hl Hy. destruct y as [|a y]; [reflexivity|]. exfalso. assert (In a (concat l)) as K by (apply in_concat; exists (a :: y); split; [exact Hy|now left]). rewrite Hl in K. destruct K. }
        apply in_app_or in HI as [HI|[HI|HI]]; [discriminate (CN _ _ H1 HI)| |discriminate (CN _ _ H2 HI)].
        rewrite HI in C. injection C as C. apply (f_equal (@length A)) in C. rewrite app_length in C. cbn [concat].
        destruct (q0 ++ concat q) eqn:Z; [reflexivity|]. cbn in C. lia. }
      f_equal. rewrite Q in C. rewrite ?app_nil_r in C. exact C.
Qed.
Print Assumptions C04_merge_scan_partial.
Example C04_nonvacuous : merge_rows 10 (merge_open [[]; [1; 2; 3]; []; []]) = Ok [1; 2; 3].
Proof. apply (C04_merge_scan_partial Z [[]] [1; 2; 3] [[]; []] 10); [reflexivity|reflexivity|discriminate|cbn; lia]. Qed.

(** C04 is false of the code: whenever two partitions have rows the rows of the second
    one are not returned, and a scan whose only (or last) partition has rows reads
    outside of the list of partitions. *)
Theorem C04_rows_missed_refuted : forall (A : Type) (p q : list A) n,
  p <> [] -> q <> [] -> (length (p ++ q) < n)%nat ->
  ~ complete_scan [p; q] (merge_rows n (merge_open [p; q])) /\
  merge_rows n (merge_open [p; q]) = Ok p.
Proof.
  intros A p q n Hp Hq Hn.
  assert (merge_rows n (merge_open [p; q]) = Ok p) as E.
  { destruct (merge_scan_exact [p; q] n) as [[C R]|(pre & x & r & post & E & C & R)].
    - cbn. rewrite app_nil_r. exact Hn.
    - cbn in C. rewrite app_nil_r in C. apply app_eq_nil in C as [? ?]. congruence.
    - rewrite R. destruct pre as [|p0 pre]; cbn in E.
      + injection E as -> <-. reflexivity.
      + injection E as <- E. cbn in C. apply app_eq_nil in C as [? ?]. congruence. }
  split; [|exact E]. unfold complete_scan. rewrite E. cbn. rewrite app_nil_r. intros [= K].
  apply (f_equal (@length A)) in K. rewrite app_length in K. destruct q; [congruence|cbn in K; lia].
Qed.
Print Assumptions C04_rows_missed_refuted.

Theorem C04_out_of_bounds_refuted : forall (A : Type) (p : list A) n,
  p <> [] -> (length p < n)%nat -> merge_rows n (merge_open [p]) = UB.
Proof.
  intros A p n Hp Hn. destruct (merge_scan_exact [p] n) as [[C R]|(pre & x & r & post & E & C & R)].
  - cbn. rewrite app_nil_r. exact Hn.
  - cbn in C. rewrite app_nil_r in C. congruence.
  - rewrite R. destruct pre as [|p0 pre]; cbn in E.
    + injection E as -> <-. reflexivity.
    + injection E as <- E. destruct pre; discriminate.
Qed.
Print Assumptions C04_out_of_bounds_refuted.
