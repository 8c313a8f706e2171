(** Property theorems: C72 (indexes created at any time agree with the rows, also after a restart). *)
From Verif Require Import PartModel PartProofs ReplayModel ReplayProofs IdxModel IdxSpec IdxProofs IdxProofs2.
From Coq Require Import List ZArith Lia Bool.
Import ListNotations.
Open Scope Z_scope.

Lemma consistent_exact p : consistent p -> forall i, (i <= nsec p)%nat -> index_exact p i.
Proof.
  intros Hc i Hi k r. split.
  - intros H. split; [|exact (proj1 Hc _ _ _ H)].
    destruct (Nat.eq_dec i 0) as [->|Hne]; [now rewrite (proj1 Hc _ _ _ H)|].
    destruct (proj2 Hc i ltac:(lia)) as [_ C2]. eapply C2. exact H.
  - intros [H <-]. apply update_keys_secondary; assumption.
Qed.

(** ** C72.  CREATE INDEX (no concurrent writes) succeeds exactly if no two rows have the
    same key, and then every index of the table, the new one included, agrees with the
    rows, which are the same as before. *)
Theorem C72_create_index : forall p image,
  consistent p -> image_of p image ->
  (create_index p image <> None <->
     forall r r', In r image -> In r' image -> key_of (S (nsec p)) r = key_of (S (nsec p)) r' -> r = r') /\
  forall p1, create_index p image = Some p1 ->
    nsec p1 = S (nsec p) /\ (forall k, ix p1 0%nat k = ix p 0%nat k) /\
    forall i, (i <= nsec p1)%nat -> index_exact p1 i.
Proof.
  intros p image Hc Him. split; [split|].
  - intros Hne. destruct (create_index p image) as [p1|] eqn:E; [|contradiction]. unfold create_index in E.
    destruct (build (S (nsec p)) (fun _ => None) image) as [m|] eqn:B; [|discriminate]. apply build_some in B.
    destruct B as (B & _). intros r r' Hr Hr' Ek. pose proof (B r Hr). pose proof (B r' Hr'). congruence.
  - intros Hu. unfold create_index.
    destruct (build_spec (S (nsec p)) image (fun _ => None)) as (m & E & _); [reflexivity|exact Hu|exact (proj1 Him)|].
    rewrite E. discriminate.
  - intros p1 E. destruct (create_consistent _ _ _ Hc Him E) as (C1 & N1 & _ & _).
    split; [exact N1|]. split; [|apply consistent_exact; exact C1].
    intros k. unfold create_index in E. destruct (build _ _ image); [|discriminate]. now injection E as <-.
Qed.
Print Assumptions C72_create_index.

(** Any history of committed transactions and CREATE INDEX; a partition file with lsn
    [snap] (the records [old ++ kept]) and a catalog file with lsn [cat]; the log keeps
    the records after [old], which both files include.  If no rows were written between
    the partition file and the creation of an index that is in the catalog file, then
    recovery never fails, and every run of it ends with the rows and the indexes of the
    database before the restart, each index in agreement with the rows.
    Missing for the full property: without that condition it is false (see below). *)
Theorem C72_restart_partial : forall n old kept recs2 ps pe image cat,
  history (empty_part n) 1 (old ++ kept) ps ->
  let snap := Z.of_nat (length (old ++ kept)) in
  history ps (1 + snap) recs2 pe ->
  image_of ps image ->
  Z.of_nat (length old) <= cat ->
  index_after_rows snap cat recs2 ->
  let x := part_open (n + indexes_at cat (old ++ kept ++ recs2)) image in
  (exists y, recovers snap cat x (kept ++ recs2) y SOk) /\
  forall y st, recovers snap cat x (kept ++ recs2) y st ->
    st = SOk /\ same pe y /\ forall i, (i <= nsec y)%nat -> index_exact y i.
Proof.
  intros n old kept recs2 ps pe image cat H1 snap H2 Him Hold Ha x.
  destruct (restart n old kept recs2 ps pe image cat H1 H2 Him Hold Ha) as [A B].
  split; [exact A|]. intros y st H. destruct (B y st H) as (E & C & S1). split; [exact E|]. split; [exact S1|].
  now apply consistent_exact.
Qed.
Print Assumptions C72_restart_partial.

(** *** concrete histories *)
Definition tx (p : part) (ops : list op) : part := fst (run p ops).
Lemma tx_step p ops : snd (run p ops) = SOk -> hstep p (RRows (wal (tx p ops))) (settle (tx p ops)).
Proof. intros H. apply (HTx p ops). unfold tx. destruct (run p ops) as [a b]. cbn in *. congruence. Qed.
Definition mkidx (p : part) (image : list row) : part := match create_index p image with Some q => q | None => p end.
Lemma idx_step p image : image_of p image -> create_index p image <> None -> hstep p RIndex (mkidx p image).
Proof. intros H N. apply (HIndex p image); [exact H|]. unfold mkidx. destruct (create_index p image); congruence. Qed.

Ltac image_tac :=
  split; [repeat (constructor; [let H := fresh in intros H; repeat (destruct H as [H|H]; [discriminate H|]); destruct H|]); constructor|];
  let r := fresh "r" in let H := fresh "H" in let k := fresh "k" in
  intros r; split;
  [ intros H; repeat (destruct H as [H|H]; [exists (key_of 0 r); rewrite <- H; vm_compute; reflexivity|]); destruct H
  | intros [k H]; vm_compute in H;
    repeat (match type of H with context [match ?x with _ => _ end] => is_var x; destruct x end; try discriminate H);
    injection H as <-; cbn; auto ].

(* a table (id, a): rows (1, 5) and (2, 5), then row 1 is deleted, then an index on a is created *)
Definition a1 := settle (tx (empty_part 0) [Insert [1; 5] 0 false; Insert [2; 5] 0 false]).
Definition a2 := settle (tx a1 [Delete 1 false]).
Definition a_img := [mkrow 1 [2; 5] 0].
Definition a3 := mkidx a2 a_img.
Definition a4 := settle (tx a3 [Insert [3; 6] 0 false]).
Definition a_recs := [(1, RRows (wal (tx (empty_part 0) [Insert [1; 5] 0 false; Insert [2; 5] 0 false])));
                      (2, RRows (wal (tx a1 [Delete 1 false]))); (3, RIndex)].
Lemma a_image : image_of a2 a_img. Proof. image_tac. Qed.
Lemma a_hist : history (empty_part 0) 1 a_recs a3.
Proof.
  econstructor; [apply tx_step; vm_compute; reflexivity|].
  econstructor; [apply tx_step; vm_compute; reflexivity|].
  econstructor; [apply idx_step; [exact a_image|vm_compute; discriminate]|]. constructor.
Qed.

(** the hypotheses of C72_restart_partial are met: partition file at lsn 2, catalog at 3,
    one more record *)
Example C72_nonvacuous :
  let recs2 := [(3, RIndex); (4, RRows (wal (tx a3 [Insert [3; 6] 0 false])))] in
  history (empty_part 0) 1 (firstn 1 a_recs ++ skipn 1 (firstn 2 a_recs)) a2 /\
  history a2 (1 + 2) recs2 a4 /\ image_of a2 a_img /\ index_after_rows 2 3 recs2 /\
  indexes_at 3 (firstn 2 a_recs ++ recs2) = 1%nat /\
  view a4 1 5 = Some ([2; 5], 0) /\ view a4 1 6 = Some ([3; 6], 0).
Proof.
  cbv zeta. split; [|split; [|split; [exact a_image|split]]].
  - econstructor; [apply tx_step; vm_compute; reflexivity|].
    econstructor; [apply tx_step; vm_compute; reflexivity|]. constructor.
  - econstructor; [apply idx_step; [exact a_image|vm_compute; discriminate]|].
    econstructor; [apply tx_step; vm_compute; reflexivity|]. constructor.
  - intros l w i [H|[H|[]]] Hw [H'|[H'|[]]] A B; try discriminate H; try discriminate H'.
    injection H as <- <-. injection H' as <-. lia.
  - split; [reflexivity|]. split; vm_compute; reflexivity.
Qed.

(** *** C72 is false of the code without the condition.  The catalog file includes the
    index (a checkpoint writes it first) and the partition file is older (the process
    stops before it is written). *)
(** A unique index: replay succeeds, row 2 is missing from the index, and a second row
    with the same unique key can be inserted; before the restart it could not. *)
Theorem C72_restart_refuted : exists recs pe y,
  history (empty_part 0) 1 recs pe /\ image_of (empty_part 0) [] /\
  recovers 0 3 (part_open (indexes_at 3 recs) []) recs y SOk /\
  view pe 0 2 = Some ([2; 5], 0) /\ view pe 1 5 = Some ([2; 5], 0) /\
  view y 0 2 = Some ([2; 5], 0) /\ view y 1 5 = None /\
  snd (run pe [Insert [3; 5] 0 false]) = SErr /\ snd (run y [Insert [3; 5] 0 false]) = SOk.
Proof.
  pose (x0 := part_open 1 []).
  pose (x1 := settle (fst (replay x0 (wal (tx (empty_part 0) [Insert [1; 5] 0 false; Insert [2; 5] 0 false]))))).
  pose (x2 := settle (fst (replay x1 (wal (tx a1 [Delete 1 false]))))).
  exists a_recs, a3, x2. split; [exact a_hist|]. split.
  { split; [constructor|]. intros r. split; [intros []|intros [k H]; discriminate H]. }
  split; [|repeat split; vm_compute; reflexivity].
  apply (RCons 0 3 x0 _ _ x1).
  { apply DoRows; [lia|]. vm_compute. reflexivity. }
  apply (RCons 0 3 x1 _ _ x2).
  { apply DoRows; [lia|]. vm_compute. reflexivity. }
  apply (RCons 0 3 x2 _ _ x2); [apply SkipIndex; lia|constructor].
Qed.
Print Assumptions C72_restart_refuted.

(** An index on a column that was updated before the index existed: replay succeeds, the
    index keeps an entry for the old version of the row, which the replay released. *)
Definition b1 := settle (tx (empty_part 0) [Insert [1; 5] 0 false]).
Definition b2 := settle (tx b1 [Update 1 [1; 7] 0 false]).
Definition b_img := [mkrow 1 [1; 7] 0].
Definition b3 := mkidx b2 b_img.
Lemma b_image : image_of b2 b_img. Proof. image_tac. Qed.
Theorem C72_dangling_refuted : exists recs pe y r,
  history (empty_part 0) 1 recs pe /\
  recovers 0 3 (part_open (indexes_at 3 recs) []) recs y SOk /\
  view pe 1 5 = None /\ view pe 1 7 = Some ([1; 7], 0) /\
  ix y 1%nat 5 = Some r /\ (forall k, ix y 0%nat k <> Some r) /\
  exists x w z, In (2, RRows w) recs /\ replay x w = (z, SOk) /\ In r (freed (tr_commit z)).
Proof.
  pose (x0 := part_open 1 []).
  pose (w1 := wal (tx (empty_part 0) [Insert [1; 5] 0 false])).
  pose (w2 := wal (tx b1 [Update 1 [1; 7] 0 false])).
  pose (x1 := settle (fst (replay x0 w1))).
  pose (x2 := settle (fst (replay x1 w2))).
  exists [(1, RRows w1); (2, RRows w2); (3, RIndex)], b3, x2, (mkrow 0 [1; 5] 0).
  split.
  { econstructor; [apply tx_step; vm_compute; reflexivity|].
    econstructor; [apply tx_step; vm_compute; reflexivity|].
    econstructor; [apply idx_step; [exact b_image|vm_compute; discriminate]|]. constructor. }
  split.
  { apply (RCons 0 3 x0 _ _ x1); [apply DoRows; [lia|]; vm_compute; reflexivity|].
    apply (RCons 0 3 x1 _ _ x2); [apply DoRows; [lia|]; vm_compute; reflexivity|].
    apply (RCons 0 3 x2 _ _ x2); [apply SkipIndex; lia|constructor]. }
  split; [vm_compute; reflexivity|]. split; [vm_compute; reflexivity|]. split; [vm_compute; reflexivity|]. split.
  - intros k H. vm_compute in H.
    repeat (match type of H with context [match ?x with _ => _ end] => is_var x; destruct x end; try discriminate H).
  - exists x1, w2, (fst (replay x1 w2)). split; [right; left; reflexivity|]. split; [vm_compute; reflexivity|].
    vm_compute. auto.
Qed.
Print Assumptions C72_dangling_refuted.
