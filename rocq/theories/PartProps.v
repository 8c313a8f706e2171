(** Property theorems: C06 (rollback), C07 (row release), C19 (recovery). *)
From Coq Require Import List ZArith Lia Bool Permutation.
From Verif Require Import PartModel PartProofs ReplayModel ReplayProofs.
Import ListNotations.
Open Scope Z_scope.

(** ** C06.  Whatever operations a transaction executed, and wherever it failed
    ([st] is SOk or SErr; a failing operation leaves partial effects behind), aborting
    it gives every index the content it had before, and no operation ever meets an
    index that disagrees with the others. *)
Theorem C06_rollback_restores : forall p ops p' st,
  quiet p -> run p ops = (p', st) ->
  st <> SUB /\ forall i k, ix (tr_abort p') i k = ix p i k.
Proof. exact (fun p ops p' st H E => conj (proj1 (abort_accounting p ops p' st H E))
                                          (proj1 (proj2 (proj2 (abort_accounting p ops p' st H E))))). Qed.
Print Assumptions C06_rollback_restores.

(** a successful transaction keeps the indexes of the partition in agreement *)
Theorem C06_indexes_agree : forall p ops p', consistent p -> run p ops = (p', SOk) -> consistent p'.
Proof. exact (fun p ops p' => run_consistent ops p p'). Qed.
Print Assumptions C06_indexes_agree.

(** a partition with two rows and one secondary index *)
Definition r1 := mkrow 0 [10; 100] 7.
Definition r2 := mkrow 1 [20; 200] 8.
Definition p_ex : part := part_open 1 [r1; r2].
Definition p_quiet : part := mkpart (ix p_ex) 1 [] [] [] [] 2.
Lemma p_quiet_lookup i k s : ix p_quiet i k = Some s -> (s = r1 \/ s = r2) /\ key_of i s = k /\ (i <= 1)%nat.
Proof.
  change (ix p_quiet i k) with
    (if (i <=? 1)%nat then set_idx (fun j q => if (j <=? 1)%nat then set_idx (fun _ _ => None) j (key_of j r1) (Some r1) j q else None)
                             i (key_of i r2) (Some r2) i k
     else if (i <=? 1)%nat then set_idx (fun _ _ => None) i (key_of i r1) (Some r1) i k else None).
  unfold set_idx. destruct (Nat.leb_spec i 1) as [Hi|Hi]; [|discriminate].
  rewrite Nat.eqb_refl. cbn [andb].
  destruct (Z.eqb_spec k (key_of i r2)) as [Ek|_]; [intros H; assert (s = r2) by congruence; subst; auto|].
  destruct (Z.eqb_spec k (key_of i r1)) as [Ek|_]; [intros H; assert (s = r1) by congruence; subst; auto|discriminate].
Qed.
Example quiet_nonvacuous : quiet p_quiet.
Proof.
  split; [|split; [|auto]].
  - split.
    + intros i k r H. now apply p_quiet_lookup in H.
    + intros i Hi. cbn [nsec p_quiet] in Hi. assert (i = 1%nat) by lia. subst i.
      split; intros k r H; apply p_quiet_lookup in H; destruct H as ([-> | ->] & <- & _); reflexivity.
  - split.
    + intros k r H. apply p_quiet_lookup in H. destruct H as ([-> | ->] & _); cbn; lia.
    + intros k r k' r' H H'. apply p_quiet_lookup in H, H'.
      destruct H as ([-> | ->] & _), H' as ([-> | ->] & _); cbn; intros; congruence || lia.
Qed.
(** a transaction that updates, deletes, inserts and then violates the secondary index:
    it fails and leaves the primary index changed before the abort *)
Definition bad_tr := [Update 10 [] 77 false; Insert [30; 300] 9 false; Delete 20 false; Insert [40; 100] 1 false].
Example C06_nonvacuous : snd (run p_quiet bad_tr) = SErr /\
  option_map rid (ix (fst (run p_quiet bad_tr)) 0%nat 40) = Some 4 /\
  ix (fst (run p_quiet bad_tr)) 0%nat 20 = None /\
  ix (tr_abort (fst (run p_quiet bad_tr))) 0%nat 20 = Some r2.
Proof. vm_compute. auto. Qed.

(** ** C07.  After commit: released rows are distinct, none is reachable through any
    index, and every row version (created by the transaction or present before it) is
    either in the primary index or has been released. *)
Theorem C07_commit_frees_once : forall p ops p', quiet p -> run p ops = (p', SOk) ->
  let q := tr_commit p' in
  consistent q /\
  NoDup (map rid (freed q)) /\
  (forall r i k s, In r (freed q) -> (i <= nsec q)%nat -> ix q i k = Some s -> rid s <> rid r) /\
  (forall r, In r (made q) \/ (exists k, ix p 0%nat k = Some r) ->
     (exists k, ix q 0%nat k = Some r) \/ In r (freed q)).
Proof. exact commit_accounting. Qed.
Print Assumptions C07_commit_frees_once.

(** After abort: exactly the rows created by the transaction are released, each once,
    and none is reachable. *)
Theorem C07_abort_frees_once : forall p ops p' st, quiet p -> run p ops = (p', st) ->
  let q := tr_abort p' in
  st <> SUB /\ nsec q = nsec p /\
  (forall i k, ix q i k = ix p i k) /\
  Permutation (freed q) (made q) /\ NoDup (map rid (freed q)) /\
  (forall r i k s, In r (freed q) -> (i <= nsec q)%nat -> ix q i k = Some s -> rid s <> rid r).
Proof. exact abort_accounting. Qed.
Print Assumptions C07_abort_frees_once.
Definition good_tr := [Update 10 [] 77 false; Upsert [10; 100] 5 false; Update 10 [] 78 false; Delete 20 false; Insert [20; 100] 9 false].
Example C07_nonvacuous :
  map rid (freed (tr_abort (fst (run p_quiet bad_tr)))) = [4; 3; 2] /\
  snd (run p_quiet (firstn 4 good_tr)) = SOk /\
  map rid (freed (tr_commit (fst (run p_quiet (firstn 4 good_tr))))) = [3; 0; 2; 1].
Proof. vm_compute. auto. Qed.

(** ** C19.  [pre], [mid] and [post] are committed transactions; a snapshot image was
    taken after [mid] (its heap lsn is the lsn of the last record of [mid]); the log
    still holds the records of [mid] and [post].  Recovery from the image skips exactly
    the records of [mid] and ends with the content of the partition before the restart,
    which is also the content obtained by replaying the whole log on an empty
    partition.  (One partition; the rows of a record are routed by C08.) *)
Theorem C19_recovery_exact : forall n pre mid post start snap_part end_part recs1 recs2 recs3 image,
  execute (empty_part n) 1 pre = Some (start, recs1) ->
  execute start (1 + Z.of_nat (length pre)) mid = Some (snap_part, recs2) ->
  execute snap_part (1 + Z.of_nat (length pre) + Z.of_nat (length mid)) post = Some (end_part, recs3) ->
  image_of snap_part image ->
  exists q, recover (part_open n image) (Z.of_nat (length pre) + Z.of_nat (length mid)) (recs2 ++ recs3) = (q, SOk) /\
    (exists q0, recover (empty_part n) 0 (recs1 ++ recs2 ++ recs3) = (q0, SOk) /\ same q0 q) /\
    same end_part q.
Proof. exact recovery_exact. Qed.
Print Assumptions C19_recovery_exact.

Definition tx_pre := [[Insert [1; 11] 5 false; Insert [2; 12] 6 false]].
Definition tx_mid := [[Update 1 [] 50 false]; [Delete 2 false; Insert [3; 12] 7 false]].
Definition tx_post := [[Insert [2; 22] 8 false; Update 3 [] 70 false]].
Definition get (o : option (part * list (Z * list (cmd * row)))) := match o with Some x => x | None => (empty_part 1, []) end.
Definition x1 := get (execute (empty_part 1) 1 tx_pre).
Definition x2 := get (execute (fst x1) 2 tx_mid).
Definition x3 := get (execute (fst x2) 4 tx_post).
Lemma get_some o : (match o with Some _ => true | None => false end) = true -> o = Some (fst (get o), snd (get o)).
Proof. destruct o as [[a b]|]; [reflexivity|discriminate]. Qed.
Definition image_ex := [mkrow 2 [1; 11] 50; mkrow 3 [3; 12] 7].
Example C19_nonvacuous :
  execute (empty_part 1) 1 tx_pre = Some (fst x1, snd x1) /\ execute (fst x1) 2 tx_mid = Some (fst x2, snd x2) /\ execute (fst x2) 4 tx_post = Some (fst x3, snd x3) /\ image_of (fst x2) image_ex /\ length (snd x3) = 1%nat /\ view (fst x3) 1 12 = Some ([3; 12], 70).
Proof.
  split; [apply get_some; vm_compute; reflexivity|].
  split; [apply get_some; vm_compute; reflexivity|].
  split; [apply get_some; vm_compute; reflexivity|].
  split; [|split; vm_compute; reflexivity].
  split.
  - constructor; [intros [H|[]]; discriminate H|]. constructor; [intros []|constructor].
  - intros r. split.
    + intros [<-|[<-|[]]]; [exists 1|exists 3]; vm_compute; reflexivity.
    + intros [k H]. vm_compute in H.
      repeat (match type of H with context [match ?x with _ => _ end] => is_var x; destruct x end; try discriminate H);
        injection H as <-; cbn; auto.
Qed.
