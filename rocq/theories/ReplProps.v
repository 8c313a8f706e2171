(** C52: a replica executes the log of its primary in order, each record once. *)
From Verif Require Import Base ReplModel ReplSpec ReplProofs ReplProofs2 ReplProofs3.
Local Open Scope nat_scope.

(** For every history of connects, lost connections, requests and replies lost or late, restarts of
    either server, new log files and removed log files in which the replica looks at a request only
    when it executes no other and the primary keeps the files the slot needs: the replica has
    executed a prefix of what the primary has committed. *)
Theorem C52_prefix_partial log n es s :
  rrun (rinit log n) es = Some s -> always careful (rinit log n) es -> prefix (r_log s) (primary_log log es).
Proof.
  intros R A. pose proof (run_inv es _ _ _ (init_inv log n) A R) as I. fold (primary_log log es) in I.
  exists (skipn (length (r_log s)) (primary_log log es)). rewrite (i_log _ _ I) at 1. symmetry. apply firstn_skipn.
Qed.
Print Assumptions C52_prefix_partial.

(** A connected primary that waits for no reply and has nothing to send has a replica which has
    executed all. *)
Theorem C52_caught_up_partial log n es s t cur :
  rrun (rinit log n) es = Some s -> always careful (rinit log n) es ->
  p_stream s = Some t -> s_wait t = false -> s_cur t = Some cur -> (forall k, rstep s (Send k) = None) ->
  r_log s = primary_log log es.
Proof.
  intros R A St W Cu Stop. pose proof (run_inv es _ _ _ (init_inv log n) A R) as I. fold (primary_log log es) in I. set (full := primary_log log es) in *. clearbody full.
  destruct (i_files _ _ I) as (b & F). destruct (i_stream _ _ I t St) as (P1 & P2 & P3 & P4). destruct (P4 W) as [P5 P6]. pose proof (firstn_len _ _ (i_log _ _ I)) as Le.
  destruct (readahead_at b _ full 1 cur (s_lsn t) F (P3 cur Cu)) as (c' & Rd & _).
  destruct (Nat.eq_dec (s_lsn t) (length full)) as [E|Ne].
  - rewrite (i_log _ _ I). replace (length (r_log s)) with (length full) by lia. apply firstn_all.
  - exfalso. specialize (Stop 1). cbn [rstep] in Stop. rewrite St in Stop. destruct t as [c l w cu]. cbn [s_wait s_cur s_lsn] in *. subst w cu.
    rewrite Rd in Stop. replace (Nat.min 1 (length full - l)) with 1 in Stop by lia. rewrite slice_cons in Stop by lia. discriminate.
Qed.
Print Assumptions C52_caught_up_partial.

(** From every state of such a history the replica can still catch up, when the primary has the file
    of the last record of the replica (or its first file): there is a continuation with replication
    alone after which the replica has executed all. *)
Theorem C52_can_catch_up log n es s :
  rrun (rinit log n) es = Some s -> always careful (rinit log n) es -> list_min (p_files s) <= length (r_log s) \/ list_min (p_files s) = 1 ->
  exists es' s', quiet es' /\ rrun s es' = Some s' /\ always careful s es' /\ r_log s' = primary_log log es.
Proof. intros R A T. apply catch_up_any; [|exact T]. apply (run_inv es _ _ _ (init_inv log n) A R). Qed.
Print Assumptions C52_can_catch_up.

(** a history with a lost connection in the middle of a request, a late reply, a new and a removed
    file, a restart of the replica that loses a record *)
Definition story : list event :=
  [Join; Connect; Send 2; Deliver 0; Apply 0; PWrite [3]%Z; Drop; Fail 0; Join; Connect; PRotate; PWrite [4]%Z; Send 2; Deliver 0; Apply 0; Apply 0; Finish 0; Reply 0;
   PGc [] 2; RRestart 2; Join; Connect; Send 9; Deliver 0; Apply 0; Apply 0; Finish 0; Reply 0].
Example C52_nonvacuous : exists s, rrun (rinit [[1]; [2]]%Z 0) story = Some s /\ always careful (rinit [[1]; [2]]%Z 0) story /\
  r_log s = [[1]; [2]; [3]; [4]]%Z /\ primary_log [[1]; [2]]%Z story = [[1]; [2]; [3]; [4]]%Z /\ (exists t c, p_stream s = Some t /\ s_wait t = false /\ s_cur t = Some c) /\
  list_min (p_files s) <= length (r_log s).
Proof.
  eexists. split; [vm_compute; reflexivity|]. split; [vm_compute; repeat split; auto; lia|].
  split; [reflexivity|]. split; [reflexivity|]. split; [do 2 eexists; split; [reflexivity|split; reflexivity]|]. cbn. lia.
Qed.

(** ** where the code breaks it *)
Lemma not_prefix {A} (a b : list A) i x y : nth_error a i = Some x -> nth_error b i = Some y -> x <> y -> ~ prefix a b.
Proof.
  intros Ea Eb N (c & ->). apply N. rewrite nth_error_app1 in Eb; [congruence|]. apply nth_error_Some. congruence.
Qed.
(** A connection is lost while the replica executes its request; the primary connects again and
    sends the records again. The replica compares the LSN of the request with its own before the
    first request has changed it, and executes both: records are executed twice. *)
Theorem C52_two_connections_refuted : exists log es s,
  rrun (rinit log 0) es = Some s /\ always gc_keeps (rinit log 0) es /\ r_log s = [[1]; [2]; [1]; [2]]%Z /\ primary_log log es = [[1]; [2]; [3]]%Z /\ ~ prefix (r_log s) (primary_log log es).
Proof.
  exists [[1]; [2]; [3]]%Z, [Join; Connect; Send 2; Deliver 0; Drop; Join; Connect; Send 2; Deliver 0; Apply 0; Apply 0; Apply 1; Apply 1]. eexists.
  split; [vm_compute; reflexivity|]. split; [vm_compute; repeat split|]. split; [reflexivity|]. split; [reflexivity|]. apply (not_prefix _ _ 2 [1]%Z [3]%Z); [reflexivity|reflexivity|discriminate].
Qed.
Print Assumptions C52_two_connections_refuted.
(** The primary removes the log files before the largest of its slots and the last checkpoint: the
    slot of a slow replica keeps nothing, the cursor skips the removed file, the replica executes
    the record after it as if it were the next. *)
Theorem C52_gc_refuted : exists log es s,
  rrun (rinit log 0) es = Some s /\ always one_at_a_time (rinit log 0) es /\ r_log s = [[1]; [2]; [5]]%Z /\ primary_log log es = [[1]; [2]; [3]; [4]; [5]]%Z /\ ~ prefix (r_log s) (primary_log log es).
Proof.
  exists [[1]; [2]]%Z, [Join; Connect; PRotate; PWrite [3]%Z; PWrite [4]%Z; PRotate; PWrite [5]%Z; PGc [] 5; Send 3; Deliver 0; Apply 0; Apply 0; Apply 0]. eexists.
  split; [vm_compute; reflexivity|]. split; [vm_compute; repeat split|]. split; [reflexivity|]. split; [reflexivity|]. apply (not_prefix _ _ 2 [5]%Z [3]%Z); [reflexivity|reflexivity|discriminate].
Qed.
Print Assumptions C52_gc_refuted.
(** A replica that has a record the primary does not have (the primary crashed before its log was
    synced, and starts again without it) is accepted, and executes the next record after it. *)
Definition ahead (log : list payload) (x : payload) : repl :=
  let s := rinit log (length log) in mkrepl (p_files s) (p_lsn s) (p_slot s) None 0 None [] [] (r_log s ++ [x]) [].
Theorem C52_replica_ahead_refuted : exists log x es s,
  rrun (ahead log x) es = Some s /\ always careful (ahead log x) es /\ r_log s = [[1]; [9]; [2]]%Z /\ primary_log log es = [[1]; [2]]%Z.
Proof.
  exists [[1]]%Z, [9]%Z, [Join; Connect; PWrite [2]%Z; Send 1; Deliver 0; Apply 0]. eexists.
  split; [vm_compute; reflexivity|]. split; [vm_compute; repeat split|]. split; reflexivity.
Qed.
Print Assumptions C52_replica_ahead_refuted.
(** A new replica is accepted although the primary has removed its first log file; nothing is ever
    sent to it on this connection, nor an error reported. *)
Theorem C52_new_replica_refuted : exists log es s,
  rrun (rinit log 0) es = Some s /\ always careful (rinit log 0) es /\ p_stream s <> None /\ r_log s = [] /\ primary_log log es <> [] /\ forall k, rstep s (Send k) = None.
Proof.
  exists [[1]; [2]]%Z, [PRotate; PWrite [3]%Z; PGc [] 3; Join; Connect]. eexists.
  split; [vm_compute; reflexivity|]. split; [vm_compute; repeat split; intros; congruence|]. split; [discriminate|]. split; [reflexivity|]. split; [discriminate|]. intros k. reflexivity.
Qed.
Print Assumptions C52_new_replica_refuted.
(** A replica whose next record is the first the primary has is turned away as outdated. *)
Theorem C52_outdated_refuted : exists log es s,
  rrun (rinit log 2) es = Some s /\ always careful (rinit log 2) es /\ p_stream s = None /\ list_min (p_files s) = S (length (r_log s)).
Proof.
  exists [[1]; [2]]%Z, [PRotate; PWrite [3]%Z; PGc [] 3; Join; Connect]. eexists.
  split; [vm_compute; reflexivity|]. split; [vm_compute; repeat split; intros; congruence|]. split; reflexivity.
Qed.
Print Assumptions C52_outdated_refuted.
