(** Model of the path of a distributed transaction: vm/executor/executor.h, dtr_group.h, dtr_queue.h,
    batch.h, commit.c, dispatch_mgr.h, system/backend/pod.c, db/transaction/track.h and commit.c.
    A transaction has a set of partitions; it is dispatched to all of them at once, each partition runs
    its transactions one after another (pod_run reads the requests of one transaction until its close),
    the session sends it to the commit task, which decides.
    Simplifications: the requests of one transaction at one partition are one program that reads the
    rows of the partition and makes a list of writes; each of its partitions gets a request; errors are
    the argument of [Complete] (any transaction may fail); ids do not overflow; assert does nothing. *)
From Verif Require Import Base.
Local Open Scope nat_scope.

(** the rows of a partition; a write sets one of them *)
Definition rows := list Z.
Definition write := (nat * Z)%type.
Fixpoint upd (l : rows) (k : nat) (v : Z) : rows :=
  match l, k with [], _ => [] | _ :: r, O => v :: r | x :: r, S k' => x :: upd r k' v end.
Definition prog := rows -> list write.
(** log.h: each write remembers the row that was there; newest first *)
Fixpoint run_writes (ws : list write) (d : rows) (log : list write) : rows * list write :=
  match ws with [] => (d, log) | (k, v) :: r => run_writes r (upd d k v) ((k, nth k d 0%Z) :: log) end.
(** commit.c:50-67 tr_abort *)
Definition undo (log : list write) (d : rows) : rows := fold_left (fun d w => upd d (fst w) (snd w)) log d.

(** consensus.h *)
Record consensus := mkcons { c_commit : nat; c_abort : nat }.
(** a prepared transaction of a partition: its id, the transaction, its log *)
Record tr := mktr { r_id : nat; r_tx : nat; r_log : list write }.
(** track.h:17-30, with the rows of the partition and (only for the statements) the list [p_out] of
    the transactions that were committed or aborted at this partition *)
Record part := mkpart { p_seq : nat; p_queue : list (nat * consensus); p_prep : list tr; p_pod : consensus; p_cons : consensus; p_pend : consensus; p_rows : rows; p_out : list (nat * bool) }.

(** commit.c:86-101 tr_abort_list: from the newest, all with r_id <= id *)
Definition tr_abort_list (pt : part) (id : nat) : part :=
  let gone := filter (fun t => r_id t <=? id) (p_prep pt) in
  mkpart (p_seq pt) (p_queue pt) (filter (fun t => negb (r_id t <=? id)) (p_prep pt)) (p_pod pt) (p_cons pt) (p_pend pt)
         (fold_left (fun d t => undo (r_log t) d) (rev gone) (p_rows pt)) (p_out pt ++ map (fun t => (r_tx t, false)) (rev gone)).
(** commit.c:69-84 tr_commit_list *)
Definition tr_commit_list (pt : part) (id : nat) : part :=
  let gone := filter (fun t => r_id t <=? id) (p_prep pt) in
  mkpart (p_seq pt) (p_queue pt) (filter (fun t => negb (r_id t <=? id)) (p_prep pt)) (p_pod pt) (p_cons pt) (p_pend pt)
         (p_rows pt) (p_out pt ++ map (fun t => (r_tx t, true)) gone).
Definition set_pod (pt : part) (c : consensus) : part :=
  mkpart (p_seq pt) (p_queue pt) (p_prep pt) c (p_cons pt) (p_pend pt) (p_rows pt) (p_out pt).
(** track.h:108-130 track_sync *)
Definition track_sync (pt : part) (c : consensus) : part :=
  let pt1 := if c_abort (p_pod pt) <? c_abort c then set_pod (tr_abort_list pt (c_abort c)) (mkcons (c_commit (p_pod pt)) (c_abort c)) else pt in
  if c_commit (p_pod pt1) <? c_commit c then set_pod (tr_commit_list pt1 (c_commit c)) (mkcons (c_commit c) (c_abort (p_pod pt1))) else pt1.

(** dtr.h: what does not change after executor_attach.  [t_seen]: the transactions that were
    registered when it was dispatched (only for the statements) *)
Record tx := mktx { t_parts : list nat; t_prog : nat -> prog; t_group : nat; t_order : nat; t_seen : list nat }.
(** dtr_group.h *)
Record group := mkgroup { g_id : nat; g_next : nat; g_list : list nat }.
(** The state.  [s_txs]: all transactions, a transaction is its index; [s_next], [s_list]: executor.h;
    [s_id t p]: the id at a partition, 0 before it is executed there; [s_done]: sent to the commit task;
    [s_mail]: its mailbox; [s_queue]: dtr_queue.h; [s_batch], [s_ready]: the batch, and was it
    processed; [s_pop], [s_dec] (only for the statements): the transactions that left the queue and the
    decisions, true for commit *)
Record state := mkstate { s_txs : list tx; s_next : nat; s_list : list nat; s_abort : nat -> bool; s_id : nat -> nat -> nat; s_wrote : nat -> bool;
  s_done : nat -> bool; s_mail : list nat; s_queue : list group; s_batch : list nat; s_ready : bool; s_pop : list nat; s_dec : list (nat * bool); s_part : nat -> part }.
Definition set1 {A} (f : nat -> A) (k : nat) (v : A) : nat -> A := fun x => if x =? k then v else f x.
Definition set2 {A} (f : nat -> nat -> A) (k j : nat) (v : A) : nat -> nat -> A := fun x y => if (x =? k) && (y =? j) then v else f x y.
Definition notx : tx := mktx [] (fun _ _ => []) 0 0 [].
Definition tx_of (s : state) (t : nat) : tx := nth t (s_txs s) notx.
Definition overlaps (a b : list nat) : bool := existsb (fun p => existsb (Nat.eqb p) b) a.

(** executor.h:37-80 executor_attach, with dispatch_mgr.h:136-177 dispatch_mgr_send: the message of
    each partition carries its published consensus *)
Definition attach (s : state) (parts : list nat) (pr : nat -> prog) : state :=
  let me := length (s_txs s) in
  let '(g, o, next) :=
    match find (fun r => overlaps (t_parts (tx_of s r)) parts) (rev (s_list s)) with
    | Some r => (t_group (tx_of s r), S (t_order (tx_of s r)), s_next s)
    | None => (s_next s, 0, S (s_next s))
    end in
  let send p := let pt := s_part s p in
    if existsb (Nat.eqb p) parts then mkpart (p_seq pt) (p_queue pt ++ [(me, p_cons pt)]) (p_prep pt) (p_pod pt) (p_cons pt) (p_pend pt) (p_rows pt) (p_out pt) else pt in
  mkstate (s_txs s ++ [mktx parts pr g o (s_list s)]) next (s_list s ++ [me]) (s_abort s) (s_id s) (s_wrote s)
          (s_done s) (s_mail s) (s_queue s) (s_batch s) (s_ready s) (s_pop s) (s_dec s) send.
(** pod.c:122-139 pod_main, 58-119: a partition takes its next transaction: sync, begin, execute *)
Definition execute (s : state) (p : nat) : option state :=
  match p_queue (s_part s p) with
  | [] => None
  | (t, c) :: q =>
    let pt := track_sync (s_part s p) c in
    let (d, log) := run_writes (t_prog (tx_of s t) p (p_rows pt)) (p_rows pt) [] in
    let pt' := mkpart (S (p_seq pt)) q (p_prep pt ++ [mktr (p_seq pt) t log]) (p_pod pt) (p_cons pt) (p_pend pt) d (p_out pt) in
    Some (mkstate (s_txs s) (s_next s) (s_list s) (s_abort s) (set2 (s_id s) t p (p_seq pt)) (set1 (s_wrote s) t (s_wrote s t || negb (Nat.eqb (length log) 0)))
                  (s_done s) (s_mail s) (s_queue s) (s_batch s) (s_ready s) (s_pop s) (s_dec s) (set1 (s_part s) p pt'))
  end.
(** commit.c:88-131 commit: after the execution at all partitions, with or without an error *)
Definition complete (s : state) (t : nat) (error : bool) : option state :=
  if (t <? length (s_txs s)) && negb (s_done s t) && forallb (fun p => negb (s_id s t p =? 0)) (t_parts (tx_of s t)) then
    Some (mkstate (s_txs s) (s_next s) (s_list s) (set1 (s_abort s) t (s_abort s t || error)) (s_id s) (s_wrote s)
                  (set1 (s_done s) t true) (s_mail s ++ [t]) (s_queue s) (s_batch s) (s_ready s) (s_pop s) (s_dec s) (s_part s))
  else None.

(** dtr_group.h:56-75 dtr_group_add *)
Fixpoint group_add (order : nat -> nat) (l : list nat) (t : nat) : list nat :=
  match l with [] => [t] | x :: r => if order t <? order x then t :: l else x :: group_add order r t end.
(** commit.c:26-31: dtr_group_pop while dtr_group_pending *)
Fixpoint group_pop (order : nat -> nat) (l : list nat) (next : nat) : list nat * list nat * nat :=
  match l with
  | [] => ([], [], next)
  | x :: r => if order x =? next then let '(pop, rest, n) := group_pop order r (S next) in (x :: pop, rest, n) else ([], l, next)
  end.
(** dtr_queue.h:71-92 dtr_queue_add, commit.c:22-32 commit_add *)
Fixpoint commit_add (order : nat -> nat) (q : list group) (g t : nat) : list group * list nat :=
  match q with
  | [] => let '(pop, rest, n) := group_pop order (group_add order [] t) 0 in ([mkgroup g n rest], pop)
  | x :: r =>
    if g_id x =? g then let '(pop, rest, n) := group_pop order (group_add order (g_list x) t) (g_next x) in (mkgroup g n rest :: r, pop)
    else let (q', pop) := commit_add order r g t in (x :: q', pop)
  end.
Definition order_of (s : state) (t : nat) : nat := t_order (tx_of s t).
Definition group_of (s : state) (t : nat) : nat := t_group (tx_of s t).
Fixpoint collect_loop (s : state) (l : list nat) (q : list group) (batch : list nat) : list group * list nat :=
  match l with [] => (q, batch) | t :: r => let (q', pop) := commit_add (order_of s) q (group_of s t) t in collect_loop s r q' (batch ++ pop) end.
(** commit.c:46-60: the commit task takes [n] messages, one at least *)
Definition collect (s : state) (n : nat) : option state :=
  match s_batch s with
  | _ :: _ => None
  | [] =>
    if (1 <=? n) && (n <=? length (s_mail s)) then
      let (q, batch) := collect_loop s (firstn n (s_mail s)) (s_queue s) [] in
      Some (mkstate (s_txs s) (s_next s) (s_list s) (s_abort s) (s_id s) (s_wrote s) (s_done s) (skipn n (s_mail s)) q batch false (s_pop s ++ batch) (s_dec s) (s_part s))
    else None
  end.

(** batch.h:76-127 batch_process, for one transaction: the abort rule, then the new metrics *)
Definition set_pend (pt : part) (c : consensus) : part :=
  mkpart (p_seq pt) (p_queue pt) (p_prep pt) (p_pod pt) (p_cons pt) c (p_rows pt) (p_out pt).
Definition must_abort (parts : nat -> part) (id : nat -> nat) (l : list nat) : bool :=
  existsb (fun p => (id p <=? c_abort (p_pend (parts p))) || (id p <=? c_abort (p_cons (parts p)))) l.
Definition note (abort : bool) (id : nat) (c : consensus) : consensus :=
  if abort then mkcons (c_commit c) (if c_abort c <? id then id else c_abort c)
  else mkcons (if c_commit c <? id then id else c_commit c) (c_abort c).
Fixpoint note_all (abort : bool) (id : nat -> nat) (l : list nat) (parts : nat -> part) : nat -> part :=
  match l with [] => parts | p :: r => note_all abort id r (set1 parts p (set_pend (parts p) (note abort (id p) (p_pend (parts p))))) end.
Fixpoint process_loop (s : state) (l : list nat) (ab : nat -> bool) (parts : nat -> part) : (nat -> bool) * (nat -> part) :=
  match l with
  | [] => (ab, parts)
  | t :: r =>
    let a := ab t || must_abort parts (s_id s t) (t_parts (tx_of s t)) in
    process_loop s r (set1 ab t a) (note_all a (s_id s t) (t_parts (tx_of s t)) parts)
  end.
(** batch.h:129-153 batch_abort *)
Fixpoint abort_loop (s : state) (l : list nat) (ab : nat -> bool) (parts : nat -> part) : (nat -> bool) * (nat -> part) :=
  match l with
  | [] => (ab, parts)
  | t :: r => if ab t then abort_loop s r ab parts else abort_loop s r (set1 ab t true) (note_all true (s_id s t) (t_parts (tx_of s t)) parts)
  end.
(** commit.c:62-74: batch_process, then the write to the log if there is something to write *)
Definition process (s : state) (wal_ok : bool) : option state :=
  match s_batch s, s_ready s with
  | _ :: _, false =>
    let (ab, parts) := process_loop s (s_batch s) (s_abort s) (s_part s) in
    let writes := existsb (fun t => negb (ab t) && s_wrote s t) (s_batch s) in
    let (ab, parts) := if writes && negb wal_ok then abort_loop s (s_batch s) ab parts else (ab, parts) in
    Some (mkstate (s_txs s) (s_next s) (s_list s) ab (s_id s) (s_wrote s) (s_done s) (s_mail s) (s_queue s) (s_batch s) true (s_pop s)
                  (s_dec s ++ map (fun t => (t, negb (ab t))) (s_batch s)) parts)
  | _, _ => None
  end.
(** executor.h:112-146 executor_detach: the metrics of the partitions of the batch are published and its
    transactions leave the list; commit.c:85-88 and dtr_queue.h:39-53 dtr_queue_gc *)
Definition detach (s : state) : option state :=
  match s_batch s, s_ready s with
  | _ :: _, true =>
    let used p := existsb (fun t => existsb (Nat.eqb p) (t_parts (tx_of s t))) (s_batch s) in
    let publish p := let pt := s_part s p in
      if used p then mkpart (p_seq pt) (p_queue pt) (p_prep pt) (p_pod pt) (p_pend pt) (p_pend pt) (p_rows pt) (p_out pt) else pt in
    let list := filter (fun t => negb (existsb (Nat.eqb t) (s_batch s))) (s_list s) in
    let queue := match list with [] => [] | t :: _ => filter (fun g => negb (g_id g <? group_of s t)) (s_queue s) end in
    Some (mkstate (s_txs s) (s_next s) list (s_abort s) (s_id s) (s_wrote s) (s_done s) (s_mail s) queue [] false (s_pop s) (s_dec s) publish)
  | _, _ => None
  end.

(** What can happen.  The commit task is one thread: Collect, Process and Detach alternate; dispatches,
    executions and completions happen at any time between them *)
Inductive event := Attach (parts : list nat) (pr : nat -> prog) | Execute (p : nat) | Complete (t : nat) (error : bool) | Collect (n : nat) | Process (wal_ok : bool) | Detach.
Definition step (s : state) (e : event) : option state :=
  match e with
  | Attach parts pr => Some (attach s parts pr)
  | Execute p => execute s p
  | Complete t error => complete s t error
  | Collect n => collect s n
  | Process wal_ok => process s wal_ok
  | Detach => detach s
  end.
(** executor.h:23-29, track.h:33-47: [init p] are the rows of a partition *)
Definition start (init : nat -> rows) : state :=
  mkstate [] 1 [] (fun _ => false) (fun _ _ => 0) (fun _ => false) (fun _ => false) [] [] [] false [] []
          (fun p => mkpart 1 [] [] (mkcons 0 0) (mkcons 0 0) (mkcons 0 0) (init p) []).
