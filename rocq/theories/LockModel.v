(** Model of the lock manager: runtime/runtime/lock_mgr.h, lock_id.h, lock.h, access.h, and of
    the order of locks that sessions take: system/session/session.c, db/service/op.c. *)
From Verif Require Import Base.
Local Open Scope Z_scope.

(** lock_id.h:14-23; LOCK_NONE is not a lock (lock_mgr.h:125, 178) *)
Inductive mode := SHARED | SHARED_RW | EXCLUSIVE_RO | EXCLUSIVE | CALL.
Definition mode_eqb (a b : mode) : bool :=
  match a, b with
  | SHARED, SHARED | SHARED_RW, SHARED_RW | EXCLUSIVE_RO, EXCLUSIVE_RO | EXCLUSIVE, EXCLUSIVE | CALL, CALL => true
  | _, _ => false
  end.
Definition mode_id (m : mode) : Z :=
  match m with SHARED => 1 | SHARED_RW => 2 | EXCLUSIVE_RO => 3 | EXCLUSIVE => 4 | CALL => 5 end.

(** lock.h:16-28 struct Lock.  [k_by] is the coroutine that asked for it; [k_coro] tells that it
    is attached to this coroutine; a detached lock has a name and belongs to nobody *)
Record lockrec := mklock { k_by : nat; k_rel : nat; k_mode : mode; k_refs : Z; k_waiting : bool; k_coro : bool }.
(** relation.h:24-27: the number of granted locks of every mode and the list of waiters.  An
    entry of the wait list is a Lock: its identity and its mode *)
Record relst := mkrel { r_set : mode -> Z; r_wait : list (nat * mode); r_wait_count : Z }.
(** The list of the lock manager (lock_mgr.h:16-21), the relations, and the identity of the
    next Lock to be allocated *)
Record lockst := mkst { s_mgr : list (nat * lockrec); s_rel : nat -> relst; s_next : nat }.
Definition st_init : lockst := mkst [] (fun _ => mkrel (fun _ => 0) [] 0) 0.

Definition set_add (s : mode -> Z) (m : mode) (d : Z) : mode -> Z := fun x => if mode_eqb x m then s x + d else s x.
Definition rel_set (f : nat -> relst) (r : nat) (v : relst) : nat -> relst := fun x => if (x =? r)%nat then v else f x.
Definition held (n : Z) : bool := negb (n =? 0). (* an int as a condition *)

(** lock_mgr.h:56-82 lock_resolve *)
Definition lock_resolve (set : mode -> Z) (m : mode) : bool :=
  if held (set EXCLUSIVE) then false
  else
    match m with
    | SHARED => true
    | SHARED_RW => negb (held (set EXCLUSIVE_RO))
    | EXCLUSIVE_RO => negb (held (set SHARED_RW))
    | EXCLUSIVE => negb (held (set SHARED)) && negb (held (set SHARED_RW)) && negb (held (set EXCLUSIVE_RO)) && negb (held (set CALL))
    | CALL => true
    end.

(** lock_mgr.h:84-109 lock_mgr_lock_of, 139-150 lock_mgr_lock: the part under the spinlock of
    the relation.  Returns true if the lock is granted at once.  After the lock is granted,
    at once or by an unlock, it is attached to the coroutine unless it has a name; here it is
    attached from the start, it is not used before it is granted *)
Definition lock_of (s : lockst) (by_ r : nat) (m : mode) (named : bool) : lockst * bool :=
  let rel := s_rel s r in
  let id := s_next s in
  let pass := negb (held (r_wait_count rel)) && lock_resolve (r_set rel) m in
  let lock := mklock by_ r m (if named then 0 else 1) (negb pass) (negb named) in
  let rel' := if pass then mkrel (set_add (r_set rel) m 1) (r_wait rel) (r_wait_count rel)
              else mkrel (r_set rel) (r_wait rel ++ [(id, m)]) (r_wait_count rel + 1) in
  (mkst (s_mgr s ++ [(id, lock)]) (rel_set (s_rel s) r rel') (S id), pass).
(** lock_mgr.h:128-137: the lock of this coroutine on the relation with the same mode *)
Definition is_reentrant (by_ r : nat) (m : mode) (k : lockrec) : bool :=
  k_coro k && (k_by k =? by_)%nat && (k_rel k =? r)%nat && mode_eqb (k_mode k) m && negb (k_waiting k).
Definition set_refs (k : lockrec) (n : Z) : lockrec := mklock (k_by k) (k_rel k) (k_mode k) n (k_waiting k) (k_coro k).
Fixpoint reenter (l : list (nat * lockrec)) (by_ r : nat) (m : mode) : option (list (nat * lockrec)) :=
  match l with
  | [] => None
  | (i, k) :: l' =>
    if is_reentrant by_ r m k then Some ((i, set_refs k (k_refs k + 1)) :: l')
    else match reenter l' by_ r m with None => None | Some l2 => Some ((i, k) :: l2) end
  end.
(** lock_mgr.h:120-153 lock_mgr_lock *)
Definition lock_mgr_lock (s : lockst) (by_ r : nat) (m : mode) (named : bool) : lockst * bool :=
  match reenter (s_mgr s) by_ r m with
  | Some l => (mkst l (s_rel s) (s_next s), true)
  | None => lock_of s by_ r m named
  end.

(** lock_mgr.h:205-218: wake up the waiters in their order while they can be granted: the set,
    the rest of the wait list and the locks that are granted *)
Fixpoint wake (set : mode -> Z) (q : list (nat * mode)) : (mode -> Z) * list (nat * mode) * list nat :=
  match q with
  | [] => (set, [], [])
  | (i, m) :: q' =>
    if lock_resolve set m then
      let '(set', rest, woken) := wake (set_add set m 1) q' in (set', rest, i :: woken)
    else (set, q, [])
  end.
Definition grant (woken : list nat) (l : list (nat * lockrec)) : list (nat * lockrec) :=
  map (fun '(i, k) => (i, if existsb (Nat.eqb i) woken then mklock (k_by k) (k_rel k) (k_mode k) (k_refs k) false (k_coro k) else k)) l.
Fixpoint find_lock (l : list (nat * lockrec)) (id : nat) : option lockrec :=
  match l with
  | [] => None
  | (i, k) :: l' => if (i =? id)%nat then Some k else find_lock l' id
  end.
Definition remove_lock (l : list (nat * lockrec)) (id : nat) : list (nat * lockrec) := filter (fun '(i, _) => negb (i =? id)%nat) l.
Definition update_lock (l : list (nat * lockrec)) (id : nat) (k : lockrec) : list (nat * lockrec) :=
  map (fun '(i, x) => (i, if (i =? id)%nat then k else x)) l.
(** lock_mgr.h:175-226 lock_mgr_unlock *)
Definition lock_mgr_unlock (s : lockst) (id : nat) : lockst :=
  match find_lock (s_mgr s) id with
  | None => s
  | Some k =>
    if k_coro k && (0 <? k_refs k - 1) then mkst (update_lock (s_mgr s) id (set_refs k (k_refs k - 1))) (s_rel s) (s_next s)
    else
      let rel := s_rel s (k_rel k) in
      let set := set_add (r_set rel) (k_mode k) (-1) in
      let '(set', rest, woken) := wake set (r_wait rel) in
      mkst (grant woken (remove_lock (s_mgr s) id))
           (rel_set (s_rel s) (k_rel k) (mkrel set' rest (r_wait_count rel - Z.of_nat (length woken)))) (s_next s)
  end.

(** ** access.h *)
(** access.h:17-29: the relations with their locks in the order of their first use.  A relation
    is identified by its lock_order here: state_rsn_next (global.h:97) never gives one twice *)
Definition access := list (nat * mode).
(** access.h:75-98 access_add: the larger enum value wins *)
Fixpoint access_add (a : access) (r : nat) (m : mode) : access :=
  match a with
  | [] => [(r, m)]
  | (r', m') :: a' =>
    if (r' =? r)%nat then (r', if mode_id m' <? mode_id m then m else m') :: a'
    else (r', m') :: access_add a' r m
  end.
(** access.h:116-123 access_merge without the sort *)
Definition access_merge (a b : access) : access := fold_left (fun a '(r, m) => access_add a r m) b a.
(** access.h:100-114 access_sort: list_ordered by lock_order.  qsort_r is modelled by an
    insertion sort: there are no equal elements *)
Fixpoint access_insert (x : nat * mode) (l : access) : access :=
  match l with
  | [] => [x]
  | y :: l' => if (fst x <=? fst y)%nat then x :: l else y :: access_insert x l'
  end.
Definition access_sort (a : access) : access := fold_right access_insert [] a.

(** ** sessions *)
(** what a session does with locks *)
Inductive lop := Take (r : nat) (m : mode) | TakeNamed (r : nat) (m : mode) | Drop (r : nat) (m : mode) | DropAll.
(** lockable_mgr.h:17-27 *)
Definition REL_CATALOG : nat := 0.
Definition REL_DDL : nat := 1.
Definition REL_MAX : nat := 7.
(** session.c:326, 102, lock_mgr.h:155-173 lock_mgr_lock_access: a query or a write *)
Definition prog_distributed (a : access) : list lop :=
  Take REL_CATALOG SHARED :: map (fun '(r, m) => Take r m) (access_sort a) ++ [DropAll].
(** session.c:159-167 with the default locks of emit_utility.c:362-363: CREATE TABLE, DROP
    TABLE, CREATE USER and all other DDL without an own case *)
Definition prog_ddl : list lop :=
  [Take REL_CATALOG SHARED; Drop REL_CATALOG SHARED; Take REL_CATALOG EXCLUSIVE; Take REL_DDL EXCLUSIVE; DropAll].
(** session.c:159-167 with emit_utility.c:513-514, op.c:133-187 service_create_index: LOCK_NONE for the
    catalog, then the catalog is locked by the command.  The locks of the table are taken and
    dropped in between (indexate.c) *)
Definition prog_create_index (table : nat) : list lop :=
  [Take REL_CATALOG SHARED; Drop REL_CATALOG SHARED; Take REL_DDL EXCLUSIVE; Take REL_CATALOG SHARED;
   Take table SHARED; Drop table SHARED; Take table EXCLUSIVE; Drop table EXCLUSIVE;
   Drop REL_CATALOG SHARED; Take REL_CATALOG EXCLUSIVE; DropAll].
(** emit_utility.c:520-530, command_utility.c:252: CREATE LOCK ... ON table *)
Definition prog_create_lock (table : nat) (m : mode) : list lop :=
  [Take REL_CATALOG SHARED; Take REL_DDL EXCLUSIVE; TakeNamed table m; DropAll].
(** emit_utility.c:531-540, command_utility.c:262-283: DROP LOCK.  The named lock is dropped
    by the last operation *)
Definition prog_drop_lock : list lop := [Take REL_CATALOG SHARED; Take REL_DDL EXCLUSIVE; DropAll].

(** a session is waiting if one of its requests is *)
Definition waits (s : lockst) (o : nat) : bool := existsb (fun '(_, k) => k_waiting k && (k_by k =? o)%nat) (s_mgr s).
Fixpoint held_by (l : list (nat * lockrec)) (o : nat) (p : lockrec -> bool) : option nat :=
  match l with
  | [] => None
  | (i, k) :: l' => if k_coro k && negb (k_waiting k) && (k_by k =? o)%nat && p k then Some i else held_by l' o p
  end.
(** global.h:171-178 unlock_all: the locks of the coroutine, the last one first *)
Definition unlock_all (s : lockst) (o : nat) : lockst :=
  fold_left (fun s '(i, k) => if k_coro k && (k_by k =? o)%nat then lock_mgr_unlock s i else s) (rev (s_mgr s)) s.
(** one operation of a session *)
Definition session_op (s : lockst) (o : nat) (p : lop) : lockst :=
  match p with
  | Take r m => fst (lock_mgr_lock s o r m false)
  | TakeNamed r m => fst (lock_mgr_lock s o r m true)
  | Drop r m => match held_by (s_mgr s) o (fun k => (k_rel k =? r)%nat && mode_eqb (k_mode k) m) with Some i => lock_mgr_unlock s i | None => s end
  | DropAll => unlock_all s o
  end.
(** the sessions run their programs in the order of a schedule; a waiting session does not run *)
Fixpoint run_sched (s : lockst) (progs : nat -> list lop) (sched : list nat) : lockst * (nat -> list lop) :=
  match sched with
  | [] => (s, progs)
  | o :: sched' =>
    if waits s o then run_sched s progs sched'
    else
      match progs o with
      | [] => run_sched s progs sched'
      | p :: rest => run_sched (session_op s o p) (fun x => if (x =? o)%nat then rest else progs x) sched'
      end
  end.

(** ** the event of a waiting lock *)
(** lock_mgr.h:111-117 in the thread of the waiter against lock_mgr.h:214 in another thread:
    base/runtime.h:54-79, base/wait.h:14-45, event.h:18-25.  One access to the event per step *)
Record event := mkevent { e_bus : bool; e_signal : bool; e_wait : bool }.
(** the waiter: event_attach, the test of the signal, [event->wait = coro], suspended, resumed *)
Inductive waiter := WAttach | WTest | WSetWait | WSuspended | WDone.
(** the thread that grants the lock: the test of the bus, [signal = true], the test of [wait],
    sent to the bus, done *)
Inductive waker := KBus | KSignal | KWait | KSent | KDone.
Record evst := mkev { v_event : event; v_waiter : waiter; v_waker : waker; v_foreign : bool }.
Definition waiter_step (s : evst) : evst :=
  let e := v_event s in
  match v_waiter s with
  | WAttach => mkev (mkevent true (e_signal e) (e_wait e)) WTest (v_waker s) (v_foreign s)
  | WTest => if e_signal e then mkev (mkevent (e_bus e) false (e_wait e)) WDone (v_waker s) (v_foreign s)
             else mkev e WSetWait (v_waker s) (v_foreign s)
  | WSetWait => mkev (mkevent (e_bus e) (e_signal e) true) WSuspended (v_waker s) (v_foreign s)
  | WSuspended => (* the loop of the thread reads the bus (bus.h:75-92) *)
    match v_waker s with
    | KSent => mkev (mkevent (e_bus e) false false) WDone KDone (v_foreign s)
    | _ => s
    end
  | WDone => s
  end.
Definition waker_step (s : evst) : evst :=
  let e := v_event s in
  match v_waker s with
  | KBus => mkev e (v_waiter s) (if e_bus e then KSent else KSignal) (v_foreign s)
  | KSignal => mkev (mkevent (e_bus e) true (e_wait e)) (v_waiter s) KWait (v_foreign s)
  | KWait => if e_wait e then mkev (mkevent (e_bus e) false false) WDone KDone true (* the coroutine is resumed in the wrong thread *)
             else mkev e (v_waiter s) KDone (v_foreign s)
  | KSent | KDone => s
  end.
Definition ev_step (s : evst) (who : bool) : evst := if who then waiter_step s else waker_step s.
Definition ev_run (s : evst) (sched : list bool) : evst := fold_left ev_step sched s.
(** the code: attached after the lock is in the wait list *)
Definition ev_code : evst := mkev (mkevent false false false) WAttach KBus false.
(** attached before the event is visible to others, as rpc.h:54, global.h:122 (job), dtr.h:85 *)
Definition ev_attached : evst := mkev (mkevent true false false) WTest KBus false.
