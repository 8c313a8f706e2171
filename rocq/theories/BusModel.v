(** Model of the messages between tasks (threads): runtime/base/ring.h, bus.h, ipc.h, notify.c and the main
    loop of a task (task.c:87-148).  One receiving task, any number of sending threads; every access to
    shared memory is one step and the steps of the threads interleave.
    Simplified: memory is sequentially consistent (atomic_u32_* are full barriers, the counters of the ring
    use release and acquire); counters are unbounded (uint64_t); a message is its address (not NULL); a
    waiting loop (pause) is a step that is possible when its condition holds; epoll_wait may return for
    other reasons (timers, sockets) a limited number of times ([budget]); the handling of a message by the
    coroutines of the receiver is the step [CSched]. *)
From Verif Require Import Base.
Open Scope nat_scope.

Definition msg := nat.
(** where a sender is: bus.h:64-74 bus_send, ring.h:54-83 ring_write, notify.c:68-77 notify_signal *)
Inductive pst :=
| PIdle                          (* between two bus_send *)
| PClaim (m : msg)               (* ring.h:58 *)
| PWait (m : msg) (s : nat)      (* ring.h:65-67 waits for a free slot *)
| PWrite (m : msg) (s : nat)     (* ring.h:70 *)
| PTurn (m : msg) (s : nat)      (* ring.h:74-76 waits for its turn *)
| PStore (m : msg) (s : nat)     (* ring.h:82 *)
| PSleep                         (* bus.h:72 *)
| PTas                           (* notify.c:73 *)
| PNotify.                       (* notify.c:76 *)
Record prod := { at_ : pst; todo : list msg }.
(** where the receiver is *)
Inductive cst :=
| CLoad                          (* ring.h:90-95, called by bus_step *)
| CData                          (* ring.h:98 *)
| CStore (m : msg)               (* ring.h:103 *)
| CHandle (m : msg)              (* bus.h:81-88 mailbox_append, event_signal_local *)
| CUnref (m : msg)               (* bus.h:89 ipc_unref *)
| CSched                         (* task.c:105 coroutine_mgr_scheduler *)
| CPend1                         (* task.c:111 *)
| CSleep                         (* task.c:139 *)
| CPend2                         (* task.c:140 *)
| CPoll                          (* task.c:145 epoll_wait *)
| CRead                          (* notify.c:19-20 read of the eventfd *)
| CRel                           (* notify.c:21 *)
| CAwake.                        (* task.c:142, 146 *)
Record state := {
  claim : nat; rd : nat; wr : nat;           (* pos_claim, pos_read, pos_write *)
  ring : nat -> option msg;
  refs : msg -> nat;                         (* ipc.refs of the messages *)
  sleep : bool; signaled : bool; efd : nat;  (* bus.sleep, notify.signaled, the counter of the eventfd *)
  ps : list prod; c : cst; budget : nat;
  received : list msg;                       (* what bus_step took, in this order *)
  (* the history, not read by any step *)
  hist : list (nat * msg);                   (* sender and message of every slot *)
  owed : list msg;                           (* sent, and the receiver did not run since *)
  sig : list msg }.                          (* signaled, before the next run of the coroutines *)

Section Bus.
Context (size : nat).          (* bus.h:29 ring_prepare: 1024 *)
Context (self : option nat).   (* the thread of the receiver, if it sends to itself; it sends in CSched *)

(** ring.h:70, 98: slot & (ring_size - 1) *)
Definition index (s : nat) : nat := Nat.land s (size - 1).
Definition upd {A} (f : nat -> A) (k : nat) (v : A) : nat -> A := fun q => if Nat.eqb q k then v else f q.
Fixpoint setp (l : list prod) (i : nat) (p : prod) : list prod :=
  match l, i with
  | [], _ => []
  | _ :: l, O => p :: l
  | x :: l, S i => x :: setp l i p
  end.
(** one step of the sender [i] *)
Definition prod_step (s : state) (i : nat) (p : prod) : option state :=
  let go st := {| at_ := st; todo := todo p |} in
  let with_p s p := {| claim := claim s; rd := rd s; wr := wr s; ring := ring s; refs := refs s; sleep := sleep s; signaled := signaled s;
                       efd := efd s; ps := setp (ps s) i p; c := c s; budget := budget s; received := received s; hist := hist s; owed := owed s; sig := sig s |} in
  match at_ p with
  | PIdle =>                                                             (* bus.h:67 ipc_ref, ipc.h:35-39 *)
      match todo p with
      | [] => None
      | m :: t =>
          let s1 := {| claim := claim s; rd := rd s; wr := wr s; ring := ring s; refs := upd (refs s) m (S (refs s m)); sleep := sleep s; signaled := signaled s;
                       efd := efd s; ps := ps s; c := c s; budget := budget s; received := received s; hist := hist s; owed := m :: owed s; sig := sig s |} in
          Some (with_p s1 {| at_ := if Nat.eqb (refs s m) 0 then PClaim m else PIdle; todo := t |})
      end
  | PClaim m =>                                                          (* ring.h:58 *)
      let s1 := {| claim := S (claim s); rd := rd s; wr := wr s; ring := ring s; refs := refs s; sleep := sleep s; signaled := signaled s;
                   efd := efd s; ps := ps s; c := c s; budget := budget s; received := received s; hist := hist s ++ [(i, m)]; owed := owed s; sig := sig s |} in
      Some (with_p s1 (go (PWait m (claim s))))
  | PWait m n => if Nat.ltb n (rd s + size) then Some (with_p s (go (PWrite m n))) else None       (* ring.h:65 *)
  | PWrite m n =>                                                        (* ring.h:70 *)
      let s1 := {| claim := claim s; rd := rd s; wr := wr s; ring := upd (ring s) (index n) (Some m); refs := refs s; sleep := sleep s; signaled := signaled s;
                   efd := efd s; ps := ps s; c := c s; budget := budget s; received := received s; hist := hist s; owed := owed s; sig := sig s |} in
      Some (with_p s1 (go (PTurn m n)))
  | PTurn m n => if Nat.eqb (wr s) n then Some (with_p s (go (PStore m n))) else None              (* ring.h:74 *)
  | PStore m n =>                                                        (* ring.h:82 *)
      let s1 := {| claim := claim s; rd := rd s; wr := S n; ring := ring s; refs := refs s; sleep := sleep s; signaled := signaled s;
                   efd := efd s; ps := ps s; c := c s; budget := budget s; received := received s; hist := hist s; owed := owed s; sig := sig s |} in
      Some (with_p s1 (go PSleep))
  | PSleep => Some (with_p s (go (if sleep s then PTas else PIdle)))     (* bus.h:72 *)
  | PTas =>                                                              (* notify.c:73 __sync_lock_test_and_set *)
      let s1 := {| claim := claim s; rd := rd s; wr := wr s; ring := ring s; refs := refs s; sleep := sleep s; signaled := true;
                   efd := efd s; ps := ps s; c := c s; budget := budget s; received := received s; hist := hist s; owed := owed s; sig := sig s |} in
      Some (with_p s1 (go (if signaled s then PIdle else PNotify)))
  | PNotify =>                                                           (* notify.c:76 *)
      let s1 := {| claim := claim s; rd := rd s; wr := wr s; ring := ring s; refs := refs s; sleep := sleep s; signaled := signaled s;
                   efd := S (efd s); ps := ps s; c := c s; budget := budget s; received := received s; hist := hist s; owed := owed s; sig := sig s |} in
      Some (with_p s1 (go PIdle))
  end.

Definition with_c (s : state) (k : cst) : state :=
  {| claim := claim s; rd := rd s; wr := wr s; ring := ring s; refs := refs s; sleep := sleep s; signaled := signaled s;
     efd := efd s; ps := ps s; c := k; budget := budget s; received := received s; hist := hist s; owed := owed s; sig := sig s |}.
Definition set_sleep (s : state) (b : bool) : state :=
  {| claim := claim s; rd := rd s; wr := wr s; ring := ring s; refs := refs s; sleep := b; signaled := signaled s;
     efd := efd s; ps := ps s; c := c s; budget := budget s; received := received s; hist := hist s; owed := owed s; sig := sig s |}.
(** the coroutines of the receiver have sent what they had to send *)
Definition self_done (s : state) : bool :=
  match self with
  | None => true
  | Some i => match nth_error (ps s) i with
              | Some p => match at_ p, todo p with PIdle, [] => true | _, _ => false end
              | None => true
              end
  end.
Definition memb (m : msg) (l : list msg) : bool := existsb (Nat.eqb m) l.
(** one step of the receiver; not the return of epoll_wait for another reason *)
Definition cons_step (s : state) : option state :=
  match c s with
  | CLoad => Some (with_c s (if Nat.eqb (rd s) (wr s) then CSched else CData))
  | CData => match ring s (index (rd s)) with
             | Some m => Some (with_c s (CStore m))
             | None => Some (with_c s CSched)                            (* NULL ends bus_step *)
             end
  | CStore m =>
      Some {| claim := claim s; rd := S (rd s); wr := wr s; ring := ring s; refs := refs s; sleep := sleep s; signaled := signaled s;
              efd := efd s; ps := ps s; c := CHandle m; budget := budget s; received := received s; hist := hist s; owed := owed s; sig := sig s |}
  | CHandle m =>
      Some {| claim := claim s; rd := rd s; wr := wr s; ring := ring s; refs := refs s; sleep := sleep s; signaled := signaled s;
              efd := efd s; ps := ps s; c := CUnref m; budget := budget s; received := received s ++ [m]; hist := hist s; owed := owed s; sig := m :: sig s |}
  | CUnref m =>
      Some {| claim := claim s; rd := rd s; wr := wr s; ring := ring s; refs := upd (refs s) m 0; sleep := sleep s; signaled := signaled s;
              efd := efd s; ps := ps s; c := CLoad; budget := budget s; received := received s; hist := hist s; owed := owed s; sig := sig s |}
  | CSched =>
      if self_done s then
        Some {| claim := claim s; rd := rd s; wr := wr s; ring := ring s; refs := refs s; sleep := sleep s; signaled := signaled s;
                efd := efd s; ps := ps s; c := CPend1; budget := budget s; received := received s; hist := hist s;
                owed := filter (fun m => negb (memb m (sig s))) (owed s); sig := [] |}
      else None
  | CPend1 => Some (with_c s (if Nat.eqb (rd s) (wr s) then CSleep else CLoad))
  | CSleep => Some (with_c (set_sleep s true) CPend2)
  | CPend2 => Some (with_c s (if Nat.eqb (rd s) (wr s) then CPoll else CAwake))
  | CPoll => if Nat.eqb (efd s) 0 then None else Some (with_c s CRead)
  | CRead =>
      Some {| claim := claim s; rd := rd s; wr := wr s; ring := ring s; refs := refs s; sleep := sleep s; signaled := signaled s;
              efd := 0; ps := ps s; c := CRel; budget := budget s; received := received s; hist := hist s; owed := owed s; sig := sig s |}
  | CRel =>
      Some {| claim := claim s; rd := rd s; wr := wr s; ring := ring s; refs := refs s; sleep := sleep s; signaled := false;
              efd := efd s; ps := ps s; c := CAwake; budget := budget s; received := received s; hist := hist s; owed := owed s; sig := sig s |}
  | CAwake => Some (with_c (set_sleep s false) CLoad)
  end.
(** the sender [i] may run: another thread, or the receiver in its coroutines *)
Definition may_send (s : state) (i : nat) : bool :=
  match self with
  | Some k => if Nat.eqb i k then match c s with CSched => true | _ => false end else true
  | None => true
  end.
Inductive step : state -> state -> Prop :=
| st_prod s i p s' : nth_error (ps s) i = Some p -> may_send s i = true -> prod_step s i p = Some s' -> step s s'
| st_cons s s' : cons_step s = Some s' -> step s s'
| st_other s b : c s = CPoll -> budget s = S b ->
    step s {| claim := claim s; rd := rd s; wr := wr s; ring := ring s; refs := refs s; sleep := sleep s; signaled := signaled s;
              efd := efd s; ps := ps s; c := CAwake; budget := b; received := received s; hist := hist s; owed := owed s; sig := sig s |}.
(** [n] steps *)
Inductive run : nat -> state -> state -> Prop :=
| run0 s : run 0 s s
| runS n s s' s'' : run n s s' -> step s' s'' -> run (S n) s s''.
(** bus.h:25-33 bus_init; every sender has a list of messages to send *)
Definition init (todos : list (list msg)) (b : nat) : state :=
  {| claim := 0; rd := 0; wr := 0; ring := fun _ => None; refs := fun _ => 0; sleep := false; signaled := false; efd := 0;
     ps := map (fun t => {| at_ := PIdle; todo := t |}) todos; c := CLoad; budget := b; received := []; hist := []; owed := []; sig := [] |}.
End Bus.
