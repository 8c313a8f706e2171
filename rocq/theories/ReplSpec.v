(** What C52 is about: histories of a primary and its replica. *)
From Verif Require Import Base ReplModel.
Local Open Scope nat_scope.

(** the transactions the primary commits in a history *)
Fixpoint commits (es : list event) : list payload :=
  match es with [] => [] | PWrite a :: es => a :: commits es | _ :: es => commits es end.
Definition prefix {A} (a b : list A) : Prop := exists c, b = a ++ c.

(** every event of a history meets [P] in the state where it happens *)
Fixpoint always (P : repl -> event -> Prop) (s : repl) (es : list event) : Prop :=
  match es with [] => True | e :: es => P s e /\ match rstep s e with Some s' => always P s' es | None => True end end.
(** the replica looks at a request only when it executes no other *)
Definition one_at_a_time (s : repl) (e : event) : Prop := match e with Deliver _ => r_sess s = [] | _ => True end.
(** while it streams, the primary keeps the files with records after the LSN of the slot *)
Definition gc_keeps (s : repl) (e : event) : Prop :=
  match e with PGc others min => p_stream s <> None -> slots_min (attached s ++ others) min <= p_slot s | _ => True end.
Definition careful (s : repl) (e : event) : Prop := one_at_a_time s e /\ gc_keeps s e.
(** only replication goes on: nothing is committed, no file is added or removed, no server restarted *)
Definition quiet (es : list event) : Prop := forall e, In e es -> match e with PWrite _ | PRotate | PGc _ _ | PRestart | RRestart _ => False | _ => True end.
(** what the primary has committed when it started with [log] *)
Definition primary_log (log : list payload) (es : list event) : list payload := log ++ commits es.
