(** What the transactions of a database should look like from outside. *)
From Verif Require Import Base TxModel.
Local Open Scope nat_scope.

(** histories: a transaction has at least one partition *)
Definition valid (e : event) : Prop := match e with Attach parts _ => parts <> [] /\ NoDup parts | _ => True end.
Inductive reach (init : nat -> rows) : state -> Prop :=
| reach_nil : reach init (start init)
| reach_step s e s' : reach init s -> valid e -> step s e = Some s' -> reach init s'.
(** what may follow a state *)
Inductive later (s : state) : state -> Prop :=
| later_nil : later s s
| later_step s1 e s2 : later s s1 -> valid e -> step s1 e = Some s2 -> later s s2.

Definition parts_of (s : state) (t : nat) : list nat := t_parts (tx_of s t).
Definition attached (s : state) (t : nat) : Prop := t < length (s_txs s).
Definition shares (s : state) (t1 t2 : nat) : Prop := exists p, In p (parts_of s t1) /\ In p (parts_of s t2).
(** the client of [t] was told that it is committed ([true]) or aborted *)
Definition decided (s : state) (t : nat) (b : bool) : Prop := In (t, b) (s_dec s).
(** at the partition the effects of [t] became permanent ([true]) or were undone *)
Definition applied (s : state) (p t : nat) (b : bool) : Prop := In (t, b) (p_out (s_part s p)).
(** [t1] was not finished when [t2] was dispatched, and they share a partition *)
Definition met (s : state) (t1 t2 : nat) : Prop := attached s t2 /\ In t1 (t_seen (tx_of s t2)) /\ shares s t1 t2.

(** two transactions have the same partitions or no common one (for instance: each has one) *)
Definition laned (s : state) : Prop := forall t1 t2, attached s t1 -> attached s t2 -> shares s t1 t2 -> forall p, In p (parts_of s t1) -> In p (parts_of s t2).
(** every transaction shares a partition with those that were registered when it was dispatched *)
Definition crowded (s : state) : Prop := forall t1 t2, attached s t2 -> In t1 (t_seen (tx_of s t2)) -> shares s t1 t2.
(** no transaction that was aborted met another one *)
Definition lonely_aborts (s : state) : Prop := forall t1 t2, met s t1 t2 -> ~ decided s t1 false /\ ~ decided s t2 false.

(** the rows after the transactions of a list were run one after another *)
Definition run1 (s : state) (p : nat) (d : rows) (t : nat) : rows := fst (run_writes (t_prog (tx_of s t) p d) d []).
Definition serial (s : state) (p : nat) (l : list nat) (d : rows) : rows := fold_left (run1 s p) l d.
(** the transactions dispatched to a partition, in this order *)
Definition on (s : state) (p : nat) : list nat := filter (fun t => existsb (Nat.eqb p) (parts_of s t)) (seq 0 (length (s_txs s))).
Definition committed (s : state) (t : nat) : bool := existsb (fun d => (fst d =? t) && snd d) (s_dec s).
(** the rows that the next reader of the partition sees *)
Definition visible (s : state) (p : nat) : rows := p_rows (track_sync (s_part s p) (p_cons (s_part s p))).
