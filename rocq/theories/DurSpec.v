(** What C71 is about: the tables after the statements in their order. *)
From Verif Require Import Base DurModel.
Local Open Scope nat_scope.

(** the tables and their rows *)
Definition content := nat -> nat -> rows.
Definition add_rows (c : content) (t p : nat) (l : rows) : content := fun t' p' => if (t' =? t) && (p' =? p) then l else c t' p'.
Fixpoint dml_spec (cs : list (nat * nat * list rop)) (c : content) : content :=
  match cs with [] => c | (t, p, os) :: cs => dml_spec cs (add_rows c t p match rops_do os (c t p) with Some l => l | None => c t p end) end.
Definition spec1 (x : cat * content) (s : stmt) : cat * content :=
  let (k, c) := x in
  match s with
  | Dml cs => (k, dml_spec cs c)
  | Create t n d => (k ++ [(t, (n, d))], c)
  | Alter t d => (map (fun p => if fst p =? t then (fst p, (fst (snd p), d)) else p) k, c)
  | Drop t => (filter (fun p => negb (fst p =? t)) k, c)
  | Truncate t => (k, fun t' p => if t' =? t then [] else c t' p)
  end.
Definition spec (log : list stmt) : cat * content := fold_left spec1 log ([], fun _ _ => []).

(** a client reads the tables of the catalog and the rows of their partitions *)
Definition shows (x : server) (k : cat) (c : content) : Prop :=
  m_cat (x_mem x) = k /\ forall t n d p, find_table k t = Some (n, d) -> p < n -> exists y, m_part (x_mem x) t p = Some y /\ live y = c t p.
Definition shows_log (x : server) : Prop := shows x (fst (spec (g_log x))) (snd (spec (g_log x))).

Fixpoint always (P : server -> event -> Prop) (x : server) (es : list event) : Prop :=
  match es with [] => True | e :: es => P x e /\ match step x e with Some x' => always P x' es | None => True end end.
(** no TRUNCATE *)
Definition no_truncate (x : server) (e : event) : Prop := match e with Begin (Truncate _) => False | _ => True end.
(** the removal of log files leaves the statements that were logged after it began *)
Definition gc_fresh (x : server) (e : event) : Prop := match e, x_gc x with GcEnd low, Some (_, l) => low <= S l | _, _ => True end.
(** when the process ends: no table of the catalog file has been dropped since the file was
    written, and no table has lost a part of its files *)
Definition files_whole (d : disk) : Prop := forall t p q, d_file d t p <> None -> d_file d t q = None -> forall n, (exists x, In (t, (n, x)) (d_cat d) \/ In (Create t n x) (map snd (d_wal d))) -> n <= q.
Definition no_drop_pending (d : disk) : Prop := forall l t, In (l, Drop t) (d_wal d) -> d_clsn d < l -> find_table (d_cat d) t = None.
Definition crash_ok (d : disk) : Prop := files_whole d /\ no_drop_pending d.
Definition careful (x : server) (e : event) : Prop := no_truncate x e /\ gc_fresh x e /\ match e with Restart => crash_ok (x_disk x) | _ => True end.
