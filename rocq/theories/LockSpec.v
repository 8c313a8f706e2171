(** Specification of table locks. *)
From Verif Require Import Base LockModel.
Local Open Scope nat_scope.

(** which locks of two sessions may be held at the same time: an exclusive lock excludes all
    others; a lock for reading without writers excludes writers *)
Definition compatible (a b : mode) : bool :=
  match a, b with
  | EXCLUSIVE, _ | _, EXCLUSIVE => false
  | EXCLUSIVE_RO, SHARED_RW | SHARED_RW, EXCLUSIVE_RO => false
  | _, _ => true
  end.

(** a lock that is held or waited for, as the list of locks shows it.  Locks are numbered in the
    order of the requests *)
Definition granted (s : lockst) (id o r : nat) (m : mode) : Prop :=
  exists k, In (id, k) (s_mgr s) /\ k_by k = o /\ k_rel k = r /\ k_mode k = m /\ k_waiting k = false.
Definition waiting (s : lockst) (id o r : nat) (m : mode) : Prop :=
  exists k, In (id, k) (s_mgr s) /\ k_by k = o /\ k_rel k = r /\ k_mode k = m /\ k_waiting k = true.

(** any number of sessions ask for any locks and give back any lock that they have; a session
    that waits does nothing *)
Inductive lock_step : lockst -> lockst -> Prop :=
| step_lock s o r m named : waits s o = false -> lock_step s (fst (lock_mgr_lock s o r m named))
| step_unlock s id o r m : granted s id o r m -> lock_step s (lock_mgr_unlock s id).
Inductive lock_run : lockst -> Prop :=
| run_init : lock_run st_init
| run_next s s' : lock_run s -> lock_step s s' -> lock_run s'.

(** a session waits for a session that holds a lock on the same relation *)
Definition waits_for (s : lockst) (o o' : nat) : Prop :=
  exists id r m id' m', waiting s id o r m /\ granted s id' o' r m'.
Inductive waits_for_chain (s : lockst) (o : nat) : nat -> Prop :=
| chain_one o' : waits_for s o o' -> waits_for_chain s o o'
| chain_next o1 o' : waits_for s o o1 -> waits_for_chain s o1 o' -> waits_for_chain s o o'.

(** the program takes locks only on relations above all that it holds *)
Definition mode_eq_dec (a b : mode) : {a = b} + {a <> b}.
Proof. decide equality. Defined.
Definition rm_eq_dec (a b : nat * mode) : {a = b} + {a <> b}.
Proof. decide equality; [apply mode_eq_dec|apply Nat.eq_dec]. Defined.
Fixpoint ordered_from (h : list (nat * mode)) (p : list lop) : Prop :=
  match p with
  | [] => True
  | Take r m :: p' => Forall (fun x => fst x < r) h /\ ordered_from ((r, m) :: h) p'
  | TakeNamed _ _ :: _ => False
  | Drop r m :: p' => ordered_from (remove rm_eq_dec (r, m) h) p'
  | DropAll :: p' => ordered_from [] p'
  end.
