(** What a lookup structure with insertions and removals means, without a table: the nodes that
    were added and not removed yet, with the hash they were added with. *)
From Verif Require Import Base HtModel.

(** the nodes in the table after a history, last added first *)
Fixpoint live_from (l : list (nat * Z)) (ops : list ht_op) : list (nat * Z) :=
  match ops with
  | [] => l
  | Add n h :: r => live_from ((n, h) :: l) r
  | Del n :: r => live_from (filter (fun x => negb (fst x =? n)%nat) l) r
  end.
Definition live (ops : list ht_op) : list (nat * Z) := live_from [] ops.

(** a history is sensible if only nodes outside of the table are added and only nodes of the
    table are removed *)
Fixpoint sensible_from (l : list (nat * Z)) (ops : list ht_op) : Prop :=
  match ops with
  | [] => True
  | Add n h :: r => ~ In n (map fst l) /\ sensible_from ((n, h) :: l) r
  | Del n :: r => In n (map fst l) /\ sensible_from (filter (fun x => negb (fst x =? n)%nat) l) r
  end.
Definition sensible (ops : list ht_op) : Prop := sensible_from [] ops.

(** the node that a lookup of [hash] with the comparison [cmp] may return *)
Definition matches (ops : list ht_op) (hash : Z) (cmp : nat -> bool) (n : nat) : Prop :=
  In (n, hash) (live ops) /\ cmp n = true.

Definition no_removals (ops : list ht_op) : Prop := forall n, ~ In (Del n) ops.
