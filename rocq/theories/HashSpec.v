(** What a user expects of a hash index: a map from keys to rows.  Only the vocabulary
    of operations ([hop], [hout]) and rows is shared with the model. *)
From Verif Require Import Base HashModel.

Definition hmap := Z -> option hrow.
Definition empty_map : hmap := fun _ => None.
Definition upd (m : hmap) (k : Z) (v : option hrow) : hmap :=
  fun q => if q =? k then v else m q.

(** the map after an operation *)
Definition spec_map (m : hmap) (o : hop) : hmap :=
  match o with
  | HReplaceBy r => upd m (hkey r) (Some r)
  | HUpsert r => match m (hkey r) with Some _ => m | None => upd m (hkey r) (Some r) end
  | HReplace r => match m (hkey r) with Some _ => upd m (hkey r) (Some r) | None => m end
  | HDeleteBy k | HDelete k => upd m k None
  | HFind _ | HScan => m
  end.

(** what an operation may answer on map [m]: every operation on a key answers the row
    the map has for this key (the previous row for a write); a scan answers each row
    of the map exactly once, in any order *)
Definition spec_out (m : hmap) (o : hop) (x : hout) : Prop :=
  match o, x with
  | HReplaceBy r, ORow p | HUpsert r, ORow p | HReplace r, ORow p => p = m (hkey r)
  | HDeleteBy k, ORow p | HDelete k, ORow p | HFind k, ORow p => p = m k
  | HScan, ORows l => NoDup (map hkey l) /\ forall r, In r l <-> m (hkey r) = Some r
  | _, _ => False
  end.

Fixpoint spec_run (m : hmap) (ops : list hop) (xs : list hout) : Prop :=
  match ops, xs with
  | [], [] => True
  | o :: ops', x :: xs' => spec_out m o x /\ spec_run (spec_map m o) ops' xs'
  | _, _ => False
  end.

(** ** side conditions of the partial theorem *)
Definition is_write (o : hop) : bool := match o with HReplaceBy _ | HUpsert _ => true | _ => false end.
Definition is_delete (o : hop) : bool := match o with HDeleteBy _ | HDelete _ => true | _ => false end.
Definition writes (ops : list hop) : nat := length (filter is_write ops).

(** once something was deleted, INSERT is not given a key that is present *)
Fixpoint fresh_inserts (m : hmap) (deleted : bool) (ops : list hop) : Prop :=
  match ops with
  | [] => True
  | o :: ops' =>
    (match o with HReplaceBy r => deleted = true -> m (hkey r) = None | _ => True end)
    /\ fresh_inserts (spec_map m o) (deleted || is_delete o) ops'
  end.
