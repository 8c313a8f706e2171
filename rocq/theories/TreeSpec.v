(** What a user expects of an ordered index, over an ordered list of rows.
    [cmp] compares the key of two rows (negative, zero, positive). *)
From Coq Require Import Sorted.
From Verif Require Import Base.

Section Spec.
Context {A : Type} (cmp : A -> A -> Z).

(** a comparison of keys: antisymmetric, transitive *)
Record key_order : Prop := {
  ko_opp : forall a b, Z.sgn (cmp b a) = - Z.sgn (cmp a b);
  ko_trans : forall a b c, cmp a b <= 0 -> cmp b c <= 0 -> cmp a c <= 0 }.
(** ... that returns only -1, 0 or 1 *)
Definition three_valued : Prop := forall a b, cmp a b = -1 \/ cmp a b = 0 \/ cmp a b = 1.

Inductive op :=
| Replace (r : A)                (* insert or replace the row with the key of r *)
| Upsert (r : A)                 (* insert unless the key exists *)
| Delete (k : A)                 (* delete the key *)
| Lookup (k : A)
| Scan                           (* every row *)
| DeleteWhere (d : A -> bool).   (* scan, deleting some of the rows on the way *)

Definition same (k : A) (m : list A) := filter (fun r => cmp r k =? 0) m.
Definition below (k : A) (m : list A) := filter (fun r => cmp r k <? 0) m.
Definition above (k : A) (m : list A) := filter (fun r => 0 <? cmp r k) m.
Definition from (k : A) (m : list A) := filter (fun r => 0 <=? cmp r k) m.

(** the map after an operation, and the rows the operation returns *)
Definition spec_op (m : list A) (o : op) : list A * list A :=
  match o with
  | Replace r => (below r m ++ r :: above r m, same r m)
  | Upsert r => (match same r m with [] => below r m ++ r :: above r m | _ => m end, same r m)
  | Delete k => (filter (fun r => negb (cmp r k =? 0)) m, same k m)
  | Lookup k => (m, same k m)
  | Scan => (m, m)
  | DeleteWhere d => (filter (fun r => negb (d r)) m, m)
  end.
Fixpoint spec_run (m : list A) (os : list op) : list A * list (list A) :=
  match os with
  | [] => (m, [])
  | o :: os' => let '(m1, r) := spec_op m o in let '(m2, rs) := spec_run m1 os' in (m2, r :: rs)
  end.
Definition ordered (m : list A) : Prop := StronglySorted (fun a b => cmp a b < 0) m.
End Spec.
Arguments op : clear implicits.
