(** What the aggregates of a SELECT with GROUP BY must return. *)
From Verif Require Import Base JsonModel ValueModel ValueProps SetProps AggModel.

Definition value_eq_dec (a b : value) : {a = b} + {a <> b}.
Proof. decide equality; first [apply Z.eq_dec | apply (list_eq_dec Z.eq_dec)]. Defined.
Definition key_eq_dec (a b : list value) : {a = b} + {a <> b} := list_eq_dec value_eq_dec a b.
Arguments key_eq_dec : simpl never.

(** the sum, smallest, largest element of a list *)
Definition zsum (l : list Z) : Z := fold_right Z.add 0 l.
Definition zmin (x : Z) (l : list Z) : Z := fold_right Z.min x l.
Definition zmax (x : Z) (l : list Z) : Z := fold_right Z.max x l.
(** the aggregate of the values that are not NULL; NULL if there is none.  Sums are modulo
    2^64; AVG is kept as sum and count *)
Definition agg_spec (t : agg_type) (l : list Z) : state :=
  match l with
  | [] => SNull
  | x :: r =>
    match t with
    | ACount => SInt (Z.of_nat (length l))
    | AMin => SInt (zmin x r)
    | AMax => SInt (zmax x r)
    | ASum => SInt (wrap64 (zsum l))
    | AAvg => SAvg (wrap64 (zsum l)) (Z.of_nat (length l))
    end
  end.
(** the values of column [col] in the rows of the group [k] *)
Definition vals (rows : list (list value * list value)) (k : list value) (col : nat) : list Z :=
  flat_map (fun row => if key_eq_dec (fst row) k
                       then match nth_error (snd row) col with Some (VInt z) => [z] | _ => [] end
                       else []) rows.
Definition agg_of (a : agg) (l : list Z) : state :=
  agg_spec (atype a) (if adistinct a then nodup Z.eq_dec l else l).

(** a row of the scan: [n] keys without NaN and -0.0, one integer or NULL per aggregate *)
Definition scan_row_ok (aggs : list agg) (n : nat) (row : list value * list value) : Prop :=
  plain_key n (fst row) /\ length (snd row) = length aggs /\
  Forall (fun v => v = VNull \/ exists z, v = VInt z /\ - 2 ^ 63 <= z < 2 ^ 63) (snd row).

(** [result] is what the SELECT must return for the rows of all partitions *)
Record groups_ok (aggs : list agg) (rows : list (list value * list value)) (result : list (list value * list state)) : Prop := {
  gr_nodup : NoDup (map fst result);
  gr_keys : forall k, In k (map fst result) <-> In k (map fst rows);
  gr_aggs : forall k st, In (k, st) result ->
    length st = length aggs /\
    forall col a, nth_error aggs col = Some a -> nth_error st col = Some (agg_of a (vals rows k col))
}.
