(** Specification of C72. *)
From Verif Require Import PartModel IdxModel.
From Coq Require Import List ZArith.
Import ListNotations.
Open Scope Z_scope.

(** no rows were written between the snapshot of the partition and the creation of an
    index that the catalog file includes *)
Definition index_after_rows (snap cat : Z) (recs : list (Z * rec)) : Prop :=
  forall l w i, In (l, RRows w) recs -> w <> [] -> In (i, RIndex) recs -> snap < l -> l < i -> cat < i.

(** index [i] of [p] agrees with its rows: it has one entry per row, under the key of the
    row, and no other entry *)
Definition index_exact (p : part) (i : nat) : Prop :=
  forall k r, ix p i k = Some r <-> (ix p 0%nat (key_of 0 r) = Some r /\ key_of i r = k).
