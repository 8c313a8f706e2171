(** Specification of C73 and C74. *)
From Verif Require Import PartModel PartProofs ReplayModel ShadowModel IdxSpec.
From Coq Require Import List ZArith Lia Bool Permutation.
Import ListNotations.
Open Scope Z_scope.

(** between service operations: no shadow heap, the heap holds exactly the rows of the
    primary index, the indexes agree with each other, every row is in the main heap *)
Definition settled (s : sst) : Prop :=
  s_sh s = None /\ quiet (s_p s) /\ image_of (s_p s) (s_main s) /\
  forall r, In r (s_main s) -> s_flag s (rid r) = false.
