(** What the senders and the receiver of messages rely on. *)
From Verif Require Import Base BusModel.

(** [l] is made of the lists [ls], each in its order *)
Inductive interleaved : list (list msg) -> list msg -> Prop :=
| il_nil ls : (forall l, In l ls -> l = []) -> interleaved ls []
| il_cons ls1 m t ls2 l : interleaved (ls1 ++ t :: ls2) l -> interleaved (ls1 ++ (m :: t) :: ls2) (m :: l).
(** the beginnings of the lists are *)
Definition begins (ls ls' : list (list msg)) : Prop := Forall2 (fun a b => exists t, a ++ t = b) ls ls'.

(** nothing can happen any more *)
Definition stuck (size : nat) (self : option nat) (s : state) : Prop := forall s', ~ step size self s s'.
