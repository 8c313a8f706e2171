(** What a session that waits relies on. *)
From Verif Require Import Base TimerModel.
From Coq Require Import Permutation Sorted.

(** the sleeps of a history with a time of 0 or more, and those with a negative time (as int) *)
Definition slept (evs : list event) : list nat :=
  flat_map (fun e => match e with ESleep id v => if 0 <=? int32 v then [id] else [] | _ => [] end) evs.
Definition sleepers (evs : list event) : list nat := flat_map (fun e => match e with ESleep id _ => [id] | _ => [] end) evs.
Definition fired_ids (s : state) : list nat := map (fun f => tid (f_t f)) (fired s).
(** the time the thread believes is that of the clock *)
Definition fresh (s : state) : Prop := time_cached s = false \/ time_ms s = now s.
