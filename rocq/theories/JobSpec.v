(** What is asked of the background jobs, on the events of a run. *)
From Verif Require Import Base JobModel.

Definition added (l : list event) : list Z := flat_map (fun e => match e with Added j => [j] | _ => [] end) l.
Definition started (l : list event) : list Z := flat_map (fun e => match e with Started j => [j] | _ => [] end) l.
Definition finished (l : list event) : list Z := flat_map (fun e => match e with Finished j => [j] | _ => [] end) l.
Definition working (ws : list worker) : list Z := flat_map (fun w => match w with Working j => [j] | _ => [] end) ws.
Definition idle (ws : list worker) : nat := length (filter (fun w => match w with Idle => true | _ => false end) ws).
(** events of the threads of the pool alone *)
Definition own (e : event) : Prop := match e with Started _ | Finished _ | Slept | Left => True | _ => False end.
(** no thread can go on by itself *)
Definition quiet (s : sys) : Prop := forall e s', step s e s' -> ~ own e.
Definition reachable (s : sys) : Prop := exists l, run (init, []) l s.
(** neither stopped nor started again; nothing added and not started again *)
Definition goes_on (e : event) : Prop := match e with Stop | Start _ => False | _ => True end.
Definition closing (e : event) : Prop := match e with Added _ | Start _ => False | _ => True end.
Definition no_start (e : event) : Prop := match e with Start _ => False | _ => True end.
