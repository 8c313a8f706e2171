(** What changing a JSON value by path means. *)
From Verif Require Import Base JsonModel JsonSpec.

(** the value at a path *)
Fixpoint lookup (path : list (list Z)) (v : json) : option json :=
  match path with
  | [] => Some v
  | k :: p => match v with
              | JObj l => match field k l with Some x => lookup p x | None => None end
              | _ => None
              end
  end.
(** the names of the fields of the object at a path, in order *)
Definition names_at (path : list (list Z)) (v : json) : option (list (list Z)) :=
  match lookup path v with Some (JObj l) => Some (map fst l) | _ => None end.
Definition prefix (p q : list (list Z)) : Prop := exists r, q = p ++ r.

(** the text of a path: keys that are not empty and have no dot and no space, separated by dots; one
    dot may follow *)
Definition key_text (k : list Z) : Prop :=
  k <> [] /\ str_wf k = true /\ forall c, In c k -> c <> 46 /\ c <> 32 /\ ~ (9 <= c <= 13).
Fixpoint path_text (keys : list (list Z)) : list Z :=
  match keys with
  | [] => []
  | [k] => k
  | k :: ks => k ++ 46 :: path_text ks
  end.
Definition written (keys : list (list Z)) (text : list Z) : Prop :=
  keys <> [] /\ Forall key_text keys /\ (text = path_text keys \/ text = path_text keys ++ [46]).

(** an object on the way is missing or no object *)
Definition no_object (keys : list (list Z)) (v : json) : Prop :=
  exists q r, keys = q ++ r /\ r <> [] /\ forall l, lookup q v <> Some (JObj l).
(** the path leads through a value that is no object *)
Definition through_value (keys : list (list Z)) (v : json) : Prop :=
  exists q r x, keys = q ++ r /\ r <> [] /\ lookup q v = Some x /\ forall l, x <> JObj l.

(** [w] is [v] with [x] at the path *)
Definition changed (keys : list (list Z)) (x v w : json) : Prop :=
  lookup keys w = Some x /\
  (forall q, ~ prefix q keys -> ~ prefix keys q -> lookup q w = lookup q v) /\
  (forall q k r, keys = q ++ k :: r ->
     names_at q w = option_map (fun ns => if existsb (bytes_eqb k) ns then ns else ns ++ [k]) (names_at q v)).
(** [w] is [v] without the path *)
Definition removed (keys : list (list Z)) (v w : json) : Prop :=
  lookup keys w = None /\
  (forall q, ~ prefix q keys -> ~ prefix keys q -> lookup q w = lookup q v) /\
  (forall q k r, keys = q ++ k :: r ->
     names_at q w = option_map (fun ns => match r with [] => filter (fun n => negb (bytes_eqb k n)) ns | _ => ns end) (names_at q v)).
(** no name twice in the objects the path leads through *)
Definition distinct_names (keys : list (list Z)) (v : json) : Prop :=
  forall q r k l, keys = q ++ k :: r -> r <> [] -> lookup q v = Some (JObj l) -> NoDup (map fst l).
