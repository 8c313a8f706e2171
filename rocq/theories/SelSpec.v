(** What a SELECT means. *)
From Coq Require Import Permutation Sorted.
From Verif Require Import Base UnionModel SelModel.

Section Spec.
Context {V : Type} (vnull : V) (vcmp : V -> V -> Z).

(** the rows WHERE lets through, as (what is selected, the values of ORDER BY) *)
Definition selected (q : @query V) (rows : list (list V)) : list (list V * list V) :=
  map (fun r => (map (ev vnull r) (q_ret q), map (fun p => ev vnull r (fst p)) (q_orderby q)))
      (filter (fun r => match q_where q with Some w => w r | None => true end) rows).

(** comparison of two lists of values, column by column; DESC reverses *)
Fixpoint lex (desc : list bool) (a b : list V) : Z :=
  match a, b with
  | x :: a', y :: b' =>
    let c := vcmp x y in
    if c =? 0 then lex (tl desc) a' b' else if hd false desc then - c else c
  | _, _ => 0
  end.

Definition ordered (q : @query V) (l : list (list V * list V)) : Prop :=
  StronglySorted (fun a b => lex (map (fun p => negb (snd p)) (q_orderby q)) (snd a) (snd b) <= 0) l.

(** the rows OFFSET .. OFFSET + LIMIT - 1 *)
Definition window {A} (q : @query V) (l : list A) : list A :=
  let l' := skipn (match q_offset q with Some o => Z.to_nat o | None => 0 end) l in
  match q_limit q with Some n => firstn (Z.to_nat n) l' | None => l' end.

(** [out] is an answer: the window of all selected rows in an order that ORDER BY
    allows; with DISTINCT, of the different ones *)
Definition answer (q : @query V) (rows : list (list V)) (out : list (list V)) : Prop :=
  if q_distinct q then
    exists full, StronglySorted (fun a b => lex [] a b < 0) full /\
      (forall x, In x full -> In x (map fst (selected q rows))) /\
      (forall x, In x (map fst (selected q rows)) -> exists y, In y full /\ lex [] y x = 0) /\
      out = window q full
  else
    exists full, Permutation full (selected q rows) /\ ordered q full /\ out = window q (map fst full).

(** the limits are not negative (parse_select.c:223-237); DISTINCT has no ORDER BY *)
Definition query_ok (q : @query V) : Prop :=
  (forall l, q_limit q = Some l -> 0 <= l <= INT64_MAX) /\ (forall o, q_offset q = Some o -> 0 <= o <= INT64_MAX) /\
  (q_distinct q = true -> q_orderby q = []) /\ q_ret q <> [].

(** LIMIT + OFFSET is an int64 *)
Definition sum_ok (q : @query V) : Prop :=
  forall l o, q_limit q = Some l -> q_offset q = Some o -> l + o <= INT64_MAX.

(** the rows of an ordered index: increasing by its keys *)
Definition key (t : target) (r : list V) : list V := map (fun i => nth i r vnull) (t_keys t).
Definition in_index_order (t : target) (rows : list (list V)) : Prop :=
  t_table t && t_tree t = true -> StronglySorted (fun a b => lex [] (key t a) (key t b) <= 0) rows.
(** no two rows of the table have the same key *)
Definition unique_keys (t : target) (parts : list (list (list V))) : Prop :=
  t_table t && t_tree t = true ->
  ForallOrdPairs (fun a b => lex [] (key t a) (key t b) <> 0) (concat parts).
End Spec.
