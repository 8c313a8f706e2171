(** Proofs about InsModel.v *)
From Verif Require Import Base InsModel InsSpec.

Local Open Scope nat_scope.

(** ** parsing: a parsed row and the references stand for the given values *)

(** value of the references in an environment *)
Definition ref_values (env : nat -> option Z) (refs : list ref) : list value :=
  map (fun '(x, _) => value_of (env x)) refs.

Lemma parse_row_refs : forall cols cells refs row refs',
  parse_row cols cells refs = Ok (row, refs') ->
  exists more, refs' = refs ++ more.
Proof.
  induction cols as [|c cols IH]; intros [|g cells] refs row refs' H; cbn [parse_row] in H;
    try discriminate.
  - injection H as _ <-. exists []. now rewrite app_nil_r.
  - destruct (parse_value c g refs) as [v refs1] eqn:E.
    destruct (parse_validate c v); [|discriminate].
    destruct (parse_row cols cells refs1) as [[row1 refs2]| |] eqn:E1; cbn [bind] in H; try discriminate.
    injection H as _ <-.
    destruct (IH _ _ _ _ E1) as [more ->].
    destruct g; cbn [parse_value] in E; injection E as _ <-.
    + now exists more.
    + eexists. rewrite <- app_assoc. reflexivity.
    + now exists more.
Qed.

Lemma parse_row_value : forall env cols cells refs row refs' all,
  parse_row cols cells refs = Ok (row, refs') ->
  map (deref (ref_values env (refs' ++ all))) row = map value_of (given env cols cells) /\
  length row = length cols /\ length cells = length cols.
Proof.
  intros env. induction cols as [|c cols IH]; intros [|g cells] refs row refs' all H;
    cbn [parse_row] in H; try discriminate.
  - injection H as <- _. now split.
  - destruct (parse_value c g refs) as [v refs1] eqn:E.
    destruct (parse_validate c v); [|discriminate].
    destruct (parse_row cols cells refs1) as [[row1 refs2]| |] eqn:E1; cbn [bind] in H; try discriminate.
    injection H as <- <-.
    destruct (IH _ _ _ _ all E1) as [H1 [H2 H3]].
    destruct (parse_row_refs _ _ _ _ _ E1) as [more Hm].
    cbn [map given length]. rewrite H1, H2, H3. split; [|now split]. f_equal.
    destruct g; cbn [parse_value] in E; injection E as <- Er; cbn [cell_value].
    + now destruct v0.
    + cbn [deref]. subst. unfold ref_values. rewrite !map_app, <- !app_assoc.
      rewrite app_nth2; rewrite map_length; [|lia]. rewrite Nat.sub_diag. reflexivity.
    + destruct (c_ident c); [reflexivity|]. now destruct (c_default c).
Qed.

Lemma parse_rows_refs : forall cols rows refs set refs',
  parse_rows cols rows refs = Ok (set, refs') -> exists more, refs' = refs ++ more.
Proof.
  induction rows as [|r rows IH]; intros refs set refs' H; cbn [parse_rows] in H.
  - injection H as _ <-. exists []. now rewrite app_nil_r.
  - destruct (parse_row cols r refs) as [[row refs1]| |] eqn:E; cbn [bind] in H; try discriminate.
    destruct (parse_rows cols rows refs1) as [[set1 refs2]| |] eqn:E1; cbn [bind] in H; try discriminate.
    injection H as _ <-.
    destruct (parse_row_refs _ _ _ _ _ E) as [m1 ->].
    destruct (IH _ _ _ E1) as [m2 ->].
    exists (m1 ++ m2). now rewrite app_assoc.
Qed.

(** a row of the set stands for a row of VALUES *)
Definition stands (env : nat -> option Z) (refs : list value) (cols : list column)
           (row : list value) (cells : list cell) : Prop :=
  map (deref refs) row = map value_of (given env cols cells) /\
  length row = length cols /\ length cells = length cols.

Lemma parse_rows_value : forall env cols rows refs set refs',
  parse_rows cols rows refs = Ok (set, refs') ->
  Forall2 (stands env (ref_values env refs') cols) set rows.
Proof.
  intros env cols. induction rows as [|r rows IH]; intros refs set refs' H; cbn [parse_rows] in H.
  - injection H as <- _. constructor.
  - destruct (parse_row cols r refs) as [[row refs1]| |] eqn:E; cbn [bind] in H; try discriminate.
    destruct (parse_rows cols rows refs1) as [[set1 refs2]| |] eqn:E1; cbn [bind] in H; try discriminate.
    injection H as <- <-.
    destruct (parse_rows_refs _ _ _ _ _ E1) as [more Hm]. subst refs2.
    constructor.
    + exact (parse_row_value env _ _ _ _ _ more E).
    + exact (IH _ _ _ E1).
Qed.

(** no variable, no reference *)
Definition no_ref (v : value) : bool := match v with VRef _ => false | _ => true end.

Lemma parse_row_novar : forall cols cells refs row refs',
  parse_row cols cells refs = Ok (row, refs') -> existsb is_var cells = false ->
  refs' = refs /\ forallb no_ref row = true.
Proof.
  induction cols as [|c cols IH]; intros [|g cells] refs row refs' H Hv; cbn [parse_row] in H;
    try discriminate.
  - injection H as <- <-. now split.
  - destruct (parse_value c g refs) as [v refs1] eqn:E.
    destruct (parse_validate c v); [|discriminate].
    destruct (parse_row cols cells refs1) as [[row1 refs2]| |] eqn:E1; cbn [bind] in H; try discriminate.
    injection H as <- <-.
    cbn [existsb] in Hv. apply orb_false_iff in Hv. destruct Hv as [Hg Hv].
    destruct g; cbn [is_var] in Hg; try discriminate; cbn [parse_value] in E; injection E as <- <-;
      destruct (IH _ _ _ _ E1 Hv) as [-> Hr]; (split; [reflexivity|]);
      cbn [forallb]; rewrite Hr.
    + now destruct v0.
    + destruct (c_ident c); [reflexivity|]. now destruct (c_default c).
Qed.

Lemma parse_rows_novar : forall cols rows refs set refs',
  parse_rows cols rows refs = Ok (set, refs') ->
  (forall r, In r rows -> existsb is_var r = false) ->
  refs' = refs /\ Forall (fun r => forallb no_ref r = true) set.
Proof.
  intros cols. induction rows as [|r rows IH]; intros refs set refs' H Hv; cbn [parse_rows] in H.
  - injection H as <- <-. now split.
  - destruct (parse_row cols r refs) as [[row refs1]| |] eqn:E; cbn [bind] in H; try discriminate.
    destruct (parse_rows cols rows refs1) as [[set1 refs2]| |] eqn:E1; cbn [bind] in H; try discriminate.
    injection H as <- <-.
    destruct (parse_row_novar _ _ _ _ _ E (Hv r (or_introl eq_refl))) as [-> Hr].
    destruct (IH _ _ _ E1 (fun r' I => Hv r' (or_intror I))) as [-> Hs].
    split; [reflexivity|]. now constructor.
Qed.

(** ** the stack *)
Lemma stack_at_app : forall s t, stack_at (s ++ t) (length t) = t.
Proof.
  intros. unfold stack_at. rewrite app_length.
  replace (length s + length t - length t) with (length s) by lia.
  rewrite skipn_app, skipn_all, Nat.sub_diag. reflexivity.
Qed.

Lemma stack_popn_app : forall s t, stack_popn (s ++ t) (length t) = s.
Proof.
  intros. unfold stack_popn. rewrite app_length.
  replace (length s + length t - length t) with (length s) by lia.
  rewrite firstn_app, Nat.sub_diag, firstn_all. cbn. now rewrite app_nil_r.
Qed.

Lemma push_refs_ok : forall env refs s s',
  push_refs env refs s = Ok s' -> s' = s ++ ref_values env refs.
Proof.
  intros env. induction refs as [|[x nn] refs IH]; intros s s' H; cbn [push_refs] in H.
  - injection H as <-. now rewrite app_nil_r.
  - destruct (nn && is_null (value_of (env x))); [discriminate|].
    apply IH in H. subst. rewrite <- app_assoc. reflexivity.
Qed.

(** ** generated columns *)

(** the row after its stored columns are written *)
Fixpoint gen_row (src : list value) (cols : list column) (row : list value) : list value :=
  match cols, row with
  | c :: cols', v :: row' =>
    match c_stored c with Some e => eval src e | None => v end :: gen_row src cols' row'
  | _, _ => []
  end.

Lemma set_nth_app : forall pre v x post,
  set_nth (length pre) v (pre ++ x :: post) = pre ++ v :: post.
Proof.
  induction pre; intros; cbn [length set_nth app]; [reflexivity|]. now rewrite IHpre.
Qed.

Lemma store_pairs_gen : forall src cols pre row,
  length row = length cols ->
  fst (store_pairs (pre ++ row)
        (flat_map (fun '(i, e) => [VInt (Z.of_nat i); eval src e]) (stored_from (length pre) cols)))
  = pre ++ gen_row src cols row.
Proof.
  intros src. induction cols as [|c cols IH]; intros pre [|v row] H; cbn [length] in H; try discriminate.
  - reflexivity.
  - cbn [stored_from gen_row]. injection H as H.
    destruct (c_stored c) as [e|].
    + cbn [flat_map app store_pairs integer].
      rewrite Nat2Z.id, set_nth_app.
      specialize (IH (pre ++ [eval src e]) row H).
      rewrite app_length in IH. cbn [length] in IH. rewrite Nat.add_1_r in IH.
      rewrite <- !app_assoc in IH. cbn [app] in IH.
      destruct (store_pairs _ _) as [a b]. cbn [fst] in IH |- *. exact IH.
    + specialize (IH (pre ++ [v]) row H).
      rewrite app_length in IH. cbn [length] in IH. rewrite Nat.add_1_r in IH.
      rewrite <- !app_assoc in IH. cbn [app] in IH. exact IH.
Qed.

Lemma pairs_length : forall src (gs : list (nat * expr)),
  length (flat_map (fun '(i, e) => [VInt (Z.of_nat i); eval src e]) gs) = 2 * length gs.
Proof.
  induction gs as [|[i e] gs IH]; [reflexivity|]. cbn [flat_map app length]. rewrite IH. lia.
Qed.

Lemma update_store_gen : forall cols row s,
  length row = length cols ->
  fst (update_store row (push_generated row (stored cols) s) (length (stored cols)))
  = gen_row row cols row.
Proof.
  intros. unfold update_store, push_generated.
  rewrite <- (pairs_length row (stored cols)), stack_at_app.
  pose proof (store_pairs_gen row cols [] row H) as E. cbn [app length] in E.
  unfold stored in *.
  destruct (store_pairs row _) as [a b]. cbn [fst] in *. exact E.
Qed.

Lemma scan_generated_set : forall cols set s,
  Forall (fun r => length r = length cols) set ->
  fst (scan_generated (stored cols) set s) = map (fun r => gen_row r cols r) set.
Proof.
  intros cols. induction set as [|r set IH]; intros s H; [reflexivity|].
  apply Forall_cons_iff in H. destruct H as [Hr H].
  cbn [scan_generated map].
  pose proof (update_store_gen cols r s Hr) as E.
  destruct (update_store r _ _) as [r1 s1]. cbn [fst] in E. subst r1.
  specialize (IH s1 H). destruct (scan_generated _ set s1) as [set1 s2]. cbn [fst] in *.
  now rewrite IH.
Qed.

Lemma gen_row_none : forall src cols row,
  length row = length cols ->
  (forall c, In c cols -> c_stored c = None) -> gen_row src cols row = row.
Proof.
  intros src. induction cols as [|c cols IH]; intros [|v row] L H; cbn [length] in L; try discriminate.
  - reflexivity.
  - cbn [gen_row]. rewrite (H c (or_introl eq_refl)). f_equal. apply IH; [lia|].
    intros. apply H. now right.
Qed.

Lemma stored_from_none : forall cols i,
  stored_from i cols = [] <-> (forall c, In c cols -> c_stored c = None).
Proof.
  induction cols as [|c cols IH]; intros i; cbn [stored_from].
  - split; [intros _ c []|reflexivity].
  - destruct (c_stored c) eqn:E.
    + split; [discriminate|]. intros H. rewrite (H c (or_introl eq_refl)) in E. discriminate.
    + rewrite IH. split; intros H.
      * intros d [<-|I]; auto.
      * intros d I. apply H. now right.
Qed.

Lemma insert_store_set : forall cols set s,
  Forall (fun r => length r = length cols) set ->
  fst (insert_store cols set s) = map (fun r => gen_row r cols r) set.
Proof.
  intros cols set s H. unfold insert_store.
  destruct (stored cols) eqn:E.
  - cbn [fst]. unfold stored in E. rewrite stored_from_none in E.
    symmetry. erewrite map_ext_in; [apply map_id|].
    intros r I. apply gen_row_none; [|exact E].
    rewrite Forall_forall in H. now apply H.
  - rewrite <- E. now apply scan_generated_set.
Qed.

Lemma gen_row_length : forall src cols row,
  length row = length cols -> length (gen_row src cols row) = length cols.
Proof.
  intros src. induction cols as [|c cols IH]; intros [|v row] L; cbn [length] in L; try discriminate.
  - reflexivity.
  - cbn [gen_row length]. f_equal. apply IH. lia.
Qed.

(** column [i] of the written row *)
Lemma gen_row_nth : forall src cols row i c,
  length row = length cols -> nth_error cols i = Some c ->
  nth i (gen_row src cols row) VNull =
  match c_stored c with Some e => eval src e | None => nth i row VNull end.
Proof.
  intros src. induction cols as [|d cols IH]; intros [|v row] i c L H; cbn [length] in L; try discriminate.
  - now destruct i.
  - destruct i; cbn [nth_error] in H.
    + injection H as ->. reflexivity.
    + cbn [gen_row nth]. apply IH; [lia|exact H].
Qed.

(** an expression only depends on the columns it reads *)
Lemma eval_ext : forall e r r',
  (forall i, In i (reads e) -> nth i r VNull = nth i r' VNull) -> eval r e = eval r' e.
Proof.
  induction e; intros r r' H; cbn [eval reads] in *.
  - reflexivity.
  - apply H. now left.
  - rewrite (IHe1 r r'), (IHe2 r r'); [reflexivity| |]; intros; apply H, in_or_app; auto.
Qed.

Lemma gen_row_src : forall src src' cols row,
  (forall c e, In c cols -> c_stored c = Some e -> eval src e = eval src' e) ->
  gen_row src cols row = gen_row src' cols row.
Proof.
  induction cols as [|c cols IH]; intros row H; [reflexivity|].
  destruct row as [|v row]; [reflexivity|]. cbn [gen_row].
  rewrite IH by (intros; eapply H; [right|]; eassumption).
  destruct (c_stored c) eqn:E; [|reflexivity].
  f_equal. now apply H with (c := c); [left|].
Qed.

Lemma gen_row_twice : forall src cols row,
  gen_row src cols (gen_row src cols row) = gen_row src cols row.
Proof.
  induction cols as [|c cols IH]; intros row; [reflexivity|].
  destruct row as [|v row]; [reflexivity|]. cbn [gen_row].
  rewrite IH. now destruct (c_stored c).
Qed.

(** writing the stored columns again changes nothing *)
Lemma gen_row_idem : forall cols row,
  length row = length cols -> plain_generated cols ->
  let g := gen_row row cols row in gen_row g cols g = g.
Proof.
  intros cols row L P g. unfold g at 2.
  rewrite (gen_row_src _ row); [apply gen_row_twice|].
  intros c e I E. apply eval_ext. intros i Hi. unfold g.
  destruct (nth_error cols i) as [d|] eqn:N.
  - rewrite (gen_row_nth _ _ _ _ _ L N).
    destruct (P c e i d I E Hi N) as [-> _]. reflexivity.
  - apply nth_error_None in N.
    rewrite !nth_overflow; [reflexivity|lia|]. rewrite gen_row_length; lia.
Qed.

(** ** the number of an identity column *)
Definition num (cols : list column) (id : Z) (vals : list (option Z)) : list (option Z) :=
  map (fun '(c, v) => if c_ident c then Some id else v) (combine cols vals).

Lemma num_cons : forall c cols id v vals,
  num (c :: cols) id (v :: vals) = (if c_ident c then Some id else v) :: num cols id vals.
Proof. reflexivity. Qed.

Lemma number_none : forall gen cols vals next,
  length vals = length cols -> filter c_ident cols = [] -> number gen cols vals next = (vals, next).
Proof.
  intros gen. induction cols as [|c cols IH]; intros [|v vals] next L H; cbn [length] in L; try discriminate.
  - reflexivity.
  - cbn [filter] in H. destruct (c_ident c) eqn:E; [discriminate|].
    cbn [number]. rewrite E. injection L as L.
    destruct v; rewrite (IH vals next L H); reflexivity.
Qed.

Lemma num_none : forall cols id vals,
  length vals = length cols -> filter c_ident cols = [] -> num cols id vals = vals.
Proof.
  induction cols as [|c cols IH]; intros id [|v vals] L H; cbn [length] in L; try discriminate.
  - reflexivity.
  - cbn [filter] in H. destruct (c_ident c) eqn:E; [discriminate|].
    unfold num in *. cbn [combine map]. rewrite E. f_equal. apply IH; [lia|exact H].
Qed.

Lemma find_ident_none : forall cols, find_ident cols = None <-> filter c_ident cols = [].
Proof.
  induction cols as [|c cols IH]; cbn [find_ident filter]; [tauto|].
  destruct (c_ident c); [split; discriminate|].
  destruct (find_ident cols); cbn [option_map].
  - split; [discriminate|]. intros H. apply IH in H. discriminate.
  - tauto.
Qed.

Lemma number_num : forall gen cols refs row vals next,
  one_ident cols -> length row = length cols ->
  map (deref refs) row = map value_of vals ->
  let '(id, n) := row_get_identity cols gen refs row next in
  number gen cols vals next = (num cols id vals, n).
Proof.
  intros gen cols refs row vals next H L M.
  assert (Lv : length vals = length cols).
  { rewrite <- L, <- (map_length (deref refs)), M, map_length. reflexivity. }
  unfold row_get_identity. revert row vals next L Lv M.
  induction cols as [|c cols IH]; intros row vals next L Lv M.
  - destruct vals; [|discriminate]. reflexivity.
  - destruct row as [|r row]; [discriminate|]. destruct vals as [|v vals]; [discriminate|].
    cbn [find_ident]. cbn [map] in M. injection M as Mv M. injection L as L. injection Lv as Lv.
    unfold one_ident in H. cbn [filter] in H.
    destruct (c_ident c) eqn:E.
    + cbn [nth]. rewrite Mv. cbn [length] in H.
      assert (F : filter c_ident cols = []) by (destruct (filter c_ident cols); [reflexivity|cbn in H; lia]).
      destruct v as [z|]; cbn [value_of is_null number integer]; rewrite ?E;
        rewrite (number_none _ _ _ _ Lv F), num_cons, E, (num_none cols _ vals Lv F); reflexivity.
    + specialize (IH H row vals next L Lv M).
      destruct (find_ident cols) as [i|]; cbn [option_map].
      * cbn [nth]. destruct (is_null (deref refs (nth i row VNull)));
          (cbn [number]; rewrite E; destruct v; rewrite IH; unfold num; cbn [combine map]; rewrite E; reflexivity).
      * cbn [number]; rewrite E; destruct v; rewrite IH; unfold num; cbn [combine map]; rewrite E; reflexivity.
Qed.

(** ** the row that is made *)

(** what row_create makes when NOT NULL is not looked at *)
Definition made (cols : list column) (refs : list value) (id : Z) (row : list value) : list (option Z) :=
  map (fun '(c, v) =>
         let v := if c_ident c then VInt id else deref refs v in
         if is_null v then None else Some (integer v))
      (combine cols row).

Lemma row_create_made : forall cols refs id row,
  length row = length cols ->
  row_create cols refs id row =
  if not_null_ok cols (made cols refs id row) then Ok (made cols refs id row) else Err.
Proof.
  intros cols refs id. induction cols as [|c cols IH]; intros [|v row] L; cbn [length] in L; try discriminate.
  - reflexivity.
  - cbn [row_create hd tl]. unfold made in *. cbn [combine map not_null_ok].
    rewrite (IH row) by lia.
    unfold encode.
    set (w := if c_ident c then VInt id else deref refs v).
    destruct (is_null w) eqn:N.
    + destruct (c_notnull c); cbn [bind andb negb]; [reflexivity|].
      destruct (not_null_ok cols _); reflexivity.
    + rewrite andb_false_r. cbn [bind negb andb].
      destruct (not_null_ok cols _); reflexivity.
Qed.

(** every stored column's expression has, in the set, the value it has in the
    numbered row *)
Definition agrees (cols : list column) (refs row : list value) (id : Z) (vals : list (option Z)) : Prop :=
  forall c e, In c cols -> c_stored c = Some e ->
    c_ident c = false /\ deref refs (eval row e) = value_of (value_in (num cols id vals) e).

Lemma made_generate : forall refs id src nsrc cols row vals,
  map (deref refs) row = map value_of vals -> length row = length cols ->
  (forall c e, In c cols -> c_stored c = Some e ->
     c_ident c = false /\ deref refs (eval src e) = value_of (value_in nsrc e)) ->
  made cols refs id (gen_row src cols row) = generate nsrc cols (num cols id vals).
Proof.
  intros refs id src nsrc. induction cols as [|c cols IH]; intros row vals M L H.
  - reflexivity.
  - destruct row as [|r row]; [discriminate|]. destruct vals as [|v vals]; [discriminate|].
    cbn [map] in M. injection M as Mv M. injection L as L.
    cbn [gen_row]. unfold made, num in *. cbn [combine map generate].
    rewrite (IH row vals M L) by (intros; eapply H; [right|]; eassumption).
    f_equal. destruct (c_stored c) as [e|] eqn:E.
    + destruct (H c e (or_introl eq_refl) E) as [-> ->].
      now destruct (value_in nsrc e).
    + destruct (c_ident c); [reflexivity|]. rewrite Mv. now destruct v.
Qed.

Lemma row_meaning : forall gen cols env refs row cells next,
  one_ident cols -> stands env refs cols row cells ->
  let '(id, n) := row_get_identity cols gen refs row next in
  agrees cols refs row id (given env cols cells) ->
  new_row gen cols env cells next = (made cols refs id (gen_row row cols row), n).
Proof.
  intros gen cols env refs row cells next O [M [L _]].
  pose proof (number_num gen cols refs row _ next O L M) as N.
  destruct (row_get_identity cols gen refs row next) as [id n].
  intros A. unfold new_row. rewrite N.
  now rewrite (made_generate refs id row _ cols row _ M L A).
Qed.

(** *** when expressions agree *)
Lemma deref_noref : forall refs v, no_ref v = true -> deref refs v = v.
Proof. now intros refs [| |]. Qed.

Lemma eval_noref : forall e row, forallb no_ref row = true -> no_ref (eval row e) = true.
Proof.
  induction e; intros row H; cbn [eval].
  - reflexivity.
  - destruct (Nat.lt_ge_cases i (length row)) as [I|I].
    + rewrite forallb_forall in H. apply H. now apply nth_In.
    + now rewrite nth_overflow.
  - destruct (_ || _); reflexivity.
Qed.

Lemma nth_map_value : forall i vals, nth i (map value_of vals) VNull = value_of (nth i vals None).
Proof. intros. exact (map_nth value_of vals None i). Qed.

Lemma eval_value : forall e vals, eval (map value_of vals) e = value_of (value_in vals e).
Proof.
  induction e; intros vals; cbn [eval value_in].
  - reflexivity.
  - apply nth_map_value.
  - rewrite IHe1, IHe2. now destruct (value_in vals e1), (value_in vals e2).
Qed.

Lemma value_in_ext : forall e r r',
  (forall i, In i (reads e) -> nth i r None = nth i r' None) -> value_in r e = value_in r' e.
Proof.
  induction e; intros r r' H; cbn [value_in reads] in *.
  - reflexivity.
  - apply H. now left.
  - rewrite (IHe1 r r'), (IHe2 r r'); [reflexivity| |]; intros; apply H, in_or_app; auto.
Qed.

Lemma num_nth : forall cols id vals i c,
  length vals = length cols -> nth_error cols i = Some c -> c_ident c = false ->
  nth i (num cols id vals) None = nth i vals None.
Proof.
  induction cols as [|d cols IH]; intros id vals i c L N I.
  - now destruct i.
  - destruct vals as [|v vals]; [discriminate|]. injection L as L.
    unfold num in *. cbn [combine map]. destruct i; cbn [nth nth_error] in *.
    + injection N as ->. now rewrite I.
    + now apply IH with c.
Qed.

Lemma num_length : forall cols id vals, length vals = length cols -> length (num cols id vals) = length cols.
Proof. intros. unfold num. rewrite map_length, combine_length. lia. Qed.

Lemma given_length : forall env cols cells, length cells = length cols -> length (given env cols cells) = length cols.
Proof.
  induction cols as [|c cols IH]; intros [|g cells] L; cbn [length] in L; try discriminate; [reflexivity|].
  cbn [given length]. f_equal. apply IH. lia.
Qed.

Lemma agrees_none : forall cols refs row id vals,
  (forall c, In c cols -> c_stored c = None) -> agrees cols refs row id vals.
Proof. intros cols refs row id vals H c e I E. rewrite (H c I) in E. discriminate. Qed.

Lemma agrees_plain : forall cols refs row id vals,
  map (deref refs) row = map value_of vals -> length row = length cols ->
  forallb no_ref row = true -> plain_generated cols -> generated_not_ident cols ->
  agrees cols refs row id vals.
Proof.
  intros cols refs row id vals M L N P G c e I E. split; [now apply (G c e)|].
  assert (R : row = map value_of vals).
  { rewrite <- M. symmetry. erewrite map_ext_in; [apply map_id|].
    intros v Iv. apply deref_noref. rewrite forallb_forall in N. now apply N. }
  rewrite deref_noref by now apply eval_noref.
  rewrite R at 1. rewrite eval_value. f_equal. apply value_in_ext. intros i Hi.
  assert (Lv : length vals = length cols) by (rewrite <- L, R, map_length; reflexivity).
  destruct (nth_error cols i) as [d|] eqn:Nd.
  - destruct (P c e i d I E Hi Nd) as [_ D]. symmetry. now apply num_nth with d.
  - apply nth_error_None in Nd. rewrite !nth_overflow; [reflexivity| |lia]. rewrite num_length; lia.
Qed.

(** ** keys *)
Lemma made_nth : forall cols refs id row k c,
  length row = length cols -> nth_error cols k = Some c ->
  nth k (made cols refs id row) None =
  let v := if c_ident c then VInt id else deref refs (nth k row VNull) in
  if is_null v then None else Some (integer v).
Proof.
  induction cols as [|d cols IH]; intros refs id row k c L N.
  - now destruct k.
  - destruct row as [|r row]; [discriminate|]. injection L as L.
    unfold made in *. cbn [combine map]. destruct k; cbn [nth nth_error] in *.
    + now injection N as ->.
    + now apply IH.
Qed.

(** an identity column that has a value has the row's identity *)
Definition ident_ok (cols : list column) (refs row : list value) (id : Z) : Prop :=
  forall k c, nth_error cols k = Some c -> c_ident c = true ->
    deref refs (nth k row VNull) = VNull \/ deref refs (nth k row VNull) = VInt id \/
    exists n, deref refs (nth k row VNull) = VRef n /\ Z.of_nat n = id.

Lemma find_ident_nth : forall cols k c,
  one_ident cols -> nth_error cols k = Some c -> c_ident c = true -> find_ident cols = Some k.
Proof.
  unfold one_ident. induction cols as [|d cols IH]; intros k c O N I.
  - now destruct k.
  - cbn [find_ident filter] in *. destruct k; cbn [nth_error] in N.
    + injection N as ->. now rewrite I.
    + destruct (c_ident d) eqn:E.
      * cbn [length] in O. apply nth_error_In in N.
        assert (F : In c (filter c_ident cols)) by now apply filter_In.
        destruct (filter c_ident cols); [destruct F|cbn in O; lia].
      * now rewrite (IH k c O N I).
Qed.

Lemma identity_ok : forall cols gen refs row next,
  one_ident cols -> ident_ok cols refs row (fst (row_get_identity cols gen refs row next)).
Proof.
  intros cols gen refs row next O k c N I.
  unfold row_get_identity. rewrite (find_ident_nth _ _ _ O N I).
  destruct (deref refs (nth k row VNull)) eqn:E; cbn [is_null fst integer]; eauto.
Qed.

Lemma key_value_made : forall cols refs row id k,
  length row = length cols -> ident_ok cols refs row id ->
  (exists c, nth_error cols k = Some c) ->
  key_value cols refs row id k =
  match nth k (made cols refs id row) None with Some z => Ok z | None => UB end.
Proof.
  intros cols refs row id k L I [c N].
  rewrite (made_nth _ _ _ _ _ _ L N). unfold key_value. rewrite N. cbv zeta.
  destruct (c_ident c) eqn:E; cbn [is_null integer].
  - destruct (I k c N E) as [H|[H|[n [H1 H2]]]]; rewrite ?H, ?H1; cbn [is_null integer]; congruence.
  - destruct (is_null _); reflexivity.
Qed.

Lemma key_values_made : forall cols refs row id keys,
  length row = length cols -> ident_ok cols refs row id ->
  (forall k, In k keys -> exists c, nth_error cols k = Some c) ->
  match key_values cols refs row id keys with
  | Ok ks => ks = key_of keys (made cols refs id row)
  | Err => False
  | UB => exists k, In k keys /\ nth k (made cols refs id row) None = None
  end.
Proof.
  intros cols refs row id keys L I. induction keys as [|k keys IH]; intros H.
  - reflexivity.
  - cbn [key_values]. rewrite (key_value_made _ _ _ _ _ L I (H k (or_introl eq_refl))).
    specialize (IH (fun k' J => H k' (or_intror J))).
    destruct (nth k (made cols refs id row) None) eqn:E; cbn [bind].
    + destruct (key_values cols refs row id keys) as [ks| |]; cbn [bind].
      * subst. unfold key_of. cbn [map]. now rewrite E.
      * exact IH.
      * destruct IH as [k' [J K]]. exists k'. split; [now right|exact K].
    + exists k. split; [now left|exact E].
Qed.

(** ** grouping rows into requests *)
Definition args_of (p : nat) (reqs : list req) : list (nat * Z) :=
  flat_map (fun q => if Nat.eqb (q_part q) p then q_args q else []) reqs.

Lemma args_of_none : forall p reqs, ~ In p (map q_part reqs) -> args_of p reqs = [].
Proof.
  induction reqs as [|q reqs IH]; intros H; [reflexivity|].
  unfold args_of in *. cbn [flat_map map] in *.
  destruct (Nat.eqb_spec (q_part q) p) as [E|E].
  - exfalso. apply H. now left.
  - cbn [app]. apply IH. intros I. apply H. now right.
Qed.

Lemma req_add_parts : forall p refs a reqs,
  map q_part (req_add p refs a reqs) =
  if existsb (Nat.eqb p) (map q_part reqs) then map q_part reqs else map q_part reqs ++ [p].
Proof.
  induction reqs as [|q reqs IH]; [reflexivity|].
  cbn [req_add map existsb]. rewrite (Nat.eqb_sym p (q_part q)).
  destruct (Nat.eqb_spec (q_part q) p) as [E|E]; cbn [map orb].
  - cbn [q_part]. now rewrite E.
  - rewrite IH. now destruct (existsb _ _).
Qed.

Lemma req_add_nodup : forall p refs a reqs,
  NoDup (map q_part reqs) -> NoDup (map q_part (req_add p refs a reqs)).
Proof.
  intros p refs a reqs H. rewrite req_add_parts.
  destruct (existsb (Nat.eqb p) (map q_part reqs)) eqn:E; [exact H|].
  assert (N : ~ In p (map q_part reqs)).
  { intros I. assert (T : existsb (Nat.eqb p) (map q_part reqs) = true).
    { apply existsb_exists. exists p. split; [exact I|apply Nat.eqb_refl]. }
    congruence. }
  clear E. induction (map q_part reqs) as [|x l IHl]; cbn [app].
  - constructor; [easy|constructor].
  - apply NoDup_cons_iff in H. destruct H as [H1 H2].
    apply NoDup_cons_iff. split.
    + rewrite in_app_iff. cbn [In]. intros [J|[J|[]]]; [easy|]. subst. apply N. now left.
    + apply IHl; [exact H2|]. intros J. apply N. now right.
Qed.

Lemma req_add_args : forall p refs a reqs p',
  NoDup (map q_part reqs) ->
  args_of p' (req_add p refs a reqs) = args_of p' reqs ++ (if Nat.eqb p p' then [a] else []).
Proof.
  intros p refs a. induction reqs as [|q reqs IH]; intros p' H.
  - unfold args_of. cbn [req_add flat_map q_part q_args]. now rewrite app_nil_r.
  - cbn [map] in H. apply NoDup_cons_iff in H. destruct H as [H1 H2].
    cbn [req_add]. destruct (Nat.eqb_spec (q_part q) p) as [E|E].
    + unfold args_of. cbn [flat_map q_part q_args]. fold (args_of p' reqs). rewrite E.
      destruct (Nat.eqb_spec p p') as [F|F].
      * subst p'. rewrite E in H1. rewrite (args_of_none _ _ H1), !app_nil_r. reflexivity.
      * now rewrite app_nil_r.
    + unfold args_of. cbn [flat_map]. fold (args_of p' (req_add p refs a reqs)). fold (args_of p' reqs).
      rewrite (IH p' H2). now rewrite app_assoc.
Qed.

Lemma req_add_refs : forall p refs a reqs,
  Forall (fun q => q_refs q = refs) reqs -> Forall (fun q => q_refs q = refs) (req_add p refs a reqs).
Proof.
  induction reqs as [|q reqs IH]; intros H; cbn [req_add].
  - now constructor.
  - apply Forall_cons_iff in H. destruct H as [H1 H2].
    destruct (Nat.eqb _ _); constructor; auto.
Qed.

(** ** the statement executed once *)
Section Run.
Variable cols : list column.
Variable keys : list nat.
Variable gen : nat -> Z.
Variable part_of : list Z -> nat.
Hypothesis Hone : one_ident cols.
Hypothesis Hkeys : keys_ok cols keys.
Hypothesis Hni : generated_not_ident cols.

Definition g (r : list value) : list value := gen_row r cols r.

Lemma g_length : forall r, length r = length cols -> length (g r) = length cols.
Proof. intros. now apply gen_row_length. Qed.

Lemma g_identity : forall refs r next, length r = length cols ->
  row_get_identity cols gen refs (g r) next = row_get_identity cols gen refs r next.
Proof.
  intros refs r next L. unfold row_get_identity.
  destruct (find_ident cols) as [i|] eqn:F; [|reflexivity].
  assert (E : exists c, nth_error cols i = Some c /\ c_ident c = true).
  { clear - F. revert i F. induction cols as [|c l IH]; intros i F; [discriminate|].
    cbn [find_ident] in F. destruct (c_ident c) eqn:E.
    - injection F as <-. exists c. now split.
    - destruct (find_ident l); [|discriminate]. injection F as <-. cbn [nth_error]. now apply IH. }
  destruct E as [c [N I]].
  unfold g. rewrite (gen_row_nth _ _ _ _ _ L N).
  destruct (c_stored c) as [e|] eqn:S; [|reflexivity].
  rewrite (Hni c e (nth_error_In _ _ N) S) in I. discriminate.
Qed.

(** a row of the set, after its stored columns are written, for a row of VALUES *)
Definition ready (env : nat -> option Z) (refs : list value) (row : list value) (cells : list cell) : Prop :=
  exists r0, row = g r0 /\ stands env refs cols r0 cells /\
    forall id, agrees cols refs r0 id (given env cols cells).

Lemma ready_row : forall env refs row cells next,
  ready env refs row cells ->
  length row = length cols /\
  let '(id, n) := row_get_identity cols gen refs row next in
  new_row gen cols env cells next = (made cols refs id row, n).
Proof.
  intros env refs row cells next [r0 [-> [S A]]].
  pose proof S as [_ [L _]]. split; [now apply g_length|].
  rewrite (g_identity _ _ _ L).
  pose proof (row_meaning gen cols env refs r0 cells next Hone S) as R.
  destruct (row_get_identity cols gen refs r0 next) as [id n]. apply R, A.
Qed.

Definition mk (full : list (list value)) (refs : list value) (a : nat * Z) : list (option Z) :=
  made cols refs (snd a) (nth (fst a) full []).

Definition bounded (n : nat) (q : req) : Prop := Forall (fun a : nat * Z => fst a < n) (q_args q).

Lemma req_add_bounded : forall n p refs a reqs,
  Forall (bounded n) reqs -> fst a < n -> Forall (bounded n) (req_add p refs a reqs).
Proof.
  induction reqs as [|q reqs IH]; intros H Ha; cbn [req_add].
  - constructor; [|constructor]. constructor; [exact Ha|constructor].
  - apply Forall_cons_iff in H. destruct H as [H1 H2].
    destruct (Nat.eqb _ _); constructor; auto.
    unfold bounded. cbn [q_args]. apply Forall_app. split; [exact H1|]. constructor; [exact Ha|constructor].
Qed.

Lemma send_rows_ok : forall env refs set rows pre next reqs P,
  p_cols P = cols -> p_keys P = keys ->
  Forall2 (ready env refs) set rows ->
  NoDup (map q_part reqs) -> Forall (fun q => q_refs q = refs) reqs ->
  Forall (bounded (length (pre ++ set))) reqs ->
  match send_rows P gen part_of refs set (length pre) next reqs with
  | Ok (reqs', next') =>
    next' = snd (new_rows gen cols env rows next) /\
    NoDup (map q_part reqs') /\ Forall (fun q => q_refs q = refs) reqs' /\
    Forall (bounded (length (pre ++ set))) reqs' /\
    forall p, map (mk (pre ++ set) refs) (args_of p reqs') =
              map (mk (pre ++ set) refs) (args_of p reqs) ++
              of_part part_of keys p (fst (new_rows gen cols env rows next))
  | Err => False
  | UB => exists row k, In row (fst (new_rows gen cols env rows next)) /\ In k keys /\ nth k row None = None
  end.
Proof.
  intros env refs. induction set as [|row set IH]; intros rows pre next reqs P Pc Pk F D R B.
  - inversion F; subst. cbn [send_rows new_rows fst snd]. repeat (split; [easy|]).
    intros p. unfold of_part. cbn [filter]. symmetry. apply app_nil_r.
  - inversion F as [|r0 cells s0 rows' Hr Hs E1 E2]; subst rows. clear F.
    cbn [send_rows]. rewrite Pc, Pk.
    destruct (ready_row env refs row cells next Hr) as [L M].
    pose proof (identity_ok cols gen refs row next Hone) as IO.
    destruct (row_get_identity cols gen refs row next) as [id next1]. cbn [fst] in IO.
    assert (Kc : forall k, In k keys -> exists c, nth_error cols k = Some c).
    { intros k I. destruct (Hkeys k I) as [c [N _]]. now exists c. }
    pose proof (key_values_made cols refs row id keys L IO Kc) as K.
    cbn [new_rows]. rewrite M.
    destruct (key_values cols refs row id keys) as [ks| |]; cbn [bind].
    + specialize (IH rows' (pre ++ [row]) next1 (req_add (part_of ks) refs (length pre, id) reqs) P Pc Pk Hs).
      replace (length (pre ++ [row])) with (S (length pre)) in IH
        by (rewrite app_length; cbn [length]; lia).
      rewrite <- app_assoc in IH. cbn [app] in IH.
      specialize (IH (req_add_nodup _ _ _ _ D) (req_add_refs _ _ _ _ R)).
      assert (Ha : fst (length pre, id) < length (pre ++ row :: set)).
      { rewrite app_length. cbn [fst length]. lia. }
      specialize (IH (req_add_bounded _ _ _ _ _ B Ha)).
      destruct (new_rows gen cols env rows' next1) as [xs n2]. cbn [fst snd] in *.
      destruct (send_rows P gen part_of refs set (S (length pre)) next1 _) as [[reqs' next']| |].
      * destruct IH as [I1 [I2 [I3 [I4 I5]]]]. repeat (split; [easy|]).
        intros p. rewrite I5, (req_add_args _ _ _ _ _ D), map_app, <- app_assoc. f_equal.
        unfold of_part. cbn [filter]. rewrite <- K.
        destruct (Nat.eqb (part_of ks) p); cbn [map app]; [|reflexivity].
        unfold mk at 1. cbn [fst snd]. rewrite app_nth2, Nat.sub_diag by lia. reflexivity.
      * exact IH.
      * destruct IH as [r [k [I J]]]. exists r, k. split; [now right|exact J].
    + exact K.
    + destruct K as [k [I J]]. destruct (new_rows gen cols env rows' next1) as [xs n2].
      exists (made cols refs id row), k. cbn [fst]. repeat split; [now left|exact I|exact J].
Qed.

(** ** histories *)
Variable rows : list (list cell).
Variable P : prog.
Hypothesis Hcompile : compile cols keys rows = Ok P.
Hypothesis Hplain : plain cols rows.

Lemma compile_parse : p_cols P = cols /\ p_keys P = keys /\ parse_rows cols rows [] = Ok (p_set P, p_refs P).
Proof.
  unfold compile in Hcompile. destruct (parse_rows cols rows []) as [[s r]| |]; cbn [bind] in Hcompile; try discriminate.
  injection Hcompile as <-. now repeat split.
Qed.

Definition G : list (list value) := map g (p_set P).

Lemma set_stands : forall env, Forall2 (stands env (ref_values env (p_refs P)) cols) (p_set P) rows.
Proof. intros. destruct compile_parse as [_ [_ H]]. exact (parse_rows_value env _ _ _ _ _ H). Qed.

Lemma set_lengths : Forall (fun r => length r = length cols) (p_set P).
Proof.
  pose proof (set_stands (fun _ => None)) as H.
  clear Hcompile Hplain. induction H as [|r c s cs H1 H2 IH]; [constructor|].
  constructor; [|exact IH]. destruct H1 as [_ [L _]]. exact L.
Qed.

Lemma set_agrees : forall env, Forall2 (ready env (ref_values env (p_refs P))) G rows.
Proof.
  intros env. pose proof (set_stands env) as S. unfold G.
  destruct Hplain as [N|[V [Pg Ni]]].
  - clear Hcompile Hplain. induction S as [|r c s cs H1 H2 IH]; [constructor|]. cbn [map]. constructor; [|exact IH].
    exists r. split; [reflexivity|]. split; [exact H1|]. intros. now apply agrees_none.
  - destruct compile_parse as [_ [_ Hp]].
    destruct (parse_rows_novar _ _ _ _ _ Hp V) as [_ Nr].
    clear Hp V Hcompile Hplain. induction S as [|r c s cs H1 H2 IH]; [constructor|]. cbn [map]. constructor.
    + exists r. split; [reflexivity|]. split; [exact H1|]. intros.
      apply Forall_cons_iff in Nr. destruct Nr as [Nr _].
      destruct H1 as [M [L _]]. now apply agrees_plain.
    + apply IH. now apply Forall_cons_iff in Nr.
Qed.

Lemma G_idem : map g G = G.
Proof.
  unfold G. rewrite map_map. apply map_ext_in. intros r I.
  pose proof set_lengths as L. rewrite Forall_forall in L. specialize (L r I).
  destruct Hplain as [N|[_ [Pg _]]].
  - unfold g. rewrite (gen_row_none _ _ (gen_row r cols r)); auto. now apply gen_row_length.
  - exact (gen_row_idem cols r L Pg).
Qed.

Lemma G_lengths : Forall (fun r => length r = length cols) G.
Proof.
  unfold G. apply Forall_map. eapply Forall_impl; [|exact set_lengths]. intros. now apply g_length.
Qed.

(** the stack when the rows are sent: the references are on top of it *)
Lemma refs_on_top : forall env s s1 set set1 s2,
  push_refs env (p_refs P) s = Ok s1 -> insert_store cols set s1 = (set1, s2) ->
  stack_at s2 (length (p_refs P)) = ref_values env (p_refs P).
Proof.
  intros env s s1 set set1 s2 H H2.
  apply push_refs_ok in H. subst s1.
  destruct Hplain as [N|[V _]].
  - unfold insert_store in H2. destruct (stored cols) eqn:E.
    + injection H2 as <- <-.
      replace (length (p_refs P)) with (length (ref_values env (p_refs P)))
        by (unfold ref_values; apply map_length).
      apply stack_at_app.
    + unfold stored in E. assert (E0 : stored_from 0 cols = []) by now apply stored_from_none.
      rewrite E0 in E. discriminate.
  - destruct compile_parse as [_ [_ Hp]].
    destruct (parse_rows_novar _ _ _ _ _ Hp V) as [-> _].
    unfold stack_at, ref_values. cbn [length map]. now rewrite Nat.sub_0_r, skipn_all.
Qed.

Definition pend (p : nat) (queue : list req) : list (list (option Z)) :=
  flat_map (fun q => if Nat.eqb (q_part q) p then map (mk G (q_refs q)) (q_args q) else []) queue.

Definition inv (x : st) (done : list (list (option Z))) (n : nat) : Prop :=
  (s_set x = p_set P \/ s_set x = G) /\
  (s_queue x <> [] -> s_set x = G) /\
  Forall (bounded (length G)) (s_queue x) /\
  s_next x = n /\
  forall p, inserted p x ++ pend p (s_queue x) = of_part part_of keys p done.

Lemma inv_init : forall vars, inv (init P vars) [] 0.
Proof.
  intros. unfold inv, init, inserted, pend, of_part. cbn. repeat split; auto; try easy.
Qed.

Lemma pend_app : forall p a b, pend p (a ++ b) = pend p a ++ pend p b.
Proof. intros. unfold pend. apply flat_map_app. Qed.

Lemma pend_reqs : forall p refs reqs, Forall (fun q => q_refs q = refs) reqs ->
  pend p reqs = map (mk G refs) (args_of p reqs).
Proof.
  intros p refs. induction reqs as [|q reqs IH]; intros H; [reflexivity|].
  apply Forall_cons_iff in H. destruct H as [H1 H2].
  unfold pend, args_of in *. cbn [flat_map]. rewrite map_app, (IH H2).
  f_equal. destruct (Nat.eqb _ _); [now rewrite H1|reflexivity].
Qed.

Lemma of_part_app : forall p a b, of_part part_of keys p (a ++ b) = of_part part_of keys p a ++ of_part part_of keys p b.
Proof. intros. unfold of_part. apply filter_app. Qed.

Lemma run_inv : forall env x done n,
  inv x done n ->
  match run_insert P gen part_of env x with
  | Ok y => inv y (done ++ fst (new_rows gen cols env rows n)) (snd (new_rows gen cols env rows n))
  | Err => push_refs env (p_refs P) (s_stack x) = Err
  | UB => exists row k, In row (fst (new_rows gen cols env rows n)) /\ In k keys /\ nth k row None = None
  end.
Proof.
  intros env x done n [Hs [Hq [Hb [Hn Ho]]]].
  unfold run_insert. destruct compile_parse as [Pc [Pk _]].
  destruct (push_refs env (p_refs P) (s_stack x)) as [s1| |] eqn:E; cbn [bind].
  2: { reflexivity. }
  2: { exfalso. clear - E. revert E. generalize (s_stack x). induction (p_refs P) as [|[v nn] l IH]; intros s E;
       cbn [push_refs] in E; [discriminate|]. destruct (nn && _); [discriminate|]. now apply IH in E. }
  rewrite Pc.
  destruct (insert_store cols (s_set x) s1) as [set1 s2] eqn:I.
  rewrite (refs_on_top _ _ _ _ _ _ E I).
  assert (S1 : set1 = G).
  { assert (L : Forall (fun r => length r = length cols) (s_set x)).
    { destruct Hs as [->| ->]; [exact set_lengths|exact G_lengths]. }
    pose proof (insert_store_set cols (s_set x) s1 L) as J. rewrite I in J. cbn [fst] in J. subst set1.
    destruct Hs as [->| ->]; [reflexivity|exact G_idem]. }
  subst set1. rewrite Hn.
  pose proof (send_rows_ok env (ref_values env (p_refs P)) G rows [] n [] P Pc Pk (set_agrees env)
                (NoDup_nil _) (Forall_nil _) (Forall_nil _)) as SR.
  cbn [length app] in SR.
  destruct (send_rows P gen part_of _ G 0 n []) as [[reqs' next']| |]; cbn [bind].
  - destruct SR as [S2 [_ [S3 [S4 S5]]]].
    split; [now right|]. split; [easy|]. cbn [s_set s_queue s_next s_out].
    split; [now apply Forall_app|]. split; [exact S2|].
    intros p. rewrite pend_app, app_assoc, of_part_app.
    unfold inserted in *. cbn [s_out]. rewrite (Ho p). f_equal.
    rewrite (pend_reqs _ _ _ S3). rewrite (S5 p). reflexivity.
  - destruct SR.
  - exact SR.
Qed.

Lemma take_req_spec : forall p queue q rest,
  take_req p queue = Some (q, rest) ->
  q_part q = p /\ In q queue /\
  (forall p', pend p' queue = (if Nat.eqb p p' then map (mk G (q_refs q)) (q_args q) else []) ++ pend p' rest) /\
  (forall Q : req -> Prop, Forall Q queue -> Forall Q rest).
Proof.
  intros p. induction queue as [|q0 queue IH]; intros q rest H; [discriminate|].
  cbn [take_req] in H. destruct (Nat.eqb_spec (q_part q0) p) as [E|E].
  - injection H as <- <-. split; [exact E|]. split; [now left|]. split.
    + intros p'. unfold pend. cbn [flat_map]. now rewrite E.
    + intros Q F. now apply Forall_cons_iff in F.
  - destruct (take_req p queue) as [[q1 rest1]|]; [|discriminate]. injection H as <- <-.
    destruct (IH _ _ eq_refl) as [H1 [H2 [H3 H4]]].
    split; [exact H1|]. split; [now right|]. split.
    + intros p'. unfold pend. cbn [flat_map]. fold (pend p' queue) (pend p' rest1). rewrite H3.
      destruct (Nat.eqb_spec p p') as [F|F].
      * subst p'. destruct (Nat.eqb_spec (q_part q0) p) as [C|_]; [contradiction|]. reflexivity.
      * reflexivity.
    + intros Q F. apply Forall_cons_iff in F. destruct F as [F1 F2]. constructor; auto.
Qed.

Lemma create_rows_mk : forall refs args,
  Forall (fun a : nat * Z => fst a < length G) args ->
  create_rows cols G refs args =
  if forallb (not_null_ok cols) (map (mk G refs) args) then Ok (map (mk G refs) args) else Err.
Proof.
  intros refs. induction args as [|[i id] args IH]; intros H; [reflexivity|].
  apply Forall_cons_iff in H. destruct H as [H1 H2].
  cbn [create_rows map forallb]. cbn [fst] in H1.
  assert (L : length (nth i G []) = length cols).
  { pose proof G_lengths as L. rewrite Forall_forall in L. apply L. now apply nth_In. }
  rewrite (row_create_made _ _ _ _ L). unfold mk at 1 3. cbn [fst snd].
  rewrite (IH H2).
  destruct (not_null_ok cols (made cols refs id (nth i G []))); cbn [bind andb]; [|reflexivity].
  destruct (forallb _ _); reflexivity.
Qed.

Lemma take_req_none : forall p queue, take_req p queue = None -> pend p queue = [].
Proof.
  induction queue as [|q queue IH]; intros H; [reflexivity|].
  cbn [take_req] in H. unfold pend. cbn [flat_map]. destruct (Nat.eqb (q_part q) p); [discriminate|].
  apply IH. destruct (take_req p queue) as [[]|]; [discriminate|reflexivity].
Qed.

Lemma deliver_inv : forall p x done n,
  inv x done n ->
  match deliver P p x with
  | Ok y => inv y done n
  | Err => exists row, In row done /\ not_null_ok cols row = false
  | UB => False
  end.
Proof.
  intros p x done n HI. pose proof HI as [Hs [Hq [Hb [Hn Ho]]]].
  unfold deliver. destruct (take_req p (s_queue x)) as [[q rest]|] eqn:T; [|exact HI].
  destruct (take_req_spec _ _ _ _ T) as [T1 [T2 [T3 T4]]].
  destruct compile_parse as [Pc _]. rewrite Pc.
  assert (SG : s_set x = G) by (apply Hq; intros E; rewrite E in T2; destruct T2).
  rewrite SG. pose proof Hb as Hb'. rewrite Forall_forall in Hb'.
  rewrite (create_rows_mk _ _ (Hb' q T2)).
  destruct (forallb (not_null_ok cols) (map (mk G (q_refs q)) (q_args q))) eqn:F; cbn [bind].
  - split; [now right|]. split; [easy|]. cbn [s_set s_queue s_next s_out].
    split; [now apply T4|]. split; [exact Hn|].
    intros p'. rewrite <- (Ho p'). rewrite T3. unfold inserted. cbn [s_out].
    rewrite filter_app, map_app, <- app_assoc. f_equal. f_equal.
    clear. induction (map (mk G (q_refs q)) (q_args q)) as [|r l IH]; cbn [map filter];
      destruct (Nat.eqb p p') eqn:E; cbn [map]; try rewrite IH; reflexivity.
  - assert (X : exists row, In row (map (mk G (q_refs q)) (q_args q)) /\ not_null_ok cols row = false).
    { clear - F. induction (map (mk G (q_refs q)) (q_args q)) as [|r l IH]; [discriminate|].
      cbn [forallb] in F. apply andb_false_iff in F. destruct F as [F|F].
      - exists r. split; [now left|exact F].
      - destruct (IH F) as [r' [I J]]. exists r'. split; [now right|exact J]. }
    destruct X as [row [I J]]. exists row. split; [|exact J].
    assert (K : In row (of_part part_of keys p done)).
    { rewrite <- Ho, T3, Nat.eqb_refl. apply in_or_app. right. apply in_or_app. now left. }
    unfold of_part in K. now apply filter_In in K.
Qed.

Lemma steps_ok : forall steps x done n y,
  inv x done n -> run_steps P gen part_of steps x = Ok y ->
  exists n', inv y (done ++ all_rows gen cols rows steps n) n'.
Proof.
  induction steps as [|[env|p] steps IH]; intros x done n y HI H; cbn [run_steps all_rows] in *.
  - injection H as <-. exists n. now rewrite app_nil_r.
  - pose proof (run_inv env x done n HI) as R.
    destruct (run_insert P gen part_of env x) as [z| |]; cbn [bind] in H; try discriminate.
    destruct (new_rows gen cols env rows n) as [xs n1]. cbn [fst snd] in R.
    destruct (IH _ _ _ _ R H) as [n' I]. exists n'. now rewrite app_assoc.
  - pose proof (deliver_inv p x done n HI) as R.
    destruct (deliver P p x) as [z| |]; cbn [bind] in H; try discriminate.
    exact (IH _ _ _ _ R H).
Qed.

(** no error without a reason *)
Lemma parse_row_vars : forall env cs cells refs row refs' s,
  parse_row cs cells refs = Ok (row, refs') -> vars_ok env cs cells ->
  (exists s', push_refs env refs s = Ok s') -> exists s', push_refs env refs' s = Ok s'.
Proof.
  intros env. induction cs as [|c cs IH]; intros [|gc cells] refs row refs' s H V E; cbn [parse_row] in H;
    try discriminate.
  - now injection H as _ <-.
  - destruct (parse_value c gc refs) as [v refs1] eqn:Ev.
    destruct (parse_validate c v); [|discriminate].
    destruct (parse_row cs cells refs1) as [[row1 refs2]| |] eqn:E1; cbn [bind] in H; try discriminate.
    injection H as _ <-. cbn [vars_ok] in V. destruct V as [V1 V2].
    apply (IH _ _ _ _ s E1 V2).
    destruct gc; cbn [parse_value] in Ev; injection Ev as _ <-; [exact E| |exact E].
    destruct E as [s' E]. clear - E V1. revert s s' E.
    induction refs as [|[y ny] refs IHr]; intros s s' E; cbn [push_refs app] in *.
    + destruct (c_notnull c); cbn [andb]; [|eauto].
      destruct (env x) as [z|] eqn:Ex; cbn [value_of is_null]; [eauto|].
      exfalso. now apply V1.
    + destruct (ny && _); [discriminate|]. now apply IHr with s'.
Qed.

Lemma parse_rows_vars : forall env rs refs set refs' s,
  parse_rows cols rs refs = Ok (set, refs') -> (forall r, In r rs -> vars_ok env cols r) ->
  (exists s', push_refs env refs s = Ok s') -> exists s', push_refs env refs' s = Ok s'.
Proof.
  intros env. induction rs as [|r rs IH]; intros refs set refs' s H V E; cbn [parse_rows] in H.
  - now injection H as _ <-.
  - destruct (parse_row cols r refs) as [[row refs1]| |] eqn:E0; cbn [bind] in H; try discriminate.
    destruct (parse_rows cols rs refs1) as [[set1 refs2]| |] eqn:E1; cbn [bind] in H; try discriminate.
    injection H as _ <-.
    apply (IH _ _ _ s E1); [intros; apply V; now right|].
    apply (parse_row_vars env _ _ _ _ _ s E0); [apply V; now left|exact E].
Qed.

Lemma not_null_nth : forall cs row k c,
  not_null_ok cs row = true -> nth_error cs k = Some c -> c_notnull c = true ->
  length row = length cs -> nth k row None <> None.
Proof.
  induction cs as [|d cs IH]; intros row k c H N C L.
  - now destruct k.
  - destruct row as [|v row]; [discriminate|]. cbn [not_null_ok] in H.
    apply andb_true_iff in H. destruct H as [H1 H2]. injection L as L.
    destruct k; cbn [nth nth_error] in *.
    + injection N as ->. rewrite C in H1. destruct v; [discriminate|discriminate H1].
    + now apply IH with c.
Qed.

Lemma number_length : forall cs vals n, length vals = length cs -> length (fst (number gen cs vals n)) = length cs.
Proof.
  induction cs as [|c cs IH]; intros [|v vals] n L; cbn [length] in L; try discriminate; [reflexivity|].
  cbn [number]. injection L as L.
  destruct v; [|destruct (c_ident c)];
  (match goal with |- context [number gen cs vals ?m] => specialize (IH vals m L);
     destruct (number gen cs vals m) end; cbn [fst length] in *; now rewrite IH).
Qed.

Lemma generate_length : forall src cs vals, length vals = length cs -> length (generate src cs vals) = length cs.
Proof.
  induction cs as [|c cs IH]; intros [|v vals] L; cbn [length] in L; try discriminate; [reflexivity|].
  cbn [generate length]. f_equal. apply IH. lia.
Qed.

Lemma new_rows_length : forall env rs n row,
  (forall r, In r rs -> length r = length cols) ->
  In row (fst (new_rows gen cols env rs n)) -> length row = length cols.
Proof.
  intros env. induction rs as [|r rs IH]; intros n row L I; [destruct I|].
  cbn [new_rows] in I. unfold new_row in I.
  pose proof (number_length cols (given env cols r) n (given_length env cols r (L r (or_introl eq_refl)))) as NL.
  destruct (number gen cols (given env cols r) n) as [vals n1]. cbn [fst] in NL.
  specialize (IH n1 row (fun r' J => L r' (or_intror J))).
  destruct (new_rows gen cols env rs n1) as [xs n2]. cbn [fst In] in *.
  destruct I as [<-|I]; [now apply generate_length|now apply IH].
Qed.

Lemma rows_lengths : forall r, In r rows -> length r = length cols.
Proof.
  pose proof (set_stands (fun _ => None)) as H. intros r I.
  revert r I. clear Hcompile Hplain. induction H as [|x c s cs H1 H2 IH]; intros r I; [destruct I|].
  destruct I as [<-|I]; [|now apply IH]. now destruct H1 as [_ [_ L]].
Qed.

Lemma steps_progress : forall steps x done n,
  inv x done n ->
  (forall row, In row (done ++ all_rows gen cols rows steps n) -> not_null_ok cols row = true) ->
  (forall env r, In (Run env) steps -> In r rows -> vars_ok env cols r) ->
  exists y, run_steps P gen part_of steps x = Ok y.
Proof.
  induction steps as [|[env|p] steps IH]; intros x done n HI HN HV; cbn [run_steps all_rows] in *.
  - now exists x.
  - pose proof (run_inv env x done n HI) as R.
    pose proof (new_rows_length env rows n) as NL.
    destruct (new_rows gen cols env rows n) as [xs n1]. cbn [fst snd] in *.
    destruct (run_insert P gen part_of env x) as [z| |]; cbn [bind].
    + apply (IH _ _ _ R).
      * intros row I. apply HN. now rewrite app_assoc.
      * intros e r I J. apply HV; [now right|exact J].
    + destruct compile_parse as [_ [_ Hp]].
      destruct (parse_rows_vars env rows [] _ _ (s_stack x) Hp) as [s' E].
      * intros r I. apply HV; [now left|exact I].
      * now exists (s_stack x).
      * rewrite E in R. discriminate.
    + exfalso. destruct R as [row [k [I [J K]]]].
      destruct (Hkeys k J) as [c [N C]].
      refine (not_null_nth cols row k c _ N C _ K).
      * apply HN. apply in_or_app. right. apply in_or_app. now left.
      * exact (NL row rows_lengths I).
  - pose proof (deliver_inv p x done n HI) as R.
    destruct (deliver P p x) as [z| |]; cbn [bind].
    + apply (IH _ _ _ R); [exact HN|]. intros e r I J. apply HV; [now right|exact J].
    + exfalso. destruct R as [row [I J]]. rewrite HN in J; [discriminate|]. apply in_or_app. now left.
    + destruct R.
Qed.

End Run.

(** ** NOT NULL, for every program *)
Lemma row_create_not_null : forall cols refs id row r,
  row_create cols refs id row = Ok r -> not_null_ok cols r = true /\ length r = length cols.
Proof.
  induction cols as [|c cols IH]; intros refs id row r H; cbn [row_create] in H.
  - injection H as <-. now split.
  - destruct (encode c refs id (hd VNull row)) as [z| |] eqn:E; cbn [bind] in H; try discriminate.
    destruct (row_create cols refs id (tl row)) as [r1| |] eqn:E1; cbn [bind] in H; try discriminate.
    injection H as <-. destruct (IH _ _ _ _ E1) as [H1 H2].
    cbn [not_null_ok length]. rewrite H1, H2. split; [|reflexivity]. rewrite andb_true_r.
    unfold encode in E. destruct (is_null _).
    + destruct (c_notnull c); [discriminate|]. reflexivity.
    + injection E as <-. now rewrite andb_false_r.
Qed.

Lemma create_rows_not_null : forall cols set refs args rs,
  create_rows cols set refs args = Ok rs ->
  Forall (fun r => not_null_ok cols r = true /\ length r = length cols) rs.
Proof.
  induction args as [|[i id] args IH]; intros rs H; cbn [create_rows] in H.
  - injection H as <-. constructor.
  - destruct (row_create cols refs id (nth i set [])) as [r| |] eqn:E; cbn [bind] in H; try discriminate.
    destruct (create_rows cols set refs args) as [rs1| |] eqn:E1; cbn [bind] in H; try discriminate.
    injection H as <-. constructor; [exact (row_create_not_null _ _ _ _ _ E)|now apply IH].
Qed.

Lemma steps_not_null : forall P gen part_of steps x y,
  Forall (fun o => not_null_ok (p_cols P) (snd o) = true /\ length (snd o) = length (p_cols P)) (s_out x) ->
  run_steps P gen part_of steps x = Ok y ->
  Forall (fun o => not_null_ok (p_cols P) (snd o) = true /\ length (snd o) = length (p_cols P)) (s_out y).
Proof.
  induction steps as [|[env|p] steps IH]; intros x y F H; cbn [run_steps] in H.
  - now injection H as <-.
  - destruct (run_insert P gen part_of env x) as [z| |] eqn:E; cbn [bind] in H; try discriminate.
    apply (IH z y); [|exact H]. unfold run_insert in E.
    destruct (push_refs _ _ _); cbn [bind] in E; try discriminate.
    destruct (insert_store _ _ _) as [set s2].
    destruct (send_rows _ _ _ _ _ _ _ _) as [[reqs n]| |]; cbn [bind] in E; try discriminate.
    injection E as <-. exact F.
  - destruct (deliver P p x) as [z| |] eqn:E; cbn [bind] in H; try discriminate.
    apply (IH z y); [|exact H]. unfold deliver in E.
    destruct (take_req p (s_queue x)) as [[q rest]|]; [|now injection E as <-].
    destruct (create_rows _ _ _ _) as [rs| |] eqn:C; cbn [bind] in E; try discriminate.
    injection E as <-. cbn [s_out]. apply Forall_app. split; [exact F|].
    apply Forall_map. cbn [snd]. exact (create_rows_not_null _ _ _ _ _ C).
Qed.
