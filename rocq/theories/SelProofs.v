(** Proofs about SELECT (SelModel.v, SelSpec.v). *)
From Coq Require Import Permutation Sorted.
From Verif Require Import Base TreeSpec UnionModel UnionProofs UnionProps SelModel SelSpec.

(** ** comparisons *)
Section Order.
Context {V : Type} (vnull : V) (vcmp : V -> V -> Z).
Hypothesis KO : key_order vcmp.
Hypothesis TV : three_valued vcmp.

Lemma keys_cmp_three : forall o, three_valued (keys_cmp vnull vcmp o).
Proof.
  intros o a b. revert a b. induction o as [|x o IH]; intros a b; cbn [keys_cmp]; [auto|].
  destruct (Z.eqb_spec (vcmp (hd vnull a) (hd vnull b)) 0); [apply IH|].
  destruct (TV (hd vnull a) (hd vnull b)) as [E|[E|E]]; rewrite E in *; destruct x; lia.
Qed.

Lemma vcmp_zero_l : forall a b c, vcmp a b = 0 -> vcmp a c = vcmp b c.
Proof.
  intros a b c H. destruct KO as [O T].
  assert (Hba : vcmp b a = 0) by (specialize (O a b); rewrite H in O; cbn in O; lia).
  pose proof (T a b c) as T1. pose proof (T b a c) as T2.
  pose proof (T c a b) as T3. pose proof (T c b a) as T4.
  pose proof (O a c) as O1. pose proof (O b c) as O2.
  destruct (TV a c) as [E1|[E1|E1]], (TV b c) as [E2|[E2|E2]]; rewrite ?E1, ?E2 in *; cbn in *; try reflexivity; lia.
Qed.
Lemma vcmp_opp : forall a b, vcmp b a = - vcmp a b.
Proof.
  intros a b. pose proof (ko_opp _ KO a b).
  destruct (TV a b) as [E1|[E1|E1]], (TV b a) as [E2|[E2|E2]]; rewrite E1, E2 in *; cbn in *; lia.
Qed.
Lemma vcmp_zero_r : forall a b c, vcmp b c = 0 -> vcmp a b = vcmp a c.
Proof.
  intros a b c H. rewrite (vcmp_opp b a), (vcmp_opp c a), (vcmp_zero_l b c a H). reflexivity.
Qed.

Lemma keys_cmp_order : forall o, key_order (keys_cmp vnull vcmp o).
Proof.
  intros o. split.
  - induction o as [|x o IH]; intros a b; cbn [keys_cmp]; [reflexivity|].
    rewrite (vcmp_opp (hd vnull a) (hd vnull b)).
    destruct (Z.eqb_spec (vcmp (hd vnull a) (hd vnull b)) 0) as [E|E].
    + rewrite E. cbn [Z.opp Z.eqb]. apply IH.
    + destruct (Z.eqb_spec (- vcmp (hd vnull a) (hd vnull b)) 0); [lia|].
      destruct x; rewrite ?Z.sgn_opp; lia.
  - induction o as [|x o IH]; intros a b c; cbn [keys_cmp]; [lia|].
    set (p := hd vnull a). set (q := hd vnull b). set (r := hd vnull c).
    destruct (Z.eqb_spec (vcmp p q) 0) as [E1|E1].
    + rewrite (vcmp_zero_l p q r E1). destruct (Z.eqb_spec (vcmp q r) 0); [apply IH|auto].
    + destruct (Z.eqb_spec (vcmp q r) 0) as [E2|E2].
      * rewrite <- (vcmp_zero_r p q r E2). destruct (Z.eqb_spec (vcmp p q) 0); [lia|auto].
      * pose proof (ko_trans _ KO p q r) as T1. pose proof (ko_trans _ KO r q p) as T2.
        pose proof (vcmp_opp p q) as O1. pose proof (vcmp_opp q r) as O2. pose proof (vcmp_opp p r) as O3.
        pose proof (ko_trans _ KO q r p) as T3. pose proof (ko_trans _ KO q p r) as T4.
        destruct (TV p q) as [F1|[F1|F1]], (TV q r) as [F2|[F2|F2]], (TV p r) as [F3|[F3|F3]]; destruct x; rewrite ?F1, ?F2, ?F3 in *; cbn in *; lia.
Qed.

Lemma lex_keys : forall o a b, length a = length o -> length b = length o ->
  lex vcmp (map negb o) a b = keys_cmp vnull vcmp o a b.
Proof.
  induction o as [|x o IH]; intros [|p a] [|q b] Ha Hb; cbn in Ha, Hb; try discriminate; [reflexivity|].
  cbn [map lex keys_cmp hd tl]. rewrite IH by lia. destruct (vcmp p q =? 0); [reflexivity|].
  destruct x; reflexivity.
Qed.
Lemma lex_nil : forall a b, length a = length b -> lex vcmp [] a b = keys_cmp vnull vcmp (map (fun _ => true) a) a b.
Proof.
  induction a as [|p a IH]; intros [|q b] H; cbn in H; try discriminate; [reflexivity|].
  cbn [map lex keys_cmp hd tl]. rewrite IH by lia. reflexivity.
Qed.
End Order.

(** ** sequences of instructions *)
Section Run.
Context {V : Type} (vnull : V) (vcmp : V -> V -> Z).
Context (qsort : (list V -> list V -> Z) -> list (list V) -> list (list V)).
Context (src : list (list V)) (replies : list (@store V)) (code : list (@op V)).

Notation run := (exec vnull vcmp qsort src replies code).
Notation step1 := (step vnull vcmp qsort src replies code).

Definition steps (x y : @st V) : Prop := exists n, forall f, run (n + f) x = run f y.
Lemma steps_refl : forall x, steps x x.
Proof. intros x. exists 0%nat. reflexivity. Qed.
Lemma steps_trans : forall x y z, steps x y -> steps y z -> steps x z.
Proof.
  intros x y z [n N] [m M]. exists (n + m)%nat. intros f. rewrite <- Nat.add_assoc, N, M. reflexivity.
Qed.
Lemma steps_one : forall x y, step1 x = Ok (Some y) -> steps x y.
Proof. intros x y H. exists 1%nat. intros f. cbn [Nat.add exec]. rewrite H. reflexivity. Qed.

Definition at_ (p : nat) (l : list (@op V)) : Prop :=
  forall i o, nth_error l i = Some o -> nth_error code (p + i) = Some o.
Lemma at_app : forall p a b, at_ p (a ++ b) -> at_ p a /\ at_ (p + length a) b.
Proof.
  intros p a b H. split; intros i o Hi.
  - apply H. rewrite nth_error_app1; [exact Hi|]. apply nth_error_Some. congruence.
  - rewrite <- Nat.add_assoc. apply H. rewrite nth_error_app2 by lia.
    replace (length a + i - length a)%nat with i by lia. exact Hi.
Qed.
Lemma at_cons : forall p o l, at_ p (o :: l) -> nth_error code p = Some o /\ at_ (S p) l.
Proof.
  intros p o l H. split.
  - specialize (H 0%nat o eq_refl). rewrite Nat.add_0_r in H. exact H.
  - intros i x Hi. replace (S p + i)%nat with (p + S i)%nat by lia. apply H. exact Hi.
Qed.
Lemma at_0 : code = code -> at_ 0 code.
Proof. intros _ i o H. exact H. Qed.

Definition rows_of (s : @store V) (l : list (list V)) : store := mkstore (st_cols s) (st_keys s) (st_order s) l.

Lemma run_pushes : forall es p stack l o r rest set u,
  at_ p (map OPush es) ->
  steps (mkst p stack l o (r :: rest) set u)
        (mkst (p + length es) (stack ++ map (ev vnull r) es) l o (r :: rest) set u).
Proof.
  induction es as [|e es IH]; intros p stack l o r rest set u H.
  - cbn. rewrite Nat.add_0_r, app_nil_r. apply steps_refl.
  - cbn [map] in H. apply at_cons in H. destruct H as [H0 H].
    eapply steps_trans; [apply steps_one; unfold step; cbn [s_pc]; rewrite H0; reflexivity|].
    cbn [length map]. replace (p + S (length es))%nat with (S p + length es)%nat by lia.
    replace (stack ++ ev vnull r e :: map (ev vnull r) es) with ((stack ++ [ev vnull r e]) ++ map (ev vnull r) es)
      by (rewrite <- app_assoc; reflexivity).
    apply IH. exact H.
Qed.

Definition pushed (q : @query V) (r : list V) : list V :=
  map (ev vnull r) (q_ret q) ++ map (fun p => ev vnull r (fst p)) (order_by q).
(** one row that is added: the stack and the rows after it *)
Definition add1 (q : @query V) (w : nat) (x : list V * list (list V)) (r : list V) : list V * list (list V) :=
  let s := fst x ++ pushed q r in
  (firstn (length s - w) s, snd x ++ [skipn (length s - w) s]).

Lemma run_match : forall q p stack l o r rest set u,
  at_ p (scan_pushes q) ->
  let x := add1 q (st_cols set + st_keys set) (stack, st_rows set) r in
  steps (mkst p stack l o (r :: rest) set u)
        (mkst (p + length (scan_pushes q)) (fst x) l o (r :: rest) (rows_of set (snd x)) u).
Proof.
  intros q p stack l o r rest set u H x. unfold scan_pushes in H.
  apply at_app in H. destruct H as [H1 H]. apply at_app in H. destruct H as [H2 H3].
  rewrite map_length in H2, H3. rewrite map_length in H3.
  apply at_cons in H3. destruct H3 as [H3 _].
  eapply steps_trans; [apply run_pushes; exact H1|].
  assert (E : map (fun '(e, _) => OPush e) (order_by q) = map OPush (map (@fst (@expr V) bool) (order_by q))).
  { rewrite map_map. apply map_ext. intros [e b]. reflexivity. }
  rewrite E in H2.
  eapply steps_trans; [apply run_pushes; exact H2|]. rewrite map_length.
  unfold scan_pushes. rewrite !app_length, !map_length. cbn [length].
  apply steps_one. unfold step. cbn [s_pc]. rewrite H3.
  subst x. unfold add1. cbn [fst snd]. unfold rows_of, pushed. rewrite <- app_assoc.
  rewrite !map_map. repeat f_equal. lia.
Qed.

(** the rows LIMIT and OFFSET of a scan let through *)
Definition keeps (q : @query V) (r : list V) : bool := match q_where q with Some w => w r | None => true end.
Definition taken (limit offset : option Z) (l : list (list V)) : list (list V) :=
  let l' := match offset with Some o => skipn (Z.to_nat o) l | None => l end in
  match limit with Some n => firstn (Z.to_nat n) l' | None => l' end.

Lemma taken_skip : forall limit o r l, 0 < o -> taken limit (Some o) (r :: l) = taken limit (Some (o - 1)) l.
Proof.
  intros limit o r l H. unfold taken. replace (Z.to_nat o) with (S (Z.to_nat (o - 1))) by lia. reflexivity.
Qed.
Lemma taken_nil : forall limit offset, taken limit offset [] = [].
Proof. intros [n|] [o|]; unfold taken; rewrite ?skipn_nil, ?firstn_nil; reflexivity. Qed.
Lemma taken_zero : forall offset l n, n <= 0 -> taken (Some n) offset l = [].
Proof. intros offset l n H. unfold taken. replace (Z.to_nat n) with 0%nat by lia. reflexivity. Qed.
Lemma taken_take : forall limit o r l, o <= 0 -> match limit with Some n => 0 < n | None => True end ->
  taken limit (Some o) (r :: l) = r :: taken (option_map (fun n => n - 1) limit) (Some (o - 1)) l.
Proof.
  intros [n|] o r l Ho Hn; unfold taken; cbn [option_map].
  - replace (Z.to_nat o) with 0%nat by lia. replace (Z.to_nat (o - 1)) with 0%nat by lia.
    replace (Z.to_nat n) with (S (Z.to_nat (n - 1))) by lia. reflexivity.
  - replace (Z.to_nat o) with 0%nat by lia. replace (Z.to_nat (o - 1)) with 0%nat by lia. reflexivity.
Qed.
Lemma taken_take_no : forall limit r l, match limit with Some n => 0 < n | None => True end ->
  taken limit None (r :: l) = r :: taken (option_map (fun n => n - 1) limit) None l.
Proof.
  intros [n|] r l Hn; unfold taken; cbn [option_map]; [|reflexivity].
  replace (Z.to_nat n) with (S (Z.to_nat (n - 1))) by lia. reflexivity.
Qed.

Definition lreg (limit : option (lim)) (l : Z) : option Z := match limit with Some _ => Some l | None => None end.
Definition oreg (offset : option Z) (o : Z) : option Z := match offset with Some _ => Some o | None => None end.

(** the loop over the rows of the cursor *)
Lemma run_loop : forall q limit offset where_ next eof,
  next = (where_ + length (scan_body q limit offset 0 0))%nat -> eof = S next ->
  at_ where_ (scan_body q limit offset next eof) ->
  nth_error code next = Some (ONext where_) ->
  forall rows stack l o set u, rows <> [] ->
  exists l' o' c',
  let x := fold_left (add1 q (st_cols set + st_keys set)) (taken (lreg limit l) (oreg offset o) (filter (keeps q) rows)) (stack, st_rows set) in
  steps (mkst where_ stack l o rows set u)
        (mkst eof (fst x) l' o' c' (rows_of set (snd x)) u).
Proof.
  intros q limit offset where_ next eof Hnext Heof Hat Hn.
  assert (Hlen : length (scan_body q limit offset next eof) = length (scan_body q limit offset 0 0)).
  { unfold scan_body. rewrite !app_length. destruct (q_where q), limit, offset; reflexivity. }
  (* end of one row: to the next one or out *)
  assert (Nx : forall r rest stack l o set u,
     steps (mkst next stack l o (r :: rest) set u)
           (mkst (match rest with [] => eof | _ => where_ end) stack l o rest set u)).
  { intros r rest stack l o set u. apply steps_one. unfold step. cbn [s_pc]. rewrite Hn. cbn [tl]. subst eof.
    destruct rest; reflexivity. }
  induction rows as [|r rest IH]; intros stack l o set u Hne; [congruence|]. clear Hne.
  (* what follows a row that leaves l, o, stack and set as given *)
  assert (Go : forall l1 o1 stack1 rows1,
     exists l' o' c',
     let x := fold_left (add1 q (st_cols set + st_keys set)) (taken (lreg limit l1) (oreg offset o1) (filter (keeps q) rest)) (stack1, rows1) in
     steps (mkst next stack1 l1 o1 (r :: rest) (rows_of set rows1) u)
           (mkst eof (fst x) l' o' c' (rows_of set (snd x)) u)).
  { intros l1 o1 stack1 rows1. destruct rest as [|r2 rest].
    - exists l1, o1, []. cbn [filter]. rewrite taken_nil. cbn [fold_left fst snd]. apply (Nx r []).
    - destruct (IH stack1 l1 o1 (rows_of set rows1) u ltac:(discriminate)) as (l' & o' & c' & S).
      exists l', o', c'. cbv zeta in S |- *. eapply steps_trans; [apply (Nx r (r2 :: rest))|].
      exact S. }
  assert (Rs : set = rows_of set (st_rows set)) by (destruct set; reflexivity).
  unfold scan_body in Hat. apply at_app in Hat. destruct Hat as [Hw Hat].
  apply at_app in Hat. destruct Hat as [Ho Hat]. apply at_app in Hat. destruct Hat as [Hl Hp].
  set (p1 := (where_ + length (match q_where q with Some w => [OJntr next w] | None => [] end))%nat) in *.
  set (p2 := (p1 + length (match offset with Some _ => [OJgted next] | None => [] end))%nat) in *.
  set (p3 := (p2 + length (match limit with Some _ => [OJltd eof] | None => [] end))%nat) in *.
  assert (Hp3 : (p3 + length (scan_pushes q))%nat = next).
  { rewrite Hnext, <- Hlen. unfold scan_body. rewrite !app_length. subst p1 p2 p3. lia. }
  (* WHERE *)
  assert (W : steps (mkst where_ stack l o (r :: rest) set u)
                    (mkst (if keeps q r then p1 else next) stack l o (r :: rest) set u)).
  { unfold keeps, p1. destruct (q_where q) as [w|].
    - apply at_cons in Hw. destruct Hw as [Hw _]. apply steps_one. unfold step. cbn [s_pc]. rewrite Hw.
      cbn [length]. destruct (w r); repeat f_equal; lia.
    - cbn [length]. rewrite Nat.add_0_r. apply steps_refl. }
  cbn [filter]. destruct (keeps q r) eqn:Ek.
  2:{ destruct (Go l o stack (st_rows set)) as (l' & o' & c' & S). rewrite <- Rs in S.
      exists l', o', c'. cbv zeta in S |- *. eapply steps_trans; [exact W|exact S]. }
  (* OFFSET *)
  assert (O : match offset with
              | Some _ => steps (mkst p1 stack l o (r :: rest) set u)
                                (mkst (if 0 <=? o - 1 then next else p2) stack l (o - 1) (r :: rest) set u)
              | None => p2 = p1 end).
  { unfold p2. destruct offset as [oo|]; [|cbn [length]; lia].
    apply at_cons in Ho. destruct Ho as [Ho _]. apply steps_one. unfold step. cbn [s_pc]. rewrite Ho. cbn [length].
    destruct (0 <=? o - 1); repeat f_equal; lia. }
  (* LIMIT and the row *)
  assert (L : forall o1, exists l' o' c',
     let t := match limit with
              | Some _ => if l - 1 <? 0 then [] else r :: taken (Some (l - 1)) (oreg offset o1) (filter (keeps q) rest)
              | None => r :: taken None (oreg offset o1) (filter (keeps q) rest) end in
     let x := fold_left (add1 q (st_cols set + st_keys set)) t (stack, st_rows set) in
     steps (mkst p2 stack l o1 (r :: rest) set u) (mkst eof (fst x) l' o' c' (rows_of set (snd x)) u)).
  { intros o1.
    assert (M : forall l1, exists l' o' c',
       let x := fold_left (add1 q (st_cols set + st_keys set)) (r :: taken (lreg limit l1) (oreg offset o1) (filter (keeps q) rest)) (stack, st_rows set) in
       steps (mkst p3 stack l1 o1 (r :: rest) set u) (mkst eof (fst x) l' o' c' (rows_of set (snd x)) u)).
    { intros l1. cbn [fold_left].
      pose proof (run_match q p3 stack l1 o1 r rest set u Hp) as R. cbv zeta in R. rewrite Hp3 in R.
      destruct (add1 q (st_cols set + st_keys set) (stack, st_rows set) r) as [stack1 rows1] eqn:E1. cbn [fst snd] in R.
      destruct (Go l1 o1 stack1 rows1) as (l' & o' & c' & S). exists l', o', c'. cbv zeta in S |- *.
      eapply steps_trans; [exact R|exact S]. }
    unfold p3 in M. destruct limit as [lm|].
    - apply at_cons in Hl. destruct Hl as [Hl _].
      assert (J : steps (mkst p2 stack l o1 (r :: rest) set u)
                        (mkst (if l - 1 <? 0 then eof else S p2) stack (l - 1) o1 (r :: rest) set u)).
      { apply steps_one. unfold step. cbn [s_pc]. rewrite Hl. reflexivity. }
      destruct (l - 1 <? 0).
      + exists (l - 1), o1, (r :: rest). cbn [fold_left fst snd]. rewrite <- Rs. exact J.
      + destruct (M (l - 1)) as (l' & o' & c' & S1). exists l', o', c'. cbv zeta in S1 |- *.
        cbn [length] in S1. replace (p2 + 1)%nat with (S p2) in S1 by lia.
        eapply steps_trans; [exact J|exact S1].
    - destruct (M l) as (l' & o' & c' & S1). exists l', o', c'. cbv zeta in S1 |- *.
      cbn [length] in S1. rewrite Nat.add_0_r in S1. exact S1. }
  destruct offset as [oo|].
  - destruct (Z.leb_spec 0 (o - 1)).
    + destruct (Go l (o - 1) stack (st_rows set)) as (l' & o' & c' & S). rewrite <- Rs in S.
      exists l', o', c'. cbv zeta in S |- *. cbn [oreg] in *. rewrite taken_skip by lia.
      eapply steps_trans; [exact W|]. eapply steps_trans; [exact O|exact S].
    + destruct (L (o - 1)) as (l' & o' & c' & S). exists l', o', c'. cbv zeta in S |- *. cbn [oreg] in *.
      eapply steps_trans; [exact W|]. eapply steps_trans; [exact O|].
      destruct limit as [lm|]; cbn [lreg] in *.
      * destruct (Z.ltb_spec (l - 1) 0).
        -- rewrite taken_zero by lia. exact S.
        -- rewrite taken_take by (cbn; lia). exact S.
      * rewrite taken_take by (auto; lia). exact S.
  - destruct (L o) as (l' & o' & c' & S). exists l', o', c'. cbv zeta in S |- *. cbn [oreg] in *.
    eapply steps_trans; [exact W|]. rewrite O in S.
    destruct limit as [lm|]; cbn [lreg] in *.
    + destruct (Z.ltb_spec (l - 1) 0).
      * rewrite taken_zero by lia. exact S.
      * rewrite taken_take_no by (cbn; lia). exact S.
    + rewrite taken_take_no by auto. exact S.
Qed.

(** the scan *)
Definition new_set (q : @query V) (ordered_ : bool) : @store V :=
  if ordered_ then mkstore (length (q_ret q)) (length (order_by q)) (map snd (order_by q)) []
  else mkstore (length (q_ret q)) 0 [] [].

Lemma run_head : forall base q ordered_ limit offset lv stack l0 o0 c0 set0 u,
  at_ base (scan_head q ordered_ limit offset) ->
  match limit with Some lm => lim_value lm = Ok lv | None => True end ->
  steps (mkst base stack l0 o0 c0 set0 u)
        (mkst (base + length (scan_head q ordered_ limit offset)) stack
              (match limit with Some _ => lv | None => l0 end) (match offset with Some o => o | None => o0 end)
              c0 (new_set q ordered_) u).
Proof.
  intros base q ordered_ limit offset lv stack l0 o0 c0 set0 u Hh Hlv.
  unfold scan_head in Hh |- *. apply at_app in Hh. destruct Hh as [H1 Hh]. cbn [length] in Hh.
  apply at_app in Hh. destruct Hh as [H2 H3]. apply at_cons in H1. destruct H1 as [H1 _].
  eapply steps_trans.
  { apply steps_one. unfold step. cbn [s_pc].
    instantiate (1 := mkst (S base) stack l0 o0 c0 (new_set q ordered_) u).
    unfold new_set. destruct ordered_; rewrite H1; reflexivity. }
  rewrite !app_length. cbn [length]. replace (base + 1)%nat with (S base) in * by lia.
  eapply steps_trans with (y := mkst (S base + length (match limit with Some l => [@OLimit V l] | None => [] end)) stack
     (match limit with Some _ => lv | None => l0 end) o0 c0 (new_set q ordered_) u).
  { destruct limit as [lm|]; cbn [length].
    - apply at_cons in H2. destruct H2 as [H2 _]. apply steps_one. unfold step. cbn [s_pc]. rewrite H2, Hlv. cbn [bind].
      repeat f_equal. lia.
    - rewrite Nat.add_0_r. apply steps_refl. }
  destruct offset as [oo|]; cbn [length].
  - apply at_cons in H3. destruct H3 as [H3 _]. apply steps_one. unfold step. cbn [s_pc]. rewrite H3.
    repeat f_equal. lia.
  - match goal with |- steps (mkst ?a _ _ _ _ _ _) (mkst ?b _ _ _ _ _ _) => replace b with a by lia end. apply steps_refl.
Qed.

Lemma run_scan : forall base q ordered_ limit offset lv stack l0 o0 c0 set0 u,
  at_ base (emit_scan base q ordered_ limit offset) ->
  match limit with Some lm => lim_value lm = Ok lv | None => True end ->
  exists l' o',
  let set := new_set q ordered_ in
  let x := fold_left (add1 q (st_cols set + st_keys set)) (taken (lreg limit lv) offset (filter (keeps q) src)) (stack, []) in
  steps (mkst base stack l0 o0 c0 set0 u)
        (mkst (base + length (emit_scan base q ordered_ limit offset)) (fst x) l' o' [] (rows_of set (snd x)) u).
Proof.
  intros base q ordered_ limit offset lv stack l0 o0 c0 set0 u H Hlv.
  unfold emit_scan in *. cbv zeta in *.
  set (head := scan_head q ordered_ limit offset) in *.
  set (where_ := S (base + length head)) in *.
  set (next := (where_ + length (scan_body q limit offset 0 0))%nat) in *.
  apply at_app in H. destruct H as [Hh H]. apply at_app in H. destruct H as [Ho H].
  apply at_app in H. destruct H as [Hb H]. cbn [length] in Hb, H.
  replace (base + length head + 1)%nat with where_ in Hb, H by (unfold where_; lia).
  assert (Hlen : length (scan_body q limit offset next (S next)) = length (scan_body q limit offset 0 0)).
  { unfold scan_body. rewrite !app_length. destruct (q_where q), limit, offset; reflexivity. }
  rewrite Hlen in H. fold next in H. apply at_cons in H. destruct H as [Hn H]. apply at_cons in H. destruct H as [Hf _].
  apply at_cons in Ho. destruct Ho as [Ho _].
  (* head *)
  set (l1 := match limit with Some _ => lv | None => l0 end).
  set (o1 := match offset with Some o => o | None => o0 end).
  assert (R1 : steps (mkst base stack l0 o0 c0 set0 u)
                     (mkst (base + length head) stack l1 o1 c0 (new_set q ordered_) u)).
  { apply run_head; assumption. }
  assert (R2 : steps (mkst (base + length head) stack l1 o1 c0 (new_set q ordered_) u)
     (mkst (match src with [] => S next | _ => where_ end) stack l1 o1 src (new_set q ordered_) u)).
  { apply steps_one. unfold step. cbn [s_pc]. rewrite Ho. destruct src; reflexivity. }
  assert (Fin : forall stack l o c rows, steps (mkst (S next) stack l o c (rows_of (new_set q ordered_) rows) u)
     (mkst (base + length (head ++ [OOpen (S next)] ++ scan_body q limit offset next (S next) ++ [ONext where_; OFree]))
           stack l o [] (rows_of (new_set q ordered_) rows) u)).
  { intros stack' l o c rows. apply steps_one. unfold step. cbn [s_pc]. rewrite Hf.
    rewrite !app_length, Hlen. cbn [length]. repeat f_equal. unfold next, where_. lia. }
  assert (El : lreg limit lv = lreg limit l1) by (unfold l1; clear; destruct limit; reflexivity).
  assert (Eo : offset = oreg offset o1) by (unfold o1; clear; destruct offset; reflexivity).
  destruct src as [|r0 rs] eqn:Esrc.
  - exists l1, o1. cbn [filter]. rewrite taken_nil. cbn [fold_left fst snd].
    eapply steps_trans; [exact R1|]. eapply steps_trans; [exact R2|].
    assert (E : new_set q ordered_ = rows_of (new_set q ordered_) []) by (unfold new_set; destruct ordered_; reflexivity).
    rewrite E at 1. apply Fin.
  - rewrite <- Esrc in *.
    assert (Er : st_rows (new_set q ordered_) = []) by (unfold new_set; destruct ordered_; reflexivity).
    destruct (run_loop q limit offset where_ next (S next) eq_refl eq_refl Hb Hn src stack l1 o1 (new_set q ordered_) u ltac:(congruence)) as (l' & o' & c' & S1).
    cbv zeta in S1. rewrite Er, <- El, <- Eo in S1. exists l', o'. cbv zeta.
    eapply steps_trans; [exact R1|]. eapply steps_trans; [rewrite Esrc in R2; exact R2|].
    rewrite <- Esrc. eapply steps_trans; [exact S1|]. apply Fin.
Qed.

(** the union commands *)
Lemma run_union : forall p t q stack l o c set,
  query_ok q ->
  at_ p ([OUnion t] ++ union_window q ++ [OUnionAdd]) ->
  steps (mkst p stack l o c set None)
        (mkst (p + length ([OUnion t] ++ union_window q ++ [@OUnionAdd V])) stack l o c set
              (Some (mkunion t (match q_limit q with Some n => n | None => INT64_MAX end)
                             (match q_offset q with Some n => n | None => 0 end) [set]))).
Proof.
  intros p t q stack l o c set (Ql & Qo & _) H.
  apply at_app in H. destruct H as [H0 H]. apply at_app in H. destruct H as [H1 H2].
  unfold union_window in *. apply at_app in H1. destruct H1 as [Ha Hb].
  apply at_cons in H0. destruct H0 as [H0 _]. apply at_cons in H2. destruct H2 as [H2 _]. cbn [length] in *.
  eapply steps_trans; [apply steps_one; unfold step; cbn [s_pc]; rewrite H0; reflexivity|].
  rewrite !app_length in *. cbn [length] in *. replace (p + 1)%nat with (S p) in * by lia.
  destruct (q_limit q) as [n|] eqn:En; cbn [length] in *.
  - apply at_cons in Ha. destruct Ha as [Ha _]. pose proof (Ql n eq_refl).
    eapply steps_trans; [apply steps_one; unfold step; cbn [s_pc]; rewrite Ha; destruct (Z.ltb_spec n 0); [lia|reflexivity]|].
    cbn [u_type u_offset u_inputs]. replace (S p + 1)%nat with (S (S p)) in * by lia.
    destruct (q_offset q) as [m|] eqn:Em; cbn [length] in *.
    + apply at_cons in Hb. destruct Hb as [Hb _]. pose proof (Qo m eq_refl).
      eapply steps_trans; [apply steps_one; unfold step; cbn [s_pc]; rewrite Hb; destruct (Z.ltb_spec m 0); [lia|reflexivity]|].
      cbn [u_type u_limit u_inputs]. replace (S p + (1 + 1))%nat with (S (S (S p))) in * by lia.
      apply steps_one; unfold step; cbn [s_pc]; rewrite H2. repeat f_equal. lia.
    + replace (S p + (1 + 0))%nat with (S (S p)) in * by lia.
      apply steps_one; unfold step; cbn [s_pc]; rewrite H2. repeat f_equal. lia.
  - replace (S p + 0)%nat with (S p) in * by lia.
    destruct (q_offset q) as [m|] eqn:Em; cbn [length] in *.
    + apply at_cons in Hb. destruct Hb as [Hb _]. pose proof (Qo m eq_refl).
      eapply steps_trans; [apply steps_one; unfold step; cbn [s_pc]; rewrite Hb; destruct (Z.ltb_spec m 0); [lia|reflexivity]|].
      cbn [u_type u_limit u_inputs]. replace (S p + (0 + 1))%nat with (S (S p)) in * by lia.
      apply steps_one; unfold step; cbn [s_pc]; rewrite H2. repeat f_equal. lia.
    + replace (S p + (0 + 0))%nat with (S p) in * by lia.
      apply steps_one; unfold step; cbn [s_pc]; rewrite H2. repeat f_equal. lia.
Qed.

Lemma run_recv : forall p t q stack l o c set,
  query_ok q ->
  at_ p ([OUnion t] ++ union_window q ++ [ORecv]) ->
  steps (mkst p stack l o c set None)
        (mkst (p + length ([OUnion t] ++ union_window q ++ [@ORecv V])) stack l o c set
              (Some (mkunion t (match q_limit q with Some n => n | None => INT64_MAX end)
                             (match q_offset q with Some n => n | None => 0 end) replies))).
Proof.
  intros p t q stack l o c set (Ql & Qo & _) H.
  apply at_app in H. destruct H as [H0 H]. apply at_app in H. destruct H as [H1 H2].
  unfold union_window in *. apply at_app in H1. destruct H1 as [Ha Hb].
  apply at_cons in H0. destruct H0 as [H0 _]. apply at_cons in H2. destruct H2 as [H2 _]. cbn [length] in *.
  eapply steps_trans; [apply steps_one; unfold step; cbn [s_pc]; rewrite H0; reflexivity|].
  rewrite !app_length in *. cbn [length] in *. replace (p + 1)%nat with (S p) in * by lia.
  destruct (q_limit q) as [n|] eqn:En; cbn [length] in *.
  - apply at_cons in Ha. destruct Ha as [Ha _]. pose proof (Ql n eq_refl).
    eapply steps_trans; [apply steps_one; unfold step; cbn [s_pc]; rewrite Ha; destruct (Z.ltb_spec n 0); [lia|reflexivity]|].
    cbn [u_type u_offset u_inputs]. replace (S p + 1)%nat with (S (S p)) in * by lia.
    destruct (q_offset q) as [m|] eqn:Em; cbn [length] in *.
    + apply at_cons in Hb. destruct Hb as [Hb _]. pose proof (Qo m eq_refl).
      eapply steps_trans; [apply steps_one; unfold step; cbn [s_pc]; rewrite Hb; destruct (Z.ltb_spec m 0); [lia|reflexivity]|].
      cbn [u_type u_limit u_inputs]. replace (S p + (1 + 1))%nat with (S (S (S p))) in * by lia.
      apply steps_one; unfold step; cbn [s_pc]; rewrite H2. repeat f_equal. lia.
    + replace (S p + (1 + 0))%nat with (S (S p)) in * by lia.
      apply steps_one; unfold step; cbn [s_pc]; rewrite H2. repeat f_equal. lia.
  - replace (S p + 0)%nat with (S p) in * by lia.
    destruct (q_offset q) as [m|] eqn:Em; cbn [length] in *.
    + apply at_cons in Hb. destruct Hb as [Hb _]. pose proof (Qo m eq_refl).
      eapply steps_trans; [apply steps_one; unfold step; cbn [s_pc]; rewrite Hb; destruct (Z.ltb_spec m 0); [lia|reflexivity]|].
      cbn [u_type u_limit u_inputs]. replace (S p + (0 + 1))%nat with (S (S p)) in * by lia.
      apply steps_one; unfold step; cbn [s_pc]; rewrite H2. repeat f_equal. lia.
    + replace (S p + (0 + 0))%nat with (S p) in * by lia.
      apply steps_one; unfold step; cbn [s_pc]; rewrite H2. repeat f_equal. lia.
Qed.
End Run.

(** ** the whole program *)
Section Whole.
Context {V : Type} (vnull : V) (vcmp : V -> V -> Z).
Context (qsort : (list V -> list V -> Z) -> list (list V) -> list (list V)).

Notation exec := (exec vnull vcmp qsort).
Notation scmp q := (store_compare vnull vcmp (length (q_ret q)) (map snd (order_by q))).

Lemma finish : forall src replies code stack y,
  steps vnull vcmp qsort src replies code (start stack) y ->
  nth_error code (s_pc y) = Some ORet ->
  exists fuel, exec src replies code fuel (start stack) = Some (Ok (result vnull vcmp y, s_stack y)).
Proof.
  intros src replies code stack y [n H] E. exists (n + 1)%nat. rewrite H. cbn [SelModel.exec].
  unfold step. destruct y as [pc s l o c set u]. cbn [s_pc] in E. rewrite E. reflexivity.
Qed.

Lemma fold_add1 : forall q w l stack rows, w = (length (q_ret q) + length (order_by q))%nat ->
  fold_left (add1 vnull q w) l (stack, rows) = (stack, rows ++ map (pushed vnull q) l).
Proof.
  intros q w l. induction l as [|r l IH]; intros stack rows Hw.
  - cbn. rewrite app_nil_r. reflexivity.
  - cbn [fold_left map].
    assert (E : add1 vnull q w (stack, rows) r = (stack, rows ++ [pushed vnull q r])).
    { unfold add1. cbn [fst snd].
      assert (L : length (pushed vnull q r) = w) by (unfold pushed; rewrite app_length, !map_length; lia).
      rewrite app_length, L. replace (length stack + w - w)%nat with (length stack) by lia.
      rewrite firstn_app, Nat.sub_diag, firstn_all, firstn_O, app_nil_r.
      rewrite skipn_app, Nat.sub_diag, skipn_all. reflexivity. }
    rewrite E, IH by exact Hw. rewrite <- app_assoc. reflexivity.
Qed.

(** the scan when the set has room for the keys *)
Lemma run_scan_ok : forall src replies code base q ord limit offset lv stack l0 o0 c0 set0 u,
  at_ code base (emit_scan base q ord limit offset) ->
  match limit with Some lm => lim_value lm = Ok lv | None => True end ->
  (ord = false -> order_by q = []) ->
  exists l' o',
  steps vnull vcmp qsort src replies code (mkst base stack l0 o0 c0 set0 u)
    (mkst (base + length (emit_scan base q ord limit offset)) stack l' o' []
          (mkstore (length (q_ret q)) (length (order_by q)) (map snd (order_by q))
                   (map (pushed vnull q) (taken (lreg limit lv) offset (filter (keeps q) src)))) u).
Proof.
  intros src replies code base q ord limit offset lv stack l0 o0 c0 set0 u H Hl Ho.
  destruct (run_scan vnull vcmp qsort src replies code base q ord limit offset lv stack l0 o0 c0 set0 u H Hl) as (l' & o' & S).
  exists l', o'. cbv zeta in S. rewrite fold_add1 in S.
  2:{ unfold new_set. destruct ord; [reflexivity|]. rewrite Ho by reflexivity. reflexivity. }
  cbn [fst snd app] in S. unfold rows_of, new_set in S. destruct ord; [exact S|].
  rewrite Ho in * by reflexivity. exact S.
Qed.

Lemma at_here : forall (code : list (@op V)) pre l post, code = pre ++ l ++ post -> at_ code (length pre) l.
Proof.
  intros code pre l post -> i o H. rewrite nth_error_app2 by lia.
  replace (length pre + i - length pre)%nat with i by lia.
  rewrite nth_error_app1; [exact H|]. apply nth_error_Some. congruence.
Qed.

(** the end: all instructions of the plan were executed *)
Lemma at_end : forall (l : list (@op V)) p, p = length l -> nth_error (l ++ [ORet]) p = Some ORet.
Proof. intros l p ->. rewrite nth_error_app2, Nat.sub_diag by lia. reflexivity. Qed.

Definition the_store (q : @query V) (rows : list (list V)) : @store V :=
  mkstore (length (q_ret q)) (length (order_by q)) (map snd (order_by q)) rows.

(** one scan *)
Lemma exec_scan : forall src replies q ord limit offset lv stack,
  match limit with Some lm => lim_value lm = Ok lv | None => True end ->
  (ord = false -> order_by q = []) ->
  exists fuel, exec src replies (program q [CmdScan ord limit offset]) fuel (start stack)
  = Some (Ok (the_store q (map (pushed vnull q) (taken (lreg limit lv) offset (filter (keeps q) src))), stack)).
Proof.
  intros src replies q ord limit offset lv stack Hl Ho.
  set (code := program q [CmdScan ord limit offset]).
  assert (Hat : at_ code 0 (emit_scan 0 q ord limit offset)).
  { apply (at_here code [] _ [ORet]). unfold code, program. cbn [emit_plan emit_cmd app]. rewrite app_nil_r. reflexivity. }
  destruct (run_scan_ok src replies code 0 q ord limit offset lv stack 0 0 [] (mkstore 0 0 [] []) None Hat Hl Ho) as (l' & o' & S).
  destruct (finish src replies code stack _ S) as [f F].
  { unfold code, program. cbn [emit_plan emit_cmd s_pc]. rewrite app_nil_r. apply at_end. reflexivity. }
  exists f. exact F.
Qed.

(** scan and sort *)
Lemma run_sorted : forall src replies q stack code post,
  code = emit_scan 0 q true None None ++ [OSort] ++ post ->
  exists l' o',
  steps vnull vcmp qsort src replies code (start stack)
    (mkst (length (emit_scan 0 q true None None) + 1) stack l' o' []
          (the_store q (qsort (scmp q) (map (pushed vnull q) (filter (keeps q) src)))) None).
Proof.
  intros src replies q stack code post Hc.
  assert (Hat : at_ code 0 (emit_scan 0 q true None None)) by (apply (at_here code [] _ ([OSort] ++ post)); exact Hc).
  assert (Hs : nth_error code (length (emit_scan 0 q true None None)) = Some OSort).
  { rewrite Hc, nth_error_app2, Nat.sub_diag by lia. reflexivity. }
  destruct (run_scan_ok src replies code 0 q true None None 0 stack 0 0 [] (mkstore 0 0 [] []) None Hat I ltac:(discriminate)) as (l' & o' & S).
  exists l', o'. eapply steps_trans; [exact S|]. cbn [lreg taken].
  apply steps_one. unfold step. cbn [s_pc]. rewrite Nat.add_0_l, Hs. cbn [st_cols st_keys st_order st_rows]. unfold the_store.
  repeat f_equal. lia.
Qed.

Lemma exec_sorted : forall src replies q stack,
  exists fuel, exec src replies (program q [CmdScan true None None; CmdSort]) fuel (start stack)
  = Some (Ok (the_store q (qsort (scmp q) (map (pushed vnull q) (filter (keeps q) src))), stack)).
Proof.
  intros src replies q stack. set (code := program q [CmdScan true None None; CmdSort]).
  assert (Hc : code = emit_scan 0 q true None None ++ [OSort] ++ [ORet]).
  { unfold code, program. cbn [emit_plan emit_cmd]. rewrite app_nil_r, <- app_assoc. reflexivity. }
  destruct (run_sorted src replies q stack code _ Hc) as (l' & o' & S).
  destruct (finish src replies code stack _ S) as [f F].
  { cbn [s_pc]. rewrite Hc. rewrite app_assoc. apply at_end. rewrite app_length. reflexivity. }
  exists f. exact F.
Qed.

Definition the_union (q : @query V) (t : utype) (inputs : list (@store V)) : union :=
  mkunion t (match q_limit q with Some n => n | None => INT64_MAX end)
            (match q_offset q with Some n => n | None => 0 end) inputs.

(** scan, sort and union *)
Lemma exec_sorted_union : forall src replies q stack, query_ok q ->
  exists fuel, exec src replies (program q [CmdScan true None None; CmdSort; CmdUnion]) fuel (start stack)
  = Some (Ok (union_store vnull vcmp (the_union q (if q_distinct q then UDISTINCT else UORDERED)
       [the_store q (qsort (scmp q) (map (pushed vnull q) (filter (keeps q) src)))]), stack)).
Proof.
  intros src replies q stack Q. set (code := program q [CmdScan true None None; CmdSort; CmdUnion]).
  set (U := [OUnion (if q_distinct q then UDISTINCT else UORDERED)] ++ union_window q ++ [@OUnionAdd V]).
  assert (Hc : code = emit_scan 0 q true None None ++ [OSort] ++ U ++ [ORet]).
  { unfold code, program. cbn [emit_plan emit_cmd]. fold U. rewrite app_nil_r, <- !app_assoc. reflexivity. }
  destruct (run_sorted src replies q stack code _ Hc) as (l' & o' & S).
  assert (Hu : at_ code (length (emit_scan 0 q true None None) + 1) U).
  { pose proof (at_here code (emit_scan 0 q true None None ++ [OSort]) U [ORet]) as A.
    rewrite app_length in A. apply A. rewrite Hc, <- app_assoc. reflexivity. }
  pose proof (run_union vnull vcmp qsort src replies code _ _ q stack l' o' [] (the_store q (qsort (scmp q) (map (pushed vnull q) (filter (keeps q) src)))) Q Hu) as R.
  destruct (finish src replies code stack _ (steps_trans _ _ _ _ _ _ _ _ _ S R)) as [f F].
  { cbn [s_pc]. rewrite Hc. rewrite !app_assoc. apply at_end. rewrite <- !app_assoc. fold U.
    rewrite !app_length. unfold U. rewrite !app_length. cbn [length]. lia. }
  exists f. exact F.
Qed.

(** the session *)
Lemma exec_recv : forall src replies q ord stack, query_ok q ->
  exists fuel, exec src replies (program q [CmdRecv ord]) fuel (start stack)
  = Some (Ok (union_store vnull vcmp
       (the_union q (if ord then (if q_distinct q then UDISTINCT else UORDERED) else UALL) replies), stack)).
Proof.
  intros src replies q ord stack Q. set (code := program q [CmdRecv ord]).
  set (t := if ord then (if q_distinct q then UDISTINCT else UORDERED) else UALL).
  set (U := [OUnion t] ++ union_window q ++ [@ORecv V]).
  assert (Hc : code = U ++ [ORet]).
  { unfold code, program. cbn [emit_plan emit_cmd]. fold t. fold U. rewrite app_nil_r. reflexivity. }
  assert (Hu : at_ code 0 U) by (apply (at_here code [] U [ORet]); exact Hc).
  pose proof (run_recv vnull vcmp qsort src replies code 0 t q stack 0 0 [] (mkstore 0 0 [] []) Q Hu) as R.
  destruct (finish src replies code stack _ R) as [f F].
  { cbn [s_pc]. rewrite Hc. apply at_end. reflexivity. }
  exists f. exact F.
Qed.
End Whole.
