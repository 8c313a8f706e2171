(** C43 (IN), C54 (ANY, ALL), C55 (AND, OR, NOT), C56 (order of values and rows). *)
From Verif Require Import Base OrderLib JsonModel JsonSpec JsonOrder ValueModel.

(** ** specification *)
(** a value that takes part in comparisons: bit patterns are in range and no NaN *)
Definition dbl_ok (d : Z) : Prop := dbl_is_nan d = false.
Definition flt_ok (d : Z) : Prop := flt_is_nan d = false.
Definition value_ok (v : value) : Prop :=
  match v with VDouble d => dbl_ok d | VVector l => Forall flt_ok l | _ => True end.

(** two values are the same (-0.0 and 0.0 are) *)
Definition same_value (a b : value) : Prop :=
  match a, b with
  | VDouble x, VDouble y => dbl_key x = dbl_key y
  | VVector x, VVector y => map flt_key x = map flt_key y
  | _, _ => a = b
  end.
(** the order of ORDER BY: values of different types are ordered by their type; then
    numbers by value, strings by their bytes, intervals by months, days, microseconds,
    vectors by size and elements, uuids as pairs of integers *)
Definition value_before (a b : value) : Prop :=
  match a, b with
  | VBool x, VBool y | VInt x, VInt y | VDate x, VDate y | VTimestamp x, VTimestamp y => x < y
  | VDouble x, VDouble y => dbl_key x < dbl_key y
  | VString x, VString y => lexZ x y = Lt
  | VInterval m d u, VInterval m' d' u' => m < m' \/ m = m' /\ (d < d' \/ d = d' /\ u < u')
  | VVector x, VVector y =>
      (length x < length y)%nat \/ length x = length y /\ lexZ (map flt_key x) (map flt_key y) = Lt
  | VUuid x x', VUuid y y' => x < y \/ x = y /\ x' < y'
  | _, _ => vtype a < vtype b
  end.

(** ** proofs *)
(* every value as a list of integers, compared lexicographically *)
Definition vkey (v : value) : list Z :=
  vtype v ::
  match v with
  | VNull => []
  | VBool z | VInt z | VDate z | VTimestamp z => [z]
  | VDouble d => [dbl_key d]
  | VString s => s
  | VInterval m d u => [m; d; u]
  | VVector l => Z.of_nat (length l) :: map flt_key l
  | VUuid a b => [a; b]
  end.
Lemma compare_int_csgn x y : compare_int x y = csgn (x ?= y).
Proof. unfold compare_int. destruct (Z.compare_spec x y); destruct (Z.ltb_spec x y), (Z.ltb_spec y x); cbn; lia. Qed.
Lemma compare_int64_csgn x y : compare_int64 x y = csgn (x ?= y).
Proof. unfold compare_int64. destruct (Z.compare_spec x y); destruct (Z.ltb_spec x y), (Z.ltb_spec y x); cbn; lia. Qed.
Lemma sgn_csgn c : Z.sgn (csgn c) = csgn c.
Proof. now destruct c. Qed.
Lemma csgn_next c (n : Z) d : Z.sgn n = csgn d ->
  Z.sgn (if negb (csgn c =? 0) then csgn c else n) = csgn (match c with Eq => d | Lt => Lt | Gt => Gt end).
Proof. destruct c; cbn; auto. Qed.

Section Order.
Variable mag : Z -> Z -> Z.
Hypothesis Hmag : memcmp_ok mag.

Lemma vector_loop_sgn x : forall y, length x = length y -> Forall flt_ok x -> Forall flt_ok y ->
  Z.sgn (vector_loop x y) = csgn (lexZ (map flt_key x) (map flt_key y)).
Proof.
  induction x as [|a x IH]; intros [|b y] L Fx Fy; try discriminate; [reflexivity|].
  pose proof (Forall_inv Fx) as A0. pose proof (Forall_inv Fy) as B0. unfold flt_ok in A0, B0.
  cbn [vector_loop map]. unfold compare_float. rewrite A0, B0. cbn [orb]. rewrite compare_int_csgn.
  unfold lexZ; cbn [lex]. rewrite (csgn_next _ _ (lex Z.compare (map flt_key x) (map flt_key y))); [destruct (flt_key a ?= flt_key b); reflexivity|].
  apply IH; [now injection L|exact (Forall_inv_tail Fx)|exact (Forall_inv_tail Fy)].
Qed.

Lemma value_compare_sgn a b : value_ok a -> value_ok b ->
  Z.sgn (value_compare mag a b) = csgn (lexZ (vkey a) (vkey b)).
Proof.
  intros Ha Hb. unfold value_compare, vkey. unfold lexZ; cbn [lex].
  destruct (Z.compare_spec (vtype a) (vtype b)) as [E|E|E].
  2: { replace (vtype a =? vtype b) with false by lia. replace (vtype b <? vtype a) with false by lia. reflexivity. }
  2: { replace (vtype a =? vtype b) with false by lia. replace (vtype b <? vtype a) with true by lia. reflexivity. }
  replace (vtype a =? vtype b) with true by lia. cbn [negb].
  destruct a, b; cbn in E; try discriminate; cbn [lex].
  - reflexivity.
  - rewrite compare_int_csgn, sgn_csgn. destruct (z ?= z0); reflexivity.
  - rewrite compare_int_csgn, sgn_csgn. destruct (z ?= z0); reflexivity.
  - unfold compare_double. cbn in Ha, Hb. unfold dbl_ok in *. rewrite Ha, Hb. cbn [orb].
    rewrite compare_int64_csgn, sgn_csgn. destruct (dbl_key d ?= dbl_key d0); reflexivity.
  - apply (str_compare_sgn mag Hmag).
  - rewrite compare_int_csgn, sgn_csgn. destruct (z ?= z0); reflexivity.
  - rewrite compare_int_csgn, sgn_csgn. destruct (z ?= z0); reflexivity.
  - unfold interval_compare. rewrite !compare_int_csgn. apply csgn_next. apply csgn_next.
    rewrite sgn_csgn. destruct (us ?= us0); reflexivity.
  - unfold vector_compare. rewrite compare_int_csgn.
    destruct (Z.compare_spec (Z.of_nat (length v)) (Z.of_nat (length v0))) as [L|L|L]; cbn; try reflexivity.
    apply vector_loop_sgn; [lia|exact Ha|exact Hb].
  - unfold uuid_compare. rewrite !compare_int_csgn. apply csgn_next. rewrite sgn_csgn. destruct (b0 ?= b); reflexivity.
Qed.

Lemma lex1 x y : lex Z.compare [x] [y] = (x ?= y).
Proof. cbn. destruct (x ?= y); reflexivity. Qed.

Lemma vkey_lt a b : lexZ (vkey a) (vkey b) = Lt <-> value_before a b.
Proof.
  unfold vkey, lexZ; cbn [lex].
  destruct (Z.compare_spec (vtype a) (vtype b)) as [E|E|E].
  - destruct a, b; cbn in E; try discriminate; cbn [value_before]; rewrite ?lex1;
      rewrite ?Z.compare_lt_iff; try tauto.
    + cbn [lex]. destruct (Z.compare_spec m m0) as [?|?|?]; [|split; [lia|reflexivity]|split; [discriminate|lia]].
      destruct (Z.compare_spec d d0) as [?|?|?]; [|split; [lia|reflexivity]|split; [discriminate|lia]].
      destruct (Z.compare_spec us us0) as [?|?|?]; split; try discriminate; try reflexivity; lia.
    + cbn [lex]. destruct (Z.compare_spec (Z.of_nat (length v)) (Z.of_nat (length v0))) as [L|L|L].
      * split; [intros H; right; split; [lia|exact H]|intros [?|[_ H]]; [lia|exact H]].
      * split; [left; lia|reflexivity].
      * split; [discriminate|lia].
    + cbn [lex]. destruct (Z.compare_spec a a0) as [?|?|?]; [|split; [lia|reflexivity]|split; [discriminate|lia]].
      destruct (Z.compare_spec b0 b) as [?|?|?]; split; try discriminate; try reflexivity; lia.
  - split; [intros _|reflexivity]. destruct a, b; cbn in E |- *; try lia.
  - split; [discriminate|]. intros H. exfalso. destruct a, b; cbn in E, H; try lia.
Qed.
Lemma vkey_eq a b : vkey a = vkey b <-> same_value a b.
Proof.
  destruct a, b; unfold vkey, same_value; cbn [vtype]; split; intros H; try discriminate H; try congruence.
  - rewrite H. apply (f_equal (@length Z)) in H. rewrite !map_length in H. rewrite H. reflexivity.
Qed.

Lemma value_zero a b : value_ok a -> value_ok b -> (value_compare mag a b = 0 <-> same_value a b).
Proof.
  intros Ha Hb. rewrite <- vkey_eq, <- lexZ_eq. pose proof (value_compare_sgn a b Ha Hb) as S.
  split; intros H.
  - rewrite H in S. destruct (lexZ (vkey a) (vkey b)); cbn in S; congruence.
  - rewrite H in S. cbn in S. apply Z.sgn_null_iff. exact S.
Qed.
Lemma value_neg a b : value_ok a -> value_ok b -> (value_compare mag a b < 0 <-> value_before a b).
Proof.
  intros Ha Hb. rewrite <- vkey_lt. pose proof (value_compare_sgn a b Ha Hb) as S.
  destruct (lexZ (vkey a) (vkey b)); cbn in S; split; intros; try discriminate; try reflexivity; lia.
Qed.
Lemma value_pos a b : value_ok a -> value_ok b -> (value_compare mag a b > 0 <-> value_before b a).
Proof.
  intros Ha Hb. rewrite <- vkey_lt. rewrite lexZ_opp. pose proof (value_compare_sgn a b Ha Hb) as S.
  destruct (lexZ (vkey a) (vkey b)); cbn in *; split; intros; try discriminate; try reflexivity; lia.
Qed.
End Order.

(** C56: the comparison of values used by ORDER BY, GROUP BY, DISTINCT, MIN/MAX and IN is
    exactly the order described by [value_before] / [same_value], for every two values
    without NaN. *)
Theorem C56_value_order : forall mag a b, memcmp_ok mag -> value_ok a -> value_ok b ->
  (value_compare mag a b < 0 <-> value_before a b) /\
  (value_compare mag a b = 0 <-> same_value a b) /\
  (value_compare mag a b > 0 <-> value_before b a).
Proof.
  intros mag a b M Ha Hb. split; [now apply value_neg|]. split; [now apply value_zero|now apply value_pos].
Qed.
Print Assumptions C56_value_order.

(** ... and it is a total order on values up to [same_value], and on rows with any
    number of ascending and descending keys *)
Definition row_ok (order : list bool) (r : list value) : Prop := length r = length order /\ Forall value_ok r.
Fixpoint row_before (order : list bool) (a b : list value) : Prop :=
  match order, a, b with
  | asc :: o, x :: a', y :: b' =>
      (if asc : bool then value_before x y else value_before y x) \/ same_value x y /\ row_before o a' b'
  | _, _, _ => False
  end.
Lemma row_cmp_lt mag order : memcmp_ok mag -> forall a b, row_ok order a -> row_ok order b ->
  (store_compare mag order a b < 0 <-> row_before order a b) /\
  (store_compare mag order a b = 0 <-> Forall2 same_value a b) /\
  (store_compare mag order a b > 0 <-> row_before order b a).
Proof.
  intros M. induction order as [|asc o IH]; intros a b [La Fa] [Lb Fb]; destruct a as [|x a], b as [|y b]; try discriminate.
  - cbn. repeat split; intros; try lia; try tauto; constructor.
  - injection La as La. injection Lb as Lb.
    specialize (IH a b (conj La (Forall_inv_tail Fa)) (conj Lb (Forall_inv_tail Fb))).
    pose proof (value_neg mag M x y (Forall_inv Fa) (Forall_inv Fb)) as N.
    pose proof (value_zero mag M x y (Forall_inv Fa) (Forall_inv Fb)) as Z0.
    pose proof (value_pos mag M x y (Forall_inv Fa) (Forall_inv Fb)) as P.
    pose proof (vkey_eq x y) as K. pose proof (vkey_eq y x) as K'.
    cbn [store_compare row_before]. destruct (Z.eqb_spec (value_compare mag x y) 0) as [E|E]; cbn [negb].
    + assert (same_value x y) as S by tauto. assert (same_value y x) as S' by (apply K'; symmetry; now apply K).
      assert (~ value_before x y) by (rewrite <- N; lia). assert (~ value_before y x) by (rewrite <- P; lia).
      split; [|split].
      * destruct asc; tauto.
      * split; [intros H1; constructor; tauto|intros H1; inversion H1; tauto].
      * destruct asc; tauto.
    + assert (~ same_value x y) as S by tauto. assert (~ same_value y x) as S' by (intros C; apply S, K; symmetry; now apply K').
      split; [|split].
      * destruct asc; [tauto|]. split; [intros C; left; apply P; lia|intros [C|[C _]]; [apply P in C; lia|tauto]].
      * split; [intros C; destruct asc; lia|]. intros C. inversion C; tauto.
      * destruct asc; [tauto|]. split; [intros C; left; apply N; lia|intros [C|[C _]]; [apply N in C; lia|tauto]].
Qed.
Lemma same_value_trans a b c : same_value a b -> same_value b c -> same_value a c.
Proof. rewrite <- !vkey_eq. congruence. Qed.
Lemma same_before a b c : same_value a b -> value_before b c -> value_before a c.
Proof. rewrite <- vkey_eq, <- !vkey_lt. intros ->. tauto. Qed.
Lemma before_same a b c : value_before a b -> same_value b c -> value_before a c.
Proof. rewrite <- vkey_eq, <- !vkey_lt. intros H <-. exact H. Qed.
Lemma before_trans a b c : value_before a b -> value_before b c -> value_before a c.
Proof. rewrite <- !vkey_lt. apply lexZ_trans. Qed.
Lemma row_before_trans order : forall a b c, row_before order a b -> row_before order b c -> row_before order a c.
Proof.
  induction order as [|asc o IH]; intros [|x a] [|y b] [|z c]; cbn; try tauto.
  intros [H1|[H1 H1']] [H2|[H2 H2']].
  - left. destruct asc; eauto using before_trans.
  - left. destruct asc; [eapply before_same; eauto|]. eapply same_before; eauto. rewrite <- vkey_eq in *. congruence.
  - left. destruct asc; [eapply same_before; eauto|]. eapply before_same; eauto. rewrite <- vkey_eq in *. congruence.
  - right. split; [eapply same_value_trans; eauto|]. eauto.
Qed.
Theorem C56_row_order : forall mag order a b, memcmp_ok mag -> row_ok order a -> row_ok order b ->
  (store_compare mag order a b < 0 <-> row_before order a b) /\
  (store_compare mag order a b = 0 <-> Forall2 same_value a b) /\
  (store_compare mag order a b > 0 <-> row_before order b a) /\
  (forall c, row_ok order c -> store_compare mag order a b < 0 -> store_compare mag order b c < 0 -> store_compare mag order a c < 0).
Proof.
  intros mag order a b M Ha Hb. destruct (row_cmp_lt mag order M a b Ha Hb) as (H1 & H2 & H3).
  split; [exact H1|]. split; [exact H2|]. split; [exact H3|].
  intros c Hc L1 L2. apply (row_cmp_lt mag order M a c Ha Hc). apply H1 in L1.
  apply (row_cmp_lt mag order M b c Hb Hc) in L2. eapply row_before_trans; eauto.
Qed.
Print Assumptions C56_row_order.
Example C56_nonvacuous : row_ok [true; false] [VString [97; 98]; VDouble 0] /\
  store_compare Z.sub [true; false] [VString [97; 98]; VDouble 0] [VString [97; 98]; VDouble (2 ^ 63 + 1)] = -1 /\
  store_compare Z.sub [true; false] [VString [97; 98]; VDouble 0] [VString [97]; VDouble 0] = 1 /\
  store_compare Z.sub [true; false] [VString [97; 98]; VDouble 0] [VString [97; 98]; VDouble (2 ^ 63)] = 0.
Proof.
  split; [split; [reflexivity|]|].
  { apply Forall_cons; [exact I|]. apply Forall_cons; [vm_compute; reflexivity|]. apply Forall_nil. }
  split; [vm_compute; reflexivity|]. split; vm_compute; reflexivity.
Qed.
(** with NaN it is not an order: NaN is equal to every number (1.0 < 2.0, both equal to NaN) *)
Theorem C56_nan_refuted : exists a b c, value_compare Z.sub a b = 0 /\ value_compare Z.sub b c = 0 /\ value_compare Z.sub a c < 0.
Proof. exists (VDouble (double_of_int 1)), (VDouble (2047 * 2 ^ 52 + 1)), (VDouble (double_of_int 2)). vm_compute. auto. Qed.
Print Assumptions C56_nan_refuted.

(** ** C43: IN *)
Definition elements (l : list in_item) : list value :=
  flat_map (fun i => match i with InValue v => [v] | InRows r => r end) l.
Definition TRUE : value := VBool 1.
Definition FALSE : value := VBool 0.
(** the result required of [v IN (items)] *)
Definition in_spec (v : value) (items : list value) (r : value) : Prop :=
  (v = VNull -> r = VNull) /\
  (v <> VNull -> (exists x, In x items /\ x <> VNull /\ same_value v x) -> r = TRUE) /\
  (v <> VNull -> (forall x, In x items -> x <> VNull -> ~ same_value v x) ->
     (In VNull items -> r = VNull) /\ (~ In VNull items -> r = FALSE)).

Section InProof.
Variable mag : Z -> Z -> Z.
Hypothesis Hmag : memcmp_ok mag.
Variable v : value.
Hypothesis Hv : value_ok v.

Lemma same_sym a b : same_value a b -> same_value b a.
Proof. rewrite <- !vkey_eq. congruence. Qed.

Lemma in_rows_spec l : Forall value_ok l -> forall hn,
  match in_rows mag v l hn with
  | (true, _) => exists x, In x l /\ x <> VNull /\ same_value v x
  | (false, hn') => (forall x, In x l -> x <> VNull -> ~ same_value v x) /\ (hn' = true <-> hn = true \/ In VNull l)
  end.
Proof.
  induction l as [|x l IH]; intros F hn; cbn [in_rows].
  - split; [intros ? []|]. cbn. tauto.
  - pose proof (Forall_inv F) as F0. pose proof (Forall_inv_tail F) as F1.
    assert (x = VNull \/ x <> VNull) as [->|NX] by (destruct x; auto; right; discriminate).
    + specialize (IH F1 true). destruct (in_rows mag v l true) as [[|] hn'].
      * destruct IH as (x & ? & ? & ?). exists x. split; [now right|tauto].
      * destruct IH as [A B]. split.
        { intros x [<-|Hx] N; [congruence|]. now apply A. }
        { rewrite B. cbn. tauto. }
    + replace (match x with VNull => in_rows mag v l true | _ => if value_compare mag v x =? 0 then (true, hn) else in_rows mag v l hn end)
        with (if value_compare mag v x =? 0 then (true, hn) else in_rows mag v l hn) by (destruct x; congruence).
      destruct (value_compare mag v x =? 0) eqn:E.
      * exists x. split; [now left|]. split; [exact NX|]. apply (value_zero mag Hmag); auto. lia.
      * assert (~ same_value v x) as NS by (rewrite <- (value_zero mag Hmag); auto; lia).
        specialize (IH F1 hn). destruct (in_rows mag v l hn) as [[|] hn'].
        { destruct IH as (y & ? & ? & ?). exists y. split; [now right|tauto]. }
        { destruct IH as [A B]. split.
          - intros y [<-|Hy] N; [exact NS|]. now apply A.
          - rewrite B. cbn. split; [tauto|]. intros [?|[?|?]]; tauto || congruence. }
Qed.

Lemma in_items_spec l : Forall value_ok (elements l) -> forall hn,
  match in_items mag v l hn with
  | (true, _) => exists x, In x (elements l) /\ x <> VNull /\ same_value v x
  | (false, hn') => (forall x, In x (elements l) -> x <> VNull -> ~ same_value v x) /\ (hn' = true <-> hn = true \/ In VNull (elements l))
  end.
Proof.
  induction l as [|i l IH]; intros F hn; cbn [in_items].
  - split; [intros ? []|]. cbn. tauto.
  - unfold elements in *. cbn [flat_map] in *. apply Forall_app in F as [F0 F1].
    destruct i as [x|rows].
    + pose proof (Forall_inv F0) as Fx.
      assert (x = VNull \/ x <> VNull) as [->|NX] by (destruct x; auto; right; discriminate).
      * specialize (IH F1 true). destruct (in_items mag v l true) as [[|] hn'].
        { destruct IH as (x & ? & ? & ?). exists x. split; [now right|tauto]. }
        { destruct IH as [A B]. split.
          - intros x [<-|Hx] N; [congruence|]. now apply A.
          - rewrite B. cbn. tauto. }
      * replace (match x with VNull => in_items mag v l true | _ => if value_compare mag x v =? 0 then (true, hn) else in_items mag v l hn end)
          with (if value_compare mag x v =? 0 then (true, hn) else in_items mag v l hn) by (destruct x; congruence).
        destruct (value_compare mag x v =? 0) eqn:E.
        { exists x. split; [now left|]. split; [exact NX|]. apply same_sym, (value_zero mag Hmag); auto. lia. }
        { assert (~ same_value v x) as NS by (intros C; apply same_sym in C; apply (value_zero mag Hmag) in C; auto; lia).
          specialize (IH F1 hn). destruct (in_items mag v l hn) as [[|] hn'].
          - destruct IH as (y & ? & ? & ?). exists y. split; [now right|tauto].
          - destruct IH as [A B]. split.
            + intros y [<-|Hy] N; [exact NS|]. now apply A.
            + rewrite B. cbn. split; [tauto|]. intros [?|[?|?]]; tauto || congruence. }
    + pose proof (in_rows_spec rows F0 hn) as R. destruct (in_rows mag v rows hn) as [[|] hn1].
      * destruct R as (x & ? & ? & ?). exists x. split; [apply in_or_app; now left|tauto].
      * destruct R as [A1 B1]. specialize (IH F1 hn1). destruct (in_items mag v l hn1) as [[|] hn'].
        { destruct IH as (y & ? & ? & ?). exists y. split; [apply in_or_app; now right|tauto]. }
        { destruct IH as [A B]. split.
          - intros y Hy N. apply in_app_or in Hy as [Hy|Hy]; [now apply A1|now apply A].
          - rewrite B, B1, in_app_iff. tauto. }
Qed.
End InProof.

(** C43 (part): for every value, list and subquery rows without NaN.  Equality is
    [same_value], which distinguishes the integer 1 from the double 1.0. *)
Theorem C43_in_three_valued_partial : forall mag v items, memcmp_ok mag -> value_ok v -> Forall value_ok (elements items) ->
  in_spec v (elements items) (value_in mag v items).
Proof.
  intros mag v items M Hv F. split; [intros ->; reflexivity|].
  assert (v <> VNull -> value_in mag v items = let '(found, hn) := in_items mag v items false in
         if found then vbool true else if hn then VNull else vbool false) as E by (destruct v; intros; try reflexivity; congruence).
  pose proof (in_items_spec mag M v Hv items F false) as S.
  destruct (in_items mag v items false) as [[|] hn].
  - destruct S as (x & Hx & NX & SV). split; [intros NV _; rewrite (E NV); reflexivity|].
    intros NV A. exfalso. exact (A x Hx NX SV).
  - destruct S as [A B]. split; [intros NV (x & Hx & NX & SV); exfalso; exact (A x Hx NX SV)|].
    intros NV _. rewrite (E NV). split; intros HN.
    + replace hn with true by (symmetry; apply B; now right). reflexivity.
    + destruct hn; [|reflexivity]. exfalso. destruct (proj1 B eq_refl); [discriminate|tauto].
Qed.
Print Assumptions C43_in_three_valued_partial.
Example C43_nonvacuous :
  value_in Z.sub (VInt 5) [InValue VNull; InRows [VInt 1; VInt 5]] = TRUE /\
  value_in Z.sub (VInt 5) [InValue (VInt 4); InRows [VInt 1; VNull]] = VNull /\
  value_in Z.sub (VInt 5) [InValue (VInt 4); InRows []] = FALSE.
Proof. vm_compute. auto. Qed.

(** C43 is false of the code for the equality of the language: 1 = 1.0 is true but
    1 IN (1.0) is false. *)
Theorem C43_int_double_refuted : exists a b,
  op_equ_num a b = Some true /\ forall mag, value_in mag a [InValue b] = FALSE.
Proof. exists (VInt 1), (VDouble (double_of_int 1)). split; [vm_compute; reflexivity|]. intros mag. reflexivity. Qed.
Print Assumptions C43_int_double_refuted.

(** ** C54: ANY and ALL *)
Definition holds (op : match_op) (a b : value) : Prop :=
  match op with
  | EQU => same_value a b | NEQU => ~ same_value a b
  | LT => value_before a b | LTE => value_before a b \/ same_value a b
  | GT => value_before b a | GTE => value_before b a \/ same_value a b
  end.
Lemma match_holds mag op a b : memcmp_ok mag -> value_ok a -> value_ok b ->
  match_rc op (value_compare mag a b) = true <-> holds op a b.
Proof.
  intros M Ha Hb. pose proof (value_neg mag M a b Ha Hb). pose proof (value_zero mag M a b Ha Hb). pose proof (value_pos mag M a b Ha Hb).
  destruct op; cbn [match_rc holds]; rewrite ?negb_true_iff, ?Z.eqb_eq, ?Z.eqb_neq, ?Z.ltb_lt, ?Z.leb_le.
  - tauto.
  - tauto.
  - tauto.
  - rewrite Z.le_lteq. tauto.
  - rewrite <- H1. split; lia.
  - rewrite <- H1, <- H0. lia.
Qed.
(** [v op ALL rows]: FALSE if the comparison is false for some row, else NULL if some
    row is NULL, else TRUE (in particular for no rows).  [v op ANY rows]: TRUE if it holds
    for some row, else NULL if some row is NULL, else FALSE. *)
Definition all_spec (op : match_op) (v : value) (rows : list value) (r : value) : Prop :=
  ((exists x, In x rows /\ x <> VNull /\ ~ holds op v x) -> r = FALSE) /\
  ((forall x, In x rows -> x <> VNull -> holds op v x) ->
     (In VNull rows -> r = VNull) /\ (~ In VNull rows -> r = TRUE)).
Definition any_spec (op : match_op) (v : value) (rows : list value) (r : value) : Prop :=
  ((exists x, In x rows /\ x <> VNull /\ holds op v x) -> r = TRUE) /\
  ((forall x, In x rows -> x <> VNull -> ~ holds op v x) ->
     (In VNull rows -> r = VNull) /\ (~ In VNull rows -> r = FALSE)).

Lemma all_loop_spec mag op v rows : memcmp_ok mag -> value_ok v -> Forall value_ok rows -> forall hn,
  match all_loop mag op v rows hn with
  | (false, _) => exists x, In x rows /\ x <> VNull /\ ~ holds op v x
  | (true, hn') => (forall x, In x rows -> x <> VNull -> holds op v x) /\ (hn' = true <-> hn = true \/ In VNull rows)
  end.
Proof.
  intros M Hv. induction rows as [|x l IH]; intros F hn; cbn [all_loop].
  - split; [intros ? []|]. cbn. tauto.
  - pose proof (Forall_inv F) as F0. pose proof (Forall_inv_tail F) as F1.
    assert (x = VNull \/ x <> VNull) as [->|NX] by (destruct x; auto; right; discriminate).
    + specialize (IH F1 true). destruct (all_loop mag op v l true) as [[|] hn'].
      * destruct IH as [A B]. split.
        { intros x [<-|Hx] N; [congruence|]. now apply A. }
        { rewrite B. cbn. tauto. }
      * destruct IH as (x & ? & ? & ?). exists x. split; [now right|tauto].
    + replace (match x with VNull => all_loop mag op v l true | _ => if negb (match_rc op (value_compare mag v x)) then (false, hn) else all_loop mag op v l hn end)
        with (if negb (match_rc op (value_compare mag v x)) then (false, hn) else all_loop mag op v l hn) by (destruct x; congruence).
      pose proof (match_holds mag op v x M Hv F0) as MH.
      destruct (match_rc op (value_compare mag v x)); cbn [negb].
      * specialize (IH F1 hn). destruct (all_loop mag op v l hn) as [[|] hn'].
        { destruct IH as [A B]. split.
          - intros y [<-|Hy] N; [tauto|]. now apply A.
          - rewrite B. cbn. split; [tauto|]. intros [?|[?|?]]; tauto || congruence. }
        { destruct IH as (y & ? & ? & ?). exists y. split; [now right|tauto]. }
      * exists x. split; [now left|]. split; [exact NX|]. intros C. apply MH in C. discriminate.
Qed.
Lemma any_loop_spec mag op v rows : memcmp_ok mag -> value_ok v -> Forall value_ok rows -> forall hn,
  match any_loop mag op v rows hn with
  | (true, _) => exists x, In x rows /\ x <> VNull /\ holds op v x
  | (false, hn') => (forall x, In x rows -> x <> VNull -> ~ holds op v x) /\ (hn' = true <-> hn = true \/ In VNull rows)
  end.
Proof.
  intros M Hv. induction rows as [|x l IH]; intros F hn; cbn [any_loop].
  - split; [intros ? []|]. cbn. tauto.
  - pose proof (Forall_inv F) as F0. pose proof (Forall_inv_tail F) as F1.
    assert (x = VNull \/ x <> VNull) as [->|NX] by (destruct x; auto; right; discriminate).
    + specialize (IH F1 true). destruct (any_loop mag op v l true) as [[|] hn'].
      * destruct IH as (x & ? & ? & ?). exists x. split; [now right|tauto].
      * destruct IH as [A B]. split.
        { intros x [<-|Hx] N; [congruence|]. now apply A. }
        { rewrite B. cbn. tauto. }
    + replace (match x with VNull => any_loop mag op v l true | _ => if match_rc op (value_compare mag v x) then (true, hn) else any_loop mag op v l hn end)
        with (if match_rc op (value_compare mag v x) then (true, hn) else any_loop mag op v l hn) by (destruct x; congruence).
      pose proof (match_holds mag op v x M Hv F0) as MH.
      destruct (match_rc op (value_compare mag v x)).
      * exists x. split; [now left|]. split; [exact NX|]. now apply MH.
      * specialize (IH F1 hn). destruct (any_loop mag op v l hn) as [[|] hn'].
        { destruct IH as (y & ? & ? & ?). exists y. split; [now right|tauto]. }
        { destruct IH as [A B]. split.
          - intros y [<-|Hy] N; [intros C; apply MH in C; discriminate|]. now apply A.
          - rewrite B. cbn. split; [tauto|]. intros [?|[?|?]]; tauto || congruence. }
Qed.

(** C54: every operator, every value that is not NULL and every list of rows or array
    elements (without NaN); a NULL operand gives NULL *)
Theorem C54_any_all_three_valued : forall mag op v rows, memcmp_ok mag -> value_ok v -> Forall value_ok rows ->
  (v <> VNull -> all_spec op v rows (op_all mag op v (Some rows)) /\ any_spec op v rows (op_any mag op v (Some rows))) /\
  op_all mag op VNull (Some rows) = VNull /\ op_any mag op VNull (Some rows) = VNull /\
  op_all mag op v None = VNull /\ op_any mag op v None = VNull.
Proof.
  intros mag op v rows M Hv F. split; [|repeat split; destruct v; reflexivity]. intros NV. split.
  - assert (op_all mag op v (Some rows) = let '(m, hn) := all_loop mag op v rows false in
      if m then (if hn then VNull else vbool true) else vbool false) as -> by (destruct v; try reflexivity; congruence).
    pose proof (all_loop_spec mag op v rows M Hv F false) as S. destruct (all_loop mag op v rows false) as [[|] hn].
    + destruct S as [A B]. split; [intros (x & Hx & NX & H); exfalso; exact (H (A x Hx NX))|]. intros _. split; intros HN.
      * replace hn with true by (symmetry; apply B; now right). reflexivity.
      * destruct hn; [|reflexivity]. exfalso. destruct (proj1 B eq_refl); [discriminate|tauto].
    + split; [intros _; reflexivity|]. intros A. destruct S as (x & Hx & NX & H). exfalso. exact (H (A x Hx NX)).
  - assert (op_any mag op v (Some rows) = let '(m, hn) := any_loop mag op v rows false in
      if m then vbool true else if hn then VNull else vbool false) as -> by (destruct v; try reflexivity; congruence).
    pose proof (any_loop_spec mag op v rows M Hv F false) as S. destruct (any_loop mag op v rows false) as [[|] hn].
    + split; [intros _; reflexivity|]. intros A. destruct S as (x & Hx & NX & H). exfalso. exact (A x Hx NX H).
    + destruct S as [A B]. split; [intros (x & Hx & NX & H); exfalso; exact (A x Hx NX H)|]. intros _. split; intros HN.
      * replace hn with true by (symmetry; apply B; now right). reflexivity.
      * destruct hn; [|reflexivity]. exfalso. destruct (proj1 B eq_refl); [discriminate|tauto].
Qed.
Print Assumptions C54_any_all_three_valued.
Example C54_nonvacuous :
  op_all Z.sub LT (VInt 1) (Some [VInt 2; VNull; VInt 3]) = VNull /\ op_all Z.sub LT (VInt 1) (Some [VInt 2; VNull; VInt 0]) = FALSE /\
  op_all Z.sub GTE (VInt 1) (Some []) = TRUE /\ op_any Z.sub EQU (VInt 1) (Some [VNull; VInt 1]) = TRUE /\
  op_any Z.sub EQU (VInt 1) (Some [VNull; VInt 2]) = VNull.
Proof. vm_compute. auto 10. Qed.

(** ** C55: AND, OR, NOT *)
(** the truth value of an operand: unknown for NULL *)
Definition truth (v : value) : option bool :=
  match v with
  | VNull => None
  | VInt z | VBool z | VDate z | VTimestamp z => Some (0 <? z)
  | VDouble d => Some (negb (dbl_is_nan d) && (0 <? dbl_key d))
  | VString s => Some (negb (Nat.eqb (length s) 0))
  | VVector l => Some (negb (Nat.eqb (length l) 0))
  | _ => Some true
  end.
(** SQL (Kleene) logic *)
Definition k_and (a b : option bool) : option bool :=
  match a, b with
  | Some false, _ | _, Some false => Some false
  | Some true, Some true => Some true
  | _, _ => None
  end.
Definition k_or (a b : option bool) : option bool :=
  match a, b with
  | Some true, _ | _, Some true => Some true
  | Some false, Some false => Some false
  | _, _ => None
  end.
Definition of_truth (t : option bool) : value := match t with None => VNull | Some true => TRUE | Some false => FALSE end.
Definition no_interval (v : value) : Prop := match v with VInterval _ _ _ => False | _ => True end.

Lemma is_true_truth v : no_interval v -> v <> VNull -> exists b, is_true v = Ok b /\ truth v = Some b.
Proof.
  destruct v; cbn; intros H N; try tauto; try congruence; eexists; (split; [reflexivity|]); try reflexivity.
  destruct v; reflexivity.
Qed.
(** C55 (part): when both operands are not NULL (and not intervals); NOT always *)
Theorem C55_logic_partial : forall a b, no_interval a -> no_interval b -> a <> VNull -> b <> VNull ->
  op_and a b = Ok (of_truth (k_and (truth a) (truth b))) /\
  op_or a b = Ok (of_truth (k_or (truth a) (truth b))).
Proof.
  intros a b Ia Ib Na Nb. destruct (is_true_truth a Ia Na) as (x & Ex & ->). destruct (is_true_truth b Ib Nb) as (y & Ey & ->).
  assert (op_and a b = do x <- is_true a; if x then do y <- is_true b; Ok (vbool y) else Ok (vbool false)) as -> by (destruct a, b; try reflexivity; congruence).
  assert (op_or a b = do x <- is_true a; if x then Ok (vbool true) else do y <- is_true b; Ok (vbool y)) as -> by (destruct a, b; try reflexivity; congruence).
  rewrite Ex. cbn [bind]. destruct x; rewrite ?Ey; destruct y; cbn; auto.
Qed.
Print Assumptions C55_logic_partial.
Theorem C55_not : forall a, no_interval a -> op_not a = Ok (of_truth (option_map negb (truth a))).
Proof.
  intros a Ia. destruct a; try reflexivity; try tauto; destruct (is_true_truth _ Ia ltac:(discriminate)) as (x & Ex & ->);
    cbn [op_not]; rewrite Ex; cbn; destruct x; reflexivity.
Qed.
Print Assumptions C55_not.
Example C55_nonvacuous : op_and (VInt 3) (VString []) = Ok FALSE /\ op_or (VInt 0) (VBool 1) = Ok TRUE /\ op_not (VDate 0) = Ok TRUE.
Proof. vm_compute. auto. Qed.
(** C55 is false of the code: NULL AND FALSE is NULL, NULL OR FALSE is FALSE, and a
    condition on an interval uses its bytes as an address. *)
Theorem C55_null_refuted :
  op_and VNull FALSE <> Ok (of_truth (k_and (truth VNull) (truth FALSE))) /\
  op_or VNull FALSE <> Ok (of_truth (k_or (truth VNull) (truth FALSE))) /\
  forall m d u, op_not (VInterval m d u) = UB.
Proof. split; [vm_compute; congruence|]. split; [vm_compute; congruence|reflexivity]. Qed.
Print Assumptions C55_null_refuted.
