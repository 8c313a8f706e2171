(** Proofs about UnionModel. *)
From Coq Require Import Permutation Sorted.
From Verif Require Import Base TreeSpec UnionModel.
Local Open Scope nat_scope.

Section P.
Context {A : Type} (cmp : A -> A -> Z).
Notation ustate := (@ustate A).
Notation ustep := (ustep cmp).
Notation step := (step cmp).

(** the rows an iterator step function delivers until the end *)
Inductive yields (t : utype) : ustate -> list A -> Prop :=
| y_nil s s' : ustep t s = (s', None) -> yields t s []
| y_cons s s' x l : ustep t s = (s', Some x) -> yields t s' l -> yields t s (x :: l).

Lemma yields_fun t s l l' : yields t s l -> yields t s l' -> l = l'.
Proof.
  intros Y. revert l'. induction Y as [s s' E|s s' x l E Y IH]; intros l' Y'; inversion Y' as [? ? E'|? ? ? ? E' Y'']; subst.
  - reflexivity.
  - rewrite E in E'. discriminate.
  - rewrite E in E'. discriminate.
  - rewrite E in E'. injection E' as <- <-. f_equal. now apply IH.
Qed.

Lemma drain_next t s l : yields t s l -> forall f lim c,
  drain cmp t f (unext cmp t (mkit s lim c)) = firstn (Nat.min f (Z.to_nat lim)) l.
Proof.
  induction 1 as [s s' E|s s' x l E Y IH]; intros f lim c.
  - destruct f as [|f]; [reflexivity|]. cbn [drain]. unfold unext. cbn [ilimit ist].
    rewrite firstn_nil. destruct (lim <=? 0)%Z; [reflexivity|]. rewrite E. reflexivity.
  - destruct f as [|f]; [reflexivity|]. cbn [drain].
    destruct (lim <=? 0)%Z eqn:L.
    + unfold unext at 1. cbn [ilimit ist]. rewrite L. cbn [icur]. replace (Z.to_nat lim) with 0 by lia. reflexivity.
    + assert (unext cmp t (mkit s lim c) = mkit s' (lim - 1)%Z (Some x)) as -> by (unfold unext; cbn [ilimit ist]; rewrite L, E; reflexivity).
      cbn [icur]. rewrite IH.
      replace (Nat.min (S f) (Z.to_nat lim)) with (S (Nat.min f (Z.to_nat (lim - 1)))) by lia. reflexivity.
Qed.

Lemma skip_offset_next t s l : yields t s l -> forall o lim c, (Z.of_nat (length l) < lim)%Z ->
  exists s' lim' c', skip_offset cmp t o (unext cmp t (mkit s lim c)) = mkit s' lim' c' /\
    match skipn o l with
    | [] => c' = None
    | x :: r => c' = Some x /\ yields t s' r
    end.
Proof.
  induction 1 as [s s' E|s s' x l E Y IH]; intros o lim c HL; cbn [length] in HL.
  - unfold unext. cbn [ilimit ist]. replace (lim <=? 0)%Z with false by lia. rewrite E.
    exists s', (lim - 1)%Z, None. rewrite skipn_nil. split; [|reflexivity]. destruct o; reflexivity.
  - unfold unext. cbn [ilimit ist]. replace (lim <=? 0)%Z with false by lia. rewrite E.
    destruct o as [|o].
    + exists s', (lim - 1)%Z, (Some x). split; [reflexivity|]. split; [reflexivity|exact Y].
    + cbn [skip_offset icur skipn]. apply IH. lia.
Qed.

Lemma union_rows_yields t L l lim o : yields t (mkust L None) l -> length l <= total L ->
  (0 <= lim)%Z -> (Z.of_nat (total L) < INT64_MAX)%Z ->
  union_rows cmp t L lim o = firstn (Z.to_nat lim) (skipn o l).
Proof.
  intros Y Hl Hlim HT. unfold union_rows. unfold uopen.
  destruct L as [|x0 L0].
  { cbn in Hl. destruct l; [|cbn in Hl; lia]. cbn. rewrite skipn_nil, firstn_nil. reflexivity. }
  set (L := x0 :: L0) in *. destruct o as [|o].
  - cbn [ist]. rewrite (drain_next t _ _ Y). cbn [skipn].
    destruct (Nat.le_gt_cases (Z.to_nat lim) (S (total L))) as [C|C].
    + f_equal. lia.
    + rewrite !firstn_all2 by lia. reflexivity.
  - destruct (skip_offset_next t _ _ Y (S o) INT64_MAX None ltac:(lia)) as (s' & lim' & c' & E & R).
    rewrite E. cbn [ist icur].
    assert (length (skipn (S o) l) <= total L - S o \/ skipn (S o) l = []) as LS.
    { left. rewrite skipn_length. lia. }
    destruct (skipn (S o) l) as [|x r].
    + subst c'. rewrite firstn_nil. cbn [drain icur]. destruct (lim - 1 <? 0)%Z; reflexivity.
    + destruct R as [-> Yr]. cbn [drain icur]. destruct (lim - 1 <? 0)%Z eqn:E0.
      * replace (Z.to_nat lim) with 0 by lia. reflexivity.
      * rewrite (drain_next t _ _ Yr). destruct LS as [LS|]; [|discriminate]. cbn [length] in LS.
        replace (Z.to_nat lim) with (S (Z.to_nat (lim - 1))) by lia. cbn [firstn]. f_equal.
        destruct (Nat.le_gt_cases (Z.to_nat (lim - 1)) (total L)) as [C|C].
        { f_equal. lia. }
        rewrite !firstn_all2 by lia. reflexivity.
Qed.

(** *** UNION ALL *)
Definition valid (s : ustate) : Prop :=
  match ucur s with Some i => nth i (uits s) [] <> [] | None => True end.

Lemma pick_first_spec (l : list (list A)) : forall k,
  match pick_first l k with
  | Some (i, x) => exists j, i = k + j /\ j < length l /\ hd_error (nth j l []) = Some x /\
        concat l = x :: concat (advance l j)
  | None => concat l = []
  end.
Proof.
  induction l as [|y l IH]; intros k; cbn [pick_first]; [reflexivity|].
  destruct y as [|a y].
  - specialize (IH (S k)). destruct (pick_first l (S k)) as [[i x]|]; [|exact IH].
    destruct IH as (j & -> & Hj & Hh & C). exists (S j). split; [lia|]. split; [cbn; lia|]. split; [exact Hh|]. exact C.
  - exists 0. split; [lia|]. split; [cbn; lia|]. split; reflexivity.
Qed.

Lemma all_yields n : forall s, total (advance_current s) <= n -> yields UALL s (concat (advance_current s)).
Proof.
  induction n as [|n IH]; intros s Hn; unfold total in Hn.
  - pose proof (pick_first_spec (advance_current s) 0) as P.
    destruct (pick_first (advance_current s) 0) as [[i x]|] eqn:E.
    + destruct P as (j & _ & _ & _ & C). rewrite C in Hn. cbn in Hn. lia.
    + rewrite P. eapply y_nil. cbn [UnionModel.ustep]. unfold step_all. rewrite E. reflexivity.
  - pose proof (pick_first_spec (advance_current s) 0) as P.
    destruct (pick_first (advance_current s) 0) as [[i x]|] eqn:E.
    + destruct P as (j & -> & _ & _ & C). rewrite C. eapply y_cons.
      * cbn [UnionModel.ustep]. unfold step_all. rewrite E. reflexivity.
      * change (advance (advance_current s) j) with (advance_current (mkust (advance_current s) (Some (0 + j)))).
        apply IH. unfold total, advance_current at 1. cbn [ucur uits Nat.add]. rewrite C in Hn. cbn [length] in Hn. lia.
    + rewrite P. eapply y_nil. cbn [UnionModel.ustep]. unfold step_all. rewrite E. reflexivity.
Qed.

(** *** ordered union: structure of a step, for any comparison *)
Lemma pick_min_head (l : list (list A)) : forall k m,
  match pick_min cmp l k m with
  | Some (i, x) => (m = Some (i, x)) \/
        exists j, i = k + j /\ j < length l /\ hd_error (nth j l []) = Some x
  | None => m = None /\ concat l = []
  end.
Proof.
  induction l as [|y l IH]; intros k m; cbn [pick_min].
  - destruct m as [[i x]|]; [now left|now split].
  - destruct y as [|a y].
    + specialize (IH (S k) m). destruct (pick_min cmp l (S k) m) as [[i x]|]; [|exact IH].
      destruct IH as [->|(j & -> & Hj & Hh)]; [now left|right]. exists (S j). split; [lia|]. split; [cbn; lia|exact Hh].
    + destruct m as [[i0 m0]|].
      * specialize (IH (S k) (if (cmp m0 a =? 1)%Z then Some (k, a) else Some (i0, m0))).
        destruct (pick_min cmp l (S k) _) as [[i x]|].
        { destruct IH as [E|(j & -> & Hj & Hh)].
          - destruct (cmp m0 a =? 1)%Z; [|now left]. injection E as <- <-. right. exists 0. split; [lia|]. split; [cbn; lia|reflexivity].
          - right. exists (S j). split; [lia|]. split; [cbn; lia|exact Hh]. }
        { destruct IH as [E _]. destruct (cmp m0 a =? 1)%Z; discriminate. }
      * specialize (IH (S k) (Some (k, a))). destruct (pick_min cmp l (S k) _) as [[i x]|].
        { destruct IH as [E|(j & -> & Hj & Hh)].
          - injection E as <- <-. right. exists 0. split; [lia|]. split; [cbn; lia|reflexivity].
          - right. exists (S j). split; [lia|]. split; [cbn; lia|exact Hh]. }
        { destruct IH as [E _]. discriminate. }
Qed.

Lemma advance_perm (l : list (list A)) : forall j x, hd_error (nth j l []) = Some x ->
  Permutation (concat l) (x :: concat (advance l j)).
Proof.
  induction l as [|y l IH]; intros [|j] x H; cbn in H; try discriminate.
  - destruct y; cbn in H; [discriminate|]. injection H as ->. reflexivity.
  - cbn [concat advance]. rewrite (IH j x H). symmetry. apply Permutation_middle.
Qed.
Lemma hd_valid {B} (l : list B) x : hd_error l = Some x -> l <> [].
Proof. destruct l; [discriminate|congruence]. Qed.

Lemma step_spec s :
  match step s with
  | (s', Some x) => uits s' = advance_current s /\ exists j, ucur s' = Some j /\ hd_error (nth j (uits s') []) = Some x /\
        Permutation (concat (advance_current s)) (x :: concat (advance_current s'))
  | (s', None) => uits s' = advance_current s /\ ucur s' = None /\ concat (advance_current s) = []
  end.
Proof.
  unfold UnionModel.step. pose proof (pick_min_head (advance_current s) 0 None) as P.
  destruct (pick_min cmp (advance_current s) 0 None) as [[i x]|].
  - destruct P as [?|(j & -> & Hj & Hh)]; [discriminate|]. cbn [uits ucur Nat.add]. split; [reflexivity|].
    exists j. split; [reflexivity|]. split; [exact Hh|]. now apply advance_perm.
  - cbn. tauto.
Qed.

Lemma ordered_yields n : forall s, total (advance_current s) <= n ->
  exists l, yields UORDERED s l /\ Permutation (concat (advance_current s)) l.
Proof.
  induction n as [|n IH]; intros s Hn; unfold total in *; pose proof (step_spec s) as P; destruct (step s) as [s' [x|]] eqn:E.
  - destruct P as (_ & j & _ & _ & C). apply Permutation_length in C. cbn in C. lia.
  - destruct P as (_ & _ & C). exists []. split; [eapply y_nil; exact E|now rewrite C].
  - destruct P as (_ & j & _ & _ & C). pose proof (Permutation_length C) as CL. cbn [length] in CL.
    destruct (IH s' ltac:(lia)) as (l & Y & Pl). exists (x :: l). split; [eapply y_cons; eauto|].
    rewrite C. now constructor.
  - destruct P as (_ & _ & C). exists []. split; [eapply y_nil; exact E|now rewrite C].
Qed.

(** *** the ordered union sorts, when the comparison is an order with results -1, 0, 1 *)
Section Ordered.
Hypothesis KO : key_order cmp.
Hypothesis TV : three_valued cmp.
Definition le (a b : A) : Prop := (cmp a b <= 0)%Z.

Lemma cmp_self a : cmp a a = 0%Z.
Proof. pose proof (ko_opp _ KO a a). destruct (TV a a) as [E|[E|E]]; rewrite E in *; cbn in *; lia. Qed.
Lemma le_trans a b c : le a b -> le b c -> le a c.
Proof. apply (ko_trans _ KO). Qed.

Lemma pick_min_le (l : list (list A)) : forall k m,
  match pick_min cmp l k m with
  | Some (i, x) => (forall i0 m0, m = Some (i0, m0) -> le x m0) /\
        forall y r, In (y :: r) l -> le x y
  | None => True
  end.
Proof.
  induction l as [|y l IH]; intros k m; cbn [pick_min].
  - destruct m as [[i x]|]; [|exact I]. split; [|intros ? ? []].
    intros i0 m0 [= <- <-]. unfold le. rewrite cmp_self. lia.
  - destruct y as [|a y].
    + specialize (IH (S k) m). destruct (pick_min cmp l (S k) m) as [[i x]|]; [|exact I].
      destruct IH as [H1 H2]. split; [exact H1|]. intros z r [?|Hz]; [discriminate|]. now apply (H2 z r).
    + destruct m as [[i0 m0]|].
      * pose proof (IH (S k) (if (cmp m0 a =? 1)%Z then Some (k, a) else Some (i0, m0))) as IH'.
        destruct (pick_min cmp l (S k) _) as [[i x]|]; [|exact I]. destruct IH' as [H1 H2].
        destruct (cmp m0 a =? 1)%Z eqn:E.
        { specialize (H1 _ _ eq_refl). split.
          - intros i1 m1 [= <- <-]. eapply le_trans; [exact H1|]. unfold le.
            pose proof (ko_opp _ KO m0 a) as O. rewrite (proj1 (Z.eqb_eq _ _) E) in O. cbn in O. lia.
          - intros z r [[= <- <-]|Hz]; [exact H1|]. now apply (H2 z r). }
        { specialize (H1 _ _ eq_refl). split.
          - intros i1 m1 [= <- <-]. exact H1.
          - intros z r [[= <- <-]|Hz]; [|now apply (H2 z r)]. eapply le_trans; [exact H1|].
            unfold le. destruct (TV m0 a) as [?|[?|?]]; lia. }
      * pose proof (IH (S k) (Some (k, a))) as IH'. destruct (pick_min cmp l (S k) _) as [[i x]|]; [|exact I].
        destruct IH' as [H1 H2]. specialize (H1 _ _ eq_refl). split; [discriminate|].
        intros z r [[= <- <-]|Hz]; [exact H1|]. now apply (H2 z r).
Qed.

Definition sorted_in (l : list (list A)) : Prop := Forall (StronglySorted le) l.

Lemma advance_sorted l : forall j, sorted_in l -> sorted_in (advance l j).
Proof.
  induction l as [|y l IH]; intros [|j] H; cbn [advance]; auto;
    pose proof (Forall_inv H) as H0; pose proof (Forall_inv_tail H) as H1; constructor; auto.
  - destruct y; [constructor|]. cbn [tl]. now inversion H0.
  - now apply IH.
Qed.

Lemma sorted_min l x : sorted_in l -> (forall y r, In (y :: r) l -> le x y) -> forall z, In z (concat l) -> le x z.
Proof.
  intros S H z Hz. apply in_concat in Hz as (p & Hp & Hz).
  pose proof (proj1 (Forall_forall _ _) S p Hp) as Sp. destruct p as [|y r]; [destruct Hz|].
  specialize (H y r Hp). destruct Hz as [->|Hz]; [exact H|].
  eapply le_trans; [exact H|]. inversion Sp as [|? ? _ F]. exact (proj1 (Forall_forall _ _) F z Hz).
Qed.

Lemma ordered_sorted s l : yields UORDERED s l -> sorted_in (advance_current s) -> StronglySorted le l.
Proof.
  induction 1 as [s s' E|s s' x l E Y IH]; intros S; [constructor|].
  cbn [UnionModel.ustep] in E. pose proof (step_spec s) as P. rewrite E in P. destruct P as (U & j & Uc & Hh & C).
  assert (sorted_in (advance_current s')) as S'.
  { unfold advance_current. rewrite Uc, U. now apply advance_sorted. }
  constructor; [now apply IH|].
  destruct (ordered_yields _ s' (le_n _)) as (l' & Y' & P').
  pose proof (yields_fun _ _ _ _ Y Y') as <-.
  apply Forall_forall. intros z Hz.
  unfold UnionModel.step in E. pose proof (pick_min_le (advance_current s) 0 None) as PM.
  destruct (pick_min cmp (advance_current s) 0 None) as [[i m]|]; [|discriminate].
  injection E as _ <-. destruct PM as [_ PM]. apply (sorted_min _ _ S PM).
  eapply Permutation_in; [symmetry; exact C|]. right. eapply Permutation_in; [symmetry; exact P'|exact Hz].
Qed.
End Ordered.

(** *** distinct: the first row of each run of equal rows of the ordered union *)
Fixpoint drop_eq (x : A) (l : list A) : list A :=
  match l with
  | [] => []
  | y :: r => if (cmp x y =? 0)%Z then drop_eq x r else l
  end.
Lemma drop_eq_length x l : length (drop_eq x l) <= length l.
Proof. induction l as [|y l IH]; cbn; [lia|]. destruct (cmp x y =? 0)%Z; cbn; lia. Qed.

(* the rows still to be considered by step_distinct *)
Inductive pending : ustate -> list A -> Prop :=
| p_none s l : ucur s = None -> yields UORDERED s l -> pending s l
| p_some s i x l : ucur s = Some i -> hd_error (nth i (uits s) []) = Some x -> yields UORDERED s l -> pending s (x :: l).

Lemma yields_total s l : yields UORDERED s l -> length l = total (advance_current s).
Proof.
  intros Y. destruct (ordered_yields _ s (le_n _)) as (l' & Y' & P').
  pose proof (yields_fun _ _ _ _ Y Y') as <-.
  unfold total. symmetry. now apply Permutation_length.
Qed.

Lemma skip_equal_spec x : forall l s f, yields UORDERED s l -> length l < f ->
  pending (skip_equal cmp f s x) (drop_eq x l).
Proof.
  induction l as [|y l IH]; intros s f Y Hf; (destruct f as [|f]; [cbn in Hf; lia|]); cbn [skip_equal drop_eq];
    inversion Y as [s0 s' E|s0 s' x0 l0 E Y']; subst; cbn [UnionModel.ustep] in E; rewrite E.
  - pose proof (step_spec s) as P. rewrite E in P. destruct P as (U & Uc & C).
    constructor; [exact Uc|]. eapply y_nil. cbn [UnionModel.ustep]. unfold UnionModel.step.
    assert (advance_current s' = advance_current s) as ->.
    { unfold advance_current at 1. rewrite Uc. exact U. }
    unfold UnionModel.step in E. destruct (pick_min cmp (advance_current s) 0 None) as [[? ?]|]; [discriminate|]. reflexivity.
  - cbn [length] in Hf. destruct (cmp x y =? 0)%Z eqn:Ex.
    + apply IH; [exact Y'|lia].
    + pose proof (step_spec s) as P. rewrite E in P. destruct P as (U & j & Uc & Hh & C).
      eapply p_some; eauto.
Qed.

Fixpoint dedup_n (n : nat) (l : list A) : list A :=
  match n with
  | O => []
  | S n' => match l with [] => [] | x :: r => x :: dedup_n n' (drop_eq x r) end
  end.

Lemma pending_bound s l : pending s l -> length l <= total (uits s).
Proof.
  intros [s0 l0 Uc Y|s0 i x l0 Uc Hh Y].
  - rewrite (yields_total _ _ Y). unfold advance_current. rewrite Uc. lia.
  - cbn [length]. rewrite (yields_total _ _ Y). unfold advance_current. rewrite Uc.
    pose proof (Permutation_length (advance_perm _ _ _ Hh)) as E. cbn [length] in E. unfold total. lia.
Qed.

Lemma distinct_yields n : forall s l, pending s l -> length l <= n -> yields UDISTINCT s (dedup_n n l).
Proof.
  induction n as [|n IH]; intros s l P Hn.
  - destruct l; [|cbn in Hn; lia]. inversion P as [s0 l0 Uc Y|]; subst.
    inversion Y as [s1 s' E|]; subst. cbn [dedup_n]. eapply y_nil. cbn [UnionModel.ustep] in E |- *.
    unfold step_distinct. rewrite Uc, E. reflexivity.
  - destruct l as [|x l].
    + inversion P as [s0 l0 Uc Y|]; subst.
      inversion Y as [s1 s' E|]; subst. cbn [dedup_n]. eapply y_nil. cbn [UnionModel.ustep] in E |- *.
      unfold step_distinct. rewrite Uc, E. reflexivity.
    + cbn [dedup_n]. cbn [length] in Hn. inversion P as [s0 l0 Uc Y|s0 i x0 l0 Uc Hh Y]; subst.
      * inversion Y as [|s1 s' x0 l0 E Y']; subst. cbn [UnionModel.ustep] in E.
        eapply y_cons; [cbn [UnionModel.ustep]; unfold step_distinct; rewrite Uc, E; reflexivity|].
        apply IH; [|pose proof (drop_eq_length x l); lia].
        apply skip_equal_spec; [exact Y'|].
        pose proof (step_spec s) as Q. rewrite E in Q. destruct Q as (U & j & Ucj & Hh & C).
        pose proof (pending_bound s' (x :: l) ltac:(eapply p_some; eauto)) as B. cbn [length] in B. lia.
      * eapply y_cons; [cbn [UnionModel.ustep]; unfold step_distinct; rewrite Uc, Hh; reflexivity|].
        apply IH; [|pose proof (drop_eq_length x l); lia].
        apply skip_equal_spec; [exact Y|].
        pose proof (pending_bound s (x :: l) P) as B. cbn [length] in B. lia.
Qed.

Lemma dedup_length n : forall l, length (dedup_n n l) <= length l.
Proof.
  induction n as [|n IH]; intros [|x l]; cbn [dedup_n length]; try lia.
  pose proof (IH (drop_eq x l)). pose proof (drop_eq_length x l). lia.
Qed.
Lemma drop_eq_in x l y : In y (drop_eq x l) -> In y l.
Proof. induction l as [|z l IH]; cbn; [tauto|]. destruct (cmp x z =? 0)%Z; cbn; tauto. Qed.
Lemma dedup_in n : forall l y, In y (dedup_n n l) -> In y l.
Proof.
  induction n as [|n IH]; intros [|x l] y; cbn; try tauto. intros [->|H]; [tauto|]. right.
  eapply drop_eq_in, IH, H.
Qed.
Section Ordered2.
Hypothesis KO : key_order cmp.
Hypothesis TV : three_valued cmp.
Lemma cmp_eq_sym a b : cmp a b = 0%Z -> cmp b a = 0%Z.
Proof. intros H. pose proof (ko_opp _ KO a b) as O. rewrite H in O. cbn in O. destruct (TV b a) as [E|[E|E]]; rewrite E in *; cbn in *; lia. Qed.
Lemma dedup_cover n : forall l y, length l <= n -> In y l -> exists z, In z (dedup_n n l) /\ cmp z y = 0%Z.
Proof.
  induction n as [|n IH]; intros [|x l] y Hn Hy; cbn in Hn; try (destruct Hy; fail); try lia.
  cbn [dedup_n]. destruct Hy as [->|Hy].
  - exists y. split; [now left|]. now apply (cmp_self KO TV).
  - assert (In y (drop_eq x l) \/ cmp x y = 0%Z) as [Hd|Hd].
    { clear -Hy. induction l as [|z l IHl]; [destruct Hy|]. cbn. destruct (cmp x z =? 0)%Z eqn:E; [|now left].
      destruct Hy as [->|Hy]; [right; lia|]. now apply IHl. }
    + destruct (IH (drop_eq x l) y) as (z & Hz & E); auto; [pose proof (drop_eq_length x l); lia|].
      exists z. split; [now right|exact E].
    + exists x. split; [now left|exact Hd].
Qed.
Lemma drop_eq_sorted x l : StronglySorted le l -> StronglySorted le (drop_eq x l).
Proof. induction 1 as [|y l S IH F]; cbn; [constructor|]. destruct (cmp x y =? 0)%Z; [exact IH|now constructor]. Qed.
Lemma drop_eq_lt x l : StronglySorted le l -> Forall (le x) l -> Forall (fun y => (cmp x y < 0)%Z) (drop_eq x l).
Proof.
  induction 1 as [|y l S IH F]; intros HF; cbn; [constructor|].
  pose proof (Forall_inv HF) as H0. pose proof (Forall_inv_tail HF) as H1.
  destruct (cmp x y =? 0)%Z eqn:E; [now apply IH|].
  assert (cmp x y < 0)%Z as L by (unfold le in H0; lia).
  constructor; [exact L|]. apply Forall_forall. intros z Hz.
  pose proof (proj1 (Forall_forall _ _) F z Hz) as Lz.
  (* x < y <= z *)
  pose proof (ko_trans _ KO x y z ltac:(lia) Lz) as T.
  destruct (TV x z) as [Q|[Q|Q]]; try lia. exfalso.
  pose proof (cmp_eq_sym _ _ Q) as Q'. unfold le in Lz.
  pose proof (ko_trans _ KO y z x Lz ltac:(lia)) as T2. pose proof (ko_opp _ KO x y) as O.
  destruct (TV x y) as [W|[W|W]]; rewrite W in O; cbn in O; lia.
Qed.
Lemma dedup_sorted n : forall l, StronglySorted le l -> StronglySorted (fun a b => (cmp a b < 0)%Z) (dedup_n n l).
Proof.
  induction n as [|n IH]; intros l S; [constructor|]. cbn [dedup_n]. destruct l as [|x l]; [constructor|].
  inversion S as [|? ? S' F]; subst. constructor; [apply IH, drop_eq_sorted, S'|].
  apply Forall_forall. intros y Hy. apply dedup_in in Hy.
  exact (proj1 (Forall_forall _ _) (drop_eq_lt x l S' F) y Hy).
Qed.
End Ordered2.
End P.
