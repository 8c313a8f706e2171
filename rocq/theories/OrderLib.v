(** Generic facts on lexicographic comparison, used by several order proofs. *)
From Verif Require Import Base.

Section Lex.
Context {A : Type} (cmp : A -> A -> comparison).

Fixpoint lex (a b : list A) : comparison :=
  match a, b with
  | [], [] => Eq
  | [], _ :: _ => Lt
  | _ :: _, [] => Gt
  | x :: a', y :: b' => match cmp x y with Eq => lex a' b' | c => c end
  end.

Hypothesis cmp_eq : forall x y, cmp x y = Eq <-> x = y.
Hypothesis cmp_opp : forall x y, cmp y x = CompOpp (cmp x y).
Hypothesis cmp_trans : forall x y z, cmp x y = Lt -> cmp y z = Lt -> cmp x z = Lt.

Lemma lex_eq a b : lex a b = Eq <-> a = b.
Proof.
  revert b; induction a as [|x a IH]; intros [|y b]; cbn [lex]; split; intros H;
    try reflexivity; try discriminate.
  - destruct (cmp x y) eqn:E; try discriminate. apply cmp_eq in E. apply IH in H. now subst.
  - injection H as -> ->. rewrite (proj2 (cmp_eq y y) eq_refl). now apply IH.
Qed.

Lemma lex_opp a b : lex b a = CompOpp (lex a b).
Proof.
  revert b; induction a as [|x a IH]; intros [|y b]; cbn [lex]; try reflexivity.
  rewrite (cmp_opp x y). destruct (cmp x y); cbn [CompOpp]; auto.
Qed.

Lemma lex_trans a b c : lex a b = Lt -> lex b c = Lt -> lex a c = Lt.
Proof.
  revert b c; induction a as [|x a IH]; intros [|y b] [|z c]; cbn [lex]; intros H1 H2;
    try reflexivity; try discriminate.
  destruct (cmp x y) eqn:E1; try discriminate.
  - apply cmp_eq in E1; subst. destruct (cmp y z); try discriminate; [|reflexivity]. eapply IH; eassumption.
  - destruct (cmp y z) eqn:E2; try discriminate.
    + apply cmp_eq in E2; subst. rewrite E1. reflexivity.
    + rewrite (cmp_trans x y z) by assumption. reflexivity.
Qed.
End Lex.

Definition lexZ := lex Z.compare.
Lemma zcmp_opp x y : (y ?= x) = CompOpp (x ?= y).
Proof. apply Z.compare_antisym. Qed.
Lemma zcmp_trans x y z : (x ?= y) = Lt -> (y ?= z) = Lt -> (x ?= z) = Lt.
Proof. rewrite !Z.compare_lt_iff. lia. Qed.
Lemma lexZ_eq a b : lexZ a b = Eq <-> a = b.
Proof. apply lex_eq. apply Z.compare_eq_iff. Qed.
Lemma lexZ_opp a b : lexZ b a = CompOpp (lexZ a b).
Proof. apply lex_opp. intros; apply zcmp_opp. Qed.
Lemma lexZ_trans a b c : lexZ a b = Lt -> lexZ b c = Lt -> lexZ a c = Lt.
Proof. apply lex_trans; [apply Z.compare_eq_iff|apply zcmp_trans]. Qed.

Definition lexZZ := lex lexZ.
Lemma lexZZ_eq a b : lexZZ a b = Eq <-> a = b.
Proof. apply lex_eq. apply lexZ_eq. Qed.
Lemma lexZZ_opp a b : lexZZ b a = CompOpp (lexZZ a b).
Proof. apply lex_opp. intros; apply lexZ_opp. Qed.
Lemma lexZZ_trans a b c : lexZZ a b = Lt -> lexZZ b c = Lt -> lexZZ a c = Lt.
Proof. apply lex_trans; [apply lexZ_eq|apply lexZ_trans]. Qed.

(** sign of a comparison *)
Definition csgn (c : comparison) : Z := match c with Eq => 0 | Lt => -1 | Gt => 1 end.
Lemma csgn_opp c : csgn (CompOpp c) = - csgn c.
Proof. now destruct c. Qed.
Lemma csgn_inj a b : csgn a = csgn b -> a = b.
Proof. destruct a, b; cbn; congruence. Qed.
Lemma csgn_zcmp x y : csgn (x ?= y) = Z.sgn (x - y).
Proof.
  destruct (Z.compare_spec x y); cbn [csgn]; [subst; now rewrite Z.sub_diag| |]; symmetry.
  - apply Z.sgn_neg. lia.
  - apply Z.sgn_pos. lia.
Qed.
