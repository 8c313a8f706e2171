(** Facts about single aggregates. *)
From Coq Require Import Permutation.
From Verif Require Import Base JsonModel ValueModel ValueProps SetProps AggModel AggSpec.

Definition i64 (z : Z) : Prop := - 2 ^ 63 <= z < 2 ^ 63.
Lemma wrap64_id z : i64 z -> wrap64 z = z.
Proof. unfold i64, wrap64. intros H. rewrite Z.mod_small; lia. Qed.
Lemma wrap64_add_l a b : wrap64 (wrap64 a + b) = wrap64 (a + b).
Proof.
  unfold wrap64. f_equal. replace ((a + 2 ^ 63) mod 2 ^ 64 - 2 ^ 63 + b + 2 ^ 63) with ((a + 2 ^ 63) mod 2 ^ 64 + b) by lia.
  rewrite Z.add_mod_idemp_l by lia. f_equal. lia.
Qed.
Lemma wrap64_add_r a b : wrap64 (a + wrap64 b) = wrap64 (a + b).
Proof. rewrite Z.add_comm, wrap64_add_l. f_equal. lia. Qed.

Lemma zsum_app a b : zsum (a ++ b) = zsum a + zsum b.
Proof. induction a as [|x a IH]; cbn; [reflexivity|]. unfold zsum in *. rewrite IH. lia. Qed.
Lemma zmin_spec x l m : zmin x l = m <-> In m (x :: l) /\ forall y, In y (x :: l) -> m <= y.
Proof.
  assert (In (zmin x l) (x :: l) /\ forall y, In y (x :: l) -> zmin x l <= y) as [A B].
  { induction l as [|y l [IH1 IH2]]; cbn.
    - split; [now left|]. intros y [->|[]]; lia.
    - fold (zmin x l). split.
      + destruct (Z.min_spec y (zmin x l)) as [[_ ->]|[_ ->]]; [right; now left|]. destruct IH1 as [IH1|IH1]; auto.
      + intros z [->|[->|Hz]]; [specialize (IH2 z (or_introl eq_refl)); lia|lia|specialize (IH2 z (or_intror Hz)); lia]. }
  split; [intros <-; auto|]. intros [C D]. specialize (B m C). specialize (D _ A). lia.
Qed.
Lemma zmax_spec x l m : zmax x l = m <-> In m (x :: l) /\ forall y, In y (x :: l) -> y <= m.
Proof.
  assert (In (zmax x l) (x :: l) /\ forall y, In y (x :: l) -> y <= zmax x l) as [A B].
  { induction l as [|y l [IH1 IH2]]; cbn.
    - split; [now left|]. intros y [->|[]]; lia.
    - fold (zmax x l). split.
      + destruct (Z.max_spec y (zmax x l)) as [[_ ->]|[_ ->]]; [destruct IH1 as [IH1|IH1]; auto|right; now left].
      + intros z [->|[->|Hz]]; [specialize (IH2 z (or_introl eq_refl)); lia|lia|specialize (IH2 z (or_intror Hz)); lia]. }
  split; [intros <-; auto|]. intros [C D]. specialize (B m C). specialize (D _ A). lia.
Qed.
Lemma agg_spec_perm t l l' : Permutation l l' -> agg_spec t l = agg_spec t l'.
Proof.
  intros P. destruct l as [|x l].
  - apply Permutation_nil in P. now subst.
  - destruct l' as [|y l']; [apply Permutation_sym, Permutation_nil in P; discriminate|].
    assert (forall z, In z (x :: l) <-> In z (y :: l')) as S by (intros z; split; apply Permutation_in; [exact P|now apply Permutation_sym]).
    assert (zsum (x :: l) = zsum (y :: l')) as Su.
    { clear S. induction P as [|a u v P IH|a b u|u v w P1 IH1 P2 IH2]; cbn in *; unfold zsum in *; cbn in *; lia. }
    unfold agg_spec. destruct t; rewrite ?Su, ?(Permutation_length P); try reflexivity.
    + f_equal. apply zmin_spec. destruct (proj1 (zmin_spec y l' _) eq_refl) as [A B].
      split; [now apply S|]. intros z Hz. apply B. now apply S.
    + f_equal. apply zmax_spec. destruct (proj1 (zmax_spec y l' _) eq_refl) as [A B].
      split; [now apply S|]. intros z Hz. apply B. now apply S.
Qed.
Lemma compute_spec t l z : i64 z -> Z.of_nat (length l) < 2 ^ 31 ->
  agg_compute t (agg_spec t l) z = agg_spec t (l ++ [z]).
Proof.
  intros Hz L. rewrite (agg_spec_perm t (l ++ [z]) (z :: l)) by (apply Permutation_sym, Permutation_cons_append).
  destruct l as [|x l].
  - destruct t; cbn -[Z.pow wrap64]; rewrite ?Z.add_0_r; try reflexivity.
    + now rewrite wrap64_id.
  - unfold agg_spec. destruct t; cbn [agg_compute].
    + f_equal. rewrite wrap64_id by (unfold i64; cbn [length] in *; lia). cbn [length]. lia.
    + destruct (Z.ltb_spec z (zmin x l)); f_equal; symmetry; apply zmin_spec;
        destruct (proj1 (zmin_spec x l _) eq_refl) as [A B].
      * split; [now left|]. intros y [<-|Hy]; [lia|]. specialize (B y Hy). lia.
      * split; [now right|]. intros y [<-|Hy]; [lia|]. now apply B.
    + destruct (Z.ltb_spec (zmax x l) z); f_equal; symmetry; apply zmax_spec;
        destruct (proj1 (zmax_spec x l _) eq_refl) as [A B].
      * split; [now left|]. intros y [<-|Hy]; [lia|]. specialize (B y Hy). lia.
      * split; [now right|]. intros y [<-|Hy]; [lia|]. now apply B.
    + rewrite wrap64_add_l. f_equal. f_equal. cbn. unfold zsum. cbn. lia.
    + rewrite wrap64_add_l. f_equal; [f_equal; cbn; unfold zsum; cbn; lia|].
      rewrite Z.mod_small by (cbn [length] in *; lia). cbn [length]. lia.
Qed.
Lemma merge_spec t l l' : Z.of_nat (length l) + Z.of_nat (length l') < 2 ^ 31 ->
  agg_merge t (agg_spec t l) (agg_spec t l') = agg_spec t (l ++ l').
Proof.
  intros L. destruct l as [|x l]; [cbn [app]; destruct l', t; reflexivity|].
  destruct l' as [|y l']; [rewrite app_nil_r; destruct t; reflexivity|].
  assert (forall z, In z (x :: l ++ y :: l') <-> In z (x :: l) \/ In z (y :: l')) as S.
  { intros z. change (x :: l ++ y :: l') with ((x :: l) ++ y :: l'). apply in_app_iff. }
  unfold agg_spec. cbn [app]. destruct t; cbn [agg_merge].
  - f_equal. rewrite wrap64_id by (unfold i64; lia). cbn [length]. rewrite app_length. cbn [length]. lia.
  - destruct (proj1 (zmin_spec x l _) eq_refl) as [A B]. destruct (proj1 (zmin_spec y l' _) eq_refl) as [A' B'].
    destruct (Z.ltb_spec (zmin y l') (zmin x l)); f_equal; symmetry; apply zmin_spec;
      (split; [apply S; auto|]); intros z Hz; apply S in Hz as [Hz|Hz]; first [specialize (B z Hz); lia|specialize (B' z Hz); lia].
  - destruct (proj1 (zmax_spec x l _) eq_refl) as [A B]. destruct (proj1 (zmax_spec y l' _) eq_refl) as [A' B'].
    destruct (Z.ltb_spec (zmax x l) (zmax y l')); f_equal; symmetry; apply zmax_spec;
      (split; [apply S; auto|]); intros z Hz; apply S in Hz as [Hz|Hz]; first [specialize (B z Hz); lia|specialize (B' z Hz); lia].
  - rewrite wrap64_add_l, wrap64_add_r. f_equal. f_equal. change (x :: l ++ y :: l') with ((x :: l) ++ y :: l'). now rewrite zsum_app.
  - rewrite wrap64_add_l, wrap64_add_r. f_equal.
    + f_equal. change (x :: l ++ y :: l') with ((x :: l) ++ y :: l'). now rewrite zsum_app.
    + rewrite Z.mod_small with (b := 2 ^ 32) by lia. unfold sx.
      change (x :: l ++ y :: l') with ((x :: l) ++ y :: l'). rewrite app_length.
      replace (_ <? _) with true by lia. rewrite Z.mod_small; lia.
Qed.
