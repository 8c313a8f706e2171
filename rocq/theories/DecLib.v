(** Decimal text: what printf prints for integers (C standard, %d and %0wd), and lemmas. *)
From Verif Require Import Base.
Local Open Scope Z_scope.

Definition is_digit (b : Z) : bool := (48 <=? b) && (b <=? 57). (* isdigit *)
(** the digits of 0 <= n < 10^f without leading zeros *)
Fixpoint digits (f : nat) (n : Z) : list Z :=
  match f with
  | O => []
  | S f' => if n <? 10 then [48 + n] else digits f' (n / 10) ++ [48 + n mod 10]
  end.
(** "%d" of a value of at most 64 bits *)
Definition dec (n : Z) : list Z := if n <? 0 then 45 :: digits 20 (- n) else digits 20 n.
(** exactly w digits of 0 <= n < 10^w *)
Fixpoint fixed (w : nat) (n : Z) : list Z :=
  match w with O => [] | S w' => fixed w' (n / 10) ++ [48 + n mod 10] end.
(** "%0wd" of n >= 0 *)
Definition pad (w : nat) (n : Z) : list Z := if n <? 10 ^ Z.of_nat w then fixed w n else digits 20 n.
(** the number that digits stand for *)
Definition num (l : list Z) : Z := fold_left (fun a b => a * 10 + (b - 48)) l 0.

Lemma num_snoc l b : num (l ++ [b]) = num l * 10 + (b - 48).
Proof. unfold num. now rewrite fold_left_app. Qed.
Lemma pow10_S f : 10 ^ Z.of_nat (S f) = 10 * 10 ^ Z.of_nat f.
Proof. rewrite Nat2Z.inj_succ, Z.pow_succ_r by lia. reflexivity. Qed.
Lemma pow10_pos f : 0 < 10 ^ Z.of_nat f.
Proof. apply Z.pow_pos_nonneg; lia. Qed.
Lemma div10 n f : 0 <= n < 10 ^ Z.of_nat (S f) -> 0 <= n / 10 < 10 ^ Z.of_nat f.
Proof. rewrite pow10_S. intros H. split; [apply Z.div_pos; lia|apply Z.div_lt_upper_bound; lia]. Qed.
Lemma digits_num f : forall n, 0 <= n < 10 ^ Z.of_nat f -> num (digits f n) = n.
Proof.
  induction f as [|f IH]; intros n H; [change (10 ^ Z.of_nat 0) with 1 in H; cbn; lia|]. cbn [digits].
  destruct (Z.ltb_spec n 10); [unfold num; cbn [fold_left]; lia|]. rewrite num_snoc, IH by now apply div10.
  pose proof (Z.div_mod n 10 ltac:(lia)). lia.
Qed.
Lemma digit_ok d : 0 <= d < 10 -> is_digit (48 + d) = true.
Proof. unfold is_digit. lia. Qed.
Lemma digits_ok f : forall n, 0 <= n -> forallb is_digit (digits f n) = true.
Proof.
  induction f as [|f IH]; intros n H; [reflexivity|]. cbn [digits]. destruct (Z.ltb_spec n 10).
  - cbn [forallb]. rewrite digit_ok by lia. reflexivity.
  - rewrite forallb_app, IH by (apply Z.div_pos; lia). cbn [forallb]. rewrite digit_ok by (apply Z.mod_pos_bound; lia). reflexivity.
Qed.
Lemma digits_nonempty f n : digits (S f) n <> [].
Proof. cbn [digits]. destruct (n <? 10); [discriminate|]. destruct (digits f (n / 10)); discriminate. Qed.
Lemma fixed_num w : forall n, 0 <= n < 10 ^ Z.of_nat w -> num (fixed w n) = n.
Proof.
  induction w as [|w IH]; intros n H; [change (10 ^ Z.of_nat 0) with 1 in H; cbn; lia|]. cbn [fixed]. rewrite num_snoc, IH by now apply div10.
  pose proof (Z.div_mod n 10 ltac:(lia)). lia.
Qed.
Lemma fixed_ok w : forall n, forallb is_digit (fixed w n) = true.
Proof.
  induction w as [|w IH]; intros n; [reflexivity|]. cbn [fixed]. rewrite forallb_app, IH. cbn [forallb]. rewrite digit_ok by (apply Z.mod_pos_bound; lia). reflexivity.
Qed.
Lemma fixed_length w n : length (fixed w n) = w.
Proof. revert n. induction w as [|w IH]; intros n; [reflexivity|]. cbn [fixed]. rewrite app_length, IH. cbn. lia. Qed.
Lemma num_bound l : forallb is_digit l = true -> 0 <= num l < 10 ^ Z.of_nat (length l).
Proof.
  induction l as [|b l IH] using rev_ind; intros H; [cbn; lia|]. rewrite forallb_app in H. apply andb_prop in H as [H1 H2]. cbn [forallb] in H2. unfold is_digit in H2.
  rewrite num_snoc, app_length. cbn [length]. rewrite Nat.add_1_r, pow10_S. specialize (IH H1). lia.
Qed.
Lemma fixed_of_num l : forallb is_digit l = true -> fixed (length l) (num l) = l.
Proof.
  induction l as [|b l IH] using rev_ind; intros H; [reflexivity|]. rewrite forallb_app in H. apply andb_prop in H as [H1 H2]. cbn [forallb] in H2. unfold is_digit in H2.
  rewrite app_length. cbn [length]. rewrite Nat.add_1_r. cbn [fixed]. rewrite num_snoc.
  replace ((num l * 10 + (b - 48)) / 10) with (num l) by (rewrite Z.div_add_l by lia; rewrite Z.div_small; lia).
  replace ((num l * 10 + (b - 48)) mod 10) with (b - 48) by (rewrite Z.add_comm, Z.mod_add by lia; rewrite Z.mod_small; lia).
  rewrite IH by exact H1. f_equal. f_equal. lia.
Qed.
Lemma pad_fixed w n : n < 10 ^ Z.of_nat w -> pad w n = fixed w n.
Proof. unfold pad. intros H. destruct (Z.ltb_spec n (10 ^ Z.of_nat w)); [reflexivity|lia]. Qed.
