(** Shared vocabulary of the model: outcomes, bytes, little-endian integers.
    Nothing here models a particular function of /repo; it fixes how C values
    are represented.  A byte is a [Z] between 0 and 255. *)
From Coq Require Export List ZArith Lia Bool Arith.
From Coq Require Export ZifyBool ZifyNat.
Export ListNotations.
Open Scope Z_scope.

(** Outcome of a C function: a value, a raised [error()] (the database reports
    an error to the client and nothing else happens), or undefined behaviour. *)
Inductive res (A : Type) : Type :=
| Ok (a : A)
| Err
| UB.
Arguments Ok {A} a.
Arguments Err {A}.
Arguments UB {A}.

Definition bind {A B} (m : res A) (f : A -> res B) : res B :=
  match m with Ok a => f a | Err => Err | UB => UB end.
Notation "'do' x <- m ; f" := (bind m (fun x => f))
  (at level 200, x pattern, m at level 100, f at level 200).

Definition byte_ok (b : Z) : bool := (0 <=? b) && (b <? 256).
Definition bytes_ok (l : list Z) : bool := forallb byte_ok l.

(** memory read of one byte at the head of the remaining buffer;
    reading past the end is undefined behaviour. *)
Definition rd_u8 (l : list Z) : res (Z * list Z) :=
  match l with [] => UB | b :: r => Ok (b, r) end.

(** [n] bytes at the head of the remaining buffer *)
Fixpoint rd_n (n : nat) (l : list Z) : res (list Z * list Z) :=
  match n with
  | O => Ok ([], l)
  | S n' => match l with
            | [] => UB
            | b :: r => match rd_n n' r with
                        | Ok (x, r') => Ok (b :: x, r')
                        | Err => Err
                        | UB => UB
                        end
            end
  end.

(** little-endian store / load of an [n]-byte unsigned integer
    (all supported targets of the project are little-endian) *)
Fixpoint le_enc (n : nat) (v : Z) : list Z :=
  match n with
  | O => []
  | S n' => (v mod 256) :: le_enc n' (v / 256)
  end.

Fixpoint le_dec (l : list Z) : Z :=
  match l with
  | [] => 0
  | b :: r => b + 256 * le_dec r
  end.

(** two's complement reading of an [n]-byte unsigned value *)
Definition sx (n : nat) (v : Z) : Z :=
  if v <? 2 ^ (8 * Z.of_nat n - 1) then v else v - 2 ^ (8 * Z.of_nat n).

Lemma le_enc_length n v : length (le_enc n v) = n.
Proof. revert v; induction n as [|n IH]; intros v; cbn [le_enc length]; [reflexivity|now rewrite IH]. Qed.

Lemma le_enc_ok n v : bytes_ok (le_enc n v) = true.
Proof.
  revert v; induction n as [|n IH]; intros v; cbn [le_enc bytes_ok forallb]; [reflexivity|].
  apply andb_true_intro; split; [|apply IH].
  unfold byte_ok. pose proof (Z.mod_pos_bound v 256 ltac:(lia)). lia.
Qed.

Lemma le_dec_enc n v : 0 <= v < 2 ^ (8 * Z.of_nat n) -> le_dec (le_enc n v) = v.
Proof.
  revert v; induction n as [|n IH]; intros v Hv.
  - cbn [le_enc le_dec]. change (8 * Z.of_nat 0) with 0 in Hv. rewrite Z.pow_0_r in Hv. lia.
  - cbn [le_enc le_dec].
    rewrite Nat2Z.inj_succ in Hv.
    replace (8 * Z.succ (Z.of_nat n)) with (8 + 8 * Z.of_nat n) in Hv by lia.
    rewrite Z.pow_add_r in Hv by lia. change (2 ^ 8) with 256 in Hv.
    rewrite IH.
    + pose proof (Z.div_mod v 256 ltac:(lia)). lia.
    + split; [apply Z.div_pos; lia|].
      apply Z.div_lt_upper_bound; lia.
Qed.

Lemma le_dec_enc_mod n v : le_dec (le_enc n v) = v mod 2 ^ (8 * Z.of_nat n).
Proof.
  revert v; induction n as [|n IH]; intros v.
  - cbn [le_enc le_dec]. change (2 ^ (8 * Z.of_nat 0)) with 1. now rewrite Z.mod_1_r.
  - cbn [le_enc le_dec]. rewrite IH, Nat2Z.inj_succ.
    replace (8 * Z.succ (Z.of_nat n)) with (8 + 8 * Z.of_nat n) by lia.
    rewrite Z.pow_add_r by lia. change (2 ^ 8) with 256.
    rewrite Z.rem_mul_r; lia.
Qed.

Lemma le_dec_bound l : bytes_ok l = true -> 0 <= le_dec l < 2 ^ (8 * Z.of_nat (length l)).
Proof.
  induction l as [|b r IH]; intros H.
  - cbn [le_dec length]. change (2 ^ (8 * Z.of_nat 0)) with 1. lia.
  - cbn [bytes_ok forallb] in H. apply andb_prop in H; destruct H as [Hb Hr].
    specialize (IH Hr). unfold byte_ok in Hb. cbn [le_dec length].
    rewrite Nat2Z.inj_succ.
    replace (8 * Z.succ (Z.of_nat (length r))) with (8 + 8 * Z.of_nat (length r)) by lia.
    rewrite Z.pow_add_r by lia. change (2 ^ 8) with 256. lia.
Qed.

Lemma le_enc_dec l : bytes_ok l = true -> le_enc (length l) (le_dec l) = l.
Proof.
  induction l as [|b r IH]; intros H; [reflexivity|].
  cbn [bytes_ok forallb] in H. apply andb_prop in H; destruct H as [Hb Hr].
  unfold byte_ok in Hb. cbn [length le_enc le_dec].
  replace ((b + 256 * le_dec r) mod 256) with b.
  - replace ((b + 256 * le_dec r) / 256) with (le_dec r).
    + now rewrite IH.
    + symmetry. replace (b + 256 * le_dec r) with (le_dec r * 256 + b) by lia.
      rewrite Z.div_add_l by lia. rewrite Z.div_small; lia.
  - symmetry. replace (b + 256 * le_dec r) with (b + le_dec r * 256) by lia.
    rewrite Z.mod_add by lia. apply Z.mod_small; lia.
Qed.

Lemma sx_mod n v : (0 < n)%nat ->
  - 2 ^ (8 * Z.of_nat n - 1) <= v < 2 ^ (8 * Z.of_nat n - 1) ->
  sx n (v mod 2 ^ (8 * Z.of_nat n)) = v.
Proof.
  intros Hn Hv. unfold sx.
  assert (Hp : 2 ^ (8 * Z.of_nat n) = 2 * 2 ^ (8 * Z.of_nat n - 1)).
  { replace (8 * Z.of_nat n) with (1 + (8 * Z.of_nat n - 1)) at 1 by lia.
    rewrite Z.pow_add_r by lia. reflexivity. }
  set (P := 2 ^ (8 * Z.of_nat n - 1)) in *. rewrite Hp.
  assert (0 < P) by (apply Z.pow_pos_nonneg; lia).
  destruct (Z_lt_le_dec v 0) as [Hneg|Hpos].
  - replace (v mod (2 * P)) with (v + 2 * P).
    + destruct (Z.ltb_spec (v + 2 * P) P); lia.
    + symmetry. rewrite <- (Z.mod_add v 1 (2 * P)) by lia. rewrite Z.mod_small; lia.
  - rewrite Z.mod_small by lia. destruct (Z.ltb_spec v P); lia.
Qed.

Lemma sx_small n v : (0 < n)%nat -> 0 <= v < 2 ^ (8 * Z.of_nat n - 1) -> sx n v = v.
Proof. intros Hn Hv. unfold sx. destruct (Z.ltb_spec v (2 ^ (8 * Z.of_nat n - 1))); lia. Qed.

Lemma rd_n_app l rest n : length l = n -> rd_n n (l ++ rest) = Ok (l, rest).
Proof.
  intros <-. induction l as [|b l IH]; cbn [length app rd_n]; [reflexivity|].
  now rewrite IH.
Qed.

Lemma rd_n_ok n l x r : rd_n n l = Ok (x, r) -> l = x ++ r /\ length x = n.
Proof.
  revert l x r; induction n as [|n IH]; intros l x r H; cbn [rd_n] in H.
  - injection H as <- <-. split; reflexivity.
  - destruct l as [|b l]; [discriminate|].
    destruct (rd_n n l) as [[y r']| |] eqn:E; try discriminate.
    injection H as <- <-. apply IH in E. destruct E as [-> <-]. split; reflexivity.
Qed.

Lemma bytes_ok_app a b : bytes_ok (a ++ b) = bytes_ok a && bytes_ok b.
Proof. unfold bytes_ok. apply forallb_app. Qed.

(** lexicographic comparison of byte strings, used by several specifications *)
Fixpoint bytes_eqb (a b : list Z) : bool :=
  match a, b with
  | [], [] => true
  | x :: a', y :: b' => (x =? y) && bytes_eqb a' b'
  | _, _ => false
  end.

Lemma bytes_eqb_eq a b : bytes_eqb a b = true <-> a = b.
Proof.
  revert b; induction a as [|x a IH]; intros [|y b]; cbn [bytes_eqb]; split; intros H;
    try reflexivity; try discriminate.
  - apply andb_prop in H; destruct H as [H1 H2]. apply Z.eqb_eq in H1. apply IH in H2. now subst.
  - injection H as -> ->. rewrite Z.eqb_refl. cbn. now apply IH.
Qed.

Lemma bytes_eqb_refl a : bytes_eqb a a = true.
Proof. now apply bytes_eqb_eq. Qed.
