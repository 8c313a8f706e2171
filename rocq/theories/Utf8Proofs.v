(** Proofs about UTF-8 strings. *)
From Verif Require Import Base CodecProps Utf8Model Utf8Spec.
Local Open Scope Z_scope.

Lemma lor_k k x y : 0 <= k -> x mod 2 ^ k = 0 -> 0 <= y < 2 ^ k -> Z.lor x y = x + y.
Proof.
  intros Hk Hx Hy. assert (0 < 2 ^ k) by (apply Z.pow_pos_nonneg; lia). pose proof (Z.div_mod x (2 ^ k) ltac:(lia)) as E.
  rewrite Hx, Z.add_0_r in E. rewrite E at 1. rewrite Z.mul_comm, <- Z.shiftl_mul_pow2 by lia. rewrite lor_shift by lia. lia.
Qed.
(** the tests of a byte, all bytes *)
Definition byte_facts (b : Z) : bool :=
  Bool.eqb (Z.land b 128 =? 0) (b <? 128) && Bool.eqb (Z.land b 224 =? 192) ((192 <=? b) && (b <? 224)) &&
  Bool.eqb (Z.land b 240 =? 224) ((224 <=? b) && (b <? 240)) && Bool.eqb (Z.land b 248 =? 240) ((240 <=? b) && (b <? 248)) &&
  Bool.eqb (is_cont b) ((128 <=? b) && (b <? 192)).
Definition mask_facts (b : Z) : bool :=
  (if (192 <=? b) && (b <? 224) then Z.land b (Z.lnot 192) =? b - 192 else true) &&
  (if (224 <=? b) && (b <? 240) then Z.land b (Z.lnot 224) =? b - 224 else true) &&
  (if (240 <=? b) && (b <? 248) then Z.land b (Z.lnot 240) =? b - 240 else true) &&
  (if (128 <=? b) && (b <? 192) then Z.land b (Z.lnot 128) =? b - 128 else true).
Lemma byte_tests b : 0 <= b < 256 ->
  (Z.land b 128 =? 0) = (b <? 128) /\ (Z.land b 224 =? 192) = ((192 <=? b) && (b <? 224)) /\
  (Z.land b 240 =? 224) = ((224 <=? b) && (b <? 240)) /\ (Z.land b 248 =? 240) = ((240 <=? b) && (b <? 248)) /\
  is_cont b = ((128 <=? b) && (b <? 192)).
Proof.
  intros H. assert (E : byte_facts b = true) by (apply (enum 256 byte_facts); [vm_compute; reflexivity|lia]).
  unfold byte_facts in E. repeat (apply andb_prop in E as [E ?]). repeat match goal with H : Bool.eqb _ _ = true |- _ => apply eqb_prop in H end. auto.
Qed.
Lemma byte_masks b : 0 <= b < 256 ->
  (192 <= b < 224 -> Z.land b (Z.lnot 192) = b - 192) /\ (224 <= b < 240 -> Z.land b (Z.lnot 224) = b - 224) /\
  (240 <= b < 248 -> Z.land b (Z.lnot 240) = b - 240) /\ (128 <= b < 192 -> Z.land b (Z.lnot 128) = b - 128).
Proof.
  intros H. assert (E : mask_facts b = true) by (apply (enum 256 mask_facts); [vm_compute; reflexivity|lia]).
  unfold mask_facts in E. repeat (apply andb_prop in E as [E ?]).
  repeat split; intros Hb.
  all: repeat match goal with H : (if ?x then _ else true) = true |- _ => destruct x eqn:?; [apply Z.eqb_eq in H|clear H] end; try assumption; lia.
Qed.
Lemma cont_range b : 0 <= b < 256 -> (is_cont b = true <-> 128 <= b < 192).
Proof. intros H. destruct (byte_tests b H) as (_ & _ & _ & _ & ->). lia. Qed.
Lemma sizeof_range b : 0 <= b < 256 -> utf8_sizeof b = if b <? 128 then 1 else if (192 <=? b) && (b <? 224) then 2 else if (224 <=? b) && (b <? 240) then 3 else if (240 <=? b) && (b <? 248) then 4 else -1.
Proof. intros H. unfold utf8_sizeof. destruct (byte_tests b H) as (-> & -> & -> & -> & _). reflexivity. Qed.
Ltac tests b := let A := fresh in let H1 := fresh in let H2 := fresh in let H3 := fresh in let H4 := fresh in let H5 := fresh in
  assert (A : 0 <= b < 256) by (try lia; eucl); destruct (byte_tests b A) as (H1 & H2 & H3 & H4 & H5); rewrite ?H1, ?H2, ?H3, ?H4, ?H5; clear H1 H2 H3 H4 H5;
  let M1 := fresh in let M2 := fresh in let M3 := fresh in let M4 := fresh in
  destruct (byte_masks b A) as (M1 & M2 & M3 & M4).

(** the value of a sequence *)
Lemma val2 b x : 192 <= b < 224 -> 128 <= x < 192 -> Z.lor (Z.shiftl (Z.land b (Z.lnot 192)) 6) (Z.land x (Z.lnot 128)) = (b - 192) * 64 + (x - 128).
Proof.
  intros Hb Hx. destruct (byte_masks b ltac:(lia)) as (-> & _); [|lia]. destruct (byte_masks x ltac:(lia)) as (_ & _ & _ & ->); [|lia].
  rewrite lor_shift by (change (2 ^ 6) with 64; lia). now change (2 ^ 6) with 64.
Qed.
Lemma val3 b x y : 224 <= b < 240 -> 128 <= x < 192 -> 128 <= y < 192 ->
  Z.lor (Z.lor (Z.shiftl (Z.land b (Z.lnot 224)) 12) (Z.shiftl (Z.land x (Z.lnot 128)) 6)) (Z.land y (Z.lnot 128)) = (b - 224) * 4096 + (x - 128) * 64 + (y - 128).
Proof.
  intros Hb Hx Hy. destruct (byte_masks b ltac:(lia)) as (_ & -> & _); [|lia]. destruct (byte_masks x ltac:(lia)) as (_ & _ & _ & ->); [|lia]. destruct (byte_masks y ltac:(lia)) as (_ & _ & _ & ->); [|lia].
  rewrite !Z.shiftl_mul_pow2 by lia. change (2 ^ 12) with 4096. change (2 ^ 6) with 64.
  rewrite (lor_k 12 ((b - 224) * 4096)) by (change (2 ^ 12) with 4096; eucl). rewrite (lor_k 6) by (change (2 ^ 6) with 64; eucl). lia.
Qed.
Lemma val4 b x y z : 240 <= b < 248 -> 128 <= x < 192 -> 128 <= y < 192 -> 128 <= z < 192 ->
  Z.lor (Z.lor (Z.lor (Z.shiftl (Z.land b (Z.lnot 240)) 18) (Z.shiftl (Z.land x (Z.lnot 128)) 12)) (Z.shiftl (Z.land y (Z.lnot 128)) 6)) (Z.land z (Z.lnot 128)) = (b - 240) * 262144 + (x - 128) * 4096 + (y - 128) * 64 + (z - 128).
Proof.
  intros Hb Hx Hy Hz. destruct (byte_masks b ltac:(lia)) as (_ & _ & -> & _); [|lia]. destruct (byte_masks x ltac:(lia)) as (_ & _ & _ & ->); [|lia]. destruct (byte_masks y ltac:(lia)) as (_ & _ & _ & ->); [|lia]. destruct (byte_masks z ltac:(lia)) as (_ & _ & _ & ->); [|lia].
  rewrite !Z.shiftl_mul_pow2 by lia. change (2 ^ 18) with 262144. change (2 ^ 12) with 4096. change (2 ^ 6) with 64.
  rewrite (lor_k 18 ((b - 240) * 262144)) by (change (2 ^ 18) with 262144; eucl). rewrite (lor_k 12 _ ((y - 128) * 64)) by (change (2 ^ 12) with 4096; eucl). rewrite (lor_k 6) by (change (2 ^ 6) with 64; eucl). lia.
Qed.
Lemma utf8_cases c : code c ->
  (c < 128 /\ utf8 c = [c]) \/
  (128 <= c < 2048 /\ utf8 c = [192 + c / 64; 128 + c mod 64] /\ 194 <= 192 + c / 64 < 224 /\ 128 <= 128 + c mod 64 < 192) \/
  (2048 <= c < 65536 /\ utf8 c = [224 + c / 4096; 128 + c / 64 mod 64; 128 + c mod 64] /\ 224 <= 224 + c / 4096 < 240 /\ 128 <= 128 + c / 64 mod 64 < 192 /\ 128 <= 128 + c mod 64 < 192) \/
  (65536 <= c /\ utf8 c = [240 + c / 262144; 128 + c / 4096 mod 64; 128 + c / 64 mod 64; 128 + c mod 64] /\ 240 <= 240 + c / 262144 < 248 /\ 128 <= 128 + c / 4096 mod 64 < 192 /\ 128 <= 128 + c / 64 mod 64 < 192 /\ 128 <= 128 + c mod 64 < 192).
Proof.
  unfold code, utf8. intros H. destruct (Z.ltb_spec c 128); [auto|]. right. destruct (Z.ltb_spec c 2048).
  - left. split; [lia|]. split; [reflexivity|]. eucl.
  - right. destruct (Z.ltb_spec c 65536); [left|right]; (split; [lia|]; split; [reflexivity|]); eucl.
Qed.
(** decoding a code point *)
Ltac hyp := assumption || eassumption.
Lemma cont_true b : 128 <= b < 192 -> is_cont b = true.
Proof. intros H. apply cont_range; lia. Qed.
Lemma lead_tests b : 0 <= b < 256 -> Z.land b 128 =? 0 = (b <? 128) /\ (Z.land b 224 =? 192) = ((192 <=? b) && (b <? 224)) /\ (Z.land b 240 =? 224) = ((224 <=? b) && (b <? 240)) /\ (Z.land b 248 =? 240) = ((240 <=? b) && (b <? 248)).
Proof. intros H. destruct (byte_tests b H) as (A & B & C & D & _). auto. Qed.
(** the reads of utf8_next are within the string *)
Lemma next_eq s : utf8_next s =
  match s with
  | [] => UB
  | b :: _ =>
    let n := Z.of_nat (length s) in
    if Z.land b 128 =? 0 then Ok (Some b, skipn 1 s)
    else if (Z.land b 224 =? 192) && (2 <=? n) && is_cont (at_ s 1) then
      let u := Z.lor (Z.shiftl (Z.land b (Z.lnot 192)) 6) (Z.land (at_ s 1) (Z.lnot 128)) in
      if u <? 128 then Ok (None, s) else Ok (Some u, skipn 2 s)
    else if (Z.land b 240 =? 224) && (3 <=? n) && is_cont (at_ s 1) && is_cont (at_ s 2) then
      let u := Z.lor (Z.lor (Z.shiftl (Z.land b (Z.lnot 224)) 12) (Z.shiftl (Z.land (at_ s 1) (Z.lnot 128)) 6)) (Z.land (at_ s 2) (Z.lnot 128)) in
      if u <? 2048 then Ok (None, s) else Ok (Some u, skipn 3 s)
    else if (Z.land b 248 =? 240) && (4 <=? n) && is_cont (at_ s 1) && is_cont (at_ s 2) && is_cont (at_ s 3) then
      let u := Z.lor (Z.lor (Z.lor (Z.shiftl (Z.land b (Z.lnot 240)) 18) (Z.shiftl (Z.land (at_ s 1) (Z.lnot 128)) 12)) (Z.shiftl (Z.land (at_ s 2) (Z.lnot 128)) 6)) (Z.land (at_ s 3) (Z.lnot 128)) in
      if u <? 65536 then Ok (None, s) else Ok (Some u, skipn 4 s)
    else Ok (None, s)
  end.
Proof.
  unfold utf8_next, cont_at, at_. destruct s as [|b s]; [reflexivity|]. cbv zeta. destruct (_ =? 0); [reflexivity|].
  destruct s as [|x [|y [|z s]]]; cbn [nth_error nth]; unfold band; destruct (Z.land b 224 =? 192), (Z.land b 240 =? 224), (Z.land b 248 =? 240); cbn [andb];
  repeat match goal with
  | |- context [?k <=? Z.of_nat (length ?l)] => first [replace (k <=? Z.of_nat (length l)) with true by (symmetry; apply Z.leb_le; cbn [length]; lia)|replace (k <=? Z.of_nat (length l)) with false by (symmetry; apply Z.leb_gt; cbn [length]; lia)]
  end; cbn [andb bind]; try reflexivity; destruct (is_cont x); cbn [bind andb]; try reflexivity; destruct (is_cont y); cbn [bind andb]; try reflexivity; destruct (is_cont z); reflexivity.
Qed.
Lemma next_enc c r : code c -> utf8_next (utf8 c ++ r) = Ok (Some c, r).
Proof.
  intros Hc. destruct (utf8_cases c Hc) as [(H & ->)|[(H & -> & Hb & Hx)|[(H & -> & Hb & Hx & Hy)|(H & -> & Hb & Hx & Hy & Hz)]]]; unfold code in Hc; rewrite next_eq; cbn [app length at_ nth skipn].
  - destruct (lead_tests c ltac:(lia)) as (-> & _). destruct (Z.ltb_spec c 128); [reflexivity|lia].
  - destruct (lead_tests (192 + c / 64) ltac:(lia)) as (-> & -> & _). destruct (Z.ltb_spec (192 + c / 64) 128); [lia|].
    rewrite (cont_true _ Hx). replace (_ && _) with true by lia.
    rewrite val2 by lia. replace ((192 + c / 64 - 192) * 64 + (128 + c mod 64 - 128)) with c by eucl. destruct (Z.ltb_spec c 128); [lia|reflexivity].
  - destruct (lead_tests (224 + c / 4096) ltac:(lia)) as (-> & -> & -> & _). destruct (Z.ltb_spec (224 + c / 4096) 128); [lia|].
    rewrite (cont_true _ Hx), (cont_true _ Hy). replace ((192 <=? 224 + c / 4096) && (224 + c / 4096 <? 224)) with false by lia. cbn [andb]. replace (_ && _) with true by lia.
    rewrite val3 by lia. replace (_ + _ + _) with c by (clear - Hc H; eucl). destruct (Z.ltb_spec c 2048); [lia|reflexivity].
  - destruct (lead_tests (240 + c / 262144) ltac:(lia)) as (-> & -> & -> & ->). destruct (Z.ltb_spec (240 + c / 262144) 128); [lia|].
    rewrite (cont_true _ Hx), (cont_true _ Hy), (cont_true _ Hz). replace ((192 <=? 240 + c / 262144) && (240 + c / 262144 <? 224)) with false by lia. replace ((224 <=? 240 + c / 262144) && (240 + c / 262144 <? 240)) with false by lia. cbn [andb]. replace (_ && _) with true by lia.
    rewrite val4 by lia. replace (_ + _ + _ + _) with c by (clear - Hc H; eucl). destruct (Z.ltb_spec c 65536); [lia|reflexivity].
Qed.
Lemma bytes_ok_nth s i : bytes_ok s = true -> (i < length s)%nat -> 0 <= nth i s 0 < 256.
Proof.
  intros H L. unfold bytes_ok in H. rewrite forallb_forall in H. specialize (H (nth i s 0) (nth_In s 0 L)). unfold byte_ok in H. lia.
Qed.
(** and only these *)
Lemma next_inv s c r : bytes_ok s = true -> utf8_next s = Ok (Some c, r) -> code c /\ s = utf8 c ++ r.
Proof.
  intros B H. rewrite next_eq in H. destruct s as [|b s]; [discriminate|]. destruct (bytes_cons b s B) as [Hb Bs].
  destruct (lead_tests b Hb) as (T1 & T2 & T3 & T4). rewrite T1, T2, T3, T4 in H.
  destruct (Z.ltb_spec b 128) as [L|L].
  { injection H as <- <-. split; [unfold code; lia|]. unfold utf8. destruct (Z.ltb_spec b 128); [reflexivity|lia]. }
  destruct s as [|x s]; [cbn in H; rewrite !andb_false_r in H; discriminate|]. destruct (bytes_cons x s Bs) as [Hx Bs2]. cbn [at_ nth length skipn] in H.
  match type of H with (if ?c then _ else _) = _ => destruct c eqn:E2 end.
  { assert (is_cont x = true) as Cx by (destruct (is_cont x); [reflexivity|rewrite !andb_false_r in E2; discriminate]). apply cont_range in Cx; [|lia].
    rewrite val2 in H by lia. destruct (Z.ltb_spec ((b - 192) * 64 + (x - 128)) 128); [discriminate|]. injection H as <- <-.
    split; [unfold code; lia|]. unfold utf8. destruct (Z.ltb_spec ((b - 192) * 64 + (x - 128)) 128); [lia|]. destruct (Z.ltb_spec ((b - 192) * 64 + (x - 128)) 2048); [|lia]. cbn [app]. f_equal; [eucl|f_equal; eucl]. }
  destruct s as [|y s]; [cbn in H; repeat first [rewrite !andb_false_r in H | rewrite andb_false_l in H]; cbn in H; try discriminate;
    destruct ((224 <=? b) && (b <? 240)), ((240 <=? b) && (b <? 248)); discriminate|].
  destruct (bytes_cons y s Bs2) as [Hy Bs3]. cbn [at_ nth length skipn] in H.
  match type of H with (if ?c then _ else _) = _ => destruct c eqn:E3 end.
  { assert (is_cont x = true /\ is_cont y = true) as [Cx Cy] by (destruct (is_cont x), (is_cont y); rewrite ?andb_false_r in E3; cbn in E3; auto; discriminate).
    apply cont_range in Cx, Cy; try lia. rewrite val3 in H by lia.
    match type of H with (if ?v <? _ then _ else _) = _ => set (u := v) in * end. destruct (Z.ltb_spec u 2048); [discriminate|]. injection H as <- <-.
    assert (Hu : u < 65536) by (subst u; lia).
    split; [unfold code; lia|]. unfold utf8. destruct (Z.ltb_spec u 128); [lia|]. destruct (Z.ltb_spec u 2048); [lia|]. destruct (Z.ltb_spec u 65536); [|lia]. cbn [app]. subst u.
    f_equal; [eucl|f_equal; [eucl|f_equal; eucl]]. }
  destruct s as [|z s]; [cbn in H; rewrite ?andb_false_r in H; cbn in H; destruct ((240 <=? b) && (b <? 248)); discriminate|].
  destruct (bytes_cons z s Bs3) as [Hz Bs4]. cbn [at_ nth length skipn] in H.
  match type of H with (if ?c then _ else _) = _ => destruct c eqn:E4 end; [|discriminate].
  assert (is_cont x = true /\ is_cont y = true /\ is_cont z = true) as (Cx & Cy & Cz) by (destruct (is_cont x), (is_cont y), (is_cont z); rewrite ?andb_false_r in E4; cbn in E4; auto; discriminate).
  apply cont_range in Cx, Cy, Cz; try lia. rewrite val4 in H by lia.
  match type of H with (if ?v <? _ then _ else _) = _ => set (u := v) in * end. destruct (Z.ltb_spec u 65536); [discriminate|]. injection H as <- <-.
  assert (Hu : u < 2097152) by (subst u; lia).
  split; [unfold code; lia|]. unfold utf8. destruct (Z.ltb_spec u 128); [lia|]. destruct (Z.ltb_spec u 2048); [lia|]. destruct (Z.ltb_spec u 65536); [lia|]. cbn [app]. subst u.
  f_equal; [eucl|f_equal; [eucl|f_equal; [eucl|f_equal; eucl]]].
Qed.
Lemma next_safe s : s <> [] -> utf8_next s <> UB.
Proof.
  intros N. rewrite next_eq. destruct s; [contradiction|]. cbv zeta.
  repeat match goal with |- (if ?c then _ else _) <> _ => destruct c end; discriminate.
Qed.
(** a character at the head of a text *)
Lemma take_enc c r : code c -> take_char (utf8 c ++ r) = Ok (utf8 c, r).
Proof.
  intros Hc. destruct (utf8_cases c Hc) as [(H & ->)|[(H & -> & Hb & Hx)|[(H & -> & Hb & Hx & Hy)|(H & -> & Hb & Hx & Hy & Hz)]]]; unfold code in Hc; cbn [app take_char length];
    rewrite sizeof_range by lia.
  - destruct (Z.ltb_spec c 128); [|lia]. destruct (_ || _) eqn:E; [lia|]. reflexivity.
  - destruct (Z.ltb_spec (192 + c / 64) 128); [lia|]. replace (_ && _) with true by lia. destruct (_ || _) eqn:E; [lia|]. reflexivity.
  - destruct (Z.ltb_spec (224 + c / 4096) 128); [lia|]. replace ((192 <=? _) && _) with false by lia. replace (_ && _) with true by lia. destruct (_ || _) eqn:E; [lia|]. reflexivity.
  - destruct (Z.ltb_spec (240 + c / 262144) 128); [lia|]. replace ((192 <=? _) && _) with false by lia. replace ((224 <=? _) && _) with false by lia. replace (_ && _) with true by lia. destruct (_ || _) eqn:E; [lia|]. reflexivity.
Qed.
Lemma utf8_nonempty c : code c -> exists b t, utf8 c = b :: t /\ 0 <= b < 256 /\ is_cont b = false /\ Forall (fun x => is_cont x = true) t /\ utf8_sizeof b = Z.of_nat (length (utf8 c)).
Proof.
  intros Hc. destruct (utf8_cases c Hc) as [(H & ->)|[(H & -> & Hb & Hx)|[(H & -> & Hb & Hx & Hy)|(H & -> & Hb & Hx & Hy & Hz)]]]; unfold code in Hc.
  all: do 2 eexists; split; [reflexivity|]; split; [lia|]; split; [match goal with |- is_cont ?b = false => destruct (is_cont b) eqn:E; [apply cont_range in E; lia|reflexivity] end|].
  all: split; [repeat constructor; now apply cont_true|]; rewrite sizeof_range by lia; cbn [length].
  - destruct (Z.ltb_spec c 128); [reflexivity|lia].
  - destruct (Z.ltb_spec (192 + c / 64) 128); [lia|]. replace (_ && _) with true by lia. reflexivity.
  - destruct (Z.ltb_spec (224 + c / 4096) 128); [lia|]. replace ((192 <=? _) && _) with false by lia. replace (_ && _) with true by lia. reflexivity.
  - destruct (Z.ltb_spec (240 + c / 262144) 128); [lia|]. replace ((192 <=? _) && _) with false by lia. replace ((224 <=? _) && _) with false by lia. replace (_ && _) with true by lia. reflexivity.
Qed.
Lemma utf8_bytes c : code c -> bytes_ok (utf8 c) = true.
Proof.
  intros Hc. destruct (utf8_cases c Hc) as [(H & ->)|[(H & -> & Hb & Hx)|[(H & -> & Hb & Hx & Hy)|(H & -> & Hb & Hx & Hy & Hz)]]]; unfold code in Hc; cbn [bytes_ok forallb]; unfold byte_ok; lia.
Qed.
Definition codes (l : list Z) : Prop := Forall code l.
Lemma utf8_inj c d r r' : code c -> code d -> utf8 c ++ r = utf8 d ++ r' -> c = d /\ r = r'.
Proof. intros Hc Hd E. pose proof (next_enc c r Hc) as A. pose proof (next_enc d r' Hd) as B. rewrite E, B in A. injection A as -> ->. auto. Qed.
Lemma bytes_eqb_eq a : forall b, bytes_eqb a b = true <-> a = b.
Proof.
  induction a as [|x a IH]; intros [|y b]; cbn; try (split; [discriminate|discriminate]); try tauto.
  rewrite andb_true_iff, IH, Z.eqb_eq. split; [intros [-> ->]; reflexivity|intros [= -> ->]; auto].
Qed.
Lemma chars_eqb c d : code c -> code d -> bytes_eqb (utf8 c) (utf8 d) = (c =? d).
Proof.
  intros Hc Hd. destruct (Z.eqb_spec c d) as [->|N]; [now apply bytes_eqb_eq|].
  destruct (bytes_eqb (utf8 c) (utf8 d)) eqn:E; [|reflexivity]. apply bytes_eqb_eq in E. exfalso. apply N.
  apply (utf8_inj c d [] [] Hc Hd). now rewrite !app_nil_r.
Qed.
Lemma text_cons c l : text (c :: l) = utf8 c ++ text l.
Proof. reflexivity. Qed.
Lemma text_app a b : text (a ++ b) = text a ++ text b.
Proof. unfold text. apply flat_map_app. Qed.
Lemma text_nil l : codes l -> text l = [] -> l = [].
Proof. intros H. destruct l as [|c l]; [auto|]. inversion H as [|? ? Hc _]; subst. destruct (utf8_nonempty c Hc) as (b & t & E & _). cbn. rewrite E. discriminate. Qed.
Lemma text_len l : codes l -> (length l <= length (text l))%nat.
Proof.
  induction 1 as [|c l Hc _ IH]; [cbn; lia|]. rewrite text_cons, app_length. destruct (utf8_nonempty c Hc) as (b & t & E & _). rewrite E. cbn. lia.
Qed.
Lemma text_inj a : forall b, codes a -> codes b -> text a = text b -> a = b.
Proof.
  induction a as [|c a IH]; intros b Ha Hb E; [symmetry; apply text_nil; [exact Hb|now symmetry]|].
  destruct b as [|d b]; [apply text_nil in E; [exact E|exact Ha]|]. inversion Ha; inversion Hb; subst. rewrite !text_cons in E. apply utf8_inj in E as [-> E]; [|assumption..]. f_equal. now apply IH.
Qed.
(** the form of the tests of the loops: a text is not empty *)
Lemma text_match {A} l (x y : A) : codes l -> match text l with [] => x | _ => y end = match l with [] => x | _ => y end.
Proof. intros H. destruct l as [|c l]; [reflexivity|]. inversion H as [|? ? Hc _]; subst. destruct (utf8_nonempty c Hc) as (b & t & E & _). rewrite text_cons, E. reflexivity. Qed.
Lemma strlen_text l : codes l -> utf8_strlen (text l) = Z.of_nat (length l).
Proof.
  unfold utf8_strlen. induction 1 as [|c l Hc _ IH]; [reflexivity|]. rewrite text_cons, filter_app, app_length, Nat2Z.inj_add, IH. cbn [length].
  destruct (utf8_nonempty c Hc) as (b & t & -> & _ & N & F & _). cbn [filter]. rewrite N. cbn [negb length].
  replace (filter (fun b => negb (is_cont b)) t) with (@nil Z); [cbn [length]; lia|]. clear -F. induction F as [|x t E _ IH]; [reflexivity|]. cbn. rewrite E. exact IH.
Qed.
Lemma forward_text c l : code c -> utf8_forward (text (c :: l)) = Ok (text l).
Proof. intros H. unfold utf8_forward. rewrite text_cons, take_enc by exact H. reflexivity. Qed.
Lemma at_text n : forall l, codes l -> (n <= length l)%nat -> utf8_at (text l) n = Ok (text (skipn n l)).
Proof.
  induction n as [|n IH]; intros l H L; [reflexivity|]. destruct l as [|c l]; [cbn in L; lia|]. inversion H; subst. cbn [utf8_at]. rewrite forward_text by assumption. cbn [bind skipn]. apply IH; [assumption|cbn in L; lia].
Qed.
Lemma valid_text l : codes l -> forall fuel, (length l < fuel)%nat -> utf8_valid fuel (text l) = Ok true.
Proof.
  induction 1 as [|c l Hc H IH]; intros fuel L; (destruct fuel as [|f]; [lia|]); [reflexivity|]. cbn [utf8_valid].
  replace (match text (c :: l) with [] => Ok true | _ :: _ => _ end) with (do (u, s') <- utf8_next (text (c :: l)); match u with None => Ok false | Some _ => utf8_valid f s' end).
  - rewrite text_cons, next_enc by exact Hc. cbn [bind]. apply IH. cbn in L. lia.
  - destruct (utf8_nonempty c Hc) as (b & t & E & _). rewrite text_cons, E. reflexivity.
Qed.
Lemma bytes_ok_app a b : bytes_ok (a ++ b) = bytes_ok a && bytes_ok b.
Proof. apply forallb_app. Qed.
Lemma valid_inv fuel : forall s, bytes_ok s = true -> utf8_valid fuel s = Ok true -> exists l, codes l /\ s = text l.
Proof.
  induction fuel as [|f IH]; intros s B H; [discriminate|]. cbn [utf8_valid] in H. destruct s as [|b s]; [exists []; split; [constructor|reflexivity]|].
  destruct (utf8_next (b :: s)) as [[[c|] r]| |] eqn:E; cbn [bind] in H; try discriminate.
  apply next_inv in E as [Hc E]; [|exact B]. rewrite E, bytes_ok_app in B. apply andb_prop in B as [_ B]. destruct (IH r B H) as (l & Hl & ->).
  exists (c :: l). split; [constructor; assumption|]. rewrite E. reflexivity.
Qed.
Lemma valid_total fuel : forall s, bytes_ok s = true -> (length s < fuel)%nat -> utf8_valid fuel s <> UB.
Proof.
  induction fuel as [|f IH]; intros s B L; [lia|]. cbn [utf8_valid]. destruct s as [|b s]; [discriminate|].
  destruct (utf8_next (b :: s)) as [[[c|] r]| |] eqn:E; cbn [bind]; try discriminate; [|exfalso; now apply (next_safe (b :: s))].
  apply next_inv in E as [Hc E]; [|exact B]. rewrite E in B, L. rewrite bytes_ok_app in B. apply andb_prop in B as [_ B]. apply IH; [exact B|].
  rewrite app_length in L. destruct (utf8_nonempty c Hc) as (x & t & Ex & _). rewrite Ex in L. cbn in L. lia.
Qed.
