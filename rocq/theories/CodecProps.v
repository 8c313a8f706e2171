(** C33: UUID text; C34: base64. *)
From Verif Require Import Base CodecModel CodecSpec.
Local Open Scope Z_scope.

Lemma lor_shift x y k : 0 <= k -> 0 <= y < 2 ^ k -> Z.lor (Z.shiftl x k) y = x * 2 ^ k + y.
Proof.
  intros Hk Hy.
  assert (L : Z.land (Z.shiftl x k) y = 0).
  { apply Z.bits_inj'. intros n Hn. rewrite Z.land_spec, Z.bits_0. destruct (Z.ltb_spec n k).
    - rewrite Z.shiftl_spec_low by lia. reflexivity.
    - rewrite <- (Z.mod_small y (2 ^ k)) by lia. rewrite Z.mod_pow2_bits_high by lia. apply andb_false_r. }
  rewrite <- Z.lxor_lor by exact L. rewrite <- Z.add_nocarry_lxor by exact L. now rewrite Z.shiftl_mul_pow2.
Qed.
Lemma land_mod x k n : 0 <= k -> n = 2 ^ k - 1 -> Z.land x n = x mod 2 ^ k.
Proof. intros Hk ->. replace (2 ^ k - 1) with (Z.ones k) by (rewrite Z.ones_equiv; lia). now apply Z.land_ones. Qed.
Lemma enum (n : nat) (P : Z -> bool) : forallb P (map Z.of_nat (seq 0 n)) = true -> forall v, 0 <= v < Z.of_nat n -> P v = true.
Proof.
  intros H v Hv. rewrite forallb_forall in H. apply H. apply in_map_iff. exists (Z.to_nat v). split; [lia|]. apply in_seq. lia.
Qed.
Definition res_is (r : res Z) (v : Z) : bool := match r with Ok x => x =? v | _ => false end.
Lemma res_is_ok r v : res_is r v = true -> r = Ok v.
Proof. destruct r; cbn; try discriminate. intros H. apply Z.eqb_eq in H. now subst. Qed.

(** the tables *)
Definition tabs_ok (et dt : list Z) (c62 c63 : Z) : Prop :=
  forall v, 0 <= v < 64 -> tab et v = Ok (b64_char c62 c63 v) /\ tab dt (b64_char c62 c63 v) = Ok v /\ b64_char c62 c63 v <> 61.
Lemma base64_tabs : tabs_ok base64_encode_table base64_decode_table 43 47.
Proof.
  intros v Hv.
  pose proof (enum 64 (fun v => res_is (tab base64_encode_table v) (b64_char 43 47 v) && res_is (tab base64_decode_table (b64_char 43 47 v)) v && negb (b64_char 43 47 v =? 61)) eq_refl v Hv) as H.
  cbn beta in H. apply andb_prop in H as [H C]. apply andb_prop in H as [A B]. split; [now apply res_is_ok|]. split; [now apply res_is_ok|].
  intros E. rewrite E in C. discriminate.
Qed.
Lemma base64url_tabs : tabs_ok base64url_encode_table base64url_decode_table 45 95.
Proof.
  intros v Hv.
  pose proof (enum 64 (fun v => res_is (tab base64url_encode_table v) (b64_char 45 95 v) && res_is (tab base64url_decode_table (b64_char 45 95 v)) v && negb (b64_char 45 95 v =? 61)) eq_refl v Hv) as H.
  cbn beta in H. apply andb_prop in H as [H C]. apply andb_prop in H as [A B]. split; [now apply res_is_ok|]. split; [now apply res_is_ok|].
  intros E. rewrite E in C. discriminate.
Qed.
Lemma bytes_cons b s : bytes_ok (b :: s) = true -> 0 <= b < 256 /\ bytes_ok s = true.
Proof. cbn. intros H. apply andb_prop in H as [A B]. unfold byte_ok in A. split; [lia|exact B]. Qed.
Lemma list3_ind (P : list Z -> Prop) : P [] -> (forall a, P [a]) -> (forall a b, P [a; b]) -> (forall a b c s, P s -> P (a :: b :: c :: s)) -> forall s, P s.
Proof.
  intros H0 H1 H2 H3. assert (G : forall s, P s /\ (forall a, P (a :: s)) /\ forall a b, P (a :: b :: s)).
  { induction s as [|x s (A & B & C)]; [auto|]. split; [apply B|]. split; [intros a; apply C|]. intros a b. now apply H3. }
  intros s. apply G.
Qed.
Ltac bits := rewrite ?(land_mod _ 6 63), ?(land_mod _ 4 15), ?(land_mod _ 2 3), ?(land_mod _ 8 255), ?Z.shiftr_div_pow2, ?lor_shift by (try reflexivity; try lia);
  rewrite ?Z.shiftl_mul_pow2 by lia; change (2 ^ 2) with 4 in *; change (2 ^ 4) with 16 in *; change (2 ^ 6) with 64 in *; change (2 ^ 8) with 256 in *;
  change (64 ^ 2) with 4096 in *; change (64 ^ 3) with 262144 in *; change (256 ^ 2) with 65536 in *.
Ltac eucl := Z.to_euclidean_division_equations; lia.

Section B64.
Variables (et dt : list Z) (c62 c63 : Z) (pad : bool).
Hypothesis T : tabs_ok et dt c62 c63.
Local Notation ch := (b64_char c62 c63).
Lemma et_ok v w : v = w -> 0 <= w < 64 -> tab et v = Ok (ch w).
Proof. intros -> H. apply (T w H). Qed.
Lemma enc_rfc s : bytes_ok s = true -> forall last, enc_loop et pad 0 last s = Ok (rfc_encode c62 c63 pad s).
Proof.
  induction s as [|a|a b|a b c s IH] using list3_ind; intros H last.
  - reflexivity.
  - apply bytes_cons in H as [Ha _]. cbn [enc_loop Z.eqb rfc_encode app].
    rewrite (et_ok _ (a * 2 ^ 4 / 64)) by (bits; eucl). cbn [bind Z.eqb Pos.eqb].
    rewrite (et_ok _ ((a * 2 ^ 4) mod 64)) by (bits; eucl). cbn [bind]. reflexivity.
  - apply bytes_cons in H as [Ha H]. apply bytes_cons in H as [Hb _]. cbn [enc_loop Z.eqb rfc_encode app].
    rewrite (et_ok _ ((a * 256 + b) * 2 ^ 2 / 64 ^ 2)) by (bits; eucl). cbn [bind Z.eqb Pos.eqb].
    rewrite (et_ok _ ((a * 256 + b) * 2 ^ 2 / 64 mod 64)) by (bits; eucl). cbn [bind Z.eqb Pos.eqb].
    rewrite (et_ok _ (((a * 256 + b) * 2 ^ 2) mod 64)) by (bits; eucl). cbn [bind]. reflexivity.
  - apply bytes_cons in H as [Ha H]. apply bytes_cons in H as [Hb H]. apply bytes_cons in H as [Hc H]. cbn [enc_loop Z.eqb rfc_encode app].
    rewrite (et_ok _ ((a * 256 ^ 2 + b * 256 + c) / 64 ^ 3)) by (bits; eucl). cbn [bind Z.eqb Pos.eqb].
    rewrite (et_ok _ ((a * 256 ^ 2 + b * 256 + c) / 64 ^ 2 mod 64)) by (bits; eucl). cbn [bind Z.eqb Pos.eqb].
    rewrite (et_ok _ ((a * 256 ^ 2 + b * 256 + c) / 64 mod 64)) by (bits; eucl). cbn [bind Z.eqb Pos.eqb].
    rewrite (et_ok _ ((a * 256 ^ 2 + b * 256 + c) mod 64)) by (bits; eucl). cbn [bind].
    rewrite IH by exact H. reflexivity.
Qed.
(** one character of the decoder *)
Lemma dec_char v room order out cur s : 0 <= v < 64 ->
  dec_loop dt pad room order out cur (ch v :: s) =
  let n := Z.of_nat (length out) in
  let o := Z.land order 3 in
        if o =? 0 then
          if n <? room then dec_loop dt pad room (order + 1) out (Z.land (Z.shiftl v 2) 255) s else UB
        else if o =? 1 then
          if n + 1 <? room then dec_loop dt pad room (order + 1) (out ++ [Z.lor cur (Z.land (Z.shiftr v 4) 3)]) (Z.shiftl (Z.land v 15) 4) s else UB
        else if o =? 2 then
          if n + 1 <? room then dec_loop dt pad room (order + 1) (out ++ [Z.lor cur (Z.land (Z.shiftr v 2) 15)]) (Z.land (Z.shiftl (Z.land v 3) 6) 255) s else UB
        else
          if n <? room then dec_loop dt pad room (order + 1) (out ++ [Z.land (Z.lor cur v) 255]) 0 s else UB.
Proof.
  intros Hv. destruct (T v Hv) as (_ & D & N). cbn [dec_loop]. rewrite D. cbn [bind].
  destruct (Z.eqb_spec (ch v) 61); [contradiction|]. rewrite andb_false_r. destruct (Z.eqb_spec v 255); [lia|]. reflexivity.
Qed.
Lemma ord q i k : 0 <= i < 4 -> k = 4 * q + i -> Z.land k 3 = i.
Proof. intros Hi ->. rewrite (land_mod _ 2 3) by (reflexivity || lia). change (2 ^ 2) with 4. eucl. Qed.
Lemma land8 x : 0 <= x < 256 -> Z.land x 255 = x.
Proof. intros H. rewrite (land_mod _ 8 255) by (reflexivity || lia). apply Z.mod_small. exact H. Qed.
Lemma b0 u v w : 0 <= u < 64 -> w = u * 4 + v / 16 -> 0 <= v < 64 -> Z.lor (Z.land (Z.shiftl u 2) 255) (Z.land (Z.shiftr v 4) 3) = w.
Proof.
  intros Hu -> Hv. rewrite land8 by (rewrite Z.shiftl_mul_pow2 by lia; change (2 ^ 2) with 4; lia).
  rewrite (land_mod _ 2 3) by (reflexivity || lia). rewrite lor_shift by (try lia; apply Z.mod_pos_bound; reflexivity).
  rewrite Z.shiftr_div_pow2 by lia. change (2 ^ 2) with 4. change (2 ^ 4) with 16. eucl.
Qed.
Lemma b1 u v w : 0 <= u < 64 -> w = u mod 16 * 16 + v / 4 -> 0 <= v < 64 -> Z.lor (Z.shiftl (Z.land u 15) 4) (Z.land (Z.shiftr v 2) 15) = w.
Proof.
  intros Hu -> Hv. rewrite !(land_mod _ 4 15) by (reflexivity || lia). rewrite lor_shift by (try lia; apply Z.mod_pos_bound; reflexivity).
  rewrite Z.shiftr_div_pow2 by lia. change (2 ^ 2) with 4. change (2 ^ 4) with 16. eucl.
Qed.
Lemma b2 u v w : 0 <= u < 64 -> w = u mod 4 * 64 + v -> 0 <= v < 64 -> Z.land (Z.lor (Z.land (Z.shiftl (Z.land u 3) 6) 255) v) 255 = w.
Proof.
  intros Hu -> Hv. rewrite (land_mod _ 2 3) by (reflexivity || lia). change (2 ^ 2) with 4.
  rewrite (land8 (Z.shiftl _ _)) by (rewrite Z.shiftl_mul_pow2 by lia; change (2 ^ 6) with 64; eucl).
  rewrite lor_shift by (try lia; change (2 ^ 6) with 64; lia). change (2 ^ 6) with 64. rewrite land8; eucl.
Qed.
Ltac step q i := rewrite dec_char by (bits; eucl); cbv zeta; rewrite (ord q i) by lia; cbn [Z.eqb Pos.eqb];
  match goal with |- context [if ?n <? ?r then _ else UB] => replace (n <? r) with true by (rewrite ?app_length in *; cbn [length] in *; lia) end.
Lemma dec_rfc s : bytes_ok s = true -> forall room q out cur, Z.of_nat (length out) + (Z.of_nat (length s) + 2) / 3 * 3 <= room ->
  dec_loop dt pad room (4 * q) out cur (rfc_encode c62 c63 pad s) = Ok (out ++ s).
Proof.
  induction s as [|a|a b|a b c s IH] using list3_ind; intros H room q out cur R; cbn [length] in R.
  - cbn. now rewrite app_nil_r.
  - apply bytes_cons in H as [Ha _]. cbn [rfc_encode app]. change (2 ^ 4) with 16. assert (Z.of_nat (length out) + 3 <= room) by eucl.
    step q 0. step q 1. rewrite (b0 _ _ a) by eucl.
    destruct pad; reflexivity.
  - apply bytes_cons in H as [Ha H]. apply bytes_cons in H as [Hb _]. cbn [rfc_encode app]. change (2 ^ 2) with 4. change (64 ^ 2) with 4096.
    assert (Z.of_nat (length out) + 3 <= room) by eucl.
    step q 0. step q 1. rewrite (b0 _ _ a) by eucl. step q 2. rewrite (b1 _ _ b) by eucl. rewrite <- app_assoc. cbn [app].
    destruct pad; reflexivity.
  - apply bytes_cons in H as [Ha H]. apply bytes_cons in H as [Hb H]. apply bytes_cons in H as [Hc H]. cbn [rfc_encode app].
    change (64 ^ 2) with 4096. change (64 ^ 3) with 262144. change (256 ^ 2) with 65536.
    assert (Hr : Z.of_nat (length out) + 3 + (Z.of_nat (length s) + 2) / 3 * 3 <= room) by eucl.
    assert (0 <= (Z.of_nat (length s) + 2) / 3) by (apply Z.div_pos; lia).
    step q 0. step q 1. rewrite (b0 _ _ a) by eucl. step q 2. rewrite (b1 _ _ b) by eucl. rewrite <- app_assoc. cbn [app].
    step q 3. rewrite (b2 _ _ c) by eucl. rewrite <- app_assoc. cbn [app].
    replace (4 * q + 1 + 1 + 1 + 1) with (4 * (q + 1)) by lia. rewrite IH by (try exact H; rewrite app_length; cbn [length]; lia).
    now rewrite <- app_assoc.
Qed.
Lemma rfc_length s : Z.of_nat (length (rfc_encode c62 c63 pad s)) = if pad then (Z.of_nat (length s) + 2) / 3 * 4 else (4 * Z.of_nat (length s) + 2) / 3.
Proof.
  induction s as [|a|a b|a b c s IH] using list3_ind; destruct pad; try reflexivity; cbn [rfc_encode app length]; rewrite !Nat2Z.inj_succ, IH; clear; eucl.
Qed.
(** bytes below 128 are in the table *)
Hypothesis L : length dt = 128%nat.
Lemma dec_total s : Forall (fun b => 0 <= b < 128) s -> forall room order out cur, 0 <= order ->
  Z.of_nat (length out) = order / 4 * 3 + (let o := order mod 4 in if o =? 0 then 0 else o - 1) -> (order + Z.of_nat (length s) + 3) / 4 * 3 <= room ->
  dec_loop dt pad room order out cur s <> UB.
Proof.
  induction 1 as [|b s Hb F IH]; intros room order out cur Ho E R; cbn [dec_loop]; [discriminate|].
  destruct (pad && (b =? 61)); [discriminate|].
  unfold tab. destruct (Z.ltb_spec b 0); [lia|]. destruct (nth_error dt (Z.to_nat b)) as [c|] eqn:Ec; [|apply nth_error_None in Ec; lia]. cbn [bind].
  destruct (c =? 255); [discriminate|]. cbn [length] in R. rewrite (land_mod _ 2 3) by (reflexivity || lia). change (2 ^ 2) with 4.
  assert (Hm : 0 <= order mod 4 < 4) by (apply Z.mod_pos_bound; lia). cbv zeta in E.
  destruct (Z.eqb_spec (order mod 4) 0) as [E0|E0]; [|destruct (Z.eqb_spec (order mod 4) 1) as [E1|E1]; [|destruct (Z.eqb_spec (order mod 4) 2) as [E2|E2]]].
  all: rewrite ?(proj2 (Z.eqb_neq _ _) E0) in *; repeat match goal with H : ?o mod 4 = _ |- _ => rewrite ?H in E end; cbn [Z.eqb Pos.eqb] in E.
  all: match goal with |- (if ?n <? ?r then _ else UB) <> UB => assert (Hn : n < r) by eucl; destruct (Z.ltb_spec n r); [|lia] end.
  all: apply IH; [lia| |eucl].
  all: rewrite ?app_length; cbn [length]; cbv zeta.
  - replace ((order + 1) / 4) with (order / 4) by eucl. replace ((order + 1) mod 4) with 1 by eucl. cbn. lia.
  - replace ((order + 1) / 4) with (order / 4) by eucl. replace ((order + 1) mod 4) with 2 by eucl. cbn. lia.
  - replace ((order + 1) / 4) with (order / 4) by eucl. replace ((order + 1) mod 4) with 3 by eucl. cbn. lia.
  - replace ((order + 1) / 4) with (order / 4 + 1) by eucl. replace ((order + 1) mod 4) with 0 by eucl. cbn. assert (order mod 4 = 3) as E3 by lia. rewrite E3 in E. lia.
Qed.
End B64.

(** ** C34 *)
(** encoding follows RFC 4648 and decoding the text returns the bytes, without an access outside
    of the tables or of the reserved buffer *)
Theorem C34_base64 s : bytes_ok s = true ->
  base64_encode s = Ok (base64_text s) /\ base64_decode (base64_text s) = Ok s.
Proof.
  intros H. split; [apply (enc_rfc _ _ _ _ true base64_tabs s H)|]. unfold base64_decode, base64_text.
  apply (dec_rfc _ _ _ _ true base64_tabs s H _ 0 [] 0). unfold reserve. rewrite (rfc_length 43 47 true s). cbn [length]. eucl.
Qed.
Print Assumptions C34_base64.
Theorem C34_base64url s : bytes_ok s = true ->
  base64url_encode s = Ok (base64url_text s) /\ base64url_decode (base64url_text s) = Ok s.
Proof.
  intros H. split; [apply (enc_rfc _ _ _ _ false base64url_tabs s H)|]. unfold base64url_decode, base64url_text.
  apply (dec_rfc _ _ _ _ false base64url_tabs s H _ 0 [] 0). unfold reserve. rewrite (rfc_length 45 95 false s). cbn [length]. eucl.
Qed.
Print Assumptions C34_base64url.
(** on text of 7-bit characters decoding gives bytes or an error *)
Theorem C34_decode_safe_partial s : Forall (fun b => 0 <= b < 128) s -> base64_decode s <> UB /\ base64url_decode s <> UB.
Proof.
  intros H. split.
  - apply (dec_total base64_decode_table true eq_refl s H); [lia|reflexivity|unfold reserve; lia].
  - apply (dec_total base64url_decode_table false eq_refl s H); [lia|reflexivity|unfold reserve; lia].
Qed.
Print Assumptions C34_decode_safe_partial.
(** any other byte is looked up outside of the table *)
Theorem C34_table_refuted : exists s, bytes_ok s = true /\ base64_decode s = UB /\ base64url_decode s = UB.
Proof. exists [200]. vm_compute. auto. Qed.
Print Assumptions C34_table_refuted.
Example C34_nonvacuous : base64_encode [102; 111; 111; 98; 255] = Ok [90; 109; 57; 118; 89; 118; 56; 61] /\ base64_decode [90; 109; 57; 118; 89; 118; 56; 61] = Ok [102; 111; 111; 98; 255]
  /\ base64url_encode [102; 111; 111; 98; 255] = Ok [90; 109; 57; 118; 89; 118; 56].
Proof. vm_compute. auto. Qed.

(** ** C33 *)
Lemma hex_val_char d : 0 <= d < 16 -> hex_val (hex_char d) = Some d.
Proof.
  intros H. pose proof (enum 16 (fun d => match hex_val (hex_char d) with Some x => x =? d | None => false end) eq_refl d H) as E. cbn beta in E.
  destruct (hex_val (hex_char d)); [|discriminate]. apply Z.eqb_eq in E. now subst.
Qed.
Lemma hex_val_some b d : hex_val b = Some d -> 0 <= d < 16 /\ hex_char d = lower b /\ is_hex b = true.
Proof.
  unfold hex_val, hex_char, lower, is_hex. intros H.
  destruct ((48 <=? b) && (b <=? 57)) eqn:E1; [injection H as <-|destruct ((97 <=? b) && (b <=? 102)) eqn:E2; [injection H as <-|destruct ((65 <=? b) && (b <=? 70)) eqn:E3; [injection H as <-|discriminate]]].
  - destruct (Z.ltb_spec (b - 48) 10); [|lia]. destruct ((65 <=? b) && (b <=? 90)) eqn:E; [lia|]. split; [lia|]. split; [lia|reflexivity].
  - destruct (Z.ltb_spec (b - 97 + 10) 10); [lia|]. destruct ((65 <=? b) && (b <=? 90)) eqn:E; [lia|]. split; [lia|]. split; [lia|reflexivity].
  - destruct (Z.ltb_spec (b - 65 + 10) 10); [lia|]. destruct ((65 <=? b) && (b <=? 90)) eqn:E; [|lia]. split; [lia|]. split; [lia|reflexivity].
Qed.
Lemma is_hex_val b : is_hex b = true -> exists d, hex_val b = Some d.
Proof.
  unfold is_hex, hex_val. destruct ((48 <=? b) && (b <=? 57)); [eauto|]. destruct ((97 <=? b) && (b <=? 102)); [eauto|]. destruct ((65 <=? b) && (b <=? 70)); [eauto|discriminate].
Qed.
(** the digits of a field, read and printed *)
Fixpoint digits (v : Z) (s : list Z) : option Z :=
  match s with
  | [] => Some v
  | b :: s' => match hex_val b with None => None | Some d => digits (v * 16 + d) s' end
  end.
Lemma digits_app s1 : forall v s2, digits v (s1 ++ s2) = match digits v s1 with Some w => digits w s2 | None => None end.
Proof. induction s1 as [|b s1 IH]; intros v s2; [reflexivity|]. cbn. destruct (hex_val b); [apply IH|reflexivity]. Qed.
Lemma fmt_hex_length n : forall v, length (fmt_hex n v) = n.
Proof. induction n as [|n IH]; intros v; [reflexivity|]. cbn [fmt_hex]. rewrite app_length, IH. cbn. lia. Qed.
Lemma fmt_digits n : forall v, 0 <= v < 16 ^ Z.of_nat n -> digits 0 (fmt_hex n v) = Some v.
Proof.
  induction n as [|n IH]; intros v Hv; [cbn in *; f_equal; lia|]. cbn [fmt_hex]. rewrite digits_app.
  rewrite Nat2Z.inj_succ, Z.pow_succ_r in Hv by lia. rewrite IH by (split; [apply Z.div_pos; lia|apply Z.div_lt_upper_bound; lia]).
  cbn [digits]. rewrite hex_val_char by (apply Z.mod_pos_bound; lia). f_equal. pose proof (Z.div_mod v 16 ltac:(lia)). lia.
Qed.
Lemma digits_fmt s : forall w, digits 0 s = Some w -> fmt_hex (length s) w = map lower s /\ 0 <= w < 16 ^ Z.of_nat (length s).
Proof.
  induction s as [|b s IH] using rev_ind; intros w H; [cbn in *; injection H as <-; split; [reflexivity|lia]|].
  rewrite digits_app in H. destruct (digits 0 s) as [v|] eqn:E; [|discriminate]. cbn in H. destruct (hex_val b) as [d|] eqn:Eb; [|discriminate]. injection H as <-.
  destruct (IH v eq_refl) as [F B]. apply hex_val_some in Eb as (Hd & Hc & _).
  rewrite app_length. cbn [length]. rewrite Nat.add_1_r. cbn [fmt_hex]. rewrite map_app. cbn [map].
  replace ((v * 16 + d) / 16) with v by eucl. replace ((v * 16 + d) mod 16) with d by eucl. rewrite F, Hc. split; [reflexivity|].
  rewrite Nat2Z.inj_succ, Z.pow_succ_r by lia. lia.
Qed.
Lemma app_inj4 {A} (a b c d : list A) : length a = length c -> a ++ b = c ++ d -> a = c /\ b = d.
Proof.
  revert c. induction a as [|x a IH]; intros [|y c] L E; try discriminate; [auto|]. cbn in *. injection L as L. injection E as -> E. destruct (IH c L E) as [-> ->]. auto.
Qed.
(** a run of digits between the special positions *)
Lemma loop_digits s : forall n i value u r, (length s <= n)%nat -> 0 <= value -> (value + 1) * 16 ^ Z.of_nat (length s) <= 2 ^ 60 ->
  (forall j, i <= j < i + Z.of_nat (length s) -> j <> 8 /\ j <> 13 /\ j <> 18 /\ j <> 23 /\ j <> 28) ->
  match digits value s with
  | Some w => uuid_loop n i value u (s ++ r) = uuid_loop (n - length s) (i + Z.of_nat (length s)) w u r
  | None => uuid_loop n i value u (s ++ r) = Err
  end.
Proof.
  induction s as [|b s IH]; intros n i value u r Ln Hv Hb Hi.
  - cbn [digits app length]. rewrite Nat.sub_0_r, Z.add_0_r. reflexivity.
  - destruct n as [|n]; [cbn in Ln; lia|]. cbn [length] in *. destruct (Hi i ltac:(lia)) as (N1 & N2 & N3 & N4 & N5).
    cbn [digits app uuid_loop]. apply Z.eqb_neq in N1, N2, N3, N4, N5. rewrite N1, N2, N3, N4, N5.
    destruct (hex_val b) as [d|] eqn:Eb; [|reflexivity]. apply hex_val_some in Eb as (Hd & _ & _).
    rewrite Nat2Z.inj_succ, Z.pow_succ_r in Hb by lia. assert (0 < 16 ^ Z.of_nat (length s)) by (apply Z.pow_pos_nonneg; lia).
    assert (Hw : value * 16 < 2 ^ 60) by nia.
    rewrite (land_mod _ 4 15) by (reflexivity || lia). rewrite (Z.mod_small d) by (change (2 ^ 4) with 16; lia).
    rewrite (Z.mod_small (Z.shiftl value 4)) by (rewrite Z.shiftl_mul_pow2 by lia; change (2 ^ 4) with 16; lia).
    rewrite lor_shift by (change (2 ^ 4) with 16; lia). change (2 ^ 4) with 16.
    assert (IH' := IH n (i + 1) (value * 16 + d) u r ltac:(lia) ltac:(lia)).
    replace (i + 1 + Z.of_nat (length s)) with (i + Z.of_nat (S (length s))) in IH' by lia.
    apply IH'; [nia|intros j Hj; apply Hi; lia].
Qed.
(** any text, cut at the special positions *)
Lemma cut (n : nat) (s : list Z) : (n <= length s)%nat -> exists a r, s = a ++ r /\ length a = n /\ length r = (length s - n)%nat.
Proof. intros H. exists (firstn n s), (skipn n s). rewrite firstn_skipn, firstn_length, skipn_length. split; [reflexivity|split; lia]. Qed.
Lemma loop_field k n i value u s r v : (length s = k)%nat -> (k <= n)%nat -> value = 0 -> 16 ^ Z.of_nat k <= 2 ^ 60 ->
  (forall j, i <= j < i + Z.of_nat k -> j <> 8 /\ j <> 13 /\ j <> 18 /\ j <> 23 /\ j <> 28) ->
  (digits 0 s = Some v -> uuid_loop n i value u (s ++ r) = uuid_loop (n - k) (i + Z.of_nat k) v u r) /\
  (digits 0 s = None -> uuid_loop n i value u (s ++ r) = Err).
Proof.
  intros <- Hn -> Hb Hi. pose proof (loop_digits s n i 0 u r Hn ltac:(lia) ltac:(lia) Hi) as H.
  destruct (digits 0 s); split; intros E; try discriminate; [injection E as <-; exact H|exact H].
Qed.
(** the fields of an accepted text *)
Definition parts (s : list Z) : option (uuid * list Z) :=
  let f i n := firstn n (skipn i s) in
  match digits 0 (f 0 8)%nat, digits 0 (f 9 4)%nat, digits 0 (f 14 4)%nat, digits 0 (f 19 4)%nat, digits 0 (f 24 4)%nat, digits 0 (f 28 8)%nat with
  | Some a, Some b, Some c, Some d, Some e, Some g =>
    if (nth 8 s 0 =? 45) && (nth 13 s 0 =? 45) && (nth 18 s 0 =? 45) && (nth 23 s 0 =? 45) then Some (mkuuid a b c d e g, skipn 36 s) else None
  | _, _, _, _, _, _ => None
  end.
Lemma parts_eq a x1 b x2 c x3 d x4 e g r : length a = 8%nat -> length b = 4%nat -> length c = 4%nat -> length d = 4%nat -> length e = 4%nat -> length g = 8%nat ->
  parts (a ++ x1 :: b ++ x2 :: c ++ x3 :: d ++ x4 :: e ++ g ++ r) =
  match digits 0 a, digits 0 b, digits 0 c, digits 0 d, digits 0 e, digits 0 g with
  | Some a, Some b, Some c, Some d, Some e, Some g =>
    if (x1 =? 45) && (x2 =? 45) && (x3 =? 45) && (x4 =? 45) then Some (mkuuid a b c d e g, r) else None
  | _, _, _, _, _, _ => None
  end.
Proof.
  intros La Lb Lc Ld Le Lg.
  do 8 (destruct a as [|? a]; [discriminate|]). destruct a; [|discriminate].
  do 4 (destruct b as [|? b]; [discriminate|]). destruct b; [|discriminate].
  do 4 (destruct c as [|? c]; [discriminate|]). destruct c; [|discriminate].
  do 4 (destruct d as [|? d]; [discriminate|]). destruct d; [|discriminate].
  do 4 (destruct e as [|? e]; [discriminate|]). destruct e; [|discriminate].
  do 8 (destruct g as [|? g]; [discriminate|]). destruct g; [|discriminate].
  unfold parts. cbn [app skipn firstn nth]. reflexivity.
Qed.
Ltac field k s := match goal with |- context [uuid_loop ?n ?i ?value ?u (s ++ ?r)] =>
    let H := fresh in
    pose proof (fun v => loop_field k n i value u s r v ltac:(assumption) ltac:(lia) eq_refl ltac:(vm_compute; discriminate) ltac:(intros; lia)) as H;
    let E := fresh in destruct (digits 0 s) eqn:E; [rewrite (proj1 (H _) eq_refl); clear H|rewrite (proj2 (H 0) eq_refl); clear H] end.
Lemma loop_cons n i value u b s : uuid_loop (S n) i value u (b :: s) =
      if i =? 8 then if b =? 45 then uuid_loop n (i + 1) 0 (mkuuid (value mod 2 ^ 32) (ub u) (uc u) (ud u) (ue u) (uf u)) s else Err
      else if i =? 13 then if b =? 45 then uuid_loop n (i + 1) 0 (mkuuid (ua u) (value mod 2 ^ 16) (uc u) (ud u) (ue u) (uf u)) s else Err
      else if i =? 18 then if b =? 45 then uuid_loop n (i + 1) 0 (mkuuid (ua u) (ub u) (value mod 2 ^ 16) (ud u) (ue u) (uf u)) s else Err
      else if i =? 23 then if b =? 45 then uuid_loop n (i + 1) 0 (mkuuid (ua u) (ub u) (uc u) (value mod 2 ^ 16) (ue u) (uf u)) s else Err
      else
        let '(value, u) := if i =? 28 then (0, mkuuid (ua u) (ub u) (uc u) (ud u) (value mod 2 ^ 16) (uf u)) else (value, u) in
        match hex_val b with
        | None => Err
        | Some d => uuid_loop n (i + 1) (Z.lor (Z.shiftl value 4 mod 2 ^ 64) (Z.land d 15)) u s
        end.
Proof. reflexivity. Qed.
Lemma digit_step v d : 0 <= v < 2 ^ 56 -> 0 <= d < 16 -> Z.lor (Z.shiftl v 4 mod 2 ^ 64) (Z.land d 15) = v * 16 + d.
Proof.
  intros Hv Hd. rewrite (land_mod _ 4 15) by (reflexivity || lia). rewrite (Z.mod_small d) by (change (2 ^ 4) with 16; lia).
  rewrite (Z.mod_small (Z.shiftl v 4)) by (rewrite Z.shiftl_mul_pow2 by lia; change (2 ^ 4) with 16; lia).
  rewrite lor_shift by (change (2 ^ 4) with 16; lia). now change (2 ^ 4) with 16.
Qed.
Ltac norm := match goal with |- context [uuid_loop (?n - ?k) (?i + Z.of_nat ?k) _ _ _] =>
  let n' := eval compute in (n - k)%nat in let i' := eval compute in (i + Z.of_nat k) in change (n - k)%nat with n'; change (i + Z.of_nat k) with i' end.
Ltac dash x := norm; rewrite loop_cons; cbn [Z.eqb Pos.eqb ua ub uc ud ue uf]; let E := fresh in destruct (x =? 45) eqn:E;
  [match goal with |- context [uuid_loop _ (?i + 1) _ _ _] => let i' := eval compute in (i + 1) in change (i + 1) with i' end|].
(** at position 28 the field before is stored and the digit starts the next one *)
Lemma loop_at28 value u g r : length g = 8%nat ->
  uuid_loop 8 28 value u (g ++ r) =
  match digits 0 g with Some w => Ok (mkuuid (ua u) (ub u) (uc u) (ud u) (value mod 2 ^ 16) (w mod 2 ^ 32)) | None => Err end.
Proof.
  intros L. destruct g as [|x g]; [discriminate|]. injection L as L. cbn [app digits]. rewrite loop_cons. cbn [Z.eqb Pos.eqb ua ub uc ud ue uf].
  destruct (hex_val x) as [d|] eqn:E; [|reflexivity]. apply hex_val_some in E as (Hd & _ & _). rewrite digit_step by lia.
  replace (0 * 16 + d) with d by lia. change (28 + 1) with 29.
  pose proof (loop_digits g 7 29 d (mkuuid (ua u) (ub u) (uc u) (ud u) (value mod 2 ^ 16) (uf u)) r ltac:(lia) ltac:(lia)) as H. rewrite L in H.
  specialize (H ltac:(change (16 ^ Z.of_nat 7) with 268435456; lia) ltac:(intros; lia)).
  destruct (digits d g); rewrite H; reflexivity.
Qed.
Lemma set_eq u a x1 b x2 c x3 d x4 e g r : length a = 8%nat -> length b = 4%nat -> length c = 4%nat -> length d = 4%nat -> length e = 4%nat -> length g = 8%nat ->
  uuid_loop 36 0 0 u (a ++ x1 :: b ++ x2 :: c ++ x3 :: d ++ x4 :: e ++ g ++ r) = match parts (a ++ x1 :: b ++ x2 :: c ++ x3 :: d ++ x4 :: e ++ g ++ r) with Some (v, _) => Ok v | None => Err end.
Proof.
  intros La Lb Lc Ld Le Lg. rewrite parts_eq by assumption.
  assert (B : forall s n w, length s = n -> digits 0 s = Some w -> w mod 16 ^ Z.of_nat n = w) by (intros s n w <- E; apply Z.mod_small; now apply digits_fmt).
  field 8%nat a; [|reflexivity]. dash x1; [|destruct (digits 0 b), (digits 0 c), (digits 0 d), (digits 0 e), (digits 0 g); reflexivity].
  field 4%nat b; [|reflexivity]. dash x2; [|destruct (digits 0 c), (digits 0 d), (digits 0 e), (digits 0 g); reflexivity].
  field 4%nat c; [|reflexivity]. dash x3; [|destruct (digits 0 d), (digits 0 e), (digits 0 g); reflexivity].
  field 4%nat d; [|reflexivity]. dash x4; [|destruct (digits 0 e), (digits 0 g); reflexivity].
  field 4%nat e; [|reflexivity]. norm. rewrite loop_at28 by exact Lg. destruct (digits 0 g) eqn:Eg; [|reflexivity]. cbn [ua ub uc ud ue uf andb].
  change (2 ^ 32) with (16 ^ Z.of_nat 8). change (2 ^ 16) with (16 ^ Z.of_nat 4).
  f_equal. f_equal.
  all: eapply B; [|eassumption]; assumption.
Qed.
Lemma set_parts u s : (36 <= length s)%nat -> uuid_set u s = match parts s with Some (v, _) => Ok v | None => Err end /\
  exists a x1 b x2 c x3 d x4 e g r, s = a ++ x1 :: b ++ x2 :: c ++ x3 :: d ++ x4 :: e ++ g ++ r /\ length a = 8%nat /\ length b = 4%nat /\ length c = 4%nat /\ length d = 4%nat /\ length e = 4%nat /\ length g = 8%nat.
Proof.
  intros L. unfold uuid_set. destruct (Z.ltb_spec (Z.of_nat (length s)) 36); [lia|].
  assert (E : exists a x1 b x2 c x3 d x4 e g r, s = a ++ x1 :: b ++ x2 :: c ++ x3 :: d ++ x4 :: e ++ g ++ r /\ length a = 8%nat /\ length b = 4%nat /\ length c = 4%nat /\ length d = 4%nat /\ length e = 4%nat /\ length g = 8%nat).
  { destruct (cut 8 s) as (a & s1 & E1 & La & L1); [lia|]. destruct s1 as [|x1 s1]; cbn [length] in L1; [lia|].
    destruct (cut 4 s1) as (b & s2 & E2 & Lb & L2); [lia|]. destruct s2 as [|x2 s2]; cbn [length] in L2; [lia|].
    destruct (cut 4 s2) as (c & s3 & E3 & Lc & L3); [lia|]. destruct s3 as [|x3 s3]; cbn [length] in L3; [lia|].
    destruct (cut 4 s3) as (d & s4 & E4 & Ld & L4); [lia|]. destruct s4 as [|x4 s4]; cbn [length] in L4; [lia|].
    destruct (cut 4 s4) as (e & s5 & E5 & Le & L5); [lia|]. destruct (cut 8 s5) as (g & r & E6 & Lg & _); [lia|]. subst s5 s4 s3 s2 s1.
    exists a, x1, b, x2, c, x3, d, x4, e, g, r. auto 8. }
  split; [|exact E]. destruct E as (a & x1 & b & x2 & c & x3 & d & x4 & e & g & r & -> & La & Lb & Lc & Ld & Le & Lg). now apply set_eq.
Qed.

(** every UUID, printed and parsed *)
Theorem C33_format_parse u v : uuid_ok u -> uuid_set v (uuid_get u) = Ok u.
Proof.
  intros (Ha & Hb & Hc & Hd & He & Hf). unfold uuid_set. replace (Z.of_nat (length (uuid_get u)) <? 36) with false.
  2:{ symmetry. unfold uuid_get. rewrite !app_length, !fmt_hex_length. reflexivity. }
  pose proof (set_eq v (fmt_hex 8 (ua u)) 45 (fmt_hex 4 (ub u)) 45 (fmt_hex 4 (uc u)) 45 (fmt_hex 4 (ud u)) 45 (fmt_hex 4 (ue u)) (fmt_hex 8 (uf u)) []) as H.
  rewrite parts_eq in H by apply fmt_hex_length. rewrite !fmt_digits in H by assumption. cbn [Z.eqb Pos.eqb andb] in H. rewrite app_nil_r in H.
  unfold uuid_get. cbn [app] in *. rewrite H by apply fmt_hex_length. destruct u; reflexivity.
Qed.
Print Assumptions C33_format_parse.
(** every text of 36 characters: accepted exactly if it has the form of a UUID, and printed back
    in lower case *)
Lemma digits_hex s : forall v, (exists w, digits v s = Some w) <-> forallb is_hex s = true.
Proof.
  induction s as [|b s IH]; intros v; cbn; [split; eauto|]. destruct (hex_val b) as [d|] eqn:E.
  - rewrite IH. apply hex_val_some in E as (_ & _ & ->). reflexivity.
  - split; [intros [w H]; discriminate|]. intros H. apply andb_prop in H as [H _]. apply is_hex_val in H as [d Hd]. congruence.
Qed.
Theorem C33_parse_format v s : length s = 36%nat ->
  (forall u, uuid_set v s = Ok u -> uuid_ok u /\ uuid_get u = map lower s) /\ ((exists u, uuid_set v s = Ok u) <-> uuid_text s = true) /\ uuid_set v s <> UB.
Proof.
  intros L. destruct (set_parts v s ltac:(lia)) as (E & a & x1 & b & x2 & c & x3 & d & x4 & e & g & r & -> & La & Lb & Lc & Ld & Le & Lg).
  rewrite E, parts_eq by assumption. clear E.
  assert (r = []) as ->. { destruct r; [reflexivity|]. exfalso. rewrite !app_length in L. cbn [length] in L. rewrite !app_length in L. cbn [length] in L. rewrite !app_length in L. cbn [length] in L. rewrite !app_length in L. cbn [length] in L. rewrite !app_length in L. cbn [length] in L. lia. }
  assert (N : (forallb is_hex a && forallb is_hex b && forallb is_hex c && forallb is_hex d && forallb is_hex e && forallb is_hex g && ((x1 =? 45) && (x2 =? 45) && (x3 =? 45) && (x4 =? 45))) = uuid_text (a ++ x1 :: b ++ x2 :: c ++ x3 :: d ++ x4 :: e ++ g ++ [])).
  { unfold uuid_text. rewrite L. clear L. do 8 (destruct a as [|? a]; [discriminate|]). destruct a; [|discriminate].
    do 4 (destruct b as [|? b]; [discriminate|]). destruct b; [|discriminate].
    do 4 (destruct c as [|? c]; [discriminate|]). destruct c; [|discriminate].
    do 4 (destruct d as [|? d]; [discriminate|]). destruct d; [|discriminate].
    do 4 (destruct e as [|? e]; [discriminate|]). destruct e; [|discriminate].
    do 8 (destruct g as [|? g]; [discriminate|]). destruct g; [|discriminate].
    clear. cbn [app forallb seq existsb Nat.eqb orb nth andb]. repeat rewrite andb_true_r. repeat match goal with |- context [is_hex ?x] => destruct (is_hex x); cbn [andb]; [|rewrite ?andb_false_r; reflexivity] end. repeat match goal with |- context [?x =? 45] => destruct (x =? 45); cbn [andb]; [|rewrite ?andb_false_r; reflexivity] end. reflexivity. }
  rewrite <- N. clear N L.
  pose proof (digits_hex a 0) as Da. pose proof (digits_hex b 0) as Db. pose proof (digits_hex c 0) as Dc. pose proof (digits_hex d 0) as Dd. pose proof (digits_hex e 0) as De. pose proof (digits_hex g 0) as Dg.
  assert (Bad : forall P, P = false -> (forall u, Err = Ok u -> uuid_ok u /\ uuid_get u = map lower (a ++ x1 :: b ++ x2 :: c ++ x3 :: d ++ x4 :: e ++ g ++ [])) /\ ((exists u : uuid, Err = Ok u) <-> P = true) /\ @Err uuid <> UB).
  { intros P ->. split; [intros u; discriminate|]. split; [|discriminate]. split; [intros [u H]; discriminate|discriminate]. }
  assert (F : forall s, (exists w, (None : option Z) = Some w) <-> forallb is_hex s = true -> forallb is_hex s = false).
  { intros s H. destruct (forallb is_hex s); [|reflexivity]. destruct (proj2 H eq_refl) as [w Hw]. discriminate. }
  destruct (digits 0 a) as [va|] eqn:Ea; [|apply Bad; now rewrite (F _ Da)].
  destruct (digits 0 b) as [vb|] eqn:Eb; [|apply Bad; now rewrite (F _ Db), !andb_false_r].
  destruct (digits 0 c) as [vc|] eqn:Ec; [|apply Bad; now rewrite (F _ Dc), !andb_false_r].
  destruct (digits 0 d) as [vd|] eqn:Ed; [|apply Bad; now rewrite (F _ Dd), !andb_false_r].
  destruct (digits 0 e) as [ve|] eqn:Ee; [|apply Bad; now rewrite (F _ De), !andb_false_r].
  destruct (digits 0 g) as [vg|] eqn:Eg; [|apply Bad; now rewrite (F _ Dg), !andb_false_r].
  rewrite (proj1 Da), (proj1 Db), (proj1 Dc), (proj1 Dd), (proj1 De), (proj1 Dg) by eauto. cbn [andb].
  destruct ((x1 =? 45) && (x2 =? 45) && (x3 =? 45) && (x4 =? 45)) eqn:Ex; [|apply Bad; reflexivity].
  split; [|split; [split; eauto|discriminate]]. intros u [= <-].
  apply digits_fmt in Ea, Eb, Ec, Ed, Ee, Eg. rewrite La in Ea. rewrite Lb in Eb. rewrite Lc in Ec. rewrite Ld in Ed. rewrite Le in Ee. rewrite Lg in Eg.
  change (16 ^ Z.of_nat 8) with (2 ^ 32) in *. change (16 ^ Z.of_nat 4) with (2 ^ 16) in *.
  split; [unfold uuid_ok; cbn [ua ub uc ud ue uf]; tauto|]. unfold uuid_get. cbn [ua ub uc ud ue uf].
  rewrite (proj1 Ea), (proj1 Eb), (proj1 Ec), (proj1 Ed), (proj1 Ee), (proj1 Eg). rewrite app_nil_r.
  rewrite !map_app. cbn [map]. rewrite !map_app. cbn [map]. rewrite !map_app. cbn [map]. rewrite !map_app. cbn [map]. rewrite !map_app. cbn [app].
  assert (x1 = 45 /\ x2 = 45 /\ x3 = 45 /\ x4 = 45) as (-> & -> & -> & ->) by lia. reflexivity.
Qed.
Print Assumptions C33_parse_format.
(** shorter texts are rejected; of a longer text only the first 36 characters are looked at *)
Theorem C33_length v s : ((length s < 36)%nat -> uuid_set v s = Err) /\ ((36 <= length s)%nat -> uuid_set v s = uuid_set v (firstn 36 s)).
Proof.
  split; intros L; [unfold uuid_set; destruct (Z.ltb_spec (Z.of_nat (length s)) 36); [reflexivity|lia]|].
  destruct (set_parts v s L) as (E & a & x1 & b & x2 & c & x3 & d & x4 & e & g & r & -> & La & Lb & Lc & Ld & Le & Lg). rewrite E.
  destruct (set_parts v (a ++ x1 :: b ++ x2 :: c ++ x3 :: d ++ x4 :: e ++ g ++ [])) as (E' & _).
  { rewrite !app_length. cbn [length]. rewrite !app_length. cbn [length]. rewrite !app_length. cbn [length]. rewrite !app_length. cbn [length]. rewrite !app_length. lia. }
  replace (firstn 36 _) with (a ++ x1 :: b ++ x2 :: c ++ x3 :: d ++ x4 :: e ++ g ++ []).
  - rewrite E', !parts_eq by assumption. destruct (digits 0 a), (digits 0 b), (digits 0 c), (digits 0 d), (digits 0 e), (digits 0 g); try reflexivity. now destruct (_ && _).
  - clear E E' L. do 8 (destruct a as [|? a]; [discriminate|]). destruct a; [|discriminate].
    do 4 (destruct b as [|? b]; [discriminate|]). destruct b; [|discriminate].
    do 4 (destruct c as [|? c]; [discriminate|]). destruct c; [|discriminate].
    do 4 (destruct d as [|? d]; [discriminate|]). destruct d; [|discriminate].
    do 4 (destruct e as [|? e]; [discriminate|]). destruct e; [|discriminate].
    do 8 (destruct g as [|? g]; [discriminate|]). destruct g; [|discriminate]. reflexivity.
Qed.
Print Assumptions C33_length.
(** so a text with anything behind a UUID is accepted *)
Theorem C33_trailing_refuted : exists v s, (36 < length s)%nat /\ exists u, uuid_set v s = Ok u.
Proof. exists (mkuuid 0 0 0 0 0 0), (uuid_get (mkuuid 1 2 3 4 5 6) ++ [33; 33]). split; [cbn; lia|]. eexists. vm_compute. reflexivity. Qed.
Print Assumptions C33_trailing_refuted.
Example C33_nonvacuous : uuid_ok (mkuuid 4294967295 0 43981 4660 65535 3735928559) /\ uuid_get (mkuuid 4294967295 0 43981 4660 65535 3735928559) =
  [102;102;102;102;102;102;102;102;45;48;48;48;48;45;97;98;99;100;45;49;50;51;52;45;102;102;102;102;100;101;97;100;98;101;101;102].
Proof. split; [unfold uuid_ok; cbn; lia|reflexivity]. Qed.
