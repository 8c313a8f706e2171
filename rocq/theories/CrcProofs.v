(** Proofs about the checksum: both implementations are the division of the whole buffer. *)
From Verif Require Import Base CrcTables CrcModel.
Local Open Scope Z_scope.

Lemma bit_step_lxor a b : bit_step (Z.lxor a b) = Z.lxor (bit_step a) (bit_step b).
Proof.
  unfold bit_step. rewrite <- !Z.bit0_odd, Z.lxor_spec, Z.shiftr_lxor.
  destruct (Z.testbit a 0), (Z.testbit b 0); cbn [xorb].
  - rewrite !Z.lxor_assoc. f_equal. rewrite (Z.lxor_comm (Z.shiftr b 1)), <- Z.lxor_assoc, Z.lxor_nilpotent. now rewrite Z.lxor_0_l.
  - rewrite !Z.lxor_assoc. f_equal. apply Z.lxor_comm.
  - now rewrite Z.lxor_assoc.
  - reflexivity.
Qed.
Lemma bit_steps_lxor n a b : bit_steps n (Z.lxor a b) = Z.lxor (bit_steps n a) (bit_steps n b).
Proof. unfold bit_steps. induction n as [|n IH]; cbn [Nat.iter]; [reflexivity|]. simpl. rewrite IH. apply bit_step_lxor. Qed.
Lemma bit_steps_add n m c : bit_steps (n + m) c = bit_steps n (bit_steps m c).
Proof. unfold bit_steps. induction n as [|n IH]; simpl; [reflexivity|]. now rewrite IH. Qed.
Lemma bit_steps_0 n : bit_steps n 0 = 0.
Proof. unfold bit_steps. induction n as [|n IH]; simpl; [reflexivity|]. rewrite IH. reflexivity. Qed.
Lemma bit_steps_shift n : forall c, bit_steps n (Z.shiftl c (Z.of_nat n)) = c.
Proof.
  induction n as [|n IH]; intros c; [apply Z.shiftl_0_r|].
  replace (S n) with (n + 1)%nat by lia. rewrite bit_steps_add.
  assert (bit_steps 1 (Z.shiftl c (Z.of_nat (n + 1))) = Z.shiftl c (Z.of_nat n)) as ->; [|apply IH].
  unfold bit_steps. simpl. unfold bit_step.
  replace (Z.odd (Z.shiftl c (Z.of_nat (n + 1)))) with false.
  - rewrite Z.shiftr_shiftl_l by lia. f_equal. lia.
  - symmetry. rewrite <- Z.bit0_odd, Z.shiftl_spec_low by lia. reflexivity.
Qed.
Lemma bit_steps_shift_le n m c : (m <= n)%nat -> bit_steps n (Z.shiftl c (Z.of_nat m)) = bit_steps (n - m) c.
Proof. intros H. replace n with ((n - m) + m)%nat at 1 by lia. now rewrite bit_steps_add, bit_steps_shift. Qed.

(** range and injectivity of one step *)
Lemma lt_pow_bits c n : 0 <= n -> 0 <= c -> (c < 2 ^ n <-> forall i, n <= i -> Z.testbit c i = false).
Proof.
  intros Hn Hc. split.
  - intros H i Hi. destruct (Z.eq_dec c 0) as [->|]; [apply Z.bits_0|]. apply Z.bits_above_log2; [exact Hc|].
    apply Z.log2_lt_pow2 in H; lia.
  - intros H. destruct (Z.eq_dec c 0) as [->|N]; [apply Z.pow_pos_nonneg; lia|].
    apply Z.log2_lt_pow2; [lia|]. destruct (Z.lt_ge_cases (Z.log2 c) n) as [L|L]; [exact L|].
    specialize (H _ L). rewrite Z.bit_log2 in H; [discriminate|lia].
Qed.
Lemma lxor_range n a b : 0 <= n -> 0 <= a < 2 ^ n -> 0 <= b < 2 ^ n -> 0 <= Z.lxor a b < 2 ^ n.
Proof.
  intros Hn [A1 A2] [B1 B2]. assert (0 <= Z.lxor a b) as P by (apply Z.lxor_nonneg; lia). split; [exact P|].
  apply lt_pow_bits; [exact Hn|exact P|]. intros i Hi. rewrite Z.lxor_spec.
  rewrite (proj1 (lt_pow_bits a n Hn A1) A2 i Hi), (proj1 (lt_pow_bits b n Hn B1) B2 i Hi). reflexivity.
Qed.
Lemma bit_step_range c : 0 <= c < 2 ^ 32 -> 0 <= bit_step c < 2 ^ 32.
Proof.
  intros H. assert (0 <= Z.shiftr c 1 < 2 ^ 32) as R.
  { rewrite Z.shiftr_div_pow2 by lia. change (2 ^ 1) with 2. pose proof (Z.div_pos c 2). pose proof (Z.div_le_upper_bound c 2 c). lia. }
  unfold bit_step. destruct (Z.odd c); [apply lxor_range; [lia|exact R|unfold crc_poly; lia]|exact R].
Qed.
Lemma bit_steps_range n c : 0 <= c < 2 ^ 32 -> 0 <= bit_steps n c < 2 ^ 32.
Proof. intros H. unfold bit_steps. induction n as [|n IH]; simpl; [exact H|]. now apply bit_step_range. Qed.
Lemma bit_step_zero c : 0 <= c < 2 ^ 32 -> bit_step c = 0 -> c = 0.
Proof.
  intros H E. unfold bit_step in E. destruct (Z.odd c) eqn:O.
  - apply Z.lxor_eq in E. exfalso. rewrite Z.shiftr_div_pow2 in E by lia. change (2 ^ 1) with 2 in E. unfold crc_poly in E.
    pose proof (Z.div_lt_upper_bound c 2 (2 ^ 31)). lia.
  - rewrite Z.shiftr_div_pow2 in E by lia. change (2 ^ 1) with 2 in E. apply Z.div_small_iff in E; [|lia].
    assert (c = 0 \/ c = 1) as [-> | ->] by lia; [reflexivity|discriminate].
Qed.
Lemma bit_steps_zero n c : 0 <= c < 2 ^ 32 -> bit_steps n c = 0 -> c = 0.
Proof.
  intros H. unfold bit_steps. induction n as [|n IH]; simpl; [auto|]. intros E. apply IH.
  apply bit_step_zero; [|exact E]. now apply (bit_steps_range n c).
Qed.

(** a buffer as a number: the first byte is the lowest *)
Lemma lxor_disjoint a b n : 0 <= n -> 0 <= a < 2 ^ n -> a + Z.shiftl b n = Z.lxor a (Z.shiftl b n).
Proof.
  intros Hn H. rewrite Z.add_nocarry_lxor; [reflexivity|].
  apply Z.bits_inj'. intros i Hi. rewrite Z.land_spec, Z.bits_0.
  destruct (Z.lt_ge_cases i n) as [L|L]; [rewrite Z.shiftl_spec_low by lia; apply andb_false_r|].
  rewrite (proj1 (lt_pow_bits a n Hn (proj1 H)) (proj2 H) i L). reflexivity.
Qed.
Lemma le_dec_cons b l : 0 <= b < 256 -> le_dec (b :: l) = Z.lxor b (Z.shiftl (le_dec l) 8).
Proof.
  intros H. cbn [le_dec]. rewrite <- lxor_disjoint by (change (2 ^ 8) with 256; lia).
  rewrite Z.shiftl_mul_pow2 by lia. change (2 ^ 8) with 256. lia.
Qed.
Lemma bytes_ok_cons b l : bytes_ok (b :: l) = true <-> 0 <= b < 256 /\ bytes_ok l = true.
Proof. cbn [bytes_ok forallb]. unfold bytes_ok, byte_ok. rewrite andb_true_iff. split; [intros [H ?]; split; [lia|auto]|intros [H ?]; split; [lia|auto]]. Qed.
Lemma bytes_ok_app a b : bytes_ok (a ++ b) = bytes_ok a && bytes_ok b.
Proof. unfold bytes_ok. apply forallb_app. Qed.
Lemma le_dec_app a b : bytes_ok a = true -> le_dec (a ++ b) = Z.lxor (le_dec a) (Z.shiftl (le_dec b) (8 * Z.of_nat (length a))).
Proof.
  induction a as [|x a IH]; intros H.
  - cbn [app le_dec length]. now rewrite Z.mul_0_r, Z.shiftl_0_r, Z.lxor_0_l.
  - apply bytes_ok_cons in H as [Hx Ha]. cbn [app]. rewrite !le_dec_cons by exact Hx. rewrite IH by exact Ha.
    rewrite Z.shiftl_lxor, Z.shiftl_shiftl by lia. rewrite Z.lxor_assoc. do 3 f_equal. cbn [length]. lia.
Qed.

(** the checksum of a buffer as one division *)
Definition crc_div (crc : Z) (l : list Z) : Z := bit_steps (8 * length l) (Z.lxor crc (le_dec l)).
Lemma crc_div_app c a b : bytes_ok a = true -> crc_div c (a ++ b) = crc_div (crc_div c a) b.
Proof.
  intros H. unfold crc_div. rewrite app_length. replace (8 * (length a + length b))%nat with (8 * length b + 8 * length a)%nat by lia.
  rewrite bit_steps_add. f_equal. rewrite le_dec_app by exact H. rewrite <- Z.lxor_assoc, bit_steps_lxor. f_equal.
  replace (8 * Z.of_nat (length a)) with (Z.of_nat (8 * length a)) by lia. apply bit_steps_shift.
Qed.
Lemma crc_div_nil c : crc_div c [] = c.
Proof. unfold crc_div. cbn. apply Z.lxor_0_r. Qed.

(** the tables *)
Definition check_tab (t : list Z) (k : nat) : bool :=
  forallb (fun i => nth i t 0 =? bit_steps (8 * k) (Z.of_nat i)) (seq 0 256).
Lemma tab_spec t k : check_tab t k = true -> forall x, 0 <= x -> tab t x = bit_steps (8 * k) (Z.land x 255).
Proof.
  intros H x Hx. unfold tab. unfold check_tab in H. rewrite forallb_forall in H.
  assert (0 <= Z.land x 255 < 256) as R.
  { change 255 with (Z.ones 8). rewrite Z.land_ones by lia. apply Z.mod_pos_bound. lia. }
  specialize (H (Z.to_nat (Z.land x 255))). rewrite in_seq in H. specialize (H ltac:(lia)). apply Z.eqb_eq in H.
  rewrite H. now rewrite Z2Nat.id by lia.
Qed.
Lemma tab32 x : 0 <= x -> tab crc_o32 x = bit_steps 8 (Z.land x 255).
Proof. intros H. apply (tab_spec crc_o32 1); [vm_compute; reflexivity|exact H]. Qed.
Lemma tab40 x : 0 <= x -> tab crc_o40 x = bit_steps 16 (Z.land x 255).
Proof. intros H. apply (tab_spec crc_o40 2); [vm_compute; reflexivity|exact H]. Qed.
Lemma tab48 x : 0 <= x -> tab crc_o48 x = bit_steps 24 (Z.land x 255).
Proof. intros H. apply (tab_spec crc_o48 3); [vm_compute; reflexivity|exact H]. Qed.
Lemma tab56 x : 0 <= x -> tab crc_o56 x = bit_steps 32 (Z.land x 255).
Proof. intros H. apply (tab_spec crc_o56 4); [vm_compute; reflexivity|exact H]. Qed.
Lemma tab64 x : 0 <= x -> tab crc_o64 x = bit_steps 40 (Z.land x 255).
Proof. intros H. apply (tab_spec crc_o64 5); [vm_compute; reflexivity|exact H]. Qed.
Lemma tab72 x : 0 <= x -> tab crc_o72 x = bit_steps 48 (Z.land x 255).
Proof. intros H. apply (tab_spec crc_o72 6); [vm_compute; reflexivity|exact H]. Qed.
Lemma tab80 x : 0 <= x -> tab crc_o80 x = bit_steps 56 (Z.land x 255).
Proof. intros H. apply (tab_spec crc_o80 7); [vm_compute; reflexivity|exact H]. Qed.
Lemma tab88 x : 0 <= x -> tab crc_o88 x = bit_steps 64 (Z.land x 255).
Proof. intros H. apply (tab_spec crc_o88 8); [vm_compute; reflexivity|exact H]. Qed.

Lemma split8 x : x = Z.lxor (Z.land x 255) (Z.shiftl (Z.shiftr x 8) 8).
Proof.
  apply Z.bits_inj'. intros i Hi. change 255 with (Z.ones 8). rewrite Z.lxor_spec, Z.land_spec, Z.testbit_ones by lia.
  destruct (Z.ltb_spec i 8) as [L|L].
  - rewrite Z.shiftl_spec_low by lia. replace (0 <=? i) with true by lia. cbn. now rewrite andb_true_r, xorb_false_r.
  - rewrite Z.shiftl_spec by lia. rewrite Z.shiftr_spec by lia. replace (i - 8 + 8) with i by lia. rewrite !andb_false_r. now destruct (Z.testbit x i).
Qed.
Lemma crc_byte_div c b : 0 <= c -> 0 <= b < 256 -> crc_byte c b = crc_div c [b].
Proof.
  intros Hc Hb. unfold crc_byte, crc_div. cbn [length le_dec]. replace (b + 256 * 0) with b by lia.
  assert (0 <= Z.lxor c b) as P by (apply Z.lxor_nonneg; lia).
  rewrite tab32 by exact P. change (8 * 1)%nat with 8%nat.
  rewrite (split8 (Z.lxor c b)) at 2. rewrite bit_steps_lxor. f_equal.
  change 8 with (Z.of_nat 8) at 3. rewrite bit_steps_shift. rewrite Z.shiftr_lxor.
  rewrite (Z.shiftr_div_pow2 b) by lia. rewrite (Z.div_small b) by (change (2 ^ 8) with 256; lia). now rewrite Z.lxor_0_r.
Qed.
Lemma crc_div_range c l : 0 <= c < 2 ^ 32 -> bytes_ok l = true -> 0 <= crc_div c l < 2 ^ 32.
Proof.
  intros Hc. revert c Hc. induction l as [|b l IH]; intros c Hc H; [now rewrite crc_div_nil|].
  apply bytes_ok_cons in H as [Hb Hl]. change (b :: l) with ([b] ++ l).
  rewrite crc_div_app by (apply bytes_ok_cons; auto). apply IH; [|exact Hl].
  unfold crc_div. apply bit_steps_range. cbn [le_dec]. apply lxor_range; lia.
Qed.
Lemma crc_bytes_div l : forall c, 0 <= c < 2 ^ 32 -> bytes_ok l = true -> crc_bytes c l = crc_div c l.
Proof.
  induction l as [|b l IH]; intros c Hc H; [symmetry; apply crc_div_nil|].
  apply bytes_ok_cons in H as [Hb Hl]. change (b :: l) with ([b] ++ l) at 2. rewrite crc_div_app by (apply bytes_ok_cons; auto).
  unfold crc_bytes. cbn [fold_left]. fold (crc_bytes (crc_byte c b) l). rewrite crc_byte_div by lia.
  apply IH; [|exact Hl]. apply crc_div_range; [exact Hc|]. apply bytes_ok_cons; auto.
Qed.

Lemma split_steps n x : (8 <= n)%nat -> bit_steps n x = Z.lxor (bit_steps n (Z.land x 255)) (bit_steps (n - 8) (Z.shiftr x 8)).
Proof.
  intros H. rewrite (split8 x) at 1. rewrite bit_steps_lxor. f_equal.
  change 8 with (Z.of_nat 8) at 2. now rewrite bit_steps_shift_le by lia.
Qed.
Lemma le_dec_range l : bytes_ok l = true -> 0 <= le_dec l < 2 ^ (8 * Z.of_nat (length l)).
Proof.
  induction l as [|b l IH]; intros H; [cbn; lia|]. apply bytes_ok_cons in H as [Hb Hl]. specialize (IH Hl).
  cbn [le_dec length]. replace (8 * Z.of_nat (S (length l))) with (8 + 8 * Z.of_nat (length l)) by lia.
  rewrite Z.pow_add_r by lia. change (2 ^ 8) with 256. lia.
Qed.
Lemma slice8_div c l : 0 <= c < 2 ^ 32 -> bytes_ok l = true -> length l = 8%nat -> slice8 c l = crc_div c l.
Proof.
  intros Hc H L.
  set (a := firstn 4 l). set (b := skipn 4 l).
  assert (l = a ++ b) as E by (symmetry; apply firstn_skipn).
  assert (length a = 4%nat) as La by (unfold a; rewrite firstn_length; lia).
  assert (length b = 4%nat) as Lb by (unfold b; rewrite skipn_length; lia).
  assert (bytes_ok a = true /\ bytes_ok b = true) as [Ha Hb] by (rewrite E, bytes_ok_app in H; apply andb_true_iff in H; exact H).
  assert (firstn 4 (skipn 4 l) = b) as E2 by (fold b; rewrite <- Lb; apply firstn_all).
  unfold slice8. rewrite E2. fold a. cbv zeta.
  pose proof (le_dec_range a Ha) as Ra. pose proof (le_dec_range b Hb) as Rb. rewrite La in Ra. rewrite Lb in Rb.
  change (8 * Z.of_nat 4) with 32 in *.
  unfold crc_div. rewrite L. change (8 * 8)%nat with 64%nat. rewrite E, le_dec_app by exact Ha. rewrite La. change (8 * Z.of_nat 4) with 32.
  replace (Z.lxor c (Z.lxor (le_dec a) (Z.shiftl (le_dec b) 32))) with (Z.lxor (Z.lxor c (le_dec a)) (Z.shiftl (le_dec b) 32)) by apply Z.lxor_assoc.
  rewrite bit_steps_lxor. set (x := Z.lxor c (le_dec a)). set (p := le_dec b) in *.
  assert (0 <= x < 2 ^ 32) as Rx by (apply lxor_range; lia).
  change (Z.shiftl p 32) with (Z.shiftl p (Z.of_nat 32)). rewrite bit_steps_shift_le by lia. change (64 - 32)%nat with 32%nat.
  assert (forall y k, 0 <= y -> 0 <= k -> 0 <= Z.shiftr y k) as SR by (intros; apply Z.shiftr_nonneg; lia).
  rewrite tab88, tab80, tab72, tab64, tab56, tab48, tab40, tab32 by (repeat apply SR; lia).
  rewrite !Z.shiftr_shiftr by lia. change (16 + 8) with 24.
  rewrite (split_steps 64 x) by lia. change (64 - 8)%nat with 56%nat.
  rewrite (split_steps 56 (Z.shiftr x 8)) by lia. change (56 - 8)%nat with 48%nat. rewrite Z.shiftr_shiftr by lia. change (8 + 8) with 16.
  rewrite (split_steps 48 (Z.shiftr x 16)) by lia. change (48 - 8)%nat with 40%nat. rewrite Z.shiftr_shiftr by lia. change (16 + 8) with 24.
  rewrite (split_steps 40 (Z.shiftr x 24)) by lia. change (40 - 8)%nat with 32%nat. rewrite Z.shiftr_shiftr by lia. change (24 + 8) with 32.
  rewrite (split_steps 32 p) by lia. change (32 - 8)%nat with 24%nat.
  rewrite (split_steps 24 (Z.shiftr p 8)) by lia. change (24 - 8)%nat with 16%nat. rewrite Z.shiftr_shiftr by lia. change (8 + 8) with 16.
  rewrite (split_steps 16 (Z.shiftr p 16)) by lia. change (16 - 8)%nat with 8%nat. rewrite Z.shiftr_shiftr by lia. change (16 + 8) with 24.
  rewrite (split_steps 8 (Z.shiftr p 24)) by lia. change (8 - 8)%nat with 0%nat. rewrite Z.shiftr_shiftr by lia. change (24 + 8) with 32.
  assert (forall y, 0 <= y < 2 ^ 32 -> Z.shiftr y 32 = 0) as Z0 by (intros y Hy; rewrite Z.shiftr_div_pow2 by lia; apply Z.div_small; lia).
  rewrite (Z0 x Rx), (Z0 p Rb), !bit_steps_0, !Z.lxor_0_r, !Z.lxor_assoc. reflexivity.
Qed.

Lemma skipn_skipn {X} n m (l : list X) : skipn n (skipn m l) = skipn (m + n) l.
Proof. revert l; induction m as [|m IH]; intros l; cbn; [reflexivity|]. destruct l as [|x l]; [destruct n; reflexivity|apply IH]. Qed.
Lemma slices_div n : forall c l, 0 <= c < 2 ^ 32 -> bytes_ok l = true -> (8 * n <= length l)%nat ->
  exists c', slices n c l = (c', skipn (8 * n) l) /\ c' = crc_div c (firstn (8 * n) l) /\ 0 <= c' < 2 ^ 32.
Proof.
  induction n as [|n IH]; intros c l Hc H L.
  - exists c. cbn [slices Nat.mul skipn firstn]. rewrite crc_div_nil. auto.
  - cbn [slices]. assert (bytes_ok (firstn 8 l) = true /\ bytes_ok (skipn 8 l) = true) as [H1 H2].
    { apply andb_true_iff. rewrite <- bytes_ok_app, firstn_skipn. exact H. }
    assert (length (firstn 8 l) = 8%nat) as L8 by (rewrite firstn_length; lia).
    rewrite slice8_div by auto.
    destruct (IH (crc_div c (firstn 8 l)) (skipn 8 l)) as (c' & E1 & E2 & R).
    + now apply crc_div_range.
    + exact H2.
    + rewrite skipn_length. lia.
    + exists c'. split; [|split; [|exact R]].
      * rewrite E1. f_equal. rewrite skipn_skipn. f_equal. lia.
      * rewrite E2. rewrite <- crc_div_app by exact H1. f_equal.
        replace (8 * S n)%nat with (8 + 8 * n)%nat by lia. rewrite <- (firstn_skipn 8 l) at 3.
        rewrite firstn_app, L8. rewrite (firstn_all2 (n := 8 + 8 * n)) by lia. do 2 f_equal. lia.
Qed.
Lemma bytes_ok_firstn n l : bytes_ok l = true -> bytes_ok (firstn n l) = true /\ bytes_ok (skipn n l) = true.
Proof. intros H. apply andb_true_iff. rewrite <- bytes_ok_app, firstn_skipn. exact H. Qed.

Lemma crc32_div addr c l : 0 <= c < 2 ^ 32 -> bytes_ok l = true -> crc32 addr c l = crc_div c l.
Proof.
  intros Hc H. unfold crc32. set (k := Nat.min (length l) (Z.to_nat (Z.land (4 - addr) 3))).
  destruct (bytes_ok_firstn k l H) as [H1 H2]. rewrite crc_bytes_div by auto.
  destruct (slices_div (length (skipn k l) / 8) (crc_div c (firstn k l)) (skipn k l)) as (c' & E & E2 & R).
  - now apply crc_div_range.
  - exact H2.
  - apply Nat.mul_div_le. lia.
  - rewrite E. destruct (bytes_ok_firstn (8 * (length (skipn k l) / 8)) (skipn k l) H2) as [H3 H4].
    rewrite crc_bytes_div by auto. rewrite E2, <- crc_div_app by exact H3. rewrite firstn_skipn.
    rewrite <- crc_div_app by exact H1. now rewrite firstn_skipn.
Qed.

Lemma sse_words_div n : forall c l, 0 <= c < 2 ^ 32 -> bytes_ok l = true -> (8 * n <= length l)%nat ->
  exists c', sse_words n c l = (c', skipn (8 * n) l) /\ c' = crc_div c (firstn (8 * n) l) /\ 0 <= c' < 2 ^ 32.
Proof.
  induction n as [|n IH]; intros c l Hc H L.
  - exists c. cbn [sse_words Nat.mul skipn firstn]. rewrite crc_div_nil. auto.
  - cbn [sse_words]. destruct (bytes_ok_firstn 8 l H) as [H1 H2].
    assert (length (firstn 8 l) = 8%nat) as L8 by (rewrite firstn_length; lia).
    assert (insn_u64 c (le_dec (firstn 8 l)) = crc_div c (firstn 8 l)) as -> by (unfold insn_u64, crc_div; rewrite L8; reflexivity).
    destruct (IH (crc_div c (firstn 8 l)) (skipn 8 l)) as (c' & E1 & E2 & R).
    + now apply crc_div_range.
    + exact H2.
    + rewrite skipn_length. lia.
    + exists c'. split; [|split; [|exact R]].
      * rewrite E1. f_equal. rewrite skipn_skipn. f_equal. lia.
      * rewrite E2. rewrite <- crc_div_app by exact H1. f_equal.
        replace (8 * S n)%nat with (8 + 8 * n)%nat by lia. rewrite <- (firstn_skipn 8 l) at 3.
        rewrite firstn_app, L8. rewrite (firstn_all2 (n := 8 + 8 * n)) by lia. do 2 f_equal. lia.
Qed.
Lemma insn_bytes_div l : forall c, bytes_ok l = true -> fold_left insn_u8 l c = crc_div c l.
Proof.
  induction l as [|b l IH]; intros c H; [symmetry; apply crc_div_nil|].
  apply bytes_ok_cons in H as [Hb Hl]. change (b :: l) with ([b] ++ l) at 2. rewrite crc_div_app by (apply bytes_ok_cons; auto).
  cbn [fold_left]. rewrite IH by exact Hl. f_equal. unfold insn_u8, crc_div. cbn [length le_dec]. do 2 f_equal. lia.
Qed.
Lemma crc32_sse_div c l : 0 <= c < 2 ^ 32 -> bytes_ok l = true -> crc32_sse c l = crc_div c l.
Proof.
  intros Hc H. unfold crc32_sse. destruct (sse_words_div (length l / 8) c l Hc H) as (c' & E & E2 & R); [apply Nat.mul_div_le; lia|].
  rewrite E. destruct (bytes_ok_firstn (8 * (length l / 8)) l H) as [H1 H2].
  rewrite insn_bytes_div by exact H2. rewrite E2, <- crc_div_app by exact H1. now rewrite firstn_skipn.
Qed.

(** ** errors *)
Definition lxor_bytes (a b : list Z) : list Z := map (fun '(x, y) => Z.lxor x y) (combine a b).
Lemma le_dec_lxor a : forall b, length a = length b -> bytes_ok a = true -> bytes_ok b = true ->
  bytes_ok (lxor_bytes a b) = true /\ length (lxor_bytes a b) = length a /\ le_dec (lxor_bytes a b) = Z.lxor (le_dec a) (le_dec b).
Proof.
  induction a as [|x a IH]; intros [|y b] L Ha Hb; try discriminate; [repeat split|].
  apply bytes_ok_cons in Ha as [Hx Ha]. apply bytes_ok_cons in Hb as [Hy Hb]. injection L as L.
  destruct (IH b L Ha Hb) as (I1 & I2 & I3). unfold lxor_bytes. cbn [combine map]. fold (lxor_bytes a b).
  assert (0 <= Z.lxor x y < 256) as R by (change 256 with (2 ^ 8); apply lxor_range; lia).
  split; [apply bytes_ok_cons; auto|]. split; [cbn [length]; now rewrite I2|].
  rewrite !le_dec_cons by assumption. rewrite I3, Z.shiftl_lxor. rewrite !Z.lxor_assoc. f_equal.
  rewrite <- !Z.lxor_assoc. f_equal. apply Z.lxor_comm.
Qed.
(** the buffers differ in a burst of at most 32 bits: counted from the lowest bit of the
    first byte, all differing bits are within 32 consecutive positions *)
Definition burst (a b : list Z) : Prop :=
  exists k e, 0 <= k /\ 0 < e < 2 ^ 32 /\ Z.lxor (le_dec a) (le_dec b) = Z.shiftl e k.
Lemma crc_div_burst c a b : 0 <= c < 2 ^ 32 -> bytes_ok a = true -> bytes_ok b = true -> length a = length b -> burst a b ->
  crc_div c a <> crc_div c b.
Proof.
  intros Hc Ha Hb L (k & e & Hk & He & E) H.
  assert (Z.lxor (crc_div c a) (crc_div c b) = bit_steps (8 * length a) (Z.shiftl e k)) as D.
  { unfold crc_div. rewrite <- L, <- bit_steps_lxor. f_equal. rewrite <- E.
    rewrite (Z.lxor_comm c (le_dec a)), Z.lxor_assoc. f_equal. rewrite <- Z.lxor_assoc, Z.lxor_nilpotent. apply Z.lxor_0_l. }
  rewrite H, Z.lxor_nilpotent in D. symmetry in D.
  assert (exists m, (m <= 8 * length a)%nat /\ k = Z.of_nat m) as (m & Hm & ->).
  { exists (Z.to_nat k). split; [|lia]. assert (Z.lxor (le_dec a) (le_dec b) < 2 ^ (8 * Z.of_nat (length a))) as U.
    { apply lxor_range; [lia|apply le_dec_range; exact Ha|]. rewrite L. apply le_dec_range. exact Hb. }
    rewrite E, Z.shiftl_mul_pow2 in U by lia. assert (2 ^ k < 2 ^ (8 * Z.of_nat (length a))) as V by nia.
    apply Z.pow_lt_mono_r_iff in V; lia. }
  rewrite bit_steps_shift_le in D by exact Hm. apply bit_steps_zero in D; lia.
Qed.
