From Verif Require Import Base DecLib TimeSpec TimeModel CodecProps.
Local Open Scope Z_scope.

(** ** the calendar *)
Lemma civil_shift j q : civil (j + 146097 * q) = let '(y, m, d) := civil j in (y + 400 * q, m, d).
Proof.
  unfold civil. cbv zeta.
  replace (4 * (j + 146097 * q + 32044) + 3) with (4 * (j + 32044) + 3 + 4 * q * 146097) by lia. rewrite Z.div_add by lia.
  set (b := (4 * (j + 32044) + 3) / 146097).
  replace ((b + 4 * q) * 146097) with (b * 146097 + 146097 * q * 4) by lia. rewrite Z.div_add by lia.
  replace (j + 146097 * q + 32044 - (b * 146097 / 4 + 146097 * q)) with (j + 32044 - b * 146097 / 4) by lia.
  f_equal. f_equal. lia.
Qed.
Fixpoint all_below (n : nat) (k : Z) (p : Z -> bool) : bool := match n with O => true | S n' => p k && all_below n' (k + 1) p end.
Lemma all_below_ok p n : forall k, all_below n k p = true -> forall i, k <= i < k + Z.of_nat n -> p i = true.
Proof.
  induction n as [|n IH]; intros k H i Hi; [lia|]. cbn [all_below] in H. apply andb_prop in H as [H1 H2].
  destruct (Z.eq_dec i k) as [->|]; [exact H1|]. apply (IH (k + 1) H2). lia.
Qed.
Definition cycle_ok (r : Z) : bool := let '(y, m, d) := civil (r - 32044) in valid_date y m d && (day_number y m d =? r - 32044).
Lemma cycle : forall r, 0 <= r < 146097 -> cycle_ok r = true.
Proof. intros r H. apply (all_below_ok cycle_ok (Z.to_nat 146097) 0); [vm_compute; reflexivity|lia]. Qed.
Lemma leap_shift y q : leap (y + 400 * q) = leap y.
Proof. unfold leap. replace ((y + 400 * q) mod 4) with (y mod 4) by eucl. replace ((y + 400 * q) mod 100) with (y mod 100) by eucl. replace ((y + 400 * q) mod 400) with (y mod 400) by eucl. reflexivity. Qed.
Lemma valid_shift y m d q : valid_date (y + 400 * q) m d = valid_date y m d.
Proof. unfold valid_date, month_days. now rewrite leap_shift. Qed.
Lemma day_shift y m d q : day_number (y + 400 * q) m d = day_number y m d + 146097 * q.
Proof.
  unfold day_number, month_start, year_start. rewrite leap_shift.
  replace ((y + 400 * q - 1) / 4) with ((y - 1) / 4 + 100 * q) by eucl. replace ((y + 400 * q - 1) / 100) with ((y - 1) / 100 + 4 * q) by eucl.
  replace ((y + 400 * q - 1) / 400) with ((y - 1) / 400 + q) by eucl. lia.
Qed.
Lemma civil_ok j : let '(y, m, d) := civil j in valid_date y m d = true /\ day_number y m d = j.
Proof.
  pose proof (Z.div_mod (j + 32044) 146097 ltac:(lia)) as E. pose proof (Z.mod_pos_bound (j + 32044) 146097 ltac:(lia)) as B.
  set (q := (j + 32044) / 146097) in *. set (r := (j + 32044) mod 146097) in *.
  replace j with (r - 32044 + 146097 * q) by lia. rewrite civil_shift. pose proof (cycle r B) as C. unfold cycle_ok in C.
  destruct (civil (r - 32044)) as [[y m] d]. apply andb_prop in C as [C1 C2]. rewrite valid_shift, day_shift. split; [exact C1|lia].
Qed.
Lemma leap_count y : (if leap y then 1 else 0) = y / 4 - (y - 1) / 4 - (y / 100 - (y - 1) / 100) + (y / 400 - (y - 1) / 400).
Proof. unfold leap. destruct (Z.eqb_spec (y mod 4) 0), (Z.eqb_spec (y mod 100) 0), (Z.eqb_spec (y mod 400) 0); cbn [andb orb negb]; eucl. Qed.
Lemma year_next y : year_start (y + 1) = year_start y + 365 + (if leap y then 1 else 0).
Proof. rewrite leap_count. unfold year_start. replace (y + 1 - 1) with y by lia. lia. Qed.
Ltac months m := let M := fresh in
  assert (M : m = 1 \/ m = 2 \/ m = 3 \/ m = 4 \/ m = 5 \/ m = 6 \/ m = 7 \/ m = 8 \/ m = 9 \/ m = 10 \/ m = 11 \/ m = 12) by lia;
  repeat (destruct M as [-> | M]); [..|subst m].
Lemma valid_month y m d : valid_date y m d = true -> 1 <= m <= 12 /\ 1 <= d <= month_days y m.
Proof. unfold valid_date. lia. Qed.
Lemma month_range y m d : valid_date y m d = true -> 0 <= month_start y m + d - 1 < 365 + (if leap y then 1 else 0).
Proof.
  intros H. apply valid_month in H as [Hm Hd]. unfold month_days, month_start in *. months m; cbn [Z.eqb Pos.eqb orb] in *; destruct (leap y); lia.
Qed.
Lemma month_mono y m m' d d' : valid_date y m d = true -> valid_date y m' d' = true -> month_start y m + d = month_start y m' + d' -> m = m' /\ d = d'.
Proof.
  intros H1 H2 E. apply valid_month in H1 as [Hm Hd], H2 as [Hm' Hd']. unfold month_days, month_start in *.
  months m; cbn [Z.eqb Pos.eqb orb] in *; (months m'; cbn [Z.eqb Pos.eqb orb] in *; destruct (leap y); lia).
Qed.
Lemma year_mono y y' : y < y' -> year_start y + 365 + (if leap y then 1 else 0) <= year_start y'.
Proof.
  intros H. rewrite <- year_next. unfold year_start. replace (y + 1 - 1) with y by lia. assert (y <= y' - 1) as L by lia. clear H. eucl.
Qed.
Lemma day_number_inj y m d y' m' d' : valid_date y m d = true -> valid_date y' m' d' = true -> day_number y m d = day_number y' m' d' -> (y, m, d) = (y', m', d').
Proof.
  intros H1 H2 E. unfold day_number in E. pose proof (month_range _ _ _ H1) as R1. pose proof (month_range _ _ _ H2) as R2.
  assert (y = y') as ->.
  { destruct (Z.lt_trichotomy y y') as [L|[L|L]]; [|exact L|]; apply year_mono in L; lia. }
  assert (M : month_start y' m + d = month_start y' m' + d') by lia. apply month_mono in M as [-> ->]; auto.
Qed.
Lemma civil_day y m d : valid_date y m d = true -> civil (day_number y m d) = (y, m, d).
Proof.
  intros H. pose proof (civil_ok (day_number y m d)) as C. destruct (civil (day_number y m d)) as [[y' m'] d']. destruct C as [C1 C2].
  symmetry. apply day_number_inj; auto.
Qed.
Lemma next_ok y m d : valid_date y m d = true -> let '(y', m', d') := next_day (y, m, d) in valid_date y' m' d' = true /\ day_number y' m' d' = day_number y m d + 1.
Proof.
  intros H. unfold next_day. destruct (Z.ltb_spec d (month_days y m)) as [L|L].
  - split; [unfold valid_date in *; lia|unfold day_number; lia].
  - apply valid_month in H as [Hm Hd]. destruct (Z.ltb_spec m 12) as [L2|L2].
    + assert (d = month_days y m) as -> by lia. clear L Hd. split.
      * unfold valid_date, month_days. months m; try lia; cbn [Z.eqb Pos.eqb orb Z.add Pos.add Pos.succ]; destruct (leap y); reflexivity.
      * unfold day_number, month_days, month_start. months m; try lia; cbn [Z.eqb Pos.eqb orb Z.add Pos.add Pos.succ Pos.add_carry]; destruct (leap y); lia.
    + assert (m = 12) as -> by lia. split; [reflexivity|]. unfold day_number. rewrite year_next. unfold month_days, month_start in *. cbn [Z.eqb Pos.eqb orb] in *. destruct (leap y); lia.
Qed.
(** ** date.c *)
Definition in_range (j : Z) : Prop := DATE_MIN <= j <= DATE_MAX.
Lemma date_validate_ok j : in_range j -> date_validate j = Ok tt.
Proof. unfold in_range, date_validate. intros H. destruct (Z.ltb_spec j DATE_MIN), (Z.ltb_spec DATE_MAX j); try lia. reflexivity. Qed.
Lemma date_validate_err j : ~ in_range j -> date_validate j = Err.
Proof. unfold in_range, date_validate. intros H. destruct (Z.ltb_spec j DATE_MIN), (Z.ltb_spec DATE_MAX j); try lia; reflexivity. Qed.
Lemma get_civil j : in_range j -> date_get_gregorian j = Ok (civil j).
Proof.
  intros H. unfold date_get_gregorian. rewrite date_validate_ok by exact H. unfold in_range, DATE_MIN, DATE_MAX in H. cbn [bind]. unfold civil. cbv zeta. set (a := j + 32044).
  assert (Ha : 0 <= a) by (unfold a; lia). rewrite (Z.quot_div_nonneg (4 * a + 3)) by lia. set (b := (4 * a + 3) / 146097).
  assert (Hb : 0 <= b) by (apply Z.div_pos; lia). rewrite (Z.quot_div_nonneg (b * 146097)) by lia. set (c := a - b * 146097 / 4).
  assert (Hc : 0 <= c) by (unfold c, b; clear; eucl). rewrite (Z.quot_div_nonneg (4 * c + 3)) by lia. set (d := (4 * c + 3) / 1461).
  assert (Hd : 0 <= d) by (apply Z.div_pos; lia). rewrite (Z.quot_div_nonneg (d * 1461)) by lia. set (e := c - d * 1461 / 4).
  assert (He : 0 <= e) by (unfold e, d; clear; eucl). rewrite (Z.quot_div_nonneg (5 * e + 2)) by lia. set (f := (5 * e + 2) / 153).
  assert (Hf : 0 <= f) by (apply Z.div_pos; lia). rewrite !Z.quot_div_nonneg by lia. reflexivity.
Qed.
Lemma set_day y m d : 0 <= y -> 1 <= m <= 12 -> date_set_gregorian y m d = (do _ <- date_validate (day_number y m d); Ok (day_number y m d)).
Proof.
  intros Hy Hm. unfold date_set_gregorian. cbv zeta.
  match goal with |- bind (date_validate ?x) _ = _ => assert (E : x = day_number y m d) end.
  { assert (A : Z.quot (14 - m) 12 = if m <=? 2 then 1 else 0).
    { rewrite Z.quot_div_nonneg by lia. destruct (Z.leb_spec m 2); eucl. }
    rewrite A. pose proof (leap_count y) as LC. unfold day_number, year_start, month_start.
    destruct (Z.leb_spec m 2) as [L|L]; rewrite !Z.quot_div_nonneg by lia.
    - replace (y + 4800 - 1) with (y - 1 + 4800) by lia. replace ((y - 1 + 4800) / 4) with ((y - 1) / 4 + 1200) by eucl.
      replace ((y - 1 + 4800) / 100) with ((y - 1) / 100 + 48) by eucl. replace ((y - 1 + 4800) / 400) with ((y - 1) / 400 + 12) by eucl.
      assert (m = 1 \/ m = 2) as [-> | ->] by lia; cbn [Z.eqb Pos.eqb]; [change ((153 * (1 + 12 * 1 - 3) + 2) / 5) with 306|change ((153 * (2 + 12 * 1 - 3) + 2) / 5) with 337]; lia.
    - replace (y + 4800 - 0) with (y + 4800) by lia. replace ((y + 4800) / 4) with (y / 4 + 1200) by eucl.
      replace ((y + 4800) / 100) with (y / 100 + 48) by eucl. replace ((y + 4800) / 400) with (y / 400 + 12) by eucl.
      replace (m + 12 * 0 - 3) with (m - 3) by lia.
      assert (M : m = 3 \/ m = 4 \/ m = 5 \/ m = 6 \/ m = 7 \/ m = 8 \/ m = 9 \/ m = 10 \/ m = 11 \/ m = 12) by lia.
      repeat (destruct M as [-> | M]; [change (3 =? 1) with false; cbn [Z.eqb Pos.eqb]; match goal with |- context [(153 * ?k + 2) / 5] => let v := eval vm_compute in ((153 * k + 2) / 5) in change ((153 * k + 2) / 5) with v end; destruct (leap y); lia|]).
      subst m. cbn [Z.eqb Pos.eqb]. change ((153 * (12 - 3) + 2) / 5) with 275. destruct (leap y); lia. }
  now rewrite E.
Qed.
Lemma range_year j : in_range j -> let '(y, m, d) := civil j in 1 <= y <= 9999.
Proof.
  intros H. pose proof (civil_ok j) as C. destruct (civil j) as [[y m] d]. destruct C as [V E]. pose proof (month_range _ _ _ V) as R.
  unfold in_range, DATE_MIN, DATE_MAX in H. unfold day_number in E.
  split.
  - destruct (Z.le_gt_cases 1 y); [assumption|]. pose proof (year_mono y 1 ltac:(lia)) as M. change (year_start 1) with 0 in M. lia.
  - destruct (Z.le_gt_cases y 9999); [assumption|]. destruct (Z.eq_dec y 10000) as [->|]; [change (year_start 10000) with 3652059 in E; lia|].
    pose proof (year_mono 10000 y ltac:(lia)) as M. change (year_start 10000) with 3652059 in M. destruct (leap 10000); lia.
Qed.
Lemma valid_range y m d : valid_date y m d = true -> 1 <= y <= 9999 -> in_range (day_number y m d).
Proof.
  intros V H. pose proof (month_range _ _ _ V) as R. unfold in_range, DATE_MIN, DATE_MAX, day_number. split.
  - destruct (Z.eq_dec y 1) as [->|]; [change (year_start 1) with 0; lia|]. pose proof (year_mono 1 y ltac:(lia)) as M. change (year_start 1) with 0 in M. destruct (leap 1); lia.
  - pose proof (year_mono y 10000 ltac:(lia)) as M. change (year_start 10000) with 3652059 in M. lia.
Qed.
(** ** parsing of fixed fields *)
Lemma in32_small v : - 2 ^ 31 <= v < 2 ^ 31 -> in32 v = true.
Proof. unfold in32. lia. Qed.
Lemma part_digits n : forall v l r, length l = n -> (n <= 4)%nat -> 0 <= v < 10 ^ 4 -> forallb is_digit l = true ->
  part_loop n v (l ++ r) = Ok (fold_left (fun a b => a * 10 + (b - 48)) l v, r).
Proof.
  assert (G : forall n l v r, length l = n -> forallb is_digit l = true -> 0 <= v -> v * 10 ^ Z.of_nat n + 10 ^ Z.of_nat n <= 10 ^ 9 ->
    part_loop n v (l ++ r) = Ok (fold_left (fun a b => a * 10 + (b - 48)) l v, r)).
  { induction n0 as [|n0 IH]; intros l v r L D Hv B; (destruct l as [|b l]; [|]); try discriminate; [reflexivity|].
    cbn [forallb] in D. apply andb_prop in D as [D1 D2]. cbn [part_loop app fold_left]. rewrite D1. unfold is_digit in D1. rewrite pow10_S in B. pose proof (pow10_pos n0) as P.
    unfold mul_add32. change (10 ^ 9) with 1000000000 in B. rewrite !in32_small by nia. cbn [andb bind]. apply IH; [now injection L|exact D2|lia|change (10 ^ 9) with 1000000000; nia]. }
  intros v l r L N Hv D. apply G; try assumption; [lia|].
  assert (10 ^ Z.of_nat n <= 10 ^ 4) by (apply Z.pow_le_mono_r; lia). change (10 ^ 4) with 10000 in *. change (10 ^ 9) with 1000000000. nia.
Qed.
Lemma part_fixed n v r : (n <= 4)%nat -> 0 <= v < 10 ^ Z.of_nat n -> parse_part n (fixed n v ++ r) = Ok (v, r).
Proof.
  intros N H. unfold parse_part. rewrite part_digits; [|apply fixed_length|exact N|lia|apply fixed_ok]. f_equal. f_equal. now apply fixed_num.
Qed.
Lemma part_loop_inv n : forall v s x r, part_loop n v s = Ok (x, r) -> s = firstn n s ++ r /\ length (firstn n s) = n /\ forallb is_digit (firstn n s) = true /\ x = fold_left (fun a b => a * 10 + (b - 48)) (firstn n s) v.
Proof.
  induction n as [|n IH]; intros v s x r H; cbn [part_loop] in H; [injection H as <- <-; auto|].
  destruct s as [|b s]; [discriminate|]. destruct (is_digit b) eqn:D; [|discriminate]. unfold mul_add32 in H. destruct (_ && _); [|discriminate]. cbn [bind] in H.
  destruct (IH _ _ _ _ H) as (E & L & F & X). cbn [firstn forallb fold_left app length]. rewrite D, <- E, L, F. auto.
Qed.
Lemma parse_part_inv n s x r : parse_part n s = Ok (x, r) -> s = firstn n s ++ r /\ length (firstn n s) = n /\ firstn n s = fixed n x /\ 0 <= x < 10 ^ Z.of_nat n.
Proof.
  intros H. apply part_loop_inv in H as (E & L & F & X). change (x = num (firstn n s)) in X. pose proof (fixed_of_num _ F) as Y. pose proof (num_bound _ F) as B. rewrite L in *. subst x. auto.
Qed.
