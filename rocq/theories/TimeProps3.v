(** C63: time zones; C64: DATE_TRUNC, DATE_BIN, EXTRACT; C65: timestamp arithmetic. *)
From Verif Require Import Base DecLib CodecProps TimeSpec TimeModel TimeProofs TimeProps TimeProps2.
Local Open Scope Z_scope.
Local Open Scope list_scope.

(** ** C65 *)
Lemma split_us us : let hours := Z.quot us 3600000000 in let us1 := if hours =? 0 then us else Z.rem us 3600000000 in
  let minutes := Z.quot us1 60000000 in let us2 := if minutes =? 0 then us1 else Z.rem us1 60000000 in
  let seconds := Z.quot us2 1000000 in let us3 := if seconds =? 0 then us2 else Z.rem us2 1000000 in
  us = (hours * 3600 + minutes * 60 + seconds) * 1000000 + us3 /\ Z.abs us3 < 1000000 /\ (0 <= us -> 0 <= us3) /\ (us <= 0 -> us3 <= 0).
Proof.
  cbv zeta. pose proof (split_q us 3600000000 ltac:(lia)) as S1. cbv zeta in S1. set (h := Z.quot us 3600000000) in *. set (us1 := if h =? 0 then us else Z.rem us 3600000000) in *.
  pose proof (split_q us1 60000000 ltac:(lia)) as S2. cbv zeta in S2. set (mi := Z.quot us1 60000000) in *. set (us2 := if mi =? 0 then us1 else Z.rem us1 60000000) in *.
  pose proof (split_q us2 1000000 ltac:(lia)) as S3. cbv zeta in S3. set (se := Z.quot us2 1000000) in *. set (us3 := if se =? 0 then us2 else Z.rem us2 1000000) in *. lia.
Qed.
Lemma to32_small' v : - 2 ^ 31 <= v < 2 ^ 31 -> to32 v = v.
Proof. unfold to32, sx. change (8 * Z.of_nat 4 - 1) with 31. change (8 * Z.of_nat 4) with 32. intros H. destruct (Z.ltb_spec (v mod 2 ^ 32) (2 ^ 31)); eucl. Qed.
(** the value before the validation *)
Lemma shift_time sg t iv t' : (sg = 1 \/ sg = -1) -> 1 <= tmon t <= 12 -> 0 <= th t < 24 -> 1 <= tday t <= 31 -> Z.abs (id_ iv) <= 10 ^ 7 -> Z.abs (ius iv) < 7 * 10 ^ 18 -> timestamp_shift sg t iv = Ok t' ->
  im iv = 0 -> exists us3, mktime t' * 1000000 + tus t' = mktime t * 1000000 + tus t + sg * (id_ iv * 86400000000 + ius iv) /\ tus t' = tus t + sg * us3 /\ Z.abs us3 < 1000000 /\ (0 <= ius iv -> 0 <= us3) /\ (ius iv <= 0 -> us3 <= 0).
Proof.
  intros Sg Hmon Hh Hday Hd Hu E Hm. change (10 ^ 7) with 10000000 in Hd. change (7 * 10 ^ 18) with 7000000000000000000 in Hu. unfold timestamp_shift in E. rewrite Hm in E. change (Z.quot 0 12) with 0 in E. change (0 =? 0) with true in E. cbv iota zeta in E.
  rewrite s32_small in E by (destruct Sg as [-> | ->]; lia). cbn [bind] in E.
  pose proof (split_us (ius iv)) as S. cbv zeta in S. pose proof (split_q (ius iv) 3600000000 ltac:(lia)) as S1. cbv zeta in S1. set (h := Z.quot (ius iv) 3600000000) in *. set (us1 := if h =? 0 then ius iv else Z.rem (ius iv) 3600000000) in *.
  set (mi := Z.quot us1 60000000) in *. set (us2 := if mi =? 0 then us1 else Z.rem us1 60000000) in *. set (se := Z.quot us2 1000000) in *. set (us3 := if se =? 0 then us2 else Z.rem us2 1000000) in *.
  rewrite to32_small' in E by (destruct Sg as [-> | ->]; lia). assert (E' : t' = Ts (ty t + sg * 0) (tmon t + sg * 0) (tday t + sg * id_ iv) (th t + sg * h) (tmi t + sg * mi) (tsec t + sg * se) (tus t + sg * us3) (tzone t)) by congruence. clear E. exists us3.
  destruct S as (S & S' & S''). split; [|subst t'; cbn [tus]; split; [reflexivity|]; split; assumption]. subst t'. unfold mktime. cbn [ty tmon tday th tmi tsec tus]. rewrite Z.mul_0_r, !Z.add_0_r.
  rewrite S. destruct Sg as [-> | ->]; ring.
Qed.
Lemma shift_safe sg t iv : (sg = 1 \/ sg = -1) -> 1 <= tday t <= 31 -> Z.abs (id_ iv) <= 10 ^ 7 -> exists t', timestamp_shift sg t iv = Ok t'.
Proof. intros Sg Hday Hd. change (10 ^ 7) with 10000000 in Hd. unfold timestamp_shift. rewrite s32_small by (destruct Sg as [-> | ->]; lia). eexists. reflexivity. Qed.
(** the final conversion *)
Lemma get_none t X : mktime t * 1000000 + tus t = X -> - 1000000 < tus t < 2000000 -> - 2 ^ 63 + 4000000 < X < 2 ^ 63 - 4000000 ->
  (forall w, timestamp_get_unixtime t None = Ok w -> w = X /\ 0 <= w <= MAX) /\ (0 <= mktime t -> 0 <= X <= MAX -> timestamp_get_unixtime t None = Ok X) /\ timestamp_get_unixtime t None <> UB.
Proof.
  intros E Bu Bx. unfold timestamp_get_unixtime. destruct (Z.eqb_spec (mktime t) (-1)) as [E1|E1]; [split; [discriminate|]; split; [lia|discriminate]|]. cbn [bind]. destruct (Z.ltb_spec (mktime t) 0) as [L|L]; [split; [discriminate|]; split; [lia|discriminate]|].
  rewrite u64_small by lia. rewrite to64_small by lia. rewrite E. rewrite s64_small by lia. cbn [bind]. unfold ts_validate, TIMESTAMP_MAX, MAX.
  destruct (Z.ltb_spec X 0); [split; [discriminate|]; split; [lia|discriminate]|]. destruct (Z.ltb_spec 253402300799999999 X); [split; [discriminate|]; split; [lia|discriminate]|]. cbn [orb bind].
  split; [intros w Hw; assert (w = X) by congruence; lia|]. split; [reflexivity|discriminate].
Qed.
Definition span (iv : interval) : Z := id_ iv * 86400000000 + ius iv.
Lemma shift_ok sg t iv : (sg = 1 \/ sg = -1) -> 1 <= tmon t <= 12 -> 0 <= th t < 24 -> 1 <= tday t <= 31 -> Z.abs (id_ iv) <= 10 ^ 7 -> Z.abs (ius iv) < 7 * 10 ^ 18 -> im iv = 0 -> 0 <= tus t < 1000000 -> - 10 ^ 12 < mktime t < 10 ^ 12 ->
  let X := mktime t * 1000000 + tus t + sg * span iv in let r := do t' <- timestamp_shift sg t iv; timestamp_get_unixtime t' None in
  (forall w, r = Ok w -> w = X /\ 0 <= w <= MAX) /\ (1000000 <= X <= MAX -> r = Ok X) /\ (0 <= X <= MAX -> id_ iv = 0 -> 0 <= mktime t -> r = Ok X) /\ r <> UB.
Proof.
  intros Sg Hmon Hh Hday Hd Hu Hm Bu Bt X r. destruct (shift_safe sg t iv Sg Hday Hd) as (t' & E). destruct (shift_time sg t iv t' Sg Hmon Hh Hday Hd Hu E Hm) as (us3 & E1 & E2 & E3 & E4 & E5).
  fold (span iv) in E1. fold X in E1. unfold r. rewrite E. cbn [bind]. change (10 ^ 12) with 1000000000000 in Bt. change (10 ^ 7) with 10000000 in Hd. change (7 * 10 ^ 18) with 7000000000000000000 in Hu.
  assert (BX : - 2 ^ 63 + 4000000 < X < 2 ^ 63 - 4000000) by (unfold X, span; destruct Sg as [-> | ->]; lia).
  destruct (get_none t' X E1 ltac:(destruct Sg as [-> | ->]; lia) BX) as (G1 & G2 & G3). split; [exact G1|]. split; [|split; [|exact G3]].
  - intros H. apply G2; [|lia]. destruct Sg as [-> | ->]; lia.
  - intros H Hd0 Ht. apply G2; [|lia]. unfold X, span in *. rewrite Hd0 in *. destruct Sg as [-> | ->]; destruct (Z.le_gt_cases 0 (ius iv)); lia.
Qed.
Lemma set_unix v : 0 <= v <= MAX -> exists t, timestamp_set_unixtime v = Ok t /\ mktime t = v / 1000000 /\ tus t = v mod 1000000 /\ 1 <= tmon t <= 12 /\ 0 <= th t < 24 /\ 1 <= tday t <= 31.
Proof.
  intros H. unfold timestamp_set_unixtime, ts_validate, TIMESTAMP_MAX. unfold MAX in H. replace ((v <? 0) || (253402300799999999 <? v)) with false by lia. cbn [bind].
  destruct (gm_fields (v / 1000000) (v mod 1000000)) as (y & m & d & h & mi & s & G & V & T & I & _). exists (gmtime (v / 1000000) (v mod 1000000)). split; [reflexivity|]. rewrite G. pose proof (valid_month _ _ _ V) as [Hm Hd]. pose proof (month_days_le y m).
  rewrite mk_fields by exact Hm. cbn [tmon th tday tus]. destruct T as (T & _). repeat split; try lia; try assumption.
Qed.
(** a timestamp plus or minus an interval of days and microseconds is exact if it succeeds, and
    succeeds if the result is a second or more after 1970-01-01 and a valid timestamp *)
Theorem C65_add_sub_partial sg v iv : (sg = 1 \/ sg = -1) -> 0 <= v <= MAX -> im iv = 0 -> Z.abs (id_ iv) <= 10 ^ 7 -> Z.abs (ius iv) < 7 * 10 ^ 18 ->
  let r := op_ts_shift sg v iv in let w := v + sg * span iv in
  (forall x, r = Ok x -> x = w) /\ (1000000 <= w <= MAX -> r = Ok w) /\ (id_ iv = 0 -> 0 <= w <= MAX -> r = Ok w) /\ (w < 0 \/ MAX < w -> r = Err).
Proof.
  intros Sg Hv Hm Hd Hu r w. destruct (set_unix v Hv) as (t & E & Em & Eu & Hmon & Hh & Hday). unfold MAX in Hv.
  assert (Bu : 0 <= v mod 1000000 < 1000000) by (apply Z.mod_pos_bound; lia). assert (Dv : v = v / 1000000 * 1000000 + v mod 1000000) by (clear; eucl). assert (Bv : 0 <= v / 1000000 < 10 ^ 12) by (change (10 ^ 12) with 1000000000000; clear - Hv; eucl).
  destruct (shift_ok sg t iv Sg Hmon Hh Hday Hd Hu Hm) as (A & B & C & D); [now rewrite Eu|rewrite Em; lia|]. cbv zeta in A, B, C, D.
  rewrite Em, Eu in *. rewrite <- Dv in *. fold w in A, B, C. unfold r, op_ts_shift. rewrite E. cbn [bind].
  split; [intros x Hx; apply A; exact Hx|]. split; [exact B|]. split; [intros H0 Hw; apply C; lia|].
  intros Hw. destruct (do t' <- timestamp_shift sg t iv; timestamp_get_unixtime t' None) as [x| |] eqn:R; [destruct (A x eq_refl); unfold MAX in *; lia|reflexivity|contradiction].
Qed.
Print Assumptions C65_add_sub_partial.
(** a - b is an interval that brings b back to a *)
Theorem C65_difference a b : 0 <= a <= MAX -> 0 <= b <= MAX -> exists iv, op_ts_diff a b = Ok iv /\ im iv = 0 /\ span iv = a - b /\ op_ts_shift 1 b iv = Ok a /\ op_ts_shift (-1) a iv = Ok b.
Proof.
  unfold MAX. intros Ha Hb. exists (Iv 0 0 (a - b)). unfold op_ts_diff. rewrite s64_small by lia. split; [reflexivity|]. split; [reflexivity|]. split; [reflexivity|].
  assert (X : forall sg v, (sg = 1 \/ sg = -1) -> 0 <= v <= 253402300799999999 -> 0 <= v + sg * (a - b) <= 253402300799999999 -> op_ts_shift sg v (Iv 0 0 (a - b)) = Ok (v + sg * (a - b))).
  { intros sg v Sg Hv Hw. destruct (C65_add_sub_partial sg v (Iv 0 0 (a - b)) Sg Hv eq_refl ltac:(cbn; lia) ltac:(cbn [ius]; change (7 * 10 ^ 18) with 7000000000000000000; lia)) as (_ & _ & C & _). exact (C eq_refl Hw). }
  split; [rewrite X by lia; f_equal; lia|rewrite X by lia; f_equal; lia].
Qed.
Print Assumptions C65_difference.
(** months: the same day of the month counted from the first day of the target month, at the same
    time of the day *)
Theorem C65_months_partial sg v m y mo d h mi s y' mo' : (sg = 1 \/ sg = -1) -> 0 <= v <= MAX -> Z.abs m <= 120000 -> valid_date y mo d = true -> valid_time h mi s -> v / 1000000 = instant y mo d h mi s ->
  1 <= mo' <= 12 -> 12 * y' + mo' = 12 * y + mo + sg * m ->
  let w := (instant y' mo' 1 h mi s + (d - 1) * 86400) * 1000000 + v mod 1000000 in
  op_ts_shift sg v (Iv m 0 0) = (if (0 <=? w) && (w <=? MAX) then Ok w else Err).
Proof.
  intros Sg Hv Hm V T Ev Hmo' Et w. unfold MAX in Hv. pose proof (valid_month _ _ _ V) as [Hmo Hd]. pose proof (month_days_le y mo).
  assert (Bu : 0 <= v mod 1000000 < 1000000) by (apply Z.mod_pos_bound; lia).
  unfold op_ts_shift, timestamp_set_unixtime, ts_validate, TIMESTAMP_MAX. replace ((v <? 0) || (253402300799999999 <? v)) with false by lia. cbn [bind].
  destruct (gm_fields (v / 1000000) (v mod 1000000)) as (y0 & m0 & d0 & h0 & mi0 & s0 & G & V0 & T0 & I0 & _). rewrite G.
  assert (Eq : day_number y mo d = day_number y0 m0 d0 /\ h = h0 /\ mi = mi0 /\ s = s0). { rewrite Ev in I0. unfold instant in I0. destruct T as (A1 & A2 & A3), T0 as (B1 & B2 & B3). lia. }
  destruct Eq as (Eq & -> & -> & ->). pose proof (day_number_inj _ _ _ _ _ _ V V0 Eq) as X. assert (y = y0 /\ mo = m0 /\ d = d0) as (-> & -> & ->) by (split; [congruence|split; congruence]). clear X Eq V0 I0.
  unfold timestamp_shift. cbn [ty tmon tday th tmi tsec tus tzone im id_ ius]. rewrite Z.mul_0_r, Z.add_0_r. rewrite s32_small by lia. cbn [bind].
  pose proof (split_q m 12 ltac:(lia)) as Q. cbv zeta in Q. set (q := Z.quot m 12) in *. set (rm := if q =? 0 then m else Z.rem m 12) in *.
  change (Z.quot 0 3600000000) with 0. cbn [Z.eqb]. change (Z.quot 0 60000000) with 0. cbn [Z.eqb]. change (Z.quot 0 1000000) with 0. cbn [Z.eqb]. rewrite !Z.mul_0_r, !Z.add_0_r. destruct T as (A1 & A2 & A3). rewrite to32_small' by lia.
  assert (M : mktime (Ts (y0 + sg * q) (m0 + sg * rm) d0 h0 mi0 s0 (v mod 1000000) None) = instant y' mo' 1 h0 mi0 s0 + (d0 - 1) * 86400).
  { unfold mktime, instant. cbn [ty tmon tday th tmi tsec]. rewrite epoch. set (a := m0 + sg * rm - 1). assert (Ha : a = 12 * (a / 12) + a mod 12 /\ 0 <= a mod 12 < 12) by (split; [apply Z.div_mod; lia|apply Z.mod_pos_bound; lia]).
    assert (y' = y0 + sg * q + a / 12 /\ mo' = a mod 12 + 1) as (<- & <-) by (unfold a in *; destruct Sg as [-> | ->]; lia). ring. }
  set (t' := Ts (y0 + sg * q) (m0 + sg * rm) d0 h0 mi0 s0 (v mod 1000000) None) in *. assert (U : tus t' = v mod 1000000) by reflexivity.
  assert (Y : 1970 <= y0 <= 9999). { apply (year_bounds y0 m0 d0 h0 mi0 s0 V); [repeat split; assumption || lia|]. rewrite <- Ev. clear - Hv. eucl. }
  assert (By : - 8100 <= y' <= 20001) by (destruct Sg as [-> | ->]; lia).
  assert (MS : 0 <= month_start y' mo' <= 335) by (clear; unfold month_start; destruct (leap y'); repeat match goal with |- context [if ?c then _ else _] => destruct c end; lia).
  assert (YS : - 4000000 <= year_start y' <= 8000000) by (clear - By; unfold year_start; eucl).
  destruct (get_none t' w) as (G1 & G2 & G3); [rewrite M, U; reflexivity|rewrite U; lia|unfold w, instant, day_number; lia|].
  destruct (Z.leb_spec 0 w) as [W0|W0]; [destruct (Z.leb_spec w MAX) as [W1|W1]|]; cbn [andb]; [apply G2; lia| |];
    (destruct (timestamp_get_unixtime t' None) as [x| |]; [destruct (G1 x eq_refl); lia|reflexivity|contradiction]).
Qed.
Print Assumptions C65_months_partial.
(** a date plus or minus an interval: the same from midnight *)
Theorem C65_date_partial sg j iv : (sg = 1 \/ sg = -1) -> DATE_MIN <= j <= DATE_MAX -> im iv = 0 -> Z.abs (id_ iv) <= 10 ^ 7 -> Z.abs (ius iv) < 7 * 10 ^ 18 ->
  let r := op_date_shift sg j iv in let w := (j - 2440588) * 86400000000 + sg * span iv in
  (forall x, r = Ok x -> x = w) /\ (1000000 <= w <= MAX -> r = Ok w) /\ (w < 0 \/ MAX < w -> r = Err).
Proof.
  intros Sg Hj Hm Hd Hu r w. pose proof (civil_ok j) as C. pose proof (get_civil j Hj) as G. unfold r, op_date_shift, timestamp_set_date. rewrite G. destruct (civil j) as [[y m] d]. destruct C as [V E]. cbn [bind]. pose proof (valid_month _ _ _ V) as [Hmo Hdd]. pose proof (month_days_le y m).
  set (t := Ts y m d 0 0 0 0 None). assert (Em : mktime t = (j - 2440588) * 86400) by (unfold t; rewrite mk_fields by exact Hmo; unfold instant; rewrite E; lia).
  unfold DATE_MIN, DATE_MAX in Hj. destruct (shift_ok sg t iv Sg) as (A & B & _ & D); try assumption; try (cbn [tmon th tday tus t]; lia); try (rewrite Em; change (10 ^ 12) with 1000000000000; lia). cbv zeta in A, B, D.
  rewrite Em in A, B. change (tus t) with 0 in A, B. replace ((j - 2440588) * 86400 * 1000000 + 0 + sg * span iv) with w in A, B by (unfold w; lia).
  split; [intros x Hx; apply A; exact Hx|]. split; [exact B|].
  intros Hw. destruct (do t' <- timestamp_shift sg t iv; timestamp_get_unixtime t' None) as [x| |] eqn:R; [destruct (A x eq_refl); unfold MAX in *; lia|reflexivity|contradiction].
Qed.
Print Assumptions C65_date_partial.
(** '1970-01-01' plus 213503983 days is a valid timestamp (the microseconds wrap at 2^64); plus 2^31 - 1
    days overflows an int; minus a day plus two microseconds from the last microsecond of the first day
    is an error although the result is valid; hours beyond 2^31 are cut *)
Theorem C65_overflow_refuted :
  (exists v, op_ts_shift 1 0 (Iv 0 213503983 0) = Ok v) /\ op_ts_shift 1 0 (Iv 0 (2 ^ 31 - 1) 0) = UB /\
  op_ts_shift 1 86399999999 (Iv 0 (-1) 2) = Err /\ (exists v, op_ts_shift 1 0 (Iv 0 (-72204000) (- 2 ^ 63)) = Ok v).
Proof. split; [eexists; vm_compute; reflexivity|]. split; [vm_compute; reflexivity|]. split; [vm_compute; reflexivity|]. eexists. vm_compute. reflexivity. Qed.
Print Assumptions C65_overflow_refuted.
Example C65_nonvacuous : op_ts_shift 1 1709210096000000 (Iv 0 1 3600000000) = Ok (1709210096000000 + 86400000000 + 3600000000) /\
  op_ts_shift 1 1706702400000000 (Iv 1 0 0) = Ok 1709380800000000 /\ op_ts_diff 5 1000000 = Ok (Iv 0 0 (-999995)) /\ op_ts_shift (-1) 5 (Iv 0 1 0) = Err.
Proof. vm_compute. auto 6. Qed.

(** ** C64 *)
Definition unit_us (f : field) : option Z := match f with FDay => Some 86400000000 | FHour => Some 3600000000 | FMinute => Some 60000000 | FSecond => Some 1000000 | FMs => Some 1000 | FUs => Some 1 | _ => None end.
Lemma get_zero y0 m1 d1 h1 mi1 s1 us1 : 1970 <= y0 <= 9999 -> valid_date y0 m1 d1 = true -> valid_time h1 mi1 s1 -> 0 <= us1 < 1000000 ->
  timestamp_get_unixtime (Ts y0 m1 d1 h1 mi1 s1 us1 None) (Some (fun _ => Ok 0)) = Ok (instant y0 m1 d1 h1 mi1 s1 * 1000000 + us1).
Proof.
  intros Y V1 T1 U1. pose proof (valid_month _ _ _ V1) as [Hm1 Hd1]. pose proof (instant_pos y0 m1 d1 h1 mi1 s1 V1 ltac:(lia) T1). pose proof (instant_max y0 m1 d1 h1 mi1 s1 V1 ltac:(lia) T1).
  rewrite (get_unix _ _ (instant y0 m1 d1 h1 mi1 s1) us1) with (off := 0); [|apply mk_fields; exact Hm1|change (10 ^ 12) with 1000000000000; lia|reflexivity|exact U1|split; reflexivity|lia].
  rewrite Z.sub_0_r. unfold MAX. replace (0 <=? instant y0 m1 d1 h1 mi1 s1) with true by lia. replace (instant y0 m1 d1 h1 mi1 s1 * 1000000 + us1 <=? 253402300799999999) with true by lia. reflexivity.
Qed.
Lemma cut_at v u k r : 0 < u -> v = k * u + r -> 0 <= r < u -> v - v mod u = k * u.
Proof. intros Hu0 Hk Hr. rewrite Hk. rewrite Z.add_comm, Z_mod_plus_full, Z.mod_small by lia. lia. Qed.
Definition trunc_to (f : field) (v y m : Z) : Z := match unit_us f with Some u => v - v mod u | None => instant y (match f with FYear => 1 | _ => m end) 1 0 0 0 * 1000000 end.
Lemma trunc_fields f y m d h mi s us : valid_date y m d = true -> valid_time h mi s -> 0 <= us < 1000000 ->
  exists m1 d1 h1 mi1 s1 us1, timestamp_trunc (Ts y m d h mi s us None) f = Ts y m1 d1 h1 mi1 s1 us1 None /\ valid_date y m1 d1 = true /\ valid_time h1 mi1 s1 /\ 0 <= us1 < 1000000 /\
    instant y m1 d1 h1 mi1 s1 * 1000000 + us1 = trunc_to f (instant y m d h mi s * 1000000 + us) y m.
Proof.
  intros V T Bu. pose proof (valid_month _ _ _ V) as [Hmo Hd]. assert (V1 : valid_date y m 1 = true) by (unfold valid_date in *; lia). assert (V2 : valid_date y 1 1 = true) by reflexivity. pose proof T as (A1 & A2 & A3).
  unfold timestamp_trunc, trunc_to. cbn [ty tmon tday th tmi tsec tus tzone].
  destruct f; cbn [unit_us]; do 6 eexists; (split; [reflexivity|]); (split; [assumption|]); (split; [unfold valid_time; lia|]); (split; [try lia|]); unfold instant.
  - lia.
  - lia.
  - rewrite (cut_at _ _ (day_number y m d - 2440588) ((h * 3600 + mi * 60 + s) * 1000000 + us)) by lia. lia.
  - rewrite (cut_at _ _ ((day_number y m d - 2440588) * 24 + h) ((mi * 60 + s) * 1000000 + us)) by lia. lia.
  - rewrite (cut_at _ _ ((day_number y m d - 2440588) * 1440 + h * 60 + mi) (s * 1000000 + us)) by lia. lia.
  - rewrite (cut_at _ _ ((day_number y m d - 2440588) * 86400 + h * 3600 + mi * 60 + s) us) by lia. lia.
  - rewrite Z.quot_div_nonneg by lia. pose proof (Z.div_mod us 1000 ltac:(lia)). pose proof (Z.mod_pos_bound us 1000 ltac:(lia)). rewrite (cut_at _ _ (((day_number y m d - 2440588) * 86400 + h * 3600 + mi * 60 + s) * 1000 + us / 1000) (us mod 1000)) by lia. lia.
  - rewrite Z.mod_1_r. lia.
Qed.
(** DATE_TRUNC in UTC: the first microsecond of the unit the timestamp is in *)
Theorem C64_trunc_partial v f y m d h mi s : 0 <= v <= MAX -> valid_date y m d = true -> valid_time h mi s -> v / 1000000 = instant y m d h mi s ->
  date_trunc v f (fun _ => Ok 0) = Ok (trunc_to f v y m).
Proof.
  intros Hv V T Ev. unfold MAX in Hv. pose proof (valid_month _ _ _ V) as [Hmo Hd]. assert (Bu : 0 <= v mod 1000000 < 1000000) by (apply Z.mod_pos_bound; lia).
  unfold date_trunc, timestamp_set_unixtime, ts_validate, TIMESTAMP_MAX. replace ((v <? 0) || (253402300799999999 <? v)) with false by lia. cbn [bind].
  destruct (gm_fields (v / 1000000) (v mod 1000000)) as (y0 & m0 & d0 & h0 & mi0 & s0 & G & V0 & T0 & I0 & _). rewrite G.
  assert (Eq : day_number y m d = day_number y0 m0 d0 /\ h = h0 /\ mi = mi0 /\ s = s0). { rewrite Ev in I0. unfold instant in I0. destruct T as (A1 & A2 & A3), T0 as (B1 & B2 & B3). lia. }
  destruct Eq as (Eq & -> & -> & ->). pose proof (day_number_inj _ _ _ _ _ _ V V0 Eq) as X. assert (y = y0 /\ m = m0 /\ d = d0) as (-> & -> & ->) by (split; [congruence|split; congruence]). clear X Eq V0 I0 G.
  assert (Y : 1970 <= y0 <= 9999) by (apply (year_bounds y0 m0 d0 h0 mi0 s0 V T); rewrite <- Ev; clear - Hv; eucl).
  assert (Dv : v = instant y0 m0 d0 h0 mi0 s0 * 1000000 + v mod 1000000) by (rewrite <- Ev; clear; eucl).
  destruct (trunc_fields f y0 m0 d0 h0 mi0 s0 (v mod 1000000) V T Bu) as (m1 & d1 & h1 & mi1 & s1 & us1 & -> & V1 & T1 & U1 & E). rewrite get_zero by assumption. rewrite E, <- Dv. reflexivity.
Qed.
Print Assumptions C64_trunc_partial.
(** in another zone the fields of UTC are cut and the offset is subtracted from the result: the start of
    the day in +02 comes out as two hours before the start of the day in UTC, which is another day *)
Theorem C64_zone_refuted : exists v w, date_trunc v FDay (fun _ => Ok 7200) = Ok w /\ v / 1000000 = instant 2024 2 29 23 0 0 /\
  (* local time of v: March 1st, 01:00; its day begins at *) let right := (instant 2024 3 1 0 0 0 - 7200) * 1000000 in w = right - 86400 * 1000000.
Proof. exists (instant 2024 2 29 23 0 0 * 1000000). eexists. split; [vm_compute; reflexivity|]. split; vm_compute; reflexivity. Qed.
Print Assumptions C64_zone_refuted.
(** EXTRACT: the fields of the local time *)
Theorem C64_extract v (f : Z -> res Z) off y m d h mi s : 0 <= v <= MAX -> f (v / 1000000) = Ok off -> valid_date y m d = true -> valid_time h mi s -> v / 1000000 + off = instant y m d h mi s ->
  timestamp_extract v FYear f = Ok y /\ timestamp_extract v FMonth f = Ok m /\ timestamp_extract v FDay f = Ok d /\ timestamp_extract v FHour f = Ok h /\
  timestamp_extract v FMinute f = Ok mi /\ timestamp_extract v FSecond f = Ok s /\ timestamp_extract v FMs f = Ok (v mod 1000000 / 1000) /\ timestamp_extract v FUs f = Ok (v mod 1000000).
Proof.
  intros Hv Hf V T Ev. unfold timestamp_extract. rewrite Hf. cbn [bind].
  destruct (gm_fields (v / 1000000 + off) (v mod 1000000)) as (y0 & m0 & d0 & h0 & mi0 & s0 & G & V0 & T0 & I0 & _). rewrite G. cbn [ty tmon tday th tmi tsec tus].
  assert (Eq : day_number y m d = day_number y0 m0 d0 /\ h = h0 /\ mi = mi0 /\ s = s0). { rewrite Ev in I0. unfold instant in I0. destruct T as (A1 & A2 & A3), T0 as (B1 & B2 & B3). lia. }
  destruct Eq as (Eq & -> & -> & ->). pose proof (day_number_inj _ _ _ _ _ _ V V0 Eq) as X. assert (y = y0 /\ m = m0 /\ d = d0) as (-> & -> & ->) by (split; [congruence|split; congruence]).
  rewrite Z.quot_div_nonneg by (try apply Z.mod_pos_bound; lia). repeat (split; [reflexivity|]). reflexivity.
Qed.
Print Assumptions C64_extract.
(** DATE_BIN: the last multiple of the span after the origin *)
Theorem C64_bin_partial v iv origin : 0 <= v <= MAX -> 0 <= origin <= v -> im iv = 0 -> 0 < span iv < 2 ^ 63 -> int32 (id_ iv) -> int64 (ius iv) ->
  exists k, 0 <= k /\ date_bin v iv origin = Ok (origin + k * span iv) /\ origin + k * span iv <= v < origin + (k + 1) * span iv.
Proof.
  intros Hv Ho Hm Hs Hd Hu. unfold int32, int64 in *. unfold date_bin. rewrite Hm. change (negb (0 =? 0)) with false. cbv iota.
  assert (E : to64 (u64 (u64 (id_ iv) * 86400000000 + u64 (ius iv))) = span iv).
  { unfold u64. rewrite <- Z.add_mod_idemp_l, Z.mul_mod_idemp_l, Z.add_mod_idemp_l, Z.add_mod_idemp_r by lia. fold (span iv). rewrite Z.mod_small by lia. apply to64_small. lia. }
  rewrite E. cbv zeta. replace (span iv <=? 0) with false by lia. replace (v <? origin) with false by lia. exists ((v - origin) / span iv).
  pose proof (Z.div_mod (v - origin) (span iv) ltac:(lia)) as D. pose proof (Z.mod_pos_bound (v - origin) (span iv) ltac:(lia)) as B. split; [apply Z.div_pos; lia|]. split; [f_equal; lia|lia].
Qed.
Print Assumptions C64_bin_partial.
(** a span of 213503983 days wraps to some hours *)
Theorem C64_bin_refuted : exists w, date_bin MAX (Iv 0 213503983 0) 0 = Ok w /\ w <> 0.
Proof. eexists. split; [vm_compute; reflexivity|discriminate]. Qed.
Print Assumptions C64_bin_refuted.
Example C64_nonvacuous : date_trunc 1709210096123456 FMonth (fun _ => Ok 0) = Ok 1706745600000000 /\ date_trunc 1709210096123456 FMs (fun _ => Ok 0) = Ok 1709210096123000 /\
  date_bin 1709210096123456 (Iv 0 0 900000000) 0 = Ok 1709209800000000 /\ timestamp_extract 1709210096123456 FHour (fun _ => Ok 3600) = Ok 13 /\ date_bin 5 (Iv 0 0 (-1)) 0 = Err.
Proof. vm_compute. auto 6. Qed.

(** ** C63 *)
(** the transition in force at a time: the last one that is not later *)
Definition in_force (times : list Z) (time : Z) (k : nat) : Prop :=
  (k < List.length times)%nat /\ nth k times 0 <= time /\ forall i, (k < i < List.length times)%nat -> time < nth i times 0.
Definition increasing (l : list Z) : Prop := forall i j, (i < j < List.length l)%nat -> nth i l 0 < nth j l 0.
Definition tz_wf (z : tzdata) : Prop := increasing (tz_times z) /\ List.length (tz_types z) = List.length (tz_times z) /\ Forall (fun t => 0 <= t < Z.of_nat (List.length (tz_offs z))) (tz_types z) /\ tz_offs z <> [].
Definition offset_of (z : tzdata) (k : nat) : Z := nth (Z.to_nat (nth k (tz_types z) 0)) (tz_offs z) 0.
Lemma rd_ok l i : 0 <= i < Z.of_nat (List.length l) -> rd l i = Ok (nth (Z.to_nat i) l 0).
Proof. intros H. unfold rd. replace ((i <? 0) || (Z.of_nat (List.length l) <=? i)) with false by lia. reflexivity. Qed.
Lemma inc_z l i j : increasing l -> 0 <= i -> i < j -> j < Z.of_nat (List.length l) -> nth (Z.to_nat i) l 0 < nth (Z.to_nat j) l 0.
Proof. intros I Hi Hij Hj. apply I. lia. Qed.
(** the search ends at a position next to the time *)
Lemma search l time n : increasing l -> n = Z.of_nat (List.length l) -> time < nth (Z.to_nat (n - 1)) l 0 ->
  forall fuel mn mx, 1 <= mn <= n - 1 -> mn - 1 <= mx <= n -> nth (Z.to_nat (mn - 1)) l 0 <= time -> (mx < n - 1 -> time < nth (Z.to_nat (mx + 1)) l 0) ->
  (mn <= mx \/ nth (Z.to_nat (mn - 1)) l 0 < time) -> mx - mn < Z.of_nat fuel ->
  exists mid, match_loop (S fuel) l n time mn mx (Z.quot (mn + mx) 2) = Ok mid /\ 0 <= mid <= n - 1 /\
    ((nth (Z.to_nat mid) l 0 < time /\ (mid + 2 > n - 1 \/ time < nth (Z.to_nat (mid + 2)) l 0)) \/ (1 <= mid /\ time <= nth (Z.to_nat mid) l 0 /\ nth (Z.to_nat (mid - 1)) l 0 <= time)).
Proof.
  intros Inc En Hlast. induction fuel as [|fuel IH]; intros mn mx Hmn Hmx Lo Hi St Fu.
  - assert (mx = mn - 1) by lia. subst mx. cbn [match_loop]. assert (Q : Z.quot (mn + (mn - 1)) 2 = mn - 1) by (rewrite Z.quot_div_nonneg by lia; clear; eucl). rewrite Q. replace (mn - 1 <=? mn) with true by lia.
    exists (mn - 1). split; [reflexivity|]. split; [lia|]. left. split; [lia|]. specialize (Hi ltac:(lia)). destruct (Z_gt_le_dec (mn - 1 + 2) (n - 1)); [left; assumption|right].
    pose proof (inc_z l mn (mn - 1 + 2) Inc ltac:(lia) ltac:(lia) ltac:(lia)). replace (mn - 1 + 1) with mn in Hi by lia. lia.
  - set (mid := Z.quot (mn + mx) 2). assert (Q : 2 * mid <= mn + mx < 2 * mid + 2) by (unfold mid; rewrite Z.quot_div_nonneg by lia; clear; eucl).
    remember (S fuel) as fuel'. cbn [match_loop]. destruct (Z.leb_spec mid mn) as [L|L].
    + exists mid. split; [reflexivity|]. split; [lia|]. destruct (Z.lt_ge_cases (nth (Z.to_nat mid) l 0) time) as [X|X].
      * left. split; [exact X|]. destruct (Z_gt_le_dec (mid + 2) (n - 1)) as [|G]; [left; assumption|right]. specialize (Hi ltac:(lia)).
        destruct (Z.eq_dec (mx + 1) (mid + 2)) as [Eq|Ne]; [now rewrite <- Eq|]. pose proof (inc_z l (mx + 1) (mid + 2) Inc ltac:(lia) ltac:(lia) ltac:(lia)). lia.
      * right. assert (mid <> mn - 1). { intros E. rewrite E in X. destruct St as [St|St]; lia. } assert (mid = mn) by lia. split; [lia|]. split; [exact X|]. rewrite H0. exact Lo.
    + replace (n <=? mn) with false by lia. rewrite rd_ok by lia. cbn [bind].
      assert (M : nth (Z.to_nat mid) l 0 <= time -> mid < n - 1). { intros X. destruct (Z.lt_ge_cases mid (n - 1)); [assumption|]. assert (E : mid = n - 1) by lia. rewrite E in X. lia. }
      destruct (Z.eqb_spec (nth (Z.to_nat mid) l 0) time) as [E|E].
      * exists (mid + 1). specialize (M ltac:(lia)). split; [reflexivity|]. split; [lia|]. right. split; [lia|]. pose proof (inc_z l mid (mid + 1) Inc ltac:(lia) ltac:(lia) ltac:(lia)). replace (mid + 1 - 1) with mid by lia. lia.
      * destruct (Z.ltb_spec (nth (Z.to_nat mid) l 0) time) as [X|X]; cbv zeta; subst fuel'; apply IH; try lia.
        all: try exact Hi; try (replace (mid + 1 - 1) with mid by lia; lia); try (intros _; replace (mid - 1 + 1) with mid by lia; lia); try exact Lo.
Qed.
(** for a time within the transitions, the offset is the one in force or the one of the transition
    before it *)
Theorem C63_near_partial z time k : tz_wf z -> in_force (tz_times z) time k -> (S k < List.length (tz_times z))%nat ->
  exists off, timezone_match z time = Ok off /\ (off = offset_of z k \/ ((1 <= k)%nat /\ off = offset_of z (k - 1))).
Proof.
  intros (Inc & Lt & Ty & No) (Hk & Hle & Hgt) Sk. set (l := tz_times z) in *. set (n := Z.of_nat (List.length l)).
  assert (Hlast : time < nth (Z.to_nat (n - 1)) l 0) by (apply Hgt; lia).
  assert (H0 : nth 0 l 0 <= time) by (destruct k as [|k]; [exact Hle|pose proof (Inc 0%nat (S k) ltac:(lia)); lia]).
  destruct (search l time n Inc eq_refl Hlast (List.length l) 1 n) as (mid & E & Bm & C); try lia; [exact H0|].
  unfold timezone_match. fold l n. replace (n =? 0) with false by lia. cbv zeta. rewrite E. cbn [bind]. replace (n <? mid) with false by lia. rewrite rd_ok by lia. cbn [bind].
  assert (F : forall i, 0 <= i < n -> (do ty <- rd (tz_types z) i; rd (tz_offs z) ty) = Ok (offset_of z (Z.to_nat i))).
  { intros i Hi. rewrite rd_ok by (rewrite Lt; exact Hi). cbn [bind]. rewrite Forall_forall in Ty. unfold offset_of. apply rd_ok. apply Ty. apply nth_In. rewrite Lt. fold l. lia. }
  assert (Uniq : forall i, (i < List.length l)%nat -> nth i l 0 <= time -> (i <= k)%nat) by (intros i Hi Hx; destruct (Nat.le_gt_cases i k); [assumption|]; specialize (Hgt i ltac:(lia)); lia).
  destruct C as [(X & Y)|(M1 & X & Y)].
  - replace (nth (Z.to_nat mid) l 0 <? time) with true by lia. rewrite F by lia. eexists. split; [reflexivity|]. replace (mid + 1 - 1) with mid by lia.
    pose proof (Uniq (Z.to_nat mid) ltac:(lia) ltac:(lia)) as U1. assert (U2 : (k <= Z.to_nat mid + 1)%nat). { destruct (Nat.le_gt_cases k (Z.to_nat mid + 1)) as [|G]; [assumption|]. exfalso. destruct Y as [Y|Y]; [lia|]. destruct (Nat.eq_dec k (Z.to_nat (mid + 2))) as [Ek|Nk]; [rewrite <- Ek in Y; lia|]. pose proof (Inc (Z.to_nat (mid + 2)) k ltac:(lia)). lia. }
    destruct (Nat.eq_dec k (Z.to_nat mid)) as [->|]; [left; reflexivity|right]. split; [lia|]. f_equal. lia.
  - replace (nth (Z.to_nat mid) l 0 <? time) with false by lia. rewrite F by lia. eexists. split; [reflexivity|].
    pose proof (Uniq (Z.to_nat (mid - 1)) ltac:(lia) Y) as U1. assert (U2 : (k <= Z.to_nat mid)%nat). { destruct (Nat.le_gt_cases k (Z.to_nat mid)) as [|G]; [assumption|]. pose proof (Inc (Z.to_nat mid) k ltac:(lia)). lia. }
    destruct (Nat.eq_dec k (Z.to_nat (mid - 1))) as [->|]; [left; reflexivity|right]. split; [lia|]. f_equal. lia.
Qed.
Print Assumptions C63_near_partial.
(** a zone without transitions has its only offset *)
Theorem C63_fixed_partial z time : tz_times z = [] -> tz_offs z <> [] -> timezone_match z time = Ok (nth 0 (tz_offs z) 0).
Proof. intros E N. unfold timezone_match. rewrite E. cbn. destruct (tz_offs z); [contradiction|reflexivity]. Qed.
Print Assumptions C63_fixed_partial.
(** but not always the one in force; behind the last transition the search reads outside of the table *)
Definition zone5 : tzdata := Tz [100; 200; 300; 400; 500] [0; 1; 0; 1; 0] [3600; 7200].
Definition in_force_b (times : list Z) (time : Z) (k : nat) : bool := (k <? List.length times)%nat && (nth k times 0 <=? time) && forallb (fun i => (i <=? k)%nat || (time <? nth i times 0)) (seq 0 (List.length times)).
Lemma in_force_dec times time k : in_force_b times time k = true -> in_force times time k.
Proof.
  unfold in_force_b, in_force. intros H. apply andb_prop in H as [H F]. apply andb_prop in H as [A B]. apply Nat.ltb_lt in A. split; [exact A|]. split; [lia|]. intros i Hi. rewrite forallb_forall in F. specialize (F i ltac:(apply in_seq; lia)).
  apply orb_prop in F as [F|F]; [apply Nat.leb_le in F; lia|lia].
Qed.
Lemma zone5_wf : tz_wf zone5.
Proof.
  split; [|split; [reflexivity|split; [repeat constructor; cbn; lia|discriminate]]]. intros i j H. cbn [zone5 tz_times List.length] in H. do 5 (destruct i as [|i]; [do 5 (destruct j as [|j]; [cbn; lia|]); lia|]). lia.
Qed.
Theorem C63_search_refuted : tz_wf zone5 /\
  (in_force (tz_times zone5) 350 2 /\ offset_of zone5 2 = 3600 /\ timezone_match zone5 350 = Ok 7200) /\
  (in_force (tz_times zone5) 500 4 /\ offset_of zone5 4 = 3600 /\ timezone_match zone5 500 = Ok 7200) /\
  (in_force (tz_times zone5) 200 1 /\ offset_of zone5 1 = 7200 /\ timezone_match zone5 200 = Ok 3600) /\
  (in_force [100] 200 0 /\ timezone_match (Tz [100] [1] [3600; 7200]) 200 = UB) /\ (in_force [100; 200; 300] 400 2 /\ timezone_match (Tz [100; 200; 300] [1; 0; 1] [3600; 7200]) 400 = UB).
Proof.
  split; [exact zone5_wf|]. repeat match goal with |- _ /\ _ => split end; try (apply in_force_dec; reflexivity); vm_compute; reflexivity.
Qed.
Print Assumptions C63_search_refuted.
Example C63_nonvacuous : in_force (tz_times zone5) 250 1 /\ timezone_match zone5 250 = Ok 7200 /\ timezone_match (Tz [] [] [3600]) 12345 = Ok 3600.
Proof. split; [apply in_force_dec; reflexivity|]. split; reflexivity. Qed.
