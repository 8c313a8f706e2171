(** C37: the text of timestamps; C63: time zones; C64: DATE_TRUNC, DATE_BIN, EXTRACT; C65: timestamp
    arithmetic. *)
From Coq Require Import String Ascii.
From Verif Require Import Base DecLib CodecProps TimeSpec TimeModel TimeProofs TimeProps.
Local Open Scope Z_scope.
Local Open Scope list_scope.

(** ** Specification *)
(** seconds since 1970-01-01 00:00:00 *)
Definition instant (y m d h mi s : Z) : Z := (day_number y m d - 2440588) * 86400 + h * 3600 + mi * 60 + s.
Definition valid_time (h mi s : Z) : Prop := 0 <= h < 24 /\ 0 <= mi < 60 /\ 0 <= s < 60.
(** yyyy-mm-dd hh:mm:ss with a space or a T between *)
Definition clock_text (y m d : Z) (sep h mi s : Z) : list Z :=
  date_text y m d ++ [sep] ++ fixed 2 h ++ [58] ++ fixed 2 mi ++ [58] ++ fixed 2 s.
(** the fraction of a second and its microseconds *)
Inductive frac_form : list Z -> Z -> Prop :=
| ff_none : frac_form [] 0
| ff_some ds : forallb is_digit ds = true -> (1 <= List.length ds <= 6)%nat -> frac_form (46 :: ds) (num ds * 10 ^ (6 - Z.of_nat (List.length ds))).
(** the zone and its offset in seconds: nothing, Z, +hh, +hh:mm, +hhmm *)
Definition signed (neg : bool) (v : Z) : Z := if neg then - v else v.
Definition sign_of (neg : bool) : Z := if neg then 45 else 43.
Inductive zone_form : list Z -> option Z -> Prop :=
| zf_none : zone_form [] None
| zf_z : zone_form [90] (Some 0)
| zf_h neg h : 0 <= h < 100 -> zone_form (sign_of neg :: fixed 2 h) (Some (signed neg (h * 3600)))
| zf_hm neg h (colon : bool) m : 0 <= h < 100 -> 0 <= m < 100 ->
    zone_form (sign_of neg :: fixed 2 h ++ (if colon then [58] else []) ++ fixed 2 m) (Some (signed neg (h * 3600 + m * 60))).
Definition MAX : Z := 253402300799999999. (* 9999-12-31 23:59:59.999999 *)

(** ** gmtime and mktime *)
Lemma epoch : EPOCH = 2440588.
Proof. reflexivity. Qed.
Lemma mk_fields y m d h mi s us z : 1 <= m <= 12 -> mktime (Ts y m d h mi s us z) = instant y m d h mi s.
Proof.
  intros H. unfold mktime, instant, day_number. cbn [ty tmon tday th tmi tsec]. rewrite epoch. rewrite Z.div_small, Z.mod_small by lia. replace (y + 0) with y by lia. replace (m - 1 + 1) with m by lia. lia.
Qed.
Lemma gm_fields t us : exists y m d h mi s, gmtime t us = Ts y m d h mi s us None /\ valid_date y m d = true /\ valid_time h mi s /\ instant y m d h mi s = t /\
  civil (t / 86400 + EPOCH) = (y, m, d).
Proof.
  unfold gmtime. pose proof (civil_ok (t / 86400 + EPOCH)) as C. destruct (civil (t / 86400 + EPOCH)) as [[y m] d]. destruct C as [V E].
  exists y, m, d, (t mod 86400 / 3600), (t mod 86400 / 60 mod 60), (t mod 86400 mod 60). split; [reflexivity|]. split; [exact V|].
  unfold valid_time, instant. rewrite E, epoch. clear. split; [eucl|]. split; [eucl|reflexivity].
Qed.
Lemma year_low y m d : valid_date y m d = true -> 2440588 <= day_number y m d -> 1970 <= y.
Proof.
  intros V H. destruct (Z.lt_ge_cases y 1970) as [L|]; [|assumption]. exfalso. pose proof (year_mono y 1970 L) as Y. pose proof (month_range y m d V) as M. unfold day_number in H. change (year_start 1970) with 719162 in Y. lia.
Qed.
Lemma year_bounds y m d h mi s : valid_date y m d = true -> valid_time h mi s -> 0 <= instant y m d h mi s < 253402300800 -> 1970 <= y <= 9999.
Proof.
  intros V (Hh & Hm & Hs) B. unfold instant in B. assert (R : 2440588 <= day_number y m d <= 5373484) by lia.
  split; [apply (year_low y m d V); lia|]. pose proof (range_year (day_number y m d)) as X. rewrite (civil_day y m d V) in X. unfold in_range, DATE_MIN, DATE_MAX in X. lia.
Qed.
Lemma instant_pos y m d h mi s : valid_date y m d = true -> 1970 <= y -> valid_time h mi s -> 0 <= instant y m d h mi s.
Proof.
  intros V Y (Hh & Hm & Hs). unfold instant, day_number. pose proof (month_range y m d V) as M. assert (719162 <= year_start y); [|lia].
  destruct (Z.eq_dec y 1970) as [->|]; [reflexivity|]. pose proof (year_mono 1970 y ltac:(lia)) as X. change (year_start 1970) with 719162 in X. destruct (leap 1970); lia.
Qed.
Lemma instant_max y m d h mi s : valid_date y m d = true -> y <= 9999 -> valid_time h mi s -> instant y m d h mi s < 253402300800.
Proof.
  intros V Y (Hh & Hm & Hs). unfold instant, day_number. pose proof (month_range y m d V) as M. assert (year_start y + (if leap y then 1 else 0) <= 3651694); [|lia].
  destruct (Z.eq_dec y 9999) as [->|]; [reflexivity|]. pose proof (year_mono y 9999 ltac:(lia)) as X. change (year_start 9999) with 3651694 in X. lia.
Qed.

(** ** C37: parsing *)
Lemma expect_at n v c cs r : In c cs -> expect n cs (fixed n v ++ [c] ++ r) = Ok tt.
Proof.
  intros H. unfold expect. rewrite nth_error_app2 by (rewrite fixed_length; lia). rewrite fixed_length, Nat.sub_diag. cbn [app nth_error].
  replace (existsb (Z.eqb c) cs) with true; [reflexivity|]. symmetry. apply existsb_exists. exists c. split; [exact H|apply Z.eqb_refl].
Qed.
Lemma skip_at n v c r : skipn (S n) (fixed n v ++ [c] ++ r) = r.
Proof. change (S n) with (1 + n)%nat. rewrite Nat.add_comm. rewrite skipn_app, skipn_all2 by (rewrite fixed_length; lia). rewrite fixed_length. replace (n + 1 - n)%nat with 1%nat by lia. reflexivity. Qed.
Lemma frac_digits l : forall v k n r, forallb is_digit l = true -> 0 <= v < 10 ^ Z.of_nat k -> (k + List.length l <= 9)%nat -> (match r with b :: _ => is_digit b = false | [] => True end) ->
  frac_loop v n (l ++ r) = Ok (fold_left (fun a b => a * 10 + (b - 48)) l v, n + Z.of_nat (List.length l), r).
Proof.
  induction l as [|b l IH]; intros v k n r D V K R; cbn [app].
  - cbn [fold_left List.length Z.of_nat]. rewrite Z.add_0_r. destruct r as [|b r]; cbn [frac_loop]; [reflexivity|]. now rewrite R.
  - cbn [forallb] in D. apply andb_prop in D as [Db D]. cbn [frac_loop]. rewrite Db. cbn [List.length] in K.
    assert (P : 10 ^ Z.of_nat (S k) <= 10 ^ 9) by (apply Z.pow_le_mono_r; lia). rewrite pow10_S in P. change (10 ^ 9) with 1000000000 in P.
    assert (Hb : 0 <= b - 48 < 10) by (unfold is_digit in Db; lia).
    unfold mul_add32. rewrite !in32_small by lia. cbn [andb bind]. rewrite (IH _ (S k)); [|exact D| |lia|exact R].
    + cbn [fold_left List.length]. f_equal. f_equal. f_equal. lia.
    + rewrite pow10_S. lia.
Qed.
Lemma zone_head zt z : zone_form zt z -> match zt with b :: _ => is_digit b = false /\ (b =? 46) = false | [] => True end.
Proof. destruct 1 as [| |neg|neg]; [exact I|now split|destruct neg; now split|destruct neg; now split]. Qed.
Lemma frac_ok ft us zt z : frac_form ft us -> zone_form zt z -> parse_frac (ft ++ zt) = Ok (us, zt).
Proof.
  intros F Hz. pose proof (zone_head _ _ Hz) as H. destruct F as [|ds D L]; cbn [app].
  - destruct zt as [|b zt]; [reflexivity|]. destruct H as [_ H]. cbn [parse_frac]. now rewrite H.
  - cbn [parse_frac]. change (46 =? 46) with true. cbv iota. rewrite (frac_digits ds 0 0); [|exact D|change (10 ^ Z.of_nat 0) with 1; lia|lia|destruct zt; [exact I|apply H]]. cbn [bind]. rewrite Z.add_0_l.
    replace ((1 <=? Z.of_nat (List.length ds)) && (Z.of_nat (List.length ds) <=? 6)) with true by lia. reflexivity.
Qed.
Lemma frac_bound ft us : frac_form ft us -> 0 <= us < 1000000.
Proof.
  destruct 1 as [|ds D L]; [lia|]. pose proof (num_bound ds D) as B. assert (E : 1000000 = 10 ^ Z.of_nat (List.length ds) * 10 ^ (6 - Z.of_nat (List.length ds))) by (rewrite <- Z.pow_add_r by lia; replace (Z.of_nat (List.length ds) + (6 - Z.of_nat (List.length ds))) with 6 by lia; reflexivity). rewrite E. clear E.
  pose proof (Z.pow_pos_nonneg 10 (6 - Z.of_nat (List.length ds)) ltac:(lia) ltac:(lia)). nia.
Qed.
Lemma zone_ok zt z : zone_form zt z -> parse_zone zt = Ok z.
Proof.
  assert (P : forall h r, 0 <= h < 100 -> parse_part 2 (fixed 2 h ++ r) = Ok (h, r)) by (intros; apply part_fixed; [lia|exact H]).
  destruct 1 as [| |neg h H|neg h colon m Hh Hm]; [reflexivity|reflexivity| |].
  - unfold parse_zone. replace (sign_of neg =? 90) with false by now destruct neg. change (sign_of neg :: fixed 2 h) with ([sign_of neg] ++ fixed 2 h) at 1. rewrite app_length, fixed_length. change (Z.of_nat (List.length [sign_of neg] + 2) <? 3) with false. cbv iota.
    replace ((sign_of neg =? 45) || (sign_of neg =? 43)) with true by now destruct neg. rewrite <- (app_nil_r (fixed 2 h)), P by exact H. cbn [bind]. rewrite Z.mul_0_l, Z.add_0_r. unfold signed. f_equal. f_equal. destruct neg; cbn [sign_of]; cbn; lia.
  - unfold parse_zone. replace (sign_of neg =? 90) with false by now destruct neg.
    replace (Z.of_nat (List.length (sign_of neg :: fixed 2 h ++ (if colon then [58] else []) ++ fixed 2 m)) <? 3) with false by (symmetry; apply Z.ltb_ge; cbn [List.length]; rewrite !app_length, !fixed_length; lia).
    replace ((sign_of neg =? 45) || (sign_of neg =? 43)) with true by now destruct neg. rewrite P by exact Hh. cbn [bind].
    assert (F : exists a b, fixed 2 m = [48 + a; 48 + b] /\ 0 <= a < 10). { cbn [fixed app]. eexists; eexists. split; [reflexivity|]. eucl. }
    destruct F as (a & b & F & Ha).
    assert (Fin : forall k, (do z <- Ok m; Ok (Some (if k =? 45 then - (h * 60 * 60 + z * 60) else h * 60 * 60 + z * 60))) = Ok (Some (signed (k =? 45) (h * 3600 + m * 60)))) by (intros k; cbn [bind]; unfold signed; destruct (k =? 45); f_equal; f_equal; lia).
    destruct colon; cbn [app].
    + change (58 =? 58) with true. cbv zeta iota. rewrite fixed_length. change (Z.of_nat 2 =? 2) with true. cbv iota. rewrite <- (app_nil_r (fixed 2 m)), P by exact Hm. cbn [bind] in Fin |- *. rewrite Fin. now destruct neg.
    + rewrite F at 1. cbv zeta. replace (48 + a =? 58) with false by lia. cbv iota. rewrite fixed_length. change (Z.of_nat 2 =? 2) with true. cbv iota. rewrite <- (app_nil_r (fixed 2 m)), P by exact Hm. cbn [bind] in Fin |- *. rewrite Fin. now destruct neg.
Qed.
Lemma parse_text sp y m d sep h mi s ft us zt z : spaces sp -> In sep [32; 84] -> 0 <= y < 10000 -> 0 <= m < 100 -> 0 <= d < 100 -> 0 <= h < 100 -> 0 <= mi < 100 -> 0 <= s < 100 ->
  frac_form ft us -> zone_form zt z ->
  timestamp_parse (sp ++ clock_text y m d sep h mi s ++ ft ++ zt) = Ok (Ts y m d h mi s us z).
Proof.
  intros Sp Hsep Hy Hm Hd Hh Hmi Hs F Hz. unfold timestamp_parse, clock_text, date_text. rewrite <- !app_assoc.
  replace (Z.of_nat (List.length (sp ++ fixed 4 y ++ [45] ++ fixed 2 m ++ [45] ++ fixed 2 d ++ [sep] ++ fixed 2 h ++ [58] ++ fixed 2 mi ++ [58] ++ fixed 2 s ++ ft ++ zt)) <? 19) with false
    by (symmetry; apply Z.ltb_ge; rewrite !app_length, !fixed_length; cbn [List.length]; lia).
  rewrite skip_sp by exact Sp.
  assert (S0 : forall r, skip_spaces (fixed 4 y ++ r) = fixed 4 y ++ r).
  { intros r. assert (exists a b, fixed 4 y = a :: b /\ is_digit a = true) as (a & b & E & D). { pose proof (fixed_ok 4 y) as O. pose proof (fixed_length 4 y) as L. destruct (fixed 4 y) as [|a b]; [discriminate|]. exists a, b. split; [reflexivity|]. cbn [forallb] in O. now apply andb_prop in O. }
    rewrite E. cbn [app skip_spaces]. replace (is_space a) with false; [reflexivity|]. unfold is_digit in D. unfold is_space. lia. }
  rewrite S0. destruct (fixed 4 y ++ _) as [|b0 r0] eqn:E0; [apply (f_equal (@List.length Z)) in E0; rewrite app_length, fixed_length in E0; discriminate|]. rewrite <- E0. clear E0 b0 r0.
  rewrite expect_at by (cbn; auto). cbn [bind]. rewrite part_fixed by (try lia; exact Hy). cbn [bind]. rewrite skip_at, expect_at by (cbn; auto). cbn [bind].
  rewrite part_fixed by (try lia; exact Hm). cbn [bind]. rewrite skip_at, expect_at by exact Hsep. cbn [bind]. rewrite part_fixed by (try lia; exact Hd). cbn [bind].
  rewrite skip_at, expect_at by (cbn; auto). cbn [bind]. rewrite part_fixed by (try lia; exact Hh). cbn [bind]. rewrite skip_at, expect_at by (cbn; auto). cbn [bind].
  rewrite part_fixed by (try lia; exact Hmi). cbn [bind]. rewrite skip_at. rewrite part_fixed by (try lia; exact Hs). cbn [bind]. rewrite (frac_ok _ _ _ _ F Hz). cbn [bind]. rewrite (zone_ok _ _ Hz). reflexivity.
Qed.
Lemma get_unix t tz T us : mktime t = T -> 0 <= T < 10 ^ 12 -> tus t = us -> 0 <= us < 1000000 -> forall off, match tz with None => off = 0 | Some f => match tzone t with Some z => z | None => off end = off /\ (tzone t = None -> f T = Ok off) end ->
  - 10 ^ 6 <= off <= 10 ^ 6 ->
  timestamp_get_unixtime t tz = if (0 <=? T - off) && ((T - off) * 1000000 + us <=? MAX) then Ok ((T - off) * 1000000 + us) else Err.
Proof.
  intros ET BT Eu Bu off Ho Bo. change (10 ^ 12) with 1000000000000 in BT. change (10 ^ 6) with 1000000 in Bo. unfold timestamp_get_unixtime. rewrite ET, Eu. replace (T =? -1) with false by lia.
  assert (X : (match tz with None => Ok T | Some f => match tzone t with None => do o <- f T; Ok (T - o) | Some z => Ok (T - z) end end) = Ok (T - off)).
  { destruct tz as [f|]; [|subst off; f_equal; lia]. destruct Ho as [Ho Hf]. destruct (tzone t) as [z|]; [now subst z|]. rewrite Hf by reflexivity. reflexivity. }
  rewrite X. cbn [bind]. destruct (Z.ltb_spec (T - off) 0) as [N|N]; [replace (0 <=? T - off) with false by lia; reflexivity|]. replace (0 <=? T - off) with true by lia.
  rewrite u64_small by lia. rewrite to64_small by lia. rewrite s64_small by lia. cbn [bind andb]. unfold ts_validate, TIMESTAMP_MAX, MAX.
  replace ((T - off) * 1000000 + us <? 0) with false by lia. cbn [orb]. rewrite Z.ltb_antisym. destruct (_ <=? 253402300799999999); reflexivity.
Qed.
(** the text of every instant, in any of the accepted forms, is parsed to this instant: with its own
    offset, or with the one that the session's zone has for the written time; or an error if it is
    out of range *)
Theorem C37_parse sp y m d sep h mi s ft us zt z (f : Z -> res Z) off :
  spaces sp -> In sep [32; 84] -> 1970 <= y <= 9999 -> valid_date y m d = true -> valid_time h mi s -> frac_form ft us -> zone_form zt z ->
  (match z with Some z => off = z | None => f (instant y m d h mi s) = Ok off end) -> - 86400 <= off <= 86400 ->
  exists t, timestamp_set (sp ++ clock_text y m d sep h mi s ++ ft ++ zt) = Ok t /\
    let v := (instant y m d h mi s - off) * 1000000 + us in
    timestamp_get_unixtime t (Some f) = if (0 <=? v) && (v <=? MAX) then Ok v else Err.
Proof.
  intros Sp Hsep Hy V T F Hz Hoff Ho. pose proof T as (Hh & Hmi & Hs). pose proof (valid_month _ _ _ V) as [Hm Hd]. pose proof (month_days_le y m). pose proof (frac_bound _ _ F) as Bu.
  exists (Ts y m d h mi s us z). unfold timestamp_set. rewrite (parse_text sp y m d sep h mi s ft us zt z) by (try assumption; lia). cbn [bind ty tmon tday tzone].
  replace (1970 <=? y) with true by lia. replace (y <=? 9999) with true by lia. replace (1 <=? m) with true by lia. replace (m <=? 12) with true by lia. replace (1 <=? d) with true by lia. replace (d <=? 31) with true by lia. cbn [andb].
  assert (Z0 : (match z with Some z => (-86400 <=? z) && (z <=? 86400) | None => true end) = true) by (destruct z; [subst; lia|reflexivity]). rewrite Z0. split; [reflexivity|]. cbv zeta.
  rewrite (get_unix _ _ (instant y m d h mi s) us) with (off := off); cbn [tus tzone]; try reflexivity; try lia.
  - replace (0 <=? instant y m d h mi s - off) with (0 <=? (instant y m d h mi s - off) * 1000000 + us) by lia. reflexivity.
  - apply mk_fields. lia.
  - change (10 ^ 12) with 1000000000000. pose proof (instant_pos y m d h mi s V ltac:(lia) T). pose proof (instant_max y m d h mi s V ltac:(lia) T). lia.
  - destruct z as [z|]; [split; [now symmetry|discriminate]|split; [reflexivity|intros _; exact Hoff]].
Qed.
Print Assumptions C37_parse.
(** printing: the local time with a valid date, the fraction in milli- or microseconds, the offset *)
Lemma frac_text_form us : 0 <= us < 1000000 -> frac_form (frac_text us) us.
Proof.
  intros H. unfold frac_text. destruct (Z.eqb_spec us 0) as [->|N]; [constructor|]. rewrite Z.rem_mod_nonneg by lia. destruct (Z.eqb_spec (us mod 1000) 0) as [E|E].
  - rewrite Z.quot_div_nonneg by lia. assert (B : 0 <= us / 1000 < 1000) by eucl. rewrite pad_fixed by (cbn; lia).
    replace us with (num (fixed 3 (us / 1000)) * 10 ^ (6 - Z.of_nat (List.length (fixed 3 (us / 1000))))) at 2; [constructor; [apply fixed_ok|rewrite fixed_length; lia]|]. rewrite fixed_length, fixed_num by (cbn; lia). cbn. eucl.
  - rewrite pad_fixed by (cbn; lia).
    replace us with (num (fixed 6 us) * 10 ^ (6 - Z.of_nat (List.length (fixed 6 us)))) at 2; [constructor; [apply fixed_ok|rewrite fixed_length; lia]|]. rewrite fixed_length, fixed_num by (cbn; lia). cbn. lia.
Qed.
Lemma zone_text_form off : - 86400 <= off <= 86400 -> off mod 60 = 0 -> zone_form (zone_text off) (Some off).
Proof.
  intros H M. unfold zone_text. rewrite Z.quot_div_nonneg by lia. set (hr := Z.abs off / 3600). assert (Hr : 0 <= hr < 100 /\ 0 <= Z.abs off - 3600 * hr < 3600) by (unfold hr; eucl). rewrite Z.quot_div_nonneg by lia. set (mn := (Z.abs off - 3600 * hr) / 60).
  assert (Hm : 0 <= mn < 60 /\ Z.abs off = hr * 3600 + mn * 60). { assert (Z.abs off mod 60 = 0) by (destruct (Z.abs_spec off) as [[_ ->]|[_ ->]]; [exact M|now rewrite Z.mod_opp_l_z by (try lia; exact M)]). unfold mn. clear - Hr H0. eucl. }
  rewrite !pad_fixed by (cbn; lia). set (neg := off <? 0). replace (if 0 <=? off then 43 else 45) with (sign_of neg) by (unfold neg; rewrite Z.ltb_antisym; destruct (0 <=? off); reflexivity).
  assert (E : off = signed neg (Z.abs off)) by (unfold neg, signed; destruct (Z.ltb_spec off 0); lia).
  destruct (Z.eqb_spec mn 0) as [M0|M0].
  - rewrite app_nil_r. rewrite E at 1. replace (Z.abs off) with (hr * 3600) by lia. constructor. lia.
  - rewrite E at 1. replace (Z.abs off) with (hr * 3600 + mn * 60) by lia. change (58 :: fixed 2 mn) with ((if true then [58] else []) ++ fixed 2 mn). apply (zf_hm neg hr true mn); lia.
Qed.
Theorem C37_print v (f : Z -> res Z) off : 0 <= v <= MAX -> f (v / 1000000) = Ok off -> - 86400 <= off <= 86400 -> off mod 60 = 0 -> 0 <= v / 1000000 + off < 253402300800 ->
  exists y m d h mi s ft zt, valid_date y m d = true /\ valid_time h mi s /\ 1970 <= y <= 9999 /\ instant y m d h mi s = v / 1000000 + off /\
    frac_form ft (v mod 1000000) /\ zone_form zt (Some off) /\ timestamp_get v (Some f) = Ok (clock_text y m d 32 h mi s ++ ft ++ zt).
Proof.
  intros Hv Hf Ho Hm Hl. destruct (gm_fields (v / 1000000 + off) (v mod 1000000)) as (y & m & d & h & mi & s & G & V & T & I & _). exists y, m, d, h, mi, s, (frac_text (v mod 1000000)), (zone_text off).
  pose proof (year_bounds y m d h mi s V T ltac:(lia)) as Y. split; [exact V|]. split; [exact T|]. split; [exact Y|]. split; [exact I|]. split; [apply frac_text_form; apply Z.mod_pos_bound; lia|]. split; [now apply zone_text_form|].
  unfold timestamp_get, ts_validate, TIMESTAMP_MAX. unfold MAX in Hv. replace ((v <? 0) || (253402300799999999 <? v)) with false by lia. cbn [bind]. rewrite Hf. cbn [bind]. rewrite G. cbn [ty tmon tday th tmi tsec tus].
  pose proof T as (Hh & Hmi & Hs). pose proof (valid_month _ _ _ V) as [Hmo Hd]. pose proof (month_days_le y m). rewrite !pad_fixed by (cbn; lia). unfold clock_text, date_text. rewrite <- !app_assoc. reflexivity.
Qed.
Print Assumptions C37_print.
(** the printed text is parsed back to the same value, whatever the zone of the reader *)
Theorem C37_round_trip_partial v (f g : Z -> res Z) off : 0 <= v <= MAX -> f (v / 1000000) = Ok off -> - 86400 <= off <= 86400 -> off mod 60 = 0 -> 0 <= v / 1000000 + off < 253402300800 ->
  exists s t, timestamp_get v (Some f) = Ok s /\ timestamp_set s = Ok t /\ timestamp_get_unixtime t (Some g) = Ok v.
Proof.
  intros Hv Hf Ho Hm Hl. destruct (C37_print v f off Hv Hf Ho Hm Hl) as (y & m & d & h & mi & s & ft & zt & V & T & Y & I & F & Zf & G).
  destruct (C37_parse [] y m d 32 h mi s ft (v mod 1000000) zt (Some off) g off) as (t & P & U); try assumption; [constructor|cbn; auto|reflexivity|].
  exists (clock_text y m d 32 h mi s ++ ft ++ zt), t. split; [exact G|]. split; [exact P|]. cbv zeta in U. rewrite U, I.
  replace ((v / 1000000 + off - off) * 1000000 + v mod 1000000) with v by (clear; eucl). replace (0 <=? v) with true by lia. replace (v <=? MAX) with true by lia. reflexivity.
Qed.
Print Assumptions C37_round_trip_partial.
(** without a zone: the text is UTC *)
Theorem C37_utc v : 0 <= v <= MAX -> exists s t, timestamp_get v None = Ok s /\ timestamp_set s = Ok t /\ timestamp_get_unixtime t None = Ok v.
Proof.
  intros Hv. destruct (gm_fields (v / 1000000) (v mod 1000000)) as (y & m & d & h & mi & s & G & V & T & I & _). unfold MAX in Hv.
  assert (B : 0 <= instant y m d h mi s < 253402300800) by (rewrite I; clear - Hv; eucl). pose proof (year_bounds y m d h mi s V T B) as Y.
  pose proof T as (Hh & Hmi & Hs). pose proof (valid_month _ _ _ V) as [Hmo Hd]. pose proof (month_days_le y m). assert (Bu : 0 <= v mod 1000000 < 1000000) by (apply Z.mod_pos_bound; lia).
  exists (clock_text y m d 32 h mi s ++ frac_text (v mod 1000000) ++ []), (Ts y m d h mi s (v mod 1000000) None).
  split.
  - unfold timestamp_get, ts_validate, TIMESTAMP_MAX. replace ((v <? 0) || (253402300799999999 <? v)) with false by lia. cbn [bind]. rewrite G. cbn [ty tmon tday th tmi tsec tus]. rewrite !pad_fixed by (cbn; lia). unfold clock_text, date_text. rewrite <- !app_assoc. reflexivity.
  - split.
    + unfold timestamp_set. rewrite <- (app_nil_l (clock_text _ _ _ _ _ _ _ ++ _)). rewrite (parse_text [] y m d 32 h mi s _ (v mod 1000000) [] None) by (try lia; try constructor; try (cbn; auto); apply frac_text_form; exact Bu). cbn [bind ty tmon tday tzone].
      replace (1970 <=? y) with true by lia. replace (y <=? 9999) with true by lia. replace (1 <=? m) with true by lia. replace (m <=? 12) with true by lia. replace (1 <=? d) with true by lia. replace (d <=? 31) with true by lia. reflexivity.
    + rewrite (get_unix _ _ (instant y m d h mi s) (v mod 1000000)) with (off := 0); cbn [tus tzone]; try reflexivity; try lia; try (apply mk_fields; lia); try (change (10 ^ 12) with 1000000000000; lia).
      rewrite I. replace ((v / 1000000 - 0) * 1000000 + v mod 1000000) with v by (clear; eucl). replace (0 <=? v / 1000000 - 0) with true by (clear - Hv; eucl). unfold MAX. replace (v <=? 253402300799999999) with true by lia. reflexivity.
Qed.
Print Assumptions C37_utc.
(** near the limits the local time leaves 1970..9999 and the printed text is not accepted; seconds of
    an offset are not printed; impossible fields are accepted; a text with leading white space is read
    behind its end *)
Theorem C37_range_refuted : (exists s, timestamp_get 0 (Some (fun _ => Ok (- 3600))) = Ok s /\ timestamp_set s = Err) /\
  (exists s, timestamp_get MAX (Some (fun _ => Ok 3600)) = Ok s /\ timestamp_set s = Err).
Proof. split; eexists; (split; [vm_compute; reflexivity|vm_compute; reflexivity]). Qed.
Print Assumptions C37_range_refuted.
Theorem C37_seconds_refuted : exists s t w, timestamp_get 1000000000000 (Some (fun _ => Ok 1172)) = Ok s /\ timestamp_set s = Ok t /\ timestamp_get_unixtime t None = Ok w /\
  timestamp_get_unixtime t (Some (fun _ => Ok 1172)) = Ok (1000000000000 + 32000000).
Proof. eexists; eexists; eexists. split; [vm_compute; reflexivity|]. split; [vm_compute; reflexivity|]. split; vm_compute; reflexivity. Qed.
Print Assumptions C37_seconds_refuted.
Theorem C37_invalid_text_refuted : valid_date 1999 2 31 = false /\ (exists t v, timestamp_set (clock_text 1999 2 31 32 99 99 99) = Ok t /\ timestamp_get_unixtime t None = Ok v) /\
  timestamp_set (repeat 32 18 ++ [49]) = UB.
Proof. split; [reflexivity|]. split; [eexists; eexists; split; [vm_compute; reflexivity|vm_compute; reflexivity]|vm_compute; reflexivity]. Qed.
Print Assumptions C37_invalid_text_refuted.
Example C37_nonvacuous :
  timestamp_get 1709210096123000 (Some (fun _ => Ok 19800)) = Ok (bytes_of "2024-02-29 18:04:56.123+05:30"%string) /\
  timestamp_get 1709210096123456 (Some (fun _ => Ok (-3600))) = Ok (bytes_of "2024-02-29 11:34:56.123456-01"%string) /\
  (do t <- timestamp_set (bytes_of " 2024-02-29T12:34:56.5Z"%string); timestamp_get_unixtime t (Some (fun _ => Ok 7200))) = Ok 1709210096500000 /\
  (do t <- timestamp_set (bytes_of "2024-02-29 12:34:56"%string); timestamp_get_unixtime t (Some (fun _ => Ok 7200))) = Ok 1709202896000000 /\
  timestamp_set (bytes_of "2024-02-29 12:34:56.1234567"%string) = Err.
Proof. vm_compute. auto 6. Qed.
