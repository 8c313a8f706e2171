(** C35: dates; C36: intervals; C38: integer arithmetic. *)
From Coq Require Import String Ascii.
From Verif Require Import Base DecLib CodecProps TimeSpec TimeModel TimeProofs.
Local Open Scope Z_scope.
Local Open Scope list_scope.

(** ** C38 *)
Definition int64 (v : Z) : Prop := - 2 ^ 63 <= v < 2 ^ 63.
Lemma in64_iff v : in64 v = true <-> int64 v.
Proof. unfold in64, int64. lia. Qed.
Definition exact_or_error (r : res Z) (v : Z) : Prop := (int64 v /\ r = Ok v) \/ (~ int64 v /\ r = Err).
Theorem C38_add_sub_mul a b : int64 a -> int64 b ->
  exact_or_error (op_add a b) (a + b) /\ exact_or_error (op_sub a b) (a - b) /\ exact_or_error (op_mul a b) (a * b).
Proof.
  intros _ _. unfold exact_or_error, op_add, op_sub, op_mul. repeat split; match goal with |- context [in64 ?x] => destruct (in64 x) eqn:E end;
    [left|right|left|right|left|right]; (split; [|reflexivity]); rewrite <- in64_iff; congruence.
Qed.
Print Assumptions C38_add_sub_mul.
(** division and modulo are those of C (towards zero), except for the one quotient that does not
    fit *)
Theorem C38_div_mod_neg_partial a b : int64 a -> int64 b -> (a <> - 2 ^ 63 \/ b <> -1) ->
  op_div a b = (if b =? 0 then Err else Ok (Z.quot a b)) /\ op_mod a b = (if b =? 0 then Err else Ok (Z.rem a b)) /\
  (a <> - 2 ^ 63 -> op_neg a = Ok (- a)).
Proof.
  unfold int64. intros Ha Hb N. unfold op_div, op_mod, op_neg, s64_.
  assert (Q : b <> 0 -> in64 (Z.quot a b) = true).
  { intros Hb0. apply in64_iff. unfold int64. assert (Z.abs (Z.quot a b) <= Z.abs a).
    { rewrite <- Z.quot_abs by lia. apply Z.quot_le_upper_bound; [lia|]. nia. }
    destruct (Z.eq_dec (Z.quot a b) (2 ^ 63)) as [E|E]; [|lia]. exfalso.
    assert (a = - 2 ^ 63) by lia. subst a. pose proof (Z.quot_rem' (- 2 ^ 63) b) as X. rewrite E in X. pose proof (Z.rem_bound_abs (- 2 ^ 63) b Hb0). nia. }
  destruct (Z.eqb_spec b 0); [|rewrite (Q n)]; (split; [reflexivity|]); (split; [reflexivity|]); intros Hn; (replace (in64 (- a)) with true; [reflexivity|]); symmetry; apply in64_iff; unfold int64; lia.
Qed.
Print Assumptions C38_div_mod_neg_partial.
(** -9223372036854775808 / -1, % -1 and its negation overflow: undefined behaviour (a trap on x86) *)
Theorem C38_min_refuted : int64 (- 2 ^ 63) /\ op_div (- 2 ^ 63) (-1) = UB /\ op_mod (- 2 ^ 63) (-1) = UB /\ op_neg (- 2 ^ 63) = UB.
Proof. unfold int64. split; [lia|]. split; [reflexivity|]. split; reflexivity. Qed.
Print Assumptions C38_min_refuted.
Example C38_nonvacuous : op_add (2 ^ 62) (2 ^ 62 - 1) = Ok (2 ^ 63 - 1) /\ op_add (2 ^ 62) (2 ^ 62) = Err /\ op_mul (- 2 ^ 32) (2 ^ 31) = Ok (- 2 ^ 63) /\ op_mul (2 ^ 32) (2 ^ 31) = Err /\
  op_div (-7) 2 = Ok (-3) /\ op_mod (-7) 2 = Ok (-1).
Proof. vm_compute. auto 7. Qed.

(** ** C35 *)
(** the dates are the days of the Gregorian calendar from 0001-01-01 to 9999-12-31 *)
Theorem C35_calendar :
  date_get_gregorian DATE_MIN = Ok (1, 1, 1) /\ date_get_gregorian DATE_MAX = Ok (9999, 12, 31) /\
  (forall j, DATE_MIN <= j < DATE_MAX -> exists x, date_get_gregorian j = Ok x /\ date_get_gregorian (j + 1) = Ok (next_day x)) /\
  (forall j, ~ (DATE_MIN <= j <= DATE_MAX) -> date_get_gregorian j = Err).
Proof.
  split; [reflexivity|]. split; [reflexivity|]. split.
  - intros j H. exists (civil j). split; [apply get_civil; unfold in_range; lia|]. rewrite get_civil by (unfold in_range; lia). f_equal.
    pose proof (civil_ok j) as C. destruct (civil j) as [[y m] d]. destruct C as [V E]. pose proof (next_ok y m d V) as N. destruct (next_day (y, m, d)) as [[y' m'] d'].
    destruct N as [V' E']. rewrite <- E, <- E'. now apply civil_day.
  - intros j H. unfold date_get_gregorian. now rewrite date_validate_err.
Qed.
Print Assumptions C35_calendar.
Lemma month_days_le y m : month_days y m <= 31.
Proof. unfold month_days. destruct (m =? 2); [destruct (leap y); lia|]. destruct (_ || _); lia. Qed.
Lemma set_text y m d : 0 <= y < 10000 -> 0 <= m < 100 -> 0 <= d < 100 -> date_set (date_text y m d) = date_set_gregorian y m d.
Proof.
  intros Hy Hm Hd. unfold date_set, date_text.
  assert (L : forall w v, length (fixed w v) = w) by (intros; apply fixed_length).
  assert (N : Z.of_nat (length (fixed 4 y ++ [45] ++ fixed 2 m ++ [45] ++ fixed 2 d)) = 10) by (rewrite !app_length, !L; reflexivity). rewrite N. cbn [Z.eqb Pos.eqb negb].
  assert (X1 : forall n v r, expect n [45] (fixed n v ++ [45] ++ r) = Ok tt).
  { intros n v r. unfold expect. rewrite nth_error_app2 by (rewrite L; lia). rewrite L, Nat.sub_diag. reflexivity. }
  assert (X2 : forall n v r, skipn (S n) (fixed n v ++ [45] ++ r) = r).
  { intros n v r. change (S n) with (1 + n)%nat. rewrite Nat.add_comm. rewrite skipn_app, skipn_all2 by (rewrite L; lia). rewrite L. replace (n + 1 - n)%nat with 1%nat by lia. reflexivity. }
  rewrite X1. cbn [bind]. rewrite part_fixed by (try lia; exact Hy). cbn [bind]. rewrite X2, X1. cbn [bind]. rewrite part_fixed by (try lia; exact Hm). cbn [bind]. rewrite X2.
  rewrite <- (app_nil_r (fixed 2 d)). rewrite part_fixed by (try lia; exact Hd). reflexivity.
Qed.
(** every date is printed as a valid calendar date, and parsed back *)
Theorem C35_round_trip j : DATE_MIN <= j <= DATE_MAX ->
  exists y m d, valid_date y m d = true /\ date_get_gregorian j = Ok (y, m, d) /\ date_get j = Ok (date_text y m d) /\ date_set (date_text y m d) = Ok j.
Proof.
  intros H. pose proof (civil_ok j) as C. pose proof (range_year j H) as Y. pose proof (get_civil j H) as G. unfold date_get. rewrite G. destruct (civil j) as [[y m] d].
  destruct C as [V E]. pose proof (valid_month _ _ _ V) as [Hm Hd]. pose proof (month_days_le y m). exists y, m, d. split; [exact V|]. split; [reflexivity|]. split.
  - cbn [bind]. rewrite !pad_fixed by (cbn; lia). reflexivity.
  - rewrite set_text by lia. rewrite set_day by lia. rewrite E. rewrite date_validate_ok by exact H. reflexivity.
Qed.
Print Assumptions C35_round_trip.
(** the text of every calendar date is parsed to the date with these fields *)
Theorem C35_parse y m d : 1 <= y <= 9999 -> valid_date y m d = true ->
  exists j, date_set (date_text y m d) = Ok j /\ date_get_gregorian j = Ok (y, m, d) /\ date_get j = Ok (date_text y m d).
Proof.
  intros Hy V. pose proof (valid_month _ _ _ V) as [Hm Hd]. pose proof (month_days_le y m). pose proof (valid_range y m d V Hy) as R. exists (day_number y m d).
  rewrite set_text, set_day by lia. rewrite date_validate_ok by exact R. split; [reflexivity|].
  assert (G : date_get_gregorian (day_number y m d) = Ok (y, m, d)) by (rewrite get_civil by exact R; now rewrite civil_day).
  split; [exact G|]. unfold date_get. rewrite G. cbn [bind]. rewrite !pad_fixed by (cbn; lia). reflexivity.
Qed.
Print Assumptions C35_parse.
(** anything that is not dddd-dd-dd is rejected *)
Theorem C35_form s j : date_set s = Ok j -> exists y m d, 0 <= y < 10000 /\ 0 <= m < 100 /\ 0 <= d < 100 /\ s = date_text y m d.
Proof.
  unfold date_set. destruct (Z.eqb_spec (Z.of_nat (length s)) 10) as [L|]; [|discriminate]. cbn [negb].
  assert (X : forall n r, expect n [45] r = Ok tt -> r = firstn n r ++ [45] ++ skipn (S n) r).
  { intros n r. unfold expect. destruct (nth_error r n) as [b|] eqn:E; [|discriminate]. cbn [existsb]. destruct (Z.eqb_spec b 45) as [->|]; [|discriminate]. intros _.
    apply nth_error_split in E as (l1 & l2 & -> & <-). rewrite firstn_app, firstn_all, Nat.sub_diag, firstn_O, app_nil_r.
    change (S (length l1)) with (1 + length l1)%nat. rewrite Nat.add_comm, skipn_app, skipn_all2 by lia. replace (length l1 + 1 - length l1)%nat with 1%nat by lia. reflexivity. }
  destruct (expect 4 [45] s) as [[]| |] eqn:E1; try discriminate. cbn [bind]. destruct (parse_part 4 s) as [[y r1]| |] eqn:P1; try discriminate. cbn [bind].
  destruct (expect 2 [45] (skipn 5 s)) as [[]| |] eqn:E2; try discriminate. cbn [bind]. destruct (parse_part 2 (skipn 5 s)) as [[m r2]| |] eqn:P2; try discriminate. cbn [bind].
  destruct (parse_part 2 (skipn 3 (skipn 5 s))) as [[d r3]| |] eqn:P3; try discriminate. cbn [bind]. intros _.
  apply X in E1, E2. apply parse_part_inv in P1 as (_ & _ & F1 & B1), P2 as (_ & _ & F2 & B2), P3 as (_ & L3 & F3 & B3).
  exists y, m, d. split; [exact B1|]. split; [exact B2|]. split; [exact B3|]. unfold date_text. rewrite <- F1, <- F2, <- F3. rewrite E1 at 1. f_equal. f_equal.
  rewrite E2 at 1. f_equal. f_equal. symmetry. apply firstn_all2. rewrite !skipn_length. lia.
Qed.
Print Assumptions C35_form.
(** day arithmetic is exact or an error, for counts of days that fit into 32 bits *)
Theorem C35_days_partial j n : DATE_MIN <= j <= DATE_MAX -> - 2 ^ 31 <= n < 2 ^ 31 ->
  op_date_add j n = (if (DATE_MIN <=? j + n) && (j + n <=? DATE_MAX) then Ok (j + n) else Err) /\
  op_date_sub j n = (if (DATE_MIN <=? j - n) && (j - n <=? DATE_MAX) then Ok (j - n) else Err).
Proof.
  intros H Hn. unfold op_date_add, op_date_sub. rewrite date_validate_ok by exact H. cbn [bind].
  assert (E : to32 n = n). { unfold to32, sx. change (8 * Z.of_nat 4 - 1) with 31. change (8 * Z.of_nat 4) with 32. destruct (Z.ltb_spec (n mod 2 ^ 32) (2 ^ 31)); eucl. }
  rewrite E. cbv zeta. split.
  - destruct (_ && _) eqn:C; [rewrite date_validate_ok by (unfold in_range; lia)|rewrite date_validate_err by (unfold in_range; lia)]; reflexivity.
  - destruct (_ && _) eqn:C; [rewrite date_validate_ok by (unfold in_range; lia)|rewrite date_validate_err by (unfold in_range; lia)]; reflexivity.
Qed.
Print Assumptions C35_days_partial.
(** '2024-02-30' is accepted as 2024-03-01, '2024-13-01' as 2025-01-01, '2024-00-00' as
    2023-11-30; date + 4294967297 is the next day *)
Theorem C35_invalid_text_refuted : valid_date 2024 2 30 = false /\ valid_date 2024 13 1 = false /\ valid_date 2024 0 0 = false /\
  date_set (date_text 2024 2 30) = date_set (date_text 2024 3 1) /\ (exists j, date_set (date_text 2024 13 1) = Ok j) /\ (exists j, date_set (date_text 2024 0 0) = Ok j) /\
  exists j, date_set (date_text 2024 2 30) = Ok j.
Proof. split; [reflexivity|]. split; [reflexivity|]. split; [reflexivity|]. split; [reflexivity|]. split; [eexists; reflexivity|]. split; eexists; reflexivity. Qed.
Print Assumptions C35_invalid_text_refuted.
Theorem C35_days_refuted : exists j, op_date_add j (2 ^ 32 + 1) = Ok (j + 1).
Proof. exists 2460310. reflexivity. Qed.
Print Assumptions C35_days_refuted.
Example C35_nonvacuous : date_get 2460370 = Ok (date_text 2024 2 29) /\ valid_date 2024 2 29 = true /\ valid_date 1900 2 29 = false /\ op_date_add 2460370 1 = Ok 2460371 /\
  date_get_gregorian 2460371 = Ok (2024, 3, 1) /\ op_date_sub DATE_MIN 1 = Err.
Proof. vm_compute. auto 7. Qed.

(** ** C36 *)
Definition bytes_of (s : string) : list Z := map (fun c => Z.of_nat (nat_of_ascii c)) (list_ascii_of_string s).
(** the words and what one of them is: months, days, microseconds *)
Definition units : list (string * (Z * Z * Z)) :=
  [("years", (12, 0, 0)); ("year", (12, 0, 0)); ("months", (1, 0, 0)); ("month", (1, 0, 0));
   ("weeks", (0, 7, 0)); ("week", (0, 7, 0)); ("days", (0, 1, 0)); ("day", (0, 1, 0));
   ("hours", (0, 0, 3600 * 1000000)); ("hour", (0, 0, 3600 * 1000000)); ("hrs", (0, 0, 3600 * 1000000)); ("hr", (0, 0, 3600 * 1000000));
   ("minutes", (0, 0, 60 * 1000000)); ("minute", (0, 0, 60 * 1000000)); ("mins", (0, 0, 60 * 1000000)); ("min", (0, 0, 60 * 1000000));
   ("seconds", (0, 0, 1000000)); ("second", (0, 0, 1000000)); ("secs", (0, 0, 1000000)); ("sec", (0, 0, 1000000));
   ("milliseconds", (0, 0, 1000)); ("millisecond", (0, 0, 1000)); ("ms", (0, 0, 1000));
   ("microseconds", (0, 0, 1)); ("microsecond", (0, 0, 1)); ("us", (0, 0, 1))]%string.
(** an interval text: numbers with units, separated by white space *)
Definition spaces (l : list Z) : Prop := Forall (fun b => In b [32; 9; 10; 11; 12; 13]) l.
Definition no_letter (l : list Z) : Prop := match l with b :: _ => ~ (65 <= b <= 90) /\ ~ (97 <= b <= 122) | [] => True end.
Inductive iv_text : list (Z * (Z * Z * Z)) -> list Z -> Prop :=
| iv_end sp : spaces sp -> iv_text [] sp
| iv_term sp1 (neg : bool) ds sp2 w u L r : spaces sp1 -> forallb is_digit ds = true -> ds <> [] -> spaces sp2 -> sp2 <> [] -> In (w, u) units -> no_letter r -> iv_text L r ->
    iv_text ((if neg then - num ds else num ds, u) :: L) (sp1 ++ (if neg then [45] else []) ++ ds ++ sp2 ++ bytes_of w ++ r).
Definition total (sel : Z * Z * Z -> Z) (L : list (Z * (Z * Z * Z))) : Z := fold_right (fun t a => fst t * sel (snd t) + a) 0 L.
Definition total_abs (sel : Z * Z * Z -> Z) (L : list (Z * (Z * Z * Z))) : Z := fold_right (fun t a => Z.abs (fst t * sel (snd t)) + a) 0 L.
Definition u_m (u : Z * Z * Z) : Z := fst (fst u).
Definition u_d (u : Z * Z * Z) : Z := snd (fst u).
Definition u_us (u : Z * Z * Z) : Z := snd u.

Lemma find_all : forallb (fun wu => match find_word (bytes_of (fst wu)) with
  | Some (UMonth k) => (u_m (snd wu) =? k) && (u_d (snd wu) =? 0) && (u_us (snd wu) =? 0)
  | Some (UDay k) => (u_m (snd wu) =? 0) && (u_d (snd wu) =? k) && (u_us (snd wu) =? 0)
  | Some (UUs k) => (u_m (snd wu) =? 0) && (u_d (snd wu) =? 0) && (u_us (snd wu) =? k)
  | None => false end && forallb is_alpha (bytes_of (fst wu)) && negb (eqb_list (bytes_of (fst wu)) [])) units = true.
Proof. vm_compute. reflexivity. Qed.
Lemma in_units w u : In (w, u) units -> forallb is_alpha (bytes_of w) = true /\ bytes_of w <> [] /\
  exists k, find_word (bytes_of w) = Some k /\ match k with UMonth k => u = (k, 0, 0) | UDay k => u = (0, k, 0) | UUs k => u = (0, 0, k) end.
Proof.
  intros H. pose proof find_all as F. rewrite forallb_forall in F. specialize (F _ H). cbn [fst snd] in F. apply andb_prop in F as [F F3]. apply andb_prop in F as [F1 F2].
  split; [exact F2|]. split; [intros E; rewrite E in F3; discriminate|]. destruct (find_word (bytes_of w)) as [k|]; [|discriminate]. exists k. split; [reflexivity|].
  destruct u as [[a b] c]. unfold u_m, u_d, u_us in F1. cbn [fst snd] in F1. destruct k; repeat (apply andb_prop in F1 as [F1 ?]); repeat match goal with H : _ && _ = true |- _ => apply andb_prop in H as [? ?] | H : (_ =? _) = true |- _ => apply Z.eqb_eq in H end; subst; reflexivity.
Qed.
Lemma skip_sp sp r : spaces sp -> skip_spaces (sp ++ r) = skip_spaces r.
Proof.
  induction 1 as [|b sp H _ IH]; [reflexivity|]. cbn [app skip_spaces]. replace (is_space b) with true; [exact IH|]. cbn in H. unfold is_space. lia.
Qed.
Lemma span_word w r : forallb is_alpha w = true -> no_letter r -> span_alpha (w ++ r) = (w, r).
Proof.
  intros H N. induction w as [|b w IH]; cbn [app].
  - destruct r as [|b r]; [reflexivity|]. cbn in N. cbn [span_alpha]. replace (is_alpha b) with false by (unfold is_alpha; lia). reflexivity.
  - cbn [forallb] in H. apply andb_prop in H as [H1 H2]. cbn [span_alpha]. rewrite H1, IH by exact H2. reflexivity.
Qed.
Lemma cardinal_digits ds : forall v r, forallb is_digit ds = true -> 0 <= v -> (match r with b :: _ => is_digit b = false | [] => True end) ->
  fold_left (fun a b => a * 10 + (b - 48)) ds v < 2 ^ 63 -> cardinal_loop v (ds ++ r) = Ok (fold_left (fun a b => a * 10 + (b - 48)) ds v, r).
Proof.
  induction ds as [|b ds IH]; intros v r D Hv N B.
  - cbn [app fold_left]. destruct r as [|b r]; [reflexivity|]. cbn [cardinal_loop]. now rewrite N.
  - cbn [forallb] in D. apply andb_prop in D as [D1 D2]. cbn [app cardinal_loop fold_left] in *. rewrite D1. unfold is_digit in D1.
    assert (G : forall l x, 0 <= x -> forallb is_digit l = true -> x <= fold_left (fun a b => a * 10 + (b - 48)) l x).
    { clear. induction l as [|b l IH]; intros x Hx D; [cbn; lia|]. cbn [forallb] in D. apply andb_prop in D as [D1 D2]. unfold is_digit in D1. cbn [fold_left].
      specialize (IH (x * 10 + (b - 48)) ltac:(lia) D2). lia. }
    specialize (G ds (v * 10 + (b - 48)) ltac:(lia) D2). unfold mul_add64. replace (in64 (v * 10) && in64 (v * 10 + (b - 48))) with true by (unfold in64; lia). cbn [bind].
    apply IH; try assumption. lia.
Qed.
Lemma digit_not_space b : is_digit b = true -> is_space b = false /\ b <> 45.
Proof. unfold is_digit, is_space. lia. Qed.
(** one step of the loop *)
Lemma loop_term f iv sp1 (neg : bool) ds sp2 w r : spaces sp1 -> forallb is_digit ds = true -> ds <> [] -> spaces sp2 -> sp2 <> [] -> forallb is_alpha w = true -> w <> [] -> no_letter r -> num ds < 2 ^ 63 ->
  interval_loop (S f) iv (sp1 ++ (if neg then [45] else []) ++ ds ++ sp2 ++ w ++ r) = (do iv' <- interval_read_type iv w (if neg then - num ds else num ds); interval_loop f iv' r).
Proof.
  intros S1 D Dn S2 N2 W Wn NL B.
  assert (C : cardinal_loop 0 (ds ++ sp2 ++ w ++ r) = Ok (num ds, sp2 ++ w ++ r)).
  { apply cardinal_digits; try assumption; [lia|]. destruct sp2 as [|b sp2]; [contradiction|]. inversion S2 as [|? ? Hb _]; subst. cbn in Hb. cbn [app]. unfold is_digit. lia. }
  assert (K2 : skip_spaces (w ++ r) = w ++ r).
  { destruct w as [|b w]; [contradiction|]. cbn [app forallb skip_spaces] in *. apply andb_prop in W as [W1 _]. replace (is_space b) with false; [reflexivity|]. unfold is_alpha, is_space in *. lia. }
  pose proof (span_word w r W NL) as SW.
  assert (Wr : exists x l, w ++ r = x :: l) by (destruct w as [|x w]; [contradiction|]; eexists; eexists; reflexivity). destruct Wr as (x & l & Ewr).
  destruct sp2 as [|c sp2]; [contradiction|]. inversion S2 as [|? ? Hc S2']; subst. assert (Ec : is_space c = true) by (cbn in Hc; unfold is_space; lia).
  cbn [interval_loop]. rewrite skip_sp by exact S1. destruct neg.
  - cbn [app skip_spaces]. change (is_space 45) with false. cbv iota. change (45 =? 45) with true. cbv iota zeta. cbn [app] in C. rewrite C. cbn [bind]. rewrite Ec, skip_sp, K2 by exact S2'.
    rewrite Ewr in *. rewrite SW. reflexivity.
  - destruct ds as [|b ds]; [contradiction|]. cbn [app skip_spaces] in *. cbn [forallb] in D. apply andb_prop in D as [D1 _]. destruct (digit_not_space b D1) as [E1 E2]. apply Z.eqb_neq in E2. rewrite E1, E2.
    cbv iota zeta. rewrite C. cbn [bind]. rewrite Ec, skip_sp, K2 by exact S2'. rewrite Ewr in *. rewrite SW. reflexivity.
Qed.
Lemma to32_small v : - 2 ^ 31 <= v < 2 ^ 31 -> to32 v = v.
Proof. unfold to32, sx. change (8 * Z.of_nat 4 - 1) with 31. change (8 * Z.of_nat 4) with 32. intros H. destruct (Z.ltb_spec (v mod 2 ^ 32) (2 ^ 31)); eucl. Qed.
Lemma s64_small v : - 2 ^ 63 <= v < 2 ^ 63 -> s64_ v = Ok v.
Proof. unfold s64_. intros H. replace (in64 v) with true by (unfold in64; lia). reflexivity. Qed.
Lemma s32_small v : - 2 ^ 31 <= v < 2 ^ 31 -> s32_ v = Ok v.
Proof. unfold s32_. intros H. replace (in32 v) with true by (unfold in32; lia). reflexivity. Qed.
Definition int32 (v : Z) : Prop := - 2 ^ 31 <= v < 2 ^ 31.
Definition terms_ok (L : list (Z * (Z * Z * Z))) : Prop := Forall (fun t => Z.abs (fst t) < 2 ^ 63 /\ Z.abs (fst t * u_us (snd t)) < 2 ^ 63) L.
Lemma total_cons sel t L : total sel (t :: L) = fst t * sel (snd t) + total sel L.
Proof. reflexivity. Qed.
Lemma total_app sel L M : total sel (L ++ M) = total sel L + total sel M.
Proof. induction L as [|t L IH]; [reflexivity|]. cbn [app]. rewrite !total_cons, IH. lia. Qed.
Lemma parse_loop L s : iv_text L s -> terms_ok L -> forall iv fuel, (length s < fuel)%nat ->
  (forall k, int32 (im iv + total u_m (firstn k L)) /\ int32 (id_ iv + total u_d (firstn k L)) /\ int64 (ius iv + total u_us (firstn k L))) ->
  interval_loop fuel iv s = Ok (Iv (im iv + total u_m L) (id_ iv + total u_d L) (ius iv + total u_us L)).
Proof.
  unfold int32, int64. induction 1 as [sp Sp|sp1 neg ds sp2 w u L r S1 D Dn S2 N2 U NL T IH]; intros Ok_ iv fuel F P; (destruct fuel as [|f]; [lia|]).
  - cbn [interval_loop]. rewrite <- (app_nil_r sp), skip_sp by exact Sp. cbn [skip_spaces total fold_right]. rewrite !Z.add_0_r. now destruct iv.
  - inversion Ok_ as [|? ? [A1 A2] Ok_']; subst. cbn [fst snd] in A1, A2. destruct (in_units w u U) as (W & Wn & k & Fk & Ek).
    pose proof (num_bound ds D) as Nb.
    rewrite loop_term; try assumption; [|destruct neg; lia]. set (v := if neg then - num ds else num ds) in *. unfold interval_read_type. rewrite Fk.
    assert (Lr : (length r < f)%nat). { rewrite !app_length in F. destruct ds; [contradiction|]. cbn [length] in F. lia. }
    pose proof (P 1%nat) as P1. pose proof (P 0%nat) as P0. cbn [firstn] in P1, P0. rewrite !total_cons in P1. cbn [fst snd] in P1. change (total u_m []) with 0 in *. change (total u_d []) with 0 in *. change (total u_us []) with 0 in *.
    assert (Q : forall k, (- 2 ^ 31 <= im iv + v * u_m u + total u_m (firstn k L) < 2 ^ 31) /\ (- 2 ^ 31 <= id_ iv + v * u_d u + total u_d (firstn k L) < 2 ^ 31) /\ (- 2 ^ 63 <= ius iv + v * u_us u + total u_us (firstn k L) < 2 ^ 63)).
    { intros j. specialize (P (S j)). cbn [firstn] in P. rewrite !total_cons in P. cbn [fst snd] in P. fold v in P. lia. }
    rewrite !total_cons. cbn [fst snd]. fold v. fold v in P1.
    destruct k as [k|k|k]; subst u; unfold u_m, u_d, u_us in *; cbn [fst snd] in *.
    + rewrite (s64_small (v * k)) by lia. cbn [bind]. rewrite s64_small by lia. cbn [bind]. rewrite to32_small by lia. cbn [bind].
      rewrite IH; [|exact Ok_'|exact Lr|cbn [im id_ ius]; intros j; specialize (Q j); lia]. cbn [im id_ ius]. f_equal. f_equal; lia.
    + rewrite (s64_small (v * k)) by lia. cbn [bind]. rewrite s64_small by lia. cbn [bind]. rewrite to32_small by lia. cbn [bind].
      rewrite IH; [|exact Ok_'|exact Lr|cbn [im id_ ius]; intros j; specialize (Q j); lia]. cbn [im id_ ius]. f_equal. f_equal; lia.
    + rewrite (s64_small (v * k)) by lia. cbn [bind]. rewrite s64_small by lia. cbn [bind].
      rewrite IH; [|exact Ok_'|exact Lr|cbn [im id_ ius]; intros j; specialize (Q j); lia]. cbn [im id_ ius]. f_equal. f_equal; lia.
Qed.
(** a text of any number of terms is the sum of its terms, as long as no sum on the way overflows *)
Theorem C36_parse_partial L s : iv_text L s -> terms_ok L ->
  (forall k, int32 (total u_m (firstn k L)) /\ int32 (total u_d (firstn k L)) /\ int64 (total u_us (firstn k L))) ->
  interval_set s = Ok (Iv (total u_m L) (total u_d L) (total u_us L)).
Proof. intros T O P. unfold interval_set. rewrite (parse_loop L s T O); [reflexivity|lia|exact P]. Qed.
Print Assumptions C36_parse_partial.

(** *** round trip *)
Definition flat (L : list (Z * string * (Z * Z * Z))) : list Z := flat_map (fun t => dec (fst (fst t)) ++ [32] ++ bytes_of (snd (fst t)) ++ [32]) L.
Lemma sp32 : spaces [32].
Proof. repeat constructor. Qed.
Lemma dec_form v : Z.abs v < 10 ^ 20 -> exists ds, dec v = (if v <? 0 then [45] else []) ++ ds /\ forallb is_digit ds = true /\ ds <> [] /\ num ds = Z.abs v.
Proof.
  intros H. unfold dec. destruct (Z.ltb_spec v 0).
  - exists (DecLib.digits 20 (- v)). split; [reflexivity|]. split; [apply digits_ok; lia|]. split; [apply digits_nonempty|]. rewrite digits_num by (change (Z.of_nat 20) with 20; lia). lia.
  - exists (DecLib.digits 20 v). split; [reflexivity|]. split; [apply digits_ok; lia|]. split; [apply digits_nonempty|]. rewrite digits_num by (change (Z.of_nat 20) with 20; lia). lia.
Qed.
Lemma flat_text L : Forall (fun t => Z.abs (fst (fst t)) < 10 ^ 20 /\ In (snd (fst t), snd t) units) L -> forall sp, spaces sp -> iv_text (map (fun t => (fst (fst t), snd t)) L) (sp ++ removelast (flat L)).
Proof.
  induction 1 as [|[[v w] u] L [A U] H IH]; intros sp Sp; [cbn; rewrite app_nil_r; now constructor|]. cbn [fst snd] in *.
  destruct (dec_form v A) as (ds & Ed & D & Dn & Nd). assert (V : v = if v <? 0 then - num ds else num ds) by (destruct (Z.ltb_spec v 0); lia).
  assert (E : exists r, removelast (flat ((v, w, u) :: L)) = (if v <? 0 then [45] else []) ++ ds ++ [32] ++ bytes_of w ++ r /\ no_letter r /\ iv_text (map (fun t => (fst (fst t), snd t)) L) r).
  { unfold flat. cbn [flat_map fst snd]. fold (flat L). rewrite Ed. destruct L as [|t L].
    - exists []. cbn [flat flat_map]. rewrite !app_nil_r. split; [rewrite <- !app_assoc; rewrite !app_assoc; rewrite removelast_last; rewrite <- !app_assoc; reflexivity|]. split; [exact I|]. constructor. constructor.
    - exists ([32] ++ removelast (flat (t :: L))). split; [|split; [cbn; lia|apply IH; exact sp32]].
      rewrite removelast_app; [rewrite <- !app_assoc; reflexivity|]. unfold flat. cbn [flat_map]. destruct (dec_form (fst (fst t)) (proj1 (Forall_inv H))) as (ds2 & -> & _ & Dn2 & _). destruct (fst (fst t) <? 0); destruct ds2 as [|z2 ds2]; try (now destruct Dn2); discriminate. }
  destruct E as (r & -> & NL & T). cbn [map fst snd]. rewrite V at 1. apply iv_term with (sp2 := [32]); try assumption; [exact sp32|discriminate].
Qed.
Definition opt (v : Z) (one many : string) (u : Z * Z * Z) : list (Z * string * (Z * Z * Z)) := if v =? 0 then [] else [(v, if Z.abs v =? 1 then one else many, u)].
Lemma flat_app L M : flat (L ++ M) = flat L ++ flat M.
Proof. apply flat_map_app. Qed.
Lemma opt_flat v one many u w (ws : list Z) : bytes_of one = w -> bytes_of many = w ++ ws -> flat (opt v one many u) = if v =? 0 then [] else dec v ++ [32] ++ w ++ (if Z.abs v =? 1 then [] else ws) ++ [32].
Proof.
  intros E1 E2. unfold opt, flat. destruct (v =? 0); [reflexivity|]. cbn [flat_map fst snd]. rewrite app_nil_r. destruct (Z.abs v =? 1); [rewrite E1|rewrite E2]; now rewrite ?app_assoc_reverse.
Qed.
Lemma opt_total sel v one many u : total sel (map (fun t => (fst (fst t), snd t)) (opt v one many u)) = v * sel u.
Proof. unfold opt. destruct (Z.eqb_spec v 0) as [->|]; [reflexivity|]. cbn [map fst snd]. rewrite total_cons. cbn [fst snd]. change (total sel []) with 0. lia. Qed.
Lemma opt_ok v one many u : Z.abs v < 10 ^ 20 -> In (one, u) units -> In (many, u) units -> Forall (fun t => Z.abs (fst (fst t)) < 10 ^ 20 /\ In (snd (fst t), snd t) units) (opt v one many u).
Proof. intros H U1 U2. unfold opt. destruct (v =? 0); [constructor|]. constructor; [|constructor]. cbn [fst snd]. destruct (Z.abs v =? 1); auto. Qed.
Lemma split_q us c : 0 < c -> let q := Z.quot us c in let r := if q =? 0 then us else Z.rem us c in us = c * q + r /\ Z.abs r < c /\ (0 <= us -> 0 <= q /\ 0 <= r) /\ (us <= 0 -> q <= 0 /\ r <= 0).
Proof.
  intros H q r. pose proof (Z.quot_rem' us c) as E. fold q in E. pose proof (Z.rem_bound_abs us c ltac:(lia)) as B.
  assert (S : (0 <= us -> 0 <= q /\ 0 <= Z.rem us c) /\ (us <= 0 -> q <= 0 /\ Z.rem us c <= 0)).
  { split; intros; split; try (unfold q); [apply Z.quot_pos; lia|apply Z.rem_nonneg; lia| |apply Z.rem_nonpos; lia]. pose proof (Z.quot_opp_l us c ltac:(lia)). pose proof (Z.quot_pos (- us) c ltac:(lia) H). lia. }
  unfold r. destruct (Z.eqb_spec q 0) as [Eq|]; [assert (Z.rem us c = us) as R by lia; rewrite R in *|]; split; try lia.
Qed.
(** prefixes of an interval text: all sums on the way stay between zero and the total *)
Lemma prefix_between (sel : Z * Z * Z -> Z) L lo hi : lo <= 0 <= hi -> (Forall (fun t => 0 <= fst t * sel (snd t)) L \/ Forall (fun t => fst t * sel (snd t) <= 0) L) -> lo <= total sel L <= hi -> forall k, lo <= total sel (firstn k L) <= hi.
Proof.
  intros Z0 S T k. rewrite <- (firstn_skipn k L), total_app in T.
  assert (G : (0 <= total sel (firstn k L) /\ 0 <= total sel (skipn k L)) \/ (total sel (firstn k L) <= 0 /\ total sel (skipn k L) <= 0)).
  { rewrite <- (firstn_skipn k L) in S. rewrite !Forall_app in S. destruct S as [[S1 S2]|[S1 S2]]; [left|right].
    - split; [clear -S1; induction S1 as [|t l P _ IH]; [reflexivity|rewrite total_cons; lia]|clear -S2; induction S2 as [|t l P _ IH]; [reflexivity|rewrite total_cons; lia]].
    - split; [clear -S1; induction S1 as [|t l P _ IH]; [reflexivity|rewrite total_cons; lia]|clear -S2; induction S2 as [|t l P _ IH]; [reflexivity|rewrite total_cons; lia]]. }
  lia.
Qed.
Lemma opt_sign (sel : Z * Z * Z -> Z) v one many u (P : Z -> Prop) : P (v * sel u) -> Forall (fun t => P (fst t * sel (snd t))) (map (fun t => (fst (fst t), snd t)) (opt v one many u)).
Proof. intros H. unfold opt. destruct (v =? 0); constructor; [exact H|constructor]. Qed.
Lemma opt_terms v one many u : Z.abs v < 2 ^ 63 -> Z.abs (v * u_us u) < 2 ^ 63 -> terms_ok (map (fun t => (fst (fst t), snd t)) (opt v one many u)).
Proof. intros H1 H2. unfold opt, terms_ok. destruct (v =? 0); constructor; [split; assumption|constructor]. Qed.
Theorem C36_round_trip_partial iv : int32 (im iv) -> int32 (id_ iv) -> id_ iv <> - 2 ^ 31 -> int64 (ius iv) ->
  exists s, interval_get iv = Ok s /\ interval_set s = Ok iv.
Proof.
  unfold int32, int64. intros Hm Hd Hdn Hu. unfold interval_get. rewrite s32_small by lia. cbn [bind].
  pose proof (split_q (im iv) 12 ltac:(lia)) as S0. pose proof (split_q (ius iv) 3600000000 ltac:(lia)) as S1. cbv zeta in S0, S1 |- *.
  set (y := Z.quot (im iv) 12) in *. set (m := if y =? 0 then im iv else Z.rem (im iv) 12) in *.
  set (h := Z.quot (ius iv) 3600000000) in *. set (us1 := if h =? 0 then ius iv else Z.rem (ius iv) 3600000000) in *.
  pose proof (split_q us1 60000000 ltac:(lia)) as S2. cbv zeta in S2. set (mi := Z.quot us1 60000000) in *. set (us2 := if mi =? 0 then us1 else Z.rem us1 60000000) in *.
  pose proof (split_q us2 1000000 ltac:(lia)) as S3. cbv zeta in S3. set (se := Z.quot us2 1000000) in *. set (us3 := if se =? 0 then us2 else Z.rem us2 1000000) in *.
  pose proof (split_q us3 1000 ltac:(lia)) as S4. cbv zeta in S4. set (ms := Z.quot us3 1000) in *. set (us4 := if ms =? 0 then us3 else Z.rem us3 1000) in *.
  assert (T0 : ius iv = 3600000000 * h + 60000000 * mi + 1000000 * se + 1000 * ms + us4) by (clear - S1 S2 S3 S4; clearbody h us1 mi us2 se us3 ms us4; lia).
  assert (Sg : (0 <= h /\ 0 <= mi /\ 0 <= se /\ 0 <= ms /\ 0 <= us4) \/ (h <= 0 /\ mi <= 0 /\ se <= 0 /\ ms <= 0 /\ us4 <= 0)).
  { clear - S1 S2 S3 S4. clearbody h us1 mi us2 se us3 ms us4. destruct S1 as (_ & _ & P1 & N1). destruct S2 as (_ & _ & P2 & N2). destruct S3 as (_ & _ & P3 & N3). destruct S4 as (_ & _ & P4 & N4).
    destruct (Z.le_ge_cases 0 (ius iv)) as [K|K]; [left|right].
    - destruct (P1 K) as [? K1]. destruct (P2 K1) as [? K2]. destruct (P3 K2) as [? K3]. destruct (P4 K3). tauto.
    - destruct (N1 K) as [? K1]. destruct (N2 K1) as [? K2]. destruct (N3 K2) as [? K3]. destruct (N4 K3). tauto. }
  assert (Sm : im iv = 12 * y + m /\ ((0 <= y /\ 0 <= m) \/ (y <= 0 /\ m <= 0))).
  { clear - S0. clearbody y m. destruct S0 as (E & _ & P & N). split; [exact E|]. destruct (Z.le_ge_cases 0 (im iv)); tauto. }
  assert (B4 : -1000 < us4 < 1000) by (clear - S4; clearbody us4; lia).
  clear S0 S1 S2 S3 S4.
  set (L := opt y "year" "years" (12, 0, 0) ++ opt m "month" "months" (1, 0, 0) ++ opt (id_ iv) "day" "days" (0, 1, 0) ++ opt h "hour" "hours" (0, 0, 3600 * 1000000) ++
    opt mi "minute" "minutes" (0, 0, 60 * 1000000) ++ opt se "second" "seconds" (0, 0, 1000000) ++ opt ms "ms" "ms" (0, 0, 1000) ++ opt us4 "us" "us" (0, 0, 1)).
  assert (E : flat L = (if y =? 0 then [] else fmt_span y w_year) ++ (if m =? 0 then [] else fmt_span m w_month) ++ (if id_ iv =? 0 then [] else fmt_span (id_ iv) w_day) ++
     (if h =? 0 then [] else fmt_span h w_hour) ++ (if mi =? 0 then [] else fmt_span mi w_minute) ++ (if se =? 0 then [] else fmt_span se w_second) ++
     (if ms =? 0 then [] else dec ms ++ [32] ++ w_ms ++ [32]) ++ (if us4 =? 0 then [] else dec us4 ++ [32] ++ w_us ++ [32])).
  { unfold L. rewrite !flat_app. rewrite (opt_flat y _ _ _ w_year [115]), (opt_flat m _ _ _ w_month [115]), (opt_flat (id_ iv) _ _ _ w_day [115]), (opt_flat h _ _ _ w_hour [115]), (opt_flat mi _ _ _ w_minute [115]), (opt_flat se _ _ _ w_second [115]), (opt_flat ms _ _ _ w_ms []), (opt_flat us4 _ _ _ w_us []) by reflexivity.
    destruct (Z.abs ms =? 1), (Z.abs us4 =? 1); reflexivity. }
  rewrite <- E. eexists. split; [reflexivity|]. clear E. clearbody y m h us1 mi us2 se us3 ms us4. clear us1 us2 us3.
  assert (U : forall x, existsb (fun t => String.eqb (fst t) (fst x) && (u_m (snd t) =? u_m (snd x)) && (u_d (snd t) =? u_d (snd x)) && (u_us (snd t) =? u_us (snd x))) units = true -> In x units).
  { intros [w [[a b] c]] X. apply existsb_exists in X as ([w' [[a' b'] c']] & I & X). unfold u_m, u_d, u_us in X. cbn [fst snd] in X. repeat (apply andb_prop in X as [X ?]). apply String.eqb_eq in X.
    repeat match goal with H : (_ =? _) = true |- _ => apply Z.eqb_eq in H end. subst. exact I. }
  assert (T : iv_text (map (fun t => (fst (fst t), snd t)) L) (removelast (flat L))).
  { apply (flat_text L) with (sp := []); [|constructor]. unfold L. change (10 ^ 20) with 100000000000000000000.
    repeat (apply Forall_app; split); apply opt_ok; try (apply U; reflexivity); change (10 ^ 20) with 100000000000000000000; clear U L; destruct Sm as [Em [Pm|Pm]]; destruct Sg as [Pg|Pg]; lia. }
  clear U.
  rewrite (C36_parse_partial _ _ T); clear T; destruct Sm as [Em Pm].
  - unfold L. rewrite !map_app, !total_app, !opt_total. unfold u_m, u_d, u_us. cbn [fst snd]. f_equal. destruct iv as [a b c]. cbn [im id_ ius] in *. clear - Em T0. f_equal; lia.
  - unfold L. rewrite !map_app. unfold terms_ok. repeat (apply Forall_app; split); apply opt_terms; unfold u_us; cbn [snd]; clear L; destruct Pm as [Pm|Pm]; destruct Sg as [Pg|Pg]; lia.
  - intros k. split; [|split].
    + assert (- 2 ^ 31 <= total u_m (firstn k (map (fun t => (fst (fst t), snd t)) L)) <= 2 ^ 31 - 1); [|unfold int32; lia]. apply prefix_between; [lia| |].
      * unfold L. rewrite !map_app. clear L. clear Sg T0. destruct Pm as [Pm|Pm]; [left|right]; repeat (apply Forall_app; split); [..|]; match goal with |- Forall (fun t => ?a <= ?b) _ => idtac end.
        all: first [apply (opt_sign u_m) with (P := fun x => 0 <= x)|apply (opt_sign u_m) with (P := fun x => x <= 0)]; unfold u_m; cbn [fst snd]; lia.
      * unfold L. rewrite !map_app, !total_app, !opt_total. unfold u_m. cbn [fst snd]. clear - Hm Em. lia.
    + assert (- 2 ^ 31 <= total u_d (firstn k (map (fun t => (fst (fst t), snd t)) L)) <= 2 ^ 31 - 1); [|unfold int32; lia]. apply prefix_between; [lia| |].
      * unfold L. rewrite !map_app. clear L. clear Sg T0 Pm Em. destruct (Z.le_gt_cases 0 (id_ iv)); [left|right]; repeat (apply Forall_app; split).
        all: first [apply (opt_sign u_d) with (P := fun x => 0 <= x)|apply (opt_sign u_d) with (P := fun x => x <= 0)]; unfold u_d; cbn [fst snd]; lia.
      * unfold L. rewrite !map_app, !total_app, !opt_total. unfold u_d. cbn [fst snd]. clear - Hd. lia.
    + assert (- 2 ^ 63 <= total u_us (firstn k (map (fun t => (fst (fst t), snd t)) L)) <= 2 ^ 63 - 1); [|unfold int64; lia]. apply prefix_between; [lia| |].
      * unfold L. rewrite !map_app. clear L. clear Pm Em T0. destruct Sg as [Pg|Pg]; [left|right]; repeat (apply Forall_app; split).
        all: first [apply (opt_sign u_us) with (P := fun x => 0 <= x)|apply (opt_sign u_us) with (P := fun x => x <= 0)]; unfold u_us; cbn [fst snd]; lia.
      * unfold L. rewrite !map_app, !total_app, !opt_total. unfold u_us. cbn [fst snd]. clear - Hu T0. lia.
Qed.
Print Assumptions C36_round_trip_partial.
(** add, subtract, negate are exact if the result fits *)
Definition iv_ok (a : interval) : Prop := int32 (im a) /\ int32 (id_ a) /\ int64 (ius a).
Theorem C36_arithmetic_partial a b :
  (iv_ok (Iv (im a + im b) (id_ a + id_ b) (ius a + ius b)) -> interval_add a b = Ok (Iv (im a + im b) (id_ a + id_ b) (ius a + ius b))) /\
  (iv_ok (Iv (im a - im b) (id_ a - id_ b) (ius a - ius b)) -> interval_sub a b = Ok (Iv (im a - im b) (id_ a - id_ b) (ius a - ius b))) /\
  (iv_ok (Iv (- im a) (- id_ a) (- ius a)) -> interval_neg a = Ok (Iv (- im a) (- id_ a) (- ius a))).
Proof.
  unfold iv_ok, int32, int64, interval_add, interval_sub, interval_neg. cbn [im id_ ius].
  split; [|split]; intros (A & B & C); rewrite !s32_small by lia; cbn [bind]; rewrite s64_small by lia; reflexivity.
Qed.
Print Assumptions C36_arithmetic_partial.
(** otherwise the addition overflows (undefined behaviour), also when a text is parsed; a text with
    too many months is silently wrong *)
Theorem C36_overflow_refuted :
  (exists a b, iv_ok a /\ iv_ok b /\ interval_add a b = UB) /\
  (exists a, iv_ok a /\ interval_neg a = UB) /\ (exists a, iv_ok a /\ interval_get a = UB) /\
  (exists L s, iv_text L s /\ total u_us L = 9223372800000000000 /\ interval_set s = UB) /\
  (exists L s, iv_text L s /\ total u_m L = 2 ^ 32 + 1 /\ interval_set s = Ok (Iv 1 0 0)).
Proof.
  assert (T : forall v w u, Z.abs v < 10 ^ 20 -> In (w, u) units -> iv_text [(v, u)] (removelast (flat [(v, w, u)]))).
  { intros v w u H I. apply (flat_text [(v, w, u)]) with (sp := []); [|constructor]. constructor; [|constructor]. cbn [fst snd]. auto. }
  split; [exists (Iv (2 ^ 31 - 1) 0 0), (Iv 1 0 0); unfold iv_ok, int32, int64; cbn [im id_ ius]; split; [lia|]; split; [lia|reflexivity]|].
  split; [exists (Iv 0 0 (- 2 ^ 63)); unfold iv_ok, int32, int64; cbn [im id_ ius]; split; [lia|reflexivity]|].
  split; [exists (Iv 0 (- 2 ^ 31) 0); unfold iv_ok, int32, int64; cbn [im id_ ius]; split; [lia|reflexivity]|].
  split.
  - eexists; eexists; split; [apply (T 2562048000 "hours"%string (0, 0, 3600 * 1000000)); [lia|cbn; auto 20]|]. split; [reflexivity|vm_compute; reflexivity].
  - eexists; eexists; split; [apply (T (2 ^ 32 + 1) "months"%string (1, 0, 0)); [lia|cbn; auto 20]|]. split; [reflexivity|vm_compute; reflexivity].
Qed.
Print Assumptions C36_overflow_refuted.
(** truncating and extracting fields of intervals that are not negative *)
Definition field_us (f : field) : Z := match f with FDay => 86400 * 1000000 | FHour => 3600 * 1000000 | FMinute => 60 * 1000000 | FSecond => 1000000 | FMs => 1000 | _ => 1 end.
Lemma u64_small v : 0 <= v < 2 ^ 64 -> u64 v = v.
Proof. intros H. unfold u64. now apply Z.mod_small. Qed.
Lemma to64_small v : - 2 ^ 63 <= v < 2 ^ 63 -> to64 v = v.
Proof. unfold to64, sx. change (8 * Z.of_nat 8 - 1) with 63. change (8 * Z.of_nat 8) with 64. intros H. destruct (Z.ltb_spec (v mod 2 ^ 64) (2 ^ 63)); eucl. Qed.
Lemma trunc_small us c : 0 <= us < 2 ^ 63 -> 0 < c -> trunc_u us c = us - us mod c.
Proof.
  intros H Hc. unfold trunc_u. rewrite u64_small by lia. pose proof (Z.div_mod us c ltac:(lia)) as E. pose proof (Z.mod_pos_bound us c Hc). pose proof (Z.div_pos us c ltac:(lia) Hc). rewrite to64_small by nia. nia.
Qed.
Theorem C36_trunc_partial iv f : iv_ok iv -> 0 <= im iv -> 0 <= id_ iv -> 0 <= ius iv ->
  let r := interval_trunc iv f in
  match f with
  | FYear => im r = im iv - im iv mod 12 /\ id_ r = 0 /\ ius r = 0
  | FMonth => im r = im iv /\ id_ r = 0 /\ ius r = 0
  | _ => im r = im iv /\ id_ r = id_ iv /\ ius r = ius iv - ius iv mod field_us f
  end.
Proof.
  unfold iv_ok, int32, int64. intros (A & B & C) Hm Hd Hu. destruct iv as [m d us]. cbn [im id_ ius] in *.
  destruct f; cbn [interval_trunc im id_ ius field_us]; rewrite ?trunc_small by lia; repeat split; try reflexivity; [rewrite Z.quot_div_nonneg by lia; pose proof (Z.div_mod m 12 ltac:(lia)); lia|rewrite Z.mod_1_r; lia].
Qed.
Print Assumptions C36_trunc_partial.
Theorem C36_extract_partial iv : iv_ok iv -> 0 <= im iv -> 0 <= ius iv ->
  let e f := interval_extract iv f in
  im iv = 12 * e FYear + e FMonth /\ 0 <= e FMonth < 12 /\ e FDay = id_ iv /\
  ius iv = e FHour * field_us FHour + e FMinute * field_us FMinute + e FSecond * field_us FSecond + e FMs * 1000 + e FUs /\
  0 <= e FHour /\ 0 <= e FMinute < 60 /\ 0 <= e FSecond < 60 /\ 0 <= e FMs < 1000 /\ 0 <= e FUs < 1000.
Proof.
  unfold iv_ok, int32, int64. intros (A & B & C) Hm Hu. destruct iv as [m d us]. cbn [im id_ ius interval_extract field_us] in *.
  rewrite !u64_small by lia. rewrite Z.quot_div_nonneg, !Z.rem_mod_nonneg by lia. rewrite !to64_small by (clear A B; eucl).
  split; [apply Z.div_mod; lia|]. split; [apply Z.mod_pos_bound; lia|]. split; [reflexivity|]. clear A B Hm. eucl.
Qed.
Print Assumptions C36_extract_partial.
(** of a negative interval: unsigned arithmetic *)
Theorem C36_negative_refuted : ius (interval_trunc (Iv 0 0 (- 3600000000)) FHour) = - 3709551616 /\ ius (interval_trunc (Iv 0 0 (- 1000000)) FDay) = - 28909551616 /\
  interval_extract (Iv 0 0 (- 3600000000)) FHour = 5124095575.
Proof. vm_compute. auto. Qed.
Print Assumptions C36_negative_refuted.
Example C36_nonvacuous : interval_get (Iv (-14) 3 3723004005) = Ok (bytes_of "-1 year -2 months 3 days 1 hour 2 minutes 3 seconds 4 ms 5 us"%string) /\
  interval_set (bytes_of " 2 weeks -1 hr"%string) = Ok (Iv 0 14 (-3600000000)) /\ interval_set (bytes_of "1 day extra"%string) = Err /\ interval_get (Iv 0 0 0) = Ok [] /\
  ius (interval_trunc (Iv 0 0 3723004005) FMinute) = 3720000000.
Proof. vm_compute. auto 6. Qed.
