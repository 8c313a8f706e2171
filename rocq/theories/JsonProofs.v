From Verif Require Import Base JsonModel JsonSpec.
Ltac Zify.zify_post_hook ::= Z.div_mod_to_equations.

Lemma json_ind' (P : json -> Prop)
  (Hnull : P JNull) (Hbool : forall b, P (JBool b)) (Hint : forall z, P (JInt z))
  (Hreal : forall b, P (JReal b)) (Hstr : forall s, P (JStr s))
  (Hobj : forall l, Forall (fun kv => P (snd kv)) l -> P (JObj l))
  (Harr : forall l, Forall P l -> P (JArr l)) : forall v, P v.
Proof.
  fix IH 1. intros [| b | z | b | s | l | l].
  - exact Hnull.
  - apply Hbool.
  - apply Hint.
  - apply Hreal.
  - apply Hstr.
  - apply Hobj. induction l as [|[k v] l IHl]; constructor; [apply IH|exact IHl].
  - apply Harr. induction l as [|v l IHl]; constructor; [apply IH|exact IHl].
Qed.

Arguments json_write_raw : simpl never.
Arguments json_write_integer : simpl never.
Arguments json_write_real : simpl never.
Arguments json_write_wide : simpl never.
Arguments json_read_raw : simpl never.
Arguments json_read_integer : simpl never.
Arguments json_read_real : simpl never.

(** ** tokens *)
Definition tok_wf (t : tok) : bool :=
  match t with
  | TInt z => (INT64_MIN <=? z) && (z <=? INT64_MAX)
  | TReal b => (0 <=? b) && (b <? 2 ^ 64)
  | TStr s => str_wf s
  | _ => true
  end.

Lemma read_int_ok z rest : INT64_MIN <= z <= INT64_MAX ->
  json_read_integer (json_write_integer z ++ rest) = Ok (z, rest).
Proof.
  unfold INT64_MIN, INT64_MAX. intros Hz. unfold json_write_integer.
  assert (Hm : z mod 2 ^ 64 = if z <? 0 then z + 2 ^ 64 else z).
  { change (2 ^ 64) with 18446744073709551616. destruct (Z.ltb_spec z 0); lia. }
  rewrite Hm. unfold INT8_MAX, INT16_MAX, INT32_MAX.
  change (2 ^ 64) with 18446744073709551616 in *.
  destruct (Z.ltb_spec z 0) as [Hneg|Hpos].
  - destruct (Z.leb_spec (z + 18446744073709551616) 31); [lia|].
    destruct (Z.leb_spec (z + 18446744073709551616) 127); [lia|].
    destruct (Z.leb_spec (z + 18446744073709551616) 32767); [lia|].
    destruct (Z.leb_spec (z + 18446744073709551616) 2147483647); [lia|].
    unfold json_read_integer. cbn [rd_u8 app bind].
    rewrite (eq_refl : (JSON_INTV0 <=? JSON_INT64) && (JSON_INT64 <=? JSON_INTV31) = false).
    rewrite (eq_refl : (JSON_INT64 =? JSON_INT8) = false).
    rewrite (eq_refl : (JSON_INT64 =? JSON_INT16) = false).
    rewrite (eq_refl : (JSON_INT64 =? JSON_INT32) = false).
    rewrite Z.eqb_refl.
    rewrite rd_n_app by apply le_enc_length. cbn [bind].
    rewrite le_dec_enc_mod. change (8 * Z.of_nat 8) with 64.
    replace ((z + 18446744073709551616) mod 2 ^ 64) with (z mod 2 ^ (8 * Z.of_nat 8)).
    + rewrite sx_mod; [reflexivity|lia|]. change (2 ^ (8 * Z.of_nat 8 - 1)) with 9223372036854775808. lia.
    + change (2 ^ (8 * Z.of_nat 8)) with 18446744073709551616. change (2 ^ 64) with 18446744073709551616. lia.
  - destruct (Z.leb_spec z 31).
    { unfold json_read_integer. cbn [rd_u8 app bind]. unfold JSON_INTV0, JSON_INTV31.
      replace ((5 <=? 5 + z) && (5 + z <=? 37)) with true by lia.
      f_equal. f_equal. lia. }
    destruct (Z.leb_spec z 127).
    { unfold json_read_integer. cbn [rd_u8 app bind].
      rewrite (eq_refl : (JSON_INTV0 <=? JSON_INT8) && (JSON_INT8 <=? JSON_INTV31) = false).
      rewrite Z.eqb_refl. rewrite rd_n_app by apply le_enc_length. cbn [bind].
      rewrite le_dec_enc by (change (2 ^ (8 * Z.of_nat 1)) with 256; lia).
      rewrite sx_small; [reflexivity|lia|]. change (2 ^ (8 * Z.of_nat 1 - 1)) with 128. lia. }
    destruct (Z.leb_spec z 32767).
    { unfold json_read_integer. cbn [rd_u8 app bind].
      rewrite (eq_refl : (JSON_INTV0 <=? JSON_INT16) && (JSON_INT16 <=? JSON_INTV31) = false).
      rewrite (eq_refl : (JSON_INT16 =? JSON_INT8) = false).
      rewrite Z.eqb_refl. rewrite rd_n_app by apply le_enc_length. cbn [bind].
      rewrite le_dec_enc by (change (2 ^ (8 * Z.of_nat 2)) with 65536; lia).
      rewrite sx_small; [reflexivity|lia|]. change (2 ^ (8 * Z.of_nat 2 - 1)) with 32768. lia. }
    destruct (Z.leb_spec z 2147483647).
    { unfold json_read_integer. cbn [rd_u8 app bind].
      rewrite (eq_refl : (JSON_INTV0 <=? JSON_INT32) && (JSON_INT32 <=? JSON_INTV31) = false).
      rewrite (eq_refl : (JSON_INT32 =? JSON_INT8) = false).
      rewrite (eq_refl : (JSON_INT32 =? JSON_INT16) = false).
      rewrite Z.eqb_refl. rewrite rd_n_app by apply le_enc_length. cbn [bind].
      rewrite le_dec_enc by (change (2 ^ (8 * Z.of_nat 4)) with 4294967296; lia).
      rewrite sx_small; [reflexivity|lia|]. change (2 ^ (8 * Z.of_nat 4 - 1)) with 2147483648. lia. }
    unfold json_read_integer. cbn [rd_u8 app bind].
    rewrite (eq_refl : (JSON_INTV0 <=? JSON_INT64) && (JSON_INT64 <=? JSON_INTV31) = false).
    rewrite (eq_refl : (JSON_INT64 =? JSON_INT8) = false).
    rewrite (eq_refl : (JSON_INT64 =? JSON_INT16) = false).
    rewrite (eq_refl : (JSON_INT64 =? JSON_INT32) = false).
    rewrite Z.eqb_refl. rewrite rd_n_app by apply le_enc_length. cbn [bind].
    rewrite le_dec_enc by (change (2 ^ (8 * Z.of_nat 8)) with 18446744073709551616; lia).
    rewrite sx_small; [reflexivity|lia|]. change (2 ^ (8 * Z.of_nat 8 - 1)) with 9223372036854775808. lia.
Qed.

Lemma read_wide_ok s rest : str_wf s = true ->
  json_read_raw (json_write_wide s ++ rest) = Ok (s, rest).
Proof.
  unfold str_wf, INT32_MAX. intros Hs. apply andb_prop in Hs; destruct Hs as [_ Hs].
  unfold json_read_raw, json_write_wide. cbn [rd_u8 app bind].
  rewrite (eq_refl : (JSON_STRINGV0 <=? JSON_STRING32) && (JSON_STRING32 <=? JSON_STRINGV31) = false).
  rewrite (eq_refl : (JSON_STRING32 =? JSON_STRING8) = false).
  rewrite (eq_refl : (JSON_STRING32 =? JSON_STRING16) = false).
  rewrite Z.eqb_refl. rewrite <- app_assoc.
  rewrite rd_n_app by apply le_enc_length. cbn [bind].
  rewrite le_dec_enc by (change (2 ^ (8 * Z.of_nat 4)) with 4294967296; lia).
  rewrite sx_small by (change (2 ^ (8 * Z.of_nat 4 - 1)) with 2147483648; lia).
  destruct (Z.ltb_spec (Z.of_nat (length s)) 0); [lia|].
  rewrite Nat2Z.id. now apply rd_n_app.
Qed.

Lemma read_raw_ok s rest : str_wf s = true ->
  json_read_raw (json_write_raw s ++ rest) = Ok (s, rest).
Proof.
  intros Hwf. pose proof Hwf as Hs. unfold str_wf, INT32_MAX in Hs.
  apply andb_prop in Hs; destruct Hs as [_ Hs].
  unfold json_write_raw, INT8_MAX, INT16_MAX.
  destruct (Z.leb_spec (Z.of_nat (length s)) 31).
  { unfold json_read_raw. cbn [rd_u8 app bind]. unfold JSON_STRINGV0, JSON_STRINGV31.
    replace ((42 <=? 42 + Z.of_nat (length s)) && (42 + Z.of_nat (length s) <=? 74)) with true by lia.
    cbn [bind]. destruct (Z.ltb_spec (42 + Z.of_nat (length s) - 42) 0); [lia|].
    replace (Z.to_nat (42 + Z.of_nat (length s) - 42)) with (length s) by lia.
    now apply rd_n_app. }
  destruct (Z.leb_spec (Z.of_nat (length s)) 127).
  { unfold json_read_raw. cbn [rd_u8 app bind].
    rewrite (eq_refl : (JSON_STRINGV0 <=? JSON_STRING8) && (JSON_STRING8 <=? JSON_STRINGV31) = false).
    rewrite Z.eqb_refl. rewrite <- app_assoc. rewrite rd_n_app by apply le_enc_length. cbn [bind].
    rewrite le_dec_enc by (change (2 ^ (8 * Z.of_nat 1)) with 256; lia).
    rewrite sx_small by (change (2 ^ (8 * Z.of_nat 1 - 1)) with 128; lia).
    destruct (Z.ltb_spec (Z.of_nat (length s)) 0); [lia|].
    rewrite Nat2Z.id. now apply rd_n_app. }
  destruct (Z.leb_spec (Z.of_nat (length s)) 32767).
  { unfold json_read_raw. cbn [rd_u8 app bind].
    rewrite (eq_refl : (JSON_STRINGV0 <=? JSON_STRING16) && (JSON_STRING16 <=? JSON_STRINGV31) = false).
    rewrite (eq_refl : (JSON_STRING16 =? JSON_STRING8) = false).
    rewrite Z.eqb_refl. rewrite <- app_assoc. rewrite rd_n_app by apply le_enc_length. cbn [bind].
    rewrite le_dec_enc by (change (2 ^ (8 * Z.of_nat 2)) with 65536; lia).
    rewrite sx_small by (change (2 ^ (8 * Z.of_nat 2 - 1)) with 32768; lia).
    destruct (Z.ltb_spec (Z.of_nat (length s)) 0); [lia|].
    rewrite Nat2Z.id. now apply rd_n_app. }
  now apply read_wide_ok.
Qed.

Lemma float_range bits : real_fits_float bits = true -> 0 <= float_of_double bits < 2 ^ 32.
Proof.
  unfold real_fits_float, float_of_double, FLT_MIN_BITS, FLT_MAX_BITS. intros H.
  change (2 ^ 29) with 536870912. change (2 ^ 23) with 8388608. change (2 ^ 32) with 4294967296.
  destruct ((2 ^ 28 <? bits mod 536870912) || ((bits mod 536870912 =? 2 ^ 28) && Z.odd (bits / 536870912))); lia.
Qed.

Lemma read_real_ok b rest : 0 <= b < 2 ^ 64 ->
  json_read_real (json_write_real b ++ rest) = Ok (real_stored b, rest).
Proof.
  intros Hb. unfold json_write_real, real_stored.
  destruct (real_fits_float b) eqn:E.
  - unfold json_read_real. cbn [rd_u8 app bind]. rewrite Z.eqb_refl.
    rewrite rd_n_app by apply le_enc_length. cbn [bind].
    rewrite le_dec_enc by (apply float_range; exact E).
    unfold double_of_float, float_of_double. f_equal. f_equal. lia.
  - unfold json_read_real. cbn [rd_u8 app bind].
    rewrite (eq_refl : (JSON_REAL64 =? JSON_REAL32) = false). rewrite Z.eqb_refl.
    rewrite rd_n_app by apply le_enc_length. cbn [bind].
    rewrite le_dec_enc; [reflexivity|]. change (8 * Z.of_nat 8) with 64. exact Hb.
Qed.

(** first byte of every encoding *)
Definition tok_tag_ok (t : tok) (h : Z) : Prop :=
  match t with
  | TNull => h = 0
  | TBool _ => 1 <= h <= 2
  | TReal _ => 3 <= h <= 4
  | TInt _ => 5 <= h <= 41
  | TStr _ => 42 <= h <= 77
  | TObj => h = 78
  | TObjE => h = 79
  | TArr => h = 80
  | TArrE => h = 81
  end.

Lemma write_int_head z : exists h r, json_write_integer z = h :: r /\ 5 <= h <= 41.
Proof.
  unfold json_write_integer, JSON_INTV0, JSON_INT8, JSON_INT16, JSON_INT32, JSON_INT64.
  pose proof (Z.mod_pos_bound z (2 ^ 64) ltac:(reflexivity)).
  destruct (Z.leb_spec (z mod 2 ^ 64) 31); [eexists; eexists; split; [reflexivity|lia]|].
  destruct (_ <=? INT8_MAX); [eexists; eexists; split; [reflexivity|lia]|].
  destruct (_ <=? INT16_MAX); [eexists; eexists; split; [reflexivity|lia]|].
  destruct (_ <=? INT32_MAX); [eexists; eexists; split; [reflexivity|lia]|].
  eexists; eexists; split; [reflexivity|lia].
Qed.

Lemma write_raw_head s : exists h r, json_write_raw s = h :: r /\ 42 <= h <= 77.
Proof.
  unfold json_write_raw, JSON_STRINGV0, JSON_STRING8, JSON_STRING16, JSON_STRING32.
  destruct (Z.leb_spec (Z.of_nat (length s)) 31); [eexists; eexists; split; [reflexivity|lia]|].
  destruct (_ <=? INT8_MAX); [eexists; eexists; split; [reflexivity|lia]|].
  destruct (_ <=? INT16_MAX); [eexists; eexists; split; [reflexivity|lia]|].
  eexists; eexists; split; [reflexivity|lia].
Qed.

Lemma write_real_head b : exists h r, json_write_real b = h :: r /\ 3 <= h <= 4.
Proof.
  unfold json_write_real, JSON_REAL32, JSON_REAL64.
  destruct (real_fits_float b); eexists; eexists; (split; [reflexivity|lia]).
Qed.

Lemma tok_enc_head t bs : tok_enc t bs -> exists h r, bs = h :: r /\ tok_tag_ok t h.
Proof.
  destruct t as [|b|z|b|s| | | |]; cbn [tok_enc tok_tag_ok]; intros H.
  - subst; eexists; eexists; split; [reflexivity|reflexivity].
  - subst; destruct b; cbn [json_write_bool]; eexists; eexists;
      (split; [reflexivity|unfold JSON_TRUE, JSON_FALSE; lia]).
  - subst; apply write_int_head.
  - subst; apply write_real_head.
  - destruct H as [->| ->]; [apply write_raw_head|].
    unfold json_write_wide, JSON_STRING32. eexists; eexists; split; [reflexivity|lia].
  - subst; eexists; eexists; split; [reflexivity|reflexivity].
  - subst; eexists; eexists; split; [reflexivity|reflexivity].
  - subst; eexists; eexists; split; [reflexivity|reflexivity].
  - subst; eexists; eexists; split; [reflexivity|reflexivity].
Qed.

Definition tok_delta (t : tok) : Z :=
  match t with TObj | TArr => 1 | TObjE | TArrE => -1 | _ => 0 end.

Lemma skip_step_tok t bs rest : tok_wf t = true -> tok_enc t bs ->
  skip_step (bs ++ rest) = Ok (tok_delta t, rest).
Proof.
  intros Hwf He. pose proof (tok_enc_head _ _ He) as (h & r & Hbs & Hh).
  destruct t as [|b|z|b|s| | | |]; cbn [tok_enc tok_tag_ok tok_delta tok_wf] in *.
  - subst; reflexivity.
  - rewrite Hbs. cbn [app skip_step]. unfold JSON_TRUE, JSON_FALSE.
    replace ((h =? 1) || (h =? 2)) with true by lia.
    rewrite app_comm_cons, <- Hbs, He. destruct b; reflexivity.
  - rewrite Hbs. cbn [app skip_step].
    unfold JSON_TRUE, JSON_FALSE, JSON_NULL, JSON_REAL32, JSON_REAL64, JSON_INTV0, JSON_INT64.
    replace ((h =? 1) || (h =? 2)) with false by lia.
    replace (h =? 0) with false by lia.
    replace ((h =? 3) || (h =? 4)) with false by lia.
    replace ((5 <=? h) && (h <=? 41)) with true by lia.
    rewrite app_comm_cons, <- Hbs, He, read_int_ok by lia. reflexivity.
  - rewrite Hbs. cbn [app skip_step].
    unfold JSON_TRUE, JSON_FALSE, JSON_NULL, JSON_REAL32, JSON_REAL64.
    replace ((h =? 1) || (h =? 2)) with false by lia.
    replace (h =? 0) with false by lia.
    replace ((h =? 3) || (h =? 4)) with true by lia.
    rewrite app_comm_cons, <- Hbs, He, read_real_ok by lia. reflexivity.
  - rewrite Hbs. cbn [app skip_step].
    unfold JSON_TRUE, JSON_FALSE, JSON_NULL, JSON_REAL32, JSON_REAL64, JSON_INTV0, JSON_INT64,
      JSON_STRINGV0, JSON_STRING32.
    replace ((h =? 1) || (h =? 2)) with false by lia.
    replace (h =? 0) with false by lia.
    replace ((h =? 3) || (h =? 4)) with false by lia.
    replace ((5 <=? h) && (h <=? 41)) with false by lia.
    replace ((42 <=? h) && (h <=? 77)) with true by lia.
    rewrite app_comm_cons, <- Hbs. clear Hbs.
    destruct He as [->| ->]; [rewrite read_raw_ok by exact Hwf|rewrite read_wide_ok by exact Hwf]; reflexivity.
  - subst; reflexivity.
  - subst; reflexivity.
  - subst; reflexivity.
  - subst; reflexivity.
Qed.

Lemma toks_wf v : json_wf v = true -> forallb tok_wf (toks v) = true.
Proof.
  induction v as [|b|z|b|s|l IH|l IH] using json_ind'; cbn [json_wf toks]; intros H;
    try (cbn [forallb tok_wf]; rewrite ?H; reflexivity).
  - cbn [forallb tok_wf]. rewrite forallb_app. cbn [forallb tok_wf]. rewrite !andb_true_r. cbn [andb].
    induction IH as [|[k v] l Hv Hl IHl]; [reflexivity|].
    cbn [forallb fst snd flat_map] in *. apply andb_prop in H; destruct H as [H1 H2].
    apply andb_prop in H1; destruct H1 as [H0 H1].
    cbn [app forallb tok_wf]. rewrite forallb_app, H0, Hv, IHl by assumption. reflexivity.
  - cbn [forallb tok_wf]. rewrite forallb_app. cbn [forallb tok_wf]. rewrite !andb_true_r. cbn [andb].
    induction IH as [|v l Hv Hl IHl]; [reflexivity|].
    cbn [forallb flat_map] in *. apply andb_prop in H; destruct H as [H1 H2].
    rewrite forallb_app, Hv, IHl by assumption. reflexivity.
Qed.

Lemma toks_enc_app_inv t1 t2 bs : toks_enc (t1 ++ t2) bs ->
  exists b1 b2, bs = b1 ++ b2 /\ toks_enc t1 b1 /\ toks_enc t2 b2.
Proof.
  revert bs; induction t1 as [|t t1 IH]; intros bs H.
  - exists [], bs. split; [reflexivity|]. split; [constructor|exact H].
  - cbn [app] in H. inversion H as [|t' ts b bs' He Ht]; subst.
    apply IH in Ht. destruct Ht as (b1 & b2 & -> & H1 & H2).
    exists (b ++ b1), b2. split; [now rewrite app_assoc|]. split; [now constructor|exact H2].
Qed.

Lemma toks_enc_app t1 t2 b1 b2 : toks_enc t1 b1 -> toks_enc t2 b2 -> toks_enc (t1 ++ t2) (b1 ++ b2).
Proof.
  induction 1 as [|t ts b bs He Ht IH]; intros H2; [exact H2|].
  cbn [app]. rewrite <- app_assoc. constructor; [exact He|now apply IH].
Qed.

Lemma toks_enc_length ts bs : toks_enc ts bs -> (length ts <= length bs)%nat.
Proof.
  induction 1 as [|t ts b bs He Ht IH]; [reflexivity|].
  apply tok_enc_head in He. destruct He as (h & r & -> & _).
  cbn [app length]. rewrite app_length. lia.
Qed.

Lemma toks_enc_bytes ts : toks_enc ts (flat_map tok_bytes ts).
Proof.
  induction ts as [|t ts IH]; cbn [flat_map]; constructor; [|exact IH].
  destruct t; cbn; auto.
Qed.

(** ** skipping *)
Lemma skip_loop_toks : forall v bs rest level fuel,
  json_wf v = true -> Enc v bs -> 0 < level ->
  skip_loop (length (toks v) + fuel) level (bs ++ rest) = skip_loop fuel level rest.
Proof.
  assert (Hone : forall t bs rest level fuel, tok_wf t = true -> tok_enc t bs -> tok_delta t = 0 ->
     0 < level -> skip_loop (1 + fuel) level (bs ++ rest) = skip_loop fuel level rest).
  { intros t bs rest level fuel Hwf He Hd Hl. cbn [Nat.add skip_loop].
    rewrite (skip_step_tok t) by assumption. cbn [bind]. rewrite Hd, Z.add_0_r.
    destruct (Z.ltb_spec 0 level); [reflexivity|lia]. }
  assert (Hinv1 : forall t bs, toks_enc [t] bs -> tok_enc t bs).
  { intros t bs H. inversion H as [|t' ts b bs' He Ht]; subst. inversion Ht; subst.
    now rewrite app_nil_r. }
  induction v as [|b|z|b|s|l IH|l IH] using json_ind'; intros bs rest level fuel Hwf He Hl;
    unfold Enc in He; cbn [toks] in He |- *.
  1-5: apply Hinv1 in He; eapply Hone; [|exact He|reflexivity|exact Hl];
       cbn [tok_wf json_wf] in *; try exact Hwf; reflexivity.
  - inversion He as [|t ts b bs' Ht Hts]; subst. cbn [tok_enc] in Ht. subst b.
    apply toks_enc_app_inv in Hts. destruct Hts as (b1 & b2 & -> & H1 & H2). apply Hinv1 in H2.
    cbn [tok_enc] in H2. subst b2. cbn [length]. rewrite app_length. cbn [length].
    cbn [app Nat.add skip_loop].
    replace (skip_step _) with (Ok (1, (b1 ++ [JSON_OBJ_END]) ++ rest)) by reflexivity.
    cbn [bind]. destruct (Z.ltb_spec 0 (level + 1)); [|lia].
    cbn [json_wf] in Hwf. clear He H. revert b1 H1.
    induction IH as [|[k v] l Hv Hvl IHl]; intros b1 H1.
    + cbn [flat_map] in H1. inversion H1; subst. cbn [app length flat_map Nat.add skip_loop].
      replace (skip_step _) with (Ok (-1, rest)) by reflexivity. cbn [bind].
      replace (level + 1 + -1) with level by lia. destruct (Z.ltb_spec 0 level); [reflexivity|lia].
    + cbn [flat_map fst snd forallb] in *. apply andb_prop in Hwf; destruct Hwf as [Hwf1 Hwf2].
      apply andb_prop in Hwf1; destruct Hwf1 as [Hk Hwf1].
      cbn [app] in H1. inversion H1 as [|t ts b bs' Ht Hts]; subst.
      apply toks_enc_app_inv in Hts. destruct Hts as (bv & bl & -> & Hbv & Hbl).
      cbn [length app]. rewrite app_length. rewrite <- !app_assoc.
      replace (S (length (toks v) + length (flat_map (fun kv => TStr (fst kv) :: toks (snd kv)) l)) + 1 + fuel)%nat
        with (1 + (length (toks v) + (length (flat_map (fun kv => TStr (fst kv) :: toks (snd kv)) l) + 1 + fuel)))%nat by lia.
      rewrite (Hone (TStr k)) by (auto; lia).
      rewrite Hv by (auto; lia).
      specialize (IHl Hwf2 bl Hbl). rewrite <- app_assoc in IHl. exact IHl.
  - inversion He as [|t ts b bs' Ht Hts]; subst. cbn [tok_enc] in Ht. subst b.
    apply toks_enc_app_inv in Hts. destruct Hts as (b1 & b2 & -> & H1 & H2). apply Hinv1 in H2.
    cbn [tok_enc] in H2. subst b2. cbn [length]. rewrite app_length. cbn [length].
    cbn [app Nat.add skip_loop].
    replace (skip_step _) with (Ok (1, (b1 ++ [JSON_ARRAY_END]) ++ rest)) by reflexivity.
    cbn [bind]. destruct (Z.ltb_spec 0 (level + 1)); [|lia].
    cbn [json_wf] in Hwf. clear He H. revert b1 H1.
    induction IH as [|v l Hv Hvl IHl]; intros b1 H1.
    + cbn [flat_map] in H1. inversion H1; subst. cbn [app length flat_map Nat.add skip_loop].
      replace (skip_step _) with (Ok (-1, rest)) by reflexivity. cbn [bind].
      replace (level + 1 + -1) with level by lia. destruct (Z.ltb_spec 0 level); [reflexivity|lia].
    + cbn [flat_map forallb] in *. apply andb_prop in Hwf; destruct Hwf as [Hwf1 Hwf2].
      apply toks_enc_app_inv in H1. destruct H1 as (bv & bl & -> & Hbv & Hbl).
      rewrite app_length, <- !app_assoc.
      replace (length (toks v) + length (flat_map toks l) + 1 + fuel)%nat
        with (length (toks v) + (length (flat_map toks l) + 1 + fuel))%nat by lia.
      rewrite Hv by (auto; lia).
      specialize (IHl Hwf2 bl Hbl). rewrite <- app_assoc in IHl. exact IHl.
Qed.

Lemma toks_enc_one t bs : toks_enc [t] bs -> tok_enc t bs.
Proof.
  intros H. inversion H as [|t' ts b bs' He Ht]; subst. inversion Ht; subst. now rewrite app_nil_r.
Qed.

Definition item_toks (l : list json) := flat_map toks l.
Definition field_toks (l : list (list Z * json)) := flat_map (fun kv => TStr (fst kv) :: toks (snd kv)) l.
Definition fields_wf (l : list (list Z * json)) := forallb (fun kv => str_wf (fst kv) && json_wf (snd kv)) l.

Lemma skip_loop_items l bs rest level fuel : forallb json_wf l = true -> toks_enc (item_toks l) bs ->
  0 < level -> skip_loop (length (item_toks l) + fuel) level (bs ++ rest) = skip_loop fuel level rest.
Proof.
  revert bs; induction l as [|v l IH]; intros bs Hwf He Hl; cbn [item_toks flat_map] in *.
  - inversion He; subst. reflexivity.
  - cbn [forallb] in Hwf. apply andb_prop in Hwf; destruct Hwf as [H1 H2].
    apply toks_enc_app_inv in He. destruct He as (b1 & b2 & -> & E1 & E2).
    rewrite app_length, <- Nat.add_assoc, <- app_assoc.
    rewrite skip_loop_toks by assumption. now apply IH.
Qed.

Lemma skip_loop_fields l bs rest level fuel : fields_wf l = true -> toks_enc (field_toks l) bs ->
  0 < level -> skip_loop (length (field_toks l) + fuel) level (bs ++ rest) = skip_loop fuel level rest.
Proof.
  revert bs; induction l as [|[k v] l IH]; intros bs Hwf He Hl; unfold field_toks in *; cbn [flat_map] in *.
  - inversion He; subst. reflexivity.
  - unfold fields_wf in Hwf. cbn [forallb fst snd] in *. apply andb_prop in Hwf; destruct Hwf as [H1 H2].
    apply andb_prop in H1; destruct H1 as [H0 H1]. cbn [app] in He.
    inversion He as [|t ts b bs' Ht Hts]; subst.
    apply toks_enc_app_inv in Hts. destruct Hts as (b1 & b2 & -> & E1 & E2).
    cbn [app length Nat.add]. rewrite app_length, <- Nat.add_assoc, <- !app_assoc.
    cbn [skip_loop]. rewrite (skip_step_tok (TStr k)) by assumption. cbn [bind tok_delta].
    rewrite Z.add_0_r. destruct (Z.ltb_spec 0 level); [|lia].
    rewrite skip_loop_toks by assumption. now apply IH.
Qed.

Lemma json_skip_ok v bs rest : json_wf v = true -> Enc v bs -> json_skip (bs ++ rest) = Ok rest.
Proof.
  intros Hwf He. unfold json_skip.
  assert (Hone : forall t, tok_wf t = true -> tok_delta t = 0 -> tok_enc t bs ->
    skip_loop (length (bs ++ rest)) 0 (bs ++ rest) = Ok rest).
  { intros t Ht Hd Hte. pose proof (tok_enc_head _ _ Hte) as (h & r & Hb & _).
    destruct (length (bs ++ rest)) as [|n] eqn:En; [rewrite Hb in En; discriminate|].
    cbn [skip_loop]. rewrite (skip_step_tok t) by assumption. cbn [bind]. now rewrite Hd. }
  destruct v as [|b|z|b|s|l|l]; unfold Enc in He; cbn [toks] in He.
  1-5: apply toks_enc_one in He; eapply Hone; [| |exact He];
       [cbn [tok_wf json_wf] in *; try exact Hwf; reflexivity|reflexivity].
  - pose proof (toks_enc_length _ _ He) as Hlen.
    inversion He as [|t ts b bs' Ht Hts]; subst. cbn [tok_enc] in Ht. subst b.
    apply toks_enc_app_inv in Hts. destruct Hts as (b1 & b2 & -> & H1 & H2).
    apply toks_enc_one in H2. cbn [tok_enc] in H2. subst b2.
    fold (field_toks l) in H1, Hlen. cbn [json_wf] in Hwf. fold (fields_wf l) in Hwf.
    pose proof (toks_enc_length _ _ H1) as Hlen1.
    replace (length (([JSON_OBJ] ++ b1 ++ [JSON_OBJ_END]) ++ rest))
      with (S (length (field_toks l) + S (length b1 - length (field_toks l) + length rest)))%nat
      by (rewrite !app_length; cbn [length]; lia).
    rewrite <- !app_assoc. cbn [app skip_loop].
    replace (skip_step _) with (Ok (1, b1 ++ JSON_OBJ_END :: rest)) by reflexivity. cbn [bind].
    change (0 <? 0 + 1) with true. cbv beta iota.
    change (0 + 1) with 1.
    rewrite (skip_loop_fields l b1) by (assumption || lia).
    reflexivity.
  - pose proof (toks_enc_length _ _ He) as Hlen.
    inversion He as [|t ts b bs' Ht Hts]; subst. cbn [tok_enc] in Ht. subst b.
    apply toks_enc_app_inv in Hts. destruct Hts as (b1 & b2 & -> & H1 & H2).
    apply toks_enc_one in H2. cbn [tok_enc] in H2. subst b2.
    fold (item_toks l) in H1, Hlen. cbn [json_wf] in Hwf.
    pose proof (toks_enc_length _ _ H1) as Hlen1.
    replace (length (([JSON_ARRAY] ++ b1 ++ [JSON_ARRAY_END]) ++ rest))
      with (S (length (item_toks l) + S (length b1 - length (item_toks l) + length rest)))%nat
      by (rewrite !app_length; cbn [length]; lia).
    rewrite <- !app_assoc. cbn [app skip_loop].
    replace (skip_step _) with (Ok (1, b1 ++ JSON_ARRAY_END :: rest)) by reflexivity. cbn [bind].
    change (0 <? 0 + 1) with true. cbv beta iota.
    change (0 + 1) with 1.
    rewrite (skip_loop_items l b1) by (assumption || lia).
    reflexivity.
Qed.

(** ** reading back *)
Lemma read_end_ne tag bs rest t : tok_enc t bs -> ~ tok_tag_ok t tag ->
  json_read_end tag (bs ++ rest) = Ok (false, bs ++ rest).
Proof.
  intros He Hn. apply tok_enc_head in He. destruct He as (h & r & -> & Hh).
  unfold json_read_end. cbn [app rd_u8 bind].
  destruct (Z.eqb_spec h tag); [subst; contradiction|reflexivity].
Qed.

Lemma Enc_head v bs : Enc v bs -> exists h r, bs = h :: r /\ h <> JSON_ARRAY_END /\ h <> JSON_OBJ_END.
Proof.
  unfold Enc, JSON_ARRAY_END, JSON_OBJ_END. intros H.
  assert (Hh : exists t ts, toks v = t :: ts /\ t <> TObjE /\ t <> TArrE).
  { destruct v; eexists; eexists; cbn [toks]; (split; [reflexivity|split; discriminate]). }
  destruct Hh as (t & ts & Ev & N1 & N2). rewrite Ev in H.
  inversion H as [|t' ts' b bs' Ht Hts]; subst. apply tok_enc_head in Ht.
  destruct Ht as (h & r & -> & Hh). exists h, (r ++ bs'). split; [reflexivity|].
  destruct t; cbn [tok_tag_ok] in Hh; try lia; contradiction.
Qed.

Ltac tags := unfold in_rng, JSON_NULL, JSON_TRUE, JSON_FALSE, JSON_REAL32, JSON_REAL64, JSON_INTV0,
  JSON_INT64, JSON_STRINGV0, JSON_STRING32, JSON_ARRAY, JSON_ARRAY_END, JSON_OBJ, JSON_OBJ_END.

Lemma json_read_ok : forall v bs rest fuel,
  json_wf v = true -> Enc v bs -> (length bs <= fuel)%nat ->
  json_read fuel (bs ++ rest) = Ok (json_stored v, rest).
Proof.
  induction v as [|b|z|b|s|l IH|l IH] using json_ind'; intros bs rest fuel Hwf He Hf;
    unfold Enc in He; cbn [toks] in He; cbn [json_wf] in Hwf.
  1-5: apply toks_enc_one in He; pose proof (tok_enc_head _ _ He) as (h & r & Hb & Hh);
       cbn [tok_tag_ok tok_enc] in Hh, He;
       (destruct fuel as [|fuel]; [rewrite Hb in Hf; cbn in Hf; lia|]).
  - subst h bs. cbn [app json_read]. reflexivity.
  - rewrite Hb. cbn [app json_read]. rewrite app_comm_cons, <- Hb, He. destruct b; cbn in He;
      rewrite Hb in He; injection He as -> ->; reflexivity.
  - rewrite Hb. cbn [app json_read]. rewrite app_comm_cons, <- Hb, He. tags.
    replace (h =? 0) with false by lia. replace ((1 <=? h) && (h <=? 2)) with false by lia.
    replace ((3 <=? h) && (h <=? 4)) with false by lia. replace ((5 <=? h) && (h <=? 41)) with true by lia.
    rewrite read_int_ok by lia. reflexivity.
  - rewrite Hb. cbn [app json_read]. rewrite app_comm_cons, <- Hb, He. tags.
    replace (h =? 0) with false by lia. replace ((1 <=? h) && (h <=? 2)) with false by lia.
    replace ((3 <=? h) && (h <=? 4)) with true by lia.
    rewrite read_real_ok by lia. reflexivity.
  - rewrite Hb. cbn [app json_read]. rewrite app_comm_cons, <- Hb. tags.
    replace (h =? 0) with false by lia. replace ((1 <=? h) && (h <=? 2)) with false by lia.
    replace ((3 <=? h) && (h <=? 4)) with false by lia. replace ((5 <=? h) && (h <=? 41)) with false by lia.
    replace ((42 <=? h) && (h <=? 77)) with true by lia.
    clear Hb Hf. destruct He as [->| ->]; [rewrite read_raw_ok by exact Hwf|rewrite read_wide_ok by exact Hwf]; reflexivity.
  - inversion He as [|t ts b bs' Ht Hts]; subst. cbn [tok_enc] in Ht. subst b.
    apply toks_enc_app_inv in Hts. destruct Hts as (b1 & b2 & -> & H1 & H2).
    apply toks_enc_one in H2. cbn [tok_enc] in H2. subst b2.
    destruct fuel as [|fuel]; [cbn in Hf; lia|]. rewrite <- !app_assoc. cbn [app json_read].
    replace (JSON_OBJ =? JSON_NULL) with false by reflexivity.
    replace (in_rng JSON_TRUE JSON_FALSE JSON_OBJ) with false by reflexivity.
    replace (in_rng JSON_REAL32 JSON_REAL64 JSON_OBJ) with false by reflexivity.
    replace (in_rng JSON_INTV0 JSON_INT64 JSON_OBJ) with false by reflexivity.
    replace (in_rng JSON_STRINGV0 JSON_STRING32 JSON_OBJ) with false by reflexivity.
    replace (JSON_OBJ =? JSON_ARRAY) with false by reflexivity.
    rewrite Z.eqb_refl.
    assert (Hin : json_read_fields fuel (b1 ++ JSON_OBJ_END :: rest)
                  = Ok (map (fun kv => (fst kv, json_stored (snd kv))) l, rest)).
    { assert (Hf' : (length b1 + 1 <= fuel)%nat).
      { cbn [app length] in Hf. rewrite app_length in Hf. cbn [length] in Hf. lia. }
      clear Hf He. revert b1 fuel H1 Hf'.
      induction IH as [|[k v] l Hv Hvl IHl]; intros b1 fuel H1 Hf'.
      - cbn [flat_map] in H1. inversion H1; subst. destruct fuel as [|fuel]; [cbn in Hf'; lia|].
        cbn [app json_read_fields]. reflexivity.
      - cbn [flat_map app forallb fst snd] in *. apply andb_prop in Hwf; destruct Hwf as [Hw Hwf].
        apply andb_prop in Hw; destruct Hw as [Hk Hw].
        inversion H1 as [|t ts b bs' Ht Hts]; subst.
        apply toks_enc_app_inv in Hts. destruct Hts as (bv & bl & -> & E1 & E2).
        pose proof (tok_enc_head _ _ Ht) as (h & r & Hb & Hh). cbn [tok_tag_ok] in Hh.
        rewrite !app_length in Hf'.
        destruct fuel as [|fuel]; [lia|]. rewrite <- !app_assoc. cbn [json_read_fields].
        rewrite (read_end_ne _ _ _ (TStr k)) by (cbn [tok_tag_ok]; tags; (lia || assumption)).
        cbn [bind]. cbn [tok_enc] in Ht.
        assert (Hr : json_read_raw (b ++ bv ++ bl ++ JSON_OBJ_END :: rest) = Ok (k, bv ++ bl ++ JSON_OBJ_END :: rest)).
        { clear Hb. destruct Ht as [->| ->]; [apply read_raw_ok|apply read_wide_ok]; exact Hk. }
        rewrite Hr. cbn [bind].
        assert (length b >= 1)%nat by (rewrite Hb; cbn [length]; lia).
        rewrite Hv by (assumption || lia). cbn [bind].
        rewrite IHl by (assumption || lia). cbn [bind map]. reflexivity. }
    rewrite Hin. reflexivity.
  - inversion He as [|t ts b bs' Ht Hts]; subst. cbn [tok_enc] in Ht. subst b.
    apply toks_enc_app_inv in Hts. destruct Hts as (b1 & b2 & -> & H1 & H2).
    apply toks_enc_one in H2. cbn [tok_enc] in H2. subst b2.
    destruct fuel as [|fuel]; [cbn in Hf; lia|]. rewrite <- !app_assoc. cbn [app json_read].
    replace (JSON_ARRAY =? JSON_NULL) with false by reflexivity.
    replace (in_rng JSON_TRUE JSON_FALSE JSON_ARRAY) with false by reflexivity.
    replace (in_rng JSON_REAL32 JSON_REAL64 JSON_ARRAY) with false by reflexivity.
    replace (in_rng JSON_INTV0 JSON_INT64 JSON_ARRAY) with false by reflexivity.
    replace (in_rng JSON_STRINGV0 JSON_STRING32 JSON_ARRAY) with false by reflexivity.
    rewrite Z.eqb_refl.
    assert (Hin : json_read_items fuel (b1 ++ JSON_ARRAY_END :: rest) = Ok (map json_stored l, rest)).
    { assert (Hf' : (length b1 + 1 <= fuel)%nat).
      { cbn [app length] in Hf. rewrite app_length in Hf. cbn [length] in Hf. lia. }
      clear Hf He. revert b1 fuel H1 Hf'.
      induction IH as [|v l Hv Hvl IHl]; intros b1 fuel H1 Hf'.
      - cbn [flat_map] in H1. inversion H1; subst. destruct fuel as [|fuel]; [cbn in Hf'; lia|].
        cbn [app json_read_items]. reflexivity.
      - cbn [flat_map app forallb] in *. apply andb_prop in Hwf; destruct Hwf as [Hw Hwf].
        apply toks_enc_app_inv in H1. destruct H1 as (bv & bl & -> & E1 & E2).
        pose proof (Enc_head v bv E1) as (h & r & Hb & Hh1 & Hh2).
        rewrite !app_length in Hf'.
        destruct fuel as [|fuel]; [lia|]. rewrite <- !app_assoc. cbn [json_read_items].
        assert (Hend : json_read_end JSON_ARRAY_END (bv ++ bl ++ JSON_ARRAY_END :: rest)
                  = Ok (false, bv ++ bl ++ JSON_ARRAY_END :: rest)).
        { rewrite Hb. unfold json_read_end. cbn [app rd_u8 bind].
          destruct (Z.eqb_spec h JSON_ARRAY_END); [contradiction|reflexivity]. }
        rewrite Hend. cbn [bind].
        assert (length bv >= 1)%nat by (rewrite Hb; cbn [length]; lia).
        rewrite Hv by (assumption || lia). cbn [bind].
        rewrite IHl by (assumption || lia). cbn [bind map]. reflexivity. }
    rewrite Hin. reflexivity.
Qed.

Lemma real_stored_exact b : negb (real_fits_float b) || (b mod 2 ^ 29 =? 0) = true -> real_stored b = b.
Proof.
  unfold real_stored. destruct (real_fits_float b); cbn [negb orb]; [|reflexivity].
  intros H. apply Z.eqb_eq in H. rewrite H.
  change ((2 ^ 28 <? 0) || ((0 =? 2 ^ 28) && Z.odd (b / 2 ^ 29))) with false.
  cbv beta iota zeta. change (2 ^ 29) with 536870912 in *. lia.
Qed.

Lemma json_stored_exact v : json_reals_exact v = true -> json_stored v = v.
Proof.
  induction v as [|b|z|b|s|l IH|l IH] using json_ind'; cbn [json_reals_exact json_stored]; intros H; try reflexivity.
  - now rewrite real_stored_exact.
  - f_equal. induction IH as [|[k v] l Hv Hvl IHl]; [reflexivity|].
    cbn [map forallb fst snd] in *. apply andb_prop in H; destruct H as [H1 H2].
    now rewrite Hv, IHl.
  - f_equal. induction IH as [|v l Hv Hvl IHl]; [reflexivity|].
    cbn [map forallb] in *. apply andb_prop in H; destruct H as [H1 H2].
    now rewrite Hv, IHl.
Qed.

Lemma json_roundtrip v bs rest : json_wf v = true -> json_reals_exact v = true -> Enc v bs ->
  json_read (length bs) (bs ++ rest) = Ok (v, rest).
Proof.
  intros Hwf Hex He. rewrite (json_read_ok v) by (assumption || lia). now rewrite json_stored_exact.
Qed.

Lemma Enc_bytes v : Enc v (json_bytes v).
Proof. apply toks_enc_bytes. Qed.

(** two values with a common stored form are equal *)
Lemma Enc_inj v w bs : json_wf v = true -> json_wf w = true ->
  json_reals_exact v = true -> json_reals_exact w = true ->
  Enc v bs -> Enc w bs -> v = w.
Proof.
  intros H1 H2 H3 H4 E1 E2.
  pose proof (json_roundtrip v bs [] H1 H3 E1) as R1.
  pose proof (json_roundtrip w bs [] H2 H4 E2) as R2.
  rewrite R1 in R2. now injection R2.
Qed.

(** ** field and element access *)
Lemma Enc_obj_inv l bs : Enc (JObj l) bs ->
  exists b1, bs = JSON_OBJ :: b1 ++ [JSON_OBJ_END] /\ toks_enc (field_toks l) b1.
Proof.
  unfold Enc; cbn [toks]; intros He.
  inversion He as [|t ts b bs' Ht Hts]; subst. cbn [tok_enc] in Ht. subst b.
  apply toks_enc_app_inv in Hts. destruct Hts as (b1 & b2 & -> & H1 & H2).
  apply toks_enc_one in H2. cbn [tok_enc] in H2. subst b2. exists b1. split; [reflexivity|exact H1].
Qed.

Lemma Enc_arr_inv l bs : Enc (JArr l) bs ->
  exists b1, bs = JSON_ARRAY :: b1 ++ [JSON_ARRAY_END] /\ toks_enc (item_toks l) b1.
Proof.
  unfold Enc; cbn [toks]; intros He.
  inversion He as [|t ts b bs' Ht Hts]; subst. cbn [tok_enc] in Ht. subst b.
  apply toks_enc_app_inv in Hts. destruct Hts as (b1 & b2 & -> & H1 & H2).
  apply toks_enc_one in H2. cbn [tok_enc] in H2. subst b2. exists b1. split; [reflexivity|exact H1].
Qed.

Lemma obj_find_loop_ok name : forall l b1 rest fuel, fields_wf l = true ->
  toks_enc (field_toks l) b1 -> (length l < fuel)%nat ->
  match field name l with
  | Some v => exists bv tail, Enc v bv /\
       obj_find_loop fuel name (b1 ++ JSON_OBJ_END :: rest) = Ok (true, bv ++ tail)
  | None => obj_find_loop fuel name (b1 ++ JSON_OBJ_END :: rest) = Ok (false, rest)
  end.
Proof.
  induction l as [|[k v] l IH]; intros b1 rest fuel Hwf He Hf.
  - cbn [field]. unfold field_toks in He. cbn [flat_map] in He. inversion He; subst.
    destruct fuel as [|fuel]; [cbn in Hf; lia|]. reflexivity.
  - unfold field_toks in He. cbn [field flat_map app fst snd] in *.
    unfold fields_wf in Hwf. cbn [forallb fst snd] in Hwf.
    apply andb_prop in Hwf; destruct Hwf as [Hw Hwf]. apply andb_prop in Hw; destruct Hw as [Hk Hw].
    inversion He as [|t ts b bs' Ht Hts]; subst.
    apply toks_enc_app_inv in Hts. destruct Hts as (bv & bl & -> & E1 & E2).
    destruct fuel as [|fuel]; [lia|]. rewrite <- !app_assoc. cbn [obj_find_loop].
    rewrite (read_end_ne _ _ _ (TStr k)) by (cbn [tok_tag_ok]; tags; (lia || assumption)).
    cbn [bind].
    assert (Hr : json_read_raw (b ++ bv ++ bl ++ JSON_OBJ_END :: rest) = Ok (k, bv ++ bl ++ JSON_OBJ_END :: rest)).
    { cbn [tok_enc] in Ht. destruct Ht as [->| ->]; [apply read_raw_ok|apply read_wide_ok]; exact Hk. }
    rewrite Hr. cbn [bind].
    destruct (bytes_eqb k name) eqn:Ek.
    + exists bv, (bl ++ JSON_OBJ_END :: rest). split; [exact E1|reflexivity].
    + rewrite (json_skip_ok v) by assumption. cbn [bind].
      apply IH; [exact Hwf|exact E2|cbn [length] in Hf; lia].
Qed.

Lemma field_toks_length l : (length l <= length (field_toks l))%nat.
Proof.
  unfold field_toks. induction l as [|[k v] l IH]; cbn [flat_map length app]; [lia|].
  rewrite app_length. lia.
Qed.

Lemma obj_find_ok name l bs rest : json_wf (JObj l) = true -> Enc (JObj l) bs ->
  match field name l with
  | Some v => exists bv tail, Enc v bv /\ json_obj_find name (bs ++ rest) = Ok (true, bv ++ tail)
  | None => json_obj_find name (bs ++ rest) = Ok (false, rest)
  end.
Proof.
  intros Hwf He. apply Enc_obj_inv in He. destruct He as (b1 & -> & H1).
  unfold json_obj_find, json_is, json_read_marker. cbn [app rd_u8 bind].
  replace (JSON_OBJ =? JSON_NULL) with false by reflexivity. rewrite Z.eqb_refl. cbn [bind].
  rewrite <- app_assoc. cbn [app]. cbn [json_wf] in Hwf. fold (fields_wf l) in Hwf.
  apply obj_find_loop_ok; [exact Hwf|exact H1|].
  cbn [length]. rewrite app_length. cbn [length].
  pose proof (field_toks_length l). pose proof (toks_enc_length _ _ H1). lia.
Qed.

Lemma array_find_loop_ok : forall l b1 rest fuel i position, forallb json_wf l = true ->
  toks_enc (item_toks l) b1 -> (length l < fuel)%nat -> 0 <= i <= position ->
  match nth_error l (Z.to_nat (position - i)) with
  | Some v => exists bv tail, Enc v bv /\
       array_find_loop fuel position i (b1 ++ JSON_ARRAY_END :: rest) = Ok (true, bv ++ tail)
  | None => array_find_loop fuel position i (b1 ++ JSON_ARRAY_END :: rest) = Ok (false, rest)
  end.
Proof.
  induction l as [|v l IH]; intros b1 rest fuel i position Hwf He Hf Hi.
  - unfold item_toks in He. cbn [flat_map] in He. inversion He; subst.
    destruct fuel as [|fuel]; [cbn in Hf; lia|].
    destruct (Z.to_nat (position - i)); reflexivity.
  - unfold item_toks in He. cbn [flat_map forallb] in *.
    apply andb_prop in Hwf; destruct Hwf as [Hw Hwf].
    apply toks_enc_app_inv in He. destruct He as (bv & bl & -> & E1 & E2).
    destruct fuel as [|fuel]; [lia|]. rewrite <- !app_assoc. cbn [array_find_loop].
    pose proof (Enc_head v bv E1) as (h & r & Hb & Hh1 & Hh2).
    assert (Hend : json_read_end JSON_ARRAY_END (bv ++ bl ++ JSON_ARRAY_END :: rest)
              = Ok (false, bv ++ bl ++ JSON_ARRAY_END :: rest)).
    { rewrite Hb. unfold json_read_end. cbn [app rd_u8 bind].
      destruct (Z.eqb_spec h JSON_ARRAY_END); [contradiction|reflexivity]. }
    rewrite Hend. cbn [bind].
    destruct (Z.eqb_spec i position) as [->|Hne].
    + rewrite Z.sub_diag. cbn [Z.to_nat nth_error]. eexists; eexists; split; [exact E1|reflexivity].
    + rewrite (json_skip_ok v) by assumption. cbn [bind].
      replace (Z.to_nat (position - i)) with (S (Z.to_nat (position - (i + 1)))) by lia.
      cbn [nth_error]. apply IH; [exact Hwf|exact E2|cbn [length] in Hf; lia|lia].
Qed.

Lemma item_toks_length l : (length l <= length (item_toks l))%nat.
Proof.
  unfold item_toks. induction l as [|v l IH]; cbn [flat_map length app]; [lia|].
  rewrite app_length. destruct v; cbn [toks length]; lia.
Qed.

Lemma array_find_ok position l bs rest : json_wf (JArr l) = true -> Enc (JArr l) bs -> 0 <= position ->
  match nth_error l (Z.to_nat position) with
  | Some v => exists bv tail, Enc v bv /\ json_array_find position (bs ++ rest) = Ok (true, bv ++ tail)
  | None => json_array_find position (bs ++ rest) = Ok (false, rest)
  end.
Proof.
  intros Hwf He Hp. apply Enc_arr_inv in He. destruct He as (b1 & -> & H1).
  unfold json_array_find, json_is, json_read_marker. cbn [app rd_u8 bind].
  replace (JSON_ARRAY =? JSON_NULL) with false by reflexivity. rewrite Z.eqb_refl. cbn [bind].
  rewrite <- app_assoc. cbn [app]. cbn [json_wf] in Hwf.
  replace (Z.to_nat position) with (Z.to_nat (position - 0)) by lia.
  apply array_find_loop_ok; [exact Hwf|exact H1| |lia].
  cbn [length]. rewrite app_length. cbn [length].
  pose proof (item_toks_length l). pose proof (toks_enc_length _ _ H1). lia.
Qed.

Lemma array_size_loop_ok : forall l b1 rest fuel i, forallb json_wf l = true ->
  toks_enc (item_toks l) b1 -> (length l < fuel)%nat ->
  array_size_loop fuel i (b1 ++ JSON_ARRAY_END :: rest) = Ok (i + Z.of_nat (length l)).
Proof.
  induction l as [|v l IH]; intros b1 rest fuel i Hwf He Hf.
  - unfold item_toks in He. cbn [flat_map] in He. inversion He; subst.
    destruct fuel as [|fuel]; [cbn in Hf; lia|]. cbn. f_equal. lia.
  - unfold item_toks in He. cbn [flat_map forallb] in *.
    apply andb_prop in Hwf; destruct Hwf as [Hw Hwf].
    apply toks_enc_app_inv in He. destruct He as (bv & bl & -> & E1 & E2).
    destruct fuel as [|fuel]; [lia|]. rewrite <- !app_assoc. cbn [array_size_loop].
    pose proof (Enc_head v bv E1) as (h & r & Hb & Hh1 & Hh2).
    assert (Hend : json_read_end JSON_ARRAY_END (bv ++ bl ++ JSON_ARRAY_END :: rest)
              = Ok (false, bv ++ bl ++ JSON_ARRAY_END :: rest)).
    { rewrite Hb. unfold json_read_end. cbn [app rd_u8 bind].
      destruct (Z.eqb_spec h JSON_ARRAY_END); [contradiction|reflexivity]. }
    rewrite Hend. cbn [bind]. rewrite (json_skip_ok v) by assumption. cbn [bind].
    cbn [length] in *. rewrite IH by (assumption || lia). f_equal. lia.
Qed.

Lemma array_size_ok l bs rest : json_wf (JArr l) = true -> Enc (JArr l) bs ->
  json_array_size (bs ++ rest) = Ok (Z.of_nat (length l)).
Proof.
  intros Hwf He. apply Enc_arr_inv in He. destruct He as (b1 & -> & H1).
  unfold json_array_size, json_is, json_read_marker. cbn [app rd_u8 bind].
  replace (JSON_ARRAY =? JSON_NULL) with false by reflexivity. rewrite Z.eqb_refl. cbn [bind].
  rewrite <- app_assoc. cbn [app]. cbn [json_wf] in Hwf.
  rewrite (array_size_loop_ok l) ; [reflexivity|exact Hwf|exact H1|].
  cbn [length]. rewrite app_length. cbn [length].
  pose proof (item_toks_length l). pose proof (toks_enc_length _ _ H1). lia.
Qed.

(** a real survives iff it is outside the single range or needs no more bits *)
Lemma real_survives_iff b rest : 0 <= b < 2 ^ 64 ->
  (json_read_real (json_write_real b ++ rest) = Ok (b, rest) <->
   real_fits_float b = false \/ b mod 2 ^ 29 = 0).
Proof.
  intros Hb. rewrite read_real_ok by assumption. unfold real_stored.
  destruct (real_fits_float b) eqn:E; [|split; auto].
  split.
  - intros H. right. cbv zeta in H. clear E.
    assert (Hg : forall x, Ok (x, rest) = Ok (b, rest) -> x = b) by (intros x Hx; congruence).
    apply Hg in H. clear Hg.
    destruct ((2 ^ 28 <? b mod 2 ^ 29) || ((b mod 2 ^ 29 =? 2 ^ 28) && Z.odd (b / 2 ^ 29)));
      change (2 ^ 29) with 536870912 in *; lia.
  - intros [H|H]; [discriminate|]. rewrite H.
    change (2 ^ 28 <? 0) with false. change (0 =? 2 ^ 28) with false. cbn [orb andb]. do 2 f_equal.
    change (2 ^ 29) with 536870912 in *. lia.
Qed.
