From Verif Require Import Base OrderLib JsonModel JsonSpec JsonProofs.
Ltac Zify.zify_post_hook ::= Z.div_mod_to_equations.

Section Order.
Variable mag : Z -> Z -> Z.
Hypothesis Hmag : memcmp_ok mag.

(** order key of an event *)
Definition tkey (t : tok) : list Z :=
  match t with
  | TNull => [0]
  | TBool b => [1; Z.b2z b]
  | TReal b => [2; dbl_key (real_stored b)]
  | TInt z => [3; z]
  | TStr s => 4 :: s
  | TObj => [5]
  | TObjE => [6]
  | TArr => [7]
  | TArrE => [8]
  end.

Lemma memcmp_sgn a b : length a = length b -> Z.sgn (memcmp mag a b) = csgn (lexZ a b).
Proof.
  revert b; induction a as [|x a IH]; intros [|y b] Hl; cbn [length] in Hl; try discriminate; [reflexivity|].
  unfold lexZ. cbn [memcmp lex]. destruct (Z.eqb_spec x y) as [->|Hne].
  - rewrite Z.compare_refl. apply IH. lia.
  - rewrite Hmag, <- csgn_zcmp. destruct (x ?= y) eqn:E; try reflexivity.
    apply Z.compare_eq in E. contradiction.
Qed.

Lemma lexZ_firstn a b :
  let n := Nat.min (length a) (length b) in
  csgn (lexZ a b) =
    if csgn (lexZ (firstn n a) (firstn n b)) =? 0
    then csgn (Z.of_nat (length a) ?= Z.of_nat (length b))
    else csgn (lexZ (firstn n a) (firstn n b)).
Proof.
  cbv zeta. revert b; induction a as [|x a IH]; intros [|y b]; try reflexivity.
  cbn [length Nat.min firstn]. unfold lexZ in *. cbn [lex].
  destruct (x ?= y) eqn:E; try reflexivity.
  rewrite IH. destruct (_ =? 0); [|reflexivity].
  f_equal. destruct (Z.compare_spec (Z.of_nat (length a)) (Z.of_nat (length b)));
    destruct (Z.compare_spec (Z.of_nat (S (length a))) (Z.of_nat (S (length b)))); lia || reflexivity.
Qed.

Lemma str_compare_sgn a b : Z.sgn (str_compare_fn mag a b) = csgn (lexZ a b).
Proof.
  rewrite (lexZ_firstn a b). cbv zeta. unfold str_compare_fn.
  replace (Z.to_nat (if Z.of_nat (length a) <? Z.of_nat (length b) then Z.of_nat (length a) else Z.of_nat (length b)))
    with (Nat.min (length a) (length b))
    by (destruct (Z.ltb_spec (Z.of_nat (length a)) (Z.of_nat (length b))); lia).
  set (n := Nat.min (length a) (length b)).
  assert (Hl : length (firstn n a) = length (firstn n b)) by (rewrite !firstn_length; lia).
  pose proof (memcmp_sgn _ _ Hl) as Hm.
  set (rc := memcmp mag (firstn n a) (firstn n b)) in *.
  rewrite <- Hm. clear Hm. clearbody rc. destruct (Z.eqb_spec rc 0) as [->|Hne]; cbn [negb].
  - change (Z.sgn 0 =? 0) with true. cbv beta iota.
    destruct (Z.compare_spec (Z.of_nat (length a)) (Z.of_nat (length b))) as [H|H|H];
      destruct (Z.ltb_spec (Z.of_nat (length b)) (Z.of_nat (length a)));
      destruct (Z.ltb_spec (Z.of_nat (length a)) (Z.of_nat (length b))); cbn; lia.
  - destruct (Z.eqb_spec (Z.sgn rc) 0) as [H|H]; [|reflexivity]. lia.
Qed.

Lemma compare_int64_sgn a b : compare_int64 a b = csgn (a ?= b).
Proof.
  unfold compare_int64. destruct (Z.compare_spec a b); destruct (Z.ltb_spec b a); destruct (Z.ltb_spec a b); cbn; lia.
Qed.

(** no NaN among the events; the narrowing of json_write_real cannot make one *)
Definition tok_no_nan (t : tok) : bool :=
  match t with TReal b => negb (dbl_is_nan b) | _ => true end.

Lemma stored_no_nan b : 0 <= b < 2 ^ 64 -> dbl_is_nan b = false -> dbl_is_nan (real_stored b) = false.
Proof.
  intros Hb Hn. unfold real_stored. destruct (real_fits_float b) eqn:E; [|exact Hn].
  unfold real_fits_float, FLT_MIN_BITS, FLT_MAX_BITS in E. unfold dbl_is_nan.
  change (2 ^ 29) with 536870912. change (2 ^ 63) with 9223372036854775808.
  change (2047 * 2 ^ 52) with 9218868437227405312. cbv zeta.
  destruct ((2 ^ 28 <? b mod 536870912) || ((b mod 536870912 =? 2 ^ 28) && Z.odd (b / 536870912))); lia.
Qed.

Definition tcmp_spec (t u : tok) : comparison := lexZ (tkey t) (tkey u).

Lemma eq_delta t u : tcmp_spec t u = Eq -> tok_delta t = tok_delta u.
Proof.
  unfold tcmp_spec. rewrite lexZ_eq. destruct t, u; cbn [tkey tok_delta]; intros H;
    try reflexivity; injection H; intros; try discriminate; lia.
Qed.

Lemma compare_step_tok t u bt bu rt ru level :
  tok_wf t = true -> tok_wf u = true -> tok_no_nan t = true -> tok_no_nan u = true ->
  tok_enc t bt -> tok_enc u bu ->
  (tcmp_spec t u = Eq /\ compare_step mag level (bt ++ rt) (bu ++ ru) = Ok (inr (tok_delta t, rt, ru))) \/
  (exists c, tcmp_spec t u <> Eq /\ compare_step mag level (bt ++ rt) (bu ++ ru) = Ok (inl c) /\
             Z.sgn c = csgn (tcmp_spec t u)).
Proof.
  intros Hwt Hwu Hnt Hnu Ht Hu.
  pose proof (tok_enc_head _ _ Ht) as (ht & rt' & Hbt & Hht).
  pose proof (tok_enc_head _ _ Hu) as (hu & ru' & Hbu & Hhu).
  assert (Hdiff : forall x y : Z, hd 0 (tkey t) = x -> hd 0 (tkey u) = y -> x <> y ->
     (ht < hu <-> x < y) -> ht <> hu ->
     compare_step mag level (bt ++ rt) (bu ++ ru) = Ok (inl (compare_int64 ht hu)) ->
     exists c, tcmp_spec t u <> Eq /\ compare_step mag level (bt ++ rt) (bu ++ ru) = Ok (inl c) /\
             Z.sgn c = csgn (tcmp_spec t u)).
  { intros x y Hx Hy Hxy Hord Hne Hc. exists (compare_int64 ht hu).
    assert (Hs : tcmp_spec t u = (x ?= y)).
    { unfold tcmp_spec, lexZ. destruct (tkey t) as [|kt lt] eqn:Et; [destruct t; discriminate|].
      destruct (tkey u) as [|ku lu] eqn:Eu; [destruct u; discriminate|]. cbn [hd lex] in *. subst.
      destruct (x ?= y) eqn:E; try reflexivity. apply Z.compare_eq in E. contradiction. }
    rewrite Hs. split; [|split; [exact Hc|]].
    - intros E. apply Z.compare_eq in E. contradiction.
    - rewrite compare_int64_sgn. destruct (Z.compare_spec ht hu); destruct (Z.compare_spec x y); cbn; lia. }
  assert (Hcont : forall rc, Z.sgn rc = csgn (tcmp_spec t u) -> tok_delta t = 0 ->
     compare_step mag level (bt ++ rt) (bu ++ ru)
       = (if negb (rc =? 0) then Ok (inl rc) else Ok (inr (0, rt, ru))) ->
     (tcmp_spec t u = Eq /\ compare_step mag level (bt ++ rt) (bu ++ ru) = Ok (inr (tok_delta t, rt, ru))) \/
     (exists c, tcmp_spec t u <> Eq /\ compare_step mag level (bt ++ rt) (bu ++ ru) = Ok (inl c) /\
             Z.sgn c = csgn (tcmp_spec t u))).
  { intros rc Hrc Hd Hc. destruct (Z.eqb_spec rc 0) as [->|Hne]; cbn [negb] in Hc.
    - left. split; [|now rewrite Hd].
      destruct (tcmp_spec t u); [reflexivity|discriminate|discriminate].
    - right. exists rc. split; [|split; [exact Hc|exact Hrc]].
      intros E. rewrite E in Hrc. cbn in Hrc. lia. }
  destruct t as [|b|z|b|s| | | |]; cbn [tok_tag_ok] in Hht; cbn [tok_wf tok_no_nan] in Hwt, Hnt.
  - (* null *)
    destruct u as [|b'|z'|b'|s'| | | |]; cbn [tok_tag_ok] in Hhu.
    { left. split; [reflexivity|]. cbn in Ht, Hu. subst bt bu. reflexivity. }
    all: right; (eapply Hdiff; [cbn [tkey hd]; reflexivity|cbn [tkey hd]; reflexivity|lia|lia|lia|]);
      rewrite Hbt, Hbu; cbn [app compare_step]; subst ht; unfold in_rng; tags;
      cbn [Z.leb Z.eqb Z.compare andb]; replace (hu =? 0) with false by lia; reflexivity.
  - (* bool *)
    assert (Hr : in_rng JSON_TRUE JSON_FALSE ht = true) by (tags; lia).
    destruct u as [|b'|z'|b'|s'| | | |]; cbn [tok_tag_ok] in Hhu.
    2: { apply (Hcont (compare_int64 (Z.b2z b) (Z.b2z b'))); [|reflexivity|].
         - destruct b, b'; reflexivity.
         - rewrite Hbt, Hbu. cbn [app compare_step]. rewrite Hr.
           replace (in_rng JSON_TRUE JSON_FALSE hu) with true by (symmetry; tags; lia). cbn [negb].
           rewrite !app_comm_cons, <- Hbt, <- Hbu. cbn [tok_enc] in Ht, Hu. rewrite Ht, Hu.
           destruct b, b'; reflexivity. }
    all: right; (eapply Hdiff; [cbn [tkey hd]; reflexivity|cbn [tkey hd]; reflexivity|lia|lia|lia|]);
      rewrite Hbt, Hbu; cbn [app compare_step]; rewrite Hr;
      replace (in_rng JSON_TRUE JSON_FALSE hu) with false by (symmetry; tags; lia); reflexivity.
  - (* int *)
    assert (Hr1 : in_rng JSON_TRUE JSON_FALSE ht = false) by (tags; lia).
    assert (Hr2 : (ht =? JSON_NULL) = false) by (tags; lia).
    assert (Hr3 : in_rng JSON_REAL32 JSON_REAL64 ht = false) by (tags; lia).
    assert (Hr4 : in_rng JSON_INTV0 JSON_INT64 ht = true) by (tags; lia).
    destruct u as [|b'|z'|b'|s'| | | |]; cbn [tok_tag_ok] in Hhu; cbn [tok_wf] in Hwu.
    3: { apply (Hcont (compare_int64 z z')); [|reflexivity|].
         - rewrite compare_int64_sgn. unfold tcmp_spec, lexZ; cbn. destruct (z ?= z'); reflexivity.
         - rewrite Hbt, Hbu. cbn [app compare_step]. rewrite Hr1, Hr2, Hr3, Hr4.
           replace (in_rng JSON_INTV0 JSON_INT64 hu) with true by (symmetry; tags; lia). cbn [negb].
           rewrite !app_comm_cons, <- Hbt, <- Hbu. cbn [tok_enc] in Ht, Hu. rewrite Ht, Hu.
           rewrite !read_int_ok by lia. reflexivity. }
    all: right; (eapply Hdiff; [cbn [tkey hd]; reflexivity|cbn [tkey hd]; reflexivity|lia|lia|lia|]);
      rewrite Hbt, Hbu; cbn [app compare_step]; rewrite Hr1, Hr2, Hr3, Hr4;
      replace (in_rng JSON_INTV0 JSON_INT64 hu) with false by (symmetry; tags; lia); reflexivity.
  - (* real *)
    assert (Hr1 : in_rng JSON_TRUE JSON_FALSE ht = false) by (tags; lia).
    assert (Hr2 : (ht =? JSON_NULL) = false) by (tags; lia).
    assert (Hr3 : in_rng JSON_REAL32 JSON_REAL64 ht = true) by (tags; lia).
    destruct u as [|b'|z'|b'|s'| | | |]; cbn [tok_tag_ok] in Hhu; cbn [tok_wf tok_no_nan] in Hwu, Hnu.
    4: { apply (Hcont (compare_double (real_stored b) (real_stored b'))); [|reflexivity|].
         - unfold compare_double. rewrite !stored_no_nan by (try lia; now apply negb_true_iff).
           cbn [orb]. rewrite compare_int64_sgn. unfold tcmp_spec, lexZ; cbn [tkey lex].
           rewrite Z.compare_refl. destruct (_ ?= _); reflexivity.
         - rewrite Hbt, Hbu. cbn [app compare_step]. rewrite Hr1, Hr2, Hr3.
           replace (in_rng JSON_REAL32 JSON_REAL64 hu) with true by (symmetry; tags; lia). cbn [negb].
           rewrite !app_comm_cons, <- Hbt, <- Hbu. cbn [tok_enc] in Ht, Hu. rewrite Ht, Hu.
           rewrite !read_real_ok by lia. reflexivity. }
    all: right; (eapply Hdiff; [cbn [tkey hd]; reflexivity|cbn [tkey hd]; reflexivity|lia|lia|lia|]);
      rewrite Hbt, Hbu; cbn [app compare_step]; rewrite Hr1, Hr2, Hr3;
      replace (in_rng JSON_REAL32 JSON_REAL64 hu) with false by (symmetry; tags; lia); reflexivity.
  - (* string *)
    assert (Hr1 : in_rng JSON_TRUE JSON_FALSE ht = false) by (tags; lia).
    assert (Hr2 : (ht =? JSON_NULL) = false) by (tags; lia).
    assert (Hr3 : in_rng JSON_REAL32 JSON_REAL64 ht = false) by (tags; lia).
    assert (Hr4 : in_rng JSON_INTV0 JSON_INT64 ht = false) by (tags; lia).
    assert (Hr5 : in_rng JSON_STRINGV0 JSON_STRING32 ht = true) by (tags; lia).
    destruct u as [|b'|z'|b'|s'| | | |]; cbn [tok_tag_ok] in Hhu; cbn [tok_wf] in Hwu.
    5: { apply (Hcont (str_compare_fn mag s s')); [|reflexivity|].
         - rewrite str_compare_sgn. unfold tcmp_spec, lexZ; cbn [tkey lex]. rewrite Z.compare_refl. reflexivity.
         - rewrite Hbt, Hbu. cbn [app compare_step]. rewrite Hr1, Hr2, Hr3, Hr4, Hr5.
           replace (in_rng JSON_STRINGV0 JSON_STRING32 hu) with true by (symmetry; tags; lia). cbn [negb].
           rewrite !app_comm_cons, <- Hbt, <- Hbu. cbn [tok_enc] in Ht, Hu.
           assert (R1 : json_read_raw (bt ++ rt) = Ok (s, rt)).
           { destruct Ht as [->| ->]; [apply read_raw_ok|apply read_wide_ok]; assumption. }
           assert (R2 : json_read_raw (bu ++ ru) = Ok (s', ru)).
           { destruct Hu as [->| ->]; [apply read_raw_ok|apply read_wide_ok]; assumption. }
           rewrite R1, R2. reflexivity. }
    all: right; (eapply Hdiff; [cbn [tkey hd]; reflexivity|cbn [tkey hd]; reflexivity|lia|lia|lia|]);
      rewrite Hbt, Hbu; cbn [app compare_step]; rewrite Hr1, Hr2, Hr3, Hr4, Hr5;
      replace (in_rng JSON_STRINGV0 JSON_STRING32 hu) with false by (symmetry; tags; lia); reflexivity.
  - destruct u as [|b'|z'|b'|s'| | | |]; cbn [tok_tag_ok] in Hhu.
    6: { left. split; [reflexivity|]. cbn in Ht, Hu. subst bt bu. reflexivity. }
    all: right; (eapply Hdiff; [cbn [tkey hd]; reflexivity|cbn [tkey hd]; reflexivity|lia|lia|lia|]);
      rewrite Hbt, Hbu; cbn [app compare_step]; subst ht; unfold in_rng; tags;
      cbn [Z.leb Z.eqb Z.compare Pos.compare Pos.compare_cont Pos.eqb andb]; replace (hu =? 78) with false by lia; reflexivity.
  - destruct u as [|b'|z'|b'|s'| | | |]; cbn [tok_tag_ok] in Hhu.
    7: { left. split; [reflexivity|]. cbn in Ht, Hu. subst bt bu. reflexivity. }
    all: right; (eapply Hdiff; [cbn [tkey hd]; reflexivity|cbn [tkey hd]; reflexivity|lia|lia|lia|]);
      rewrite Hbt, Hbu; cbn [app compare_step]; subst ht; unfold in_rng; tags;
      cbn [Z.leb Z.eqb Z.compare Pos.compare Pos.compare_cont Pos.eqb andb]; replace (hu =? 79) with false by lia; reflexivity.
  - destruct u as [|b'|z'|b'|s'| | | |]; cbn [tok_tag_ok] in Hhu.
    8: { left. split; [reflexivity|]. cbn in Ht, Hu. subst bt bu. reflexivity. }
    all: right; (eapply Hdiff; [cbn [tkey hd]; reflexivity|cbn [tkey hd]; reflexivity|lia|lia|lia|]);
      rewrite Hbt, Hbu; cbn [app compare_step]; subst ht; unfold in_rng; tags;
      cbn [Z.leb Z.eqb Z.compare Pos.compare Pos.compare_cont Pos.eqb andb]; replace (hu =? 80) with false by lia; reflexivity.
  - destruct u as [|b'|z'|b'|s'| | | |]; cbn [tok_tag_ok] in Hhu.
    9: { left. split; [reflexivity|]. cbn in Ht, Hu. subst bt bu. reflexivity. }
    all: right; (eapply Hdiff; [cbn [tkey hd]; reflexivity|cbn [tkey hd]; reflexivity|lia|lia|lia|]);
      rewrite Hbt, Hbu; cbn [app compare_step]; subst ht; unfold in_rng; tags;
      cbn [Z.leb Z.eqb Z.compare Pos.compare Pos.compare_cont Pos.eqb andb]; replace (hu =? 81) with false by lia; reflexivity.
Qed.

(** ** nesting level of prefixes *)
Definition lsum (ts : list tok) : Z := fold_right (fun t a => tok_delta t + a) 0 ts.
Lemma lsum_app a b : lsum (a ++ b) = lsum a + lsum b.
Proof. unfold lsum. induction a as [|t a IH]; cbn [app fold_right]; [lia|]. rewrite IH. lia. Qed.

Definition good (ts : list tok) : Prop :=
  lsum ts = 0 /\ forall p q, ts = p ++ q -> 0 <= lsum p.

Lemma good_app a b : good a -> good b -> good (a ++ b).
Proof.
  intros [H1 H2] [H3 H4]. split; [rewrite lsum_app; lia|].
  intros p q E. apply app_eq_app in E. destruct E as (l & [[E1 E2]|[E1 E2]]).
  - eapply H2. exact E1.
  - subst p. rewrite lsum_app. apply H4 in E2. lia.
Qed.

Lemma good_nil : good [].
Proof.
  split; [reflexivity|]. intros p q E. symmetry in E. apply app_eq_nil in E. destruct E as [-> _]. cbn. lia.
Qed.

Lemma good_cons0 t ts : tok_delta t = 0 -> good ts -> good (t :: ts).
Proof.
  intros Hd [H1 H2]. split.
  - cbn [lsum fold_right]. unfold lsum in H1. lia.
  - intros [|t' p] q E; [cbn; lia|]. cbn [app] in E. injection E as <- E.
    apply H2 in E. cbn [lsum fold_right]. unfold lsum in E. lia.
Qed.

Lemma wrap_prefix o e inner : tok_delta o = 1 -> tok_delta e = -1 -> good inner ->
  lsum (o :: inner ++ [e]) = 0 /\
  forall p q, o :: inner ++ [e] = p ++ q -> p <> [] -> q <> [] -> 0 < lsum p.
Proof.
  intros Ho Hee [H1 H2]. split.
  - change (o :: inner ++ [e]) with ([o] ++ inner ++ [e]). rewrite !lsum_app.
    unfold lsum at 1 3. cbn [fold_right]. lia.
  - intros [|t p] q E Hp Hq; [contradiction|]. cbn [app] in E. injection E as <- E.
    change (0 < tok_delta o + lsum p). rewrite Ho.
    apply app_eq_app in E. destruct E as (l & [[E1 E2]|[E1 E2]]).
    + apply H2 in E1. lia.
    + destruct l as [|x l].
      * rewrite app_nil_r in E1. subst p. lia.
      * cbn [app] in E2. injection E2 as _ E2. symmetry in E2. apply app_eq_nil in E2.
        destruct E2 as [_ ->]. contradiction.
Qed.

Lemma toks_prefix v : lsum (toks v) = 0 /\
  forall p q, toks v = p ++ q -> p <> [] -> q <> [] -> 0 < lsum p.
Proof.
  assert (Hone : forall t, tok_delta t = 0 -> lsum [t] = 0 /\
     forall p q, [t] = p ++ q -> p <> [] -> q <> [] -> 0 < lsum p).
  { intros t Ht. split; [cbn; lia|]. intros [|x p] q E Hp Hq; [contradiction|].
    cbn [app] in E. injection E as _ E. symmetry in E. apply app_eq_nil in E. destruct E; contradiction. }
  assert (Hgood : forall ts, (lsum ts = 0 /\ forall p q, ts = p ++ q -> p <> [] -> q <> [] -> 0 < lsum p) -> good ts).
  { intros ts [H1 H2]. split; [exact H1|]. intros p q E.
    destruct p as [|x p]; [cbn; lia|]. destruct q as [|y q].
    - rewrite app_nil_r in E. subst. lia.
    - apply Z.lt_le_incl. eapply H2; [exact E|discriminate|discriminate]. }
  induction v as [|b|z|b|s|l IH|l IH] using json_ind'; cbn [toks]; try (apply Hone; reflexivity).
  - apply wrap_prefix; [reflexivity|reflexivity|].
    induction IH as [|[k v] l Hv Hl IHl]; [apply good_nil|]. cbn [flat_map fst snd].
    apply (good_app (TStr k :: toks v)); [|exact IHl]. apply good_cons0; [reflexivity|]. now apply Hgood.
  - apply wrap_prefix; [reflexivity|reflexivity|].
    induction IH as [|v l Hv Hl IHl]; [apply good_nil|]. cbn [flat_map].
    apply good_app; [|exact IHl]. now apply Hgood.
Qed.

(** ** the loop *)
Definition tlex (ts us : list tok) : comparison := lexZZ (map tkey ts) (map tkey us).

Lemma compare_loop_toks : forall ts us bs cs rs rs' fuel (v w : json) pv pw,
  forallb tok_wf ts = true -> forallb tok_wf us = true ->
  forallb tok_no_nan ts = true -> forallb tok_no_nan us = true ->
  toks_enc ts bs -> toks_enc us cs -> (length ts <= fuel)%nat ->
  toks v = pv ++ ts -> toks w = pw ++ us -> ts <> [] -> us <> [] ->
  lsum pv = lsum pw ->
  exists c, compare_loop mag fuel (lsum pv) (bs ++ rs) (cs ++ rs') = Ok c /\ Z.sgn c = csgn (tlex ts us).
Proof.
  induction ts as [|t ts IH]; intros us bs cs rs rs' fuel v w pv pw Hw1 Hw2 Hn1 Hn2 He1 He2 Hf Hv Hw Ht Hu Hs;
    [contradiction|]. destruct us as [|u us]; [contradiction|]. clear Ht Hu.
  cbn [forallb] in *. apply andb_prop in Hw1; destruct Hw1 as [Hw1 Hw1'].
  apply andb_prop in Hw2; destruct Hw2 as [Hw2 Hw2'].
  apply andb_prop in Hn1; destruct Hn1 as [Hn1 Hn1']. apply andb_prop in Hn2; destruct Hn2 as [Hn2 Hn2'].
  inversion He1 as [|t' ts' b bs' Ht Hts]; subst. inversion He2 as [|u' us' b' bs'' Hu Hus]; subst.
  destruct fuel as [|fuel]; [cbn in Hf; lia|]. cbn [compare_loop]. rewrite <- !app_assoc.
  unfold tlex, lexZZ. cbn [map lex]. fold (tcmp_spec t u).
  destruct (compare_step_tok t u b b' (bs' ++ rs) (bs'' ++ rs') (lsum pv) Hw1 Hw2 Hn1 Hn2 Ht Hu)
    as [[E1 E2]|(c & E1 & E2 & E3)].
  - rewrite E2, E1. cbn [bind]. pose proof (eq_delta _ _ E1) as Hd.
    assert (Hlv : lsum (pv ++ [t]) = lsum pv + tok_delta t) by (rewrite lsum_app; cbn; lia).
    assert (Hlw : lsum (pw ++ [u]) = lsum pw + tok_delta u) by (rewrite lsum_app; cbn; lia).
    pose proof (toks_prefix v) as [Pv1 Pv2]. pose proof (toks_prefix w) as [Pw1 Pw2].
    destruct (Z.ltb_spec 0 (lsum pv + tok_delta t)) as [Hpos|Hle].
    + rewrite <- Hlv.
      assert (ts <> []). { intros ->. rewrite Hv in Pv1. lia. }
      assert (us <> []). { intros ->. rewrite Hw in Pw1. lia. }
      eapply (IH us bs' bs'' rs rs' fuel v w (pv ++ [t]) (pw ++ [u])); try assumption.
      * cbn in Hf. lia.
      * rewrite Hv, <- app_assoc. reflexivity.
      * rewrite Hw, <- app_assoc. reflexivity.
      * lia.
    + exists 0. split; [reflexivity|].
      assert (ts = []).
      { destruct ts as [|x ts]; [reflexivity|exfalso].
        assert (0 < lsum (pv ++ [t])); [|lia]. apply (Pv2 _ (x :: ts)); [rewrite Hv, <- app_assoc; reflexivity| |discriminate].
        destruct pv; discriminate. }
      assert (us = []).
      { destruct us as [|x us]; [reflexivity|exfalso].
        assert (0 < lsum (pw ++ [u])); [|lia]. apply (Pw2 _ (x :: us)); [rewrite Hw, <- app_assoc; reflexivity| |discriminate].
        destruct pw; discriminate. }
      subst. reflexivity.
  - rewrite E2. cbn [bind]. exists c. split; [reflexivity|]. rewrite E3.
    destruct (tcmp_spec t u) eqn:E; [contradiction|reflexivity|reflexivity].
Qed.

Lemma toks_nonempty v : toks v <> [].
Proof. destruct v; discriminate. Qed.

Lemma toks_no_nan v : json_no_nan v = true -> forallb tok_no_nan (toks v) = true.
Proof.
  induction v as [|b|z|b|s|l IH|l IH] using json_ind'; cbn [json_no_nan toks]; intros H;
    try (cbn [forallb tok_no_nan]; rewrite ?H; reflexivity).
  - cbn [forallb tok_no_nan]. rewrite forallb_app. cbn [forallb tok_no_nan]. rewrite !andb_true_r. cbn [andb].
    induction IH as [|[k v] l Hv Hl IHl]; [reflexivity|].
    cbn [forallb fst snd flat_map] in *. apply andb_prop in H; destruct H as [H1 H2].
    cbn [app forallb tok_no_nan]. rewrite forallb_app, Hv, IHl by assumption. reflexivity.
  - cbn [forallb tok_no_nan]. rewrite forallb_app. cbn [forallb tok_no_nan]. rewrite !andb_true_r. cbn [andb].
    induction IH as [|v l Hv Hl IHl]; [reflexivity|].
    cbn [forallb flat_map] in *. apply andb_prop in H; destruct H as [H1 H2].
    rewrite forallb_app, Hv, IHl by assumption. reflexivity.
Qed.

Definition jlex (v w : json) : comparison := tlex (toks v) (toks w).

Lemma json_compare_ok v w bv bw rv rw :
  json_wf v = true -> json_wf w = true -> json_no_nan v = true -> json_no_nan w = true ->
  Enc v bv -> Enc w bw ->
  exists c, json_compare mag (bv ++ rv) (bw ++ rw) = Ok c /\ Z.sgn c = csgn (jlex v w).
Proof.
  intros H1 H2 H3 H4 E1 E2. unfold json_compare.
  eapply (compare_loop_toks (toks v) (toks w) bv bw rv rw _ v w [] []);
    try assumption; try reflexivity; try apply toks_nonempty; try (apply toks_wf; assumption);
    try (apply toks_no_nan; assumption).
  rewrite app_length. pose proof (toks_enc_length _ _ E1). lia.
Qed.

Lemma jlex_opp v w : jlex w v = CompOpp (jlex v w).
Proof. apply lexZZ_opp. Qed.
Lemma jlex_trans u v w : jlex u v = Lt -> jlex v w = Lt -> jlex u w = Lt.
Proof. apply lexZZ_trans. Qed.
Lemma jlex_le_trans u v w : jlex u v <> Gt -> jlex v w <> Gt -> jlex u w <> Gt.
Proof.
  unfold jlex, tlex. intros H1 H2 H3.
  destruct (lexZZ (map tkey (toks u)) (map tkey (toks v))) eqn:E1; [| |contradiction].
  - apply lexZZ_eq in E1. rewrite E1 in H3. contradiction.
  - destruct (lexZZ (map tkey (toks v)) (map tkey (toks w))) eqn:E2; [| |contradiction].
    + apply lexZZ_eq in E2. rewrite <- E2, E1 in H3. discriminate.
    + rewrite (lexZZ_trans _ _ _ E1 E2) in H3. discriminate.
Qed.
Lemma jlex_refl v : jlex v v = Eq.
Proof. unfold jlex, tlex. now apply lexZZ_eq. Qed.

Definition tok_no_real (t : tok) : bool := match t with TReal _ => false | _ => true end.
Lemma toks_no_reals v : json_no_reals v = true -> forallb tok_no_real (toks v) = true.
Proof.
  induction v as [|b|z|b|s|l IH|l IH] using json_ind'; cbn [json_no_reals toks]; intros H;
    try (cbn [forallb tok_no_real]; rewrite ?H; reflexivity); try discriminate.
  - cbn [forallb tok_no_real]. rewrite forallb_app. cbn [forallb tok_no_real]. rewrite !andb_true_r. cbn [andb].
    induction IH as [|[k v] l Hv Hl IHl]; [reflexivity|].
    cbn [forallb fst snd flat_map] in *. apply andb_prop in H; destruct H as [H1 H2].
    cbn [app forallb tok_no_real]. rewrite forallb_app, Hv, IHl by assumption. reflexivity.
  - cbn [forallb tok_no_real]. rewrite forallb_app. cbn [forallb tok_no_real]. rewrite !andb_true_r. cbn [andb].
    induction IH as [|v l Hv Hl IHl]; [reflexivity|].
    cbn [forallb flat_map] in *. apply andb_prop in H; destruct H as [H1 H2].
    rewrite forallb_app, Hv, IHl by assumption. reflexivity.
Qed.

Lemma tkey_inj t u : tok_no_real t = true -> tkey t = tkey u -> t = u.
Proof.
  destruct t, u; cbn; intros Hn H; try discriminate; try reflexivity; injection H; intros; subst; try reflexivity.
  destruct b, b0; cbn in *; congruence.
Qed.

Lemma map_tkey_inj ts us : forallb tok_no_real ts = true -> map tkey ts = map tkey us -> ts = us.
Proof.
  revert us; induction ts as [|t ts IH]; intros [|u us] Hn H; try discriminate; [reflexivity|].
  cbn [forallb map] in *. apply andb_prop in Hn; destruct Hn as [H1 H2]. injection H as E1 E2.
  f_equal; [now apply tkey_inj|now apply IH].
Qed.

Lemma json_no_reals_exact v : json_no_reals v = true -> json_reals_exact v = true.
Proof.
  induction v as [|b|z|b|s|l IH|l IH] using json_ind'; cbn [json_no_reals json_reals_exact]; intros H;
    try reflexivity; try discriminate.
  - induction IH as [|[k v] l Hv Hl IHl]; [reflexivity|].
    cbn [forallb fst snd] in *. apply andb_prop in H; destruct H as [H1 H2]. rewrite Hv, IHl by assumption. reflexivity.
  - induction IH as [|v l Hv Hl IHl]; [reflexivity|].
    cbn [forallb] in *. apply andb_prop in H; destruct H as [H1 H2]. rewrite Hv, IHl by assumption. reflexivity.
Qed.
Lemma json_no_reals_no_nan v : json_no_reals v = true -> json_no_nan v = true.
Proof.
  induction v as [|b|z|b|s|l IH|l IH] using json_ind'; cbn [json_no_reals json_no_nan]; intros H;
    try reflexivity; try discriminate.
  - induction IH as [|[k v] l Hv Hl IHl]; [reflexivity|].
    cbn [forallb fst snd] in *. apply andb_prop in H; destruct H as [H1 H2]. rewrite Hv, IHl by assumption. reflexivity.
  - induction IH as [|v l Hv Hl IHl]; [reflexivity|].
    cbn [forallb] in *. apply andb_prop in H; destruct H as [H1 H2]. rewrite Hv, IHl by assumption. reflexivity.
Qed.

Lemma jlex_eq v w : json_wf v = true -> json_wf w = true ->
  json_no_reals v = true -> json_no_reals w = true -> jlex v w = Eq -> v = w.
Proof.
  intros H1 H2 H3 H4 H. unfold jlex, tlex in H. apply lexZZ_eq in H.
  apply map_tkey_inj in H; [|now apply toks_no_reals].
  apply (Enc_inj v w (json_bytes v)); try assumption; try (now apply json_no_reals_exact).
  - apply Enc_bytes.
  - unfold Enc, json_bytes. rewrite H. apply toks_enc_bytes.
Qed.

Lemma sgn_csgn_le c x : Z.sgn c = csgn x -> (c <= 0 <-> x <> Gt).
Proof. destruct x; cbn; intros H; split; intros H'; try lia; try congruence. Qed.

Lemma json_compare_laws u v w bu bv bw ru rv rw :
  json_wf u = true -> json_wf v = true -> json_wf w = true ->
  json_no_nan u = true -> json_no_nan v = true -> json_no_nan w = true ->
  Enc u bu -> Enc v bv -> Enc w bw ->
  exists uv vu vw uw,
    json_compare mag (bu ++ ru) (bv ++ rv) = Ok uv /\
    json_compare mag (bv ++ rv) (bu ++ ru) = Ok vu /\
    json_compare mag (bv ++ rv) (bw ++ rw) = Ok vw /\
    json_compare mag (bu ++ ru) (bw ++ rw) = Ok uw /\
    (u = v -> uv = 0) /\
    Z.sgn vu = - Z.sgn uv /\
    (uv <= 0 -> vw <= 0 -> uw <= 0) /\
    (json_no_reals u = true -> json_no_reals v = true -> uv = 0 -> u = v).
Proof.
  intros W1 W2 W3 N1 N2 N3 E1 E2 E3.
  destruct (json_compare_ok u v bu bv ru rv) as (uv & C1 & S1); try assumption.
  destruct (json_compare_ok v u bv bu rv ru) as (vu & C2 & S2); try assumption.
  destruct (json_compare_ok v w bv bw rv rw) as (vw & C3 & S3); try assumption.
  destruct (json_compare_ok u w bu bw ru rw) as (uw & C4 & S4); try assumption.
  exists uv, vu, vw, uw. repeat (split; [assumption|]). split; [|split; [|split]].
  - intros ->. rewrite jlex_refl in S1. cbn in S1. lia.
  - rewrite S2, S1, (jlex_opp u v), csgn_opp. reflexivity.
  - intros L1 L2. apply (sgn_csgn_le _ _ S4). apply (sgn_csgn_le _ _ S1) in L1. apply (sgn_csgn_le _ _ S3) in L2.
    eapply jlex_le_trans; eassumption.
  - intros R1 R2 Hz. subst uv. cbn in S1. apply jlex_eq; try assumption.
    destruct (jlex u v); [reflexivity|discriminate|discriminate].
Qed.
End Order.
