(** Lemmas for JsonTextProps.v. *)
From Verif Require Import Base DecLib TimeModel TimeProps CodecProps CrcProps Utf8Model Utf8Spec Utf8Proofs JsonModel JsonSpec JsonProofs JsonTextModel JsonTextSpec.
Local Open Scope Z_scope.

Scheme jtext_mut := Minimality for jtext Sort Prop
  with jitems_mut := Minimality for jitems Sort Prop
  with jfields_mut := Minimality for jfields Sort Prop.
Combined Scheme jtext_all from jtext_mut, jitems_mut, jfields_mut.

(** ** white space *)
Lemma ws_skip w l : ws w -> skip_spaces (w ++ l) = skip_spaces l.
Proof.
  induction 1 as [|b w H _ IH]; [reflexivity|]. cbn [app skip_spaces]. replace (is_space b) with true; [exact IH|].
  cbn in H. unfold is_space. lia.
Qed.
Lemma ws_next w l : ws w -> json_next (w ++ l) = json_next l.
Proof. intros H. unfold json_next. now rewrite ws_skip. Qed.
Lemma next_at b l : is_space b = false -> json_next (b :: l) = Ok (b, b :: l).
Proof. intros H. unfold json_next. cbn [skip_spaces]. now rewrite H. Qed.
Lemma ws_nil : ws [].
Proof. constructor. Qed.

(** ** strings *)
Definition has92 (t : list Z) : bool := existsb (Z.eqb 92) t.
Lemma utf8_head c : code c -> exists b t, utf8 c = b :: t /\ (c < 128 -> b = c /\ t = []) /\ (128 <= c -> 192 <= b) /\ Forall (fun x => 128 <= x) t.
Proof.
  intros Hc. unfold utf8, code in *. destruct (Z.ltb_spec c 128); [exists c, []; repeat split; lia || constructor|].
  destruct (Z.ltb_spec c 2048); [|destruct (Z.ltb_spec c 65536)]; eexists; eexists; (split; [reflexivity|]); (split; [lia|]);
    (split; [intros _|repeat constructor]); try (pose proof (Z.mod_pos_bound c 64 ltac:(lia)); lia);
    try (match goal with |- 128 <= 128 + ?x mod 64 => pose proof (Z.mod_pos_bound x 64 ltac:(lia)); lia end);
    match goal with |- 192 <= ?k + ?x / ?m => pose proof (Z.div_pos x m ltac:(lia) ltac:(lia)); lia end.
Qed.
Lemma utf8_no92 c : code c -> c <> 92 -> has92 (utf8 c) = false.
Proof.
  intros Hc N. destruct (utf8_head c Hc) as (b & t & -> & A & B & F). unfold has92. cbn [existsb].
  replace (92 =? b) with false by lia. cbn [orb]. clear -F. induction F as [|x t H _ IH]; [reflexivity|]. cbn [existsb]. replace (92 =? x) with false by lia. exact IH.
Qed.
Lemma has92_app a b : has92 (a ++ b) = has92 a || has92 b.
Proof. unfold has92. apply existsb_app. Qed.

Section P.
Variable sd : list Z -> option (Z * list Z).
Notation step := (step sd).
Notation parse_loop := (parse_loop sd).
Notation json_const := (json_const sd).
Notation json_integer := (json_integer sd).

Lemma step_ws s w l : ws w -> step s (w ++ l) = step s l.
Proof. intros H. unfold JsonTextModel.step. now rewrite ws_next. Qed.

(** ** strings, continued *)
Lemma plain_lax c : plain false c -> plain true c.
Proof. unfold plain, scalar, code. intros (A & B & (C & D) & E). repeat split; lia. Qed.
Lemma string_loop_plain f c u l : plain true c -> string_loop (S f) 34 false u (utf8 c ++ l) = string_loop f 34 false u l.
Proof.
  intros (N1 & N2 & Hc & N3). destruct (utf8_head c Hc) as (b & t & E & A & B & F).
  pose proof (next_enc c l Hc) as Nx. rewrite E in *. cbn [app string_loop] in *.
  replace (b =? 34) with false by lia. replace (b =? 10) with false by lia. replace (b =? 92) with false by lia.
  cbv zeta. rewrite Nx. cbn [bind]. reflexivity.
Qed.
Lemma next_byte b l : 0 <= b < 128 -> utf8_next (b :: l) = Ok (Some b, l).
Proof. intros H. pose proof (next_enc b l ltac:(unfold code; lia)) as N. unfold utf8 in N. replace (b <? 128) with true in N by lia. exact N. Qed.
Lemma string_loop_esc f e c u l : In (e, c) escapes -> string_loop (S (S f)) 34 false u (92 :: e :: l) = string_loop f 34 false true l.
Proof.
  intros H. cbn [string_loop]. change (92 =? 34) with false. change (92 =? 10) with false. change (92 =? 92) with true. cbv iota zeta.
  rewrite next_byte by lia. cbn [bind negb]. unfold escapes in H. cbn [In] in H.
  destruct H as [H|[H|[H|[H|[H|[H|[H|[]]]]]]]]; injection H as <- <-; cbn [Z.eqb Pos.eqb]; try reflexivity; cbv zeta; rewrite next_byte by lia; reflexivity.
Qed.
Lemma string_loop_ok s t : jstr true false s t -> forall f u rest, (length t < f)%nat ->
  string_loop f 34 false u (t ++ 34 :: rest) = Ok (u || has92 t, 34 :: rest).
Proof.
  induction 1 as [|c s t P J IH|e c s t I J IH|s t E|a b c d wa wb wc wd s t E]; intros f u rest L; try discriminate E.
  - destruct f; [cbn in L; lia|]. cbn. now rewrite orb_false_r.
  - rewrite <- app_assoc. rewrite app_length in L. destruct (utf8_head c ltac:(apply P)) as (b & t' & E & _).
    destruct f as [|f]; [lia|]. rewrite string_loop_plain by exact P. rewrite IH by (rewrite E in L; cbn in L; lia).
    rewrite has92_app, (utf8_no92 c) by apply P. reflexivity.
  - cbn [length] in L. destruct f as [|[|f]]; try lia. cbn [app]. rewrite (string_loop_esc f e c) by exact I. rewrite IH by lia.
    cbn [orb]. unfold has92. cbn [existsb Z.eqb Pos.eqb orb]. now rewrite orb_true_r.
Qed.
Lemma unescape_plain a l : has92 a = false -> unescape false (a ++ l) = do r <- unescape false l; Ok (a ++ r).
Proof.
  induction a as [|b a IH]; intros H; [cbn; destruct (unescape false l); reflexivity|]. unfold has92 in *. cbn [existsb] in H. apply orb_false_elim in H as [H1 H2].
  cbn [app unescape]. replace (b =? 92) with false by lia. cbn [andb negb]. rewrite IH by exact H2. destruct (unescape false l); reflexivity.
Qed.
Lemma unescape_esc e c l : In (e, c) escapes -> unescape false (92 :: e :: l) = do r <- unescape false l; Ok (c :: r).
Proof.
  intros H. unfold escapes in H. cbn [In] in H. destruct H as [H|[H|[H|[H|[H|[H|[H|[]]]]]]]]; injection H as <- <-; reflexivity.
Qed.
Lemma unescape_ok s t : jstr true false s t -> unescape false t = Ok s.
Proof.
  induction 1 as [|c s t P J IH|e c s t I J IH|s t E|a b c d wa wb wc wd s t E]; try discriminate E.
  - reflexivity.
  - rewrite unescape_plain by (apply utf8_no92; apply P). now rewrite IH.
  - rewrite (unescape_esc e c) by exact I. now rewrite IH.
Qed.
Lemma no92_same s t : jstr true false s t -> has92 t = false -> t = s.
Proof.
  induction 1 as [|c s t P J IH|e c s t I J IH|s t E|a b c d wa wb wc wd s t E]; try discriminate E; intros H.
  - reflexivity.
  - rewrite has92_app in H. apply orb_false_elim in H as [_ H]. now rewrite IH.
  - unfold has92 in H. cbn in H. discriminate.
Qed.
(** the bytes written for the text of a string *)
Lemma string_read_ok s t rest : jstr true false s t -> exists u bs, json_string_read 34 (quoted t ++ rest) = Ok (t, u, rest) /\
  write_string t u = Ok bs /\ tok_enc (TStr s) bs.
Proof.
  intros J. unfold quoted, json_string_read. cbn [app tl]. rewrite <- app_assoc. cbn [app].
  rewrite (string_loop_ok s t J) by (rewrite !app_length; cbn; lia). cbn [bind tl orb].
  rewrite app_length. cbn [length]. replace (length t + S (length rest) - S (length rest))%nat with (length t) by lia.
  rewrite (firstn_exact t (34 :: rest) _ eq_refl). exists (has92 t). unfold write_string. destruct (has92 t) eqn:E.
  - eexists. split; [reflexivity|]. rewrite (unescape_ok s t J). cbn [bind]. split; [reflexivity|]. right. reflexivity.
  - eexists. split; [reflexivity|]. split; [reflexivity|]. left. now rewrite (no92_same s t J E).
Qed.

(** ** integers *)
Definition stop (l : list Z) : Prop := match l with [] => True | b :: _ => is_digit b = false /\ b <> 46 /\ b <> 101 /\ b <> 69 end.
Lemma int_loop_ok ds : forall v rest, 0 <= v -> forallb is_digit ds = true -> fold_left (fun a b => a * 10 + (b - 48)) ds v <= INT64_MAX -> stop rest ->
  int_loop v (ds ++ rest) = Ok (inl (fold_left (fun a b => a * 10 + (b - 48)) ds v, rest)).
Proof.
  induction ds as [|d ds IH]; intros v rest V D B S.
  - cbn [app fold_left]. destruct rest as [|b rest]; [reflexivity|]. cbn [int_loop]. cbn [stop] in S. destruct S as (S1 & S2 & S3 & S4).
    replace ((b =? 46) || (b =? 101) || (b =? 69)) with false by lia. now rewrite S1.
  - cbn [app forallb fold_left int_loop] in *. apply andb_prop in D as [D1 D2]. rewrite D1. unfold is_digit in D1.
    replace ((d =? 46) || (d =? 101) || (d =? 69)) with false by lia. cbn [negb].
    assert (M : forall l a, 0 <= a -> forallb is_digit l = true -> a <= fold_left (fun a b => a * 10 + (b - 48)) l a).
    { clear. induction l as [|x l IH]; intros a A F; [cbn; lia|]. cbn [fold_left forallb] in *. apply andb_prop in F as [F1 F2]. unfold is_digit in F1. specialize (IH (a * 10 + (x - 48)) ltac:(lia) F2). lia. }
    specialize (M ds (v * 10 + (d - 48)) ltac:(lia) D2). unfold mul_add64, in64. unfold INT64_MAX in *.
    replace (_ && _) with true by lia. cbn [bind]. rewrite IH; try assumption; try lia. reflexivity.
Qed.
Lemma json_integer_ok z t rest : jint z t -> - INT64_MAX <= z <= INT64_MAX -> stop rest -> json_integer (t ++ rest) = Ok (json_write_integer z, rest).
Proof.
  intros (neg & ds & -> & D & L & Ez) B S. unfold JsonTextModel.json_integer.
  assert (N : 0 <= num ds) by (apply num_bound; exact D). assert (Hb : num ds <= INT64_MAX) by (destruct neg; lia).
  assert (NE : exists d ds', ds = d :: ds' /\ d <> 45). { destruct L as [->|(d & ds' & -> & L)]; [exists 48, []; split; [reflexivity|lia]|]. exists d, ds'. split; [reflexivity|]. cbn [forallb] in D. apply andb_prop in D as [D _]. unfold is_digit in D. lia. }
  assert (M : match ((if neg then [45] else []) ++ ds) ++ rest with 45 :: _ => true | _ => false end = neg).
  { destruct neg; [reflexivity|]. destruct NE as (d & ds' & -> & H). cbn [app]. destruct d as [|p|p]; try reflexivity. do 6 (destruct p as [p|p|]; try reflexivity). exfalso. apply H. reflexivity. }
  rewrite M. replace (if neg then tl (((if neg then [45] else []) ++ ds) ++ rest) else ((if neg then [45] else []) ++ ds) ++ rest) with (ds ++ rest) by (destruct neg; reflexivity).
  unfold num in *. rewrite (int_loop_ok ds 0 rest ltac:(lia) D Hb S). cbn [bind]. now rewrite Ez.
Qed.
Lemma jint_head z t : jint z t -> exists b t', t = b :: t' /\ (is_digit b = true \/ b = 45).
Proof.
  intros (neg & ds & -> & D & L & _). destruct neg; [exists 45, ds; auto|]. destruct L as [->|(d & ds' & -> & L)]; cbn [app]; eexists; eexists; (split; [reflexivity|]); left; [reflexivity|].
  cbn [forallb] in D. apply andb_prop in D as [D _]. exact D.
Qed.

(** ** the machine *)
Definition runs (st : list jstate) (l out : list Z) (st' : list jstate) (l' out' : list Z) : Prop :=
  exists k, (k + 2 * length l' + length st' <= 2 * length l + length st)%nat /\ forall f, parse_loop (k + f) st l out = parse_loop f st' l' out'.
Lemma runs_trans st l out st1 l1 o1 st2 l2 o2 : runs st l out st1 l1 o1 -> runs st1 l1 o1 st2 l2 o2 -> runs st l out st2 l2 o2.
Proof. intros (k1 & L1 & H1) (k2 & L2 & H2). exists (k1 + k2)%nat. split; [lia|]. intros f. rewrite <- Nat.add_assoc, H1. apply H2. Qed.
Lemma runs_ws st w l out st' l' out' : ws w -> runs st l out st' l' out' -> st <> [] -> runs st (w ++ l) out st' l' out'.
Proof.
  intros W (k & L & H) N. destruct k as [|k].
  - exists 0%nat. split; [rewrite app_length; lia|]. intros f. specialize (H f). cbn [Nat.add] in *. rewrite <- H.
    destruct st as [|s st]; [contradiction|]. destruct f; [reflexivity|]. cbn [JsonTextModel.parse_loop]. now rewrite step_ws.
  - exists (S k). split; [rewrite app_length; lia|]. intros f. rewrite <- H. destruct st as [|s st]; [contradiction|]. cbn [Nat.add JsonTextModel.parse_loop]. now rewrite step_ws.
Qed.
Lemma runs_step s st l out p w l' : step s l = Ok (p, w, l') -> (1 + 2 * length l' + length p <= 2 * length l + 1)%nat -> runs (s :: st) l out (p ++ st) l' (out ++ w).
Proof. intros E L. exists 1%nat. split; [rewrite app_length; cbn [length]; lia|]. intros f. cbn [Nat.add JsonTextModel.parse_loop]. rewrite E. reflexivity. Qed.
Lemma stop_ws w b l : ws w -> is_digit b = false -> b <> 46 -> b <> 101 -> b <> 69 -> stop (w ++ b :: l).
Proof. intros W. inversion W as [|x w' H _]; subst; [cbn; auto|]. cbn in H. cbn [app stop]. intros. unfold is_digit. lia. Qed.
Lemma stop_ws_end w : ws w -> stop w.
Proof. intros W. inversion W as [|x w' H _]; subst; [exact I|]. cbn in H. cbn [stop]. unfold is_digit. lia. Qed.

(** the first byte of a value *)
Lemma jtext_head lax ext v t : jtext lax ext v t -> exists b t', t = b :: t' /\ is_space b = false /\ b <> 93 /\ b <> 125.
Proof.
  intros H. inversion H; subst; try (eexists; eexists; (split; [reflexivity|]); repeat split; (reflexivity || lia)).
  destruct (jint_head _ _ H0) as (b & t' & -> & D). exists b, t'. split; [reflexivity|]. unfold is_digit, is_space in *. lia.
Qed.
Lemma jitems_head lax ext vs t : jitems lax ext vs t -> exists w b t', ws w /\ t = w ++ b :: t' /\ is_space b = false /\ b <> 93.
Proof.
  intros H. inversion H; subst; destruct (jtext_head _ _ _ _ H2) as (b & t' & -> & S & N & _); exists w1, b; eexists; (split; [assumption|]); (split; [cbn [app]; reflexivity|]); auto.
Qed.
Lemma jfields_head lax ext vs t : jfields lax ext vs t -> exists w t', ws w /\ t = w ++ 34 :: t'.
Proof.
  intros H. inversion H; subst; unfold quoted; exists w1; eexists; (split; [assumption|]); cbn [app]; reflexivity.
Qed.

Lemma step_const b l w r : is_space b = false -> b <> 91 -> b <> 123 -> json_const b (b :: l) = Ok (w, r) -> step SValue (b :: l) = Ok ([], w, r).
Proof.
  intros S N1 N2 H. unfold JsonTextModel.step. rewrite next_at by exact S. cbn [bind]. replace (b =? 91) with false by lia. replace (b =? 123) with false by lia. now rewrite H.
Qed.
Lemma const_int b l : is_digit b = true \/ b = 45 -> json_const b l = json_integer l.
Proof.
  intros H. unfold is_digit in H. unfold JsonTextModel.json_const, is_digit.
  replace ((b =? 34) || (b =? 39)) with false by lia. replace ((b =? 110) || (b =? 78)) with false by lia. replace ((b =? 116) || (b =? 84)) with false by lia. replace ((b =? 102) || (b =? 70)) with false by lia.
  replace ((48 <=? b) && (b <=? 57) || (b =? 46) || (b =? 45)) with true by lia. reflexivity.
Qed.
Definition int_fit (z : Z) : Prop := - INT64_MAX <= z <= INT64_MAX.

Lemma step_arr_next l c : c = 44 \/ c = 93 -> step SArrayNext (c :: l) = Ok (if c =? 44 then [SValue; SArrayNext] else [], if c =? 44 then [] else [JSON_ARRAY_END], l).
Proof. intros [-> | ->]; reflexivity. Qed.
Lemma step_map_next l c : c = 44 \/ c = 125 -> step SMapNext (c :: l) = Ok (if c =? 44 then [SMapKey] else [], if c =? 44 then [] else [JSON_OBJ_END], l).
Proof. intros [-> | ->]; reflexivity. Qed.
Lemma step_key k tk w2 l : jstr true false k tk -> ws w2 -> exists bs, step SMapKey (quoted tk ++ w2 ++ 58 :: l) = Ok ([SValue; SMapNext], bs, l) /\ tok_enc (TStr k) bs.
Proof.
  intros J W. destruct (string_read_ok k tk (w2 ++ 58 :: l) J) as (u & bs & R & Wr & E). exists bs. split; [|exact E].
  unfold JsonTextModel.step. unfold quoted in *. cbn [app] in *. rewrite next_at by reflexivity. cbn [bind]. change ((34 =? 34) || (34 =? 39)) with true. cbn [negb]. cbv iota.
  rewrite R. cbn [bind fst snd]. rewrite Wr. cbn [bind]. rewrite ws_next by exact W. rewrite next_at by reflexivity. reflexivity.
Qed.
Lemma quoted_len t : length (quoted t) = (2 + length t)%nat.
Proof. unfold quoted. cbn [length]. rewrite app_length. cbn. lia. Qed.

Lemma loop_ws f s st w l out : ws w -> parse_loop f (s :: st) (w ++ l) out = parse_loop f (s :: st) l out.
Proof. intros W. destruct f; [reflexivity|]. cbn [JsonTextModel.parse_loop]. now rewrite step_ws. Qed.
(** a step that leaves the position at white space that the next step would skip as well *)
Lemma runs_skip s st l out p s2 w l' sk r st' o' : step s l = Ok (s2 :: p, w, l') -> ws sk -> (1 + 2 * length (sk ++ l') + length (s2 :: p) <= 2 * length l + 1)%nat ->
  runs (s2 :: p ++ st) (sk ++ l') (out ++ w) st' r o' -> runs (s :: st) l out st' r o'.
Proof.
  intros E W L (k & Lk & H). exists (S k). split; [cbn [length app] in *; rewrite !app_length in *; lia|].
  intros f. cbn [Nat.add JsonTextModel.parse_loop]. rewrite E. cbn [bind fst snd app]. rewrite <- H. now rewrite loop_ws.
Qed.
Lemma ints_arr x l : ints_ok int_fit (JArr (x :: l)) -> ints_ok int_fit x /\ ints_ok int_fit (JArr l).
Proof. intros H. exact H. Qed.
Lemma ints_obj k x l : ints_ok int_fit (JObj ((k, x) :: l)) -> ints_ok int_fit x /\ ints_ok int_fit (JObj l).
Proof. intros H. exact H. Qed.
Ltac len := cbn [length app]; repeat (rewrite ?app_length, ?quoted_len; cbn [length]); lia.

Lemma parse_all :
  (forall v t, jtext true false v t -> ints_ok int_fit v -> forall st rest out, stop rest ->
     exists bs, Enc v bs /\ runs (SValue :: st) (t ++ rest) out st rest (out ++ bs)) /\
  (forall vs t, jitems true false vs t -> ints_ok int_fit (JArr vs) -> forall st rest out,
     exists bs, toks_enc (flat_map toks vs) bs /\ runs (SValue :: SArrayNext :: st) (t ++ 93 :: rest) out st rest (out ++ bs ++ [JSON_ARRAY_END])) /\
  (forall fs t, jfields true false fs t -> ints_ok int_fit (JObj fs) -> forall st rest out,
     exists bs, toks_enc (flat_map (fun kv => TStr (fst kv) :: toks (snd kv)) fs) bs /\ runs (SMapKey :: st) (t ++ 125 :: rest) out st rest (out ++ bs ++ [JSON_OBJ_END])).
Proof.
  apply jtext_all.
  - intros _ st rest out _. exists [JSON_NULL]. split; [apply (te_cons TNull [] [JSON_NULL] []); [reflexivity|constructor]|].
    apply (runs_step SValue st _ out [] [JSON_NULL] rest); [reflexivity|cbn [app length]; lia].
  - intros _ st rest out _. exists [JSON_TRUE]. split; [apply (te_cons (TBool true) [] [JSON_TRUE] []); [reflexivity|constructor]|].
    apply (runs_step SValue st _ out [] [JSON_TRUE] rest); [reflexivity|cbn [app length]; lia].
  - intros _ st rest out _. exists [JSON_FALSE]. split; [apply (te_cons (TBool false) [] [JSON_FALSE] []); [reflexivity|constructor]|].
    apply (runs_step SValue st _ out [] [JSON_FALSE] rest); [reflexivity|cbn [app length]; lia].
  - intros z t J F st rest out S. exists (json_write_integer z). split; [rewrite <- (app_nil_r (json_write_integer z)); apply (te_cons (TInt z) []); [reflexivity|constructor]|].
    apply (runs_step SValue st _ out [] (json_write_integer z) rest); [|rewrite app_length; destruct (jint_head z t J) as (b & t' & -> & _); cbn [length]; lia].
    pose proof (json_integer_ok z t rest J F S) as R. destruct (jint_head z t J) as (b & t' & -> & D). cbn [app] in *.
    apply step_const; [unfold is_digit, is_space in *; lia|unfold is_digit in *; lia|unfold is_digit in *; lia|]. now rewrite const_int.
  - intros s t J _ st rest out _. destruct (string_read_ok s t rest J) as (u & bs & R & Wr & E). exists bs.
    split; [rewrite <- (app_nil_r bs); apply (te_cons (TStr s) []); [exact E|constructor]|].
    apply (runs_step SValue st _ out [] bs rest); [|rewrite app_length, quoted_len; cbn [length]; lia].
    unfold quoted in *. cbn [app] in *. apply step_const; try reflexivity; try lia. unfold JsonTextModel.json_const.
    change ((34 =? 34) || (34 =? 39)) with true. cbv iota. rewrite R. cbn [bind fst snd]. now rewrite Wr.
  - intros w W _ st rest out _. exists [JSON_ARRAY; JSON_ARRAY_END]. split.
    { apply (te_cons TArr [TArrE] [JSON_ARRAY] [JSON_ARRAY_END]); [reflexivity|]. apply (te_cons TArrE [] [JSON_ARRAY_END] []); [reflexivity|constructor]. }
    apply (runs_step SValue st _ out [] [JSON_ARRAY; JSON_ARRAY_END] rest); [|cbn [length app]; rewrite !app_length; cbn [length]; lia].
    cbn [app]. unfold JsonTextModel.step. rewrite next_at by reflexivity. cbn [bind Z.eqb Pos.eqb tl]. rewrite <- app_assoc. rewrite ws_next by exact W. cbn [app]. rewrite next_at by reflexivity. reflexivity.
  - intros vs t J IH F st rest out S. destruct (IH F st rest (out ++ [JSON_ARRAY])) as (bs & E & R).
    exists ([JSON_ARRAY] ++ bs ++ [JSON_ARRAY_END]). split.
    { unfold Enc. cbn [toks]. apply (te_cons TArr (flat_map toks vs ++ [TArrE]) [JSON_ARRAY]); [reflexivity|]. apply toks_enc_app; [exact E|]. apply (te_cons TArrE [] [JSON_ARRAY_END] []); [reflexivity|constructor]. }
    destruct (jitems_head _ _ _ _ J) as (w & b & t' & W & -> & Sb & Nb). rewrite (app_assoc out).
    assert (X : step SValue ((91 :: (w ++ b :: t') ++ [93]) ++ rest) = Ok ([SValue; SArrayNext], [JSON_ARRAY], b :: t' ++ 93 :: rest)).
    { cbn [app]. unfold JsonTextModel.step. rewrite next_at by reflexivity. cbn [bind Z.eqb Pos.eqb tl]. rewrite <- !app_assoc. rewrite ws_next by exact W. cbn [app]. rewrite next_at by exact Sb. cbn [bind]. replace (b =? 93) with false by lia. reflexivity. }
    eapply (runs_skip SValue st _ out [SArrayNext] SValue [JSON_ARRAY] _ w); [exact X|exact W|len|].
    rewrite <- (app_assoc w) in R. exact R.
  - intros w W _ st rest out _. exists [JSON_OBJ; JSON_OBJ_END]. split.
    { apply (te_cons TObj [TObjE] [JSON_OBJ] [JSON_OBJ_END]); [reflexivity|]. apply (te_cons TObjE [] [JSON_OBJ_END] []); [reflexivity|constructor]. }
    apply (runs_step SValue st _ out [] [JSON_OBJ; JSON_OBJ_END] rest); [|len].
    cbn [app]. unfold JsonTextModel.step. rewrite next_at by reflexivity. cbn [bind Z.eqb Pos.eqb tl]. rewrite <- app_assoc. rewrite ws_next by exact W. cbn [app]. rewrite next_at by reflexivity. reflexivity.
  - intros fs t J IH F st rest out S. destruct (IH F st rest (out ++ [JSON_OBJ])) as (bs & E & R).
    exists ([JSON_OBJ] ++ bs ++ [JSON_OBJ_END]). split.
    { unfold Enc. cbn [toks]. apply (te_cons TObj (flat_map (fun kv => TStr (fst kv) :: toks (snd kv)) fs ++ [TObjE]) [JSON_OBJ]); [reflexivity|]. apply toks_enc_app; [exact E|]. apply (te_cons TObjE [] [JSON_OBJ_END] []); [reflexivity|constructor]. }
    destruct (jfields_head _ _ _ _ J) as (w & t' & W & ->). rewrite (app_assoc out).
    assert (X : step SValue ((123 :: (w ++ 34 :: t') ++ [125]) ++ rest) = Ok ([SMapKey], [JSON_OBJ], 34 :: t' ++ 125 :: rest)).
    { cbn [app]. unfold JsonTextModel.step. rewrite next_at by reflexivity. cbn [bind Z.eqb Pos.eqb tl]. rewrite <- !app_assoc. rewrite ws_next by exact W. cbn [app]. rewrite next_at by reflexivity. reflexivity. }
    eapply (runs_skip SValue st _ out [] SMapKey [JSON_OBJ] _ w); [exact X|exact W|len|].
    rewrite <- (app_assoc w) in R. exact R.
  - intros v w1 t w2 W1 W2 J IH F st rest out. apply ints_arr in F as [F _].
    destruct (IH F (SArrayNext :: st) (w2 ++ 93 :: rest) out ltac:(apply stop_ws; [exact W2|reflexivity|lia|lia|lia])) as (bs & E & R).
    exists bs. split; [cbn [flat_map]; rewrite app_nil_r; exact E|]. rewrite <- !app_assoc. apply runs_ws; [exact W1| |discriminate].
    eapply runs_trans; [exact R|]. apply runs_ws; [exact W2| |discriminate]. rewrite app_assoc.
    apply (runs_step SArrayNext st (93 :: rest) (out ++ bs) [] [JSON_ARRAY_END] rest); [reflexivity|len].
  - intros v w1 t w2 vs ts W1 W2 J IH Js IHs F st rest out. apply ints_arr in F as [F Fs].
    destruct (IH F (SArrayNext :: st) (w2 ++ 44 :: ts ++ 93 :: rest) out ltac:(apply stop_ws; [exact W2|reflexivity|lia|lia|lia])) as (bs & E & R).
    destruct (IHs Fs st rest (out ++ bs)) as (bs2 & E2 & R2).
    exists (bs ++ bs2). split; [cbn [flat_map]; apply toks_enc_app; assumption|]. rewrite <- !app_assoc. apply runs_ws; [exact W1| |discriminate].
    cbn [app]. eapply runs_trans; [exact R|]. apply runs_ws; [exact W2| |discriminate]. rewrite !app_assoc in *.
    eapply runs_trans; [|exact R2].
    pose proof (runs_step SArrayNext st (44 :: ts ++ 93 :: rest) (out ++ bs) [SValue; SArrayNext] [] (ts ++ 93 :: rest) eq_refl ltac:(len)) as X.
    rewrite app_nil_r in X. exact X.
  - intros k tk v w1 w2 w3 t w4 W1 W2 W3 W4 Jk J IH F st rest out. apply ints_obj in F as [F _].
    destruct (step_key k tk w2 (w3 ++ t ++ w4 ++ 125 :: rest) Jk W2) as (kb & Sk & Ek).
    destruct (IH F (SMapNext :: st) (w4 ++ 125 :: rest) (out ++ kb) ltac:(apply stop_ws; [exact W4|reflexivity|lia|lia|lia])) as (bs & E & R).
    exists (kb ++ bs). split; [cbn [flat_map fst snd]; rewrite app_nil_r; apply te_cons; [exact Ek|exact E]|].
    replace ((w1 ++ quoted tk ++ w2 ++ 58 :: w3 ++ t ++ w4) ++ 125 :: rest) with (w1 ++ quoted tk ++ w2 ++ 58 :: w3 ++ t ++ w4 ++ 125 :: rest) by (rewrite <- ?app_assoc; cbn [app]; rewrite <- ?app_assoc; reflexivity).
    apply runs_ws; [exact W1| |discriminate].
    eapply runs_trans; [apply (runs_step SMapKey st _ out _ _ _ Sk); len|]. cbn [app].
    apply runs_ws; [exact W3| |discriminate]. eapply runs_trans; [exact R|]. apply runs_ws; [exact W4| |discriminate].
    replace (out ++ (kb ++ bs) ++ [JSON_OBJ_END]) with (((out ++ kb) ++ bs) ++ [JSON_OBJ_END]) by (rewrite <- !app_assoc; reflexivity).
    apply (runs_step SMapNext st (125 :: rest) ((out ++ kb) ++ bs) [] [JSON_OBJ_END] rest); [reflexivity|len].
  - intros k tk v w1 w2 w3 t w4 fs ts W1 W2 W3 W4 Jk J IH Js IHs F st rest out. apply ints_obj in F as [F Fs].
    destruct (step_key k tk w2 (w3 ++ t ++ w4 ++ 44 :: ts ++ 125 :: rest) Jk W2) as (kb & Sk & Ek).
    destruct (IH F (SMapNext :: st) (w4 ++ 44 :: ts ++ 125 :: rest) (out ++ kb) ltac:(apply stop_ws; [exact W4|reflexivity|lia|lia|lia])) as (bs & E & R).
    destruct (IHs Fs st rest ((out ++ kb) ++ bs)) as (bs2 & E2 & R2).
    exists (kb ++ bs ++ bs2). split; [cbn [flat_map fst snd]; apply te_cons; [exact Ek|apply toks_enc_app; [exact E|exact E2]]|].
    replace ((w1 ++ quoted tk ++ w2 ++ 58 :: w3 ++ t ++ w4 ++ 44 :: ts) ++ 125 :: rest) with (w1 ++ quoted tk ++ w2 ++ 58 :: w3 ++ t ++ w4 ++ 44 :: ts ++ 125 :: rest) by (rewrite <- ?app_assoc; cbn [app]; rewrite <- ?app_assoc; reflexivity).
    apply runs_ws; [exact W1| |discriminate].
    eapply runs_trans; [apply (runs_step SMapKey st _ out _ _ _ Sk); len|]. cbn [app].
    apply runs_ws; [exact W3| |discriminate]. eapply runs_trans; [exact R|]. apply runs_ws; [exact W4| |discriminate].
    replace (out ++ (kb ++ bs ++ bs2) ++ [JSON_OBJ_END]) with (((out ++ kb) ++ bs) ++ bs2 ++ [JSON_OBJ_END]) by (rewrite <- !app_assoc; reflexivity).
    eapply runs_trans; [|exact R2].
    pose proof (runs_step SMapNext st (44 :: ts ++ 125 :: rest) ((out ++ kb) ++ bs) [SMapKey] [] (ts ++ 125 :: rest) eq_refl ltac:(len)) as X.
    rewrite app_nil_r in X. exact X.
Qed.

(** a document *)
Lemma parse_doc v doc : jdoc true false v doc -> ints_ok int_fit v -> exists bs rest, json_parse sd doc = Ok (bs, rest) /\ Enc v bs /\ ws rest.
Proof.
  intros (w1 & t & w2 & W1 & W2 & J & ->) F. destruct parse_all as [P _].
  destruct (P v t J F [] w2 [] (stop_ws_end w2 W2)) as (bs & E & R). exists bs, w2. split; [|split; assumption].
  unfold json_parse. rewrite loop_ws by exact W1. destruct R as (k & L & H).
  replace (2 * length (w1 ++ t ++ w2) + 1)%nat with (k + (2 * length (w1 ++ t ++ w2) + 1 - k))%nat by (rewrite !app_length in *; cbn [length] in L; lia).
  rewrite H. destruct (2 * length (w1 ++ t ++ w2) + 1 - k)%nat; reflexivity.
Qed.
End P.

(** ** export *)
(** characters of a string whose exported text is lax or standard *)
Definition char_ok (lax : bool) (c : Z) : Prop := if lax then code c else scalar c /\ (32 <= c \/ In c [8; 9; 10; 12; 13]).
Definition string_ok (lax : bool) (s : list Z) : Prop := exists l, s = text l /\ Forall (char_ok lax) l.
Lemma escape_app a b : escape (a ++ b) = escape a ++ escape b.
Proof. apply flat_map_app. Qed.
Lemma escape_high l : Forall (fun x => 128 <= x) l -> escape l = l.
Proof.
  induction 1 as [|b l H _ IH]; [reflexivity|]. unfold escape in *. cbn [flat_map]. rewrite IH. unfold escape_byte.
  replace (b =? 34) with false by lia. replace (b =? 92) with false by lia. replace (b =? 8) with false by lia. replace (b =? 12) with false by lia.
  replace (b =? 10) with false by lia. replace (b =? 13) with false by lia. replace (b =? 9) with false by lia. reflexivity.
Qed.
Lemma escape_jstr lax l : Forall (char_ok lax) l -> jstr lax false (text l) (escape (text l)).
Proof.
  induction 1 as [|c l H _ IH]; [constructor|]. rewrite text_cons, escape_app.
  assert (Hc : code c) by (destruct lax; cbn [char_ok] in H; [exact H|unfold scalar, code in *; lia]).
  destruct (Z_lt_dec c 128) as [L|L].
  - assert (U : utf8 c = [c]) by (unfold utf8; replace (c <? 128) with true by lia; reflexivity). rewrite U. unfold escape at 1. cbn [flat_map app]. rewrite app_nil_r. unfold escape_byte.
    assert (Esc : forall e, In (e, c) escapes -> jstr lax false (c :: text l) ([92; e] ++ escape (text l))) by (intros e I; apply js_esc; assumption).
    repeat match goal with |- jstr _ _ _ ((if c =? ?k then [92; ?e] else _) ++ _) => destruct (Z.eqb_spec c k) as [Ek|]; [apply (Esc e); rewrite Ek; cbn; auto 12|] end.
    pose proof (js_char lax false c (text l) (escape (text l))) as X. rewrite U in X. apply X; [|exact IH].
    unfold plain. destruct lax; cbn [char_ok] in H; (split; [lia|]); (split; [lia|]); (split; [tauto|]); [lia|]. cbn in H. lia.
  - rewrite (escape_high (utf8 c)).
    + apply js_char; [|exact IH]. unfold plain. destruct lax; cbn [char_ok] in H; (split; [lia|]); (split; [lia|]); (split; [tauto|]); lia.
    + destruct (utf8_head c Hc) as (b & t & -> & _ & B & F). constructor; [lia|exact F].
Qed.
Lemma digits_head f : forall n, 0 <= n < 10 ^ Z.of_nat f -> f <> O -> DecLib.digits f n = [48] \/ (exists d ds, DecLib.digits f n = d :: ds /\ d <> 48).
Proof.
  induction f as [|f IH]; intros n H N; [contradiction|]. cbn [DecLib.digits]. destruct (Z.ltb_spec n 10).
  - destruct (Z.eq_dec n 0) as [-> | E]; [left; reflexivity|right; exists (48 + n), []; split; [reflexivity|lia]].
  - right. pose proof (div10 n f H) as D. destruct f as [|f]; [change (10 ^ Z.of_nat 0) with 1 in D; assert (1 <= n / 10) by (apply Z.div_le_lower_bound; lia); lia|].
    destruct (IH (n / 10) D ltac:(discriminate)) as [E|(d & ds & E & Nd)].
    + exfalso. assert (num (DecLib.digits (S f) (n / 10)) = 0) by (rewrite E; reflexivity). rewrite digits_num in H1 by exact D. assert (1 <= n / 10) by (apply Z.div_le_lower_bound; lia). lia.
    + rewrite E. exists d. eexists. split; [reflexivity|exact Nd].
Qed.
Lemma dec_jint z : - 2 ^ 63 <= z < 2 ^ 63 -> jint z (dec z).
Proof.
  intros H. unfold dec. assert (P : 2 ^ 63 < 10 ^ Z.of_nat 20) by reflexivity. destruct (Z.ltb_spec z 0).
  - exists true, (DecLib.digits 20 (- z)). split; [reflexivity|]. split; [apply digits_ok; lia|]. split; [apply digits_head; [lia|discriminate]|]. rewrite digits_num by lia. lia.
  - exists false, (DecLib.digits 20 z). split; [reflexivity|]. split; [apply digits_ok; lia|]. split; [apply digits_head; [lia|discriminate]|]. rewrite digits_num by lia. reflexivity.
Qed.
Lemma ws_indent p d : ws (indent p d).
Proof. unfold indent. destruct p; [|constructor]. induction (2 * d)%nat; constructor; cbn; auto. Qed.
Lemma ws_app a b : ws a -> ws b -> ws (a ++ b).
Proof. intros A B. apply Forall_app. split; assumption. Qed.

Section E.
Variable g : Z -> list Z.
Notation export := (export g).
Notation export_items := (export_items g).
Notation export_fields := (export_fields g).
Lemma export_S f pretty deep t r : export (S f) pretty deep (t :: r) =
      if t =? JSON_NULL then Ok (lit_null, r)
      else if in_rng JSON_TRUE JSON_FALSE t then
        do (b, r') <- json_read_bool (t :: r); Ok (if (b : bool) then lit_true else lit_false, r')
      else if in_rng JSON_REAL32 JSON_REAL64 t then
        do (b, r') <- json_read_real (t :: r); Ok (g b, r')
      else if in_rng JSON_INTV0 JSON_INT64 t then
        do (z, r') <- json_read_integer (t :: r); Ok (dec z, r')
      else if in_rng JSON_STRINGV0 JSON_STRING32 t then
        do (s, r') <- json_read_raw (t :: r); Ok (34 :: escape s ++ [34], r')
      else if t =? JSON_ARRAY then
        do (x, r') <- export_items f pretty deep r; Ok (91 :: x ++ [93], r')
      else if t =? JSON_OBJ then
        if pretty then
          do (e, r1) <- json_read_end JSON_OBJ_END r;
          if (e : bool) then Ok ([123; 125], r1)
          else do (x, r') <- export_fields f pretty deep r1;
               Ok (123 :: 10 :: x ++ indent pretty deep ++ [125], r')
        else do (x, r') <- export_fields f pretty deep r; Ok (123 :: x ++ [125], r')
      else Err.
Proof. reflexivity. Qed.
Lemma items_S f pretty deep l : export_items (S f) pretty deep l =
    do (e, r) <- json_read_end JSON_ARRAY_END l;
    if (e : bool) then Ok ([], r)
    else do (x, r1) <- export f pretty deep r;
         do last <- json_is JSON_ARRAY_END r1;
         do (xs, r2) <- export_items f pretty deep r1;
         Ok (x ++ (if (last : bool) then [] else [44; 32]) ++ xs, r2).
Proof. reflexivity. Qed.
Lemma fields_S f pretty deep l : export_fields (S f) pretty deep l =
    do (e, r) <- json_read_end JSON_OBJ_END l;
    if (e : bool) then Ok ([], r)
    else do (k, r0) <- export f pretty (S deep) r;
         do (x, r1) <- export f pretty (S deep) r0;
         do last <- json_is JSON_OBJ_END r1;
         do (xs, r2) <- export_fields f pretty deep r1;
         Ok (indent pretty (S deep) ++ k ++ [58; 32] ++ x ++ obj_sep pretty last ++ xs, r2).
Proof. reflexivity. Qed.
Lemma export_str f p d k kb rest : str_wf k = true -> tok_enc (TStr k) kb -> export (S f) p d (kb ++ rest) = Ok (quoted (escape k), rest).
Proof.
  intros Hk He. pose proof (tok_enc_head _ _ He) as (h & r & Hb & Hh). cbn [tok_tag_ok tok_enc] in Hh, He.
  assert (R : json_read_raw (kb ++ rest) = Ok (k, rest)) by (destruct He as [E|E]; rewrite E; [apply read_raw_ok|apply read_wide_ok]; exact Hk).
  rewrite Hb in *. cbn [app] in *. rewrite export_S, R. tags.
  replace (h =? 0) with false by lia. replace ((1 <=? h) && (h <=? 2)) with false by lia.
  replace ((3 <=? h) && (h <=? 4)) with false by lia. replace ((5 <=? h) && (h <=? 41)) with false by lia.
  replace ((42 <=? h) && (h <=? 77)) with true by lia. reflexivity.
Qed.
Lemma is_end tag bs rest h r : bs = h :: r -> h <> tag -> json_is tag (bs ++ rest) = Ok false.
Proof. intros -> N. unfold json_is. cbn [app rd_u8 bind]. destruct (Z.eqb_spec h tag); [contradiction|reflexivity]. Qed.
Lemma read_end_no tag bs rest h r : bs = h :: r -> h <> tag -> json_read_end tag (bs ++ rest) = Ok (false, bs ++ rest).
Proof. intros -> N. unfold json_read_end. cbn [app rd_u8 bind]. destruct (Z.eqb_spec h tag); [contradiction|reflexivity]. Qed.

Definition export_spec (lax : bool) (v : json) : Prop := forall bs rest fuel p d, json_wf v = true -> json_no_reals v = true -> strings_ok (string_ok lax) v -> Enc v bs -> (length bs <= fuel)%nat ->
  exists t, export fuel p d (bs ++ rest) = Ok (t, rest) /\ jtext lax false v t.
Lemma items_ok lax l : Forall (export_spec lax) l -> forall b1 rest fuel p d, forallb json_wf l = true -> forallb json_no_reals l = true -> strings_ok (string_ok lax) (JArr l) ->
  toks_enc (flat_map toks l) b1 -> (length b1 + 1 <= fuel)%nat ->
  exists x, export_items fuel p d (b1 ++ JSON_ARRAY_END :: rest) = Ok (x, rest) /\ match l with [] => x = [] | _ => forall w, ws w -> jitems lax false l (w ++ x) end.
Proof.
  induction 1 as [|v l Hv Hvl IH]; intros b1 rest fuel p d Hw Hr Hs He Hf.
  - inversion He; subst. destruct fuel; [cbn in Hf; lia|]. exists []. split; reflexivity.
  - cbn [flat_map forallb] in *. apply andb_prop in Hw as [Hw Hwl]. apply andb_prop in Hr as [Hr Hrl]. destruct Hs as [Hs Hsl].
    apply toks_enc_app_inv in He. destruct He as (bv & bl & -> & E1 & E2).
    pose proof (Enc_head v bv E1) as (h & r & Hb & Hh1 & Hh2). rewrite !app_length in Hf. assert (length bv >= 1)%nat by (rewrite Hb; cbn; lia).
    destruct fuel as [|fuel]; [lia|]. rewrite items_S. rewrite <- !app_assoc.
    rewrite (read_end_no JSON_ARRAY_END bv _ h r Hb Hh1). cbn [bind].
    destruct (Hv bv (bl ++ JSON_ARRAY_END :: rest) fuel p d Hw Hr Hs E1 ltac:(lia)) as (t & Et & Jt). rewrite Et. cbn [bind].
    destruct (IH bl rest fuel p d Hwl Hrl Hsl E2 ltac:(lia)) as (x & Ex & Jx).
    destruct l as [|v2 l].
    + cbn [flat_map] in E2. inversion E2; subst bl. cbn [app] in *. unfold json_is. cbn [rd_u8 bind]. rewrite Z.eqb_refl, Ex. cbn [bind].
      eexists. split; [reflexivity|]. intros w W. subst x. cbn [app]. apply ji_one; [exact W|constructor|exact Jt].
    + assert (Hd : exists h2 r2, bl = h2 :: r2 /\ h2 <> JSON_ARRAY_END).
      { cbn [flat_map] in E2. apply toks_enc_app_inv in E2. destruct E2 as (bv2 & bl2 & -> & E3 & _). destruct (Enc_head v2 bv2 E3) as (h2 & r2 & -> & N & _). exists h2, (r2 ++ bl2). split; [reflexivity|exact N]. }
      destruct Hd as (h2 & r2 & Hb2 & N2). rewrite (is_end JSON_ARRAY_END bl _ h2 r2 Hb2 N2). cbn [bind]. rewrite Ex. cbn [bind].
      eexists. split; [reflexivity|]. intros w W. pose proof (ji_more lax false v w t [] (v2 :: l) (32 :: x) W ws_nil Jt) as X. cbn [app] in *. apply X. apply (Jx [32]). repeat constructor.
Qed.
Lemma sep_split p : exists w, ws w /\ obj_sep p false = 44 :: w.
Proof. destruct p; [exists [10]|exists [32]]; (split; [constructor; [cbn; auto|constructor]|reflexivity]). Qed.
Lemma sep_last p : ws (obj_sep p true).
Proof. destruct p; cbn [obj_sep]; [constructor; [cbn; auto|constructor]|constructor]. Qed.
Lemma fields_ok lax l : Forall (fun kv => export_spec lax (snd kv)) l -> forall b1 rest fuel p d, fields_wf l = true -> forallb (fun kv => json_no_reals (snd kv)) l = true -> strings_ok (string_ok lax) (JObj l) ->
  toks_enc (flat_map (fun kv => TStr (fst kv) :: toks (snd kv)) l) b1 -> (length b1 + 1 <= fuel)%nat ->
  exists x, export_fields fuel p d (b1 ++ JSON_OBJ_END :: rest) = Ok (x, rest) /\ match l with [] => x = [] | _ => forall w w', ws w -> ws w' -> jfields lax false l (w ++ x ++ w') end.
Proof.
  unfold fields_wf. induction 1 as [|[k v] l Hv Hvl IH]; intros b1 rest fuel p d Hw Hr Hs He Hf.
  - inversion He; subst. destruct fuel; [cbn in Hf; lia|]. exists []. split; reflexivity.
  - cbn [flat_map forallb fst snd] in *. apply andb_prop in Hw as [Hw Hwl]. apply andb_prop in Hw as [Hk Hw]. apply andb_prop in Hr as [Hr Hrl].
    destruct Hs as [[lk [Elk Flk]] [Hs Hsl]]. cbn [fst snd] in *.
    inversion He as [|t0 ts0 kb bs' Ht Hts]; subst t0 ts0 b1.
    apply toks_enc_app_inv in Hts. destruct Hts as (bv & bl & -> & E1 & E2).
    pose proof (tok_enc_head _ _ Ht) as (hk & rk & Hbk & Hhk). cbn [tok_tag_ok] in Hhk.
    pose proof (Enc_head v bv E1) as (h & r & Hb & Hh1 & Hh2). rewrite !app_length in Hf. assert (length bv >= 1)%nat by (rewrite Hb; cbn; lia). assert (length kb >= 1)%nat by (rewrite Hbk; cbn; lia).
    destruct fuel as [|[|fuel]]; [lia|lia|]. remember (S fuel) as fuel1. rewrite fields_S. rewrite <- !app_assoc.
    rewrite (read_end_no JSON_OBJ_END kb _ hk rk Hbk ltac:(unfold JSON_OBJ_END; lia)). cbn [bind].
    assert (Xk : export fuel1 p (S d) (kb ++ bv ++ bl ++ JSON_OBJ_END :: rest) = Ok (quoted (escape k), bv ++ bl ++ JSON_OBJ_END :: rest)) by (rewrite Heqfuel1; apply export_str; assumption). rewrite Xk. cbn [bind].
    destruct (Hv bv (bl ++ JSON_OBJ_END :: rest) fuel1 p (S d) Hw Hr Hs E1 ltac:(lia)) as (t & Et & Jt). rewrite Et. cbn [bind].
    destruct (IH bl rest fuel1 p d Hwl Hrl Hsl E2 ltac:(lia)) as (x & Ex & Jx).
    pose proof (escape_jstr lax lk Flk) as Jk. rewrite <- Elk in Jk.
    assert (W32 : ws [32]) by (repeat constructor).
    destruct l as [|kv2 l].
    + cbn [flat_map] in E2. inversion E2; subst bl. cbn [app] in *. unfold json_is. cbn [rd_u8 bind]. rewrite Z.eqb_refl, Ex. cbn [bind].
      eexists. split; [reflexivity|]. intros w w' W W'. subst x.
      pose proof (jf_one lax false k (escape k) v (w ++ indent p (S d)) [] [32] t (obj_sep p true ++ w') (ws_app _ _ W (ws_indent _ _)) ws_nil W32 (ws_app _ _ (sep_last p) W') Jk Jt) as X.
      cbn [app] in X. rewrite <- !app_assoc in *. cbn [app] in *. rewrite <- ?app_assoc in *. exact X.
    + assert (Hd : exists h2 r2, bl = h2 :: r2 /\ h2 <> JSON_OBJ_END).
      { cbn [flat_map] in E2. inversion E2 as [|t1 ts1 kb2 bs2 Ht2 _]; subst. destruct (tok_enc_head _ _ Ht2) as (h2 & r2 & -> & N). cbn [tok_tag_ok] in N. exists h2, (r2 ++ bs2). split; [reflexivity|unfold JSON_OBJ_END; lia]. }
      destruct Hd as (h2 & r2 & Hb2 & N2). rewrite (is_end JSON_OBJ_END bl _ h2 r2 Hb2 N2). cbn [bind]. rewrite Ex. cbn [bind].
      eexists. split; [reflexivity|]. intros w w' W W'. destruct (sep_split p) as (sw & Wsw & ->).
      pose proof (jf_more lax false k (escape k) v (w ++ indent p (S d)) [] [32] t [] (kv2 :: l) (sw ++ x ++ w') (ws_app _ _ W (ws_indent _ _)) ws_nil W32 ws_nil Jk Jt (Jx sw w' Wsw W')) as X.
      cbn [app] in X. rewrite <- !app_assoc in *. cbn [app] in *. rewrite <- ?app_assoc in *. exact X.
Qed.
Lemma export_ok lax v : export_spec lax v.
Proof.
  induction v as [|b|z|b|s|l IH|l IH] using json_ind'; intros bs rest fuel p d Hw Hr Hs He Hf;
    unfold Enc in He; cbn [toks] in He; cbn [json_wf json_no_reals] in Hw, Hr; try discriminate Hr.
  1-4: apply toks_enc_one in He; pose proof (tok_enc_head _ _ He) as (h & r & Hb & Hh);
       cbn [tok_tag_ok tok_enc] in Hh, He;
       (destruct fuel as [|fuel]; [rewrite Hb in Hf; cbn in Hf; lia|]).
  - subst. eexists. split; [reflexivity|constructor].
  - subst. destruct b; eexists; (split; [reflexivity|constructor]).
  - exists (dec z). split; [|apply jt_int, dec_jint; unfold INT64_MIN, INT64_MAX in Hw; lia].
    rewrite Hb. cbn [app]. rewrite export_S. rewrite app_comm_cons, <- Hb, He. tags.
    replace (h =? 0) with false by lia. replace ((1 <=? h) && (h <=? 2)) with false by lia.
    replace ((3 <=? h) && (h <=? 4)) with false by lia. replace ((5 <=? h) && (h <=? 41)) with true by lia.
    rewrite read_int_ok by lia. reflexivity.
  - destruct Hs as [lk [Elk Flk]]. exists (quoted (escape s)). split; [apply export_str; [exact Hw|exact He]|]. apply jt_str. rewrite Elk. now apply escape_jstr.
  - inversion He as [|t ts b bs' Ht Hts]; subst. cbn [tok_enc] in Ht. subst b.
    apply toks_enc_app_inv in Hts. destruct Hts as (b1 & b2 & -> & H1 & H2).
    apply toks_enc_one in H2. cbn [tok_enc] in H2. subst b2.
    destruct fuel as [|fuel]; [cbn in Hf; lia|].
    destruct (fields_ok lax l IH b1 rest fuel p d Hw Hr Hs H1) as (x & Ex & Jx).
    { cbn [app length] in Hf. rewrite app_length in Hf. cbn [length] in Hf. lia. }
    cbn [app]. rewrite <- app_assoc. cbn [app]. rewrite export_S.
    change (JSON_OBJ =? JSON_NULL) with false. change (in_rng JSON_TRUE JSON_FALSE JSON_OBJ) with false. change (in_rng JSON_REAL32 JSON_REAL64 JSON_OBJ) with false.
    change (in_rng JSON_INTV0 JSON_INT64 JSON_OBJ) with false. change (in_rng JSON_STRINGV0 JSON_STRING32 JSON_OBJ) with false. change (JSON_OBJ =? JSON_ARRAY) with false. rewrite Z.eqb_refl. cbv iota.
    destruct l as [|[k v] l].
    + inversion H1; subst b1. cbn [app] in *. destruct p.
      * eexists. split; [reflexivity|]. apply (jt_obj0 lax false []). constructor.
      * rewrite Ex. subst x. eexists. split; [reflexivity|]. apply (jt_obj0 lax false []). constructor.
    + destruct p; [|rewrite Ex; eexists; (split; [reflexivity|]); pose proof (jt_obj lax false _ _ (Jx [] [] ws_nil ws_nil)) as X; rewrite app_nil_r in X; exact X].
      assert (Hd : exists h2 r2, b1 = h2 :: r2 /\ h2 <> JSON_OBJ_END).
      { cbn [flat_map] in H1. inversion H1 as [|t1 ts1 kb2 bs2 Ht2 _]; subst. destruct (tok_enc_head _ _ Ht2) as (h2 & r2 & -> & N). cbn [tok_tag_ok fst] in N. exists h2, (r2 ++ bs2). split; [reflexivity|unfold JSON_OBJ_END; lia]. }
      destruct Hd as (h2 & r2 & Hb2 & N2). rewrite (read_end_no JSON_OBJ_END b1 _ h2 r2 Hb2 N2). cbn [bind]. rewrite Ex. cbn [bind].
      eexists. split; [reflexivity|]. pose proof (jt_obj lax false _ _ (Jx [10] (indent true d) ltac:(constructor; [cbn; auto|constructor]) (ws_indent _ _))) as X. cbn [app] in X. rewrite <- app_assoc in X. exact X.
  - inversion He as [|t ts b bs' Ht Hts]; subst. cbn [tok_enc] in Ht. subst b.
    apply toks_enc_app_inv in Hts. destruct Hts as (b1 & b2 & -> & H1 & H2).
    apply toks_enc_one in H2. cbn [tok_enc] in H2. subst b2.
    destruct fuel as [|fuel]; [cbn in Hf; lia|].
    destruct (items_ok lax l IH b1 rest fuel p d Hw Hr Hs H1) as (x & Ex & Jx).
    { cbn [app length] in Hf. rewrite app_length in Hf. cbn [length] in Hf. lia. }
    cbn [app]. rewrite <- app_assoc. cbn [app]. rewrite export_S.
    change (JSON_ARRAY =? JSON_NULL) with false. change (in_rng JSON_TRUE JSON_FALSE JSON_ARRAY) with false. change (in_rng JSON_REAL32 JSON_REAL64 JSON_ARRAY) with false.
    change (in_rng JSON_INTV0 JSON_INT64 JSON_ARRAY) with false. change (in_rng JSON_STRINGV0 JSON_STRING32 JSON_ARRAY) with false. rewrite Z.eqb_refl. cbv iota.
    rewrite Ex. cbn [bind]. eexists. split; [reflexivity|]. destruct l as [|v l]; [subst x; apply (jt_arr0 lax false []); constructor|].
    apply jt_arr. apply (Jx []). constructor.
Qed.
End E.

(** ** termination and memory safety of the parser *)
Definition suffix (r l : list Z) : Prop := exists a, l = a ++ r.
Lemma suffix_refl l : suffix l l.
Proof. exists []. reflexivity. Qed.
Lemma suffix_trans a b c : suffix a b -> suffix b c -> suffix a c.
Proof. intros (x & ->) (y & ->). exists (y ++ x). now rewrite app_assoc. Qed.
Lemma suffix_len r l : suffix r l -> (length r <= length l)%nat.
Proof. intros (a & ->). rewrite app_length. lia. Qed.
Lemma suffix_in r l x : suffix r l -> In x r -> In x l.
Proof. intros (a & ->) H. apply in_or_app. auto. Qed.
Lemma suffix_bytes r l : suffix r l -> bytes_ok l = true -> bytes_ok r = true.
Proof. intros (a & ->) H. rewrite bytes_ok_app in H. apply andb_prop in H. tauto. Qed.
Lemma suffix_tl b l r : suffix (b :: l) r -> suffix l r.
Proof. intros (a & ->). exists (a ++ [b]). now rewrite <- app_assoc. Qed.
Lemma skip_suffix l : suffix (skip_spaces l) l.
Proof. induction l as [|b l IH]; [apply suffix_refl|]. cbn [skip_spaces]. destruct (is_space b); [|apply suffix_refl]. eapply suffix_trans; [exact IH|]. exists [b]. reflexivity. Qed.
Lemma next_inv' l b r : json_next l = Ok (b, r) -> exists t, r = b :: t /\ suffix r l.
Proof.
  unfold json_next. pose proof (skip_suffix l) as S. destruct (skip_spaces l) as [|x t]; [discriminate|]. intros H. injection H as <- <-. exists t. split; [reflexivity|exact S].
Qed.
Lemma next_not_ub l : json_next l <> UB.
Proof. unfold json_next. destruct (skip_spaces l); discriminate. Qed.
Lemma utf8_next_suffix l u r : utf8_next l = Ok (Some u, r) -> suffix r l /\ (length r < length l)%nat.
Proof.
  intros H. rewrite next_eq in H. destruct l as [|b l]; [discriminate|]. cbv zeta in H.
  assert (K : forall k, suffix (skipn (S k) (b :: l)) (b :: l) /\ (length (skipn (S k) (b :: l)) < length (b :: l))%nat).
  { intros k. split; [exists (firstn (S k) (b :: l)); symmetry; apply firstn_skipn|]. rewrite skipn_length. cbn [length]. lia. }
  repeat match type of H with (if ?c then _ else _) = _ => destruct c end; try discriminate; injection H as _ <-; first [exact (K 0%nat)|exact (K 1%nat)|exact (K 2%nat)|exact (K 3%nat)].
Qed.
Lemma string_loop_inv q f : forall sl u l, (length l < f)%nat -> string_loop f q sl u l <> UB /\
  (forall u' r, string_loop f q sl u l = Ok (u', r) -> suffix r l /\ (exists x, r = q :: x) /\ (u' = true -> u = true \/ In 92 l)).
Proof.
  induction f as [|f IH]; intros sl u l L; [lia|]. cbn [string_loop]. destruct l as [|c r0]; [split; [discriminate|intros; discriminate]|].
  cbn [length] in L. destruct (Z.eqb_spec c q) as [Eq|].
  - destruct sl.
    + destruct (IH false u r0 ltac:(lia)) as [A B]. split; [exact A|]. intros u' r H. destruct (B u' r H) as (S & X & D).
      split; [eapply suffix_trans; [exact S|exists [c]; reflexivity]|]. split; [exact X|]. intros E. destruct (D E); [auto|right; now right].
    + split; [discriminate|]. intros u' r H. injection H as <- <-. split; [apply suffix_refl|]. split; [exists r0; now rewrite Eq|auto].
  - destruct (c =? 10); [split; [discriminate|intros; discriminate]|]. cbv zeta.
    destruct (utf8_next (c :: r0)) as [[[x|] r']| |] eqn:E; cbn [bind]; try (split; [discriminate|intros; discriminate]).
    + apply utf8_next_suffix in E as [S L2]. cbn [length] in L2.
      destruct (IH (if c =? 92 then negb sl else false) (if c =? 92 then true else u) r' ltac:(lia)) as [A B]. split; [exact A|]. intros u' r H. destruct (B u' r H) as (S2 & X & D).
      split; [eapply suffix_trans; eassumption|]. split; [exact X|]. intros E. destruct (Z.eqb_spec c 92); [right; left; assumption|]. destruct (D E); [auto|right]. eapply suffix_in; eassumption.
    + exfalso. now apply (next_safe (c :: r0)).
Qed.
Lemma string_read_inv q l t u r : json_string_read q l = Ok (t, u, r) -> suffix (t ++ q :: r) (tl l) /\ (u = true -> In 92 l).
Proof.
  unfold json_string_read. intros H. destruct (string_loop_inv q (S (length (tl l))) false false (tl l) ltac:(lia)) as [_ B].
  destruct (string_loop (S (length (tl l))) q false false (tl l)) as [[u' r']| |]; cbn [bind] in H; try discriminate. injection H as <- <- <-.
  destruct (B u' r' eq_refl) as ((a & E) & (x & ->) & D). cbn [tl].
  assert (F : firstn (length (tl l) - length (q :: x)) (tl l) = a) by (rewrite E, app_length; replace (length a + length (q :: x) - length (q :: x))%nat with (length a) by lia; apply firstn_exact; reflexivity).
  rewrite F. rewrite E. split; [apply suffix_refl|]. intros ->. destruct (D eq_refl) as [|I]; [discriminate|]. destruct l; [exact I|now right].
Qed.
Lemma string_read_safe q l : json_string_read q l <> UB.
Proof.
  unfold json_string_read. destruct (string_loop_inv q (S (length (tl l))) false false (tl l) ltac:(lia)) as [A _].
  destruct (string_loop _ q false false (tl l)) as [[u' r']| |]; cbn [bind]; [discriminate|discriminate|]. now elim A.
Qed.
Lemma int_loop_inv l : forall v, 0 <= v <= INT64_MAX -> int_loop v l <> UB /\
  (forall x, int_loop v l = Ok x -> match x with inl (w, r) => suffix r l /\ 0 <= w <= INT64_MAX | inr _ => True end).
Proof.
  induction l as [|b l IH]; intros v V; cbn [int_loop].
  - split; [discriminate|]. intros x H. injection H as <-. split; [apply suffix_refl|exact V].
  - destruct ((b =? 46) || (b =? 101) || (b =? 69)); [split; [discriminate|]; intros x H; injection H as <-; exact I|].
    destruct (is_digit b) eqn:D; cbn [negb]; [|split; [discriminate|]; intros x H; injection H as <-; split; [apply suffix_refl|exact V]].
    unfold mul_add64. destruct (in64 (v * 10) && in64 (v * 10 + (b - 48))) eqn:R; cbn [bind]; [|split; [discriminate|intros; discriminate]].
    unfold is_digit, in64, INT64_MAX in *. destruct (IH (v * 10 + (b - 48)) ltac:(lia)) as [A B]. split; [exact A|]. intros x H. specialize (B x H).
    destruct x as [[w r]|]; [|exact I]. destruct B as [B1 B2]. split; [|exact B2]. eapply suffix_trans; [exact B1|]. exists [b]. reflexivity.
Qed.
Lemma unescape_len sl l r : unescape sl l = Ok r -> (length r <= length l)%nat.
Proof.
  revert sl r. induction l as [|b l IH]; intros sl r H; cbn [unescape] in H; [injection H as <-; cbn; lia|].
  destruct ((b =? 92) && negb sl); [specialize (IH _ _ H); cbn; lia|].
  destruct (negb sl); [|destruct (unescape_byte b); [|discriminate]];
    (destruct (unescape false l) as [x| |] eqn:E; cbn [bind] in H; try discriminate; injection H as <-; specialize (IH _ _ E); cbn; lia).
Qed.
Lemma unescape_bytes sl l r : bytes_ok l = true -> unescape sl l = Ok r -> bytes_ok r = true.
Proof.
  revert sl r. induction l as [|b l IH]; intros sl r B H; cbn [unescape] in H; [injection H as <-; reflexivity|].
  apply bytes_cons in B as [B0 B]. destruct ((b =? 92) && negb sl); [exact (IH _ _ B H)|].
  destruct (negb sl).
  - destruct (unescape false l) as [x| |] eqn:E; cbn [bind] in H; try discriminate; injection H as <-. specialize (IH _ _ B E). unfold bytes_ok in *. cbn [forallb]. rewrite IH. unfold byte_ok. lia.
  - destruct (unescape_byte b) as [c|] eqn:U; [|discriminate]. destruct (unescape false l) as [x| |] eqn:E; cbn [bind] in H; try discriminate; injection H as <-. specialize (IH _ _ B E). unfold bytes_ok in *. cbn [forallb]. rewrite IH.
    unfold unescape_byte in U. repeat match type of U with (if ?c then _ else _) = _ => destruct c; [injection U as <-; reflexivity|] end. discriminate.
Qed.
Lemma write_string_wf t u bs : bytes_ok t = true -> Z.of_nat (length t) <= INT32_MAX -> write_string t u = Ok bs -> exists s, str_wf s = true /\ tok_enc (TStr s) bs.
Proof.
  intros B L H. unfold write_string in H. destruct u.
  - destruct (unescape false t) as [x| |] eqn:E; cbn [bind] in H; try discriminate. injection H as <-. exists x. split; [|right; reflexivity].
    unfold str_wf. rewrite (unescape_bytes _ _ _ B E). apply unescape_len in E. unfold INT32_MAX in *. cbn [andb]. lia.
  - injection H as <-. exists t. split; [|left; reflexivity]. unfold str_wf. rewrite B. unfold INT32_MAX in *. cbn [andb]. lia.
Qed.

Section T.
Variable sd : list Z -> option (Z * list Z).
Hypothesis sd_suffix : forall l b r, sd l = Some (b, r) -> suffix r l /\ 0 <= b < 2 ^ 64.
Notation step := (step sd).
Notation parse_loop := (parse_loop sd).
(** a constant *)
Lemma const_inv b l t : l = b :: t -> (json_const sd b l = UB -> In 92 l) /\
  (forall w r, json_const sd b l = Ok (w, r) -> suffix r l /\ (bytes_ok l = true -> Z.of_nat (length l) <= INT32_MAX -> exists v, json_wf v = true /\ Enc v w)).
Proof.
  intros El. unfold json_const. 
  destruct ((b =? 34) || (b =? 39)).
  { pose proof (string_read_safe b l) as Sf. destruct (json_string_read b l) as [[[s u] r]| |] eqn:R; cbn [bind fst snd]; [|split; [|intros]; discriminate|now elim Sf].
    apply string_read_inv in R as [S D]. split.
    - unfold write_string. destruct u; [intros _; now apply D|]. discriminate.
    - intros w r' H. destruct (write_string s u) as [x| |] eqn:W; cbn [bind] in H; try discriminate. injection H as <- <-.
      assert (S2 : suffix (s ++ b :: r) l) by (rewrite El in *; cbn [tl] in S; eapply suffix_trans; [exact S|exists [b]; reflexivity]).
      split; [eapply suffix_trans; [|exact S2]; exists (s ++ [b]); now rewrite <- app_assoc|]. intros B L.
      destruct (write_string_wf s u x) as (v & V & E); [apply (suffix_bytes _ _ S2) in B; rewrite bytes_ok_app in B; apply andb_prop in B; tauto|apply suffix_len in S2; rewrite app_length in S2; cbn [length] in S2; lia|exact W|].
      exists (JStr v). split; [exact V|]. rewrite <- (app_nil_r x). apply (te_cons (TStr v) []); [exact E|constructor]. }
  assert (KW : forall name tok0 bs v, tok_enc tok0 bs -> toks v = [tok0] -> json_wf v = true ->
     ((do r <- json_keyword name l; Ok (bs, r)) = UB -> In 92 l) /\
     (forall w r, (do r <- json_keyword name l; Ok (bs, r)) = Ok (w, r) -> suffix r l /\ (bytes_ok l = true -> Z.of_nat (length l) <= INT32_MAX -> exists v, json_wf v = true /\ Enc v w))).
  { intros name tok0 bs v T Tv Vw. unfold json_keyword. destruct (_ && _); cbn [bind]; (split; [discriminate|]); intros w r H; [|discriminate].
    injection H as <- <-. split; [exists (firstn (length name) l); symmetry; apply firstn_skipn|]. intros _ _. exists v. split; [exact Vw|]. unfold Enc. rewrite Tv. rewrite <- (app_nil_r bs). apply te_cons; [exact T|constructor]. }
  destruct ((b =? 110) || (b =? 78)); [apply (KW lit_null TNull _ JNull); reflexivity|].
  destruct ((b =? 116) || (b =? 84)); [apply (KW lit_true (TBool true) _ (JBool true)); reflexivity|].
  destruct ((b =? 102) || (b =? 70)); [apply (KW lit_false (TBool false) _ (JBool false)); reflexivity|].
  destruct (is_digit b || (b =? 46) || (b =? 45)); [|split; [|intros]; discriminate].
  unfold json_integer. set (minus := match l with 45 :: _ => true | _ => false end). set (start := if minus then tl l else l).
  assert (Ss : suffix start l) by (unfold start; destruct minus; [rewrite El; exists [b]; reflexivity|apply suffix_refl]).
  destruct (int_loop_inv start 0 ltac:(unfold INT64_MAX; lia)) as [A B]. destruct (int_loop 0 start) as [x| |] eqn:Ex; cbn [bind]; [|split; [|intros]; discriminate|now elim A].
  specialize (B x eq_refl). destruct x as [[v r]|[]].
  - destruct B as [B1 B2]. split; [discriminate|]. intros w r' H. injection H as <- <-. split; [eapply suffix_trans; eassumption|]. intros _ _.
    exists (JInt (if minus then - v else v)). split; [cbn [json_wf]; unfold INT64_MIN, INT64_MAX in *; destruct minus; lia|].
    rewrite <- (app_nil_r (json_write_integer _)). apply (te_cons (TInt _) []); [reflexivity|constructor].
  - destruct (sd start) as [[rb r]|] eqn:Es; [|split; [|intros]; discriminate]. apply sd_suffix in Es as [S R]. split; [discriminate|]. intros w r' H. injection H as <- <-.
    split; [eapply suffix_trans; eassumption|]. intros _ _. exists (JReal (if minus then neg_real rb else rb)). split.
    + cbn [json_wf]. unfold neg_real. destruct minus; [destruct (Z.ltb_spec rb (2 ^ 63))|]; lia.
    + rewrite <- (app_nil_r (json_write_real _)). apply (te_cons (TReal _) []); [reflexivity|constructor].
Qed.

(** what a stack has still to write *)
Inductive G : list jstate -> list Z -> Prop :=
| G_nil : G [] []
| G_val st v bv b : json_wf v = true -> Enc v bv -> G st b -> G (SValue :: st) (bv ++ b)
| G_arr st l bl b : forallb json_wf l = true -> toks_enc (item_toks l) bl -> G st b -> G (SArrayNext :: st) (bl ++ JSON_ARRAY_END :: b)
| G_key st l bl b : fields_wf l = true -> toks_enc (field_toks l) bl -> G st b -> G (SMapKey :: st) (bl ++ JSON_OBJ_END :: b)
| G_map st l bl b : fields_wf l = true -> toks_enc (field_toks l) bl -> G st b -> G (SMapNext :: st) (bl ++ JSON_OBJ_END :: b).

Lemma step_inv s l : (step s l = UB -> In 92 l) /\
  (forall p w l', step s l = Ok (p, w, l') -> suffix l' l /\ (2 * length l' + length p < 2 * length l + 1)%nat /\
     (bytes_ok l = true -> Z.of_nat (length l) <= INT32_MAX -> forall st b, G (p ++ st) b -> G (s :: st) (w ++ b))).
Proof.
  unfold JsonTextModel.step. pose proof (next_not_ub l) as N. destruct (json_next l) as [[b l1]| |] eqn:E; cbn [bind]; [|split; [|intros]; discriminate|now elim N]. clear N.
  apply next_inv' in E as (t & -> & S). pose proof (suffix_len _ _ S) as Ls. cbn [length] in Ls. pose proof (suffix_tl _ _ _ S) as St.
  assert (NX : forall k, suffix k l -> forall b2 l2, json_next k = Ok (b2, l2) -> suffix l2 l /\ suffix (tl l2) l /\ (length l2 <= length k)%nat /\ (length (tl l2) < length k)%nat).
  { intros k K b2 l2 H. apply next_inv' in H as (t2 & -> & S2). pose proof (suffix_len _ _ S2). cbn [tl length] in *. split; [eapply suffix_trans; eassumption|]. split; [eapply suffix_trans; [eapply suffix_tl; exact S2|exact K]|]. lia. }
  destruct s.
  - (* value *)
    destruct (b =? 91).
    { cbn [tl]. pose proof (next_not_ub t) as N. destruct (json_next t) as [[b2 l2]| |] eqn:E2; cbn [bind]; [|split; [|intros]; discriminate|now elim N].
      destruct (NX t St b2 l2 E2) as (X1 & X2 & X3 & X4). destruct (b2 =? 93); (split; [discriminate|]); intros p w l' H; injection H as <- <- <-.
      - split; [exact X2|]. split; [cbn [length]; lia|]. intros _ _ st bb Gs. cbn [app] in Gs. apply (G_val st (JArr []) [JSON_ARRAY; JSON_ARRAY_END]); [reflexivity| |exact Gs].
        apply (te_cons TArr [TArrE] [JSON_ARRAY] [JSON_ARRAY_END]); [reflexivity|]. apply (te_cons TArrE [] [JSON_ARRAY_END] []); [reflexivity|constructor].
      - split; [exact X1|]. split; [cbn [length]; lia|]. intros _ _ st bb Gs. cbn [app] in Gs. inversion Gs as [|st0 v bv b0 Wv Ev G0| | |]; subst. inversion G0 as [| |st1 vs bl b1 Wl El G1| |]; subst.
        replace ([JSON_ARRAY] ++ bv ++ bl ++ JSON_ARRAY_END :: b1) with ((JSON_ARRAY :: (bv ++ bl) ++ [JSON_ARRAY_END]) ++ b1) by (cbn [app]; rewrite <- !app_assoc; reflexivity).
        apply (G_val st (JArr (v :: vs))); [cbn [json_wf forallb]; now rewrite Wv|  |exact G1]. unfold Enc. cbn [toks].
        apply (te_cons TArr _ [JSON_ARRAY]); [reflexivity|]. apply toks_enc_app; [cbn [flat_map]; apply toks_enc_app; assumption|]. apply (te_cons TArrE [] [JSON_ARRAY_END] []); [reflexivity|constructor]. }
    destruct (b =? 123).
    { cbn [tl]. pose proof (next_not_ub t) as N. destruct (json_next t) as [[b2 l2]| |] eqn:E2; cbn [bind]; [|split; [|intros]; discriminate|now elim N].
      destruct (NX t St b2 l2 E2) as (X1 & X2 & X3 & X4). destruct (b2 =? 125); (split; [discriminate|]); intros p w l' H; injection H as <- <- <-.
      - split; [exact X2|]. split; [cbn [length]; lia|]. intros _ _ st bb Gs. cbn [app] in Gs. apply (G_val st (JObj []) [JSON_OBJ; JSON_OBJ_END]); [reflexivity| |exact Gs].
        apply (te_cons TObj [TObjE] [JSON_OBJ] [JSON_OBJ_END]); [reflexivity|]. apply (te_cons TObjE [] [JSON_OBJ_END] []); [reflexivity|constructor].
      - split; [exact X1|]. split; [cbn [length]; lia|]. intros _ _ st bb Gs. cbn [app] in Gs. inversion Gs as [| | |st1 vs bl b1 Wl El G1|]; subst.
        replace ([JSON_OBJ] ++ bl ++ JSON_OBJ_END :: b1) with ((JSON_OBJ :: bl ++ [JSON_OBJ_END]) ++ b1) by (cbn [app]; rewrite <- !app_assoc; reflexivity).
        apply (G_val st (JObj vs)); [exact Wl|  |exact G1]. unfold Enc. cbn [toks].
        apply (te_cons TObj _ [JSON_OBJ]); [reflexivity|]. apply toks_enc_app; [exact El|]. apply (te_cons TObjE [] [JSON_OBJ_END] []); [reflexivity|constructor]. }
    destruct (const_inv b (b :: t) t eq_refl) as [A B]. destruct (json_const sd b (b :: t)) as [[w r]| |]; cbn [bind].
    + split; [discriminate|]. intros p w' l' H. injection H as <- <- <-. destruct (B w r eq_refl) as [B1 B2]. split; [eapply suffix_trans; eassumption|]. apply suffix_len in B1 as B1'. cbn [length] in *. split; [lia|].
      intros Bk Lk st bb Gs. cbn [app] in Gs. destruct (B2 (suffix_bytes _ _ S Bk)) as (v & V & Ev); [cbn [length]; lia|]. apply (G_val st v); assumption.
    + split; [|intros]; discriminate.
    + split; [|intros; discriminate]. intros _. apply (suffix_in _ _ _ S). now apply A.
  - (* array next *)
    destruct (b =? 44); [|destruct (b =? 93); [|split; [|intros]; discriminate]]; (split; [discriminate|]); intros p w l' H; injection H as <- <- <-; cbn [tl];
      (split; [exact St|]); (split; [cbn [length]; lia|]); intros _ _ st bb Gs; cbn [app] in *.
    + inversion Gs as [|st0 v bv b0 Wv Ev G0| | |]; subst. inversion G0 as [| |st1 vs bl b1 Wl El G1| |]; subst.
      rewrite app_assoc. apply (G_arr st (v :: vs)); [cbn [forallb]; now rewrite Wv| |exact G1]. unfold item_toks. cbn [flat_map]. apply toks_enc_app; assumption.
    + apply (G_arr st [] []); [reflexivity|constructor|exact Gs].
  - (* map key *)
    destruct (negb _); [split; [|intros]; discriminate|].
    pose proof (string_read_safe b (b :: t)) as Sf. destruct (json_string_read b (b :: t)) as [[[s u] r]| |] eqn:R; cbn [bind fst snd]; [|split; [|intros]; discriminate|now elim Sf]. clear Sf.
    apply string_read_inv in R as [Sr D]. cbn [tl] in Sr. pose proof (suffix_len _ _ Sr) as Lr. rewrite app_length in Lr. cbn [length] in Lr.
    assert (S2 : suffix (s ++ b :: r) l) by (eapply suffix_trans; eassumption).
    assert (Srr : suffix r l) by (eapply suffix_trans; [|exact S2]; exists (s ++ [b]); now rewrite <- app_assoc).
    destruct (write_string s u) as [x| |] eqn:W; cbn [bind].
    + pose proof (next_not_ub r) as N. destruct (json_next r) as [[b2 l2]| |] eqn:E2; cbn [bind]; [|split; [|intros]; discriminate|now elim N].
      destruct (NX r Srr b2 l2 E2) as (X1 & X2 & X3 & X4). destruct (negb (b2 =? 58)); (split; [discriminate|]); intros p w l' H; [discriminate|]. injection H as <- <- <-.
      split; [exact X2|]. split; [cbn [length]; lia|]. intros Bk Lk st bb Gs. cbn [app] in Gs.
      destruct (write_string_wf s u x) as (k & K & Ek); [apply (suffix_bytes _ _ S2) in Bk; rewrite bytes_ok_app in Bk; apply andb_prop in Bk; tauto|apply suffix_len in S2; rewrite app_length in S2; cbn [length] in S2; lia|exact W|].
      inversion Gs as [|st0 v bv b0 Wv Ev G0| | |]; subst. inversion G0 as [| | | |st1 vs bl b1 Wl El G1]; subst.
      rewrite !app_assoc. apply (G_key st ((k, v) :: vs)); [unfold fields_wf in *; cbn [forallb fst snd]; now rewrite K, Wv| |exact G1].
      unfold field_toks. cbn [flat_map fst snd]. rewrite <- app_assoc. apply te_cons; [exact Ek|]. apply toks_enc_app; assumption.
    + split; [|intros]; discriminate.
    + split; [|intros; discriminate]. intros _. unfold write_string in W. destruct u; [|discriminate]. apply (suffix_in _ _ _ S). now apply D.
  - (* map next *)
    destruct (b =? 44); [|destruct (b =? 125); [|split; [|intros]; discriminate]]; (split; [discriminate|]); intros p w l' H; injection H as <- <- <-; cbn [tl];
      (split; [exact St|]); (split; [cbn [length]; lia|]); intros _ _ st bb Gs; cbn [app] in *.
    + inversion Gs as [| | |st1 vs bl b1 Wl El G1|]; subst. apply (G_map st vs); assumption.
    + apply (G_map st [] []); [reflexivity|constructor|exact Gs].
Qed.
Lemma loop_safe f : forall st l out, (2 * length l + length st <= f)%nat -> ~ In 92 l -> parse_loop f st l out <> UB.
Proof.
  induction f as [|f IH]; intros st l out L N; destruct st as [|s st]; cbn [JsonTextModel.parse_loop]; try discriminate; [cbn [length] in L; lia|].
  destruct (step_inv s l) as [A B]. destruct (step s l) as [[[p w] l']| |]; cbn [bind fst snd]; [|discriminate|now elim N; apply A].
  destruct (B p w l' eq_refl) as (S & Ln & _). apply IH; [rewrite app_length; cbn [length] in L; lia|]. intros I. apply N. eapply suffix_in; eassumption.
Qed.
Lemma loop_sound f : forall st l out o r, bytes_ok l = true -> Z.of_nat (length l) <= INT32_MAX -> parse_loop f st l out = Ok (o, r) -> exists b, o = out ++ b /\ G st b /\ suffix r l.
Proof.
  induction f as [|f IH]; intros st l out o r B L H; destruct st as [|s st]; cbn [JsonTextModel.parse_loop] in H; try discriminate;
    try (injection H as <- <-; exists []; rewrite app_nil_r; split; [reflexivity|]; split; [constructor|apply suffix_refl]).
  destruct (step_inv s l) as [_ Si]. destruct (step s l) as [[[p w] l']| |]; cbn [bind fst snd] in H; try discriminate.
  destruct (Si p w l' eq_refl) as (S & _ & K). destruct (IH _ _ _ _ _ (suffix_bytes _ _ S B) ltac:(apply suffix_len in S; lia) H) as (b & -> & Gb & Sr).
  exists (w ++ b). split; [now rewrite app_assoc|]. split; [now apply K|]. eapply suffix_trans; eassumption.
Qed.
Lemma parse_sound l o r : bytes_ok l = true -> Z.of_nat (length l) <= INT32_MAX -> json_parse sd l = Ok (o, r) -> exists v, json_wf v = true /\ Enc v o /\ suffix r l.
Proof.
  intros B L H. destruct (loop_sound _ _ _ _ _ _ B L H) as (b & -> & Gb & S). inversion Gb as [|st0 v bv b0 Wv Ev G0| | |]; subst. inversion G0; subst. exists v. rewrite app_nil_r. auto.
Qed.
End T.

(** ** the accepted texts *)
Lemma unescape_defined s r : unescape false s = Ok r <-> known_escapes s r.
Proof.
  split.
  - revert r. assert (K : forall n (s r : list Z), (length s < n)%nat -> unescape false s = Ok r -> known_escapes s r); [|intros r; apply (K (S (length s))); lia]. clear.
    induction n as [|n IH]; intros s r L H; [lia|]. destruct s as [|b s]; [injection H as <-; constructor|]. cbn [length] in L. cbn [unescape] in H. destruct (Z.eqb_spec b 92) as [-> | N]; cbn [andb negb] in H.
    + destruct s as [|e s]; [injection H as <-; constructor|]. cbn [unescape] in H. rewrite andb_false_r in H. cbn [negb] in H. destruct (unescape_byte e) as [c|] eqn:U; [|discriminate].
      destruct (unescape false s) as [x| |] eqn:E; cbn [bind] in H; try discriminate. injection H as <-. apply ke_esc; [|apply IH; [cbn [length] in L; lia|exact E]].
      unfold unescape_byte in U. repeat match type of U with (if e =? ?k then _ else _) = _ => destruct (Z.eqb_spec e k) as [->|]; [injection U as <-; cbn; tauto|] end. discriminate.
    + destruct (unescape false s) as [x| |] eqn:E; cbn [bind] in H; try discriminate. injection H as <-. apply ke_char; [exact N|]. apply IH; [lia|exact E].
  - induction 1 as [| |b s r N K IH|e c s r I K IH]; [reflexivity|reflexivity| |].
    + cbn [unescape]. replace (b =? 92) with false by lia. cbn [andb negb]. now rewrite IH.
    + cbn [unescape Z.eqb Pos.eqb andb negb]. rewrite andb_false_r. replace (unescape_byte e) with (Some c); [now rewrite IH|].
      cbn [In] in I. repeat (destruct I as [I|I]; [injection I as <- <-; reflexivity|]). destruct I.
Qed.

Lemma skip_sp_inv l : exists w, sp w /\ l = w ++ skip_spaces l.
Proof.
  induction l as [|b l IH]; [exists []; split; [constructor|reflexivity]|]. cbn [skip_spaces]. destruct (is_space b) eqn:E; [|exists []; split; [constructor|reflexivity]].
  destruct IH as (w & W & El). exists (b :: w). split; [constructor; [unfold is_space in E; cbn; lia|exact W]|]. cbn [app]. now rewrite <- El.
Qed.
Lemma next_text l b r : json_next l = Ok (b, r) -> exists w t, sp w /\ r = b :: t /\ l = w ++ b :: t.
Proof.
  unfold json_next. destruct (skip_sp_inv l) as (w & W & E). destruct (skip_spaces l) as [|x t]; [discriminate|]. intros H. injection H as <- <-. exists w, t. auto.
Qed.
Lemma string_loop_text q f : (q = 34 \/ q = 39) -> forall (sl u : bool) l u' r, bytes_ok l = true -> string_loop f q sl u l = Ok (u', r) ->
  exists raw x, l = raw ++ r /\ r = q :: x /\ u' = u || has92 raw /\ (if sl then exists c raw', raw = utf8 c ++ raw' /\ code c /\ c <> 10 /\ lraw q raw' else lraw q raw).
Proof.
  intros Q. induction f as [|f IH]; intros sl u l u' r B H; [discriminate|]. cbn [string_loop] in H. destruct l as [|c r0]; [discriminate|].
  destruct (Z.eqb_spec c q) as [Eq|Nq].
  - destruct sl.
    + apply bytes_cons in B as [_ B]. destruct (IH false u r0 u' r B H) as (raw & x & -> & -> & -> & R). exists (c :: raw), x. split; [reflexivity|]. split; [reflexivity|].
      split; [unfold has92; cbn [existsb]; replace (92 =? c) with false by lia; reflexivity|]. exists c, raw. split; [unfold utf8; replace (c <? 128) with true by lia; reflexivity|]. split; [unfold code; lia|]. split; [lia|exact R].
    + injection H as <- <-. exists [], r0. rewrite orb_false_r. subst c. repeat split. constructor.
  - destruct (Z.eqb_spec c 10) as [|N10]; [discriminate|]. cbv zeta in H. destruct (utf8_next (c :: r0)) as [[[x|] r']| |] eqn:E; cbn [bind] in H; try discriminate.
    apply (next_inv _ _ _ B) in E as [Hx E]. assert (B' : bytes_ok r' = true) by (rewrite E, bytes_ok_app in B; apply andb_prop in B; tauto).
    destruct (utf8_head x Hx) as (b0 & t0 & Eu & A1 & A2 & F). assert (Hc : b0 = c) by (rewrite Eu in E; cbn in E; congruence).
    assert (Hlow : x < 128 -> x = c) by (intros L; destruct (A1 L); congruence). assert (Hhi : 128 <= x -> 192 <= c) by (intros L; rewrite <- Hc; exact (A2 L)). clear A1 A2.
    assert (N92 : (c =? 92) = (x =? 92)) by lia.
    destruct (IH _ _ _ _ _ B' H) as (raw & y & -> & -> & -> & R). rewrite E. exists (utf8 x ++ raw), y. rewrite <- app_assoc. split; [reflexivity|]. split; [reflexivity|].
    rewrite has92_app. destruct (Z.eqb_spec c 92) as [E92|Ne92].
    + assert (x = 92) by lia. subst x. split; [cbn; now rewrite orb_true_r|]. destruct sl; cbn [negb] in R.
      * exists 92, raw. split; [reflexivity|]. split; [exact Hx|]. split; [lia|exact R].
      * destruct R as (c2 & raw' & -> & C2 & N2 & R). change (utf8 92) with [92]. cbn [app]. now apply lr_esc.
    + rewrite (utf8_no92 x Hx) by lia. split; [reflexivity|]. destruct sl.
      * exists x, raw. split; [reflexivity|]. split; [exact Hx|]. split; [lia|exact R].
      * apply lr_char; [exact Hx|lia|lia|lia|exact R].
Qed.
Lemma known_same t : has92 t = false -> known_escapes t t.
Proof. induction t as [|b t IH]; intros H; [constructor|]. unfold has92 in *. cbn [existsb] in H. apply orb_false_elim in H as [H1 H2]. apply ke_char; [lia|now apply IH]. Qed.
Lemma string_read_text q t0 t u r w : (q = 34 \/ q = 39) -> bytes_ok (q :: t0) = true -> json_string_read q (q :: t0) = Ok (t, u, r) -> write_string t u = Ok w ->
  exists s tx, lstring s tx /\ q :: t0 = tx ++ r /\ tok_enc (TStr s) w.
Proof.
  intros Q B H W. apply bytes_cons in B as [_ B]. unfold json_string_read in H. cbn [tl] in H.
  destruct (string_loop (S (length t0)) q false false t0) as [[u' r']| |] eqn:E; cbn [bind] in H; try discriminate. injection H as <- <- <-.
  destruct (string_loop_text q _ Q false false t0 u' r' B E) as (raw & x & El & -> & -> & R). cbn [tl orb] in *.
  assert (F : firstn (length t0 - length (q :: x)) t0 = raw) by (rewrite El, app_length; replace (length raw + length (q :: x) - length (q :: x))%nat with (length raw) by lia; apply firstn_exact; reflexivity).
  rewrite F in W. unfold write_string in W.
  assert (K : exists s, known_escapes raw s /\ tok_enc (TStr s) w).
  { destruct (has92 raw) eqn:H9.
    - destruct (unescape false raw) as [s| |] eqn:U; cbn [bind] in W; try discriminate. injection W as <-. exists s. split; [now apply unescape_defined|right; reflexivity].
    - injection W as <-. exists raw. split; [now apply known_same|left; reflexivity]. }
  destruct K as (s & K & T). exists s, (q :: raw ++ [q]). split; [exists q, raw; auto|]. split; [|exact T]. rewrite El. cbn [app]. now rewrite <- app_assoc.
Qed.
Lemma lower_letter a b : 97 <= b <= 122 -> tolower a = b -> a = b \/ a = b - 32.
Proof. unfold tolower. intros H E. destruct ((65 <=? a) && (a <=? 90)) eqn:K; lia. Qed.
Lemma keyword_text name l r : Forall (fun b => 97 <= b <= 122) name -> json_keyword name l = Ok r -> exists t, same_letters t name /\ l = t ++ r.
Proof.
  intros N H. unfold json_keyword in H. destruct ((length name <=? length l)%nat && _) eqn:E; [|discriminate]. injection H as <-. apply andb_prop in E as [L E].
  exists (firstn (length name) l). split; [|symmetry; apply firstn_skipn]. apply bytes_eqb_eq in E. unfold same_letters.
  remember (firstn (length name) l) as t. clear -N E. revert t E. induction N as [|b name Hb _ IH]; intros t E; [destruct t; [constructor|discriminate]|].
  destruct t as [|a t]; [discriminate|]. cbn [map] in E. injection E as E1 E2. constructor; [now apply lower_letter|now apply IH].
Qed.
Lemma int_loop_text l : forall v x r, 0 <= v -> int_loop v l = Ok (inl (x, r)) -> exists ds, l = ds ++ r /\ forallb is_digit ds = true /\ x = fold_left (fun a b => a * 10 + (b - 48)) ds v.
Proof.
  induction l as [|b l IH]; intros v x r V H; cbn [int_loop] in H; [injection H as <- <-; exists []; auto|].
  destruct ((b =? 46) || (b =? 101) || (b =? 69)); [discriminate|]. destruct (is_digit b) eqn:D; cbn [negb] in H; [|injection H as <- <-; exists []; auto].
  unfold mul_add64 in H. destruct (in64 (v * 10) && _); cbn [bind] in H; [|discriminate]. apply IH in H as (ds & -> & F & ->); [|unfold is_digit in D; lia].
  exists (b :: ds). cbn [app forallb fold_left]. rewrite D, F. auto.
Qed.
Definition no_real : list Z -> option (Z * list Z) := fun _ => None.
Lemma const_text b t w r : bytes_ok (b :: t) = true -> json_const no_real b (b :: t) = Ok (w, r) -> exists v tx, ltext v tx /\ b :: t = tx ++ r /\ Enc v w.
Proof.
  intros B H. unfold json_const in H. destruct ((b =? 34) || (b =? 39)) eqn:Q.
  { destruct (json_string_read b (b :: t)) as [[[s u] r']| |] eqn:R; cbn [bind fst snd] in H; try discriminate. destruct (write_string s u) as [w'| |] eqn:W; cbn [bind] in H; try discriminate. injection H as <- <-.
    destruct (string_read_text b t s u r' w' ltac:(lia) B R W) as (v & tx & L & E & T). exists (JStr v), tx. split; [now constructor|]. split; [exact E|]. rewrite <- (app_nil_r w'). apply (te_cons (TStr v) []); [exact T|constructor]. }
  assert (KW : forall name tok0 bs v w r, Forall (fun b => 97 <= b <= 122) name -> tok_enc tok0 bs -> toks v = [tok0] -> (forall tx, same_letters tx name -> ltext v tx) ->
     (do r <- json_keyword name (b :: t); Ok (bs, r)) = Ok (w, r) -> exists v tx, ltext v tx /\ b :: t = tx ++ r /\ Enc v w).
  { intros name tok0 bs v w0 r0 N T Tv Lt K. destruct (json_keyword name (b :: t)) as [r1| |] eqn:E; cbn [bind] in K; try discriminate. injection K as <- <-.
    destruct (keyword_text _ _ _ N E) as (tx & S & El). exists v, tx. split; [now apply Lt|]. split; [exact El|]. unfold Enc. rewrite Tv. rewrite <- (app_nil_r bs). apply te_cons; [exact T|constructor]. }
  destruct ((b =? 110) || (b =? 78)); [eapply (KW lit_null TNull _ JNull); [|..|exact H]; try reflexivity; [repeat constructor; lia|intros; now constructor]|].
  destruct ((b =? 116) || (b =? 84)); [eapply (KW lit_true (TBool true) _ (JBool true)); [|..|exact H]; try reflexivity; [repeat constructor; lia|intros; now constructor]|].
  destruct ((b =? 102) || (b =? 70)); [eapply (KW lit_false (TBool false) _ (JBool false)); [|..|exact H]; try reflexivity; [repeat constructor; lia|intros; now constructor]|].
  destruct (is_digit b || (b =? 46) || (b =? 45)) eqn:D; [|discriminate].
  unfold json_integer in H. remember (match b :: t with 45 :: _ => true | _ => false end) as minus. set (start := if minus then tl (b :: t) else b :: t) in *.
  pose proof (int_loop_inv start 0 ltac:(unfold INT64_MAX; lia)) as [_ Rg]. destruct (int_loop 0 start) as [x| |] eqn:Ex; cbn [bind] in H; try discriminate. destruct x as [[v r']|]; [|discriminate]. injection H as <- <-.
  specialize (Rg _ eq_refl). cbn in Rg. destruct Rg as [_ Rg]. destruct (int_loop_text start 0 v r' (Z.le_refl 0) Ex) as (ds & Es & F & Ev). change (fold_left _ ds 0) with (num ds) in Ev.
  assert (Em : minus = true -> b = 45). { intros M. rewrite Heqminus in M. destruct b as [|p|p]; try discriminate. do 6 (destruct p as [p|p|]; try discriminate). reflexivity. }
  exists (JInt (if minus then - v else v)), ((if minus then [45] else []) ++ ds). split; [|split].
  - constructor. exists minus, ds. split; [reflexivity|]. split; [exact F|]. split; [|split; [unfold INT64_MAX in Rg; lia|rewrite <- Ev; reflexivity]].
    destruct minus; [auto|right]. intros ->. unfold start in Es, Ex. cbn [app] in Es. subst r'. cbn [int_loop] in Ex.
    destruct ((b =? 46) || (b =? 101) || (b =? 69)) eqn:E1; [discriminate|]. destruct (is_digit b) eqn:Db; cbn [negb] in Ex.
    + unfold mul_add64 in Ex. destruct (in64 (0 * 10) && _); cbn [bind] in Ex; [|discriminate]. destruct (int_loop_text _ (0 * 10 + (b - 48)) _ _ ltac:(unfold is_digit in Db; lia) Ex) as (ds' & Ed & _). apply (f_equal (@length Z)) in Ed. rewrite app_length in Ed. cbn [length] in Ed. lia.
    + assert (b = 45) by lia. subst b. discriminate.
  - unfold start in Es. destruct minus; cbn [tl app] in *; [rewrite (Em eq_refl)|]; now rewrite Es.
  - rewrite <- (app_nil_r (json_write_integer _)). apply (te_cons (TInt _) []); [reflexivity|constructor].
Qed.
(** the text a stack reads and the bytes it writes *)
Inductive R : list jstate -> list Z -> list Z -> Prop :=
| R_nil : R [] [] []
| R_val st w v tv bv t b : sp w -> ltext v tv -> Enc v bv -> R st t b -> R (SValue :: st) (w ++ tv ++ t) (bv ++ b)
| R_arr st l tl bl t b : lnext l tl -> toks_enc (item_toks l) bl -> R st t b -> R (SArrayNext :: st) (tl ++ t) (bl ++ JSON_ARRAY_END :: b)
| R_key st l tl bl t b : lkey l tl -> toks_enc (field_toks l) bl -> R st t b -> R (SMapKey :: st) (tl ++ t) (bl ++ JSON_OBJ_END :: b)
| R_map st l tl bl t b : lfield l tl -> toks_enc (field_toks l) bl -> R st t b -> R (SMapNext :: st) (tl ++ t) (bl ++ JSON_OBJ_END :: b).
Ltac lists := cbn [app]; rewrite <- ?app_assoc; cbn [app]; rewrite <- ?app_assoc; cbn [app]; rewrite <- ?app_assoc; reflexivity.
Lemma one_enc t bs : tok_enc t bs -> toks_enc [t] bs.
Proof. intros H. rewrite <- (app_nil_r bs). apply te_cons; [exact H|constructor]. Qed.
(** a value read with the white space before it skipped *)
Lemma R_unskip st t b w : R (SValue :: st) t b -> sp w -> exists v tv bv t' b' w2, sp w2 /\ ltext v tv /\ Enc v bv /\ R st t' b' /\ w ++ t = w ++ w2 ++ tv ++ t' /\ b = bv ++ b'.
Proof. intros H W. inversion H as [|st0 w2 v tv bv t' b' W2 L E R0| | |]; subst. exists v, tv, bv, t', b', w2. auto 8. Qed.
Lemma sp_app a b : sp a -> sp b -> sp (a ++ b).
Proof. intros A B. apply Forall_app. split; assumption. Qed.
Lemma step_text s l p w l' : bytes_ok l = true -> step no_real s l = Ok (p, w, l') -> exists a, l = a ++ l' /\ forall st t b, R (p ++ st) t b -> R (s :: st) (a ++ t) (w ++ b).
Proof.
  intros B H. unfold step in H. destruct (json_next l) as [[b0 l1]| |] eqn:E; cbn [bind] in H; try discriminate. apply next_text in E as (w0 & t0 & W0 & -> & ->).
  assert (B0 : bytes_ok (b0 :: t0) = true) by (rewrite bytes_ok_app in B; apply andb_prop in B; tauto).
  destruct s; cbn [tl] in H.
  - destruct (Z.eqb_spec b0 91) as [-> |].
    { destruct (json_next t0) as [[b2 l2]| |] eqn:E2; cbn [bind] in H; try discriminate. apply next_text in E2 as (w1 & t1 & W1 & -> & ->). cbn [tl] in H.
      destruct (Z.eqb_spec b2 93) as [-> |]; injection H as <- <- <-.
      - exists (w0 ++ 91 :: w1 ++ [93]). split; [lists|]. intros st t b Rr. cbn [app] in *. pose proof (R_val st w0 (JArr []) (91 :: w1 ++ [93]) [JSON_ARRAY; JSON_ARRAY_END] t b W0 (lt_arr0 w1 W1)) as X. rewrite <- app_assoc. apply X; [|exact Rr].
        apply (te_cons TArr [TArrE] [JSON_ARRAY] [JSON_ARRAY_END]); [reflexivity|]. apply one_enc. reflexivity.
      - exists (w0 ++ 91 :: w1). split; [lists|]. intros st t b Rr. cbn [app] in *. inversion Rr as [|st0 w2 v tv bv t' b' W2 L Ev R0| | |]; subst. inversion R0 as [| |st1 vs tls bl t2 b3 Ln Els R1| |]; subst.
        pose proof (R_val st w0 (JArr (v :: vs)) (91 :: (w1 ++ w2) ++ tv ++ tls) (JSON_ARRAY :: (bv ++ bl) ++ [JSON_ARRAY_END]) t2 b3 W0 (lt_arr _ v tv vs tls (sp_app _ _ W1 W2) L Ln)) as X.
        replace ((w0 ++ 91 :: w1) ++ w2 ++ tv ++ tls ++ t2) with (w0 ++ (91 :: (w1 ++ w2) ++ tv ++ tls) ++ t2) by lists.
        replace (JSON_ARRAY :: bv ++ bl ++ JSON_ARRAY_END :: b3) with ((JSON_ARRAY :: (bv ++ bl) ++ [JSON_ARRAY_END]) ++ b3) by lists. apply X; [|exact R1]. unfold Enc. cbn [toks].
        apply (te_cons TArr _ [JSON_ARRAY]); [reflexivity|]. apply toks_enc_app; [cbn [flat_map]; apply toks_enc_app; assumption|]. apply one_enc. reflexivity. }
    destruct (Z.eqb_spec b0 123) as [-> |].
    { destruct (json_next t0) as [[b2 l2]| |] eqn:E2; cbn [bind] in H; try discriminate. apply next_text in E2 as (w1 & t1 & W1 & -> & ->). cbn [tl] in H.
      destruct (Z.eqb_spec b2 125) as [-> |]; injection H as <- <- <-.
      - exists (w0 ++ 123 :: w1 ++ [125]). split; [lists|]. intros st t b Rr. cbn [app] in *. pose proof (R_val st w0 (JObj []) (123 :: w1 ++ [125]) [JSON_OBJ; JSON_OBJ_END] t b W0 (lt_obj0 w1 W1)) as X. rewrite <- app_assoc. apply X; [|exact Rr].
        apply (te_cons TObj [TObjE] [JSON_OBJ] [JSON_OBJ_END]); [reflexivity|]. apply one_enc. reflexivity.
      - exists (w0 ++ 123 :: w1). split; [lists|]. intros st t b Rr. cbn [app] in *. inversion Rr as [| | |st1 fs tls bl t2 b3 Ln Els R1|]; subst.
        assert (Lk : lkey fs (w1 ++ tls)). { inversion Ln as [w2 k tk w3 w4 v tv fs' ts S1 S2 S3 S4 S5 S6]; subst. rewrite app_assoc. apply lk_key; try assumption. now apply sp_app. }
        pose proof (R_val st w0 (JObj fs) (123 :: w1 ++ tls) (JSON_OBJ :: bl ++ [JSON_OBJ_END]) t2 b3 W0 (lt_obj fs _ Lk)) as X.
        replace ((w0 ++ 123 :: w1) ++ tls ++ t2) with (w0 ++ (123 :: w1 ++ tls) ++ t2) by lists.
        replace (JSON_OBJ :: bl ++ JSON_OBJ_END :: b3) with ((JSON_OBJ :: bl ++ [JSON_OBJ_END]) ++ b3) by lists. apply X; [|exact R1]. unfold Enc. cbn [toks].
        apply (te_cons TObj _ [JSON_OBJ]); [reflexivity|]. apply toks_enc_app; [exact Els|]. apply one_enc. reflexivity. }
    destruct (json_const no_real b0 (b0 :: t0)) as [[w' r]| |] eqn:C; cbn [bind] in H; try discriminate. injection H as <- <- <-.
    destruct (const_text _ _ _ _ B0 C) as (v & tx & L & El & Ev). rewrite El. exists (w0 ++ tx). split; [lists|]. intros st t b Rr. cbn [app] in Rr. rewrite <- app_assoc. now apply (R_val st w0 v).
  - destruct (Z.eqb_spec b0 44) as [-> |]; [|destruct (Z.eqb_spec b0 93) as [-> |]; [|discriminate]]; injection H as <- <- <-.
    + exists (w0 ++ [44]). split; [lists|]. intros st t b Rr. cbn [app] in *. inversion Rr as [|st0 w2 v tv bv t' b' W2 L Ev R0| | |]; subst. inversion R0 as [| |st1 vs tls bl t2 b3 Ln Els R1| |]; subst.
      replace ((w0 ++ [44]) ++ w2 ++ tv ++ tls ++ t2) with ((w0 ++ 44 :: w2 ++ tv ++ tls) ++ t2) by lists. rewrite (app_assoc bv).
      apply (R_arr st (v :: vs)); [now apply ln_more| |exact R1]. unfold item_toks. cbn [flat_map]. apply toks_enc_app; assumption.
    + exists (w0 ++ [93]). split; [lists|]. intros st t b Rr. cbn [app] in *. apply (R_arr st [] (w0 ++ [93]) []); [now constructor|constructor|exact Rr].
  - destruct (negb ((b0 =? 34) || (b0 =? 39))) eqn:Q; [discriminate|].
    destruct (json_string_read b0 (b0 :: t0)) as [[[s u] r]| |] eqn:Rd; cbn [bind fst snd] in H; try discriminate. destruct (write_string s u) as [w'| |] eqn:W; cbn [bind] in H; try discriminate.
    destruct (string_read_text b0 t0 s u r w' ltac:(lia) B0 Rd W) as (k & tk & L & El & T). rewrite El in *.
    destruct (json_next r) as [[b2 l2]| |] eqn:E2; cbn [bind] in H; try discriminate. apply next_text in E2 as (w1 & t1 & W1 & -> & ->). destruct (Z.eqb_spec b2 58) as [-> |]; cbn [negb tl] in H; [|discriminate]. injection H as <- <- <-.
    exists (w0 ++ tk ++ w1 ++ [58]). split; [lists|]. intros st t b Rr. cbn [app] in *. inversion Rr as [|st0 w2 v tv bv t' b' W2 L2 Ev R0| | |]; subst. inversion R0 as [| | | |st1 fs tls bl t2 b3 Ln Els R1]; subst.
    replace ((w0 ++ tk ++ w1 ++ [58]) ++ w2 ++ tv ++ tls ++ t2) with ((w0 ++ tk ++ w1 ++ 58 :: w2 ++ tv ++ tls) ++ t2) by lists.
    replace (w' ++ bv ++ bl ++ JSON_OBJ_END :: b3) with ((w' ++ bv ++ bl) ++ JSON_OBJ_END :: b3) by lists.
    apply (R_key st ((k, v) :: fs)); [now apply lk_key| |exact R1]. unfold field_toks. cbn [flat_map fst snd]. apply te_cons; [exact T|]. apply toks_enc_app; assumption.
  - destruct (Z.eqb_spec b0 44) as [-> |]; [|destruct (Z.eqb_spec b0 125) as [-> |]; [|discriminate]]; injection H as <- <- <-.
    + exists (w0 ++ [44]). split; [lists|]. intros st t b Rr. cbn [app] in *. inversion Rr as [| | |st1 fs tls bl t2 b3 Ln Els R1|]; subst.
      replace ((w0 ++ [44]) ++ tls ++ t2) with ((w0 ++ 44 :: tls) ++ t2) by lists. apply (R_map st fs); [now apply lf_more|exact Els|exact R1].
    + exists (w0 ++ [125]). split; [lists|]. intros st t b Rr. cbn [app] in *. apply (R_map st [] (w0 ++ [125]) []); [now constructor|constructor|exact Rr].
Qed.
Lemma loop_text f : forall st l out o r, bytes_ok l = true -> parse_loop no_real f st l out = Ok (o, r) -> exists t b, l = t ++ r /\ o = out ++ b /\ R st t b.
Proof.
  induction f as [|f IH]; intros st l out o r B H; destruct st as [|s st]; cbn [parse_loop] in H; try discriminate;
    try (injection H as <- <-; exists [], []; rewrite app_nil_r; split; [reflexivity|]; split; [reflexivity|constructor]).
  destruct (step no_real s l) as [[[p w] l']| |] eqn:E; cbn [bind fst snd] in H; try discriminate. destruct (step_text _ _ _ _ _ B E) as (a & -> & K).
  assert (B' : bytes_ok l' = true) by (rewrite bytes_ok_app in B; apply andb_prop in B; tauto).
  destruct (IH _ _ _ _ _ B' H) as (t & b & -> & -> & Rr). exists (a ++ t), (w ++ b). split; [now rewrite app_assoc|]. split; [now rewrite app_assoc|]. now apply K.
Qed.
Lemma parse_text l o r : bytes_ok l = true -> json_parse no_real l = Ok (o, r) -> exists v w t, sp w /\ ltext v t /\ l = w ++ t ++ r /\ Enc v o.
Proof.
  intros B H. destruct (loop_text _ _ _ _ _ _ B H) as (t & b & -> & -> & Rr). inversion Rr as [|st0 w2 v tv bv t' b' W2 L Ev R0| | |]; subst. inversion R0; subst. exists v, w2, tv. rewrite !app_nil_r. rewrite <- app_assoc. auto.
Qed.
