(** Proofs for the answers in JSON. *)
From Verif Require Import Base DecLib TimeModel Utf8Spec JsonModel JsonSpec JsonProofs JsonTextModel JsonTextSpec JsonTextProofs CodecModel ValueModel.
From Verif Require Import OutModel OutSpec.
Local Open Scope Z_scope.

(** ** texts without special characters *)
Definition safe (b : Z) : Prop := 32 <= b <= 126 /\ b <> 34 /\ b <> 92.
Lemma safe_jstr lax s : Forall safe s -> jstr lax false s s.
Proof.
  induction 1 as [|b s H _ IH]; [constructor|]. assert (U : utf8 b = [b]) by (unfold utf8; replace (b <? 128) with true by (unfold safe in H; lia); reflexivity).
  pose proof (js_char lax false b s s) as X. rewrite U in X. apply X; [|exact IH]. unfold safe in H. unfold plain. destruct lax; unfold code, scalar; lia.
Qed.
Lemma digits_safe ds : forallb is_digit ds = true -> Forall safe ds.
Proof. intros H. apply Forall_forall. intros x I. rewrite forallb_forall in H. specialize (H x I). unfold is_digit in H. unfold safe. lia. Qed.
Lemma pad_safe w n : Forall safe (pad w n).
Proof.
  unfold pad. destruct (Z.ltb_spec n (10 ^ Z.of_nat w)); apply digits_safe; [apply fixed_ok|]. apply digits_ok. pose proof (pow10_pos w). lia.
Qed.
Lemma dec_safe n : Forall safe (dec n).
Proof. unfold dec. destruct (Z.ltb_spec n 0); [constructor; [unfold safe; lia|]|]; apply digits_safe, digits_ok; lia. Qed.
Ltac safe_list := repeat first [assumption | apply Forall_nil | apply pad_safe | apply dec_safe | apply Forall_cons; [unfold safe; lia|] | apply Forall_app; split].
Lemma date_safe d s : date_get d = Ok s -> Forall safe s.
Proof.
  unfold date_get. destruct (date_get_gregorian d) as [[[y m] dd]| |]; cbn [bind]; try discriminate. intros H. injection H as <-. safe_list.
Qed.
Lemma frac_safe us : Forall safe (frac_text us).
Proof. unfold frac_text. destruct (us =? 0); [constructor|]. destruct (Z.rem us 1000 =? 0); (constructor; [unfold safe; lia|apply pad_safe]). Qed.
Lemma zone_safe o : Forall safe (zone_text o).
Proof.
  unfold zone_text. constructor; [unfold safe; destruct (0 <=? o); lia|]. apply Forall_app. split; [apply pad_safe|].
  destruct (Z.quot _ _ =? 0); [constructor|]. constructor; [unfold safe; lia|apply pad_safe].
Qed.
Lemma timestamp_safe z tz s : timestamp_get z tz = Ok s -> Forall safe s.
Proof.
  unfold timestamp_get. destruct (ts_validate z) as [[]| |]; cbn [bind]; try discriminate.
  destruct tz as [f|]; [destruct (f (z / 1000000)) as [o| |]; cbn [bind]; try discriminate|cbn [bind]]; intros H; injection H as <-;
    repeat first [apply frac_safe | apply zone_safe | progress safe_list | apply Forall_app; split].
Qed.
Lemma span_safe v w : Forall safe w -> Forall safe (fmt_span v w).
Proof. intros H. unfold fmt_span. destruct (Z.abs v =? 1); safe_list. Qed.
Lemma removelast_in {A} (P : A -> Prop) l : Forall P l -> Forall P (removelast l).
Proof.
  induction 1 as [|x l H F IH]; [constructor|]. cbn [removelast]. destruct l; [constructor|]. constructor; assumption.
Qed.
Lemma interval_safe iv s : interval_get iv = Ok s -> Forall safe s.
Proof.
  unfold interval_get. destruct (s32_ (Z.abs (id_ iv))); cbn [bind]; try discriminate. intros H. injection H as <-. apply removelast_in.
  repeat (apply Forall_app; split);
    match goal with |- Forall _ (if ?b then _ else _) => destruct b end; try apply Forall_nil; try apply span_safe; safe_list.
Qed.
Lemma hex_safe n : forall v, Forall safe (fmt_hex n v).
Proof.
  induction n as [|n IH]; intros v; [constructor|]. cbn [fmt_hex]. apply Forall_app. split; [apply IH|]. constructor; [|constructor].
  pose proof (Z.mod_pos_bound v 16 ltac:(lia)). unfold hex_char, safe. destruct (v mod 16 <? 10) eqn:E; lia.
Qed.
Lemma uuid_safe u : Forall safe (uuid_get u).
Proof. unfold uuid_get. repeat first [apply hex_safe | apply Forall_nil | apply Forall_cons; [unfold safe; lia|] | apply Forall_app; split]. Qed.
Lemma uuid_fields u : uuid_ok u -> uuid_bits (ua u + 2 ^ 32 * ub u + 2 ^ 48 * uc u) (ud u + 2 ^ 16 * ue u + 2 ^ 32 * uf u) = u.
Proof.
  destruct u as [a b c d e f]. unfold uuid_ok, uuid_bits. cbn [ua ub uc ud ue uf].
  change (2 ^ 32) with 4294967296. change (2 ^ 48) with 281474976710656. change (2 ^ 16) with 65536. intros H. f_equal; lia.
Qed.
Lemma identifier_safe k : identifier k -> Forall safe k.
Proof.
  intros H. eapply Forall_impl; [|exact H]. intros b [L|[D|E]]; [unfold letter in L|unfold digit in D|]; unfold safe; lia.
Qed.
Lemma characters_ok lax s : characters lax s <-> string_ok lax s.
Proof. reflexivity. Qed.

(** ** the texts of arrays and objects *)
Definition more (ts : list (list Z)) : list Z := flat_map (fun x => [44; 32] ++ x) ts.
Definition field (k t : list Z) : list Z := 34 :: k ++ [34; 58; 32] ++ t.
Fixpoint fields_more (sep : list Z) (ks : list (list Z)) (ts : list (list Z)) : list Z :=
  match ks, ts with k :: ks', t :: ts' => (44 :: sep) ++ field k t ++ fields_more sep ks' ts' | _, _ => [] end.
Lemma jitems_more lax vs ts : Forall2 (jtext lax false) vs ts -> forall v w1 w t, ws w1 -> ws w -> jtext lax false v t ->
  jitems lax false (v :: vs) (w1 ++ t ++ w ++ more ts).
Proof.
  induction 1 as [|v2 t2 vs ts J F IH]; intros v w1 w t W1 W Jt.
  - cbn [more flat_map]. rewrite app_nil_r. now apply ji_one.
  - cbn [more flat_map app]. apply ji_more; [assumption..|]. apply (IH v2 [32] [] t2); [repeat constructor|constructor|exact J].
Qed.
Lemma oitems_more g lax vs ts : Forall2 (otext g lax) vs ts -> forall v w1 w t, ws w1 -> ws w -> otext g lax v t ->
  oitems g lax (v :: vs) (w1 ++ t ++ w ++ more ts).
Proof.
  induction 1 as [|v2 t2 vs ts J F IH]; intros v w1 w t W1 W Jt.
  - cbn [more flat_map]. rewrite app_nil_r. now apply oi_one.
  - cbn [more flat_map app]. apply oi_more; [assumption..|]. apply (IH v2 [32] [] t2); [repeat constructor|constructor|exact J].
Qed.
Lemma field_split k t w1 : w1 ++ field k t = w1 ++ quoted k ++ [] ++ 58 :: [32] ++ t.
Proof. unfold field, quoted. cbn [app]. rewrite <- !app_assoc. reflexivity. Qed.
Lemma jfields_more lax sep : ws sep -> forall vs ts, Forall2 (jtext lax false) vs ts -> forall ks k v w1 w2 t, length ks = length vs -> Forall identifier (k :: ks) -> ws w1 -> ws w2 -> jtext lax false v t ->
  jfields lax false ((k, v) :: combine ks vs) (w1 ++ field k t ++ fields_more sep ks ts ++ w2).
Proof.
  intros Ws. assert (W32 : ws [32]) by repeat constructor.
  induction 1 as [|v2 t2 vs ts J F IH]; intros ks k v w1 w2 t L N W1 W2 Jt; inversion N as [|? ? Nk Nks]; subst; pose proof (safe_jstr lax k (identifier_safe k Nk)) as Jk; rewrite app_assoc, field_split, <- !app_assoc; cbn [app]; rewrite <- ?app_assoc.
  - destruct ks; [|discriminate L]. cbn [combine fields_more app]. pose proof (jf_one lax false k k v w1 [] [32] t w2 W1 ltac:(constructor) W32 W2 Jk Jt) as X. cbn [app] in X. exact X.
  - destruct ks as [|k2 ks]; [discriminate L|]. cbn [combine fields_more app].
    pose proof (jf_more lax false k k v w1 [] [32] t [] ((k2, v2) :: combine ks vs) (sep ++ field k2 t2 ++ fields_more sep ks ts ++ w2) W1 ltac:(constructor) W32 ltac:(constructor) Jk Jt) as X.
    cbn [app] in X. rewrite <- !app_assoc. apply X. apply IH; [now injection L|exact Nks|exact Ws|exact W2|exact J].
Qed.
Lemma ofields_more g lax sep : ws sep -> forall vs ts, Forall2 (otext g lax) vs ts -> forall ks k v w1 w2 t, length ks = length vs -> Forall identifier (k :: ks) -> ws w1 -> ws w2 -> otext g lax v t ->
  ofields g lax ((k, v) :: combine ks vs) (w1 ++ field k t ++ fields_more sep ks ts ++ w2).
Proof.
  intros Ws. assert (W32 : ws [32]) by repeat constructor.
  induction 1 as [|v2 t2 vs ts J F IH]; intros ks k v w1 w2 t L N W1 W2 Jt; inversion N as [|? ? Nk Nks]; subst; pose proof (safe_jstr lax k (identifier_safe k Nk)) as Jk; rewrite app_assoc, field_split, <- !app_assoc; cbn [app]; rewrite <- ?app_assoc.
  - destruct ks; [|discriminate L]. cbn [combine fields_more app]. pose proof (of_one g lax k k v w1 [] [32] t w2 W1 ltac:(constructor) W32 W2 Jk Jt) as X. cbn [app] in X. exact X.
  - destruct ks as [|k2 ks]; [discriminate L|]. cbn [combine fields_more app].
    pose proof (of_more g lax k k v w1 [] [32] t [] ((k2, v2) :: combine ks vs) (sep ++ field k2 t2 ++ fields_more sep ks ts ++ w2) W1 ltac:(constructor) W32 ltac:(constructor) Jk Jt) as X.
    cbn [app] in X. rewrite <- !app_assoc. apply X. apply IH; [now injection L|exact Nks|exact Ws|exact W2|exact J].
Qed.
Lemma export_as_ok g lax v bs p d : json_wf v = true -> json_no_reals v = true -> strings_ok (characters lax) v -> Enc v bs ->
  exists t, json_as g p d bs = Ok t /\ jtext lax false v t.
Proof.
  intros W R S E. destruct (export_ok g lax v bs [] (length bs) p d W R S E (Nat.le_refl _)) as (t & X & J). rewrite app_nil_r in X. exists t. unfold json_as. rewrite X. auto.
Qed.
(** the outcome of a writer: the buffer, or an error if the limit is reached *)
Definition wr (limit : Z) (r : res (list Z)) (out : list Z) : Prop := r = Ok out \/ (r = Err /\ limit <= Z.of_nat (length out)).
Lemma wr_ok limit out : wr limit (Ok out) out.
Proof. now left. Qed.
Lemma wr_bind limit r out k more : wr limit r out -> wr limit (k out) (out ++ more) -> wr limit (bind r k) (out ++ more).
Proof.
  intros [->|[-> L]] K; cbn [bind]; [exact K|]. right. split; [reflexivity|]. rewrite app_length. lia.
Qed.
Lemma wr_limit limit out : wr limit (ensure_limit limit out) out.
Proof. unfold ensure_limit. destruct (Z.leb_spec limit (Z.of_nat (length out))); [right; auto|now left]. Qed.

Section Rows.
Variables (g : Z -> list Z) (widen : Z -> Z) (tz : option (Z -> res Z)) (limit : Z) (lax reals : bool).
Variable T : json -> list Z -> Prop.
Hypothesis Hstd : forall v t, jtext lax false v t -> T v t.
Hypothesis Hreal : reals = true -> forall d, finite d -> T (JReal d) (g d).
Hypothesis Harr : forall v t vs ts, T v t -> Forall2 T vs ts -> T (JArr (v :: vs)) (91 :: t ++ more ts ++ [93]).
Hypothesis Hobj : forall sep w1 w2 k v t ks vs ts, ws sep -> ws w1 -> ws w2 -> length ks = length vs -> Forall identifier (k :: ks) -> T v t -> Forall2 T vs ts ->
  T (JObj ((k, v) :: combine ks vs)) (123 :: w1 ++ field k t ++ fields_more sep ks ts ++ w2 ++ [125]).

Lemma Hstr s : Forall safe s -> T (JStr s) ([34] ++ s ++ [34]).
Proof. intros H. apply Hstd. apply (jt_str lax false s s). now apply safe_jstr. Qed.
Lemma vector_text v : Forall (fun e => finite (widen e)) v -> reals = true -> forall e, finite (widen e) ->
  T (JArr (map (fun e => JReal (widen e)) (e :: v))) ([91] ++ vector_items g widen (e :: v) ++ [93]).
Proof.
  intros F R e Fe.
  assert (X : forall v e, vector_items g widen (e :: v) = g (widen e) ++ more (map (fun e => g (widen e)) v)).
  { induction v0 as [|e2 v0 IH]; intros e0; [reflexivity|]. change (vector_items g widen (e0 :: e2 :: v0)) with (g (widen e0) ++ [44; 32] ++ vector_items g widen (e2 :: v0)). rewrite IH. reflexivity. }
  rewrite X, <- app_assoc. cbn [map app]. apply Harr; [now apply Hreal|]. clear X. induction F; cbn [map]; constructor; [now apply Hreal|assumption].
Qed.
Lemma cell_ok pretty c j : cell_json widen tz lax reals c j -> exists t, value_export g widen tz pretty c = Ok t /\ T j t.
Proof.
  intros H. inversion H as [|z|z Z1|d R F|s C|v bs W R S E|d s D|z s D|m d us s D|v R F|a b u U -> ->]; subst c j; cbn [value_export].
  - eexists. split; [reflexivity|]. apply Hstd, jt_null.
  - eexists. split; [reflexivity|]. apply Hstd. destruct (0 <? z); [apply jt_true|apply jt_false].
  - eexists. split; [reflexivity|]. apply Hstd, jt_int, dec_jint. exact Z1.
  - eexists. split; [reflexivity|]. apply Hreal; auto.
  - eexists. split; [reflexivity|]. apply Hstd. apply (jt_str lax false s (escape s)). destruct C as (l & -> & C). now apply escape_jstr.
  - destruct (export_as_ok g lax v bs pretty 0 W R S E) as (t & X & J). exists t. auto.
  - rewrite D. eexists. split; [reflexivity|]. apply Hstr. eapply date_safe. exact D.
  - rewrite D. eexists. split; [reflexivity|]. apply Hstr. eapply timestamp_safe. exact D.
  - rewrite D. eexists. split; [reflexivity|]. apply Hstr. eapply interval_safe. exact D.
  - eexists. split; [reflexivity|]. destruct v as [|e v]; [apply Hstd, (jt_arr0 lax false []); constructor|]. apply vector_text; [exact (Forall_inv_tail F)|exact R|exact (Forall_inv F)].
  - rewrite uuid_fields by exact U. eexists. split; [reflexivity|]. apply Hstr, uuid_safe.
Qed.
Lemma cell_ok1 c j : cell_json widen tz lax reals c j -> exists t, (match c with CJson bs => json_as g true 1 bs | CVal _ => value_export g widen tz true c end) = Ok t /\ T j t.
Proof.
  intros H. destruct c as [v|bs]; [now apply cell_ok|]. inversion H; subst. destruct (export_as_ok g lax j bs true 1) as (t & X & J); try assumption. exists t. auto.
Qed.
Lemma nth_error_split {A} (row : list A) order c l : skipn order row = c :: l -> nth_error row order = Some c /\ skipn (S order) row = l.
Proof. revert row. induction order as [|o IH]; intros [|x row] H; cbn [skipn] in *; try discriminate; [injection H as -> ->; auto|]. cbn [nth_error]. now apply IH. Qed.

Lemma row_array_ok pretty row : forall cs order vs, Forall2 (cell_json widen tz lax reals) (firstn (length cs) (skipn order row)) vs -> length vs = length cs ->
  exists ts, Forall2 T vs ts /\ forall buf, wr limit (row_array g widen tz limit pretty order cs row buf)
    (buf ++ match order, ts with O, t :: ts' => t ++ more ts' | _, _ => more ts end).
Proof.
  induction cs as [|k cs IH]; intros order vs F L.
  - destruct vs; [|discriminate L]. exists []. split; [constructor|]. intros buf. cbn [row_array]. destruct order; cbn [more flat_map]; rewrite app_nil_r; apply wr_ok.
  - destruct vs as [|v vs]; [discriminate L|]. cbn [length] in F. destruct (skipn order row) as [|c l] eqn:E; [inversion F|]. cbn [firstn] in F.
    inversion F as [|? ? ? ? C F2]; subst. destruct (nth_error_split _ _ _ _ E) as [E1 E2].
    destruct (IH (S order) vs) as (ts & Ft & K); [now rewrite E2|now injection L|]. destruct (cell_ok pretty c v C) as (t & X & Jt).
    exists (t :: ts). split; [constructor; assumption|]. intros buf. cbn [row_array]. unfold at_order. rewrite E1. cbn [bind]. rewrite X. cbn [bind].
    assert (Q : buf ++ match order with O => t ++ more ts | S _ => more (t :: ts) end = ((if (0 <? order)%nat then buf ++ [44; 32] else buf) ++ t) ++ more ts).
    { destruct order; cbn [Nat.ltb Nat.leb]; [now rewrite app_assoc|]. unfold more. cbn [flat_map]. now rewrite <- !app_assoc. }
    replace (buf ++ match order with O => t ++ more ts | S _ => more (t :: ts) end) with (((if (0 <? order)%nat then buf ++ [44; 32] else buf) ++ t) ++ more ts).
    apply wr_bind; [apply wr_limit|]. apply K.
Qed.
Lemma row_plain_ok row : forall cs order vs, Forall2 (cell_json widen tz lax reals) (firstn (length cs) (skipn order row)) vs -> length vs = length cs ->
  exists ts, Forall2 T vs ts /\ forall buf, wr limit (row_obj_plain g widen tz limit order cs row buf)
    (buf ++ match order, cs, ts with O, k :: cs', t :: ts' => field k t ++ fields_more [32] cs' ts' | _, _, _ => fields_more [32] cs ts end).
Proof.
  induction cs as [|k cs IH]; intros order vs F L.
  - destruct vs; [|discriminate L]. exists []. split; [constructor|]. intros buf. cbn [row_obj_plain]. destruct order; cbn [fields_more]; rewrite app_nil_r; apply wr_ok.
  - destruct vs as [|v vs]; [discriminate L|]. cbn [length] in F. destruct (skipn order row) as [|c l] eqn:E; [inversion F|]. cbn [firstn] in F.
    inversion F as [|? ? ? ? C F2]; subst. destruct (nth_error_split _ _ _ _ E) as [E1 E2].
    destruct (IH (S order) vs) as (ts & Ft & K); [now rewrite E2|now injection L|]. destruct (cell_ok false c v C) as (t & X & Jt).
    exists (t :: ts). split; [constructor; assumption|]. intros buf. cbn [row_obj_plain]. unfold at_order. rewrite E1. cbn [bind]. rewrite X. cbn [bind].
    replace (buf ++ match order with O => field k t ++ fields_more [32] cs ts | S _ => fields_more [32] (k :: cs) (t :: ts) end)
      with ((((if (0 <? order)%nat then buf ++ [44; 32] else buf) ++ [34] ++ k ++ [34; 58; 32]) ++ t) ++ fields_more [32] cs ts).
    2:{ destruct order; cbn [Nat.ltb Nat.leb fields_more]; unfold field; cbn [app]; rewrite <- !app_assoc; cbn [app]; rewrite <- !app_assoc; reflexivity. }
    apply wr_bind; [apply wr_limit|]. apply K.
Qed.
Lemma row_pretty_ok row : forall cs order vs, Forall2 (cell_json widen tz lax reals) (firstn (length cs) (skipn order row)) vs -> length vs = length cs ->
  exists ts, Forall2 T vs ts /\ forall buf, wr limit (row_obj_pretty g widen tz limit order cs row buf)
    (buf ++ match order, cs, ts with O, k :: cs', t :: ts' => [32; 32] ++ field k t ++ fields_more [10; 32; 32] cs' ts' | _, _, _ => fields_more [10; 32; 32] cs ts end).
Proof.
  induction cs as [|k cs IH]; intros order vs F L.
  - destruct vs; [|discriminate L]. exists []. split; [constructor|]. intros buf. cbn [row_obj_pretty]. destruct order; cbn [fields_more]; rewrite app_nil_r; apply wr_ok.
  - destruct vs as [|v vs]; [discriminate L|]. cbn [length] in F. destruct (skipn order row) as [|c l] eqn:E; [inversion F|]. cbn [firstn] in F.
    inversion F as [|? ? ? ? C F2]; subst. destruct (nth_error_split _ _ _ _ E) as [E1 E2].
    destruct (IH (S order) vs) as (ts & Ft & K); [now rewrite E2|now injection L|]. destruct (cell_ok1 c v C) as (t & X & Jt).
    exists (t :: ts). split; [constructor; assumption|]. intros buf. cbn [row_obj_pretty]. unfold at_order. rewrite E1. cbn [bind]. rewrite X. cbn [bind].
    replace (buf ++ match order with O => [32; 32] ++ field k t ++ fields_more [10; 32; 32] cs ts | S _ => fields_more [10; 32; 32] (k :: cs) (t :: ts) end)
      with ((((if (0 <? order)%nat then buf ++ [44; 10] else buf) ++ [32; 32; 34] ++ k ++ [34; 58; 32]) ++ t) ++ fields_more [10; 32; 32] cs ts).
    2:{ destruct order; cbn [Nat.ltb Nat.leb fields_more]; unfold field; cbn [app]; rewrite <- !app_assoc; cbn [app]; rewrite <- !app_assoc; reflexivity. }
    apply wr_bind; [apply wr_limit|]. apply K.
Qed.
Lemma wr_bind_app limit' r out post : wr limit' r out -> wr limit' (do b <- r; Ok (b ++ post)) (out ++ post).
Proof. intros H. apply (wr_bind limit' r out (fun b => Ok (b ++ post)) post H). apply wr_ok. Qed.

Lemma row_ok minimal pretty cs row vs : cs <> [] -> Forall identifier cs -> row_cells widen tz lax reals cs row vs ->
  exists t, T (row_json minimal cs vs) t /\ forall buf, wr limit (output_row g widen tz limit minimal pretty cs row buf) (buf ++ t).
Proof.
  intros N I [F L]. destruct cs as [|k cs]; [congruence|]. clear N. destruct vs as [|v vs]; [discriminate L|]. injection L as L.
  unfold output_row, row_json. destruct minimal.
  - destruct (row_array_ok pretty row (k :: cs) 0 (v :: vs) F) as (ts & Ft & K); [cbn; congruence|]. inversion Ft as [|? t ? ts' Jt Ft']; subst.
    destruct cs as [|k2 cs].
    + destruct vs; [|discriminate L]. inversion Ft'; subst. exists t. split; [exact Jt|]. intros buf. unfold output_row_array. cbn [length Nat.ltb Nat.leb].
      specialize (K buf). cbn [more flat_map] in K. rewrite app_nil_r in K. pose proof (wr_bind_app limit _ _ [] K) as X. rewrite !app_nil_r in X.
      destruct X as [X|[X Y]]; [left|right; split; [|exact Y]]; (destruct (row_array g widen tz limit pretty 0 [k] row buf) as [b| |]; cbn [bind] in *; rewrite ?app_nil_r in X; exact X).
    + destruct vs as [|v2 vs]; [discriminate L|]. exists (91 :: t ++ more ts' ++ [93]). split; [apply Harr; assumption|]. intros buf. unfold output_row_array. cbn [length Nat.ltb Nat.leb].
      specialize (K (buf ++ [91])). apply (wr_bind_app limit _ _ [93]) in K. rewrite <- !app_assoc in K. exact K.
  - unfold output_row_obj. destruct pretty.
    + destruct (row_pretty_ok row (k :: cs) 0 (v :: vs) F) as (ts & Ft & K); [cbn; congruence|]. inversion Ft as [|? t ? ts' Jt Ft']; subst.
      exists (123 :: [10; 32; 32] ++ field k t ++ fields_more [10; 32; 32] cs ts' ++ [10] ++ [125]). split.
      * apply Hobj; [now (repeat constructor)..|now symmetry|exact I|exact Jt|exact Ft'].
      * intros buf. specialize (K (buf ++ [123; 10])). apply (wr_bind_app limit _ _ [10; 125]) in K. rewrite <- !app_assoc in K. exact K.
    + destruct (row_plain_ok row (k :: cs) 0 (v :: vs) F) as (ts & Ft & K); [cbn; congruence|]. inversion Ft as [|? t ? ts' Jt Ft']; subst.
      exists (123 :: [] ++ field k t ++ fields_more [32] cs ts' ++ [] ++ [125]). split.
      * apply Hobj; [now (repeat constructor)..|now symmetry|exact I|exact Jt|exact Ft'].
      * intros buf. specialize (K (buf ++ [123])). apply (wr_bind_app limit _ _ [125]) in K. rewrite <- !app_assoc in K. exact K.
Qed.
Lemma rows_ok minimal pretty cs : cs <> [] -> Forall identifier cs -> forall rows jss, Forall2 (row_cells widen tz lax reals cs) rows jss ->
  exists ts, Forall2 T (map (row_json minimal cs) jss) ts /\ forall first buf,
    wr limit (output_rows g widen tz limit minimal pretty first cs rows buf) (buf ++ match first, ts with true, t :: ts' => t ++ more ts' | _, _ => more ts end).
Proof.
  intros N I. induction 1 as [|row vs rows jss C F IH].
  - exists []. split; [constructor|]. intros first buf. cbn [output_rows]. destruct first; cbn [more flat_map]; rewrite app_nil_r; apply wr_ok.
  - destruct IH as (ts & Ft & K). destruct (row_ok minimal pretty cs row vs N I C) as (t & Jt & Kt). exists (t :: ts). split; [constructor; assumption|].
    intros first buf. cbn [output_rows].
    replace (buf ++ (if first then t ++ more ts else more (t :: ts))) with (((if first then buf else buf ++ [44; 32]) ++ t) ++ more ts).
    2:{ destruct first; [now rewrite app_assoc|]. unfold more. cbn [flat_map]. now rewrite <- !app_assoc. }
    apply wr_bind; [apply Kt|]. apply (K false).
Qed.
Lemma answer_ok minimal pretty cs r jss : cs <> [] -> Forall identifier cs -> Forall2 (row_cells widen tz lax reals cs) (rows_of r) jss ->
  exists t, T (JArr (map (row_json minimal cs) jss)) t /\ wr limit (output_write g widen tz limit minimal pretty cs r) t.
Proof.
  intros N I F. destruct r as [rows|row]; cbn [rows_of output_write] in *.
  - destruct (rows_ok minimal pretty cs N I rows jss F) as (ts & Ft & K). specialize (K true [91]). apply (wr_bind_app limit _ _ [93]) in K. eexists. split; [|exact K].
    inversion Ft as [Q|v t vs ts' Jt Ft' Q]; subst; cbn [app].
    + apply Hstd. apply (jt_arr0 lax false []). constructor.
    + rewrite <- app_assoc. now apply Harr.
  - inversion F as [|? vs ? ? C F']; subst. inversion F'; subst. destruct (row_ok minimal pretty cs row vs N I C) as (t & Jt & Kt). specialize (Kt [91]). apply (wr_bind_app limit _ _ [93]) in Kt.
    eexists. split; [|exact Kt]. cbn [map app]. apply (Harr _ t [] [] Jt). constructor.
Qed.
End Rows.

(** the two kinds of texts *)
Lemma jtext_arr lax v t vs ts : jtext lax false v t -> Forall2 (jtext lax false) vs ts -> jtext lax false (JArr (v :: vs)) (91 :: t ++ more ts ++ [93]).
Proof.
  intros J F. pose proof (jt_arr lax false _ _ (jitems_more lax vs ts F v [] [] t ltac:(constructor) ltac:(constructor) J)) as X. cbn [app] in X. rewrite <- app_assoc in X. exact X.
Qed.
Lemma jtext_obj lax sep w1 w2 k v t ks vs ts : ws sep -> ws w1 -> ws w2 -> length ks = length vs -> Forall identifier (k :: ks) -> jtext lax false v t -> Forall2 (jtext lax false) vs ts ->
  jtext lax false (JObj ((k, v) :: combine ks vs)) (123 :: w1 ++ field k t ++ fields_more sep ks ts ++ w2 ++ [125]).
Proof.
  intros S W1 W2 L I J F. pose proof (jt_obj lax false _ _ (jfields_more lax sep S vs ts F ks k v w1 w2 t L I W1 W2 J)) as X. rewrite <- !app_assoc in X. exact X.
Qed.
Lemma otext_arr g lax v t vs ts : otext g lax v t -> Forall2 (otext g lax) vs ts -> otext g lax (JArr (v :: vs)) (91 :: t ++ more ts ++ [93]).
Proof.
  intros J F. pose proof (ot_arr g lax _ _ (oitems_more g lax vs ts F v [] [] t ltac:(constructor) ltac:(constructor) J)) as X. cbn [app] in X. rewrite <- app_assoc in X. exact X.
Qed.
Lemma otext_obj g lax sep w1 w2 k v t ks vs ts : ws sep -> ws w1 -> ws w2 -> length ks = length vs -> Forall identifier (k :: ks) -> otext g lax v t -> Forall2 (otext g lax) vs ts ->
  otext g lax (JObj ((k, v) :: combine ks vs)) (123 :: w1 ++ field k t ++ fields_more sep ks ts ++ w2 ++ [125]).
Proof.
  intros S W1 W2 L I J F. pose proof (ot_obj g lax _ _ (ofields_more g lax sep S vs ts F ks k v w1 w2 t L I W1 W2 J)) as X. rewrite <- !app_assoc in X. exact X.
Qed.
Lemma bare_answer g widen tz limit lax minimal pretty cs r jss : cs <> [] -> Forall identifier cs -> Forall2 (row_cells widen tz lax false cs) (rows_of r) jss ->
  exists t, jtext lax false (JArr (map (row_json minimal cs) jss)) t /\ wr limit (output_write g widen tz limit minimal pretty cs r) t.
Proof.
  intros N I F. eapply answer_ok; try eassumption; [auto|discriminate|apply jtext_arr|apply jtext_obj].
Qed.
Lemma real_answer g widen tz limit lax minimal pretty cs r jss : (forall d, finite d -> number (g d)) -> cs <> [] -> Forall identifier cs -> Forall2 (row_cells widen tz lax true cs) (rows_of r) jss ->
  exists t, otext g lax (JArr (map (row_json minimal cs) jss)) t /\ wr limit (output_write g widen tz limit minimal pretty cs r) t.
Proof.
  intros G N I F. eapply answer_ok; try eassumption; [apply ot_std|intros _ d D; apply ot_real; auto|apply otext_arr|apply otext_obj].
Qed.
