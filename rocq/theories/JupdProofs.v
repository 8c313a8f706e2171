From Verif Require Import Base JsonModel JsonSpec JsonProofs JupdModel JupdSpec.

Lemma beq_iff a b : bytes_eqb a b = true <-> a = b.
Proof. apply bytes_eqb_eq. Qed.
Lemma beq_sym a b : bytes_eqb a b = bytes_eqb b a.
Proof. destruct (bytes_eqb a b) eqn:E, (bytes_eqb b a) eqn:F; try reflexivity; [apply beq_iff in E; subst; assert (X : bytes_eqb b b = true) by now apply beq_iff|apply beq_iff in F; subst; assert (X : bytes_eqb a a = true) by now apply beq_iff]; congruence. Qed.
Lemma beq_false a b : a <> b -> bytes_eqb a b = false.
Proof. intros H. destruct (bytes_eqb a b) eqn:E; [apply beq_iff in E; contradiction|reflexivity]. Qed.
Lemma beq_refl a : bytes_eqb a a = true.
Proof. now apply beq_iff. Qed.

(** ** paths *)
Lemma read_key_ok k rest : key_text k -> (rest = [] \/ exists r, rest = 46 :: r) -> read_key (k ++ rest) = Ok (k, rest).
Proof.
  intros (_ & _ & H) Hr. induction k as [|c k IH]; [destruct Hr as [->|(r & ->)]; reflexivity|]. cbn [app read_key]. destruct (H c (or_introl eq_refl)) as (N1 & N2 & N3).
  unfold DOT, isspace. destruct (Z.eqb_spec c 46); [contradiction|]. destruct (Z.eqb_spec c 32); [contradiction|]. cbn [orb].
  destruct (Z.leb_spec 9 c), (Z.leb_spec c 13); cbn [andb]; try (exfalso; apply N3; lia); (rewrite IH; [reflexivity|intros d Hd; apply H; now right]).
Qed.
Lemma read_written k ks text : written (k :: ks) text -> exists text', update_read text = Ok (k, text') /\ (ks = [] -> text' = []) /\ (ks <> [] -> written ks text').
Proof.
  intros (_ & F & T). inversion F as [|? ? Hk Hks]; subst. pose proof Hk as (Ne & _ & _). unfold update_read.
  assert (U : forall r, update_has (k ++ r) = true) by (intros r; destruct k; [congruence|reflexivity]).
  destruct ks as [|k' ks].
  - cbn [path_text] in T. destruct T as [->| ->].
    + exists []. pose proof (U []) as U0. rewrite app_nil_r in U0. rewrite U0. pose proof (read_key_ok k [] Hk (or_introl eq_refl)) as R. rewrite app_nil_r in R. rewrite R. cbn [bind]. destruct k; [congruence|]. split; [reflexivity|]. split; [reflexivity|congruence].
    + exists []. rewrite U. rewrite (read_key_ok k [46] Hk) by (right; eauto). cbn [bind]. destruct k; [congruence|]. split; [reflexivity|]. split; [reflexivity|congruence].
  - set (kk := k' :: ks) in *. assert (Pt : path_text (k :: kk) = k ++ 46 :: path_text kk) by reflexivity. rewrite Pt in T. clear Pt.
    destruct T as [->| ->].
    + exists (path_text kk). rewrite U. rewrite (read_key_ok k (46 :: path_text kk) Hk) by (right; eauto). cbn [bind]. destruct k; [congruence|]. split; [reflexivity|]. split; [discriminate|]. intros _. split; [discriminate|]. split; [exact Hks|now left].
    + exists (path_text kk ++ [46]). rewrite <- app_assoc, U. cbn [app]. rewrite (read_key_ok k (46 :: path_text kk ++ [46]) Hk) by (right; eauto). cbn [bind]. destruct k; [congruence|]. split; [reflexivity|]. split; [discriminate|]. intros _. split; [discriminate|]. split; [exact Hks|now right].
Qed.
Lemma written_has ks text : ks <> [] -> written ks text -> update_has text = true.
Proof.
  intros _ (Ne & F & T). destruct ks as [|k ks]; [congruence|]. inversion F as [|? ? Hk Hks]; subst. pose proof Hk as (Nk & _). destruct k as [|c k]; [congruence|]. destruct ks; cbn in T; destruct T as [->| ->]; reflexivity.
Qed.

(** ** fields *)
Lemma fields_cons k v l b : toks_enc (field_toks ((k, v) :: l)) b -> exists kb vb bl, b = kb ++ vb ++ bl /\ tok_enc (TStr k) kb /\ Enc v vb /\ toks_enc (field_toks l) bl.
Proof.
  unfold field_toks. cbn [flat_map app fst snd]. intros He. inversion He as [|t ts b0 bs' Ht Hts]; subst. apply toks_enc_app_inv in Hts. destruct Hts as (bv & bl & -> & E1 & E2). eauto 10.
Qed.
Lemma fields_mk k v l kb vb bl : tok_enc (TStr k) kb -> Enc v vb -> toks_enc (field_toks l) bl -> toks_enc (field_toks ((k, v) :: l)) (kb ++ vb ++ bl).
Proof. intros H1 H2 H3. unfold field_toks. cbn [flat_map app fst snd]. constructor; [exact H1|]. apply toks_enc_app; [exact H2|exact H3]. Qed.
Lemma fields_app l1 l2 b1 b2 : toks_enc (field_toks l1) b1 -> toks_enc (field_toks l2) b2 -> toks_enc (field_toks (l1 ++ l2)) (b1 ++ b2).
Proof. intros H1 H2. unfold field_toks in *. rewrite flat_map_app. now apply toks_enc_app. Qed.
Lemma fields_app_inv l1 l2 b : toks_enc (field_toks (l1 ++ l2)) b -> exists b1 b2, b = b1 ++ b2 /\ toks_enc (field_toks l1) b1 /\ toks_enc (field_toks l2) b2.
Proof. unfold field_toks. rewrite flat_map_app. apply toks_enc_app_inv. Qed.
Lemma Enc_obj_mk l b : toks_enc (field_toks l) b -> Enc (JObj l) (JSON_OBJ :: b ++ [JSON_OBJ_END]).
Proof. intros H. unfold Enc. cbn [toks]. change (JSON_OBJ :: b ++ [JSON_OBJ_END]) with ([JSON_OBJ] ++ b ++ [JSON_OBJ_END]). constructor; [reflexivity|]. apply toks_enc_app; [exact H|]. change [JSON_OBJ_END] with ([JSON_OBJ_END] ++ []) at 1. constructor; [reflexivity|constructor]. Qed.
Lemma name_enc k : tok_enc (TStr k) (json_write_raw k).
Proof. now left. Qed.
Lemma read_name k kb rest : str_wf k = true -> tok_enc (TStr k) kb -> json_read_end JSON_OBJ_END (kb ++ rest) = Ok (false, kb ++ rest) /\ json_read_raw (kb ++ rest) = Ok (k, rest).
Proof.
  intros Hk Ht. split; [apply (read_end_ne _ _ _ (TStr k)); [exact Ht|cbn [tok_tag_ok]; tags; lia]|]. cbn [tok_enc] in Ht. destruct Ht as [->| ->]; [apply read_raw_ok|apply read_wide_ok]; exact Hk.
Qed.
Lemma between_ok bv tail : between (bv ++ tail) tail = bv.
Proof. unfold between. rewrite app_length. replace (length bv + length tail - length tail)%nat with (length bv) by lia. rewrite firstn_app, firstn_all, Nat.sub_diag. cbn. now rewrite app_nil_r. Qed.
Lemma wf_cons k v l : fields_wf ((k, v) :: l) = true <-> str_wf k = true /\ json_wf v = true /\ fields_wf l = true.
Proof. unfold fields_wf. cbn [forallb fst snd]. rewrite !andb_true_iff. tauto. Qed.
Lemma wf_app l1 l2 : fields_wf (l1 ++ l2) = true <-> fields_wf l1 = true /\ fields_wf l2 = true.
Proof. unfold fields_wf. rewrite forallb_app, andb_true_iff. tauto. Qed.
Lemma fields_length l b : toks_enc (field_toks l) b -> (length l <= length b)%nat.
Proof. intros H. pose proof (field_toks_length l). apply toks_enc_length in H. lia. Qed.
Lemma enc_pos v b : Enc v b -> (0 < length b)%nat.
Proof. intros H. destruct (Enc_head v b H) as (h & r & -> & _). cbn. lia. Qed.
Lemma name_pos k kb : tok_enc (TStr k) kb -> (0 < length kb)%nat.
Proof. intros H. apply tok_enc_head in H. destruct H as (h & r & -> & _). cbn. lia. Qed.
Lemma is_obj_false v b rest : (forall l, v <> JObj l) -> Enc v b -> json_is JSON_OBJ (b ++ rest) = Ok false.
Proof.
  intros N H. unfold Enc in H. assert (X : exists t ts, toks v = t :: ts /\ t <> TObj /\ t <> TObjE /\ t <> TArrE) by (destruct v; cbn [toks]; eexists; eexists; (split; [reflexivity|]); repeat split; try discriminate; exfalso; eapply N; reflexivity).
  destruct X as (t & ts & E & N1 & N2 & N3). rewrite E in H. inversion H as [|t' ts' b0 bs' Ht Hts]; subst. apply tok_enc_head in Ht. destruct Ht as (h & r & -> & Hh). unfold json_is. cbn [app rd_u8 bind]. f_equal. unfold JSON_OBJ. destruct t; cbn [tok_tag_ok] in Hh; try contradiction; try congruence; revert Hh; tags; lia.
Qed.
Lemma is_obj_true l b rest : Enc (JObj l) b -> json_is JSON_OBJ (b ++ rest) = Ok true.
Proof. intros H. apply Enc_obj_inv in H. destruct H as (b1 & -> & _). reflexivity. Qed.

Lemma field_split k l y : field k l = Some y -> exists l1 l2, l = l1 ++ (k, y) :: l2 /\ ~ In k (map fst l1).
Proof.
  induction l as [|[n v] l IH]; cbn [field]; [discriminate|]. destruct (bytes_eqb n k) eqn:E.
  - intros H. injection H as ->. apply beq_iff in E. subst n. exists [], l. split; [reflexivity|intros []].
  - intros H. destruct (IH H) as (l1 & l2 & -> & N). exists ((n, v) :: l1), l2. split; [reflexivity|]. intros [F|F]; [cbn in F; subst n; rewrite beq_refl in E; discriminate|contradiction].
Qed.
Lemma field_none k l : field k l = None -> ~ In k (map fst l).
Proof. induction l as [|[n v] l IH]; cbn [field]; [intros _ []|]. destruct (bytes_eqb n k) eqn:E; [discriminate|]. intros H [F|F]; [cbn in F; subst n; rewrite beq_refl in E; discriminate|exact (IH H F)]. Qed.
Lemma field_at k l1 y l2 : ~ In k (map fst l1) -> field k (l1 ++ (k, y) :: l2) = Some y.
Proof. induction l1 as [|[n v] l1 IH]; intros N; cbn [app field]; [now rewrite beq_refl|]. rewrite beq_false by (intros ->; apply N; now left). apply IH. intros H. apply N. now right. Qed.
Lemma field_other j k l1 y y' l2 : j <> k -> field j (l1 ++ (k, y) :: l2) = field j (l1 ++ (k, y') :: l2).
Proof. intros N. induction l1 as [|[n v] l1 IH]; cbn [app field]; [now rewrite beq_false by congruence|]. now rewrite IH. Qed.
Lemma field_notin k l : ~ In k (map fst l) -> field k l = None.
Proof. induction l as [|[n v] l IH]; intros N; [reflexivity|]. cbn [field]. rewrite beq_false by (intros ->; apply N; now left). apply IH. intros H. apply N. now right. Qed.
Lemma existsb_in k ns : existsb (bytes_eqb k) ns = true <-> In k ns.
Proof. rewrite existsb_exists. split; [intros (n & H & E); apply beq_iff in E; now subst|intros H; exists k; split; [exact H|apply beq_refl]]. Qed.

(** ** the meaning, one level *)
Lemma prefix_cons k p q : prefix p q -> prefix (k :: p) (k :: q).
Proof. intros (r & ->). now exists r. Qed.
Lemma changed_field k ks x l1 l2 y y' : ~ In k (map fst l1) -> changed ks x y y' -> changed (k :: ks) x (JObj (l1 ++ (k, y) :: l2)) (JObj (l1 ++ (k, y') :: l2)).
Proof.
  intros N (H1 & H2 & H3). split; [cbn [lookup]; rewrite field_at by exact N; exact H1|]. split.
  - intros [|j q] P1 P2; [exfalso; apply P1; now exists (k :: ks)|]. cbn [lookup]. destruct (bytes_eqb j k) eqn:E.
    + apply beq_iff in E. subst j. rewrite !field_at by exact N. apply H2; intros P; [apply P1|apply P2]; now apply prefix_cons.
    + rewrite (field_other j k l1 y' y l2); [reflexivity|]. intros ->. rewrite beq_refl in E. discriminate.
  - intros [|j q] k' r E; cbn [app] in E; injection E as E1 E2; subst.
    + unfold names_at. cbn [lookup option_map]. f_equal. rewrite !map_app. cbn [map fst]. replace (existsb (bytes_eqb k') (map fst l1 ++ k' :: map fst l2)) with true; [reflexivity|]. symmetry. apply existsb_in. apply in_or_app. right. now left.
    + specialize (H3 q k' r eq_refl). unfold names_at in *. cbn [lookup]. rewrite !field_at by exact N. exact H3.
Qed.
Lemma changed_nil x v : changed [] x v x.
Proof. split; [reflexivity|]. split; [intros q _ P; exfalso; apply P; now exists q|]. intros q k r E. destruct q; discriminate. Qed.
Lemma changed_append k x l : ~ In k (map fst l) -> changed [k] x (JObj l) (JObj (l ++ [(k, x)])).
Proof.
  intros N. split; [cbn [lookup]; rewrite (field_at k l x []) by exact N; reflexivity|]. split.
  - intros [|j q] P1 P2; [exfalso; apply P1; now exists [k]|]. cbn [lookup]. assert (J : j <> k) by (intros ->; apply P2; now exists q). replace (field j (l ++ [(k, x)])) with (field j l); [reflexivity|]. clear -J. induction l as [|[n v] l IH]; cbn [app field]; [now rewrite beq_false by congruence|]. now rewrite IH.
  - intros [|j q] k' r E; cbn [app] in E; [|injection E as E1 E2; destruct q; discriminate]. injection E as E1 E2. subst. unfold names_at. cbn [lookup option_map]. f_equal. rewrite map_app. cbn [map fst].
    destruct (existsb (bytes_eqb k') (map fst l)) eqn:X; [apply existsb_in in X; contradiction|reflexivity].
Qed.
Lemma removed_field k ks l1 l2 y y' : ~ In k (map fst l1) -> ks <> [] -> removed ks y y' -> removed (k :: ks) (JObj (l1 ++ (k, y) :: l2)) (JObj (l1 ++ (k, y') :: l2)).
Proof.
  intros N Ne (H1 & H2 & H3). split; [cbn [lookup]; rewrite field_at by exact N; exact H1|]. split.
  - intros [|j q] P1 P2; [exfalso; apply P1; now exists (k :: ks)|]. cbn [lookup]. destruct (bytes_eqb j k) eqn:E.
    + apply beq_iff in E. subst j. rewrite !field_at by exact N. apply H2; intros P; [apply P1|apply P2]; now apply prefix_cons.
    + rewrite (field_other j k l1 y' y l2); [reflexivity|]. intros ->. rewrite beq_refl in E. discriminate.
  - intros [|j q] k' r E; cbn [app] in E; injection E as E1 E2; subst.
    + unfold names_at. cbn [lookup option_map]. f_equal. rewrite !map_app. cbn [map fst]. destruct r; [congruence|reflexivity].
    + specialize (H3 q k' r eq_refl). unfold names_at in *. cbn [lookup]. rewrite !field_at by exact N. exact H3.
Qed.
Lemma filter_names_id k ns : ~ In k ns -> filter (fun n => negb (bytes_eqb k n)) ns = ns.
Proof. induction ns as [|n ns IH]; intros N; [reflexivity|]. cbn [filter]. rewrite beq_false by (intros ->; apply N; now left). cbn [negb]. f_equal. apply IH. intros H. apply N. now right. Qed.
Lemma removed_missing k ks l : ~ In k (map fst l) -> removed (k :: ks) (JObj l) (JObj l).
Proof.
  intros N. split; [cbn [lookup]; now rewrite field_notin by exact N|]. split; [reflexivity|].
  intros [|j q] k' r E; cbn [app] in E; injection E as E1 E2; subst.
  - unfold names_at. cbn [lookup option_map]. f_equal. destruct r; [now rewrite filter_names_id|reflexivity].
  - unfold names_at. cbn [lookup]. rewrite field_notin by exact N. reflexivity.
Qed.
Definition without (k : list Z) (l : list (list Z * json)) := filter (fun kv => negb (bytes_eqb k (fst kv))) l.
Lemma removed_all k l : removed [k] (JObj l) (JObj (without k l)).
Proof.
  assert (M : map fst (without k l) = filter (fun n => negb (bytes_eqb k n)) (map fst l)) by (unfold without; induction l as [|[n v] l IH]; cbn; [reflexivity|]; destruct (bytes_eqb k n); cbn; congruence).
  split; [|split].
  - cbn [lookup]. rewrite field_notin; [reflexivity|]. rewrite M. intros H. apply filter_In in H. destruct H as [_ H]. rewrite beq_refl in H. discriminate.
  - intros [|j q] P1 P2; [exfalso; apply P1; now exists [k]|]. cbn [lookup]. assert (J : j <> k) by (intros ->; apply P2; now exists q). replace (field j (without k l)) with (field j l); [reflexivity|]. clear -J. unfold without. induction l as [|[n v] l IH]; cbn [filter field fst]; [reflexivity|].
    destruct (bytes_eqb k n) eqn:E; cbn [negb]; [apply beq_iff in E; subst n; now rewrite beq_false by congruence|]. cbn [field]. now rewrite IH.
  - intros [|j q] k' r E; cbn [app] in E; [|injection E as E1 E2; destruct q; discriminate]. injection E as E1 E2. subst. unfold names_at. cbn [lookup option_map]. now rewrite M.
Qed.
