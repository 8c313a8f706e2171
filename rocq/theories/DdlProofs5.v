(** Proofs for C49: the effect of a statement that succeeds. *)
From Verif Require Import Base CodecModel DdlModel DdlSpec DdlProofs DdlProofs2 DdlProofs3 DdlProofs4.
From Coq Require Import Permutation.
Local Open Scope Z_scope.

Lemma split_at {A} o x (l : objs A) : NoDup (ids l) -> In (o, x) l ->
  exists l1 l2, l = l1 ++ (o, x) :: l2 /\ ~ In o (ids l1) /\ ~ In o (ids l2).
Proof.
  intros Hn Hi. apply in_split in Hi. destruct Hi as (l1 & l2 & ->). exists l1, l2. split; [reflexivity|].
  unfold ids in Hn. rewrite map_app in Hn. cbn [map fst] in Hn. apply NoDup_remove in Hn. destruct Hn as [_ Hn].
  split; intros X; apply Hn, in_or_app; [left|right]; exact X.
Qed.
Lemma upd_app {A} o f (l1 l2 : objs A) : upd o f (l1 ++ l2) = upd o f l1 ++ upd o f l2.
Proof. unfold upd. apply map_app. Qed.
Lemma del_app {A} o (l1 l2 : objs A) : del o (l1 ++ l2) = del o l1 ++ del o l2.
Proof. unfold del. apply filter_app. Qed.
Lemma upd_replaced {A} o x f (P : A -> Prop) (R : A -> A -> Prop) l : NoDup (ids l) -> In (o, x) l -> P x -> R x (f x) -> replaced P R l (upd o f l).
Proof.
  intros Hn Hi HP HR. destruct (split_at _ _ _ Hn Hi) as (l1 & l2 & -> & N1 & N2).
  exists l1, o, x, (f x), l2. split; [reflexivity|]. split; [|split; assumption].
  rewrite upd_app, (upd_absent o f l1 N1). cbn [upd map fst snd]. rewrite Z.eqb_refl. f_equal. f_equal. apply (upd_absent o f l2 N2).
Qed.
Lemma del_removed {A} o x (P : A -> Prop) l : NoDup (ids l) -> In (o, x) l -> P x -> removed P l (del o l).
Proof.
  intros Hn Hi HP. destruct (split_at _ _ _ Hn Hi) as (l1 & l2 & -> & N1 & N2).
  exists l1, o, x, l2. split; [reflexivity|]. split; [|assumption].
  rewrite del_app, (del_absent o l1 N1). cbn [del filter fst]. rewrite Z.eqb_refl. cbn [negb]. f_equal. apply (del_absent o l2 N2).
Qed.
Lemma new_added {A} n x (P : A -> Prop) l : ids_ok n l -> P x -> added P l (l ++ [(n, x)]).
Proof. intros Hn HP. exists n, x. split; [reflexivity|]. split; [exact (ids_ok_fresh _ _ Hn)|exact HP]. Qed.

Lemma find_storage c n o x : storage_mgr_find c n = Some (o, x) -> In (o, x) (c_storages c) /\ named_storage n x.
Proof. intros F. apply find_obj_in in F. destruct F as [F1 F2]. split; [exact F1|]. apply compare_case_spec, F2. Qed.
Lemma find_db c n o x : database_mgr_find c n = Some (o, x) -> In (o, x) (c_dbs c) /\ named_db n x.
Proof. intros F. apply find_obj_in in F. destruct F as [F1 F2]. split; [exact F1|]. apply compare_case_spec, F2. Qed.
Lemma find_table c d n o x : table_mgr_find c d n = Some (o, x) -> In (o, x) (c_tables c) /\ named_table d n x.
Proof.
  intros F. apply find_obj_in in F. destruct F as [F1 F2]. split; [exact F1|]. unfold table_is in F2. apply andb_prop in F2.
  split; apply compare_case_spec; apply F2.
Qed.
Lemma find_udf c d n o x : udf_mgr_find c d n = Some (o, x) -> In (o, x) (c_udfs c) /\ named_udf d n x.
Proof.
  intros F. apply find_obj_in in F. destruct F as [F1 F2]. split; [exact F1|]. unfold udf_is in F2. apply andb_prop in F2.
  split; apply compare_case_spec; apply F2.
Qed.
Lemma find_column t n o x : columns_find t n = Some (o, x) -> In (o, x) (tb_columns t) /\ named_column n x.
Proof.
  intros F. apply find_obj_in in F. destruct F as [F1 F2]. split; [exact F1|]. apply andb_prop in F2. destruct F2 as [F2 F3].
  split; [destruct (co_dropped x); [discriminate F2|reflexivity]|apply compare_case_spec, F3].
Qed.
Lemma find_index t n o x : table_index_find t n = Some (o, x) -> In (o, x) (tb_indexes t) /\ named_index n x.
Proof. intros F. apply find_obj_in in F. destruct F as [F1 F2]. split; [exact F1|]. apply compare_case_spec, F2. Qed.
Lemma find_tier t n o x : tier_mgr_find t n = Some (o, x) -> In (o, x) (tb_tiers t) /\ named_tier n x.
Proof. intros F. apply find_obj_in in F. destruct F as [F1 F2]. split; [exact F1|]. apply str_is_eq, F2. Qed.
Lemma vol_find_in n l w : vol_find n l = Some w -> exists l1 l2, l = l1 ++ w :: l2 /\ vo_name w = n /\
  vol_remove n l = l1 ++ l2 /\ forall f, vol_change n f l = l1 ++ f w :: l2.
Proof.
  induction l as [|v l IH]; cbn; [discriminate|]. destruct (str_compare (vo_name v) n) eqn:E.
  - intros X. injection X as ->. exists [], l. split; [reflexivity|]. split; [apply str_is_eq, E|]. split; [reflexivity|]. intros f. reflexivity.
  - intros X. destruct (IH X) as (l1 & l2 & -> & H1 & H2 & H3). exists (v :: l1), l2. split; [reflexivity|]. split; [exact H1|].
    split; [rewrite H2; reflexivity|]. intros f. rewrite H3. reflexivity.
Qed.
Lemma vol_find_none n l : vol_find n l = None -> forall w, In w l -> vo_name w <> n.
Proof.
  induction l as [|v l IH]; cbn; [intros _ ? []|]. destruct (str_compare (vo_name v) n) eqn:E; [discriminate|].
  intros X w [->|Hw]; [|exact (IH X w Hw)]. intros Hn. apply str_is_eq in Hn. unfold str_compare in E. rewrite Hn in E. discriminate E.
Qed.
Lemma renamed_if n n' : renamed n n' (if str_compare_case n n' then n else n').
Proof.
  destruct (str_compare_case n n') eqn:E; [left|right]; split; try reflexivity; [apply compare_case_spec, E|].
  intros X. apply compare_case_spec in X. rewrite X in E. discriminate E.
Qed.
Lemma number_snd {A} n (l : list A) : map snd (number n l) = l.
Proof. revert n. induction l as [|x l IH]; intros n; [reflexivity|]. cbn. rewrite IH. reflexivity. Qed.

(** the result of an operation that did not raise an error *)
Definition does (op : ddl) (c : catalog) (o : outcome) : Prop :=
  match snd o with
  | None => True
  | Some _ => (fst o = (c, [])) \/ (snd (fst o) <> [] /\ effect op c (tr_commit (snd (fst o)) (fst (fst o))))
  end.
Lemma does_unless op c b : does op c (unless b (c, [])).
Proof. destruct b; [left; reflexivity|exact I]. Qed.
Lemma does_raise op c s : does op c (raise s).
Proof. exact I. Qed.
Lemma does_one op c c' e : effect op c (commit1 e c') -> does op c (done c' [e]).
Proof. intros H. right. split; [discriminate|exact H]. Qed.
Lemma changes c d n o t f (R : table -> table -> Prop) k : inv c -> In (o, t) (c_tables c) -> named_table d n t -> R t (f t) ->
  table_changes d n R c (set_next (on_table o f c) k).
Proof.
  intros H Hi Hn HR. split; [reflexivity|]. split; [reflexivity|]. split; [|reflexivity].
  cbn [c_tables set_next set_tables on_table]. eapply upd_replaced; [apply H|exact Hi|exact Hn|exact HR].
Qed.
Lemma changes0 c d n o t f (R : table -> table -> Prop) : inv c -> In (o, t) (c_tables c) -> named_table d n t -> R t (f t) ->
  table_changes d n R c (on_table o f c).
Proof. intros H Hi Hn HR. rewrite <- (set_next_same (on_table o f c)). eapply changes; eassumption. Qed.

Lemma execute_does1 v op c o : inv c -> keys_ok c -> catalog_execute v op (c, []) = Ok o ->
  (match op with Db_drop _ _ _ | Db_rename _ _ _ => False | _ => True end) -> does op c o.
Proof.
  intros H K E Hop. pose proof H as (HS & HD & HT & HU & HTK).
  destruct op; try contradiction Hop; cbn [catalog_execute fst] in E;
    try (destruct (depends v c _); [injection E as <-; apply does_raise|]); unfold with_table in E; cbn [fst snd] in E.
  - (* CREATE STORAGE *)
    injection E as <-. unfold storage_mgr_create. destruct (storage_mgr_find c _); [apply does_unless|]. apply does_one.
    split; [apply new_added; [exact HS|reflexivity]|]. repeat split.
  - injection E as <-. unfold storage_mgr_drop. destruct (storage_mgr_find c _) as [[i x]|] eqn:F; [|apply does_unless].
    destruct (storage_used c _); [exact I|]. destruct (st_system x); [exact I|]. apply does_one. apply find_storage in F. destruct F as [F1 F2].
    split; [eapply del_removed; [apply HS|exact F1|exact F2]|]. repeat split.
  - injection E as <-. unfold storage_mgr_rename. destruct (storage_mgr_find c n) as [[i x]|] eqn:F; [|apply does_unless].
    destruct (storage_used c _); [exact I|]. destruct (st_system x); [exact I|]. destruct (storage_mgr_find c n'); [exact I|].
    apply does_one. apply find_storage in F. destruct F as [F1 F2].
    split; [eapply upd_replaced; [apply HS|exact F1|exact F2|reflexivity]|]. repeat split.
  - injection E as <-. unfold database_mgr_create. destruct (database_mgr_find c _); [apply does_unless|]. apply does_one.
    split; [reflexivity|]. split; [apply new_added; [exact HD|reflexivity]|]. repeat split.
  - (* CREATE TABLE *)
    injection E as <-. unfold table_mgr_create. destruct (table_mgr_find c _ _); [apply does_unless|].
    destruct (e_table_open v); [|exact I]. apply does_one. split; [reflexivity|]. split; [reflexivity|]. split; [|reflexivity].
    apply new_added; [exact HT|]. unfold new_table, table_allocate. cbn [tb_db tb_name tb_uuid tb_columns tb_indexes tb_unlogged tb_part tb_tiers tb_seq tb_rows].
    rewrite !number_snd. repeat split.
  - injection E as <-. unfold table_mgr_drop. cbn [fst]. destruct (table_mgr_find c d n) as [[i x]|] eqn:F; [|apply does_unless].
    apply does_one. apply find_table in F. destruct F as [F1 F2]. split; [reflexivity|]. split; [reflexivity|]. split; [|reflexivity].
    eapply del_removed; [apply HT|exact F1|exact F2].
  - injection E as <-. destruct (database_mgr_find c d'); [|exact I]. destruct (depends v c n); [exact I|]. unfold table_mgr_rename.
    destruct (table_mgr_find c d n) as [[i x]|] eqn:F; [|apply does_unless]. destruct (table_mgr_find c d' n'); [exact I|].
    apply does_one. apply find_table in F. destruct F as [F1 F2]. cbn [effect commit1]. eapply changes0; [exact H|exact F1|exact F2|].
    eexists _, _. split; [apply renamed_if|]. split; [apply renamed_if|reflexivity].
  - injection E as <-. unfold table_mgr_truncate. destruct (table_mgr_find c d n) as [[i x]|] eqn:F; [|apply does_unless].
    apply does_one. apply find_table in F. destruct F as [F1 F2]. cbn [effect commit1]. eapply changes0; [exact H|exact F1|exact F2|reflexivity].
  - injection E as <-. unfold table_mgr_set_identity. destruct (table_mgr_find c d n) as [[i x]|] eqn:F; [|apply does_unless].
    apply does_one. apply find_table in F. destruct F as [F1 F2]. cbn [effect commit1]. eapply changes0; [exact H|exact F1|exact F2|reflexivity].
  - injection E as <-. unfold table_mgr_set_unlogged. destruct (table_mgr_find c d n) as [[i x]|] eqn:F; [|apply does_unless].
    apply does_one. apply find_table in F. destruct F as [F1 F2]. cbn [effect commit1]. eapply changes0; [exact H|exact F1|exact F2|reflexivity].
  - (* ADD COLUMN *)
    injection E as <-. unfold table_mgr_column_add. destruct (table_mgr_find c d n) as [[i t]|] eqn:F; [|apply does_unless].
    destruct (columns_find t _); [apply does_unless|]. destruct (_ && _); [exact I|]. apply does_one. apply find_table in F. destruct F as [F1 F2].
    cbn [effect commit1]. eapply changes; [exact H|exact F1|exact F2|]. eexists. split; [|reflexivity]. apply new_added; [|reflexivity].
    apply (HTK _ F1).
  - unfold table_mgr_column_drop in E. destruct (table_mgr_find c d n) as [[i t]|] eqn:F; [|injection E as <-; apply does_unless].
    destruct (columns_find t k) as [[j x]|] eqn:G; [|injection E as <-; apply does_unless]. destruct (0 <? co_refs x) eqn:Hr; [injection E as <-; exact I|].
    destruct (constraints_write _); try discriminate E. injection E as <-. apply does_one.
    apply find_table in F. destruct F as [F1 F2]. apply find_column in G. destruct G as [G1 G2]. cbn [effect commit1].
    eapply changes0; [exact H|exact F1|exact F2|]. eexists. split; [|reflexivity].
    eapply upd_replaced; [apply (HTK _ F1)|exact G1|exact G2|]. split; [apply Z.ltb_ge, Hr|reflexivity].
  - injection E as <-. unfold table_mgr_column_rename. destruct (table_mgr_find c d n) as [[i t]|] eqn:F; [|apply does_unless].
    destruct (columns_find t k) as [[j x]|] eqn:G; [|apply does_unless]. destruct (columns_find t k'); [exact I|].
    apply does_one. apply find_table in F. destruct F as [F1 F2]. apply find_column in G. destruct G as [G1 G2]. cbn [effect commit1].
    eapply changes0; [exact H|exact F1|exact F2|]. eexists. split; [|reflexivity]. eapply upd_replaced; [apply (HTK _ F1)|exact G1|exact G2|reflexivity].
  - unfold table_mgr_column_set in E. destruct (table_mgr_find c d n) as [[i t]|] eqn:F; [|injection E as <-; apply does_unless].
    destruct (columns_find t k) as [[j x]|] eqn:G; [|injection E as <-; apply does_unless].
    destruct (constraints_write _); try discriminate E. injection E as <-. apply does_one.
    apply find_table in F. destruct F as [F1 F2]. apply find_column in G. destruct G as [G1 G2]. cbn [effect commit1].
    eapply changes0; [exact H|exact F1|exact F2|]. eexists. split; [|reflexivity]. eapply upd_replaced; [apply (HTK _ F1)|exact G1|exact G2|].
    destruct w; repeat split; reflexivity.
  - (* DROP INDEX *)
    injection E as <-. destruct (table_mgr_find c d n) as [[k t]|] eqn:F; [|exact I]. unfold table_index_drop. cbn [fst snd].
    destruct (table_index_find t i) as [[j x]|] eqn:G; [|apply does_unless]. apply does_one.
    apply find_table in F. destruct F as [F1 F2]. apply find_index in G. destruct G as [G1 G2]. cbn [effect commit1].
    eapply changes0; [exact H|exact F1|exact F2|]. eexists. split; [|reflexivity]. eapply del_removed; [apply (HTK _ F1)|exact G1|exact G2].
  - injection E as <-. destruct (table_mgr_find c d n) as [[k t]|] eqn:F; [|exact I]. unfold table_index_rename. cbn [fst snd].
    destruct (table_index_find t i) as [[j x]|] eqn:G; [|apply does_unless]. destruct (table_index_find t i'); [exact I|]. apply does_one.
    apply find_table in F. destruct F as [F1 F2]. apply find_index in G. destruct G as [G1 G2]. cbn [effect commit1].
    eapply changes0; [exact H|exact F1|exact F2|]. eexists. split; [|reflexivity]. eapply upd_replaced; [apply (HTK _ F1)|exact G1|exact G2|reflexivity].
  - injection E as <-. destruct (table_mgr_find c d n) as [[k t]|] eqn:F; [|exact I]. unfold table_tier_create. cbn [fst snd].
    destruct (tier_mgr_find t _); [apply does_unless|]. destruct (e_tier_open v && e_mkdir v); [|exact I]. apply does_one.
    apply find_table in F. destruct F as [F1 F2]. cbn [effect commit1].
    eapply changes; [exact H|exact F1|exact F2|]. eexists. split; [|reflexivity]. apply new_added; [|reflexivity]. apply (HTK _ F1).
  - injection E as <-. destruct (table_mgr_find c d n) as [[k t]|] eqn:F; [|exact I]. unfold table_tier_drop. cbn [fst snd].
    destruct (tier_mgr_find t i) as [[j x]|] eqn:G; [|apply does_unless]. apply does_one.
    apply find_table in F. destruct F as [F1 F2]. apply find_tier in G. destruct G as [G1 G2]. cbn [effect commit1].
    eapply changes0; [exact H|exact F1|exact F2|]. eexists. split; [|reflexivity]. eapply del_removed; [apply (HTK _ F1)|exact G1|exact G2].
  - injection E as <-. destruct (table_mgr_find c d n) as [[k t]|] eqn:F; [|exact I]. unfold table_tier_rename. cbn [fst snd].
    destruct (tier_mgr_find t i) as [[j x]|] eqn:G; [|apply does_unless]. destruct (tier_mgr_find t i'); [exact I|]. apply does_one.
    apply find_table in F. destruct F as [F1 F2]. apply find_tier in G. destruct G as [G1 G2]. cbn [effect commit1].
    eapply changes0; [exact H|exact F1|exact F2|]. eexists. split; [|reflexivity]. eapply upd_replaced; [apply (HTK _ F1)|exact G1|exact G2|reflexivity].
  - injection E as <-. destruct (table_mgr_find c d n) as [[k t]|] eqn:F; [|exact I]. unfold table_tier_set. cbn [fst snd].
    destruct (tier_mgr_find t _) as [[j y]|] eqn:G; [|apply does_unless]. apply does_one.
    apply find_table in F. destruct F as [F1 F2]. apply find_tier in G. destruct G as [G1 G2]. cbn [effect commit1].
    eapply changes0; [exact H|exact F1|exact F2|]. eexists. split; [|reflexivity]. eapply upd_replaced; [apply (HTK _ F1)|exact G1|exact G2|].
    destruct region, object, y; reflexivity.
  - injection E as <-. destruct (table_mgr_find c d n) as [[k t]|] eqn:F; [|exact I]. unfold table_tier_storage_add. cbn [fst snd].
    destruct (tier_mgr_find t _) as [[j y]|] eqn:G; [|apply does_unless]. destruct (storage_mgr_find c _) as [[so sx]|] eqn:S; [|exact I].
    destruct (vol_find _ _) eqn:V; [apply does_unless|]. destruct (e_mkdir v); [|exact I]. apply does_one.
    apply find_table in F. destruct F as [F1 F2]. apply find_tier in G. destruct G as [G1 G2]. cbn [effect commit1].
    split; [|apply find_storage in S; exists so, sx; exact S].
    eapply changes0; [exact H|exact F1|exact F2|]. eexists. split; [|reflexivity]. eapply upd_replaced; [apply (HTK _ F1)|exact G1|exact G2|].
    eexists. split; [|reflexivity]. split; [exact (vol_find_none _ _ V)|reflexivity].
  - injection E as <-. destruct (table_mgr_find c d n) as [[k t]|] eqn:F; [|exact I]. unfold table_tier_storage_drop. cbn [fst snd].
    destruct (tier_mgr_find t _) as [[j y]|] eqn:G; [|apply does_unless].
    destruct (vol_find _ _) as [w|] eqn:V; [|apply does_unless]. destruct (0 <? _); [exact I|]. apply does_one.
    apply find_table in F. destruct F as [F1 F2]. apply find_tier in G. destruct G as [G1 G2]. cbn [effect commit1].
    eapply changes0; [exact H|exact F1|exact F2|]. eexists. split; [|reflexivity]. eapply upd_replaced; [apply (HTK _ F1)|exact G1|exact G2|].
    eexists. split; [|reflexivity]. destruct (vol_find_in _ _ _ V) as (l1 & l2 & W1 & W2 & W3 & _). exists l1, w, l2. split; [exact W1|]. split; [exact W3|exact W2].
  - injection E as <-. destruct (table_mgr_find c d n) as [[k t]|] eqn:F; [|exact I]. unfold table_tier_storage_pause. cbn [fst snd].
    destruct (tier_mgr_find t _) as [[j y]|] eqn:G; [|apply does_unless].
    destruct (vol_find _ _) as [w|] eqn:V; [|apply does_unless]. destruct (Bool.eqb (vo_pause w) b) eqn:Hb; [left; reflexivity|].
    destruct (b && _) eqn:Hact; [exact I|]. apply does_one.
    apply find_table in F. destruct F as [F1 F2]. apply find_tier in G. destruct G as [G1 G2]. cbn [effect commit1].
    eapply changes0; [exact H|exact F1|exact F2|]. eexists. split; [|reflexivity]. eapply upd_replaced; [apply (HTK _ F1)|exact G1|exact G2|].
    eexists. split; [|reflexivity]. destruct (vol_find_in _ _ _ V) as (l1 & l2 & W1 & W2 & _ & W3). split.
    + exists l1, w, (vo_set_pause b w), l2.
      split; [exact W1|]. split; [apply W3|]. split; [exact W2|]. split; [apply Bool.eqb_false_iff, Hb|reflexivity].
    + intros ->. apply Bool.eqb_false_iff in Hb. cbn [andb] in Hact. apply Z.leb_gt in Hact.
      rewrite (W3 (vo_set_pause true)). rewrite W1 in Hact. rewrite filter_app in Hact. cbn [filter] in Hact.
      destruct (vo_pause w) eqn:Hw; [now contradiction Hb|]. cbn [negb] in Hact.
      destruct (filter (fun v0 => negb (vo_pause v0)) l1) as [|z zs] eqn:Z1.
      * destruct (filter (fun v0 => negb (vo_pause v0)) l2) as [|z zs] eqn:Z2; [cbn in Hact; lia|].
        assert (In z (filter (fun v0 => negb (vo_pause v0)) l2)) as Hz by (rewrite Z2; now left). apply filter_In in Hz.
        exists z. split; [apply in_app_iff; right; right; apply Hz|]. destruct Hz as [_ Hz]. now destruct (vo_pause z).
      * assert (In z (filter (fun v0 => negb (vo_pause v0)) l1)) as Hz by (rewrite Z1; now left). apply filter_In in Hz.
        exists z. split; [apply in_app_iff; left; apply Hz|]. destruct Hz as [_ Hz]. now destruct (vo_pause z).
  - (* functions *)
    injection E as <-. unfold udf_mgr_create. destruct (udf_mgr_find c _ _); [exact I|]. destruct (e_compiles v x); [|exact I]. apply does_one.
    split; [reflexivity|]. split; [reflexivity|]. split; [reflexivity|]. apply new_added; [exact HU|reflexivity].
  - injection E as <-. unfold udf_replace, udf_mgr_create. destruct (udf_mgr_find c _ _) as [[i u]|] eqn:F.
    + destruct (str_is _ _) eqn:S; [|exact I]. destruct (e_compiles v x); [|exact I]. apply does_one.
      split; [reflexivity|]. split; [reflexivity|]. split; [reflexivity|]. right. apply find_udf in F. destruct F as [F1 F2].
      eapply upd_replaced; [apply HU|exact F1| |reflexivity]. split; [exact F2|apply str_is_eq, S].
    + destruct (e_compiles v x); [|exact I]. apply does_one. split; [reflexivity|]. split; [reflexivity|]. split; [reflexivity|].
      left. apply new_added; [exact HU|reflexivity].
  - injection E as <-. unfold udf_mgr_drop. cbn [fst]. destruct (udf_mgr_find c d n) as [[i x]|] eqn:F; [|apply does_unless].
    apply does_one. apply find_udf in F. destruct F as [F1 F2]. split; [reflexivity|]. split; [reflexivity|]. split; [reflexivity|].
    eapply del_removed; [apply HU|exact F1|exact F2].
  - injection E as <-. destruct (database_mgr_find c d'); [|exact I]. destruct (depends v c n); [exact I|]. unfold udf_mgr_rename.
    destruct (udf_mgr_find c d n) as [[i x]|] eqn:F; [|apply does_unless]. destruct (udf_mgr_find c d' n'); [exact I|].
    apply does_one. apply find_udf in F. destruct F as [F1 F2]. split; [reflexivity|]. split; [reflexivity|]. split; [reflexivity|].
    eapply upd_replaced; [apply HU|exact F1|exact F2|]. eexists _, _. split; [apply renamed_if|]. split; [apply renamed_if|reflexivity].
Qed.

Lemma commit_cons e log c : tr_commit (e :: log) c = commit1 e (tr_commit log c).
Proof. reflexivity. Qed.
(** entries without work at commit *)
Definition inert (e : entry) : Prop := forall c, commit1 e c = c.
Lemma inert_commit log c : Forall inert log -> tr_commit log c = c.
Proof. induction 1 as [|e log He _ IH]; [reflexivity|]. cbn. fold (tr_commit log c). rewrite IH. apply He. Qed.

Definition of_db (d : str) (p : Z * table) : bool := str_compare_case (tb_db (snd p)) d.
Lemma drop_tables_spec d drop l : forall c log s, drop_tables d drop l (c, log) = (s, true) ->
  c_storages (fst s) = c_storages c /\ c_dbs (fst s) = c_dbs c /\ c_udfs (fst s) = c_udfs c /\
  (forall p, In p (c_tables (fst s)) <-> In p (c_tables c) /\ ~ In (fst p) (ids (filter (of_db d) l))) /\
  (Forall inert log -> Forall inert (snd s)) /\
  (drop = false -> s = (c, log) /\ filter (of_db d) l = []).
Proof.
  induction l as [|p l IH]; intros c log s E; cbn [drop_tables] in E.
  - injection E as <-. cbn [fst snd filter ids map]. repeat split; auto. tauto.
  - cbn [filter]. change (str_compare_case (tb_db (snd p)) d) with (of_db d p) in E. destruct (of_db d p).
    + destruct drop; [|discriminate E]. unfold table_mgr_drop_of in E. cbn [fst snd] in E.
      destruct (IH _ _ _ E) as (H1 & H2 & H3 & H4 & H5 & _). split; [exact H1|]. split; [exact H2|]. split; [exact H3|]. split; [|split].
      * intros q. rewrite H4. cbn [c_tables set_tables ids map In]. rewrite in_del. unfold ids. intuition congruence.
      * intros Hl. apply H5. constructor; [intros k; reflexivity|exact Hl].
      * discriminate.
    + apply IH, E.
Qed.
Definition udf_of_db (d : str) (p : Z * udf) : bool := str_compare_case (uf_db (snd p)) d.
Lemma drop_udfs_spec d drop l : forall c log s, drop_udfs d drop l (c, log) = (s, true) ->
  c_storages (fst s) = c_storages c /\ c_dbs (fst s) = c_dbs c /\ c_tables (fst s) = c_tables c /\
  (forall p, In p (c_udfs (fst s)) <-> In p (c_udfs c) /\ ~ In (fst p) (ids (filter (udf_of_db d) l))) /\
  (Forall inert log -> Forall inert (snd s)) /\
  (drop = false -> s = (c, log) /\ filter (udf_of_db d) l = []).
Proof.
  induction l as [|p l IH]; intros c log s E; cbn [drop_udfs] in E.
  - injection E as <-. cbn [fst snd filter ids map]. repeat split; auto. tauto.
  - cbn [filter]. change (str_compare_case (uf_db (snd p)) d) with (udf_of_db d p) in E. destruct (udf_of_db d p).
    + destruct drop; [|discriminate E]. unfold udf_mgr_drop_of in E. cbn [fst snd] in E.
      destruct (IH _ _ _ E) as (H1 & H2 & H3 & H4 & H5 & _). split; [exact H1|]. split; [exact H2|]. split; [exact H3|]. split; [|split].
      * intros q. rewrite H4. cbn [c_udfs set_udfs ids map In]. rewrite in_del. unfold ids. intuition congruence.
      * intros Hl. apply H5. constructor; [intros k; reflexivity|exact Hl].
      * discriminate.
    + apply IH, E.
Qed.
Lemma same_id {A} (l : objs A) p q : NoDup (ids l) -> In p l -> In q l -> fst p = fst q -> p = q.
Proof.
  induction l as [|a l IH]; [intros _ []|]. cbn [ids map]. intros Hn. inversion Hn as [|? ? N1 N2]; subst.
  intros [->|Hp] [->|Hq] E; [reflexivity| | |exact (IH N2 Hp Hq E)]; exfalso; apply N1.
  - rewrite E. apply (in_map fst), Hq.
  - rewrite <- E. apply (in_map fst), Hp.
Qed.
Lemma in_filter_id {A} (f : Z * A -> bool) (l : objs A) p : NoDup (ids l) -> In p l -> (In (fst p) (ids (filter f l)) <-> f p = true).
Proof.
  intros Hn Hp. split.
  - intros X. apply in_map_iff in X. destruct X as (q & E & X). apply filter_In in X. destruct X as [X1 X2].
    rewrite (same_id l p q Hn Hp X1 (eq_sym E)). exact X2.
  - intros X. apply in_map, filter_In. split; assumption.
Qed.
Lemma cascade_drop_does n cascade ie c : inv c -> does (Db_drop n cascade ie) c (cascade_db_drop n cascade ie (c, [])).
Proof.
  intros H. pose proof H as (HS & HD & HT & HU & HTK). unfold cascade_db_drop. cbn [fst].
  destruct (database_mgr_find c n) as [[o x]|] eqn:F; [|apply does_unless]. destruct (db_system x) eqn:Hx; [exact I|].
  destruct (drop_tables n cascade (c_tables c) (c, [])) as [[c1 log1] [|]] eqn:E1; [|exact I]. cbn [fst snd].
  destruct (drop_tables_spec _ _ _ _ _ _ E1) as (A1 & A2 & A3 & A4 & A5 & A6). cbn [fst snd] in *.
  destruct (drop_udfs n cascade (c_udfs c1) (c1, log1)) as [[c2 log2] [|]] eqn:E2; [|exact I].
  destruct (drop_udfs_spec _ _ _ _ _ _ E2) as (B1 & B2 & B3 & B4 & B5 & B6). cbn [fst snd] in *.
  unfold database_mgr_drop, database_mgr_find in *. rewrite B2, A2, F, Hx. right. cbn [fst snd done].
  split; [discriminate|]. rewrite commit_cons. cbn [commit1].
  rewrite (inert_commit log2) by (apply B5, A5; constructor).
  split; [unfold same_storages; cbn [c_storages set_dbs]; congruence|].
  split; [cbn [c_dbs set_dbs]; rewrite ?B2, ?A2; apply find_db in F; destruct F as [F1 F2]; eapply del_removed; [apply HD|exact F1|exact F2]|].
  split; [|split].
  - cbn [c_tables set_dbs]. rewrite B3. intros p. rewrite A4. split; intros [X Y]; (split; [exact X|]).
    + intros Z. apply Y. apply in_filter_id; [apply HT|exact X|]. apply compare_case_spec, Z.
    + intros Z. apply Y. apply in_filter_id in Z; [|apply HT|exact X]. apply compare_case_spec, Z.
  - cbn [c_udfs set_dbs]. rewrite <- A3 in HU. intros p. rewrite B4, A3. split; intros [X Y]; (split; [exact X|]).
    + intros Z. apply Y. rewrite <- A3 in X |- *. apply in_filter_id; [apply HU|exact X|]. apply compare_case_spec, Z.
    + intros Z. apply Y. rewrite <- A3 in X, Z. apply in_filter_id in Z; [|apply HU|exact X]. apply compare_case_spec, Z.
  - intros ->. destruct (A6 eq_refl) as [X _]. destruct (B6 eq_refl) as [Y _]. unfold same_tables, same_udfs. cbn [c_tables c_udfs set_dbs]. split; congruence.
Qed.

Lemma find_key c p : inv c -> keys_ok c -> In p (c_tables c) -> table_mgr_find c (tb_db (snd p)) (tb_name (snd p)) = Some p.
Proof.
  intros H K Hp. destruct (table_mgr_find c _ _) as [q|] eqn:F.
  - destruct q as [o t]. apply find_table in F. destruct F as [F1 [F2 F3]]. f_equal.
    destruct H as (_ & _ & HT & _). destruct K as (_ & _ & KT & _).
    apply (keys_unique k_table (c_tables c)); [apply HT|exact KT|exact F1|exact Hp|]. unfold k_table. cbn [snd] in *. rewrite F2, F3. reflexivity.
  - exfalso. apply (table_none _ _ _ F p Hp). reflexivity.
Qed.
Definition renamed_to (d d' : str) (p : Z * table) : Z * table :=
  if of_db d p then (fst p, t_set_names d' (tb_name (snd p)) (snd p)) else p.
Lemma rename_tables_spec d d' l : str_compare_case d d' = false -> forall pre c log s, inv c -> keys_ok c -> c_tables c = pre ++ l ->
  rename_tables d d' l (c, log) = (s, true) ->
  c_storages (fst s) = c_storages c /\ c_dbs (fst s) = c_dbs c /\ c_udfs (fst s) = c_udfs c /\
  c_tables (fst s) = pre ++ map (renamed_to d d') l /\ (Forall inert log -> Forall inert (snd s)).
Proof.
  intros Hd. induction l as [|p l IH]; intros pre c log s H K Hl E; cbn [rename_tables] in E.
  - injection E as <-. cbn [fst snd map]. repeat split; auto.
  - assert (In p (c_tables c)) as Hp by (rewrite Hl; apply in_or_app; right; left; reflexivity).
    cbn [map]. unfold renamed_to at 1, of_db. destruct (str_compare_case (tb_db (snd p)) d) eqn:M.
    + unfold table_mgr_rename in E. rewrite (find_key c p H K Hp) in E.
      pose proof (table_rename_kept (tb_db (snd p)) (tb_name (snd p)) d' (tb_name (snd p)) false c log H K) as K1.
      pose proof (table_rename_good (tb_db (snd p)) (tb_name (snd p)) d' (tb_name (snd p)) false c log True H) as G.
      apply good_inv in G. unfold kept in K1. unfold table_mgr_rename in K1, G. rewrite (find_key c p H K Hp) in K1, G.
      destruct p as [o t]. cbn [fst snd] in *.
      destruct (table_mgr_find c d' (tb_name t)) as [q|]; [discriminate E|]. cbn [fst snd done] in *.
      assert (str_compare_case (tb_db t) d' = false) as M'.
      { destruct (str_compare_case (tb_db t) d') eqn:X; [|reflexivity]. apply compare_case_spec in X. apply compare_case_spec in M.
        enough (str_compare_case d d' = true) by congruence. apply compare_case_spec. unfold same_name in *. congruence. }
      assert (str_compare_case (tb_name t) (tb_name t) = true) as M2 by (apply compare_case_spec; reflexivity).
      rewrite M', M2 in *.
      assert (c_tables (on_table o (t_set_names d' (tb_name t)) c) = (pre ++ [(o, t_set_names d' (tb_name t) t)]) ++ l) as Q.
      { unfold on_table. cbn [c_tables set_tables]. rewrite Hl. rewrite upd_app. destruct H as (_ & _ & [HT _] & _). unfold ids in HT. rewrite Hl, map_app in HT. cbn [map fst] in HT.
        apply NoDup_remove in HT. destruct HT as [_ HT].
        rewrite (upd_absent o _ pre) by (intros X; apply HT, in_or_app; left; exact X). cbn [upd map fst snd]. rewrite Z.eqb_refl. rewrite <- app_assoc. cbn [app].
        f_equal. f_equal. apply (upd_absent o _ l). intros X; apply HT, in_or_app; right; exact X. }
      destruct (IH _ _ _ _ G K1 Q E) as (A1 & A2 & A3 & A4 & A5).
      rewrite <- app_assoc in A4. cbn [app] in A4. split; [exact A1|]. split; [exact A2|]. split; [exact A3|]. split; [exact A4|].
      intros Hlg. apply A5. constructor; [intros k; reflexivity|exact Hlg].
    + assert (c_tables c = (pre ++ [p]) ++ l) as Q by (rewrite <- app_assoc; exact Hl).
      destruct (IH _ _ _ _ H K Q E) as (A1 & A2 & A3 & A4 & A5).
      rewrite <- app_assoc in A4. repeat split; assumption.
Qed.
Lemma rename_kept_find n n' l : forall c log s ok, rename_tables n n' l (c, log) = (s, ok) -> c_dbs (fst s) = c_dbs c.
Proof.
  induction l as [|p l IH]; intros c log s ok E; cbn [rename_tables] in E; [injection E as <- _; reflexivity|].
  destruct (str_compare_case (tb_db (snd p)) n); [|exact (IH _ _ _ _ E)].
  pose proof (table_rename_dbs (tb_db (snd p)) (tb_name (snd p)) n' (tb_name (snd p)) false c log) as D.
  destruct (table_mgr_rename _ _ _ _ _ _) as [[c1 log1] [b|]]; cbn [fst] in D; [rewrite (IH _ _ _ _ E); exact D|injection E as <- _; exact D].
Qed.
Lemma cascade_rename_does n n' ie c : inv c -> keys_ok c -> does (Db_rename n n' ie) c (cascade_db_rename n n' ie (c, [])).
Proof.
  intros H K. pose proof H as (HS & HD & HT & HU & HTK). unfold cascade_db_rename. cbn [fst].
  destruct (database_mgr_find c n) as [[o x]|] eqn:F; [|apply does_unless]. destruct (db_system x) eqn:Hx; [exact I|].
  destruct (rename_tables n n' (c_tables c) (c, [])) as [[c1 log1] [|]] eqn:E1; [|exact I]. cbn [fst snd].
  destruct (existsb _ (c_udfs c1)) eqn:U; [exact I|].
  pose proof (rename_kept_find _ _ _ _ _ _ _ E1) as D. cbn [fst] in D.
  unfold database_mgr_rename, database_mgr_find in *. rewrite D, F, Hx.
  destruct (find_obj (db_is n') (c_dbs c)) as [q|] eqn:F'; [exact I|].
  assert (str_compare_case n n' = false) as Hd.
  { destruct (str_compare_case n n') eqn:X; [|reflexivity]. exfalso. apply find_db in F. destruct F as [F1 F2].
    refine (db_none c n' x F' _ (o, x) F1 eq_refl). apply compare_case_spec in X. unfold named_db, same_name in *. congruence. }
  destruct (rename_tables_spec _ _ (c_tables c) Hd [] c [] _ H K eq_refl E1) as (A1 & A2 & A3 & A4 & A5). cbn [fst snd app] in *.
  right. split; [discriminate|]. cbn [fst snd done]. rewrite commit_cons. cbn [commit1].
  rewrite (inert_commit log1) by (apply A5; constructor).
  split; [exact A1|]. split; [|split; [|split; [exact A3|]]].
  - cbn [c_dbs set_dbs]. apply find_db in F. destruct F as [F1 F2]. eapply upd_replaced; [apply HD|exact F1|exact F2|reflexivity].
  - cbn [c_tables set_dbs]. rewrite A4. clear. induction (c_tables c) as [|p l IH]; [constructor|]. cbn [map]. constructor; [|exact IH].
    unfold renamed_to, of_db. destruct (str_compare_case (tb_db (snd p)) n) eqn:M; [left|right]; split; try reflexivity; [apply compare_case_spec, M|].
    intros X. apply compare_case_spec in X. rewrite X in M. discriminate M.
  - intros p Hp X. rewrite A3 in U. assert (existsb (fun p => str_compare_case (uf_db (snd p)) n) (c_udfs c) = true) as Y; [|congruence].
    apply existsb_exists. exists p. split; [exact Hp|apply compare_case_spec, X].
Qed.
Lemma execute_does v op c o : inv c -> keys_ok c -> catalog_execute v op (c, []) = Ok o -> does op c o.
Proof.
  intros H K E. destruct op; try (eapply execute_does1; [exact H|exact K|exact E|exact I]); cbn [catalog_execute] in E; injection E as <-;
    [apply cascade_drop_does, H|apply cascade_rename_does; assumption].
Qed.
Lemma statement_effect v ro wal op c r : inv c -> keys_ok c -> session_execute_utility v ro wal op c = Ok r -> r_error r = false ->
  (r_logged r = false /\ r_cat r = c) \/ (r_logged r = true /\ effect op c (r_cat r)).
Proof.
  intros H K E Hr. unfold session_execute_utility in E. cbn [run] in E.
  destruct (catalog_execute v op (c, [])) as [[[c1 log1] b]| |] eqn:X; try discriminate E. cbn [bind fst snd] in E.
  pose proof (execute_does v op c _ H K X) as D. unfold does in D. cbn [fst snd] in D.
  destruct b as [b|]; cbn [bind fst snd] in E.
  - destruct log1 as [|e log1]; cbn [snd fst] in E.
    + injection E as <-. cbn in *. left. split; [reflexivity|]. destruct D as [D|[D _]]; [congruence|contradiction D; reflexivity].
    + destruct ro; [injection E as <-; discriminate Hr|]. destruct wal; injection E as <-; [|discriminate Hr].
      right. split; [reflexivity|]. destruct D as [D|[_ D]]; [discriminate D|exact D].
  - destruct (tr_abort log1 c1) as [c2| |]; try discriminate E. injection E as <-. discriminate Hr.
Qed.
Lemma statement_refs v ro wal op c r n : session_execute_utility v ro wal op c = Ok r -> r_error r = false -> r_logged r = true ->
  alters op = Some n -> forall p, In p (c_udfs c) -> e_depends v (snd p) n = false.
Proof.
  intros E Hr Hl A. assert (depends v c n = false) as D.
  { destruct (depends v c n) eqn:D; [|reflexivity]. exfalso. unfold session_execute_utility in E. cbn [run] in E.
    assert (forall o, catalog_execute v op (c, []) = Ok o -> snd o = None) as X.
    { intros o Ho. destruct op; try discriminate A; injection A as ->; cbn [catalog_execute fst] in Ho; rewrite ?D in Ho;
        try (injection Ho as <-; reflexivity); destruct (database_mgr_find c d'); injection Ho as <-; reflexivity. }
    destruct (catalog_execute v op (c, [])) as [o| |]; try discriminate E. specialize (X o eq_refl). cbn [bind] in E. rewrite X in E.
    cbn [bind fst snd] in E. destruct (tr_abort _ _) as [c2| |]; try discriminate E. injection E as <-. discriminate Hr. }
  unfold depends in D. intros p Hp. destruct (e_depends v (snd p) n) eqn:G; [|reflexivity].
  assert (existsb (fun p => e_depends v (snd p) n) (c_udfs c) = true); [|congruence]. apply existsb_exists. eauto.
Qed.
