(** Proofs for C49: names stay unique. *)
From Verif Require Import Base CodecModel DdlModel DdlSpec DdlProofs DdlProofs2 DdlProofs3.
From Coq Require Import Permutation.
Local Open Scope Z_scope.

Section Keys.
Context {A K : Type} (key : A -> K).
Definition keys (l : objs A) : list K := map (fun p => key (snd p)) l.
Lemma keys_new l o x : NoDup (keys l) -> (forall p, In p l -> key (snd p) <> key x) -> NoDup (keys (l ++ [(o, x)])).
Proof.
  intros H Hn. unfold keys. rewrite map_app. cbn [map snd]. apply (Permutation_NoDup (Permutation_cons_append _ _)).
  constructor; [|exact H]. intros Hi. apply in_map_iff in Hi. destruct Hi as (p & E & Hp). exact (Hn p Hp E).
Qed.
Lemma keys_del l o : NoDup (keys l) -> NoDup (keys (del o l)).
Proof.
  unfold keys, del. induction l as [|p l IH]; intros H; [constructor|]. cbn [map] in H. inversion H as [|? ? H1 H2]; subst.
  cbn [filter]. destruct (fst p =? o); cbn [negb]; [auto|]. cbn [map]. constructor; [|auto].
  intros Hi. apply H1. apply in_map_iff in Hi. destruct Hi as (q & E & Hq). apply filter_In in Hq. apply in_map_iff. exists q. tauto.
Qed.
Lemma keys_upd_same l o f : (forall x, key (f x) = key x) -> keys (upd o f l) = keys l.
Proof. intros H. unfold keys, upd. rewrite map_map. apply map_ext. intros [i x]. cbn. destruct (i =? o); cbn; auto. Qed.
Lemma keys_upd l o f k : NoDup (ids l) -> NoDup (keys l) -> (forall p, In p l -> key (snd p) <> k) -> (forall x, In (o, x) l -> key (f x) = k) -> NoDup (keys (upd o f l)).
Proof.
  unfold keys, ids, upd. induction l as [|[i x] l IH]; intros Hn H Hk Hf; [constructor|].
  cbn [map fst snd] in *. inversion Hn as [|? ? N1 N2]; subst. inversion H as [|? ? K1 K2]; subst.
  assert (forall p, In p l -> key (snd p) <> k) as Hk' by (intros p Hp; apply Hk; right; exact Hp).
  assert (forall x0, In (o, x0) l -> key (f x0) = k) as Hf' by (intros x0 Hx; apply Hf; right; exact Hx).
  constructor; [|apply IH; assumption].
  destruct (i =? o) eqn:E.
  - apply Z.eqb_eq in E. subst i. cbn [fst snd]. rewrite (Hf x (or_introl eq_refl)).
    fold (upd o f l). rewrite upd_absent by exact N1. intros Hi. apply in_map_iff in Hi. destruct Hi as (p & Ep & Hp). exact (Hk' p Hp Ep).
  - cbn [snd]. intros Hi. rewrite map_map in Hi. apply in_map_iff in Hi. destruct Hi as ([j y] & Ep & Hp). cbn [fst snd] in Ep.
    destruct (j =? o) eqn:Ej; cbn [snd] in Ep.
    + apply Z.eqb_eq in Ej. subst j. rewrite (Hf' y Hp) in Ep. apply (Hk (i, x) (or_introl eq_refl)). cbn. congruence.
    + apply K1. apply in_map_iff. exists (j, y). auto.
Qed.
Lemma keys_perm l l' : Permutation l l' -> NoDup (keys l) -> NoDup (keys l').
Proof. intros H. apply Permutation_NoDup, Permutation_map, H. Qed.
Lemma keys_unique l : NoDup (ids l) -> NoDup (keys l) -> forall p q, In p l -> In q l -> key (snd p) = key (snd q) -> p = q.
Proof.
  unfold keys, ids. intros _ H p q Hp Hq E. induction l as [|r l IH]; [destruct Hp|]. cbn [map] in H. inversion H as [|? ? H1 H2]; subst.
  destruct Hp as [->|Hp], Hq as [->|Hq]; auto; exfalso; apply H1; [rewrite E|rewrite <- E]; apply (in_map (fun p => key (snd p))); assumption.
Qed.
End Keys.

Definition k_storage (s : storage) := map lower (st_name s).
Definition k_db (d : dbase) := map lower (db_name d).
Definition k_table (t : table) := (map lower (tb_db t), map lower (tb_name t)).
Definition k_udf (u : udf) := (map lower (uf_db u), map lower (uf_name u)).
Definition keys_ok (c : catalog) : Prop :=
  NoDup (keys k_storage (c_storages c)) /\ NoDup (keys k_db (c_dbs c)) /\ NoDup (keys k_table (c_tables c)) /\ NoDup (keys k_udf (c_udfs c)).

Lemma keys_names c : inv c -> keys_ok c -> names_unique c.
Proof.
  intros H (K1 & K2 & K3 & K4). split; [|split; [|split]]; unfold unique_names; intros p q Hp Hq E.
  - eapply (keys_unique k_storage); eauto. apply H.
  - eapply (keys_unique k_db); eauto. apply H.
  - eapply (keys_unique k_table); eauto; [apply H|]. unfold k_table. destruct E as [-> ->]. reflexivity.
  - eapply (keys_unique k_udf); eauto; [apply H|]. unfold k_udf. destruct E as [-> ->]. reflexivity.
Qed.
Lemma keys_same c c' : same_catalog c c' -> keys_ok c -> keys_ok c'.
Proof. intros (P1 & P2 & P3 & P4) (K1 & K2 & K3 & K4). split; [|split; [|split]]; eapply keys_perm; eassumption. Qed.

Lemma storage_none c n x : storage_mgr_find c n = None -> map lower (st_name x) = map lower n -> forall p, In p (c_storages c) -> k_storage (snd p) <> k_storage x.
Proof.
  intros F E p Hp Hk. pose proof (find_obj_none _ _ F p Hp) as Hn. unfold storage_is in Hn.
  assert (str_compare_case (st_name (snd p)) n = true) as Ht by (apply compare_case_spec; unfold same_name, k_storage in *; congruence). congruence.
Qed.
Lemma db_none c n x : database_mgr_find c n = None -> map lower (db_name x) = map lower n -> forall p, In p (c_dbs c) -> k_db (snd p) <> k_db x.
Proof.
  intros F E p Hp Hk. pose proof (find_obj_none _ _ F p Hp) as Hn. unfold db_is in Hn.
  assert (str_compare_case (db_name (snd p)) n = true) as Ht by (apply compare_case_spec; unfold same_name, k_db in *; congruence). congruence.
Qed.
Lemma table_none c d n : table_mgr_find c d n = None -> forall p, In p (c_tables c) -> k_table (snd p) <> (map lower d, map lower n).
Proof.
  intros F p Hp Hk. pose proof (find_obj_none _ _ F p Hp) as Hn. unfold table_is in Hn. unfold k_table in Hk. injection Hk as K1 K2.
  assert (str_compare_case (tb_db (snd p)) d = true) as E1 by (apply compare_case_spec; exact K1).
  assert (str_compare_case (tb_name (snd p)) n = true) as E2 by (apply compare_case_spec; exact K2). rewrite E1, E2 in Hn. discriminate Hn.
Qed.
Lemma udf_none c d n : udf_mgr_find c d n = None -> forall p, In p (c_udfs c) -> k_udf (snd p) <> (map lower d, map lower n).
Proof.
  intros F p Hp Hk. pose proof (find_obj_none _ _ F p Hp) as Hn. unfold udf_is in Hn. unfold k_udf in Hk. injection Hk as K1 K2.
  assert (str_compare_case (uf_db (snd p)) d = true) as E1 by (apply compare_case_spec; exact K1).
  assert (str_compare_case (uf_name (snd p)) n = true) as E2 by (apply compare_case_spec; exact K2). rewrite E1, E2 in Hn. discriminate Hn.
Qed.

Lemma keys_storages c l : keys_ok c -> NoDup (keys k_storage l) -> keys_ok (set_storages c l).
Proof. intros (K1 & K2 & K3 & K4) H. unfold keys_ok; cbn. auto. Qed.
Lemma keys_dbs c l : keys_ok c -> NoDup (keys k_db l) -> keys_ok (set_dbs c l).
Proof. intros (K1 & K2 & K3 & K4) H. unfold keys_ok; cbn. auto. Qed.
Lemma keys_tables c l : keys_ok c -> NoDup (keys k_table l) -> keys_ok (set_tables c l).
Proof. intros (K1 & K2 & K3 & K4) H. unfold keys_ok; cbn. auto. Qed.
Lemma keys_udfs c l : keys_ok c -> NoDup (keys k_udf l) -> keys_ok (set_udfs c l).
Proof. intros (K1 & K2 & K3 & K4) H. unfold keys_ok; cbn. auto. Qed.
Lemma keys_on_table c o f : keys_ok c -> (forall t, k_table (f t) = k_table t) -> keys_ok (on_table o f c).
Proof. intros H Hf. unfold on_table. apply keys_tables; [exact H|]. rewrite keys_upd_same by exact Hf. apply H. Qed.

Definition kept (o : outcome) : Prop := keys_ok (fst (fst o)).
Lemma kept_unless b s : keys_ok (fst s) -> kept (unless b s).
Proof. destruct b; auto. Qed.

Lemma table_rename_kept d n d' n' ie c log : inv c -> keys_ok c -> kept (table_mgr_rename d n d' n' ie (c, log)).
Proof.
  intros H K. unfold table_mgr_rename, done. destruct (table_mgr_find c d n) as [[o t]|] eqn:F; [|apply kept_unless, K].
  destruct (table_mgr_find c d' n') eqn:F'; [exact K|]. unfold kept. cbn [fst]. unfold on_table. apply keys_tables; [exact K|].
  eapply keys_upd; [apply H|apply K|exact (table_none _ _ _ F')|].
  intros x Hx. unfold k_table, t_set_names. cbn [tb_db tb_name].
  f_equal; match goal with |- map lower (if ?q then _ else _) = _ => destruct q eqn:Q; [apply compare_case_spec in Q; exact Q|reflexivity] end.
Qed.
Lemma drop_tables_kept d drop l : forall s, keys_ok (fst s) -> keys_ok (fst (fst (drop_tables d drop l s))).
Proof.
  induction l as [|p l IH]; intros s K; [exact K|]. cbn [drop_tables]. destruct (str_compare_case (tb_db (snd p)) d); [|auto].
  destruct drop; [|exact K]. apply IH. cbn. apply keys_tables; [exact K|]. apply keys_del, K.
Qed.
Lemma drop_udfs_kept d drop l : forall s, keys_ok (fst s) -> keys_ok (fst (fst (drop_udfs d drop l s))).
Proof.
  induction l as [|p l IH]; intros s K; [exact K|]. cbn [drop_udfs]. destruct (str_compare_case (uf_db (snd p)) d); [|auto].
  destruct drop; [|exact K]. apply IH. cbn. apply keys_udfs; [exact K|]. apply keys_del, K.
Qed.
Lemma rename_tables_kept d d' l : forall c log, inv c -> keys_ok c -> keys_ok (fst (fst (rename_tables d d' l (c, log)))).
Proof.
  induction l as [|p l IH]; intros c log H K; [exact K|]. cbn [rename_tables]. destruct (str_compare_case (tb_db (snd p)) d); [|auto].
  pose proof (table_rename_kept (tb_db (snd p)) (tb_name (snd p)) d' (tb_name (snd p)) false c log H K) as K1.
  pose proof (good_inv _ _ _ _ (table_rename_good (tb_db (snd p)) (tb_name (snd p)) d' (tb_name (snd p)) false c log True H)) as H1.
  destruct (table_mgr_rename (tb_db (snd p)) (tb_name (snd p)) d' (tb_name (snd p)) false (c, log)) as [[c1 log1] [b|]]; cbn in *; [|exact K1].
  apply IH; assumption.
Qed.
Lemma db_drop_kept n ie c log : keys_ok c -> kept (database_mgr_drop n ie (c, log)).
Proof.
  intros K. unfold database_mgr_drop. destruct (database_mgr_find c n) as [[o x]|]; [|apply kept_unless, K].
  destruct (db_system x); [exact K|]. apply keys_dbs; [exact K|]. apply keys_del, K.
Qed.
Lemma db_rename_kept n n' ie c log : inv c -> keys_ok c -> kept (database_mgr_rename n n' ie (c, log)).
Proof.
  intros H K. unfold database_mgr_rename. destruct (database_mgr_find c n) as [[o x]|]; [|apply kept_unless, K].
  destruct (db_system x); [exact K|]. destruct (database_mgr_find c n') eqn:F; [exact K|]. apply keys_dbs; [exact K|].
  eapply keys_upd; [apply H|apply K|exact (db_none _ _ (mkdb n' false) F eq_refl)|]. reflexivity.
Qed.

Lemma udf_create_kept v x c log : keys_ok c -> kept (udf_mgr_create v x (c, log)).
Proof.
  intros K. unfold udf_mgr_create. destruct (udf_mgr_find c (uf_db x) (uf_name x)) eqn:F; [exact K|].
  cut (keys_ok (set_next (set_udfs c (c_udfs c ++ [(new_id c, x)])) (c_next c + 1))); [intros G; destruct (e_compiles v x); exact G|].
  change (keys_ok (set_udfs c (c_udfs c ++ [(new_id c, x)]))). apply keys_udfs; [exact K|]. apply keys_new; [apply K|]. exact (udf_none _ _ _ F).
Qed.
Lemma with_table_kept d n s f : keys_ok (fst s) -> (forall p, kept (f p)) -> kept (with_table d n s f).
Proof. intros K Hf. unfold with_table. destruct (table_mgr_find (fst s) d n); [apply Hf|exact K]. Qed.

Lemma execute_kept v op c log o : inv c -> keys_ok c -> catalog_execute v op (c, log) = Ok o -> kept o.
Proof.
  intros H K E. destruct op; cbn [catalog_execute fst] in E;
    try (destruct (depends v c _); [injection E as <-; exact K|]); try (injection E as <-).
  - (* create storage *) unfold storage_mgr_create. destruct (storage_mgr_find c (st_name x)) eqn:F; [apply kept_unless, K|].
    change (keys_ok (set_storages c (c_storages c ++ [(new_id c, x)]))). apply keys_storages; [exact K|]. apply keys_new; [apply K|].
    exact (storage_none _ _ x F eq_refl).
  - unfold storage_mgr_drop. destruct (storage_mgr_find c n) as [[o x]|]; [|apply kept_unless, K].
    destruct (storage_used c (st_name x)); [exact K|]. destruct (st_system x); [exact K|]. apply keys_storages; [exact K|]. apply keys_del, K.
  - unfold storage_mgr_rename. destruct (storage_mgr_find c n) as [[o x]|]; [|apply kept_unless, K].
    destruct (storage_used c (st_name x)); [exact K|]. destruct (st_system x); [exact K|]. destruct (storage_mgr_find c n') eqn:F; [exact K|].
    apply keys_storages; [exact K|]. eapply keys_upd; [apply H|apply K|exact (storage_none _ _ (mkst n' false []) F eq_refl)|]. reflexivity.
  - unfold database_mgr_create. destruct (database_mgr_find c (db_name x)) eqn:F; [apply kept_unless, K|].
    change (keys_ok (set_dbs c (c_dbs c ++ [(new_id c, x)]))). apply keys_dbs; [exact K|]. apply keys_new; [apply K|].
    exact (db_none _ _ x F eq_refl).
  - unfold cascade_db_drop. cbn [fst]. destruct (database_mgr_find c n) as [[o x]|]; [|apply kept_unless, K]. destruct (db_system x); [exact K|].
    pose proof (drop_tables_kept n cascade (c_tables c) (c, log) K) as K1.
    destruct (drop_tables n cascade (c_tables c) (c, log)) as [[c1 log1] [|]]; [|exact K1]. cbn [fst] in *.
    pose proof (drop_udfs_kept n cascade (c_udfs c1) (c1, log1) K1) as K2.
    destruct (drop_udfs n cascade (c_udfs c1) (c1, log1)) as [[c2 log2] [|]]; [|exact K2]. apply db_drop_kept, K2.
  - unfold cascade_db_rename. cbn [fst]. destruct (database_mgr_find c n) as [[o x]|]; [|apply kept_unless, K]. destruct (db_system x); [exact K|].
    pose proof (rename_tables_kept n n' (c_tables c) c log H K) as K1.
    pose proof (good_inv _ _ _ _ (proj1 (rename_tables_good n n' (c_tables c) None c log H))) as H1.
    destruct (rename_tables n n' (c_tables c) (c, log)) as [[c1 log1] [|]]; [|exact K1]. cbn [fst] in *.
    match goal with |- kept (if ?q then _ else _) => destruct q end; [exact K1|]. apply db_rename_kept; assumption.
  - unfold table_mgr_create. destruct (table_mgr_find c (tc_db x) (tc_name x)) eqn:F; [apply kept_unless, K|].
    cut (keys_ok (set_tables c (c_tables c ++ [(new_id c, table_allocate (new_id c) x)]))); [intros G; destruct (e_table_open v); exact G|].
    apply keys_tables; [exact K|]. apply keys_new; [apply K|]. exact (table_none _ _ _ F).
  - unfold table_mgr_drop. cbn [fst]. destruct (table_mgr_find c d n) as [p|]; [|apply kept_unless, K]. apply keys_tables; [exact K|]. apply keys_del, K.
  - destruct (database_mgr_find c d'); [|exact K]. destruct (depends v c n); [exact K|]. apply table_rename_kept; assumption.
  - unfold table_mgr_truncate. destruct (table_mgr_find c d n) as [[o t]|]; [exact K|apply kept_unless, K].
  - unfold table_mgr_set_identity. destruct (table_mgr_find c d n) as [[o t]|]; [|apply kept_unless, K]. apply keys_on_table; [exact K|reflexivity].
  - unfold table_mgr_set_unlogged. destruct (table_mgr_find c d n) as [[o t]|]; [|apply kept_unless, K]. apply keys_on_table; [exact K|reflexivity].
  - unfold table_mgr_column_add. destruct (table_mgr_find c d n) as [[o t]|]; [|apply kept_unless, K]. destruct (columns_find t (co_name x)); [apply kept_unless, K|].
    match goal with |- kept (if ?q then _ else _) => destruct q end; [exact K|].
    unfold kept, done. cbn [fst]. match goal with |- keys_ok (set_next ?q _) => change (keys_ok q) end. apply keys_on_table; [exact K|reflexivity].
  - unfold table_mgr_column_drop in E. destruct (table_mgr_find c d n) as [[o' t]|]; [|injection E as <-; apply kept_unless, K]. destruct (columns_find t k) as [[i y]|]; [|injection E as <-; apply kept_unless, K].
    destruct (0 <? co_refs y); [injection E as <-; exact K|]. destruct (constraints_write (co_cons y)); try discriminate E. injection E as <-. apply keys_on_table; [exact K|reflexivity].
  - unfold table_mgr_column_rename. destruct (table_mgr_find c d n) as [[o t]|]; [|apply kept_unless, K]. destruct (columns_find t k) as [[i y]|]; [|apply kept_unless, K].
    destruct (columns_find t k'); [exact K|]. apply keys_on_table; [exact K|reflexivity].
  - unfold table_mgr_column_set in E. destruct (table_mgr_find c d n) as [[o' t]|]; [|injection E as <-; apply kept_unless, K]. destruct (columns_find t k) as [[i y]|]; [|injection E as <-; apply kept_unless, K].
    destruct (constraints_write (co_cons y)); try discriminate E. injection E as <-. apply keys_on_table; [exact K|reflexivity].
  - apply with_table_kept; [exact K|]. intros p. unfold table_index_drop. destruct (table_index_find (snd p) i) as [[q y]|]; [exact K|apply kept_unless, K].
  - apply with_table_kept; [exact K|]. intros p. unfold table_index_rename. destruct (table_index_find (snd p) i) as [[q y]|]; [|apply kept_unless, K].
    destruct (table_index_find (snd p) i'); [exact K|]. apply keys_on_table; [exact K|reflexivity].
  - apply with_table_kept; [exact K|]. intros p. unfold table_tier_create. destruct (tier_mgr_find (snd p) (ti_name x)); [apply kept_unless, K|].
    cut (keys_ok (on_table (fst p) (fun t => t_set_tiers (tb_tiers t ++ [(new_id c, tier_config_copy x)]) t) c)); [intros G; destruct (e_tier_open v && e_mkdir v); exact G|].
    apply keys_on_table; [exact K|reflexivity].
  - apply with_table_kept; [exact K|]. intros p. unfold table_tier_drop. destruct (tier_mgr_find (snd p) i) as [[q y]|]; [exact K|apply kept_unless, K].
  - apply with_table_kept; [exact K|]. intros p. unfold table_tier_rename. destruct (tier_mgr_find (snd p) i) as [[q y]|]; [|apply kept_unless, K].
    destruct (tier_mgr_find (snd p) i'); [exact K|]. apply keys_on_table; [exact K|reflexivity].
  - apply with_table_kept; [exact K|]. intros p. unfold table_tier_set. destruct (tier_mgr_find (snd p) (ti_name x)) as [[q y]|]; [|apply kept_unless, K].
    apply keys_on_table; [exact K|reflexivity].
  - apply with_table_kept; [exact K|]. intros p. unfold table_tier_storage_add. destruct (tier_mgr_find (snd p) i) as [[q y]|]; [|apply kept_unless, K]. cbn [fst].
    destruct (storage_mgr_find c (vo_name x)); [|exact K]. destruct (vol_find (vo_name x) (ti_volumes y)); [apply kept_unless, K|].
    match goal with |- kept (if _ then (?s, _) else _) => cut (keys_ok (fst s)); [intros G; destruct (e_mkdir v); exact G|] end.
    apply keys_on_table; [exact K|reflexivity].
  - apply with_table_kept; [exact K|]. intros p. unfold table_tier_storage_drop. destruct (tier_mgr_find (snd p) i) as [[q y]|]; [|apply kept_unless, K].
    destruct (vol_find m (ti_volumes y)) as [w|]; [|apply kept_unless, K]. destruct (0 <? vo_objects w); exact K.
  - apply with_table_kept; [exact K|]. intros p. unfold table_tier_storage_pause. destruct (tier_mgr_find (snd p) i) as [[q y]|]; [|apply kept_unless, K].
    destruct (vol_find m (ti_volumes y)) as [w|]; [|apply kept_unless, K]. destruct (Bool.eqb (vo_pause w) b); [exact K|].
    match goal with |- kept (if ?q then _ else _) => destruct q end; [exact K|]. apply keys_on_table; [exact K|reflexivity].
  - apply udf_create_kept, K.
  - unfold udf_replace. destruct (udf_mgr_find c (uf_db x) (uf_name x)) as [[o u]|] eqn:F; [|pose proof (udf_create_kept v x c log K) as G; unfold udf_mgr_create in G; rewrite F in G; exact G].
    destruct (str_is (uf_sig u) (uf_sig x)); [|exact K]. destruct (e_compiles v x); [|exact K]. apply keys_udfs; [exact K|].
    apply find_obj_in in F. destruct F as [F Fi]. unfold udf_is in Fi. apply andb_true_iff in Fi. destruct Fi as [F1 F2]. apply compare_case_spec in F1, F2.
    replace (keys k_udf (upd o (fun _ => x) (c_udfs c))) with (keys k_udf (c_udfs c)); [apply K|].
    unfold keys, upd. rewrite map_map. apply map_ext_in. intros [j y] Hj. cbn [fst snd]. destruct (j =? o) eqn:Ej; [|reflexivity].
    apply Z.eqb_eq in Ej. subst j. cbn [snd].
    assert (y = u) as ->.
    { assert (forall (l : objs udf), NoDup (ids l) -> In (o, u) l -> In (o, y) l -> y = u) as Hu.
      { clear. induction l as [|[i z] l IH]; intros Hn H1 H2; [destruct H1|]. cbn [ids map fst] in Hn. inversion Hn as [|? ? N1 N2]; subst.
        destruct H1 as [H1|H1], H2 as [H2|H2]; [congruence| | |auto].
        - injection H1 as -> ->. exfalso. apply N1. apply (in_map fst _ _ H2).
        - injection H2 as -> ->. exfalso. apply N1. apply (in_map fst _ _ H1). }
      apply (Hu (c_udfs c)); [apply H|exact F|exact Hj]. }
    unfold k_udf. rewrite F1, F2. reflexivity.
  - unfold udf_mgr_drop. cbn [fst]. destruct (udf_mgr_find c d n) as [p|]; [|apply kept_unless, K]. apply keys_udfs; [exact K|]. apply keys_del, K.
  - destruct (database_mgr_find c d'); [|exact K]. destruct (depends v c n); [exact K|].
    unfold udf_mgr_rename. destruct (udf_mgr_find c d n) as [[o u]|] eqn:F; [|apply kept_unless, K].
    destruct (udf_mgr_find c d' n') eqn:F'; [exact K|]. apply keys_udfs; [exact K|].
    eapply keys_upd; [apply H|apply K|exact (udf_none _ _ _ F')|]. intros x Hx. unfold k_udf, uf_set_names. cbn [uf_db uf_name].
    f_equal; match goal with |- map lower (if ?q then _ else _) = _ => destruct q eqn:Q; [apply compare_case_spec in Q; exact Q|reflexivity] end.
Qed.
Lemma commit1_keys e c : keys_ok c -> keys_ok (commit1 e c).
Proof. intros K. destruct e; cbn [commit1]; try exact K; apply keys_on_table; (exact K || reflexivity). Qed.
Lemma commit_keys log c : keys_ok c -> keys_ok (tr_commit log c).
Proof. unfold tr_commit. induction log as [|e log IH]; intros H; [exact H|]. cbn. apply commit1_keys, IH, H. Qed.

Lemma statement_keys v ro wal op c r : inv c -> keys_ok c -> op_bytes op -> session_execute_utility v ro wal op c = Ok r -> keys_ok (r_cat r).
Proof.
  intros H K Hb E. destruct (statement_good v ro wal op c H Hb) as (r' & E' & _ & S). rewrite E in E'. injection E' as <-.
  unfold session_execute_utility in E. cbn [run] in E.
  destruct (execute_good v op c [] H Hb) as ([[c1 log1] r1] & X & _). rewrite X in E. cbn [bind fst snd] in E.
  pose proof (execute_kept v op c [] _ H K X) as K1. unfold kept in K1. cbn [fst] in K1.
  destruct r1 as [b|]; cbn [bind fst snd] in E.
  - destruct log1; [injection E as <-; exact K1|]. destruct ro; [injection E as <-; exact K1|].
    destruct wal; injection E as <-; cbn [r_cat]; [apply commit1_keys, commit_keys, K1|exact K1].
  - destruct (tr_abort log1 c1) as [c2| |] eqn:A; try discriminate E. injection E as <-. cbn [r_cat] in *.
    destruct (statement_good v false true op c H Hb) as (r2 & E2 & _ & S2).
    unfold session_execute_utility in E2. cbn [run] in E2. rewrite X in E2. cbn [bind fst snd] in E2. rewrite A in E2. injection E2 as <-.
    exact (keys_same _ _ (same_sym _ _ (S2 eq_refl eq_refl eq_refl)) K).
Qed.
Lemma history_keys h c : history h c -> keys_ok c.
Proof.
  induction 1 as [|h c st r H IH Hb E]; [unfold keys_ok; cbn; repeat split; constructor|].
  eapply statement_keys; [eapply history_inv; eassumption|exact IH|exact Hb|exact E].
Qed.
