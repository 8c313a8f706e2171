(** Proofs for C49: every operation logs what undoes it. *)
From Verif Require Import Base CodecModel DdlModel DdlSpec DdlProofs.
From Coq Require Import Permutation.
Local Open Scope Z_scope.

Definition good (c : catalog) (log : list entry) (E : Prop) (o : outcome) : Prop :=
  exists new, snd (fst o) = new ++ log /\ inv (fst (fst o)) /\ c_next c <= c_next (fst (fst o)) /\
              (E \/ snd o = None -> undoes c new (fst (fst o))).

Lemma good_nothing c log E r : inv c -> good c log E ((c, log), r).
Proof. intros H. exists []. cbn. split; [reflexivity|]. split; [exact H|]. split; [lia|]. intros _. apply undoes_nil. Qed.
Lemma good_unless c log E b : inv c -> good c log E (unless b (c, log)).
Proof. intros H. destruct b; apply good_nothing; exact H. Qed.
Lemma good_raise c log E : inv c -> good c log E (raise (c, log)).
Proof. apply good_nothing. Qed.
Lemma good_one c log (E : Prop) c' e r : inv c' -> c_next c <= c_next c' ->
  (E \/ r = None -> exists c'', abort1 e c' = Ok c'' /\ same_catalog c'' c) ->
  good c log E ((c', e :: log), r).
Proof.
  intros H Hn Ha. exists [e]. cbn [fst snd]. split; [reflexivity|]. split; [exact H|]. split; [exact Hn|].
  intros HE. destruct (Ha HE) as (c'' & E1 & S). eapply undoes_one; eassumption.
Qed.
Lemma good_eq c log (E : Prop) c' e r : inv c' -> c_next c <= c_next c' ->
  (E \/ r = None -> exists c'', abort1 e c' = Ok c'' /\ c_storages c'' = c_storages c /\ c_dbs c'' = c_dbs c /\ c_tables c'' = c_tables c /\ c_udfs c'' = c_udfs c) ->
  good c log E ((c', e :: log), r).
Proof.
  intros H Hn Ha. apply good_one; [exact H|exact Hn|]. intros HE. destruct (Ha HE) as (c'' & E1 & S1 & S2 & S3 & S4).
  exists c''. split; [exact E1|]. unfold same_catalog. rewrite S1, S2, S3, S4. repeat split; apply Permutation_refl.
Qed.

(** ** the invariant *)
Lemma inv_next c n : inv c -> c_next c <= n -> inv (set_next c n).
Proof.
  intros (H1 & H2 & H3 & H4 & H5) Hn. unfold inv. cbn [c_storages c_dbs c_tables c_udfs c_next set_next].
  split; [eapply ids_ok_mono; eassumption|split; [eapply ids_ok_mono; eassumption|split; [eapply ids_ok_mono; eassumption|split; [eapply ids_ok_mono; eassumption|]]]].
  intros p Hp. eapply table_ok_mono; [exact Hn|auto].
Qed.
Lemma inv_storages c l : inv c -> ids_ok (c_next c) l -> inv (set_storages c l).
Proof. intros (H1 & H2 & H3 & H4 & H5) H. unfold inv. cbn. auto 10. Qed.
Lemma inv_dbs c l : inv c -> ids_ok (c_next c) l -> inv (set_dbs c l).
Proof. intros (H1 & H2 & H3 & H4 & H5) H. unfold inv. cbn. auto 10. Qed.
Lemma inv_udfs c l : inv c -> ids_ok (c_next c) l -> inv (set_udfs c l).
Proof. intros (H1 & H2 & H3 & H4 & H5) H. unfold inv. cbn. auto 10. Qed.
Lemma inv_tables c l : inv c -> ids_ok (c_next c) l -> (forall p, In p l -> table_ok (c_next c) (snd p)) -> inv (set_tables c l).
Proof. intros (H1 & H2 & H3 & H4 & H5) H H'. unfold inv. cbn. auto 10. Qed.
Lemma inv_on_table c o f : inv c -> (forall t, In (o, t) (c_tables c) -> table_ok (c_next c) (f t)) -> inv (on_table o f c).
Proof.
  intros H Hf. unfold on_table. apply inv_tables; [exact H|apply ids_ok_upd, H|]. intros p Hp. apply in_upd in Hp.
  destruct Hp as [Hp|(t & Ht & ->)]; [apply H, Hp|cbn [snd]; auto].
Qed.
Lemma inv_table c o t : inv c -> In (o, t) (c_tables c) -> table_ok (c_next c) t.
Proof. intros (_ & _ & _ & _ & H) Ht. exact (H _ Ht). Qed.
Lemma inv_del_table c o : inv c -> inv (set_tables c (del o (c_tables c))).
Proof. intros H. apply inv_tables; [exact H|apply ids_ok_del, H|]. intros p Hp. apply in_del in Hp. apply H, Hp. Qed.

Lemma table_ok_columns n t l : table_ok n t -> ids_ok n l -> (forall p, In p l -> column_bytes (snd p)) -> table_ok n (t_set_columns l t).
Proof. intros (H1 & H2 & H3 & H4 & H5) K1 K2. unfold table_ok. cbn. auto 10. Qed.
Lemma table_ok_indexes n t l : table_ok n t -> ids_ok n l -> table_ok n (t_set_indexes l t).
Proof. intros (H1 & H2 & H3 & H4 & H5) K1. unfold table_ok. cbn. auto 10. Qed.
Lemma table_ok_tiers n t l : table_ok n t -> ids_ok n l -> (forall p, In p l -> tier_ok (snd p)) -> table_ok n (t_set_tiers l t).
Proof. intros (H1 & H2 & H3 & H4 & H5) K1 K2. unfold table_ok. cbn. auto 10. Qed.
Lemma inv_on_column c o i f : inv c -> (forall x, column_bytes x -> column_bytes (f x)) -> inv (on_column o i f c).
Proof.
  intros H Hf. unfold on_column. apply inv_on_table; [exact H|]. intros t Ht. pose proof (inv_table _ _ _ H Ht) as Hk.
  apply table_ok_columns; [exact Hk|apply ids_ok_upd, Hk|]. intros p Hp. apply in_upd in Hp. destruct Hp as [Hp|(x & Hx & ->)]; [apply Hk, Hp|].
  cbn [snd]. apply Hf. exact (proj1 (proj2 (proj2 (proj2 Hk))) _ Hx).
Qed.
Lemma inv_on_index c o i f : inv c -> inv (on_index o i f c).
Proof.
  intros H. unfold on_index. apply inv_on_table; [exact H|]. intros t Ht. pose proof (inv_table _ _ _ H Ht) as Hk.
  apply table_ok_indexes; [exact Hk|apply ids_ok_upd, Hk].
Qed.
Lemma inv_on_tier c o i f : inv c -> (forall x, tier_ok x -> tier_ok (f x)) -> inv (on_tier o i f c).
Proof.
  intros H Hf. unfold on_tier. apply inv_on_table; [exact H|]. intros t Ht. pose proof (inv_table _ _ _ H Ht) as Hk.
  apply table_ok_tiers; [exact Hk|apply ids_ok_upd, Hk|]. intros p Hp. apply in_upd in Hp. destruct Hp as [Hp|(x & Hx & ->)]; [apply Hk, Hp|].
  cbn [snd]. apply Hf. exact (proj2 (proj2 (proj2 (proj2 Hk))) _ Hx).
Qed.

(** ** undoing a change of one table *)
Lemma tables_undo c o t f g : inv c -> In (o, t) (c_tables c) -> g (f t) = t -> c_tables (on_table o g (on_table o f c)) = c_tables c.
Proof. intros H Hi Hg. cbn. eapply upd_undo; [apply H|exact Hi|exact Hg]. Qed.
Lemma good_table c log (E : Prop) o t f g e r n :
  inv c -> In (o, t) (c_tables c) -> inv (set_next (on_table o f c) n) -> c_next c <= n ->
  (forall d, abort1 e d = Ok (on_table o g d)) -> (E \/ r = None -> g (f t) = t) ->
  good c log E ((set_next (on_table o f c) n, e :: log), r).
Proof.
  intros H Hi Hv Hn He Hg. apply good_eq; [exact Hv|exact Hn|]. intros HE. eexists. split; [apply He|].
  cbn. split; [reflexivity|]. split; [reflexivity|]. split; [|reflexivity]. eapply upd_undo; [apply H|exact Hi|auto].
Qed.
Lemma set_next_same c : set_next c (c_next c) = c.
Proof. destruct c; reflexivity. Qed.
Lemma good_table0 c log (E : Prop) o t f g e r :
  inv c -> In (o, t) (c_tables c) -> inv (on_table o f c) ->
  (forall d, abort1 e d = Ok (on_table o g d)) -> (E \/ r = None -> g (f t) = t) ->
  good c log E ((on_table o f c, e :: log), r).
Proof.
  intros H Hi Hv He Hg. pose proof (good_table c log E o t f g e r (c_next c) H Hi) as K.
  replace (on_table o f c) with (set_next (on_table o f c) (c_next c)) by apply (set_next_same (on_table o f c)).
  apply K; [exact Hv|lia|exact He|exact Hg].
Qed.
Lemma t_columns_same t : t_set_columns (tb_columns t) t = t. Proof. destruct t; reflexivity. Qed.
Lemma t_indexes_same t : t_set_indexes (tb_indexes t) t = t. Proof. destruct t; reflexivity. Qed.
Lemma t_tiers_same t : t_set_tiers (tb_tiers t) t = t. Proof. destruct t; reflexivity. Qed.

(** ** operations on storages and databases *)
Ltac prs := cbn [fst snd c_storages c_dbs c_tables c_udfs c_next set_next set_storages set_dbs set_tables set_udfs].
Lemma storage_create_good x ine c log E : inv c -> good c log E (storage_mgr_create x ine (c, log)).
Proof.
  intros H. unfold storage_mgr_create, new_id, done. destruct (storage_mgr_find c (st_name x)); [apply good_unless, H|].
  apply good_eq; [|prs; lia|].
  - change (inv (set_storages (set_next c (c_next c + 1)) (c_storages c ++ [(c_next c, x)]))).
    apply inv_storages; [apply inv_next; [exact H|lia]|]. prs. apply ids_ok_new; [lia|apply H].
  - intros _. eexists. split; [reflexivity|]. prs. rewrite del_new by (apply ids_ok_fresh, H). auto.
Qed.
Lemma storage_drop_good n ie c log E : inv c -> good c log E (storage_mgr_drop n ie (c, log)).
Proof.
  intros H. unfold storage_mgr_drop, done. destruct (storage_mgr_find c n) as [[o x]|] eqn:F; [|apply good_unless, H].
  apply find_obj_in in F. destruct F as [F _].
  destruct (storage_used c (st_name x)); [apply good_raise, H|]. destruct (st_system x); [apply good_raise, H|].
  apply good_one; [apply inv_storages; [exact H|apply ids_ok_del, H]|prs; lia|].
  intros _. eexists. split; [reflexivity|]. split; [|split; [|split]]; prs; try apply Permutation_refl. apply del_drop; [apply H|exact F].
Qed.
Lemma storage_rename_good n n' ie c log : inv c -> good c log (exact (Storage_rename n n' ie) c) (storage_mgr_rename n n' ie (c, log)).
Proof.
  intros H. unfold storage_mgr_rename, done. destruct (storage_mgr_find c n) as [[o x]|] eqn:F; [|apply good_unless, H].
  pose proof (find_obj_in _ _ _ _ F) as [Fi _].
  destruct (storage_used c (st_name x)); [apply good_raise, H|]. destruct (st_system x); [apply good_raise, H|].
  destruct (storage_mgr_find c n'); [apply good_raise, H|].
  apply good_eq; [apply inv_storages; [exact H|apply ids_ok_upd, H]|prs; lia|].
  intros [HE|HE]; [|discriminate HE]. eexists. split; [reflexivity|]. prs.
  rewrite (upd_undo o x); auto; [apply H|]. cbn [exact] in HE. pose proof (HE _ _ F) as HE'. destruct x; cbn in *. subst. reflexivity.
Qed.
Lemma db_create_good x ine c log E : inv c -> good c log E (database_mgr_create x ine (c, log)).
Proof.
  intros H. unfold database_mgr_create, new_id, done. destruct (database_mgr_find c (db_name x)); [apply good_unless, H|].
  apply good_eq; [|prs; lia|].
  - change (inv (set_dbs (set_next c (c_next c + 1)) (c_dbs c ++ [(c_next c, x)]))).
    apply inv_dbs; [apply inv_next; [exact H|lia]|]. prs. apply ids_ok_new; [lia|apply H].
  - intros _. eexists. split; [reflexivity|]. prs. rewrite del_new by (apply ids_ok_fresh, H). auto.
Qed.
Lemma db_drop_good n ie c log E : inv c -> good c log E (database_mgr_drop n ie (c, log)).
Proof.
  intros H. unfold database_mgr_drop, done. destruct (database_mgr_find c n) as [[o x]|] eqn:F; [|apply good_unless, H].
  apply find_obj_in in F. destruct F as [F _]. destruct (db_system x); [apply good_raise, H|].
  apply good_one; [apply inv_dbs; [exact H|apply ids_ok_del, H]|prs; lia|].
  intros _. eexists. split; [reflexivity|]. split; [|split; [|split]]; prs; try apply Permutation_refl. apply del_drop; [apply H|exact F].
Qed.
Lemma db_rename_good n n' ie c log (E : Prop) : inv c -> (E -> exact (Db_rename n n' ie) c) -> good c log E (database_mgr_rename n n' ie (c, log)).
Proof.
  intros H HX. unfold database_mgr_rename, done. destruct (database_mgr_find c n) as [[o x]|] eqn:F; [|apply good_unless, H].
  pose proof (find_obj_in _ _ _ _ F) as [Fi _]. destruct (db_system x); [apply good_raise, H|].
  destruct (database_mgr_find c n'); [apply good_raise, H|].
  apply good_eq; [apply inv_dbs; [exact H|apply ids_ok_upd, H]|prs; lia|].
  intros [HE|HE]; [|discriminate HE]. eexists. split; [reflexivity|]. prs.
  rewrite (upd_undo o x); auto; [apply H|]. apply HX in HE. cbn [exact] in HE. pose proof (HE _ _ F) as HE'. destruct x; cbn in *. subst. reflexivity.
Qed.

(** ** operations on tables *)
Lemma column_copy_bytes x : column_bytes x -> column_bytes (column_copy x).
Proof. intros H. exact H. Qed.
Lemma to_i32_idem x : to_i32 (to_i32 x) = to_i32 x.
Proof.
  unfold to_i32. pose proof (Z.mod_pos_bound x 4294967296 ltac:(lia)) as B.
  destruct (x mod 4294967296 <? 2147483648) eqn:E.
  - rewrite Z.mod_small by lia. rewrite E. reflexivity.
  - replace ((x mod 4294967296 - 4294967296) mod 4294967296) with (x mod 4294967296); [rewrite E; reflexivity|].
    symmetry. rewrite <- (Z.mod_small (x mod 4294967296) 4294967296) at 2 by lia.
    replace (x mod 4294967296 - 4294967296) with (x mod 4294967296 + (-1) * 4294967296) by lia. apply Z.mod_add. lia.
Qed.
Lemma tier_copy_ok x : tier_ok (tier_config_copy x).
Proof. split; cbn; apply to_i32_idem. Qed.
Lemma table_allocate_ok n x : Forall column_bytes (tc_columns x) -> table_ok (n + table_ids x) (table_allocate n x).
Proof.
  intros H. unfold table_ok, table_allocate, table_ids. cbn [tb_columns tb_indexes tb_tiers].
  split; [apply ids_ok_number; rewrite map_length; lia|]. split; [apply ids_ok_number; lia|]. split; [apply ids_ok_number; rewrite map_length; lia|].
  split; intros p Hp; apply in_number in Hp; apply in_map_iff in Hp; destruct Hp as (y & <- & Hy).
  - apply column_copy_bytes. rewrite Forall_forall in H. auto.
  - apply tier_copy_ok.
Qed.
Lemma table_create_good v x ine c log E : inv c -> Forall column_bytes (tc_columns x) -> good c log E (table_mgr_create v x ine (c, log)).
Proof.
  intros H Hb. unfold table_mgr_create, new_id, raise. destruct (table_mgr_find c (tc_db x) (tc_name x)); [apply good_unless, H|].
  assert (0 < table_ids x) as Hp by (unfold table_ids; lia).
  cut (forall r, good c log E ((set_next (set_tables c (c_tables c ++ [(c_next c, table_allocate (c_next c) x)])) (c_next c + table_ids x), L_create_table (c_next c) :: log), r)).
  { intros K. destruct (e_table_open v); apply K. }
  intros r. apply good_eq; [|prs; lia|].
  - change (inv (set_tables (set_next c (c_next c + table_ids x)) (c_tables c ++ [(c_next c, table_allocate (c_next c) x)]))).
    apply inv_tables; [apply inv_next; [exact H|lia]| |]; prs; [apply ids_ok_new; [lia|apply H]|].
    intros p Hi. apply in_app_iff in Hi. destruct Hi as [Hi|[<-|[]]].
    + eapply table_ok_mono; [|apply H, Hi]. lia.
    + apply table_allocate_ok, Hb.
  - intros _. eexists. split; [reflexivity|]. prs. rewrite del_new by (apply ids_ok_fresh, H). auto.
Qed.
Lemma table_drop_of_good p c log E r : inv c -> In p (c_tables c) -> good c log E (table_mgr_drop_of p (c, log), r).
Proof.
  intros H Hi. unfold table_mgr_drop_of. prs. destruct p as [o t]. prs.
  apply good_one; [apply inv_del_table, H|prs; lia|].
  intros _. eexists. split; [reflexivity|]. split; [|split; [|split]]; prs; try apply Permutation_refl. apply del_drop; [apply H|exact Hi].
Qed.
Lemma table_drop_good d n ie c log E : inv c -> good c log E (table_mgr_drop d n ie (c, log)).
Proof.
  intros H. unfold table_mgr_drop. prs. destruct (table_mgr_find c d n) as [[o t]|] eqn:F; [|apply good_unless, H].
  apply find_obj_in in F. apply table_drop_of_good; [exact H|apply F].
Qed.
Lemma truncate_good d n ie c log E : inv c -> good c log E (table_mgr_truncate d n ie (c, log)).
Proof.
  intros H. unfold table_mgr_truncate, done. destruct (table_mgr_find c d n) as [[o t]|] eqn:F; [|apply good_unless, H].
  apply good_eq; [exact H|prs; lia|]. intros _. eexists. split; [reflexivity|]. auto.
Qed.
Lemma table_rename_good d n d' n' ie c log E : inv c -> good c log E (table_mgr_rename d n d' n' ie (c, log)).
Proof.
  intros H. unfold table_mgr_rename, done. destruct (table_mgr_find c d n) as [[o t]|] eqn:F; [|apply good_unless, H].
  destruct (table_mgr_find c d' n'); [apply good_raise, H|]. apply find_obj_in in F. destruct F as [F _].
  eapply good_table0; [exact H|exact F| |intros; reflexivity|].
  - apply inv_on_table; [exact H|]. intros t' Ht. exact (inv_table _ _ _ H Ht).
  - intros _. destruct t; reflexivity.
Qed.
Lemma set_identity_good d n q ie c log E : inv c -> good c log E (table_mgr_set_identity d n q ie (c, log)).
Proof.
  intros H. unfold table_mgr_set_identity, done. destruct (table_mgr_find c d n) as [[o t]|] eqn:F; [|apply good_unless, H].
  apply find_obj_in in F. destruct F as [F _].
  eapply good_table0; [exact H|exact F| |intros; reflexivity|].
  - apply inv_on_table; [exact H|]. intros t' Ht. exact (inv_table _ _ _ H Ht).
  - intros _. destruct t; reflexivity.
Qed.
Lemma set_unlogged_good d n b ie c log : inv c -> good c log (exact (Table_set_unlogged d n b ie) c) (table_mgr_set_unlogged d n b ie (c, log)).
Proof.
  intros H. unfold table_mgr_set_unlogged, done. destruct (table_mgr_find c d n) as [[o t]|] eqn:F; [|apply good_unless, H].
  pose proof (find_obj_in _ _ _ _ F) as [Fi _].
  eapply good_table0; [exact H|exact Fi| |intros; reflexivity|].
  - apply inv_on_table; [exact H|]. intros t' Ht. exact (inv_table _ _ _ H Ht).
  - intros [HE|HE]; [|discriminate HE]. cbn [exact] in HE. pose proof (HE _ _ F) as HE'. destruct t as [a1 a2 a3 a4 a5 u a7 a8 a9 a10]. clear HE F Fi. cbn in HE'. unfold t_set_unlogged. cbn. f_equal. destruct b, u; cbn; congruence.
Qed.
Lemma column_rename_good d n k k' ie ice c log E : inv c -> good c log E (table_mgr_column_rename d n k k' ie ice (c, log)).
Proof.
  intros H. unfold table_mgr_column_rename, done. destruct (table_mgr_find c d n) as [[o t]|] eqn:F; [|apply good_unless, H].
  destruct (columns_find t k) as [[i x]|] eqn:G; [|apply good_unless, H]. destruct (columns_find t k'); [apply good_raise, H|].
  apply find_obj_in in F. destruct F as [F _]. apply find_obj_in in G. destruct G as [G _].
  pose proof (inv_table _ _ _ H F) as Hk.
  eapply good_table0; [exact H|exact F| |intros; reflexivity|].
  - apply inv_on_column; [exact H|]. intros y Hy. exact Hy.
  - intros _. cbn [tb_columns t_set_columns]. rewrite (upd_undo i x); [destruct t; reflexivity|apply Hk|exact G|destruct x; reflexivity].
Qed.
Lemma column_add_good d n x ie icne c log E : inv c -> column_bytes x -> good c log E (table_mgr_column_add d n x ie icne (c, log)).
Proof.
  intros H Hb. unfold table_mgr_column_add, done, new_id. destruct (table_mgr_find c d n) as [[o t]|] eqn:F; [|apply good_unless, H].
  destruct (columns_find t (co_name x)); [apply good_unless, H|].
  destruct (negb (k_identity (co_cons x) =? 0) && has_identity t); [apply good_raise, H|].
  apply find_obj_in in F. destruct F as [F _]. pose proof (inv_table _ _ _ H F) as Hk.
  eapply good_table; [exact H|exact F| |lia|intros; reflexivity|].
  - change (inv (on_table o (fun t0 => t_set_columns (tb_columns t0 ++ [(c_next c, column_copy x)]) t0) (set_next c (c_next c + 1)))).
    apply inv_on_table; [apply inv_next; [exact H|lia]|]. prs. intros t' Ht. pose proof (inv_table _ _ _ H Ht) as Hk'.
    apply table_ok_columns; [eapply table_ok_mono; [|exact Hk']; lia|apply ids_ok_new; [lia|apply Hk']|].
    intros p Hp. apply in_app_iff in Hp. destruct Hp as [Hp|[<-|[]]]; [apply Hk', Hp|exact Hb].
  - intros _. cbn [tb_columns t_set_columns]. rewrite del_new by (apply ids_ok_fresh, Hk). destruct t; reflexivity.
Qed.
Lemma column_drop_good d n k ie ice c log E : inv c -> exists o, table_mgr_column_drop d n k ie ice (c, log) = Ok o /\ good c log E o.
Proof.
  intros H. unfold table_mgr_column_drop, done. destruct (table_mgr_find c d n) as [[o t]|] eqn:F; [|eexists; split; [reflexivity|apply good_unless, H]].
  destruct (columns_find t k) as [[i x]|] eqn:G; [|eexists; split; [reflexivity|apply good_unless, H]].
  destruct (0 <? co_refs x); [eexists; split; [reflexivity|apply good_raise, H]|].
  apply find_obj_in in F. destruct F as [F _]. apply find_obj_in in G. destruct G as [G Gd]. apply andb_true_iff in Gd. destruct Gd as [Gd _]. apply negb_true_iff in Gd.
  pose proof (inv_table _ _ _ H F) as Hk.
  destruct (cons_write_ok (co_cons x)) as (l & El & Er); [exact (proj1 (proj2 (proj2 (proj2 Hk))) _ G)|].
  rewrite El. eexists. split; [reflexivity|].
  eapply good_table0; [exact H|exact F| |intros; cbn [abort1]; rewrite Er; reflexivity|].
  - apply inv_on_column; [exact H|]. intros y Hy. reflexivity.
  - intros _. cbn [tb_columns t_set_columns]. rewrite (upd_undo i x); [destruct t; reflexivity|apply Hk|exact G|]. destruct x; cbn in *. subst. reflexivity.
Qed.
Lemma column_set_good d n k w z ie ice c log E : inv c -> bytes_ok z = true -> exists o, table_mgr_column_set d n k w z ie ice (c, log) = Ok o /\ good c log E o.
Proof.
  intros H Hz. unfold table_mgr_column_set, done. destruct (table_mgr_find c d n) as [[o t]|] eqn:F; [|eexists; split; [reflexivity|apply good_unless, H]].
  destruct (columns_find t k) as [[i x]|] eqn:G; [|eexists; split; [reflexivity|apply good_unless, H]].
  apply find_obj_in in F. destruct F as [F _]. apply find_obj_in in G. destruct G as [G _].
  pose proof (inv_table _ _ _ H F) as Hk.
  destruct (cons_write_ok (co_cons x)) as (l & El & Er); [exact (proj1 (proj2 (proj2 (proj2 Hk))) _ G)|].
  rewrite El. eexists. split; [reflexivity|].
  eapply good_table0; [exact H|exact F| |intros; cbn [abort1]; rewrite Er; reflexivity|].
  - apply inv_on_column; [exact H|]. intros y Hy. unfold column_bytes in *. destruct w; cbn; assumption.
  - intros _. cbn [tb_columns t_set_columns]. rewrite (upd_undo i x); [destruct t; reflexivity|apply Hk|exact G|]. destruct x; reflexivity.
Qed.

(** ** indexes and tiers *)
Lemma index_drop_good p n ie c log E : inv c -> good c log E (table_index_drop p n ie (c, log)).
Proof.
  intros H. unfold table_index_drop, done. destruct (table_index_find (snd p) n) as [[i x]|]; [|apply good_unless, H].
  apply good_eq; [exact H|prs; lia|]. intros _. eexists. split; [reflexivity|]. auto.
Qed.
Lemma index_rename_good p n n' ie c log E : inv c -> In p (c_tables c) -> good c log E (table_index_rename p n n' ie (c, log)).
Proof.
  intros H F. unfold table_index_rename, done. destruct p as [o t]. prs. destruct (table_index_find t n) as [[i x]|] eqn:G; [|apply good_unless, H].
  destruct (table_index_find t n'); [apply good_raise, H|]. apply find_obj_in in G. destruct G as [G _].
  pose proof (inv_table _ _ _ H F) as Hk.
  eapply good_table0; [exact H|exact F|apply inv_on_index, H|intros; reflexivity|].
  intros _. cbn [tb_indexes t_set_indexes]. rewrite (upd_undo i x); [destruct t; reflexivity|apply Hk|exact G|destruct x; reflexivity].
Qed.
Lemma tier_create_good v p x ine c log E : inv c -> In p (c_tables c) -> good c log E (table_tier_create v p x ine (c, log)).
Proof.
  intros H F. unfold table_tier_create, raise, new_id. destruct p as [o t]. prs. destruct (tier_mgr_find t (ti_name x)); [apply good_unless, H|].
  pose proof (inv_table _ _ _ H F) as Hk.
  cut (forall r, good c log E ((set_next (on_table o (fun t0 => t_set_tiers (tb_tiers t0 ++ [(c_next c, tier_config_copy x)]) t0) c) (c_next c + 1), L_tier_create o (c_next c) :: log), r)).
  { intros K. destruct (e_tier_open v && e_mkdir v); apply K. }
  intros r. eapply good_table; [exact H|exact F| |lia|intros; reflexivity|].
  - change (inv (on_table o (fun t0 => t_set_tiers (tb_tiers t0 ++ [(c_next c, tier_config_copy x)]) t0) (set_next c (c_next c + 1)))).
    apply inv_on_table; [apply inv_next; [exact H|lia]|]. prs. intros t' Ht. pose proof (inv_table _ _ _ H Ht) as Hk'.
    apply table_ok_tiers; [eapply table_ok_mono; [|exact Hk']; lia|apply ids_ok_new; [lia|apply Hk']|].
    intros p Hp. apply in_app_iff in Hp. destruct Hp as [Hp|[<-|[]]]; [apply Hk', Hp|apply tier_copy_ok].
  - intros _. cbn [tb_tiers t_set_tiers]. rewrite del_new by (apply ids_ok_fresh, Hk). destruct t; reflexivity.
Qed.
Lemma tier_drop_good p n ie c log E : inv c -> good c log E (table_tier_drop p n ie (c, log)).
Proof.
  intros H. unfold table_tier_drop, done. destruct (tier_mgr_find (snd p) n) as [[i x]|]; [|apply good_unless, H].
  apply good_eq; [exact H|prs; lia|]. intros _. eexists. split; [reflexivity|]. auto.
Qed.
Lemma tier_rename_good p n n' ie c log E : inv c -> In p (c_tables c) -> good c log E (table_tier_rename p n n' ie (c, log)).
Proof.
  intros H F. unfold table_tier_rename, done. destruct p as [o t]. prs. destruct (tier_mgr_find t n) as [[i x]|] eqn:G; [|apply good_unless, H].
  destruct (tier_mgr_find t n'); [apply good_raise, H|]. apply find_obj_in in G. destruct G as [G _].
  pose proof (inv_table _ _ _ H F) as Hk.
  eapply good_table0; [exact H|exact F|apply inv_on_tier; [exact H|intros y Hy; exact Hy]|intros; reflexivity|].
  intros _. cbn [tb_tiers t_set_tiers]. rewrite (upd_undo i x); [destruct t; reflexivity|apply Hk|exact G|destruct x; reflexivity].
Qed.
Lemma tier_set_good p x r ob ie c log E : inv c -> In p (c_tables c) -> good c log E (table_tier_set p x r ob ie (c, log)).
Proof.
  intros H F. unfold table_tier_set, done. destruct p as [o t]. prs. destruct (tier_mgr_find t (ti_name x)) as [[i y]|] eqn:G; [|apply good_unless, H].
  apply find_obj_in in G. destruct G as [G _].
  pose proof (inv_table _ _ _ H F) as Hk. pose proof (proj2 (proj2 (proj2 (proj2 Hk))) _ G) as [T1 T2]. cbn [snd] in T1, T2.
  eapply good_table0; [exact H|exact F| |intros; reflexivity|].
  - apply inv_on_tier; [exact H|]. intros z [Z1 Z2]. destruct r, ob; split; cbn; try assumption; apply to_i32_idem.
  - intros _. cbn [tb_tiers t_set_tiers]. rewrite (upd_undo i y); [destruct t; reflexivity|apply Hk|exact G|].
    destruct y as [a b d e]; cbn in *. unfold ti_set_object, ti_set_region. destruct r, ob; cbn; rewrite T1, T2; reflexivity.
Qed.
Lemma volume_add_good v p n x ie isne c log E : inv c -> In p (c_tables c) -> good c log E (table_tier_storage_add v p n x ie isne (c, log)).
Proof.
  intros H F. unfold table_tier_storage_add, raise. destruct p as [o t]. prs. destruct (tier_mgr_find t n) as [[i y]|] eqn:G; [|apply good_unless, H].
  destruct (storage_mgr_find c (vo_name x)); [|apply good_raise, H].
  destruct (vol_find (vo_name x) (ti_volumes y)) eqn:V; [apply good_unless, H|].
  apply find_obj_in in G. destruct G as [G _]. pose proof (inv_table _ _ _ H F) as Hk.
  cut (forall r, good c log E ((on_tier o i (fun t0 => ti_set_volumes (ti_volumes t0 ++ [mkvol (vo_name x) (vo_id x) (vo_pause x) 0]) t0) c, L_volume_add o i (vo_name x) :: log), r)).
  { intros K. destruct (e_mkdir v); apply K. }
  intros r. eapply good_table0; [exact H|exact F|apply inv_on_tier; [exact H|intros z Hz; exact Hz]|intros; reflexivity|].
  intros _. cbn [tb_tiers t_set_tiers]. rewrite (upd_undo i y); [destruct t; reflexivity|apply Hk|exact G|].
  cbn [ti_set_volumes ti_volumes]. rewrite vol_remove_new by (reflexivity || exact V). destruct y; reflexivity.
Qed.
Lemma volume_drop_good p n m ie ise c log E : inv c -> good c log E (table_tier_storage_drop p n m ie ise (c, log)).
Proof.
  intros H. unfold table_tier_storage_drop, done. destruct (tier_mgr_find (snd p) n) as [[i x]|]; [|apply good_unless, H].
  destruct (vol_find m (ti_volumes x)) as [w|]; [|apply good_unless, H]. destruct (0 <? vo_objects w); [apply good_raise, H|].
  apply good_eq; [exact H|prs; lia|]. intros _. eexists. split; [reflexivity|]. auto.
Qed.
Lemma volume_pause_good p n m b ie ise c log E : inv c -> In p (c_tables c) -> good c log E (table_tier_storage_pause p n m b ie ise (c, log)).
Proof.
  intros H F. unfold table_tier_storage_pause, done, skip. destruct p as [o t]. prs. destruct (tier_mgr_find t n) as [[i y]|] eqn:G; [|apply good_unless, H].
  destruct (vol_find m (ti_volumes y)) as [w|] eqn:V; [|apply good_unless, H].
  destruct (Bool.eqb (vo_pause w) b) eqn:Eb; [apply good_nothing, H|].
  match goal with |- context [if ?q then raise _ else _] => destruct q end; [apply good_raise, H|].
  apply find_obj_in in G. destruct G as [G _]. pose proof (inv_table _ _ _ H F) as Hk.
  eapply good_table0; [exact H|exact F|apply inv_on_tier; [exact H|intros z Hz; exact Hz]|intros; reflexivity|].
  intros _. cbn [tb_tiers t_set_tiers]. rewrite (upd_undo i y); [destruct t; reflexivity|apply Hk|exact G|].
  cbn [ti_set_volumes ti_volumes]. rewrite (vol_pause_undo m w b); [destruct y; reflexivity|exact V|]. destruct (vo_pause w), b; cbn in *; congruence.
Qed.

(** ** functions *)
Lemma udf_create_good v x c log E : inv c -> good c log E (udf_mgr_create v x (c, log)).
Proof.
  intros H. unfold udf_mgr_create, raise, new_id. destruct (udf_mgr_find c (uf_db x) (uf_name x)); [apply good_raise, H|].
  cut (forall r, good c log E ((set_next (set_udfs c (c_udfs c ++ [(c_next c, x)])) (c_next c + 1), L_create_udf (c_next c) :: log), r)).
  { intros K. destruct (e_compiles v x); apply K. }
  intros r. apply good_eq; [|prs; lia|].
  - change (inv (set_udfs (set_next c (c_next c + 1)) (c_udfs c ++ [(c_next c, x)]))).
    apply inv_udfs; [apply inv_next; [exact H|lia]|]. prs. apply ids_ok_new; [lia|apply H].
  - intros _. eexists. split; [reflexivity|]. prs. rewrite del_new by (apply ids_ok_fresh, H). auto.
Qed.
Lemma udf_replace_good v x c log E : inv c -> good c log E (udf_replace v x (c, log)).
Proof.
  intros H. unfold udf_replace, done. destruct (udf_mgr_find c (uf_db x) (uf_name x)) as [[o u]|] eqn:F; [|apply udf_create_good, H].
  destruct (str_is (uf_sig u) (uf_sig x)); [|apply good_raise, H]. destruct (e_compiles v x); [|apply good_raise, H].
  apply find_obj_in in F. destruct F as [F _].
  apply good_eq; [apply inv_udfs; [exact H|apply ids_ok_upd, H]|prs; lia|].
  intros _. eexists. split; [reflexivity|]. prs. rewrite (upd_undo o u); auto. apply H.
Qed.
Lemma udf_drop_of_good p c log E r : inv c -> In p (c_udfs c) -> good c log E (udf_mgr_drop_of p (c, log), r).
Proof.
  intros H Hi. unfold udf_mgr_drop_of. prs. destruct p as [o t]. prs.
  apply good_one; [apply inv_udfs; [exact H|apply ids_ok_del, H]|prs; lia|].
  intros _. eexists. split; [reflexivity|]. split; [|split; [|split]]; prs; try apply Permutation_refl. apply del_drop; [apply H|exact Hi].
Qed.
Lemma udf_drop_good d n ie c log E : inv c -> good c log E (udf_mgr_drop d n ie (c, log)).
Proof.
  intros H. unfold udf_mgr_drop. prs. destruct (udf_mgr_find c d n) as [[o t]|] eqn:F; [|apply good_unless, H].
  apply find_obj_in in F. apply udf_drop_of_good; [exact H|apply F].
Qed.
Lemma udf_rename_good d n d' n' ie c log E : inv c -> good c log E (udf_mgr_rename d n d' n' ie (c, log)).
Proof.
  intros H. unfold udf_mgr_rename, done. destruct (udf_mgr_find c d n) as [[o u]|] eqn:F; [|apply good_unless, H].
  destruct (udf_mgr_find c d' n'); [apply good_raise, H|]. apply find_obj_in in F. destruct F as [F _].
  apply good_eq; [apply inv_udfs; [exact H|apply ids_ok_upd, H]|prs; lia|].
  intros _. eexists. split; [reflexivity|]. prs. rewrite (upd_undo o u); auto; [apply H|]. destruct u; reflexivity.
Qed.
