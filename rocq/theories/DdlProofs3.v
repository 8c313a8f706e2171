(** Proofs for C49: the cascades, transactions, and unique names. *)
From Verif Require Import Base CodecModel DdlModel DdlSpec DdlProofs DdlProofs2.
From Coq Require Import Permutation.
Local Open Scope Z_scope.

Lemma good_seq c log E s1 r1 o2 : good c log True (s1, r1) -> good (fst s1) (snd s1) E o2 -> good c log E o2.
Proof.
  intros (n1 & L1 & I1 & N1 & U1) (n2 & L2 & I2 & N2 & U2). cbn [fst snd] in *.
  exists (n2 ++ n1). split; [rewrite L2, L1; apply app_assoc|]. split; [exact I2|]. split; [lia|].
  intros HE. eapply undoes_app; [apply U1; left; exact I|apply U2, HE].
Qed.
Lemma good_inv c log E o : good c log E o -> inv (fst (fst o)).
Proof. intros (n & _ & H & _). exact H. Qed.
Lemma good_weaken c log (E E' : Prop) o : (E -> E') -> good c log E' o -> good c log E o.
Proof. intros H (n & L & I & N & U). exists n. split; [exact L|]. split; [exact I|]. split; [exact N|]. intros [HE|HE]; apply U; auto. Qed.

(** ** cascade *)
Lemma drop_tables_good d drop l r : forall c log, inv c -> NoDup (ids l) -> (forall p, In p l -> In p (c_tables c)) ->
  good c log True (fst (drop_tables d drop l (c, log)), r) /\
  c_dbs (fst (fst (drop_tables d drop l (c, log)))) = c_dbs c.
Proof.
  induction l as [|p l IH]; intros c log H Hn Hi; cbn [drop_tables]; [split; [apply good_nothing, H|reflexivity]|].
  cbn [ids map] in Hn. inversion Hn as [|? ? N1 N2]; subst.
  destruct (str_compare_case (tb_db (snd p)) d).
  2:{ apply IH; [exact H|exact N2|]. intros q Hq. apply Hi. right. exact Hq. }
  destruct drop; [|split; [apply good_nothing, H|reflexivity]].
  pose proof (table_drop_of_good p c log True (Some true) H (Hi p (or_introl eq_refl))) as G.
  pose proof (good_inv _ _ _ _ G) as H1. cbn [fst] in H1.
  destruct (table_mgr_drop_of p (c, log)) as [c1 log1] eqn:E1.
  destruct (IH c1 log1 H1 N2) as [G2 D2].
  { intros q Hq. unfold table_mgr_drop_of in E1. cbn [fst snd] in E1. injection E1 as <- _. cbn [c_tables set_tables]. apply in_del.
    split; [apply Hi; right; exact Hq|]. intros Hf. apply N1. rewrite <- Hf. apply (in_map fst), Hq. }
  split; [eapply good_seq; [exact G|exact G2]|]. rewrite D2. unfold table_mgr_drop_of in E1. injection E1 as <- _. reflexivity.
Qed.
Lemma drop_udfs_good d drop l r : forall c log, inv c -> NoDup (ids l) -> (forall p, In p l -> In p (c_udfs c)) ->
  good c log True (fst (drop_udfs d drop l (c, log)), r) /\
  c_dbs (fst (fst (drop_udfs d drop l (c, log)))) = c_dbs c.
Proof.
  induction l as [|p l IH]; intros c log H Hn Hi; cbn [drop_udfs]; [split; [apply good_nothing, H|reflexivity]|].
  cbn [ids map] in Hn. inversion Hn as [|? ? N1 N2]; subst.
  destruct (str_compare_case (uf_db (snd p)) d).
  2:{ apply IH; [exact H|exact N2|]. intros q Hq. apply Hi. right. exact Hq. }
  destruct drop; [|split; [apply good_nothing, H|reflexivity]].
  pose proof (udf_drop_of_good p c log True (Some true) H (Hi p (or_introl eq_refl))) as G.
  pose proof (good_inv _ _ _ _ G) as H1. cbn [fst] in H1.
  destruct (udf_mgr_drop_of p (c, log)) as [c1 log1] eqn:E1.
  destruct (IH c1 log1 H1 N2) as [G2 D2].
  { intros q Hq. unfold udf_mgr_drop_of in E1. cbn [fst snd] in E1. injection E1 as <- _. cbn [c_udfs set_udfs]. apply in_del.
    split; [apply Hi; right; exact Hq|]. intros Hf. apply N1. rewrite <- Hf. apply (in_map fst), Hq. }
  split; [eapply good_seq; [exact G|exact G2]|]. rewrite D2. unfold udf_mgr_drop_of in E1. injection E1 as <- _. reflexivity.
Qed.
Lemma cascade_drop_good n cascade ie c log E : inv c -> good c log E (cascade_db_drop n cascade ie (c, log)).
Proof.
  intros H. unfold cascade_db_drop. cbn [fst]. destruct (database_mgr_find c n) as [[o x]|]; [|apply good_unless, H].
  destruct (db_system x); [apply good_raise, H|].
  destruct (drop_tables_good n cascade (c_tables c) None c log H) as [G1 _]; [apply H|auto|].
  destruct (drop_tables n cascade (c_tables c) (c, log)) as [[c1 log1] ok1]. cbn [fst] in G1.
  pose proof (good_inv _ _ _ _ G1) as H1. cbn [fst] in H1.
  destruct ok1; [|eapply good_seq; [exact G1|apply good_raise, H1]]. cbn [fst].
  destruct (drop_udfs_good n cascade (c_udfs c1) None c1 log1 H1) as [G2 _]; [apply H1|auto|].
  destruct (drop_udfs n cascade (c_udfs c1) (c1, log1)) as [[c2 log2] ok2]. cbn [fst] in G2.
  pose proof (good_inv _ _ _ _ G2) as H2. cbn [fst] in H2.
  eapply good_seq; [exact G1|]. cbn [fst snd]. destruct ok2; [|eapply good_seq; [exact G2|apply good_raise, H2]].
  eapply good_seq; [exact G2|]. apply db_drop_good, H2.
Qed.
Lemma table_rename_dbs d n d' n' ie c log : c_dbs (fst (fst (table_mgr_rename d n d' n' ie (c, log)))) = c_dbs c.
Proof.
  unfold table_mgr_rename, done, raise, unless, skip, raise. destruct (table_mgr_find c d n) as [[o t]|]; [|destruct ie; reflexivity].
  destruct (table_mgr_find c d' n'); reflexivity.
Qed.
Lemma rename_tables_good d d' l r : forall c log, inv c ->
  good c log True (fst (rename_tables d d' l (c, log)), r) /\
  c_dbs (fst (fst (rename_tables d d' l (c, log)))) = c_dbs c.
Proof.
  induction l as [|p l IH]; intros c log H; cbn [rename_tables]; [split; [apply good_nothing, H|reflexivity]|].
  destruct (str_compare_case (tb_db (snd p)) d); [|apply IH, H].
  pose proof (table_rename_good (tb_db (snd p)) (tb_name (snd p)) d' (tb_name (snd p)) false c log True H) as G.
  pose proof (table_rename_dbs (tb_db (snd p)) (tb_name (snd p)) d' (tb_name (snd p)) false c log) as D.
  destruct (table_mgr_rename (tb_db (snd p)) (tb_name (snd p)) d' (tb_name (snd p)) false (c, log)) as [[c1 log1] ro].
  pose proof (good_inv _ _ _ _ G) as H1. cbn [fst] in H1, D.
  destruct ro as [b|].
  - destruct (IH c1 log1 H1) as [G2 D2]. split; [eapply good_seq; [exact G|exact G2]|]. rewrite D2. exact D.
  - cbn [fst]. split; [|exact D]. eapply good_seq; [exact G|apply good_nothing, H1].
Qed.
Lemma cascade_rename_good n n' ie c log : inv c -> good c log (exact (Db_rename n n' ie) c) (cascade_db_rename n n' ie (c, log)).
Proof.
  intros H. unfold cascade_db_rename. cbn [fst]. destruct (database_mgr_find c n) as [[o x]|] eqn:F; [|apply good_unless, H].
  destruct (db_system x); [apply good_raise, H|].
  destruct (rename_tables_good n n' (c_tables c) None c log H) as [G1 D1].
  destruct (rename_tables n n' (c_tables c) (c, log)) as [[c1 log1] ok1]. cbn [fst] in G1, D1.
  pose proof (good_inv _ _ _ _ G1) as H1. cbn [fst] in H1.
  eapply good_seq; [exact G1|]. cbn [fst snd]. destruct ok1; [|apply good_raise, H1].
  match goal with |- context [if ?q then raise _ else _] => destruct q end; [apply good_raise, H1|].
  apply db_rename_good; [exact H1|]. cbn [exact]. unfold database_mgr_find. rewrite D1. auto.
Qed.

(** ** one operation *)
Lemma with_table_good d n c log E f : inv c -> (forall p, In p (c_tables c) -> good c log E (f p)) -> good c log E (with_table d n (c, log) f).
Proof.
  intros H Hf. unfold with_table. cbn [fst]. destruct (table_mgr_find c d n) as [[o t]|] eqn:F; [|apply good_raise, H].
  apply Hf. apply find_obj_in in F. apply F.
Qed.
Lemma execute_good v op c log : inv c -> op_bytes op ->
  exists o, catalog_execute v op (c, log) = Ok o /\ good c log (exact op c) o.
Proof.
  intros H Hb. destruct op; cbn [catalog_execute fst op_bytes] in *;
    try (destruct (depends v c _); [eexists; split; [reflexivity|apply good_raise, H]|]);
    try (eexists; split; [reflexivity|]).
  - apply storage_create_good, H.
  - apply storage_drop_good, H.
  - apply storage_rename_good, H.
  - apply db_create_good, H.
  - apply cascade_drop_good, H.
  - apply cascade_rename_good, H.
  - apply table_create_good; assumption.
  - apply table_drop_good, H.
  - destruct (database_mgr_find c d'); [destruct (depends v c n); [apply good_raise, H|apply table_rename_good, H]|apply good_raise, H].
  - apply truncate_good, H.
  - apply set_identity_good, H.
  - apply set_unlogged_good, H.
  - apply column_add_good; assumption.
  - apply column_drop_good, H.
  - apply column_rename_good, H.
  - apply column_set_good; assumption.
  - apply with_table_good; [exact H|]. intros p Hp. apply index_drop_good; assumption.
  - apply with_table_good; [exact H|]. intros p Hp. apply index_rename_good; assumption.
  - apply with_table_good; [exact H|]. intros p Hp. apply tier_create_good; assumption.
  - apply with_table_good; [exact H|]. intros p Hp. apply tier_drop_good; assumption.
  - apply with_table_good; [exact H|]. intros p Hp. apply tier_rename_good; assumption.
  - apply with_table_good; [exact H|]. intros p Hp. apply tier_set_good; assumption.
  - apply with_table_good; [exact H|]. intros p Hp. apply volume_add_good; assumption.
  - apply with_table_good; [exact H|]. intros p Hp. apply volume_drop_good; assumption.
  - apply with_table_good; [exact H|]. intros p Hp. apply volume_pause_good; assumption.
  - apply udf_create_good, H.
  - apply udf_replace_good, H.
  - apply udf_drop_good, H.
  - destruct (database_mgr_find c d'); [destruct (depends v c n); [apply good_raise, H|apply udf_rename_good, H]|apply good_raise, H].
Qed.

(** ** transactions *)
Lemma run_good v ops : forall c log, inv c -> Forall op_bytes ops -> exact_run v ops (c, log) ->
  exists s ok new, run v ops (c, log) = Ok (s, ok) /\ snd s = new ++ log /\ inv (fst s) /\ c_next c <= c_next (fst s) /\ undoes c new (fst s).
Proof.
  induction ops as [|op ops IH]; intros c log H Hb Hx.
  - exists (c, log), true, []. split; [reflexivity|]. split; [reflexivity|]. split; [exact H|]. split; [cbn; lia|apply undoes_nil].
  - inversion Hb as [|? ? B1 B2]; subst. destruct Hx as [X1 X2]. cbn [run].
    destruct (execute_good v op c log H B1) as ([[c1 log1] r] & E & (n1 & L1 & I1 & N1 & U1)). cbn [fst snd] in *.
    rewrite E. cbn [bind fst snd]. destruct r as [b|].
    + destruct (IH c1 log1 I1 B2 (X2 _ _ E)) as (s & ok & n2 & R & L2 & I2 & N2 & U2).
      exists s, ok, (n2 ++ n1). split; [exact R|]. split; [rewrite L2, L1; apply app_assoc|]. split; [exact I2|]. split; [lia|].
      eapply undoes_app; [apply U1; left; exact X1|exact U2].
    + exists (c1, log1), false, n1. split; [reflexivity|]. split; [exact L1|]. split; [exact I1|]. split; [exact N1|]. apply U1. right. reflexivity.
Qed.

(** ** commit keeps the invariant *)
Lemma commit1_inv e c : inv c -> inv (commit1 e c) /\ c_next (commit1 e c) = c_next c.
Proof.
  intros H. destruct e; cbn [commit1]; try (split; [exact H|reflexivity]); (split; [|reflexivity]).
  - apply inv_on_table; [exact H|]. intros t Ht. exact (inv_table _ _ _ H Ht).
  - apply inv_on_table; [exact H|]. intros t Ht. pose proof (inv_table _ _ _ H Ht) as Hk. apply table_ok_indexes; [exact Hk|apply ids_ok_del, Hk].
  - apply inv_on_table; [exact H|]. intros t Ht. pose proof (inv_table _ _ _ H Ht) as Hk. apply table_ok_tiers; [exact Hk|apply ids_ok_del, Hk|].
    intros p Hp. apply in_del in Hp. apply Hk, Hp.
  - apply inv_on_tier; [exact H|]. intros x Hx. exact Hx.
Qed.
Lemma commit_inv log c : inv c -> inv (tr_commit log c).
Proof. unfold tr_commit. induction log as [|e log IH]; intros H; [exact H|]. cbn. apply commit1_inv, IH, H. Qed.

(** the state of the catalog after one statement *)
Lemma abort_next log : forall c c', tr_abort log c = Ok c' -> c_next c' = c_next c.
Proof.
  induction log as [|e log IH]; intros c c' H; [injection H as <-; reflexivity|].
  cbn [tr_abort] in H. destruct (abort1 e c) as [c1| |] eqn:E; try discriminate H. cbn [bind] in H. rewrite (IH _ _ H).
  destruct e; cbn [abort1] in E; unfold on_column, on_index, on_tier, on_table in E;
    try (match type of E with context [constraints_read ?a ?b] => destruct (constraints_read a b); try discriminate E end); injection E as <-; reflexivity.
Qed.
Lemma statement_good v ro wal op c : inv c -> op_bytes op ->
  exists r, session_execute_utility v ro wal op c = Ok r /\ inv (r_cat r) /\
            (r_error r = true -> ro = false -> wal = true -> same_catalog (r_cat r) c).
Proof.
  intros H Hb. unfold session_execute_utility. cbn [run].
  destruct (execute_good v op c [] H Hb) as ([[c1 log1] r] & E & (n1 & L1 & I1 & N1 & U1)). cbn [fst snd] in *.
  rewrite E. cbn [bind fst snd]. destruct r as [b|]; cbn [bind].
  - destruct log1 as [|e log1].
    + eexists. split; [reflexivity|]. split; [exact I1|]. cbn. discriminate.
    + destruct ro; [eexists; split; [reflexivity|]; split; [exact I1|]; discriminate|].
      destruct wal; eexists; (split; [reflexivity|]); (split; [cbn [r_cat]; try (apply commit_inv); exact I1|]); cbn; discriminate.
  - rewrite app_nil_r in L1. subst log1. destruct (U1 (or_intror eq_refl) c1 (same_refl c1)) as (c2 & A & S).
    cbn [bind fst snd app]. rewrite ?app_nil_r in *. rewrite A. cbn [bind]. eexists. split; [reflexivity|]. cbn [r_cat].
    split; [|intros _ _ _; exact S]. eapply inv_same; [exact H|apply same_sym, S|]. rewrite (abort_next _ _ _ A). exact N1.
Qed.
Lemma inv_start : inv (mkcat [] [] [] [] 0).
Proof. unfold inv, ids_ok; cbn. repeat split; try constructor; intros; contradiction. Qed.
Lemma history_inv h c : history h c -> inv c.
Proof.
  induction 1 as [|h c st r H IH Hb E]; [apply inv_start|].
  destruct (statement_good (s_env st) (s_read_only st) (s_wal_ok st) (s_op st) c IH Hb) as (r' & E' & I & _).
  rewrite E in E'. injection E' as <-. exact I.
Qed.
