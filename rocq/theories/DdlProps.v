(** C49: schema operations roll back. *)
From Verif Require Import Base CodecModel DdlModel DdlSpec DdlProofs DdlProofs2 DdlProofs3 DdlProofs4 DdlProofs5.
From Coq Require Import Permutation.
Local Open Scope Z_scope.

(** ** A failed statement leaves the catalog as it was *)
(** after any history, for any statement: it is executed without undefined behaviour, and if it
    fails while the system is not read-only and the log can be written, then the storages,
    databases, tables and functions are the same ones with the same settings *)
Theorem C49_statement_partial h c v op : history h c -> op_bytes op ->
  exists r, session_execute_utility v false true op c = Ok r /\ (r_error r = true -> same_catalog (r_cat r) c).
Proof.
  intros H Hb. destruct (statement_good v false true op c (history_inv _ _ H) Hb) as (r & E & _ & S).
  exists r. split; [exact E|]. intros Hr. apply S; auto.
Qed.
Print Assumptions C49_statement_partial.

(** ** An aborted transaction with any number of operations *)
Theorem C49_abort_partial h c v ops : history h c -> Forall op_bytes ops -> exact_run v ops (c, []) ->
  exists c1 log ok c2, run v ops (c, []) = Ok ((c1, log), ok) /\ tr_abort log c1 = Ok c2 /\ same_catalog c2 c.
Proof.
  intros H Hb Hx. destruct (run_good v ops c [] (history_inv _ _ H) Hb Hx) as ([c1 log] & ok & new & R & L & _ & _ & U).
  cbn [fst snd] in *. rewrite app_nil_r in L. subst new. destruct (U c1 (same_refl c1)) as (c2 & A & S).
  exists c1, log, ok, c2. split; [exact R|]. split; [exact A|exact S].
Qed.
Print Assumptions C49_abort_partial.

(** ** A statement that succeeds has exactly its effect *)
(** [effect] of DdlSpec.v: what is created is added, what is dropped is removed, what is altered
    is changed as the statement says, and everything else stays; the statement is logged exactly
    if there was something to do *)
Theorem C49_commit h c v ro wal op r : history h c -> session_execute_utility v ro wal op c = Ok r -> r_error r = false ->
  (r_logged r = false /\ r_cat r = c) \/ (r_logged r = true /\ effect op c (r_cat r)).
Proof. intros H. apply statement_effect; [exact (history_inv _ _ H)|exact (history_keys _ _ H)]. Qed.
Print Assumptions C49_commit.

(** ** What a function uses is not dropped or altered: a statement that dropped or altered a table
    or function succeeded only if the text of no function ([e_depends]) names it *)
Theorem C49_references h c v ro wal op r n : history h c -> session_execute_utility v ro wal op c = Ok r ->
  r_error r = false -> r_logged r = true -> alters op = Some n ->
  forall p, In p (c_udfs c) -> e_depends v (snd p) n = false.
Proof. intros _. apply statement_refs. Qed.
Print Assumptions C49_references.

(** ** Names are unique after any history *)
Theorem C49_names h c : history h c -> names_unique c.
Proof. intros H. apply keys_names; [exact (history_inv _ _ H)|exact (history_keys _ _ H)]. Qed.
Print Assumptions C49_names.

(** ** A case: ALTER DATABASE a RENAME TO b, where b is there.  The table of a is renamed first, the
    error comes later, the abort brings the old name back *)
Definition n_a : str := [97]. Definition n_b : str := [98]. Definition n_t : str := [116].
Definition v0 : env := mkenv (fun _ _ => false) (fun _ => true) true true true.
Definition col0 : column := mkcol [105; 100] 1 4 false (mkcons true 0 9223372036854775807 [] [] [1; 2; 3]) 1.
Definition col1 : column := mkcol [118] 1 4 false (mkcons false 0 9223372036854775807 [] [] [0]) 0.
Definition tab0 : tablec := mktabc n_a n_t [7; 7] [col0; col1] [mkix [112] [1]] false [1] [].
Definition st_of ro wal op : statement := mkstmt v0 ro wal op.
Definition ops0 : list ddl := [Db_create (mkdb n_a false) false; Db_create (mkdb n_b false) false; Table_create tab0 false].
Fixpoint play (ops : list ddl) (c : catalog) : catalog :=
  match ops with [] => c | op :: ops => match session_execute_utility v0 false true op c with Ok r => play ops (r_cat r) | _ => c end end.
Definition cat0 : catalog := play ops0 (mkcat [] [] [] [] 0).
Lemma cat0_history : history (map (st_of false true) (rev ops0)) cat0.
Proof.
  change (history [st_of false true (Table_create tab0 false); st_of false true (Db_create (mkdb n_b false) false); st_of false true (Db_create (mkdb n_a false) false)] cat0).
  assert (history [st_of false true (Db_create (mkdb n_a false) false)] (play (firstn 1 ops0) (mkcat [] [] [] [] 0))) as H1.
  { refine (H_step [] _ (st_of false true (Db_create (mkdb n_a false) false)) _ H_start I eq_refl). }
  assert (history [st_of false true (Db_create (mkdb n_b false) false); st_of false true (Db_create (mkdb n_a false) false)] (play (firstn 2 ops0) (mkcat [] [] [] [] 0))) as H2.
  { refine (H_step _ _ (st_of false true (Db_create (mkdb n_b false) false)) _ H1 I eq_refl). }
  refine (H_step _ _ (st_of false true (Table_create tab0 false)) _ H2 _ eq_refl).
  repeat constructor.
Qed.
Example C49_nonvacuous : exists s log r,
  catalog_execute v0 (Db_rename n_a n_b false) (cat0, []) = Ok ((s, log), None) /\ map (fun p => tb_db (snd p)) (c_tables s) = [n_b] /\
  session_execute_utility v0 false true (Db_rename n_a n_b false) cat0 = Ok r /\ r_error r = true /\
  map (fun p => tb_db (snd p)) (c_tables (r_cat r)) = [n_a] /\ r_cat r = cat0.
Proof. eexists _, _, _. repeat split; reflexivity. Qed.
(** DROP DATABASE a CASCADE drops the table; a transaction with several operations satisfies the
    hypotheses of C49_abort_partial *)
Example C49_commit_nonvacuous : exists r, session_execute_utility v0 false true (Db_drop n_a true false) cat0 = Ok r /\
  r_error r = false /\ r_logged r = true /\ c_tables (r_cat r) = [] /\ map (fun p => db_name (snd p)) (c_dbs (r_cat r)) = [n_b].
Proof. eexists. repeat split; reflexivity. Qed.
Example C49_abort_nonvacuous : let ops := [Column_drop n_a n_t [118] false false; Column_add n_a n_t col1 false false; Table_drop n_a n_t false; Db_rename n_a [99] false] in
  Forall op_bytes ops /\ exact_run v0 ops (cat0, []).
Proof.
  cbv zeta. split; [repeat constructor|]. cbn [exact_run exact fst].
  split; [exact I|]. intros s1 b1 E1. split; [exact I|]. intros s2 b2 E2. split; [exact I|]. intros s3 b3 E3. split; [|intros ? ? _; exact I].
  vm_compute in E1. injection E1 as <- _. vm_compute in E2. injection E2 as <- _. vm_compute in E3. injection E3 as <- _.
  intros o x F. vm_compute in F. injection F as _ <-. reflexivity.
Qed.

(** a function f that uses table t: DROP TABLE t fails, DROP FUNCTION f succeeds *)
Example C49_references_nonvacuous :
  let v := mkenv (fun _ n => str_is n n_t) (fun _ => true) true true true in
  let c := play [Udf_create (mkudf n_a [102] [] [1])] cat0 in
  history (st_of false true (Udf_create (mkudf n_a [102] [] [1])) :: map (st_of false true) (rev ops0)) c /\ c_udfs c <> [] /\
  (exists r, session_execute_utility v false true (Table_drop n_a n_t false) c = Ok r /\ r_error r = true) /\
  (exists r, session_execute_utility v false true (Udf_drop n_a [102] false) c = Ok r /\ r_error r = false /\ r_logged r = true).
Proof.
  cbv zeta. split; [refine (H_step _ _ (st_of false true (Udf_create (mkudf n_a [102] [] [1]))) _ cat0_history _ eq_refl); repeat constructor|].
  split; [vm_compute; discriminate|]. split; eexists; repeat split; reflexivity.
Qed.

(** ** Where the property is false of the code *)
(** in read-only mode the client gets an error, nothing is logged, and the change stays in memory:
    session.c:222-225 raises the error outside of error_catch and tr_free does not abort *)
Theorem C49_read_only_refuted : exists r, history (map (st_of false true) (rev ops0)) cat0 /\
  session_execute_utility v0 true true (Table_drop n_a n_t false) cat0 = Ok r /\ r_error r = true /\ r_logged r = false /\
  c_tables cat0 <> [] /\ c_tables (r_cat r) = [].
Proof. eexists. split; [exact cat0_history|]. repeat split; try reflexivity. vm_compute. discriminate. Qed.
(** the same if the log cannot be written (wal_mgr_write raises an error) *)
Theorem C49_wal_refuted : exists r, history (map (st_of false true) (rev ops0)) cat0 /\
  session_execute_utility v0 false false (Table_drop n_a n_t false) cat0 = Ok r /\ r_error r = true /\ r_logged r = false /\
  c_tables cat0 <> [] /\ c_tables (r_cat r) = [].
Proof. eexists. split; [exact cat0_history|]. repeat split; try reflexivity. vm_compute. discriminate. Qed.
(** SET LOGGED of a table that is logged, aborted: the table is unlogged (table_mgr_alter.c:150-156) *)
Theorem C49_unlogged_refuted : exists c1 log c2, history (map (st_of false true) (rev ops0)) cat0 /\
  run v0 [Table_set_unlogged n_a n_t false false] (cat0, []) = Ok ((c1, log), true) /\ tr_abort log c1 = Ok c2 /\
  map (fun p => tb_unlogged (snd p)) (c_tables cat0) = [false] /\ map (fun p => tb_unlogged (snd p)) (c_tables c2) = [true].
Proof. eexists _, _, _. split; [exact cat0_history|]. repeat split; reflexivity. Qed.
(** ALTER DATABASE A RENAME TO c for the database a, aborted: its name is A then (database_mgr.c:135) *)
Theorem C49_rename_case_refuted : exists c1 log c2, history (map (st_of false true) (rev ops0)) cat0 /\
  run v0 [Db_rename [65] [99] false] (cat0, []) = Ok ((c1, log), true) /\ tr_abort log c1 = Ok c2 /\
  map (fun p => db_name (snd p)) (c_dbs cat0) = [n_a; n_b] /\ map (fun p => db_name (snd p)) (c_dbs c2) = [[65]; n_b].
Proof. eexists _, _, _. split; [exact cat0_history|]. repeat split; reflexivity. Qed.
Print Assumptions C49_read_only_refuted.
Print Assumptions C49_wal_refuted.
Print Assumptions C49_unlogged_refuted.
Print Assumptions C49_rename_case_refuted.
