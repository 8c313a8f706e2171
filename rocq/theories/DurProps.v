(** C71: what was committed is there after a restart, schema and rows, whatever was checkpointed. *)
From Verif Require Import Base DurModel DurSpec DurProofs DurProofs2 DurProofs3 DurProofs4 DurProofs5 DurProofs6.
Local Open Scope nat_scope.

(** For every history of statements, refreshes, catalog writes, removals of log files, crashes and
    restarts, a restart succeeds and shows exactly the statements that were logged, in their order.
    Missing: TRUNCATE, a removal of log files that removes statements logged after it began, and a
    crash when a table of the catalog file was dropped or when a drop has removed a part of the
    files; the refutations below show that the property fails without each of these. *)
Theorem C71_restart_partial : forall es x, run server_init es = Some x -> always careful server_init es -> crash_ok (x_disk x) ->
  exists x', step x Restart = Some x' /\ shows_log x' /\ g_log x' = g_log x /\ m_lsn (x_mem x') = length (g_log x).
Proof.
  intros es x H A Cr. pose proof (run_inv _ _ _ init_inv A H) as I. pose proof I as (D & _).
  destruct (restart_ok _ _ D Cr) as (d & m & E & D' & M & Hl). exists (mkserver d m [] None (g_log x)).
  split; [unfold step; now rewrite E|]. split; [apply minv_shows; exact M|]. split; [reflexivity|exact Hl].
Qed.
Print Assumptions C71_restart_partial.
(** between the statements the running server shows the same *)
Theorem C71_running_partial : forall es x, run server_init es = Some x -> always careful server_init es -> x_todo x = [] -> shows_log x.
Proof. intros es x H A T. pose proof (run_inv _ _ _ init_inv A H) as (_ & _ & _ & Ph). apply minv_shows. now apply idle_minv. Qed.
Print Assumptions C71_running_partial.

(** ** Without DROP TABLE every moment is a good one for a crash *)
Definition no_drop (x : server) (e : event) : Prop := match e with Begin (Drop _) => False | _ => True end.
Definition plain (x : server) (e : event) : Prop := no_truncate x e /\ no_drop x e /\ gc_fresh x e.
Definition undropped (x : server) : Prop := (forall t, ~ In (Drop t) (g_log x)) /\ (forall t, ~ In (MLog (Drop t)) (x_todo x)).
Lemma no_drop_crash L d : dinv L d -> (forall t, ~ In (Drop t) L) -> crash_ok d.
Proof.
  intros (W & (low & Hlow & Hwal & R) & Hcl & Hcat & FG & There) ND.
  assert (forall i t n e, i <= length L -> find_table (K L i) t = Some (n, e) -> exists e', find_table (K L (length L)) t = Some (n, e')) as Stay.
  { intros i t n e Hi H. destruct (find_table (K L (length L)) t) as [[n' e']|] eqn:E.
    - exists e'. assert (n' = n) as -> by (eapply K_nparts; eauto). reflexivity.
    - destruct (was_dropped L i (length L) t _ W Hi (le_n _) H E) as (m & _ & D). apply nth_error_In in D. now apply ND in D. }
  assert (forall l s, In (l, s) (d_wal d) -> In s L) as InL.
  { intros l s H. rewrite Hwal in H. apply filter_In in H as [H _]. unfold recs in H. now apply in_combine_r in H. }
  split.
  - intros t p q Hp Hq n [e [H|H]]; (destruct (Nat.lt_ge_cases q n) as [X|X]; [exfalso|exact X]).
    + rewrite Hcat in H. apply in_find in H; [|now apply K_nodup]. destruct (Stay _ _ _ _ Hcl H) as [e' He]. now apply (There _ _ _ q He).
    + apply in_map_iff in H as ([l s] & E & H). cbn in E. subst s. apply InL in H. apply In_nth_error in H as [i H].
      assert (find_table (K L (S i)) t = Some (n, e)) as K1.
      { rewrite (K_step _ _ _ H). cbn [spec1 fst]. rewrite find_app. destruct (find_table (K L i) t) eqn:E.
        - apply (cat_used _ _ _ (wf_firstn _ i W)) in E. pose proof (W _ _ H) as [U _]. congruence.
        - cbn. now rewrite Nat.eqb_refl. }
      assert (S i <= length L) as Hi by (apply nth_error_Some; congruence).
      destruct (Stay _ _ _ _ Hi K1) as [e' He]. now apply (There _ _ _ q He).
  - intros l t H _. apply InL in H. now apply ND in H.
Qed.
Lemma undropped_step x e x' : undropped x -> plain x e -> step x e = Some x' -> undropped x'.
Proof.
  intros [U1 U2] (_ & P & _) H. destruct e as [s| |t p| | |low|]; unfold step in H.
  - destruct (x_todo x); [|discriminate]. destruct (stmt_ok x s); [|discriminate]. injection H as <-. split; [exact U1|]. cbn [x_todo].
    intros t Hi. destruct s; cbn in Hi; try (now destruct Hi as [?|[?|[]]]); [|destruct P].
    apply in_app_or in Hi as [Hi|[Hi|[Hi|[]]]]; try discriminate. apply in_map_iff in Hi as (? & ? & _). discriminate.
  - destruct (x_todo x) as [|o todo] eqn:E; [discriminate|]. assert (forall t, ~ In (MLog (Drop t)) todo) as U2' by (intros t Ht; apply (U2 t); now right).
    destruct o; cbn [micro_do] in H; [injection H as <-; now split| |injection H as <-; now split|].
    + injection H as <-. split; [|exact U2']. cbn [g_log]. intros t Hi. apply in_app_or in Hi as [Hi|[Hi|[]]]; [now apply (U1 t)|]. subst. apply (U2 t). now left.
    + destruct (mem_commit (x_mem x) s); [|discriminate]. injection H as <-. now split.
  - destruct (x_todo x); [|discriminate]. destruct (find_table (m_cat (x_mem x)) t) as [[n e]|]; [|discriminate]. destruct (m_part (x_mem x) t p); [|discriminate].
    destruct (p <? n); [|discriminate]. injection H as <-. split; [exact U1|intros ? []].
  - destruct (x_todo x); [|discriminate]. injection H as <-. split; [exact U1|intros ? []].
  - destruct (x_todo x); [|discriminate]. injection H as <-. split; [exact U1|intros ? []].
  - destruct (x_gc x) as [[min l]|]; [|discriminate]. destruct (_ && _); [|discriminate]. injection H as <-. now split.
  - destruct (restart (x_disk x)) as [[d m]|]; [|discriminate]. injection H as <-. split; [exact U1|intros ? []].
Qed.
Lemma plain_run es : forall x x', inv x -> undropped x -> always plain x es -> run x es = Some x' -> inv x' /\ undropped x'.
Proof.
  induction es as [|e es IH]; intros x x' I U A H; cbn in *; [injection H as <-; now split|]. destruct A as [A1 A2].
  destruct (step x e) as [x1|] eqn:E; [|discriminate]. eapply IH; [| |exact A2|exact H].
  - eapply any_step; [exact I| |exact E]. destruct A1 as (A & B & D). split; [exact A|]. split; [exact D|]. destruct e; try exact Logic.I.
    eapply no_drop_crash; [apply I|apply U].
  - eapply undropped_step; eauto.
Qed.
Theorem C71_no_drop_partial : forall es x, run server_init es = Some x -> always plain server_init es ->
  exists x', step x Restart = Some x' /\ shows_log x' /\ g_log x' = g_log x.
Proof.
  intros es x H A. destruct (plain_run es _ _ init_inv (conj (fun t F => F) (fun t F => F)) A H) as [I U].
  destruct (restart_ok _ _ (proj1 I) (no_drop_crash _ _ (proj1 I) (proj1 U))) as (d & m & E & D' & M & Hl). exists (mkserver d m [] None (g_log x)).
  split; [unfold step; now rewrite E|]. split; [apply minv_shows; exact M|reflexivity].
Qed.
Print Assumptions C71_no_drop_partial.

(** the histories are real ones: tables, rows, a checkpoint in parts, removal of log files, a crash
    in the middle of CREATE TABLE, another one after a statement was logged *)
Definition create (t n : nat) (d : Z) : list event := Begin (Create t n d) :: repeat Step (n + 2).
Definition exec (s : stmt) : list event := [Begin s; Step; Step].
Definition history : list event :=
  create 1 2 5 ++ exec (Dml [(1, 0, [Put 1 10; Put 2 20]); (1, 1, [Put 3 30])]) ++ [Catalog] ++ exec (Alter 1 6) ++ [Refresh 1 0; Refresh 1 1; GcStart] ++
  exec (Dml [(1, 0, [Del 1])]) ++ [GcEnd 1; Restart] ++ exec (Dml [(1, 1, [Put 4 40])]) ++ [Begin (Create 2 2 0); Step; Restart; Catalog; Refresh 1 0; Refresh 1 1; GcStart; GcEnd 6] ++
  [Begin (Dml [(1, 0, [Put 7 70])]); Step].
(** how many of the first files of table 1 there are *)
Definition files_in (x : server) : nat := length (filter (fun p => match d_file (x_disk x) 1 p with Some _ => true | None => false end) (seq 0 4)).
Definition shown (x : server) (t p : nat) : option rows := option_map live (m_part (x_mem x) t p).
Definition plainb (x : server) (e : event) : bool :=
  match e with Begin (Truncate _) | Begin (Drop _) => false | GcEnd low => match x_gc x with Some (_, l) => low <=? S l | None => true end | _ => true end.
Fixpoint alwaysb (P : server -> event -> bool) (x : server) (es : list event) : bool :=
  match es with [] => true | e :: es => P x e && match step x e with Some x' => alwaysb P x' es | None => true end end.
Lemma alwaysb_ok P (Q : server -> event -> Prop) : (forall x e, P x e = true -> Q x e) -> forall es x, alwaysb P x es = true -> always Q x es.
Proof.
  intro H. induction es as [|e es IH]; intros x A; cbn in *; [exact I|]. apply andb_prop in A as [A B]. split; [now apply H|]. destruct (step x e); [now apply IH|exact I].
Qed.
Lemma plainb_ok x e : plainb x e = true -> plain x e.
Proof.
  unfold plainb, plain, no_truncate, no_drop, gc_fresh. destruct e as [[]| | | | | |]; try discriminate; auto.
  destruct (x_gc x) as [[min l]|]; auto. intro H. apply Nat.leb_le in H. auto.
Qed.
Lemma plain_careful es : forall x, inv x -> undropped x -> always plain x es -> always careful x es.
Proof.
  induction es as [|e es IH]; intros x0 I0 U0 A; [exact I|]. cbn in *. destruct A as [A1 A2]. assert (careful x0 e) as Ce.
  { destruct A1 as (A & B & D). split; [exact A|]. split; [exact D|]. destruct e; try exact I. eapply no_drop_crash; [apply I0|apply U0]. }
  split; [exact Ce|]. destruct (step x0 e) as [x1|] eqn:E; [|exact I]. apply IH; [eapply any_step; eauto|eapply undropped_step; eauto|exact A2].
Qed.
Definition seen (es : list event) : option (option rows * option rows * cat * list (nat * stmt)) :=
  match run server_init es with Some x => Some (shown x 1 0, shown x 1 1, m_cat (x_mem x), d_wal (x_disk x)) | None => None end.
Example C71_nonvacuous : exists x, run server_init history = Some x /\ always plain server_init history /\ always careful server_init history /\ crash_ok (x_disk x) /\
  seen (history ++ [Restart]) = Some (Some [(2, 20); (7, 70)]%Z, Some [(3, 30); (4, 40)]%Z, [(1, (2, 6%Z))], [(6, Dml [(1, 0, [Put 7 70])])]).
Proof.
  destruct (run server_init history) as [x|] eqn:H.
  2: { exfalso. assert (match run server_init history with Some _ => true | None => false end = true) as G by (vm_compute; reflexivity). rewrite H in G. discriminate. }
  assert (always plain server_init history) as P by (apply (alwaysb_ok plainb plain plainb_ok); vm_compute; reflexivity).
  assert (undropped server_init) as U0 by exact (conj (fun t F => F) (fun t F => F)).
  destruct (plain_run history _ _ init_inv U0 P H) as [I U].
  exists x. split; [reflexivity|]. split; [exact P|]. split; [apply plain_careful; [exact init_inv|exact U0|exact P]|].
  split; [exact (no_drop_crash _ _ (proj1 I) (proj1 U))|]. vm_compute. reflexivity.
Qed.

(** ** Refutations *)
(** TRUNCATE in the catalog file but not in the rows: they are back after a restart *)
Theorem C71_truncate_back_refuted : exists es, always no_drop server_init es /\ always gc_fresh server_init es /\
  seen es = Some (Some [], None, [(1, (1, 0%Z))], [(1, Create 1 1 0); (2, Dml [(1, 0, [Put 1 10])]); (3, Truncate 1)]) /\
  option_map (fun x => fst (fst (fst x))) (seen (es ++ [Restart])) = Some (Some [(1, 10)]%Z).
Proof.
  exists (create 1 1 0 ++ exec (Dml [(1, 0, [Put 1 10])]) ++ exec (Truncate 1) ++ [Catalog]).
  split; [vm_compute; repeat split|]. split; [vm_compute; repeat split|]. split; vm_compute; reflexivity.
Qed.
Print Assumptions C71_truncate_back_refuted.
(** TRUNCATE is executed again on rows that were inserted after it *)
Theorem C71_truncate_lost_refuted : exists es x, run server_init es = Some x /\ always no_drop server_init es /\ always gc_fresh server_init es /\
  shown x 1 0 = Some [(2, 20)]%Z /\ option_map (fun x => fst (fst (fst x))) (seen (es ++ [Restart])) = Some (Some []).
Proof.
  exists (create 1 1 0 ++ exec (Dml [(1, 0, [Put 1 10])]) ++ exec (Truncate 1) ++ exec (Dml [(1, 0, [Put 2 20])]) ++ [Refresh 1 0]).
  eexists. split; [cbv; reflexivity|]. split; [vm_compute; repeat split|]. split; [vm_compute; repeat split|]. split; vm_compute; reflexivity.
Qed.
Print Assumptions C71_truncate_lost_refuted.
(** a dropped table keeps the server from starting: its rows are gone, a delete of one is in the log *)
Theorem C71_drop_refuted : exists es, always no_truncate server_init es /\ always gc_fresh server_init es /\ always (fun _ e => e <> Restart) server_init es /\
  option_map (fun x => (x_todo x, files_in x)) (run server_init es) = Some ([], 0) /\ run server_init (es ++ [Restart]) = None.
Proof.
  exists (create 1 1 0 ++ exec (Dml [(1, 0, [Put 1 10])]) ++ [Catalog; Refresh 1 0; GcStart; GcEnd 3] ++ exec (Dml [(1, 0, [Del 1])]) ++ [Begin (Drop 1); Step; Step; Step]).
  split; [vm_compute; repeat split|]. split; [vm_compute; repeat split; auto; lia|]. split; [vm_compute; repeat split; discriminate|]. split; vm_compute; reflexivity.
Qed.
Print Assumptions C71_drop_refuted.
(** a crash while the files of a dropped table are removed: the server does not start *)
Theorem C71_drop_crash_refuted : exists es, always no_truncate server_init es /\ always gc_fresh server_init es /\ always (fun _ e => e <> Restart) server_init es /\
  option_map (fun x => (x_todo x, files_in x)) (run server_init es) = Some ([MRemove 1 1; MCommit (Drop 1)], 1) /\ run server_init (es ++ [Restart]) = None.
Proof.
  exists (create 1 2 0 ++ exec (Dml [(1, 0, [Put 1 10])]) ++ [Begin (Drop 1); Step; Step]).
  split; [vm_compute; repeat split|]. split; [vm_compute; repeat split|]. split; [vm_compute; repeat split; discriminate|]. split; vm_compute; reflexivity.
Qed.
Print Assumptions C71_drop_crash_refuted.
(** log files are removed after a statement went to them: the statement is lost *)
Theorem C71_gc_refuted : exists es x, run server_init es = Some x /\ always no_truncate server_init es /\ always no_drop server_init es /\
  x_todo x = [] /\ shown x 1 0 = Some [(1, 10)]%Z /\ option_map (fun x => fst (fst (fst x))) (seen (es ++ [Restart])) = Some (Some []).
Proof.
  exists (create 1 1 0 ++ [Catalog; GcStart] ++ exec (Dml [(1, 0, [Put 1 10])]) ++ [GcEnd 3]).
  eexists. split; [cbv; reflexivity|]. split; [vm_compute; repeat split|]. split; [vm_compute; repeat split|]. split; [reflexivity|]. split; vm_compute; reflexivity.
Qed.
Print Assumptions C71_gc_refuted.
