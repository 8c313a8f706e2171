(** C87: a backup that is taken while the server works is the database of that moment. *)
From Verif Require Import Base DurModel DurSpec DurProofs DurProofs2 DurProofs3 DurProofs4 DurProofs5 DurProofs6 DurProps BakModel BakSpec BakProofs.
Local Open Scope nat_scope.

(** For every history of a server ([es1]: statements, checkpoints, restarts in any order) and
    everything that happens while the backup is made and sent ([es2]): when the client has all, a
    server that is started in its directory shows exactly the statements that were logged when the
    backup was taken, with their tables and rows, and continues with their lsn.
    Missing: TRUNCATE and a removal of log files that removes statements logged after it began (both
    break restarts too, C71); objects of tiers; two backups at a time. *)
Theorem C87_restore_partial : forall es1 es2 x1 x2 d,
  run server_init es1 = Some x1 -> always careful server_init es1 ->
  brun (x1, Idle) (Take :: es2) = Some (x2, Complete d) -> balways careful (x1, Idle) (Take :: es2) ->
  exists x, started d (g_log x1) = Some x /\ shows x (fst (spec (g_log x1))) (snd (spec (g_log x1))) /\ m_lsn (x_mem x) = length (g_log x1).
Proof.
  intros es1 es2 x1 x2 d H1 A1 H2 A2. pose proof (run_inv _ _ _ init_inv A1 H1) as I. cbn [brun balways] in H2, A2.
  destruct (bstep (x1, Idle) Take) as [y|] eqn:E; [|discriminate]. destruct A2 as [_ A2].
  destruct (brun_inv _ _ _ _ (take_inv _ _ I E) A2 H2) as [_ [D Cr]]. destruct (restart_ok _ _ D Cr) as (d' & m' & R & _ & M & Hl).
  unfold started. rewrite R. eexists. split; [reflexivity|]. split; [|exact Hl]. apply (minv_shows (mkserver d' m' [] None (g_log x1))). exact M.
Qed.
Print Assumptions C87_restore_partial.
(** the server that is started in the directory is a server like any other: it runs, and what it
    commits is there after its restarts *)
Theorem C87_goes_on_partial : forall es1 es2 x1 x2 d,
  run server_init es1 = Some x1 -> always careful server_init es1 ->
  brun (x1, Idle) (Take :: es2) = Some (x2, Complete d) -> balways careful (x1, Idle) (Take :: es2) ->
  exists x, started d (g_log x1) = Some x /\
  forall es x', run x es = Some x' -> always careful x es -> crash_ok (x_disk x') ->
  exists x'', step x' Restart = Some x'' /\ shows_log x'' /\ g_log x'' = g_log x'.
Proof.
  intros es1 es2 x1 x2 d H1 A1 H2 A2. pose proof (run_inv _ _ _ init_inv A1 H1) as I. cbn [brun balways] in H2, A2.
  destruct (bstep (x1, Idle) Take) as [y|] eqn:E; [|discriminate]. destruct A2 as [_ A2].
  destruct (brun_inv _ _ _ _ (take_inv _ _ I E) A2 H2) as [_ [D Cr]]. destruct (restart_ok _ _ D Cr) as (d' & m' & R & D' & M & Hl).
  unfold started. rewrite R. eexists. split; [reflexivity|]. intros es x' H A Cr'.
  assert (inv (mkserver d' m' [] None (g_log x1))) as I'.
  { split; [exact D'|]. split; [exact Hl|]. split; [intros min l X; discriminate X|]. left. split; [reflexivity|exact M]. }
  pose proof (run_inv _ _ _ I' A H) as (D2 & _). destruct (restart_ok _ _ D2 Cr') as (d2 & m2 & R2 & _ & M2 & _).
  exists (mkserver d2 m2 [] None (g_log x')). split; [unfold step; now rewrite R2|]. split; [apply minv_shows; exact M2|reflexivity].
Qed.
Print Assumptions C87_goes_on_partial.
(** a backup fails only when files are taken away meanwhile: no removal of log files, no DROP TABLE
    and no restart, and it does not fail, whatever else is executed *)
Theorem C87_fails_only_partial : forall es1 es2 x1 x2 b,
  run server_init es1 = Some x1 -> always careful server_init es1 ->
  brun (x1, Idle) (Take :: es2) = Some (x2, b) -> balways careful (x1, Idle) (Take :: es2) -> Forall calm es2 -> b <> Failed.
Proof.
  intros es1 es2 x1 x2 b H1 A1 H2 A2 F. pose proof (run_inv _ _ _ init_inv A1 H1) as I. cbn [brun balways] in H2, A2.
  destruct (bstep (x1, Idle) Take) as [y|] eqn:E; [|discriminate]. destruct A2 as [_ A2].
  assert (cinv y) as C. { cbn in E. destruct (x_todo x1) eqn:T; [|discriminate]. injection E as <-. split; [|exact Logic.I]. rewrite T. intros ? []. }
  intros ->. now destruct (crun _ _ _ _ (take_inv _ _ I E) C A2 F H2).
Qed.
Print Assumptions C87_fails_only_partial.
(** and whenever no statement is executed one can be taken to its end *)
Theorem C87_possible_partial : forall es1 x1, run server_init es1 = Some x1 -> always careful server_init es1 -> x_todo x1 = [] ->
  exists es2 d, brun (x1, Idle) (Take :: es2) = Some (x1, Complete d) /\ Forall (fun e => match e with Srv _ => False | _ => True end) es2.
Proof. intros es1 x1 H A T. apply backup_run; [exact (run_inv _ _ _ init_inv A H)|exact T]. Qed.
Print Assumptions C87_possible_partial.

(** a backup with work meanwhile: the removal of log files that has begun before it ends within it;
    rows come, a table comes and goes to its file, ALTER, a checkpoint, while the files are sent *)
Definition before : list event := create 1 2 5 ++ exec (Dml [(1, 0, [Put 1 10; Put 2 20]); (1, 1, [Put 3 30])]) ++ [Refresh 1 0; Refresh 1 1; Catalog] ++ exec (Dml [(1, 0, [Del 1])]) ++ [GcStart].
Definition meanwhile : list bevent :=
  [Link; Srv (GcEnd 2); Link; ListWal] ++ map Srv (exec (Dml [(1, 1, [Put 4 40])])) ++ [GetFile] ++ map Srv (create 2 1 0 ++ exec (Alter 1 6) ++ [Refresh 1 1; Refresh 1 0; Catalog; GcStart]) ++
  [GetFile; GetWal 1; Srv (GcEnd 6); Finish].
(** tables and rows of two partitions of table 1 *)
Definition view (o : option server) : option (cat * option rows * option rows) := option_map (fun x => (m_cat (x_mem x), shown x 1 0, shown x 1 1)) o.
Definition carefulb (x : server) (e : event) : bool :=
  match e with
  | Begin (Truncate _) | Restart => false
  | GcEnd low => match x_gc x with Some (_, l) => low <=? S l | None => true end
  | _ => true
  end.
Fixpoint balwaysb (y : system) (es : list bevent) : bool :=
  match es with
  | [] => true
  | e :: es => match e with Srv e => carefulb (fst y) e | _ => true end && match bstep y e with Some y' => balwaysb y' es | None => true end
  end.
Lemma carefulb_ok x e : carefulb x e = true -> careful x e.
Proof.
  unfold carefulb, careful, no_truncate, gc_fresh. destruct e as [[]| | | | | |]; try discriminate; auto.
  destruct (x_gc x) as [[min l]|]; auto. intro H. apply Nat.leb_le in H. auto.
Qed.
Lemma balwaysb_ok es : forall y, balwaysb y es = true -> balways careful y es.
Proof.
  induction es as [|e es IH]; intros y H; cbn in *; [exact I|]. apply andb_prop in H as [H1 H2]. split; [destruct e; auto; now apply carefulb_ok|].
  destruct (bstep y e); [now apply IH|exact I].
Qed.
Definition after (es1 : list event) (es2 : list bevent) : option system := match run server_init es1 with Some x => brun (x, Idle) (Take :: es2) | None => None end.
Example C87_nonvacuous : exists x1 x2 d, run server_init before = Some x1 /\ always careful server_init before /\
  brun (x1, Idle) (Take :: meanwhile) = Some (x2, Complete d) /\ balways careful (x1, Idle) (Take :: meanwhile) /\
  view (Some x2) = Some ([(1, (2, 6%Z)); (2, (1, 0%Z))], Some [(2, 20)]%Z, Some [(3, 30); (4, 40)]%Z) /\
  view (started d (g_log x1)) = Some ([(1, (2, 5%Z))], Some [(2, 20)]%Z, Some [(3, 30)]%Z) /\ length (d_wal d) = 2.
Proof.
  destruct (run server_init before) as [x1|] eqn:E1.
  2: { exfalso. assert (match run server_init before with Some _ => true | None => false end = true) as G by (vm_compute; reflexivity). rewrite E1 in G. discriminate. }
  assert (match (match run server_init before with Some x => brun (x, Idle) (Take :: meanwhile) | None => None end) with Some (x2, Complete d) => (view (Some x2), view (started d (match run server_init before with Some x1 => g_log x1 | None => [] end)), length (d_wal d)) | _ => (None, None, 0) end =
          (Some ([(1, (2, 6%Z)); (2, (1, 0%Z))], Some [(2, 20)]%Z, Some [(3, 30); (4, 40)]%Z), Some ([(1, (2, 5%Z))], Some [(2, 20)]%Z, Some [(3, 30)]%Z), 2)) as G by (vm_compute; reflexivity).
  rewrite E1 in G. destruct (brun (x1, Idle) (Take :: meanwhile)) as [[x2 b]|] eqn:E2; [|discriminate]. destruct b as [| | |d|]; try discriminate G.
  assert (forall (a b a' b' : option (cat * option rows * option rows)) (c c' : nat), (a, b, c) = (a', b', c') -> a = a' /\ b = b' /\ c = c') as Inj by (intros; repeat split; congruence). apply Inj in G as (G1 & G2 & G3). exists x1, x2, d. split; [reflexivity|]. split.
  { apply (alwaysb_ok carefulb careful carefulb_ok). vm_compute. reflexivity. }
  split; [exact E2|]. split; [|split; [|split]].
  - apply balwaysb_ok. assert (match run server_init before with Some x1 => balwaysb (x1, Idle) (Take :: meanwhile) | None => false end = true) as G by (vm_compute; reflexivity). now rewrite E1 in G.
  - exact G1.
  - exact G2.
  - exact G3.
Qed.

(** ** Refutations *)
(** the log files of the list are removed by a checkpoint while the backup is sent (the slot of the
    backup does not hold them back, C17): the backup fails *)
Theorem C87_checkpoint_refuted : exists es1 es2, always careful server_init es1 /\ option_map snd (after es1 es2) = Some Failed /\
  match run server_init es1 with Some x1 => balways careful (x1, Idle) (Take :: es2) | None => False end /\
  Forall (fun e => match e with Srv Restart | Srv (Begin _) => False | _ => True end) es2.
Proof.
  exists (create 1 1 0 ++ exec (Dml [(1, 0, [Put 1 10])])), [Link; ListWal; Srv (Refresh 1 0); Srv Catalog; Srv GcStart; Srv (GcEnd 2); GetFile; GetWal 0].
  split; [apply (alwaysb_ok carefulb careful carefulb_ok); vm_compute; reflexivity|]. split; [vm_compute; reflexivity|]. split; [|repeat constructor].
  destruct (run server_init _) as [x1|] eqn:E.
  - apply balwaysb_ok. match type of E with ?r = _ => assert (match r with Some x1 => balwaysb (x1, Idle) (Take :: [Link; ListWal; Srv (Refresh 1 0); Srv Catalog; Srv GcStart; Srv (GcEnd 2); GetFile; GetWal 0]) | None => false end = true) as G by (vm_compute; reflexivity); rewrite E in G; exact G end.
  - match type of E with ?r = _ => assert (match r with Some _ => true | None => false end = true) as G by (vm_compute; reflexivity); rewrite E in G; discriminate G end.
Qed.
Print Assumptions C87_checkpoint_refuted.
(** DROP TABLE removes the directories of the table with the hard links: the backup fails *)
Theorem C87_drop_refuted : exists es1 es2, always careful server_init es1 /\ option_map snd (after es1 es2) = Some Failed /\
  Forall (fun e => match e with Srv Restart | Srv (GcEnd _) => False | _ => True end) es2.
Proof.
  exists (create 1 1 0), [Link; ListWal; Srv (Begin (Drop 1)); Srv Step; Srv Step; Srv Step; GetFile].
  split; [apply (alwaysb_ok carefulb careful carefulb_ok); vm_compute; reflexivity|]. split; [vm_compute; reflexivity|]. repeat constructor.
Qed.
Print Assumptions C87_drop_refuted.
