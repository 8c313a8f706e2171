(** C87: proofs. *)
From Verif Require Import Base DurModel DurSpec DurProofs DurProofs2 DurProofs3 DurProofs4 DurProofs5 DurProofs6 BakModel BakSpec.
Local Open Scope nat_scope.

(** ** The files of the directory *)
Lemma file_of_in (f : nat -> nat -> option file) l : (forall k v, In (k, v) l -> f (fst k) (snd k) = Some v) ->
  forall t p, file_of l t p = if existsb (fun k => (fst k =? t) && (snd k =? p)) (map fst l) then f t p else None.
Proof.
  intros H t p. induction l as [|[[t' p'] v] l IH]; [reflexivity|]. cbn [file_of map existsb fst snd].
  destruct ((t' =? t) && (p' =? p)) eqn:E.
  - apply andb_prop in E as [A B]. apply Nat.eqb_eq in A, B. subst. symmetry. now apply (H (t, p) v (or_introl eq_refl)).
  - apply IH. intros k w Hk. now apply H; right.
Qed.
Lemma file_of_some (f : nat -> nat -> option file) l t p v : (forall k w, In (k, w) l -> f (fst k) (snd k) = Some w) -> file_of l t p = Some v -> f t p = Some v.
Proof. intros H E. rewrite (file_of_in f l H) in E. destruct (existsb _ _); [exact E|discriminate]. Qed.
Lemma existsb_pid (l : list pid) t p : existsb (fun k => (fst k =? t) && (snd k =? p)) l = true <-> In (t, p) l.
Proof.
  rewrite existsb_exists. split.
  - intros ([t' p'] & Hi & E). apply andb_prop in E as [A B]. apply Nat.eqb_eq in A, B. cbn in A, B. now subst.
  - intro H. exists (t, p). split; [exact H|]. cbn. now rewrite !Nat.eqb_refl.
Qed.
Lemma in_parts m t p : In (t, p) (parts m) <-> exists n d, In (t, (n, d)) (m_cat m) /\ p < n /\ m_part m t p <> None.
Proof.
  unfold parts. rewrite in_flat_map. split.
  - intros ([t' [n d]] & Hi & H). cbn [fst snd] in H. apply in_map_iff in H as (p' & E & H). injection E as -> ->.
    apply filter_In in H as [H1 H2]. apply in_seq in H1. exists n, d. split; [exact Hi|]. split; [lia|]. destruct (m_part m t p); [discriminate|discriminate H2].
  - intros (n & d & Hi & Hp & Hm). exists (t, (n, d)). split; [exact Hi|]. cbn [fst snd]. apply in_map_iff. exists p. split; [reflexivity|].
    apply filter_In. split; [apply in_seq; lia|]. destruct (m_part m t p); [reflexivity|easy].
Qed.

(** ** The directory is good when all links are made *)
Definition good (L : list stmt) (d : disk) : Prop := dinv L d /\ crash_ok d.
Lemma in_recs_inv (L : list stmt) i s : In (i, s) (recs L) -> exists j, i = S j /\ nth_error L j = Some s.
Proof.
  unfold recs. assert (forall a, In (i, s) (combine (seq a (length L)) L) -> exists j, i = a + j /\ nth_error L j = Some s) as G.
  { induction L as [|x L IH]; intros a H; cbn in H; [destruct H|]. destruct H as [H|H].
    - injection H as <- <-. exists 0. split; [lia|reflexivity].
    - apply IH in H as (j & E & H). exists (S j). split; [lia|exact H]. }
  intro H. exact (G 1 H).
Qed.
Lemma snap_good x links : inv x -> x_todo x = [] -> map fst links = parts (x_mem x) ->
  (forall k v, In (k, v) links -> d_file (x_disk x) (fst k) (snd k) = Some v) ->
  good (g_log x) (mkdisk (m_pend (x_mem x)) (m_cat (x_mem x)) (file_of links) (d_wal (x_disk x))).
Proof.
  intros I T Ek Hf. assert (exists x', step x Catalog = Some x') as [x' St] by (unfold step; rewrite T; eauto).
  pose proof (catalog_inv _ _ I St) as (D & _). unfold step in St. rewrite T in St. injection St as <-. cbn [g_log x_disk] in D.
  pose proof I as (D0 & _ & _ & Ph). pose proof (idle_minv _ Ph T) as (M1 & M2 & M3 & M4 & M5). clear Ph I.
  set (L := g_log x) in *. destruct D as (W & (low & Hlow & Hw & R1 & R2) & Hc & Hk & F & There). cbn [d_clsn d_cat d_file d_wal] in *.
  assert (forall t n e, In (t, (n, e)) (m_cat (x_mem x)) -> find_table (K L (length L)) t = Some (n, e)) as Fnd.
  { intros t n e H. rewrite M1 in H. apply in_find; [now apply K_nodup|exact H]. }
  assert (forall t n e p, find_table (K L (length L)) t = Some (n, e) -> p < n -> file_of links t p = d_file (x_disk x) t p) as Have.
  { intros t n e p Ht Hp. rewrite (file_of_in _ _ Hf). assert (In (t, p) (map fst links)) as Hi.
    { rewrite Ek. apply in_parts. exists n, e. split; [rewrite M1; now apply find_in|]. split; [exact Hp|]. destruct (M2 _ _ _ _ Ht Hp) as (y & -> & _). discriminate. }
    apply existsb_pid in Hi. now rewrite Hi. }
  assert (forall t p, file_of links t p <> None -> exists n e, find_table (K L (length L)) t = Some (n, e) /\ p < n) as Only.
  { intros t p H. rewrite (file_of_in _ _ Hf) in H. destruct (existsb _ _) eqn:E; [|easy]. apply existsb_pid in E. rewrite Ek in E.
    apply in_parts in E as (n & e & Hi & Hp & _). exists n, e. split; [now apply Fnd|exact Hp]. }
  split.
  - split; [exact W|]. split; [exists low; split; [exact Hlow|]; split; [exact Hw|]; split|].
    + intros t n e p h r i s Ht Hp Hv. cbn [d_file] in Hv. rewrite (Have _ _ _ _ Ht Hp) in Hv. eapply R1; eauto.
    + exact R2.
    + split; [exact Hc|]. split; [exact Hk|]. split.
      * intros t p h r Hv. cbn [d_file] in Hv. apply (file_of_some _ _ _ _ _ Hf) in Hv. now apply F.
      * intros t n e p Ht Hp. cbn [d_file]. rewrite (Have _ _ _ _ Ht Hp). eapply There; eauto.
  - split.
    + intros t p q Hp Hq n [e H]. cbn [d_file d_cat d_wal] in *. destruct (Only _ _ Hp) as (n0 & e0 & Ht & _).
      destruct (Nat.lt_ge_cases q n0) as [X|X]; [exfalso; apply (There _ _ _ _ Ht X); rewrite <- (Have _ _ _ _ Ht X); exact Hq|].
      assert (n = n0) as ->; [|exact X]. destruct H as [H|H].
      * apply Fnd in H. congruence.
      * apply in_map_iff in H as ([l s] & E & H). cbn in E. subst s. rewrite Hw in H. apply filter_In in H as [H _]. apply in_recs_inv in H as (j & _ & H). apply nth_error_In in H.
        rewrite K_full in Ht. destruct (cat_created _ W _ _ _ Ht) as [[e' H'] _]. eapply create_unique; eauto.
    + intros l t H Hl. cbn [d_clsn d_wal d_cat] in *. exfalso. rewrite Hw in H. apply filter_In in H as [H _]. apply in_recs_inv in H as (j & -> & H).
      pose proof (M5 _ _ H eq_refl). lia.
Qed.

(** ** What the server does meanwhile *)
Lemma step_log x e x' : step x e = Some x' -> exists M, g_log x' = g_log x ++ M.
Proof.
  intro H. destruct e as [s| |t p| | |low|]; unfold step in H.
  - destruct (x_todo x); [|discriminate]. destruct (stmt_ok x s); [|discriminate]. injection H as <-. exists []. symmetry. apply app_nil_r.
  - destruct (x_todo x) as [|o todo]; [discriminate|]. destruct o; cbn [micro_do] in H.
    + injection H as <-. exists []. symmetry. apply app_nil_r.
    + injection H as <-. now exists [s].
    + injection H as <-. exists []. symmetry. apply app_nil_r.
    + destruct (mem_commit _ _); [|discriminate]. injection H as <-. exists []. symmetry. apply app_nil_r.
  - destruct (x_todo x); [|discriminate]. destruct (find_table _ _) as [[n d]|]; [|discriminate]. destruct (m_part _ _ _); [|discriminate]. destruct (p <? n); [|discriminate].
    injection H as <-. exists []. symmetry. apply app_nil_r.
  - destruct (x_todo x); [|discriminate]. injection H as <-. exists []. symmetry. apply app_nil_r.
  - destruct (x_todo x); [|discriminate]. injection H as <-. exists []. symmetry. apply app_nil_r.
  - destruct (x_gc x) as [[min l]|]; [|discriminate]. destruct (_ && _); [|discriminate]. injection H as <-. exists []. symmetry. apply app_nil_r.
  - destruct (restart _) as [[d m]|]; [|discriminate]. injection H as <-. exists []. symmetry. apply app_nil_r.
Qed.
(** the removal of log files changes the log only *)
Lemma gcend_rest x low x' : step x (GcEnd low) = Some x' ->
  x_mem x' = x_mem x /\ x_todo x' = x_todo x /\ g_log x' = g_log x /\ d_file (x_disk x') = d_file (x_disk x).
Proof.
  unfold step. destruct (x_gc x) as [[min l]|]; [|discriminate]. destruct (_ && _); [|discriminate]. intro H. injection H as <-. auto.
Qed.
(** what is read from a log file is what was listed *)
Lemma read_same L M d names l : dinv (L ++ M) d -> (forall r, In r names -> In r (recs L)) -> read_wal names (d_wal d) = Some l -> l = names.
Proof.
  intros (_ & (low & _ & Hw & _) & _). revert l. induction names as [|r names IH]; intros l Hr H; cbn in H; [now injection H as <-|].
  destruct (find _ _) as [r'|] eqn:E; [|discriminate]. destruct (read_wal names (d_wal d)) as [l'|] eqn:E2; [|discriminate]. injection H as <-.
  f_equal; [|apply IH; [intros q Hq; apply Hr; now right|reflexivity]].
  apply find_some in E as [E3 E4]. apply Nat.eqb_eq in E4. rewrite Hw in E3. apply filter_In in E3 as [E3 _]. destruct r as [i s], r' as [i' s']. cbn in E4. subst i'.
  apply in_recs_inv in E3 as (j & -> & E3). pose proof (Hr _ (or_introl eq_refl)) as H. apply in_recs_inv in H as (j' & Ej & H). injection Ej as <-.
  rewrite nth_error_app1 in E3 by (apply nth_error_Some; congruence). congruence.
Qed.
Lemma dinv_wal L d r : dinv L d -> In r (d_wal d) -> In r (recs L).
Proof. intros (_ & (low & _ & Hw & _) & _) H. rewrite Hw in H. now apply filter_In in H. Qed.

(** ** The invariant of the backup: [L] is the log when it was taken *)
Definition masked (links : list (pid * option file)) (fl : list (pid * file)) : Prop :=
  Forall2 (fun l f => fst l = fst f /\ (snd l = None \/ snd l = Some (snd f))) links fl.
Definition binv (L : list stmt) (y : system) : Prop :=
  let (x, b) := y in
  inv x /\
  match b with
  | Idle => False
  | Linking lsn c rest links =>
      g_log x = L /\ x_todo x = [] /\ lsn = m_pend (x_mem x) /\ c = m_cat (x_mem x) /\ map fst links ++ rest = parts (x_mem x) /\
      forall k v, In (k, v) links -> d_file (x_disk x) (fst k) (snd k) = Some v
  | Fetching lsn c links wal got got_wal =>
      (exists M, g_log x = L ++ M) /\ exists fl, masked links fl /\ good L (mkdisk lsn c (file_of (got ++ fl)) (got_wal ++ wal))
  | Complete d => good L d
  | Failed => True
  end.
Lemma masked_all fl : masked (map (fun l : pid * file => (fst l, Some (snd l))) fl) fl.
Proof. induction fl; constructor; auto. Qed.
Lemma masked_unlink gone links fl : masked links fl -> masked (unlink gone links) fl.
Proof.
  intro H. destruct gone as [t|]; [|exact H]. cbn. induction H as [|l f links fl [E1 E2] H IH]; constructor; [|exact IH]. cbn. split; [exact E1|]. destruct (fst (fst l) =? t); auto.
Qed.
Lemma bstep_inv L y e y' : binv L y -> (match e with Srv e => careful (fst y) e | _ => True end) -> bstep y e = Some y' -> binv L y'.
Proof.
  destruct y as [x b]. intros [I B] Ca H. cbn [fst] in Ca. destruct b as [|lsn c rest links|lsn c links wal got got_wal|d|].
  - destruct B.
  - destruct e as [e| | | | |n|]; try discriminate H.
    + destruct e; try discriminate H; cbn [bstep] in H.
      * destruct (step x (GcEnd low)) as [x'|] eqn:E; [|discriminate]. injection H as <-. split; [eapply any_step; eauto|].
        destruct (gcend_rest _ _ _ E) as (-> & -> & -> & ->). exact B.
      * destruct (step x Restart) as [x'|] eqn:E; [|discriminate]. injection H as <-. split; [eapply any_step; eauto|exact Logic.I].
    + cbn [bstep] in H. destruct rest as [|[t p] rest]; [discriminate|]. destruct (d_file (x_disk x) t p) as [f|] eqn:E; injection H as <-; (split; [exact I|]); [|exact Logic.I].
      destruct B as (B1 & B2 & B3 & B4 & B5 & B6). repeat (split; [assumption|]). split.
      * rewrite map_app, <- app_assoc. exact B5.
      * intros k v Hk. apply in_app_or in Hk as [Hk|[Hk|[]]]; [now apply B6|]. now injection Hk as <- <-.
    + cbn [bstep] in H. destruct rest; [|discriminate]. injection H as <-. split; [exact I|]. destruct B as (B1 & B2 & -> & -> & B5 & B6).
      split; [exists []; rewrite app_nil_r; exact B1|]. exists links. split; [apply masked_all|]. cbn [app]. rewrite <- B1. apply snap_good; auto. rewrite app_nil_r in B5. exact B5.
  - destruct B as [[M EM] (fl & Mk & G)]. destruct e as [e| | | | |n|]; try discriminate H.
    + assert (binv L y' \/ e = Restart) as [R| ->]; [|exact R|].
      { destruct e; try (now right); left; cbn [bstep] in H; (match type of H with match ?s with _ => _ end = _ => destruct s as [x'|] eqn:E; [|discriminate] end); injection H as <-;
        (split; [eapply any_step; eauto|]); (split; [destruct (step_log _ _ _ E) as [M' ->]; exists (M ++ M'); rewrite EM; symmetry; apply app_assoc|]);
        exists fl; (split; [first [exact Mk|apply masked_unlink; exact Mk]|exact G]). }
      cbn [bstep] in H. destruct (step x Restart) as [x'|] eqn:E; [|discriminate]. injection H as <-. split; [eapply any_step; eauto|exact Logic.I].
    + cbn [bstep] in H. destruct links as [|[k f] links]; [discriminate|]. destruct f as [f|]; injection H as <-; (split; [exact I|]); [|exact Logic.I].
      split; [now exists M|]. inversion Mk as [|? f' ? fl' [E1 E2] Mk']; subst. cbn in E1, E2. destruct E2 as [E2|E2]; [discriminate|]. injection E2 as ->. subst k.
      exists fl'. split; [exact Mk'|]. rewrite <- app_assoc. destruct f' as [k f]. exact G.
    + cbn [bstep] in H. destruct links; [|discriminate]. destruct wal as [|r wal]; [discriminate|].
      destruct (read_wal (firstn (S n) (r :: wal)) (d_wal (x_disk x))) as [l|] eqn:E; injection H as <-; (split; [exact I|]); [|exact Logic.I].
      split; [now exists M|]. exists fl. split; [exact Mk|]. assert (l = firstn (S n) (r :: wal)) as ->.
      { pose proof I as [D _]. rewrite EM in D. eapply read_same; [exact D| |exact E]. intros q Hq. eapply dinv_wal; [exact (proj1 G)|]. cbn [d_wal]. apply in_or_app. right.
        rewrite <- (firstn_skipn (S n) (r :: wal)). apply in_or_app. now left. }
      rewrite <- app_assoc. match goal with |- good L (mkdisk _ _ _ (_ ++ ?b)) => change b with (firstn (S n) (r :: wal) ++ skipn (S n) (r :: wal)) end. rewrite firstn_skipn. exact G.
    + cbn [bstep] in H. destruct links; [|discriminate]. destruct wal; [|discriminate]. injection H as <-. split; [exact I|]. inversion Mk; subst. rewrite !app_nil_r in G. exact G.
  - destruct e as [e| | | | |n|]; try discriminate H. cbn [bstep] in H. assert (exists x', step x e = Some x' /\ y' = (x', Complete d)) as (x' & E & ->).
    { destruct e; (match type of H with match ?s with _ => _ end = _ => destruct s as [x'|] eqn:E; [|discriminate] end); injection H as <-; eauto. }
    split; [eapply any_step; eauto|exact B].
  - destruct e as [e| | | | |n|]; try discriminate H. cbn [bstep] in H. assert (exists x', step x e = Some x' /\ y' = (x', Failed)) as (x' & E & ->).
    { destruct e; (match type of H with match ?s with _ => _ end = _ => destruct s as [x'|] eqn:E; [|discriminate] end); injection H as <-; eauto. }
    split; [eapply any_step; eauto|exact B].
Qed.
Lemma brun_inv L es : forall y y', binv L y -> balways careful y es -> brun y es = Some y' -> binv L y'.
Proof.
  induction es as [|e es IH]; intros y y' B A H; cbn in *; [now injection H as <-|]. destruct A as [A1 A2]. destruct (bstep y e) as [y1|] eqn:E; [|discriminate].
  eapply IH; [eapply bstep_inv; eauto|exact A2|exact H].
Qed.
Lemma take_inv x y : inv x -> bstep (x, Idle) Take = Some y -> binv (g_log x) y.
Proof.
  intros I H. cbn in H. destruct (x_todo x) eqn:T; [|discriminate]. injection H as <-. split; [exact I|]. repeat (split; [first [reflexivity|assumption]|]). intros k v [].
Qed.

(** ** A backup fails only when files are taken away *)
Definition removes_no (q : list micro) : Prop := forall o, In o q -> match o with MRemove _ _ => False | _ => True end.
Definition cinv (y : system) : Prop :=
  let (x, b) := y in
  removes_no (x_todo x) /\
  match b with
  | Fetching _ _ links wal _ _ => (forall l, In l links -> snd l <> None) /\ forall r, In r wal -> In r (d_wal (x_disk x))
  | Failed => False
  | _ => True
  end.
Lemma calm_step x e x' : calm (Srv e) -> removes_no (x_todo x) -> step x e = Some x' ->
  removes_no (x_todo x') /\ (forall r, In r (d_wal (x_disk x)) -> In r (d_wal (x_disk x'))) /\ volume_gone x e = None.
Proof.
  intros C N H. destruct e as [s| |t p| | |low|]; unfold step in H; try destruct C.
  - destruct (x_todo x); [|discriminate]. destruct (stmt_ok x s); [|discriminate]. injection H as <-. cbn [x_todo x_disk]. split; [|split; [auto|reflexivity]].
    intros o Ho. destruct s; cbn in Ho; try (destruct Ho as [<-|[<-|[]]]; exact I); [|destruct C].
    apply in_app_or in Ho as [Ho|[<-|[<-|[]]]]; try exact I. apply in_map_iff in Ho as (p & <- & _). exact I.
  - unfold volume_gone. destruct (x_todo x) as [|o todo]; [discriminate|]. assert (removes_no todo) as N' by (intros q Hq; apply N; now right).
    pose proof (N _ (or_introl eq_refl)) as No. destruct o; cbn [micro_do] in H; [| |destruct No|].
    + injection H as <-. cbn. auto.
    + injection H as <-. cbn. split; [exact N'|]. split; [|reflexivity]. intros r Hr. apply in_or_app. now left.
    + destruct (mem_commit _ _); [|discriminate]. injection H as <-. cbn. auto.
  - destruct (x_todo x); [|discriminate]. destruct (find_table _ _) as [[n d]|]; [|discriminate]. destruct (m_part _ _ _); [|discriminate]. destruct (p <? n); [|discriminate].
    injection H as <-. cbn. split; [intros ? []|auto].
  - destruct (x_todo x); [|discriminate]. injection H as <-. cbn. split; [intros ? []|auto].
  - destruct (x_todo x); [|discriminate]. injection H as <-. cbn. split; [intros ? []|auto].
Qed.
Lemma read_found wal names : (forall r, In r names -> In r wal) -> exists l, read_wal names wal = Some l.
Proof.
  induction names as [|r names IH]; intro H; [now exists []|]. cbn. destruct (find _ _) as [r'|] eqn:E.
  - destruct IH as [l ->]; [intros q Hq; apply H; now right|eauto].
  - exfalso. pose proof (List.find_none _ _ E r (H _ (or_introl eq_refl))) as X. cbn in X. now rewrite Nat.eqb_refl in X.
Qed.
Lemma link_there L x lsn c t p rest links : binv L (x, Linking lsn c ((t, p) :: rest) links) -> d_file (x_disk x) t p <> None.
Proof.
  intros [I (B1 & B2 & B3 & B4 & B5 & B6)]. pose proof I as (D & _ & _ & Ph). pose proof (idle_minv _ Ph B2) as (M1 & _).
  assert (In (t, p) (parts (x_mem x))) as H by (rewrite <- B5; apply in_or_app; right; now left). apply in_parts in H as (n & d & Hi & Hp & _).
  destruct D as (W & _ & _ & _ & _ & There). rewrite M1 in Hi. apply in_find in Hi; [|now apply K_nodup]. eapply There; eauto.
Qed.
Lemma cstep L y e y' : binv L y -> cinv y -> calm e -> bstep y e = Some y' -> cinv y'.
Proof.
  destruct y as [x b]. intros B [N C] Ca H. destruct b as [|lsn c rest links|lsn c links wal got got_wal|d|].
  - now destruct B.
  - destruct e as [e| | | | |n|]; try discriminate H.
    + destruct e; try discriminate H; destruct Ca.
    + cbn [bstep] in H. destruct rest as [|[t p] rest]; [discriminate|]. pose proof (link_there _ _ _ _ _ _ _ _ B) as Th. destruct (d_file _ _ _); [|easy]. injection H as <-. split; [exact N|exact I].
    + cbn [bstep] in H. destruct rest; [|discriminate]. injection H as <-. split; [exact N|]. split; [|auto]. intros l Hl. apply in_map_iff in Hl as (q & <- & _). discriminate.
  - destruct C as [C1 C2]. destruct e as [e| | | | |n|]; try discriminate H.
    + assert (exists x', step x e = Some x' /\ y' = (x', Fetching lsn c (unlink (volume_gone x e) links) wal got got_wal)) as (x' & E & ->).
      { destruct e; try destruct Ca; cbn [bstep] in H; (match type of H with match ?s with _ => _ end = _ => destruct s as [x'|] eqn:E; [|discriminate] end); injection H as <-; eauto. }
      destruct (calm_step _ _ _ Ca N E) as (N' & G & ->). split; [exact N'|]. split; [exact C1|]. intros r Hr. now apply G, C2.
    + cbn [bstep] in H. destruct links as [|[k f] links]; [discriminate|]. destruct f as [f|]; [|exfalso; now apply (C1 _ (or_introl eq_refl))]. injection H as <-. split; [exact N|].
      split; [|exact C2]. intros l Hl. apply C1. now right.
    + cbn [bstep] in H. destruct links; [|discriminate]. destruct wal as [|r wal]; [discriminate|]. set (w := r :: wal) in *.
      assert (forall q, In q (firstn (S n) w) -> In q w) as F by (intros q Hq; rewrite <- (firstn_skipn (S n) w); apply in_or_app; now left).
      destruct (read_found (d_wal (x_disk x)) (firstn (S n) w)) as [l E]; [intros q Hq; now apply C2, F|]. rewrite E in H. injection H as <-. split; [exact N|]. split; [intros ? []|].
      intros q Hq. apply C2. fold w. change (skipn n wal) with (skipn (S n) w) in Hq. rewrite <- (firstn_skipn (S n) w). apply in_or_app. now right.
    + cbn [bstep] in H. destruct links; [|discriminate]. destruct wal; [|discriminate]. injection H as <-. split; [exact N|exact I].
  - destruct e as [e| | | | |n|]; try discriminate H. assert (exists x', step x e = Some x' /\ y' = (x', Complete d)) as (x' & E & ->).
    { cbn [bstep] in H. destruct e; (match type of H with match ?s with _ => _ end = _ => destruct s as [x'|] eqn:E; [|discriminate] end); injection H as <-; eauto. }
    split; [|exact I]. eapply calm_step; eauto.
  - destruct C.
Qed.
Lemma crun L es : forall y y', binv L y -> cinv y -> balways careful y es -> Forall calm es -> brun y es = Some y' -> cinv y'.
Proof.
  induction es as [|e es IH]; intros y y' B C A F H; cbn in *; [now injection H as <-|]. destruct A as [A1 A2]. inversion F; subst. destruct (bstep y e) as [y1|] eqn:E; [|discriminate].
  eapply IH; [eapply bstep_inv; eauto|eapply cstep; eauto|exact A2|assumption|exact H].
Qed.

(** ** A backup that nothing gets in the way of *)
Lemma brun_app y es es' : brun y (es ++ es') = match brun y es with Some y' => brun y' es' | None => None end.
Proof. revert y. induction es as [|e es IH]; intro y; cbn; [reflexivity|]. destruct (bstep y e); [apply IH|reflexivity]. Qed.
Lemma links_run L x lsn c : forall rest links, binv L (x, Linking lsn c rest links) -> exists links', brun (x, Linking lsn c rest links) (repeat Link (length rest)) = Some (x, Linking lsn c [] links').
Proof.
  induction rest as [|[t p] rest IH]; intros links B; [now exists links|]. cbn [length repeat brun]. pose proof (link_there _ _ _ _ _ _ _ _ B) as Th.
  assert (forall y, bstep (x, Linking lsn c ((t, p) :: rest) links) Link = Some y -> binv L y) as Nx by (intros y; now apply (bstep_inv L _ Link)).
  cbn [bstep] in *. destruct (d_file (x_disk x) t p) as [f|]; [|easy]. now apply IH, Nx.
Qed.
Lemma files_run x lsn c wal got_wal : forall links got, exists got', brun (x, Fetching lsn c (map (fun l : pid * file => (fst l, Some (snd l))) links) wal got got_wal) (repeat GetFile (length links)) = Some (x, Fetching lsn c [] wal got' got_wal).
Proof. induction links as [|[k f] links IH]; intro got; [now exists got|]. cbn [length repeat brun map bstep fst snd]. apply IH. Qed.
Lemma wal_run x lsn c got : forall wal got_wal, (forall r, In r wal -> In r (d_wal (x_disk x))) -> exists got_wal', brun (x, Fetching lsn c [] wal got got_wal) (repeat (GetWal 0) (length wal)) = Some (x, Fetching lsn c [] [] got got_wal').
Proof.
  induction wal as [|r wal IH]; intros gw H; [now exists gw|]. cbn [length repeat brun bstep firstn skipn].
  destruct (read_found (d_wal (x_disk x)) [r]) as [l ->]; [intros q [<-|[]]; apply H; now left|]. apply IH. intros q Hq. apply H. now right.
Qed.
Lemma backup_run x : inv x -> x_todo x = [] -> exists es d, brun (x, Idle) (Take :: es) = Some (x, Complete d) /\ Forall (fun e => match e with Srv _ => False | _ => True end) es.
Proof.
  intros I T. assert (exists y, bstep (x, Idle) Take = Some y) as [y Ey] by (cbn; rewrite T; eauto). pose proof (take_inv _ _ I Ey) as B. cbn in Ey. rewrite T in Ey. injection Ey as <-.
  destruct (links_run _ _ _ _ _ _ B) as [links E1].
  destruct (files_run x (m_pend (x_mem x)) (m_cat (x_mem x)) (d_wal (x_disk x)) [] links []) as [got E2].
  destruct (wal_run x (m_pend (x_mem x)) (m_cat (x_mem x)) got (d_wal (x_disk x)) [] (fun r H => H)) as [gw E3].
  exists (repeat Link (length (parts (x_mem x))) ++ [ListWal] ++ repeat GetFile (length links) ++ repeat (GetWal 0) (length (d_wal (x_disk x))) ++ [Finish]).
  exists (mkdisk (m_pend (x_mem x)) (m_cat (x_mem x)) (file_of got) gw). split.
  - cbn [brun bstep]. rewrite T, brun_app, E1. cbn [app brun bstep]. rewrite brun_app, E2, brun_app, E3. reflexivity.
  - repeat (apply Forall_app; split); try (apply Forall_forall; intros e He; apply repeat_spec in He; now subst); repeat constructor.
Qed.
