(** C70: a crash while the catalog file is written. *)
From Verif Require Import Base JsonModel CatModel CatSpec CatProofs CatFileModel.

(** One write of [text] over the catalog [old], stopped anywhere, with or without loss of the bytes
    that are not on the disk. *)
Definition after_crash (sync : bool) (d : cdir) (text : list Z) (d' : cdir) : Prop :=
  exists n, d' = stopped sync n d text \/ power_loss (stopped sync n d text) d'.

Lemma fold_append f text d : d_inc d = Some f -> text <> [] ->
  fold_left fstep (map AppendInc text) d = mkcd (d_main d) (Some (mkcf (cf_bytes f ++ text) false)).
Proof.
  revert f d. induction text as [|b text IH]; intros f d E N; [contradiction|]. cbn [map fold_left fstep]. rewrite E. cbn [option_map].
  destruct text as [|b2 text]; [reflexivity|]. rewrite (IH (mkcf (cf_bytes f ++ [b]) false)); [|reflexivity|discriminate]. cbn [d_main cf_bytes]. rewrite <- app_assoc. reflexivity.
Qed.
Lemma append_main n text d : d_main (fold_left fstep (firstn n (map AppendInc text)) d) = d_main d.
Proof.
  revert n d. induction text as [|b text IH]; intros [|n] d; cbn [map firstn fold_left]; try reflexivity. rewrite IH. reflexivity.
Qed.

(** what the directory holds at each point of a write over an existing file *)
Lemma stopped_cases sync n d text f : d_main d = Some f -> text <> [] ->
  d_main (stopped sync n d text) = Some f \/
  (d_main (stopped sync n d text) = None /\ d_inc (stopped sync n d text) = Some (mkcf text sync)) \/
  (d_main (stopped sync n d text) = Some (mkcf text sync) /\ d_inc (stopped sync n d text) = None).
Proof.
  intros E N. unfold stopped, catalog_write_ops. rewrite E.
  set (d1 := if d_inc d then [UnlinkInc] else []).
  assert (H1 : forall m, d_main (fold_left fstep (firstn m d1) d) = Some f).
  { intros m. subst d1. destruct (d_inc d); [destruct m as [|[|m]]; exact E|destruct m; exact E]. }
  assert (H1' : fold_left fstep d1 d = mkcd (Some f) None).
  { subst d1. destruct d as [a [b|]]; cbn in E |- *; rewrite E; reflexivity. }
  rewrite firstn_app, fold_left_app.
  destruct (Nat.le_gt_cases (n) (length d1)) as [L|L].
  { replace (n - length d1)%nat with 0%nat by lia. left. cbn [firstn fold_left]. apply H1. }
  rewrite (firstn_all2 d1) by lia. rewrite H1'. set (m := (n - length d1)%nat). assert (0 < m)%nat by (subst m; lia). clearbody m. clear L H1 H1' d1.
  destruct m as [|m]; [lia|]. cbn [app firstn fold_left fstep d_inc d_main].
  rewrite firstn_app, fold_left_app.
  rewrite ?map_length. destruct (Nat.le_gt_cases m (length text)) as [L|L].
  { replace (m - length text)%nat with 0%nat by lia. left. cbn [firstn fold_left]. apply append_main. }
  rewrite (firstn_all2 (map AppendInc text)) by (rewrite map_length; lia). rewrite (fold_append (mkcf [] false)) by (try reflexivity; exact N). cbn [d_main cf_bytes app].
  assert (exists k, (m - length text = S k)%nat) as (k & ->) by (exists (m - length text - 1)%nat; lia).
  destruct sync; cbn [app firstn fold_left fstep d_main d_inc option_map cf_bytes];
  (destruct k as [|k]; cbn [firstn fold_left fstep d_main d_inc]; [try (left; reflexivity); right; left; split; reflexivity|]);
  (destruct k as [|k]; cbn [firstn fold_left fstep d_main d_inc]; [try (right; left; split; reflexivity); right; right; split; reflexivity|]);
  try (destruct k as [|k]; cbn [firstn fold_left fstep d_main d_inc]); right; right; rewrite ?firstn_nil; split; reflexivity.
Qed.

(** The file that is read after a crash is the old or the new one, as a whole; it is then the only
    file, so the same holds for the next write.  The bytes of the old file are on the disk. *)
Theorem C70_old_or_new_partial sync d old text d' :
  d_main d = Some (mkcf old true) -> text <> [] -> after_crash sync d text d' -> (sync = true \/ exists n, d' = stopped sync n d text) ->
  exists t s, catalog_read_file d' = Ok (mkcd (Some (mkcf t s)) None, t) /\ (t = old \/ t = text) /\ (sync = true -> s = true).
Proof.
  intros E N (n & H) S.
  assert (Q : (exists n, d' = stopped sync n d text) \/ (sync = true /\ power_loss (stopped sync n d text) d')).
  { destruct H as [->|H]; [left; exists n; reflexivity|]. destruct S as [->|S]; [right; split; [reflexivity|exact H]|left; exact S]. }
  clear H S. destruct Q as [[m ->]|[-> H]].
  - destruct (stopped_cases sync m d text _ E N) as [A|[[A B]|[A B]]]; unfold catalog_read_file; rewrite A; try rewrite B; cbn [cf_bytes].
    + exists old, true. auto.
    + exists text, sync. auto.
    + exists text, sync. auto.
  - destruct H as [HM HI]. destruct (stopped_cases true n d text _ E N) as [A|[[A B]|[A B]]]; unfold catalog_read_file; rewrite A in HM; cbn in HM.
    + destruct (d_main d') as [x|]; [|contradiction]. subst x. exists old, true. auto.
    + destruct (d_main d') as [x|]; [contradiction|]. rewrite B in HI. cbn in HI. destruct (d_inc d') as [x|]; [|contradiction]. subst x. exists text, true. auto.
    + destruct (d_main d') as [x|]; [|contradiction]. subst x. exists text, true. auto.
Qed.
Print Assumptions C70_old_or_new_partial.

Lemma stopped_all sync d text n : text <> [] -> (length (catalog_write_ops sync d text) <= n)%nat -> stopped sync n d text = mkcd (Some (mkcf text sync)) None.
Proof.
  intros N L. unfold stopped. rewrite firstn_all2 by exact L. unfold catalog_write_ops. rewrite !fold_left_app.
  assert (fold_left fstep (if d_inc d then [UnlinkInc] else []) d = mkcd (d_main d) None) as -> by (destruct d as [a [b|]]; reflexivity).
  cbn [fold_left fstep d_main d_inc]. rewrite (fold_append (mkcf [] false)) by (try reflexivity; exact N). cbn [d_main cf_bytes app].
  destruct sync, (d_main d); reflexivity.
Qed.
(** A write that returns is what is read next. *)
Theorem C70_written sync d text n : text <> [] -> (length (catalog_write_ops sync d text) <= n)%nat ->
  catalog_read_file (stopped sync n d text) = Ok (mkcd (Some (mkcf text sync)) None, text).
Proof. intros N L. rewrite stopped_all by assumption. reflexivity. Qed.
Print Assumptions C70_written.

(** The same for catalogs: after a crash at any point of the write of the catalog [c2] over the file of [c1] the server starts
    with one of the two (in which dropped columns are back, see C69). *)
Theorem C70_restart_partial compiles g sd sync d c1 c2 t1 t2 d' :
  catalog_fine c1 -> catalog_fine c2 -> compile_in_order compiles (undrop_catalog c1) -> compile_in_order compiles (undrop_catalog c2) ->
  catalog_text g c1 = Ok t1 -> catalog_text g c2 = Ok t2 -> d_main d = Some (mkcf t1 true) ->
  after_crash sync d t2 d' -> (sync = true \/ exists n, d' = stopped sync n d t2) ->
  exists d2 t c, catalog_read_file d' = Ok (d2, t) /\ catalog_load compiles sd t = Ok (undrop_catalog c) /\ (c = c1 \/ c = c2).
Proof.
  intros F1 F2 K1 K2 T1 T2 E A S.
  destruct (restore_ok compiles c1 F1 K1) as (v1 & W1 & V1 & R1), (restore_ok compiles c2 F2 K2) as (v2 & W2 & V2 & R2).
  destruct (load_text compiles g sd c1 v1 W1 V1) as (t1' & X1 & L1), (load_text compiles g sd c2 v2 W2 V2) as (t2' & X2 & L2).
  rewrite X1 in T1. rewrite X2 in T2. injection T1 as ->. injection T2 as ->.
  assert (N : t2 <> []). { intros ->. rewrite R2 in L2. vm_compute in L2. discriminate. }
  destruct (C70_old_or_new_partial sync d t1 t2 d' E N A S) as (t & s & Rd & [-> | ->] & _); do 3 eexists; (split; [exact Rd|]).
  - split; [rewrite L1; exact R1|left; reflexivity].
  - split; [rewrite L2; exact R2|right; reflexivity].
Qed.
Print Assumptions C70_restart_partial.

(** FALSE of the code for the first catalog of a server (system/system/repo.c:31, 241: a directory
    that exists is not set up again): a crash during the write leaves a directory the server does not
    start with, or starts to read half of a file from. *)
Theorem C70_bootstrap_refuted sync text : (1 < length text)%nat ->
  catalog_read_file (stopped sync 0 (mkcd None None) text) = Err /\
  exists t, catalog_read_file (stopped sync 2 (mkcd None None) text) = Ok (mkcd (Some (mkcf t false)) None, t) /\ t <> text /\ t <> [].
Proof.
  intros H. split; [reflexivity|]. destruct text as [|a [|b text]]; cbn in H; try lia. exists [a]. split; [reflexivity|]. split; discriminate.
Qed.
Print Assumptions C70_bootstrap_refuted.
(** FALSE without the option catalog_sync when the machine stops: the file that replaced the old one
    may have any bytes. *)
Theorem C70_no_sync_refuted d old text : d_main d = Some (mkcf old true) -> text <> [] ->
  exists d', power_loss (stopped false (length (catalog_write_ops false d text)) d text) d' /\ catalog_read_file d' = Ok (d', []).
Proof.
  intros E N. exists (mkcd (Some (mkcf [] true)) None). rewrite stopped_all by (try exact N; lia). repeat split.
Qed.
Print Assumptions C70_no_sync_refuted.

Example C70_nonvacuous : exists n, catalog_read_file (stopped true n (mkcd (Some (mkcf [1; 2] true)) (Some (mkcf [9] false))) [3; 4; 5]) = Ok (mkcd (Some (mkcf [1; 2] true)) None, [1; 2]) /\
  d_inc (stopped true n (mkcd (Some (mkcf [1; 2] true)) (Some (mkcf [9] false))) [3; 4; 5]) = Some (mkcf [3; 4] false) /\
  catalog_read_file (stopped true 7 (mkcd (Some (mkcf [1; 2] true)) (Some (mkcf [9] false))) [3; 4; 5]) = Ok (mkcd (Some (mkcf [3; 4; 5] true)) None, [3; 4; 5]).
Proof. exists 4%nat. repeat split. Qed.
