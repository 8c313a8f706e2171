(** Properties C13, C15, C16, C17, C18, C20, C48 and C59: the write-ahead log. *)
From Verif Require Import Base CrcModel CrcProofs JsonModel JsonSpec WalModel WalSpec WalRecord WalFiles WalLog.
Local Open Scope nat_scope.

(** ** C13 *)
(** The record of a transaction is found in a file, is valid and has exactly the operations of
    the transaction in their order, wherever it is in the file. *)
Theorem C13_record_round_trip : forall wal_crc t lsn before after,
  txn_ok wal_crc t -> (0 <= lsn < 2 ^ 64)%Z ->
  let r := record_of wal_crc lsn t in
  (Z.of_nat (length (before ++ r ++ after)) < 2 ^ 32)%Z ->
  wal_file_pread (before ++ r ++ after) (length (before ++ r ++ after)) (length before) = Ok (Some r) /\
  (wal_crc = true -> record_validate r = Ok true) /\
  replay_all wal_crc r = Ok (concat t) /\
  exists h, read_header r = Ok h /\ h_lsn h = lsn /\ h_ops h = Z.of_nat (length (concat t)).
Proof.
  intros w t lsn A B Ht Hl r Hs. pose proof (txn_size w t Ht) as S. destruct (txn_good w lsn t Ht Hl) as [G _]. pose proof Ht as (F & _).
  split; [|split; [|split]].
  - apply (pread_good w r _ A B); auto; rewrite !app_length; lia.
  - intros ->. now apply record_validates.
  - now apply record_replays.
  - destruct (record_header w lsn t [] F Hl S) as (h & Hh & H1 & _ & H3). rewrite app_nil_r in Hh. eauto.
Qed.
Print Assumptions C13_record_round_trip.

Lemma decode_records w ts : forall k, Forall (txn_ok w) ts -> (Z.of_nat (k + length ts) < 2 ^ 64)%Z -> decode w (records w k ts) = Ok (numbered k ts).
Proof.
  induction ts as [|t ts IH]; intros k F R; [reflexivity|]. inversion F as [|? ? Ht F']; subst. cbn [length] in R. cbn [records decode numbered].
  pose proof (txn_size w t Ht) as S. pose proof Ht as (Fo & _). destruct (record_header w (Z.of_nat (Datatypes.S k)) t [] Fo ltac:(lia) S) as (h & Hh & H1 & _).
  rewrite app_nil_r in Hh. rewrite Hh. cbn [bind]. rewrite record_replays by (auto; lia). cbn [bind]. rewrite IH by (auto; lia). cbn [bind]. now rewrite H1.
Qed.
Lemma from_numbered ts : forall k (lsn : nat), from_lsn (Z.of_nat lsn) (numbered k ts) = numbered (Nat.max k (lsn - 1)) (skipn (lsn - 1 - k) ts).
Proof.
  induction ts as [|t ts IH]; intros k lsn; [now rewrite skipn_nil|]. unfold from_lsn in *. cbn [numbered filter].
  destruct (Z.leb_spec (Z.of_nat lsn) (Z.of_nat (S k))) as [H|H].
  - replace (lsn - 1 - k) with 0 by lia. replace (Nat.max k (lsn - 1)) with k by lia. cbn [skipn numbered]. rewrite IH. do 2 f_equal; [lia|]. now replace (lsn - 1 - S k) with 0 by lia.
  - rewrite IH. replace (lsn - 1 - k) with (S (lsn - 1 - S k)) by lia. cbn [skipn]. f_equal. lia.
Qed.
Lemma upto_numbered ts : forall k (lsn : nat), upto_lsn (Z.of_nat lsn) (numbered k ts) = numbered k (firstn (lsn - k) ts).
Proof.
  induction ts as [|t ts IH]; intros k lsn; [now rewrite firstn_nil|]. unfold upto_lsn in *. cbn [numbered filter].
  destruct (Z.leb_spec (Z.of_nat (S k)) (Z.of_nat lsn)) as [H|H].
  - replace (lsn - k) with (S (lsn - S k)) by lia. cbn [firstn numbered]. now rewrite IH.
  - replace (lsn - k) with 0 by lia. cbn [firstn numbered]. rewrite IH. now replace (lsn - S k) with 0 by lia.
Qed.
Lemma numbered_skip ts k d : numbered (k + d) (skipn d ts) = from_lsn (Z.of_nat (S (k + d))) (numbered k ts).
Proof. rewrite from_numbered. f_equal; [lia|]. f_equal. lia. Qed.

(** ** C48 *)
(** Whatever happened to the log: a restart replays the committed transactions with the lsns
    1, 2, 3, ... in their order without any gap, from the first file that gc has left on (its id
    is the lsn of its first transaction).  Failed
    writes are not part of it.  The lsn of the system is the one of the last transaction. *)
Theorem C48_lsns_gap_free : forall wal_crc w ts, run wal_crc w ts ->
  w_lsn w = Z.of_nat (length ts) /\
  exists first, id_min (w_files w) = Some first /\ (1 <= first <= w_lsn w + 1)%Z /\
    recover_ops wal_crc (w_files w) = Ok (from_lsn first (log_of ts)).
Proof.
  intros c w ts H. destruct (run_inv c w ts H) as [I Fi]. destruct (inv_facts c w ts I Fi) as (k & segs & N & F & Ef & Hk & Es & El & T & Lt & R & G).
  split; [exact El|]. exists (Z.of_nat (S k)). split; [rewrite Ef; destruct segs; [congruence|reflexivity]|]. split; [lia|]. unfold recover_ops. rewrite Ef, recover_layout by auto. cbn [bind].
  rewrite decode_records by auto. f_equal. rewrite <- Es. apply (numbered_skip ts 0 k).
Qed.
Print Assumptions C48_lsns_gap_free.
(** without gc nothing is lost: *)
Inductive no_gc_run (wal_crc : bool) : wal -> list txn -> Prop :=
| ngc_new : no_gc_run wal_crc (mkwal (wal_open []) 0) []
| ngc_step w ts e w' : no_gc_run wal_crc w ts -> event_ok wal_crc w e -> (forall s m, e <> EvGc s m) ->
    wal_step wal_crc w e = Ok w' -> fits w' -> no_gc_run wal_crc w' (ts ++ committed e).
Definition Inv0 (w : bool) (l : wal) (ts : list txn) : Prop :=
  exists segs, segs <> [] /\ w_files l = map phys (layout w 0 segs) /\ ts = concat segs.
Lemma ngc_run w l ts : no_gc_run w l ts -> run w l ts.
Proof. induction 1; econstructor; eauto. Qed.
Lemma ngc_first w l ts : no_gc_run w l ts -> id_min (w_files l) = Some 1%Z.
Proof.
  induction 1 as [|l ts e l' H IH Hok Hng Hs Hf]; [reflexivity|]. destruct e as [new|new k| |slots min|p]; cbn [wal_step] in Hs.
  - injection Hs as <-. unfold wal_write. destruct (wal_write_list _ _ _). cbn [w_files]. unfold append_last.
    destruct (snoc_cases (w_files l)) as [E|(r & [i f] & E)]; rewrite E in *; [discriminate|]. rewrite set_last_snoc. destruct r as [|[j g] r]; exact IH.
  - injection Hs as <-. now rewrite write_failed_id.
  - injection Hs as <-. unfold wal_rotate, wal_create. destruct (existsb _ _); [exact IH|]. cbn [w_files]. destruct (w_files l) as [|[i f] r]; [discriminate|exact IH].
  - exfalso. now apply (Hng slots min).
  - destruct (run_inv w l ts (ngc_run _ _ _ H)) as [I Fi]. rewrite (restart_same w l ts p I Fi Hok) in Hs. injection Hs as <-. exact IH.
Qed.
Theorem C48_nothing_lost_without_gc : forall wal_crc w ts, no_gc_run wal_crc w ts -> recover_ops wal_crc (w_files w) = Ok (log_of ts).
Proof.
  intros c w ts H. pose proof (ngc_first c w ts H) as M. destruct (run_inv c w ts (ngc_run _ _ _ H)) as [I Fi].
  destruct (inv_facts c w ts I Fi) as (k & segs & N & F & Ef & Hk & Es & El & T & Lt & R & G).
  assert (k = 0) as ->. { rewrite Ef in M. destruct segs as [|s segs]; [congruence|]. cbn [layout map id_min phys lf_id] in M. injection M as M. lia. }
  unfold recover_ops. rewrite Ef, recover_layout by auto. cbn [bind]. rewrite decode_records by auto. cbn [skipn] in Es. now rewrite <- Es.
Qed.
Print Assumptions C48_nothing_lost_without_gc.

(** ** C18 *)
(** Opening the log at an lsn that its files cover (the first file is not newer) and reading
    to the end gives exactly the committed transactions from this lsn on. *)
Theorem C18_cursor_partial : forall wal_crc w ts lsn first, run wal_crc w ts ->
  id_min (w_files w) = Some first -> (first <= lsn)%Z ->
  read_ops wal_crc (w_files w) lsn = Ok (from_lsn lsn (log_of ts)).
Proof.
  intros c w ts lsn first H Hm Hl. destruct (run_inv c w ts H) as [I Fi]. destruct (inv_facts c w ts I Fi) as (k & segs & N & F & Ef & Hk & Es & El & T & Lt & R & G).
  assert (first = Z.of_nat (S k)) as ->. { rewrite Ef in Hm. destruct segs as [|s segs]; [congruence|]. cbn [layout map id_min phys lf_id] in Hm. now injection Hm. }
  replace lsn with (Z.of_nat (Z.to_nat lsn)) by lia. unfold read_ops. rewrite Ef, read_from_layout by (auto; lia). cbn [bind].
  assert (skipn (Z.to_nat lsn - 1 - k) (concat segs) = skipn (Z.to_nat lsn - 1) ts) as E by (rewrite <- Es, skipn_skipn; f_equal; lia). rewrite E.
  replace (Nat.max k (Z.to_nat lsn - 1)) with (Z.to_nat lsn - 1) by lia.
  assert (Forall (txn_ok c) (skipn (Z.to_nat lsn - 1) ts)) as T'.
  { rewrite <- E. rewrite <- (firstn_skipn (Z.to_nat lsn - 1 - k) (concat segs)) in T. now apply Forall_app in T as [_ T]. }
  destruct (le_lt_dec (Z.to_nat lsn - 1) (length ts)) as [Hle|Hgt].
  - rewrite decode_records by (auto; rewrite skipn_length; lia). f_equal. unfold log_of. rewrite from_numbered. rewrite Nat.sub_0_r. reflexivity.
  - rewrite skipn_all2 by lia. cbn. f_equal. unfold log_of. rewrite from_numbered. rewrite skipn_all2 by lia. reflexivity.
Qed.
Print Assumptions C18_cursor_partial.

(** ** C17 *)
(** gc with the lsn [min] of the checkpoints: all transactions with an lsn not below [min] and
    not below the position of any replication slot are still readable. *)
Lemma wal_slots_max slots : forall min, wal_slots slots min = fold_left Z.max slots min.
Proof. unfold wal_slots. induction slots as [|s l IH]; intros min; [reflexivity|]. cbn [fold_left]. rewrite IH. f_equal. destruct (Z.ltb_spec min s); lia. Qed.
Theorem C17_gc_partial : forall wal_crc w ts slots min lsn first, run wal_crc w ts ->
  id_min (w_files w) = Some first -> (first <= lsn)%Z ->
  (min <= lsn)%Z -> Forall (fun s => (s <= lsn)%Z) slots ->
  read_ops wal_crc (w_files (wal_gc w slots min)) lsn = Ok (from_lsn lsn (log_of ts)).
Proof.
  intros c w ts slots min lsn first H Hm Hl Hmin Hs. destruct (run_inv c w ts H) as [I Fi].
  assert (run c (wal_gc w slots min) ts) as H'.
  { rewrite <- (app_nil_r ts). apply (run_step c w ts (EvGc slots min)); cbn; auto. destruct Fi as [F1 F2]. split; [exact F1|]. cbn [wal_gc w_files].
    clear - F2. induction (w_files w) as [|a [|[i f] l] IH]; try exact F2. cbn [gc_between]. destruct (_ <=? _)%Z; [|exact F2]. apply IH. now inversion F2. }
  destruct (inv_facts c w ts I Fi) as (k & segs & N & F & Ef & Hk & Es & El & T & Lt & R & G).
  destruct (gc_layout c segs (wal_slots slots min) k N F) as (d & segs' & N' & F' & E & Hd & E2 & Hid).
  assert (first = Z.of_nat (S k)) as ->. { rewrite Ef in Hm. destruct segs as [|s segs]; [congruence|]. cbn [layout map id_min phys lf_id] in Hm. now injection Hm. }
  apply (C18_cursor_partial c _ ts lsn (Z.of_nat (S (k + d))) H').
  - cbn [wal_gc w_files]. rewrite Ef, E. destruct segs' as [|s l]; [congruence|reflexivity].
  - destruct Hid as [->|Hid]; [lia|]. rewrite wal_slots_max in Hid.
    assert (fold_left Z.max slots min <= lsn)%Z; [|lia]. clear - Hmin Hs. revert min Hmin. induction Hs as [|s l Hs F IH]; intros min Hmin; [exact Hmin|]. cbn [fold_left]. apply IH. lia.
Qed.
Print Assumptions C17_gc_partial.

(** ** C15 *)
Lemma complete_split rs : forall k, Forall (fun r => 24 < length r) rs -> exists t, firstn k (concat rs) = concat (firstn (complete k rs) rs) ++ t /\
  (t = [] \/ exists r q, nth_error rs (complete k rs) = Some r /\ r = t ++ q /\ q <> []).
Proof.
  induction rs as [|r rs IH]; intros k F; [exists []; rewrite firstn_nil; cbn; auto|]. inversion F as [|? ? Hr F']; subst. cbn [concat complete].
  destruct (Nat.leb_spec (length r) k) as [H|H].
  - destruct (IH (k - length r) F') as (t & E & Ht). exists t. cbn [firstn concat nth_error]. rewrite firstn_app, E, (firstn_all2 (n := k)) by lia. rewrite <- app_assoc. auto.
  - exists (firstn k r). cbn [firstn concat app nth_error]. split; [rewrite firstn_app; replace (k - length r) with 0 by lia; now rewrite app_nil_r|].
    right. exists r, (skipn k r). rewrite firstn_skipn. repeat split; auto. intros E. apply (f_equal (@length _)) in E. rewrite skipn_length in E. cbn in E. lia.
Qed.
(** A crash while a batch is written, after any number of its bytes: the restart replays the
    transactions that were committed before and those of the batch that are complete. *)
Lemma firstn_records c ts : forall n m, firstn m (records c n ts) = records c n (firstn m ts).
Proof. induction ts as [|t ts IH]; intros n [|m]; cbn; auto. now rewrite IH. Qed.
Lemma crash_layout c w ts (new : list txn) k : Inv c w ts -> fits w -> Forall (txn_ok c) new -> fits (wal_write c w (map (make_write c) new)) ->
  exists L, L <> [] /\ wal_crash c w (map (make_write c) new) k = map phys L /\ ids_sorted L /\ Forall (file_good c) L /\ Forall after_id L /\
  exists d, d <= length ts /\ id_min (w_files w) = Some (Z.of_nat (S d)) /\ all_recs L = records c d (skipn d (ts ++ complete_txns c (length ts) k new)) /\
  exists a s t, L = layout c d a ++ [mklfile (Z.of_nat (S (d + length (concat a)))) (records c (d + length (concat a)) s) t] /\
    full_segs (a ++ [s]) /\ concat a ++ s = skipn d (ts ++ complete_txns c (length ts) k new).
Proof.
  intros I Fi Gn Fi2. pose proof (inv_write c w ts new I Gn) as I2.
  destruct (inv_facts c w ts I Fi) as (d & segs & N & F & Ef & Hd & Es & El & T & Lt & R & G).
  destruct Fi2 as [R2 FF2]. unfold wal_crash. rewrite El, write_list_bytes. cbn [fst].
  assert (Z.of_nat (length ts + length new) < 2 ^ 64)%Z as Rn.
  { unfold wal_write in R2. rewrite El, write_list_bytes in R2. cbn [w_lsn] in R2. exact R2. }
  set (rs := records c (length ts) new). pose proof (records_good c new (length ts) Gn Rn) as Grs. fold rs in Grs.
  destruct (complete_split rs k) as (t & Et & Ht); [revert Grs; apply Forall_impl; intros r Hr; apply Hr|].
  set (m := complete k rs) in *. destruct (segs_last segs N) as (a & s & ->).
  rewrite concat_app in Es. cbn [concat] in Es. rewrite app_nil_r in Es. rewrite concat_app, app_length in Lt, R. cbn [concat] in Lt, R. rewrite app_nil_r in Lt, R.
  pose (f := mklfile (Z.of_nat (S (d + length (concat a)))) (records c (d + length (concat a)) (s ++ firstn m new)) t).
  exists (layout c d a ++ [f]).
  assert (map phys (layout c d a ++ [f]) = append_last (w_files w) (firstn k (concat rs))) as EL.
  { rewrite Ef, Et. unfold append_last. rewrite layout_app, !map_app. cbn [layout map]. rewrite set_last_snoc. do 2 f_equal.
    unfold f, phys. cbn [lf_id lf_recs lf_tail]. rewrite app_nil_r, records_app, concat_app, <- app_assoc. do 3 f_equal. unfold rs. rewrite firstn_records. do 3 f_equal. lia. }
  assert (all_recs (layout c d a ++ [f]) = records c d (skipn d (ts ++ firstn m new))) as ER.
  { unfold all_recs. rewrite flat_map_app. fold (all_recs (layout c d a)). rewrite all_recs_layout. cbn [flat_map f lf_recs]. rewrite app_nil_r, <- records_app.
    rewrite skipn_snoc by lia. rewrite Es, <- app_assoc. reflexivity. }
  split; [now destruct (layout c d a)|]. split; [now rewrite EL|].
  assert (ids_sorted (layout c d a ++ [f])) as So.
  { pose proof (layout_sorted c (a ++ [s]) d F) as So. rewrite layout_app in So. cbn [layout] in So. clear - So. set (g := mklfile _ (records c _ s) _) in So.
    assert (lf_id g = lf_id f) as E by reflexivity. clearbody g f. induction (layout c d a) as [|x l IH]; cbn [app ids_sorted] in *; [split; [intros ? []|exact I]|]. destruct So as [S1 S2]. split; [|now apply IH].
    intros y Hy. apply in_app_or in Hy as [Hy|[<-|[]]]; [apply S1; apply in_or_app; now left|]. rewrite <- E. apply S1. apply in_or_app. right. now left. }
  split; [exact So|].
  assert (Forall (file_good c) (layout c d a)) as Ga by (rewrite layout_app in G; now apply Forall_app in G as [G _]).
  (* the complete write *)
  assert (w_files (wal_write c w (map (make_write c) new)) = map phys (layout c d (a ++ [s ++ new]))) as Ew.
  { unfold wal_write. rewrite El, write_list_bytes. cbn [w_files]. rewrite Ef. apply append_last_layout. do 2 f_equal. lia. }
  rewrite Ew, layout_app, map_app in FF2. apply Forall_app in FF2 as [_ FF2]. cbn [layout map] in FF2. inversion FF2 as [|? ? FFl _]; subst.
  unfold phys in FFl. cbn [lf_id lf_recs lf_tail] in FFl. rewrite app_nil_r, records_app, concat_app, app_length in FFl.
  replace (d + length (concat a) + length s) with (length ts) in FFl by lia. fold rs in FFl.
  assert (Forall (txn_ok c) (s ++ firstn m new)) as Ts.
  { apply Forall_app. split; [|rewrite <- (firstn_skipn m new) in Gn; now apply Forall_app in Gn as [Gn _]].
    rewrite concat_app in T. cbn [concat] in T. rewrite app_nil_r in T. now apply Forall_app in T as [_ T]. }
  assert (length (firstn m new) <= length new) as Lm by (rewrite firstn_length; lia).
  split.
  { apply Forall_app. split; [exact Ga|]. constructor; [|constructor]. unfold file_good, f. cbn [lf_recs lf_tail].
    split; [apply records_good; [exact Ts|rewrite app_length; lia]|].
    assert (concat (records c (d + length (concat a)) (s ++ firstn m new)) = concat (records c (d + length (concat a)) s) ++ concat (firstn m rs)) as Ecr.
    { rewrite records_app, concat_app. do 2 f_equal. unfold rs. rewrite firstn_records. f_equal. lia. }
    assert (length (firstn k (concat rs)) <= length (concat rs)) as Lk by (rewrite firstn_length; lia). rewrite Et, app_length in Lk.
    split.
    - destruct Ht as [->|(r & q & Hr & Er & Nq)]; [now left|]. right. exists r, q. rewrite Forall_forall in Grs. split; [apply Grs; now apply nth_error_In in Hr|]. split; [exact Er|]. split; [exact Nq|].
      apply nth_error_split in Hr as (r1 & r2 & E12 & Lr1).
      assert (firstn m rs = r1) as Efm by (rewrite E12, <- Lr1, firstn_app, firstn_all, Nat.sub_diag; apply app_nil_r).
      rewrite Ecr, Efm, app_length. rewrite E12, concat_app, app_length in FFl. cbn [concat] in FFl. rewrite app_length in FFl. lia.
    - unfold phys. cbn [snd lf_recs lf_tail]. rewrite Ecr, !app_length. lia. }
  split; [|exists d; split; [exact Hd|split; [rewrite Ef; destruct a; reflexivity|split; [exact ER|]]]].
  2:{ exists a, (s ++ firstn m new), t. split; [reflexivity|]. split; [now apply (full_segs_app a s)|]. unfold complete_txns. fold rs. fold m. rewrite skipn_snoc by lia. now rewrite Es, <- app_assoc. }
  apply Forall_app. split.
  - apply Forall_forall. intros g Hg. rewrite concat_app in T. cbn [concat] in T. rewrite app_nil_r in T. apply Forall_app in T as [Ta _]. apply (layout_after c d a Ta ltac:(lia) g Hg).
  - constructor; [|constructor]. apply (layout_after c (d + length (concat a)) [s ++ firstn m new]) with (g := mklfile (lf_id f) (lf_recs f) []); cbn [concat]; rewrite ?app_nil_r; [exact Ts|rewrite app_length; lia|now left].
Qed.
Theorem C15_crash_recovery : forall wal_crc w ts (batch : list txn) k, run wal_crc w ts -> Forall (txn_ok wal_crc) batch ->
  fits (wal_write wal_crc w (map (make_write wal_crc) batch)) ->
  exists first, id_min (w_files w) = Some first /\ (1 <= first <= w_lsn w + 1)%Z /\
    recover_ops wal_crc (wal_open (wal_crash wal_crc w (map (make_write wal_crc) batch) k)) =
      Ok (from_lsn first (log_of (ts ++ complete_txns wal_crc (length ts) k batch))).
Proof.
  intros c w ts new k H Gn Fi2. destruct (run_inv c w ts H) as [I Fi].
  destruct (crash_layout c w ts new k I Fi Gn Fi2) as (L & N & EL & So & G & A & d & Hd & Hm & ER & _).
  exists (Z.of_nat (S d)). split; [exact Hm|]. split; [destruct I as (_ & _ & _ & _ & _ & _ & _ & El & _); lia|]. unfold recover_ops. rewrite EL.
  assert (wal_open (map phys L) = map phys L) as -> by (destruct L; [congruence|reflexivity]). rewrite recover_general by auto. cbn [bind]. rewrite ER.
  assert (Forall (txn_ok c) (skipn d (ts ++ complete_txns c (length ts) k new))) as T.
  { destruct I as (_ & _ & _ & _ & _ & _ & _ & _ & Tt). assert (Forall (txn_ok c) (ts ++ complete_txns c (length ts) k new)) as T.
    - apply Forall_app. split; [exact Tt|]. unfold complete_txns. rewrite <- (firstn_skipn (complete k (records c (length ts) new)) new) in Gn. now apply Forall_app in Gn as [Gn _].
    - rewrite <- (firstn_skipn d) in T. now apply Forall_app in T as [_ T]. }
  rewrite decode_records; [f_equal; apply (numbered_skip _ 0 d)|exact T|].
  destruct I as (_ & _ & _ & _ & _ & _ & _ & El & _). destruct Fi2 as [R2 _]. unfold wal_write in R2. rewrite El, write_list_bytes in R2. cbn [w_lsn] in R2.
  rewrite skipn_length, app_length. unfold complete_txns. rewrite firstn_length. lia.
Qed.
Print Assumptions C15_crash_recovery.

(** ** C59 *)
Lemma id_find_ext fs : forall gs v o, map fst fs = map fst gs -> id_find fs v o = id_find gs v o.
Proof. induction fs as [|[i f] fs IH]; intros [|[j g] gs] v o E; cbn in *; try discriminate; [reflexivity|]. injection E as -> E. now rewrite (IH gs). Qed.
Lemma lsn_sorted_records c ts : forall k, Forall (txn_ok c) ts -> (Z.of_nat (k + length ts) < 2 ^ 64)%Z -> lsn_sorted (records c k ts) /\ Forall (fun r => (Z.of_nat k < rec_lsn r)%Z) (records c k ts).
Proof.
  induction ts as [|t ts IH]; intros k F R; [split; [exact I|constructor]|]. inversion F as [|? ? Ht F']; subst. cbn [length] in R. cbn [records lsn_sorted].
  destruct (IH (S k) F' ltac:(lia)) as [I1 I2]. destruct (txn_good c (Z.of_nat (S k)) t Ht ltac:(lia)) as [_ El]. rewrite El. split; [split; auto|].
  constructor; [lia|]. revert I2. apply Forall_impl. intros r Hr. lia.
Qed.
Lemma upto_records c ts : forall k (lsn : nat), Forall (txn_ok c) ts -> (Z.of_nat (k + length ts) < 2 ^ 64)%Z -> upto (Z.of_nat lsn) (records c k ts) = records c k (firstn (lsn - k) ts).
Proof.
  induction ts as [|t ts IH]; intros k lsn F R; [now rewrite firstn_nil|]. inversion F as [|? ? Ht F']; subst. cbn [length] in R. unfold upto in *. cbn [records filter].
  destruct (txn_good c (Z.of_nat (S k)) t Ht ltac:(lia)) as [_ El]. rewrite El. rewrite IH by (auto; lia).
  destruct (Z.leb_spec (Z.of_nat (S k)) (Z.of_nat lsn)).
  - replace (lsn - k) with (S (lsn - S k)) by lia. reflexivity.
  - replace (lsn - k) with 0 by lia. now replace (lsn - S k) with 0 by lia.
Qed.
Lemma truncate_files_phys L1 : forall f L2 off, ids_sorted (L1 ++ f :: L2) ->
  truncate_files (map phys (L1 ++ f :: L2)) (lf_id f) off = map phys L1 ++ [(lf_id f, firstn off (snd (phys f)))].
Proof.
  induction L1 as [|g L1 IH]; intros f L2 off S; cbn [app map truncate_files].
  - unfold phys at 1. rewrite Z.eqb_refl. reflexivity.
  - unfold phys at 1. destruct S as [S1 S2]. assert (lf_id g < lf_id f)%Z by (apply S1; apply in_or_app; right; now left).
    replace (_ =? _)%Z with false by lia. rewrite IH by exact S2. reflexivity.
Qed.
Lemma full_segs_prefix a : forall s b s', full_segs (a ++ s :: b) -> full_segs (a ++ [s']).
Proof.
  induction a as [|x a IH]; intros s b s' F; [exact I|]. cbn [app] in *. destruct a as [|y a]; cbn [app full_segs] in *; [tauto|]. destruct F as [F1 F2]. split; [exact F1|]. now apply (IH s b).
Qed.
Lemma truncate_layout c d a s t (lsn : nat) : full_segs (a ++ [s]) -> Forall (txn_ok c) (concat a ++ s) -> (Z.of_nat (d + length (concat a ++ s)) < 2 ^ 64)%Z ->
  let L := layout c d a ++ [mklfile (Z.of_nat (S (d + length (concat a)))) (records c (d + length (concat a)) s) t] in
  Forall (file_good c) L -> ids_sorted L -> d < lsn ->
  exists a2 s2, full_segs (a2 ++ [s2]) /\ wal_truncate (map phys L) (Z.of_nat lsn) c = Ok (map phys (layout c d (a2 ++ [s2]))) /\ concat a2 ++ s2 = firstn (lsn - d) (concat a ++ s).
Proof.
  intros F T R L G So Hl. destruct (id_find_split c (a ++ [s]) d lsn ltac:(now destruct a) F Hl) as (a1 & s1 & b1 & E & Ei & H1 & H2).
  assert (id_find (map phys L) (Z.of_nat lsn) None = Some (Z.of_nat (S (d + length (concat a1))))) as Ef.
  { rewrite <- Ei. apply id_find_ext. unfold L. rewrite layout_app, !map_app. reflexivity. }
  (* the file in L *)
  assert (exists t1 L2, L = layout c d a1 ++ mklfile (Z.of_nat (S (d + length (concat a1)))) (records c (d + length (concat a1)) s1) t1 :: L2) as (t1 & L2 & EL).
  { destruct (segs_last (s1 :: b1) ltac:(discriminate)) as (b2 & s2 & Eb). rewrite Eb, app_assoc in E. apply app_inj_tail in E as [E ->].
    destruct b2 as [|x b2]; cbn [app] in Eb.
    - injection Eb as -> ->. rewrite app_nil_r in E. subst a1. exists t, []. reflexivity.
    - injection Eb as -> ->. exists [], (layout c (d + length (concat a1) + length x) b2 ++ [mklfile (Z.of_nat (S (d + length (concat a)))) (records c (d + length (concat a)) s2) t]).
      unfold L. rewrite E, layout_app, <- app_assoc. cbn [layout]. reflexivity. }
  set (f := mklfile _ (records c (d + length (concat a1)) s1) t1) in EL.
  assert (concat a ++ s = concat a1 ++ s1 ++ concat b1) as Ec.
  { assert (concat (a ++ [s]) = concat a ++ s) as <- by (rewrite concat_app; cbn; now rewrite app_nil_r). rewrite E, concat_app. reflexivity. }
  rewrite Ec in T, R. apply Forall_app in T as [Ta T]. apply Forall_app in T as [Ts _]. rewrite !app_length in R.
  assert (file_good c f) as Gf by (rewrite Forall_forall in G; apply G; rewrite EL; apply in_or_app; right; now left).
  exists a1, (firstn (lsn - (d + length (concat a1))) s1). split; [rewrite E in F; now apply (full_segs_prefix a1 s1 b1)|]. split.
  - unfold wal_truncate. replace (_ =? 0)%Z with false by lia. rewrite Ef.
    change (Z.of_nat (S (d + length (concat a1)))) with (lf_id f). rewrite (file_of_phys L _ f L2 EL So). cbn [bind].
    pose proof (truncate_offset_spec c f (Z.of_nat lsn) (lf_recs f) Gf [] (S (length (snd (phys f)))) eq_refl) as TO. cbn [concat length app] in TO.
    rewrite TO.
    + cbn [bind]. rewrite EL, truncate_files_phys by (rewrite <- EL; exact So). rewrite layout_app, map_app. cbn [layout map]. do 3 f_equal. unfold phys at 2. cbn [lf_id lf_recs lf_tail]. rewrite app_nil_r.
      change (lf_recs f) with (records c (d + length (concat a1)) s1).
      assert (upto (Z.of_nat lsn) (records c (d + length (concat a1)) s1) = records c (d + length (concat a1)) (firstn (lsn - (d + length (concat a1))) s1)) as -> by (apply upto_records; [exact Ts|lia]).
      unfold f at 1 2. cbn [lf_id]. f_equal. cbn [phys snd f lf_recs lf_tail].
      rewrite <- (firstn_skipn (lsn - (d + length (concat a1))) s1) at 2. rewrite records_app, concat_app, <- app_assoc.
      rewrite firstn_app, firstn_all, Nat.sub_diag. cbn [firstn]. apply app_nil_r.
    + apply lsn_sorted_records; [exact Ts|lia].
    + destruct Gf as (Gr & _). cbn [f phys snd lf_recs]. rewrite app_length. assert (length (records c (d + length (concat a1)) s1) <= length (concat (records c (d + length (concat a1)) s1))); [|lia].
      change (lf_recs f) with (records c (d + length (concat a1)) s1) in Gr. clear - Gr. induction Gr as [|r l Gr F IH]; cbn; [lia|]. rewrite app_length. destruct Gr. lia.
  - rewrite Ec. rewrite firstn_app, (firstn_all2 (n := lsn - d) (concat a1)) by lia. f_equal. rewrite firstn_app.
    replace (lsn - d - length (concat a1)) with (lsn - (d + length (concat a1))) by lia.
    destruct H2 as [H2| ->]; [|cbn; now rewrite firstn_nil, app_nil_r]. replace (lsn - (d + length (concat a1)) - length s1) with 0 by lia. cbn. now rewrite app_nil_r.
Qed.
(** The truncation of a log at an lsn, also of a log whose last write was interrupted: exactly
    the transactions up to this lsn are left, and the log is as if nothing else had ever been
    written: all later commits survive. *)
Definition crashed (wal_crc : bool) (w : wal) (batch : list txn) (k : nat) : wal_files := wal_crash wal_crc w (map (make_write wal_crc) batch) k.
Lemma truncate_inv c w ts (new : list txn) k (lsn : nat) first : run c w ts -> Forall (txn_ok c) new ->
  fits (wal_write c w (map (make_write c) new)) -> id_min (w_files w) = Some first -> (first <= Z.of_nat lsn)%Z -> (Z.of_nat lsn < 2 ^ 64)%Z ->
  let kept := firstn lsn (ts ++ complete_txns c (length ts) k new) in
  exists fs, wal_truncate (crashed c w new k) (Z.of_nat lsn) c = Ok fs /\ Inv c (mkwal fs (Z.of_nat (length kept))) kept /\ fits (mkwal fs (Z.of_nat (length kept))) /\ id_min fs = Some first.
Proof.
  intros H Gn Fi2 Hm Hl R64 kept. destruct (run_inv c w ts H) as [I Fi].
  destruct (crash_layout c w ts new k I Fi Gn Fi2) as (L & N & EL & So & G & A & d & Hd & Hm' & ER & a & s & t & El & F & Ec).
  rewrite Hm' in Hm. injection Hm as <-. set (all := ts ++ complete_txns c (length ts) k new) in *.
  assert (Forall (txn_ok c) all) as Tall.
  { destruct I as (_ & _ & _ & _ & _ & _ & _ & _ & Tt). apply Forall_app. split; [exact Tt|]. unfold complete_txns. rewrite <- (firstn_skipn (complete k (records c (length ts) new)) new) in Gn. now apply Forall_app in Gn as [Gn _]. }
  assert (Z.of_nat (length all) < 2 ^ 64)%Z as Rall.
  { destruct I as (_ & _ & _ & _ & _ & _ & _ & E & _). destruct Fi2 as [R2 _]. unfold wal_write in R2. rewrite E, write_list_bytes in R2. cbn [w_lsn] in R2.
    unfold all, complete_txns. rewrite app_length, firstn_length. lia. }
  assert (length (concat a ++ s) = length all - d) as Lc by (rewrite Ec, skipn_length; lia).
  assert (d <= length all) as Hda by (unfold all; rewrite app_length; lia).
  destruct (truncate_layout c d a s t lsn F) as (a2 & s2 & F2 & Et & Ec2); [rewrite Ec; rewrite <- (firstn_skipn d) in Tall; now apply Forall_app in Tall as [_ Tall]|lia|now rewrite <- El|now rewrite <- El|lia|].
  rewrite <- El in Et. exists (map phys (layout c d (a2 ++ [s2]))). unfold crashed. rewrite EL. split; [exact Et|].
  assert (skipn d kept = concat (a2 ++ [s2])) as Es.
  { rewrite concat_app. cbn. rewrite app_nil_r, Ec2, Ec. unfold kept. rewrite skipn_firstn_comm. reflexivity. }
  assert (d <= length kept) as Hk by (unfold kept; rewrite firstn_length; lia).
  assert (Forall (txn_ok c) kept) as Tk by (unfold kept; rewrite <- (firstn_skipn lsn) in Tall; now apply Forall_app in Tall as [Tall _]).
  split; [exists d, (a2 ++ [s2]); cbn [w_files w_lsn]; repeat split; auto; now destruct a2|]. split; [|destruct a2; reflexivity].
  split; cbn [w_lsn w_files]; [unfold kept; rewrite firstn_length; lia|].
  (* every file is a prefix of a file of the crashed log *)
  unfold wal_truncate in Et. replace (_ =? 0)%Z with false in Et by lia. destruct (match id_find _ _ _ with None => _ | i => i end) as [id|]; [|discriminate].
  destruct (file_of (map phys L) id) as [f| |]; try discriminate. cbn [bind] in Et. destruct (truncate_offset _ _ _ _ _) as [off| |]; try discriminate. cbn [bind] in Et. injection Et as <-.
  assert (Forall (fun '(_, f) => (Z.of_nat (length f) + 24 < 2 ^ 32)%Z) (map phys L)) as GL.
  { apply Forall_forall. intros [i g] Hg. apply in_map_iff in Hg as (x & Ex & Hx). rewrite Forall_forall in G. destruct (G x Hx) as (_ & _ & S). rewrite Ex in S. exact S. }
  clear - GL. induction (map phys L) as [|[i g] l IH]; cbn; [constructor|]. inversion GL as [|? ? H1 H2]; subst. destruct (_ =? _)%Z; constructor; auto. rewrite firstn_length. lia.
Qed.
Theorem C59_truncate : forall wal_crc w ts (batch : list txn) k (lsn : nat) first, run wal_crc w ts -> Forall (txn_ok wal_crc) batch ->
  fits (wal_write wal_crc w (map (make_write wal_crc) batch)) ->
  id_min (w_files w) = Some first -> (first <= Z.of_nat lsn < 2 ^ 64)%Z ->
  let kept := firstn lsn (ts ++ complete_txns wal_crc (length ts) k batch) in
  exists fs, wal_truncate (crashed wal_crc w batch k) (Z.of_nat lsn) wal_crc = Ok fs /\
    recover_ops wal_crc fs = Ok (from_lsn first (log_of kept)).
Proof.
  intros c w ts new k lsn first H Gn Fi2 Hm [Hl R64] kept. destruct (truncate_inv c w ts new k lsn first H Gn Fi2 Hm Hl R64) as (fs & Et & I & Fi & Hm2). exists fs. split; [exact Et|].
  fold kept in I, Fi. destruct (inv_facts c _ _ I Fi) as (d & segs & N & F & Ef & Hk & Es & El & T & Lt & R & G). cbn [w_files] in Ef.
  assert (first = Z.of_nat (S d)) as ->. { rewrite Ef in Hm2. destruct segs as [|s segs]; [congruence|]. cbn [layout map id_min phys lf_id] in Hm2. now injection Hm2. }
  unfold recover_ops. rewrite Ef, recover_layout by auto. cbn [bind]. rewrite decode_records by auto. f_equal. rewrite <- Es. apply (numbered_skip _ 0 d).
Qed.
Print Assumptions C59_truncate.

(** ** C16 *)
(** Full statement: after a crash inside of a write, a restart and new commits, the next restart
    replays all of them.  It is false (below).  It holds if the log is truncated at the last
    recovered lsn when it is opened (option wal_truncate), which removes the rest of the
    interrupted write. *)
Theorem C16_truncated_partial : forall wal_crc w ts (batch later : list txn) k first, run wal_crc w ts ->
  Forall (txn_ok wal_crc) batch -> Forall (txn_ok wal_crc) later ->
  fits (wal_write wal_crc w (map (make_write wal_crc) batch)) ->
  id_min (w_files w) = Some first ->
  let kept := ts ++ complete_txns wal_crc (length ts) k batch in
  (first <= Z.of_nat (length kept))%Z ->
  exists fs, wal_truncate (crashed wal_crc w batch k) (Z.of_nat (length kept)) wal_crc = Ok fs /\
    (fits (wal_write wal_crc (mkwal fs (Z.of_nat (length kept))) (map (make_write wal_crc) later)) ->
     recover_ops wal_crc (w_files (wal_write wal_crc (mkwal fs (Z.of_nat (length kept))) (map (make_write wal_crc) later))) =
       Ok (from_lsn first (log_of (kept ++ later)))).
Proof.
  intros c w ts new later k first H Gn Gl Fi2 Hm kept Hf.
  assert (Z.of_nat (length kept) < 2 ^ 64)%Z as R64.
  { destruct (run_inv c w ts H) as [(_ & _ & _ & _ & _ & _ & _ & E & _) _]. destruct Fi2 as [R2 _]. unfold wal_write in R2. rewrite E, write_list_bytes in R2. cbn [w_lsn] in R2.
    unfold kept, complete_txns. rewrite app_length, firstn_length. lia. }
  destruct (truncate_inv c w ts new k (length kept) first H Gn Fi2 Hm Hf R64) as (fs & Et & I & Fi & Hm2). exists fs. split; [exact Et|].
  fold kept in I, Fi. rewrite firstn_all in I, Fi. intros Fi3. pose proof (inv_write c _ _ later I Gl) as I2.
  destruct (inv_facts c _ _ I2 Fi3) as (d & segs & N & F & Ef & Hk & Es & El & T & Lt & R & G).
  assert (first = Z.of_nat (S d)) as ->.
  { assert (id_min (w_files (wal_write c (mkwal fs (Z.of_nat (length kept))) (map (make_write c) later))) = Some first) as Hm3.
    { unfold wal_write. destruct (wal_write_list _ _ _). cbn [w_files]. unfold append_last.
      destruct (snoc_cases fs) as [E|(r & [i f] & E)]; rewrite E in *; [discriminate|]. rewrite set_last_snoc. destruct r as [|[j g] r]; exact Hm2. }
    rewrite Ef in Hm3. destruct segs as [|s segs]; [congruence|]. cbn [layout map id_min phys lf_id] in Hm3. now injection Hm3. }
  unfold recover_ops. rewrite Ef, recover_layout by auto. cbn [bind]. rewrite decode_records by auto. f_equal. rewrite <- Es. apply (numbered_skip _ 0 d).
Qed.
Print Assumptions C16_truncated_partial.

(** ** C20 *)
(** Full statement: a command that is skipped does not change what is replayed of the others.
    It is false for schema changes (below).  For transactions of row operations it holds:
    skipping the commands of some tables gives exactly the operations of the other tables. *)
Theorem C20_rows_partial : forall wal_crc t lsn (skip : list Z -> bool),
  txn_ok wal_crc t -> Forall is_row (concat t) -> (0 <= lsn < 2 ^ 64)%Z ->
  replay_record (fun c _ => skip (c_id c)) wal_crc (record_of wal_crc lsn t) =
    Ok (filter (fun o => match o with WRow _ id _ => negb (skip id) | WDdl _ _ => true end) (concat t)).
Proof. intros c t lsn skip Ht Fr R. apply (record_skips skip c lsn t); auto; [apply Ht|now apply txn_size]. Qed.
Print Assumptions C20_rows_partial.

(** ** examples *)
Local Open Scope Z_scope.
Definition ex_id (n : Z) : list Z := n :: repeat 1 15.
(** a row of 5 bytes: header, number of columns, size *)
Definition ex_row (x : Z) : list Z := [0; 1; 0; 5; x].
Definition ex_txn (x : Z) : txn := [[WRow CMD_REPLACE (ex_id 1) (ex_row x); WRow CMD_REPLACE (ex_id 1) (ex_row 3)]; [WRow CMD_DELETE (ex_id 2) (ex_row x)]].
Lemma ex_txn_ok c x : 0 <= x < 256 -> txn_ok c (ex_txn x).
Proof.
  intros Hx. assert (row_ok (ex_row x)) as R1 by (split; [cbn; unfold byte_ok; lia|split; [cbn; lia|reflexivity]]).
  assert (row_ok (ex_row 3)) as R2 by (split; [reflexivity|split; [cbn; lia|reflexivity]]).
  split; [|split; [discriminate|]].
  - assert (forall n, 0 <= n < 256 -> bytes_ok (ex_id n) = true) as Bi by (intros n Hn; cbn; unfold byte_ok; lia).
    repeat (apply Forall_cons || apply Forall_nil); (split; [tauto|]); (split; [reflexivity|]); (split; [apply Bi; lia|assumption]).
  - unfold record_of, write_bytes. rewrite !app_length, header_length. unfold ex_txn, make_write, make_log, ex_row, ex_id. cbn [fold_left add_op write_log_add]. cbn. lia.
Qed.
Definition ex_new := mkwal (wal_open []) 0.
Definition ex_w1 := wal_write true ex_new (map (make_write true) [ex_txn 7]).
Definition ex_w3 := wal_write true (wal_rotate (wal_write true (wal_rotate ex_w1) (map (make_write true) [ex_txn 8]))) (map (make_write true) [ex_txn 9]).
(** a new log, a commit, a failed write, a rotation, two commits, gc and a restart *)
Definition fits_b (w : wal) : bool := (w_lsn w <? 2 ^ 64) && forallb (fun '(_, f) => Z.of_nat (length f) + 24 <? 2 ^ 32) (w_files w).
Lemma fits_b_ok w : fits_b w = true -> fits w.
Proof.
  unfold fits_b, fits. rewrite andb_true_iff. intros [H1 H2]. split; [lia|]. rewrite forallb_forall in H2. apply Forall_forall. intros [i f] Hf. specialize (H2 _ Hf). cbn in H2. lia.
Qed.
Lemma run_ev c w ts e w' ts' : run c w ts -> event_ok c w e -> wal_step c w e = Ok w' -> fits_b w' = true -> ts' = (ts ++ committed e)%list -> run c w' ts'.
Proof. intros H1 H2 H3 H4 ->. apply (run_step c w ts e w'); auto using fits_b_ok. Qed.
Lemma ex_run1 : run true ex_w1 [ex_txn 7].
Proof. eapply (run_ev true ex_new [] (EvWrite [ex_txn 7])); [constructor|constructor; [now apply ex_txn_ok|constructor]|reflexivity|reflexivity|reflexivity]. Qed.
Lemma ex_run3 : run true ex_w3 [ex_txn 7; ex_txn 8; ex_txn 9].
Proof.
  eapply (run_ev true _ _ (EvWrite [ex_txn 9])); [|constructor; [now apply ex_txn_ok|constructor]|reflexivity|vm_compute; reflexivity|].
  - eapply (run_ev true _ _ EvRotate); [|exact I|reflexivity|vm_compute; reflexivity|].
    + eapply (run_ev true _ _ (EvWrite [ex_txn 8])); [|constructor; [now apply ex_txn_ok|constructor]|reflexivity|vm_compute; reflexivity|].
      * eapply (run_ev true _ _ EvRotate); [|exact I|reflexivity|vm_compute; reflexivity|].
        -- eapply (run_ev true _ _ (EvFail [ex_txn 5] 20)); [apply ex_run1|exact I|cbn [wal_step]; rewrite write_failed_id; reflexivity|vm_compute; reflexivity|reflexivity].
        -- reflexivity.
      * reflexivity.
    + reflexivity.
  - reflexivity.
Qed.
Definition ops_of (x : Z) : list wop := concat (ex_txn x).
Example C13_nonvacuous : txn_ok true (ex_txn 7) /\ replay_all true (record_of true 12 (ex_txn 7)) = Ok (ops_of 7) /\ length (record_of true 12 (ex_txn 7)) = 89%nat.
Proof. split; [now apply ex_txn_ok|]. split; vm_compute; reflexivity. Qed.
Example C48_nonvacuous : run true ex_w3 [ex_txn 7; ex_txn 8; ex_txn 9] /\ recover_ops true (w_files ex_w3) = Ok [(1, ops_of 7); (2, ops_of 8); (3, ops_of 9)].
Proof. split; [exact ex_run3|vm_compute; reflexivity]. Qed.
Example C18_nonvacuous : map fst (w_files ex_w3) = [1; 2; 3] /\ read_ops true (w_files ex_w3) 2 = Ok [(2, ops_of 8); (3, ops_of 9)].
Proof. split; vm_compute; reflexivity. Qed.
Example C17_nonvacuous : map fst (w_files (wal_gc ex_w3 [2; 1] 1)) = [2; 3] /\ read_ops true (w_files (wal_gc ex_w3 [2; 1] 1)) 2 = Ok [(2, ops_of 8); (3, ops_of 9)].
Proof. split; vm_compute; reflexivity. Qed.
Example C15_nonvacuous : recover_ops true (crashed true ex_w1 [ex_txn 8; ex_txn 9] 177) = Ok [(1, ops_of 7); (2, ops_of 8)].
Proof. vm_compute. reflexivity. Qed.
Example C59_nonvacuous : match wal_truncate (crashed true ex_w3 [ex_txn 10] 33) 2 true with Ok fs => map fst fs = [1; 2] /\ recover_ops true fs = Ok [(1, ops_of 7); (2, ops_of 8)] | _ => False end.
Proof. vm_compute. split; reflexivity. Qed.
Example C20_nonvacuous : replay_record (fun c _ => zlist_eqb (c_id c) (ex_id 1)) true (record_of true 3 (ex_txn 7)) = Ok [WRow CMD_DELETE (ex_id 2) (ex_row 7)].
Proof. vm_compute. reflexivity. Qed.

(** ** refutations *)
(** C16: a write is interrupted after 10 bytes, the server restarts, which gives the lsn 1, and
    commits a transaction with the lsn 2.  The next restart does not replay it. *)
Definition restarted (k : nat) : res wal := wal_restart true (mkwal (crashed true ex_w1 [ex_txn 8] k) 0) 0.
Definition then_commit (k : nat) (t : txn) : res (list (Z * list wop)) :=
  do w <- restarted k; recover_ops true (w_files (wal_write true w (map (make_write true) [t]))).
Theorem C16_commit_lost_refuted : exists w k t, run true w [ex_txn 7] /\ w = ex_w1 /\ txn_ok true t /\
  (do w' <- restarted k; Ok (w_lsn w')) = Ok 1 /\
  then_commit k t = Ok [(1, ops_of 7)].
Proof. exists ex_w1, 10%nat, (ex_txn 9). split; [exact ex_run1|]. split; [reflexivity|]. split; [now apply ex_txn_ok|]. split; vm_compute; reflexivity. Qed.
Print Assumptions C16_commit_lost_refuted.
(** With another torn length the log can no longer be read: the server does not start. *)
Theorem C16_unreadable_refuted : (do w' <- restarted 88; Ok (w_lsn w')) = Ok 1 /\ then_commit 88 (ex_txn 9) = Err.
Proof. split; vm_compute; reflexivity. Qed.
Print Assumptions C16_unreadable_refuted.

(** C17: a replica has read up to the lsn 1, the checkpoint is at the lsn 3.  gc removes the
    record 2 that the replica has to read next: wal_slots takes the maximum, not the minimum. *)
Theorem C17_slots_refuted : run true ex_w3 [ex_txn 7; ex_txn 8; ex_txn 9] /\
  read_ops true (w_files ex_w3) 2 = Ok [(2, ops_of 8); (3, ops_of 9)] /\
  read_ops true (w_files (wal_gc ex_w3 [1] 3)) 2 = Ok [].
Proof. split; [exact ex_run3|]. split; vm_compute; reflexivity. Qed.
Print Assumptions C17_slots_refuted.
(** a slot that is ahead also removes what the checkpoint still needs *)
Theorem C17_checkpoint_refuted : recover_ops true (w_files (wal_gc ex_w3 [3] 1)) = Ok [(3, ops_of 9)].
Proof. vm_compute. reflexivity. Qed.
Print Assumptions C17_checkpoint_refuted.

(** C18, C17: the wal worker reads the lsn 1, two transactions are written to the current file,
    then the new file 2 is added.  Its first record has the lsn 4. *)
Definition ex_race := wal_write true (wal_rotate_race true ex_w1 (map (make_write true) [ex_txn 8; ex_txn 9])) (map (make_write true) [ex_txn 10]).
Theorem C18_rotation_race_refuted : map fst (w_files ex_race) = [1; 2] /\
  recover_ops true (w_files ex_race) = Ok [(1, ops_of 7); (2, ops_of 8); (3, ops_of 9); (4, ops_of 10)] /\
  read_ops true (w_files ex_race) 2 = Ok [(4, ops_of 10)] /\
  recover_ops true (w_files (wal_gc ex_race [] 2)) = Ok [(4, ops_of 10)].
Proof. split; [|split; [|split]]; vm_compute; reflexivity. Qed.
Print Assumptions C18_rotation_race_refuted.

(** C20: CREATE DATABASE with a name of 35 characters.  The skip of the record reads the JSON of
    the command as rows: it goes from the first byte (80) to the last byte of the record and
    reads the size of a row beyond it. *)
Definition ex_create_db (name : list Z) : json := JArr [JInt 3; JObj [([110; 97; 109; 101], JStr name)]].
Definition ex_ddl_name : list Z := repeat 97 35.
Definition ex_ddl : list Z :=
  [JSON_ARRAY] ++ json_write_integer 3 ++ [JSON_OBJ] ++ json_write_raw [110; 97; 109; 101] ++ json_write_raw ex_ddl_name ++ [JSON_OBJ_END; JSON_ARRAY_END].
Theorem C20_ddl_skip_refuted : exists op, op = ex_ddl /\ json_skip op = Ok [] /\
  replay_all true (record_of true 1 [[WDdl CMD_DDL op]]) = Ok [WDdl CMD_DDL op] /\
  replay_record (fun _ _ => true) true (record_of true 1 [[WDdl CMD_DDL op]]) = UB.
Proof. exists ex_ddl. split; [reflexivity|]. split; [vm_compute; reflexivity|]. split; vm_compute; reflexivity. Qed.
Print Assumptions C20_ddl_skip_refuted.
