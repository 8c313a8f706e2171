(** The log over time: every state that is reached from a new log. *)
From Verif Require Import Base CrcModel CrcProofs WalModel WalSpec WalRecord WalFiles.
Local Open Scope nat_scope.

Lemma records_app w a : forall k b, records w k (a ++ b) = records w k a ++ records w (k + length a) b.
Proof.
  induction a as [|t a IH]; intros k b; cbn [app records length]; [now rewrite Nat.add_0_r|]. rewrite IH. cbn [app]. do 2 f_equal. f_equal. lia.
Qed.
Lemma records_length w ts : forall k, length (records w k ts) = length ts.
Proof. induction ts; intros k; cbn; auto. Qed.
Lemma write_list_bytes w (ts : list txn) : forall k, wal_write_list w (Z.of_nat k) (map (make_write w) ts) = (concat (records w k ts), Z.of_nat (k + length ts)).
Proof.
  induction ts as [|t ts IH]; intros k; cbn [map wal_write_list records concat length]; [now rewrite Nat.add_0_r|].
  replace (Z.of_nat k + 1)%Z with (Z.of_nat (S k)) by lia. rewrite IH. f_equal. lia.
Qed.

(** ** one record *)
Lemma write_size_lsn w lsn lsn' t : length (record_of w lsn t) = length (record_of w lsn' t).
Proof. unfold record_of, write_bytes. rewrite !app_length, !header_length. reflexivity. Qed.
Lemma txn_size w t : txn_ok w t -> (write_size w t < 2 ^ 32)%Z.
Proof.
  intros (F & _ & S). eapply Z.le_lt_trans; [|exact S].
  unfold record_of, write_bytes, write_size. rewrite !app_length, header_length.
  destruct (make_write_ok w t F) as (D & _). unfold write_end. cbn [w_metas w_logs]. rewrite D.
  assert (length (flat_map meta_bytes (w_metas (make_write w t))) = length (meta_bytes (all_metas (make_write w t)))) as ->.
  { unfold all_metas, meta_bytes. clear. induction (w_metas (make_write w t)) as [|a l IH]; [reflexivity|]. cbn. rewrite flat_map_app, !app_length. f_equal. exact IH. }
  lia.
Qed.
Lemma txn_good w lsn t : txn_ok w t -> (0 <= lsn < 2 ^ 64)%Z -> good w (record_of w lsn t) /\ rec_lsn (record_of w lsn t) = lsn.
Proof.
  intros H R. pose proof (txn_size w t H) as S. destruct H as (F & N & _).
  destruct (record_length w lsn t F R S) as [L _]. destruct (record_header w lsn t [] F R S) as (h & Hh & H1 & H2 & H3). rewrite app_nil_r in Hh.
  unfold read_header in Hh.
  destruct (get_u (record_of w lsn t) 0 4) eqn:E0; [|discriminate|discriminate]. cbn [bind] in Hh.
  destruct (get_u (record_of w lsn t) 4 8) eqn:E1; [|discriminate|discriminate]. cbn [bind] in Hh.
  destruct (get_u (record_of w lsn t) 12 4) eqn:E2; [|discriminate|discriminate]. cbn [bind] in Hh.
  destruct (get_u (record_of w lsn t) 16 4) eqn:E3; [|discriminate|discriminate]. cbn [bind] in Hh.
  destruct (get_u (record_of w lsn t) 20 4) eqn:E4; [|discriminate|discriminate]. cbn [bind] in Hh. injection Hh as <-.
  cbn [h_lsn h_size] in *. subst. split; [|unfold rec_lsn; now rewrite E1]. unfold good. split; [|split; [lia|split; [now rewrite L, E2|]]].
  - assert (24 < write_size w t)%Z; [|lia]. unfold write_size. assert (1 <= length (data (concat t))); [|lia].
    apply Forall_concat in F. destruct (concat t) as [|o l]; [congruence|]. inversion F as [|? ? Ho _]; subst. pose proof (op_ok_len o Ho).
    unfold data. cbn [flat_map]. rewrite app_length. lia.
  - intros ->. now apply record_validates.
Qed.
Lemma records_good w ts : forall k, Forall (txn_ok w) ts -> (Z.of_nat (k + length ts) < 2 ^ 64)%Z -> Forall (good w) (records w k ts).
Proof.
  induction ts as [|t ts IH]; intros k F R; cbn [records]; [constructor|]. inversion F; subst. cbn [length] in R. constructor; [apply txn_good; auto; lia|apply IH; auto; lia].
Qed.
Lemma dropw_records w ts : forall k (lsn : nat), Forall (txn_ok w) ts -> (Z.of_nat (k + length ts) < 2 ^ 64)%Z ->
  dropw (Z.of_nat lsn) (records w k ts) = records w (Nat.max k (lsn - 1)) (skipn (lsn - 1 - k) ts).
Proof.
  induction ts as [|t ts IH]; intros k lsn F R; cbn [records dropw]; [now rewrite skipn_nil|]. inversion F as [|? ? Ht F']; subst. cbn [length] in R.
  destruct (txn_good w (Z.of_nat (S k)) t Ht ltac:(lia)) as [_ El]. rewrite El.
  destruct (Z.leb_spec (Z.of_nat lsn) (Z.of_nat (S k))) as [H|H].
  - replace (lsn - 1 - k) with 0 by lia. replace (Nat.max k (lsn - 1)) with k by lia. reflexivity.
  - rewrite IH by (auto; lia). replace (lsn - 1 - k) with (S (lsn - 1 - S k)) by lia. cbn [skipn]. f_equal. lia.
Qed.

(** ** the files *)
(** [k]: the number of transactions before the first file *)
Fixpoint layout (w : bool) (k : nat) (segs : list (list txn)) : list lfile :=
  match segs with
  | [] => []
  | s :: segs' => mklfile (Z.of_nat (S k)) (records w k s) [] :: layout w (k + length s) segs'
  end.
Fixpoint full_segs (segs : list (list txn)) : Prop :=
  match segs with
  | s :: ((_ :: _) as segs') => s <> [] /\ full_segs segs'
  | _ => True
  end.
Lemma layout_app w a : forall k b, layout w k (a ++ b) = layout w k a ++ layout w (k + length (concat a)) b.
Proof.
  induction a as [|s a IH]; intros k b; cbn [app layout concat length]; [now rewrite Nat.add_0_r|]. rewrite IH, app_length. cbn [app]. do 2 f_equal. f_equal. lia.
Qed.
Lemma layout_ids w segs : forall k g, In g (layout w k segs) -> (Z.of_nat k < lf_id g <= Z.of_nat (S (k + length (concat segs))))%Z.
Proof.
  induction segs as [|s segs IH]; intros k g H; [destruct H|]. destruct H as [<-|H]; cbn [lf_id concat]; rewrite ?app_length; [lia|]. apply IH in H. lia.
Qed.
Lemma layout_sorted w segs : forall k, full_segs segs -> ids_sorted (layout w k segs).
Proof.
  induction segs as [|s segs IH]; intros k F; [exact I|]. cbn [layout ids_sorted]. split.
  - intros g Hg. destruct segs as [|s2 segs]; [destruct Hg|]. apply layout_ids in Hg. destruct F as [F _]. cbn [lf_id]. destruct s; [congruence|]. cbn [length] in Hg. lia.
  - apply IH. destruct segs; [exact I|apply F].
Qed.
Lemma all_recs_layout w segs : forall k, all_recs (layout w k segs) = records w k (concat segs).
Proof. induction segs as [|s segs IH]; intros k; cbn [layout concat]; [reflexivity|]. unfold all_recs in *. cbn [flat_map lf_recs]. rewrite IH, records_app. reflexivity. Qed.
Lemma layout_good w segs : forall k, Forall (txn_ok w) (concat segs) -> (Z.of_nat (k + length (concat segs)) < 2 ^ 64)%Z ->
  Forall (fun '(_, f) => (Z.of_nat (length f) + 24 < 2 ^ 32)%Z) (map phys (layout w k segs)) -> Forall (file_good w) (layout w k segs).
Proof.
  induction segs as [|s segs IH]; intros k F R S; cbn [layout]; [constructor|]. cbn [concat] in *. rewrite app_length in R. apply Forall_app in F as [F1 F2].
  cbn [layout map] in S. inversion S as [|? ? S1 S2]; subst. constructor; [|apply IH; auto; lia].
  split; [apply records_good; auto; lia|]. split; [now left|]. exact S1.
Qed.

(** the last file and the others *)
Lemma segs_last (segs : list (list txn)) : segs <> [] -> exists a s, segs = a ++ [s].
Proof. intros H. destruct (exists_last H) as (a & s & E). eauto. Qed.
Lemma full_segs_app a : forall s s', full_segs (a ++ [s]) -> full_segs (a ++ [s']).
Proof.
  induction a as [|x a IH]; intros s s' F; [exact I|]. cbn [app] in *. destruct a as [|y a]; cbn [app full_segs] in *; [tauto|].
  destruct F as [F1 F2]. split; [exact F1|]. now apply (IH s).
Qed.
Lemma full_segs_snoc a : forall s, full_segs a -> (forall b l, a = b ++ [l] -> l <> []) -> full_segs (a ++ [s]).
Proof.
  induction a as [|x a IH]; intros s F N; [exact I|]. destruct a as [|y a]; cbn [app full_segs] in *.
  - split; [|exact I]. apply (N [] x eq_refl).
  - destruct F as [F1 F2]. split; [exact F1|]. apply IH; [exact F2|]. intros b l E. apply (N (x :: b)). cbn. now rewrite E.
Qed.

Definition Inv (w : bool) (l : wal) (ts : list txn) : Prop :=
  exists k segs, segs <> [] /\ full_segs segs /\ w_files l = map phys (layout w k segs) /\
    k <= length ts /\ skipn k ts = concat segs /\ w_lsn l = Z.of_nat (length ts) /\ Forall (txn_ok w) ts.

Lemma append_last_layout w k a s b new :
  b = concat (records w (k + length (concat a) + length s) new) ->
  append_last (map phys (layout w k (a ++ [s]))) b = map phys (layout w k (a ++ [s ++ new])).
Proof.
  intros ->. unfold append_last. rewrite !layout_app, !map_app. cbn [layout map]. rewrite set_last_snoc. do 2 f_equal.
  unfold phys. cbn [lf_id lf_recs lf_tail]. rewrite !app_nil_r, records_app, concat_app. reflexivity.
Qed.
Lemma skipn_snoc {A} k (l x : list A) : k <= length l -> skipn k (l ++ x) = skipn k l ++ x.
Proof. intros H. rewrite skipn_app. now replace (k - length l) with 0 by lia. Qed.

Lemma inv_write w l ts (new : list txn) : Inv w l ts -> Forall (txn_ok w) new -> Inv w (wal_write w l (map (make_write w) new)) (ts ++ new).
Proof.
  intros (k & segs & N & F & Ef & Hk & Es & El & G) Gn. destruct (segs_last segs N) as (a & s & ->).
  unfold wal_write. rewrite El, write_list_bytes. rewrite Ef. cbn [w_files].
  exists k, (a ++ [s ++ new]). cbn [w_files w_lsn].
  rewrite concat_app in Es. cbn [concat] in Es. rewrite app_nil_r in Es.
  assert (length ts = k + length (concat a) + length s) as Lt by (apply (f_equal (@length _)) in Es; rewrite skipn_length, app_length in Es; lia).
  split; [now destruct a|]. split; [now apply (full_segs_app a s)|]. split; [apply append_last_layout; now rewrite Lt|].
  rewrite app_length. split; [lia|]. split; [rewrite skipn_snoc by lia; rewrite Es, concat_app; cbn [concat]; now rewrite app_nil_r, <- app_assoc|].
  split; [reflexivity|]. now apply Forall_app.
Qed.
Lemma set_last_id {A} (l : list A) : set_last l (fun x => x) = l.
Proof. destruct (snoc_cases l) as [->|(r & x & ->)]; [reflexivity|now rewrite set_last_snoc]. Qed.
Lemma write_failed_id w l ws k : wal_write_failed w l ws k = l.
Proof.
  unfold wal_write_failed. destruct (wal_write_list w (w_lsn l) ws) as [b n]. unfold append_last. destruct l as [fs lsn]. cbn [w_files w_lsn]. f_equal.
  destruct (snoc_cases fs) as [->|(r & [id f] & ->)]; [reflexivity|]. rewrite !set_last_snoc. do 3 f_equal.
  rewrite app_length. replace (length f + _ - _) with (length f) by lia. now rewrite firstn_app, firstn_all, Nat.sub_diag, app_nil_r.
Qed.
Lemma inv_rotate w l ts : Inv w l ts -> Inv w (wal_rotate l) ts.
Proof.
  intros (k & segs & N & F & Ef & Hk & Es & El & G). unfold wal_rotate, wal_create.
  assert (length ts = k + length (concat segs)) as Lt by (apply (f_equal (@length _)) in Es; rewrite skipn_length in Es; lia).
  destruct (existsb _ _) eqn:Ex; [exists k, segs; auto 10|].
  exists k, (segs ++ [[]]). cbn [w_files w_lsn]. split; [now destruct segs|]. split; [|split; [|split; [exact Hk|split; [|auto]]]].
  - apply full_segs_snoc; [exact F|]. intros b s Eb ->. rewrite <- not_true_iff_false in Ex. apply Ex. apply existsb_exists.
    exists (phys (mklfile (Z.of_nat (S (k + length (concat b)))) [] [])). split.
    + rewrite Ef, Eb, layout_app, map_app. apply in_or_app. right. left. reflexivity.
    + unfold phys. cbn [lf_id]. rewrite Eb, concat_app in Lt. cbn [concat] in Lt. rewrite app_nil_r in Lt. rewrite El, Lt. apply Z.eqb_eq. lia.
  - rewrite layout_app, map_app, Ef. cbn [layout map]. unfold phys at 3. cbn [lf_id lf_recs lf_tail records concat app]. rewrite El, Lt. do 3 f_equal. lia.
  - rewrite concat_app. cbn. now rewrite app_nil_r.
Qed.
Lemma gc_cons a f r id : gc_between (a :: phys f :: r) id = if (lf_id f <=? id)%Z then gc_between (phys f :: r) id else a :: phys f :: r.
Proof. reflexivity. Qed.
(** the files that remain after a gc are the last ones; what is before them is not newer than [id] *)
Lemma gc_layout w segs id : forall k, segs <> [] -> full_segs segs -> exists d segs', segs' <> [] /\ full_segs segs' /\
  gc_between (map phys (layout w k segs)) id = map phys (layout w (k + d) segs') /\ d <= length (concat segs) /\ skipn d (concat segs) = concat segs' /\
  (d = 0 \/ (Z.of_nat (k + d) < id)%Z).
Proof.
  induction segs as [|s segs IH]; intros k N F; [congruence|]. destruct segs as [|s2 segs].
  - exists 0, [s]. rewrite Nat.add_0_r. repeat split; auto; cbn; lia.
  - cbn [layout map]. rewrite gc_cons. cbn [lf_id].
    destruct (Z.leb_spec (Z.of_nat (S (k + length s))) id) as [H|H].
    + destruct F as [F1 F2]. destruct (IH (k + length s) ltac:(discriminate) F2) as (d & segs' & N' & F' & E & Hd & Es & Hid).
      exists (length s + d), segs'. split; [exact N'|]. split; [exact F'|]. split.
      { rewrite Nat.add_assoc. exact E. }
      cbn [concat] in *. rewrite !app_length in *. split; [lia|]. split; [|right; destruct Hid; [subst d; lia|lia]].
      rewrite skipn_app. rewrite skipn_all2 by lia. replace (length s + d - length s) with d by lia. exact Es.
    + exists 0, (s :: s2 :: segs). rewrite Nat.add_0_r. repeat split; try apply F; auto; cbn; lia.
Qed.
Lemma inv_gc w l ts slots min : Inv w l ts -> Inv w (wal_gc l slots min) ts.
Proof.
  intros (k & segs & N & F & Ef & Hk & Es & El & G). unfold wal_gc. destruct (gc_layout w segs (wal_slots slots min) k N F) as (d & segs' & N' & F' & E & Hd & E2 & _).
  exists (k + d), segs'. cbn [w_files w_lsn]. rewrite Ef.
  assert (length ts = k + length (concat segs)) as Lt by (apply (f_equal (@length _)) in Es; rewrite skipn_length in Es; lia).
  split; [exact N'|]. split; [exact F'|]. split; [exact E|]. split; [lia|]. split; [|auto].
  rewrite <- skipn_skipn, Es. exact E2.
Qed.

(** ** reading a consistent log *)
Lemma id_find_layout w segs : forall k (lsn : nat) acc, full_segs segs -> id_find (map phys (layout w k segs)) (Z.of_nat lsn) acc =
  if (lsn <=? k) then acc else match segs with [] => acc | _ => id_find (map phys (layout w k segs)) (Z.of_nat lsn) None end.
Proof.
  intros k lsn acc F. destruct (Nat.leb_spec lsn k).
  - destruct segs as [|s segs]; [reflexivity|]. cbn [layout map id_find]. unfold phys at 1. cbn [lf_id]. now replace (_ <? _)%Z with true by lia.
  - destruct segs as [|s segs]; [reflexivity|]. cbn [layout map id_find]. unfold phys at 1 3. cbn [lf_id]. now replace (_ <? _)%Z with false by lia.
Qed.
Lemma id_find_split w segs : forall k (lsn : nat), segs <> [] -> full_segs segs -> k < lsn -> exists a s b, segs = a ++ s :: b /\
  id_find (map phys (layout w k segs)) (Z.of_nat lsn) None = Some (Z.of_nat (S (k + length (concat a)))) /\ k + length (concat a) < lsn /\
  (lsn <= k + length (concat a) + length s \/ b = []).
Proof.
  induction segs as [|s segs IH]; intros k lsn N F H; [congruence|]. cbn [layout map id_find]. unfold phys at 1. cbn [lf_id]. replace (_ <? _)%Z with false by lia.
  assert (full_segs segs) as F' by (destruct segs; [exact I|apply F]).
  rewrite id_find_layout by exact F'. destruct (Nat.leb_spec lsn (k + length s)) as [H2|H2].
  - exists [], s, segs. cbn [concat length]. rewrite Nat.add_0_r. repeat split; auto.
  - destruct segs as [|s2 segs].
    + exists [], s, []. cbn [concat length]. rewrite Nat.add_0_r. repeat split; auto.
    + destruct (IH (k + length s) lsn ltac:(discriminate) F' H2) as (a & x & b & E & Ei & Hl & Hb). exists (s :: a), x, b. cbn [concat app]. rewrite app_length, E in *.
      rewrite Nat.add_assoc. repeat split; auto.
Qed.
Section Read.
Variables (w : bool) (k : nat) (segs : list (list txn)).
Hypothesis N : segs <> [].
Hypothesis F : full_segs segs.
Hypothesis G : Forall (file_good w) (layout w k segs).
Hypothesis T : Forall (txn_ok w) (concat segs).
Hypothesis R : (Z.of_nat (k + length (concat segs)) < 2 ^ 64)%Z.
Lemma read_from_layout (lsn : nat) : lsn = 0 \/ k < lsn ->
  wal_read_from (map phys (layout w k segs)) (Z.of_nat lsn) w = Ok (records w (Nat.max k (lsn - 1)) (skipn (lsn - 1 - k) (concat segs))).
Proof.
  intros H. pose proof (layout_sorted w segs k F) as So.
  assert (exists a s b, segs = a ++ s :: b /\
    (if (Z.of_nat lsn =? 0)%Z then id_min (map phys (layout w k segs)) else id_find (map phys (layout w k segs)) (Z.of_nat lsn) None) = Some (Z.of_nat (S (k + length (concat a)))) /\
    (a = [] \/ k + length (concat a) < lsn)) as (a & s & b & E & Ei & Ha).
  { destruct lsn as [|n].
    - destruct segs as [|s segs'] eqn:Esegs; [congruence|]. exists [], s, segs'. cbn. rewrite Nat.add_0_r. auto.
    - replace (Z.of_nat (S n) =? 0)%Z with false by lia. destruct (id_find_split w segs k (S n) N F ltac:(lia)) as (a & s & b & E & Ei & Hl & _). exists a, s, b. auto. }
  assert (layout w k segs = layout w k a ++ mklfile (Z.of_nat (S (k + length (concat a)))) (records w (k + length (concat a)) s) [] :: layout w (k + length (concat a) + length s) b) as EL.
  { rewrite E, layout_app. reflexivity. }
  unfold wal_read_from. destruct (open_file w true (layout w k segs) So G _ _ _ (Z.of_nat lsn) EL Ei) as (c & Ec & A & _). rewrite Ec. cbn [bind].
  pose proof (At_len w true (layout w k segs) So G c _ A) as Hlen.
  destruct (drain_spec w true (layout w k segs) So G _ (S (total_bytes (map phys (layout w k segs)))) c A ltac:(lia)) as (c' & -> & _). cbn [bind]. f_equal.
  cbn [lf_recs]. rewrite all_recs_layout, <- records_app.
  assert (concat segs = concat a ++ (s ++ concat b)) as Ecs by (rewrite E, concat_app; reflexivity).
  rewrite Ecs in T. apply Forall_app in T as [T1 T2]. rewrite Ecs in R. rewrite !app_length in R.
  rewrite dropw_records by (rewrite ?app_length; auto; lia).
  rewrite Ecs. destruct Ha as [->|Ha].
  - cbn [concat length app skipn]. rewrite ?Nat.add_0_r. reflexivity.
  - rewrite (skipn_app _ (concat a)). rewrite (skipn_all2 (n := lsn - 1 - k)) by lia. cbn [app]. f_equal; [lia|]. f_equal. lia.
Qed.
Lemma layout_after g : In g (layout w k segs) -> after_id g.
Proof.
  clear N F G. revert T R. generalize k. induction segs as [|s l IH]; intros j T R Hg; [destruct Hg|]. cbn [concat] in T, R. apply Forall_app in T as [T1 T2]. rewrite app_length in R.
  destruct Hg as [<-|Hg]; [|apply (IH (j + length s)); auto; lia]. split; cbn [lf_id lf_recs]; [lia|].
  assert (Z.of_nat (j + length s) < 2 ^ 64)%Z as R' by lia. clear - T1 R'.
  assert (forall a, j <= a -> (Z.of_nat (a + length s) < 2 ^ 64)%Z -> Forall (fun r => (Z.of_nat (S j) <= rec_lsn r)%Z) (records w a s)) as H; [|apply H; auto].
  induction T1 as [|t s Ht T1 IH]; intros a Ha Hr; cbn [records]; constructor; cbn [length] in *.
  - destruct (txn_good w (Z.of_nat (S a)) t Ht ltac:(lia)) as [_ ->]. lia.
  - apply IH; lia.
Qed.
Lemma recover_layout : recover_wal (map phys (layout w k segs)) w = Ok (records w k (concat segs)).
Proof.
  rewrite recover_general; [now rewrite all_recs_layout|destruct segs; [congruence|discriminate]|now apply layout_sorted|exact G|].
  apply Forall_forall. intros g. apply layout_after.
Qed.
End Read.

Lemma recovered_lsn_records w ts : forall k p, Forall (txn_ok w) ts -> (Z.of_nat (k + length ts) < 2 ^ 64)%Z -> (p <= Z.of_nat (k + length ts))%Z -> (ts = [] -> p = Z.of_nat k) ->
  recovered_lsn p (records w k ts) = Z.of_nat (k + length ts).
Proof.
  unfold recovered_lsn. induction ts as [|t ts IH]; intros k p F R Hp H0; cbn [records fold_left length] in *; [rewrite H0 by reflexivity; f_equal; lia|].
  inversion F as [|? ? Ht F']; subst. destruct (txn_good w (Z.of_nat (S k)) t Ht ltac:(lia)) as [Gd El]. rewrite (good_lsn _ _ Gd), El.
  destruct (Z.max_spec p (Z.of_nat (S k))) as [[H ->]|[H ->]].
  - rewrite IH by (auto; lia). f_equal. lia.
  - rewrite IH; [f_equal; lia|auto|lia|lia|]. intros ->. cbn [length] in *. lia.
Qed.
Lemma inv_facts w l ts : Inv w l ts -> fits l -> exists k segs, segs <> [] /\ full_segs segs /\ w_files l = map phys (layout w k segs) /\
    k <= length ts /\ skipn k ts = concat segs /\ w_lsn l = Z.of_nat (length ts) /\ Forall (txn_ok w) (concat segs) /\
    length ts = k + length (concat segs) /\ (Z.of_nat (k + length (concat segs)) < 2 ^ 64)%Z /\ Forall (file_good w) (layout w k segs).
Proof.
  intros (k & segs & N & F & Ef & Hk & Es & El & G) [Fl Ff]. exists k, segs.
  assert (length ts = k + length (concat segs)) as Lt by (apply (f_equal (@length _)) in Es; rewrite skipn_length in Es; lia).
  assert (Forall (txn_ok w) (concat segs)) as T by (rewrite <- Es; rewrite <- (firstn_skipn k ts) in G; now apply Forall_app in G as [_ G]).
  assert (Z.of_nat (k + length (concat segs)) < 2 ^ 64)%Z as R by lia.
  rewrite Ef in Ff. auto 15 using layout_good.
Qed.
Lemma total_layout w segs : forall k, Forall (txn_ok w) (concat segs) -> (Z.of_nat (k + length (concat segs)) < 2 ^ 64)%Z -> concat segs = [] <-> total_bytes (map phys (layout w k segs)) = 0.
Proof.
  induction segs as [|s segs IH]; intros k T R; [split; reflexivity|]. cbn [concat] in *. apply Forall_app in T as [T1 T2]. rewrite app_length in R.
  unfold total_bytes. cbn [layout map flat_map]. rewrite app_length. unfold phys at 1. cbn [snd lf_recs lf_tail]. rewrite app_nil_r.
  specialize (IH (k + length s) T2 ltac:(lia)). unfold total_bytes in IH. split; intros H.
  - apply app_eq_nil in H as [-> H]. cbn. apply IH. exact H.
  - assert (s = []) as ->.
    { destruct s as [|t s]; [reflexivity|]. exfalso. inversion T1 as [|? ? Ht _]; subst. cbn [records concat length] in H, R. rewrite app_length in H.
      destruct (txn_good w (Z.of_nat (S k)) t Ht ltac:(lia)) as [[Hl _] _]. lia. }
    cbn [app]. apply IH. lia.
Qed.
Lemma wal_open_layout w k segs : segs <> [] -> wal_open (map phys (layout w k segs)) = map phys (layout w k segs).
Proof. destruct segs; [congruence|reflexivity]. Qed.
Lemma restart_same w l ts p : Inv w l ts -> fits l -> event_ok w l (EvRestart p) -> wal_restart w l p = Ok l.
Proof.
  intros I Fi (Hp & H0). destruct (inv_facts w l ts I Fi) as (k & segs & N & F & Ef & Hk & Es & El & T & Lt & R & G).
  unfold wal_restart. rewrite Ef in *. rewrite wal_open_layout by exact N. rewrite recover_layout by auto. cbn [bind].
  rewrite recovered_lsn_records; auto; [|lia|].
  - rewrite <- Lt, <- El. destruct l. cbn in *. now rewrite Ef.
  - intros E0. rewrite H0 by (apply (total_layout w segs k T R); exact E0). rewrite El, Lt, E0. cbn. f_equal. lia.
Qed.

Lemma run_inv w l ts : run w l ts -> Inv w l ts /\ fits l.
Proof.
  induction 1 as [|l ts e l' H [IH IF] Hok Hs Hf].
  - split.
    + exists 0, [[]]. cbn. repeat split; auto; discriminate.
    + split; [cbn; lia|]. repeat constructor.
  - split; [|exact Hf]. destruct e as [new|new k| |slots min|p]; cbn [wal_step committed] in *; rewrite ?app_nil_r.
    + injection Hs as <-. now apply inv_write.
    + injection Hs as <-. now rewrite write_failed_id.
    + injection Hs as <-. now apply inv_rotate.
    + injection Hs as <-. now apply inv_gc.
    + rewrite (restart_same w l ts p IH IF Hok) in Hs. injection Hs as <-. exact IH.
Qed.
