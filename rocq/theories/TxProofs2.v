(** Proofs about the partitions: what is committed and undone there. *)
From Coq Require Import Permutation.
From Verif Require Import Base TxModel TxSpec TxProofs.
Local Open Scope nat_scope.

(** ** undo *)
Lemma upd_upd l k v : upd (upd l k v) k (nth k l 0%Z) = l.
Proof. revert k. induction l as [|x l IH]; intros [|k]; cbn; try reflexivity. f_equal. apply IH. Qed.
Lemma run_undo : forall ws d log d' log', run_writes ws d log = (d', log') -> undo log' d' = undo log d.
Proof.
  induction ws as [|[k v] ws IH]; intros d log d' log' H; cbn [run_writes] in H; [inversion H; reflexivity|].
  rewrite (IH _ _ _ _ H). unfold undo. cbn [fold_left fst snd]. now rewrite upd_upd.
Qed.

(** ** what a consensus says about the first [M] transactions of a partition *)
Definition good (l : list nat) (dec : list (nat * bool)) (c : consensus) (M : nat) : Prop :=
  M <= length l /\ c_commit c <= M /\ c_abort c <= M /\
  (forall i t, i < M -> nth_error l i = Some t -> (In (t, true) dec /\ S i <= c_commit c) \/ (In (t, false) dec /\ S i <= c_abort c)) /\
  (c_abort c = 0 \/ exists t, nth_error l (c_abort c - 1) = Some t /\ In (t, false) dec).
Lemma good_app l r dec c M : good l dec c M -> good (l ++ r) dec c M.
Proof.
  intros (G1 & G2 & G3 & G4 & G5). split; [rewrite app_length; lia|]. split; [exact G2|]. split; [exact G3|]. split.
  - intros i t Hi Ht. apply G4; [exact Hi|]. rewrite nth_error_app1 in Ht by lia. exact Ht.
  - destruct G5 as [G5|(t & T1 & T2)]; [now left|right]. exists t. split; [|exact T2]. rewrite nth_error_app1; [exact T1|]. apply nth_error_Some. congruence.
Qed.
Lemma good_dec l dec dec' c M : incl dec dec' -> good l dec c M -> good l dec' c M.
Proof.
  intros I (G1 & G2 & G3 & G4 & G5). split; [exact G1|]. split; [exact G2|]. split; [exact G3|]. split.
  - intros i t Hi Ht. destruct (G4 i t Hi Ht) as [[X Y]|[X Y]]; [left|right]; auto.
  - destruct G5 as [G5|(t & T1 & T2)]; [now left|right]. exists t. auto.
Qed.
Definition kept (out : list (nat * bool)) (l : list nat) : list nat := filter (fun t => negb (existsb (fun o => (fst o =? t) && negb (snd o)) out)) l.
Lemma kept_iff out t : existsb (fun o => (fst o =? t) && negb (snd o)) out = true <-> In (t, false) out.
Proof.
  rewrite existsb_exists. split.
  - intros ([u b] & H & E). apply andb_prop in E as [E1 E2]. apply Nat.eqb_eq in E1. cbn in *. destruct b; [discriminate|]. now subst.
  - intros H. exists (t, false). split; [exact H|]. cbn. now rewrite Nat.eqb_refl.
Qed.
Lemma kept_ext out out' l : (forall t, In t l -> In (t, false) out <-> In (t, false) out') -> kept out l = kept out' l.
Proof.
  intros H. apply filter_ext_in. intros t Ht. f_equal. specialize (H t Ht). rewrite <- !kept_iff in H.
  destruct (existsb _ out), (existsb _ out'); try reflexivity; destruct H as [H1 H2]; [symmetry; now apply H1|now apply H2].
Qed.
Lemma kept_app out l r : kept out (l ++ r) = kept out l ++ kept out r.
Proof. apply filter_app. Qed.
Lemma firstn_S {A} (l : list A) m t : nth_error l m = Some t -> firstn (S m) l = firstn m l ++ [t].
Proof. revert m. induction l as [|x l IH]; intros [|m] H; cbn in *; try discriminate; [now inversion H|]. f_equal. now apply IH. Qed.

Definition lo (pt : part) : nat := Nat.max (c_commit (p_pod pt)) (c_abort (p_pod pt)).
(** the part of the invariant about execution; [l]: the transactions of the partition, [f]: their
    effect, [m]: how many were executed, [single]: met no other when it was dispatched *)
Record xinv (l : list nat) (dec : list (nat * bool)) (single : nat -> Prop) (f : rows -> nat -> rows) (d0 : rows) (m : nat) (pt : part) : Prop := mkxinv {
  x_m : m <= length l;
  x_pod : c_commit (p_pod pt) <= m - 1 /\ c_abort (p_pod pt) <= m - 1;
  x_prep : map (fun r => (r_id r, r_tx r)) (p_prep pt) = map (fun i => (S i, nth i l 0)) (seq (lo pt) (m - lo pt));
  x_ab : forall i t, S i < m -> nth_error l i = Some t -> In (t, false) dec -> S i <= c_abort (p_pod pt);
  x_alone : forall t, m > 0 -> nth_error l (m - 1) = Some t -> single t -> m - 1 <= lo pt;
  x_out : forall t b, In (t, b) (p_out pt) -> In (t, b) dec /\ exists i, nth_error l i = Some t /\ i < lo pt;
  x_out2 : forall i t, i < lo pt -> nth_error l i = Some t -> exists b, In (t, b) (p_out pt);
  x_rows : p_rows pt = fold_left f (kept (p_out pt) (firstn m l)) d0;
  x_undo : m > 0 -> lo pt < m -> exists pre r, p_prep pt = pre ++ [r] /\ undo (r_log r) (p_rows pt) = fold_left f (kept (p_out pt) (firstn (m - 1) l)) d0 }.
(** after a sync *)
Record yinv (l : list nat) (dec : list (nat * bool)) (f : rows -> nat -> rows) (d0 : rows) (m : nat) (c : consensus) (pt pt' : part) : Prop := mkyinv {
  y_keep : p_seq pt' = p_seq pt /\ p_queue pt' = p_queue pt /\ p_cons pt' = p_cons pt /\ p_pend pt' = p_pend pt;
  y_pod : p_pod pt' = mkcons (Nat.max (c_commit (p_pod pt)) (c_commit c)) (Nat.max (c_abort (p_pod pt)) (c_abort c));
  y_prep : map (fun r => (r_id r, r_tx r)) (p_prep pt') = map (fun i => (S i, nth i l 0)) (seq (lo pt') (m - lo pt'));
  y_out : forall t b, In (t, b) (p_out pt') -> In (t, b) dec /\ exists i, nth_error l i = Some t /\ i < lo pt';
  y_out2 : forall i t, i < lo pt' -> nth_error l i = Some t -> exists b, In (t, b) (p_out pt');
  y_rows : p_rows pt' = fold_left f (kept (p_out pt') (firstn m l)) d0 }.
Lemma filter_map_id (q : nat -> bool) (h : tr -> nat * nat) (prep : list tr) l n k : (forall r, fst (h r) = r_id r) ->
  map h prep = map (fun i => (S i, nth i l 0)) (seq n k) -> map h (filter (fun r => q (r_id r)) prep) = map (fun i => (S i, nth i l 0)) (filter (fun i => q (S i)) (seq n k)).
Proof.
  intros Hh. revert prep n. induction k as [|k IH]; intros [|r prep] n H; cbn [seq map] in H; try discriminate; [reflexivity|]. inversion H as [[E1 E2]]. cbn [filter seq].
  assert (Er : r_id r = S n) by (rewrite <- Hh, E1; reflexivity). rewrite Er. destruct (q (S n)); cbn [map]; [f_equal; [exact E1|]|]; apply IH; exact E2.
Qed.
Lemma filter_seq_gt c n k : filter (fun i => negb (S i <=? c)) (seq n k) = seq (Nat.max n c) (n + k - Nat.max n c).
Proof.
  revert n. induction k as [|k IH]; intros n.
  - cbn. replace (n + 0 - Nat.max n c) with 0 by lia. reflexivity.
  - cbn [seq filter]. rewrite IH. destruct (Nat.leb_spec (S n) c); cbn [negb].
    + replace (Nat.max (S n) c) with c by lia. replace (Nat.max n c) with c by lia. replace (S n + k - c) with (n + S k - c) by lia. reflexivity.
    + replace (Nat.max (S n) c) with (S n) by lia. replace (Nat.max n c) with n by lia. replace (n + S k - n) with (S k) by lia. cbn [seq]. replace (S n + k - S n) with k by lia. reflexivity.
Qed.
Lemma filter_seq_le c n k : filter (fun i => S i <=? c) (seq n k) = seq n (Nat.min k (c - n)).
Proof.
  revert n. induction k as [|k IH]; intros n; [reflexivity|]. cbn [seq filter]. rewrite IH. destruct (Nat.leb_spec (S n) c).
  - replace (Nat.min (S k) (c - n)) with (S (Nat.min k (c - S n))) by lia. reflexivity.
  - replace (c - S n) with 0 by lia. replace (c - n) with 0 by lia. now rewrite !Nat.min_0_r.
Qed.
Lemma nth_err {A} (l : list A) i d : i < length l -> nth_error l i = Some (nth i l d).
Proof. apply nth_error_nth'. Qed.

Lemma sync_ok l dec (single : nat -> Prop) f d0 m pt c M : NoDup l -> (forall t b b', In (t, b) dec -> In (t, b') dec -> b = b') ->
  (forall t, In t l -> In (t, false) dec -> single t) -> xinv l dec single f d0 m pt -> good l dec c M -> M <= m -> yinv l dec f d0 m c pt (track_sync pt c).
Proof.
  intros NDl Fun Lon X (G1 & G2 & G3 & G4 & G5) HM. destruct X as [Xm Xpod Xprep Xab Xal Xo Xo2 Xr Xu]. destruct Xpod as [P1 P2].
  unfold track_sync. destruct (Nat.ltb_spec (c_abort (p_pod pt)) (c_abort c)) as [La|La].
  - (* the last executed transaction is undone *)
    destruct G5 as [G5|(u & U1 & U2)]; [lia|].
    assert (Ea : c_abort c = m). { destruct (Nat.eq_dec (c_abort c) m) as [E|E]; [exact E|]. pose proof (Xab (c_abort c - 1) u ltac:(lia) U1 U2). lia. }
    rewrite Ea in *. assert (Hm : m > 0) by lia. assert (Hlo : lo pt = m - 1) by (pose proof (Xal u Hm U1 (Lon u (nth_error_In _ _ U1) U2)); unfold lo in *; lia).
    destruct (Xu Hm ltac:(lia)) as (pre & r & Ep & Eu). assert (pre = []).
    { rewrite Hlo in Xprep. replace (m - (m - 1)) with 1 in Xprep by lia. rewrite Ep, map_app in Xprep. destruct pre as [|x pre]; [reflexivity|]. cbn in Xprep. inversion Xprep as [[E1 E2 E3]]. destruct pre; discriminate. }
    subst pre. cbn [app] in Ep. rewrite Hlo in Xprep. replace (m - (m - 1)) with 1 in Xprep by lia. rewrite Ep in Xprep. cbn [map seq] in Xprep. inversion Xprep as [[Er Et]].
    assert (Eu' : nth (m - 1) l 0 = u) by (rewrite (nth_err l (m - 1) 0) in U1 by lia; congruence). rewrite Eu' in Et.
    set (pt1 := set_pod (tr_abort_list pt m) (mkcons (c_commit (p_pod pt)) m)).
    assert (F1 : p_prep pt1 = []). { unfold pt1, set_pod, tr_abort_list. cbn [p_prep]. rewrite Ep. cbn [filter]. rewrite Er. replace (S (m - 1) <=? m) with true by (symmetry; apply Nat.leb_le; lia). reflexivity. }
    assert (F2 : p_rows pt1 = undo (r_log r) (p_rows pt) /\ p_out pt1 = p_out pt ++ [(u, false)]).
    { unfold pt1, set_pod, tr_abort_list. cbn [p_rows p_out]. rewrite Ep. cbn [filter]. rewrite Er. replace (S (m - 1) <=? m) with true by (symmetry; apply Nat.leb_le; lia). cbn. rewrite Et. auto. }
    destruct F2 as [F2 F3].
    assert (Hnu : forall t b, In (t, b) (p_out pt) -> t <> u).
    { intros t b Ho ->. destruct (Xo _ _ Ho) as (_ & i & I1 & I2). assert (i = m - 1); [|lia]. apply (proj1 (NoDup_nth_error l) NDl); [apply nth_error_Some; congruence|congruence]. }
    assert (Fr : p_rows pt1 = fold_left f (kept (p_out pt1) (firstn m l)) d0).
    { rewrite F2, Eu, F3. f_equal. replace m with (S (m - 1)) at 2 by lia. rewrite (firstn_S l (m - 1) u U1), kept_app.
      assert (K1 : kept (p_out pt ++ [(u, false)]) [u] = []). { unfold kept. cbn [filter]. replace (existsb _ _) with true; [reflexivity|]. symmetry. apply kept_iff. apply in_or_app. right. now left. }
      rewrite K1, app_nil_r. apply kept_ext. intros t Ht. rewrite in_app_iff. cbn. split; [tauto|]. intros [H|[H|[]]]; [exact H|]. inversion H. subst t. exfalso.
      apply In_nth_error in Ht as [i Hi]. assert (Hi2 : i < m - 1). { assert (X : i < length (firstn (m - 1) l)) by (apply nth_error_Some; congruence). rewrite firstn_length in X. lia. }
      rewrite <- (firstn_skipn (m - 1) l) in NDl. rewrite <- (firstn_skipn (m - 1) l) in U1. rewrite nth_error_app2 in U1 by (rewrite firstn_length; lia).
      apply (nodup_dis _ _ u NDl); [exact (nth_error_In _ _ Hi)|exact (nth_error_In _ _ U1)]. }
    assert (L1 : lo pt1 = m) by (unfold lo, pt1; cbn [p_pod set_pod c_commit c_abort]; lia).
    assert (Yo : forall t b, In (t, b) (p_out pt1) -> In (t, b) dec /\ exists i, nth_error l i = Some t /\ i < m).
    { intros t b. rewrite F3, in_app_iff. intros [H|[H|[]]]; [destruct (Xo _ _ H) as (Y1 & i & Y2 & Y3); split; [exact Y1|exists i; split; [exact Y2|lia]]|]. inversion H; subst t b. split; [exact U2|]. exists (m - 1). split; [exact U1|lia]. }
    assert (Yo2 : forall i t, i < m -> nth_error l i = Some t -> exists b, In (t, b) (p_out pt1)).
    { intros i t Hi Ht. rewrite F3. destruct (Nat.eq_dec i (m - 1)) as [->|N]; [exists false; apply in_or_app; right; left; congruence|]. destruct (Xo2 i t ltac:(lia) Ht) as [b Hb]. exists b. apply in_or_app. now left. }
    destruct (Nat.ltb_spec (c_commit (p_pod pt1)) (c_commit c)) as [Lc|Lc].
    + set (pt2 := set_pod (tr_commit_list pt1 (c_commit c)) (mkcons (c_commit c) (c_abort (p_pod pt1)))).
      assert (E2 : p_prep pt2 = [] /\ p_out pt2 = p_out pt1 /\ p_rows pt2 = p_rows pt1).
      { unfold pt2, set_pod, tr_commit_list. cbn [p_prep p_out p_rows]. rewrite F1. cbn. rewrite app_nil_r. auto. }
      destruct E2 as (E2 & E3 & E4). assert (L2 : lo pt2 = m) by (unfold lo, pt2, pt1; cbn [p_pod set_pod c_commit c_abort]; lia).
      split; [repeat split| | | | |].
      * unfold pt2, pt1 in *. cbn [p_pod set_pod c_commit c_abort] in *. f_equal; lia.
      * rewrite E2, L2, Nat.sub_diag. reflexivity.
      * rewrite E3, L2. exact Yo.
      * rewrite E3, L2. exact Yo2.
      * rewrite E3, E4. exact Fr.
    + split; [repeat split| | | | |].
      * unfold pt1 in *. cbn [p_pod set_pod c_commit c_abort] in *. f_equal; lia.
      * rewrite F1, L1, Nat.sub_diag. reflexivity.
      * rewrite L1. exact Yo.
      * rewrite L1. exact Yo2.
      * exact Fr.
  - destruct (Nat.ltb_spec (c_commit (p_pod pt)) (c_commit c)) as [Lc|Lc].
    + set (pt2 := set_pod (tr_commit_list pt (c_commit c)) (mkcons (c_commit c) (c_abort (p_pod pt)))).
      assert (L2 : lo pt2 = Nat.max (lo pt) (c_commit c)) by (unfold lo, pt2; cbn [p_pod set_pod c_commit c_abort]; lia).
      set (gone := filter (fun t => r_id t <=? c_commit c) (p_prep pt)).
      assert (Hg : map (fun r => (r_id r, r_tx r)) gone = map (fun i => (S i, nth i l 0)) (seq (lo pt) (Nat.min (m - lo pt) (c_commit c - lo pt)))).
      { unfold gone. rewrite (filter_map_id (fun i => i <=? c_commit c) _ _ l (lo pt) (m - lo pt)); [|reflexivity|exact Xprep]. now rewrite filter_seq_le. }
      assert (Ht : map (fun t => (r_tx t, true)) gone = map (fun i => (nth i l 0, true)) (seq (lo pt) (Nat.min (m - lo pt) (c_commit c - lo pt)))).
      { transitivity (map (fun x : nat * nat => (snd x, true)) (map (fun r => (r_id r, r_tx r)) gone)); [now rewrite map_map|]. rewrite Hg, map_map. reflexivity. }
      assert (Eo : p_out pt2 = p_out pt ++ map (fun i => (nth i l 0, true)) (seq (lo pt) (Nat.min (m - lo pt) (c_commit c - lo pt)))).
      { unfold pt2, set_pod, tr_commit_list. cbn [p_out]. fold gone. now rewrite Ht. }
      split; [repeat split| | | | |].
      * unfold pt2. cbn [p_pod set_pod]. f_equal; lia.
      * unfold pt2 at 1, set_pod, tr_commit_list. cbn [p_prep]. rewrite (filter_map_id (fun i => negb (i <=? c_commit c)) _ _ l (lo pt) (m - lo pt)); [|reflexivity|exact Xprep]. rewrite filter_seq_gt. rewrite L2.
        f_equal. f_equal. unfold lo in *. lia.
      * intros t b. rewrite Eo, in_app_iff. rewrite L2. intros [H|H]; [destruct (Xo _ _ H) as (Y1 & i & Y2 & Y3); split; [exact Y1|exists i; split; [exact Y2|lia]]|].
        apply in_map_iff in H as (i & E & Hi). apply in_seq in Hi. inversion E. subst t b. assert (Hn : nth_error l i = Some (nth i l 0)) by (apply nth_err; lia).
        split; [|exists i; split; [exact Hn|lia]]. destruct (G4 i (nth i l 0) ltac:(lia) Hn) as [[Y _]|[_ Y]]; [exact Y|]. unfold lo in *. lia.
      * intros i t. rewrite Eo, L2. intros Hi Hn. destruct (Nat.lt_ge_cases i (lo pt)) as [H|H]; [destruct (Xo2 i t H Hn) as [b Hb]; exists b; apply in_or_app; now left|].
        exists true. apply in_or_app. right. apply in_map_iff. exists i. split; [f_equal; now apply nth_error_nth|]. apply in_seq. lia.
      * unfold pt2 at 1. cbn [p_rows set_pod tr_commit_list]. rewrite Xr. f_equal. apply kept_ext. intros t _. rewrite Eo, in_app_iff. split; [tauto|]. intros [H|H]; [exact H|]. apply in_map_iff in H as (i & E & _). discriminate.
    + split; [repeat split| | | | |].
      * destruct (p_pod pt) as [pc pa]. cbn [c_commit c_abort] in *. f_equal; lia.
      * exact Xprep.
      * exact Xo.
      * exact Xo2.
      * exact Xr.
Qed.
Lemma exec_ok l dec (single : nat -> Prop) (f : rows -> nat -> rows) d0 m pt c M (t : nat) (ws : rows -> list write) seen :
  NoDup l -> (forall t b b', In (t, b) dec -> In (t, b') dec -> b = b') -> (forall t, In t l -> In (t, false) dec -> single t) ->
  xinv l dec single f d0 m pt -> good l dec c M -> M <= m -> nth_error l m = Some t -> p_seq pt = S m ->
  (forall i u, i < m -> nth_error l i = Some u -> (i < M <-> ~ In u seen)) ->
  (single t -> forall u, In u l -> ~ In u seen) -> (forall u, In u l -> In (u, false) dec -> ~ In u seen) ->
  (forall d, f d t = fst (run_writes (ws d) d [])) -> forall q,
  let pt1 := track_sync pt c in let r := run_writes (ws (p_rows pt1)) (p_rows pt1) [] in
  xinv l dec single f d0 (S m) (mkpart (S (p_seq pt1)) q (p_prep pt1 ++ [mktr (p_seq pt1) t (snd r)]) (p_pod pt1) (p_cons pt1) (p_pend pt1) (fst r) (p_out pt1)).
Proof.
  intros NDl Fun Lon X G HM Hn Hseq Hseen Hsing Hdec Hf q. cbv zeta. set (pt1 := track_sync pt c). pose proof (sync_ok l dec single f d0 m pt c M NDl Fun Lon X G HM) as Y. fold pt1 in Y.
  destruct Y as [(Y1 & Y2 & Y3 & Y4) Yp Yprep Yo Yo2 Yr]. destruct X as [Xm [P1 P2] Xprep Xab Xal _ _ _ _]. destruct G as (G1 & G2 & G3 & G4 & G5).
  assert (Hl : m < length l) by (apply nth_error_Some; congruence).
  destruct (run_writes (ws (p_rows pt1)) (p_rows pt1) []) as [d log] eqn:Er. cbn [fst snd].
  assert (Hlo : lo pt1 <= m) by (unfold lo; rewrite Yp; cbn [c_commit c_abort]; lia).
  assert (Nout : forall b, ~ In (t, b) (p_out pt1)).
  { intros b Hb. destruct (Yo _ _ Hb) as (_ & i & I1 & I2). assert (i = m); [|lia]. apply (proj1 (NoDup_nth_error l) NDl); [apply nth_error_Some; congruence|congruence]. }
  assert (Ek : kept (p_out pt1) [t] = [t]). { unfold kept. cbn [filter]. replace (existsb _ _) with false; [reflexivity|]. symmetry. destruct (existsb _ _) eqn:E; [|reflexivity]. apply kept_iff in E. destruct (Nout _ E). }
  split; cbn [p_seq p_queue p_prep p_pod p_rows p_out]; unfold lo; cbn [p_pod]; fold (lo pt1).
  - lia.
  - rewrite Yp. cbn [c_commit c_abort]. lia.
  - rewrite map_app. cbn [map r_id r_tx]. rewrite Yprep, Y1, Hseq. replace (S m - lo pt1) with (m - lo pt1 + 1) by lia. rewrite seq_app, map_app. cbn [seq map]. replace (lo pt1 + (m - lo pt1)) with m by lia. now rewrite (nth_error_nth _ _ 0 Hn).
  - intros i u Hi Hu Hd. rewrite Yp. cbn [c_abort]. destruct (Nat.eq_dec (S i) m) as [E|N]; [|pose proof (Xab i u ltac:(lia) Hu Hd); lia].
    assert (Hs : i < M) by (apply (Hseen i u ltac:(lia) Hu); apply Hdec; [exact (nth_error_In _ _ Hu)|exact Hd]). destruct (G4 i u Hs Hu) as [[D _]|[_ D]]; [pose proof (Fun _ _ _ D Hd); discriminate|lia].
  - intros u _ Hu Su. replace (S m - 1) with m in * by lia. rewrite Hn in Hu. inversion Hu. subst u. destruct m as [|k]; [lia|].
    assert (Hk : exists u, nth_error l k = Some u) by (destruct (nth_error l k) eqn:E; [eauto|apply nth_error_None in E; lia]). destruct Hk as [u Hk].
    assert (Hs : k < M) by (apply (Hseen k u ltac:(lia) Hk); apply Hsing; [exact Su|exact (nth_error_In _ _ Hk)]). unfold lo. rewrite Yp. cbn [c_commit c_abort]. destruct (G4 k u Hs Hk) as [[_ D]|[_ D]]; lia.
  - exact Yo.
  - exact Yo2.
  - rewrite (firstn_S l m t Hn), kept_app, fold_left_app, Ek. cbn [fold_left]. rewrite <- Yr. rewrite Hf, Er. reflexivity.
  - intros _ _. replace (S m - 1) with m by lia. exists (p_prep pt1), (mktr (p_seq pt1) t log). split; [reflexivity|]. cbn [r_log]. rewrite (run_undo _ _ _ _ _ Er). cbn. exact Yr.
Qed.

(** ** the state *)
Definition single (s : state) (t : nat) : Prop := forall u, In u (t_seen (tx_of s t)) -> ~ shr (s_txs s) u t.
Record pinv (init : nat -> rows) (s : state) (D : list nat) (p : nat) : Prop := mkpinv {
  j_x : exists m, p_seq (s_part s p) = S m /\ map fst (p_queue (s_part s p)) = skipn m (on s p) /\
        (forall i t, nth_error (on s p) i = Some t -> s_id s t p = if i <? m then S i else 0) /\
        (forall j t c, nth_error (p_queue (s_part s p)) j = Some (t, c) -> exists M, good (on s p) (s_dec s) c M /\ M <= m + j /\
           forall i u, i < m + j -> nth_error (on s p) i = Some u -> (i < M <-> ~ In u (t_seen (tx_of s t)))) /\
        xinv (on s p) (s_dec s) (single s) (run1 s p) (init p) m (s_part s p);
  j_pend : exists M, good (on s p) (s_dec s) (p_pend (s_part s p)) M /\ forall i t, nth_error (on s p) i = Some t -> (i < M <-> In t (map fst (s_dec s)));
  j_cons : exists M, good (on s p) (s_dec s) (p_cons (s_part s p)) M /\ forall i t, nth_error (on s p) i = Some t -> (i < M <-> In t D) }.
Definition einv (s : state) : Prop := forall t, s_done s t = true -> forall p, In p (parts_of s t) -> s_id s t p <> 0.
Lemma on_in s p t : In t (on s p) <-> t < length (s_txs s) /\ In p (parts_of s t).
Proof. unfold on. rewrite filter_In, in_seq, inb_iff. intuition lia. Qed.
Lemma on_nodup s p : NoDup (on s p).
Proof. apply NoDup_filter, seq_NoDup. Qed.
Lemma on_lt s p i j t u : nth_error (on s p) i = Some t -> nth_error (on s p) j = Some u -> i < j -> t < u.
Proof.
  intros Hi Hj L. apply nth_error_split in Hi as (a & b & E & El). destruct (filter_seq_lt _ _ _ _ _ E) as [H _]. apply H.
  rewrite E in Hj. rewrite nth_error_app2 in Hj by lia. rewrite El in Hj. destruct (j - i) as [|k] eqn:Ek; [lia|]. cbn in Hj. exact (nth_error_In _ _ Hj).
Qed.
Lemma on_le s p i j t u : nth_error (on s p) i = Some t -> nth_error (on s p) j = Some u -> t < u -> i < j.
Proof.
  intros Hi Hj L. destruct (Nat.lt_trichotomy i j) as [H|[->|H]]; [exact H|exfalso; assert (t = u) by congruence; lia|]. pose proof (on_lt _ _ _ _ _ _ Hj Hi H). lia.
Qed.
Lemma dec_fun s D : ginv s D -> dinv s -> forall t b b', In (t, b) (s_dec s) -> In (t, b') (s_dec s) -> b = b'.
Proof.
  intros V [P _] t b b' H1 H2. assert (ND : NoDup (map fst (s_dec s))). { pose proof (k_nodup _ _ _ _ _ _ _ (v_core _ _ V)) as N. apply nodup_r, nodup_r in N. rewrite P in N. clear - N. induction (map fst (s_dec s)) as [|x l IH]; [constructor|]. cbn in N. inversion N as [|? ? N1 N2]. subst. constructor; [intros H; apply N1, in_or_app; now left|now apply IH]. }
  clear - ND H1 H2. induction (s_dec s) as [|[x c] l IH]; [destruct H1|]. cbn in ND. inversion ND as [|? ? N ND']. subst. destruct H1 as [H1|H1], H2 as [H2|H2]; [congruence| | |now apply IH].
  - inversion H1. subst. exfalso. apply N. apply in_map_iff. exists (t, b'). auto.
  - inversion H2. subst. exfalso. apply N. apply in_map_iff. exists (t, b). auto.
Qed.
Lemma lonely_single s D : ginv s D -> lonely_aborts s -> forall p t, In t (on s p) -> In (t, false) (s_dec s) -> single s t.
Proof.
  intros V L p t Ht Hd u Hu S. apply on_in in Ht as [Ht _]. destruct (L u t) as [_ X]; [|exact (X Hd)]. split; [exact Ht|]. split; [exact Hu|exact S].
Qed.
Lemma pinv_execute init s D p s' : ginv s D -> dinv s -> lonely_aborts s -> (forall p, pinv init s D p) -> execute s p = Some s' -> forall p', pinv init s' D p'.
Proof.
  intros V DI L J H p'. unfold execute in H. destruct (p_queue (s_part s p)) as [|[t c] q] eqn:Eq; [discriminate|]. destruct (run_writes _ _ _) as [d log] eqn:Er. inversion H. subst s'. clear H.
  assert (Eon : forall p, on (mkstate (s_txs s) (s_next s) (s_list s) (s_abort s) (set2 (s_id s) t p (p_seq (track_sync (s_part s p) c))) (set1 (s_wrote s) t (s_wrote s t || negb (length log =? 0)))
       (s_done s) (s_mail s) (s_queue s) (s_batch s) (s_ready s) (s_pop s) (s_dec s)
       (set1 (s_part s) p (mkpart (S (p_seq (track_sync (s_part s p) c))) q (p_prep (track_sync (s_part s p) c) ++ [mktr (p_seq (track_sync (s_part s p) c)) t log]) (p_pod (track_sync (s_part s p) c)) (p_cons (track_sync (s_part s p) c)) (p_pend (track_sync (s_part s p) c)) d (p_out (track_sync (s_part s p) c))))) p = on s p) by reflexivity.
  destruct (Nat.eq_dec p' p) as [->|Np].
  - destruct (J p) as [(m & J1 & J2 & J3 & J4 & J5) Jp Jc]. rewrite Eq in J2. cbn [map fst] in J2.
    assert (Hn : nth_error (on s p) m = Some t). { rewrite <- (firstn_skipn m (on s p)), <- J2. rewrite nth_error_app2 by (rewrite firstn_length; lia). rewrite firstn_length. replace (m - Nat.min m (length (on s p))) with 0; [reflexivity|]. pose proof (x_m _ _ _ _ _ _ _ J5). lia. }
    destruct (J4 0 t c) as (M & G & HM & HS); [rewrite Eq; reflexivity|]. rewrite Nat.add_0_r in HM, HS.
    pose proof (dec_fun _ _ V DI) as Fun. pose proof (lonely_single _ _ V L p) as Lon.
    assert (Ht : t < length (s_txs s) /\ In p (parts_of s t)) by (apply on_in; exact (nth_error_In _ _ Hn)).
    assert (Sh : forall u, In u (on s p) -> shr (s_txs s) u t) by (intros u Hu; apply on_in in Hu as [_ Hu]; exists p; split; [exact Hu|apply Ht]).
    pose proof (exec_ok (on s p) (s_dec s) (single s) (run1 s p) (init p) m (s_part s p) c M t (fun d => t_prog (tx_of s t) p d) (t_seen (tx_of s t)) (on_nodup s p) Fun Lon J5 G HM Hn J1 HS) as X.
    pose proof (sync_ok (on s p) (s_dec s) (single s) (run1 s p) (init p) m (s_part s p) c M (on_nodup s p) Fun Lon J5 G HM) as Y. destruct Y as [(Y1 & Y2 & Y3 & Y4) _ _ _ _ _].
    split; unfold on, parts_of, tx_of, single, run1; cbn [s_txs s_dec s_id s_part]; fold (tx_of s); unfold set1; rewrite Nat.eqb_refl; cbn [p_seq p_queue p_pend p_cons].
    + exists (S m). rewrite Y1, J1. split; [reflexivity|]. split; [|split; [|split]].
      * change (map fst q = skipn (S m) (on s p)). rewrite <- (firstn_skipn m (on s p)). rewrite <- J2. rewrite skipn_app. rewrite skipn_all2 by (rewrite firstn_length; lia). rewrite firstn_length. cbn [app].
        replace (S m - Nat.min m (length (on s p))) with 1 by (pose proof (x_m _ _ _ _ _ _ _ J5); lia). reflexivity.
      * intros i u Hu. change (nth_error (on s p) i = Some u) in Hu. unfold set2. rewrite Nat.eqb_refl, Bool.andb_true_r. destruct (Nat.eqb_spec u t) as [->|Nu].
        -- assert (i = m) by (apply (proj1 (NoDup_nth_error _) (on_nodup s p)); [apply nth_error_Some; congruence|congruence]). subst i. destruct (Nat.ltb_spec m (S m)); [reflexivity|lia].
        -- rewrite (J3 i u Hu). assert (i <> m) by congruence. destruct (Nat.ltb_spec i m), (Nat.ltb_spec i (S m)); try reflexivity; lia.
      * intros j u cu Hj. destruct (J4 (S j) u cu) as (M' & G' & HM' & HS'); [rewrite Eq; exact Hj|]. exists M'. split; [exact G'|]. split; [lia|]. intros i w Hi Hw. apply HS'; [lia|exact Hw].
      * cbv beta zeta in X. rewrite Er in X. cbn [fst snd] in X. rewrite Y1, J1 in X. apply X.
        -- intros St u Hu Hs. exact (St u Hs (Sh u Hu)).
        -- intros u Hu Hd Hs. destruct (L u t) as [A _]; [|exact (A Hd)]. split; [apply Ht|]. split; [exact Hs|exact (Sh u Hu)].
        -- reflexivity.
    + rewrite Y4. exact Jp.
    + rewrite Y3. exact Jc.
  - destruct (J p') as [(m & J1 & J2 & J3 & J4 & J5) Jp Jc]. apply Nat.eqb_neq in Np.
    split; unfold on, parts_of, tx_of, single, run1; cbn [s_txs s_dec s_id s_part]; fold (tx_of s); unfold set1; rewrite Np.
    + exists m. split; [exact J1|]. split; [exact J2|]. split; [|split; [exact J4|exact J5]]. intros i u Hu. unfold set2. rewrite Np, Bool.andb_false_r. exact (J3 i u Hu).
    + exact Jp.
    + exact Jc.
Qed.
