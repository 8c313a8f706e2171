(** Serial equivalence, and what the commit task never decides. *)
From Coq Require Import Permutation Sorted.
From Verif Require Import Base TxModel TxSpec TxProofs TxProofs2 TxProofs3 TxProofs4.
Local Open Scope nat_scope.

Lemma committed_iff s t : committed s t = true <-> In (t, true) (s_dec s).
Proof.
  unfold committed. rewrite existsb_exists. split.
  - intros ([u b] & H & E). apply andb_prop in E as [E1 E2]. apply Nat.eqb_eq in E1. cbn in *. now subst.
  - intros H. exists (t, true). split; [exact H|]. cbn. now rewrite Nat.eqb_refl.
Qed.
Lemma applied_decided init s : reach init s -> laned s -> lonely_aborts s -> forall p t b, applied s p t b -> decided s t b.
Proof.
  intros R L1 L2 p t b H. destruct (reach_pinv _ _ R L1 L2) as (D & V & J & E). destruct (j_x _ _ _ _ (J p)) as (m & _ & _ & _ & _ & X). exact (proj1 (x_out _ _ _ _ _ _ _ X t b H)).
Qed.
Lemma visible_serial init s : reach init s -> laned s -> lonely_aborts s -> forall p, (forall t, In t (on s p) -> ~ In t (s_list s)) -> visible s p = serial s p (filter (committed s) (on s p)) (init p).
Proof.
  intros R L1 L2 p F. destruct (reach_pinv _ _ R L1 L2) as (D & V & J & E). destruct (J p) as [(m & J1 & J2 & J3 & J4 & J5) _ (M & G & HM)].
  pose proof (dec_fun _ _ V (reach_dinv _ _ R)) as Fun. pose proof (lonely_single _ _ V L2 p) as Lon. pose proof (x_m _ _ _ _ _ _ _ J5) as Xm.
  assert (HD : forall t, In t (on s p) -> In t D). { intros t Ht. destruct (in_dec Nat.eq_dec t D) as [H|H]; [exact H|]. exfalso. apply (F t Ht). apply (in_list _ _ _ V). split; [now apply on_in in Ht|exact H]. }
  assert (HM' : M = length (on s p)). { destruct G as (G1 & _). destruct (Nat.eq_dec M (length (on s p))) as [H|H]; [exact H|]. destruct (nth_error (on s p) M) as [t|] eqn:Et; [|apply nth_error_None in Et; lia]. pose proof (proj2 (HM M t Et) (HD t (nth_error_In _ _ Et))). lia. }
  assert (Hm : m = length (on s p)).
  { destruct (Nat.eq_dec m (length (on s p))) as [H|H]; [exact H|]. destruct (nth_error (on s p) m) as [t|] eqn:Et; [|apply nth_error_None in Et; lia]. pose proof (HD t (nth_error_In _ _ Et)) as Ht.
    assert (Hpop : In t (s_pop s)) by (apply (k_D _ _ _ _ _ _ _ (v_core _ _ V)); exact Ht). pose proof (id_pos init s D p t m E V (J p) Hpop Et) as Hi. rewrite (J3 m t Et), Nat.ltb_irrefl in Hi. discriminate. }
  pose proof (sync_ok _ _ _ _ _ _ _ _ _ (on_nodup s p) Fun Lon J5 G ltac:(lia)) as Y. unfold visible. destruct Y as [_ Yp _ Yo Yo2 Yr]. rewrite Yr. unfold serial. rewrite Hm, firstn_all.
  f_equal. unfold kept. apply filter_ext_in. intros t Ht. apply In_nth_error in Ht as [i Hi].
  assert (Hil : i < M) by (rewrite HM'; apply nth_error_Some; congruence).
  assert (Hlo : i < lo (track_sync (s_part s p) (p_cons (s_part s p)))). { destruct G as (_ & _ & _ & G4 & _). unfold lo. rewrite Yp. cbn [c_commit c_abort]. destruct (G4 i t Hil Hi) as [[_ X]|[_ X]]; lia. }
  destruct (Yo2 i t Hlo Hi) as [b Hb]. pose proof (proj1 (Yo t b Hb)) as Hd. destruct (committed s t) eqn:Ec.
  - apply committed_iff in Ec. apply Bool.negb_true_iff, Bool.not_true_iff_false. rewrite kept_iff. intros X. pose proof (proj1 (Yo t false X)) as Y. pose proof (Fun _ _ _ Ec Y). discriminate.
  - apply Bool.negb_false_iff. apply kept_iff. destruct b; [|exact Hb]. exfalso. apply committed_iff in Hd. congruence.
Qed.

(** ** a transaction that is never decided *)
Lemma commit_add_app o q1 q2 g t : commit_add o (q1 ++ q2) g t =
  (if existsb (Nat.eqb g) (map g_id q1) then let (q', pop) := commit_add o q1 g t in (q' ++ q2, pop) else let (q', pop) := commit_add o q2 g t in (q1 ++ q', pop)).
Proof.
  induction q1 as [|x q1 IH]; [cbn [app map existsb]; now destruct (commit_add o q2 g t)|]. cbn [app commit_add map existsb]. rewrite (Nat.eqb_sym g (g_id x)). destruct (g_id x =? g); cbn [orb].
  - destruct (group_pop _ _ _) as [[pop rest] n]. reflexivity.
  - rewrite IH. destruct (existsb _ (map g_id q1)); [destruct (commit_add o q1 g t)|destruct (commit_add o q2 g t)]; reflexivity.
Qed.
Lemma commit_add_in o q g t q' pop : commit_add o q g t = (q', pop) -> (forall y, In y (pop ++ concat (map g_list q')) -> y = t \/ In y (concat (map g_list q))) /\ incl (map g_id q') (g :: map g_id q).
Proof.
  intros H. destruct (commit_add_spec o q g t) as (q1 & x & q2 & b & rest & n & Hq & Hx & Hn & Hp & Hc). rewrite Hc in H. injection H as H1 H2. subst q' pop.
  destruct (group_pop_spec _ _ _ _ _ _ Hp) as (Hl & _). split.
  - intros y Hy. assert (X : In y (t :: g_list x) \/ In y (concat (map g_list q1)) \/ In y (concat (map g_list q2))).
    { rewrite concat_mid in Hy. cbn [g_list] in Hy. rewrite !in_app_iff in Hy. rewrite <- (group_add_perm o (g_list x) t), Hl, in_app_iff. tauto. }
    destruct Hq as [->|(-> & -> & ->)].
    + rewrite concat_mid, !in_app_iff. cbn in X. intuition congruence.
    + cbn in X. intuition congruence.
  - intros y Hy. rewrite map_app in Hy. cbn [map g_id] in Hy. apply in_app_iff in Hy. destruct Hq as [->|(-> & -> & ->)].
    + rewrite map_app. cbn [map]. cbn. rewrite in_app_iff. cbn in *. intuition congruence.
    + cbn in *. intuition congruence.
Qed.
(** [c] is the first of its group's list in the queue, and the counter of the group has passed it *)
Record qstuck (o : nat -> nat) (g c : nat) (q : list group) : Prop := mkqstuck {
  q_split : exists q1 n r q2, q = q1 ++ mkgroup g n (c :: r) :: q2 /\ ~ In g (map g_id q1) /\ o c < n /\ ~ In c (concat (map g_list q1)) /\ ~ In c (concat (map g_list q2)) }.
Lemma qstuck_add o g c q t g' : qstuck o g c q -> t <> c -> (g' = g -> o c < o t) -> let (q', pop) := commit_add o q g' t in qstuck o g c q' /\ ~ In c pop.
Proof.
  intros [(q1 & n & r & q2 & -> & N1 & Lt & C1 & C2)] Nt Ho. rewrite commit_add_app. destruct (existsb (Nat.eqb g') (map g_id q1)) eqn:Ex.
  - apply inb_iff in Ex. destruct (commit_add o q1 g' t) as [q' pop] eqn:Ea. destruct (commit_add_in _ _ _ _ _ _ Ea) as [I1 I2]. assert (Hc : ~ In c (pop ++ concat (map g_list q'))) by (intros H; destruct (I1 c H); [congruence|contradiction]). rewrite in_app_iff in Hc.
    split; [|tauto]. split. exists q', n, r, q2. repeat split; try assumption; [|tauto]. intros H. apply I2 in H as [H|H]; [congruence|contradiction].
  - apply inb_false in Ex. cbn [commit_add g_id g_list g_next]. destruct (Nat.eqb_spec g g') as [<-|Ng].
    + cbn [group_add]. specialize (Ho eq_refl). destruct (Nat.ltb_spec (o t) (o c)); [lia|]. cbn [group_pop]. destruct (Nat.eqb_spec (o c) n); [lia|]. split; [|intros []]. split. exists q1, n, (group_add o r t), q2. auto.
    + destruct (commit_add o q2 g' t) as [q' pop] eqn:Ea. destruct (commit_add_in _ _ _ _ _ _ Ea) as [I1 I2]. assert (Hc : ~ In c (pop ++ concat (map g_list q'))) by (intros H; destruct (I1 c H); [congruence|contradiction]). rewrite in_app_iff in Hc.
      split; [|tauto]. split. exists q1, n, r, q'. repeat split; try assumption. tauto.
Qed.
Record stuck (c : nat) (s : state) : Prop := mkstuck {
  u_lt : c < length (s_txs s);
  u_done : s_done s c = true;
  u_list : exists r, s_list s = c :: r;
  u_ord : forall t, In t (s_list s) -> t < length (s_txs s) /\ (grp (s_txs s) t = grp (s_txs s) c -> ord (s_txs s) c <= ord (s_txs s) t);
  u_rest : forall t, t < length (s_txs s) -> s_done s t = false -> grp (s_txs s) t = grp (s_txs s) c -> ord (s_txs s) c < ord (s_txs s) t;
  u_mail : forall t, In t (s_mail s) -> t < length (s_txs s) /\ t <> c /\ (grp (s_txs s) t = grp (s_txs s) c -> ord (s_txs s) c < ord (s_txs s) t);
  u_new : grp (s_txs s) c < s_next s;
  u_fresh : forall t, t >= length (s_txs s) -> s_done s t = false;
  u_q : qstuck (ord (s_txs s)) (grp (s_txs s) c) c (s_queue s);
  u_batch : ~ In c (s_batch s);
  u_dec : forall b, ~ In (c, b) (s_dec s) }.
Lemma stuck_loop s c : c < length (s_txs s) -> forall l q b, (forall t, In t l -> t <> c /\ (grp (s_txs s) t = grp (s_txs s) c -> ord (s_txs s) c < ord (s_txs s) t)) ->
  qstuck (ord (s_txs s)) (grp (s_txs s) c) c q -> ~ In c b -> let (q', b') := collect_loop s l q b in qstuck (ord (s_txs s)) (grp (s_txs s) c) c q' /\ ~ In c b'.
Proof.
  intros Lc. induction l as [|t l IH]; intros q b Hl Hq Hb; cbn [collect_loop]; [auto|]. destruct (Hl t (or_introl eq_refl)) as [H1 H2].
  pose proof (qstuck_add _ _ _ _ t (group_of s t) Hq H1 H2) as X. change (order_of s) with (ord (s_txs s)). destruct (commit_add (ord (s_txs s)) q (group_of s t) t) as [q' pop]. destruct X as [X1 X2].
  apply IH; [intros u Hu; apply Hl; now right|exact X1|]. rewrite in_app_iff. tauto.
Qed.
Lemma stuck_step c s e s' : stuck c s -> step s e = Some s' -> stuck c s'.
Proof.
  intros U H. destruct U as [U1 U2 (r & U3) U4 U5 U6 U7 U8 U9 U10 U11]. destruct e as [parts pr|p|t err|n|w|]; cbn [step] in H.
  - inversion H. clear H. subst s'. unfold attach.
    assert (X : exists g o nx, (match find (fun r => overlaps (t_parts (tx_of s r)) parts) (rev (s_list s)) with Some r => (t_group (tx_of s r), S (t_order (tx_of s r)), s_next s) | None => (s_next s, 0, S (s_next s)) end) = (g, o, nx) /\ s_next s <= nx /\ (g = grp (s_txs s) c -> ord (s_txs s) c < o)).
    { destruct (find _ _) as [y|] eqn:Ef.
      - exists (t_group (tx_of s y)), (S (t_order (tx_of s y))), (s_next s). split; [reflexivity|]. split; [lia|]. intros E. apply find_some in Ef as [Hy _]. apply in_rev in Hy. destruct (U4 y Hy) as [_ X]. specialize (X E). unfold ord, tx_of in *. lia.
      - exists (s_next s), 0, (S (s_next s)). split; [reflexivity|]. split; [lia|]. intros E. lia. }
    destruct X as (g & o & nx & -> & Hnx & Hgo).
    assert (E : forall t, t < length (s_txs s) -> nth t (s_txs s ++ [mktx parts pr g o (s_list s)]) notx = nth t (s_txs s) notx) by (intros t Ht; now apply app_nth1).
    assert (En : nth (length (s_txs s)) (s_txs s ++ [mktx parts pr g o (s_list s)]) notx = mktx parts pr g o (s_list s)) by (rewrite app_nth2, Nat.sub_diag by lia; reflexivity).
    unfold grp, ord in *. split; cbn [s_txs s_done s_list s_mail s_next s_queue s_batch s_dec]; unfold grp, ord; rewrite ?(E c U1); try assumption.
    + rewrite app_length. cbn. lia.
    + rewrite U3. eexists. reflexivity.
    + intros t Ht. rewrite app_length. cbn [length]. apply in_app_iff in Ht as [Ht|[<-|[]]].
      * destruct (U4 t Ht) as [A B]. rewrite (E t A). split; [lia|exact B].
      * rewrite En. cbn. split; [lia|]. intros X. specialize (Hgo X). lia.
    + intros t Ht Hd. rewrite app_length in Ht. cbn [length] in Ht. destruct (Nat.eq_dec t (length (s_txs s))) as [->|N]; [rewrite En; exact Hgo|]. rewrite E by lia. apply U5; [lia|exact Hd].
    + intros t Ht. destruct (U6 t Ht) as (A & B & C). rewrite (E t A), app_length. cbn [length]. split; [lia|auto].
    + lia.
    + intros t Ht. rewrite app_length in Ht. apply U8. lia.
    + destruct U9 as [(q1 & n & rr & q2 & Q1 & Q2 & Q3 & Q4)]. split. exists q1, n, rr, q2. split; [exact Q1|]. split; [exact Q2|]. split; [rewrite (E c U1); exact Q3|exact Q4].
  - unfold execute in H. destruct (p_queue (s_part s p)) as [|[t c0] q]; [discriminate|]. destruct (run_writes _ _ _). inversion H. split; try assumption. eexists. exact U3.
  - unfold complete in H. destruct (_ && _) eqn:C; [|discriminate]. inversion H. apply andb_prop in C as [C _]. apply andb_prop in C as [C1 C2]. apply Nat.ltb_lt in C1. apply Bool.negb_true_iff in C2. assert (Nt : t <> c) by (intros ->; congruence).
    split; cbn [s_txs s_done s_list s_mail s_next s_queue s_batch s_dec]; try assumption.
    + unfold set1. destruct (c =? t); [reflexivity|exact U2].
    + eexists. exact U3.
    + intros u Hu. unfold set1. destruct (u =? t); [discriminate|now apply U5].
    + intros u Hu. apply in_app_iff in Hu as [Hu|[<-|[]]]; [now apply U6|]. split; [exact C1|]. split; [exact Nt|]. now apply U5.
    + intros u Hu. unfold set1. destruct (Nat.eqb_spec u t) as [Eu|Eu]; [lia|now apply U8].
  - unfold collect in H. destruct (s_batch s); [|discriminate]. destruct (_ && _); [|discriminate]. pose proof (stuck_loop s c U1 (firstn n (s_mail s)) (s_queue s) []) as X.
    destruct (collect_loop s (firstn n (s_mail s)) (s_queue s) []) as [q b]. destruct X as [X1 X2]; [|exact U9|intros []|].
    { intros t Ht. apply in_firstn in Ht. now apply U6. }
    inversion H. split; cbn [s_txs s_done s_list s_mail s_next s_queue s_batch s_dec]; try assumption; [eexists; exact U3|]. intros t Ht. apply U6. rewrite <- (firstn_skipn n (s_mail s)). apply in_or_app. now right.
  - unfold process in H. destruct (s_batch s) as [|x b] eqn:Eb; [discriminate|]. destruct (s_ready s); [discriminate|]. rewrite <- Eb in *. destruct (process_loop _ _ _ _) as [ab parts]. match type of H with (let (_, _) := ?m in _) = _ => destruct m as [ab2 parts2] end.
    inversion H. split; cbn [s_txs s_done s_list s_mail s_next s_queue s_batch s_dec]; try assumption; [eexists; exact U3|]. intros v Hv. apply in_app_iff in Hv as [Hv|Hv]; [exact (U11 v Hv)|]. apply in_map_iff in Hv as (y & E & Hy). injection E as E _. subst y. contradiction.
  - unfold detach in H. destruct (s_batch s) as [|x b] eqn:Eb; [discriminate|]. destruct (s_ready s); [|discriminate]. rewrite <- Eb in *. clear x b Eb. apply inb_false in U10.
    assert (El : filter (fun t => negb (existsb (Nat.eqb t) (s_batch s))) (s_list s) = c :: filter (fun t => negb (existsb (Nat.eqb t) (s_batch s))) r) by (rewrite U3; cbn [filter]; rewrite U10; reflexivity).
    rewrite El in H. inversion H. split; cbn [s_txs s_done s_list s_mail s_next s_queue s_batch s_dec]; try assumption.
    + eexists. reflexivity.
    + intros t Ht. apply U4. rewrite <- El in Ht. apply filter_In in Ht. apply Ht.
    + destruct U9 as [(q1 & n & rr & q2 & Q1 & Q2 & Q3 & Q4 & Q5)]. split. change (group_of s c) with (grp (s_txs s) c).
      exists (filter (fun g => negb (g_id g <? grp (s_txs s) c)) q1), n, rr, (filter (fun g => negb (g_id g <? grp (s_txs s) c)) q2). rewrite Q1, filter_app. cbn [filter g_id]. rewrite Nat.ltb_irrefl. cbn [negb].
      assert (I : forall h q, incl (concat (map g_list (filter h q))) (concat (map g_list q))). { intros h q y Hy. apply in_concat in Hy as (z & Z1 & Z2). apply in_map_iff in Z1 as (v & <- & V). apply filter_In in V as [V _]. apply in_concat. exists (g_list v). split; [now apply in_map|exact Z2]. }
      split; [reflexivity|]. split; [|split; [exact Q3|split; intros X; apply I in X; contradiction]]. intros X. apply Q2. apply in_map_iff in X as (v & V1 & V2). apply filter_In in V2 as [V2 _]. apply in_map_iff. eauto.
    + intros [].
Qed.
Lemma stuck_later c s : stuck c s -> forall s', later s s' -> forall b, ~ decided s' c b.
Proof. intros U s' L. assert (X : stuck c s') by (induction L as [|s1 e s2 L IH Va E]; [exact U|exact (stuck_step _ _ _ _ IH E)]). apply (u_dec _ _ X). Qed.
