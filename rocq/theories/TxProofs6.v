(** Progress: when the concurrent transactions have the same partitions. *)
From Coq Require Import Permutation Sorted.
From Verif Require Import Base TxModel TxSpec TxProofs TxProofs2 TxProofs3 TxProofs4 TxProofs5.
Local Open Scope nat_scope.

Definition osorted (o : nat -> nat) (l : list nat) : Prop := StronglySorted (fun a b => o a <= o b) l.
Lemma group_add_sorted o l t : osorted o l -> osorted o (group_add o l t).
Proof.
  induction l as [|x l IH]; intros H; cbn [group_add]; [repeat constructor|]. inversion H as [|? ? H1 H2]. subst. destruct (Nat.ltb_spec (o t) (o x)).
  - constructor; [exact H|]. constructor; [lia|]. rewrite Forall_forall in *. intros y Hy. specialize (H2 y Hy). lia.
  - constructor; [now apply IH|]. rewrite Forall_forall in *. intros y Hy. apply (Permutation_in _ (group_add_perm o l t)) in Hy. destruct Hy as [<-|Hy]; [lia|now apply H2].
Qed.
Lemma osorted_app_r o l r : osorted o (l ++ r) -> osorted o r.
Proof. induction l as [|x l IH]; intros H; [exact H|]. cbn in H. inversion H. now apply IH. Qed.
(** the queue of the commit task *)
Record qok (o : nat -> nat) (q : list group) : Prop := mkqok {
  w_sort : forall x, In x q -> osorted o (g_list x);
  w_head : forall x t r, In x q -> g_list x = t :: r -> o t <> g_next x }.
Lemma qok_add o q g t q' pop : qok o q -> commit_add o q g t = (q', pop) -> qok o q'.
Proof.
  intros [W1 W2] H. destruct (commit_add_spec o q g t) as (q1 & x & q2 & b & rest & n & Hq & Hx & Hn & Hp & Hc). rewrite Hc in H. injection H as H1 H2. subst q' pop.
  destruct (group_pop_spec _ _ _ _ _ _ Hp) as (Hl & _ & _ & Hh).
  assert (Hs : osorted o rest). { apply (osorted_app_r o b). rewrite <- Hl. apply group_add_sorted. destruct Hq as [->|(_ & _ & ->)]; [apply W1, in_or_app; right; now left|constructor]. }
  assert (I : forall y, In y (q1 ++ q2) -> In y q). { intros y Hy. destruct Hq as [->|(-> & -> & _)]; [|now rewrite app_nil_r in Hy]. apply in_app_iff in Hy. apply in_or_app. cbn. tauto. }
  assert (Cs : forall y, In y (q1 ++ mkgroup g n rest :: q2) -> y = mkgroup g n rest \/ In y q). { intros y Hy. apply in_app_iff in Hy. cbn in Hy. destruct Hy as [Hy|[Hy|Hy]]; [right; apply I, in_or_app; now left|now left|right; apply I, in_or_app; now right]. }
  split.
  - intros y Hy. destruct (Cs y Hy) as [->|Hy']; [exact Hs|now apply W1].
  - intros y u r Hy E. destruct (Cs y Hy) as [->|Hy']; [cbn in *; exact (Hh u r E)|exact (W2 y u r Hy' E)].
Qed.
(** nothing that was sent is lost, and the counter of the only active group is kept *)
Record lcore (txs : list tx) (next : nat) (live : Prop) (mail : list nat) (q : list group) (pop : list nat) (done : nat -> bool) : Prop := mklcore {
  l_q : qok (ord txs) q;
  l_all : forall t, done t = true -> In t (mail ++ concat (map g_list q) ++ pop);
  l_cnt : live -> forall t, In t pop -> grp txs t = next - 1 -> exists x, In x q /\ g_id x = next - 1 /\ ord txs t < g_next x }.
Lemma lcore_add txs next D (live : Prop) t mail q pop done : core txs next D (t :: mail) q pop done -> grp txs t = next - 1 -> live -> lcore txs next live (t :: mail) q pop done ->
  let (q', b) := commit_add (ord txs) q (grp txs t) t in lcore txs next live mail q' (pop ++ b) done.
Proof.
  intros K Eg Li [L1 L2 L3]. destruct (commit_add (ord txs) q (grp txs t) t) as [q' b] eqn:Ec. pose proof (qok_add _ _ _ _ _ _ L1 Ec) as Q.
  destruct (commit_add_spec (ord txs) q (grp txs t) t) as (q1 & x & q2 & pp & rest & n & Hq & Hx & Hn & Hp & Hc). rewrite Hc in Ec. injection Ec as E1 E2. subst q' pp.
  destruct (group_pop_spec _ _ _ _ _ _ Hp) as (Hl & Hn' & Ho & _). split; [exact Q| |].
  - intros u Hu. specialize (L2 u Hu). assert (X : t = u \/ In u (g_list x) -> In u b \/ In u rest). { intros Y. apply in_app_iff. rewrite <- Hl. apply (Permutation_in _ (Permutation_sym (group_add_perm (ord txs) (g_list x) t))). cbn. intuition congruence. }
    rewrite concat_mid. cbn [g_list]. rewrite !in_app_iff. cbn [app In] in L2. rewrite !in_app_iff in L2. destruct Hq as [->|(-> & -> & ->)].
    + rewrite concat_mid, !in_app_iff in L2. clear - L2 X. tauto.
    + cbn in *. clear - L2 X. tauto.
  - intros _ u Hu Gu. exists (mkgroup (grp txs t) n rest). split; [apply in_or_app; right; now left|]. split; [exact Eg|]. cbn [g_next]. apply in_app_iff in Hu as [Hu|Hu].
    + destruct (L3 Li u Hu Gu) as (y & Y1 & Y2 & Y3). assert (y = x); [|subst y; lia]. destruct Hq as [->|(-> & -> & ->)].
      * apply in_app_iff in Y1 as [Y1|[Y1|Y1]]; [|congruence|].
        -- exfalso. apply Hn. rewrite Eg, <- Y2. now apply in_map.
        -- exfalso. pose proof (k_qid _ _ _ _ _ _ _ K) as N. rewrite map_app in N. apply nodup_r in N. cbn [map] in N. inversion N as [|? ? N1 _]. apply N1. rewrite Hx, Eg, <- Y2. now apply in_map.
      * exfalso. apply Hn. rewrite Eg, <- Y2. now apply in_map.
    + assert (X : In (ord txs u) (map (ord txs) b)) by now apply in_map. rewrite Ho in X. apply in_seq in X. lia.
Qed.
Lemma lcore_loop s next D (live : Prop) done : live -> forall l mail q b, core (s_txs s) next D (l ++ mail) q (s_pop s ++ b) done -> (forall t, In t l -> grp (s_txs s) t = next - 1) -> lcore (s_txs s) next live (l ++ mail) q (s_pop s ++ b) done ->
  let (q', b') := collect_loop s l q b in lcore (s_txs s) next live mail q' (s_pop s ++ b') done.
Proof.
  intros Li. induction l as [|t l IH]; intros mail q b K Hg L; cbn [collect_loop]; [exact L|]. cbn [app] in K, L. pose proof (core_add _ _ _ _ _ _ _ _ K) as K'. pose proof (lcore_add _ _ _ _ _ _ _ _ _ K (Hg t (or_introl eq_refl)) Li L) as L'.
  change (order_of s) with (ord (s_txs s)). change (group_of s t) with (grp (s_txs s) t). destruct (commit_add (ord (s_txs s)) q (grp (s_txs s) t) t) as [q' p].
  apply IH; [now rewrite app_assoc|intros u Hu; apply Hg; now right|now rewrite app_assoc].
Qed.
Record linv (s : state) (D : list nat) : Prop := mklinv {
  l_core : lcore (s_txs s) (s_next s) (s_list s <> []) (s_mail s) (s_queue s) (s_pop s) (s_done s);
  l_one : forall t, In t (s_list s) -> grp (s_txs s) t = s_next s - 1;
  l_fresh : forall t, s_done s t = true -> t < length (s_txs s);
  l_cont : forall t k, t < length (s_txs s) -> k < ord (s_txs s) t -> exists u, u < length (s_txs s) /\ grp (s_txs s) u = grp (s_txs s) t /\ ord (s_txs s) u = k }.
Lemma crowded_prev s e s' : step s e = Some s' -> (forall t1 t2, t2 < length (s_txs s) -> In t1 (t_seen (nth t2 (s_txs s) notx)) -> t1 < t2) -> crowded s' -> crowded s.
Proof.
  intros H Sn C t1 t2 A B. destruct (step_txs _ _ _ H) as [E|(parts & pr & ->)].
  - specialize (C t1 t2). unfold attached, shares, parts_of, tx_of in *. rewrite E in C. auto.
  - cbn in H. inversion H. subst s'. clear H. destruct (attach_form s parts pr) as (g & o & nx & Ea). rewrite Ea in C. clear Ea. specialize (C t1 t2). unfold attached, shares, parts_of, tx_of in *. cbn [s_txs] in C. pose proof (Sn t1 t2 A B). rewrite app_length in C. rewrite !app_nth1 in C by lia. apply C; [lia|exact B].
Qed.
Lemma linv_attach s D parts pr : ginv s D -> linv s D -> parts <> [] -> crowded (attach s parts pr) -> linv (attach s parts pr) D.
Proof.
  intros V [L1 L2 L3 L4] Np C. pose proof (v_core _ _ V) as K. unfold attach in *.
  assert (X : exists g o nx, (match find (fun r => overlaps (t_parts (tx_of s r)) parts) (rev (s_list s)) with Some r => (t_group (tx_of s r), S (t_order (tx_of s r)), s_next s) | None => (s_next s, 0, S (s_next s)) end) = (g, o, nx) /\
     ((exists r, In r (s_list s) /\ g = grp (s_txs s) r /\ o = S (ord (s_txs s) r) /\ nx = s_next s) \/ (find (fun r => overlaps (t_parts (tx_of s r)) parts) (rev (s_list s)) = None /\ g = s_next s /\ o = 0 /\ nx = S (s_next s)))).
  { destruct (find _ _) as [y|] eqn:Ef.
    - do 3 eexists. split; [reflexivity|]. left. exists y. apply find_some in Ef as [Hy _]. apply in_rev in Hy. auto.
    - do 3 eexists. split; [reflexivity|]. right. auto. }
  destruct X as (g & o & nx & Ex & Hc). rewrite Ex in *.
  assert (E : forall t, t < length (s_txs s) -> nth t (s_txs s ++ [mktx parts pr g o (s_list s)]) notx = nth t (s_txs s) notx) by (intros t Ht; now apply app_nth1).
  assert (En : nth (length (s_txs s)) (s_txs s ++ [mktx parts pr g o (s_list s)]) notx = mktx parts pr g o (s_list s)) by (rewrite app_nth2, Nat.sub_diag by lia; reflexivity).
  assert (Hlist : forall t, In t (s_list s) -> t < length (s_txs s)) by (intros t Ht; apply (in_list _ _ _ V) in Ht; apply Ht).
  assert (Hnone : find (fun r => overlaps (t_parts (tx_of s r)) parts) (rev (s_list s)) = None -> s_list s = []).
  { intros Hf. destruct (s_list s) as [|y l] eqn:El; [reflexivity|exfalso]. assert (Hy : In y (s_list s)) by (rewrite El; now left). rewrite <- El in *.
    pose proof (find_none _ _ Hf y ltac:(now apply -> in_rev)) as Ov. apply Bool.not_true_iff_false in Ov. apply Ov. apply overlaps_iff.
    specialize (C y (length (s_txs s))). unfold attached, shares, parts_of, tx_of in C. cbn [s_txs] in C. rewrite En in C. rewrite app_length in C. cbn [length t_seen t_parts] in C. rewrite (E y (Hlist y Hy)) in C.
    destruct C as (p & P1 & P2); [lia|exact Hy|]. exists p. split; [exact P1|exact P2]. }
  assert (Att : forall t, In t (s_mail s ++ concat (map g_list (s_queue s)) ++ s_pop s) -> t < length (s_txs s)) by (intros t Ht; apply (k_att _ _ _ _ _ _ _ K t Ht)).
  split; cbn [s_txs s_next s_list s_mail s_queue s_pop s_done].
  - destruct L1 as [Q1 Q2 Q3]. split.
    + assert (Eo : forall x t, In x (s_queue s) -> In t (g_list x) -> ord (s_txs s ++ [mktx parts pr g o (s_list s)]) t = ord (s_txs s) t).
      { intros x t Hx Ht. unfold ord. rewrite E; [reflexivity|]. apply Att. apply in_or_app. right. apply in_or_app. left. apply in_concat. exists (g_list x). split; [now apply in_map|exact Ht]. }
      destruct Q1 as [W1 W2]. split.
      * intros x Hx. specialize (W1 x Hx). specialize (Eo x). clear - W1 Eo Hx. induction W1 as [|a l H IH F]; [constructor|]. constructor; [apply IH; intros t _ Ht; apply Eo; [exact Hx|now right]|].
        rewrite Forall_forall in *. intros y Hy. rewrite !Eo by (try exact Hx; cbn; auto). now apply F.
      * intros x t r Hx El. rewrite (Eo x t Hx); [exact (W2 x t r Hx El)|]. rewrite El. now left.
    + exact Q2.
    + intros _ t Ht Hg. assert (At : t < length (s_txs s)) by (apply Att; rewrite !in_app_iff; tauto). unfold grp, ord in *. rewrite (E t At) in *. destruct Hc as [(r & Hr & _ & _ & ->)|(Hf & _ & _ & ->)].
      * apply Q3; [intros Hn; rewrite Hn in Hr; destruct Hr|exact Ht|exact Hg].
      * pose proof (k_grp _ _ _ _ _ _ _ K t At) as Hk. unfold grp in Hk. lia.
  - intros t Ht. unfold grp in *. apply in_app_iff in Ht as [Ht|[<-|[]]].
    + rewrite (E t (Hlist t Ht)), (L2 t Ht). destruct Hc as [(r & _ & _ & _ & ->)|(Hf & _ & _ & ->)]; [reflexivity|]. rewrite (Hnone Hf) in Ht. destruct Ht.
    + rewrite En. cbn [t_group]. destruct Hc as [(r & Hr & -> & _ & ->)|(Hf & -> & _ & ->)]; [now apply L2|lia].
  - intros t Ht. rewrite app_length. specialize (L3 t Ht). lia.
  - intros t k Ht Hk. rewrite app_length in *. cbn [length] in *. unfold grp, ord in *. destruct (Nat.eq_dec t (length (s_txs s))) as [->|N].
    + rewrite En in *. cbn [t_order t_group] in *. destruct Hc as [(r & Hr & -> & -> & _)|(_ & _ & -> & _)]; [|lia]. destruct (Nat.eq_dec k (t_order (nth r (s_txs s) notx))) as [->|Nk].
      * exists r. rewrite E by now apply Hlist. pose proof (Hlist r Hr). split; [lia|auto].
      * destruct (L4 r k (Hlist r Hr) ltac:(lia)) as (u & U1 & U2 & U3). exists u. rewrite (E u U1). split; [lia|auto].
    + rewrite E in * by lia. destruct (L4 t k ltac:(lia) Hk) as (u & U1 & U2 & U3). exists u. rewrite (E u U1). split; [lia|auto].
Qed.
Lemma linv_complete s D t err s' : ginv s D -> linv s D -> complete s t err = Some s' -> linv s' D.
Proof.
  intros V [[Q1 Q2 Q3] L2 L3 L4] H. unfold complete in H. destruct (_ && _) eqn:C; [|discriminate]. inversion H. apply andb_prop in C as [C _]. apply andb_prop in C as [C1 C2]. apply Nat.ltb_lt in C1.
  split; cbn [s_txs s_next s_list s_mail s_queue s_pop s_done]; try assumption.
  - split; try assumption. intros u Hu. rewrite <- app_assoc. cbn [app]. unfold set1 in Hu. rewrite in_app_iff. cbn [In]. destruct (Nat.eqb_spec u t) as [Eu|Eu]; [auto|]. specialize (Q2 u Hu). rewrite in_app_iff in Q2. tauto.
  - intros u Hu. unfold set1 in Hu. destruct (Nat.eqb_spec u t) as [Eu|Eu]; [lia|now apply L3].
Qed.
Lemma linv_collect s D n s' : ginv s D -> linv s D -> collect s n = Some s' -> linv s' D.
Proof.
  intros V [L1 L2 L3 L4] H. unfold collect in H. destruct (s_batch s) as [|x r] eqn:Eb; [|discriminate]. destruct (_ && _) eqn:C; [|discriminate].
  apply andb_prop in C as [C1 C2]. apply Nat.leb_le in C1, C2.
  assert (HL : forall t, In t (s_mail s) -> In t (s_list s)).
  { intros t Ht. apply (in_list _ _ _ V). split; [apply (k_att _ _ _ _ _ _ _ (v_core _ _ V)); apply in_or_app; now left|]. intros HD. apply (k_D _ _ _ _ _ _ _ (v_core _ _ V)) in HD.
    apply (nodup_dis _ _ t (k_nodup _ _ _ _ _ _ _ (v_core _ _ V)) Ht). apply in_or_app. now right. }
  assert (Li : s_list s <> []) by (destruct (s_mail s) as [|y m]; [cbn in C2; lia|]; intros Hn; specialize (HL y (or_introl eq_refl)); rewrite Hn in HL; destruct HL).
  pose proof (lcore_loop s (s_next s) D (s_list s <> []) (s_done s) Li (firstn n (s_mail s)) (skipn n (s_mail s)) (s_queue s) []) as X. rewrite firstn_skipn, app_nil_r in X. specialize (X (v_core _ _ V)).
  destruct (collect_loop s (firstn n (s_mail s)) (s_queue s) []) as [q b]. inversion H. split; cbn [s_txs s_next s_list s_mail s_queue s_pop s_done]; try assumption. apply X; [|exact L1].
  intros t Ht. apply in_firstn in Ht. now apply L2, HL.
Qed.
Lemma linv_detach s D s' : ginv s D -> linv s D -> detach s = Some s' -> linv s' (s_pop s).
Proof.
  intros V [[Q1 Q2 Q3] L2 L3 L4] H. unfold detach in H. destruct (s_batch s) as [|x r] eqn:Eb; [discriminate|]. destruct (s_ready s); [|discriminate]. rewrite <- Eb in *. clear x r Eb.
  set (l' := filter (fun t => negb (existsb (Nat.eqb t) (s_batch s))) (s_list s)) in *.
  assert (I : forall t, In t l' <-> In t (s_list s) /\ ~ In t (s_batch s)) by (intros t; unfold l'; rewrite filter_In, Bool.negb_true_iff, inb_false; tauto).
  assert (Q : exists h, (match l' with [] => [] | t :: _ => filter (fun g => negb (g_id g <? group_of s t)) (s_queue s) end) = filter h (s_queue s) /\ forall x, (l' <> [] /\ g_id x = s_next s - 1) -> h x = true).
  { destruct l' as [|y l] eqn:El.
    - exists (fun _ => false). split; [clear; induction (s_queue s) as [|z q IH]; [reflexivity|exact IH]|]. intros x [Hx _]. destruct (Hx eq_refl).
    - eexists. split; [reflexivity|]. intros x [_ Hx]. cbv beta. apply Bool.negb_true_iff, Nat.ltb_ge. rewrite Hx. assert (Hy : In y (s_list s)) by (apply I; now left). pose proof (L2 y Hy) as Z. unfold group_of, tx_of. unfold grp in Z. lia. }
  destruct Q as (h & Eq & Hh). rewrite Eq in H. inversion H. split; cbn [s_txs s_next s_list s_mail s_queue s_pop s_done]; try assumption.
  - split.
    + destruct Q1 as [W1 W2]. split; intros y; [intros Hy; apply filter_In in Hy as [Hy _]; now apply W1|intros t r Hy; apply filter_In in Hy as [Hy _]; now apply W2].
    + intros t Ht. pose proof (Q2 t Ht) as X. rewrite !in_app_iff in *. destruct X as [X|[X|X]]; [now left| |tauto]. right; left. apply in_concat in X as (z & Z1 & Z2). apply in_map_iff in Z1 as (y & <- & Y).
      apply in_concat. exists (g_list y). split; [|exact Z2]. apply in_map. apply filter_In. split; [exact Y|]. apply Hh.
      assert (Np : ~ In t (s_pop s)). { intros Hp. pose proof (k_nodup _ _ _ _ _ _ _ (v_core _ _ V)) as N. apply nodup_r in N. apply (nodup_dis _ _ t N); [|exact Hp]. apply in_concat. exists (g_list y). split; [now apply in_map|exact Z2]. }
      rewrite (v_pop _ _ V), in_app_iff in Np. assert (Hl : In t (s_list s)) by (apply (in_list _ _ _ V); split; [now apply L3|tauto]).
      assert (Hl' : In t l') by (apply I; split; [exact Hl|tauto]). split; [intros Hn; rewrite Hn in Hl'; destruct Hl'|]. rewrite <- (k_queue _ _ _ _ _ _ _ (v_core _ _ V) y t Y Z2). now apply L2.
    + intros Li t Ht Hg. destruct (Q3) with (t := t) as (y & Y1 & Y2 & Y3); [|exact Ht|exact Hg|].
      * intros Hn. apply Li. unfold l'. now rewrite Hn.
      * exists y. split; [apply filter_In; split; [exact Y1|apply Hh; auto]|auto].
  - intros t Ht. apply I in Ht as [Ht _]. now apply L2.
Qed.
Lemma reach_linv init s : reach init s -> laned s -> crowded s -> exists D, ginv s D /\ linv s D.
Proof.
  intros R. induction R as [|s e s' R IH Va H]; intros L1 L2.
  - exists []. split; [apply ginv_start|]. split; cbn; try (intros; discriminate); try (intros; contradiction); try (intros; lia). split; cbn; try (intros; discriminate); try (intros; contradiction). split; [intros x []|intros x t r []].
  - destruct (reach_ginv _ _ R (laned_prev _ _ _ H L1)) as [D0 V0]. destruct (IH (laned_prev _ _ _ H L1) (crowded_prev _ _ _ H (v_seen _ _ V0) L2)) as (D & V & L). clear IH D0 V0. destruct e as [parts pr|p|t err|n|w|]; cbn [step] in H.
    + inversion H. subst s'. exists D. split; [apply ginv_attach; [exact V|apply Va|apply Va|exact L1]|]. apply linv_attach; [exact V|exact L|apply Va|exact L2].
    + exists D. split; [exact (ginv_execute _ _ _ _ V H)|]. unfold execute in H. destruct (p_queue (s_part s p)) as [|[t c] q]; [discriminate|]. destruct (run_writes _ _ _). inversion H. destruct L. split; assumption.
    + exists D. split; [exact (ginv_complete _ _ _ _ _ V H)|]. exact (linv_complete _ _ _ _ _ V L H).
    + exists D. split; [exact (ginv_collect _ _ _ _ V H)|]. exact (linv_collect _ _ _ _ V L H).
    + exists D. split; [exact (ginv_process _ _ _ _ V H)|]. unfold process in H. destruct (s_batch s) as [|x r]; [discriminate|]. destruct (s_ready s); [discriminate|]. destruct (process_loop _ _ _ _) as [ab parts]. match type of H with (let (_, _) := ?m in _) = _ => destruct m as [ab2 parts2] end. inversion H. destruct L. split; assumption.
    + exists (s_pop s). split; [exact (ginv_detach _ _ _ V H)|]. exact (linv_detach _ _ _ V L H).
Qed.
Lemma progress init s : reach init s -> laned s -> crowded s -> s_mail s = [] -> s_batch s = [] -> (forall t, attached s t -> s_done s t = true) -> forall t, attached s t -> exists b, decided s t b.
Proof.
  intros R L1 L2 Em Eb Dn t Ht. destruct (reach_linv _ _ R L1 L2) as (D & V & [[Q1 Q2 Q3] O1 _ O2]). pose proof (v_core _ _ V) as K. destruct (reach_dinv _ _ R) as [P P2].
  assert (Hd : In t (s_pop s)).
  { destruct (in_dec Nat.eq_dec t (s_pop s)) as [H|H]; [exact H|exfalso]. pose proof (v_pop _ _ V) as Ep. rewrite Eb, app_nil_r in Ep.
    assert (Hl : In t (s_list s)) by (apply (in_list _ _ _ V); rewrite <- Ep; auto). assert (Li : s_list s <> []) by (intros Hn; rewrite Hn in Hl; destruct Hl).
    destruct (k_pre _ _ _ _ _ _ _ K (s_next s - 1)) as (k & K1 & K2 & _). pose proof (O1 t Hl) as Gt. assert (Hk : ~ ord (s_txs s) t < k) by (intros X; apply H; now apply K1).
    assert (Hu : exists u, u < length (s_txs s) /\ grp (s_txs s) u = s_next s - 1 /\ ord (s_txs s) u = k).
    { destruct (Nat.eq_dec (ord (s_txs s) t) k) as [Ek|Nk]; [exists t; auto|]. destruct (O2 t k Ht ltac:(lia)) as (u & U1 & U2 & U3). exists u. split; [exact U1|]. split; [congruence|exact U3]. }
    destruct Hu as (u & U1 & U2 & U3). assert (Nu : ~ In u (s_pop s)) by (intros X; apply (K1 u U1 U2) in X; lia).
    pose proof (Q2 u (Dn u U1)) as X. rewrite Em in X. cbn [app] in X. apply in_app_iff in X as [X|X]; [|contradiction]. apply in_concat in X as (z & Z1 & Z2). apply in_map_iff in Z1 as (y & <- & Y).
    assert (Gy : g_id y = s_next s - 1) by (rewrite <- (k_queue _ _ _ _ _ _ _ K y u Y Z2); exact U2).
    assert (Ny : forall v, In v (g_list y) -> v < length (s_txs s) /\ ~ In v (s_pop s) /\ grp (s_txs s) v = s_next s - 1).
    { intros v Hv. assert (Hc : In v (concat (map g_list (s_queue s)))) by (apply in_concat; exists (g_list y); split; [now apply in_map|exact Hv]). split; [apply (k_att _ _ _ _ _ _ _ K); rewrite !in_app_iff; tauto|]. split; [|rewrite (k_queue _ _ _ _ _ _ _ K y v Y Hv); exact Gy].
      intros Hp. pose proof (k_nodup _ _ _ _ _ _ _ K) as N. apply nodup_r in N. exact (nodup_dis _ _ v N Hc Hp). }
    assert (Hn : g_next y = k).
    { destruct (K2 y Y Gy) as [E|E]; [exact E|]. destruct (Nat.eq_dec k 0) as [->|Nk]; [exact E|exfalso].
      destruct (Nat.eq_dec k (S (k - 1))) as [Ek|]; [|lia]. assert (W : exists w, w < length (s_txs s) /\ grp (s_txs s) w = s_next s - 1 /\ ord (s_txs s) w = k - 1). { destruct (O2 u (k - 1) U1 ltac:(lia)) as (w & W1 & W2 & W3). exists w. split; [exact W1|]. split; [congruence|exact W3]. }
      destruct W as (w & W1 & W2 & W3). assert (Hw : In w (s_pop s)) by (apply (K1 w W1 W2); lia). destruct (Q3 Li w Hw W2) as (v & V1 & V2 & V3).
      assert (v = y); [|subst v; lia]. pose proof (k_qid _ _ _ _ _ _ _ K) as N. clear - N V1 Y V2 Gy. induction (s_queue s) as [|a q IH]; [destruct Y|]. cbn in N. inversion N as [|? ? N1 N2]. subst. destruct V1 as [->|V1], Y as [->|Y]; [reflexivity| | |now apply IH].
      - exfalso. apply N1. rewrite V2, <- Gy. now apply in_map.
      - exfalso. apply N1. rewrite Gy, <- V2. now apply in_map. }
    destruct Q1 as [W1 W2]. specialize (W1 y Y). destruct (g_list y) as [|h r] eqn:El; [destruct Z2|]. apply (W2 y h r Y El). rewrite Hn.
    assert (Hh : k <= ord (s_txs s) h). { destruct (Ny h (or_introl eq_refl)) as (N1 & N2 & N3). destruct (Nat.lt_ge_cases (ord (s_txs s) h) k) as [X|X]; [|exact X]. exfalso. apply N2. now apply K1. }
    destruct Z2 as [->|Z2]; [exact U3|]. inversion W1 as [|? ? _ F]. subst. rewrite Forall_forall in F. specialize (F u Z2). cbn in F. lia. }
  rewrite P, P2 in Hd by exact Eb. rewrite Eb, app_nil_r in Hd. apply in_map_iff in Hd as ([u b] & E & Hb). cbn in E. subst u. exists b. exact Hb.
Qed.
