(** The decisions of the commit task and the partitions. *)
From Coq Require Import Permutation.
From Verif Require Import Base TxModel TxSpec TxProofs TxProofs2 TxProofs3.
Local Open Scope nat_scope.

Lemma set_pend_id pt : set_pend pt (p_pend pt) = pt.
Proof. now destruct pt. Qed.
Lemma set_pend_2 pt c c' : set_pend (set_pend pt c) c' = set_pend pt c'.
Proof. reflexivity. Qed.
Lemma note_all_spec a id : forall l parts p, NoDup l -> note_all a id l parts p = if existsb (Nat.eqb p) l then set_pend (parts p) (note a (id p) (p_pend (parts p))) else parts p.
Proof.
  induction l as [|x l IH]; intros parts p N; [reflexivity|]. inversion N as [|? ? Nx N']. subst. cbn [note_all existsb]. rewrite (IH _ _ N'). unfold set1. destruct (Nat.eqb_spec p x) as [->|Np]; [|reflexivity].
  cbn [orb]. apply inb_false in Nx. rewrite Nx. reflexivity.
Qed.
Lemma nodup_app_l {A} (l r : list A) : NoDup (l ++ r) -> NoDup l.
Proof. induction l as [|x l IH]; intros H; [constructor|]. cbn in H. inversion H as [|? ? N H']. subst. constructor; [intros Hx; apply N, in_or_app; now left|now apply IH]. Qed.

(** what holds for the partitions while the batch is processed; [A]: the transactions decided so far *)
Definition wip (s : state) (dec : list (nat * bool)) (A : list nat) (parts : nat -> part) : Prop :=
  forall p, exists c M, parts p = set_pend (s_part s p) c /\ good (on s p) dec c M /\ forall i t, nth_error (on s p) i = Some t -> (i < M <-> In t A).
Definition zinv (s : state) : Prop := forall t p, t >= length (s_txs s) -> s_id s t p = 0.
Lemma batch_pos s D A t r : ginv s D -> s_pop s = A ++ t :: r -> forall p M, In p (parts_of s t) -> (forall i t, nth_error (on s p) i = Some t -> (i < M <-> In t A)) -> M <= length (on s p) -> nth_error (on s p) M = Some t.
Proof.
  intros V Ep p M Hp HM Hl. pose proof (v_core _ _ V) as K.
  assert (Ht : t < length (s_txs s)) by (apply (k_att _ _ _ _ _ _ _ K); rewrite !in_app_iff; right; right; rewrite Ep; apply in_or_app; right; now left).
  assert (NA : ~ In t A). { intros H. pose proof (k_nodup _ _ _ _ _ _ _ K) as N. apply nodup_r, nodup_r in N. rewrite Ep in N. apply (nodup_dis _ _ t N H). now left. }
  assert (Hon : In t (on s p)) by (apply on_in; auto). apply In_nth_error in Hon as [i Hi].
  assert (HiM : ~ i < M) by (intros H; apply NA; apply (HM i t Hi); exact H).
  destruct (Nat.eq_dec i M) as [->|N]; [exact Hi|exfalso]. assert (LM : M < length (on s p)) by (assert (i < length (on s p)) by (apply nth_error_Some; congruence); lia).
  destruct (nth_error (on s p) M) as [u|] eqn:Eu; [|apply nth_error_None in Eu; lia]. pose proof (on_lt _ _ _ _ _ _ Eu Hi ltac:(lia)) as Lt.
  assert (Hu : In u A). { apply (k_c11 _ _ _ _ _ _ _ K A t r Ep u Lt). exists p. split; [|exact Hp]. apply nth_error_In, on_in in Eu. apply Eu. }
  apply (HM M u Eu) in Hu. lia.
Qed.
Lemma good_snoc l dec c M t a : good l dec c M -> nth_error l M = Some t -> good l (dec ++ [(t, negb a)]) (note a (S M) c) (S M).
Proof.
  intros (G1 & G2 & G3 & G4 & G5) Hn. assert (M < length l) by (apply nth_error_Some; congruence). unfold note. destruct a; cbn [negb].
  - destruct (Nat.ltb_spec (c_abort c) (S M)); [|lia]. split; [lia|]. cbn [c_commit c_abort]. split; [lia|]. split; [lia|]. split.
    + intros i u Hi Hu. destruct (Nat.eq_dec i M) as [->|N].
      * right. rewrite Hn in Hu. inversion Hu. split; [apply in_or_app; right; now left|lia].
      * destruct (G4 i u ltac:(lia) Hu) as [[X Y]|[X Y]]; [left|right]; (split; [apply in_or_app; now left|lia]).
    + right. exists t. replace (S M - 1) with M by lia. split; [exact Hn|]. apply in_or_app. right. now left.
  - destruct (Nat.ltb_spec (c_commit c) (S M)); [|lia]. split; [lia|]. cbn [c_commit c_abort]. split; [lia|]. split; [lia|]. split.
    + intros i u Hi Hu. destruct (Nat.eq_dec i M) as [->|N].
      * left. rewrite Hn in Hu. inversion Hu. split; [apply in_or_app; right; now left|lia].
      * destruct (G4 i u ltac:(lia) Hu) as [[X Y]|[X Y]]; [left|right]; (split; [apply in_or_app; now left|lia]).
    + destruct G5 as [G5|(u & U1 & U2)]; [now left|right]. exists u. split; [exact U1|]. apply in_or_app. now left.
Qed.
(** the id of a decided transaction is its position *)
Lemma id_pos init s D p t i : einv s -> ginv s D -> pinv init s D p -> In t (s_pop s) -> nth_error (on s p) i = Some t -> s_id s t p = S i.
Proof.
  intros E V J Ht Hi. assert (Hd : s_done s t = true) by (apply (k_att _ _ _ _ _ _ _ (v_core _ _ V)); rewrite !in_app_iff; tauto).
  assert (Hp : In p (parts_of s t)) by (apply nth_error_In, on_in in Hi; apply Hi). pose proof (E t Hd p Hp) as Nz. destruct (j_x _ _ _ _ J) as (m & _ & _ & J3 & _). rewrite (J3 i t Hi) in *. destruct (i <? m); [reflexivity|lia].
Qed.
Lemma process_ok init s D : ginv s D -> dinv s -> einv s -> (forall p, pinv init s D p) -> s_ready s = false ->
  forall r b1 ab parts, s_batch s = b1 ++ r -> (forall t, ab t = s_abort s t) -> wip s (s_dec s ++ map (fun t => (t, negb (s_abort s t))) b1) (map fst (s_dec s) ++ b1) parts ->
  let (ab', parts') := process_loop s r ab parts in (forall t, ab' t = s_abort s t) /\ wip s (s_dec s ++ map (fun t => (t, negb (s_abort s t))) (s_batch s)) (map fst (s_dec s) ++ s_batch s) parts'.
Proof.
  intros V [P _] E J Rd. rewrite Rd in P. induction r as [|t r IH]; intros b1 ab parts Eb Ha W; cbn [process_loop].
  { rewrite app_nil_r in Eb. subst b1. auto. }
  set (A := map fst (s_dec s) ++ b1) in *. assert (Ep : s_pop s = A ++ t :: r) by (unfold A; rewrite <- app_assoc, <- Eb; exact P).
  assert (Hpop : In t (s_pop s)) by (rewrite Ep; apply in_or_app; right; now left).
  assert (Hpar : NoDup (t_parts (tx_of s t)) /\ t < length (s_txs s)). { assert (Ht : t < length (s_txs s)) by (apply (k_att _ _ _ _ _ _ _ (v_core _ _ V)); rewrite !in_app_iff; tauto). split; [apply (v_parts _ _ V t Ht)|exact Ht]. } destruct Hpar as [Hpar _].
  assert (Em : must_abort parts (s_id s t) (t_parts (tx_of s t)) = false).
  { unfold must_abort. destruct (existsb _ _) eqn:Ex; [|reflexivity]. exfalso. apply existsb_exists in Ex as (p & Hp & Hx). destruct (W p) as (c & M & Ec & G & HM). pose proof G as (G1 & G2 & G3 & _).
    pose proof (batch_pos s D A t r V Ep p M Hp HM G1) as Hn. rewrite (id_pos init s D p t M E V (J p) Hpop Hn) in Hx. rewrite Ec in Hx. cbn [set_pend p_pend p_cons] in Hx.
    destruct (j_cons _ _ _ _ (J p)) as (Mc & (_ & _ & Gc3 & _) & HMc). apply Bool.orb_prop in Hx as [Hx|Hx]; apply Nat.leb_le in Hx; [lia|].
    assert (Hd : In t D) by (apply (HMc M t Hn); lia). pose proof (k_nodup _ _ _ _ _ _ _ (v_core _ _ V)) as N. apply nodup_r, nodup_r in N. rewrite (v_pop _ _ V), Eb in N. apply (nodup_dis _ _ t N Hd). apply in_or_app. right. now left. }
  rewrite Em, Bool.orb_false_r. apply (IH (b1 ++ [t])); [rewrite <- app_assoc; exact Eb| |].
  - intros x. unfold set1. destruct (Nat.eqb_spec x t) as [->|N]; apply Ha.
  - intros p. rewrite note_all_spec by exact Hpar. destruct (W p) as (c & M & Ec & G & HM). rewrite map_app. cbn [map]. rewrite (app_assoc (s_dec s)), (app_assoc (map fst _)). fold A.
    destruct (existsb (Nat.eqb p) (t_parts (tx_of s t))) eqn:Ex.
    + apply inb_iff in Ex. pose proof (batch_pos s D A t r V Ep p M Ex HM (proj1 G)) as Hn. rewrite (id_pos init s D p t M E V (J p) Hpop Hn). exists (note (ab t) (S M) c), (S M). rewrite Ec. split; [reflexivity|]. split; [rewrite Ha; now apply good_snoc|].
      intros i u Hu. rewrite in_app_iff. cbn. rewrite <- (HM i u Hu). split; [intros Hi; destruct (Nat.eq_dec i M) as [->|N]; [right; left; congruence|left; lia]|]. intros [H|[H|[]]]; [lia|]. subst u.
      assert (i = M) by (apply (proj1 (NoDup_nth_error _) (on_nodup s p)); [apply nth_error_Some; congruence|congruence]). lia.
    + apply inb_false in Ex. exists c, M. split; [exact Ec|]. split; [apply (good_dec _ _ _ _ _ (incl_appl _ (incl_refl _)) G)|]. intros i u Hu. rewrite in_app_iff. cbn. rewrite (HM i u Hu). split; [tauto|]. intros [H|[H|[]]]; [exact H|]. subst u. exfalso. apply Ex. apply nth_error_In, on_in in Hu. apply Hu.
Qed.
Lemma wip_flip l dec0 (ab : nat -> bool) b c M t i : good l (dec0 ++ map (fun t => (t, negb (ab t))) b) c M -> In t b -> NoDup l ->
  nth_error l i = Some t -> i < M -> good l (dec0 ++ map (fun x => (x, negb (set1 ab t true x))) b) (note true (S i) c) M.
Proof.
  intros (G1 & G2 & G3 & G4 & G5) Ht ND Hi HiM.
  assert (I : forall u, In (u, false) (dec0 ++ map (fun t => (t, negb (ab t))) b) -> In (u, false) (dec0 ++ map (fun x => (x, negb (set1 ab t true x))) b)).
  { intros u. rewrite !in_app_iff, !in_map_iff. intros [H|(x & Ex & Hx)]; [now left|right]. injection Ex as E1 E2. subst u. exists x. split; [|exact Hx]. unfold set1. destruct (x =? t); cbn [negb]; [reflexivity|now rewrite E2]. }
  assert (It : forall u, u <> t -> In (u, true) (dec0 ++ map (fun t => (t, negb (ab t))) b) -> In (u, true) (dec0 ++ map (fun x => (x, negb (set1 ab t true x))) b)).
  { intros u Nu. rewrite !in_app_iff, !in_map_iff. intros [H|(x & Ex & Hx)]; [now left|right]. injection Ex as E1 E2. subst u. exists x. split; [|exact Hx]. unfold set1. apply Nat.eqb_neq in Nu. now rewrite Nu, E2. }
  assert (If : In (t, false) (dec0 ++ map (fun x => (x, negb (set1 ab t true x))) b)).
  { rewrite in_app_iff, in_map_iff. right. exists t. split; [|exact Ht]. unfold set1. now rewrite Nat.eqb_refl. }
  unfold note. split; [exact G1|]. cbn [c_commit c_abort]. split; [exact G2|]. split; [destruct (_ <? _); lia|]. split.
  - intros j u Hj Hu. destruct (Nat.eq_dec u t) as [->|Nu].
    + right. split; [exact If|]. assert (j = i) by (apply (proj1 (NoDup_nth_error _) ND); [apply nth_error_Some; congruence|congruence]). subst j. destruct (Nat.ltb_spec (c_abort c) (S i)); lia.
    + destruct (G4 j u Hj Hu) as [[X Y]|[X Y]]; [left; auto|right]. split; [auto|]. destruct (Nat.ltb_spec (c_abort c) (S i)); lia.
  - destruct (Nat.ltb_spec (c_abort c) (S i)).
    + right. exists t. replace (S i - 1) with i by lia. auto.
    + destruct G5 as [G5|(u & U1 & U2)]; [now left|right; eauto].
Qed.
Lemma abort_ok init s D dec0 A : ginv s D -> einv s -> (forall p, pinv init s D p) -> incl (s_batch s) A ->
  forall r b1 ab parts, s_batch s = b1 ++ r -> (forall t, In t b1 -> ab t = true) -> wip s (dec0 ++ map (fun t => (t, negb (ab t))) (s_batch s)) A parts ->
  let (ab', parts') := abort_loop s r ab parts in (forall t, In t (s_batch s) -> ab' t = true) /\ (forall t, ~ In t (s_batch s) -> ab' t = ab t) /\ wip s (dec0 ++ map (fun t => (t, negb (ab' t))) (s_batch s)) A parts'.
Proof.
  intros V E J HA. induction r as [|t r IH]; intros b1 ab parts Eb Ha W; cbn [abort_loop].
  { rewrite app_nil_r in Eb. subst b1. auto. }
  assert (Hb : In t (s_batch s)) by (rewrite Eb; apply in_or_app; right; now left).
  assert (Hpop : In t (s_pop s)) by (rewrite (v_pop _ _ V); apply in_or_app; now right).
  assert (Hpar : NoDup (t_parts (tx_of s t))). { assert (Ht : t < length (s_txs s)) by (apply (k_att _ _ _ _ _ _ _ (v_core _ _ V)); rewrite !in_app_iff; tauto). apply (v_parts _ _ V t Ht). }
  destruct (ab t) eqn:Et.
  - apply (IH (b1 ++ [t])); [rewrite <- app_assoc; exact Eb| |exact W]. intros x Hx. apply in_app_iff in Hx as [Hx|[<-|[]]]; auto.
  - specialize (IH (b1 ++ [t]) (set1 ab t true) (note_all true (s_id s t) (t_parts (tx_of s t)) parts)).
    destruct (abort_loop s r (set1 ab t true) (note_all true (s_id s t) (t_parts (tx_of s t)) parts)) as [ab' parts'].
    destruct IH as (I1 & I2 & I3).
    + rewrite <- app_assoc; exact Eb.
    + intros x Hx. unfold set1. destruct (Nat.eqb_spec x t); [reflexivity|]. apply in_app_iff in Hx as [Hx|[<-|[]]]; [auto|congruence].
    + intros p. rewrite note_all_spec by exact Hpar. destruct (W p) as (c & M & Ec & G & HM). destruct (existsb (Nat.eqb p) (t_parts (tx_of s t))) eqn:Ex.
      * apply inb_iff in Ex. assert (Hon : In t (on s p)). { apply on_in. split; [|exact Ex]. apply (k_att _ _ _ _ _ _ _ (v_core _ _ V)); rewrite !in_app_iff; tauto. }
        apply In_nth_error in Hon as [i Hi]. rewrite (id_pos init s D p t i E V (J p) Hpop Hi). exists (note true (S i) c), M. rewrite Ec. split; [reflexivity|]. split; [|exact HM].
        apply wip_flip; [exact G|exact Hb|apply on_nodup|exact Hi|]. apply (HM i t Hi). apply HA, Hb.
      * apply inb_false in Ex. exists c, M. split; [exact Ec|]. split; [|exact HM].
        assert (No : forall u, In u (on s p) -> u <> t) by (intros u Hu ->; apply Ex; now apply on_in in Hu).
        assert (Iu : forall u b, u <> t -> In (u, b) (dec0 ++ map (fun t => (t, negb (ab t))) (s_batch s)) -> In (u, b) (dec0 ++ map (fun x => (x, negb (set1 ab t true x))) (s_batch s))).
        { intros u b Nu. rewrite !in_app_iff, !in_map_iff. intros [H|(x & E1 & Hx)]; [now left|right]. injection E1 as E1 E2. subst u. exists x. split; [|exact Hx]. unfold set1. apply Nat.eqb_neq in Nu. now rewrite Nu, E2. }
        destruct G as (G1 & G2 & G3 & G4 & G5). split; [exact G1|]. split; [exact G2|]. split; [exact G3|]. split.
        -- intros j u Hj Hu. pose proof (No u (nth_error_In _ _ Hu)) as Nu. destruct (G4 j u Hj Hu) as [[X Y]|[X Y]]; [left|right]; auto.
        -- destruct G5 as [G5|(u & U1 & U2)]; [now left|right]. exists u. pose proof (No u (nth_error_In _ _ U1)). auto.
    + split; [exact I1|]. split; [|exact I3]. intros x Hx. rewrite (I2 x Hx). unfold set1. destruct (Nat.eqb_spec x t) as [->|]; [contradiction|reflexivity].
Qed.

(** ** the steps *)
Lemma process_form init s D w s' : ginv s D -> dinv s -> einv s -> (forall p, pinv init s D p) -> process s w = Some s' ->
  exists ab parts, s' = mkstate (s_txs s) (s_next s) (s_list s) ab (s_id s) (s_wrote s) (s_done s) (s_mail s) (s_queue s) (s_batch s) true (s_pop s) (s_dec s ++ map (fun t => (t, negb (ab t))) (s_batch s)) parts /\
   s_pop s = map fst (s_dec s) ++ s_batch s /\ wip s (s_dec s ++ map (fun t => (t, negb (ab t))) (s_batch s)) (map fst (s_dec s) ++ s_batch s) parts.
Proof.
  intros V DI E J H. unfold process in H. destruct (s_batch s) as [|x b] eqn:Eb; [discriminate|]. destruct (s_ready s) eqn:Rd; [discriminate|]. rewrite <- Eb in *. clear x b Eb.
  assert (P : s_pop s = map fst (s_dec s) ++ s_batch s) by (destruct DI as [P _]; rewrite Rd in P; exact P).
  pose proof (process_ok init s D V DI E J Rd (s_batch s) [] (s_abort s) (s_part s) eq_refl ltac:(reflexivity)) as X. cbn [map] in X. rewrite !app_nil_r in X.
  destruct (process_loop s (s_batch s) (s_abort s) (s_part s)) as [ab parts]. destruct X as [X1 X2].
  { intros p. destruct (j_pend _ _ _ _ (J p)) as (M & G & HM). exists (p_pend (s_part s p)), M. rewrite set_pend_id. auto. }
  assert (Em : map (fun t => (t, negb (s_abort s t))) (s_batch s) = map (fun t => (t, negb (ab t))) (s_batch s)) by (apply map_ext; intros t; now rewrite X1). rewrite Em in X2.
  destruct (existsb _ _ && negb w).
  - pose proof (abort_ok init s D (s_dec s) (map fst (s_dec s) ++ s_batch s) V E J (incl_appr _ (incl_refl _)) (s_batch s) [] ab parts eq_refl ltac:(intros t []) X2) as Y.
    destruct (abort_loop s (s_batch s) ab parts) as [ab2 parts2]. destruct Y as (_ & _ & Y). inversion H. exists ab2, parts2. auto.
  - inversion H. exists ab, parts. auto.
Qed.
Lemma pinv_process init s D w s' : ginv s D -> dinv s -> einv s -> lonely_aborts s' -> (forall p, pinv init s D p) -> process s w = Some s' -> forall p, pinv init s' D p.
Proof.
  intros V DI E L J H p. destruct (process_form init s D w s' V DI E J H) as (ab & parts & -> & P & W). clear H.
  match type of L with lonely_aborts ?x => set (s' := x) in * end. set (dec' := s_dec s ++ map (fun t => (t, negb (ab t))) (s_batch s)) in *.
  assert (I : incl (s_dec s) dec') by (apply incl_appl, incl_refl).
  assert (Em : map fst dec' = map fst (s_dec s) ++ s_batch s) by (unfold dec'; rewrite map_app, map_map; cbn [fst]; now rewrite map_id).
  destruct (W p) as (c & M & Ec & G & HM). destruct (J p) as [(m & J1 & J2 & J3 & J4 & J5) _ (Mc & Gc & Hc)]. pose proof (x_m _ _ _ _ _ _ _ J5) as Xm.
  assert (Ep : s_part s' p = set_pend (s_part s p) c) by exact Ec. split; rewrite Ep; cbn [set_pend p_seq p_queue p_pend p_cons].
  - exists m. split; [exact J1|]. split; [exact J2|]. split; [exact J3|]. split.
    + intros j t cj Hj. destruct (J4 j t cj Hj) as (Mj & Gj & Hj1 & Hj2). exists Mj. split; [exact (good_dec _ _ _ _ _ I Gj)|]. split; [exact Hj1|exact Hj2].
    + apply (xinv_part _ _ _ _ _ _ (s_part s p)); try reflexivity. refine (xinv_dec _ (s_dec s) dec' _ _ _ _ _ I _ J5).
      intros i t Hi Ht Hd. change (nth_error (on s p) i = Some t) in Ht. unfold dec' in Hd. apply in_app_iff in Hd as [Hd|Hd]; [exact Hd|exfalso]. assert (Hd' : decided s' t false) by (apply in_or_app; now right).
      apply in_map_iff in Hd as (x & Ex & Hx). injection Ex as E1 E2. subst x.
      destruct (nth_error (on s p) (m - 1)) as [u|] eqn:Eu; [|apply nth_error_None in Eu; lia]. pose proof (on_lt _ _ _ _ _ _ Ht Eu ltac:(lia)) as Lt.
      pose proof (nth_error_In _ _ Eu) as Hu. apply on_in in Hu as [Hu1 Hu2]. pose proof (nth_error_In _ _ Ht) as Hin. apply on_in in Hin as [Ht1 Ht2].
      assert (Sh : shr (s_txs s) t u) by (exists p; auto).
      destruct (in_dec Nat.eq_dec t (t_seen (tx_of s u))) as [Hs|Hs].
      * destruct (L t u) as [A _]; [|exact (A Hd')]. split; [exact Hu1|]. split; [exact Hs|exact Sh].
      * pose proof (v_free _ _ V t u Lt Hu1 Sh Hs) as HD. pose proof (k_nodup _ _ _ _ _ _ _ (v_core _ _ V)) as N. apply nodup_r, nodup_r in N. rewrite (v_pop _ _ V) in N. exact (nodup_dis _ _ t N HD Hx).
  - exists M. split; [exact G|]. intros i t Hi. change (s_dec s') with dec'. rewrite Em. exact (HM i t Hi).
  - exists Mc. split; [exact (good_dec _ _ _ _ _ I Gc)|exact Hc].
Qed.
Lemma pinv_detach init s D s' : ginv s D -> dinv s -> (forall p, pinv init s D p) -> detach s = Some s' -> forall p, pinv init s' (s_pop s) p.
Proof.
  intros V DI J H p. unfold detach in H. destruct (s_batch s) as [|x b] eqn:Eb; [discriminate|]. destruct (s_ready s) eqn:Rd; [|discriminate]. rewrite <- Eb in *. clear x b Eb. inversion H. clear H.
  match goal with |- pinv _ ?x _ _ => set (s1 := x) end. assert (P : s_pop s = map fst (s_dec s)) by (destruct DI as [P _]; rewrite Rd, app_nil_r in P; exact P).
  set (used := existsb (fun t => existsb (Nat.eqb p) (t_parts (tx_of s t))) (s_batch s)).
  assert (Ep : s_part s1 p = if used then mkpart (p_seq (s_part s p)) (p_queue (s_part s p)) (p_prep (s_part s p)) (p_pod (s_part s p)) (p_pend (s_part s p)) (p_pend (s_part s p)) (p_rows (s_part s p)) (p_out (s_part s p)) else s_part s p) by reflexivity.
  destruct (J p) as [Jx (Mp & Gp & Hp) (Mc & Gc & Hc)]. destruct used eqn:U; split; rewrite Ep; cbn [p_seq p_queue p_pend p_cons].
  - destruct Jx as (m & J1 & J2 & J3 & J4 & J5). exists m. split; [exact J1|]. split; [exact J2|]. split; [exact J3|]. split; [exact J4|]. apply (xinv_part _ _ _ _ _ _ (s_part s p)); try reflexivity. exact J5.
  - exists Mp. split; [exact Gp|exact Hp].
  - exists Mp. split; [exact Gp|]. rewrite P. exact Hp.
  - exact Jx.
  - exists Mp. split; [exact Gp|exact Hp].
  - exists Mc. split; [exact Gc|]. intros i t Hi. rewrite (Hc i t Hi). rewrite (v_pop _ _ V), in_app_iff. split; [tauto|]. intros [X|X]; [exact X|exfalso].
    apply Bool.not_true_iff_false in U. apply U. apply existsb_exists. exists t. split; [exact X|]. apply inb_iff. apply nth_error_In, on_in in Hi. apply Hi.
Qed.
Lemma lonely_prev s e s' : step s e = Some s' -> lonely_aborts s' -> lonely_aborts s.
Proof.
  intros H L t1 t2 M. assert (M' : met s' t1 t2 /\ incl (s_dec s) (s_dec s')).
  { destruct (step_txs _ _ _ H) as [E|(parts & pr & ->)].
    - split; [unfold met, attached, shares, parts_of, tx_of in *; rewrite E; exact M|]. clear - H. destruct e as [parts pr|p|t err|n|w|]; cbn [step] in H.
      + inversion H. unfold attach. destruct (match find _ _ with Some _ => _ | None => _ end) as [[g o] nx]. apply incl_refl.
      + unfold execute in H. destruct (p_queue (s_part s p)) as [|[t c] q]; [discriminate|]. destruct (run_writes _ _ _). inversion H. apply incl_refl.
      + unfold complete in H. destruct (_ && _); [|discriminate]. inversion H. apply incl_refl.
      + unfold collect in H. destruct (s_batch s); [|discriminate]. destruct (_ && _); [|discriminate]. destruct (collect_loop _ _ _ _). inversion H. apply incl_refl.
      + unfold process in H. destruct (s_batch s) as [|x r]; [discriminate|]. destruct (s_ready s); [discriminate|]. destruct (process_loop _ _ _ _) as [ab parts]. match type of H with (let (_, _) := ?m in _) = _ => destruct m as [ab2 parts2] end. inversion H. cbn [s_dec]. apply incl_appl, incl_refl.
      + unfold detach in H. destruct (s_batch s); [discriminate|]. destruct (s_ready s); [|discriminate]. inversion H. apply incl_refl.
    - cbn in H. inversion H. destruct (attach_form s parts pr) as (g & o & nx & ->). split; [|apply incl_refl]. destruct M as (M1 & M2 & (p & M3 & M4)). unfold met, attached, shares, parts_of, tx_of in *. cbn [s_txs]. rewrite app_length. cbn [length].
      rewrite !app_nth1 by exact M1. split; [lia|]. split; [exact M2|]. exists p. split; [|exact M4]. destruct (Nat.lt_ge_cases t1 (length (s_txs s))) as [Hl|Hl]; [now rewrite app_nth1|]. rewrite nth_overflow in M3 by exact Hl. destruct M3. }
  destruct M' as [M' I]. destruct (L t1 t2 M') as [A B]. split; intros X; [apply A|apply B]; apply I; exact X.
Qed.
Lemma zinv_step init s D e s' : (forall p, pinv init s D p) -> zinv s -> step s e = Some s' -> zinv s'.
Proof.
  intros J Z H. destruct e as [parts pr|p|t err|n|w|]; cbn [step] in H.
  - inversion H. destruct (attach_form s parts pr) as (g & o & nx & ->). intros t p Ht. cbn [s_txs s_id] in *. rewrite app_length in Ht. apply Z. lia.
  - unfold execute in H. destruct (p_queue (s_part s p)) as [|[t c] q] eqn:Eq; [discriminate|]. destruct (run_writes _ _ _). inversion H. intros u p' Hu. cbn [s_txs s_id] in *. unfold set2. destruct (Nat.eqb_spec u t) as [->|]; [|cbn; now apply Z]. exfalso.
    destruct (j_x _ _ _ _ (J p)) as (m & _ & J2 & _). rewrite Eq in J2. assert (X : In t (on s p)) by (rewrite <- (firstn_skipn m (on s p)), <- J2; apply in_or_app; right; now left). apply on_in in X. lia.
  - unfold complete in H. destruct (_ && _); [|discriminate]. inversion H. exact Z.
  - unfold collect in H. destruct (s_batch s); [|discriminate]. destruct (_ && _); [|discriminate]. destruct (collect_loop _ _ _ _). inversion H. exact Z.
  - unfold process in H. destruct (s_batch s) as [|x r]; [discriminate|]. destruct (s_ready s); [discriminate|]. destruct (process_loop _ _ _ _) as [ab parts]. match type of H with (let (_, _) := ?m in _) = _ => destruct m as [ab2 parts2] end. inversion H. exact Z.
  - unfold detach in H. destruct (s_batch s); [discriminate|]. destruct (s_ready s); [|discriminate]. inversion H. exact Z.
Qed.
Lemma sync_seq pt c : p_seq (track_sync pt c) = p_seq pt.
Proof. unfold track_sync. destruct (_ <? _); destruct (_ <? _); reflexivity. Qed.
Lemma einv_step init s D e s' : ginv s D -> (forall p, pinv init s D p) -> (forall t, s_done s t = true -> t < length (s_txs s)) -> einv s -> step s e = Some s' -> einv s' /\ forall t, s_done s' t = true -> t < length (s_txs s').
Proof.
  intros V J Dn Z H. destruct e as [parts pr|p|t err|n|w|]; cbn [step] in H.
  - inversion H. destruct (attach_form s parts pr) as (g & o & nx & ->). split.
    + unfold einv, parts_of, tx_of. cbn [s_txs s_id s_done]. intros t Ht. pose proof (Dn t Ht) as Lt. rewrite app_nth1 by exact Lt. exact (Z t Ht).
    + intros t Ht. cbn [s_done] in Ht. pose proof (Dn t Ht) as Lt. cbn [s_txs]. rewrite app_length. lia.
  - unfold execute in H. destruct (p_queue (s_part s p)) as [|[t c] q] eqn:Eq; [discriminate|]. destruct (run_writes _ _ _). inversion H. split; [|exact Dn]. intros u Hu p' Hp. cbn [s_id]. unfold set2. destruct ((u =? t) && (p' =? p)); [|exact (Z u Hu p' Hp)].
    rewrite sync_seq. destruct (j_x _ _ _ _ (J p)) as (m & -> & _). discriminate.
  - unfold complete in H. destruct (_ && _) eqn:C; [|discriminate]. inversion H. apply andb_prop in C as [C C3]. apply andb_prop in C as [C1 C2]. apply Nat.ltb_lt in C1. split.
    + intros u Hu p Hp. cbn [s_done s_id] in *. unfold set1 in Hu. destruct (Nat.eqb_spec u t) as [Eu|Eu]; [|exact (Z u Hu p Hp)]. clear Hu. subst u. rewrite forallb_forall in C3. specialize (C3 p Hp). apply Bool.negb_true_iff, Nat.eqb_neq in C3. exact C3.
    + intros u Hu. cbn [s_done s_txs] in *. unfold set1 in Hu. destruct (Nat.eqb_spec u t) as [Eu|Eu]; [subst u; exact C1|exact (Dn u Hu)].
  - unfold collect in H. destruct (s_batch s); [|discriminate]. destruct (_ && _); [|discriminate]. destruct (collect_loop _ _ _ _). inversion H. split; assumption.
  - unfold process in H. destruct (s_batch s) as [|x r]; [discriminate|]. destruct (s_ready s); [discriminate|]. destruct (process_loop _ _ _ _) as [ab parts]. match type of H with (let (_, _) := ?m in _) = _ => destruct m as [ab2 parts2] end. inversion H. split; assumption.
  - unfold detach in H. destruct (s_batch s); [discriminate|]. destruct (s_ready s); [|discriminate]. inversion H. split; assumption.
Qed.
Lemma pinv_start init p : pinv init (start init) [] p.
Proof.
  assert (G : good [] [] (mkcons 0 0) 0). { split; [cbn; lia|]. cbn. split; [lia|]. split; [lia|]. split; [intros; lia|now left]. }
  split; cbn [start s_part p_seq p_queue p_pend p_cons s_dec]; unfold on; cbn [start s_txs length seq filter].
  - exists 0. split; [reflexivity|]. split; [reflexivity|]. split; [intros [|i] t H; discriminate|]. split; [intros [|j] t c H; discriminate|].
    split; cbn; try (intros; lia); try reflexivity; try (intros; contradiction).
  - exists 0. split; [exact G|]. intros [|i] t H; discriminate.
  - exists 0. split; [exact G|]. intros [|i] t H; discriminate.
Qed.
Lemma reach_pinv init s : reach init s -> laned s -> lonely_aborts s -> exists D, ginv s D /\ (forall p, pinv init s D p) /\ einv s.
Proof.
  intros R. enough (X : laned s -> lonely_aborts s -> exists D, ginv s D /\ (forall p, pinv init s D p) /\ einv s /\ zinv s /\ forall t, s_done s t = true -> t < length (s_txs s)).
  { intros L1 L2. destruct (X L1 L2) as (D & A & B & C & _). eauto. }
  induction R as [|s e s' R IH Va H]; intros L1 L2.
  - exists []. split; [apply ginv_start|]. split; [apply pinv_start|]. split; [intros t Ht; discriminate|]. split; [intros t p _; reflexivity|intros t Ht; discriminate].
  - destruct (IH (laned_prev _ _ _ H L1) (lonely_prev _ _ _ H L2)) as (D & V & J & E & Z & Dn). clear IH. pose proof (reach_dinv _ _ R) as DI. pose proof (lonely_prev _ _ _ H L2) as L0.
    destruct (einv_step init _ _ _ _ V J Dn E H) as [E' Dn']. pose proof (zinv_step init _ _ _ _ J Z H) as Z'.
    assert (X : exists D', ginv s' D' /\ forall p, pinv init s' D' p); [|destruct X as (D' & V' & J'); exists D'; auto].
    destruct e as [parts pr|p|t err|n|w|]; cbn [step] in H.
    + inversion H. subst s'. exists D. split; [apply ginv_attach; [exact V|apply Va|apply Va|exact L1]|]. now apply pinv_attach.
    + exists D. split; [exact (ginv_execute _ _ _ _ V H)|]. exact (pinv_execute init s D p s' V DI L0 J H).
    + exists D. split; [exact (ginv_complete _ _ _ _ _ V H)|]. unfold complete in H. destruct (_ && _); [|discriminate]. inversion H. intros p. destruct (J p). split; assumption.
    + exists D. split; [exact (ginv_collect _ _ _ _ V H)|]. unfold collect in H. destruct (s_batch s); [|discriminate]. destruct (_ && _); [|discriminate]. destruct (collect_loop _ _ _ _). inversion H. intros p. destruct (J p). split; assumption.
    + exists D. split; [exact (ginv_process _ _ _ _ V H)|]. exact (pinv_process init s D w s' V DI E L2 J H).
    + exists (s_pop s). split; [exact (ginv_detach _ _ _ V H)|]. exact (pinv_detach init s D s' V DI J H).
Qed.
