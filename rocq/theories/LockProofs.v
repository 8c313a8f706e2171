(** Invariants of the lock manager. *)
From Verif Require Import Base LockModel LockSpec.
From Coq Require Import Sorting.Sorted.
Local Open Scope nat_scope.

Definition is_granted (r : nat) (m : mode) (p : nat * lockrec) : bool :=
  (k_rel (snd p) =? r) && mode_eqb (k_mode (snd p)) m && negb (k_waiting (snd p)).
Definition is_waiting (r : nat) (p : nat * lockrec) : bool := (k_rel (snd p) =? r) && k_waiting (snd p).
Definition gcount (l : list (nat * lockrec)) (r : nat) (m : mode) : Z := Z.of_nat (length (filter (is_granted r m) l)).
Definition wlist (l : list (nat * lockrec)) (r : nat) : list (nat * mode) := map (fun p => (fst p, k_mode (snd p))) (filter (is_waiting r) l).

Lemma mode_eqb_eq a b : mode_eqb a b = true <-> a = b.
Proof. destruct a, b; cbn; split; congruence. Qed.
Lemma mode_eqb_refl a : mode_eqb a a = true.
Proof. now destruct a. Qed.

Record Core (l : list (nat * lockrec)) (f : nat -> relst) (nx : nat) : Prop := mkcore {
  co_sorted : StronglySorted lt (map fst l);
  co_next : Forall (fun p => fst p < nx) l;
  co_set : forall r m, r_set (f r) m = gcount l r m;
  co_wait : forall r, r_wait (f r) = wlist l r;
  co_count : forall r, r_wait_count (f r) = Z.of_nat (length (r_wait (f r)));
  co_fifo : forall i k j k', In (i, k) l -> In (j, k') l -> k_rel k = k_rel k' -> k_waiting k = true -> k_waiting k' = false -> j < i;
  co_compat : forall i k j k', In (i, k) l -> In (j, k') l -> i <> j -> k_rel k = k_rel k' -> k_waiting k = false -> k_waiting k' = false -> compatible (k_mode k) (k_mode k') = true }.
Definition blocked (x : relst) : Prop := match r_wait x with [] => True | (_, m) :: _ => lock_resolve (r_set x) m = false end.
Definition Inv (s : lockst) : Prop := Core (s_mgr s) (s_rel s) (s_next s) /\ forall r, blocked (s_rel s r).

Lemma core_ext l f g nx : (forall r, f r = g r) -> Core l f nx -> Core l g nx.
Proof. intros E [A B C D F G H]. constructor; auto; intros; rewrite <- E; auto. Qed.

Lemma gcount_app a b r m : gcount (a ++ b) r m = (gcount a r m + gcount b r m)%Z.
Proof. unfold gcount. rewrite filter_app, app_length. lia. Qed.
Lemma gcount_cons x b r m : gcount (x :: b) r m = ((if is_granted r m x then 1 else 0) + gcount b r m)%Z.
Proof. unfold gcount. cbn [filter]. destruct (is_granted r m x); cbn [length]; lia. Qed.
Lemma wlist_app a b r : wlist (a ++ b) r = wlist a r ++ wlist b r.
Proof. unfold wlist. now rewrite filter_app, map_app. Qed.
Lemma wlist_cons x b r : wlist (x :: b) r = (if is_waiting r x then [(fst x, k_mode (snd x))] else []) ++ wlist b r.
Proof. unfold wlist. cbn [filter]. now destruct (is_waiting r x). Qed.
Lemma gcount_pos l r m : gcount l r m <> 0%Z -> exists i k, In (i, k) l /\ k_rel k = r /\ k_mode k = m /\ k_waiting k = false.
Proof.
  intros H. destruct (filter (is_granted r m) l) as [|[i k] t] eqn:E; [unfold gcount in H; rewrite E in H; now contradiction H|].
  assert (In (i, k) (filter (is_granted r m) l)) as Hin by (rewrite E; now left). apply filter_In in Hin as [Hin Hp].
  unfold is_granted in Hp. cbn in Hp. apply andb_prop in Hp as [Hp H3]. apply andb_prop in Hp as [H1 H2].
  exists i, k. rewrite mode_eqb_eq in H2. apply Nat.eqb_eq in H1. apply negb_true_iff in H3. auto.
Qed.
Lemma gcount_in l i k : In (i, k) l -> k_waiting k = false -> gcount l (k_rel k) (k_mode k) <> 0%Z.
Proof.
  intros H W E. unfold gcount in E. destruct (filter _ l) as [|x t] eqn:F; [|cbn in E; lia].
  assert (In (i, k) []) as [].
  rewrite <- F. apply filter_In. split; [exact H|]. unfold is_granted. cbn. now rewrite Nat.eqb_refl, mode_eqb_refl, W.
Qed.
(** the sets tell exactly which granted locks conflict *)
Lemma resolve_compat l f nx r m : Core l f nx -> lock_resolve (r_set (f r)) m = true ->
  forall i k, In (i, k) l -> k_rel k = r -> k_waiting k = false -> compatible (k_mode k) m = true.
Proof.
  intros C R i k Hin Hr W. pose proof (gcount_in l i k Hin W) as G. rewrite Hr, <- (co_set l f nx C r) in G.
  unfold lock_resolve, held in R. destruct (Z.eqb_spec (r_set (f r) EXCLUSIVE) 0) as [E|E]; cbn [negb] in R; [|discriminate].
  destruct m, (k_mode k); cbn; try reflexivity; try (rewrite E in G; congruence);
    repeat (apply andb_prop in R as [R ?]);
    repeat match goal with H : negb (negb (?a =? 0)%Z) = true |- _ => apply negb_true_iff, negb_false_iff, Z.eqb_eq in H end; congruence.
Qed.
Lemma resolve_conflict l f nx r m : Core l f nx -> lock_resolve (r_set (f r)) m = false ->
  exists i k, In (i, k) l /\ k_rel k = r /\ k_waiting k = false /\ compatible (k_mode k) m = false.
Proof.
  intros C R. assert (exists m', compatible m' m = false /\ r_set (f r) m' <> 0%Z) as (m' & H1 & H2).
  { unfold lock_resolve, held in R. destruct (Z.eqb_spec (r_set (f r) EXCLUSIVE) 0) as [E|E]; cbn [negb] in R; [|exists EXCLUSIVE; auto].
    destruct m; try discriminate.
    - exists EXCLUSIVE_RO. split; [reflexivity|]. now apply negb_false_iff, negb_true_iff, Z.eqb_neq in R.
    - exists SHARED_RW. split; [reflexivity|]. now apply negb_false_iff, negb_true_iff, Z.eqb_neq in R.
    - rewrite !andb_false_iff in R. repeat rewrite negb_false_iff in R. repeat rewrite negb_true_iff in R. repeat rewrite Z.eqb_neq in R.
      destruct R as [[[R|R]|R]|R]; eexists; (split; [|exact R]); reflexivity. }
  rewrite (co_set l f nx C) in H2. apply gcount_pos in H2 as (i & k & Hin & Hr & Hm & W). exists i, k. rewrite Hm. auto.
Qed.

Lemma sorted_split (l : list (nat * lockrec)) A i k B : StronglySorted lt (map fst l) -> l = A ++ (i, k) :: B ->
  (forall p, In p A -> fst p < i) /\ (forall p, In p B -> i < fst p).
Proof.
  intros S ->. rewrite map_app in S. cbn [map fst] in S. split.
  - intros p Hp. induction A as [|a A IH]; [destruct Hp|]. cbn in S. inversion S as [|? ? S2 F]; subst. destruct Hp as [->|Hp]; [|now apply IH].
    rewrite Forall_forall in F. apply F. apply in_or_app. right. now left.
  - intros p Hp. induction A as [|a A IH]; [|apply IH; now inversion S]. cbn in S. inversion S as [|? ? S2 F]; subst. rewrite Forall_forall in F. apply F. now apply in_map.
Qed.
Lemma nodup_in (l : list (nat * lockrec)) i k k' : StronglySorted lt (map fst l) -> In (i, k) l -> In (i, k') l -> k = k'.
Proof.
  intros S H1 H2. apply in_split in H1 as (A & B & ->). destruct (sorted_split _ A i k B S eq_refl) as [HA HB].
  apply in_app_iff in H2 as [H2|[H2|H2]].
  - specialize (HA _ H2). cbn in HA. lia.
  - now injection H2.
  - specialize (HB _ H2). cbn in HB. lia.
Qed.
Lemma ssorted_remove {A} (R : A -> A -> Prop) a x b : StronglySorted R (a ++ x :: b) -> StronglySorted R (a ++ b).
Proof.
  induction a as [|y a IH]; cbn; intros S; inversion S as [|? ? S2 F]; subst; [exact S2|]. constructor; [auto|].
  rewrite Forall_forall in *. intros z Hz. apply F. apply in_app_iff in Hz. apply in_app_iff. cbn. tauto.
Qed.
Lemma ssorted_snoc (l : list nat) x : StronglySorted lt l -> Forall (fun y => y < x) l -> StronglySorted lt (l ++ [x]).
Proof.
  induction l as [|y l IH]; cbn; intros S F; [repeat constructor|]. inversion S; subst. inversion F; subst. constructor; [auto|].
  apply Forall_app. split; [assumption|]. now repeat constructor.
Qed.

(** ** lock *)
Lemma inv_lock_of s by_ r m named : Inv s -> Inv (fst (lock_of s by_ r m named)).
Proof.
  intros [C BL]. destruct C as [S N Set_ W Cn FI CO]. unfold lock_of. cbn [fst].
  set (id := s_next s) in *. set (pass := negb (held (r_wait_count (s_rel s r))) && lock_resolve (r_set (s_rel s r)) m).
  set (k := mklock by_ r m (if named then 0%Z else 1%Z) (negb pass) (negb named)).
  assert (forall p, In p (s_mgr s) -> fst p < id) as Lt by now rewrite Forall_forall in N.
  assert (pass = true -> r_wait (s_rel s r) = [] /\ lock_resolve (r_set (s_rel s r)) m = true) as HP.
  { intros H. apply andb_prop in H as [H1 H2]. split; [|exact H2]. unfold held in H1. rewrite negb_involutive in H1. apply Z.eqb_eq in H1. rewrite Cn in H1. now destruct (r_wait (s_rel s r)). }
  assert (pass = false -> r_wait (s_rel s r) <> [] \/ lock_resolve (r_set (s_rel s r)) m = false) as HF.
  { intros H. apply andb_false_iff in H as [H|H]; [|now right]. left. apply negb_false_iff in H. unfold held in H. apply negb_true_iff, Z.eqb_neq in H. rewrite Cn in H. now destruct (r_wait (s_rel s r)). }
  assert (Core (s_mgr s) (s_rel s) (s_next s)) as C by (constructor; assumption).
  split.
  - cbn [s_mgr s_rel s_next]. constructor.
    + rewrite map_app. cbn [map fst]. apply ssorted_snoc; [exact S|]. apply Forall_forall. intros x Hx. apply in_map_iff in Hx as (p & <- & Hp). now apply Lt.
    + apply Forall_app. split; [|now repeat constructor]. eapply Forall_impl; [|exact N]. cbn. intros; lia.
    + intros r' m'. rewrite gcount_app, gcount_cons. unfold rel_set. destruct (Nat.eqb_spec r' r) as [->|E].
      * unfold is_granted. cbn [snd k_rel k_mode k_waiting k]. rewrite Nat.eqb_refl. cbn [andb gcount filter length]. rewrite <- Set_. unfold gcount. cbn [filter length].
        destruct pass; cbn [negb r_set]; [|rewrite andb_false_r; lia]. unfold set_add. rewrite andb_true_r.
        destruct (mode_eqb m' m) eqn:E1, (mode_eqb m m') eqn:E2; try lia; [apply mode_eqb_eq in E1; subst; rewrite mode_eqb_refl in E2; discriminate|apply mode_eqb_eq in E2; subst; rewrite mode_eqb_refl in E1; discriminate].
      * unfold is_granted. cbn [snd k_rel k]. apply not_eq_sym in E. apply Nat.eqb_neq in E. rewrite E. cbn [andb]. unfold gcount at 2. cbn [filter length]. rewrite Set_. lia.
    + intros r'. rewrite wlist_app, wlist_cons. unfold rel_set. destruct (Nat.eqb_spec r' r) as [->|E].
      * unfold is_waiting. cbn [snd k_rel k_waiting k fst k_mode]. rewrite Nat.eqb_refl. cbn [andb]. rewrite <- W. unfold wlist. cbn [filter map app]. rewrite app_nil_r.
        destruct pass; cbn [negb r_wait]; [now rewrite app_nil_r|reflexivity].
      * unfold is_waiting. cbn [snd k_rel k]. apply not_eq_sym in E. apply Nat.eqb_neq in E. rewrite E. cbn [andb]. unfold wlist at 2. cbn [filter map app]. now rewrite app_nil_r, W.
    + intros r'. unfold rel_set. destruct (Nat.eqb_spec r' r) as [->|E]; [|apply Cn]. destruct pass; cbn [r_wait r_wait_count]; [apply Cn|]. rewrite app_length, Cn. cbn. lia.
    + intros i k1 j k2 H1 H2 Hr W1 W2. apply in_app_iff in H1 as [H1|[H1|[]]]; apply in_app_iff in H2 as [H2|[H2|[]]].
      * now apply (FI i k1 j k2).
      * injection H2 as <- <-. cbn in Hr, W2. exfalso. apply negb_false_iff in W2. destruct (HP W2) as [HP1 _]. rewrite W in HP1.
        assert (In (i, k_mode k1) (wlist (s_mgr s) r)) as X; [|rewrite HP1 in X; destruct X]. apply in_map_iff. exists (i, k1). split; [reflexivity|]. apply filter_In. split; [exact H1|].
        unfold is_waiting. cbn. now rewrite Hr, Nat.eqb_refl, W1.
      * injection H1 as <- <-. apply Lt in H2. exact H2.
      * injection H1 as <- <-. injection H2 as <- <-. congruence.
    + intros i k1 j k2 H1 H2 Hne Hr W1 W2. apply in_app_iff in H1 as [H1|[H1|[]]]; apply in_app_iff in H2 as [H2|[H2|[]]].
      * now apply (CO i k1 j k2).
      * injection H2 as <- <-. cbn in Hr, W2 |- *. apply negb_false_iff in W2. destruct (HP W2) as [_ HP2]. now apply (resolve_compat _ _ _ r m C HP2 i k1).
      * injection H1 as <- <-. cbn in Hr, W1 |- *. apply negb_false_iff in W1. destruct (HP W1) as [_ HP2]. pose proof (resolve_compat _ _ _ r m C HP2 j k2 H2 (eq_sym Hr) W2) as Q. destruct m, (k_mode k2); try discriminate; reflexivity.
      * injection H1 as <- <-. injection H2 as <- <-. congruence.
  - cbn [s_rel]. intros r'. unfold rel_set. destruct (Nat.eqb_spec r' r) as [->|E]; [|apply BL]. destruct pass eqn:Ep.
    + destruct (HP eq_refl) as [HP1 _]. unfold blocked. cbn [r_wait]. now rewrite HP1.
    + unfold blocked. cbn [r_wait r_set]. specialize (BL r). unfold blocked in BL. destruct (r_wait (s_rel s r)) as [|[i x] q]; cbn [app].
      * destruct (HF eq_refl) as [H|H]; [congruence|exact H].
      * exact BL.
Qed.
Lemma reenter_spec l by_ r m l2 : reenter l by_ r m = Some l2 -> exists A i k B, l = A ++ (i, k) :: B /\ l2 = A ++ (i, set_refs k (k_refs k + 1)) :: B /\ is_reentrant by_ r m k = true.
Proof.
  revert l2. induction l as [|[i k] l IH]; cbn; intros l2 H; [discriminate|]. destruct (is_reentrant by_ r m k) eqn:E.
  - injection H as <-. exists [], i, k, l. auto.
  - destruct (reenter l by_ r m) as [l3|]; [|discriminate]. injection H as <-. destruct (IH l3 eq_refl) as (A & i' & k' & B & -> & -> & H). exists ((i, k) :: A), i', k', B. auto.
Qed.
(** a lock changes in nothing but its references *)
Definition same_lock (k k' : lockrec) : Prop := k_by k' = k_by k /\ k_rel k' = k_rel k /\ k_mode k' = k_mode k /\ k_waiting k' = k_waiting k /\ k_coro k' = k_coro k.
Lemma inv_refs A i k k' B f nx : Inv (mkst (A ++ (i, k) :: B) f nx) -> same_lock k k' -> Inv (mkst (A ++ (i, k') :: B) f nx).
Proof.
  intros [[S N Set_ W Cn FI CO] BL] (E0 & E1 & E2 & E3 & _). cbn [s_mgr s_rel s_next] in *. split; [|exact BL]. cbn [s_mgr s_rel s_next].
  assert (forall j x, In (j, x) (A ++ (i, k') :: B) -> exists y, In (j, y) (A ++ (i, k) :: B) /\ k_rel y = k_rel x /\ k_mode y = k_mode x /\ k_waiting y = k_waiting x) as G.
  { intros j x Hx. apply in_app_iff in Hx as [Hx|[Hx|Hx]].
    - exists x. split; [apply in_app_iff; auto|auto].
    - injection Hx as <- <-. exists k. split; [apply in_app_iff; right; now left|auto].
    - exists x. split; [apply in_app_iff; right; now right|auto]. }
  constructor; try assumption.
  - rewrite map_app in *. exact S.
  - apply Forall_app in N as [N1 N2]. inversion N2; subst. apply Forall_app. split; [assumption|]. constructor; assumption.
  - intros r m. rewrite Set_, !gcount_app, !gcount_cons. unfold is_granted. cbn [snd]. now rewrite E1, E2, E3.
  - intros r. rewrite W, !wlist_app, !wlist_cons. unfold is_waiting. cbn [snd fst]. now rewrite E1, E2, E3.
  - intros a x b y Hx Hy Hr W1 W2. apply G in Hx as (x' & Hx & X1 & X2 & X3). apply G in Hy as (y' & Hy & Y1 & Y2 & Y3). apply (FI a x' b y'); congruence || auto.
  - intros a x b y Hx Hy Hne Hr W1 W2. apply G in Hx as (x' & Hx & X1 & X2 & X3). apply G in Hy as (y' & Hy & Y1 & Y2 & Y3).
    rewrite <- X2, <- Y2. apply (CO a x' b y'); congruence || auto.
Qed.
Lemma inv_lock s by_ r m named : Inv s -> Inv (fst (lock_mgr_lock s by_ r m named)).
Proof.
  intros H. unfold lock_mgr_lock. destruct (reenter (s_mgr s) by_ r m) as [l|] eqn:E; [|now apply inv_lock_of]. cbn [fst].
  apply reenter_spec in E as (A & i & k & B & E1 & -> & _). apply (inv_refs A i k); [|now repeat split]. rewrite <- E1. now destruct s.
Qed.

(** ** unlock *)
Lemma wlist_head l r i m q : wlist l r = (i, m) :: q ->
  exists A k B, l = A ++ (i, k) :: B /\ k_rel k = r /\ k_mode k = m /\ k_waiting k = true /\ wlist A r = [] /\ wlist B r = q.
Proof.
  induction l as [|[j k] l IH]; [discriminate|]. rewrite wlist_cons. destruct (is_waiting r (j, k)) eqn:E; cbn [app fst snd].
  - intros H. injection H as -> <- <-. unfold is_waiting in E. cbn in E. apply andb_prop in E as [E1 E2]. apply Nat.eqb_eq in E1. exists [], k, l. auto 10.
  - intros H. destruct (IH H) as (A & k' & B & -> & H1 & H2 & H3 & H4 & H5). exists ((j, k) :: A), k', B. repeat split; auto. rewrite wlist_cons, E. exact H4.
Qed.
Lemma grant_nil l : grant [] l = l.
Proof. unfold grant. rewrite <- (map_id l) at 2. apply map_ext. now intros [i k]. Qed.
Lemma grant_cons i w l : grant (i :: w) l = grant w (grant [i] l).
Proof.
  unfold grant. rewrite map_map. apply map_ext. intros [j k]. cbn [existsb]. rewrite orb_false_r. f_equal.
  destruct (j =? i); cbn [orb]; [|reflexivity]. destruct (existsb (Nat.eqb j) w); reflexivity.
Qed.
Lemma grant_in w l i k : In (i, k) (grant w l) -> exists k0, In (i, k0) l /\ k_by k = k_by k0 /\ k_rel k = k_rel k0 /\ k_mode k = k_mode k0 /\ k_refs k = k_refs k0 /\ k_coro k = k_coro k0 /\ (k_waiting k = k_waiting k0 \/ k_waiting k = false /\ In i w).
Proof.
  unfold grant. intros H. apply in_map_iff in H as ([j k0] & E & H). injection E as -> <-. exists k0. split; [exact H|].
  destruct (existsb (Nat.eqb i) w) eqn:X; cbn; [|auto 10]. apply existsb_exists in X as (y & Hy & E). apply Nat.eqb_eq in E. subst y. auto 10.
Qed.
Definition ungrant (k : lockrec) : lockrec := mklock (k_by k) (k_rel k) (k_mode k) (k_refs k) false (k_coro k).
Lemma grant_one A i k B : (forall p, In p A -> fst p < i) -> (forall p, In p B -> i < fst p) -> grant [i] (A ++ (i, k) :: B) = A ++ (i, ungrant k) :: B.
Proof.
  intros HA HB. unfold grant. rewrite map_app. cbn [map]. f_equal; [|f_equal].
  - rewrite <- (map_id A) at 2. apply map_ext_in. intros [j x] Hj. specialize (HA _ Hj). cbn in HA. cbn. destruct (Nat.eqb_spec j i); [lia|reflexivity].
  - cbn. rewrite Nat.eqb_refl. reflexivity.
  - rewrite <- (map_id B) at 2. apply map_ext_in. intros [j x] Hj. specialize (HB _ Hj). cbn in HB. cbn. destruct (Nat.eqb_spec j i); [lia|reflexivity].
Qed.
(** one waiter is granted *)
Lemma core_grant l f nx r i m q : Core l f nx -> wlist l r = (i, m) :: q -> lock_resolve (r_set (f r)) m = true ->
  Core (grant [i] l) (rel_set f r (mkrel (set_add (r_set (f r)) m 1) q (r_wait_count (f r) - 1))) nx.
Proof.
  intros C Hq R. pose proof C as [S N Set_ W Cn FI CO]. destruct (wlist_head l r i m q Hq) as (A & k & B & El & Kr & Km & Kw & WA & WB).
  destruct (sorted_split l A i k B S El) as [HA HB]. subst l. rewrite grant_one by assumption.
  assert (forall j x, In (j, x) (A ++ (i, ungrant k) :: B) -> (j = i /\ x = ungrant k) \/ (j <> i /\ In (j, x) (A ++ (i, k) :: B))) as G.
  { intros j x Hx. apply in_app_iff in Hx as [Hx|[Hx|Hx]].
    - right. specialize (HA _ Hx). cbn in HA. split; [lia|apply in_app_iff; auto].
    - left. injection Hx; auto.
    - right. specialize (HB _ Hx). cbn in HB. split; [lia|apply in_app_iff; right; now right]. }
  assert (In (i, k) (A ++ (i, k) :: B)) as Hk by (apply in_app_iff; right; now left).
  constructor.
  - rewrite map_app in *. exact S.
  - apply Forall_app in N as [N1 N2]. inversion N2; subst. apply Forall_app. split; [assumption|]. constructor; assumption.
  - intros r' m'. rewrite gcount_app, gcount_cons. unfold rel_set. destruct (Nat.eqb_spec r' r) as [->|E].
    + cbn [r_set]. unfold set_add. rewrite Set_, gcount_app, gcount_cons. unfold is_granted, ungrant. cbn [snd k_rel k_mode k_waiting]. rewrite Kr, Nat.eqb_refl, Km, Kw. cbn [andb negb].
      rewrite andb_false_r, andb_true_r. destruct (mode_eqb m' m) eqn:E1, (mode_eqb m m') eqn:E2; try lia; [apply mode_eqb_eq in E1; subst; rewrite mode_eqb_refl in E2; discriminate|apply mode_eqb_eq in E2; subst; rewrite mode_eqb_refl in E1; discriminate].
    + rewrite Set_, gcount_app, gcount_cons. unfold is_granted, ungrant. cbn [snd k_rel k_mode k_waiting]. rewrite Kr. apply not_eq_sym, Nat.eqb_neq in E. now rewrite E.
  - intros r'. rewrite wlist_app, wlist_cons. unfold rel_set. destruct (Nat.eqb_spec r' r) as [->|E].
    + cbn [r_wait]. unfold is_waiting, ungrant. cbn [snd k_rel k_waiting]. rewrite andb_false_r. cbn [app]. now rewrite WA, WB.
    + rewrite W, wlist_app, wlist_cons. unfold is_waiting, ungrant. cbn [snd k_rel k_waiting fst k_mode]. rewrite Kr. apply not_eq_sym, Nat.eqb_neq in E. now rewrite E.
  - intros r'. unfold rel_set. destruct (Nat.eqb_spec r' r) as [->|E]; [|apply Cn]. cbn [r_wait r_wait_count]. rewrite Cn, W, Hq. cbn [length]. lia.
  - intros a x b y Hx Hy Hr W1 W2. apply G in Hx as [[-> ->]|[Na Hx]]; [discriminate|]. apply G in Hy as [[-> ->]|[Nb Hy]].
    + cbn in Hr. assert (In (a, k_mode x) (wlist (A ++ (i, k) :: B) r)) as Q.
      { apply in_map_iff. exists (a, x). split; [reflexivity|]. apply filter_In. split; [exact Hx|]. unfold is_waiting. cbn. now rewrite Hr, Kr, Nat.eqb_refl, W1. }
      rewrite wlist_app, WA in Q. cbn [app] in Q. rewrite wlist_cons in Q. apply in_app_iff in Q as [Q|Q].
      * destruct (is_waiting r (i, k)); [|destruct Q]. destruct Q as [Q|[]]. injection Q as -> _. congruence.
      * apply in_map_iff in Q as ([j z] & Ej & Hj). injection Ej as -> _. apply filter_In in Hj as [Hj _]. now apply HB in Hj.
    + now apply (FI a x b y).
  - intros a x b y Hx Hy Hne Hr W1 W2. apply G in Hx as [[-> ->]|[Na Hx]]; apply G in Hy as [[-> ->]|[Nb Hy]]; cbn [ungrant k_mode k_rel k_waiting] in *.
    + congruence.
    + rewrite Km. pose proof (resolve_compat _ _ _ r m C R b y Hy ltac:(congruence) W2) as Q. destruct m, (k_mode y); try discriminate; reflexivity.
    + rewrite Km. apply (resolve_compat _ _ _ r m C R a x Hx); congruence.
    + now apply (CO a x b y).
Qed.
Lemma core_wake q : forall l f nx r, Core l f nx -> wlist l r = q ->
  let '(set', rest, woken) := wake (r_set (f r)) q in
  let f' := rel_set f r (mkrel set' rest (r_wait_count (f r) - Z.of_nat (length woken))) in
  Core (grant woken l) f' nx /\ blocked (f' r).
Proof.
  induction q as [|[i m] q IH]; intros l f nx r C Hq; cbn [wake].
  - cbn [length]. rewrite grant_nil. split; [|unfold blocked, rel_set; now rewrite Nat.eqb_refl].
    apply (core_ext l f); [|exact C]. intros r'. unfold rel_set. destruct (Nat.eqb_spec r' r) as [->|]; [|reflexivity].
    rewrite Z.sub_0_r. rewrite <- Hq, <- (co_wait _ _ _ C). now destruct (f r).
  - destruct (lock_resolve (r_set (f r)) m) eqn:R.
    + pose proof (core_grant l f nx r i m q C Hq R) as C1. set (f1 := rel_set f r _) in C1.
      assert (wlist (grant [i] l) r = q) as Hq1 by (rewrite <- (co_wait _ _ _ C1); unfold f1, rel_set; now rewrite Nat.eqb_refl).
      specialize (IH (grant [i] l) f1 nx r C1 Hq1). replace (r_set (f1 r)) with (set_add (r_set (f r)) m 1) in IH by (unfold f1, rel_set; now rewrite Nat.eqb_refl).
      destruct (wake (set_add (r_set (f r)) m 1) q) as [[set' rest] woken]. destruct IH as [IH1 IH2]. rewrite grant_cons.
      replace (r_wait_count (f1 r)) with (r_wait_count (f r) - 1)%Z in IH1, IH2 by (unfold f1, rel_set; now rewrite Nat.eqb_refl).
      split.
      * apply (core_ext _ (rel_set f1 r (mkrel set' rest (r_wait_count (f r) - 1 - Z.of_nat (length woken))))); [|exact IH1].
        intros r'. unfold f1, rel_set. destruct (Nat.eqb_spec r' r); [|reflexivity]. f_equal. cbn [length]. lia.
      * revert IH2. unfold blocked, rel_set. rewrite Nat.eqb_refl. auto.
    + cbn [length]. rewrite grant_nil. split; [|unfold blocked, rel_set; now rewrite Nat.eqb_refl].
      apply (core_ext l f); [|exact C]. intros r'. unfold rel_set. destruct (Nat.eqb_spec r' r) as [->|]; [|reflexivity].
      rewrite Z.sub_0_r. rewrite <- Hq, <- (co_wait _ _ _ C). now destruct (f r).
Qed.
Lemma find_lock_in l i k : find_lock l i = Some k -> In (i, k) l.
Proof. induction l as [|[j x] l IH]; cbn; [discriminate|]. destruct (Nat.eqb_spec j i) as [->|]; [intros H; injection H as ->; now left|auto]. Qed.
Lemma find_lock_some l i k : StronglySorted lt (map fst l) -> In (i, k) l -> find_lock l i = Some k.
Proof.
  intros S H. destruct (find_lock l i) as [k'|] eqn:E; [f_equal; apply find_lock_in in E; symmetry; now apply (nodup_in l i)|].
  exfalso. clear S. induction l as [|[j x] l IH]; [destruct H|]. cbn in E. destruct (Nat.eqb_spec j i); [discriminate|]. destruct H as [H|H]; [congruence|auto].
Qed.
Lemma forallb_filter_id {X} (p : X -> bool) l : forallb p l = true -> filter p l = l.
Proof. induction l as [|x l IH]; cbn; [reflexivity|]. intros H. apply andb_prop in H as [-> H]. now rewrite IH. Qed.
Lemma remove_split A i k B : (forall p, In p A -> fst p < i) -> (forall p, In p B -> i < fst p) -> remove_lock (A ++ (i, k) :: B) i = A ++ B.
Proof.
  intros HA HB. unfold remove_lock. rewrite filter_app. cbn [filter]. rewrite Nat.eqb_refl. cbn [negb]. f_equal.
  - apply forallb_filter_id. apply forallb_forall. intros [j x] Hj. specialize (HA _ Hj). cbn in HA. apply negb_true_iff, Nat.eqb_neq. lia.
  - apply forallb_filter_id. apply forallb_forall. intros [j x] Hj. specialize (HB _ Hj). cbn in HB. apply negb_true_iff, Nat.eqb_neq. lia.
Qed.
Lemma update_split A i k B k' : (forall p, In p A -> fst p < i) -> (forall p, In p B -> i < fst p) -> update_lock (A ++ (i, k) :: B) i k' = A ++ (i, k') :: B.
Proof.
  intros HA HB. unfold update_lock. rewrite map_app. cbn [map]. rewrite Nat.eqb_refl. f_equal; [|f_equal].
  - rewrite <- (map_id A) at 2. apply map_ext_in. intros [j x] Hj. specialize (HA _ Hj). cbn in HA. destruct (Nat.eqb_spec j i); [lia|reflexivity].
  - rewrite <- (map_id B) at 2. apply map_ext_in. intros [j x] Hj. specialize (HB _ Hj). cbn in HB. destruct (Nat.eqb_spec j i); [lia|reflexivity].
Qed.
Lemma core_remove A i k B f nx : Core (A ++ (i, k) :: B) f nx -> k_waiting k = false ->
  Core (A ++ B) (rel_set f (k_rel k) (mkrel (set_add (r_set (f (k_rel k))) (k_mode k) (-1)) (r_wait (f (k_rel k))) (r_wait_count (f (k_rel k))))) nx.
Proof.
  intros [S N Set_ W Cn FI CO] Kw.
  assert (forall p, In p (A ++ B) -> In p (A ++ (i, k) :: B)) as G by (intros p Hp; apply in_app_iff in Hp; apply in_app_iff; cbn; tauto).
  constructor.
  - rewrite map_app in *. now apply ssorted_remove in S.
  - rewrite Forall_forall in *. auto.
  - intros r m. unfold rel_set. specialize (Set_ r m). rewrite gcount_app, gcount_cons in Set_. rewrite gcount_app. unfold is_granted in Set_. cbn [snd] in Set_. rewrite Kw in Set_. cbn [negb] in Set_. rewrite andb_true_r in Set_.
    destruct (Nat.eqb_spec r (k_rel k)) as [->|E].
    + cbn [r_set]. unfold set_add. rewrite Nat.eqb_refl in Set_. cbn [andb] in Set_. destruct (mode_eqb m (k_mode k)) eqn:E1, (mode_eqb (k_mode k) m) eqn:E2; try lia; [apply mode_eqb_eq in E1; subst; rewrite mode_eqb_refl in E2; discriminate|apply mode_eqb_eq in E2; subst; rewrite mode_eqb_refl in E1; discriminate].
    + apply not_eq_sym, Nat.eqb_neq in E. rewrite E in Set_. cbn [andb] in Set_. lia.
  - intros r. unfold rel_set. specialize (W r). rewrite wlist_app, wlist_cons in W. unfold is_waiting in W. cbn [snd] in W. rewrite Kw, andb_false_r in W. cbn [app] in W. rewrite wlist_app.
    destruct (Nat.eqb_spec r (k_rel k)) as [->|E]; exact W.
  - intros r. unfold rel_set. destruct (Nat.eqb_spec r (k_rel k)) as [->|E]; apply Cn.
  - intros a x b y Hx Hy. apply FI; auto.
  - intros a x b y Hx Hy. apply CO; auto.
Qed.
Lemma inv_unlock s id k : Inv s -> In (id, k) (s_mgr s) -> k_waiting k = false -> Inv (lock_mgr_unlock s id).
Proof.
  intros H Hin Kw. pose proof H as [C BL]. unfold lock_mgr_unlock. rewrite (find_lock_some _ _ _ (co_sorted _ _ _ C) Hin).
  apply in_split in Hin as (A & B & El). destruct (sorted_split _ _ _ _ _ (co_sorted _ _ _ C) El) as [HA HB].
  destruct s as [l f nx]. cbn [s_mgr s_rel s_next] in *. subst l. destruct (k_coro k && (0 <? k_refs k - 1)%Z).
  - rewrite update_split by assumption. apply (inv_refs A id k); [exact H|]. now repeat split.
  - rewrite remove_split by assumption. pose proof (core_remove A id k B f nx C Kw) as C1. set (f1 := rel_set f (k_rel k) _) in C1.
    assert (wlist (A ++ B) (k_rel k) = r_wait (f (k_rel k))) as Hq by (rewrite <- (co_wait _ _ _ C1); unfold f1, rel_set; now rewrite Nat.eqb_refl).
    pose proof (core_wake (r_wait (f (k_rel k))) (A ++ B) f1 nx (k_rel k) C1 Hq) as Wk.
    replace (r_set (f1 (k_rel k))) with (set_add (r_set (f (k_rel k))) (k_mode k) (-1)) in Wk by (unfold f1, rel_set; now rewrite Nat.eqb_refl).
    replace (r_wait_count (f1 (k_rel k))) with (r_wait_count (f (k_rel k))) in Wk by (unfold f1, rel_set; now rewrite Nat.eqb_refl).
    destruct (wake _ _) as [[set' rest] woken]. destruct Wk as [W1 W2]. split; cbn [s_mgr s_rel s_next].
    + eapply core_ext; [|exact W1]. intros r. unfold f1, rel_set. destruct (Nat.eqb_spec r (k_rel k)); reflexivity.
    + intros r. unfold rel_set. destruct (Nat.eqb_spec r (k_rel k)) as [->|E]; [|apply BL]. revert W2. unfold blocked, rel_set. now rewrite Nat.eqb_refl.
Qed.
Lemma inv_init : Inv st_init.
Proof. split; [|intros r; exact I]. constructor; cbn; try constructor; try (intros; contradiction); intros; reflexivity. Qed.
Lemma run_inv s : lock_run s -> Inv s.
Proof.
  induction 1 as [|s s' H IH St]; [apply inv_init|]. destruct St as [s o r m named W|s id o r m (k & Hin & _ & _ & _ & Kw)]; [now apply inv_lock|now apply (inv_unlock s id k)].
Qed.

(** ** ordered programs *)
Definition locks_of (s : lockst) (o : nat) : list (nat * lockrec) := filter (fun p => k_by (snd p) =? o) (s_mgr s).
Lemma locks_of_in s o i k : In (i, k) (locks_of s o) <-> In (i, k) (s_mgr s) /\ k_by k = o.
Proof. unfold locks_of. rewrite filter_In. cbn. now rewrite Nat.eqb_eq. Qed.
Lemma waits_false s o : waits s o = false <-> forall i k, In (i, k) (s_mgr s) -> k_by k = o -> k_waiting k = false.
Proof.
  unfold waits. split.
  - intros H i k Hin E. destruct (k_waiting k) eqn:W; [|reflexivity]. assert (existsb (fun '(_, k) => k_waiting k && (k_by k =? o)) (s_mgr s) = true) as X; [|congruence].
    apply existsb_exists. exists (i, k). split; [exact Hin|]. now rewrite W, E, Nat.eqb_refl.
  - intros H. destruct (existsb _ (s_mgr s)) eqn:X; [|reflexivity]. apply existsb_exists in X as ([i k] & Hin & X). apply andb_prop in X as [X1 X2]. apply Nat.eqb_eq in X2. rewrite (H i k Hin X2) in X1. discriminate.
Qed.
Lemma waits_true s o : waits s o = true <-> exists i k, In (i, k) (s_mgr s) /\ k_by k = o /\ k_waiting k = true.
Proof.
  unfold waits. rewrite existsb_exists. split.
  - intros ([i k] & Hin & X). apply andb_prop in X as [X1 X2]. apply Nat.eqb_eq in X2. eauto.
  - intros (i & k & Hin & E & W). exists (i, k). split; [exact Hin|]. now rewrite W, E, Nat.eqb_refl.
Qed.
(** the locks of a session are on different relations, and the one it waits for is the last *)
Record Own (s : lockst) : Prop := mkown {
  ow_attached : forall i k, In (i, k) (s_mgr s) -> k_coro k = true /\ k_refs k = 1%Z;
  ow_rel : forall i k j k', In (i, k) (s_mgr s) -> In (j, k') (s_mgr s) -> k_by k = k_by k' -> k_rel k = k_rel k' -> i = j;
  ow_last : forall i k j k', In (i, k) (s_mgr s) -> In (j, k') (s_mgr s) -> k_by k = k_by k' -> i <> j -> k_waiting k = true -> k_rel k' < k_rel k /\ k_waiting k' = false }.
(** what a session can still do *)
Definition Prog (s : lockst) (o : nat) (p : list lop) : Prop :=
  exists h, ordered_from h p /\ forall i k, In (i, k) (s_mgr s) -> k_by k = o -> In (k_rel k, k_mode k) h.

Lemma reenter_none l by_ r m : (forall i k, In (i, k) l -> k_by k = by_ -> k_rel k < r) -> reenter l by_ r m = None.
Proof.
  induction l as [|[i k] l IH]; cbn; intros H; [reflexivity|].
  assert (is_reentrant by_ r m k = false) as ->.
  { unfold is_reentrant. destruct (Nat.eqb_spec (k_by k) by_) as [E|E]; [|now rewrite andb_false_r]. specialize (H i k (or_introl eq_refl) E).
    destruct (Nat.eqb_spec (k_rel k) r); [lia|]. now rewrite !andb_false_r. }
  rewrite IH; [reflexivity|]. intros j x Hj. apply (H j x). now right.
Qed.
Lemma take_own s o r m : Own s -> waits s o = false -> (forall i k, In (i, k) (s_mgr s) -> k_by k = o -> k_rel k < r) ->
  Own (session_op s o (Take r m)) /\ forall i k, In (i, k) (s_mgr (session_op s o (Take r m))) -> In (i, k) (s_mgr s) \/ (k_by k = o /\ k_rel k = r /\ k_mode k = m).
Proof.
  intros [O1 O2 O3] W H. cbn [session_op]. unfold lock_mgr_lock. rewrite reenter_none by exact H. unfold lock_of. cbn [fst s_mgr].
  rewrite waits_false in W.
  assert (forall i k, In (i, k) (s_mgr s) -> k_by k = o -> k_rel k < r /\ k_waiting k = false) as H2 by (intros i k Hin E; split; eauto).
  set (nk := mklock o r m 1 _ _). 
  split.
  - constructor; cbn [s_mgr].
    + intros i k Hin. apply in_app_iff in Hin as [Hin|[Hin|[]]]; [eauto|]. injection Hin as <- <-. auto.
    + intros i k j k' Hi Hj Eb Er. apply in_app_iff in Hi as [Hi|[Hi|[]]]; apply in_app_iff in Hj as [Hj|[Hj|[]]].
      * eauto.
      * injection Hj as <- <-. cbn in Eb, Er. destruct (H2 _ _ Hi Eb). lia.
      * injection Hi as <- <-. cbn in Eb, Er. destruct (H2 _ _ Hj (eq_sym Eb)). lia.
      * congruence.
    + intros i k j k' Hi Hj Eb Ne Wk. apply in_app_iff in Hi as [Hi|[Hi|[]]]; apply in_app_iff in Hj as [Hj|[Hj|[]]].
      * eauto.
      * injection Hj as <- <-. cbn in Eb. destruct (H2 _ _ Hi Eb). congruence.
      * injection Hi as <- <-. cbn in Eb |- *. now apply (H2 j k').
      * congruence.
  - intros i k Hin. apply in_app_iff in Hin as [Hin|[Hin|[]]]; [auto|]. injection Hin as <- <-. auto.
Qed.
(** an unlock removes one lock and grants others *)
Lemma unlock_in s id i k : (forall i k, In (i, k) (s_mgr s) -> k_refs k = 1%Z) -> In (i, k) (s_mgr (lock_mgr_unlock s id)) ->
  (i <> id \/ find_lock (s_mgr s) id = None) /\ exists k0, In (i, k0) (s_mgr s) /\ k_by k = k_by k0 /\ k_rel k = k_rel k0 /\ k_mode k = k_mode k0 /\ k_refs k = k_refs k0 /\ k_coro k = k_coro k0 /\ (k_waiting k = true -> k_waiting k0 = true).
Proof.
  intros R1. unfold lock_mgr_unlock. destruct (find_lock (s_mgr s) id) as [x|] eqn:F.
  - pose proof (find_lock_in _ _ _ F) as Hx. rewrite (R1 _ _ Hx). cbn [Z.sub Z.ltb Z.compare Z.add Z.opp Z.pos_sub]. rewrite andb_false_r.
    destruct (wake _ _) as [[set' rest] woken]. cbn [s_mgr]. intros Hin. apply grant_in in Hin as (k0 & Hin & E1 & E2 & E3 & E4 & E5 & E6).
    unfold remove_lock in Hin. apply filter_In in Hin as [Hin Ne]. apply negb_true_iff, Nat.eqb_neq in Ne. split; [now left|]. exists k0. repeat split; auto.
    intros Wk. destruct E6 as [E6|[E6 _]]; congruence.
  - intros Hin. split; [now right|]. exists k. auto 10.
Qed.
Lemma unlock_own s id : Own s -> Own (lock_mgr_unlock s id).
Proof.
  intros [O1 O2 O3]. assert (forall i k, In (i, k) (s_mgr s) -> k_refs k = 1%Z) as R1 by (intros i k H; now apply (O1 i k)). constructor.
  - intros i k Hin. apply unlock_in in Hin as (_ & k0 & Hin & E1 & E2 & E3 & E4 & E5 & E6); [|exact R1]. rewrite E4, E5. eauto.
  - intros i k j k' Hi Hj Eb Er. apply unlock_in in Hi as (_ & k0 & Hi & E1 & E2 & _); [|exact R1]. apply unlock_in in Hj as (_ & k0' & Hj & E1' & E2' & _); [|exact R1].
    apply (O2 i k0 j k0'); congruence.
  - intros i k j k' Hi Hj Eb Ne Wk. apply unlock_in in Hi as (_ & k0 & Hi & E1 & E2 & _ & _ & _ & E6); [|exact R1]. apply unlock_in in Hj as (_ & k0' & Hj & E1' & E2' & _ & _ & _ & E6'); [|exact R1].
    destruct (O3 i k0 j k0' Hi Hj ltac:(congruence) Ne (E6 Wk)) as [L W0]. split; [congruence|]. destruct (k_waiting k') eqn:X; [|reflexivity]. now rewrite (E6' eq_refl) in W0.
Qed.
Lemma prog_mono s s' o p : (forall i k, In (i, k) (s_mgr s') -> k_by k = o -> exists j k0, In (j, k0) (s_mgr s) /\ k_by k0 = o /\ k_rel k0 = k_rel k /\ k_mode k0 = k_mode k) ->
  Prog s o p -> Prog s' o p.
Proof.
  intros H (h & Ho & Hl). exists h. split; [exact Ho|]. intros i k Hin E. destruct (H i k Hin E) as (j & k0 & Hj & E1 & E2 & E3). rewrite <- E2, <- E3. eauto.
Qed.
Lemma held_by_some l o p i : held_by l o p = Some i -> exists k, In (i, k) l /\ k_waiting k = false /\ k_by k = o /\ p k = true.
Proof.
  induction l as [|[j k] l IH]; cbn; [discriminate|]. destruct (k_coro k && negb (k_waiting k) && (k_by k =? o) && p k) eqn:E.
  - intros H. injection H as ->. apply andb_prop in E as [E E4]. apply andb_prop in E as [E E3]. apply andb_prop in E as [E1 E2]. apply Nat.eqb_eq in E3. apply negb_true_iff in E2. exists k. auto.
  - intros H. destruct (IH H) as (k' & Hin & R). exists k'. split; [now right|exact R].
Qed.
Lemma held_by_none l o p : held_by l o p = None -> forall i k, In (i, k) l -> k_coro k = true -> k_waiting k = false -> k_by k = o -> p k = false.
Proof.
  induction l as [|[j x] l IH]; cbn; [intros _ i k []|]. destruct (k_coro x && negb (k_waiting x) && (k_by x =? o) && p x) eqn:E; [discriminate|].
  intros H i k [Hin|Hin] C W B; [|eauto]. injection Hin as -> ->. rewrite C, W, B, Nat.eqb_refl in E. exact E.
Qed.
(** the state of an unlock_all in between *)
Lemma unlock_all_own o L : forall s, Inv s -> Own s -> waits s o = false -> (forall i k, In (i, k) (s_mgr s) -> k_by k = o -> exists k0, In (i, k0) L /\ k_by k0 = o /\ k_coro k0 = true) ->
  let s' := fold_left (fun s '(i, k) => if k_coro k && (k_by k =? o) then lock_mgr_unlock s i else s) L s in
  (lock_run s -> (forall i k k0, In (i, k0) L -> k_by k0 = o -> In (i, k) (s_mgr s) -> k_by k = o) -> lock_run s') /\
  ((forall i k k0, In (i, k0) L -> k_by k0 = o -> In (i, k) (s_mgr s) -> k_by k = o) -> Inv s' /\ Own s' /\
  (forall i k, In (i, k) (s_mgr s') -> k_by k <> o) /\
  (forall i k, In (i, k) (s_mgr s') -> exists k0, In (i, k0) (s_mgr s) /\ k_by k0 = k_by k /\ k_rel k0 = k_rel k /\ k_mode k0 = k_mode k)).
Proof.
  induction L as [|[i x] L IH]; intros s I_ O W HL; cbn [fold_left].
  - split; [auto|]. intros _. split; [exact I_|]. split; [exact O|]. split; [|eauto 10]. intros i k Hin E. destruct (HL i k Hin E) as (k0 & [] & _).
  - destruct (k_coro x && (k_by x =? o)) eqn:Ex.
    + apply andb_prop in Ex as [Ex1 Ex2]. apply Nat.eqb_eq in Ex2.
      assert (forall j k, In (j, k) (s_mgr s) -> k_refs k = 1%Z) as R1 by (intros j k H; now apply (ow_attached s O j k)).
      assert (forall j k, In (j, k) (s_mgr (lock_mgr_unlock s i)) -> j <> i) as Ne.
      { intros j k Hj -> . apply unlock_in in Hj as ([Hj|Hj] & k0 & Hin & _); [congruence| |exact R1]. rewrite (find_lock_some _ _ _ (co_sorted _ _ _ (proj1 I_)) Hin) in Hj. discriminate. }
      assert ((forall j k k0, In (j, k0) ((i, x) :: L) -> k_by k0 = o -> In (j, k) (s_mgr s) -> k_by k = o) -> Inv (lock_mgr_unlock s i)) as I2.
      { intros HB. destruct (find_lock (s_mgr s) i) as [y|] eqn:F.
        - pose proof (find_lock_in _ _ _ F) as Hy. apply (inv_unlock s i y); auto. rewrite waits_false in W. apply (W i y Hy). apply (HB i y x); auto. now left.
        - unfold lock_mgr_unlock. now rewrite F. }
      assert (Own (lock_mgr_unlock s i)) as O2 by now apply unlock_own.
      assert (waits (lock_mgr_unlock s i) o = false) as W2.
      { apply waits_false. intros j k Hj Eb. apply unlock_in in Hj as (_ & k0 & Hin & E1 & _ & _ & _ & _ & E6); [|exact R1]. rewrite waits_false in W.
        specialize (W j k0 Hin ltac:(congruence)). destruct (k_waiting k) eqn:X; [|reflexivity]. now rewrite (E6 eq_refl) in W. }
      assert (forall j k, In (j, k) (s_mgr (lock_mgr_unlock s i)) -> k_by k = o -> exists k0, In (j, k0) L /\ k_by k0 = o /\ k_coro k0 = true) as HL2.
      { intros j k Hj Eb. pose proof (Ne j k Hj) as Nj. apply unlock_in in Hj as (_ & k0 & Hin & E1 & _); [|exact R1]. destruct (HL j k0 Hin ltac:(congruence)) as (k1 & [H1|H1] & H2); [congruence|eauto]. }
      assert ((forall j k k0, In (j, k0) ((i, x) :: L) -> k_by k0 = o -> In (j, k) (s_mgr s) -> k_by k = o) -> (forall j k k0, In (j, k0) L -> k_by k0 = o -> In (j, k) (s_mgr (lock_mgr_unlock s i)) -> k_by k = o)) as HB2.
      { intros HB j k k0 Hj Eb Hk. apply unlock_in in Hk as (_ & k1 & Hin & E1 & _); [|exact R1]. rewrite E1. apply (HB j k1 k0); auto. now right. }
      split.
      * intros Rn HB. destruct (IH _ (I2 HB) O2 W2 HL2) as [IHr _]. apply IHr; [|now apply HB2].
        destruct (find_lock (s_mgr s) i) as [y|] eqn:F; [|unfold lock_mgr_unlock; now rewrite F].
        pose proof (find_lock_in _ _ _ F) as Hy. apply (run_next s); [exact Rn|]. apply (step_unlock s i o (k_rel y) (k_mode y)). exists y. split; [exact Hy|].
        rewrite waits_false in W. assert (k_by y = o) as Eb by (apply (HB i y x); auto; now left). rewrite (W i y Hy Eb). auto.
      * intros HB. destruct (IH _ (I2 HB) O2 W2 HL2) as [_ IHo]. destruct (IHo (HB2 HB)) as (A1 & A2 & A3 & A4). split; [exact A1|]. split; [exact A2|]. split; [exact A3|].
        intros j k Hj. destruct (A4 j k Hj) as (k0 & Hin & E1 & E2 & E3). apply unlock_in in Hin as (_ & k1 & Hin & F1 & F2 & F3 & _); [|exact R1].
        exists k1. split; [exact Hin|]. repeat split; congruence.
    + assert (forall i0 k, In (i0, k) (s_mgr s) -> k_by k = o -> exists k0, In (i0, k0) L /\ k_by k0 = o /\ k_coro k0 = true) as HL2.
      { intros j k Hj Eb. destruct (HL j k Hj Eb) as (k0 & [H1|H1] & H2 & H3); [|eauto]. injection H1 as -> ->. rewrite H2, H3, Nat.eqb_refl in Ex. discriminate. }
      destruct (IH s I_ O W HL2) as [IHr IHo]. split.
      * intros Rn HB. apply IHr; [exact Rn|]. intros j k k0 Hj. apply HB. now right.
      * intros HB. apply IHo. intros j k k0 Hj. apply HB. now right.
Qed.
Definition All (s : lockst) (progs : nat -> list lop) : Prop := lock_run s /\ Own s /\ forall o, Prog s o (progs o).
Lemma all_step s progs o p rest : All s progs -> waits s o = false -> progs o = p :: rest ->
  All (session_op s o p) (fun x => if x =? o then rest else progs x).
Proof.
  intros (Rn & Ow & Pr) W Ep. pose proof (Pr o) as (h & Ho & Hl). rewrite Ep in Ho. pose proof (run_inv s Rn) as Iv.
  assert (forall i k, In (i, k) (s_mgr s) -> k_refs k = 1%Z) as R1 by (intros j k H; now apply (ow_attached s Ow j k)).
  destruct p as [r m|r m|r m|]; cbn [ordered_from] in Ho.
  - destruct Ho as [Hf Ho].
    assert (forall i k, In (i, k) (s_mgr s) -> k_by k = o -> k_rel k < r) as Lt.
    { intros i k Hin Eb. rewrite Forall_forall in Hf. now apply (Hf _ (Hl i k Hin Eb)). }
    destruct (take_own s o r m Ow W Lt) as [O2 Hin2]. split; [|split; [exact O2|]].
    + apply (run_next s); [exact Rn|]. now apply step_lock.
    + intros x. destruct (Nat.eqb_spec x o) as [->|N].
      * exists ((r, m) :: h). split; [exact Ho|]. intros i k Hin Eb. destruct (Hin2 i k Hin) as [H|(_ & -> & ->)]; [right; eauto|now left].
      * apply (prog_mono s); [|apply Pr]. intros i k Hin Eb. destruct (Hin2 i k Hin) as [H|(H & _)]; [eauto 10|congruence].
  - destruct Ho.
  - cbn [session_op]. destruct (held_by _ _ _) as [i|] eqn:Hh.
    + apply held_by_some in Hh as (k & Hin & Wk & Eb & Hp). apply andb_prop in Hp as [Hp1 Hp2]. apply Nat.eqb_eq in Hp1. apply mode_eqb_eq in Hp2.
      split; [|split; [now apply unlock_own|]].
      * apply (run_next s); [exact Rn|]. apply (step_unlock s i o r m). exists k. auto.
      * intros x. destruct (Nat.eqb_spec x o) as [->|N].
        -- exists (remove rm_eq_dec (r, m) h). split; [exact Ho|]. intros j k' Hj Ej. apply unlock_in in Hj as (Nj & k0 & Hj0 & E1 & E2 & E3 & _); [|exact R1].
           apply in_in_remove; [|rewrite E2, E3; apply (Hl j k0 Hj0); congruence].
           intros X. injection X as X1 X2. destruct Nj as [Nj|Nj].
           ++ apply Nj. apply (ow_rel s Ow j k0 i k Hj0 Hin); congruence.
           ++ rewrite (find_lock_some _ _ _ (co_sorted _ _ _ (proj1 Iv)) Hin) in Nj. discriminate.
        -- apply (prog_mono s); [|apply Pr]. intros j k' Hj Ej. apply unlock_in in Hj as (_ & k0 & Hj0 & E1 & E2 & E3 & _); [|exact R1]. exists j, k0. repeat split; congruence.
    + split; [exact Rn|]. split; [exact Ow|]. intros x. destruct (Nat.eqb_spec x o) as [->|N]; [|apply Pr].
      exists (remove rm_eq_dec (r, m) h). split; [exact Ho|]. intros j k Hj Ej. apply in_in_remove; [|eauto]. intros X. injection X as X1 X2.
      pose proof (held_by_none _ _ _ Hh j k Hj (proj1 (ow_attached s Ow j k Hj)) (proj1 (waits_false s o) W j k Hj Ej) Ej) as Q. cbn in Q. rewrite X1, X2, Nat.eqb_refl, mode_eqb_refl in Q. discriminate.
  - cbn [session_op]. unfold unlock_all.
    assert (forall i k, In (i, k) (s_mgr s) -> k_by k = o -> exists k0, In (i, k0) (rev (s_mgr s)) /\ k_by k0 = o /\ k_coro k0 = true) as HL.
    { intros i k Hin Eb. exists k. split; [now apply in_rev in Hin|]. split; [exact Eb|]. now apply (ow_attached s Ow i k). }
    assert (forall i k k0, In (i, k0) (rev (s_mgr s)) -> k_by k0 = o -> In (i, k) (s_mgr s) -> k_by k = o) as HB.
    { intros i k k0 H0 Eb Hin. apply in_rev in H0. now rewrite (nodup_in _ i k k0 (co_sorted _ _ _ (proj1 Iv)) Hin H0). }
    destruct (unlock_all_own o (rev (s_mgr s)) s Iv Ow W HL) as [A0 A]. specialize (A HB) as (A1 & A2 & A3 & A4).
    split; [now apply A0|]. split; [exact A2|]. intros x. destruct (Nat.eqb_spec x o) as [->|N].
    + exists []. split; [exact Ho|]. intros i k Hin Eb. now apply A3 in Hin.
    + apply (prog_mono s); [|apply Pr]. intros i k Hin Eb. destruct (A4 i k Hin) as (k0 & H0 & E1 & E2 & E3). exists i, k0. repeat split; congruence.
Qed.
Lemma all_run sched : forall s progs, All s progs -> let '(s', progs') := run_sched s progs sched in All s' progs'.
Proof.
  induction sched as [|o sched IH]; intros s progs H; cbn [run_sched]; [exact H|]. destruct (waits s o) eqn:W; [now apply IH|].
  destruct (progs o) as [|p rest] eqn:E; [now apply IH|]. apply IH. now apply all_step.
Qed.
Lemma all_init progs : (forall o, ordered_from [] (progs o)) -> All st_init progs.
Proof.
  intros H. split; [constructor|]. split; [constructor; cbn; intros; contradiction|]. intros o. exists []. split; [apply H|]. cbn. intros i k [].
Qed.

(** ** no cycles *)
Lemma waiter_blocked s i k : Inv s -> In (i, k) (s_mgr s) -> k_waiting k = true -> exists j k', In (j, k') (s_mgr s) /\ k_rel k' = k_rel k /\ k_waiting k' = false.
Proof.
  intros [C BL] Hin W. specialize (BL (k_rel k)). unfold blocked in BL. rewrite (co_wait _ _ _ C) in BL.
  assert (In (i, k_mode k) (wlist (s_mgr s) (k_rel k))) as Q.
  { apply in_map_iff. exists (i, k). split; [reflexivity|]. apply filter_In. split; [exact Hin|]. unfold is_waiting. cbn. now rewrite Nat.eqb_refl, W. }
  destruct (wlist (s_mgr s) (k_rel k)) as [|[x m] q]; [destruct Q|]. destruct (resolve_conflict _ _ _ _ _ C BL) as (j & k' & H1 & H2 & H3 & _). eauto.
Qed.
Lemma max_rel (l : list (nat * lockrec)) : exists b, forall i k, In (i, k) l -> k_rel k <= b.
Proof.
  induction l as [|[i k] l [b IH]]; [exists 0; intros i k []|]. exists (Nat.max b (k_rel k)). intros j x [H|H]; [injection H as -> ->; lia|]. specialize (IH j x H). lia.
Qed.
Lemma chain_ex s : Inv s -> Own s -> forall o, waits s o = true -> exists o', waits_for_chain s o o' /\ waits s o' = false /\ exists id r m, granted s id o' r m.
Proof.
  intros Iv Ow. destruct (max_rel (s_mgr s)) as [b Hb].
  assert (forall n o i k, In (i, k) (s_mgr s) -> k_by k = o -> k_waiting k = true -> b - k_rel k < n -> exists o', waits_for_chain s o o' /\ waits s o' = false /\ exists id r m, granted s id o' r m) as G.
  { induction n as [|n IH]; intros o i k Hin Eb W Hn; [lia|]. destruct (waiter_blocked s i k Iv Hin W) as (j & k' & Hj & Er & W').
    assert (waits_for s o (k_by k')) as WF by (exists i, (k_rel k), (k_mode k), j, (k_mode k'); split; [exists k|exists k']; auto).
    destruct (waits s (k_by k')) eqn:X.
    - apply waits_true in X as (i2 & k2 & H2 & E2 & W2). assert (i2 <> j) as Ne by (intros ->; rewrite (nodup_in _ _ _ _ (co_sorted _ _ _ (proj1 Iv)) H2 Hj) in W2; congruence).
      destruct (ow_last s Ow i2 k2 j k' H2 Hj E2 Ne W2) as [L _]. pose proof (Hb _ _ H2). destruct (IH (k_by k') i2 k2 H2 E2 W2 ltac:(lia)) as (o' & Hc & R). exists o'. split; [now apply (chain_next s o (k_by k'))|exact R].
    - exists (k_by k'). split; [now apply chain_one|]. split; [exact X|]. exists j, (k_rel k'), (k_mode k'), k'. auto. }
  intros o W. apply waits_true in W as (i & k & Hin & Eb & W). apply (G (S (b - k_rel k)) o i k Hin Eb W). lia.
Qed.
