(** C80: a session that sleeps wakes up once, in time, and not before. *)
From Verif Require Import Base TimerModel TimerSpec.
From Coq Require Import Permutation Sorted.

(** ** the order of the timers *)
Definition before (a b : timer) : Prop := timeout a < timeout b \/ (timeout a = timeout b /\ seq a < seq b).
Lemma cmp_spec a b : cmp_gt a b = true <-> before b a.
Proof.
  unfold cmp_gt, before. destruct (Z.eqb_spec (timeout a) (timeout b)) as [E|N].
  - rewrite Z.ltb_lt. lia.
  - rewrite Z.ltb_lt. lia.
Qed.
Lemma insert_perm t l : Permutation (insert t l) (t :: l).
Proof. induction l as [|x l IH]; cbn; [reflexivity|]. destruct (cmp_gt t x); [|reflexivity]. rewrite IH. apply perm_swap. Qed.
Lemma qsort_perm l : Permutation (qsort l) l.
Proof. induction l as [|x l IH]; cbn; [reflexivity|]. rewrite insert_perm. now constructor. Qed.
Lemma insert_sorted t l : StronglySorted before l -> Forall (fun x => before x t \/ before t x) l -> StronglySorted before (insert t l).
Proof.
  induction l as [|x l IH]; intros S F; cbn; [repeat constructor|]. inversion S as [|? ? S1 S2]; subst. inversion F as [|? ? F1 F2]; subst.
  destruct (cmp_gt t x) eqn:C.
  - constructor; [now apply IH|]. apply cmp_spec in C. rewrite insert_perm. now constructor.
  - assert (B : before t x) by (destruct F1 as [X|X]; [apply cmp_spec in X; congruence|exact X]). constructor; [constructor; assumption|].
    constructor; [exact B|]. eapply Forall_impl; [|exact S2]. intros y Y. unfold before in *. lia.
Qed.
Lemma qsort_sorted l : ForallOrdPairs (fun a b => before a b \/ before b a) l -> StronglySorted before (qsort l).
Proof.
  induction 1 as [|x l F O IH]; cbn; [constructor|]. apply insert_sorted; [exact IH|]. rewrite qsort_perm. eapply Forall_impl; [|exact F]. cbn. tauto.
Qed.
Lemma fop_app l t : StronglySorted before l -> Forall (fun x => before x t \/ before t x) l -> ForallOrdPairs (fun a b => before a b \/ before b a) (l ++ [t]).
Proof.
  induction l as [|x l IH]; intros S F; cbn; [repeat constructor|]. inversion S as [|? ? S1 S2]; subst. inversion F as [|? ? F1 F2]; subst. constructor; [|auto].
  apply Forall_app. split; [eapply Forall_impl; [|exact S2]; auto|constructor; [exact F1|constructor]].
Qed.
Lemma hits_skipn time l : hits time l ++ skipn (length (hits time l)) l = l.
Proof. induction l as [|t l IH]; cbn; [reflexivity|]. destruct (time <? timeout t); cbn; [reflexivity|]. now rewrite IH. Qed.
Lemma hits_due time l : Forall (fun t => timeout t <= time) (hits time l).
Proof. induction l as [|t l IH]; cbn; [constructor|]. destruct (Z.ltb_spec time (timeout t)); constructor; [lia|exact IH]. Qed.
Lemma rest_due time l : StronglySorted before l -> Forall (fun t => time < timeout t) (skipn (length (hits time l)) l).
Proof.
  induction 1 as [|t l S IH F]; cbn; [constructor|]. destruct (Z.ltb_spec time (timeout t)) as [L|L]; cbn; [|exact IH].
  constructor; [exact L|]. eapply Forall_impl; [|exact F]. intros x X. unfold before in X. lia.
Qed.
Lemma sorted_app {A} (R : A -> A -> Prop) a b : StronglySorted R (a ++ b) -> StronglySorted R a /\ StronglySorted R b /\ Forall (fun x => Forall (R x) b) a.
Proof.
  induction a as [|x a IH]; cbn; intros H; [repeat split; [constructor|exact H|constructor]|]. inversion H as [|? ? H1 H2]; subst. destruct (IH H1) as (X & Y & Z).
  apply Forall_app in H2. destruct H2 as (H2 & H3). repeat split; [now constructor|exact Y|now constructor].
Qed.
Lemma sorted_filter {A} (R : A -> A -> Prop) p l : StronglySorted R l -> StronglySorted R (filter p l).
Proof.
  induction 1 as [|x l S IH F]; cbn; [constructor|]. destruct (p x); [|exact IH]. constructor; [exact IH|]. apply Forall_forall. intros y Y. apply filter_In in Y. destruct Y as (Y & _). rewrite Forall_forall in F. auto.
Qed.

(** ** the invariant *)
Definition tok (n : Z) (t : timer) : Prop := timeout t <= begun t + span t /\ begun t <= n /\ 0 <= span t.
Record TI (s : state) : Prop := {
  ti_sorted : StronglySorted before (timers s);
  ti_seq : Forall (fun t => seq t < timers_seq s) (timers s);
  ti_now : time_ms s <= now s;
  ti_tok : Forall (tok (now s)) (timers s);
  ti_span : Forall (fun t => span t < 2 ^ 31) (timers s);
  ti_fired : Forall (fun f => timeout (f_t f) <= f_at f /\ timeout (f_t f) <= begun (f_t f) + span (f_t f) /\ f_at f <= now s) (fired s) }.
Lemma ti_update s : TI s -> TI (update s) /\ now (update s) = now s /\ timers (update s) = timers s /\ fired (update s) = fired s /\ stopped (update s) = stopped s
  /\ timers_seq (update s) = timers_seq s.
Proof. intros [A B C D D' E]. unfold update. destruct (time_cached s); [repeat split; auto|]. repeat split; cbn; auto. lia. Qed.
Lemma int32_range v : - 2 ^ 31 <= int32 v < 2 ^ 31.
Proof. unfold int32. pose proof (Z.mod_pos_bound (v + 2 ^ 31) (2 ^ 32) ltac:(lia)). lia. Qed.
Lemma int32_small v : - 2 ^ 31 <= v < 2 ^ 31 -> int32 v = v.
Proof. intros H. unfold int32. rewrite Z.mod_small; lia. Qed.
Lemma tok_mono n n' t : n <= n' -> tok n t -> tok n' t.
Proof. unfold tok. lia. Qed.
Lemma ti_start s id ms : TI s -> 0 <= ms < 2 ^ 31 -> TI (timer_start s id ms).
Proof.
  intros H L. destruct (ti_update s H) as ([A B C D D' E] & N & T & F & P & Q). unfold timer_start. clear N T F P Q. set (u := update s) in *. clearbody u. set (t := {| tid := id; timeout := _; seq := _; begun := _; span := ms |}).
  assert (FB : Forall (fun x => before x t \/ before t x) (timers u)). { eapply Forall_impl; [|exact B]. intros x X. cbn beta in X. unfold before, t. cbn [timeout seq]. lia. }
  split; cbn [timers timers_seq time_ms now fired].
  - apply qsort_sorted, fop_app; assumption.
  - rewrite qsort_perm. apply Forall_app. split; [eapply Forall_impl; [|exact B]; cbn; intros; lia|]. constructor; [unfold t; cbn [seq]; lia|constructor].
  - exact C.
  - rewrite qsort_perm. apply Forall_app. split; [exact D|]. constructor; [unfold tok, t; cbn [timeout begun span]; lia|constructor].
  - rewrite qsort_perm. apply Forall_app. split; [exact D'|]. constructor; [unfold tok, t; cbn [timeout begun span]; lia|constructor].
  - exact E.
Qed.
Lemma ti_pass s d : 0 <= d -> TI s -> TI (pass s d).
Proof.
  intros L [A B C D D' E]. split; cbn; auto; try lia.
  - eapply Forall_impl; [|exact D]. intros t. apply tok_mono. lia.
  - eapply Forall_impl; [|exact E]. cbn. intros f X. lia.
Qed.
Lemma ti_step s : TI s -> TI (timer_mgr_step s).
Proof.
  intros [A B C D D' E]. pose proof (hits_skipn (time_ms s) (timers s)) as HS. pose proof (hits_due (time_ms s) (timers s)) as HD. unfold timer_mgr_step. set (h := hits _ _) in *.
  rewrite <- HS in A, B, D, D'. apply sorted_app in A. destruct A as (A1 & A2 & A3). apply Forall_app in B, D, D'. destruct B as (B1 & B2). destruct D as (D1 & D2). destruct D' as (D3 & D4).
  split; cbn [timers timers_seq time_ms now fired]; auto. apply Forall_app. split; [exact E|]. apply Forall_forall. intros f Hf. apply in_map_iff in Hf. destruct Hf as (t & <- & Ht). cbn.
  rewrite Forall_forall in HD, D1. specialize (HD t Ht). destruct (D1 t Ht) as (X & Y & Z). lia.
Qed.
Lemma ti_reset s : TI s -> TI (reset s).
Proof. intros [A B C D D' E]. split; auto. Qed.
Lemma loop_eq s : loop_timers s = (match timers s with [] => reset s | _ => timer_mgr_step (update (reset s)) end, match timers s with [] => None | _ => poll_timeout (update (reset s)) end).
Proof. unfold loop_timers. change (timers (reset s)) with (timers s). destruct (timers s); reflexivity. Qed.
Lemma ti_exec s e : TI s -> okev s e -> TI (exec s e).
Proof.
  intros H O. destruct e as [d|id v|id| |w]; cbn [exec okev] in *.
  - now apply ti_pass.
  - unfold sleep_ms. destruct (Z.leb_spec 0 (int32 v)) as [L|L]; [|destruct H; split; auto]. apply ti_start; [exact H|]. pose proof (int32_range v). lia.
  - unfold timer_stop. destruct (active s id); [|exact H]. destruct H as [A B C D D' E]. split; cbn; auto; [now apply sorted_filter|..];
      apply Forall_forall; intros t Ht; apply filter_In in Ht; destruct Ht as (Ht & _); rewrite Forall_forall in B, D, D'; auto.
  - destruct (ti_update s H) as ([A B C D D' E] & _). split; auto.
  - apply ti_pass; [tauto|]. rewrite loop_eq. cbn [fst]. destruct (timers s); [now apply ti_reset|]. apply ti_step. destruct (ti_update (reset s) (ti_reset _ H)) as (X & _). exact X.
Qed.
Lemma ti_run clock evs s : run clock evs s -> TI s.
Proof. induction 1; [split; cbn; auto; try constructor; lia|now apply ti_exec]. Qed.

(** ** once *)
Lemma nodup_app_r {A} (a b : list A) : NoDup (a ++ b) -> NoDup b.
Proof. induction a; cbn; [auto|]. inversion 1; auto. Qed.
Lemma nodup_app_l {A} (a b : list A) : NoDup (a ++ b) -> NoDup a.
Proof. induction a as [|x a IH]; cbn; intros H; [constructor|]. inversion H as [|? ? N1 N2]; subst. constructor; [|auto]. intros X. apply N1, in_or_app. now left. Qed.
Lemma nodup_disj {A} (a b : list A) x : NoDup (a ++ b) -> In x a -> In x b -> False.
Proof. induction a as [|y a IH]; cbn; intros H; [easy|]. inversion H as [|? ? N1 N2]; subst. intros [->|X] Y; [apply N1, in_or_app; now right|now apply IH]. Qed.
Lemma remove_perm l id : NoDup (map tid l) -> existsb (fun t => Nat.eqb (tid t) id) l = true -> Permutation (map tid l) (id :: map tid (filter (fun t => negb (Nat.eqb (tid t) id)) l)).
Proof.
  induction l as [|t l IH]; cbn; [discriminate|]. intros N E. inversion N as [|? ? N1 N2]; subst. destruct (Nat.eqb (tid t) id) eqn:Q; cbn.
  - apply Nat.eqb_eq in Q. subst id. constructor. clear -N1. induction l as [|x l IH]; cbn; [reflexivity|]. cbn in N1.
    destruct (Nat.eqb (tid x) (tid t)) eqn:Q; cbn; [apply Nat.eqb_eq in Q; tauto|]. constructor. apply IH. tauto.
  - cbn in E. rewrite (IH N2 E) at 1. apply perm_swap.
Qed.
Lemma slept_snoc evs e : slept (evs ++ [e]) = slept evs ++ slept [e].
Proof. unfold slept. now rewrite flat_map_app. Qed.
Lemma sleepers_snoc evs e : sleepers (evs ++ [e]) = sleepers evs ++ sleepers [e].
Proof. unfold sleepers. now rewrite flat_map_app. Qed.
Lemma slept_nodup evs : NoDup (sleepers evs) -> NoDup (slept evs) /\ incl (slept evs) (sleepers evs).
Proof.
  induction evs as [|e evs IH]; cbn; [intros; split; [constructor|easy]|]. intros N. destruct e as [d|id v|id| |w]; cbn in N |- *; try (now apply IH).
  inversion N as [|? ? N1 N2]; subst. destruct (IH N2) as (I1 & I2). destruct (0 <=? int32 v); cbn; split; auto.
  - constructor; [|exact I1]. intros X. apply N1, I2, X.
  - intros x [->|X]; [now left|right; auto].
  - intros x X. right. auto.
Qed.
(** Every sleep with a time of 0 or more is in one of these places, once: woken up by its timer, ended before
    by its event, or still waiting. *)
Theorem C80_wakes_once clock evs s : run clock evs s -> NoDup (sleepers evs) ->
  Permutation (slept evs) (fired_ids s ++ stopped s ++ map tid (timers s)).
Proof.
  induction 1 as [|evs s e R IH O]; intros N; [reflexivity|]. rewrite sleepers_snoc in N. assert (N0 : NoDup (sleepers evs)).
  { clear -N. induction (sleepers evs) as [|x l IH]; [constructor|]. cbn in N. inversion N as [|? ? N1 N2]; subst. constructor; [|auto]. intros X. apply N1, in_or_app. now left. }
  specialize (IH N0). rewrite slept_snoc. destruct e as [d|id v|id| |w]; cbn [slept flat_map app exec].
  - rewrite app_nil_r. exact IH.
  - unfold sleep_ms. destruct (0 <=? int32 v) eqn:L; cbn [app]; [|rewrite app_nil_r; exact IH].
    unfold timer_start. destruct (ti_update s (ti_run _ _ _ R)) as (_ & E1 & E2 & E3 & E4 & _). unfold fired_ids. cbn [fired stopped timers]. rewrite E2, E3, E4, IH. unfold fired_ids.
    rewrite <- !app_assoc. apply Permutation_app_head, Permutation_app_head. rewrite (Permutation_map tid (qsort_perm _)), map_app. reflexivity.
  - rewrite app_nil_r. unfold timer_stop. destruct (active s id) eqn:A; [|exact IH]. unfold fired_ids in *. cbn [fired stopped timers]. rewrite IH. apply Permutation_app_head. rewrite <- app_assoc. apply Permutation_app_head.
    apply remove_perm; [|exact A]. destruct (slept_nodup evs N0) as (I1 & _). apply (Permutation_NoDup IH) in I1. now apply nodup_app_r, nodup_app_r in I1.
  - rewrite app_nil_r. destruct (ti_update s (ti_run _ _ _ R)) as (_ & E1 & E2 & E3 & E4 & _). unfold fired_ids. cbn [fired stopped timers]. now rewrite E2, E3, E4.
  - rewrite app_nil_r, loop_eq. cbn [fst]. destruct (timers s) as [|t0 l0] eqn:T; [unfold fired_ids in *; cbn; rewrite T; exact IH|]. rewrite <- T in *.
    destruct (ti_update (reset s) (ti_reset _ (ti_run _ _ _ R))) as (_ & E1 & E2 & E3 & E4 & _). unfold timer_mgr_step, pass, fired_ids. cbn [fired stopped timers]. rewrite E2, E3, E4. cbn [reset timers fired stopped].
    rewrite map_app, map_map, IH. unfold fired_ids. rewrite <- !app_assoc. apply Permutation_app_head. cbn [f_t]. rewrite <- (hits_skipn (time_ms (update (reset s))) (timers s)) at 1. rewrite map_app.
    rewrite !app_assoc. apply Permutation_app_tail. apply Permutation_app_comm.
Qed.
Print Assumptions C80_wakes_once.

(** ** in order, when it is due *)
(** A round of the loop wakes up exactly the sleeps that are due, in the order of their ends (two with the same
    end in the order of their beginnings), and leaves the others. *)
Theorem C80_due clock evs s w : run clock evs s ->
  exists woken rest, timers s = woken ++ rest /\ timers (exec s (ELoop w)) = rest /\
    fired (exec s (ELoop w)) = fired s ++ map (fun t => {| f_t := t; f_at := now s |}) woken /\
    Forall (fun t => timeout t <= now s) woken /\ Forall (fun t => now s < timeout t) rest /\
    StronglySorted (fun a b => timeout a < timeout b \/ timeout a = timeout b /\ seq a < seq b) (woken ++ rest).
Proof.
  intros R. pose proof (ti_run _ _ _ R) as T. cbn [exec]. rewrite loop_eq. cbn [fst]. destruct (timers s) as [|t0 l0] eqn:E.
  - exists [], []. cbn. rewrite E, app_nil_r. repeat split; constructor.
  - rewrite <- E in *. exists (hits (now s) (timers s)), (skipn (length (hits (now s) (timers s))) (timers s)). rewrite hits_skipn.
    unfold timer_mgr_step, update, reset, pass. cbn [time_cached timers fired time_ms now]. repeat split; auto; [apply hits_due|apply rest_due, (ti_sorted s T)|apply (ti_sorted s T)].
Qed.
Print Assumptions C80_due.
(** The thread does not sleep longer than to the end of the next wait, and not at all if one was woken up
    (as long as no timer is late by 2^31 ms: the difference is an int). *)
Theorem C80_not_late clock evs s w : run clock evs s -> okev s (ELoop w) -> Forall (fun t => now s - timeout t <= 2 ^ 31) (timers s) ->
  Forall (fun t => now (exec s (ELoop w)) <= timeout t) (timers (exec s (ELoop w))) /\
  (fired (exec s (ELoop w)) <> fired s -> now (exec s (ELoop w)) = now s).
Proof.
  intros R O L. pose proof (ti_run _ _ _ R) as T. cbn [exec okev] in *. rewrite loop_eq in *. cbn [fst snd] in *. destruct (timers s) as [|t0 l0] eqn:E; [cbn; rewrite E; split; [constructor|congruence]|]. rewrite <- E in *.
  unfold poll_timeout, timer_mgr_step, update, reset, pass in *. cbn [time_cached timers fired time_ms now] in *. rewrite E in O at 1.
  pose proof (ti_sorted s T) as S. pose proof (rest_due (now s) _ S) as RD. destruct O as (W & O).
  assert (RNG : - 2 ^ 31 <= timeout t0 - now s < 2 ^ 31).
  { destruct T as [_ _ _ D D' _]. rewrite E in L, D, D'. inversion L; subst. inversion D as [|? ? (X1 & X2 & X3) _]; subst. inversion D'; subst. lia. }
  rewrite int32_small in O by exact RNG.
  destruct (Z.ltb_spec (now s) (timeout t0)) as [LT|GE].
  - assert (HN : hits (now s) (timers s) = []) by (rewrite E; cbn; destruct (Z.ltb_spec (now s) (timeout t0)); [reflexivity|lia]).
    rewrite HN in *. cbn [length skipn map] in *. rewrite app_nil_r. split; [|congruence]. rewrite E in S |- *. inversion S as [|? ? S1 S2]; subst.
    destruct (Z.leb_spec (timeout t0 - now s) 0); [lia|]. constructor; [lia|]. eapply Forall_impl; [|exact S2]. intros t X. unfold before in X. lia.
  - assert (W0 : w = 0) by (destruct (Z.leb_spec (timeout t0 - now s) 0); lia). subst w. rewrite Z.add_0_r. split; [|reflexivity]. eapply Forall_impl; [|exact RD]. cbn. intros. lia.
Qed.
Print Assumptions C80_not_late.

(** ** not before its time *)
Lemma fired_ti_in s x : In x (fired_ids s ++ stopped s ++ map tid (timers s)) <-> In x (fired_ids s) \/ In x (stopped s) \/ In x (map tid (timers s)).
Proof. rewrite !in_app_iff. reflexivity. Qed.
Definition fixed (id : nat) (b e : Z) (s : state) : Prop :=
  (forall t, In t (timers s) -> tid t = id -> timeout t = e /\ begun t = b) /\ (forall f, In f (fired s) -> tid (f_t f) = id -> timeout (f_t f) = e /\ begun (f_t f) = b).
Lemma run_inv clock evs e s : run clock (evs ++ [e]) s -> exists s0, run clock evs s0 /\ okev s0 e /\ s = exec s0 e.
Proof.
  intros R. remember (evs ++ [e]) as l eqn:E. destruct R as [|evs' s e' R O]; [now destruct evs|]. apply app_inj_tail in E. destruct E as (E1 & E2). subst. eauto.
Qed.
Lemma run_nil clock s : run clock [] s -> s = init clock.
Proof. intros R. remember [] as l eqn:E. destruct R as [|evs s e R O]; [reflexivity|]. destruct evs; discriminate. Qed.
Lemma run_det clock evs : forall s s', run clock evs s -> run clock evs s' -> s = s'.
Proof.
  induction evs as [|e evs IH] using rev_ind; intros s s' A B.
  - now rewrite (run_nil _ _ A), (run_nil _ _ B).
  - apply run_inv in A, B. destruct A as (x & A1 & _ & ->). destruct B as (y & B1 & _ & ->). now rewrite (IH _ _ A1 B1).
Qed.
Lemma fixed_exec id b e s ev : TI s -> fixed id b e s -> (match ev with ESleep i _ => i <> id | _ => True end) -> fixed id b e (exec s ev).
Proof.
  intros T (F1 & F2) N. destruct (ti_update s T) as (_ & E1 & E2 & E3 & E4 & _). destruct ev as [d|i v|i| |w]; cbn [exec].
  - split; auto.
  - unfold sleep_ms. destruct (0 <=? int32 v); [|split; auto]. unfold timer_start. split; cbn [timers fired]; [|rewrite E3; exact F2]. intros t Ht Hid. apply (Permutation_in _ (qsort_perm _)) in Ht.
    rewrite E2 in Ht. apply in_app_iff in Ht. destruct Ht as [Ht|[<-|[]]]; [auto|]. cbn in Hid. congruence.
  - unfold timer_stop. destruct (active s i); [|split; auto]. split; cbn; [|exact F2]. intros t Ht. apply filter_In in Ht. destruct Ht as (Ht & _). auto.
  - split; cbn [timers fired]; rewrite ?E2, ?E3; auto.
  - rewrite loop_eq. cbn [fst]. destruct (timers s) as [|t0 l0] eqn:TE; [split; cbn; [rewrite TE; easy|exact F2]|]. rewrite <- TE in *.
    unfold timer_mgr_step, pass, update, reset. cbn [time_cached timers fired time_ms now]. set (h := hits (now s) (timers s)). assert (HS : h ++ skipn (length h) (timers s) = timers s) by apply hits_skipn.
    split.
    + intros t Ht. apply F1. rewrite <- HS. apply in_or_app. now right.
    + intros f Hf. apply in_app_iff in Hf. destruct Hf as [Hf|Hf]; [auto|]. apply in_map_iff in Hf. destruct Hf as (t & <- & Ht). cbn. apply F1. rewrite <- HS. apply in_or_app. now left.
Qed.
(** A sleep is not woken up before its time.  Partial: if the thread knows the time when the sleep begins
    (C80_early_refuted), and if the argument is an int (C80_argument_refuted). *)
Theorem C80_not_early_partial clock evs1 evs2 id v s1 s f : run clock evs1 s1 -> run clock (evs1 ++ ESleep id v :: evs2) s ->
  NoDup (sleepers (evs1 ++ ESleep id v :: evs2)) -> 0 <= v < 2 ^ 31 -> fresh s1 ->
  In f (fired s) -> tid (f_t f) = id -> begun (f_t f) = now s1 /\ now s1 + v <= f_at f.
Proof.
  intros R1 R ND V FR Hf Hid.
  enough (FX : fixed id (now s1) (now s1 + v) s).
  { destruct FX as (_ & FX). destruct (FX f Hf Hid) as (X & Y). split; [exact Y|]. pose proof (ti_fired s (ti_run _ _ _ R)) as TF. rewrite Forall_forall in TF. specialize (TF f Hf). lia. }
  assert (NI : ~ In id (sleepers evs1)).
  { unfold sleepers in ND. rewrite flat_map_app in ND. intros X. apply (nodup_disj _ _ id ND X). cbn. now left. }
  assert (N1 : NoDup (sleepers evs1)) by (unfold sleepers in ND; rewrite flat_map_app in ND; now apply nodup_app_l in ND).
  assert (NO : forall i w, In (ESleep i w) evs2 -> i <> id).
  { intros i w Hi ->. unfold sleepers in ND. rewrite flat_map_app in ND. apply nodup_app_r in ND. cbn in ND. apply NoDup_cons_iff in ND. destruct ND as (X & _). apply X. apply in_flat_map. exists (ESleep id w). split; [exact Hi|now left]. }
  assert (P1 : forall x, In x (fired_ids s1) \/ In x (stopped s1) \/ In x (map tid (timers s1)) -> x <> id).
  { intros x X ->. apply NI. destruct (slept_nodup evs1 N1) as (_ & I). apply I. apply (Permutation_in _ (Permutation_sym (C80_wakes_once _ _ _ R1 N1))). now apply fired_ti_in. }
  clear ND Hf Hid f. revert s R NO. induction evs2 as [|e evs2 IH] using rev_ind; intros s R NO.
  - apply run_inv in R. destruct R as (y & R' & O & ->). rewrite (run_det _ _ _ _ R' R1) in *. cbn [exec]. unfold sleep_ms.
    rewrite int32_small by lia. replace (0 <=? v) with true by (symmetry; apply Z.leb_le; lia). destruct (ti_update s1 (ti_run _ _ _ R1)) as (_ & E1 & E2 & E3 & E4 & _).
    assert (TM : time_ms (update s1) = now s1) by (unfold update; destruct FR as [Q|Q]; [rewrite Q; reflexivity|destruct (time_cached s1); [exact Q|reflexivity]]).
    unfold timer_start. rewrite TM, E1, E2. split; cbn [timers fired].
    + intros t Ht Hid. apply (Permutation_in _ (qsort_perm _)) in Ht. apply in_app_iff in Ht. destruct Ht as [Ht|[<-|[]]]; [|cbn; lia]. destruct (P1 (tid t)); [|exact Hid]. right. right. now apply in_map.
    + rewrite E3. intros g Hg Hid. destruct (P1 (tid (f_t g))); [|exact Hid]. left. unfold fired_ids. now apply (in_map (fun f => tid (f_t f))).
  - replace (evs1 ++ ESleep id v :: evs2 ++ [e]) with ((evs1 ++ ESleep id v :: evs2) ++ [e]) in R by now rewrite <- app_assoc.
    apply run_inv in R. destruct R as (y & R' & O & ->). apply fixed_exec; [now apply (ti_run _ _ _ R')| |].
    + apply IH; [exact R'|]. intros i w Hi. apply (NO i w). apply in_or_app. now left.
    + destruct e; try exact I. apply (NO id0 v0). apply in_or_app. right. now left.
Qed.
Print Assumptions C80_not_early_partial.

Ltac runs := repeat (match goal with |- run _ ?l _ => let a := eval cbn in (removelast l) in let e := eval cbn in (last l ETime) in change l with (a ++ [e]) end; eapply run_snoc); [apply run_init|..].
(** a run: two sleeps, the second one is shorter and wakes up first; both in time *)
Definition ex_evs := [ELoop 10; ESleep 1 500; ESleep 2 100; ELoop 100; ELoop 0; ELoop 400; ELoop 0].
Example C80_nonvacuous : exists s, run 1000 ex_evs s /\ map (fun f => (tid (f_t f), begun (f_t f), f_at f)) (fired s) = [(2%nat, 1010, 1110); (1%nat, 1010, 1510)].
Proof. eexists. split; [unfold ex_evs; runs; vm_compute; intuition discriminate|reflexivity]. Qed.

(** The code refutes the property: while a timer waits, the time is read before epoll_wait and not after it.
    Session 1 sleeps for 10 s; 5 s later a message wakes up the thread and session 2 sleeps for 1 s: it is
    woken up at once. *)
Theorem C80_early_refuted : exists evs s f, run 0 evs s /\ NoDup (sleepers evs) /\ In f (fired s) /\ In (ESleep (tid (f_t f)) 1000) evs /\ f_at f = begun (f_t f).
Proof.
  eexists [ESleep 1 10000; ELoop 5000; ESleep 2 1000; ELoop 0], _, {| f_t := {| tid := 2; timeout := 1000; seq := 1; begun := 5000; span := 1000 |}; f_at := 5000 |}.
  split; [runs; vm_compute; intuition discriminate|]. split; [repeat constructor; cbn; intuition discriminate|]. split; [now left|]. split; [cbn; auto|reflexivity].
Qed.
Print Assumptions C80_early_refuted.
(** In the same way the time of a statement (CURRENT_TIMESTAMP, the check of the expiration of a token) is
    5 s old. *)
Theorem C80_time_refuted : exists evs s, run 0 evs s /\ reads s = [(0, 5000)].
Proof. eexists [ESleep 1 10000; ELoop 5000; ETime], _. split; [runs; vm_compute; intuition discriminate|reflexivity]. Qed.
Print Assumptions C80_time_refuted.
(** sleep(2147483648) waits forever, sleep(4294967296) does not wait *)
Theorem C80_argument_refuted : exists evs s, run 0 evs s /\ evs = [ESleep 1 2147483648; ESleep 2 4294967296; ELoop 0] /\
  forever s = [1%nat] /\ timers s = [] /\ fired_ids s = [2%nat] /\ now s = 0.
Proof. eexists [ESleep 1 2147483648; ESleep 2 4294967296; ELoop 0], _. split; [runs; vm_compute; intuition discriminate|]. repeat split. Qed.
Print Assumptions C80_argument_refuted.
(** When the time is known, what a statement reads is the time of the clock. *)
Theorem C80_time_partial s : fresh s -> exists r, reads (exec s ETime) = reads s ++ [r] /\ fst r = now s.
Proof.
  intros F. cbn [exec reads]. eexists. split; [f_equal; unfold update; destruct (time_cached s); reflexivity|]. cbn. unfold update. destruct F as [F|F]; [rewrite F; reflexivity|destruct (time_cached s); [exact F|reflexivity]].
Qed.
Print Assumptions C80_time_partial.
