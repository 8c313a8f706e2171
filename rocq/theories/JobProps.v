(** C90: background jobs are executed each once, without waiting for nothing. *)
From Coq Require Import Permutation.
From Verif Require Import Base JobModel JobSpec JobProofs.

(** No job is taken from an empty list. *)
Theorem C90_safe : forall m ws, reachable (m, ws) -> next m <> UB.
Proof. intros m ws H E. apply inv_reachable in H as (H & _). destruct (next_ok m H) as (o & m' & G). congruence. Qed.
Print Assumptions C90_safe.

(** Whatever the threads do: the jobs are started in the order in which they are added, each at most once; the others are still there. *)
Theorem C90_order : forall l s, run (init, []) l s -> started l ++ jobs (fst s) = added l.
Proof. intros l s H. exact (order_run _ _ _ H inv_init). Qed.
Print Assumptions C90_order.

(** A job that was started is finished once or in work. *)
Theorem C90_once : forall l s, run (init, []) l s -> Permutation (started l) (finished l ++ working (snd s)).
Proof. intros l s H. exact (work_run _ _ _ H). Qed.
Print Assumptions C90_once.

(** No thread sleeps while a job waits, unless another one is awake for that job. *)
Theorem C90_no_lost_wakeup : forall m ws, reachable (m, ws) -> In Sleeping ws -> (length (jobs m) <= idle ws)%nat.
Proof. intros m ws H. apply inv_reachable in H as (_ & _ & _ & H). exact H. Qed.
Print Assumptions C90_no_lost_wakeup.

(** By themselves the threads come to rest. *)
Theorem C90_settles : forall s l s', reachable s -> run s l s' -> Forall own l ->
  (length l <= 3 * length (jobs (fst s)) + 2 * length (snd s))%nat.
Proof.
  intros s l s' H R O. pose proof (own_run _ _ _ R (inv_reachable _ H) O) as L. unfold measure in L.
  assert (W : (list_sum (map weight (snd s)) <= 2 * length (snd s))%nat).
  { generalize (snd s). clear. intros ws. induction ws as [|w ws IH]; [apply Nat.le_refl|].
    change (list_sum (map weight (w :: ws))) with (weight w + list_sum (map weight ws))%nat. cbn [length]. assert (G : (weight w <= 2)%nat) by (destruct w; unfold weight; lia). lia. }
  lia.
Qed.
Print Assumptions C90_settles.

(** With at least one thread: when the threads are at rest every job that was ever added is finished. *)
Theorem C90_all_done_partial : forall l1 n l2 s, run (init, []) (l1 ++ Start n :: l2) s -> 0 < n -> Forall goes_on l2 -> quiet s ->
  Permutation (finished (l1 ++ Start n :: l2)) (added (l1 ++ Start n :: l2)).
Proof.
  intros l1 n l2 s R Hn G Q. pose proof (inv_run _ _ _ R inv_init) as I. apply (done_of _ s R).
  - apply run_app in R as (s1 & R1 & R2). inversion R2 as [|? ? s2 ? ? S R3]; subst.
    pose proof (inv_step _ _ _ (inv_run _ _ _ R1 inv_init) S) as I2. destruct (up_run _ _ _ R3 I2 (start_up _ _ _ Hn S) G) as [U1 U2]. destruct s as [m ws]. cbn [fst snd] in *.
    pose proof (quiet_workers m ws I Q) as K. destruct (quiet_idle ws K) as [K1 _]. destruct I as (_ & _ & I3 & I4).
    destruct ws as [|w ws]; [easy|]. destruct (K w (or_introl eq_refl)) as [-> | ->]; [|destruct (I3 U1); now left].
    specialize (I4 (or_introl eq_refl)). rewrite K1 in I4. destruct (jobs m); [reflexivity|cbn in I4; lia].
  - destruct s as [m ws]. now apply quiet_idle, (quiet_workers m).
Qed.
Print Assumptions C90_all_done_partial.

(** After a stop the threads end, and only when every job has been finished. *)
Theorem C90_stop_partial : forall l1 n l2 l3 s, run (init, []) (l1 ++ Start n :: l2 ++ Stop :: l3) s -> 0 < n -> Forall goes_on l2 -> Forall closing l3 -> quiet s ->
  Forall (eq Gone) (snd s) /\ Permutation (finished (l1 ++ Start n :: l2 ++ Stop :: l3)) (added (l1 ++ Start n :: l2 ++ Stop :: l3)).
Proof.
  intros l1 n l2 l3 s R Hn G N Q. pose proof (inv_run _ _ _ R inv_init) as I.
  assert (St : stopping s).
  { apply run_app in R as (s1 & R1 & R2). inversion R2 as [|? ? s2 ? ? S R3]; subst. apply run_app in R3 as (s3 & R3 & R4). inversion R4 as [|? ? s4 ? ? S4 R5]; subst.
    pose proof (inv_step _ _ _ (inv_run _ _ _ R1 inv_init) S) as I2. pose proof (inv_run _ _ _ R3 I2) as I3.
    apply (stopping_run _ _ _ R5 (inv_step _ _ _ I3 S4)); [|exact N].
    apply (up_stopping _ _ I3 (up_run _ _ _ R3 I2 (start_up _ _ _ Hn S) G) S4). }
  destruct s as [m ws]. destruct St as (S1 & S2 & S3). cbn [fst snd] in *. pose proof (quiet_workers m ws I Q) as K. destruct I as (_ & I2 & _).
  assert (A : Forall (eq Gone) ws).
  { apply Forall_forall. intros w Hw. destruct (K w Hw) as [-> | ->]; [|reflexivity]. now destruct (I2 S1). }
  split; [exact A|]. apply (done_of _ (m, ws) R); cbn [fst snd]; [|now apply quiet_idle].
  apply S2. destruct A as [|w ws <- _]; [easy|now left].
Qed.
Print Assumptions C90_stop_partial.

(** The option jobs may be negative: no thread is started and no job ever is, whoever waits for it waits forever. *)
Theorem C90_jobs_refuted : accepted (-1) = true /\
  (forall m ws j, Forall (eq Gone) ws -> exists s, run (m, ws) [Start (-1); Added j] s) /\
  forall s l s', run s (Start (-1) :: l) s' -> Forall no_start l -> started l = [] /\ finished l = [] /\ exists m, s' = (m, []).
Proof.
  split; [reflexivity|]. split.
  - intros m ws j H. eexists. eapply R_step; [now apply do_start|]. eapply R_step; [|constructor]. apply do_add. split; [constructor|easy].
  - intros s l s' R N. inversion R as [|? ? s1 ? ? S R1]; subst. apply start_inv in S as ->.
    destruct (none_run _ _ _ R1 eq_refl) as [A B]; [revert N; apply Forall_impl; now intros []|].
    split; [exact B|]. split; [|destruct s' as [m' ws']; cbn in A; subst; eauto].
    pose proof (work_run _ _ _ R1) as P. rewrite B, A in P. cbn in P. apply Permutation_nil in P. now apply app_eq_nil in P.
Qed.
Print Assumptions C90_jobs_refuted.

(** a run: two threads sleep, three jobs, one thread is woken by nothing, a stop while a job is in work *)
Ltac wk := unfold wake; repeat (apply Forall2_cons; [auto|]); apply Forall2_nil.
Example C90_nonvacuous : exists s, run (init, [])
    ([] ++ Start 2 :: [Slept; Slept; Added 7; Started 7; Added 8; Added 9; Finished 7; Started 8; Woken] ++ Stop :: [Started 9; Finished 8; Left; Finished 9; Left]) s /\ quiet s.
Proof.
  eexists. split.
  - cbn [app]. eapply R_step; [apply do_start; constructor|]. unfold start. cbn [jobs jobs_count init repeat Z.to_nat Pos.to_nat Pos.iter_op Nat.add].
    eapply R_step; [apply (do_next (Mgr [] 0 false) [] [Idle] Waits); reflexivity|]. cbn [app after].
    eapply R_step; [apply (do_next (Mgr [] 0 false) [Sleeping] [] Waits); reflexivity|]. cbn [app after].
    eapply R_step; [apply (do_add _ _ [Idle; Sleeping]); split; [wk|discriminate]|]. cbn [add jobs jobs_count shutdown app].
    eapply R_step; [apply (do_next _ [] [Sleeping] (Took 7)); reflexivity|]. cbn [app after].
    eapply R_step; [apply (do_add _ _ [Working 7; Idle]); split; [wk|discriminate]|]. cbn [add jobs jobs_count shutdown app].
    eapply R_step; [apply (do_add _ _ [Working 7; Idle]); split; [wk|intros [H|[H|[]]]; discriminate]|]. cbn [add jobs jobs_count shutdown app].
    eapply R_step; [apply (do_finish _ [] [Idle] 7)|]. cbn [app].
    eapply R_step; [apply (do_next _ [] [Idle] (Took 8)); reflexivity|]. cbn [app after].
    eapply R_step; [apply (do_wake _ _ [Working 8; Idle]); wk|].
    eapply R_step; [apply do_stop|]. cbn [broadcast map stop jobs jobs_count].
    eapply R_step; [apply (do_next _ [Working 8] [] (Took 9)); reflexivity|]. cbn [app after].
    eapply R_step; [apply (do_finish _ [] [Working 9] 8)|]. cbn [app].
    eapply R_step; [apply (do_next _ [] [Working 9] Leaves); reflexivity|]. cbn [app after].
    eapply R_step; [apply (do_finish _ [Gone] [] 9)|]. cbn [app].
    eapply R_step; [apply (do_next _ [Gone] [] Leaves); reflexivity|]. apply R_nil.
  - cbn [app after]. intros e s' S. remember [Gone; Gone] as ws eqn:Ew. inversion S; subst; try now intros [].
    + exfalso. repeat (destruct a as [|? a]; [discriminate|]; match goal with H : _ = _ |- _ => injection H as -> H end). destruct a; discriminate.
    + exfalso. repeat (destruct a as [|? a]; [discriminate|]; match goal with H : _ = _ |- _ => injection H as -> H end). destruct a; discriminate.
Qed.
Print Assumptions C90_nonvacuous.
