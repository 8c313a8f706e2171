(** C44, C45, C46, C61: table locks. *)
From Coq Require Import Sorted Lia Permutation.
From Verif Require Import Base LockModel LockSpec LockProofs.
Local Open Scope nat_scope.

(** ** C44: the locks granted on a relation are compatible *)
Theorem C44_compatible s : lock_run s ->
  forall id o r m id' o' m', granted s id o r m -> granted s id' o' r m' -> id <> id' -> compatible m m' = true.
Proof.
  intros R id o r m id' o' m' (k & I & _ & Hr & Hm & W) (k' & I' & _ & Hr' & Hm' & W') N.
  destruct (run_inv s R) as [C _]. subst m m'. apply (co_compat _ _ _ C id k id' k'); auto. congruence.
Qed.
Print Assumptions C44_compatible.

(** ** C45: order of the requests *)
(** no later request is granted before an earlier one on the same relation, and of the waiting
    requests on a relation the first one is blocked by a granted lock it is not compatible with
    (an unlock leaves no request behind that could be granted) *)
Theorem C45_fifo_partial s : lock_run s ->
  (forall a o r m b o' m', waiting s a o r m -> granted s b o' r m' -> b < a) /\
  (forall a o r m, waiting s a o r m -> exists f o1 m1, waiting s f o1 r m1 /\ f <= a /\
     (forall f' o2 m2, waiting s f' o2 r m2 -> f <= f') /\
     exists b o' m', granted s b o' r m' /\ compatible m' m1 = false).
Proof.
  intros R. destruct (run_inv s R) as [C B]. split.
  - intros a o r m b o' m' (k & I & _ & Hr & _ & W) (k' & I' & _ & Hr' & _ & W').
    apply (co_fifo _ _ _ C a k b k'); auto. congruence.
  - intros a o r m (k & I & Ho & Hr & Hm & W).
    pose proof (co_wait _ _ _ C r) as E. specialize (B r). unfold blocked in B.
    assert (Hw : In (a, k) (filter (is_waiting r) (s_mgr s))).
    { apply filter_In. split; [exact I|]. unfold is_waiting. cbn. now rewrite Hr, Nat.eqb_refl, W. }
    destruct (filter (is_waiting r) (s_mgr s)) as [|[f kf] q] eqn:Eq; [destruct Hw|].
    assert (Ew : wlist (s_mgr s) r = (f, k_mode kf) :: map (fun p => (fst p, k_mode (snd p))) q) by (unfold wlist; now rewrite Eq).
    rewrite E, Ew in B.
    assert (Hf : In (f, kf) (s_mgr s) /\ is_waiting r (f, kf) = true) by (apply filter_In; rewrite Eq; left; reflexivity).
    destruct Hf as [If Wf]. unfold is_waiting in Wf. cbn in Wf. apply andb_prop in Wf as [Wr Ww]. apply Nat.eqb_eq in Wr.
    assert (Hmin : forall f' k', In (f', k') (s_mgr s) -> k_rel k' = r -> k_waiting k' = true -> f <= f').
    { intros f' k' I' R' W'. assert (Hq : In (f', k') ((f, kf) :: q)).
      { rewrite <- Eq. apply filter_In. split; [exact I'|]. unfold is_waiting. cbn. now rewrite R', Nat.eqb_refl, W'. }
      destruct Hq as [Hq|Hq]; [injection Hq; lia|].
      assert (S : StronglySorted lt (map fst ((f, kf) :: q))).
      { rewrite <- Eq. pose proof (co_sorted _ _ _ C) as S0. clear - S0. induction (s_mgr s) as [|x l IH]; cbn in *; [constructor|].
        inversion S0 as [|? ? S1 F1]; subst. destruct (is_waiting r x); cbn; [|auto]. constructor; [auto|].
        rewrite Forall_map in F1 |- *. rewrite Forall_forall in *. intros y Hy. apply filter_In in Hy as [Hy _]. auto. }
      inversion S as [|? ? _ F1]; subst. rewrite Forall_map, Forall_forall in F1. specialize (F1 _ Hq). cbn in F1. lia. }
    exists f, (k_by kf), (k_mode kf). repeat split.
    + exists kf. auto.
    + apply (Hmin a k); auto.
    + intros f' o2 m2 (k' & I' & _ & R' & _ & W'). apply (Hmin f' k'); auto.
    + destruct (resolve_conflict _ _ _ _ _ C B) as (b & kb & Ib & Rb & Wb & Cb).
      exists b, (k_by kb), (k_mode kb). split; [exists kb; auto|exact Cb].
Qed.
Print Assumptions C45_fifo_partial.

(** the grant of a waiting lock must wake up the session: with the event attached after the lock
    became visible, the wake-up is lost by some schedule, after which nothing happens any more *)
Theorem C45_lost_wakeup_refuted :
  exists sched, let s := ev_run ev_code sched in
    v_waker s = KDone /\ v_waiter s = WSuspended /\ forall sched', ev_run s sched' = s.
Proof.
  (* the waker reads no bus; the waiter attaches and sees no signal; the waker sets the signal
     and sees no waiter; the waiter suspends *)
  exists [false; true; true; false; false; true]. split; [reflexivity|]. split; [reflexivity|].
  intros sched'. set (s := ev_run ev_code _). vm_compute in s. unfold ev_run.
  induction sched' as [|x l IH]; [reflexivity|]. cbn [fold_left]. replace (ev_step s x) with s by (now destruct x). exact IH.
Qed.
Print Assumptions C45_lost_wakeup_refuted.
(** and by another schedule the coroutine runs in the thread of the session that unlocks *)
Theorem C45_foreign_thread_refuted : exists sched, v_foreign (ev_run ev_code sched) = true.
Proof. exists [false; true; true; true; false; false]. reflexivity. Qed.
Print Assumptions C45_foreign_thread_refuted.
(** if the event is attached before the lock can be seen by others, then no schedule loses the
    wake-up: when nobody can do a step, the waiter has been woken up, in its own thread *)
Theorem C45_attached_first_partial sched : let s := ev_run ev_attached sched in
  v_foreign s = false /\ ((forall who, ev_step s who = s) -> v_waiter s = WDone).
Proof.
  set (P := fun s => v_foreign s = false /\ e_bus (v_event s) = true /\ e_signal (v_event s) = false /\
    match v_waiter s, v_waker s with
    | WAttach, _ => False | WDone, KDone => True | WDone, _ => False | _, KBus | _, KSent => True | _, _ => False end).
  assert (H : P (ev_run ev_attached sched)).
  { unfold ev_run. assert (G : forall l s, P s -> P (fold_left ev_step l s)).
    { induction l as [|x l IH]; [auto|]. intros s Hs. cbn [fold_left]. apply IH.
      destruct s as [[eb es ew] wa wk fo]. destruct Hs as (A & B & D & E). cbn in *. subst.
      destruct x, wa, wk; cbn in *; try contradiction; unfold P; cbn; auto. }
    apply G. unfold P. cbn. auto. }
  intros s. change (P s) in H. split; [apply H|]. intros St. destruct s as [[eb es ew] wa wk fo].
  destruct H as (A & B & D & E). cbn in *. subst.
  pose proof (St true) as T. pose proof (St false) as F.
  destruct wa, wk; cbn in *; try contradiction; try reflexivity; try discriminate.
Qed.
Print Assumptions C45_attached_first_partial.

(** ** C46: deadlocks *)
(** sessions that take their locks in the order of the relations: whenever a session waits, it
    waits, maybe through others, for a session that holds a lock and does not wait *)
Theorem C46_ordered_partial progs sched : (forall o, ordered_from [] (progs o)) ->
  let s := fst (run_sched st_init progs sched) in
  forall o, waits s o = true -> exists o', waits_for_chain s o o' /\ waits s o' = false /\ exists id r m, granted s id o' r m.
Proof.
  intros P. pose proof (all_run sched st_init progs (all_init progs P)) as H.
  destruct (run_sched st_init progs sched) as [s progs']. cbn. destruct H as (R & O & _).
  intros o. apply chain_ex; [now apply run_inv|exact O].
Qed.
Print Assumptions C46_ordered_partial.

(** the statements *)
Lemma access_add_rels a r m : map fst (access_add a r m) = if existsb (Nat.eqb r) (map fst a) then map fst a else map fst a ++ [r].
Proof.
  induction a as [|[r' m'] a IH]; [reflexivity|]. cbn [access_add map fst existsb]. rewrite (Nat.eqb_sym r r').
  destruct (r' =? r); [reflexivity|]. cbn [map fst orb]. rewrite IH. now destruct (existsb _ _).
Qed.
Lemma access_add_nodup a r m : NoDup (map fst a) -> NoDup (map fst (access_add a r m)).
Proof.
  intros N. rewrite access_add_rels. destruct (existsb (Nat.eqb r) (map fst a)) eqn:E; [exact N|].
  apply (Permutation_NoDup (Permutation_cons_append (map fst a) r)). constructor; [|exact N].
  intros I. enough (existsb (Nat.eqb r) (map fst a) = true) by congruence. apply existsb_exists. exists r. split; [exact I|apply Nat.eqb_refl].
Qed.
Definition access_of (uses : list (nat * mode)) : access := access_merge [] uses.
Lemma access_merge_nodup uses : forall a, NoDup (map fst a) -> NoDup (map fst (access_merge a uses)).
Proof.
  unfold access_merge. induction uses as [|[r m] u IH]; [auto|]. intros a N. cbn [fold_left]. apply IH. now apply access_add_nodup.
Qed.
Lemma access_merge_rels uses : forall a x, In x (map fst (access_merge a uses)) <-> In x (map fst a) \/ In x (map fst uses).
Proof.
  unfold access_merge. induction uses as [|[r m] u IH]; intros a x; [cbn; tauto|]. cbn [fold_left map fst]. rewrite IH, access_add_rels.
  destruct (existsb (Nat.eqb r) (map fst a)) eqn:E.
  - apply existsb_exists in E as (y & I & Ey). apply Nat.eqb_eq in Ey. subst y. cbn. split; [tauto|]. intros [H|[->|H]]; auto.
  - rewrite in_app_iff. cbn. tauto.
Qed.
Lemma insert_perm x l : Permutation (x :: l) (access_insert x l).
Proof.
  induction l as [|y l IH]; [reflexivity|]. cbn. destruct (fst x <=? fst y); [reflexivity|].
  rewrite perm_swap. now constructor.
Qed.
Lemma sort_perm l : Permutation l (access_sort l).
Proof. induction l as [|x l IH]; [reflexivity|]. cbn. rewrite <- insert_perm. now constructor. Qed.
Lemma insert_sorted x l : StronglySorted le (map fst l) -> StronglySorted le (map fst (access_insert x l)).
Proof.
  induction l as [|y l IH]; intros S; cbn; [constructor; constructor|].
  inversion S as [|? ? S1 F]; subst. destruct (Nat.leb_spec (fst x) (fst y)).
  - cbn. constructor; [exact S|]. constructor; [lia|]. rewrite Forall_forall in *. intros z Hz. specialize (F z Hz). lia.
  - cbn. constructor; [auto|]. rewrite Forall_forall in *. intros z Hz.
    apply (Permutation_in z (Permutation_sym (Permutation_map fst (insert_perm x l)))) in Hz. cbn in Hz. destruct Hz as [<-|Hz]; [lia|auto].
Qed.
Lemma sort_strict l : NoDup (map fst l) -> StronglySorted lt (map fst (access_sort l)).
Proof.
  intros N. assert (S : StronglySorted le (map fst (access_sort l))).
  { clear N. induction l as [|x l IH]; [constructor|]. cbn. now apply insert_sorted. }
  apply (Permutation_NoDup (Permutation_map fst (sort_perm l))) in N.
  induction (map fst (access_sort l)) as [|x q IH]; [constructor|]. inversion S as [|? ? S1 F]; subst. inversion N as [|? ? Nx N1]; subst.
  constructor; [auto|]. rewrite Forall_forall in *. intros z Hz. specialize (F z Hz).
  assert (z <> x) by congruence. lia.
Qed.
Lemma ordered_takes l : forall h p, StronglySorted lt (map fst l) -> Forall (fun x => Forall (fun y => fst y < fst x) h) l ->
  (forall h', ordered_from h' p) -> ordered_from h (map (fun '(r, m) => Take r m) l ++ p).
Proof.
  induction l as [|[r m] l IH]; intros h p S F Hp; [apply Hp|]. cbn [map app ordered_from].
  inversion S as [|? ? S1 Fs]; subst. inversion F as [|? ? F1 F2]; subst. split; [exact F1|]. apply IH; auto.
  rewrite Forall_map in Fs. rewrite Forall_forall in Fs, F2. apply Forall_forall. intros x Hx. constructor; [now apply Fs|]. now apply F2.
Qed.
(** what a session may run: queries and writes on tables, and DDL that takes the default locks *)
Inductive stmt := Distributed (uses : list (nat * mode)) | Ddl.
Definition stmt_ok (c : stmt) : Prop := match c with Distributed u => Forall (fun x => REL_CATALOG < fst x) u | Ddl => True end.
Definition stmt_prog (c : stmt) : list lop := match c with Distributed u => prog_distributed (access_of u) | Ddl => prog_ddl end.
Lemma stmts_ordered l : Forall stmt_ok l -> ordered_from [] (concat (map stmt_prog l)).
Proof.
  induction l as [|c l IH]; intros F; [exact I|]. inversion F as [|? ? F1 F2]; subst. specialize (IH F2). cbn [map concat].
  destruct c as [u|].
  - unfold stmt_prog, prog_distributed. cbn [app ordered_from]. split; [constructor|]. rewrite <- app_assoc. apply ordered_takes.
    + apply sort_strict. apply access_merge_nodup. constructor.
    + apply Forall_forall. intros x Hx. constructor; [|constructor]. cbn.
      apply (Permutation_in x (Permutation_sym (sort_perm _))) in Hx. apply (in_map fst) in Hx. unfold access_of in Hx. apply access_merge_rels in Hx as [[]|Hx].
      apply in_map_iff in Hx as (y & <- & Hy). cbn [stmt_ok] in F1. rewrite Forall_forall in F1. apply (F1 y Hy).
    + intros h'. cbn. exact IH.
  - cbn. repeat split; try constructor; auto; cbn; unfold REL_CATALOG, REL_DDL; lia.
Qed.
(** any number of sessions that run any queries and writes on any tables, and such DDL *)
Theorem C46_statements_partial (stmts : nat -> list stmt) sched : (forall o, Forall stmt_ok (stmts o)) ->
  let s := fst (run_sched st_init (fun o => concat (map stmt_prog (stmts o))) sched) in
  forall o, waits s o = true -> exists o', waits_for_chain s o o' /\ waits s o' = false /\ exists id r m, granted s id o' r m.
Proof. intros H. apply C46_ordered_partial. intros o. now apply stmts_ordered. Qed.
Print Assumptions C46_statements_partial.

(** a deadlock: the sessions [os] all wait, and nobody who does not wait holds a lock *)
Definition deadlock (s : lockst) (os : list nat) : bool :=
  forallb (waits s) os && forallb (fun '(_, k) => k_waiting k || waits s (k_by k)) (s_mgr s).
(** CREATE INDEX has the DDL lock when it asks for the exclusive catalog lock; all other DDL asks
    for the DDL lock when it has the exclusive catalog lock *)
Theorem C46_create_index_refuted :
  exists sched, let '(s, _) := run_sched st_init (fun o => if o =? 0 then prog_create_index 10 else if o =? 1 then prog_ddl else []) sched in
    deadlock s [0; 1] = true.
Proof. exists ([0; 0; 0; 0; 0; 0; 0; 0; 0] ++ [1; 1; 1] ++ [1] ++ [0]). vm_compute. reflexivity. Qed.
Print Assumptions C46_create_index_refuted.
(** session 0 has created a lock on table 10 and is gone; session 1 creates another one and waits
    with the DDL lock; session 2, which would drop the first lock, waits for the DDL lock *)
Theorem C46_create_lock_refuted :
  exists sched, let '(s, progs) := run_sched st_init (fun o => if o =? 0 then prog_create_lock 10 EXCLUSIVE else if o =? 1 then prog_create_lock 10 EXCLUSIVE else if o =? 2 then prog_drop_lock else []) sched in
    progs 0 = [] /\ waits s 0 = false /\ waits s 1 = true /\ waits s 2 = true /\ progs 2 = [DropAll] /\
    existsb (fun '(_, k) => (k_by k =? 1) && (k_rel k =? REL_DDL) && negb (k_waiting k)) (s_mgr s) = true.
Proof. exists [0; 0; 0; 0; 1; 1; 1; 2; 2]. vm_compute. repeat split; reflexivity. Qed.
Print Assumptions C46_create_lock_refuted.

Example C44_nonvacuous : exists s, lock_run s /\ (exists id o r m, granted s id o r m) /\ (exists id o r m, waiting s id o r m) /\ exists id o, granted s id o 10 SHARED_RW /\ exists id' o', id' <> id /\ granted s id' o' 10 SHARED_RW.
Proof.
  set (s1 := fst (lock_mgr_lock st_init 0 10 SHARED_RW false)). set (s2 := fst (lock_mgr_lock s1 1 10 SHARED_RW false)).
  set (s3 := fst (lock_mgr_lock s2 2 10 EXCLUSIVE_RO false)).
  exists s3. split.
  { apply (run_next s2); [|now apply step_lock]. apply (run_next s1); [|now apply step_lock]. apply (run_next st_init); [constructor|now apply step_lock]. }
  split; [|split].
  - exists 0, 0, 10, SHARED_RW. eexists. split; [left; reflexivity|]. cbn. auto.
  - exists 2, 2, 10, EXCLUSIVE_RO. eexists. split; [right; right; left; reflexivity|]. cbn. auto.
  - exists 0, 0. split; [eexists; split; [left; reflexivity|]; cbn; auto|]. exists 1, 1. split; [discriminate|]. eexists; split; [right; left; reflexivity|]; cbn; auto.
Qed.
Example C46_nonvacuous : let '(s, _) := run_sched st_init (fun o => concat (map stmt_prog (if o =? 0 then [Distributed [(12, SHARED_RW); (11, EXCLUSIVE_RO)]] else if o =? 1 then [Distributed [(11, SHARED_RW); (12, SHARED_RW)]] else if o =? 2 then [Ddl] else []))) [0; 0; 1; 1; 2; 2; 2; 0] in
  waits s 1 = true /\ waits s 2 = true /\ waits s 0 = false.
Proof. vm_compute. auto. Qed.

(** ** C61: the lock of a statement covers all its uses of the table *)
(** a statement that uses a table in several ways gets one lock on it *)
Theorem C61_mixed_refuted :
  exists uses r m, access_of uses = [(r, m)] /\ compatible m m = true /\
    exists u1 u2, In (r, u1) uses /\ In (r, u2) uses /\ compatible u1 u2 = false.
Proof.
  (* UPDATE t SET a = (SELECT count( * ) FROM t) *)
  exists [(10, SHARED_RW); (10, EXCLUSIVE_RO)], 10, EXCLUSIVE_RO. split; [reflexivity|]. split; [reflexivity|].
  exists SHARED_RW, EXCLUSIVE_RO. cbn. auto.
Qed.
Print Assumptions C61_mixed_refuted.
(** both at once, as sessions *)
Theorem C61_sessions_refuted :
  exists sched, let '(s, _) := run_sched st_init (fun o => if o <? 2 then prog_distributed (access_of [(10, SHARED_RW); (10, EXCLUSIVE_RO)]) else []) sched in
    waits s 0 = false /\ waits s 1 = false /\ granted s 1 0 10 EXCLUSIVE_RO /\ granted s 3 1 10 EXCLUSIVE_RO.
Proof.
  exists [0; 0; 1; 1]. match goal with |- let '(_, _) := ?x in _ => let y := eval vm_compute in x in change x with y end. cbv iota beta.
  split; [reflexivity|]. split; [reflexivity|]. split.
  - eexists. split; [right; left; reflexivity|]. cbn. auto.
  - eexists. split; [right; right; right; left; reflexivity|]. cbn. auto.
Qed.
Print Assumptions C61_sessions_refuted.
(** without such a mix, and with no procedure CALLed that the statement also uses otherwise,
    the lock of a statement excludes all that any of its uses excludes *)
Definition unmixed (uses : list (nat * mode)) : Prop :=
  forall r, (In (r, SHARED_RW) uses -> In (r, EXCLUSIVE_RO) uses -> In (r, EXCLUSIVE) uses) /\ (In (r, CALL) uses -> forall m, In (r, m) uses -> m = CALL).
Lemma access_add_in a r m x y : NoDup (map fst a) -> In (x, y) (access_add a r m) ->
  (x <> r /\ In (x, y) a) \/ (x = r /\ ((~ In r (map fst a) /\ y = m) \/ exists m', In (r, m') a /\ y = if (mode_id m' <? mode_id m)%Z then m else m')).
Proof.
  induction a as [|[r' m'] a IH]; intros N H; cbn in *.
  - destruct H as [[= <- <-]|[]]. right. auto.
  - inversion N as [|? ? Nx N1]; subst. destruct (Nat.eqb_spec r' r) as [->|E].
    + destruct H as [[= <- <-]|H]; [right; split; [auto|]; right; exists m'; auto|].
      left. split; [|auto]. intros ->. apply Nx. apply (in_map fst) in H. exact H.
    + destruct H as [[= <- <-]|H]; [left; split; auto|]. destruct (IH N1 H) as [[D I]|[-> [[NI ->]|(m0 & I & ->)]]]; auto.
      * right. split; [auto|]. left. split; [|auto]. intros [?|?]; auto.
      * right. split; [auto|]. right. exists m0. auto.
Qed.
Lemma access_merge_max uses : forall a, NoDup (map fst a) -> forall r m, In (r, m) (access_merge a uses) ->
  (In (r, m) a \/ In (r, m) uses) /\ (forall m', In (r, m') a \/ In (r, m') uses -> (mode_id m' <= mode_id m)%Z).
Proof.
  unfold access_merge. induction uses as [|[r0 m0] u IH]; intros a N r m H; cbn [fold_left] in H.
  - split; [auto|]. intros m' [H'|[]].
    assert (m' = m); [|subst; lia]. clear - N H H'. induction a as [|[x y] a IH]; [destruct H|]. inversion N as [|? ? Nx N1]; subst. cbn in *.
    destruct H as [H|H], H' as [H'|H'].
    + congruence.
    + injection H as -> ->. exfalso. apply Nx. apply (in_map fst) in H'. exact H'.
    + injection H' as -> ->. exfalso. apply Nx. apply (in_map fst) in H. exact H.
    + auto.
  - destruct (IH _ (access_add_nodup a r0 m0 N) r m H) as [H1 H2]. split.
    + destruct H1 as [H1|H1]; [|right; right; exact H1]. apply access_add_in in H1; [|exact N].
      destruct H1 as [[D I]|[-> [[NI ->]|(m1 & I & ->)]]]; [left; exact I|right; left; reflexivity|].
      destruct (mode_id m1 <? mode_id m0)%Z; [right; left; reflexivity|left; exact I].
    + assert (Hadd : forall m', In (r, m') a \/ (r0, m0) = (r, m') -> exists m2, In (r, m2) (access_add a r0 m0) /\ (mode_id m' <= mode_id m2)%Z).
      { clear IH H H1 H2 N. induction a as [|[x y] a IHa]; intros m' Hm; cbn.
        - destruct Hm as [[]|[= -> ->]]. exists m'. split; [left; reflexivity|lia].
        - destruct (Nat.eqb_spec x r0) as [->|E].
          + destruct Hm as [[[= -> ->]|Hm]|[= -> ->]].
            * eexists. split; [left; reflexivity|]. destruct (Z.ltb_spec (mode_id m') (mode_id m0)); lia.
            * exists m'. split; [right; exact Hm|lia].
            * eexists. split; [left; reflexivity|]. destruct (Z.ltb_spec (mode_id y) (mode_id m')); lia.
          + destruct Hm as [[[= -> ->]|Hm]|Hm].
            * exists m'. split; [left; reflexivity|lia].
            * destruct (IHa m' (or_introl Hm)) as (m2 & I & L). exists m2. split; [right; exact I|exact L].
            * destruct (IHa m' (or_intror Hm)) as (m2 & I & L). exists m2. split; [right; exact I|exact L]. }
      intros m' [Hm|[Hm|Hm]].
      * destruct (Hadd m' (or_introl Hm)) as (m2 & I & L). specialize (H2 m2 (or_introl I)). lia.
      * destruct (Hadd m' (or_intror Hm)) as (m2 & I & L). specialize (H2 m2 (or_introl I)). lia.
      * apply H2. right. exact Hm.
Qed.
Theorem C61_unmixed_partial uses r m x : unmixed uses -> In (r, m) (access_of uses) -> compatible m x = true ->
  forall u, In (r, u) uses -> compatible u x = true.
Proof.
  intros U H Cm u Hu. destruct (access_merge_max uses [] (NoDup_nil _) r m H) as [[[]|H1] H2].
  specialize (H2 u (or_intror Hu)). destruct (U r) as [U1 U2].
  destruct u, m, x; cbn in *; try reflexivity; try discriminate; try lia;
    try (specialize (U2 H1 _ Hu); discriminate); try (specialize (U1 Hu H1)).
  all: pose proof (access_merge_max uses [] (NoDup_nil _) r _ H) as [_ H3]; specialize (H3 EXCLUSIVE (or_intror U1)); cbn in H3; lia.
Qed.
Print Assumptions C61_unmixed_partial.
(** every relation a statement uses is locked *)
Theorem C61_all_locked_partial uses r u : In (r, u) uses -> exists m, In (r, m) (access_sort (access_of uses)).
Proof.
  intros H. assert (I : In r (map fst (access_of uses))) by (apply access_merge_rels; right; now apply (in_map fst) in H).
  apply in_map_iff in I as ([r' m] & E & I). cbn in E. subst r'. exists m. apply (Permutation_in _ (sort_perm _)). exact I.
Qed.
Print Assumptions C61_all_locked_partial.
Example C61_nonvacuous : unmixed [(10, SHARED); (10, SHARED_RW); (11, EXCLUSIVE_RO); (11, SHARED)] /\ access_of [(10, SHARED); (10, SHARED_RW); (11, EXCLUSIVE_RO); (11, SHARED)] = [(10, SHARED_RW); (11, EXCLUSIVE_RO)].
Proof.
  split; [|reflexivity]. intros r. cbn. split.
  - intros H1 H2. exfalso. destruct H1 as [[=]|[[=]|[[=]|[[=]|[]]]]]; destruct H2 as [[=]|[[=]|[[=]|[[=]|[]]]]]; subst; discriminate.
  - intros H. exfalso. destruct H as [[=]|[[=]|[[=]|[[=]|[]]]]].
Qed.
