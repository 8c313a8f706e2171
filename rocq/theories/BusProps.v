(** C79: messages between threads are delivered once, in order, and wake the receiver. *)
From Verif Require Import Base BusModel BusSpec BusProofs BusMain.
Open Scope nat_scope.

(** Whatever the interleaving of the threads: the messages received so far are beginnings of what the senders
    sent, each in its order; a run is not longer than a bound (nobody waits in a circle); and when nothing can
    happen any more, every message of every sender was received exactly once, in the order of its sender,
    and the receiver waits for events.  The ring has 2^k slots.  The receiver itself does not send here;
    see C79_self_partial. *)
Theorem C79_delivered_partial (k : nat) (todos : list (list msg)) (b n : nat) (s : state) :
  NoDup (concat todos) -> run (2 ^ k) None n (init todos b) s ->
  (exists ls, begins ls todos /\ interleaved ls (received s)) /\
  n <= 90 * length (concat todos) + 20 * b + 9 /\
  (stuck (2 ^ k) None s -> interleaved todos (received s) /\ c s = CPoll).
Proof.
  intros ND RUN. pose proof (inv_run k None n _ _ RUN (inv_init k todos b)) as INV. pose proof (o_run k None todos n _ _ ND RUN (o_init todos b)) as HO.
  split; [|split].
  - pose proof INV as (_ & (_ & HC) & _). rewrite HC. set (r := match c s with CHandle _ => Nat.pred (rd s) | _ => rd s end).
    exists (lists (length todos) (firstn r (hist s))). split; [exact (o_begins k todos s r HO)|]. apply lists_il. intros i m H. apply (o_own todos s HO i m).
    rewrite <- (firstn_skipn r (hist s)). apply in_or_app. now left.
  - pose proof (run_meas k None n _ _ RUN (inv_init k todos b)) as M. rewrite meas_init in M. lia.
  - intros ST. assert (SG : Sg None s) by (apply (sg_run k None n _ _ RUN); exact I).
    destruct (stuck_done k None s INV SG ST) as (D1 & D2 & D3 & D4 & D5); [now left|]. split; [|exact D3]. rewrite D5, <- (o_done todos s HO D1). apply lists_il. apply (o_own todos s HO).
Qed.
Print Assumptions C79_delivered_partial.

(** The same when the receiver sends messages to itself, as long as the ring cannot be filled. *)
Theorem C79_self_partial (k : nat) (self : option nat) (todos : list (list msg)) (b n : nat) (s : state) :
  NoDup (concat todos) -> length (concat todos) <= 2 ^ k -> run (2 ^ k) self n (init todos b) s ->
  n <= 90 * length (concat todos) + 20 * b + 9 /\
  (stuck (2 ^ k) self s -> interleaved todos (received s) /\ c s = CPoll).
Proof.
  intros ND FIT RUN. pose proof (inv_run k self n _ _ RUN (inv_init k todos b)) as INV. pose proof (o_run k self todos n _ _ ND RUN (o_init todos b)) as HO.
  split.
  - pose proof (run_meas k self n _ _ RUN (inv_init k todos b)) as M. rewrite meas_init in M. lia.
  - intros ST. assert (SG : Sg self s) by (apply (sg_run k self n _ _ RUN); exact I).
    destruct (stuck_done k self s INV SG ST) as (D1 & D2 & D3 & D4 & D5).
    { right. pose proof (o_total k todos s HO) as T. destruct INV as ([A1 _ _ _ _ _ _ _] & _). lia. }
    split; [|exact D3]. rewrite D5, <- (o_done todos s HO D1). apply lists_il. apply (o_own todos s HO).
Qed.
Print Assumptions C79_self_partial.

(** An event may be sent again before it is handled, by any number of threads (the same message may be in
    several lists, several times): no signal is lost.  When nothing can happen any more, every message was
    handled by a run of the coroutines of the receiver after it was sent last, and nobody waits. *)
Theorem C79_events (k : nat) (todos : list (list msg)) (b n : nat) (s : state) :
  run (2 ^ k) None n (init todos b) s ->
  n <= 90 * length (concat todos) + 20 * b + 9 /\
  (stuck (2 ^ k) None s -> owed s = [] /\ Forall (fun p => at_ p = PIdle /\ todo p = []) (ps s)).
Proof.
  intros RUN. pose proof (inv_run k None n _ _ RUN (inv_init k todos b)) as INV. split.
  - pose proof (run_meas k None n _ _ RUN (inv_init k todos b)) as M. rewrite meas_init in M. lia.
  - intros ST. assert (SG : Sg None s) by (apply (sg_run k None n _ _ RUN); exact I).
    destruct (stuck_done k None s INV SG ST) as (D1 & D2 & D3 & D4 & D5); [now left|]. split; [exact D4|]. apply Forall_forall. intros p Hp. apply In_nth_error in Hp. destruct Hp as (i & Hp). now apply (D1 i).
Qed.
Print Assumptions C79_events.

(** ** the receiver sends to itself when its ring is full *)
Section Full.
Context (k : nat).
Notation N := (2 ^ k).
Definition full_todos : list (list msg) := [seq 0 N; [N]].
Definition at_j (j : nat) (s : state) : Prop :=
  claim s = j /\ rd s = 0 /\ wr s = j /\ sleep s = false /\ c s = CSched /\ received s = [] /\
  ps s = [{| at_ := PIdle; todo := seq j (N - j) |}; {| at_ := PIdle; todo := [N] |}] /\ (forall m, j <= m -> refs s m = 0).
Lemma full_run j : j <= N -> exists n s, run N (Some 1) n (init full_todos 0) s /\ at_j j s.
Proof.
  induction j as [|j IH]; intros L.
  - eexists _, _. split.
    + eapply runS; [apply run0|]. eapply st_cons. reflexivity.
    + unfold at_j, init, full_todos. rewrite Nat.sub_0_r. cbn. auto 10.
  - destruct IH as (n & s & R & A1 & A2 & A3 & A4 & A5 & A6 & A7 & A8); [lia|].
    replace (N - j) with (S (N - S j)) in A7 by lia. cbn [seq] in A7.
    assert (P1 : exists s1, step N (Some 1) s s1 /\ claim s1 = j /\ rd s1 = 0 /\ wr s1 = j /\ sleep s1 = false /\ c s1 = CSched /\ received s1 = [] /\
      ps s1 = [{| at_ := PClaim j; todo := seq (S j) (N - S j) |}; {| at_ := PIdle; todo := [N] |}] /\ (forall m, S j <= m -> refs s1 m = 0)).
    { eexists. split; [eapply (st_prod _ _ s 0); [rewrite A7; reflexivity|reflexivity|unfold prod_step; cbn [at_ todo]; rewrite A8 by lia; reflexivity]|].
      cbn. rewrite A7. cbn. repeat split; auto. intros m Hm. unfold upd. replace (m =? j) with false by (symmetry; apply Nat.eqb_neq; lia). apply A8. lia. }
    destruct P1 as (s1 & S1 & B1 & B2 & B3 & B4 & B5 & B6 & B7 & B8). clear A1 A2 A3 A4 A5 A6 A7 A8.
    assert (P2 : exists s2, step N (Some 1) s1 s2 /\ claim s2 = S j /\ rd s2 = 0 /\ wr s2 = j /\ sleep s2 = false /\ c s2 = CSched /\ received s2 = [] /\
      ps s2 = [{| at_ := PWait j j; todo := seq (S j) (N - S j) |}; {| at_ := PIdle; todo := [N] |}] /\ refs s2 = refs s1).
    { eexists. split; [eapply (st_prod _ _ s1 0); [rewrite B7; reflexivity|reflexivity|reflexivity]|]. cbn. rewrite B7, B1. cbn. repeat split; auto. }
    destruct P2 as (s2 & S2 & C1 & C2 & C3 & C4 & C5 & C6 & C7 & C8). rewrite <- C8 in B8. clear B1 B2 B3 B4 B5 B6 B7 C8.
    assert (P3 : exists s3, step N (Some 1) s2 s3 /\ claim s3 = S j /\ rd s3 = 0 /\ wr s3 = j /\ sleep s3 = false /\ c s3 = CSched /\ received s3 = [] /\
      ps s3 = [{| at_ := PWrite j j; todo := seq (S j) (N - S j) |}; {| at_ := PIdle; todo := [N] |}] /\ refs s3 = refs s2).
    { eexists. split; [eapply (st_prod _ _ s2 0); [rewrite C7; reflexivity|reflexivity|unfold prod_step; cbn [at_]; rewrite C2, (proj2 (Nat.ltb_lt j (0 + N))) by lia; reflexivity]|].
      cbn. rewrite C7. cbn. repeat split; auto. }
    destruct P3 as (s3 & S3 & D1 & D2 & D3 & D4 & D5 & D6 & D7 & D8). rewrite <- D8 in B8. clear C1 C2 C3 C4 C5 C6 C7 D8.
    assert (P4 : exists s4, step N (Some 1) s3 s4 /\ claim s4 = S j /\ rd s4 = 0 /\ wr s4 = j /\ sleep s4 = false /\ c s4 = CSched /\ received s4 = [] /\
      ps s4 = [{| at_ := PTurn j j; todo := seq (S j) (N - S j) |}; {| at_ := PIdle; todo := [N] |}] /\ refs s4 = refs s3).
    { eexists. split; [eapply (st_prod _ _ s3 0); [rewrite D7; reflexivity|reflexivity|reflexivity]|]. cbn. rewrite D7. cbn. repeat split; auto. }
    destruct P4 as (s4 & S4 & E1 & E2 & E3 & E4 & E5 & E6 & E7 & E8). rewrite <- E8 in B8. clear D1 D2 D3 D4 D5 D6 D7 E8.
    assert (P5 : exists s5, step N (Some 1) s4 s5 /\ claim s5 = S j /\ rd s5 = 0 /\ wr s5 = j /\ sleep s5 = false /\ c s5 = CSched /\ received s5 = [] /\
      ps s5 = [{| at_ := PStore j j; todo := seq (S j) (N - S j) |}; {| at_ := PIdle; todo := [N] |}] /\ refs s5 = refs s4).
    { eexists. split; [eapply (st_prod _ _ s4 0); [rewrite E7; reflexivity|reflexivity|unfold prod_step; cbn [at_]; rewrite E3, Nat.eqb_refl; reflexivity]|].
      cbn. rewrite E7. cbn. repeat split; auto. }
    destruct P5 as (s5 & S5 & F1 & F2 & F3 & F4 & F5 & F6 & F7 & F8). rewrite <- F8 in B8. clear E1 E2 E3 E4 E5 E6 E7 F8.
    assert (P6 : exists s6, step N (Some 1) s5 s6 /\ claim s6 = S j /\ rd s6 = 0 /\ wr s6 = S j /\ sleep s6 = false /\ c s6 = CSched /\ received s6 = [] /\
      ps s6 = [{| at_ := PSleep; todo := seq (S j) (N - S j) |}; {| at_ := PIdle; todo := [N] |}] /\ refs s6 = refs s5).
    { eexists. split; [eapply (st_prod _ _ s5 0); [rewrite F7; reflexivity|reflexivity|reflexivity]|]. cbn. rewrite F7. cbn. repeat split; auto. }
    destruct P6 as (s6 & S6 & G1 & G2 & G3 & G4 & G5 & G6 & G7 & G8). rewrite <- G8 in B8. clear F1 F2 F3 F4 F5 F6 F7 G8.
    assert (P7 : exists s7, step N (Some 1) s6 s7 /\ at_j (S j) s7).
    { eexists. split; [eapply (st_prod _ _ s6 0); [rewrite G7; reflexivity|reflexivity|reflexivity]|]. unfold at_j. cbn. rewrite G7, G4. cbn. repeat split; auto. }
    destruct P7 as (s7 & S7 & A). eexists _, s7. split; [|exact A]. do 7 (eapply runS; [|eassumption]). exact R.
Qed.
End Full.
(** The code refutes the property when the receiver also sends to itself (a coroutine of the receiver signals
    an event of its own thread, lock_mgr.h:214, or sends to another coroutine of it): when the ring is full
    the receiver waits for itself to read it.  Then nothing can happen any more, and no message was received. *)
Theorem C79_self_refuted (k : nat) : exists todos n s,
  NoDup (concat todos) /\ length (concat todos) = S (2 ^ k) /\ run (2 ^ k) (Some 1) n (init todos 0) s /\ stuck (2 ^ k) (Some 1) s /\ received s = [].
Proof.
  destruct (full_run k (2 ^ k)) as (n & s & R & A1 & A2 & A3 & A4 & A5 & A6 & A7 & A8); [lia|]. rewrite Nat.sub_diag in A7. cbn [seq] in A7.
  assert (P1 : exists s1, step (2 ^ k) (Some 1) s s1 /\ claim s1 = 2 ^ k /\ rd s1 = 0 /\ c s1 = CSched /\ received s1 = [] /\
      ps s1 = [{| at_ := PIdle; todo := [] |}; {| at_ := PClaim (2 ^ k); todo := [] |}]).
  { eexists. split; [eapply (st_prod _ _ s 1); [rewrite A7; reflexivity|unfold may_send; rewrite A5; reflexivity|unfold prod_step; cbn [at_ todo]; rewrite A8 by lia; reflexivity]|].
    cbn. rewrite A7. cbn. repeat split; auto. }
  destruct P1 as (s1 & S1 & B1 & B2 & B3 & B4 & B5).
  assert (P2 : exists s2, step (2 ^ k) (Some 1) s1 s2 /\ rd s2 = 0 /\ c s2 = CSched /\ received s2 = [] /\
      ps s2 = [{| at_ := PIdle; todo := [] |}; {| at_ := PWait (2 ^ k) (2 ^ k); todo := [] |}]).
  { eexists. split; [eapply (st_prod _ _ s1 1); [rewrite B5; reflexivity|unfold may_send; rewrite B3; reflexivity|reflexivity]|].
    cbn. rewrite B5, B1. cbn. repeat split; auto. }
  destruct P2 as (s2 & S2 & C1 & C2 & C3 & C4).
  exists (full_todos k), (S (S n)), s2. split; [|split; [|split; [|split]]].
  - unfold full_todos. cbn. rewrite <- seq_S. apply seq_NoDup.
  - unfold full_todos. cbn. rewrite app_length, seq_length. cbn. lia.
  - eapply runS; [eapply runS; [exact R|exact S1]|exact S2].
  - intros s' S. inversion S as [x i p y Hp M Hs|x y Hs|x b C B]; subst; [|unfold cons_step, self_done in Hs; rewrite C2, C4 in Hs; discriminate|congruence].
    rewrite C4 in Hp. destruct i as [|[|i]]; cbn in Hp; [| |destruct i; discriminate]; injection Hp as <-; unfold prod_step in Hs; cbn [at_ todo] in Hs; [discriminate|].
    rewrite C1 in Hs. cbn [plus] in Hs. rewrite Nat.ltb_irrefl in Hs. discriminate.
  - exact C3.
Qed.
Print Assumptions C79_self_refuted.

(** ** a run: the receiver sleeps, two threads send, it is woken up once and receives both messages *)
Definition do1 (size : nat) (w : option nat) (s : state) : option state :=
  match w with
  | None => cons_step size None s
  | Some i => match nth_error (ps s) i with Some p => prod_step size s i p | None => None end
  end.
Fixpoint exec (size : nat) (l : list (option nat)) (s : state) : option state :=
  match l with [] => Some s | w :: l => match do1 size w s with Some s => exec size l s | None => None end end.
Lemma exec_run size l : forall n s0 s s', run size None n s0 s -> exec size l s = Some s' -> run size None (length l + n) s0 s'.
Proof.
  induction l as [|w l IH]; intros n s0 s s' R E; cbn in E; [now injection E as <-|]. destruct (do1 size w s) as [s1|] eqn:D; [|discriminate].
  cbn [length]. replace (S (length l) + n) with (length l + S n) by lia. apply (IH (S n) s0 s1 s'); [|exact E]. eapply runS; [exact R|]. destruct w as [i|]; cbn in D; [|now apply st_cons].
  destruct (nth_error (ps s) i) as [p|] eqn:P; [|discriminate]. now apply (st_prod _ _ s i p).
Qed.
Definition ex_sched : list (option nat) :=
  repeat None 5 ++ repeat (Some 0) 8 ++ repeat (Some 1) 8 ++ [Some 0] ++ repeat None 4 ++ repeat None 5 ++ repeat None 5 ++ repeat None 5.
Example C79_nonvacuous : exists n s, NoDup (concat [[5]; [7]]) /\ run (2 ^ 1) None n (init [[5]; [7]] 3) s /\ received s = [5; 7] /\
  ps s = [{| at_ := PIdle; todo := [] |}; {| at_ := PIdle; todo := [] |}] /\ c s = CPoll /\ owed s = [] /\ efd s = 0.
Proof.
  destruct (exec (2 ^ 1) ex_sched (init [[5]; [7]] 3)) as [s|] eqn:E; [|vm_compute in E; discriminate].
  exists (length ex_sched + 0), s. split; [repeat constructor; cbn; lia|]. split; [apply exec_run with (2 := E); apply run0|].
  vm_compute in E. injection E as <-. cbn. auto 10.
Qed.
Print Assumptions C79_nonvacuous.
