(** Failed transactions are not committed: for all histories. *)
From Coq Require Import Permutation.
From Verif Require Import Base TxModel TxSpec TxProofs TxProofs2 TxProofs3 TxProofs4 TxProofs5.
Local Open Scope nat_scope.

(** only transactions that were sent to the commit task are known to it *)
Record sent (s : state) : Prop := mksent {
  e_all : forall t, In t (s_mail s ++ concat (map g_list (s_queue s)) ++ s_batch s) -> s_done s t = true;
  e_dec : forall t b, In (t, b) (s_dec s) -> s_done s t = true }.
Lemma loop_in s : forall l q b q' b', collect_loop s l q b = (q', b') -> forall y, In y (b' ++ concat (map g_list q')) -> In y l \/ In y (b ++ concat (map g_list q)).
Proof.
  induction l as [|t l IH]; intros q b q' b' H y Hy; cbn [collect_loop] in H; [injection H as <- <-; now right|]. destruct (commit_add (order_of s) q (group_of s t) t) as [q1 pop] eqn:E.
  destruct (IH _ _ _ _ H y Hy) as [X|X]; [left; now right|]. rewrite !in_app_iff in X. destruct (commit_add_in _ _ _ _ _ _ E) as [I _]. specialize (I y). rewrite !in_app_iff in *. cbn [In]. clear - I X. intuition congruence.
Qed.
Lemma sent_step s e s' : sent s -> step s e = Some s' -> sent s'.
Proof.
  intros [E1 E2] H. destruct e as [parts pr|p|t err|n|w|]; cbn [step] in H.
  - inversion H. destruct (attach_form s parts pr) as (g & o & nx & ->). split; assumption.
  - unfold execute in H. destruct (p_queue (s_part s p)) as [|[t c] q]; [discriminate|]. destruct (run_writes _ _ _). inversion H. split; assumption.
  - unfold complete in H. destruct (_ && _); [|discriminate]. inversion H. split; cbn [s_mail s_queue s_batch s_done s_dec].
    + intros u Hu. unfold set1. destruct (Nat.eqb_spec u t) as [Eu|Eu]; [reflexivity|]. apply E1. rewrite !in_app_iff in *. cbn in Hu. intuition congruence.
    + intros u b Hu. unfold set1. destruct (u =? t); [reflexivity|exact (E2 u b Hu)].
  - unfold collect in H. destruct (s_batch s) eqn:Eb; [|discriminate]. destruct (_ && _); [|discriminate]. destruct (collect_loop s (firstn n (s_mail s)) (s_queue s) []) as [q b] eqn:El. inversion H. split; cbn [s_mail s_queue s_batch s_done s_dec]; [|exact E2].
    intros u Hu. apply E1. pose proof (loop_in _ _ _ _ _ _ El u) as X. cbn [app] in X. rewrite !in_app_iff in *. rewrite <- (firstn_skipn n (s_mail s)), in_app_iff. cbn [In]. clear - X Hu. tauto.
  - unfold process in H. destruct (s_batch s) as [|x r] eqn:Eb; [discriminate|]. destruct (s_ready s); [discriminate|]. rewrite <- Eb in *. destruct (process_loop _ _ _ _) as [ab parts]. match type of H with (let (_, _) := ?m in _) = _ => destruct m as [ab2 parts2] end. inversion H. split; cbn [s_mail s_queue s_batch s_done s_dec]; [exact E1|].
    intros u b Hu. apply in_app_iff in Hu as [Hu|Hu]; [exact (E2 u b Hu)|]. apply in_map_iff in Hu as (y & E & Hy). injection E as E _. subst y. apply E1. rewrite !in_app_iff. tauto.
  - unfold detach in H. destruct (s_batch s) as [|x r] eqn:Eb; [discriminate|]. destruct (s_ready s); [|discriminate]. rewrite <- Eb in *. inversion H. split; cbn [s_mail s_queue s_batch s_done s_dec]; [|exact E2].
    intros u Hu. apply E1. rewrite app_nil_r in Hu. rewrite !in_app_iff in *. destruct Hu as [Hu|Hu]; [now left|right; left]. destruct (filter _ (s_list s)) as [|y l]; [destruct Hu|].
    apply in_concat in Hu as (z & Z1 & Z2). apply in_map_iff in Z1 as (v & <- & V). apply filter_In in V as [V _]. apply in_concat. exists (g_list v). split; [now apply in_map|exact Z2].
Qed.
Lemma reach_sent init s : reach init s -> sent s.
Proof. induction 1 as [|s e s' H IH Va E]; [split; cbn; intros; contradiction|exact (sent_step _ _ _ IH E)]. Qed.
Lemma process_loop_mono s t : forall l ab parts, ab t = true -> fst (process_loop s l ab parts) t = true.
Proof.
  induction l as [|x l IH]; intros ab parts H; cbn [process_loop]; [exact H|]. apply IH. unfold set1. destruct (Nat.eqb_spec t x) as [<-|]; [rewrite H; reflexivity|exact H].
Qed.
Lemma abort_loop_mono s t : forall l ab parts, ab t = true -> fst (abort_loop s l ab parts) t = true.
Proof.
  induction l as [|x l IH]; intros ab parts H; cbn [abort_loop]; [exact H|]. destruct (ab x); [now apply IH|]. apply IH. unfold set1. destruct (Nat.eqb_spec t x); [reflexivity|exact H].
Qed.
Lemma abort_loop_all s t : forall l ab parts, In t l -> fst (abort_loop s l ab parts) t = true.
Proof.
  induction l as [|x l IH]; [intros ab parts []|]. intros ab parts [->|H]; cbn [abort_loop].
  - destruct (ab t) eqn:E; apply abort_loop_mono; [exact E|]. unfold set1. now rewrite Nat.eqb_refl.
  - destruct (ab x); now apply IH.
Qed.
(** a failed transaction *)
Definition failed (t : nat) (s : state) : Prop := s_abort s t = true /\ ~ In (t, true) (s_dec s).
Lemma failed_step t s e s' : failed t s -> step s e = Some s' -> failed t s'.
Proof.
  intros [F1 F2] H. destruct e as [parts pr|p|u err|n|w|]; cbn [step] in H.
  - inversion H. destruct (attach_form s parts pr) as (g & o & nx & ->). split; assumption.
  - unfold execute in H. destruct (p_queue (s_part s p)) as [|[u c] q]; [discriminate|]. destruct (run_writes _ _ _). inversion H. split; assumption.
  - unfold complete in H. destruct (_ && _); [|discriminate]. inversion H. split; [|exact F2]. cbn [s_abort]. unfold set1. destruct (Nat.eqb_spec t u) as [<-|]; [now rewrite F1|exact F1].
  - unfold collect in H. destruct (s_batch s) eqn:Eb; [|discriminate]. destruct (_ && _); [|discriminate]. destruct (collect_loop s (firstn n (s_mail s)) (s_queue s) []). inversion H. split; assumption.
  - unfold process in H. destruct (s_batch s) as [|x r] eqn:Eb; [discriminate|]. destruct (s_ready s); [discriminate|]. rewrite <- Eb in *. pose proof (process_loop_mono s t (s_batch s) (s_abort s) (s_part s) F1) as M1. destruct (process_loop _ _ _ _) as [ab parts]. cbn [fst] in M1.
    assert (M2 : forall z, z = (if existsb (fun t => negb (ab t) && s_wrote s t) (s_batch s) && negb w then abort_loop s (s_batch s) ab parts else (ab, parts)) -> fst z t = true).
    { intros z ->. destruct (_ && _); [now apply abort_loop_mono|exact M1]. }
    match type of H with (let (_, _) := ?m in _) = _ => specialize (M2 m eq_refl); destruct m as [ab2 parts2] end. cbn [fst] in M2. inversion H. split; cbn [s_abort s_dec]; [exact M2|].
    intros Hi. apply in_app_iff in Hi as [Hi|Hi]; [contradiction|]. apply in_map_iff in Hi as (y & E & Hy). injection E as E E'. subst y. rewrite M2 in E'. discriminate.
  - unfold detach in H. destruct (s_batch s) as [|x r]; [discriminate|]. destruct (s_ready s); [|discriminate]. inversion H. split; assumption.
Qed.
Lemma failed_later init s t s1 s2 : reach init s -> step s (Complete t true) = Some s1 -> later s1 s2 -> ~ decided s2 t true.
Proof.
  intros R H L. assert (F : failed t s1).
  { cbn [step] in H. unfold complete in H. destruct (_ && _) eqn:C; [|discriminate]. inversion H. apply andb_prop in C as [C _]. apply andb_prop in C as [_ C2]. apply Bool.negb_true_iff in C2. split; cbn [s_abort s_dec].
    - unfold set1. rewrite Nat.eqb_refl. apply Bool.orb_true_r.
    - intros X. apply (e_dec _ (reach_sent _ _ R)) in X. congruence. }
  clear H. assert (X : failed t s2) by (induction L as [|s0 e s3 L IH Va E]; [exact F|exact (failed_step _ _ _ _ IH E)]). apply X.
Qed.
Lemma wal_failed s s' : step s (Process false) = Some s' -> forall t, decided s' t true -> decided s t true \/ s_wrote s t = false.
Proof.
  intros H t Ht. cbn [step] in H. unfold process in H. destruct (s_batch s) as [|x r] eqn:Eb; [discriminate|]. destruct (s_ready s); [discriminate|]. rewrite <- Eb in *. destruct (process_loop _ _ _ _) as [ab parts].
  destruct (existsb (fun t => negb (ab t) && s_wrote s t) (s_batch s)) eqn:Ex; cbn [andb negb] in H.
  - pose proof (abort_loop_all s t (s_batch s) ab parts) as A. destruct (abort_loop s (s_batch s) ab parts) as [ab2 parts2]. cbn [fst] in A. inversion H. subst s'. unfold decided in *. cbn [s_dec] in Ht. apply in_app_iff in Ht as [Ht|Ht]; [now left|].
    apply in_map_iff in Ht as (y & E & Hy). injection E as E E'. subst y. rewrite (A Hy) in E'. discriminate.
  - inversion H. subst s'. unfold decided in *. cbn [s_dec] in Ht. apply in_app_iff in Ht as [Ht|Ht]; [now left|right]. apply in_map_iff in Ht as (y & E & Hy). injection E as E E'. subst y.
    destruct (s_wrote s t) eqn:Ew; [|reflexivity]. apply Bool.not_true_iff_false in Ex. exfalso. apply Ex. apply existsb_exists. exists t. split; [exact Hy|]. now rewrite E', Ew.
Qed.
