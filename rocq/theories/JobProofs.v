(** Proofs for C90. *)
From Coq Require Import Permutation.
From Verif Require Import Base JobModel JobSpec.

Lemma idle_app a b : idle (a ++ b) = (idle a + idle b)%nat.
Proof. unfold idle. now rewrite filter_app, app_length. Qed.
Lemma idle_cons w b : idle (w :: b) = ((match w with Idle => 1 | _ => 0 end) + idle b)%nat.
Proof. unfold idle. cbn [filter]. destruct w; reflexivity. Qed.
Lemma wake_facts ws ws' : Forall2 wake ws ws' -> (idle ws <= idle ws')%nat /\ (ws' <> ws -> (idle ws < idle ws')%nat) /\
  (In Sleeping ws' -> In Sleeping ws) /\ (In Gone ws' -> In Gone ws) /\ working ws' = working ws.
Proof.
  induction 1 as [|w w' ws ws' H HF (I1 & I2 & I3 & I4 & I5)]; [cbn; repeat split; auto; now intros []|]. rewrite !idle_cons. unfold working in *. cbn [flat_map In]. rewrite I5.
  destruct H as [->|[-> ->]].
  - split; [lia|]. split; [intros N; assert (ws' <> ws) as G by (intros ->; now apply N); specialize (I2 G); lia|]. tauto.
  - split; [lia|]. split; [lia|]. intuition discriminate.
Qed.
Definition inv (s : sys) : Prop := let (m, ws) := s in
  jobs_count m = Z.of_nat (length (jobs m)) /\ (shutdown m = true -> ~ In Sleeping ws) /\ (shutdown m = false -> ~ In Gone ws) /\
  (In Sleeping ws -> (length (jobs m) <= idle ws)%nat).
Lemma in_mid (x y : worker) a b : In x (a ++ y :: b) <-> In x a \/ y = x \/ In x b.
Proof. rewrite in_app_iff. cbn. tauto. Qed.
Lemma next_facts m o m' : jobs_count m = Z.of_nat (length (jobs m)) -> next m = Ok (o, m') ->
  match o with
  | Took j => jobs m = j :: jobs m' /\ shutdown m' = shutdown m /\ jobs_count m' = Z.of_nat (length (jobs m'))
  | Leaves => m' = m /\ jobs m = [] /\ shutdown m = true
  | Waits => m' = m /\ jobs m = [] /\ shutdown m = false
  end.
Proof.
  intros Hc. unfold next. destruct (jobs_count m >? 0) eqn:E.
  - destruct (jobs m) as [|j q] eqn:Ej; [easy|]. intros H. injection H as <- <-. cbn in *. split; [reflexivity|split; [reflexivity|lia]].
  - assert (jobs m = []) by (destruct (jobs m); [reflexivity|cbn in *; lia]). destruct (shutdown m) eqn:Es; intros H1; injection H1 as <- <-; auto.
Qed.
Lemma in_broadcast_sleep ws : ~ In Sleeping (broadcast ws).
Proof. unfold broadcast. rewrite in_map_iff. intros ([| | |] & H & _); discriminate. Qed.
Lemma in_broadcast_gone ws : In Gone (broadcast ws) -> In Gone ws.
Proof. unfold broadcast. rewrite in_map_iff. intros (w & H & G). destruct w; try discriminate. exact G. Qed.
Lemma working_broadcast ws : working (broadcast ws) = working ws.
Proof. unfold working, broadcast. induction ws as [|w ws IH]; [reflexivity|]. cbn. rewrite IH. now destruct w. Qed.
Lemma inv_step s e s' : inv s -> step s e s' -> inv s'.
Proof.
  intros H S. destruct S as [m ws ws' j [Hw Hs]|m a b o m' Hn|m ws ws' Hw|m a b j|m ws|m ws n Hg]; destruct H as (H1 & H2 & H3 & H4).
  - apply wake_facts in Hw as (W1 & W2 & W3 & W4 & _). cbn. rewrite app_length. cbn [length]. split; [lia|]. split; [tauto|]. split; [tauto|].
    intros K. specialize (H4 (W3 K)). specialize (W2 (Hs (W3 K))). lia.
  - apply next_facts in Hn; auto. rewrite in_mid in H2, H3, H4. rewrite idle_app, idle_cons in H4. cbn [inv]. rewrite !in_mid, idle_app, idle_cons. destruct o as [j| |]; cbn [after].
    + destruct Hn as (N1 & N2 & N3). rewrite N2. rewrite N1 in H4. cbn [length] in H4. split; [auto|]. split; [intros K L; apply H2; intuition discriminate|]. split; [intros K L; apply H3; intuition discriminate|].
      intros K. assert (G : In Sleeping a \/ Idle = Sleeping \/ In Sleeping b) by intuition discriminate. specialize (H4 G). lia.
    + destruct Hn as (-> & N1 & N2). split; [auto|]. split; [intros K L; apply H2; intuition discriminate|]. split; [congruence|]. rewrite N1. cbn. lia.
    + destruct Hn as (-> & N1 & N2). split; [auto|]. split; [congruence|]. split; [intros K L; apply H3; intuition discriminate|]. rewrite N1. cbn. lia.
  - apply wake_facts in Hw as (W1 & W2 & W3 & W4 & _). cbn. split; [auto|]. split; [tauto|]. split; [tauto|]. intros K. specialize (H4 (W3 K)). lia.
  - cbn [inv]. rewrite in_mid in H2, H3, H4. rewrite !in_mid. rewrite idle_app, idle_cons in *. split; [auto|]. split; [intros K L; apply H2; intuition discriminate|]. split; [intros K L; apply H3; intuition discriminate|].
    intros K. assert (G : In Sleeping a \/ Working j = Sleeping \/ In Sleeping b) by intuition discriminate. specialize (H4 G). lia.
  - cbn. split; [auto|]. split; [intros _; apply in_broadcast_sleep|]. split; [discriminate|]. intros K. now apply in_broadcast_sleep in K.
  - cbn. split; [auto|]. assert (G : forall w, In w (repeat Idle (Z.to_nat n)) -> w = Idle) by (intros w; apply repeat_spec).
    split; [discriminate|]. split; [intros _ K; now apply G in K|]. intros K. now apply G in K.
Qed.
Lemma inv_init : inv (init, []).
Proof. cbn. repeat split; try easy; lia. Qed.
Lemma inv_run s l s' : run s l s' -> inv s -> inv s'.
Proof. induction 1; eauto using inv_step. Qed.
Lemma inv_reachable s : reachable s -> inv s.
Proof. intros [l H]. eapply inv_run; [exact H|apply inv_init]. Qed.
(** the order *)
Lemma order_step s e s' : inv s -> step s e s' -> started [e] ++ jobs (fst s') = jobs (fst s) ++ added [e].
Proof.
  intros H S. destruct S as [m ws ws' j [Hw Hs]|m a b o m' Hn|m ws ws' Hw|m a b j|m ws|m ws n Hg]; cbn [fst]; try (cbn; now rewrite app_nil_r).
  - reflexivity.
  - destruct H as (H1 & _). apply next_facts in Hn; auto. destruct o as [j| |]; cbn; rewrite app_nil_r; [now destruct Hn as (-> & _)|now destruct Hn as (-> & _)|now destruct Hn as (-> & _)].
Qed.
Lemma order_run s l s' : run s l s' -> inv s -> started l ++ jobs (fst s') = jobs (fst s) ++ added l.
Proof.
  induction 1 as [s|s e s1 l s2 S R IH]; intros H; [cbn; now rewrite app_nil_r|].
  change (started (e :: l)) with (started ([e] ++ l)). change (added (e :: l)) with (added ([e] ++ l)). unfold started, added in *. rewrite !flat_map_app, <- app_assoc, IH by eauto using inv_step.
  rewrite !app_assoc. f_equal. now apply order_step.
Qed.
Lemma working_mid w a b : working (a ++ w :: b) = working a ++ working [w] ++ working b.
Proof. unfold working. rewrite flat_map_app. cbn [flat_map]. now rewrite app_nil_r. Qed.
Lemma working_gone ws : Forall (eq Gone) ws -> working ws = [].
Proof. induction 1 as [|w ws <- H IH]; [reflexivity|exact IH]. Qed.
Lemma working_repeat n : working (repeat Idle n) = [].
Proof. induction n; [reflexivity|assumption]. Qed.
Lemma work_step s e s' : step s e s' -> Permutation (working (snd s) ++ started [e]) (finished [e] ++ working (snd s')).
Proof.
  intros S. destruct S as [m ws ws' j [Hw Hs]|m a b o m' Hn|m ws ws' Hw|m a b j|m ws|m ws n Hg]; cbn [snd].
  - apply wake_facts in Hw as (_ & _ & _ & _ & ->). cbn. now rewrite app_nil_r.
  - rewrite !working_mid. destruct o as [j| |]; cbn; rewrite ?app_nil_r; auto.
    rewrite <- app_assoc. apply Permutation_app_head. symmetry. apply (Permutation_app_comm [j]).
  - apply wake_facts in Hw as (_ & _ & _ & _ & ->). cbn. now rewrite app_nil_r.
  - rewrite !working_mid. cbn. rewrite app_nil_r. symmetry. apply Permutation_middle.
  - rewrite working_broadcast. cbn. now rewrite app_nil_r.
  - rewrite working_gone by auto. unfold start. cbn [snd]. now rewrite working_repeat.
Qed.
Lemma work_run s l s' : run s l s' -> Permutation (working (snd s) ++ started l) (finished l ++ working (snd s')).
Proof.
  induction 1 as [s|s e s1 l s2 S R IH]; [cbn; now rewrite app_nil_r|].
  change (started (e :: l)) with (started ([e] ++ l)). change (finished (e :: l)) with (finished ([e] ++ l)). unfold started, finished in *. rewrite !flat_map_app.
  rewrite app_assoc. rewrite (work_step _ _ _ S : Permutation (working (snd s) ++ flat_map _ [e]) _). unfold finished. rewrite <- !app_assoc. now apply Permutation_app_head.
Qed.
(** termination *)
Definition weight (w : worker) : nat := match w with Idle => 1 | Working _ => 2 | _ => 0 end.
Definition measure (s : sys) : nat := (3 * length (jobs (fst s)) + list_sum (map weight (snd s)))%nat.
Lemma weight_mid w a b : list_sum (map weight (a ++ w :: b)) = (list_sum (map weight a) + weight w + list_sum (map weight b))%nat.
Proof. rewrite map_app, list_sum_app. change (list_sum (map weight (w :: b))) with (weight w + list_sum (map weight b))%nat. lia. Qed.
Lemma own_step s e s' : inv s -> step s e s' -> own e -> (measure s' < measure s)%nat.
Proof.
  intros H S. destruct S as [m ws ws' j Hw|m a b o m' Hn|m ws ws' Hw|m a b j|m ws|m ws n Hg]; intros O; try easy; unfold measure; cbn [fst snd]; rewrite !weight_mid.
  - destruct H as (H1 & _). apply next_facts in Hn; auto. destruct o as [j| |]; cbn [after weight].
    + destruct Hn as (-> & _). cbn [length]. lia.
    + destruct Hn as (-> & _). lia.
    + destruct Hn as (-> & _). lia.
  - cbn [weight]. lia.
Qed.
Lemma own_run s l s' : run s l s' -> inv s -> Forall own l -> (length l + measure s' <= measure s)%nat.
Proof.
  induction 1 as [s|s e s1 l s2 S R IH]; intros H O; [cbn; lia|]. inversion O; subst. pose proof (own_step _ _ _ H S ltac:(auto)). specialize (IH (inv_step _ _ _ H S) ltac:(auto)). cbn [length]. lia.
Qed.
Lemma next_ok m : jobs_count m = Z.of_nat (length (jobs m)) -> exists o m', next m = Ok (o, m').
Proof.
  intros H. unfold next. destruct (jobs_count m >? 0) eqn:E.
  - destruct (jobs m); [cbn in *; lia|]. eauto.
  - destruct (shutdown m); eauto.
Qed.
Lemma quiet_workers m ws : inv (m, ws) -> quiet (m, ws) -> forall w, In w ws -> w = Sleeping \/ w = Gone.
Proof.
  intros (H & _) Q w Hin. apply in_split in Hin as (a & b & ->). destruct w as [| |j|]; auto; exfalso.
  - destruct (next_ok m H) as (o & m' & E). apply (Q _ _ (do_next m a b o m' E)). now destruct o.
  - apply (Q _ _ (do_finish m a b j)). exact I.
Qed.
Lemma quiet_idle ws : (forall w, In w ws -> w = Sleeping \/ w = Gone) -> idle ws = 0%nat /\ working ws = [].
Proof.
  induction ws as [|w ws IH]; intros H; [auto|]. destruct IH as [I1 I2]; [intros; apply H; now right|]. rewrite idle_cons. unfold working in *. cbn [flat_map]. rewrite I2.
  destruct (H w (or_introl eq_refl)) as [-> | ->]; auto.
Qed.
(** a stop *)
Definition no_new (e : event) : Prop := match e with Added _ | Start _ => False | _ => True end.
Definition stopping (s : sys) : Prop := shutdown (fst s) = true /\ (In Gone (snd s) -> jobs (fst s) = []) /\ snd s <> [].
Lemma stopping_step s e s' : inv s -> stopping s -> step s e s' -> no_new e -> stopping s'.
Proof.
  intros H (H1 & H2 & H3) S N. destruct S as [m ws ws' j [Hw Hs]|m a b o m' Hn|m ws ws' Hw|m a b j|m ws|m ws n Hg]; try easy; unfold stopping; cbn [fst snd] in *.
  - destruct H as (Hc & _). apply next_facts in Hn; auto. rewrite in_mid in *. split; [destruct o; [destruct Hn as (_ & -> & _)|destruct Hn as (-> & _)|destruct Hn as (-> & _)]; auto|].
    split; [|now destruct a]. destruct o as [j| |]; cbn [after].
    + intros G. assert (K : In Gone a \/ Idle = Gone \/ In Gone b) by intuition discriminate. destruct Hn as (Hn & _). rewrite (H2 K) in Hn. discriminate.
    + destruct Hn as (-> & Hn & _). auto.
    + destruct Hn as (-> & Hn & _). auto.
  - apply wake_facts in Hw as G. destruct G as (_ & _ & _ & W4 & _). split; [auto|]. split; [auto|]. inversion Hw; subst; easy.
  - rewrite in_mid in *. split; [auto|]. split; [|now destruct a]. intros K. apply H2. intuition discriminate.
  - split; [reflexivity|]. split; [intros K; now apply H2, in_broadcast_gone|]. now destruct ws.
Qed.
Lemma stopping_run s l s' : run s l s' -> inv s -> stopping s -> Forall no_new l -> stopping s'.
Proof. induction 1 as [s|s e s1 l s2 S R IH]; intros H G N; [auto|]. inversion N; subst. eauto using stopping_step, inv_step. Qed.
(** no threads *)
Lemma none_run s l s' : run s l s' -> snd s = [] -> Forall (fun e => match e with Start _ => False | _ => True end) l -> snd s' = [] /\ started l = [].
Proof.
  induction 1 as [s|s e s1 l s2 S R IH]; intros H N; [auto|]. inversion N as [|? ? Ne Nl]; subst.
  destruct S as [m ws ws' j [Hw Hs]|m a b o m' Hn|m ws ws' Hw|m a b j|m ws|m ws n Hg]; cbn [snd] in *; try (now destruct a); try easy; subst ws; try (inversion Hw; subst); cbn; now apply IH.
Qed.
Lemma run_app s a b s' : run s (a ++ b) s' -> exists s1, run s a s1 /\ run s1 b s'.
Proof.
  revert s; induction a as [|e a IH]; intros s H; [exists s; split; [constructor|exact H]|]. cbn [app] in H. inversion H as [|? ? t ? ? S R]; subst. destruct (IH _ R) as (s2 & R1 & R2). exists s2. split; [econstructor; eauto|auto].
Qed.
Definition up (s : sys) : Prop := shutdown (fst s) = false /\ snd s <> [].
Lemma up_step s e s' : inv s -> up s -> step s e s' -> goes_on e -> up s'.
Proof.
  intros H (H1 & H2) S N. destruct S as [m ws ws' j [Hw Hs]|m a b o m' Hn|m ws ws' Hw|m a b j|m ws|m ws n Hg]; try easy; unfold up; cbn [fst snd] in *.
  - split; [auto|]. inversion Hw; subst; easy.
  - destruct H as (Hc & _). apply next_facts in Hn; auto. split; [destruct o; [destruct Hn as (_ & -> & _)|destruct Hn as (-> & _)|destruct Hn as (-> & _)]; auto|now destruct a].
  - split; [auto|]. inversion Hw; subst; easy.
  - split; [auto|now destruct a].
Qed.
Lemma up_run s l s' : run s l s' -> inv s -> up s -> Forall goes_on l -> up s'.
Proof. induction 1 as [s|s e s1 l s2 S R IH]; intros H G N; [auto|]. inversion N; subst. eauto using up_step, inv_step. Qed.
Lemma start_inv s n s1 : step s (Start n) s1 -> s1 = start (fst s) n.
Proof. intros S. remember (Start n) as e eqn:E. destruct S; try discriminate; [destruct o; discriminate|]. now injection E as ->. Qed.
Lemma stop_inv s s1 : step s Stop s1 -> s1 = (stop (fst s), broadcast (snd s)).
Proof. intros S. remember Stop as e eqn:E. destruct S; try discriminate; [destruct o; discriminate|]. reflexivity. Qed.
Lemma start_up s n s1 : 0 < n -> step s (Start n) s1 -> up s1.
Proof. intros Hn S. apply start_inv in S as ->. unfold up, start. cbn. split; [reflexivity|]. destruct (Z.to_nat n) eqn:E; [lia|discriminate]. Qed.
Lemma up_stopping s s1 : inv s -> up s -> step s Stop s1 -> stopping s1.
Proof.
  intros H [U1 U2] S. apply stop_inv in S as ->. destruct s as [m ws]. destruct H as (_ & _ & H3 & _). cbn [fst snd] in *. split; [reflexivity|]. cbn [fst snd]. split; [|now destruct ws].
  intros G. apply in_broadcast_gone in G. now destruct (H3 U1).
Qed.
Lemma done_of l s : run (init, []) l s -> jobs (fst s) = [] -> working (snd s) = [] -> Permutation (finished l) (added l).
Proof.
  intros R J W. pose proof (order_run _ _ _ R inv_init) as O. cbn [fst jobs init app] in O. rewrite J, app_nil_r in O. pose proof (work_run _ _ _ R) as P. cbn [snd working flat_map app] in P. rewrite W, app_nil_r, O in P. now symmetry.
Qed.
