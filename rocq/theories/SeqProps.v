(** C47: identity values. *)
From Coq Require Import Sorted.
From Verif Require Import Base SeqModel.
Local Open Scope Z_scope.

(** the sequence stays below 2^63 along the history *)
Fixpoint fits (s : st) (l : list event) : Prop :=
  seq s < 9223372036854775808 /\ match l with [] => True | e :: r => fits (step s e) r end.
Definition plain (e : event) : Prop := match e with Restart | Set_identity _ => False | _ => True end.
Definition no_set (e : event) : Prop := match e with Set_identity _ => False | _ => True end.
Definition nonneg (e : event) : Prop := match e with Insert_value v => 0 <= v < 9223372036854775807 | _ => no_set e end.
Definition no_value (e : event) : Prop := match e with Insert_value _ => False | _ => no_set e end.
Definition kept (e : event) : Prop := match e with Insert | Checkpoint | Restart => True | _ => False end.

Lemma next_small q : 0 <= q < 9223372036854775808 -> sequence_next q = (q, q + 1) /\ to_i64 q = q.
Proof.
  intros H. unfold sequence_next, to_u64, to_i64, M64. rewrite !Z.mod_small by lia. split; [reflexivity|]. now replace (q <? 9223372036854775808) with true by lia.
Qed.
Lemma sync_small q v : 0 <= v < 9223372036854775807 -> sequence_sync q v = Z.max q (v + 1).
Proof.
  intros H. unfold sequence_sync, to_u64, M64. rewrite !Z.mod_small by (rewrite ?Z.mod_small; lia). cbv zeta. destruct (Z.ltb_spec q (v + 1)); lia.
Qed.
Lemma fits_app l1 : forall l2 s, fits s (l1 ++ l2) -> fits (run s l1) l2.
Proof. induction l1 as [|e l1 IH]; intros l2 s H; [exact H|]. cbn [app fits] in H. apply IH. apply H. Qed.
Lemma fits_hd l s : fits s l -> seq s < 9223372036854775808.
Proof. destruct l; cbn; tauto. Qed.

(** Without a restart: every generated value is above all that were generated before *)
Theorem C47_increasing_partial : forall l, Forall plain l -> fits st_init l ->
  Sorted Z.gt (made (run st_init l)) /\ Forall (fun v => v < seq (run st_init l)) (made (run st_init l)).
Proof.
  assert (G : forall l s, Forall plain l -> fits s l -> 0 <= seq s -> Sorted Z.gt (made s) -> Forall (fun v => v < seq s) (made s) ->
    Sorted Z.gt (made (run s l)) /\ Forall (fun v => v < seq (run s l)) (made (run s l))).
  { induction l as [|e l IH]; intros s P F H1 H2 H3; [split; assumption|]. cbn [run fold_left]. inversion P as [|? ? P1 P2]; subst. cbn [fits] in F. destruct F as [F1 F2].
    assert (Gen : forall v q, sequence_next (seq s) = (v, q) -> 0 <= q /\ Sorted Z.gt (to_i64 v :: made s) /\ Forall (fun x => x < q) (to_i64 v :: made s)).
    { intros v q E. destruct (next_small (seq s) ltac:(lia)) as [E1 E2]. rewrite E1 in E. injection E as <- <-. rewrite E2. split; [lia|]. split.
      - constructor; [exact H2|]. destruct (made s) as [|x m]; constructor. inversion H3; subst. lia.
      - constructor; [lia|]. apply Forall_impl with (2 := H3). intros; lia. }
    destruct e; cbn [step plain] in *; try contradiction; try (apply IH; assumption).
    - destruct (sequence_next (seq s)) as [v q] eqn:E. destruct (Gen v q eq_refl) as (G1 & G2 & G3). apply IH; assumption.
    - destruct (sequence_next (seq s)) as [v q] eqn:E. destruct (Gen v q eq_refl) as (G1 & G2 & G3). apply IH; assumption. }
  intros l P F. apply G; cbn; auto; lia || constructor.
Qed.
Print Assumptions C47_increasing_partial.

Lemma sync_fold l : forall q, Forall (fun v => 0 <= v < 9223372036854775807) l -> 0 <= q ->
  let r := fold_left sequence_sync l q in q <= r /\ Forall (fun v => v < r) l.
Proof.
  induction l as [|v l IH]; intros q H Hq; cbn [fold_left]; [split; [lia|constructor]|]. inversion H; subst. rewrite sync_small by assumption.
  destruct (IH (Z.max q (v + 1)) ltac:(assumption) ltac:(lia)) as [R1 R2]. cbv zeta in *. split; [lia|]. constructor; [lia|exact R2].
Qed.
Lemma sync_log_fold l : forall q, Forall (fun e : bool * Z => fst e = true -> 0 <= snd e < 9223372036854775807) l -> 0 <= q ->
  let r := sync_log q l in q <= r /\ Forall (fun e : bool * Z => fst e = true -> snd e < r) l.
Proof.
  induction l as [|[b v] l IH]; intros q H Hq; unfold sync_log; cbn [fold_left fst snd]; [split; [lia|constructor]|]. inversion H as [|? ? H1 H2]; subst. cbn [fst snd] in H1.
  destruct b.
  - rewrite sync_small by auto. destruct (IH (Z.max q (v + 1)) H2 ltac:(lia)) as [R1 R2]. unfold sync_log in *. cbv zeta in *. split; [lia|]. constructor; [cbn; lia|exact R2].
  - destruct (IH q H2 Hq) as [R1 R2]. unfold sync_log in *. cbv zeta in *. split; [lia|]. constructor; [cbn; congruence|exact R2].
Qed.

(** the rows that exist are in the files or in the log *)
Record kst (s : st) : Prop := mk_kst {
  k_seq : 0 <= seq s;
  k_disk : Forall (fun v => 0 <= v < 9223372036854775807) (disk s);
  k_log : Forall (fun e : bool * Z => fst e = true -> 0 <= snd e < 9223372036854775807) (log s);
  k_live : forall v, In v (live s) -> In v (disk s) \/ In (true, v) (log s) }.
Lemma in_remove v x l : In x (remove v l) -> In x l.
Proof. unfold remove. intros H. apply filter_In in H. tauto. Qed.
Lemma live_range s : kst s -> forall v, In v (live s) -> 0 <= v < 9223372036854775807.
Proof. intros [K1 K2 K3 K4] v H. rewrite Forall_forall in K2, K3. destruct (K4 v H) as [H'|H']; [now apply K2|now apply (K3 _ H')]. Qed.
Lemma restart_above s : kst s -> 0 <= seq (step s Restart) /\ forall v, In v (live s) -> v < seq (step s Restart).
Proof.
  intros [K1 K2 K3 K4]. cbn [step seq]. destruct (sync_fold (disk s) 0 K2 ltac:(lia)) as [R1 R2]. cbv zeta in *. destruct (sync_log_fold (log s) _ K3 R1) as [R3 R4]. cbv zeta in *.
  split; [lia|]. intros v H. rewrite Forall_forall in R2, R4. destruct (K4 v H) as [H'|H']; [specialize (R2 v H'); lia|now apply (R4 _ H')].
Qed.
Lemma kst_step s e : kst s -> nonneg e -> seq s < 9223372036854775807 -> kst (step s e).
Proof.
  intros K He F. pose proof K as [K1 K2 K3 K4]. destruct e as [| |v|v| | |v]; cbn [step].
  - destruct (next_small (seq s) ltac:(lia)) as [-> E]. rewrite E. split; cbn [seq live disk log made]; [lia|exact K2| |].
    + apply Forall_app. split; [exact K3|]. constructor; [cbn; lia|constructor].
    + intros v [<-|H]; [right; apply in_or_app; right; now left|]. destruct (K4 v H); [now left|right; apply in_or_app; now left].
  - destruct (next_small (seq s) ltac:(lia)) as [-> E]. rewrite E. split; cbn [seq live disk log made]; [lia|assumption..].
  - cbn [nonneg] in He. split; cbn [seq live disk log made]; [assumption|assumption| |].
    + apply Forall_app. split; [exact K3|]. constructor; [cbn; auto|constructor].
    + intros x [<-|H]; [right; apply in_or_app; right; now left|]. destruct (K4 x H); [now left|right; apply in_or_app; now left].
  - split; cbn [seq live disk log made]; [assumption|assumption| |].
    + apply Forall_app. split; [exact K3|]. constructor; [cbn; congruence|constructor].
    + intros x H. apply in_remove in H. destruct (K4 x H); [now left|right; apply in_or_app; now left].
  - split; cbn [seq live disk log made]; [assumption| |constructor|now left]. apply Forall_forall. apply live_range. exact K.
  - pose proof (restart_above s K) as [R _]. cbn [step] in R. split; cbn [seq live disk log made] in *; assumption.
  - destruct He.
Qed.
(** the sequence stays below 2^63 - 1 *)
Fixpoint below (s : st) (l : list event) : Prop :=
  seq s < 9223372036854775807 /\ match l with [] => True | e :: r => below (step s e) r end.
Lemma kst_run l : forall s, kst s -> Forall nonneg l -> below s l -> kst (run s l).
Proof.
  induction l as [|e l IH]; intros s K H F; [exact K|]. inversion H; subst. cbn [below] in F. destruct F as [F1 F2]. cbn [run fold_left].
  apply IH; [|assumption|exact F2]. now apply kst_step.
Qed.
Lemma kst_init : kst st_init.
Proof. split; cbn; [lia|constructor|constructor|intros v []]. Qed.
Lemma above_run l : forall s, kst s -> (forall v, In v (live s) -> v < seq s) -> Forall no_value l -> below s l ->
  forall v, In v (live (run s l)) -> v < seq (run s l).
Proof.
  induction l as [|e l IH]; intros s K A H F v Hv; [now apply A|]. inversion H as [|? ? H1 H2]; subst. cbn [below] in F. destruct F as [F1 F2]. cbn [run fold_left] in Hv |- *.
  refine (IH (step s e) _ _ H2 F2 v Hv); clear IH v Hv.
  - apply kst_step; [exact K|destruct e; cbn in *; tauto|exact F1].
  - pose proof (k_seq _ K) as K1. destruct e; cbn [step no_value no_set] in *; try contradiction.
    + destruct (next_small (seq s) ltac:(lia)) as [-> E]. rewrite E. cbn [seq live]. intros v [<-|Hv]; [lia|]. specialize (A v Hv). lia.
    + destruct (next_small (seq s) ltac:(lia)) as [-> E]. rewrite E. cbn [seq live]. intros v Hv. specialize (A v Hv). lia.
    + cbn [seq live]. intros x Hx. apply in_remove in Hx. now apply A.
    + exact A.
    + intros v Hv. now apply (proj2 (restart_above s K)).
Qed.
(** After a restart no generated value is the value of a row that exists, however the rows were made
    before: the next value is above all of them, until a value is inserted explicitly again.
    Missing for the full property: values inserted explicitly since the last restart
    (C47_explicit_refuted), negative values (C47_negative_refuted), values of rows that were deleted
    (C47_reuse_refuted), ALTER TABLE SET IDENTITY. *)
Theorem C47_partial : forall before after, Forall nonneg before -> Forall no_value after -> below st_init (before ++ Restart :: after) ->
  let s := run st_init (before ++ Restart :: after) in forall v, In v (live s) -> v < fst (sequence_next (seq s)).
Proof.
  intros before after H1 H2 F. cbn [sequence_next fst]. unfold run. rewrite fold_left_app. cbn [fold_left]. fold (run st_init before). 
  assert (F' : below (run st_init before) (Restart :: after)).
  { clear H1 H2. revert F. generalize st_init. induction before as [|e b IH]; intros s F; [exact F|]. cbn [app below] in F. apply IH. apply F. }
  assert (F0 : below st_init before).
  { clear F' H1 H2. revert F. generalize st_init. induction before as [|e b IH]; intros s F; cbn [app below] in *; [tauto|]. split; [apply F|]. apply IH. apply F. }
  pose proof (kst_run before st_init kst_init H1 F0) as K. cbn [below] in F'. destruct F' as [F1 F2]. apply above_run; [|exact (proj2 (restart_above _ K))|exact H2|exact F2].
  now apply kst_step.
Qed.
Print Assumptions C47_partial.
(** If no row is deleted and no transaction is aborted, generated values increase also across
    restarts *)
Theorem C47_kept_partial : forall l, Forall kept l -> below st_init l ->
  Sorted Z.gt (made (run st_init l)) /\ Forall (fun v => v < seq (run st_init l)) (made (run st_init l)).
Proof.
  assert (G : forall l s, kst s -> made s = live s -> Forall kept l -> below s l -> Sorted Z.gt (made s) -> Forall (fun v => v < seq s) (made s) ->
    Sorted Z.gt (made (run s l)) /\ Forall (fun v => v < seq (run s l)) (made (run s l))).
  { induction l as [|e l IH]; intros s K Hm P F H2 H3; [split; assumption|]. cbn [run fold_left]. inversion P as [|? ? P1 P2]; subst. cbn [below] in F. destruct F as [F1 F2].
    assert (K' : kst (step s e)) by (apply kst_step; [exact K|destruct e; cbn in *; tauto|exact F1]). pose proof (k_seq _ K) as K1.
    destruct e; cbn [kept] in P1; try contradiction.
    - apply IH; try assumption; cbn [step] in *; destruct (next_small (seq s) ltac:(lia)) as [E1 E2]; rewrite E1, E2; cbn [made live seq]; [congruence| |].
      + constructor; [exact H2|]. destruct (made s) as [|x m]; constructor. inversion H3; subst. lia.
      + constructor; [lia|]. apply Forall_impl with (2 := H3). intros; lia.
    - apply IH; assumption.
    - apply IH; try assumption. change (made (step s Restart)) with (made s). rewrite Hm. apply Forall_forall. apply (restart_above s K). }
  intros l P F. apply G; try assumption; try reflexivity; try constructor; apply kst_init || constructor.
  all: try (cbn; lia). all: cbn; intros v [].
Qed.
Print Assumptions C47_kept_partial.

(** An explicit value is not observed: the next generated value is the same *)
Theorem C47_explicit_refuted : made (run st_init [Insert_value 0; Insert]) = [0] /\ live (run st_init [Insert_value 0; Insert]) = [0; 0].
Proof. split; reflexivity. Qed.
Print Assumptions C47_explicit_refuted.
(** After a restart the value of a deleted row is generated again *)
Theorem C47_reuse_refuted : made (run st_init [Insert; Delete 0; Checkpoint; Restart; Insert]) = [0; 0].
Proof. reflexivity. Qed.
Print Assumptions C47_reuse_refuted.
(** A row with a negative value makes the sequence wrap around after a restart *)
Theorem C47_negative_refuted : let s := run st_init [Insert; Insert_value (-2); Restart; Insert; Insert] in made s = [0; -1; 0] /\ live s = [0; -1; -2; 0].
Proof. split; reflexivity. Qed.
Print Assumptions C47_negative_refuted.

Example C47_nonvacuous : let b := [Insert; Insert_value 41; Checkpoint; Delete 0; Insert_aborted] in let a := [Insert; Checkpoint; Restart; Insert] in
  Forall nonneg b /\ Forall no_value a /\ below st_init (b ++ Restart :: a) /\ live (run st_init (b ++ Restart :: a)) = [43; 42; 41].
Proof. cbv zeta. split; [repeat constructor; cbn; lia|]. split; [repeat constructor|]. split; [vm_compute; tauto|reflexivity]. Qed.
