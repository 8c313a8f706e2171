(** C09, C10, C11, C12: transactions over several partitions. *)
From Verif Require Import Base TxModel TxSpec TxProofs TxProofs2 TxProofs3 TxProofs4 TxProofs5 TxProofs6 TxProofs7.
Local Open Scope nat_scope.

(** histories *)
Fixpoint runs (s : state) (l : list event) : option state :=
  match l with [] => Some s | e :: r => match step s e with Some s' => runs s' r | None => None end end.
Lemma runs_reach init s l s' : reach init s -> Forall valid l -> runs s l = Some s' -> reach init s'.
Proof.
  revert s. induction l as [|e l IH]; intros s R F H; cbn [runs] in H; [now inversion H; subst|]. inversion F as [|? ? F1 F2]. subst. destruct (step s e) as [s1|] eqn:E; [|discriminate].
  exact (IH s1 (reach_step _ _ _ _ R F1 E) F2 H).
Qed.
Definition zeros : nat -> rows := fun _ => [0; 0]%Z.
(** set row [k] to [v]; add [v] to row [k] *)
Definition put (k : nat) (v : Z) : nat -> prog := fun _ _ => [(k, v)].
Definition add (k : nat) (v : Z) : nat -> prog := fun _ d => [(k, nth k d 0 + v)%Z].
Definition get (l : list event) : state := match runs (start zeros) l with Some s => s | None => start zeros end.
Lemma get_reach l : Forall valid l -> match runs (start zeros) l with Some _ => true | None => false end = true -> reach zeros (get l).
Proof. intros F H. unfold get. destruct (runs (start zeros) l) as [s|] eqn:E; [|discriminate]. apply (runs_reach zeros (start zeros) l); [constructor|exact F|exact E]. Qed.
Lemma get_step l e : match runs (start zeros) (l ++ [e]) with Some _ => true | None => false end = true -> step (get l) e = Some (get (l ++ [e])).
Proof.
  unfold get. generalize (start zeros) at 1 2 4. generalize (start zeros) as d. intros d. induction l as [|x l IH]; intros s H; cbn [app runs] in *.
  - destruct (step s e); [reflexivity|discriminate].
  - destruct (step s x) as [s1|]; [now apply IH|discriminate].
Qed.
Ltac ok := repeat (constructor; try (cbn; intuition (try discriminate; try (repeat constructor; cbn; intuition discriminate)))).

(** ** C11: the order of decisions *)
Theorem C11_partial : forall init s, reach init s -> laned s ->
  forall A t2 b B, s_dec s = A ++ (t2, b) :: B -> forall t1, t1 < t2 -> shares s t1 t2 -> exists b', In (t1, b') A.
Proof. exact decided_order. Qed.
Print Assumptions C11_partial.

(** 0 has partition 0 and is not finished, 1 has partition 1, 2 has both and joins the group of 1 only *)
Definition h11 : list event := [Attach [0] (put 0 1); Attach [1] (put 0 2); Attach [0; 1] (put 1 3); Execute 0; Execute 1; Execute 0; Execute 1; Complete 1 false; Complete 2 false; Collect 2; Process true].
Theorem C11_refuted : ~ (forall init s, reach init s -> forall A t2 b B, s_dec s = A ++ (t2, b) :: B -> forall t1, t1 < t2 -> shares s t1 t2 -> exists b', In (t1, b') A).
Proof.
  intros H. assert (R : reach zeros (get h11)) by (apply get_reach; [unfold h11; ok|reflexivity]).
  specialize (H zeros (get h11) R). assert (Ed : s_dec (get h11) = [(1, true); (2, true)]) by reflexivity. rewrite Ed in H. destruct (H [(1, true)] 2 true [] eq_refl 0) as [b Hb].
  - lia.
  - exists 0. change (In 0 [0] /\ In 0 [0; 1]). cbn. auto.
  - cbn in Hb. destruct Hb as [Hb|[]]. discriminate.
Qed.
Print Assumptions C11_refuted.

(** ** C12: one outcome on all partitions *)
Theorem C12_partial : forall init s, reach init s -> laned s -> lonely_aborts s -> forall p t b, applied s p t b -> decided s t b.
Proof. exact applied_decided. Qed.
Print Assumptions C12_partial.

(** a transaction that failed is not committed; if the log was not written no transaction with writes is *)
Theorem C12_failed : forall init s t s1 s2, reach init s -> step s (Complete t true) = Some s1 -> later s1 s2 -> ~ decided s2 t true.
Proof. exact failed_later. Qed.
Print Assumptions C12_failed.
Theorem C12_wal : forall s s', step s (Process false) = Some s' -> forall t, decided s' t true -> decided s t true \/ s_wrote s t = false.
Proof. exact wal_failed. Qed.
Print Assumptions C12_wal.
Definition hwal : list event := [Attach [0] (put 0 1); Attach [0] (fun _ _ => []); Execute 0; Execute 0; Complete 0 false; Complete 1 false; Collect 2].
Example C12_wal_nonvacuous : exists s s', reach zeros s /\ step s (Process false) = Some s' /\ s_wrote s 0 = true /\ s_dec s' = [(0, false); (1, false)].
Proof.
  exists (get hwal), (get (hwal ++ [Process false])). split; [apply get_reach; [unfold hwal; ok|reflexivity]|]. split; [apply get_step; reflexivity|]. split; reflexivity.
Qed.

(** 0 has both partitions and is committed; 1 fails on partition 0; both are decided before partition 0
    looks: everything up to 1 is undone there, so 0 too *)
Definition h12 : list event := [Attach [0; 1] (put 0 7); Attach [0] (put 1 5); Execute 0; Execute 1; Execute 0; Complete 0 false; Complete 1 true; Collect 2; Process true; Detach; Attach [0; 1] (put 1 1); Execute 0; Execute 1].
Theorem C12_refuted : ~ (forall init s, reach init s -> forall t p q, decided s t true -> In p (parts_of s t) -> In q (parts_of s t) -> applied s p t true -> ~ applied s q t false).
Proof.
  intros H. assert (R : reach zeros (get h12)) by (apply get_reach; [unfold h12; ok|reflexivity]).
  assert (Ed : s_dec (get h12) = [(0, true); (1, false)]) by reflexivity. assert (Ep : parts_of (get h12) 0 = [0; 1]) by reflexivity.
  assert (E0 : p_out (s_part (get h12) 0) = [(1, false); (0, false)]) by reflexivity. assert (E1 : p_out (s_part (get h12) 1) = [(0, true)]) by reflexivity.
  apply (H zeros (get h12) R 0 1 0); unfold decided, applied; rewrite ?Ed, ?Ep, ?E0, ?E1; cbn; auto.
Qed.
Print Assumptions C12_refuted.

(** ** C09: the rows are those of the committed transactions *)
Theorem C09_partial : forall init s, reach init s -> laned s -> lonely_aborts s ->
  forall p, (forall t, In t (on s p) -> ~ In t (s_list s)) -> visible s p = serial s p (filter (committed s) (on s p)) (init p).
Proof. exact visible_serial. Qed.
Print Assumptions C09_partial.

(** the history of C12_refuted, and one where the undone transaction was before a committed one *)
Definition h09a : list event := firstn 10 h12.
Definition h09b : list event := [Attach [0] (put 0 5); Attach [0] (put 0 7); Execute 0; Execute 0; Complete 0 true; Collect 1; Process true; Detach; Complete 1 false; Collect 1; Process true; Detach].
Theorem C09_refuted : exists s, reach zeros s /\ laned s /\ (forall t, In t (on s 0) -> ~ In t (s_list s)) /\ decided s 1 true /\ decided s 0 false /\
  visible s 0 = [0; 0]%Z /\ serial s 0 (filter (committed s) (on s 0)) (zeros 0) = [7; 0]%Z.
Proof.
  assert (R : reach zeros (get h09b)) by (apply get_reach; [unfold h09b; ok|reflexivity]).
  assert (Ed : s_dec (get h09b) = [(0, false); (1, true)]) by reflexivity. assert (El : s_list (get h09b) = []) by reflexivity.
  exists (get h09b). split; [exact R|]. split.
  - intros t1 t2 H1 H2 _ p. assert (En : length (s_txs (get h09b)) = 2) by reflexivity. unfold attached in *. rewrite En in *.
    assert (Ep : forall t, t < 2 -> parts_of (get h09b) t = [0]) by (intros [|[|t]] Ht; [reflexivity..|lia]). now rewrite !Ep.
  - split; [intros t _; rewrite El; intros []|]. unfold decided. rewrite Ed. cbn [In]. repeat split; auto.
Qed.
Print Assumptions C09_refuted.
(** a committed transaction is lost because a later one fails *)
Theorem C09_refuted_lost : exists s, reach zeros s /\ (forall t, In t (on s 0) -> ~ In t (s_list s)) /\ decided s 0 true /\ decided s 1 false /\
  visible s 0 = [0; 0]%Z /\ serial s 0 (filter (committed s) (on s 0)) (zeros 0) = [7; 0]%Z.
Proof.
  assert (R : reach zeros (get h09a)) by (apply get_reach; [unfold h09a, h12; cbn [firstn]; ok|reflexivity]).
  assert (Ed : s_dec (get h09a) = [(0, true); (1, false)]) by reflexivity. assert (El : s_list (get h09a) = []) by reflexivity.
  exists (get h09a). split; [exact R|]. split; [intros t _; rewrite El; intros []|]. unfold decided. rewrite Ed. cbn [In]. repeat split; auto.
Qed.
Print Assumptions C09_refuted_lost.

(** ** C10: every transaction is decided *)
Theorem C10_partial : forall init s, reach init s -> laned s -> crowded s -> s_mail s = [] -> s_batch s = [] -> (forall t, attached s t -> s_done s t = true) ->
  forall t, attached s t -> exists b, decided s t b.
Proof. exact progress. Qed.
Print Assumptions C10_partial.

(** 1 and 2 both follow 0 and get the same order; the second one waits for ever *)
Definition h10 : list event := [Attach [0; 1] (put 0 1); Attach [0] (put 0 2); Attach [1] (put 0 3); Execute 0; Execute 1; Execute 0; Execute 1; Complete 0 false; Complete 1 false; Complete 2 false; Collect 3; Process true; Detach].
Theorem C10_refuted : exists s, reach zeros s /\ s_mail s = [] /\ s_batch s = [] /\ (forall t, attached s t -> s_done s t = true) /\ attached s 2 /\ forall s', later s s' -> forall b, ~ decided s' 2 b.
Proof.
  assert (R : reach zeros (get h10)) by (apply get_reach; [unfold h10; ok|reflexivity]). exists (get h10). split; [exact R|].
  assert (Ll : length (s_txs (get h10)) = 3) by reflexivity.
  assert (Dn : forall t, attached (get h10) t -> s_done (get h10) t = true). { intros t Ht. unfold attached in Ht. rewrite Ll in Ht. destruct t as [|[|[|t]]]; [reflexivity..|lia]. }
  split; [reflexivity|]. split; [reflexivity|]. split; [exact Dn|]. split; [unfold attached; rewrite Ll; lia|].
  assert (El : s_list (get h10) = [2]) by reflexivity. assert (Em : s_mail (get h10) = []) by reflexivity. assert (Ed : s_dec (get h10) = [(0, true); (1, true)]) by reflexivity. assert (Eb : s_batch (get h10) = []) by reflexivity.
  assert (Eg : grp (s_txs (get h10)) 2 = 1) by reflexivity. assert (Eo : ord (s_txs (get h10)) 2 = 1) by reflexivity. assert (Eq : s_queue (get h10) = [mkgroup 1 2 [2]]) by reflexivity. assert (Ex : s_next (get h10) = 2) by reflexivity.
  assert (Fr : forall t, t >= 3 -> s_done (get h10) t = false) by (intros [|[|[|t]]] Ht; [lia..|reflexivity]).
  apply stuck_later. clear R. generalize dependent (get h10). intros s Ll Dn El Em Ed Eb Eg Eo Eq Ex Fr. split; rewrite ?El, ?Em, ?Eb, ?Ll, ?Eg, ?Eo, ?Eq, ?Ed, ?Ex.
  - lia.
  - apply Dn. unfold attached. lia.
  - exists []. reflexivity.
  - intros t [<-|[]]. split; [lia|]. rewrite Eo. lia.
  - intros t Ht Hd. rewrite Dn in Hd by (unfold attached; lia). discriminate.
  - intros t [].
  - lia.
  - exact Fr.
  - split. exists [], 2, [], []. split; [reflexivity|]. split; [intros []|]. split; [rewrite Eo; lia|]. split; intros [].
  - intros [].
  - intros b [H|[H|[]]]; discriminate.
Qed.
Print Assumptions C10_refuted.

(** ** the hypotheses are met: 0 fails alone, then 1 and 2 are pipelined, both commit *)
Definition hok : list event := [Attach [0; 1] (put 0 9); Execute 0; Execute 1; Complete 0 true; Collect 1; Process true; Detach; Attach [0; 1] (add 0 5); Attach [0; 1] (add 0 7);
  Execute 0; Execute 0; Execute 1; Execute 1; Complete 2 false; Collect 1; Complete 1 false; Collect 1; Process true; Detach; Attach [0; 1] (add 1 1); Execute 0; Execute 1; Complete 3 false; Collect 1; Process true; Detach].
Example tx_nonvacuous : exists s, reach zeros s /\ laned s /\ lonely_aborts s /\ crowded s /\ (forall p t, In t (on s p) -> ~ In t (s_list s)) /\ s_mail s = [] /\ s_batch s = [] /\ (forall t, attached s t -> s_done s t = true) /\
  s_dec s = [(0, false); (1, true); (2, true); (3, true)] /\ met s 1 2 /\ visible s 0 = [12; 1]%Z /\ visible s 1 = [12; 1]%Z /\ applied s 0 0 false /\ applied s 1 0 false /\ applied s 0 2 true.
Proof.
  assert (R : reach zeros (get hok)) by (apply get_reach; [unfold hok; ok|reflexivity]).
  assert (Ll : length (s_txs (get hok)) = 4) by reflexivity. assert (El : s_list (get hok) = []) by reflexivity.
  assert (Ep : forall t, t < 4 -> parts_of (get hok) t = [0; 1]) by (intros [|[|[|[|t]]]] Ht; [reflexivity..|lia]).
  assert (Es : forall t, t < 4 -> t_seen (tx_of (get hok) t) = if t =? 2 then [1] else []) by (intros [|[|[|[|t]]]] Ht; [reflexivity..|lia]).
  assert (Hn : forall t1 t2, attached (get hok) t2 -> In t1 (t_seen (tx_of (get hok) t2)) -> t1 = 1 /\ t2 = 2).
  { intros t1 t2 H1 H2. unfold attached in H1. rewrite Ll in H1. rewrite (Es t2 H1) in H2. destruct (Nat.eqb_spec t2 2) as [->|]; [|destruct H2]. destruct H2 as [<-|[]]. auto. }
  assert (Ed : s_dec (get hok) = [(0, false); (1, true); (2, true); (3, true)]) by reflexivity.
  assert (Sh : shares (get hok) 1 2) by (exists 0; rewrite !Ep by lia; cbn; auto).
  exists (get hok). split; [exact R|]. split; [intros t1 t2 H1 H2 _ p; unfold attached in *; rewrite Ll in *; now rewrite !Ep|]. split; [|split; [|split; [|split; [|split; [|split; [|split; [|split]]]]]]].
  - intros t1 t2 (A & B & _). destruct (Hn t1 t2 A B) as [-> ->]. unfold decided. rewrite Ed. cbn. intuition discriminate.
  - intros t1 t2 A B. destruct (Hn t1 t2 A B) as [-> ->]. exact Sh.
  - intros p t _. rewrite El. intros [].
  - reflexivity.
  - reflexivity.
  - intros t Ht. unfold attached in Ht. rewrite Ll in Ht. destruct t as [|[|[|[|t]]]]; [reflexivity..|lia].
  - exact Ed.
  - split; [unfold attached; rewrite Ll; lia|]. split; [rewrite Es by lia; now left|exact Sh].
  - assert (E0 : p_out (s_part (get hok) 0) = [(0, false); (1, true); (2, true)]) by reflexivity. assert (E1 : p_out (s_part (get hok) 1) = [(0, false); (1, true); (2, true)]) by reflexivity.
    unfold applied. rewrite E0, E1. repeat split; cbn; auto.
Qed.
