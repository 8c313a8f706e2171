(** Every run of the bus ends; the order of the messages. *)
From Verif Require Import Base BusModel BusSpec BusProofs.
Open Scope nat_scope.

(** ** a measure that every step decreases *)
Definition pw (st : pst) : nat :=
  match st with PIdle => 0 | PClaim _ => 88 | PWait _ _ => 47 | PWrite _ _ => 46 | PTurn _ _ => 45 | PStore _ _ => 44 | PSleep => 23 | PTas => 22 | PNotify => 21 end.
Definition pm (p : prod) : nat := pw (at_ p) + 90 * length (todo p).
Fixpoint psum (l : list prod) : nat := match l with [] => 0 | p :: l => pm p + psum l end.
Definition rank (e : bool) (c : cst) : nat :=
  match c with
  | CHandle _ => 14 | CUnref _ => 13 | CData => 3 | CStore _ => 2
  | CSched => if e then 8 else 12 | CPend1 => if e then 7 else 11 | CSleep => if e then 6 else 10 | CPend2 => if e then 5 else 9 | CPoll => if e then 4 else 8
  | CRead => if e then 12 else 7 | CRel => if e then 11 else 6 | CAwake => if e then 10 else 5 | CLoad => if e then 9 else 4
  end.
Definition efm (s : state) : nat := match c s with CRead => 0 | _ => if efd s =? 0 then 0 else 20 end.
Definition meas (s : state) : nat := psum (ps s) + (claim s - rd s) * 40 + efm s + budget s * 20 + rank (rd s =? wr s) (c s).
Lemma psum_setp l i p q : nth_error l i = Some p -> psum (setp l i q) + pm p = psum l + pm q.
Proof.
  revert i. induction l as [|x l IH]; intros [|i] H; cbn [setp psum nth_error] in *; try discriminate.
  - injection H as ->. lia.
  - specialize (IH i H). lia.
Qed.
Section Meas.
Context (k : nat) (self : option nat).
Lemma meas_prod s i p s' : Inv k s -> nth_error (ps s) i = Some p -> prod_step (2 ^ k) s i p = Some s' -> meas s' < meas s.
Proof.
  intros (HR & HC & _) H S. pose proof HR as [A1 A2 A3 A4 A5 A6 A7 A8]. unfold prod_step in S. unfold meas.
  assert (K : forall q, psum (setp (ps s) i q) + pm p = psum (ps s) + pm q) by (intros q; now apply psum_setp).
  assert (SZ : forall b e c0, rank b c0 <= rank e c0 + 5 \/ b = true) by (intros [] e c0; [now right|left]; destruct e, c0; cbn; lia).
  unfold pm in K at 1. destruct (at_ p) as [|m|m n|m n|m n|m n| | |] eqn:A; cbn [pw] in K.
  - destruct (todo p) as [|m t]; [discriminate|]. injection S as <-. unfold efm. cbn [ps claim rd wr c budget efd]. match goal with |- context [setp _ _ ?q] => specialize (K q) end.
    unfold pm in K at 1. cbn [at_ todo length] in K. destruct (refs s m =? 0); cbn [pw] in K; lia.
  - injection S as <-. unfold efm. cbn [ps claim rd wr c budget efd]. match goal with |- context [setp _ _ ?q] => specialize (K q) end.
    unfold pm in K at 1. cbn [at_ todo length pw] in K. replace (S (claim s) - rd s) with (S (claim s - rd s)) by lia. lia.
  - destruct (Nat.ltb n (rd s + 2 ^ k)); [|discriminate]. injection S as <-. unfold efm. cbn [ps claim rd wr c budget efd]. match goal with |- context [setp _ _ ?q] => specialize (K q) end.
    unfold pm in K at 1. cbn [at_ todo length pw] in K. lia.
  - injection S as <-. unfold efm. cbn [ps claim rd wr c budget efd]. match goal with |- context [setp _ _ ?q] => specialize (K q) end.
    unfold pm in K at 1. cbn [at_ todo length pw] in K. lia.
  - destruct (Nat.eqb (wr s) n); [|discriminate]. injection S as <-. unfold efm. cbn [ps claim rd wr c budget efd]. match goal with |- context [setp _ _ ?q] => specialize (K q) end.
    unfold pm in K at 1. cbn [at_ todo length pw] in K. lia.
  - injection S as <-. unfold efm. cbn [ps claim rd wr c budget efd]. match goal with |- context [setp _ _ ?q] => specialize (K q) end.
    unfold pm in K at 1. cbn [at_ todo length pw] in K. destruct (r_store k _ _ _ _ _ _ _ _ _ _ (todo p) HR H A) as (X & Y & Z).
    replace (rd s =? S n) with false by (symmetry; apply Nat.eqb_neq; lia). destruct (SZ false (rd s =? wr s) (c s)) as [L|L]; [lia|discriminate].
  - injection S as <-. unfold efm. cbn [ps claim rd wr c budget efd]. match goal with |- context [setp _ _ ?q] => specialize (K q) end.
    unfold pm in K at 1. cbn [at_ todo length] in K. destruct (sleep s); cbn [pw] in K; lia.
  - injection S as <-. unfold efm. cbn [ps claim rd wr c budget efd]. match goal with |- context [setp _ _ ?q] => specialize (K q) end.
    unfold pm in K at 1. cbn [at_ todo length] in K. destruct (signaled s); cbn [pw] in K; lia.
  - injection S as <-. unfold efm. cbn [ps claim rd wr c budget efd]. match goal with |- context [setp _ _ ?q] => specialize (K q) end.
    unfold pm in K at 1. cbn [at_ todo length pw] in K. cbn [Nat.eqb]. destruct (c s), (efd s =? 0); lia.
Qed.
Lemma meas_cons s s' : Inv k s -> cons_step (2 ^ k) self s = Some s' -> meas s' < meas s.
Proof.
  intros INV S. pose proof INV as (HR & (HC & _) & _). pose proof HR as [A1 A2 A3 A4 A5 A6 A7 A8]. unfold cons_step in S. unfold meas.
  destruct (c s) as [| |m|m|m| | | | | | | |] eqn:C.
  all: unfold efm; rewrite ?C.
  - injection S as <-. cbn [with_c ps claim rd wr c budget efd]. destruct (rd s =? wr s); cbn; lia.
  - destruct (hist_at k s (rd s) INV) as (i & m & Hm); [lia|]. rewrite (A8 (rd s) i m) in S; [|lia|exact HC|exact Hm]. injection S as <-. cbn. lia.
  - injection S as <-. cbn [ps claim rd wr c budget efd rank]. destruct HC as (L & _). replace (claim s - rd s) with (S (claim s - S (rd s))) by lia.
    destruct (rd s =? wr s), (efd s =? 0); lia.
  - injection S as <-. cbn [ps claim rd wr c budget efd rank]. lia.
  - injection S as <-. cbn [ps claim rd wr c budget efd rank]. destruct (rd s =? wr s); lia.
  - destruct (self_done self s); [|discriminate]. injection S as <-. cbn [ps claim rd wr c budget efd rank]. destruct (rd s =? wr s); lia.
  - injection S as <-. cbn [with_c ps claim rd wr c budget efd]. destruct (rd s =? wr s); cbn [rank]; lia.
  - injection S as <-. cbn [with_c set_sleep ps claim rd wr c budget efd]. destruct (rd s =? wr s); cbn [rank]; lia.
  - injection S as <-. cbn [with_c ps claim rd wr c budget efd]. destruct (rd s =? wr s); cbn [rank]; lia.
  - destruct (efd s =? 0) eqn:E; [discriminate|]. injection S as <-. cbn [with_c ps claim rd wr c budget efd rank]. destruct (rd s =? wr s); lia.
  - injection S as <-. cbn [ps claim rd wr c budget efd rank]. cbn [Nat.eqb]. destruct (rd s =? wr s); lia.
  - injection S as <-. cbn [ps claim rd wr c budget efd rank]. destruct (rd s =? wr s); lia.
  - injection S as <-. cbn [with_c set_sleep ps claim rd wr c budget efd rank]. destruct (rd s =? wr s); lia.
Qed.
Lemma meas_step s s' : Inv k s -> step (2 ^ k) self s s' -> meas s' < meas s.
Proof.
  intros INV S. inversion S as [s0 i p s1 Hp M Hs|s0 s1 Hs|s0 b C B]; subst; [now apply (meas_prod s i p)|now apply meas_cons|].
  unfold meas, efm. cbn [ps claim rd wr c budget efd rank]. rewrite C, B. cbn [rank]. destruct (rd s =? wr s); lia.
Qed.
Lemma run_meas n s s' : run (2 ^ k) self n s s' -> Inv k s -> n + meas s' <= meas s.
Proof.
  induction 1 as [|n s s' s'' H IH S]; intros INV; [lia|]. specialize (IH INV). assert (Inv k s') by now apply (inv_run k self) with (1 := H). pose proof (meas_step s' s'' H0 S). lia.
Qed.

(** ** who sent what *)
Definition pend (p : prod) : list msg := match at_ p with PClaim m => [m] | _ => [] end ++ todo p.
Definition sent_by (i : nat) (hist : list (nat * msg)) : list msg := map snd (filter (fun x => fst x =? i) hist).
Record O (todos : list (list msg)) (s : state) : Prop := {
  o_len : length (ps s) = length todos;
  o_split : forall i p, nth_error (ps s) i = Some p -> nth_error todos i = Some (sent_by i (hist s) ++ pend p);
  o_own : forall i m, In (i, m) (hist s) -> i < length todos;
  o_refs : forall m, refs s m > 0 -> In m (map snd (hist s)) \/ exists i p, nth_error (ps s) i = Some p /\ at_ p = PClaim m }.
Lemma nodup_concat {A} (ls : list (list A)) i j a b x : NoDup (concat ls) -> nth_error ls i = Some a -> nth_error ls j = Some b -> In x a -> In x b -> i = j.
Proof.
  revert i j. induction ls as [|l ls IH]; intros i j N Ha Hb Xa Xb; [destruct i; discriminate|].
  cbn in N. assert (D : forall y n c0, In y l -> nth_error ls n = Some c0 -> In y c0 -> False).
  { intros y n c0 Y1 Y2 Y3. clear -N Y1 Y2 Y3. induction l as [|z l IH]; [exact Y1|]. cbn in N. inversion N as [|? ? N1 N2]; subst. destruct Y1 as [->|Y1]; [|auto].
    apply N1, in_or_app. right. apply in_concat. exists c0. split; [now apply nth_error_In with (1 := Y2)|exact Y3]. }
  destruct i as [|i], j as [|j]; cbn in Ha, Hb; auto.
  - injection Ha as ->. destruct (D x j b Xa Hb Xb).
  - injection Hb as ->. destruct (D x i a Xb Ha Xa).
  - f_equal. apply (IH i j); auto. clear -N. induction l; [exact N|]. cbn in N. inversion N; auto.
Qed.
Lemma nodup_nth {A} (ls : list (list A)) i a : NoDup (concat ls) -> nth_error ls i = Some a -> NoDup a.
Proof.
  revert i. induction ls as [|l ls IH]; intros [|i] N H; cbn in *; try discriminate.
  - injection H as ->. clear -N. induction a; [constructor|]. cbn in N. inversion N; subst. constructor; [|auto]. intros X. apply H1, in_or_app. now left.
  - apply (IH i); [|exact H]. clear -N. induction l; [exact N|]. cbn in N. inversion N; auto.
Qed.
Lemma sent_in i m hist : In (i, m) hist -> In m (sent_by i hist).
Proof. intros H. unfold sent_by. apply in_map_iff. exists (i, m). split; [reflexivity|]. apply filter_In. split; [exact H|]. cbn. apply Nat.eqb_refl. Qed.
Lemma sent_app i h j m : sent_by i (h ++ [(j, m)]) = sent_by i h ++ (if j =? i then [m] else []).
Proof. unfold sent_by. rewrite filter_app, map_app. f_equal. cbn. destruct (j =? i); reflexivity. Qed.
Lemma o_fresh todos s i p m t : NoDup (concat todos) -> O todos s -> nth_error (ps s) i = Some p -> at_ p = PIdle -> todo p = m :: t -> refs s m = 0.
Proof.
  intros N [O1 O2 O3 O4] H A T. destruct (Nat.eq_dec (refs s m) 0) as [E|E]; [exact E|exfalso].
  pose proof (O2 i p H) as Hi. unfold pend in Hi. rewrite A, T in Hi. cbn [app] in Hi.
  assert (X : exists j, nth_error (map at_ (ps s)) j <> None /\ (In (j, m) (hist s) \/ exists q, nth_error (ps s) j = Some q /\ at_ q = PClaim m)).
  { destruct (O4 m) as [X|(j & q & X1 & X2)]; [lia| |].
    - apply in_map_iff in X. destruct X as ((j & m') & X1 & X2). cbn in X1. subst m'. exists j. split; [|now left]. apply nth_error_Some. rewrite map_length, O1. now apply O3 with (1 := X2).
    - exists j. split; [|right; eauto]. apply nth_error_Some. rewrite map_length. apply nth_error_Some. congruence. }
  destruct X as (j & J & X). destruct (nth_error (ps s) j) as [q|] eqn:Q; [|rewrite nth_error_map, Q in J; now destruct J].
  clear J.
  pose proof (O2 j q Q) as Hj.
  assert (Y : In m (sent_by j (hist s) ++ pend q)).
  { apply in_or_app. destruct X as [X|(q' & X1 & X2)]; [left; now apply sent_in|right]. assert (q' = q) by congruence. subst q'. unfold pend. rewrite X2. now left. }
  assert (i = j) by (apply (nodup_concat todos i j _ _ m N Hi Hj); [apply in_or_app; right; now left|exact Y]). subst j. assert (q = p) by congruence. subst q.
  destruct X as [X|(q' & X1 & X2)]; [|congruence]. pose proof (nodup_nth todos i _ N Hi) as NN. apply NoDup_remove_2 in NN. apply NN. apply in_or_app. left. now apply sent_in.
Qed.
Lemma o_same todos s s' i p q : O todos s -> nth_error (ps s) i = Some p -> ps s' = setp (ps s) i q -> hist s' = hist s -> refs s' = refs s -> pend q = pend p ->
  (forall m, at_ p <> PClaim m) -> O todos s'.
Proof.
  intros [O1 O2 O3 O4] H P Hh Hr Hp Nc. split; rewrite ?P, ?Hh, ?Hr; auto.
  - now rewrite setp_len.
  - intros j x Hj. destruct (setp_in _ _ _ _ _ _ H Hj) as [(-> & ->)|(_ & Hj')]; [rewrite Hp; now apply O2|now apply O2].
  - intros m L. destruct (O4 m L) as [X|(j & x & X1 & X2)]; [now left|right]. exists j, x. split; [|exact X2]. rewrite (setp_other _ _ _ _ _ H); [exact X1|]. intros ->. apply (Nc m). congruence.
Qed.
Lemma o_prod todos s i p s' : NoDup (concat todos) -> O todos s -> nth_error (ps s) i = Some p -> prod_step (2 ^ k) s i p = Some s' -> O todos s'.
Proof.
  intros N HO H S. pose proof HO as [O1 O2 O3 O4]. unfold prod_step in S. destruct (at_ p) as [|m|m n|m n|m n|m n| | |] eqn:A.
  - destruct (todo p) as [|m t] eqn:T; [discriminate|]. rewrite (o_fresh todos s i p m t N HO H A T) in S. injection S as <-. cbn [Nat.eqb]. split; cbn [ps hist refs].
    + now rewrite setp_len.
    + intros j x Hj. destruct (setp_in _ _ _ _ _ _ H Hj) as [(-> & ->)|(_ & Hj')]; [|now apply O2]. rewrite (O2 i p H). unfold pend. cbn. now rewrite A, T.
    + exact O3.
    + intros x L. unfold upd in L. destruct (x =? m) eqn:E.
      * apply Nat.eqb_eq in E. subst x. right. exists i, {| at_ := PClaim m; todo := t |}. split; [now apply setp_at with (1 := H)|reflexivity].
      * destruct (O4 x L) as [X|(j & q & X1 & X2)]; [now left|right]. exists j, q. split; [|exact X2]. rewrite (setp_other _ _ _ _ _ H); [exact X1|]. intros ->. congruence.
  - injection S as <-. split; cbn [ps hist refs].
    + now rewrite setp_len.
    + intros j x Hj. rewrite sent_app. destruct (setp_in _ _ _ _ _ _ H Hj) as [(-> & ->)|(Nj & Hj')].
      * rewrite Nat.eqb_refl, (O2 i p H). unfold pend. cbn. rewrite A. now rewrite <- app_assoc.
      * replace (i =? j) with false by (symmetry; apply Nat.eqb_neq; auto). rewrite app_nil_r. now apply O2.
    + intros j x Hx. apply in_app_or in Hx. destruct Hx as [Hx|[Hx|[]]]; [now apply (O3 j x)|]. injection Hx as <- <-. rewrite <- O1. apply nth_error_Some. congruence.
    + intros x L. rewrite map_app. destruct (O4 x L) as [X|(j & q & X1 & X2)]; [left; apply in_or_app; now left|]. destruct (Nat.eq_dec j i) as [->|Nj].
      * left. apply in_or_app. right. left. cbn. congruence.
      * right. exists j, q. split; [|exact X2]. now rewrite (setp_other _ _ _ _ _ H Nj).
  - destruct (Nat.ltb n (rd s + 2 ^ k)); [|discriminate]. injection S as <-. eapply (o_same todos s _ i p); [exact HO|exact H|reflexivity|reflexivity|reflexivity|unfold pend; now rewrite A|congruence].
  - injection S as <-. eapply (o_same todos s _ i p); [exact HO|exact H|reflexivity|reflexivity|reflexivity|unfold pend; now rewrite A|congruence].
  - destruct (Nat.eqb (wr s) n); [|discriminate]. injection S as <-. eapply (o_same todos s _ i p); [exact HO|exact H|reflexivity|reflexivity|reflexivity|unfold pend; now rewrite A|congruence].
  - injection S as <-. eapply (o_same todos s _ i p); [exact HO|exact H|reflexivity|reflexivity|reflexivity|unfold pend; now rewrite A|congruence].
  - injection S as <-. eapply (o_same todos s _ i p); [exact HO|exact H|reflexivity|reflexivity|reflexivity|unfold pend; cbn; rewrite A; now destruct (sleep s)|congruence].
  - injection S as <-. eapply (o_same todos s _ i p); [exact HO|exact H|reflexivity|reflexivity|reflexivity|unfold pend; cbn; rewrite A; now destruct (signaled s)|congruence].
  - injection S as <-. eapply (o_same todos s _ i p); [exact HO|exact H|reflexivity|reflexivity|reflexivity|unfold pend; now rewrite A|congruence].
Qed.
Lemma o_cons todos s s' : O todos s -> cons_step (2 ^ k) self s = Some s' -> O todos s'.
Proof.
  intros HO S. pose proof HO as [O1 O2 O3 O4].
  assert (K : ps s' = ps s /\ hist s' = hist s /\ forall m, refs s' m > 0 -> refs s m > 0).
  { unfold cons_step in S. destruct (c s) as [| |m|m|m| | | | | | | |]; try (injection S as <-; cbn; auto; fail).
    - destruct (ring s (index (2 ^ k) (rd s))); injection S as <-; cbn; auto.
    - injection S as <-. cbn. split; [reflexivity|]. split; [reflexivity|]. intros x L. unfold upd in L. destruct (x =? m); [lia|exact L].
    - destruct (self_done self s); [|discriminate]. injection S as <-. cbn. auto.
    - destruct (efd s =? 0); [discriminate|]. injection S as <-. cbn. auto. }
  destruct K as (K1 & K2 & K3). split; rewrite ?K1, ?K2; auto.
Qed.
Lemma o_step todos s s' : NoDup (concat todos) -> O todos s -> step (2 ^ k) self s s' -> O todos s'.
Proof.
  intros N HO S. inversion S as [s0 i p s1 Hp M Hs|s0 s1 Hs|s0 b C B]; subst; [now apply (o_prod todos s i p)|now apply (o_cons todos s)|].
  destruct HO as [O1 O2 O3 O4]. split; cbn; auto.
Qed.
Lemma o_init todos b : O todos (init todos b).
Proof.
  split; cbn.
  - now rewrite map_length.
  - intros i p H. apply nth_map_idle in H. destruct H as (A & H). rewrite H. unfold pend. now rewrite A.
  - intros i m [].
  - intros m L. lia.
Qed.
Lemma o_run todos n s s' : NoDup (concat todos) -> run (2 ^ k) self n s s' -> O todos s -> O todos s'.
Proof. intros N. induction 1; auto. intros. now apply o_step with (3 := H0); auto. Qed.

(** ** the lists, put together *)
Definition lists (len : nat) (h : list (nat * msg)) : list (list msg) := map (fun i => sent_by i h) (seq 0 len).
Lemma lists_split len j m h : j < len -> exists a t b, lists len h = a ++ t :: b /\ lists len ((j, m) :: h) = a ++ (m :: t) :: b.
Proof.
  intros L. unfold lists. assert (E : seq 0 len = seq 0 j ++ j :: seq (S j) (len - S j)).
  { replace len with (j + S (len - S j)) at 1 by lia. rewrite seq_app. reflexivity. }
  rewrite E, !map_app. cbn [map]. exists (map (fun i => sent_by i h) (seq 0 j)), (sent_by j h), (map (fun i => sent_by i h) (seq (S j) (len - S j))).
  split; [reflexivity|].
  assert (NE : forall i, i <> j -> sent_by i ((j, m) :: h) = sent_by i h).
  { intros i Hi. unfold sent_by. cbn. replace (j =? i) with false by (symmetry; apply Nat.eqb_neq; auto). reflexivity. }
  f_equal; [apply map_ext_in; intros i Hi; apply in_seq in Hi; apply NE; lia|]. f_equal.
  - unfold sent_by. cbn. now rewrite Nat.eqb_refl.
  - apply map_ext_in; intros i Hi; apply in_seq in Hi; apply NE; lia.
Qed.
Lemma lists_il len h : (forall i m, In (i, m) h -> i < len) -> interleaved (lists len h) (map snd h).
Proof.
  induction h as [|(j, m) h IH]; intros H; cbn [map snd].
  - constructor. intros l Hl. unfold lists in Hl. apply in_map_iff in Hl. destruct Hl as (i & <- & _). reflexivity.
  - destruct (lists_split len j m h) as (a & t & b & E1 & E2); [apply (H j m); now left|]. rewrite E2. constructor. rewrite <- E1. apply IH. intros i x Hx. apply (H i x). now right.
Qed.
Lemma sent_prefix i h n : exists t, sent_by i (firstn n h) ++ t = sent_by i h.
Proof. exists (sent_by i (skipn n h)). unfold sent_by. rewrite <- map_app, <- filter_app, firstn_skipn. reflexivity. Qed.
Lemma forall2_nth {A B} (P : A -> B -> Prop) la lb : length la = length lb -> (forall i a b, nth_error la i = Some a -> nth_error lb i = Some b -> P a b) -> Forall2 P la lb.
Proof.
  revert lb. induction la as [|a la IH]; intros [|b lb] L H; cbn in L; try discriminate; constructor.
  - apply (H 0); reflexivity.
  - apply IH; [lia|]. intros i x y Hx Hy. apply (H (S i)); auto.
Qed.
Lemma lists_nth len h i : i < len -> nth_error (lists len h) i = Some (sent_by i h).
Proof.
  intros L. unfold lists. rewrite nth_error_map. assert (E : nth_error (seq 0 len) i = Some i); [|now rewrite E].
  rewrite (nth_error_nth' _ 0); [|now rewrite seq_length]. now rewrite seq_nth.
Qed.
Lemma o_begins todos s n : O todos s -> begins (lists (length todos) (firstn n (hist s))) todos.
Proof.
  intros [O1 O2 O3 O4]. apply forall2_nth; [unfold lists; now rewrite map_length, seq_length|].
  intros i a b Ha Hb. assert (L : i < length todos) by (apply nth_error_Some; congruence). rewrite lists_nth in Ha by exact L. injection Ha as <-.
  destruct (nth_error (ps s) i) as [p|] eqn:P; [|apply nth_error_None in P; lia]. rewrite (O2 i p P) in Hb. injection Hb as <-.
  destruct (sent_prefix i (hist s) n) as (t & <-). eexists. now rewrite <- app_assoc.
Qed.
Lemma o_total todos s : O todos s -> length (hist s) <= length (concat todos).
Proof.
  intros HO. pose proof (o_begins todos s (length (hist s)) HO) as B. rewrite firstn_all in B. destruct HO as [O1 O2 O3 O4].
  assert (IL : interleaved (lists (length todos) (hist s)) (map snd (hist s))) by now apply lists_il.
  assert (L1 : forall ls l, interleaved ls l -> length l = length (concat ls)).
  { clear. induction 1 as [ls H|ls1 m t ls2 l H IH].
    - induction ls as [|l ls IH]; [reflexivity|]. cbn. rewrite (H l) by now left. cbn. apply IH. intros x Hx. apply H. now right.
    - cbn [length]. rewrite IH, !concat_app, !app_length. cbn [concat]. rewrite !app_length. cbn [length]. lia. }
  assert (L2 : forall a b, begins a b -> length (concat a) <= length (concat b)).
  { clear. induction 1 as [|x y a b (t & E) F IH]; [lia|]. cbn [concat]. rewrite !app_length. subst y. rewrite app_length. lia. }
  rewrite <- (map_length snd), (L1 _ _ IL). apply L2, B.
Qed.
Lemma nth_ext' {A} (a b : list A) : (forall i, nth_error a i = nth_error b i) -> a = b.
Proof.
  revert b. induction a as [|x a IH]; intros [|y b] H; [reflexivity|discriminate (H 0)|discriminate (H 0)|]. pose proof (H 0) as H0. cbn in H0. injection H0 as ->. f_equal. apply IH. intros i. apply (H (S i)).
Qed.
Lemma o_done todos s : O todos s -> (forall i p, nth_error (ps s) i = Some p -> at_ p = PIdle /\ todo p = []) -> lists (length todos) (hist s) = todos.
Proof.
  intros [O1 O2 O3 O4] H. apply nth_ext'. intros i. destruct (nth_error todos i) as [t|] eqn:T.
  - assert (L : i < length todos) by (apply nth_error_Some; congruence). rewrite lists_nth by exact L.
    destruct (nth_error (ps s) i) as [p|] eqn:P; [|apply nth_error_None in P; lia]. rewrite (O2 i p P) in T. injection T as <-. destruct (H i p P) as (X & Y). unfold pend. now rewrite X, Y, !app_nil_r.
  - apply nth_error_None in T. apply nth_error_None. unfold lists. now rewrite map_length, seq_length.
Qed.
Lemma meas_init todos b : meas (init todos b) = 90 * length (concat todos) + 20 * b + 9.
Proof.
  unfold meas, init, efm. cbn [ps claim rd wr c budget efd]. cbn [Nat.sub Nat.eqb Nat.mul rank].
  assert (E : psum (map (fun t => {| at_ := PIdle; todo := t |}) todos) = 90 * length (concat todos)).
  { induction todos as [|t l IH]; [reflexivity|]. cbn [map psum concat]. rewrite IH, app_length. unfold pm. cbn [at_ todo pw]. lia. }
  rewrite E. lia.
Qed.
End Meas.
