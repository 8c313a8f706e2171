(** The compiled code computes the value of the expression. *)
From Verif Require Import Base CompModel CompSpec.

(** ** registers of the compiler *)
Lemma rget_unpin m r q : rget (runpin m r) q = if Nat.eqb q r then None else rget m q.
Proof.
  unfold rget, runpin. revert r q. induction m as [|x m IH]; intros r q; cbn.
  - destruct (Nat.eqb q r); now destruct q.
  - destruct r as [|r], q as [|q]; cbn; try reflexivity. apply IH.
Qed.
Lemma rget_assign m r t q : rget m r <> None -> rget (rassign m r (Some t)) q = if Nat.eqb q r then Some t else rget m q.
Proof.
  unfold rget. revert r q. induction m as [|x m IH]; intros r q H; cbn in *.
  - now destruct r.
  - destruct r as [|r], q as [|q]; cbn in *; try reflexivity. now apply IH.
Qed.
Lemma rpin_spec m t m' r : rpin m t = (m', r) -> rget m r = None /\ forall q, rget m' q = if Nat.eqb q r then Some t else rget m q.
Proof.
  revert m' r. induction m as [|x m IH]; intros m' r H; cbn in H.
  - injection H as <- <-. split; [reflexivity|]. intros [|q]; [reflexivity|]. unfold rget. cbn. now destruct q.
  - destruct x as [x|].
    + destruct (rpin m t) as (m1, r1) eqn:E. injection H as <- <-. destruct (IH _ _ eq_refl) as (N & G). split; [exact N|].
      intros [|q]; [reflexivity|]. exact (G q).
    + injection H as <- <-. split; [reflexivity|]. now intros [|q].
Qed.
Lemma pin_spec s t s' r : pin s t = (s', r) -> code s' = code s /\ rget (map_ s) r = None /\ forall q, rget (map_ s') q = if Nat.eqb q r then Some t else rget (map_ s) q.
Proof. unfold pin. destruct (rpin (map_ s) t) as (m, a) eqn:E. intros H. injection H as <- <-. split; [reflexivity|]. now apply rpin_spec. Qed.
Lemma op_pin_spec s t i s' r : op_pin s t i = (s', r) -> code s' = code s ++ [i r] /\ rget (map_ s) r = None /\ forall q, rget (map_ s') q = if Nat.eqb q r then Some t else rget (map_ s) q.
Proof.
  unfold op_pin. destruct (pin s t) as (s1, a) eqn:E. intros H. injection H as <- <-. destruct (pin_spec _ _ _ _ E) as (C & N & G).
  split; [cbn; now rewrite C|]. split; [exact N|exact G].
Qed.

(** ** pieces of the code *)
Definition At (C : list instr) (p : nat) (f : list instr) : Prop := forall i, (i < length f)%nat -> nth_error C (p + i) = nth_error f i.
Lemma at_app C p f g : At C p (f ++ g) -> At C p f /\ At C (p + length f) g.
Proof.
  intros H. split; intros i L.
  - rewrite H by (rewrite app_length; lia). apply nth_error_app1. exact L.
  - rewrite <- Nat.add_assoc, H by (rewrite app_length; lia). rewrite nth_error_app2 by lia. f_equal. lia.
Qed.
Lemma at_one C p i : At C p [i] -> nth_error C p = Some i.
Proof. intros H. specialize (H O). rewrite Nat.add_0_r in H. rewrite H; [reflexivity|cbn; lia]. Qed.

Lemma is_truth P v : is_true P v = truth P v.
Proof. destruct v as [| | | |[]| | | | |[]|]; reflexivity. Qed.

Section Comp.
Context (P : prims) (env : nat -> value).
Notation goes := (goes P env).
Notation step := (step P env).
Notation eval := (eval P env).
Notation eval_args := (eval_args P env).
Notation eval_whens := (eval_whens P env).

Lemma goes_trans C s s' x : goes C s (Ok s') -> goes C s' x -> goes C s x.
Proof. intros H. remember (Ok s') as y. induction H as [s0|s0 s1 y Hs Hg IH|s0|s0]; intros G; try discriminate; [injection Heqy as ->; exact G|]. eapply g_step; [exact Hs|]. now apply IH. Qed.
Lemma goes_one C s s' : step C s = Ok s' -> goes C s (Ok s').
Proof. intros H. eapply g_step; [exact H|apply g_stay]. Qed.

Definition V (p : nat) (r : regs) (k : list value) : vm := {| pc := p; rs := r; st := k |}.
Definition kept (m : rmap) (r r' : regs) : Prop := forall q, rget m q <> None -> r' q = r q.
(** a run from [p] with the outcome [x]; [Q] is what holds at the end *)
Definition Goes {A} (C : list instr) (p : nat) (r : regs) (k : list value) (x : res A) (Q : A -> nat -> regs -> list value -> Prop) : Prop :=
  match x with
  | Ok a => exists p' r' k', goes C (V p r k) (Ok (V p' r' k')) /\ Q a p' r' k'
  | Err => goes C (V p r k) Err
  | UB => goes C (V p r k) UB
  end.
Lemma goes_bind {A B} C p r k (x : res A) (f : A -> res B) Q Q' :
  Goes C p r k x Q -> (forall a p' r' k', x = Ok a -> Q a p' r' k' -> Goes C p' r' k' (f a) Q') -> Goes C p r k (do a <- x; f a) Q'.
Proof.
  destruct x as [a| |]; cbn; auto. intros (p' & r' & k' & G & HQ) F. specialize (F a p' r' k' eq_refl HQ).
  destruct (f a) as [b| |]; cbn in *.
  - destruct F as (p2 & r2 & k2 & G2 & HQ2). exists p2, r2, k2. split; [now apply goes_trans with (1 := G)|exact HQ2].
  - now apply goes_trans with (1 := G).
  - now apply goes_trans with (1 := G).
Qed.
Lemma goes_weak {A} C p r k (x : res A) (Q Q' : A -> nat -> regs -> list value -> Prop) :
  (forall a p' r' k', Q a p' r' k' -> Q' a p' r' k') -> Goes C p r k x Q -> Goes C p r k x Q'.
Proof. intros W. destruct x; cbn; auto. intros (p' & r' & k' & G & H). exists p', r', k'. auto. Qed.
(** one instruction *)
Lemma goes_instr {A} C p r k (x : res A) (g : A -> vm) (Q : A -> nat -> regs -> list value -> Prop) :
  step C (V p r k) = (do a <- x; Ok (g a)) -> (forall a, x = Ok a -> Q a (pc (g a)) (rs (g a)) (st (g a))) -> Goes C p r k x Q.
Proof.
  intros S H. destruct x as [a| |]; cbn in *.
  - exists (pc (g a)), (rs (g a)), (st (g a)). split; [|now apply H]. apply goes_one. rewrite S. unfold V. now destruct (g a).
  - now apply g_err.
  - now apply g_ub.
Qed.

(** ** what the compilation of an expression gives *)
Definition Em (s s' : comp) (r : nat) (x : res value) (ok hon : Prop) : Prop :=
  exists frag T, code s' = code s ++ frag /\ rget (map_ s) r = None /\
    (forall q, rget (map_ s') q = if Nat.eqb q r then Some T else rget (map_ s) q) /\
    (ok ->
      (forall C regs stk, At C (length (code s)) frag ->
        Goes C (length (code s)) regs stk x (fun v p' r' k' => p' = length (code s') /\ r' r = v /\ k' = stk /\ kept (map_ s) regs r')) /\
      (hon -> forall v, x = Ok v -> has_type T v)).
Lemma em_weak s s' r x (ok ok' hon hon' : Prop) : (ok' -> ok) -> (ok' -> hon' -> hon) -> Em s s' r x ok hon -> Em s s' r x ok' hon'.
Proof.
  intros O H (f & T & E & N & G & W). exists f, T. split; [exact E|]. split; [exact N|]. split; [exact G|]. intros K. destruct (W (O K)) as (W1 & W2).
  split; [exact W1|]. intros HH. apply W2. auto.
Qed.
Lemma em_eq s s' r x y ok hon : x = y -> Em s s' r x ok hon -> Em s s' r y ok hon.
Proof. now intros ->. Qed.

Lemma has_null t : has_type t VNull.
Proof. now left. Qed.
Lemma type_null v : has_type TNull v -> v = VNull.
Proof. intros [H|H]; [exact H|]. now destruct v. Qed.

Lemma em_const s t i s' r x : op_pin s t i = (s', r) -> has_type t x ->
  (forall C p r0 k, nth_error C p = Some (i r) -> step C (V p r0 k) = Ok (V (S p) (rset r0 r x) k)) -> Em s s' r (Ok x) True True.
Proof.
  intros H T S. destruct (op_pin_spec _ _ _ _ _ H) as (E & N & G). exists [i r], t. split; [exact E|]. split; [exact N|]. split; [exact G|].
  intros _. split; [|intros _ v Hv; injection Hv as <-; exact T]. intros C regs stk A. apply at_one in A.
  apply goes_instr with (g := fun v => V (Datatypes.S (length (code s))) (rset regs r v) stk); [cbn; now apply S|].
  intros a Ha. injection Ha as <-. cbn. split; [rewrite E, app_length; cbn; lia|]. unfold rset at 1. rewrite Nat.eqb_refl. split; [reflexivity|]. split; [reflexivity|].
  intros q Hq. unfold rset. destruct (Nat.eqb q r) eqn:Q; [|reflexivity]. apply Nat.eqb_eq in Q. now subst q.
Qed.

(** ** operators *)
Lemma cast_op_sem o lt rt t c a b : cast_op o lt rt = Some (t, c) -> vty a = lt -> vty b = rt ->
  exec_op P c a b = sem_op P o a b /\ (o <> OpLike -> forall v, sem_op P o a b = Ok v -> has_type t v).
Proof.
  intros H <- <-. destruct a, b; destruct o; cbn in H; try discriminate H; injection H as <- <-; split; try reflexivity; intros NL w HV; try (now elim NL); cbn in HV.
  all: repeat match type of HV with
       | bind ?x _ = Ok _ => destruct x; cbn in HV; try discriminate HV
       | match ?x with _ => _ end = Ok _ => destruct x; cbn in HV; try discriminate HV
       | Ok (match ?x with _ => _ end) = Ok _ => destruct x
       end.
  all: try (injection HV as <-; try (now right); now left).
  all: unfold sem_json in HV; match type of HV with bind ?x _ = _ => destruct x as [[jj|]| |]; try discriminate HV end; injection HV as <-; (now right) || (now left).
Qed.
Lemma vty_null v : vty v = TNull -> v = VNull.
Proof. now destruct v. Qed.

Lemma cast_ok s o l r s' a lt rt : cast_operator s o l r = Ok (s', a) -> rget (map_ s) l = Some lt -> rget (map_ s) r = Some rt ->
  exists t i, code s' = code s ++ [i] /\ rget (map_ s) a = None /\
    (forall q, rget (map_ s') q = if Nat.eqb q r then None else if Nat.eqb q l then None else if Nat.eqb q a then Some t else rget (map_ s) q) /\
    (forall C p r0 k, nth_error C p = Some i -> has_type lt (r0 l) -> has_type rt (r0 r) ->
       (exists fr : bool, step C (V p r0 k) = (do v <- sem2 P o (r0 l) (r0 r); Ok (V (S p) (if fr then rset (rset (rset r0 a v) l VNull) r VNull else rset r0 a v) k))) /\
       (o <> OpLike -> forall v, sem2 P o (r0 l) (r0 r) = Ok v -> has_type t v)).
Proof.
  intros H L R. unfold cast_operator, rtype in H. rewrite L, R in H.
  assert (NN : (lt = TNull \/ rt = TNull) \/ (lt <> TNull /\ rt <> TNull)).
  { destruct lt; [left; now left| | | | | | | | | |]; (destruct rt; [left; now right| | | | | | | | | |]; right; split; discriminate). }
  destruct NN as [NN|(N1 & N2)].
  - assert (H' : (let '(s0, a0) := op_pin s TNull (fun a0 => INullop a0 l r) in Ok (unpin (unpin s0 l) r, a0)) = Ok (s', a)).
    { destruct NN as [-> | ->]; [exact H|]. destruct lt; exact H. }
    clear H. destruct (op_pin s TNull (fun a0 => INullop a0 l r)) as (s1, a1) eqn:E. injection H' as <- <-. destruct (op_pin_spec _ _ _ _ _ E) as (CE & N & G).
    exists TNull, (INullop a1 l r). split; [exact CE|]. split; [exact N|]. split.
    { intros q. unfold unpin. cbn [map_ code]. rewrite !rget_unpin, G. reflexivity. }
    intros C p r0 k I T1 T2.
    assert (SN : sem2 P o (r0 l) (r0 r) = Ok VNull). { destruct NN as [-> | ->]; [apply type_null in T1; rewrite T1; reflexivity|apply type_null in T2; rewrite T2; now destruct (r0 l)]. }
    rewrite SN. split; [|intros _ v Hv; injection Hv as <-; apply has_null]. exists true. unfold CompModel.step. cbn [pc V]. rewrite I. reflexivity.
  - assert (H' : (match cast_op o lt rt with
                  | None => Err
                  | Some (t, c) => let '(s, a) := op_pin s t (fun a => IBin c a l r) in Ok (unpin (unpin s l) r, a)
                  end) = Ok (s', a)). { destruct lt; try (now elim N1); destruct rt; try (now elim N2); exact H. }
    clear H. destruct (cast_op o lt rt) as [(t, c)|] eqn:EC; [|discriminate]. destruct (op_pin s t (fun a => IBin c a l r)) as (s1, a1) eqn:E. injection H' as <- <-.
    destruct (op_pin_spec _ _ _ _ _ E) as (CE & N & G). exists t, (IBin c a1 l r). split; [exact CE|]. split; [exact N|]. split.
    { intros q. unfold unpin. cbn [map_ code]. rewrite !rget_unpin, G. reflexivity. }
    intros C p r0 k I T1 T2.
    assert (S2 : null2 (r0 l) (r0 r) (exec_op P c (r0 l) (r0 r)) = sem2 P o (r0 l) (r0 r) /\ (o <> OpLike -> forall v, sem2 P o (r0 l) (r0 r) = Ok v -> has_type t v)).
    { unfold null2, sem2. destruct T1 as [T1|T1]; [rewrite T1; cbn; split; [reflexivity|]; intros _ w Hw; injection Hw as <-; apply has_null|].
      destruct T2 as [T2|T2]; [rewrite T2; destruct (r0 l); cbn; (split; [reflexivity|]; intros _ w Hw; injection Hw as <-; apply has_null)|].
      destruct (cast_op_sem o lt rt t c (r0 l) (r0 r) EC T1 T2) as (X & Y).
      destruct (r0 l) eqn:E1; [now elim N1| | | | | | | | | |]; (destruct (r0 r) eqn:E2; [now elim N2| | | | | | | | | |]; cbn [is_null orb]; now split). }
    destruct S2 as (S2 & S3). split; [|exact S3]. exists (frees c). unfold CompModel.step. cbn [pc rs st V]. rewrite I, S2. destruct (sem2 P o (r0 l) (r0 r)); cbn; [|reflexivity|reflexivity]. reflexivity.
Qed.

Lemma eqb_neq a b : a <> b -> Nat.eqb a b = false.
Proof. apply Nat.eqb_neq. Qed.
Lemma fresh_neq m a b (t : ty) : rget m a = None -> rget m b = Some t -> a <> b.
Proof. intros H1 H2 ->. congruence. Qed.
Ltac neqs := repeat match goal with
  | |- context [Nat.eqb ?a ?a] => rewrite (Nat.eqb_refl a)
  | H : ?a <> ?b |- context [Nat.eqb ?a ?b] => rewrite (eqb_neq a b H)
  | H : ?b <> ?a |- context [Nat.eqb ?a ?b] => rewrite (eqb_neq a b (not_eq_sym H))
  end.

(** the last operation of two operands *)
Definition Two (s2 : comp) (l r : nat) (s3 : comp) (a : nat) (g : value -> value -> res value) (need hon : Prop) : Prop :=
  forall lt rt, rget (map_ s2) l = Some lt -> rget (map_ s2) r = Some rt ->
  exists t i, code s3 = code s2 ++ [i] /\ rget (map_ s2) a = None /\
    (forall q, rget (map_ s3) q = if Nat.eqb q r then None else if Nat.eqb q l then None else if Nat.eqb q a then Some t else rget (map_ s2) q) /\
    (forall C p r0 k, nth_error C p = Some i -> (need -> has_type lt (r0 l)) -> (need -> has_type rt (r0 r)) ->
       (exists fr : bool, step C (V p r0 k) = (do v <- g (r0 l) (r0 r); Ok (V (S p) (if fr then rset (rset (rset r0 a v) l VNull) r VNull else rset r0 a v) k))) /\
       (hon -> forall v, g (r0 l) (r0 r) = Ok v -> has_type t v)).

Lemma em_two s s1 r1 x1 ok1 hon1 s2 r2 x2 ok2 hon2 s3 r3 g need hon :
  Em s s1 r1 x1 ok1 hon1 -> Em s1 s2 r2 x2 ok2 hon2 -> Two s2 r1 r2 s3 r3 g need hon ->
  Em s s3 r3 (do a <- x1; do b <- x2; g a b) ((ok1 /\ (need -> hon1)) /\ (ok2 /\ (need -> hon2))) hon.
Proof.
  intros (f1 & T1 & E1 & N1 & G1 & W1) (f2 & T2 & E2 & N2 & G2 & W2) H.
  assert (D12 : r1 <> r2). { intros ->. rewrite G1, Nat.eqb_refl in N2. discriminate. }
  assert (L1 : rget (map_ s2) r1 = Some T1) by (rewrite G2; neqs; rewrite G1; now neqs).
  assert (L2 : rget (map_ s2) r2 = Some T2) by (rewrite G2; now neqs).
  destruct (H _ _ L1 L2) as (t & i & E3 & N3 & G3 & W3). clear H.
  assert (D31 : r3 <> r1) by now apply (fresh_neq (map_ s2) r3 r1 T1).
  assert (D32 : r3 <> r2) by now apply (fresh_neq (map_ s2) r3 r2 T2).
  exists (f1 ++ f2 ++ [i]), t. split; [rewrite E3, E2, E1, <- !app_assoc; reflexivity|].
  split. { rewrite G2, G1 in N3. revert N3. now neqs. }
  split. { intros q. rewrite G3, G2, G1. destruct (Nat.eqb q r2) eqn:Q2.
    - apply Nat.eqb_eq in Q2. subst q. neqs. rewrite G1 in N2. revert N2. now neqs.
    - destruct (Nat.eqb q r1) eqn:Q1; [|reflexivity]. apply Nat.eqb_eq in Q1. subst q. neqs. now rewrite N1. }
  intros ((O1 & H1) & (O2 & H2)). destruct (W1 O1) as (R1 & Y1). destruct (W2 O2) as (R2 & Y2).
  assert (Y1' : need -> forall v, x1 = Ok v -> has_type T1 v) by (intros n; apply Y1, H1, n).
  assert (Y2' : need -> forall v, x2 = Ok v -> has_type T2 v) by (intros n; apply Y2, H2, n). clear Y1 Y2.
  split.
  - intros C regs stk A. apply at_app in A. destruct A as (A1 & A2). apply at_app in A2. destruct A2 as (A2 & A3).
    assert (P1 : (length (code s) + length f1 = length (code s1))%nat) by (rewrite E1, app_length; reflexivity).
    assert (P2 : (length (code s1) + length f2 = length (code s2))%nat) by (rewrite E2, app_length; reflexivity).
    rewrite P1 in A2, A3. rewrite P2 in A3. apply at_one in A3.
    eapply goes_bind; [apply R1; exact A1|]. intros a p' ra ka Xa (-> & Ra & -> & Ka).
    eapply goes_bind; [apply R2; exact A2|]. intros b p' rb kb Xb (-> & Rb & -> & Kb).
    assert (Rb1 : rb r1 = a). { rewrite Kb; [exact Ra|]. rewrite G1. now neqs. }
    destruct (W3 C (length (code s2)) rb stk A3) as ((fr & ST) & _); [intros n; rewrite Rb1; now apply Y1'|intros n; rewrite Rb; now apply Y2'|].
    rewrite Rb1, Rb in ST. apply goes_instr with (1 := ST). intros v Hv. cbn [pc rs st V].
    assert (Keep : forall q, q <> r1 -> q <> r2 -> q <> r3 -> (if fr then rset (rset (rset rb r3 v) r1 VNull) r2 VNull else rset rb r3 v) q = rb q).
    { intros q Q1 Q2 Q3. unfold rset. destruct fr; now neqs. }
    split; [rewrite E3, app_length; cbn; lia|]. split; [destruct fr; unfold rset; now neqs|]. split; [reflexivity|].
    intros q Hq. assert (q <> r1) by (intros ->; congruence). assert (Hq1 : rget (map_ s1) q <> None) by (rewrite G1; now neqs).
    assert (q <> r2) by (intros ->; congruence). assert (Hq2 : rget (map_ s2) q <> None) by (rewrite G2; now neqs).
    assert (q <> r3) by (intros ->; congruence). rewrite Keep by assumption. rewrite Kb by exact Hq1. now apply Ka.
  - intros NL v Hv. destruct x1 as [a| |]; cbn in Hv; try discriminate. destruct x2 as [b| |]; cbn in Hv; try discriminate.
    destruct (W3 [i] O (fun q => if Nat.eqb q r1 then a else b) [] eq_refl) as (_ & TY); [intros n; neqs; now apply Y1'|intros n; neqs; now apply Y2'|].
    revert TY. neqs. intros TY. now apply TY.
Qed.
Lemma em_bin s s1 r1 x1 ok1 hon1 s2 r2 x2 ok2 hon2 o s3 r3 :
  Em s s1 r1 x1 ok1 hon1 -> Em s1 s2 r2 x2 ok2 hon2 -> cast_operator s2 o r1 r2 = Ok (s3, r3) ->
  Em s s3 r3 (do a <- x1; do b <- x2; sem2 P o a b) ((ok1 /\ hon1) /\ (ok2 /\ hon2)) (o <> OpLike).
Proof.
  intros H1 H2 H. apply em_weak with (ok := (ok1 /\ (True -> hon1)) /\ (ok2 /\ (True -> hon2))) (hon := o <> OpLike); [tauto|tauto|].
  apply em_two with (1 := H1) (2 := H2). intros lt rt L R. destruct (cast_ok _ _ _ _ _ _ _ _ H L R) as (t & i & A & B & D & W).
  exists t, i. split; [exact A|]. split; [exact B|]. split; [exact D|]. intros C p r0 k I Y1 Y2. apply W; auto.
Qed.
Lemma em_andor s s1 r1 x1 ok1 hon1 s2 r2 x2 ok2 hon2 (i : nat -> nat -> nat -> instr) s3 r3 g :
  Em s s1 r1 x1 ok1 hon1 -> Em s1 s2 r2 x2 ok2 hon2 -> binary_op s2 TBool i r1 r2 = (s3, r3) ->
  (forall C p r0 k a l r, nth_error C p = Some (i a l r) -> step C (V p r0 k) = (do v <- g (r0 l) (r0 r); Ok (V (S p) (rset (rset (rset r0 a v) l VNull) r VNull) k))) ->
  (forall a b v, g a b = Ok v -> has_type TBool v) ->
  Em s s3 r3 (do a <- x1; do b <- x2; g a b) (ok1 /\ ok2) True.
Proof.
  intros H1 H2 H S TY. apply em_weak with (ok := (ok1 /\ (False -> hon1)) /\ (ok2 /\ (False -> hon2))) (hon := True); [tauto|tauto|].
  apply em_two with (1 := H1) (2 := H2). intros lt rt L R. unfold binary_op in H.
  destruct (op_pin s2 TBool (fun a => i a r1 r2)) as (s4, a) eqn:E. injection H as <- <-. destruct (op_pin_spec _ _ _ _ _ E) as (CE & N & G).
  exists TBool, (i a r1 r2). split; [exact CE|]. split; [exact N|]. split. { intros q. unfold unpin. cbn [map_ code]. rewrite !rget_unpin, G. reflexivity. }
  intros C p r0 k I _ _. split; [exists true; now apply S|]. intros _ v. apply TY.
Qed.

(** one operand *)
Lemma em_one s s1 r1 x1 ok1 hon1 t i s2 r2 (f : value -> res value) (need : Prop) :
  Em s s1 r1 x1 ok1 hon1 -> unary_op s1 t i r1 = (s2, r2) ->
  (forall C p r0 k T, rget (map_ s1) r1 = Some T -> nth_error C p = Some (i r2 r1) -> (need -> has_type T (r0 r1)) ->
     exists fr : bool, step C (V p r0 k) = (do v <- f (r0 r1); Ok (V (S p) (if fr then rset (rset r0 r2 v) r1 VNull else rset r0 r2 v) k))) ->
  (forall a v, f a = Ok v -> has_type t v) ->
  Em s s2 r2 (do a <- x1; f a) (ok1 /\ (need -> hon1)) True.
Proof.
  intros (f1 & T1 & E1 & N1 & G1 & W1) H ST TY. unfold unary_op in H. destruct (op_pin s1 t (fun a => i a r1)) as (s3, a) eqn:E. injection H as <- <-.
  destruct (op_pin_spec _ _ _ _ _ E) as (CE & N & G).
  assert (L1 : rget (map_ s1) r1 = Some T1) by (rewrite G1; now neqs).
  assert (D : a <> r1) by now apply (fresh_neq (map_ s1) a r1 T1).
  exists (f1 ++ [i a r1]), t. split; [cbn; rewrite CE, E1, <- app_assoc; reflexivity|].
  split. { rewrite G1 in N. revert N. now neqs. }
  split. { intros q. unfold unpin. cbn [map_ code]. rewrite rget_unpin, G, G1. destruct (Nat.eqb q r1) eqn:Q; [|reflexivity]. apply Nat.eqb_eq in Q. subst q. neqs. now rewrite N1. }
  intros (O1 & H1). destruct (W1 O1) as (R1 & Y1). split.
  - intros C regs stk A. apply at_app in A. destruct A as (A1 & A2).
    assert (P1 : (length (code s) + length f1 = length (code s1))%nat) by (rewrite E1, app_length; reflexivity).
    rewrite P1 in A2. apply at_one in A2.
    eapply goes_bind; [apply R1; exact A1|]. intros v p' rv kv Xv (-> & Rv & -> & Kv).
    destruct (ST C (length (code s1)) rv stk T1 L1 A2) as (fr & ST1); [intros n; rewrite Rv; apply Y1; auto|].
    rewrite Rv in ST1. apply goes_instr with (1 := ST1). intros w Hw. cbn [pc rs st V].
    split; [cbn; rewrite CE, app_length; cbn; lia|]. split; [destruct fr; unfold rset; now neqs|]. split; [reflexivity|].
    intros q Hq. assert (q <> r1) by (intros ->; congruence). assert (Hq1 : rget (map_ s1) q <> None) by (rewrite G1; now neqs).
    assert (q <> a) by (intros ->; congruence). rewrite <- (Kv q Hq). unfold rset. destruct fr; now neqs.
  - intros _ v Hv. destruct x1 as [b| |]; cbn in Hv; try discriminate. now apply (TY b).
Qed.
Lemma not_bool a v : sem_not P a = Ok v -> has_type TBool v.
Proof. unfold sem_not. destruct a; try (intros H; injection H as <-; now left); destruct (truth P _); cbn; try discriminate; intros H; injection H as <-; now right. Qed.
Lemma and_bool a b v : sem_and P a b = Ok v -> has_type TBool v.
Proof.
  assert (X : (do x <- truth P a; if x then do y <- truth P b; Ok (vbool y) else Ok (vbool false)) = Ok v -> has_type TBool v).
  { destruct (truth P a) as [[|]| |]; cbn; try discriminate; [|intros H; injection H as <-; now right].
    destruct (truth P b); cbn; try discriminate. intros H; injection H as <-; now right. }
  unfold sem_and. destruct a; try (intros H; injection H as <-; now left); destruct b; try exact X; intros H; injection H as <-; now left.
Qed.
Lemma or_bool a b v : sem_or P a b = Ok v -> has_type TBool v.
Proof.
  assert (X : (do x <- truth P a; if x then Ok (vbool true) else do y <- truth P b; Ok (vbool y)) = Ok v -> has_type TBool v).
  { destruct (truth P a) as [[|]| |]; cbn; try discriminate; [intros H; injection H as <-; now right|].
    destruct (truth P b); cbn; try discriminate. intros H; injection H as <-; now right. }
  unfold sem_or. destruct a; try exact X; destruct b; try exact X; intros H; injection H as <-; now left.
Qed.
Lemma em_not s s1 r1 x1 ok1 hon1 s2 r2 : Em s s1 r1 x1 ok1 hon1 -> unary_op s1 TBool INot r1 = (s2, r2) ->
  Em s s2 r2 (do a <- x1; sem_not P a) ok1 True.
Proof.
  intros H1 H. apply em_weak with (ok := ok1 /\ (False -> hon1)) (hon := True); [tauto|tauto|].
  apply em_one with (1 := H1) (2 := H); [|exact not_bool].
  intros C p r0 k T _ I _. exists true. unfold CompModel.step. cbn [pc rs st V]. rewrite I. unfold null1, sem_not. rewrite is_truth.
  destruct (r0 r1); cbn [is_null]; try reflexivity; destruct (truth P _); reflexivity.
Qed.
Lemma em_maybe s s1 r1 x1 ok1 hon1 s2 r2 (pos : bool) : Em s s1 r1 x1 ok1 hon1 ->
  (if pos then Ok (s1, r1) else Ok (unary_op s1 TBool INot r1)) = Ok (s2, r2) ->
  Em s s2 r2 (do a <- x1; maybe_not P pos a) ok1 (if pos then hon1 else True).
Proof.
  intros H1 H. destruct pos.
  - injection H as <- <-. unfold maybe_not. apply em_eq with (x := x1); [now destruct x1|exact H1].
  - injection H as H. unfold maybe_not. now apply em_not with (1 := H1).
Qed.

(** ** arguments *)
Definition EmA (s s' : comp) (l : args) (ok : Prop) : Prop :=
  exists frag, code s' = code s ++ frag /\ (forall q, rget (map_ s') q = rget (map_ s) q) /\
    (ok -> forall C regs stk, At C (length (code s)) frag ->
      Goes C (length (code s)) regs stk (eval_args l)
        (fun vs p' r' k' => p' = length (code s') /\ length vs = alen l /\ k' = rev vs ++ stk /\ kept (map_ s) regs r')).
Lemma pop_rev vs stk : pop_args (length vs) (rev vs ++ stk) = Ok (vs, stk).
Proof.
  unfold pop_args. rewrite (proj2 (Nat.leb_le _ _)) by (rewrite app_length, rev_length; lia).
  rewrite <- (rev_length vs) at 1 2. rewrite firstn_app, skipn_app, Nat.sub_diag, firstn_all, skipn_all. cbn [firstn skipn app].
  now rewrite app_nil_r, rev_involutive.
Qed.
Lemma ema_nil s : EmA s s ANil True.
Proof.
  exists []. split; [now rewrite app_nil_r|]. split; [reflexivity|]. intros _ C regs stk _. cbn. exists (length (code s)), regs, stk.
  split; [apply g_stay|]. repeat (split; [reflexivity|]). now intros q _.
Qed.
Lemma ema_cons s s1 s2 e l (ok1 ok2 : Prop) :
  (exists frag, code s1 = code s ++ frag /\ (forall q, rget (map_ s1) q = rget (map_ s) q) /\
     (ok1 -> forall C regs stk, At C (length (code s)) frag ->
        Goes C (length (code s)) regs stk (eval e) (fun v p' r' k' => p' = length (code s1) /\ k' = v :: stk /\ kept (map_ s) regs r'))) ->
  EmA s1 s2 l ok2 -> EmA s s2 (ACons e l) (ok1 /\ ok2).
Proof.
  intros (f1 & E1 & G1 & W1) (f2 & E2 & G2 & W2). exists (f1 ++ f2). split; [rewrite E2, E1, <- app_assoc; reflexivity|].
  split; [intros q; now rewrite G2, G1|]. intros (O1 & O2) C regs stk A. apply at_app in A. destruct A as (A1 & A2).
  assert (P1 : (length (code s) + length f1 = length (code s1))%nat) by (rewrite E1, app_length; reflexivity). rewrite P1 in A2.
  change (eval_args (ACons e l)) with (do v <- eval e; do vs <- eval_args l; Ok (v :: vs)).
  eapply goes_bind; [apply (W1 O1); exact A1|]. intros v p' rv kv _ (-> & -> & Kv).
  eapply goes_bind; [apply (W2 O2); exact A2|]. intros vs p' rw kw _ (-> & L & -> & Kw).
  cbn [Goes]. eexists _, _, _. split; [apply g_stay|]. split; [reflexivity|]. split; [cbn; now rewrite L|]. split; [cbn; now rewrite <- app_assoc|].
  intros q Hq. rewrite Kw by now rewrite G1. now apply Kv.
Qed.
Lemma ema_push s s1 a e ok hon : Em s s1 a (eval e) ok hon ->
  exists frag, code (unpin (op s1 (IPush a)) a) = code s ++ frag /\ (forall q, rget (map_ (unpin (op s1 (IPush a)) a)) q = rget (map_ s) q) /\
     (ok -> forall C regs stk, At C (length (code s)) frag ->
        Goes C (length (code s)) regs stk (eval e) (fun v p' r' k' => p' = length (code (unpin (op s1 (IPush a)) a)) /\ k' = v :: stk /\ kept (map_ s) regs r')).
Proof.
  intros (f1 & T1 & E1 & N1 & G1 & W1). exists (f1 ++ [IPush a]). split; [cbn; rewrite E1, <- app_assoc; reflexivity|].
  split. { intros q. unfold unpin, op. cbn [map_ code]. rewrite rget_unpin, G1. destruct (Nat.eqb q a) eqn:Q; [|reflexivity]. apply Nat.eqb_eq in Q. subst q. now rewrite N1. }
  intros O C regs stk A. apply at_app in A. destruct A as (A1 & A2).
  assert (P1 : (length (code s) + length f1 = length (code s1))%nat) by (rewrite E1, app_length; reflexivity). rewrite P1 in A2. apply at_one in A2.
  assert (X : eval e = (do v <- eval e; Ok v)) by now destruct (eval e). rewrite X. clear X.
  eapply goes_bind; [apply (proj1 (W1 O)); exact A1|]. intros v p' rv kv _ (-> & Rv & -> & Kv).
  apply goes_instr with (g := fun v => V (S (length (code s1))) (rset rv a VNull) (v :: stk)).
  - unfold CompModel.step. cbn [pc rs st V]. rewrite A2. cbn. now rewrite Rv.
  - intros w Hw. injection Hw as <-. cbn [pc rs st V]. split; [cbn; rewrite app_length; cbn; lia|]. split; [reflexivity|].
    intros q Hq. rewrite <- (Kv q Hq). unfold rset. assert (q <> a) by (intros ->; congruence). now neqs.
Qed.
Lemma ema_pushc s v :
  exists frag, code (op s (IPushC v)) = code s ++ frag /\ (forall q, rget (map_ (op s (IPushC v))) q = rget (map_ s) q) /\
     (True -> forall C regs stk, At C (length (code s)) frag ->
        Goes C (length (code s)) regs stk (eval (EConst v)) (fun w p' r' k' => p' = length (code (op s (IPushC v))) /\ k' = w :: stk /\ kept (map_ s) regs r')).
Proof.
  exists [IPushC v]. split; [reflexivity|]. split; [reflexivity|]. intros _ C regs stk A. apply at_one in A.
  apply goes_instr with (g := fun w => V (S (length (code s))) regs (w :: stk)).
  - unfold CompModel.step. cbn [pc rs st V]. rewrite A. reflexivity.
  - intros w Hw. injection Hw as <-. cbn [pc rs st V]. split; [cbn; rewrite app_length; cbn; lia|]. split; [reflexivity|]. now intros q _.
Qed.

(** an operation on the arguments *)
Lemma em_call s s1 l ok t i s2 r (f : list value -> res value) :
  EmA s s1 l ok -> op_pin s1 t i = (s2, r) ->
  (forall C p r0 k vs, nth_error C p = Some (i r) -> length vs = alen l ->
     step C (V p r0 (rev vs ++ k)) = (do v <- f vs; Ok (V (S p) (rset r0 r v) k))) ->
  (forall vs v, f vs = Ok v -> has_type t v) ->
  Em s s2 r (do vs <- eval_args l; f vs) ok True.
Proof.
  intros (f1 & E1 & G1 & W1) H ST TY. destruct (op_pin_spec _ _ _ _ _ H) as (CE & N & G).
  exists (f1 ++ [i r]), t. split; [rewrite CE, E1, <- app_assoc; reflexivity|]. split; [now rewrite <- G1|].
  split; [intros q; now rewrite G, G1|]. intros O. split.
  - intros C regs stk A. apply at_app in A. destruct A as (A1 & A2).
    assert (P1 : (length (code s) + length f1 = length (code s1))%nat) by (rewrite E1, app_length; reflexivity). rewrite P1 in A2. apply at_one in A2.
    eapply goes_bind; [apply (W1 O); exact A1|]. intros vs p' rv kv _ (-> & L & -> & Kv).
    apply goes_instr with (1 := ST _ _ _ _ _ A2 L). intros w Hw. cbn [pc rs st V].
    split; [rewrite CE, app_length; cbn; lia|]. split; [unfold rset; now neqs|]. split; [reflexivity|].
    intros q Hq. rewrite <- (Kv q Hq). unfold rset. assert (q <> r) by (intros ->; rewrite G1 in N; congruence). now neqs.
  - intros _ v Hv. destruct (eval_args l) as [vs| |]; cbn in Hv; try discriminate. now apply (TY vs).
Qed.
Lemma em_in s s0 a x ok1 hon1 s1 l ok2 s2 r : in_bool P ->
  Em s s0 a x ok1 hon1 -> EmA s0 s1 l ok2 -> unary_op s1 TBool (fun x y => IIn x y (alen l)) a = (s2, r) ->
  Em s s2 r (do v <- x; do vs <- eval_args l; p_in P v vs) (ok1 /\ ok2) True.
Proof.
  intros IB (f0 & T0 & E0 & N0 & G0 & W0) (f1 & E1 & G1 & W1) H. unfold unary_op in H.
  destruct (op_pin s1 TBool (fun x => IIn x a (alen l))) as (s3, b) eqn:E. injection H as <- <-.
  destruct (op_pin_spec _ _ _ _ _ E) as (CE & N & G).
  assert (D : b <> a). { intros ->. rewrite G1, G0, Nat.eqb_refl in N. discriminate. }
  exists (f0 ++ f1 ++ [IIn b a (alen l)]), TBool. split; [cbn; rewrite CE, E1, E0, <- !app_assoc; reflexivity|].
  split. { rewrite G1, G0 in N. revert N. now neqs. }
  split. { intros q. unfold unpin. cbn [map_ code]. rewrite rget_unpin, G, G1, G0. destruct (Nat.eqb q a) eqn:Q; [|reflexivity]. apply Nat.eqb_eq in Q. subst q. neqs. now rewrite N0. }
  intros (O1 & O2). split.
  - intros C regs stk A. apply at_app in A. destruct A as (A0 & A). apply at_app in A. destruct A as (A1 & A2).
    assert (P0 : (length (code s) + length f0 = length (code s0))%nat) by (rewrite E0, app_length; reflexivity).
    assert (P1 : (length (code s0) + length f1 = length (code s1))%nat) by (rewrite E1, app_length; reflexivity).
    rewrite P0 in A1, A2. rewrite P1 in A2. apply at_one in A2.
    eapply goes_bind; [apply (proj1 (W0 O1)); exact A0|]. intros v p' rv kv _ (-> & Rv & -> & Kv).
    eapply goes_bind; [apply (W1 O2); exact A1|]. intros vs p' rw kw _ (-> & L & -> & Kw).
    assert (Rw : rw a = v). { rewrite Kw; [exact Rv|]. rewrite G0. now neqs. }
    apply goes_instr with (g := fun w => V (S (length (code s1))) (rset rw b w) stk).
    + unfold CompModel.step. cbn [pc rs st V]. rewrite A2, <- L, pop_rev, Rw. cbn. destruct (p_in P v vs); reflexivity.
    + intros w Hw. cbn [pc rs st V]. split; [cbn; rewrite CE, app_length; cbn; lia|]. split; [unfold rset; now neqs|]. split; [reflexivity|].
      intros q Hq. assert (q <> a) by (intros ->; congruence). assert (Hq0 : rget (map_ s0) q <> None) by (rewrite G0; now neqs).
      assert (q <> b) by (intros ->; rewrite G1 in N; congruence). unfold rset. neqs. rewrite Kw by exact Hq0. now apply Kv.
  - intros _ v Hv. destruct x as [w| |]; cbn in Hv; try discriminate. destruct (eval_args l) as [vs| |]; cbn in Hv; try discriminate. now apply (IB w vs).
Qed.
(** ** CASE *)
Definition mem (p : nat) (l : list nat) : bool := existsb (Nat.eqb p) l.
(** a piece of the code whose jumps to the end are set *)
Definition AtP (C : list instr) (p : nat) (f : list instr) (stops : list nat) (stop : nat) : Prop :=
  forall i, (i < length f)%nat -> nth_error C (p + i) = if mem (p + i) stops then Some (IJmp stop) else nth_error f i.
Definition sub_ty (t t' : ty) : Prop := t = t' \/ t = TNull.
Definition EmW (s s' : comp) (rres : nat) (T : ty) (stops : list nat) (x : res (option value)) (ok hon : Prop) : Prop :=
  exists frag T', code s' = code s ++ frag /\ sub_ty T T' /\
    (forall q, rget (map_ s') q = if Nat.eqb q rres then Some T' else rget (map_ s) q) /\
    (forall p, In p stops -> (length (code s) <= p < length (code s'))%nat /\ nth_error frag (p - length (code s)) = Some (IJmp 0)) /\
    (ok ->
      (forall C regs stk stop, AtP C (length (code s)) frag stops stop ->
        Goes C (length (code s)) regs stk x (fun o p' r' k' => k' = stk /\ (forall q, q <> rres -> rget (map_ s) q <> None -> r' q = regs q) /\
          match o with Some v => p' = stop /\ r' rres = v | None => p' = length (code s') end)) /\
      (hon -> forall v, x = Ok (Some v) -> has_type T' v)).

Lemma sub_has t t' v : sub_ty t t' -> has_type t v -> has_type t' v.
Proof. intros [->| ->] H; [exact H|]. apply type_null in H. subst v. now left. Qed.
Lemma ty_eqb_eq a b : ty_eqb a b = true -> a = b.
Proof. destruct a, b; cbn; congruence. Qed.
Lemma case_type_ok s rres rthen T T1 s' : case_type s rres rthen = Ok s' -> rget (map_ s) rres = Some T -> rget (map_ s) rthen = Some T1 ->
  code s' = code s /\ exists T', sub_ty T T' /\ sub_ty T1 T' /\ forall q, rget (map_ s') q = if Nat.eqb q rres then Some T' else rget (map_ s) q.
Proof.
  unfold case_type, rtype. intros H R1 R2. rewrite R1, R2 in H.
  assert (X : (T = TNull /\ s' = {| code := code s; map_ := rassign (map_ s) rres (Some T1) |}) \/ (s' = s /\ sub_ty T1 T)).
  { assert (Y : (if ty_eqb T T1 || ty_eqb T1 TNull then Ok s else Err) = Ok s' -> s' = s /\ sub_ty T1 T).
    { destruct (ty_eqb T T1) eqn:Q; [intros Z; injection Z as <-; split; [reflexivity|left; symmetry; now apply ty_eqb_eq]|]. cbn.
      destruct (ty_eqb T1 TNull) eqn:Q2; [|discriminate]. intros Z; injection Z as <-. split; [reflexivity|right; now apply ty_eqb_eq]. }
    destruct T; [left; split; [reflexivity|]; now injection H as <-| | | | | | | | | |]; right; now apply Y. }
  destruct X as [(-> & ->)|(-> & X)].
  - split; [reflexivity|]. exists T1. split; [now right|]. split; [now left|]. intros q. cbn [map_]. apply rget_assign. congruence.
  - split; [reflexivity|]. exists T. split; [now left|]. split; [exact X|]. intros q. destruct (Nat.eqb q rres) eqn:Q; [|reflexivity]. apply Nat.eqb_eq in Q. now subst q.
Qed.
Lemma set_nth_app a i b to : set_nth (a ++ i :: b) (length a) to = a ++ set_target i to :: b.
Proof. induction a as [|x a IH]; cbn; [reflexivity|]. now rewrite IH. Qed.
Lemma mem_not p l : (forall q, In q l -> (p < q)%nat) -> mem p l = false.
Proof. intros H. unfold mem. apply not_true_is_false. intros M. apply existsb_exists in M. destruct M as (q & Q & E). apply Nat.eqb_eq in E. subst q. specialize (H p Q). lia. Qed.
Lemma mem_not2 p l : (forall q, In q l -> (q < p)%nat) -> mem p l = false.
Proof. intros H. unfold mem. apply not_true_is_false. intros M. apply existsb_exists in M. destruct M as (q & Q & E). apply Nat.eqb_eq in E. subst q. specialize (H p Q). lia. Qed.

Lemma emw_nil s rres T : rget (map_ s) rres = Some T -> EmW s s rres T [] (Ok None) True True.
Proof.
  intros R. exists [], T. split; [now rewrite app_nil_r|]. split; [now left|].
  split. { intros q. destruct (Nat.eqb q rres) eqn:Q; [|reflexivity]. apply Nat.eqb_eq in Q. now subst q. }
  split; [intros p []|]. intros _. split; [|intros _ v Hv; discriminate]. intros C regs stk stop _. cbn. exists (length (code s)), regs, stk.
  split; [apply g_stay|]. split; [reflexivity|]. split; [reflexivity|reflexivity].
Qed.

Lemma emw_cons s rres T s1 rcond xc okc honc s3 rthen xr okr honr s4 s7 stops xw okw honw :
  rget (map_ s) rres = Some T ->
  Em s s1 rcond xc okc honc ->
  Em (op s1 (IJntr 0 rcond)) s3 rthen xr okr honr ->
  case_type s3 rres rthen = Ok s4 ->
  (forall T', rget (map_ s4) rres = Some T' ->
    EmW (unpin (set_jmp (op (unpin (op s4 (IMov rres rthen)) rthen) (IJmp 0)) (op_pos s1) (op_pos (op (unpin (op s4 (IMov rres rthen)) rthen) (IJmp 0)))) rcond) s7 rres T' stops xw okw honw) ->
  EmW s s7 rres T (op_pos (unpin (op s4 (IMov rres rthen)) rthen) :: stops)
    (do b <- xc; do t <- truth P b; if t then do v <- xr; Ok (Some v) else xw) (okc /\ okr /\ okw) (honr /\ honw).
Proof.
  intros RR (f1 & T1 & E1 & N1 & G1 & W1) (f2 & T2 & E2 & N2 & G2 & W2) CT HW. cbn [op map_ code] in E2, N2, G2, W2.
  assert (Drc : rres <> rcond) by (intros ->; congruence).
  assert (R3 : rget (map_ s1) rres = Some T) by (rewrite G1; now neqs).
  assert (Drt : rres <> rthen) by (intros ->; congruence).
  assert (Dct : rcond <> rthen). { intros ->. rewrite G1, Nat.eqb_refl in N2. discriminate. }
  assert (R4 : rget (map_ s3) rres = Some T) by (rewrite G2; now neqs).
  assert (R5 : rget (map_ s3) rthen = Some T2) by (rewrite G2; now neqs).
  destruct (case_type_ok _ _ _ _ _ _ CT R4 R5) as (E4 & T4 & S1 & S2 & G4).
  assert (R6 : rget (map_ s4) rres = Some T4) by (rewrite G4; now neqs).
  specialize (HW T4 R6). destruct HW as (f5 & T5 & E5 & S5 & G5 & J5 & W5).
  set (s6 := unpin _ rcond) in *.
  set (stop1 := op_pos (unpin (op s4 (IMov rres rthen)) rthen)) in *.
  set (L6 := op_pos (op (unpin (op s4 (IMov rres rthen)) rthen) (IJmp 0))) in *.
  set (frag1 := f1 ++ [IJntr L6 rcond] ++ f2 ++ [IMov rres rthen] ++ [IJmp 0]).
  assert (E6 : code s6 = code s ++ frag1).
  { unfold s6, frag1, op_pos. cbn [unpin set_jmp op code map_]. rewrite E4, E2, <- !app_assoc. cbn [app].
    rewrite set_nth_app. cbn [set_target]. rewrite E1, <- !app_assoc. reflexivity. }
  assert (M6 : forall q, rget (map_ s6) q = if Nat.eqb q rres then Some T4 else rget (map_ s) q).
  { intros q. unfold s6. cbn [unpin set_jmp op code map_]. rewrite !rget_unpin, G4, G2, G1.
    destruct (Nat.eqb q rcond) eqn:Q; [apply Nat.eqb_eq in Q; subst q; neqs; now rewrite N1|].
    destruct (Nat.eqb q rthen) eqn:Q2; [apply Nat.eqb_eq in Q2; subst q; neqs; rewrite G1 in N2; revert N2; now neqs|]. reflexivity. }
  assert (LL1 : length (code s1) = (length (code s) + length f1)%nat) by (rewrite E1, app_length; reflexivity).
  assert (LL3 : length (code s3) = (length (code s1) + 1 + length f2)%nat) by (rewrite E2, !app_length; cbn; lia).
  assert (LS : stop1 = (length (code s3) + 1)%nat). { unfold stop1, op_pos. cbn [unpin op code]. rewrite E4, app_length. reflexivity. }
  assert (L6' : L6 = (stop1 + 1)%nat). { unfold L6, stop1, op_pos. cbn [unpin op code]. rewrite !app_length. reflexivity. }
  assert (LS6 : length (code s6) = L6). { rewrite E6. unfold frag1. rewrite !app_length. cbn [length]. lia. }
  assert (LF : length frag1 = (L6 - length (code s))%nat). { unfold frag1. rewrite !app_length. cbn [length]. lia. }
  exists (frag1 ++ f5), T5. split; [rewrite E5, E6, <- app_assoc; reflexivity|].
  split. { destruct S1 as [->| ->]; [exact S5|now right]. }
  split. { intros q. rewrite G5, M6. now destruct (Nat.eqb q rres). }
  assert (L7 : length (code s7) = (L6 + length f5)%nat) by (rewrite E5, app_length, LS6; reflexivity).
  split. { intros p [<-|Hp].
    - split; [lia|]. rewrite nth_error_app1 by lia. unfold frag1. rewrite !app_assoc. rewrite nth_error_app2 by (rewrite !app_length; cbn [length]; lia).
      rewrite !app_length. cbn [length]. replace (_ - _)%nat with O by lia. reflexivity.
    - destruct (J5 p Hp) as (B1 & B2). rewrite LS6 in B1, B2. split; [lia|]. rewrite nth_error_app2 by lia. rewrite <- B2. f_equal. lia. }
  intros (Oc & Or & Ow). destruct (W1 Oc) as (R1 & _). destruct (W2 Or) as (R2 & Y2). destruct (W5 Ow) as (RW & YW). split.
  - intros C regs stk stop A.
    assert (NS : forall p, (p < stop1)%nat -> mem p (stop1 :: stops) = false).
    { intros p Hp. apply mem_not. intros q [<-|Hq]; [exact Hp|]. destruct (J5 q Hq) as (B & _). lia. }
    assert (A' : forall i x, (i < length frag1 - 1)%nat -> nth_error frag1 i = Some x -> nth_error C (length (code s) + i) = Some x).
    { intros i x Hi Hx. rewrite A by (rewrite app_length; lia). rewrite NS by lia. rewrite nth_error_app1 by lia. exact Hx. }
    assert (A1 : At C (length (code s)) f1).
    { intros i Hi. destruct (nth_error f1 i) as [y|] eqn:Y; [|apply nth_error_None in Y; lia]. apply A'; [unfold frag1; rewrite !app_length; cbn [length]; lia|].
      unfold frag1. rewrite nth_error_app1 by lia. exact Y. }
    assert (A2 : nth_error C (length (code s1)) = Some (IJntr L6 rcond)).
    { rewrite LL1. apply A'; [unfold frag1; rewrite !app_length; cbn [length]; lia|]. unfold frag1. rewrite nth_error_app2 by lia. now rewrite Nat.sub_diag. }
    assert (A3 : At C (length (code s1 ++ [IJntr 0 rcond])) f2).
    { intros i Hi. destruct (nth_error f2 i) as [y|] eqn:Y; [|apply nth_error_None in Y; lia]. rewrite app_length. cbn [length].
      replace (length (code s1) + 1 + i)%nat with (length (code s) + (length f1 + 1 + i))%nat by lia.
      apply A'; [unfold frag1; rewrite !app_length; cbn [length]; lia|].
      unfold frag1. rewrite nth_error_app2 by lia. rewrite nth_error_app2 by (cbn [length]; lia). rewrite nth_error_app1 by (cbn [length]; lia). rewrite <- Y. f_equal. cbn [length]. lia. }
    assert (A4 : nth_error C (length (code s3)) = Some (IMov rres rthen)).
    { rewrite LL3, LL1. replace (length (code s) + length f1 + 1 + length f2)%nat with (length (code s) + (length f1 + 1 + length f2))%nat by lia.
      apply A'; [unfold frag1; rewrite !app_length; cbn [length]; lia|]. unfold frag1. rewrite !app_assoc. rewrite nth_error_app1 by (rewrite !app_length; cbn [length]; lia).
      rewrite nth_error_app2 by (rewrite !app_length; cbn [length]; lia). rewrite !app_length. cbn [length]. replace (_ - _)%nat with O by lia. reflexivity. }
    assert (A5 : nth_error C stop1 = Some (IJmp stop)).
    { replace stop1 with (length (code s) + (stop1 - length (code s)))%nat by lia. rewrite A by (rewrite app_length; lia).
      replace (length (code s) + (stop1 - length (code s)))%nat with stop1 by lia. unfold mem. cbn. now rewrite Nat.eqb_refl. }
    assert (A6 : AtP C (length (code s6)) f5 stops stop).
    { intros i Hi. rewrite LS6. replace (L6 + i)%nat with (length (code s) + (length frag1 + i))%nat by lia.
      rewrite A by (rewrite app_length; lia). unfold mem. cbn [existsb].
      replace (Nat.eqb (length (code s) + (length frag1 + i)) stop1) with false by (symmetry; apply Nat.eqb_neq; lia). cbn [orb].
      rewrite nth_error_app2 by lia. replace (length frag1 + i - length frag1)%nat with i by lia. reflexivity. }
    eapply goes_bind; [apply R1; exact A1|]. intros b p' rb kb _ (-> & Rb & -> & Kb).
    eapply (goes_bind C _ _ _ (truth P b) _ (fun t p' r' k' => p' = (if t then S (length (code s1)) else L6) /\ r' = rset rb rcond VNull /\ k' = stk)).
    { apply goes_instr with (g := fun t : bool => V (if t then S (length (code s1)) else L6) (rset rb rcond VNull) stk).
      - unfold CompModel.step. cbn [pc rs st V]. rewrite A2, Rb, is_truth. reflexivity.
      - intros t _. cbn [pc rs st V]. auto. }
    intros t p' rt kt _ (-> & -> & ->).
    assert (Kt : forall q, rget (map_ s) q <> None -> rset rb rcond VNull q = regs q).
    { intros q Hq. assert (q <> rcond) by (intros ->; congruence). unfold rset. neqs. now apply Kb. }
    destruct t.
    + eapply goes_bind.
      { replace (S (length (code s1))) with (length (code s1 ++ [IJntr 0 rcond])) by (rewrite app_length; cbn; lia). apply R2. exact A3. }
      intros v p' rv kv _ (-> & Rv & -> & Kv).
      cbn [Goes]. exists stop, (rset (rset rv rres v) rthen VNull), stk. split.
      { apply g_step with (s' := V stop1 (rset (rset rv rres v) rthen VNull) stk).
        - unfold CompModel.step. cbn [pc rs st V]. rewrite A4, Rv. unfold next, V. cbn [pc rs st]. rewrite LS. f_equal. f_equal. lia.
        - apply goes_one. unfold CompModel.step. cbn [pc rs st V]. rewrite A5. reflexivity. }
      split; [reflexivity|]. split; [|split; [reflexivity|unfold rset; now neqs]].
      intros q Hq1 Hq2. assert (q <> rcond) by (intros ->; congruence). assert (HG : rget (map_ s1) q <> None) by (rewrite G1; now neqs).
      assert (q <> rthen) by (intros ->; congruence).
      rewrite <- (Kt q Hq2), <- (Kv q HG). unfold rset at 1 2. now neqs.
    + rewrite <- LS6. eapply goes_weak; [|apply RW; exact A6]. intros o p' r' k' (-> & K & M). split; [reflexivity|]. split; [|exact M].
      intros q Hq1 Hq2. rewrite K by (try assumption; rewrite M6; now neqs). now apply Kt.
  - intros (H1 & H2) v Hv. destruct xc as [b| |]; cbn in Hv; try discriminate. destruct (truth P b) as [t| |]; cbn in Hv; try discriminate. destruct t; cbn in Hv.
    + destruct xr as [w| |]; cbn in Hv; try discriminate. injection Hv as ->. apply (sub_has T4); [exact S5|]. apply (sub_has T2); [exact S2|]. now apply Y2.
    + now apply YW.
Qed.

(** the jumps to the end *)
Lemma set_nth_len l p to : length (set_nth l p to) = length l.
Proof. revert p. induction l as [|i l IH]; intros [|p]; cbn; try reflexivity. now rewrite IH. Qed.
Lemma set_nth_get l p to i : nth_error (set_nth l p to) i = if Nat.eqb i p then option_map (fun x => set_target x to) (nth_error l i) else nth_error l i.
Proof.
  revert p i. induction l as [|x l IH]; intros p i; cbn; [destruct (Nat.eqb i p); now destruct i|]. destruct p as [|p], i as [|i]; cbn; try reflexivity. apply IH.
Qed.
Lemma fold_jmp stops : forall s, 
  let s' := fold_left (fun s p => set_jmp s p (op_pos s)) stops s in
  map_ s' = map_ s /\ length (code s') = length (code s) /\
  forall i, nth_error (code s') i = if mem i stops then option_map (fun x => set_target x (length (code s))) (nth_error (code s) i) else nth_error (code s) i.
Proof.
  induction stops as [|p stops IH]; intros s; cbn [fold_left]; [split; [reflexivity|]; split; reflexivity|].
  destruct (IH (set_jmp s p (op_pos s))) as (M & L & G). cbn [set_jmp code map_] in M, L, G. rewrite set_nth_len in L, G.
  split; [exact M|]. split; [exact L|]. intros i. rewrite G, set_nth_get. unfold mem. cbn [existsb]. fold (mem i stops). unfold op_pos.
  destruct (mem i stops); destruct (Nat.eqb i p); cbn [orb]; try reflexivity. destruct (nth_error (code s) i) as [y|]; cbn; [|reflexivity]. now destruct y.
Qed.

Lemma em_case s s0 rres s1 stops x ok hon s2 relse xe oke hone s3 s' r :
  pin s TNull = (s0, rres) ->
  (rget (map_ s0) rres = Some TNull -> EmW s0 s1 rres TNull stops x ok hon) ->
  Em s1 s2 relse xe oke hone ->
  case_type s2 rres relse = Ok s3 ->
  Ok (fold_left (fun s p => set_jmp s p (op_pos s)) stops (unpin (op s3 (IMov rres relse)) relse), rres) = Ok (s', r) ->
  Em s s' r (do o <- x; match o with Some v => Ok v | None => xe end) (ok /\ oke) (hon /\ hone).
Proof.
  intros PN HW HE CT H. destruct (pin_spec _ _ _ _ PN) as (E0 & N0 & G0). destruct (HW) as (fw & T1 & E1 & _ & G1 & J1 & W1); [rewrite G0; now neqs|]. clear HW.
  destruct HE as (fe & T2 & E2 & N2 & G2 & W2).
  assert (Dre : rres <> relse). { intros ->. rewrite G1, Nat.eqb_refl in N2. discriminate. }
  assert (R1 : rget (map_ s2) rres = Some T1) by (rewrite G2; neqs; rewrite G1; now neqs).
  assert (R2 : rget (map_ s2) relse = Some T2) by (rewrite G2; now neqs).
  destruct (case_type_ok _ _ _ _ _ _ CT R1 R2) as (E3 & T3 & S1 & S2 & G3). injection H as H <-.
  set (s4 := unpin (op s3 (IMov rres relse)) relse) in *. destruct (fold_jmp stops s4) as (M5 & L5 & G5). rewrite H in M5, L5, G5.
  assert (E4 : code s4 = code s ++ fw ++ fe ++ [IMov rres relse]). { unfold s4. cbn [unpin op code]. rewrite E3, E2, E1, E0, <- !app_assoc. reflexivity. }
  rewrite E0 in E1, J1, W1.
  assert (P1 : length (code s1) = (length (code s) + length fw)%nat) by (rewrite E1, app_length; reflexivity).
  assert (P2 : length (code s2) = (length (code s1) + length fe)%nat) by (rewrite E2, app_length; reflexivity).
  assert (P4 : length (code s4) = (length (code s2) + 1)%nat) by (rewrite E4, !app_length; cbn [length]; lia).
  assert (Pre : forall i, (i < length (code s))%nat -> mem i stops = false). { intros i Hi. apply mem_not. intros q Hq. destruct (J1 q Hq) as (B & _). lia. }
  assert (Suf : forall i, (length (code s1) <= i)%nat -> mem i stops = false). { intros i Hi. apply mem_not2. intros q Hq. destruct (J1 q Hq) as (B & _). lia. }
  exists (skipn (length (code s)) (code s')), T3.
  assert (E5 : code s' = code s ++ skipn (length (code s)) (code s')).
  { rewrite <- (firstn_skipn (length (code s)) (code s')) at 1. f_equal.
    assert (X : firstn (length (code s)) (code s') = firstn (length (code s)) (code s4)).
    { assert (Y : forall (l l' : list instr) n, length l = length l' -> (forall i, (i < n)%nat -> nth_error l i = nth_error l' i) -> firstn n l = firstn n l').
      { intros l. induction l as [|y l IH]; intros [|y' l'] n LE EQ; cbn in LE; try lia; [reflexivity|]. destruct n as [|n]; [reflexivity|]. cbn.
        specialize (EQ O) as EQ0. cbn in EQ0. assert (Z : Some y = Some y') by (apply EQ0; lia). injection Z as ->. f_equal. apply IH; [lia|]. intros i Hi. apply (EQ (S i)). lia. }
      apply Y; [exact L5|]. intros i Hi. rewrite G5, Pre by exact Hi. reflexivity. }
    rewrite X, E4, firstn_app, firstn_all, Nat.sub_diag. cbn. now rewrite app_nil_r. }
  split; [exact E5|]. split; [exact N0|].
  split. { intros q. rewrite M5. unfold s4. cbn [unpin op map_]. rewrite rget_unpin, G3, G2, G1, G0. destruct (Nat.eqb q relse) eqn:Q; [|now destruct (Nat.eqb q rres)].
    apply Nat.eqb_eq in Q. subst q. neqs. rewrite G1, G0 in N2. revert N2. neqs. now intros ->. }
  intros (O1 & O2). destruct (W1 O1) as (RW & YW). destruct (W2 O2) as (RE & YE). split.
  - intros C regs stk A.
    assert (A' : forall i, (length (code s) <= i < length (code s4))%nat -> nth_error C i = nth_error (code s') i).
    { intros i Hi. specialize (A (i - length (code s))%nat). replace (length (code s) + (i - length (code s)))%nat with i in A by lia.
      rewrite A by (rewrite skipn_length; lia). rewrite E5 at 2. rewrite nth_error_app2 by lia. reflexivity. }
    assert (AW : AtP C (length (code s)) fw stops (length (code s4))).
    { intros i Hi. rewrite A' by lia. rewrite G5. destruct (mem (length (code s) + i) stops) eqn:M.
      - unfold mem in M. apply existsb_exists in M. destruct M as (q & Q & E). apply Nat.eqb_eq in E. subst q. destruct (J1 _ Q) as (_ & B).
        rewrite E4, nth_error_app2 by lia. rewrite nth_error_app1 by lia. rewrite B. reflexivity.
      - rewrite E4, nth_error_app2 by lia. rewrite nth_error_app1 by lia. f_equal. lia. }
    assert (AE : At C (length (code s1)) fe).
    { intros i Hi. rewrite A' by lia. rewrite G5, Suf by lia. rewrite E4. rewrite nth_error_app2 by lia. rewrite nth_error_app2 by lia. rewrite nth_error_app1 by lia. f_equal. lia. }
    assert (AM : nth_error C (length (code s2)) = Some (IMov rres relse)).
    { rewrite A' by lia. rewrite G5, Suf by lia. rewrite E4. rewrite nth_error_app2 by lia. rewrite nth_error_app2 by lia. rewrite nth_error_app2 by lia. replace (length (code s2) - length (code s) - length fw - length fe)%nat with O by lia. reflexivity. }
    eapply goes_bind; [apply RW; exact AW|]. intros o p' ro ko _ (-> & Ko & M). destruct o as [v|].
    + destruct M as (-> & Rv). cbn [Goes]. exists (length (code s4)), ro, stk. split; [apply g_stay|]. split; [now rewrite L5|]. split; [exact Rv|]. split; [reflexivity|].
      intros q Hq. assert (q <> rres) by (intros ->; congruence). apply Ko; [assumption|]. rewrite G0. now neqs.
    + subst p'. assert (X : xe = (do v <- xe; Ok v)) by now destruct xe. rewrite X. clear X.
      eapply goes_bind; [apply RE; exact AE|]. intros v p' rv kv _ (-> & Rv & -> & Kv).
      apply goes_instr with (g := fun w => V (length (code s4)) (rset (rset rv rres w) relse VNull) stk).
      { unfold CompModel.step. cbn [pc rs st V]. rewrite AM, Rv. cbn [bind]. unfold next, V. cbn [pc rs st]. rewrite P4, Nat.add_1_r. reflexivity. }
      intros w Hw. injection Hw as <-. cbn [pc rs st V]. split; [now rewrite L5|]. split; [unfold rset; now neqs|]. split; [reflexivity|].
      intros q Hq. assert (q <> rres) by (intros ->; congruence). assert (HQ : rget (map_ s1) q <> None) by (rewrite G1, G0; now neqs).
      assert (q <> relse) by (intros ->; congruence). unfold rset. neqs. rewrite Kv by exact HQ. apply Ko; [assumption|]. rewrite G0. now neqs.
  - intros (H1 & H2) v Hv. destruct x as [[w|]| |]; cbn in Hv; try discriminate.
    + injection Hv as ->. apply (sub_has T1); [exact S1|]. now apply YW.
    + apply (sub_has T2); [exact S2|]. now apply YE.
Qed.
End Comp.
