(** Every expression the compiler accepts. *)
From Verif Require Import Base CompModel CompSpec CompProofs.

Section Main.
Context (P : prims) (env : nat -> value) (itype ftype : nat -> ty).
Context (TY : typed itype ftype P env) (IB : in_bool P).
Notation goes := (goes P env).
Notation step := (step P env).
Notation eval := (eval P env).
Notation eval_args := (eval_args P env).
Notation eval_whens := (eval_whens P env).
Notation Em := (Em P env).
Notation EmA := (EmA P env).
Notation EmW := (EmW P env).
Notation emit := (emit itype ftype).
Notation emit_args := (emit_args itype ftype).
Notation emit_whens := (emit_whens itype ftype).

Definition Pe (e : expr) : Prop := forall s s' r, emit e s = Ok (s', r) -> Em s s' r (eval e) (fine e = true) (honest e = true).
Definition Pa (l : args) : Prop := forall s s', emit_args l s = Ok s' -> EmA s s' l (fine_args l = true).
Definition Pw (w : whens) : Prop := forall f xv okx honx rres s s' stops T, rget (map_ s) rres = Some T ->
  match f, xv with
  | Some f, Some x => forall s s' r, f s = Ok (s', r) -> Em s s' r x okx honx
  | None, None => True
  | _, _ => False
  end ->
  emit_whens f w rres s = Ok (s', stops) ->
  EmW s s' rres T stops (eval_whens xv w)
    (match f with Some _ => (okx /\ honx) /\ fine_whens true w = true | None => fine_whens false w = true end) (honest_whens w = true).

Lemma andb_t a b : a && b = true -> a = true /\ b = true.
Proof. apply andb_true_iff. Qed.
Ltac ands := repeat match goal with H : _ && _ = true |- _ => apply andb_t in H; destruct H end.
Ltac run H := repeat match type of H with
  | bind ?x _ = Ok _ => let E := fresh "E" in destruct x as [[? ?]| |] eqn:E; cbn [bind] in H; try discriminate H
  end.

Scheme expr_mut := Induction for expr Sort Prop with args_mut := Induction for args Sort Prop with whens_mut := Induction for whens Sort Prop.
Combined Scheme expr_all from expr_mut, args_mut, whens_mut.


Definition emit_arg (e : expr) (s : comp) : res comp :=
  match e with
  | EConst v => Ok (op s (IPushC v))
  | _ => do (s, a) <- emit e s; Ok (unpin (op s (IPush a)) a)
  end.
Lemma emit_args_S e l s : emit_args (ACons e l) s = (do s <- emit_arg e s; emit_args l s).
Proof. reflexivity. Qed.
Lemma ema_weak s s' l (ok ok' : Prop) : (ok' -> ok) -> EmA s s' l ok -> EmA s s' l ok'.
Proof. intros O (f & E & G & W). exists f. split; [exact E|]. split; [exact G|]. auto. Qed.
Lemma emw_weak s s' r T st x (ok ok' hon hon' : Prop) : (ok' -> ok) -> (ok' -> hon' -> hon) -> EmW s s' r T st x ok hon -> EmW s s' r T st x ok' hon'.
Proof.
  intros O H (f & T' & E & S & G & J & W). exists f, T'. split; [exact E|]. split; [exact S|]. split; [exact G|]. split; [exact J|].
  intros K. destruct (W (O K)) as (W1 & W2). split; [exact W1|]. auto.
Qed.

Lemma emit_in pos e l s : emit (EIn pos e l) s =
  (do (s, a) <- emit e s; do s <- emit_args l s;
   let '(s, b) := unary_op s TBool (fun x y => IIn x y (alen l)) a in if pos then Ok (s, b) else Ok (unary_op s TBool INot b)).
Proof. reflexivity. Qed.
Lemma emit_call f l s : emit (ECall f l) s = (do s <- emit_args l s; Ok (op_pin s (ftype f) (fun a => ICall a f (alen l)))).
Proof. reflexivity. Qed.
Lemma emit_array l s : emit (EArray l) s = (do s <- emit_args l s; Ok (op_pin s TJson (fun a => IArray a (alen l)))).
Proof. reflexivity. Qed.
Lemma emit_obj l s : emit (EObj l) s = (do s <- emit_args l s; Ok (op_pin s TJson (fun a => IObj a (alen l)))).
Proof. reflexivity. Qed.
Lemma emit_case0 w els s : emit (ECase0 w els) s =
  (let '(s, rres) := pin s TNull in
   do (s, stops) <- emit_whens None w rres s; do (s, relse) <- emit els s; do s <- case_type s rres relse;
   Ok (fold_left (fun s p => set_jmp s p (op_pos s)) stops (unpin (op s (IMov rres relse)) relse), rres)).
Proof. reflexivity. Qed.
Lemma emit_case x w els s : emit (ECase x w els) s =
  (let '(s, rres) := pin s TNull in
   do (s, stops) <- emit_whens (Some (emit x)) w rres s; do (s, relse) <- emit els s; do s <- case_type s rres relse;
   Ok (fold_left (fun s p => set_jmp s p (op_pos s)) stops (unpin (op s (IMov rres relse)) relse), rres)).
Proof. reflexivity. Qed.
Lemma emit_whens_S x c r w rres s : emit_whens x (WCons c r w) rres s =
  (do (s1, rcond) <- (match x with
                      | Some f => do (s, a) <- f s; do (s, b) <- emit c s; cast_operator s OpEqu a b
                      | None => emit c s
                      end);
   do (s3, rthen) <- emit r (op s1 (IJntr 0 rcond));
   do s4 <- case_type s3 rres rthen;
   do (s7, stops) <- emit_whens x w rres (unpin (set_jmp (op (unpin (op s4 (IMov rres rthen)) rthen) (IJmp 0)) (op_pos s1) (op_pos (op (unpin (op s4 (IMov rres rthen)) rthen) (IJmp 0)))) rcond);
   Ok (s7, op_pos (unpin (op s4 (IMov rres rthen)) rthen) :: stops)).
Proof. reflexivity. Qed.

Lemma eval_in pos e l : eval (EIn pos e l) = (do a <- eval e; do vs <- eval_args l; do c <- p_in P a vs; maybe_not P pos c).
Proof. reflexivity. Qed.
Lemma eval_call f l : eval (ECall f l) = (do vs <- eval_args l; p_call P f vs).
Proof. reflexivity. Qed.
Lemma eval_array l : eval (EArray l) = (do vs <- eval_args l; do j <- p_array P vs; Ok (VJson j)).
Proof. reflexivity. Qed.
Lemma eval_obj l : eval (EObj l) = (do vs <- eval_args l; do j <- p_obj P vs; Ok (VJson j)).
Proof. reflexivity. Qed.
Lemma eval_case0 w els : eval (ECase0 w els) = (do r <- eval_whens None w; match r with Some v => Ok v | None => eval els end).
Proof. reflexivity. Qed.
Lemma eval_case x w els : eval (ECase x w els) = (do r <- eval_whens (Some (eval x)) w; match r with Some v => Ok v | None => eval els end).
Proof. reflexivity. Qed.
Lemma fine_in pos e l : fine (EIn pos e l) = fine e && fine_args l.
Proof. reflexivity. Qed.
Lemma fine_call f l : fine (ECall f l) = fine_args l.
Proof. reflexivity. Qed.
Lemma fine_array l : fine (EArray l) = fine_args l.
Proof. reflexivity. Qed.
Lemma fine_obj l : fine (EObj l) = fine_args l.
Proof. reflexivity. Qed.
Lemma fine_case0 w els : fine (ECase0 w els) = fine_whens false w && fine els.
Proof. reflexivity. Qed.
Lemma fine_case x w els : fine (ECase x w els) = fine x && honest x && fine_whens true w && fine els.
Proof. reflexivity. Qed.
Lemma honest_case0 w els : honest (ECase0 w els) = honest_whens w && honest els.
Proof. reflexivity. Qed.
Lemma honest_case x w els : honest (ECase x w els) = honest_whens w && honest els.
Proof. reflexivity. Qed.
Lemma fine_whens_S o c r w : fine_whens o (WCons c r w) = fine c && (negb o || honest c) && fine r && fine_whens o w.
Proof. reflexivity. Qed.
Lemma honest_whens_S c r w : honest_whens (WCons c r w) = honest r && honest_whens w.
Proof. reflexivity. Qed.
Lemma eval_whens_S x c r w : eval_whens x (WCons c r w) =
  (do b <- (match x with Some xv => do a <- xv; do b <- eval c; sem2 P OpEqu a b | None => eval c end);
   do t <- truth P b; if t then do v <- eval r; Ok (Some v) else eval_whens x w).
Proof. reflexivity. Qed.
Lemma emit_all : (forall e, Pe e) /\ (forall l, Pa l) /\ (forall w, Pw w).
Proof.
  apply expr_all; unfold Pe, Pa, Pw.
  - intros v s s' r H. cbn [CompModel.emit] in H. injection H as H. apply em_weak with (ok := True) (hon := True); auto.
    apply em_const with (1 := H); [now right|]. intros C p r0 k I. unfold CompModel.step. cbn [pc rs st V]. now rewrite I.
  - intros i s s' r H. cbn [CompModel.emit] in H. injection H as H. apply em_weak with (ok := True) (hon := True); auto.
    apply em_const with (1 := H); [apply TY|]. intros C p r0 k I. unfold CompModel.step. cbn [pc rs st V]. now rewrite I.
  - intros o l IHl r IHr s s' a H. cbn [CompModel.emit] in H. run H. pose proof (em_bin P env _ _ _ _ _ _ _ _ _ _ _ _ _ _ (IHl _ _ _ E) (IHr _ _ _ E0) H) as X.
    refine (em_weak P env _ _ _ _ _ _ _ _ _ _ X); cbn [fine honest]; [intros F; ands; tauto|]. intros _ Hh ->. discriminate.
  - intros l IHl r IHr s s' a H. cbn [CompModel.emit] in H. run H. injection H as H.
    pose proof (em_bin P env _ _ _ _ _ _ _ _ _ _ _ _ _ _ (IHl _ _ _ E) (IHr _ _ _ E0) E1) as X.
    pose proof (em_not P env _ _ _ _ _ _ _ _ X H) as Y. cbn [CompSpec.eval].
    apply em_weak with (ok' := fine (ENequ l r) = true) (hon' := honest (ENequ l r) = true) in Y; cbn [fine honest]; [|intros F; ands; tauto|tauto].
    refine (em_eq P env _ _ _ _ _ _ _ _ Y). destruct (eval l); cbn [bind]; try reflexivity. destruct (eval r); reflexivity.
  - intros pos l IHl r IHr s s' a H. cbn [CompModel.emit] in H. run H.
    pose proof (em_bin P env _ _ _ _ _ _ _ _ _ _ _ _ _ _ (IHl _ _ _ E) (IHr _ _ _ E0) E1) as X.
    pose proof (em_maybe P env _ _ _ _ _ _ _ _ _ X H) as Y. cbn [CompSpec.eval].
    apply em_weak with (ok' := fine (ELike pos l r) = true) (hon' := honest (ELike pos l r) = true) in Y; cbn [fine honest]; [|intros F; ands; tauto|].
    + refine (em_eq P env _ _ _ _ _ _ _ _ Y). destruct (eval l); cbn [bind]; try reflexivity. destruct (eval r); reflexivity.
    + intros _ Hh. destruct pos; [discriminate|exact I].
  - intros l IHl r IHr s s' a H. cbn [CompModel.emit] in H. run H. injection H as H. cbn [CompSpec.eval].
    eapply em_weak; [| |apply (em_andor P env _ _ _ _ _ _ _ _ _ _ _ IAnd _ _ (sem_and P) (IHl _ _ _ E) (IHr _ _ _ E0) H)].
    + cbn [fine]. intros F; ands; tauto.
    + tauto.
    + intros C p r0 k x y z I. unfold CompModel.step. cbn [pc rs st V]. rewrite I. unfold null2, sem_and. rewrite !is_truth.
      destruct (r0 y); cbn [is_null orb bind]; try reflexivity; destruct (r0 z); cbn [is_null orb bind]; reflexivity.
    + apply and_bool.
  - intros l IHl r IHr s s' a H. cbn [CompModel.emit] in H. run H. injection H as H. cbn [CompSpec.eval].
    eapply em_weak; [| |apply (em_andor P env _ _ _ _ _ _ _ _ _ _ _ IOr _ _ (sem_or P) (IHl _ _ _ E) (IHr _ _ _ E0) H)].
    + cbn [fine]. intros F; ands; tauto.
    + tauto.
    + intros C p r0 k x y z I. unfold CompModel.step. cbn [pc rs st V]. rewrite I. unfold sem_or. rewrite !is_truth.
      destruct (r0 y); cbn [is_null andb bind]; try reflexivity; destruct (r0 z); cbn [is_null orb bind]; reflexivity.
    + apply or_bool.
  - intros e IH s s' a H. cbn [CompModel.emit] in H. run H. injection H as H. cbn [CompSpec.eval].
    eapply em_weak; [| |apply (em_not P env _ _ _ _ _ _ _ _ (IH _ _ _ E) H)]; cbn [fine]; auto.
  - intros e IH s s' a H. cbn [CompModel.emit] in H. run H. cbn [CompSpec.eval fine]. unfold rtype in H.
    assert (X : forall t i, unary_op c t i n = (s', a) -> rget (map_ c) n = Some t ->
      (forall C p r0 k, nth_error C p = Some (i a n) -> has_type t (r0 n) -> step C (V p r0 k) = (do v <- sem_neg P (r0 n); Ok (V (S p) (rset r0 a v) k))) ->
      (forall b v, has_type t b -> sem_neg P b = Ok v -> has_type t v) ->
      Em s s' a (do a <- eval e; sem_neg P a) (fine e && honest e = true) (honest (ENeg e) = true)).
    { intros t i U R ST HT.
      pose proof (IH _ _ _ E) as IH1. pose proof IH1 as (f0 & T0 & _ & _ & G0 & _). rewrite G0, Nat.eqb_refl in R. injection R as ->.
      set (g := fun v => if ty_eqb (vty v) TNull || ty_eqb (vty v) t then sem_neg P v else Err).
      assert (GT : forall v, has_type t v -> g v = sem_neg P v). { intros v [->|<-]; [reflexivity|]. unfold g. destruct v; reflexivity. }
      assert (Y : Em s s' a (do a <- eval e; g a) (fine e = true /\ (True -> honest e = true)) True).
      { apply (em_one P env _ _ _ _ _ _ _ _ _ _ g True IH1 U).
        - intros C p r0 k T R I0 HTy. rewrite G0, Nat.eqb_refl in R. injection R as <-. exists false. rewrite (ST C p r0 k I0 (HTy I)). now rewrite GT by auto.
        - intros b v. unfold g. destruct (ty_eqb (vty b) TNull || ty_eqb (vty b) t) eqn:Q; [|discriminate]. apply HT.
          apply orb_prop in Q. destruct Q as [Q|Q]; apply ty_eqb_eq in Q; [left; now apply vty_null|now right]. }
      destruct IH1 as (f1 & T1 & E1 & N1 & G1 & W1).
      assert (T1 = t). { specialize (G1 n). specialize (G0 n). rewrite Nat.eqb_refl in G0, G1. congruence. } subst T1.
      destruct Y as (fy & Ty & Ey & Ny & Gy & Wy). exists fy, Ty. split; [exact Ey|]. split; [exact Ny|]. split; [exact Gy|].
      intros F. apply andb_t in F. destruct F as (F1 & F2). destruct (W1 F1) as (_ & HT1). specialize (HT1 F2). destruct (Wy (conj F1 (fun _ => F2))) as (Wr & Wt).
      assert (EQ : (do a <- eval e; g a) = (do a <- eval e; sem_neg P a)). { destruct (eval e) as [v| |]; cbn [bind]; try reflexivity. apply GT. now apply HT1. }
      rewrite EQ in Wr, Wt. split; [exact Wr|]. intros _. apply Wt. exact I. }
    destruct (rget (map_ c) n) as [[]|] eqn:R; try discriminate H; injection H as H; apply (X _ _ H eq_refl).
    + intros C p r0 k I0 [HV|HV]; unfold CompModel.step; cbn [pc rs st V]; rewrite I0; [rewrite HV; reflexivity|]. destruct (r0 n); try discriminate HV. cbn. now destruct (p_int_neg P z).
    + intros b v [->|HV] Hs; [injection Hs as <-; now left|]. destruct b; try discriminate HV. cbn in Hs. destruct (p_int_neg P z); try discriminate Hs. injection Hs as <-. now right.
    + intros C p r0 k I0 [HV|HV]; unfold CompModel.step; cbn [pc rs st V]; rewrite I0; [rewrite HV; reflexivity|]. destruct (r0 n); try discriminate HV. reflexivity.
    + intros b v [->|HV] Hs; [injection Hs as <-; now left|]. destruct b; try discriminate HV. cbn in Hs. injection Hs as <-. now right.
    + intros C p r0 k I0 [HV|HV]; unfold CompModel.step; cbn [pc rs st V]; rewrite I0; [rewrite HV; reflexivity|]. destruct (r0 n); try discriminate HV. cbn. now destruct (p_iv_neg P i).
    + intros b v [->|HV] Hs; [injection Hs as <-; now left|]. destruct b; try discriminate HV. cbn in Hs. destruct (p_iv_neg P i); try discriminate Hs. injection Hs as <-. now right.
  - intros e IH s s' a H. cbn [CompModel.emit] in H. run H. cbn [CompSpec.eval fine]. unfold rtype in H.
    destruct (rget (map_ c) n) as [[]|] eqn:R; try discriminate H; injection H as H. pose proof (IH _ _ _ E) as IH1.
    eapply em_weak; [| |apply (em_one P env _ _ _ _ _ _ _ _ _ _ (sem_inv P) True IH1 H)].
    + intros F; ands; tauto.
    + tauto.
    + intros C p r0 k T R1 I0 HV. rewrite R in R1. injection R1 as <-. exists false. unfold CompModel.step. cbn [pc rs st V]. rewrite I0.
      destruct (HV I) as [HV1|HV1]; [rewrite HV1; reflexivity|]. destruct (r0 n); try discriminate HV1. reflexivity.
    + intros b v Hs. destruct b; try discriminate Hs; injection Hs as <-; [now left|now right].
  - intros pos e IH s s' a H. cbn [CompModel.emit] in H. run H. destruct (unary_op c TBool IIs n) as (s1, b) eqn:U. cbn [CompSpec.eval fine].
    assert (X : Em s s1 b (do a <- eval e; Ok (vbool (is_null a))) (fine e = true) True).
    { eapply em_weak; [| |apply (em_one P env _ _ _ _ _ _ _ _ _ _ (fun a => Ok (vbool (is_null a))) False (IH _ _ _ E) U)]; [tauto|tauto| |].
      - intros C p r0 k T _ I0 _. exists true. unfold CompModel.step. cbn [pc rs st V]. now rewrite I0.
      - intros x v Hs. injection Hs as <-. now right. }
    pose proof (em_maybe P env _ _ _ _ _ _ _ _ _ X H) as Y. eapply em_weak with (ok' := fine e = true) (hon' := True) in Y; [|auto|destruct pos; auto].
    eapply em_weak with (hon := True); [intros F; exact F|auto|].
    refine (em_eq P env _ _ _ _ _ _ _ _ Y). destruct (eval e) as [v| |]; cbn [bind]; try reflexivity. destruct pos; [reflexivity|]. cbn. now destruct (is_null v).
  - intros pos e IH l IHl s s' a H. rewrite emit_in in H. destruct (emit e s) as [(s0, b)| |] eqn:E; cbn [bind] in H; try discriminate H.
    destruct (emit_args l s0) as [s1| |] eqn:E1; cbn [bind] in H; try discriminate H. destruct (unary_op s1 TBool _ b) as (s2, d) eqn:U. rewrite eval_in, fine_in.
    pose proof (em_in P env _ _ _ _ _ _ _ _ _ _ _ IB (IH _ _ _ E) (IHl _ _ E1) U) as X.
    pose proof (em_maybe P env _ _ _ _ _ _ _ _ _ X H) as Y.
    apply em_weak with (ok' := fine e && fine_args l = true) (hon' := honest (EIn pos e l) = true) in Y; [|intros F; ands; tauto|destruct pos; auto].
    refine (em_eq P env _ _ _ _ _ _ _ _ Y). destruct (eval e); cbn [bind]; try reflexivity. destruct (eval_args l); reflexivity.
  - intros pos e IH x IHx y IHy s s' a H. cbn [CompModel.emit] in H. run H. destruct (binary_op _ TBool IAnd _ _) as (s2, d) eqn:U. cbn [CompSpec.eval fine].
    pose proof (em_bin P env _ _ _ _ _ _ _ _ _ _ _ _ _ _ (IH _ _ _ E) (IHx _ _ _ E0) E1) as X1.
    pose proof (em_bin P env _ _ _ _ _ _ _ _ _ _ _ _ _ _ (IH _ _ _ E2) (IHy _ _ _ E3) E4) as X2.
    assert (X : Em s s2 d (do c1 <- (do a <- eval e; do b <- eval x; sem2 P OpGte a b); do c2 <- (do a <- eval e; do b <- eval y; sem2 P OpLte a b); sem_and P c1 c2)
      (((fine e = true /\ honest e = true) /\ (fine x = true /\ honest x = true)) /\ ((fine e = true /\ honest e = true) /\ (fine y = true /\ honest y = true))) True).
    { apply (em_andor P env _ _ _ _ _ _ _ _ _ _ _ IAnd _ _ (sem_and P) X1 X2 U); [|apply and_bool].
      intros C p r0 k q1 q2 q3 I0. unfold CompModel.step. cbn [pc rs st V]. rewrite I0. unfold null2, sem_and. rewrite !is_truth.
      destruct (r0 q2); cbn [is_null orb bind]; try reflexivity; destruct (r0 q3); cbn [is_null orb bind]; reflexivity. }
    pose proof (em_maybe P env _ _ _ _ _ _ _ _ _ X H) as Y.
    match type of Y with CompProofs.Em _ _ _ _ _ ?z _ _ => apply em_weak with (ok' := fine (EBetween pos e x y) = true) (hon' := honest (EBetween pos e x y) = true) in Y end;
      [|cbn [fine]; intros F; ands; tauto|destruct pos; auto].
    refine (em_eq P env _ _ _ _ _ _ _ _ Y). destruct (eval e) as [v| |]; cbn [bind]; try reflexivity. destruct (eval x) as [v1| |]; cbn [bind]; try reflexivity.
    destruct (sem2 P OpGte v v1); cbn [bind]; try reflexivity. destruct (eval y) as [v2| |]; cbn [bind]; try reflexivity. destruct (sem2 P OpLte v v2); reflexivity.
  - intros f l IHl s s' a H. rewrite emit_call in H. destruct (emit_args l s) as [s1| |] eqn:E1; cbn [bind] in H; try discriminate H. injection H as H. rewrite eval_call, fine_call.
    eapply em_weak; [| |apply (em_call P env _ _ _ _ _ _ _ _ (fun vs => p_call P f vs) (IHl _ _ E1) H)]; auto.
    + intros C p r0 k vs I0 L. unfold CompModel.step. cbn [pc rs st V]. rewrite I0, <- L, pop_rev. cbn [bind]. destruct (p_call P f vs); reflexivity.
    + intros vs v. apply TY.
  - intros l IHl s s' a H. rewrite emit_array in H. destruct (emit_args l s) as [s1| |] eqn:E1; cbn [bind] in H; try discriminate H. injection H as H. rewrite eval_array, fine_array.
    eapply em_weak; [| |apply (em_call P env _ _ _ _ _ _ _ _ (fun vs => do j <- p_array P vs; Ok (VJson j)) (IHl _ _ E1) H)]; auto.
    + intros C p r0 k vs I0 L. unfold CompModel.step. cbn [pc rs st V]. rewrite I0, <- L, pop_rev. cbn [bind]. destruct (p_array P vs); reflexivity.
    + intros vs v Hv. destruct (p_array P vs); try discriminate Hv. injection Hv as <-. now right.
  - intros l IHl s s' a H. rewrite emit_obj in H. destruct (emit_args l s) as [s1| |] eqn:E1; cbn [bind] in H; try discriminate H. injection H as H. rewrite eval_obj, fine_obj.
    eapply em_weak; [| |apply (em_call P env _ _ _ _ _ _ _ _ (fun vs => do j <- p_obj P vs; Ok (VJson j)) (IHl _ _ E1) H)]; auto.
    + intros C p r0 k vs I0 L. unfold CompModel.step. cbn [pc rs st V]. rewrite I0, <- L, pop_rev. cbn [bind]. destruct (p_obj P vs); reflexivity.
    + intros vs v Hv. destruct (p_obj P vs); try discriminate Hv. injection Hv as <-. now right.
  - intros w IHw els IHe s s' a H. rewrite emit_case0 in H. destruct (pin s TNull) as (s0, rres) eqn:PN.
    destruct (emit_whens None w rres s0) as [(s1, stops)| |] eqn:EW; cbn [bind] in H; try discriminate H.
    destruct (emit els s1) as [(s2, relse)| |] eqn:EE; cbn [bind] in H; try discriminate H.
    destruct (case_type s2 rres relse) as [s3| |] eqn:CT; cbn [bind] in H; try discriminate H. rewrite eval_case0, fine_case0, honest_case0.
    eapply em_weak; [| |apply (em_case P env _ _ _ _ _ (eval_whens None w) (fine_whens false w = true) (honest_whens w = true) _ _ _ _ _ _ _ _ PN
        (fun R => IHw None None True True rres s0 s1 stops TNull R I EW) (IHe _ _ _ EE) CT H)]; intros; ands; tauto.
  - intros x IHx w IHw els IHe s s' a H. rewrite emit_case in H. destruct (pin s TNull) as (s0, rres) eqn:PN.
    destruct (emit_whens (Some (emit x)) w rres s0) as [(s1, stops)| |] eqn:EW; cbn [bind] in H; try discriminate H.
    destruct (emit els s1) as [(s2, relse)| |] eqn:EE; cbn [bind] in H; try discriminate H.
    destruct (case_type s2 rres relse) as [s3| |] eqn:CT; cbn [bind] in H; try discriminate H. rewrite eval_case, fine_case, honest_case.
    eapply em_weak; [| |apply (em_case P env _ _ _ _ _ (eval_whens (Some (eval x)) w) ((fine x = true /\ honest x = true) /\ fine_whens true w = true) (honest_whens w = true) _ _ _ _ _ _ _ _ PN
        (fun R => IHw (Some (emit x)) (Some (eval x)) (fine x = true) (honest x = true) rres s0 s1 stops TNull R IHx EW) (IHe _ _ _ EE) CT H)]; intros; ands; tauto.
  - intros s s' H. injection H as <-. eapply ema_weak; [|apply ema_nil]; auto.
  - intros e IH l IHl s s' H. rewrite emit_args_S in H. cbn [fine_args].
    destruct (emit_arg e s) as [s1| |] eqn:E1; cbn [bind] in H; try discriminate H.
    eapply ema_weak; [|apply (ema_cons P env s s1 s' e l (fine e = true) (fine_args l = true)); [|now apply IHl]]; [intros F; ands; tauto|].
    assert (X : (do (s, a) <- emit e s; Ok (unpin (op s (IPush a)) a)) = Ok s1 ->
      exists frag, code s1 = code s ++ frag /\ (forall q, rget (map_ s1) q = rget (map_ s) q) /\
        (fine e = true -> forall C regs stk, At C (length (code s)) frag ->
          Goes P env C (length (code s)) regs stk (eval e) (fun v p' r' k' => p' = length (code s1) /\ k' = v :: stk /\ kept (map_ s) regs r'))).
    { intros Y. destruct (emit e s) as [(s2, b)| |] eqn:E2; cbn [bind] in Y; try discriminate Y. injection Y as <-. now apply ema_push with (1 := IH _ _ _ E2). }
    destruct e; try (exact (X E1)). injection E1 as <-. destruct (ema_pushc P env s v) as (fr & Z1 & Z2 & Z3). exists fr. split; [exact Z1|]. split; [exact Z2|]. intros _. now apply Z3.
  - intros f xv okx honx rres s s' stops T R F H. injection H as <- <-. eapply emw_weak; [| |apply emw_nil; exact R]; auto.
  - intros c IHc r IHr w IHw f xv okx honx rres s s' stops T R F H. rewrite emit_whens_S in H. rewrite eval_whens_S.
    match type of H with bind ?y _ = _ => destruct y as [(s1, rcond)| |] eqn:EC; cbn [bind] in H; try discriminate H end.
    destruct (emit r (op s1 (IJntr 0 rcond))) as [(s3, rthen)| |] eqn:ER; cbn [bind] in H; try discriminate H.
    destruct (case_type s3 rres rthen) as [s4| |] eqn:CT; cbn [bind] in H; try discriminate H.
    match type of H with bind ?y _ = _ => destruct y as [(s7, st7)| |] eqn:EW; cbn [bind] in H; try discriminate H end. injection H as <- <-.
    assert (C : Em s s1 rcond (match xv with Some xv => do a <- xv; do b <- eval c; sem2 P OpEqu a b | None => eval c end)
      (match f with Some _ => (okx /\ honx) /\ (fine c = true /\ honest c = true) | None => fine c = true end) True \/
      (f = None /\ Em s s1 rcond (match xv with Some xv => do a <- xv; do b <- eval c; sem2 P OpEqu a b | None => eval c end)
        (match f with Some _ => (okx /\ honx) /\ (fine c = true /\ honest c = true) | None => fine c = true end) (honest c = true))).
    { destruct f as [f|], xv as [xv|]; try (now elim F).
      - left. run EC. eapply em_weak; [| |apply (em_bin P env _ _ _ _ _ _ _ _ _ _ _ _ _ _ (F _ _ _ E) (IHc _ _ _ E0) EC)]; [tauto|discriminate].
      - right. split; [reflexivity|]. now apply IHc. }
    assert (WW : forall T', rget (map_ s4) rres = Some T' -> EmW _ s7 rres T' st7 _ _ _) by (intros T' R'; eapply (IHw f xv okx honx rres _ s7 st7 T'); [|exact F|exact EW];
      cbn [unpin set_jmp op map_]; rewrite !rget_unpin;
      assert (Nc : rget (map_ s) rcond = None) by (destruct C as [(? & ? & _ & N & _)|(_ & ? & ? & _ & N & _)]; exact N);
      assert (rres <> rcond) by (intros ->; congruence);
      destruct (IHr _ _ _ ER) as (? & ? & _ & Nt & _); cbn [op map_] in Nt;
      assert (G : rget (map_ s1) rres = Some T) by (destruct C as [(? & ? & _ & _ & G & _)|(_ & ? & ? & _ & _ & G & _)]; rewrite G; rewrite (proj2 (Nat.eqb_neq rres rcond)) by assumption; exact R);
      assert (rres <> rthen) by (intros ->; congruence);
      rewrite (proj2 (Nat.eqb_neq rres rcond)), (proj2 (Nat.eqb_neq rres rthen)) by assumption; exact R').
    assert (D : exists honc, Em s s1 rcond (match xv with Some xv => do a <- xv; do b <- eval c; sem2 P OpEqu a b | None => eval c end)
      (match f with Some _ => (okx /\ honx) /\ (fine c = true /\ honest c = true) | None => fine c = true end) honc).
    { destruct C as [C|(_ & C)]; eexists; exact C. }
    destruct D as (honc & D).
    eapply emw_weak; [| |apply (emw_cons P env _ _ _ _ _ _ _ _ _ _ _ _ _ _ _ _ _ _ _ R D (IHr _ _ _ ER) CT WW)].
    + rewrite !fine_whens_S. destruct f; intros Z; [destruct Z as (Z1 & Z2)|]; ands; repeat (split; [tauto|]); try tauto; auto.
    + rewrite honest_whens_S. intros _ Z. ands. tauto.
Qed.
End Main.
