(** Invariants of the bus. *)
From Verif Require Import Base BusModel BusSpec.
Open Scope nat_scope.

Lemma nth_setp l i p x j : nth_error l i = Some x -> nth_error (setp l i p) j = if Nat.eqb j i then Some p else nth_error l j.
Proof.
  revert i j. induction l as [|y l IH]; intros i j H; [now destruct i|]. destruct i as [|i]; cbn in H.
  - cbn. destruct j; reflexivity.
  - destruct j as [|j]; [reflexivity|]. exact (IH i j H).
Qed.
Lemma setp_in l i p x j q : nth_error l i = Some x -> nth_error (setp l i p) j = Some q -> (j = i /\ q = p) \/ (j <> i /\ nth_error l j = Some q).
Proof.
  intros H. rewrite (nth_setp _ _ _ _ _ H). destruct (Nat.eqb j i) eqn:E; intros K.
  - left. apply Nat.eqb_eq in E. split; [exact E|]. now injection K as <-.
  - right. apply Nat.eqb_neq in E. now split.
Qed.
Lemma setp_at l i p x : nth_error l i = Some x -> nth_error (setp l i p) i = Some p.
Proof. intros H. rewrite (nth_setp _ _ _ _ _ H). now rewrite Nat.eqb_refl. Qed.
Lemma setp_other l i p x j : nth_error l i = Some x -> j <> i -> nth_error (setp l i p) j = nth_error l j.
Proof. intros H N. rewrite (nth_setp _ _ _ _ _ H). apply Nat.eqb_neq in N. now rewrite N. Qed.
Lemma setp_len l i p : length (setp l i p) = length l.
Proof. revert i. induction l as [|x l IH]; intros [|i]; cbn; try reflexivity. now rewrite IH. Qed.

Lemma index_mod k n : index (2 ^ k) n = n mod 2 ^ k.
Proof. unfold index. replace (2 ^ k - 1) with (Nat.ones k) by (rewrite Nat.ones_equiv; lia). apply Nat.land_ones. Qed.
Lemma pow_pos k : 0 < 2 ^ k.
Proof. assert (2 ^ k <> 0) by (apply Nat.pow_nonzero; lia). lia. Qed.
Lemma index_ne k a b : a < b -> b < a + 2 ^ k -> index (2 ^ k) a <> index (2 ^ k) b.
Proof.
  intros L1 L2. rewrite !index_mod. pose proof (pow_pos k) as P. intros E.
  pose proof (Nat.div_mod a (2 ^ k)) as A. pose proof (Nat.div_mod b (2 ^ k)) as B.
  assert (A' : a = 2 ^ k * (a / 2 ^ k) + a mod 2 ^ k) by (apply A; lia). assert (B' : b = 2 ^ k * (b / 2 ^ k) + b mod 2 ^ k) by (apply B; lia).
  clear A B. rewrite <- E in B'. set (qa := a / 2 ^ k) in *. set (qb := b / 2 ^ k) in *. set (r := a mod 2 ^ k) in *. clearbody qa qb r.
  assert (qa < qb \/ qb <= qa) as [L|L] by lia.
  - assert (2 ^ k * (qa + 1) <= 2 ^ k * qb) by (apply Nat.mul_le_mono_l; lia). rewrite Nat.mul_add_distr_l in H. lia.
  - assert (2 ^ k * qb <= 2 ^ k * qa) by (apply Nat.mul_le_mono_l; lia). lia.
Qed.

Section Inv.
Context (k : nat) (self : option nat).
Notation size := (2 ^ k).
Notation index := (index size).
Notation step := (step size self).
Notation prod_step := (prod_step size).
Notation cons_step := (cons_step size self).

Definition slot (st : pst) : option (msg * nat) :=
  match st with PWait m n | PWrite m n | PTurn m n | PStore m n => Some (m, n) | _ => None end.
Definition roomy (st : pst) (rd : nat) : Prop :=
  match st with PWrite m n | PTurn m n | PStore m n => n < rd + size | _ => True end.
Definition filled (st : pst) (ring : nat -> option msg) : Prop :=
  match st with PTurn m n | PStore m n => ring (index n) = Some m | _ => True end.
Definition turn (st : pst) (wr : nat) : Prop := match st with PStore m n => wr = n | _ => True end.

(** ** the ring *)
Record R (cl rd wr : nat) (ring : nat -> option msg) (hist : list (nat * msg)) (ps : list prod) : Prop := {
  r_cl : cl = length hist;
  r_rw : rd <= wr; r_wc : wr <= cl; r_sz : wr <= rd + size;
  r_own : forall i p m n, nth_error ps i = Some p -> slot (at_ p) = Some (m, n) -> wr <= n /\ nth_error hist n = Some (i, m);
  r_held : forall n i m, wr <= n -> nth_error hist n = Some (i, m) -> exists p, nth_error ps i = Some p /\ slot (at_ p) = Some (m, n);
  r_p : forall i p, nth_error ps i = Some p -> roomy (at_ p) rd /\ filled (at_ p) ring /\ turn (at_ p) wr;
  r_ring : forall n i m, rd <= n -> n < wr -> nth_error hist n = Some (i, m) -> ring (index n) = Some m }.
(** ** the receiver *)
Definition Rc (rd wr : nat) (hist : list (nat * msg)) (c : cst) (rec sig : list msg) : Prop :=
  match c with
  | CData => rd < wr
  | CStore m => rd < wr /\ exists i, nth_error hist rd = Some (i, m)
  | CHandle m => exists r i, rd = S r /\ nth_error hist r = Some (i, m)
  | CUnref m => In m sig
  | _ => True
  end /\
  rec = map snd (firstn (match c with CHandle _ => pred rd | _ => rd end) hist).
(** ** waking up *)
Definition sleeps (c : cst) : bool := match c with CPend2 | CPoll | CRead | CRel | CAwake => true | _ => false end.
Definition waking (st : pst) : Prop := match st with PSleep | PTas | PNotify => True | _ => False end.
Definition W (rd wr : nat) (sleep signaled : bool) (efd : nat) (ps : list prod) (c : cst) : Prop :=
  sleep = sleeps c /\
  (signaled = true -> efd > 0 \/ (exists i p, nth_error ps i = Some p /\ at_ p = PNotify) \/ c = CRel) /\
  (c = CPoll -> rd <> wr -> efd > 0 \/ exists i p, nth_error ps i = Some p /\ waking (at_ p)).
(** ** messages on their way *)
Definition flight (rd : nat) (hist : list (nat * msg)) (ps : list prod) (c : cst) (m : msg) : Prop :=
  (exists i p, nth_error ps i = Some p /\ at_ p = PClaim m) \/ (exists n i, rd <= n /\ nth_error hist n = Some (i, m)) \/ c = CHandle m.
Definition F (rd : nat) (hist : list (nat * msg)) (ps : list prod) (c : cst) (refs : msg -> nat) (owed sig : list msg) : Prop :=
  (forall m, refs m > 0 -> flight rd hist ps c m \/ c = CUnref m) /\
  (forall m, In m owed -> flight rd hist ps c m \/ In m sig).
Definition Inv (s : state) : Prop :=
  R (claim s) (rd s) (wr s) (ring s) (hist s) (ps s) /\ Rc (rd s) (wr s) (hist s) (c s) (received s) (sig s) /\
  W (rd s) (wr s) (sleep s) (signaled s) (efd s) (ps s) (c s) /\ F (rd s) (hist s) (ps s) (c s) (refs s) (owed s) (sig s).

(** a step of a sender that keeps its slot *)
Lemma r_local cl rd wr ring hist ps i p p' : R cl rd wr ring hist ps -> nth_error ps i = Some p -> slot (at_ p') = slot (at_ p) ->
  roomy (at_ p') rd -> filled (at_ p') ring -> turn (at_ p') wr -> R cl rd wr ring hist (setp ps i p').
Proof.
  intros [A1 A2 A3 A4 A5 A6 A7 A8] H S R1 R2 R3. split; auto.
  - intros j q m n Hj Sl. destruct (setp_in _ _ _ _ _ _ H Hj) as [(-> & ->)|(_ & Hj')]; [rewrite S in Sl; now apply (A5 i p)|now apply (A5 j q)].
  - intros n j m Hn Hh. destruct (A6 n j m Hn Hh) as (q & Hq & Sq). destruct (Nat.eq_dec j i) as [->|N].
    + exists p'. split; [now apply setp_at with (1 := H)|]. rewrite S. congruence.
    + exists q. split; [now rewrite (setp_other _ _ _ _ _ H N)|exact Sq].
  - intros j q Hj. destruct (setp_in _ _ _ _ _ _ H Hj) as [(-> & ->)|(_ & Hj')]; [auto|now apply (A7 j q)].
Qed.
Lemma nth_app_l {A} (l : list A) n x y : nth_error l n = Some x -> nth_error (l ++ [y]) n = Some x.
Proof. intros H. rewrite nth_error_app1; [exact H|]. apply nth_error_Some. congruence. Qed.
Lemma nth_app_inv {A} (l : list A) n x y : nth_error (l ++ [y]) n = Some x -> nth_error l n = Some x \/ (n = length l /\ x = y).
Proof.
  intros H. destruct (Nat.lt_ge_cases n (length l)) as [L|L]; [rewrite nth_error_app1 in H by exact L; now left|].
  right. assert (N : n < length (l ++ [y])) by (apply nth_error_Some; congruence). rewrite app_length in N. cbn in N. assert (n = length l) as -> by lia.
  split; [reflexivity|]. rewrite nth_error_app2, Nat.sub_diag in H by lia. now injection H as <-.
Qed.
Lemma r_claim cl rd wr ring hist ps i p m t : R cl rd wr ring hist ps -> nth_error ps i = Some p -> slot (at_ p) = None ->
  R (S cl) rd wr ring (hist ++ [(i, m)]) (setp ps i {| at_ := PWait m cl; todo := t |}).
Proof.
  intros [A1 A2 A3 A4 A5 A6 A7 A8] H S. split; auto; try lia.
  - rewrite app_length. cbn. lia.
  - intros j q m' n Hj Sl. destruct (setp_in _ _ _ _ _ _ H Hj) as [(-> & ->)|(_ & Hj')].
    + cbn in Sl. injection Sl as <- <-. split; [lia|]. rewrite A1, nth_error_app2, Nat.sub_diag by lia. reflexivity.
    + destruct (A5 j q m' n Hj' Sl) as (B1 & B2). split; [exact B1|now apply nth_app_l].
  - intros n j m' Hn Hh. apply nth_app_inv in Hh. destruct Hh as [Hh|(-> & Hx)].
    + destruct (A6 n j m' Hn Hh) as (q & Hq & Sq). exists q. split; [|exact Sq]. rewrite (setp_other _ _ _ _ _ H); [exact Hq|]. intros ->. congruence.
    + injection Hx as -> ->. exists {| at_ := PWait m cl; todo := t |}. split; [now apply setp_at with (1 := H)|]. cbn. now rewrite A1.
  - intros j q Hj. destruct (setp_in _ _ _ _ _ _ H Hj) as [(-> & ->)|(_ & Hj')]; [cbn; auto|now apply (A7 j q)].
  - intros n j m' H1 H2 Hh. apply nth_app_inv in Hh. destruct Hh as [Hh|(-> & _)]; [now apply (A8 n j m')|lia].
Qed.
Lemma r_write cl rd wr ring hist ps i p m n t : R cl rd wr ring hist ps -> nth_error ps i = Some p -> at_ p = PWrite m n ->
  R cl rd wr (upd ring (index n) (Some m)) hist (setp ps i {| at_ := PTurn m n; todo := t |}).
Proof.
  intros Inv H A. pose proof Inv as [A1 A2 A3 A4 A5 A6 A7 A8].
  destruct (A7 i p H) as (Room & _ & _). rewrite A in Room. cbn in Room. destruct (A5 i p m n H) as (B1 & B2); [now rewrite A|].
  assert (Ne : forall n', rd <= n' -> n' < rd + size -> n' <> n -> Nat.eqb (index n') (index n) = false).
  { intros n' L1 L2 N. apply Nat.eqb_neq. destruct (Nat.lt_ge_cases n' n) as [L|L]; [apply index_ne; lia|]. apply not_eq_sym, index_ne; lia. }
  split; auto.
  - intros j q m' n' Hj Sl. destruct (setp_in _ _ _ _ _ _ H Hj) as [(-> & ->)|(_ & Hj')]; [apply (A5 i p); [exact H|now rewrite A]|now apply (A5 j q)].
  - intros n' j m' Hn Hh. destruct (A6 n' j m' Hn Hh) as (q & Hq & Sq). destruct (Nat.eq_dec j i) as [->|N].
    + eexists. split; [now apply setp_at with (1 := H)|]. cbn. assert (q = p) by congruence. subst q. rewrite A in Sq. exact Sq.
    + exists q. split; [now rewrite (setp_other _ _ _ _ _ H N)|exact Sq].
  - intros j q Hj. destruct (setp_in _ _ _ _ _ _ H Hj) as [(-> & ->)|(Nj & Hj')].
    + cbn. split; [exact Room|]. split; [unfold upd; now rewrite Nat.eqb_refl|exact I].
    + destruct (A7 j q Hj') as (C1 & C2 & C3). split; [exact C1|]. split; [|exact C3]. unfold filled, upd in *.
      destruct (at_ q) as [| | |m' n'|m' n'|m' n'| | |] eqn:Aq; auto; cbn in C1;
        (destruct (A5 j q m' n' Hj') as (D1 & D2); [now rewrite Aq|]); (rewrite Ne; [exact C2|lia|lia|]); intros ->; congruence.
  - intros n' j m' H1 H2 Hh. unfold upd. rewrite Ne; [now apply (A8 n' j m')|lia|lia|lia].
Qed.
Lemma r_store cl rd wr ring hist ps i p m n t : R cl rd wr ring hist ps -> nth_error ps i = Some p -> at_ p = PStore m n ->
  R cl rd (S n) ring hist (setp ps i {| at_ := PSleep; todo := t |}) /\ wr = n /\ n < length hist.
Proof.
  intros Inv H A. pose proof Inv as [A1 A2 A3 A4 A5 A6 A7 A8].
  destruct (A7 i p H) as (Room & Fill & Turn). rewrite A in Room, Fill, Turn. cbn in Room, Fill, Turn. subst n. destruct (A5 i p m wr H) as (B1 & B2); [now rewrite A|].
  assert (L : wr < length hist) by (apply nth_error_Some; congruence).
  split; [|split; [reflexivity|exact L]]. split; auto; try lia.
  - intros j q m' n' Hj Sl. destruct (setp_in _ _ _ _ _ _ H Hj) as [(-> & ->)|(Nj & Hj')]; [discriminate Sl|].
    destruct (A5 j q m' n' Hj' Sl) as (D1 & D2). split; [|exact D2]. assert (n' <> wr) by (intros ->; congruence). lia.
  - intros n' j m' Hn Hh. destruct (A6 n' j m') as (q & Hq & Sq); [lia|exact Hh|]. exists q. split; [|exact Sq].
    rewrite (setp_other _ _ _ _ _ H); [exact Hq|]. intros ->. assert (q = p) by congruence. subst q. rewrite A in Sq. cbn in Sq. injection Sq as _ <-. lia.
  - intros j q Hj. destruct (setp_in _ _ _ _ _ _ H Hj) as [(-> & ->)|(Nj & Hj')]; [cbn; auto|].
    destruct (A7 j q Hj') as (C1 & C2 & C3). split; [exact C1|]. split; [exact C2|]. unfold turn in *. destruct (at_ q) as [| | | | |m' n'| | |] eqn:Aq; auto.
    destruct (A5 j q m' n' Hj') as (D1 & D2); [now rewrite Aq|]. subst n'. congruence.
  - intros n' j m' H1 H2 Hh. destruct (Nat.eq_dec n' wr) as [->|N]; [|apply (A8 n' j m'); [lia|lia|exact Hh]].
    rewrite B2 in Hh. injection Hh as _ <-. exact Fill.
Qed.
Lemma firstn_app_le {A} n (l l' : list A) : n <= length l -> firstn n (l ++ l') = firstn n l.
Proof. intros H. rewrite firstn_app. replace (n - length l) with 0 by lia. cbn. now rewrite app_nil_r. Qed.
Lemma rc_hist rd wr hist c rec sig x : rd <= length hist -> Rc rd wr hist c rec sig -> Rc rd wr (hist ++ [x]) c rec sig.
Proof.
  intros L (A & B). split.
  - destruct c; auto.
    + destruct A as (A1 & i & A2). split; [exact A1|]. exists i. now apply nth_app_l.
    + destruct A as (r & i & A1 & A2). exists r, i. split; [exact A1|now apply nth_app_l].
  - rewrite B. f_equal. symmetry. apply firstn_app_le. destruct c; lia.
Qed.
Lemma rc_wr rd wr wr' hist c rec sig : wr <= wr' -> Rc rd wr hist c rec sig -> Rc rd wr' hist c rec sig.
Proof. intros L (A & B). split; [|exact B]. destruct c; auto; [lia|]. destruct A as (A1 & A2). split; [lia|exact A2]. Qed.

(** waking: a step of a sender *)
Lemma w_keep rd wr sl sg ef ps c i p p' sg' ef' wr' : W rd wr sl sg ef ps c -> nth_error ps i = Some p ->
  (sg' = true -> sg = true \/ at_ p' = PNotify \/ ef' > 0) -> ef <= ef' -> (at_ p = PNotify -> ef' > 0) ->
  (waking (at_ p) -> c = CPoll -> rd <> wr -> waking (at_ p') \/ ef' > 0 \/ exists j q, j <> i /\ nth_error ps j = Some q /\ waking (at_ q)) ->
  (wr' <> wr -> waking (at_ p')) -> W rd wr' sl sg' ef' (setp ps i p') c.
Proof.
  intros (W1 & W2 & W3) H S1 E1 E2 E3 E4. split; [exact W1|]. split.
  - intros T. destruct (S1 T) as [X|[X|X]]; [|right; left; exists i, p'; split; [now apply setp_at with (1 := H)|exact X]|now left].
    destruct (W2 X) as [Y|[(j & q & Y1 & Y2)|Y]]; [left; lia| |now right; right]. destruct (Nat.eq_dec j i) as [->|N].
    + left. apply E2. congruence.
    + right. left. exists j, q. split; [now rewrite (setp_other _ _ _ _ _ H N)|exact Y2].
  - intros C D. destruct (Nat.eq_dec wr' wr) as [->|N]; [|right; exists i, p'; split; [now apply setp_at with (1 := H)|auto]].
    destruct (W3 C D) as [Y|(j & q & Y1 & Y2)]; [left; lia|]. destruct (Nat.eq_dec j i) as [->|Nj].
    + assert (q = p) by congruence. subst q. destruct (E3 Y2 C D) as [Z|[Z|(j & q & Z1 & Z2 & Z3)]].
      * right. exists i, p'. split; [now apply setp_at with (1 := H)|exact Z].
      * now left.
      * right. exists j, q. split; [now rewrite (setp_other _ _ _ _ _ H Z1)|exact Z3].
    + right. exists j, q. split; [now rewrite (setp_other _ _ _ _ _ H Nj)|exact Y2].
Qed.
(** messages on their way: a step of a sender *)
Lemma fl_keep rd hist hist' ps c i p p' m : flight rd hist ps c m -> nth_error ps i = Some p ->
  (forall n x, nth_error hist n = Some x -> nth_error hist' n = Some x) ->
  (at_ p = PClaim m -> at_ p' = PClaim m \/ exists n j, rd <= n /\ nth_error hist' n = Some (j, m)) -> flight rd hist' (setp ps i p') c m.
Proof.
  intros [(j & q & X1 & X2)|[(n & j & X1 & X2)|X]] H Hh Hp.
  - destruct (Nat.eq_dec j i) as [->|N].
    + assert (q = p) by congruence. subst q. destruct (Hp X2) as [Y|Y]; [left; exists i, p'; split; [now apply setp_at with (1 := H)|exact Y]|right; now left].
    + left. exists j, q. split; [now rewrite (setp_other _ _ _ _ _ H N)|exact X2].
  - right. left. exists n, j. auto.
  - right. now right.
Qed.
Lemma f_keep rd hist hist' ps c rf ow sg i p p' : F rd hist ps c rf ow sg -> nth_error ps i = Some p ->
  (forall n x, nth_error hist n = Some x -> nth_error hist' n = Some x) ->
  (forall m, at_ p = PClaim m -> at_ p' = PClaim m \/ exists n j, rd <= n /\ nth_error hist' n = Some (j, m)) -> F rd hist' (setp ps i p') c rf ow sg.
Proof.
  intros (F1 & F2) H Hh Hp. split; intros m Hm.
  - destruct (F1 m Hm) as [X|X]; [left; now apply fl_keep with (1 := X) (p := p); auto|now right].
  - destruct (F2 m Hm) as [X|X]; [left; now apply fl_keep with (1 := X) (p := p); auto|now right].
Qed.

Lemma inv_prod s i p s' : Inv s -> nth_error (ps s) i = Some p -> prod_step s i p = Some s' -> Inv s'.
Proof.
  intros (HR & HC & HW & HF) H S. unfold BusModel.prod_step in S. pose proof HR as [A1 A2 A3 A4 A5 A6 A7 A8].
  assert (LH : rd s <= length (hist s)) by lia. destruct (A7 i p H) as (P1 & P2 & P3).
  destruct (at_ p) as [|m|m n|m n|m n|m n| | |] eqn:A.
  - destruct (todo p) as [|m t]; [discriminate|]. injection S as <-. unfold Inv. cbn -[Nat.pow].
    set (p' := {| at_ := if refs s m =? 0 then PClaim m else PIdle; todo := t |}).
    assert (NN : slot (at_ p') = None /\ roomy (at_ p') (rd s) /\ filled (at_ p') (ring s) /\ turn (at_ p') (wr s)) by (cbn; destruct (refs s m =? 0); cbn; auto).
    destruct NN as (N1 & N2 & N3 & N4).
    split; [apply r_local with (1 := HR) (2 := H); auto; now rewrite A|]. split; [exact HC|].
    split. { apply w_keep with (1 := HW) (2 := H); auto; try rewrite A; cbn; try discriminate; tauto. }
    destruct HF as (F1 & F2).
    assert (K : forall x, flight (rd s) (hist s) (ps s) (c s) x -> flight (rd s) (hist s) (setp (ps s) i p') (c s) x).
    { intros x X. apply fl_keep with (1 := X) (2 := H); auto. rewrite A. discriminate. }
    assert (New : flight (rd s) (hist s) (setp (ps s) i p') (c s) m \/ c s = CUnref m).
    { destruct (refs s m =? 0) eqn:E.
      - left. left. exists i, p'. split; [now apply setp_at with (1 := H)|reflexivity].
      - apply Nat.eqb_neq in E. destruct (F1 m) as [X|X]; [lia|left; now apply K|now right]. }
    split.
    + intros x Hx. unfold upd in Hx. destruct (x =? m) eqn:E; [apply Nat.eqb_eq in E; subst x; exact New|]. destruct (F1 x Hx) as [X|X]; [left; now apply K|now right].
    + intros x [<-|Hx].
      * destruct New as [X|X]; [now left|]. right. destruct HC as (HC & _). rewrite X in HC. exact HC.
      * destruct (F2 x Hx) as [X|X]; [left; now apply K|now right].
  - injection S as <-. unfold Inv. cbn -[Nat.pow].
    split; [apply r_claim with (1 := HR) (2 := H); now rewrite A|]. split; [now apply rc_hist|].
    split. { apply w_keep with (1 := HW) (2 := H); auto; try rewrite A; cbn; try discriminate; tauto. }
    apply f_keep with (1 := HF) (2 := H); [intros n x Hx; now apply nth_app_l|]. intros x Hx. rewrite A in Hx. injection Hx as <-. right.
    exists (length (hist s)), i. split; [lia|]. rewrite nth_error_app2, Nat.sub_diag by lia. reflexivity.
  - destruct (Nat.ltb n (rd s + size)) eqn:L; [|discriminate]. apply Nat.ltb_lt in L. injection S as <-. unfold Inv. cbn -[Nat.pow].
    split; [apply r_local with (1 := HR) (2 := H); cbn; auto; now rewrite A|]. split; [exact HC|].
    split. { apply w_keep with (1 := HW) (2 := H); auto; try rewrite A; cbn; try discriminate; tauto. }
    apply f_keep with (1 := HF) (2 := H); auto. rewrite A. discriminate.
  - injection S as <-. unfold Inv. cbn -[Nat.pow].
    split; [apply r_write with (1 := HR) (2 := H); exact A|]. split; [exact HC|].
    split. { apply w_keep with (1 := HW) (2 := H); auto; try rewrite A; cbn; try discriminate; tauto. }
    apply f_keep with (1 := HF) (2 := H); auto. rewrite A. discriminate.
  - destruct (Nat.eqb (wr s) n) eqn:L; [|discriminate]. apply Nat.eqb_eq in L. injection S as <-. unfold Inv. cbn -[Nat.pow].
    split; [apply r_local with (1 := HR) (2 := H); cbn; auto; now rewrite A|]. split; [exact HC|].
    split. { apply w_keep with (1 := HW) (2 := H); auto; try rewrite A; cbn; try discriminate; tauto. }
    apply f_keep with (1 := HF) (2 := H); auto. rewrite A. discriminate.
  - injection S as <-. unfold Inv. cbn -[Nat.pow]. destruct (r_store _ _ _ _ _ _ _ _ _ _ (todo p) HR H A) as (X & Y & Z).
    split; [exact X|]. split; [apply rc_wr with (2 := HC); lia|].
    split. { apply w_keep with (1 := HW) (2 := H); auto; try rewrite A; cbn; try discriminate; tauto. }
    apply f_keep with (1 := HF) (2 := H); auto. rewrite A. discriminate.
  - injection S as <-. unfold Inv. cbn -[Nat.pow].
    split; [apply r_local with (1 := HR) (2 := H); cbn; auto; destruct (sleep s); cbn; auto; now rewrite A|]. split; [exact HC|].
    split. { apply w_keep with (1 := HW) (2 := H); auto; try rewrite A; cbn; try discriminate; try tauto.
      intros _ C _. left. destruct HW as (HW & _). rewrite HW, C. exact I. }
    apply f_keep with (1 := HF) (2 := H); auto. rewrite A. discriminate.
  - injection S as <-. unfold Inv. cbn -[Nat.pow].
    split; [apply r_local with (1 := HR) (2 := H); cbn; auto; destruct (signaled s); cbn; auto; now rewrite A|]. split; [exact HC|].
    split. { apply w_keep with (1 := HW) (2 := H); auto; try rewrite A; cbn; try discriminate; try tauto.
      - intros _. destruct (signaled s); auto.
      - intros _ C _. destruct (signaled s) eqn:Sg; [|left; exact I]. right. destruct HW as (_ & W2 & _).
        destruct (W2 eq_refl) as [X|[(j & q & X1 & X2)|X]]; [now left| |congruence]. right. exists j, q. split; [intros ->; congruence|]. split; [exact X1|]. now rewrite X2. }
    apply f_keep with (1 := HF) (2 := H); auto. rewrite A. discriminate.
  - injection S as <-. unfold Inv. cbn -[Nat.pow].
    split; [apply r_local with (1 := HR) (2 := H); cbn; auto; now rewrite A|]. split; [exact HC|].
    split. { apply w_keep with (1 := HW) (2 := H); auto; try rewrite A; cbn; try discriminate; try tauto; lia. }
    apply f_keep with (1 := HF) (2 := H); auto. rewrite A. discriminate.
Qed.

Lemma w_cons rd wr sl sg ef ps c rd' sl' sg' ef' c' : W rd wr sl sg ef ps c -> sl' = sleeps c' ->
  (sg' = true -> sg = true /\ c <> CRel /\ (ef' = ef \/ c' = CRel)) -> (c' = CPoll -> rd' = wr) -> W rd' wr sl' sg' ef' ps c'.
Proof.
  intros (W1 & W2 & W3) S1 S2 S3. split; [exact S1|]. split; [|intros X Y; now destruct (Y (S3 X))].
  intros T. destruct (S2 T) as (T1 & T2 & T3). destruct T3 as [->|T3]; [|auto]. destruct (W2 T1) as [X|[X|X]]; auto. congruence.
Qed.
Lemma f_cons rd rd' hist ps c c' rf ow sg : F rd hist ps c rf ow sg ->
  (forall n i m, rd <= n -> nth_error hist n = Some (i, m) -> rd' <= n \/ c' = CHandle m) -> (forall m, c <> CHandle m) -> (forall m, c <> CUnref m) ->
  F rd' hist ps c' rf ow sg.
Proof.
  intros (F1 & F2) H1 H2 H3.
  assert (K : forall m, flight rd hist ps c m -> flight rd' hist ps c' m).
  { intros m [X|[(n & i & X1 & X2)|X]]; [now left| |now destruct (H2 m)]. destruct (H1 n i m X1 X2) as [Y|Y]; [right; left; exists n, i; auto|now right; right]. }
  split; intros m Hm.
  - destruct (F1 m Hm) as [X|X]; [left; auto|now destruct (H3 m)].
  - destruct (F2 m Hm) as [X|X]; auto.
Qed.
Lemma hist_at s n : Inv s -> n < claim s -> exists i m, nth_error (hist s) n = Some (i, m).
Proof.
  intros ([A1 _ _ _ _ _ _ _] & _) L. destruct (nth_error (hist s) n) as [[i m]|] eqn:E; [eauto|]. apply nth_error_None in E. lia.
Qed.
Lemma firstn_snoc {A} (l : list A) n x : nth_error l n = Some x -> firstn (S n) l = firstn n l ++ [x].
Proof. revert n. induction l as [|y l IH]; intros [|n] H; cbn in *; try discriminate; [now injection H as ->|]. now rewrite <- IH. Qed.
Lemma inv_cons s s' : Inv s -> cons_step s = Some s' -> Inv s'.
Proof.
  intros INV S. pose proof INV as (HR & HC & HW & HF). unfold BusModel.cons_step in S. pose proof HR as [A1 A2 A3 A4 A5 A6 A7 A8]. destruct HC as (C1 & C2).
  pose proof HW as (W1 & _ & _).
  destruct (c s) as [| |m|m|m| | | | | | | |] eqn:C.
  - injection S as <-. unfold Inv, with_c. cbn -[Nat.pow]. destruct (rd s =? wr s) eqn:E.
    + split; [exact HR|]. split; [split; [exact I|exact C2]|]. split; [|apply f_cons with (1 := HF); [auto|congruence|congruence]].
      apply w_cons with (1 := HW); [rewrite W1; reflexivity|intros; repeat split; auto; congruence|congruence].
    + apply Nat.eqb_neq in E. split; [exact HR|]. split; [split; [cbn; lia|exact C2]|]. split; [|apply f_cons with (1 := HF); [auto|congruence|congruence]].
      apply w_cons with (1 := HW); [rewrite W1; reflexivity|intros; repeat split; auto; congruence|congruence].
  - destruct (hist_at s (rd s) INV) as (i & m & Hm); [lia|]. rewrite (A8 (rd s) i m) in S; [|lia|exact C1|exact Hm]. injection S as <-. unfold Inv, with_c. cbn -[Nat.pow].
    split; [exact HR|]. split; [split; [split; [exact C1|now exists i]|exact C2]|]. split; [|apply f_cons with (1 := HF); [auto|congruence|congruence]].
    apply w_cons with (1 := HW); [rewrite W1; reflexivity|intros; repeat split; auto; congruence|congruence].
  - injection S as <-. unfold Inv. cbn -[Nat.pow]. destruct C1 as (L & i & Hm).
    split. { split; auto; try lia.
      - intros j q Hj. destruct (A7 j q Hj) as (X & Y & Z). split; [|auto]. unfold roomy in *. destruct (at_ q); auto; lia.
      - intros n j m' Hn. apply A8. lia. }
    split. { split; [exists (rd s), i; auto|exact C2]. }
    split. { apply w_cons with (1 := HW); [rewrite W1; reflexivity|intros; repeat split; auto; congruence|congruence]. }
    apply f_cons with (1 := HF); [|congruence|congruence]. intros n j m' Hn Hh. destruct (Nat.eq_dec n (rd s)) as [->|N]; [right|left; lia]. congruence.
  - injection S as <-. unfold Inv. cbn -[Nat.pow]. destruct C1 as (r & i & Hr & Hm).
    split; [exact HR|]. split. { split; [now left|]. rewrite C2, Hr. cbn [pred]. rewrite (firstn_snoc _ _ _ Hm), map_app. reflexivity. }
    split. { apply w_cons with (1 := HW); [rewrite W1; reflexivity|intros; repeat split; auto; congruence|congruence]. }
    destruct HF as (F1 & F2).
    assert (K : forall x, flight (rd s) (hist s) (ps s) (CHandle m) x -> flight (rd s) (hist s) (ps s) (CUnref m) x \/ x = m).
    { intros x [X|[X|X]]; [left; now left|left; right; now left|right; now injection X as ->]. }
    split; intros x Hx.
    + destruct (F1 x Hx) as [X|X]; [|discriminate]. destruct (K x X) as [Y| ->]; [now left|now right].
    + destruct (F2 x Hx) as [X|X]; [|right; now right]. destruct (K x X) as [Y| ->]; [now left|right; now left].
  - injection S as <-. unfold Inv. cbn -[Nat.pow].
    split; [exact HR|]. split; [split; [exact I|exact C2]|].
    split. { apply w_cons with (1 := HW); [rewrite W1; reflexivity|intros; repeat split; auto; congruence|congruence]. }
    destruct HF as (F1 & F2).
    assert (K : forall x, flight (rd s) (hist s) (ps s) (CUnref m) x -> flight (rd s) (hist s) (ps s) CLoad x).
    { intros x [X|[X|X]]; [now left|right; now left|discriminate]. }
    split; intros x Hx.
    + unfold upd in Hx. destruct (x =? m) eqn:E; [lia|]. apply Nat.eqb_neq in E. destruct (F1 x Hx) as [X|X]; [left; now apply K|]. congruence.
    + destruct (F2 x Hx) as [X|X]; auto.
  - destruct (self_done self s); [|discriminate]. injection S as <-. unfold Inv. cbn -[Nat.pow].
    split; [exact HR|]. split; [split; [exact I|exact C2]|].
    split. { apply w_cons with (1 := HW); [rewrite W1; reflexivity|intros; repeat split; auto; congruence|congruence]. }
    assert (HF' : F (rd s) (hist s) (ps s) CPend1 (refs s) (owed s) (sig s)) by (apply f_cons with (1 := HF); [auto|congruence|congruence]).
    destruct HF' as (F1 & F2). split; [exact F1|]. intros x Hx. apply filter_In in Hx. destruct Hx as (Hx & Hn). destruct (F2 x Hx) as [X|X]; [now left|].
    exfalso. apply negb_true_iff in Hn. enough (memb x (sig s) = true) by congruence. unfold memb. apply existsb_exists. exists x. split; [exact X|apply Nat.eqb_refl].
  - injection S as <-. unfold Inv, with_c. cbn -[Nat.pow].
    split; [exact HR|]. split; [split; [destruct (rd s =? wr s); exact I|destruct (rd s =? wr s); exact C2]|].
    split. { apply w_cons with (1 := HW); [rewrite W1; destruct (rd s =? wr s); reflexivity|intros; repeat split; auto; congruence|destruct (rd s =? wr s); congruence]. }
    apply f_cons with (1 := HF); [auto|congruence|congruence].
  - injection S as <-. unfold Inv, with_c, set_sleep. cbn -[Nat.pow].
    split; [exact HR|]. split; [split; [exact I|exact C2]|].
    split. { apply w_cons with (1 := HW); [reflexivity|intros; repeat split; auto; congruence|congruence]. }
    apply f_cons with (1 := HF); [auto|congruence|congruence].
  - injection S as <-. unfold Inv, with_c. cbn -[Nat.pow].
    split; [exact HR|]. split; [split; [destruct (rd s =? wr s); exact I|destruct (rd s =? wr s); exact C2]|].
    split. { apply w_cons with (1 := HW); [rewrite W1; destruct (rd s =? wr s); reflexivity|intros; repeat split; auto; congruence|].
      destruct (rd s =? wr s) eqn:E; [apply Nat.eqb_eq in E; auto|congruence]. }
    apply f_cons with (1 := HF); [auto|congruence|congruence].
  - destruct (efd s =? 0); [discriminate|]. injection S as <-. unfold Inv, with_c. cbn -[Nat.pow].
    split; [exact HR|]. split; [split; [exact I|exact C2]|].
    split. { apply w_cons with (1 := HW); [rewrite W1; reflexivity|intros; repeat split; auto; congruence|congruence]. }
    apply f_cons with (1 := HF); [auto|congruence|congruence].
  - injection S as <-. unfold Inv. cbn -[Nat.pow].
    split; [exact HR|]. split; [split; [exact I|exact C2]|].
    split. { apply w_cons with (1 := HW); [rewrite W1; reflexivity|intros; repeat split; auto; congruence|congruence]. }
    apply f_cons with (1 := HF); [auto|congruence|congruence].
  - injection S as <-. unfold Inv. cbn -[Nat.pow].
    split; [exact HR|]. split; [split; [exact I|exact C2]|].
    split. { apply w_cons with (1 := HW); [rewrite W1; reflexivity|discriminate|congruence]. }
    apply f_cons with (1 := HF); [auto|congruence|congruence].
  - injection S as <-. unfold Inv, with_c, set_sleep. cbn -[Nat.pow].
    split; [exact HR|]. split; [split; [exact I|exact C2]|].
    split. { apply w_cons with (1 := HW); [reflexivity|intros; repeat split; auto; congruence|congruence]. }
    apply f_cons with (1 := HF); [auto|congruence|congruence].
Qed.
Lemma inv_step s s' : Inv s -> step s s' -> Inv s'.
Proof.
  intros H S. inversion S as [s0 i p s1 Hp _ Hs|s0 s1 Hs|s0 b C B]; subst; [now apply (inv_prod s i p)|now apply (inv_cons s)|].
  destruct H as (HR & (C1 & C2) & HW & HF). unfold Inv. cbn -[Nat.pow]. rewrite C in C1, C2, HW, HF. destruct HW as (W1 & HW).
  split; [exact HR|]. split; [split; [exact I|exact C2]|].
  split. { apply w_cons with (1 := conj W1 HW); [rewrite W1; reflexivity|intros; repeat split; auto; congruence|congruence]. }
  apply f_cons with (1 := HF); [auto|congruence|congruence].
Qed.
Lemma nth_map_idle todos i p : nth_error (map (fun t => {| at_ := PIdle; todo := t |}) todos) i = Some p -> at_ p = PIdle /\ nth_error todos i = Some (todo p).
Proof. rewrite nth_error_map. destruct (nth_error todos i); [|discriminate]. cbn. intros [= <-]. auto. Qed.
Lemma inv_init todos b : Inv (init todos b).
Proof.
  unfold Inv, init. cbn -[Nat.pow]. split; [|split; [|split]].
  - split; auto; try lia.
    + intros i p m n H S. apply nth_map_idle in H. destruct H as (H & _). rewrite H in S. discriminate.
    + intros n i m _ H. destruct n; discriminate.
    + intros i p H. apply nth_map_idle in H. destruct H as (-> & _). cbn. auto.
  - split; [exact I|reflexivity].
  - split; [reflexivity|]. split; [discriminate|discriminate].
  - split; [intros m L; lia|intros m []].
Qed.
Lemma inv_run n s s' : run size self n s s' -> Inv s -> Inv s'.
Proof. induction 1; auto. intros. now apply inv_step with (2 := H0), IHrun. Qed.

(** ** nothing is left when nothing can happen *)
Definition Sg (s : state) : Prop := match c s with CPend1 | CSleep | CPend2 | CPoll => sig s = [] /\ self_done self s = true | _ => True end.
Lemma setp_sd s s' i p q : ps s' = setp (ps s) i q -> nth_error (ps s) i = Some p -> may_send self s i = true -> c s <> CSched -> self_done self s' = self_done self s.
Proof.
  intros E H M N. unfold self_done, may_send in *. destruct self as [z|]; [|reflexivity]. rewrite E. destruct (i =? z) eqn:Z; [destruct (c s); congruence|].
  apply Nat.eqb_neq in Z. rewrite (setp_other _ _ _ _ _ H); [reflexivity|auto].
Qed.
Lemma sg_step s s' : Sg s -> step s s' -> Sg s'.
Proof.
  intros H S. unfold Sg in *. inversion S as [s0 i p s1 Hp M Hs|s0 s1 Hs|s0 b C B]; subst.
  - assert (c s' = c s /\ sig s' = sig s /\ exists q, ps s' = setp (ps s) i q) as (-> & -> & q & Q).
    { unfold BusModel.prod_step in Hs.
      destruct (at_ p); [destruct (todo p); [discriminate|]| |destruct (Nat.ltb _ _); [|discriminate]| |destruct (Nat.eqb _ _); [|discriminate]| | | |]; injection Hs as <-; split; try reflexivity; split; try reflexivity; eexists; reflexivity. }
    destruct (c s) eqn:C; try exact I; rewrite (setp_sd s s' i p q Q Hp M) by congruence; exact H.
  - unfold BusModel.cons_step in Hs.
    assert (K : (exists s0 k0, s' = with_c s0 k0 /\ sig s0 = sig s /\ self_done self s0 = self_done self s /\ (match k0 with CPend1 | CSleep | CPend2 | CPoll => match c s with CPend1 | CSleep | CPend2 => True | _ => False end | _ => True end))
                \/ (c s = CSched /\ self_done self s = true /\ self_done self s' = true /\ sig s' = []) \/ match c s' with CPend1 | CSleep | CPend2 | CPoll => False | _ => True end).
    { destruct (c s) eqn:C; try (injection Hs as <-; right; right; cbn; exact I).
      - injection Hs as <-. left. exists s. destruct (rd s =? wr s); eexists; repeat split.
      - right. right. destruct (ring s (index (rd s))); injection Hs as <-; cbn; exact I.
      - right. left. destruct (self_done self s) eqn:D; [|discriminate]. injection Hs as <-. repeat split. exact D.
      - injection Hs as <-. left. exists s. destruct (rd s =? wr s); eexists; repeat split.
      - injection Hs as <-. left. eexists (set_sleep s true), _. repeat split.
      - injection Hs as <-. left. exists s. destruct (rd s =? wr s); eexists; repeat split.
      - destruct (efd s =? 0); [discriminate|]. injection Hs as <-. right. right. exact I. }
    destruct K as [(s0 & k0 & -> & Z1 & Z2 & Z3)|[(C & D & D' & E)|K]].
    + cbn. change (self_done self (with_c s0 k0)) with (self_done self s0). rewrite Z1, Z2. destruct k0; try exact I; destruct (c s); try contradiction; exact H.
    + rewrite E, D'. destruct (c s'); auto.
    + destruct (c s'); auto; contradiction.
  - exact I.
Qed.
Lemma sg_run n s s' : run size self n s s' -> Sg s -> Sg s'.
Proof. induction 1; auto. intros. now apply sg_step with (2 := H0), IHrun. Qed.

Lemma stuck_done s : Inv s -> Sg s -> stuck size self s -> self = None \/ claim s <= rd s + size ->
  (forall i p, nth_error (ps s) i = Some p -> at_ p = PIdle /\ todo p = []) /\ rd s = claim s /\ c s = CPoll /\ owed s = [] /\ received s = map snd (hist s).
Proof.
  intros INV SG ST OK. pose proof INV as (HR & HC & HW & HF). pose proof HR as [A1 A2 A3 A4 A5 A6 A7 A8].
  assert (NC : cons_step s = None) by (destruct (cons_step s) eqn:E; [destruct (ST _ (st_cons _ _ _ _ E))|reflexivity]).
  assert (CC : (c s = CPoll /\ efd s = 0) \/ (c s = CSched /\ self_done self s = false)).
  { unfold BusModel.cons_step in NC. destruct (c s) eqn:C; try discriminate; [destruct (ring s _); discriminate|destruct (self_done self s); [discriminate|auto]|].
    destruct (efd s =? 0) eqn:E; [apply Nat.eqb_eq in E; auto|discriminate]. }
  assert (SP : forall i p, nth_error (ps s) i = Some p -> may_send self s i = true -> prod_step s i p = None).
  { intros i p H M. destruct (prod_step s i p) eqn:E; [|reflexivity]. destruct (ST _ (st_prod _ _ _ _ _ _ H M E)). }
  assert (MS : c s = CSched \/ self = None \/ True -> forall i, c s = CSched -> may_send self s i = true).
  { intros _ i C. unfold may_send. rewrite C. destruct self as [z|]; [destruct (i =? z)|]; reflexivity. }
  destruct CC as [(C & E0)|(C & SD)].
  2:{ exfalso. assert (ALL : forall i, may_send self s i = true) by (intros; apply MS; auto).
      assert (WC : wr s = claim s).
      { destruct (Nat.eq_dec (wr s) (claim s)) as [E|N]; [exact E|exfalso]. destruct (hist_at s (wr s) INV) as (i & m & Hm); [lia|].
        destruct (A6 (wr s) i m) as (p & Hp & Sl); [lia|exact Hm|]. specialize (SP i p Hp (ALL i)). unfold BusModel.prod_step in SP.
        destruct (at_ p) as [|?|m' n|m' n|m' n|m' n| | |]; try discriminate; injection Sl as -> ->.
        - destruct (Nat.ltb (wr s) (rd s + size)) eqn:L; [discriminate|]. apply Nat.ltb_ge in L. unfold self_done in SD. destruct self; [|discriminate]. destruct OK; [discriminate|lia].
        - rewrite Nat.eqb_refl in SP. discriminate. }
      unfold self_done in SD. destruct self as [z|]; [|discriminate]. destruct (nth_error (ps s) z) as [p|] eqn:Hp; [|discriminate].
      specialize (SP z p Hp (ALL z)). unfold BusModel.prod_step in SP. destruct (at_ p) as [|?|m n|m n|m n|m n| | |] eqn:Ap; try discriminate.
      - destruct (todo p); discriminate.
      - destruct (A5 z p m n Hp) as (X1 & X2); [now rewrite Ap|]. assert (n < length (hist s)) by (apply nth_error_Some; congruence). lia.
      - destruct (A5 z p m n Hp) as (X1 & X2); [now rewrite Ap|]. assert (n < length (hist s)) by (apply nth_error_Some; congruence). lia. }
  assert (MS2 : forall i, may_send self s i = true \/ (exists p, nth_error (ps s) i = Some p /\ at_ p = PIdle /\ todo p = []) \/ nth_error (ps s) i = None).
  { intros i. unfold Sg in SG. rewrite C in SG. destruct SG as (_ & SD). unfold self_done in SD. unfold may_send. destruct self as [z|]; [|now left].
    destruct (i =? z) eqn:Z; [|now left]. apply Nat.eqb_eq in Z. subst z. right. destruct (nth_error (ps s) i) as [p|]; [left|now right]. exists p. split; [reflexivity|].
    destruct (at_ p); try discriminate. destruct (todo p); [auto|discriminate]. }
  assert (PS : forall i p, nth_error (ps s) i = Some p -> (at_ p = PIdle /\ todo p = []) \/ (exists m n, at_ p = PWait m n /\ rd s + size <= n) \/ exists m n, at_ p = PTurn m n /\ wr s <> n).
  { intros i p Hp. destruct (MS2 i) as [M|[(q & Hq & X)|X]]; [|left; congruence|congruence]. specialize (SP i p Hp M). unfold BusModel.prod_step in SP.
    destruct (at_ p) as [|?|m n|m n|m n|m n| | |]; try discriminate.
    - left. destruct (todo p); [auto|discriminate].
    - right. left. exists m, n. destruct (Nat.ltb n (rd s + size)) eqn:L; [discriminate|]. now apply Nat.ltb_ge in L.
    - right. right. exists m, n. destruct (Nat.eqb (wr s) n) eqn:L; [discriminate|]. now apply Nat.eqb_neq in L. }
  assert (RW : rd s = wr s).
  { destruct (Nat.eq_dec (rd s) (wr s)) as [E|N]; [exact E|exfalso]. destruct HW as (_ & _ & W3). destruct (W3 C N) as [X|(i & p & Hp & X)]; [lia|].
    destruct (PS i p Hp) as [(Y & _)|[(m & n & Y & _)|(m & n & Y & _)]]; rewrite Y in X; exact X. }
  pose proof (pow_pos k) as PP.
  assert (WC : wr s = claim s).
  { destruct (Nat.eq_dec (wr s) (claim s)) as [E|N]; [exact E|exfalso]. destruct (hist_at s (wr s) INV) as (i & m & Hm); [lia|].
    destruct (A6 (wr s) i m) as (p & Hp & Sl); [lia|exact Hm|]. destruct (PS i p Hp) as [(Y & _)|[(m' & n & Y & Z)|(m' & n & Y & Z)]]; rewrite Y in Sl; [discriminate| |]; injection Sl as -> ->; lia. }
  assert (IDLE : forall i p, nth_error (ps s) i = Some p -> at_ p = PIdle /\ todo p = []).
  { intros i p Hp. destruct (PS i p Hp) as [Y|[(m & n & Y & Z)|(m & n & Y & Z)]]; [exact Y| |]; exfalso;
      (destruct (A5 i p m n Hp) as (X1 & X2); [now rewrite Y|]); assert (n < length (hist s)) by (apply nth_error_Some; congruence); lia. }
  split; [exact IDLE|]. split; [lia|]. split; [exact C|]. split.
  - destruct HF as (_ & F2). destruct (owed s) as [|m l] eqn:O; [reflexivity|exfalso]. destruct (F2 m) as [[(i & p & Hp & X)|[(n & i & X1 & X2)|X]]|X]; [now left| | | |].
    + destruct (IDLE i p Hp) as (Y & _). congruence.
    + assert (n < length (hist s)) by (apply nth_error_Some; congruence). lia.
    + congruence.
    + unfold Sg in SG. rewrite C in SG. destruct SG as (SG & _). rewrite SG in X. exact X.
  - destruct HC as (_ & HC). rewrite C in HC. rewrite HC. f_equal. apply firstn_all2. lia.
Qed.
End Inv.
