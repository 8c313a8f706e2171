From Verif Require Import PartModel PartProofs ReplayModel.
From Coq Require Import List ZArith Lia Bool.
Import ListNotations.
Open Scope Z_scope.

(** the columns of a row, without its address *)
Definition content (r : row) : list Z * Z := (rkeys r, rdata r).
Definition view (p : part) (i : nat) (k : Z) : option (list Z * Z) := option_map content (ix p i k).
Definition same (p q : part) : Prop :=
  nsec p = nsec q /\ forall i k, (i <= nsec p)%nat -> view p i k = view q i k.

Lemma same_refl p : same p p.
Proof. split; auto. Qed.
Lemma same_sym p q : same p q -> same q p.
Proof. intros [H1 H2]. split; [now symmetry|]. intros i k Hi. symmetry. apply H2. lia. Qed.
Lemma same_trans p q r : same p q -> same q r -> same p r.
Proof. intros [H1 H2] [H3 H4]. split; [congruence|]. intros i k Hi. rewrite H2 by lia. apply H4. lia. Qed.

Lemma view_put p p' r r' v i k : put_all p p' r v -> (i <= nsec p)%nat -> (forall j, key_of j r' = key_of j r) ->
  view p' i k = if k =? key_of i r' then option_map content v else view p i k.
Proof.
  intros Hp Hi Hk. unfold view. rewrite Hp. destruct (Nat.leb_spec i (nsec p)); [|lia].
  unfold set_idx. rewrite Nat.eqb_refl. cbn [andb]. rewrite Hk. destruct (k =? key_of i r); reflexivity.
Qed.

Lemma insert_replace q r : exists q', part_insert q true false r = (q', SOk) /\ put_all q q' r (Some r) /\ nsec q' = nsec q.
Proof.
  unfold part_insert, replace_by. cbn [persist ix].
  match goal with |- context [insert_secondary ?x _ _ _ _] => set (p1 := x);
    destruct (insert_secondary p1 true r 1 (nsec p1)) as [p2 st2] eqn:E2 end.
  assert (Hok : st2 = SOk).
  { clear -E2. revert E2. generalize (nsec p1). clearbody p1. generalize 1%nat. intros i n. revert i p1 st2.
    induction n as [|n IH]; intros i p1 st2 E; cbn [insert_secondary] in E; [congruence|].
    unfold replace_by in E. destruct (ix p1 i (key_of i r)); cbn [negb] in E; eapply IH; exact E. }
  apply insert_secondary_spec in E2. destruct E2 as (A1&A2&A3&A4&A5&(es&A6&A6')&A7&A8&A9&A10).
  subst st2. specialize (A9 eq_refl). exists p2.
  split; [destruct (ix q 0%nat (key_of 0 r)); reflexivity|].
  unfold p1 in *. cbn [ix add_log with_ix nsec persist] in *.
  split; [|exact A1]. eapply put_all_of with (p1 := p1); [reflexivity| |].
  - intros j k Hj. apply A8. exact Hj.
  - intros j Hj k. apply (A9 j Hj).
Qed.

Lemma delete_replay q r : ix q 0%nat (key_of 0 r) <> None -> keyed (ix q) ->
  (forall s, ix q 0%nat (key_of 0 r) = Some s -> rkeys s = rkeys r) ->
  exists q', part_delete_by q r = (q', SOk) /\ put_all q q' r None /\ nsec q' = nsec q.
Proof.
  intros Hne Hk Hs. unfold part_delete_by, part_delete.
  destruct (ix q 0%nat (key_of 0 r)) as [s|] eqn:E; [|contradiction].
  specialize (Hs s eq_refl).
  assert (Hkeys : forall j, key_of j s = key_of j r) by (intros j; unfold key_of; now rewrite Hs).
  eexists. split; [reflexivity|].
  match goal with |- put_all _ (delete_secondary ?x _ _ _) _ _ /\ _ => set (p1 := x) end.
  destruct (delete_secondary_spec s (nsec q) 1 p1) as (A1&A2&A3&A4&A5&(es&A6&A6')&A8&A9).
  split; [|exact A1].
  eapply put_all_of with (p1 := p1); [reflexivity| |].
  - intros j k Hj. apply A8. exact Hj.
  - intros j Hj k. rewrite <- Hkeys. apply (A9 j Hj).
Qed.

Lemma put_keyed q q' r v : keyed (ix q) -> put_all q q' r v -> (forall s, v = Some s -> s = r) -> keyed (ix q').
Proof.
  intros Hk Hp Hv j k s Hs. rewrite Hp in Hs. destruct (j <=? nsec q)%nat; [|now apply Hk].
  destruct (set_cases (ix q) j (key_of j r) v j k) as [(_&->&E)|[_ E]]; rewrite E in Hs; [|now apply Hk].
  now rewrite (Hv s Hs).
Qed.

Lemma eff_replay p p' q : eff p p' -> consistent p -> same p q -> keyed (ix q) ->
  exists w q', wal p' = wal p ++ w /\ replay q w = (q', SOk) /\ same p' q' /\ keyed (ix q').
Proof.
  intros H Hc Hs Hkq. pose proof Hs as [Hn Hv].
  destruct H as [->|r H1 Hns Hl Hw _ _ _ _|r es Hno Hp Hns Hl Hse Hw _ _ _ _|r0 r es H0 Hr Hp Hns Hl Hse Hw _ _ _ _|r es H0 Hp Hns Hl Hse Hw _ _ _].
  - exists [], q. rewrite app_nil_r. auto.
  - exists [], q. rewrite app_nil_r. split; [exact Hw|]. split; [reflexivity|]. split; [|exact Hkq].
    split; [congruence|]. intros i k Hi. unfold view. rewrite H1. apply Hv. lia.
  - exists [(REPLACE, r)]. cbn [replay replay_cmd fst snd row_create].
    match goal with |- context [part_insert ?x true false ?s] => set (qx := x); set (rx := s) end.
    destruct (insert_replace qx rx) as (q' & E & Hp' & Hn'). rewrite E.
    exists q'. split; [exact Hw|]. split; [reflexivity|]. split.
    + split; [rewrite Hns, Hn'; exact Hn|]. intros i k Hi.
      rewrite (view_put p p' r rx (Some r)) by (try assumption; try lia; intros; reflexivity).
      rewrite (view_put qx q' rx rx (Some rx)) by (try assumption; try (unfold qx; cbn; lia); intros; reflexivity).
      destruct (k =? key_of i rx); [reflexivity|]. apply Hv. lia.
    + eapply (put_keyed qx); [exact Hkq|exact Hp'|]. congruence.
  - exists [(REPLACE, r)]. cbn [replay replay_cmd fst snd row_create].
    match goal with |- context [part_insert ?x true false ?s] => set (qx := x); set (rx := s) end.
    destruct (insert_replace qx rx) as (q' & E & Hp' & Hn'). rewrite E.
    exists q'. split; [exact Hw|]. split; [reflexivity|]. split.
    + split; [rewrite Hns, Hn'; exact Hn|]. intros i k Hi.
      rewrite (view_put p p' r rx (Some r)) by (try assumption; try lia; intros; reflexivity).
      rewrite (view_put qx q' rx rx (Some rx)) by (try assumption; try (unfold qx; cbn; lia); intros; reflexivity).
      destruct (k =? key_of i rx); [reflexivity|]. apply Hv. lia.
    + eapply (put_keyed qx); [exact Hkq|exact Hp'|]. congruence.
  - exists [(DELETE, r)]. cbn [replay replay_cmd fst snd].
    pose proof (Hv 0%nat (key_of 0 r) ltac:(lia)) as V. unfold view in V. rewrite H0 in V. cbn [option_map] in V.
    destruct (ix q 0%nat (key_of 0 r)) as [s|] eqn:Es; [|discriminate]. cbn [option_map] in V.
    assert (Hks : rkeys s = rkeys r) by (unfold content in V; congruence).
    destruct (delete_replay q r) as (q' & E & Hp' & Hn').
    { rewrite Es. discriminate. } { exact Hkq. } { intros s' Hs'. rewrite Es in Hs'. injection Hs' as <-. exact Hks. }
    rewrite E. exists q'. split; [exact Hw|]. split; [reflexivity|]. split.
    + split; [rewrite Hns, Hn'; exact Hn|]. intros i k Hi.
      rewrite (view_put p p' r r None) by (try assumption; try lia; intros; reflexivity).
      rewrite (view_put q q' r r None) by (try assumption; try lia; intros; reflexivity).
      destruct (k =? key_of i r); [reflexivity|]. apply Hv. lia.
    + eapply (put_keyed q); [exact Hkq|exact Hp'|]. discriminate.
Qed.

Lemma replay_app : forall a b q q1, replay q a = (q1, SOk) -> replay q (a ++ b) = replay q1 b.
Proof.
  induction a as [|c a IH]; intros b q q1 E; cbn [replay app] in *; [congruence|].
  destruct (replay_cmd q c) as [q2 st2]. destruct st2; try discriminate. now apply IH.
Qed.

Lemma run_replay : forall ops p p' q, consistent p -> run p ops = (p', SOk) -> same p q -> keyed (ix q) ->
  exists w q', wal p' = wal p ++ w /\ replay q w = (q', SOk) /\ same p' q' /\ keyed (ix q').
Proof.
  induction ops as [|o ops IH]; intros p p' q Hc E Hs Hk; cbn [run] in E.
  - injection E as <-. exists [], q. rewrite app_nil_r. auto.
  - destruct (step p o) as [p1 st1] eqn:Es. destruct st1; try discriminate.
    pose proof (step_eff _ _ _ Hc Es) as He.
    destruct (eff_replay p p1 q He Hc Hs Hk) as (w1 & q1 & W1 & R1 & S1 & K1).
    destruct (IH p1 p' q1 (eff_consistent _ _ Hc He) E S1 K1) as (w2 & q2 & W2 & R2 & S2 & K2).
    exists (w1 ++ w2), q2. split; [rewrite W2, W1, app_assoc; reflexivity|].
    split; [rewrite (replay_app w1 w2 q q1 R1); exact R2|auto].
Qed.

Lemma settle_ix p : ix (settle p) = ix p /\ nsec (settle p) = nsec p.
Proof.
  unfold settle, tr_commit, log_reset. cbn [ix nsec].
  destruct (fold_commit (log p) p) as (_&A&_&B&_). auto.
Qed.
Lemma settle_same p : same (settle p) p.
Proof. destruct (settle_ix p) as [A B]. split; [exact B|]. intros. unfold view. now rewrite A. Qed.
Lemma settle_consistent p : consistent p -> consistent (settle p).
Proof. destruct (settle_ix p) as [A B]. unfold consistent. rewrite A, B. auto. Qed.
Lemma settle_keyed p : keyed (ix p) -> keyed (ix (settle p)).
Proof. destruct (settle_ix p) as [A _]. now rewrite A. Qed.

(** lsns of the records of [execute] are lsn, lsn+1, ... *)
Lemma execute_lsn : forall txs p lsn q recs, execute p lsn txs = Some (q, recs) ->
  length recs = length txs /\ forall n l w, nth_error recs n = Some (l, w) -> l = lsn + Z.of_nat n.
Proof.
  induction txs as [|t txs IH]; intros p lsn q recs E; cbn [execute] in E.
  - injection E as <- <-. split; [reflexivity|]. intros [|n]; discriminate.
  - destruct (run p t) as [p1 st]. destruct st; try discriminate.
    destruct (execute (settle p1) (lsn + 1) txs) as [[q2 recs2]|] eqn:E2; [|discriminate].
    injection E as <- <-. apply IH in E2. destruct E2 as [L N]. split; [cbn; lia|].
    intros [|n] l w H; cbn [nth_error] in H.
    + injection H as <- <-. lia.
    + apply N in H. lia.
Qed.

Lemma execute_app : forall a b p lsn q recs, execute p lsn (a ++ b) = Some (q, recs) ->
  exists p1 r1 r2, execute p lsn a = Some (p1, r1) /\ execute p1 (lsn + Z.of_nat (length a)) b = Some (q, r2)
    /\ recs = r1 ++ r2.
Proof.
  induction a as [|t a IH]; intros b p lsn q recs E; cbn [app execute length] in *.
  - exists p, [], recs. rewrite Z.add_0_r. auto.
  - destruct (run p t) as [p1 st]. destruct st; try discriminate.
    destruct (execute (settle p1) (lsn + 1) (a ++ b)) as [[q2 recs2]|] eqn:E2; [|discriminate].
    injection E as <- <-. apply IH in E2. destruct E2 as (x & r1 & r2 & A & B & ->).
    rewrite A. exists x, ((lsn, wal p1) :: r1), r2. split; [reflexivity|]. split; [|reflexivity].
    rewrite <- B. f_equal. lia.
Qed.

Lemma execute_consistent : forall txs p lsn q recs, consistent p -> execute p lsn txs = Some (q, recs) -> consistent q.
Proof.
  induction txs as [|t txs IH]; intros p lsn q recs Hc E; cbn [execute] in E; [injection E as <- <-; exact Hc|].
  destruct (run p t) as [p1 st] eqn:Er. destruct st; try discriminate.
  destruct (execute (settle p1) (lsn + 1) txs) as [[q2 recs2]|] eqn:E2; [|discriminate]. injection E as <- <-.
  eapply IH; [|exact E2]. apply settle_consistent. eapply run_consistent; eassumption.
Qed.

Lemma recover_replay_all : forall txs p lsn q recs x snap, consistent p -> wal p = [] ->
  execute p lsn txs = Some (q, recs) -> same p x -> keyed (ix x) -> snap < lsn ->
  exists y, recover x snap recs = (y, SOk) /\ same q y.
Proof.
  induction txs as [|t txs IH]; intros p lsn q recs x snap Hc Hw E Hs Hk Hl; cbn [execute] in E.
  - injection E as <- <-. exists x. auto.
  - destruct (run p t) as [p1 st] eqn:Er. destruct st; try discriminate.
    destruct (execute (settle p1) (lsn + 1) txs) as [[q2 recs2]|] eqn:E2; [|discriminate]. injection E as <- <-.
    destruct (run_replay t p p1 x Hc Er Hs Hk) as (w & x1 & W & R & S1 & K1).
    rewrite Hw in W. cbn [app] in W. subst w.
    cbn [recover recover_next fst snd]. unfold recover_next. cbn [fst snd].
    destruct (Z.leb_spec lsn snap); [lia|]. rewrite R.
    apply (IH (settle p1) (lsn + 1) q2 recs2 (settle x1) snap).
    + apply settle_consistent. eapply run_consistent; eassumption.
    + reflexivity.
    + exact E2.
    + eapply same_trans; [apply settle_same|]. eapply same_trans; [exact S1|]. apply same_sym, settle_same.
    + now apply settle_keyed.
    + lia.
Qed.

Lemma recover_skip : forall a b x snap, Forall (fun c => fst c <= snap) a ->
  recover x snap (a ++ b) = recover x snap b.
Proof.
  intros a b x snap H. induction H as [|c a Hc _ IH]; [reflexivity|].
  cbn [app recover]. unfold recover_next. destruct (Z.leb_spec (fst c) snap); [exact IH|lia].
Qed.

(** the rows of a heap image, opened, give back the content *)
Lemma part_open_spec : forall image p,
  (forall i r r', (i <= nsec p)%nat -> In r image -> In r' image -> key_of i r = key_of i r' -> r = r') ->
  let q := fold_left part_apply image p in
  nsec q = nsec p /\
  (forall i k, (nsec p < i)%nat -> ix q i k = ix p i k) /\
  (forall i r, (i <= nsec p)%nat -> In r image -> ix q i (key_of i r) = Some r) /\
  (forall i k, (i <= nsec p)%nat -> (forall r, In r image -> key_of i r <> k) -> ix q i k = ix p i k).
Proof.
  induction image as [|a image IH]; intros p Hu; cbv zeta; cbn [fold_left].
  - repeat split; auto. intros i r _ [].
  - destruct (IH (part_apply p a)) as (N & A & B & C).
    { intros i r r' Hi Hr Hr'. apply Hu; [exact Hi|now right|now right]. }
    cbn [part_apply nsec with_ix] in N, A, B, C.
    assert (L : forall i k, ix (part_apply p a) i k =
       if (i <=? nsec p)%nat then set_idx (ix p) i (key_of i a) (Some a) i k else ix p i k) by reflexivity.
    split; [exact N|]. split; [|split].
    + intros i k Hi. rewrite A by exact Hi. rewrite L. destruct (Nat.leb_spec i (nsec p)); [lia|reflexivity].
    + intros i r Hi [<-|Hr]; [|now apply B].
      destruct (in_dec (fun x y => Z.eq_dec x y) (key_of i a) (map (key_of i) image)) as [Hin|Hout].
      * apply in_map_iff in Hin. destruct Hin as (r & Er & Hr).
        assert (r = a) by (apply (Hu i); [exact Hi|now right|now left|exact Er]). subst. now apply B.
      * rewrite C; [rewrite L; destruct (Nat.leb_spec i (nsec p)); [apply set_same|lia]|exact Hi|].
        intros r Hr Er. apply Hout. apply in_map_iff. eauto.
    + intros i k Hi Hall. rewrite C; [|exact Hi|intros r Hr; apply Hall; now right].
      rewrite L. destruct (Nat.leb_spec i (nsec p)); [|reflexivity]. apply set_other.
      intros [_ ->]. apply (Hall a); [now left|reflexivity].
Qed.

Lemma part_open_same p image : consistent p -> image_of p image -> same p (part_open (nsec p) image)
  /\ keyed (ix (part_open (nsec p) image)).
Proof.
  intros [Hk Hc] [_ Him]. unfold part_open.
  assert (Hin : forall i r, (i <= nsec p)%nat -> In r image -> ix p i (key_of i r) = Some r).
  { intros i r Hi Hr. apply Him in Hr. destruct Hr as [k Hr].
    apply update_keys_secondary; [split; assumption| |exact Hi]. pose proof (Hk _ _ _ Hr). now subst k. }
  destruct (part_open_spec image (empty_part (nsec p))) as (N & A & B & C).
  { cbn [nsec empty_part]. intros i r r' Hi Hr Hr' Ek. apply (Hin i) in Hr; [|exact Hi]. apply (Hin i) in Hr'; [|exact Hi].
    rewrite Ek in Hr. congruence. }
  cbn [empty_part nsec ix] in N, A, B, C.
  assert (Hix : forall i k, (i <= nsec p)%nat -> ix (fold_left part_apply image (empty_part (nsec p))) i k = ix p i k).
  { intros i k Hi. destruct (ix p i k) as [r|] eqn:Er.
    - assert (Hr : In r image).
      { apply Him. destruct (Nat.eq_dec i 0) as [->|Hne]; [eauto|].
        destruct (Hc i ltac:(lia)) as [_ C2]. exists (key_of 0 r). eapply C2. exact Er. }
      rewrite <- (Hk _ _ _ Er). now apply B.
    - rewrite C; [reflexivity|exact Hi|]. intros r Hr <-. rewrite (Hin i r Hi Hr) in Er. discriminate. }
  split.
  - split; [symmetry; exact N|]. intros i k Hi. unfold view. now rewrite Hix.
  - intros i k r Hr. destruct (Nat.leb_spec i (nsec p)) as [Hi|Hi].
    + rewrite Hix in Hr by exact Hi. now apply Hk.
    + rewrite A in Hr by exact Hi. discriminate.
Qed.

Lemma empty_consistent n : consistent (empty_part n).
Proof. split; [intros i k r; discriminate|]. intros i Hi. split; intros k r H; discriminate H. Qed.

(** C19 *)
Lemma recovery_exact n pre mid post start snap_part end_part recs1 recs2 recs3 image :
  execute (empty_part n) 1 pre = Some (start, recs1) ->
  execute start (1 + Z.of_nat (length pre)) mid = Some (snap_part, recs2) ->
  execute snap_part (1 + Z.of_nat (length pre) + Z.of_nat (length mid)) post = Some (end_part, recs3) ->
  image_of snap_part image ->
  exists q, recover (part_open n image) (Z.of_nat (length pre) + Z.of_nat (length mid)) (recs2 ++ recs3) = (q, SOk) /\
    (exists q0, recover (empty_part n) 0 (recs1 ++ recs2 ++ recs3) = (q0, SOk) /\ same q0 q) /\
    same end_part q.
Proof.
  intros E1 E2 E3 Him.
  pose proof (execute_consistent _ _ _ _ _ (empty_consistent n) E1) as C1.
  pose proof (execute_consistent _ _ _ _ _ C1 E2) as C2.
  assert (Hns : forall txs p lsn q recs, execute p lsn txs = Some (q, recs) ->
            consistent p -> wal p = [] -> nsec q = nsec p /\ wal q = []).
  { induction txs as [|t txs IH]; intros p lsn q recs E Hc Hw; cbn [execute] in E; [injection E as <- <-; auto|].
    destruct (run p t) as [p1 st] eqn:Er. destruct st; try discriminate.
    destruct (execute (settle p1) (lsn + 1) txs) as [[q2 recs2']|] eqn:E2'; [|discriminate]. injection E as <- <-.
    apply IH in E2'; [|apply settle_consistent; eapply run_consistent; eassumption|reflexivity].
    destruct E2' as [N W]. split; [|exact W]. rewrite N. rewrite (proj2 (settle_ix p1)).
    destruct (run_replay t p p1 p Hc Er (same_refl p) (proj1 Hc)) as (w & x & _ & _ & S1 & _).
    clear -Er Hc. revert p Hc Er. induction t as [|o t IH]; intros p Hc Er; cbn [run] in Er; [congruence|].
    destruct (step p o) as [pp st] eqn:Es. destruct st; try discriminate.
    pose proof (step_eff _ _ _ Hc Es) as He. rewrite (IH pp (eff_consistent _ _ Hc He) Er).
    destruct He as [->|r H1 Hns|r es _ _ Hns|r0 r es _ _ _ Hns|r es _ _ Hns]; congruence || reflexivity. }
  destruct (Hns _ _ _ _ _ E1 (empty_consistent n) eq_refl) as [N1 W1].
  destruct (Hns _ _ _ _ _ E2 C1 W1) as [N2 W2]. cbn [empty_part nsec] in N1.
  assert (Nn : nsec snap_part = n) by congruence.
  destruct (part_open_same snap_part image C2 Him) as [S K]. rewrite Nn in S, K.
  destruct (recover_replay_all post snap_part _ end_part recs3 (part_open n image)
     (Z.of_nat (length pre) + Z.of_nat (length mid)) C2 W2 E3 S K ltac:(lia)) as (q & R & Sq).
  exists q. split.
  - rewrite recover_skip; [exact R|]. destruct (execute_lsn _ _ _ _ _ E2) as [L N].
    apply Forall_forall. intros [l w] Hin. apply In_nth_error in Hin. destruct Hin as [m Hm].
    pose proof (N _ _ _ Hm). assert (m < length recs2)%nat by (apply nth_error_Some; congruence). cbn [fst]. lia.
  - split; [|exact Sq].
    assert (Eall : execute (empty_part n) 1 (pre ++ mid ++ post) = Some (end_part, recs1 ++ recs2 ++ recs3)).
    { assert (Happ : forall a b p lsn p1 r1 q1 r2, execute p lsn a = Some (p1, r1) ->
         execute p1 (lsn + Z.of_nat (length a)) b = Some (q1, r2) -> execute p lsn (a ++ b) = Some (q1, r1 ++ r2)).
      { clear. induction a as [|t a IH]; intros b p lsn p1 r1 q1 r2 A B; cbn [execute app length] in *.
        - injection A as <- <-. rewrite Z.add_0_r in B. exact B.
        - destruct (run p t) as [pp st]. destruct st; try discriminate.
          destruct (execute (settle pp) (lsn + 1) a) as [[x rx]|] eqn:Ex; [|discriminate]. injection A as <- <-.
          rewrite (IH b (settle pp) (lsn + 1) x rx q1 r2 Ex); [reflexivity|]. rewrite <- B. f_equal. lia. }
      eapply Happ; [exact E1|]. eapply Happ; [exact E2|exact E3]. }
    destruct (recover_replay_all _ _ _ _ _ (empty_part n) 0 (empty_consistent n) eq_refl Eall (same_refl _) (proj1 (empty_consistent n)) ltac:(lia))
      as (q0 & R0 & S0).
    exists q0. split; [exact R0|]. eapply same_trans; [apply same_sym; exact S0|exact Sq].
Qed.
