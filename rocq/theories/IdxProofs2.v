From Verif Require Import PartModel PartProofs ReplayModel ReplayProofs IdxModel IdxSpec IdxProofs.
From Coq Require Import List ZArith Lia Bool.
Import ListNotations.
Open Scope Z_scope.

Lemma hstep_facts p r p1 : consistent p -> wal p = [] -> hstep p r p1 ->
  consistent p1 /\ wal p1 = [] /\
  match r with RRows w => nsec p1 = nsec p /\ (w = [] -> rows_eq p p1)
             | RIndex => nsec p1 = S (nsec p) /\ rows_eq p p1 end.
Proof.
  intros Hc Hw H. destruct H as [p ops p1 E|p image p1 Him E].
  - pose proof (run_consistent _ _ _ Hc E) as Hc1.
    destruct (run_grows _ _ _ Hc E) as (N & w & W & R). rewrite Hw in W. cbn [app] in W.
    split; [now apply settle_consistent|]. split; [reflexivity|].
    split; [rewrite (proj2 (settle_ix p1)); exact N|]. intros Ew.
    eapply rows_eq_trans; [apply R; congruence|]. apply same_rows, same_sym, settle_same.
  - destruct (create_consistent _ _ _ Hc Him E) as (C1 & N1 & V1 & W1). split; [exact C1|]. split; [congruence|auto].
Qed.

Lemma history_facts p lsn recs q : history p lsn recs q -> consistent p -> wal p = [] -> consistent q /\ wal q = [].
Proof.
  induction 1 as [|p lsn r p1 recs q Hs _ IH]; intros Hc Hw; [auto|].
  destruct (hstep_facts _ _ _ Hc Hw Hs) as (C1 & W1 & _). auto.
Qed.

Lemma history_lsns p lsn recs q : history p lsn recs q ->
  Forall (fun c => lsn <= fst c < lsn + Z.of_nat (length recs)) recs.
Proof.
  induction 1 as [|p lsn r p1 recs q Hs _ IH]; constructor.
  - cbn [fst length]. lia.
  - eapply Forall_impl; [|exact IH]. cbn. intros. lia.
Qed.

Lemma history_app p lsn a b q : history p lsn (a ++ b) q ->
  exists p1, history p lsn a p1 /\ history p1 (lsn + Z.of_nat (length a)) b q.
Proof.
  revert p lsn. induction a as [|c a IH]; intros p lsn H; cbn [app length] in *.
  - exists p. rewrite Z.add_0_r. split; [constructor|exact H].
  - inversion H as [|? ? r p1 ? ? Hs Hr]; subst. apply IH in Hr. destruct Hr as (p2 & A & B).
    exists p2. split; [econstructor; eassumption|].
    replace (lsn + Z.of_nat (S (length a))) with (lsn + 1 + Z.of_nat (length a)) by lia. exact B.
Qed.

Lemma indexes_at_app c a b : indexes_at c (a ++ b) = (indexes_at c a + indexes_at c b)%nat.
Proof. unfold indexes_at. rewrite filter_app, app_length. reflexivity. Qed.

Lemma indexes_at_zero c recs : Forall (fun x => c < fst x) recs -> indexes_at c recs = 0%nat.
Proof.
  unfold indexes_at. induction 1 as [|[l r] recs Hx _ IH]; [reflexivity|]. cbn [filter snd fst] in *.
  destruct r; [exact IH|]. destruct (Z.leb_spec l c); [lia|exact IH].
Qed.

Lemma indexes_at_pos c recs : indexes_at c recs <> 0%nat -> exists l, In (l, RIndex) recs /\ l <= c.
Proof.
  unfold indexes_at. induction recs as [|[l r] recs IH]; [now intros []|]. cbn [filter snd fst]. intros H.
  destruct r as [w|].
  - destruct (IH H) as (l2 & A & B). exists l2. split; [now right|exact B].
  - destruct (Z.leb_spec l c); [exists l; split; [now left|lia]|].
    destruct (IH H) as (l2 & A & B). exists l2. split; [now right|exact B].
Qed.

Lemma history_nsec p lsn recs q : history p lsn recs q -> consistent p -> wal p = [] ->
  forall c, lsn + Z.of_nat (length recs) - 1 <= c -> nsec q = (nsec p + indexes_at c recs)%nat.
Proof.
  induction 1 as [|p lsn r p1 recs q Hs _ IH]; intros Hc Hw c Hl; [cbn; lia|].
  destruct (hstep_facts _ _ _ Hc Hw Hs) as (C1 & W1 & R). cbn [length] in Hl.
  rewrite (IH C1 W1 c ltac:(lia)). unfold indexes_at. cbn [filter snd fst].
  destruct r as [w|]; destruct R as [R _]; rewrite R; [lia|].
  destruct (Z.leb_spec lsn c); [cbn [length]; lia|lia].
Qed.

Lemma history_nsec_le p lsn recs q : history p lsn recs q -> consistent p -> wal p = [] ->
  forall c, (nsec p + indexes_at c recs <= nsec q)%nat.
Proof.
  induction 1 as [|p lsn r p1 recs q Hs _ IH]; intros Hc Hw c; [cbn; lia|].
  destruct (hstep_facts _ _ _ Hc Hw Hs) as (C1 & W1 & R). specialize (IH C1 W1 c).
  unfold indexes_at in *. cbn [filter snd fst].
  destruct r as [w|]; destruct R as [R _]; rewrite R in IH; [lia|].
  destruct (lsn <=? c); [cbn [length]; lia|lia].
Qed.

Lemma iar_sub snap cat a b : index_after_rows snap cat (a ++ b) -> index_after_rows snap cat b.
Proof. intros H l w i Hl Hw Hi. apply (H l w i); auto; apply in_app_iff; auto. Qed.
Lemma iar_tail snap cat a b : index_after_rows snap cat (a :: b) -> index_after_rows snap cat b.
Proof. apply (iar_sub snap cat [a]). Qed.

(** a state with the rows of the snapshot and every index of the catalog *)
Lemma catalog_state snap cat p lsn recs q : history p lsn recs q -> consistent p -> wal p = [] -> snap < lsn ->
  index_after_rows snap cat recs ->
  exists pm, consistent pm /\ rows_eq p pm /\ (nsec p + indexes_at cat recs <= nsec pm)%nat.
Proof.
  intros H. induction H as [|p lsn r p1 recs q Hs Hh IH]; intros Hc Hw Hl Ha.
  - exists p. split; [exact Hc|]. split; [apply rows_eq_refl|]. cbn. lia.
  - destruct (Nat.eq_dec (indexes_at cat ((lsn, r) :: recs)) 0) as [Z0|NZ].
    { exists p. split; [exact Hc|]. split; [apply rows_eq_refl|]. lia. }
    destruct (hstep_facts _ _ _ Hc Hw Hs) as (C1 & W1 & R).
    destruct (IH C1 W1 ltac:(lia) (iar_tail _ _ _ _ Ha)) as (pm & A & B & C).
    destruct r as [w|].
    + change (indexes_at cat ((lsn, RRows w) :: recs)) with (indexes_at cat recs) in *.
      destruct R as [Rn Rw]. exists pm. split; [exact A|]. split; [|lia].
      eapply rows_eq_trans; [|exact B]. apply Rw. destruct w as [|c w]; [reflexivity|]. exfalso.
      destruct (indexes_at_pos _ _ NZ) as (i & Hi & Hic).
      assert (lsn < i). { apply history_lsns in Hh. rewrite Forall_forall in Hh. apply Hh in Hi. cbn in Hi. lia. }
      assert (cat < i); [|lia]. apply (Ha lsn (c :: w) i); [now left|discriminate|now right|exact Hl|assumption].
    + destruct R as [Rn Rw]. exists pm. split; [exact A|]. split; [eapply rows_eq_trans; eassumption|].
      revert C. unfold indexes_at. cbn [filter snd fst]. destruct (lsn <=? cat); cbn [length]; lia.
Qed.

(** *** the primary index is finite *)
Definition finite (p : part) : Prop := exists ks, forall k r, ix p 0%nat k = Some r -> In k ks.

Lemma finite_rows p q : rows_eq p q -> finite p -> finite q.
Proof.
  intros Hv [ks H]. exists ks. intros k r Hr. specialize (Hv k). unfold view in Hv. rewrite Hr in Hv.
  destruct (ix p 0%nat k) as [s|] eqn:E; [|discriminate]. eapply H. exact E.
Qed.

Lemma finite_image p : keyed (ix p) -> finite p -> exists image, image_of p image.
Proof.
  intros Hk [ks H].
  assert (G : forall l, NoDup l -> exists image, NoDup image /\ forall r, In r image <-> exists k, In k l /\ ix p 0%nat k = Some r).
  { induction l as [|k l IH]; intros Hn.
    - exists []. split; [constructor|]. intros r. split; [intros []|intros (k & [] & _)].
    - inversion_clear Hn as [|? ? Hnk Hn']. destruct (IH Hn') as (im & N & I). destruct (ix p 0%nat k) as [r0|] eqn:E.
      + exists (r0 :: im). split.
        * constructor; [|exact N]. intros Hin. apply I in Hin. destruct Hin as (k' & Hk' & E').
          rewrite <- (Hk _ _ _ E) in Hnk. rewrite (Hk _ _ _ E') in Hnk. contradiction.
        * intros r. split.
          -- intros [<-|Hr]; [exists k; split; [now left|exact E]|]. apply I in Hr. destruct Hr as (k' & A & B).
             exists k'. split; [now right|exact B].
          -- intros (k' & [<-|A] & B); [left; congruence|]. right. apply I. eauto.
      + exists im. split; [exact N|]. intros r. rewrite I. split.
        * intros (k' & A & B). exists k'. split; [now right|exact B].
        * intros (k' & [<-|A] & B); [congruence|eauto]. }
  destruct (G (nodup Z.eq_dec ks) (NoDup_nodup _ _)) as (im & N & I). exists im. split; [exact N|].
  intros r. rewrite I. split; [intros (k & _ & B); eauto|]. intros (k & B). exists k. split; [|exact B].
  apply nodup_In. eapply H. exact B.
Qed.

Lemma eff_finite p p' : eff p p' -> finite p -> finite p'.
Proof.
  intros He [ks H].
  assert (G : forall r v, put_all p p' r v -> finite p').
  { intros r v Hp. exists (key_of 0 r :: ks). intros k s Hs. rewrite Hp in Hs. cbn [Nat.leb] in Hs.
    destruct (set_cases (ix p) 0 (key_of 0 r) v 0%nat k) as [(_&->&E)|[_ E]]; [now left|].
    rewrite E in Hs. right. eapply H. exact Hs. }
  destruct He as [->|r H1 Hns Hl Hw _ _ _ _|r es Hno Hp Hns Hl Hse Hw _ _ _ _|r0 r es H0 Hr Hp Hns Hl Hse Hw _ _ _ _|r es H0 Hp Hns Hl Hse Hw _ _ _].
  - exists ks. exact H.
  - exists ks. rewrite H1. exact H.
  - eapply G; exact Hp.
  - eapply G; exact Hp.
  - eapply G; exact Hp.
Qed.

Lemma run_finite : forall ops p p', consistent p -> run p ops = (p', SOk) -> finite p -> finite p'.
Proof.
  induction ops as [|o ops IH]; intros p p' Hc E Hf; cbn [run] in E.
  - assert (p = p') by congruence. now subst.
  - destruct (step p o) as [p1 st1] eqn:Es. destruct st1; try discriminate.
    pose proof (step_eff _ _ _ Hc Es) as He. apply (IH p1 p'); [eapply eff_consistent; eassumption|exact E|].
    eapply eff_finite; eassumption.
Qed.

Lemma hstep_finite p r p1 : consistent p -> hstep p r p1 -> finite p -> finite p1.
Proof.
  intros Hc H Hf. destruct H as [p ops p1 E|p image p1 Him E].
  - apply (finite_rows p1); [apply same_rows, same_sym, settle_same|]. eapply run_finite; eassumption.
  - destruct (create_consistent _ _ _ Hc Him E) as (_ & _ & V & _). eapply finite_rows; eassumption.
Qed.

Lemma history_finite p lsn recs q : history p lsn recs q -> consistent p -> wal p = [] -> finite p -> finite q.
Proof.
  induction 1 as [|p lsn r p1 recs q Hs _ IH]; intros Hc Hw Hf; [exact Hf|].
  destruct (hstep_facts _ _ _ Hc Hw Hs) as (C1 & W1 & _). apply IH; auto. exact (hstep_finite _ _ _ Hc Hs Hf).
Qed.

(** *** recovery *)
Lemma recovers_app snap cat x a b y st : recovers snap cat x (a ++ b) y st ->
  (st <> SOk /\ recovers snap cat x a y st) \/ exists x1, recovers snap cat x a x1 SOk /\ recovers snap cat x1 b y st.
Proof.
  revert x. induction a as [|c a IH]; intros x H; cbn [app] in H.
  - right. exists x. split; [constructor|exact H].
  - inversion H as [|? ? ? ? ? Hs Hn|? ? ? x1 ? ? Hs Hr]; subst.
    + left. split; [exact Hn|]. now constructor.
    + apply IH in Hr. destruct Hr as [[A B]|(x2 & A & B)].
      * left. split; [exact A|]. econstructor; eassumption.
      * right. exists x2. split; [econstructor; eassumption|exact B].
Qed.
Lemma recovers_join snap cat x a b x1 y st : recovers snap cat x a x1 SOk -> recovers snap cat x1 b y st ->
  recovers snap cat x (a ++ b) y st.
Proof.
  remember SOk as ok eqn:Hok. induction 1 as [x|x c recs y0 st0 H Hn|x c recs x2 y0 st0 H Hr IH]; intros Hb; cbn [app].
  - exact Hb.
  - congruence.
  - eapply RCons; [exact H|]. now apply IH.
Qed.

(* records that the snapshot includes *)
Lemma recover_before snap cat p lsn recs ps : history p lsn recs ps -> forall x extra,
  consistent p -> wal p = [] -> consistent ps -> finite ps ->
  lsn + Z.of_nat (length recs) - 1 <= snap ->
  consistent x -> rows_eq ps x -> nsec x = (nsec p + indexes_at cat recs + extra)%nat ->
  (extra = 0%nat \/ lsn + Z.of_nat (length recs) - 1 < cat) ->
  (exists y, recovers snap cat x recs y SOk) /\
  forall y st, recovers snap cat x recs y st ->
    st = SOk /\ consistent y /\ rows_eq ps y /\ nsec y = (nsec ps + extra)%nat.
Proof.
  induction 1 as [p lsn|p lsn r p1 recs q Hs Hh IH]; intros x extra Hc Hw Hcq Hf Hl Hx Hv Hn He.
  - split; [exists x; constructor|]. intros y st H. inversion H; subst.
    do 3 (split; [auto; assumption|]). cbn in Hn. lia.
  - destruct (hstep_facts _ _ _ Hc Hw Hs) as (C1 & W1 & R). cbn [length] in Hl, He.
    destruct r as [w|].
    + destruct R as [Rn _]. change (indexes_at cat ((lsn, RRows w) :: recs)) with (indexes_at cat recs) in Hn.
      destruct (IH x extra C1 W1 Hcq Hf ltac:(lia) Hx Hv ltac:(lia) ltac:(lia)) as [[y Hy] Hall].
      split; [exists y; eapply RCons; [apply SkipRows; lia|exact Hy]|].
      intros y' st H. inversion H as [|? ? ? ? ? Hr Hns|? ? ? x1 ? ? Hr Hrest]; subst.
      * inversion Hr; subst; congruence || lia.
      * inversion Hr; subst; [|lia|congruence]. now apply Hall.
    + destruct R as [Rn Rv]. unfold indexes_at in Hn. cbn [filter snd fst] in Hn. fold (indexes_at cat recs) in Hn.
      destruct (Z.leb_spec lsn cat) as [Hcat|Hcat]; cbn [length] in Hn.
      * destruct (IH x extra C1 W1 Hcq Hf ltac:(lia) Hx Hv) as [[y Hy] Hall]; [unfold indexes_at; lia|lia|].
        split; [exists y; eapply RCons; [apply SkipIndex; lia|exact Hy]|].
        intros y' st H. inversion H as [|? ? ? ? ? Hr Hns|? ? ? x1 ? ? Hr Hrest]; subst.
        -- inversion Hr; subst; congruence || lia.
        -- inversion Hr; subst; [|lia]. now apply Hall.
      * assert (Z0 : indexes_at cat recs = 0%nat).
        { apply indexes_at_zero. apply history_lsns in Hh. eapply Forall_impl; [|exact Hh]. cbn. intros. lia. }
        assert (Z1 : extra = 0%nat) by lia. unfold indexes_at in Z0. rewrite Z0, Z1 in Hn.
        assert (Hns : (S (nsec x) <= nsec q)%nat).
        { pose proof (history_nsec_le _ _ _ _ Hh C1 W1 0). lia. }
        assert (Hgo : forall image, image_of x image -> exists x1, create_index x image = Some x1).
        { intros image Him. eapply (create_succeeds x q); eauto. now apply rows_eq_sym. }
        assert (Hnext : forall image x1, image_of x image -> create_index x image = Some x1 ->
           consistent x1 /\ rows_eq q x1 /\ nsec x1 = (nsec p1 + indexes_at cat recs + extra)%nat).
        { intros image x1 Him E. destruct (create_consistent _ _ _ Hx Him E) as (A & B & C & _).
          split; [exact A|]. split; [eapply rows_eq_trans; eassumption|]. unfold indexes_at. lia. }
        destruct (finite_image x (proj1 Hx) (finite_rows _ _ Hv Hf)) as [im Him].
        destruct (Hgo im Him) as [x1 E1]. destruct (Hnext _ _ Him E1) as (A1 & A2 & A3).
        destruct (IH x1 extra C1 W1 Hcq Hf ltac:(lia) A1 A2 A3 ltac:(lia)) as [[y Hy] _].
        split; [exists y; eapply RCons; [eapply DoIndex; eauto; lia|exact Hy]|].
        intros y' st H. inversion H as [|? ? ? ? ? Hr Hnsk|? ? ? x2 ? ? Hr Hrest]; subst.
        -- exfalso. inversion Hr; subst; try congruence; try lia.
           match goal with G : image_of _ ?i, N : create_index _ ?i = None |- _ => destruct (Hgo i G) as [z Ez]; congruence end.
        -- inversion Hr as [| | |? ? Hle|? ? image' ? Hlt Him' E'|]; subst; [lia|].
           destruct (Hnext _ _ Him' E') as (B1 & B2 & B3).
           destruct (IH x2 0%nat C1 W1 Hcq Hf ltac:(lia) B1 B2 B3 ltac:(lia)) as [_ Hall]. now apply Hall.
Qed.

(* records after the snapshot *)
Lemma recover_after snap cat p lsn recs q : history p lsn recs q -> forall x,
  consistent p -> wal p = [] -> finite p -> snap < lsn ->
  index_after_rows snap cat recs ->
  consistent x -> rows_eq p x -> nsec x = (nsec p + indexes_at cat recs)%nat ->
  (exists y, recovers snap cat x recs y SOk) /\
  forall y st, recovers snap cat x recs y st -> st = SOk /\ consistent y /\ same q y.
Proof.
  induction 1 as [p lsn|p lsn r p1 recs q Hs Hh IH]; intros x Hc Hw Hf Hl Ha Hx Hv Hn.
  - split; [exists x; constructor|]. intros y st H. inversion H; subst. split; [reflexivity|]. split; [assumption|].
    apply consistent_same; auto. cbn in Hn. lia.
  - destruct (hstep_facts _ _ _ Hc Hw Hs) as (C1 & W1 & R).
    pose proof (hstep_finite _ _ _ Hc Hs Hf) as F1. specialize (iar_tail _ _ _ _ Ha) as Ha1.
    destruct r as [w|].
    + destruct R as [Rn Rv]. change (indexes_at cat ((lsn, RRows w) :: recs)) with (indexes_at cat recs) in Hn.
      assert (D : exists x1, replay x w = (x1, SOk) /\ consistent x1 /\ rows_eq p1 x1 /\ nsec x1 = nsec x).
      { destruct (Nat.eq_dec (indexes_at cat recs) 0) as [Z0|NZ].
        - inversion Hs as [? ops p0 E|]; subst.
          destruct (run_replay_c ops p p0 x Hc E) as (w & x1 & W & Rp & S1 & K1).
          { apply consistent_same; auto. lia. } { exact Hx. }
          rewrite Hw in W. cbn [app] in W. subst w. exists x1. split; [exact Rp|]. split; [exact K1|]. split.
          + eapply rows_eq_trans; [apply same_rows, settle_same|]. now apply same_rows.
          + rewrite (proj2 (settle_ix p0)) in Rn. destruct S1 as [S1 _]. lia.
        - destruct w as [|c w].
          + exists x. split; [reflexivity|]. split; [exact Hx|]. split; [|reflexivity].
            eapply rows_eq_trans; [|exact Hv]. apply rows_eq_sym. now apply Rv.
          + exfalso. destruct (indexes_at_pos _ _ NZ) as (i & Hi & Hic).
            assert (lsn < i). { apply history_lsns in Hh. rewrite Forall_forall in Hh. apply Hh in Hi. cbn in Hi. lia. }
            assert (cat < i); [|lia]. apply (Ha lsn (c :: w) i); [now left|discriminate|now right|exact Hl|assumption]. }
      destruct D as (x1 & E1 & K1 & V1 & N1).
      destruct (IH (settle x1) C1 W1 F1 ltac:(lia) Ha1) as [[y Hy] Hall].
      { now apply settle_consistent. }
      { eapply rows_eq_trans; [exact V1|]. apply same_rows, same_sym, settle_same. }
      { rewrite (proj2 (settle_ix x1)). lia. }
      split; [exists y; eapply RCons; [eapply DoRows; [lia|exact E1]|exact Hy]|].
      intros y' st H. inversion H as [|? ? ? ? ? Hr Hns|? ? ? x2 ? ? Hr Hrest]; subst.
      * exfalso. inversion Hr; subst; try congruence; lia.
      * inversion Hr; subst; [lia| |congruence].
        match goal with G : replay x w = (?z, SOk) |- _ => assert (z = x1) by congruence; subst z end. now apply Hall.
    + destruct R as [Rn Rv]. unfold indexes_at in Hn. cbn [filter snd fst] in Hn. fold (indexes_at cat recs) in Hn.
      destruct (Z.leb_spec lsn cat) as [Hcat|Hcat]; cbn [length] in Hn.
      * destruct (IH x C1 W1 F1 ltac:(lia) Ha1 Hx) as [[y Hy] Hall].
        { eapply rows_eq_trans; [apply rows_eq_sym; exact Rv|exact Hv]. } { unfold indexes_at; lia. }
        split; [exists y; eapply RCons; [apply SkipIndex; lia|exact Hy]|].
        intros y' st H. inversion H as [|? ? ? ? ? Hr Hns|? ? ? x1 ? ? Hr Hrest]; subst.
        -- exfalso. inversion Hr; subst; congruence || lia.
        -- inversion Hr; subst; [|lia]. now apply Hall.
      * assert (Z0 : indexes_at cat recs = 0%nat).
        { apply indexes_at_zero. apply history_lsns in Hh. eapply Forall_impl; [|exact Hh]. cbn. intros. lia. }
        unfold indexes_at in Z0. rewrite Z0 in Hn.
        assert (Hns : (S (nsec x) <= nsec p1)%nat) by lia.
        assert (Hv1 : rows_eq x p1) by (eapply rows_eq_trans; [apply rows_eq_sym; exact Hv|exact Rv]).
        assert (Hgo : forall image, image_of x image -> exists x1, create_index x image = Some x1).
        { intros image Him. eapply (create_succeeds x p1); eauto. }
        assert (Hnext : forall image x1, image_of x image -> create_index x image = Some x1 ->
           consistent x1 /\ rows_eq p1 x1 /\ nsec x1 = (nsec p1 + indexes_at cat recs)%nat).
        { intros image x1 Him E. destruct (create_consistent _ _ _ Hx Him E) as (A & B & C & _).
          split; [exact A|]. split; [eapply rows_eq_trans; [apply rows_eq_sym; exact Hv1|exact C]|]. unfold indexes_at. lia. }
        destruct (finite_image x (proj1 Hx) (finite_rows _ _ Hv Hf)) as [im Him].
        destruct (Hgo im Him) as [x1 E1]. destruct (Hnext _ _ Him E1) as (A1 & A2 & A3).
        destruct (IH x1 C1 W1 F1 ltac:(lia) Ha1 A1 A2 A3) as [[y Hy] _].
        split; [exists y; eapply RCons; [eapply DoIndex; eauto; lia|exact Hy]|].
        intros y' st H. inversion H as [|? ? ? ? ? Hr Hnsk|? ? ? x2 ? ? Hr Hrest]; subst.
        -- exfalso. inversion Hr; subst; try congruence; try lia.
           match goal with G : image_of _ ?i, N : create_index _ ?i = None |- _ => destruct (Hgo i G) as [z Ez]; congruence end.
        -- inversion Hr as [| | |? ? Hle|? ? image' ? Hlt Him' E'|]; subst; [lia|].
           destruct (Hnext _ _ Him' E') as (B1 & B2 & B3).
           destruct (IH x2 C1 W1 F1 ltac:(lia) Ha1 B1 B2 B3) as [_ Hall]. now apply Hall.
Qed.

Lemma history_split_lsn p lsn a q : history p lsn a q -> forall c, lsn + Z.of_nat (length a) - 1 <= c ->
  Forall (fun x => fst x <= c) a.
Proof. intros H c Hc. apply history_lsns in H. eapply Forall_impl; [|exact H]. cbn. intros. lia. Qed.

Lemma restart n old kept recs2 ps pe image cat :
  history (empty_part n) 1 (old ++ kept) ps ->
  history ps (1 + Z.of_nat (length (old ++ kept))) recs2 pe ->
  image_of ps image ->
  Z.of_nat (length old) <= cat ->
  index_after_rows (Z.of_nat (length (old ++ kept))) cat recs2 ->
  let snap := Z.of_nat (length (old ++ kept)) in
  let x := part_open (n + indexes_at cat (old ++ kept ++ recs2)) image in
  (exists y, recovers snap cat x (kept ++ recs2) y SOk) /\
  forall y st, recovers snap cat x (kept ++ recs2) y st -> st = SOk /\ consistent y /\ same pe y.
Proof.
  intros H1 H2 Him Hold Ha snap x.
  assert (F0 : finite (empty_part n)) by (exists []; intros k r Hr; discriminate).
  destruct (history_facts _ _ _ _ H1 (empty_consistent n) eq_refl) as [Cs Ws].
  pose proof (history_finite _ _ _ _ H1 (empty_consistent n) eq_refl F0) as Fs.
  destruct (history_app _ _ _ _ _ H1) as (p0 & HA & HB).
  destruct (history_facts _ _ _ _ HA (empty_consistent n) eq_refl) as [C0 W0].
  pose proof (history_nsec _ _ _ _ HA (empty_consistent n) eq_refl cat ltac:(lia)) as N0. cbn [empty_part nsec] in N0.
  destruct (catalog_state snap cat _ _ _ _ H2 Cs Ws ltac:(lia) Ha) as (pm & Cm & Vm & Nm).
  pose proof (history_nsec_le _ _ _ _ HB C0 W0 cat) as NB.
  destruct (open_consistent ps pm (n + indexes_at cat (old ++ kept ++ recs2)) image Vm Cs Cm) as (Cx & Nx & Vx).
  { rewrite !indexes_at_app. lia. } { exact Him. }
  fold x in Cx, Nx, Vx. rewrite !indexes_at_app in Nx.
  assert (Hex : indexes_at cat recs2 = 0%nat \/ 1 + Z.of_nat (length old) + Z.of_nat (length kept) - 1 < cat).
  { destruct (Z.lt_ge_cases snap cat) as [Hlt|Hge]; [right; unfold snap in Hlt; rewrite app_length in Hlt; lia|left].
    apply indexes_at_zero. apply history_lsns in H2. eapply Forall_impl; [|exact H2]. cbn beta. intros. unfold snap in Hge. lia. }
  destruct (recover_before snap cat p0 _ kept ps HB x (indexes_at cat recs2) C0 W0 Cs Fs) as [[y1 Hy1] All1].
  { unfold snap. rewrite app_length. lia. } { exact Cx. } { exact Vx. } { lia. } { exact Hex. }
  assert (After : forall z, consistent z -> rows_eq ps z -> nsec z = (nsec ps + indexes_at cat recs2)%nat ->
    (exists y, recovers snap cat z recs2 y SOk) /\
    forall y st, recovers snap cat z recs2 y st -> st = SOk /\ consistent y /\ same pe y).
  { intros z Cz Vz Nz. eapply recover_after; eauto. unfold snap. lia. }
  destruct (All1 y1 SOk Hy1) as (_ & A1 & A2 & A3). destruct (After y1 A1 A2 A3) as [[y2 Hy2] _].
  split; [exists y2; eapply recovers_join; eassumption|].
  intros y st H. apply recovers_app in H. destruct H as [[Hn H]|(z & Hz & H)].
  - destruct (All1 y st H) as [E _]. contradiction.
  - destruct (All1 z SOk Hz) as (_ & B1 & B2 & B3). destruct (After z B1 B2 B3) as [_ All2]. now apply All2.
Qed.
