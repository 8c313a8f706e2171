From Verif Require Import PartModel PartProofs ReplayModel ReplayProofs IdxModel IdxSpec IdxProofs ShadowModel ShadowSpec.
From Coq Require Import List ZArith Lia Bool Permutation.
Import ListNotations.
Open Scope Z_scope.

Definition prim (p : part) (r : row) : Prop := exists k, ix p 0%nat k = Some r.

(** *** what a transaction does with rows *)
Record accounted (p q : part) : Prop := {
  ac_quiet : quiet (fresh q);
  ac_nsec : nsec q = nsec p;
  ac_from : forall r, prim q r -> prim p r \/ In r (made q);
  ac_freed : forall r, In r (freed q) -> prim p r \/ In r (made q);
  ac_nodup : NoDup (map rid (freed q));
  ac_gone : forall r s, In r (freed q) -> prim q s -> rid s <> rid r;
  ac_live : forall r, prim p r \/ In r (made q) -> prim q r \/ In r (freed q);
  ac_new : forall r, In r (made q) -> next p <= rid r < next q;
  ac_newd : NoDup (map rid (made q));
  ac_next : next p <= next q
}.

Lemma eff_from p0 p p' : eff p p' ->
  (forall r, prim p r \/ In r (Fr p) -> prim p0 r \/ In r (made p)) ->
  (forall r, prim p' r \/ In r (Fr p') -> prim p0 r \/ In r (made p')).
Proof.
  intros He H.
  assert (G : forall r v, put_all p p' r v -> forall s, prim p' s -> prim p s \/ v = Some s).
  { intros r v Hp s [k Hs]. rewrite Hp in Hs. cbn [Nat.leb] in Hs.
    destruct (set_cases (ix p) 0 (key_of 0 r) v 0%nat k) as [(_&->&E)|[_ E]]; rewrite E in Hs; [now right|].
    left. now exists k. }
  unfold Fr in *.
  destruct He as [->|r H1 Hns Hl Hw Hf Hm _ _|r es Hno Hp Hns Hl Hse Hw Hf Hm _ _|r0 r es H0 Hr Hp Hns Hl Hse Hw Hf Hm _ _|r es H0 Hp Hns Hl Hse Hw Hf Hm _].
  - exact H.
  - intros s [Hs|Hs]; rewrite Hm, in_app_iff.
    + destruct (H s) as [A|A]; [left; destruct Hs as [k Hs]; exists k; now rewrite <- H1|auto|auto].
    + rewrite Hf, Hl, <- app_assoc, in_app_iff in Hs. destruct Hs as [Hs|[<-|Hs]].
      * destruct (H s) as [A|A]; auto. right. apply in_app_iff. auto.
      * right. right. now left.
      * destruct (H s) as [A|A]; auto. right. apply in_app_iff. auto.
  - intros s [Hs|Hs]; rewrite Hm, in_app_iff.
    + destruct (G r _ Hp s Hs) as [A|A]; [destruct (H s); auto|]. assert (r = s) by congruence. subst. right. right. now left.
    + rewrite Hf, Hl, cprevs_app, cprevs_cons in Hs by assumption. cbn [lidx lprev] in Hs. rewrite app_nil_r in Hs.
      destruct (H s); auto.
  - intros s [Hs|Hs]; rewrite Hm, in_app_iff.
    + destruct (G r _ Hp s Hs) as [A|A]; [destruct (H s); auto|]. assert (r = s) by congruence. subst. right. right. now left.
    + rewrite Hf, Hl, cprevs_app, cprevs_cons in Hs by assumption. cbn [lidx lprev] in Hs.
      rewrite app_assoc, in_app_iff in Hs. destruct Hs as [Hs|[<-|[]]]; [destruct (H s); auto|].
      destruct (H r0) as [A|A]; auto. left. eexists. exact H0.
  - intros s [Hs|Hs]; rewrite Hm.
    + destruct (G r _ Hp s Hs) as [A|A]; [apply H; auto|discriminate].
    + rewrite Hf, Hl, cprevs_app, cprevs_cons in Hs by assumption. cbn [lidx lprev] in Hs.
      rewrite app_assoc, in_app_iff in Hs. destruct Hs as [Hs|[<-|[]]]; [apply H; auto|].
      apply H. left. eexists. exact H0.
Qed.

Lemma run_from p0 : forall ops p p', consistent p -> run p ops = (p', SOk) ->
  (forall r, prim p r \/ In r (Fr p) -> prim p0 r \/ In r (made p)) ->
  (forall r, prim p' r \/ In r (Fr p') -> prim p0 r \/ In r (made p')).
Proof.
  induction ops as [|o ops IH]; intros p p' Hc E H; cbn [run] in E.
  - assert (p = p') by congruence. now subst.
  - destruct (step p o) as [p1 st1] eqn:Es. destruct st1; try discriminate.
    pose proof (step_eff _ _ _ Hc Es) as He.
    apply (IH p1 p' (eff_consistent _ _ Hc He) E). now apply (eff_from p0 p p1).
Qed.

Lemma accounted_run p ops p1 st : quiet p -> run p ops = (p1, st) ->
  accounted p (match st with SOk => tr_commit p1 | _ => tr_abort p1 end).
Proof.
  intros Hq E. pose proof Hq as (Hc & [R1 R2] & Hl & Hw & Hf & Hm).
  assert (HaA : AccA p p).
  { unfold AccA. rewrite Hf, Hl, Hm. cbn. repeat split; try constructor; try lia; contradiction. }
  pose proof (run_accA p ops p p1 st Hc HaA E) as (A0&A1&A2&A3&A4).
  assert (Habort : st <> SOk -> accounted p (tr_abort p1)).
  { intros _. destruct (abort_accounting p ops p1 st Hq E) as (_ & N & Ix & P & ND & Gone).
    destruct (fold_abort (rev (log p1)) p1) as (F1&F3&F4&F5).
    assert (Nx : next (tr_abort p1) = next p1) by (unfold tr_abort, log_reset; cbn [next]; exact F5).
    assert (Mx : made (tr_abort p1) = made p1) by (unfold tr_abort, log_reset; cbn [made]; exact F3).
    assert (Pr : forall r, prim (tr_abort p1) r <-> prim p r).
    { intros r. unfold prim. split; intros [k H]; exists k; [rewrite <- Ix|rewrite Ix]; exact H. }
    split.
    - split; [|split; [|auto]].
      + split.
        * intros i k r H. cbn [fresh ix] in H. rewrite Ix in H. exact (proj1 Hc _ _ _ H).
        * cbn [fresh nsec]. rewrite N. intros i Hi. cbn [fresh ix]. destruct (proj2 Hc i Hi) as [C1 C2].
          split; intros k r H; rewrite Ix in *; [eapply C1|eapply C2]; exact H.
      + split; cbn [fresh ix next].
        * intros k r H. rewrite Ix in H. apply R1 in H. lia.
        * intros k r k' r' H H'. rewrite Ix in H, H'. eapply R2; eassumption.
    - exact N.
    - intros r H. left. now apply Pr.
    - intros r H. right. now apply (Permutation_in r P).
    - exact ND.
    - intros r s Hr [k Hs]. eapply Gone; [exact Hr| |exact Hs]. lia.
    - intros r [H|H]; [left; now apply Pr|]. right. apply (Permutation_in r (Permutation_sym P) H).
    - intros r H. rewrite Mx in H. apply A4 in H. lia.
    - rewrite Mx. exact A2.
    - lia. }
  destruct st; [|apply Habort; discriminate|apply Habort; discriminate].
  destruct (commit_accounting p ops p1 Hq E) as (Cc & ND & Gone & Live).
  assert (Ha : Acc p p).
  { split; [split; assumption|]. unfold Fr. rewrite Hf, Hl. cbn [cprevs flat_map app map].
    split; [intros r []|]. split; [constructor|]. rewrite Hm. intros r [[]|H]; auto. }
  pose proof (run_acc p ops p p1 Hc Ha E) as (RO&_).
  destruct (fold_commit (log p1) p1) as (F1&F2&F3&F4&F5).
  assert (Nx : next (tr_commit p1) = next p1) by (unfold tr_commit, log_reset; cbn [next]; exact F5).
  assert (Mx : made (tr_commit p1) = made p1) by (unfold tr_commit, log_reset; cbn [made]; exact F3).
  assert (Ixx : ix (tr_commit p1) = ix p1) by (unfold tr_commit, log_reset; cbn [ix]; exact F2).
  assert (Fx : freed (tr_commit p1) = Fr p1) by (unfold tr_commit, log_reset; cbn [freed]; exact F1).
  assert (From : forall r, prim p1 r \/ In r (Fr p1) -> prim p r \/ In r (made p1)).
  { apply (run_from p ops p p1 Hc E). intros r [H|H]; [now left|]. unfold Fr in H. rewrite Hf, Hl in H. destruct H. }
  split.
  - split; [exact Cc|]. split; [|auto]. unfold rids_ok. cbn [fresh ix next]. rewrite Ixx, Nx. exact RO.
  - unfold tr_commit, log_reset. cbn [nsec]. rewrite F4. exact A0.
  - intros r [k H]. rewrite Mx. apply From. left. exists k. now rewrite <- Ixx.
  - intros r H. rewrite Mx. apply From. right. now rewrite <- Fx.
  - exact ND.
  - intros r s Hr [k Hs]. eapply Gone; [exact Hr| |exact Hs]. lia.
  - intros r H. apply Live. destruct H; auto.
  - intros r H. rewrite Mx in H. apply A4 in H. lia.
  - rewrite Mx. exact A2.
  - lia.
Qed.

(** *** the heaps *)
Definition frees (l : list sent) : list row := flat_map (fun e => match e with SFree r => [r] | SRow _ => [] end) l.
Definition srows (l : list sent) : list row := flat_map (fun e => match e with SRow r => [r] | SFree _ => [] end) l.
Lemma frees_app a b : frees (a ++ b) = frees a ++ frees b. Proof. apply flat_map_app. Qed.
Lemma srows_app a b : srows (a ++ b) = srows a ++ srows b. Proof. apply flat_map_app. Qed.
Lemma frees_drop a l : frees (drop_sent a l) = frees l.
Proof.
  induction l as [|[r|r] l IH]; [reflexivity| |]; cbn [drop_sent filter]; fold (drop_sent a l).
  - destruct (negb (rid r =? a)); exact IH.
  - change (r :: frees (drop_sent a l) = r :: frees l). now rewrite IH.
Qed.
Lemma srows_drop a l : srows (drop_sent a l) = drop_row a (srows l).
Proof.
  induction l as [|[r|r] l IH]; [reflexivity| |]; cbn [drop_sent filter]; fold (drop_sent a l).
  - change (srows (SRow r :: l)) with (r :: srows l). cbn [drop_row filter]. fold (drop_row a (srows l)).
    destruct (negb (rid r =? a)); [|exact IH]. change (r :: srows (drop_sent a l) = r :: drop_row a (srows l)). now rewrite IH.
  - exact IH.
Qed.
Lemma in_drop a l r : In r (drop_row a l) <-> In r l /\ rid r <> a.
Proof.
  unfold drop_row. rewrite filter_In. destruct (Z.eqb_spec (rid r) a); cbn [negb]; intuition congruence.
Qed.
Lemma nodup_drop a l : NoDup (map rid l) -> NoDup (map rid (drop_row a l)).
Proof.
  induction l as [|r l IH]; intros H; [constructor|]. cbn [map] in H. inversion_clear H as [|? ? Hn Hd].
  cbn [drop_row filter]. fold (drop_row a l). destruct (negb (rid r =? a)); [|now apply IH].
  cbn [map]. constructor; [|now apply IH]. intros Hi. apply Hn. apply in_map_iff in Hi. destruct Hi as (s & Es & Hs).
  apply in_drop in Hs. apply in_map_iff. exists s. tauto.
Qed.
Lemma rid_inj l r s : NoDup (map rid l) -> In r l -> In s l -> rid r = rid s -> r = s.
Proof.
  induction l as [|a l IH]; intros H Hr Hs E; [destruct Hr|]. cbn [map] in H. inversion_clear H as [|? ? Hn Hd].
  destruct Hr as [<-|Hr], Hs as [<-|Hs]; auto.
  - exfalso. apply Hn. rewrite E. now apply in_map.
  - exfalso. apply Hn. rewrite <- E. now apply in_map.
Qed.

(** the heaps while the rows of [p] change; [rest]: rows released by the running
    transaction that are still in a heap *)
Record heaps (main : list row) (l : list sent) (flag : Z -> bool) (live : row -> Prop) (nx : Z) : Prop := {
  hp_main : NoDup (map rid main);
  hp_srows : NoDup (map rid (srows l));
  hp_frees : NoDup (map rid (frees l));
  hp_sub : forall r, In r (frees l) -> In r main;
  hp_mflag : forall r, In r main -> flag (rid r) = false;
  hp_sflag : forall r, In r (srows l) -> flag (rid r) = true;
  hp_mnext : forall r, In r main -> rid r < nx;
  hp_snext : forall r, In r (srows l) -> rid r < nx;
  hp_live : forall r, live r <-> (In r main /\ ~ In r (frees l)) \/ In r (srows l)
}.

Lemma heaps_next main l flag live nx nx' : nx <= nx' -> heaps main l flag live nx -> heaps main l flag live nx'.
Proof. intros Hn [A B C D E F G H I]. split; auto; intros r Hr; [apply G in Hr|apply H in Hr]; lia. Qed.

(* adding the rows of a transaction *)
Lemma add_made : forall mk s l live, s_sh s = Some l -> heaps (s_main s) l (s_flag s) live (next (s_p s)) ->
  NoDup (map rid mk) -> (forall r, In r mk -> rid r < next (s_p s)) ->
  (forall r, In r mk -> forall x, In x (s_main s) \/ In x (srows l) -> rid x <> rid r) ->
  exists s' , fold_left heap_add mk s = s' /\ s_p s' = s_p s /\ s_main s' = s_main s /\
    s_sh s' = Some (l ++ map SRow mk) /\
    heaps (s_main s') (l ++ map SRow mk) (s_flag s') (fun r => live r \/ In r mk) (next (s_p s')).
Proof.
  induction mk as [|a mk IH]; intros s l live Hs Hh Hn Hb Hd; cbn [fold_left map].
  - exists s. rewrite app_nil_r. split; [reflexivity|]. do 3 (split; [auto|]).
    destruct Hh as [A B C D E F G H I]. split; auto. intros r. rewrite <- I. cbn. tauto.
  - cbn [map] in Hn. inversion_clear Hn as [|? ? Hna Hnm].
    destruct (IH (heap_add s a) (l ++ [SRow a]) (fun r => live r \/ r = a)) as (s' & E & P & M & S1 & H1).
    + unfold heap_add. now rewrite Hs.
    + unfold heap_add. rewrite Hs. cbn [s_main s_flag s_p].
      assert (Ha : forall x, In x (s_main s) \/ In x (srows l) -> rid x <> rid a) by (apply Hd; now left).
      destruct Hh as [A B C D E F G H I].
      assert (Es : srows (l ++ [SRow a]) = srows l ++ [a]) by (rewrite srows_app; reflexivity).
      assert (Ef : frees (l ++ [SRow a]) = frees l) by (rewrite frees_app; apply app_nil_r).
      split; rewrite ?Es, ?Ef.
      * exact A.
      * rewrite map_app. cbn [map]. apply NoDup_snoc; [exact B|]. intros Hi. apply in_map_iff in Hi.
        destruct Hi as (x & Ex & Hx). apply (Ha x); auto.
      * exact C.
      * exact D.
      * intros r Hr. destruct (Z.eqb_spec (rid r) (rid a)) as [Er|_]; [exfalso; apply (Ha r); auto|auto].
      * intros r Hr. destruct (Z.eqb_spec (rid r) (rid a)) as [Er|Er]; [reflexivity|].
        apply in_app_iff in Hr. destruct Hr as [Hr|[<-|[]]]; [auto|contradiction].
      * exact G.
      * intros r Hr. apply in_app_iff in Hr. destruct Hr as [Hr|[<-|[]]]; [auto|]. apply Hb. now left.
      * intros r. rewrite in_app_iff. cbn [In]. rewrite I. intuition congruence.
    + exact Hnm.
    + intros r Hr. unfold heap_add. rewrite Hs. cbn [s_p]. apply Hb. now right.
    + intros r Hr x Hx. unfold heap_add in Hx. rewrite Hs in Hx. cbn [s_main] in Hx.
      rewrite srows_app in Hx. cbn [srows flat_map app] in Hx. rewrite in_app_iff in Hx.
      destruct Hx as [Hx|[Hx|[<-|[]]]].
      * apply (Hd r); auto. now right.
      * apply (Hd r); auto. now right.
      * intros Ex. apply Hna. rewrite Ex. now apply in_map.
    + exists s'. split; [exact E|]. unfold heap_add in P, M. rewrite Hs in P, M. cbn [s_p s_main] in P, M.
      split; [exact P|]. split; [exact M|]. rewrite <- app_assoc in S1, H1. cbn [app] in S1, H1. split; [exact S1|].
      destruct H1 as [A B C D F G H I J]. split; auto. intros r. rewrite <- J. cbn [In]. intuition congruence.
Qed.

(* releasing rows *)
Lemma remove_freed : forall fr s l live, s_sh s = Some l -> heaps (s_main s) l (s_flag s) live (next (s_p s)) ->
  NoDup (map rid fr) -> (forall r, In r fr -> live r) ->
  exists s' l', remove_all s fr = Some s' /\ s_p s' = s_p s /\ s_main s' = s_main s /\ s_sh s' = Some l' /\
    heaps (s_main s') l' (s_flag s') (fun r => live r /\ ~ In r fr) (next (s_p s')).
Proof.
  induction fr as [|a fr IH]; intros s l live Hs Hh Hn Hl; cbn [remove_all].
  - exists s, l. split; [reflexivity|]. do 3 (split; [auto|]).
    destruct Hh as [A B C D E F G H I]. split; auto. intros r. rewrite <- I. cbn. tauto.
  - cbn [map] in Hn. inversion_clear Hn as [|? ? Hna Hnm].
    assert (Hla : live a) by (apply Hl; now left).
    assert (Hnot : ~ In a fr) by (intros Hi; apply Hna; now apply in_map).
    pose proof Hh as [A B C D E F G H I].
    unfold heap_remove. rewrite Hs. destruct (s_flag s (rid a)) eqn:Efl.
    + assert (Hin : In a (srows l)).
      { apply I in Hla. destruct Hla as [[Hm _]|Hin]; [|exact Hin]. apply E in Hm. congruence. }
      edestruct (IH (mks (s_p s) (s_main s) (Some (drop_sent (rid a) l)) (s_flag s)) (drop_sent (rid a) l)
                   (fun r => live r /\ r <> a)) as (s' & l' & R & P & M & S1 & H1); [reflexivity| |exact Hnm| |].
      * cbn [s_main s_flag s_p]. split; rewrite ?srows_drop, ?frees_drop; auto.
        -- now apply nodup_drop.
        -- intros r Hr. apply in_drop in Hr. apply F. tauto.
        -- intros r Hr. apply in_drop in Hr. apply H. tauto.
        -- intros r. rewrite in_drop, I. split.
           ++ intros [[Hm|Hi] Hne]; [now left|]. right. split; [exact Hi|]. intros Er. apply Hne.
              exact (rid_inj (srows l) r a B Hi Hin Er).
           ++ intros [[Hm Hnf]|[Hi Hne]].
              ** split; [now left|]. intros ->. apply E in Hm. congruence.
              ** split; [now right|]. intros ->. now apply Hne.
      * intros r Hr. split; [apply Hl; now right|]. intros ->. contradiction.
      * cbn [s_p s_main] in P, M. exists s', l'. split; [exact R|]. do 3 (split; [assumption|]).
        destruct H1 as [A1 B1 C1 D1 E1 F1 G1 H1 I1]. split; auto. intros r. rewrite <- I1. cbn [In]. intuition congruence.
    + assert (Hin : In a (s_main s) /\ ~ In a (frees l)).
      { apply I in Hla. destruct Hla as [Hm|Hin]; [exact Hm|]. apply F in Hin. congruence. }
      edestruct (IH (mks (s_p s) (s_main s) (Some (l ++ [SFree a])) (s_flag s)) (l ++ [SFree a])
                   (fun r => live r /\ r <> a)) as (s' & l' & R & P & M & S1 & H1); [reflexivity| |exact Hnm| |].
      * assert (Es : srows (l ++ [SFree a]) = srows l) by (rewrite srows_app; apply app_nil_r).
        assert (Ef : frees (l ++ [SFree a]) = frees l ++ [a]) by (rewrite frees_app; reflexivity).
        cbn [s_main s_flag s_p]. split; rewrite ?Es, ?Ef; auto.
        -- rewrite map_app. cbn [map]. apply NoDup_snoc; [exact C|]. intros Hi. apply in_map_iff in Hi.
           destruct Hi as (x & Ex & Hx). apply (proj2 Hin). rewrite <- (rid_inj (s_main s) x a A); auto. tauto.
        -- intros r Hr. apply in_app_iff in Hr. destruct Hr as [Hr|[<-|[]]]; [auto|tauto].
        -- intros r. rewrite in_app_iff. cbn [In]. rewrite I. split.
           ++ intros [[[Hm Hnf]|Hi] Hne]; [left; split; [exact Hm|]; intuition congruence|now right].
           ++ intros [[Hm Hnf]|Hi]; [split; [left; split; [exact Hm|tauto]|intros ->; tauto]|].
              split; [now right|]. intros ->. apply F in Hi. congruence.
      * intros r Hr. split; [apply Hl; now right|]. intros ->. contradiction.
      * cbn [s_p s_main] in P, M. exists s', l'. split; [exact R|]. do 3 (split; [assumption|]).
        destruct H1 as [A1 B1 C1 D1 E1 F1 G1 H1 I1]. split; auto. intros r. rewrite <- I1. cbn [In]. intuition congruence.
Qed.

(** state while the shadow heap is in use *)
Definition snapping (s : sst) (l : list sent) : Prop :=
  s_sh s = Some l /\ quiet (s_p s) /\ heaps (s_main s) l (s_flag s) (prim (s_p s)) (next (s_p s)).

Lemma write_snapping s l ops : snapping s l ->
  exists s' l', write s ops = Some s' /\ snapping s' l' /\ s_main s' = s_main s /\ nsec (s_p s') = nsec (s_p s).
Proof.
  intros (Hs & Hq & Hh). unfold write. destruct (run (s_p s) ops) as [p1 st] eqn:E.
  pose proof (accounted_run _ _ _ _ Hq E) as Hac.
  set (q := match st with SOk => tr_commit p1 | _ => tr_abort p1 end) in *. clearbody q.
  destruct Hac as [Aq An Afr Aff And Agone Alive Anew Anewd Anx].
  destruct (add_made (made q) (with_p s (fresh q)) l (prim (s_p s))) as (s1 & E1 & P1 & M1 & S1 & H1).
  - exact Hs.
  - cbn [with_p s_main s_flag s_p fresh next]. eapply heaps_next; [exact Anx|exact Hh].
  - exact Anewd.
  - cbn [with_p s_p fresh next]. intros r Hr. apply Anew in Hr. lia.
  - cbn [with_p s_main]. intros r Hr x Hx. apply Anew in Hr. destruct Hh as [_ _ _ _ _ _ G H _].
    destruct Hx as [Hx|Hx]; [apply G in Hx|apply H in Hx]; lia.
  - rewrite E1. destruct (remove_freed (freed q) s1 _ _ S1 H1 And) as (s2 & l2 & R & P2 & M2 & S2 & H2).
    { intros r Hr. apply Aff in Hr. exact Hr. }
    cbn [with_p s_p s_main] in P1, M1.
    exists s2, l2. split; [exact R|]. split; [|split; [congruence|rewrite P2, P1; exact An]].
    split; [exact S2|]. rewrite P2, P1. split; [exact Aq|].
    rewrite P2, P1 in H2. destruct H2 as [A B C D F G H I J]. split; auto.
    intros r. rewrite <- J. change (prim (fresh q) r) with (prim q r). split.
    + intros Hr. split; [now apply Afr|]. intros Hi. now apply (Agone r r).
    + intros [Hr Hn]. apply Alive in Hr. tauto.
Qed.

Lemma writes_snapping : forall txs s l, snapping s l ->
  exists s' l', writes s txs = Some s' /\ snapping s' l' /\ s_main s' = s_main s /\ nsec (s_p s') = nsec (s_p s).
Proof.
  induction txs as [|t txs IH]; intros s l H; cbn [writes].
  - exists s, l. auto.
  - destruct (write_snapping s l t H) as (s1 & l1 & E1 & H1 & M1 & N1). rewrite E1.
    destruct (IH s1 l1 H1) as (s2 & l2 & E2 & H2 & M2 & N2). exists s2, l2. split; [exact E2|]. split; [exact H2|]. split; congruence.
Qed.

Lemma begin_snapping s : settled s -> snapping (snapshot_begin s) [].
Proof.
  intros (Hs & Hq & [Hn Him] & Hfl). split; [reflexivity|]. split; [exact Hq|].
  pose proof Hq as (_ & [R1 R2] & _). cbn [snapshot_begin s_main s_flag s_p].
  assert (Hb : forall r, In r (s_main s) -> rid r < next (s_p s)).
  { intros r Hr. apply Him in Hr. destruct Hr as [k Hr]. eapply R1. exact Hr. }
  split; cbn [frees srows flat_map map]; try constructor; auto; try (intros r []; fail).
  - assert (G : forall l, (forall r, In r l -> In r (s_main s)) -> NoDup l -> NoDup (map rid l)).
    { induction l as [|a l IH]; intros Hsub Hnd; [constructor|]. inversion_clear Hnd as [|? ? Ha Hnl]. cbn [map]. constructor.
      - intros Hi. apply in_map_iff in Hi. destruct Hi as (x & Ex & Hx). apply Ha.
        assert (x = a); [|now subst]. assert (Ix : In x (s_main s)) by (apply Hsub; now right).
        assert (Ia : In a (s_main s)) by (apply Hsub; now left). apply Him in Ix, Ia. destruct Ix as [k Ix], Ia as [k' Ia].
        eapply R2; eassumption.
      - apply IH; [|exact Hnl]. intros r Hr. apply Hsub. now right. }
    apply G; auto.
  - intros Hr. left. split; [now apply Him|intros []].
  - intros [[Hr _]|[]]. now apply Him.
Qed.

(** *** the merge *)
Definition merging (s : sst) (l : list sent) : Prop :=
  s_sh s = None /\ quiet (s_p s) /\ NoDup (map rid (s_main s)) /\ NoDup (map rid (srows l)) /\ NoDup (map rid (frees l)) /\
  (forall r, In r (frees l) -> In r (s_main s)) /\
  (forall r, In r (s_main s) -> s_flag s (rid r) = false /\ rid r < next (s_p s)) /\
  (forall r, In r (srows l) -> rid r < next (s_p s)) /\
  (forall r x, In r (srows l) -> In x (s_main s) -> rid r <> rid x) /\
  forall r, prim (s_p s) r <-> (In r (s_main s) /\ ~ In r (frees l)) \/ In r (srows l).

Lemma merging_begin s l : snapping s l -> merging (mks (s_p s) (s_main s) None (s_flag s)) l.
Proof.
  intros (Hs & Hq & [A B C D E F G H I]). unfold merging. cbn [s_sh s_p s_main s_flag].
  split; [reflexivity|]. do 5 (split; [assumption|]). split; [intros r Hr; split; auto|]. split; [assumption|].
  split; [|exact I]. intros r x Hr Hx Ex. apply F in Hr. apply E in Hx. congruence.
Qed.

Lemma merging_end s : merging s [] -> settled s.
Proof.
  intros (Hs & Hq & A & _ & _ & _ & Hf & _ & _ & Hp). split; [exact Hs|]. split; [exact Hq|]. split.
  - split; [eapply NoDup_map_inv; exact A|]. intros r. change (exists k, ix (s_p s) 0%nat k = Some r) with (prim (s_p s) r).
    rewrite Hp. cbn. tauto.
  - intros r Hr. now apply Hf.
Qed.

Lemma merging_free s r l : merging s (SFree r :: l) -> exists s1, heap_remove s r = Some s1 /\ merging s1 l /\ s_p s1 = s_p s.
Proof.
  intros (Hs & Hq & A & B & C & D & F & G & H & I). cbn [frees srows flat_map app map] in *.
  fold (frees l) (srows l) in *. assert (Hr : In r (s_main s)) by (apply D; now left).
  unfold heap_remove. rewrite (proj1 (F r Hr)), Hs. eexists. split; [reflexivity|]. split; [|reflexivity].
  inversion_clear C as [|? ? Cr Cl]. unfold merging. cbn [s_sh s_p s_main s_flag].
  split; [reflexivity|]. split; [exact Hq|]. split; [now apply nodup_drop|]. split; [exact B|]. split; [exact Cl|].
  split.
  { intros x Hx. apply in_drop. split; [apply D; now right|]. intros Ex. apply Cr. rewrite <- Ex. now apply in_map. }
  split; [intros x Hx; apply in_drop in Hx; now apply F|]. split; [exact G|].
  split; [intros x y Hx Hy; apply in_drop in Hy; now apply H|].
  intros x. rewrite I, in_drop. split.
  - intros [[Hm Hn]|Hi]; [|now right]. left. split; [split; [exact Hm|]|intros Hx; apply Hn; now right].
    intros Ex. apply Hn. left. symmetry. exact (rid_inj (s_main s) x r A Hm Hr Ex).
  - intros [[[Hm Hne] Hn]|Hi]; [|now right]. left. split; [exact Hm|]. intros [->|Hx]; tauto.
Qed.

Lemma apply_copy p r : quiet p -> prim p r -> let c := mkrow (next p) (rkeys r) (rdata r) in
  let p1 := part_apply p c in
  quiet (mkpart (ix p1) (nsec p1) [] [] [] [] (next p1 + 1)) /\
  same p p1 /\ (forall x, prim p1 x <-> (prim p x /\ x <> r) \/ x = c).
Proof.
  intros (Hc & [R1 R2] & _) [k0 Hr] c p1.
  pose proof (proj1 Hc _ _ _ Hr) as Hk0. subst k0.
  assert (K : forall j, key_of j c = key_of j r) by reflexivity.
  assert (L : forall j k, ix p1 j k = if (j <=? nsec p)%nat then set_idx (ix p) j (key_of j c) (Some c) j k else ix p j k) by reflexivity.
  assert (C1 : consistent p1).
  { set (x0 := mkpart (ix p) (nsec p) [] [] [] [] (next p)).
    set (z0 := mkpart (ix p1) (nsec p1) [mklog REPLACE 0 c (Some r)] [(REPLACE, c)] [] [c] (next p + 1)).
    assert (C0 : consistent z0); [|exact C0]. apply (eff_consistent x0 z0); [exact Hc|].
    apply (E_upd x0 z0 r c []); try reflexivity; try assumption. constructor. }
  assert (Pr : forall x, prim p1 x <-> (prim p x /\ x <> r) \/ x = c).
  { intros x. unfold prim. split.
    - intros [k Hx]. rewrite L in Hx. cbn [Nat.leb] in Hx.
      destruct (set_cases (ix p) 0 (key_of 0 c) (Some c) 0%nat k) as [(_&->&E)|[Hd E]]; rewrite E in Hx; [right; congruence|].
      left. split; [eauto|]. intros ->. apply Hd. split; [reflexivity|]. rewrite K. symmetry. exact (proj1 Hc _ _ _ Hx).
    - intros [[[k Hx] Hne]| ->].
      + exists k. rewrite L. cbn [Nat.leb]. rewrite set_other; [exact Hx|]. intros [_ ->]. rewrite K, Hr in Hx. congruence.
      + exists (key_of 0 c). rewrite L. cbn [Nat.leb]. apply set_same. }
  split; [|split; [|exact Pr]].
  - split; [exact C1|]. split; [|auto]. split; cbn [ix next].
    + intros k x Hx. assert (P : prim p1 x) by (now exists k). apply Pr in P. destruct P as [[[k' P] _]| ->]; [apply R1 in P|]; cbn; lia.
    + intros k x k' x' Hx Hx' E. assert (P : prim p1 x) by (now exists k). assert (P' : prim p1 x') by (now exists k').
      apply Pr in P, P'. destruct P as [[[a P] _]| ->], P' as [[[a' P'] _]| ->]; auto.
      * eapply R2; eassumption.
      * apply R1 in P. cbn in E. lia.
      * apply R1 in P'. cbn in E. lia.
  - split; [reflexivity|]. intros i k Hi. unfold view. rewrite L. destruct (Nat.leb_spec i (nsec p)); [|lia].
    unfold set_idx. rewrite Nat.eqb_refl. cbn [andb]. destruct (Z.eqb_spec k (key_of i c)) as [->|_]; [|reflexivity].
    rewrite K. rewrite (update_keys_secondary p r Hc Hr i Hi). reflexivity.
Qed.

Lemma merging_row s r l : merging s (SRow r :: l) ->
  merging (fst (copy_row s r)) l /\ same (s_p s) (s_p (fst (copy_row s r))).
Proof.
  intros (Hs & Hq & A & B & C & D & F & G & H & I). cbn [frees srows flat_map app map] in *.
  fold (frees l) (srows l) in *.
  assert (Hr : prim (s_p s) r) by (apply I; right; now left).
  destruct (apply_copy _ _ Hq Hr) as (Q1 & S1 & P1).
  unfold copy_row. cbn [fst]. set (c := mkrow (next (s_p s)) (rkeys r) (rdata r)) in *.
  set (p1 := part_apply (s_p s) c) in *.
  assert (Hn : next p1 = next (s_p s)) by reflexivity.
  unfold heap_add. cbn [with_p s_sh s_p s_main s_flag]. rewrite Hs.
  split; [|exact S1].
  inversion_clear B as [|? ? Br Bl].
  assert (Hfresh : forall x, In x (s_main s) -> rid x <> rid c) by (intros x Hx; apply F in Hx; cbn; lia).
  unfold merging. cbn [s_sh s_p s_main s_flag next].
  split; [reflexivity|]. split; [exact Q1|]. split.
  { rewrite map_app. cbn [map]. apply NoDup_snoc; [exact A|]. intros Hi. apply in_map_iff in Hi.
    destruct Hi as (x & Ex & Hx). now apply (Hfresh x). }
  split; [exact Bl|]. split; [exact C|].
  split; [intros x Hx; apply in_app_iff; left; auto|].
  split.
  { intros x Hx. rewrite Hn. apply in_app_iff in Hx. destruct Hx as [Hx|[<-|[]]].
    - destruct (Z.eqb_spec (rid x) (rid c)) as [E|_]; [now apply Hfresh in E|]. apply F in Hx. split; [tauto|lia].
    - rewrite Z.eqb_refl. split; [reflexivity|]. cbn. lia. }
  split; [intros x Hx; rewrite Hn; specialize (G x (or_intror Hx)); lia|].
  split.
  { intros x y Hx Hy. apply in_app_iff in Hy. destruct Hy as [Hy|[<-|[]]]; [apply H; [now right|exact Hy]|].
    specialize (G x (or_intror Hx)). change (rid c) with (next (s_p s)). lia. }
  intros x. change (prim p1 x <-> In x (s_main s ++ [c]) /\ ~ In x (frees l) \/ In x (srows l)).
  rewrite P1, I, in_app_iff. cbn [In].
  assert (Hrm : ~ In r (s_main s)) by (intros Hm; exact (H r r (or_introl eq_refl) Hm eq_refl)).
  assert (Hrl : ~ In r (srows l)) by (intros Hi; apply Br; now apply in_map).
  assert (Hcf : ~ In c (frees l)) by (intros Hi; apply D in Hi; now apply (Hfresh c)).
  assert (Hcr : c <> r) by (intros Ec; specialize (G r (or_introl eq_refl)); rewrite <- Ec in G; cbn in G; lia).
  split.
  - intros [[[Hm|[->|Hi]] Hne]| ->]; [left; tauto|contradiction|now right|]. left. tauto.
  - intros [[[Hm|[<-|[]]] Hnf]|Hi].
    + left. split; [now left|]. intros ->. contradiction.
    + now right.
    + left. split; [right; now right|]. intros ->. contradiction.
Qed.

Lemma merge_settled : forall l s, merging s l -> exists s', merge s l = Some s' /\ settled s' /\ same (s_p s) (s_p s').
Proof.
  induction l as [|[r|r] l IH]; intros s H; cbn [merge].
  - exists s. split; [reflexivity|]. split; [now apply merging_end|apply same_refl].
  - destruct (merging_row s r l H) as [H1 S1]. destruct (IH _ H1) as (s' & E & Hs & S2). exists s'.
    split; [exact E|]. split; [exact Hs|]. eapply same_trans; eassumption.
  - destruct (merging_free s r l H) as (s1 & E1 & H1 & P1). rewrite E1. destruct (IH _ H1) as (s' & E & Hs & S2).
    exists s'. split; [exact E|]. split; [exact Hs|]. now rewrite P1 in S2.
Qed.
