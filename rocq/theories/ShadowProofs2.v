From Verif Require Import PartModel PartProofs ReplayModel ReplayProofs IdxModel IdxSpec IdxProofs ShadowModel ShadowSpec ShadowProofs.
From Coq Require Import List ZArith Lia Bool Permutation.
Import ListNotations.
Open Scope Z_scope.

(** *** writes with no shadow heap *)
Lemma add_plain : forall mk s, s_sh s = None -> (forall r, In r mk -> forall x, In x (s_main s) -> rid x <> rid r) ->
  (forall r, In r (s_main s) -> s_flag s (rid r) = false) -> NoDup (map rid (s_main s)) -> NoDup (map rid mk) ->
  let s' := fold_left heap_add mk s in
  s_p s' = s_p s /\ s_sh s' = None /\ s_main s' = s_main s ++ mk /\ NoDup (map rid (s_main s')) /\
  forall r, In r (s_main s') -> s_flag s' (rid r) = false.
Proof.
  induction mk as [|a mk IH]; intros s Hs Hd Hf Hn Hm; cbv zeta; cbn [fold_left].
  - rewrite app_nil_r. auto.
  - cbn [map] in Hm. inversion_clear Hm as [|? ? Ha Hmk].
    destruct (IH (heap_add s a)) as (A & B & C & D & E).
    + unfold heap_add. now rewrite Hs.
    + unfold heap_add. rewrite Hs. cbn [s_main]. intros r Hr x Hx. apply in_app_iff in Hx. destruct Hx as [Hx|[<-|[]]].
      * apply (Hd r); auto. now right.
      * intros Ex. apply Ha. rewrite Ex. now apply in_map.
    + unfold heap_add. rewrite Hs. cbn [s_main s_flag]. intros r Hr.
      destruct (Z.eqb_spec (rid r) (rid a)) as [Er|Er]; [reflexivity|]. apply in_app_iff in Hr.
      destruct Hr as [Hr|[<-|[]]]; [auto|contradiction].
    + unfold heap_add. rewrite Hs. cbn [s_main]. rewrite map_app. cbn [map]. apply NoDup_snoc; [exact Hn|].
      intros Hi. apply in_map_iff in Hi. destruct Hi as (x & Ex & Hx). exact (Hd a (or_introl eq_refl) x Hx Ex).
    + exact Hmk.
    + assert (X : s_p (heap_add s a) = s_p s /\ s_main (heap_add s a) = s_main s ++ [a]) by (unfold heap_add; now rewrite Hs).
      destruct X as [X1 X2]. rewrite X1 in A. rewrite X2, <- app_assoc in C. cbn [app] in C. auto.
Qed.

Lemma remove_plain : forall fr s, s_sh s = None -> (forall r, In r (s_main s) -> s_flag s (rid r) = false) ->
  NoDup (map rid (s_main s)) -> NoDup (map rid fr) -> (forall r, In r fr -> In r (s_main s)) ->
  exists s', remove_all s fr = Some s' /\ s_p s' = s_p s /\ s_sh s' = None /\ s_flag s' = s_flag s /\
    NoDup (map rid (s_main s')) /\ forall r, In r (s_main s') <-> In r (s_main s) /\ ~ In r fr.
Proof.
  induction fr as [|a fr IH]; intros s Hs Hf Hn Hm Hsub; cbn [remove_all].
  - exists s. do 5 (split; [auto|]). intros r. cbn. tauto.
  - cbn [map] in Hm. inversion_clear Hm as [|? ? Ha Hfr].
    assert (Hin : In a (s_main s)) by (apply Hsub; now left).
    unfold heap_remove. rewrite (Hf a Hin), Hs.
    edestruct (IH (mks (s_p s) (drop_row (rid a) (s_main s)) None (s_flag s))) as (s' & A & B & C & D & E & F);
      [reflexivity| | |exact Hfr| |].
    + cbn [s_main s_flag]. intros r Hr. apply in_drop in Hr. apply Hf. tauto.
    + cbn [s_main]. now apply nodup_drop.
    + cbn [s_main]. intros r Hr. apply in_drop. split; [apply Hsub; now right|]. intros Er. apply Ha.
      rewrite <- Er. now apply in_map.
    + cbn [s_p s_flag s_main] in *. exists s'. split; [exact A|]. do 4 (split; [assumption|]).
      intros r. rewrite F, in_drop. cbn [In]. split.
      * intros [[H1 H2] H3]. split; [exact H1|]. intros [->|H4]; tauto.
      * intros [H1 H2]. split; [split; [exact H1|]|tauto]. intros Er. apply H2. left. symmetry.
        exact (rid_inj (s_main s) r a Hn H1 Hin Er).
Qed.

Lemma write_settled s ops : settled s -> exists s', write s ops = Some s' /\ settled s' /\ nsec (s_p s') = nsec (s_p s).
Proof.
  intros (Hs & Hq & Him & Hfl). unfold write. destruct (run (s_p s) ops) as [p1 st] eqn:E.
  pose proof (accounted_run _ _ _ _ Hq E) as Hac.
  set (q := match st with SOk => tr_commit p1 | _ => tr_abort p1 end) in *. clearbody q.
  destruct Hac as [Aq An Afr Aff And Agone Alive Anew Anewd Anx].
  pose proof (begin_snapping s (conj Hs (conj Hq (conj Him Hfl)))) as (_ & _ & [Hmain _ _ _ _ _ Hmn _ _]).
  cbn [snapshot_begin s_main s_p] in Hmain, Hmn.
  destruct Him as [_ Him].
  destruct (add_plain (made q) (with_p s (fresh q))) as (A & B & C & D & F); cbn [with_p s_sh s_main s_flag s_p]; auto.
  { intros r Hr x Hx. apply Anew in Hr. apply Hmn in Hx. lia. }
  set (s1 := fold_left heap_add (made q) (with_p s (fresh q))) in *. cbn [with_p s_p s_main] in A, C.
  destruct (remove_plain (freed q) s1 B F D And) as (s2 & R & P2 & S2 & F2 & N2 & I2).
  { intros r Hr. rewrite C, in_app_iff. apply Aff in Hr. destruct Hr as [Hr|Hr]; [left; now apply Him|now right]. }
  exists s2. split; [exact R|]. rewrite P2, A. split; [|exact An].
  split; [exact S2|]. rewrite P2, A. split; [exact Aq|]. split.
  - split; [eapply NoDup_map_inv; exact N2|]. intros r. rewrite I2, C, in_app_iff.
    change (exists k, ix (fresh q) 0%nat k = Some r) with (prim q r). split.
    + intros [Hr Hn]. destruct (Alive r) as [L|L]; [|exact L|contradiction]. destruct Hr as [Hr|Hr]; [left; now apply Him|now right].
    + intros Hr. split; [|intros Hi; now apply (Agone r r)]. destruct (Afr r Hr) as [G|G]; [left; now apply Him|now right].
  - intros r Hr. rewrite F2. apply F. now apply I2.
Qed.

(** *** CREATE INDEX *)
Definition unique_on (p : part) (i : nat) : Prop :=
  forall r r', prim p r -> prim p r' -> key_of i r = key_of i r' -> r = r'.

Lemma unique_copy i p r c p1 : prim p r -> (forall j, key_of j c = key_of j r) -> ~ prim p c ->
  (forall x, prim p1 x <-> (prim p x /\ x <> r) \/ x = c) -> (unique_on p i <-> unique_on p1 i).
Proof.
  intros Hr K Hc P. split; intros U x y Hx Hy E.
  - apply P in Hx, Hy. destruct Hx as [[Hx Nx]| ->], Hy as [[Hy Ny]| ->]; auto.
    + exfalso. apply Nx. apply U; auto. now rewrite E, K.
    + exfalso. apply Ny. apply U; auto. now rewrite <- E, K.
  - assert (D : forall z, {z = r} + {z <> r}).
    { intros z. destruct z as [a b d], r as [a' b' d']. destruct (Z.eq_dec a a') as [->|]; [|right; congruence].
      destruct (list_eq_dec Z.eq_dec b b') as [->|]; [|right; congruence].
      destruct (Z.eq_dec d d') as [->|]; [now left|right; congruence]. }
    assert (Pc : prim p1 c) by (apply P; now right).
    assert (Pz : forall z, prim p z -> z <> r -> prim p1 z) by (intros z Hz Nz; apply P; left; auto).
    destruct (D x) as [Ex|Nx], (D y) as [Ey|Ny].
    + congruence.
    + assert (c = y); [|subst y; contradiction]. apply U; auto. now rewrite K, <- Ex.
    + assert (x = c); [|subst x; contradiction]. apply U; auto. now rewrite K, <- Ey.
    + apply U; auto.
Qed.

Definition holds (i : nat) (m : Z -> option row) (l : list row) : Prop :=
  forall k x, m k = Some x <-> In x l /\ key_of i x = k.

Lemma index_merge_spec i : forall l s m, merging s l -> frees l = [] -> holds i m (s_main s) ->
  exists s' m' b, index_merge i s m l = Some (s', m', b) /\
    (b = true <-> unique_on (s_p s) i) /\
    (b = true -> settled s' /\ same (s_p s) (s_p s') /\ holds i m' (s_main s')).
Proof.
  induction l as [|[r|r] l IH]; intros s m H Hnf Hm; cbn [index_merge].
  - exists s, m, true. split; [reflexivity|]. split.
    + split; [intros _|reflexivity]. intros x y Hx Hy E.
      pose proof H as (_ & _ & _ & _ & _ & _ & _ & _ & _ & Hp). apply Hp in Hx, Hy. cbn in Hx, Hy.
      assert (m (key_of i x) = Some x) by (apply Hm; tauto). assert (m (key_of i y) = Some y) by (apply Hm; tauto). congruence.
    + intros _. split; [now apply merging_end|]. split; [apply same_refl|exact Hm].
  - change (frees (SRow r :: l)) with (frees l) in Hnf.
    pose proof (merging_row s r l H) as [H1 S1].
    pose proof H as (Hs & Hq & A & B & C & D & F & G & Hd & I).
    assert (Hr : prim (s_p s) r) by (apply I; right; now left).
    destruct (apply_copy _ _ Hq Hr) as (Q1 & _ & P1).
    assert (Hrm : ~ In r (s_main s)) by (intros Hi; exact (Hd r r (or_introl eq_refl) Hi eq_refl)).
    assert (Hfree0 : frees (SRow r :: l) = []) by exact Hnf.
    set (c := mkrow (next (s_p s)) (rkeys r) (rdata r)) in *.
    assert (Ec : snd (copy_row s r) = c) by reflexivity.
    destruct (copy_row s r) as [s1 c'] eqn:Ecp. cbn [fst snd] in *. subst c'.
    assert (Hmain : s_main s1 = s_main s ++ [c]).
    { unfold copy_row in Ecp. unfold heap_add in Ecp. cbn [with_p s_sh] in Ecp. rewrite Hs in Ecp.
      injection Ecp as <-. reflexivity. }
    assert (Hp1 : ix (s_p s1) = ix (part_apply (s_p s) c)).
    { unfold copy_row in Ecp. unfold heap_add in Ecp. cbn [with_p s_sh] in Ecp. rewrite Hs in Ecp.
      injection Ecp as <-. reflexivity. }
    assert (P1' : forall x, prim (s_p s1) x <-> (prim (s_p s) x /\ x <> r) \/ x = c).
    { intros x. rewrite <- P1. unfold prim. now rewrite Hp1. }
    assert (Hcp : ~ prim (s_p s) c).
    { intros [k Hk]. destruct Hq as (_ & [R1 _] & _). apply R1 in Hk. cbn in Hk. lia. }
    pose proof (unique_copy i (s_p s) r c (s_p s1) Hr (fun j => eq_refl) Hcp P1') as U1.
    destruct (m (key_of i c)) as [x|] eqn:Em.
    + exists s1, m, false. split; [reflexivity|]. split; [|discriminate]. split; [discriminate|].
      intros U. exfalso. apply Hm in Em. destruct Em as [Hx Ex].
      assert (x = r); [|subst x; contradiction]. apply U; [|exact Hr|exact Ex].
      apply I. left. split; [exact Hx|]. rewrite Hfree0. intros [].
    + edestruct (IH s1 (fun k => if k =? key_of i c then Some c else m k) H1 Hnf) as (s' & m' & b & E & U & R).
      { intros k x. rewrite Hmain, in_app_iff. cbn [In]. destruct (Z.eqb_spec k (key_of i c)) as [->|Hne].
        - split.
          + intros E. assert (c = x) by congruence. subst x. auto.
          + intros [[Hx|[<-|[]]] Ex]; [|reflexivity]. exfalso.
            assert (G0 : m (key_of i c) = Some x) by (apply Hm; auto). congruence.
        - split; [intros E; apply (Hm k x) in E; destruct E; auto|]. intros [[Hx|[<-|[]]] Ex]; [apply (Hm k x); auto|]. congruence. }
      exists s', m', b. split; [exact E|]. split; [rewrite U; now symmetry|].
      intros Hb. destruct (R Hb) as (R1 & R2 & R3). split; [exact R1|]. split; [|exact R3]. eapply same_trans; eassumption.
  - discriminate Hnf.
Qed.

Lemma indexate_spec s l : snapping s l -> frees l = [] ->
  exists s' st, indexate_finish s = Some (s', st) /\
    (st = SOk <-> unique_on (s_p s) (S (nsec (s_p s)))) /\ (st = SOk \/ st = SErr) /\
    (st = SOk -> settled s' /\ nsec (s_p s') = S (nsec (s_p s)) /\ rows_eq (s_p s) (s_p s') /\ consistent (s_p s')).
Proof.
  intros Hsn Hf. pose proof (merging_begin s l Hsn) as Hmg. destruct Hsn as (Hs & Hq & Hh).
  unfold indexate_finish. set (i := S (nsec (s_p s))).
  assert (Hlive : forall r, In r (s_main s) -> prim (s_p s) r).
  { intros r Hr. destruct Hh as [_ _ _ _ _ _ _ _ I]. apply I. left. split; [exact Hr|]. rewrite Hf. intros []. }
  destruct (build i (fun _ => None) (s_main s)) as [m|] eqn:Eb.
  - rewrite Hs. pose proof (build_some i _ _ _ Eb) as (B & C & _).
    edestruct (index_merge_spec i l (mks (s_p s) (s_main s) None (s_flag s)) m Hmg Hf) as (s1 & m1 & b & E & U & R).
    { intros k x. cbn [s_main]. split.
      - intros Hx. destruct (in_dec Z.eq_dec k (map (key_of i) (s_main s))) as [Hi|Hi].
        + apply in_map_iff in Hi. destruct Hi as (y & Ey & Hy). pose proof (B y Hy) as By. rewrite Ey, Hx in By.
          assert (x = y) by congruence. subst y. auto.
        + rewrite C in Hx; [discriminate|]. intros y Hy Ey. apply Hi. apply in_map_iff. eauto.
      - intros [Hx <-]. now apply B. }
    rewrite E. cbn [s_p] in U, R. destruct b.
    + destruct (R eq_refl) as (R1 & R2 & R3).
      exists (with_p s1 (mkpart (fun j k => if Nat.eqb j i then m1 k else ix (s_p s1) j k) i
                              (log (s_p s1)) (wal (s_p s1)) (freed (s_p s1)) (made (s_p s1)) (next (s_p s1)))), SOk.
      split; [reflexivity|]. split; [split; [intros _; now apply U|reflexivity]|]. split; [now left|]. intros _.
      destruct R1 as (T1 & T2 & [T3 T4] & T5). pose proof R2 as [N2 _].
      pose proof T2 as (Hc1 & Hr1 & Hl1 & Hw1 & Hf1 & Hm1).
      assert (C2 : consistent (mkpart (fun j k => if Nat.eqb j i then m1 k else ix (s_p s1) j k) i
                              (log (s_p s1)) (wal (s_p s1)) (freed (s_p s1)) (made (s_p s1)) (next (s_p s1)))).
      { split.
        - intros j k r Hr. cbn [ix] in Hr. destruct (Nat.eqb_spec j i) as [->|_]; [now apply R3 in Hr|exact (proj1 Hc1 _ _ _ Hr)].
        - cbn [nsec]. intros j Hj. cbn [ix]. destruct (Nat.eqb_spec 0 i) as [Hz|_]; [unfold i in Hz; lia|].
          destruct (Nat.eqb_spec j i) as [->|Hne].
          + split.
            * intros k r Hr. apply R3. split; [apply T4; eauto|reflexivity].
            * intros k r Hr. apply R3 in Hr. destruct Hr as [Hr _]. apply T4 in Hr. destruct Hr as [k0 Hr].
              now rewrite (proj1 Hc1 _ _ _ Hr).
          + apply (proj2 Hc1). unfold i in *. lia. }
      cbn [with_p s_p nsec]. split; [|split; [reflexivity|split; [|exact C2]]].
      * split; [exact T1|]. cbn [with_p s_p s_main s_flag]. split; [|split; [split; [exact T3|exact T4]|exact T5]].
        split; [exact C2|]. split; [exact Hr1|]. auto.
      * intros k. rewrite (same_rows _ _ R2 k). reflexivity.
    + exists s1, SErr. split; [reflexivity|]. split; [split; [discriminate|]|split; [now right|discriminate]].
      intros HU. apply U in HU. discriminate.
  - exists s, SErr. split; [reflexivity|]. split; [split; [discriminate|]|split; [now right|discriminate]].
    intros HU. exfalso.
    destruct (build_spec i (s_main s) (fun _ => None)) as (m & E & _); [reflexivity| | |congruence].
    + intros r r' Hr Hr'. apply HU; auto.
    + destruct Hh as [A _ _ _ _ _ _ _ _]. eapply NoDup_map_inv. exact A.
Qed.

(* the rows of the start of the build are still there: nothing to release later *)
Lemma no_frees s l main : snapping s l -> s_main s = main -> (forall r, In r main -> prim (s_p s) r) -> frees l = [].
Proof.
  intros (_ & _ & [A B C D E F G H I]) Hm Hall. destruct (frees l) as [|r t] eqn:Ef; [reflexivity|]. exfalso.
  assert (Hr : In r (s_main s)) by (apply D; now left). rewrite Hm in Hr. pose proof (Hall r Hr) as P. apply I in P.
  destruct P as [[_ P]|P]; [apply P; now left|]. apply F in P. rewrite <- Hm in Hr. apply E in Hr. congruence.
Qed.
