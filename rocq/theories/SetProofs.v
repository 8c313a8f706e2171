(** Proofs about the grouping set. *)
From Verif Require Import Base JsonModel ValueModel HashModel HashSpec HashProofs SetModel.
Local Open Scope nat_scope.

(** ** the table alone *)
Fixpoint occupied (tab : list slot) : nat :=
  match tab with [] => 0 | Some _ :: r => S (occupied r) | None :: r => occupied r end.
Definition probe_at (h : Z) (tab : list slot) (j : nat) : nat := (slot0 h (length tab) + j) mod length tab.
Definition reach (tab : list slot) (e : Z * nat) : Prop :=
  exists j, j < length tab /\ nth (probe_at (fst e) tab j) tab None = Some e /\
            forall i, i < j -> nth (probe_at (fst e) tab i) tab None <> None.
Record table_ok (tab : list slot) (E : list (Z * nat)) : Prop := {
  to_size : 0 < length tab;
  to_reach : forall e, In e E -> reach tab e;
  to_in : forall p e, nth p tab None = Some e -> In e E;
  to_count : occupied tab = length E
}.

Lemma occupied_set tab p e : p < length tab -> nth p tab None = None -> occupied (set_nth tab p (Some e)) = S (occupied tab).
Proof.
  revert p; induction tab as [|x tab IH]; intros [|p] L H; cbn in *; try lia.
  - now subst x.
  - rewrite IH by (auto; lia). destruct x; reflexivity.
Qed.
Lemma occupied_repeat n : occupied (repeat None n) = 0.
Proof. induction n; cbn; auto. Qed.
Lemma nth_repeat_none n p : nth p (repeat (@None (Z * nat)) n) None = None.
Proof. revert p; induction n as [|n IH]; intros [|p]; cbn; auto. Qed.
Lemma slot0_lt h n : 0 < n -> slot0 h n < n.
Proof. intros H. unfold slot0. pose proof (Z.mod_pos_bound h (Z.of_nat n) ltac:(lia)). lia. Qed.
Lemma probe_lt h tab j : 0 < length tab -> probe_at h tab j < length tab.
Proof. intros H. apply Nat.mod_upper_bound. lia. Qed.
Lemma probe_0 h tab : 0 < length tab -> probe_at h tab 0 = slot0 h (length tab).
Proof. intros H. unfold probe_at. rewrite Nat.add_0_r. apply Nat.mod_small. now apply slot0_lt. Qed.
Lemma probe_next h tab j : 0 < length tab -> (probe_at h tab j + 1) mod length tab = probe_at h tab (S j).
Proof. intros H. apply mod_step. lia. Qed.
Lemma probe_surj h tab p : p < length tab -> exists j, j < length tab /\ probe_at h tab j = p.
Proof. intros H. now apply mod_surj. Qed.

(* the first empty slot of a probe sequence *)
Lemma first_empty tab h : 0 < length tab -> occupied tab < length tab ->
  exists j, j < length tab /\ nth (probe_at h tab j) tab None = None /\
            forall i, i < j -> nth (probe_at h tab i) tab None <> None.
Proof.
  intros N O.
  assert (exists p, p < length tab /\ nth p tab None = None) as (p & Hp & Hn).
  { clear N h. induction tab as [|x tab IH]; cbn in *; [lia|].
    destruct x as [e|].
    - destruct IH as (p & Hp & Hn); [lia|]. exists (S p). split; [lia|exact Hn].
    - exists 0. split; [lia|reflexivity]. }
  destruct (probe_surj h tab p Hp) as (j & Hj & <-).
  clear Hp. revert Hj Hn. induction j as [j IH] using lt_wf_ind. intros Hj Hn.
  assert ((exists i, i < j /\ nth (probe_at h tab i) tab None = None) \/
          (forall i, i < j -> nth (probe_at h tab i) tab None <> None)) as [(i & Hi & Hin)|A].
  { clear. induction j as [|j [(i & Hi & E)|A]].
    - right. lia.
    - left. exists i. split; [lia|exact E].
    - destruct (nth (probe_at h tab j) tab None) eqn:E.
      + right. intros i Hi. destruct (Nat.eq_dec i j); [subst; congruence|apply A; lia].
      + left. exists j. split; [lia|exact E]. }
  - exact (IH i Hi ltac:(lia) Hin).
  - exists j. auto.
Qed.

Lemma put_loop_spec tab e j : 0 < length tab -> j < length tab -> nth (probe_at (fst e) tab j) tab None = None ->
  (forall i, i < j -> nth (probe_at (fst e) tab i) tab None <> None) ->
  forall i fuel, i <= j -> j < i + fuel -> put_loop tab e (probe_at (fst e) tab i) fuel = Some (set_nth tab (probe_at (fst e) tab j) (Some e)).
Proof.
  intros N Hj Hn A i fuel; revert i. induction fuel as [|f IH]; intros i Hi L; [lia|]. cbn [put_loop].
  destruct (Nat.eq_dec i j) as [->|D].
  - rewrite Hn. reflexivity.
  - destruct (nth (probe_at (fst e) tab i) tab None) eqn:E; [|exfalso; apply (A i); [lia|exact E]].
    rewrite probe_next by exact N. apply IH; lia.
Qed.

Lemma insert_ok tab E e j : table_ok tab E -> j < length tab -> nth (probe_at (fst e) tab j) tab None = None ->
  (forall i, i < j -> nth (probe_at (fst e) tab i) tab None <> None) ->
  table_ok (set_nth tab (probe_at (fst e) tab j) (Some e)) (E ++ [e]).
Proof.
  intros [N R I C] Hj Hn A. set (p := probe_at (fst e) tab j) in *. assert (p < length tab) as Hp by now apply probe_lt.
  assert (forall h i, probe_at h (set_nth tab p (Some e)) i = probe_at h tab i) as PE.
  { intros h i. unfold probe_at. now rewrite set_nth_length. }
  split.
  - now rewrite set_nth_length.
  - intros e' He'. apply in_app_or in He' as [He'|[<-|[]]].
    + destruct (R e' He') as (j' & Hj' & Hv & Ho). exists j'. rewrite set_nth_length. split; [exact Hj'|].
      rewrite PE. split.
      * destruct (Nat.eq_dec p (probe_at (fst e') tab j')) as [D|D]; [|now rewrite set_nth_neq].
        rewrite <- D in Hv. congruence.
      * intros i Hi. rewrite PE. destruct (Nat.eq_dec p (probe_at (fst e') tab i)) as [D|D].
        { rewrite <- D, set_nth_eq by exact Hp. discriminate. }
        { rewrite set_nth_neq by exact D. now apply Ho. }
    + exists j. rewrite set_nth_length. split; [exact Hj|]. rewrite PE. split.
      * now rewrite set_nth_eq.
      * intros i Hi. rewrite PE. destruct (Nat.eq_dec p (probe_at (fst e) tab i)) as [D|D].
        { rewrite <- D, set_nth_eq by exact Hp. discriminate. }
        { rewrite set_nth_neq by exact D. now apply A. }
  - intros q e' H. destruct (Nat.eq_dec p q) as [<-|D].
    + rewrite set_nth_eq in H by exact Hp. injection H as <-. apply in_or_app. right. now left.
    + rewrite set_nth_neq in H by exact D. apply in_or_app. left. now apply (I q).
  - rewrite occupied_set by assumption. rewrite app_length. cbn. lia.
Qed.

Lemma put_ok tab E e : table_ok tab E -> length E < length tab ->
  exists tab', set_hash_put tab e = Some tab' /\ length tab' = length tab /\ table_ok tab' (E ++ [e]).
Proof.
  intros T L. pose proof (to_size _ _ T) as N.
  destruct (first_empty tab (fst e) N ltac:(rewrite (to_count _ _ T); exact L)) as (j & Hj & Hn & A).
  exists (set_nth tab (probe_at (fst e) tab j) (Some e)). split; [|split; [apply set_nth_length|now apply insert_ok]].
  unfold set_hash_put. rewrite <- probe_0 by exact N. apply put_loop_spec; auto; lia.
Qed.

Fixpoint slots_of (tab : list slot) : list (Z * nat) :=
  match tab with [] => [] | Some e :: r => e :: slots_of r | None :: r => slots_of r end.
Lemma slots_length tab : length (slots_of tab) = occupied tab.
Proof. induction tab as [|[e|] tab IH]; cbn; auto. Qed.
Lemma slots_in tab e : In e (slots_of tab) <-> exists p, nth p tab None = Some e.
Proof.
  induction tab as [|x tab IH]; cbn.
  - split; [intros []|]. intros ([|p] & H); discriminate.
  - destruct x as [x|]; cbn; rewrite IH.
    + split; [intros [<-|(p & H)]; [now exists 0|now exists (S p)]|].
      intros ([|p] & H); [left; congruence|right; now exists p].
    + split; [intros (p & H); now exists (S p)|intros ([|p] & H); [discriminate|now exists p]].
Qed.
Lemma put_all_ok src : forall tab E, table_ok tab E -> length E + occupied src < length tab \/ occupied src = 0 ->
  exists tab', put_all src tab = Some tab' /\ length tab' = length tab /\ table_ok tab' (E ++ slots_of src).
Proof.
  induction src as [|[e|] src IH]; intros tab E T L; cbn [put_all slots_of].
  - exists tab. rewrite app_nil_r. auto.
  - cbn in L. destruct L as [L|L]; [|lia].
    destruct (put_ok tab E e T ltac:(lia)) as (t1 & E1 & L1 & T1). rewrite E1.
    destruct (IH t1 (E ++ [e]) T1) as (t2 & E2 & L2 & T2).
    { left. rewrite app_length, L1. cbn. lia. }
    exists t2. split; [exact E2|]. split; [lia|]. now rewrite <- app_assoc in T2.
  - apply IH; assumption.
Qed.
Lemma resize_ok tab E : table_ok tab E ->
  exists tab', set_hash_resize tab = Some tab' /\ length tab' = 2 * length tab /\ table_ok tab' E.
Proof.
  intros T. pose proof (to_size _ _ T) as N.
  assert (occupied tab <= length tab) as OL.
  { clear. induction tab as [|[e|] t IH]; cbn; lia. }
  destruct (put_all_ok tab (repeat None (2 * length tab)) []) as (t & Et & Lt & Tt).
  - split.
    + rewrite repeat_length. lia.
    + intros e [].
    + intros p e H. rewrite nth_repeat_none in H. discriminate.
    + apply occupied_repeat.
  - left. rewrite repeat_length. cbn [length]. lia.
  - exists t. rewrite repeat_length in Lt. split; [exact Et|]. split; [exact Lt|].
    cbn [app] in Tt. destruct Tt as [N' R' I' C']. split.
    + exact N'.
    + intros e He. apply R', slots_in. destruct (to_reach _ _ T e He) as (j & _ & H & _). eauto.
    + intros p e H. apply I', slots_in in H as (q & H). eapply to_in; eauto.
    + rewrite C', slots_length. apply (to_count _ _ T).
Qed.

(** ** the set *)
Section S.
Context {K A : Type}.
Variable eqb : K -> K -> bool.
Variable hash : K -> Z.
Variable a0 : A.
Variable ok : K -> Prop.
Hypothesis eqb_refl : forall a, ok a -> eqb a a = true.
Hypothesis eqb_sym : forall a b, ok a -> ok b -> eqb a b = true -> eqb b a = true.
Hypothesis eqb_trans : forall a b c, ok a -> ok b -> ok c -> eqb a b = true -> eqb b c = true -> eqb a c = true.
Hypothesis hash_eqb : forall a b, ok a -> ok b -> eqb a b = true -> hash a = hash b.

Definition keys (s : gset K A) : list K := map fst (srows s).
Definition entries (ks : list K) : list (Z * nat) := combine (map hash ks) (seq 0 (length ks)).
Lemma entries_length ks : length (entries ks) = length ks.
Proof using Type. clear ok hash_eqb eqb_trans eqb_sym eqb_refl eqb. unfold entries. rewrite combine_length, map_length, seq_length. lia. Qed.
Lemma combine_app {X Y} (a a' : list X) (b b' : list Y) : length a = length b -> combine (a ++ a') (b ++ b') = combine a b ++ combine a' b'.
Proof using Type. clear ok hash_eqb eqb_trans eqb_sym eqb_refl eqb. revert b; induction a as [|x a IH]; intros [|y b] L; try discriminate; cbn; auto. f_equal. apply IH. now injection L. Qed.
Lemma entries_app ks k : entries (ks ++ [k]) = entries ks ++ [(hash k, length ks)].
Proof using Type. clear ok hash_eqb eqb_trans eqb_sym eqb_refl eqb.
  unfold entries. rewrite map_app, app_length. cbn [length map]. rewrite seq_app. cbn [seq].
  rewrite combine_app by (now rewrite map_length, seq_length). reflexivity.
Qed.
Lemma entries_in ks h r : In (h, r) (entries ks) <-> exists k, nth_error ks r = Some k /\ hash k = h.
Proof using Type. clear ok hash_eqb eqb_trans eqb_sym eqb_refl eqb.
  induction ks as [|x ks IH] using rev_ind.
  - cbn. split; [intros []|]. intros (k & H & _). destruct r; discriminate.
  - rewrite entries_app, in_app_iff, IH. cbn. split.
    + intros [(k & H & E)|[H|[]]].
      * exists k. split; [|exact E]. rewrite nth_error_app1; [exact H|]. apply nth_error_Some. congruence.
      * injection H as H <-. exists x. split; [|exact H]. rewrite nth_error_app2, Nat.sub_diag by lia. reflexivity.
    + intros (k & H & E). destruct (Nat.lt_ge_cases r (length ks)) as [L|L].
      * left. exists k. rewrite nth_error_app1 in H by exact L. auto.
      * right. left. rewrite nth_error_app2 in H by exact L. destruct (r - length ks) as [|m] eqn:D.
        { cbn in H. injection H as <-. f_equal; [exact E|lia]. }
        { destruct m; discriminate. }
Qed.

Definition distinct (ks : list K) : Prop :=
  forall i j a b, nth_error ks i = Some a -> nth_error ks j = Some b -> eqb a b = true -> i = j.
Definition tab_of (s : gset K A) : list slot := match stab s with [] => repeat None 64 | t => t end.
Record inv (s : gset K A) : Prop := {
  i_ok : Forall ok (keys s);
  i_distinct : distinct (keys s);
  i_tab : table_ok (tab_of s) (entries (keys s));
  i_load : length (keys s) <= length (tab_of s) / 2
}.

Lemma inv_empty : inv set_empty.
Proof using Type. clear hash_eqb eqb_trans eqb_sym eqb_refl.
  split; cbn.
  - constructor.
  - intros [|i] j a b H; discriminate.
  - change (table_ok (repeat None 64) []). split.
    + rewrite repeat_length. lia.
    + intros e [].
    + intros p e H. rewrite nth_repeat_none in H. discriminate.
    + reflexivity.
  - lia.
Qed.

Lemma find_loop_spec rows tab k h : 0 < length tab -> forall j, j < length tab ->
  (forall i, i < j -> exists h' r, nth (probe_at h tab i) tab None = Some (h', r) /\
     (h' = h -> forall k' a, nth_error rows r = Some (k', a) -> eqb k' k = false)) ->
  (nth (probe_at h tab j) tab None = None \/
   exists r k' a, nth (probe_at h tab j) tab None = Some (h, r) /\ nth_error rows r = Some (k', a) /\ eqb k' k = true) ->
  forall i fuel, i <= j -> j < i + fuel -> find_loop (A := A) eqb rows tab k h (probe_at h tab i) fuel = Some (probe_at h tab j).
Proof. clear hash_eqb eqb_trans eqb_sym eqb_refl.
  intros N j Hj Pre Stop i fuel; revert i. induction fuel as [|f IH]; intros i Hi L; [lia|]. cbn [find_loop].
  destruct (Nat.eq_dec i j) as [->|D].
  - destruct Stop as [->|(r & k' & a & -> & -> & ->)]; [reflexivity|]. rewrite Z.eqb_refl. reflexivity.
  - destruct (Pre i ltac:(lia)) as (h' & r & -> & F). rewrite probe_next by exact N.
    rewrite IH by lia. destruct (Z.eqb_spec h' h) as [E|E]; [|reflexivity].
    destruct (nth_error rows r) as [[k' a]|] eqn:R; [|reflexivity]. rewrite (F E k' a eq_refl). reflexivity.
Qed.

Lemma nth_keys rows r : nth_error (map (@fst K A) rows) r = option_map fst (nth_error rows r).
Proof using Type. apply nth_error_map. Qed.

(** one upsert *)
Lemma upsert_spec s k h0 : inv s -> ok k -> (h0 = 0%Z \/ h0 = hash k) ->
  exists r ex s', set_upsert eqb hash a0 s k h0 = Some (r, ex, s') /\ inv s' /\
    ((ex = true /\ srows s' = srows s /\ exists k', nth_error (keys s) r = Some k' /\ eqb k' k = true) \/
     (ex = false /\ r = length (srows s) /\ srows s' = srows s ++ [(k, a0)] /\
      forall k', In k' (keys s) -> eqb k' k = false)).
Proof.
  intros I Hk Hh. unfold set_upsert. cbv zeta.
  change (match stab s with [] => repeat None 64 | t => t end) with (tab_of s).
  replace (if (h0 =? 0)%Z then hash k else h0) with (hash k) by (destruct (Z.eqb_spec h0 0); destruct Hh; congruence).
  assert (length (srows s) = length (keys s)) as LK by (unfold keys; now rewrite map_length).
  assert (exists tab, (if length (tab_of s) / 2 <=? length (srows s) then set_hash_resize (tab_of s) else Some (tab_of s)) = Some tab /\
     table_ok tab (entries (keys s)) /\ length (keys s) < length tab / 2) as (tab & ET & T & L).
  { destruct (Nat.leb_spec (length (tab_of s) / 2) (length (srows s))) as [C|C].
    - destruct (resize_ok _ _ (i_tab s I)) as (t & E & Lt & T). exists t. split; [exact E|]. split; [exact T|].
      rewrite Lt. pose proof (i_load s I). pose proof (to_size _ _ (i_tab s I)).
      replace (2 * length (tab_of s) / 2) with (length (tab_of s)) by (rewrite Nat.mul_comm, Nat.div_mul; lia).
      pose proof (Nat.div_lt (length (tab_of s)) 2 ltac:(lia) ltac:(lia)). lia.
    - exists (tab_of s). split; [reflexivity|]. split; [apply (i_tab s I)|]. lia. }
  match goal with |- context [match ?X with Some _ => _ | None => None end] => replace X with (Some tab) by (symmetry; exact ET) end.
  pose proof (to_size _ _ T) as N. pose proof (Nat.div_lt (length tab) 2 N ltac:(lia)) as DL.
  set (h := hash k).
  rewrite <- (probe_0 h tab N).
  assert (forall t, length t = length tab -> tab_of (mkset (srows s) t) = t) as TO1.
  { intros t Lt. unfold tab_of; cbn. destruct t; [cbn in Lt; lia|reflexivity]. }
  (* is the key in the set *)
  assert ((exists r k', nth_error (keys s) r = Some k' /\ eqb k' k = true) \/ (forall k', In k' (keys s) -> eqb k' k = false)) as [(r & k' & Hr & Hek)|No].
  { clear -eqb_refl. induction (keys s) as [|x l [(r & k' & Hr & He)|IH]].
    - right. intros ? [].
    - left. exists (S r), k'. auto.
    - destruct (eqb x k) eqn:E.
      + left. exists 0, x. auto.
      + right. intros y [<-|Hy]; auto. }
  - (* found *)
    assert (ok k') as Hok' by (eapply (proj1 (Forall_forall ok (keys s))); [apply (i_ok s I)|apply nth_error_In in Hr; exact Hr]).
    assert (hash k' = h) as Eh by (apply hash_eqb; assumption).
    destruct (to_reach _ _ T (h, r)) as (j & Hj & Hv & Ho).
    { apply entries_in. exists k'. auto. }
    cbn [fst] in Hv, Ho.
    assert (exists a, nth_error (srows s) r = Some (k', a)) as (a & Ha).
    { unfold keys in Hr. rewrite nth_keys in Hr. destruct (nth_error (srows s) r) as [[x a]|]; [|discriminate].
      cbn in Hr. injection Hr as ->. now exists a. }
    set (hit := fun i => match nth (probe_at h tab i) tab None with
                         | Some (h', r') => (h' =? h)%Z && match nth_error (srows s) r' with Some (k2, _) => eqb k2 k | None => false end
                         | None => false end).
    assert (hit j = true) as Hh_j by (unfold hit; rewrite Hv, Z.eqb_refl, Ha; exact Hek).
    assert (exists i, i <= j /\ hit i = true /\ forall i', i' < i -> hit i' = false) as (i & Hij & Hi & Hpre).
    { clear -Hh_j. induction j as [j IH] using lt_wf_ind.
      assert ((exists i, i < j /\ hit i = true) \/ (forall i, i < j -> hit i = false)) as [(i & Hi & Ei)|F].
      { clear. induction j as [|j [(i & Hi & E)|F]].
        - right. lia.
        - left. exists i. split; [lia|exact E].
        - destruct (hit j) eqn:E.
          + left. exists j. split; [lia|exact E].
          + right. intros i Hi. destruct (Nat.eq_dec i j) as [->|D]; [exact E|apply F; lia]. }
      - destruct (IH i Hi Ei) as (i0 & L0 & E0 & F0). exists i0. split; [lia|auto].
      - exists j. split; [lia|]. auto. }
    unfold hit in Hi. destruct (nth (probe_at h tab i) tab None) as [[h' r']|] eqn:Ev; [|discriminate].
    apply andb_prop in Hi as [Eh' Hm]. apply Z.eqb_eq in Eh'. subst h'.
    destruct (nth_error (srows s) r') as [[k2 a2]|] eqn:Er'; [|discriminate].
    rewrite (find_loop_spec (srows s) tab k h N i ltac:(lia)); [| | |lia|lia].
    + rewrite Ev. exists r', true, (mkset (srows s) tab). split; [reflexivity|]. split.
      * split; cbn; try apply I.
        { rewrite TO1 by reflexivity. exact T. }
        { rewrite TO1 by reflexivity. change (length (keys s) <= length tab / 2). lia. }
      * left. split; [reflexivity|]. split; [reflexivity|]. exists k2. split; [|exact Hm].
        unfold keys. rewrite nth_keys, Er'. reflexivity.
    + intros i' Hi'. destruct (nth (probe_at h tab i') tab None) as [[h2 r2]|] eqn:Ei; [|exfalso; exact (Ho i' ltac:(lia) Ei)].
      exists h2, r2. split; [reflexivity|]. intros -> k3 a3 H3. pose proof (Hpre i' Hi') as F. unfold hit in F.
      rewrite Ei, Z.eqb_refl, H3 in F. exact F.
    + right. exists r', k2, a2. auto.
  - (* not found *)
    destruct (first_empty tab h N ltac:(rewrite (to_count _ _ T), entries_length; lia)) as (j & Hj & Hn & Ho).
    rewrite (find_loop_spec (srows s) tab k h N j Hj); [| | |lia|lia].
    + rewrite Hn. eexists _, false, _. split; [reflexivity|].
      pose proof (insert_ok tab _ (h, length (srows s)) j T Hj Hn Ho) as T'. cbn [fst] in T'.
      split.
      * assert (keys (mkset (srows s ++ [(k, a0)]) (set_nth tab (probe_at h tab j) (Some (h, length (srows s))))) = keys s ++ [k]) as KE.
        { unfold keys. cbn. now rewrite map_app. }
        assert (tab_of (mkset (srows s ++ [(k, a0)]) (set_nth tab (probe_at h tab j) (Some (h, length (srows s))))) = set_nth tab (probe_at h tab j) (Some (h, length (srows s)))) as TE.
        { unfold tab_of. cbn. destruct (set_nth tab (probe_at h tab j) (Some (h, length (srows s)))) eqn:E; [|reflexivity].
          apply (f_equal (@length slot)) in E. rewrite set_nth_length in E. cbn in E. lia. }
        split.
        { rewrite KE. apply Forall_app. split; [apply I|auto]. }
        { rewrite KE. intros i1 i2 x y H1 H2 Exy.
          assert (forall i z, nth_error (keys s ++ [k]) i = Some z -> (i < length (keys s) /\ nth_error (keys s) i = Some z) \/ (i = length (keys s) /\ z = k)) as Cs.
          { intros i z H. destruct (Nat.lt_ge_cases i (length (keys s))) as [C|C].
            - left. rewrite nth_error_app1 in H by exact C. auto.
            - right. rewrite nth_error_app2 in H by exact C. destruct (i - length (keys s)) as [|m] eqn:D; [|destruct m; discriminate].
              cbn in H. split; [lia|congruence]. }
          assert (forall z i, nth_error (keys s) i = Some z -> ok z) as OKz.
          { intros z i H. eapply (proj1 (Forall_forall ok (keys s))); [apply (i_ok s I)|apply nth_error_In in H; exact H]. }
          destruct (Cs i1 x H1) as [[C1 D1]|[C1 D1]], (Cs i2 y H2) as [[C2 D2]|[C2 D2]].
          - eapply (i_distinct s I); eauto.
          - subst y. rewrite No in Exy; [discriminate|]. apply nth_error_In in D1. exact D1.
          - subst x. apply eqb_sym in Exy; eauto. rewrite No in Exy; [discriminate|]. apply nth_error_In in D2. exact D2.
          - lia. }
        { rewrite KE, TE, entries_app, <- LK. exact T'. }
        { rewrite KE, TE, set_nth_length, app_length. cbn [length]. lia. }
      * right. split; [reflexivity|]. split; [reflexivity|]. split; [reflexivity|exact No].
    + intros i Hi. destruct (nth (probe_at h tab i) tab None) as [[h' r']|] eqn:Ei; [|exfalso; exact (Ho i Hi Ei)].
      exists h', r'. split; [reflexivity|]. intros -> k2 a2 H2. apply No.
      apply nth_error_In in H2. apply (in_map fst) in H2. exact H2.
    + now left.
Qed.
End S.
