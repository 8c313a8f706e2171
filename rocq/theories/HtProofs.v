(** Proofs about the hash table of HtModel.v *)
From Verif Require Import Base HtModel HtSpec.
From Coq Require Import Permutation.
Local Open Scope nat_scope.

Lemma put_length idx p v : length (put idx p v) = length idx.
Proof. revert p; induction idx as [|x r IH]; intros [|p]; cbn [put length]; auto. Qed.
Lemma slot_put_same idx p v : p < length idx -> slot (put idx p v) p = v.
Proof.
  unfold slot. revert p; induction idx as [|x r IH]; intros [|p] H; cbn [put length nth] in *; try lia; [reflexivity|apply IH; lia].
Qed.
Lemma slot_put_other idx p q v : p <> q -> slot (put idx p v) q = slot idx q.
Proof.
  unfold slot. revert p q; induction idx as [|x r IH]; intros [|p] [|q] H; cbn [put nth] in *; try congruence; auto.
Qed.
Lemma upd_same {A} (f : nat -> A) n v : upd f n v n = v.
Proof. unfold upd. now rewrite Nat.eqb_refl. Qed.
Lemma upd_other {A} (f : nat -> A) n m v : m <> n -> upd f n v m = f m.
Proof. intros H. unfold upd. now rewrite (proj2 (Nat.eqb_neq m n) H). Qed.

Fixpoint somes (idx : list (option nat)) : list nat :=
  match idx with [] => [] | None :: r => somes r | Some n :: r => n :: somes r end.
Lemma somes_le idx : length (somes idx) <= length idx.
Proof. induction idx as [|[n|] r IH]; cbn [somes length]; lia. Qed.
Lemma somes_empty_slot idx : length (somes idx) < length idx -> exists p, p < length idx /\ slot idx p = None.
Proof.
  induction idx as [|[n|] r IH]; cbn [somes length]; intros H; [lia| |].
  - destruct (IH ltac:(lia)) as (p & Hp & E). exists (S p). split; [lia|exact E].
  - exists 0. split; [lia|reflexivity].
Qed.
Lemma in_somes idx n : In n (somes idx) <-> exists p, p < length idx /\ slot idx p = Some n.
Proof.
  induction idx as [|[m|] r IH]; cbn [somes length In].
  - split; [tauto|]. intros (p & H & _). lia.
  - rewrite IH. split.
    + intros [-> |(p & Hp & E)]; [exists 0; split; [lia|reflexivity]|exists (S p); split; [lia|exact E]].
    + intros ([|p] & Hp & E); [left; cbn in E; congruence|right; exists p; split; [lia|exact E]].
  - rewrite IH. split.
    + intros (p & Hp & E); exists (S p); split; [lia|exact E].
    + intros ([|p] & Hp & E); [cbn in E; congruence|exists p; split; [lia|exact E]].
Qed.
Lemma somes_nodup idx :
  (forall p q n, p < length idx -> q < length idx -> slot idx p = Some n -> slot idx q = Some n -> p = q) -> NoDup (somes idx).
Proof.
  induction idx as [|[m|] r IH]; cbn [somes length]; intros H; [constructor| |].
  - constructor.
    + rewrite in_somes. intros (p & Hp & E). specialize (H 0 (S p) m). specialize (H ltac:(lia) ltac:(lia) eq_refl E). lia.
    + apply IH. intros p q n Hp Hq Ep Eq. specialize (H (S p) (S q) n). specialize (H ltac:(lia) ltac:(lia) Ep Eq). lia.
  - apply IH. intros p q n Hp Hq Ep Eq. specialize (H (S p) (S q) n). specialize (H ltac:(lia) ltac:(lia) Ep Eq). lia.
Qed.

Lemma home_lt size h : 0 < size -> home size h < size.
Proof. intros H. unfold home. pose proof (Z.mod_pos_bound h (Z.of_nat size) ltac:(lia)). lia. Qed.

(** a circular walk reaches every slot *)
Lemma walk_reaches S pos p : pos < S -> p < S -> exists k, k < S /\ (pos + k) mod S = p.
Proof.
  intros Hpos Hp. destruct (le_lt_dec pos p) as [L|L].
  - exists (p - pos). split; [lia|]. replace (pos + (p - pos)) with p by lia. now apply Nat.mod_small.
  - exists (p + S - pos). split; [lia|]. replace (pos + (p + S - pos)) with (p + 1 * S) by lia.
    rewrite Nat.mod_add by lia. now apply Nat.mod_small.
Qed.
Lemma walk_next S pos j : 0 < S -> ((pos + 1) mod S + j) mod S = (pos + Datatypes.S j) mod S.
Proof. intros H. rewrite Nat.add_mod_idemp_l by lia. f_equal. lia. Qed.

Lemma free_slot_spec fuel : forall idx pos,
  pos < length idx ->
  (exists k, k < fuel /\ slot idx ((pos + k) mod length idx) = None) ->
  exists k, k < fuel /\ free_slot fuel idx pos = Some ((pos + k) mod length idx) /\
    slot idx ((pos + k) mod length idx) = None /\
    (forall j, j < k -> slot idx ((pos + j) mod length idx) <> None).
Proof.
  induction fuel as [|f IH]; intros idx pos Hpos (k & Hk & E); [lia|].
  cbn [free_slot].
  destruct (slot idx pos) as [c|] eqn:Ec.
  - assert (k <> 0) as Hk0.
    { intros ->. rewrite Nat.add_0_r, Nat.mod_small in E by lia. congruence. }
    destruct (IH idx ((pos + 1) mod length idx)) as (k' & Hk' & E' & En & Hb).
    { apply Nat.mod_upper_bound. lia. }
    { exists (k - 1). split; [lia|]. rewrite walk_next by lia. replace (S (k - 1)) with k by lia. exact E. }
    exists (S k'). rewrite walk_next in E', En by lia. split; [lia|]. split; [exact E'|]. split; [exact En|].
    intros [|j] Hj.
    + rewrite Nat.add_0_r, Nat.mod_small by lia. congruence.
    + rewrite <- walk_next by lia. apply Hb. lia.
  - exists 0. rewrite Nat.add_0_r, Nat.mod_small by lia. repeat split; auto; [lia|]. intros; lia.
Qed.

Lemma find_slot_spec fuel : forall idx hs h cmp pos,
  pos < length idx ->
  (exists k, k < fuel /\ slot idx ((pos + k) mod length idx) = None) ->
  exists r, find_slot fuel idx hs h cmp pos = Some r /\
  match r with
  | Some c => (exists k, k < fuel /\ slot idx ((pos + k) mod length idx) = Some c /\
                 (forall j, j < k -> slot idx ((pos + j) mod length idx) <> None)) /\ hs c = h /\ cmp c = true
  | None => exists k, k < fuel /\ slot idx ((pos + k) mod length idx) = None /\
             (forall j, j < k -> exists c, slot idx ((pos + j) mod length idx) = Some c /\ ~ (hs c = h /\ cmp c = true))
  end.
Proof.
  induction fuel as [|f IH]; intros idx hs h cmp pos Hpos (k & Hk & E); [lia|].
  cbn [find_slot].
  destruct (slot idx pos) as [c|] eqn:Ec.
  - destruct ((hs c =? h)%Z && cmp c) eqn:Em.
    + apply andb_prop in Em as [E1 E2]. apply Z.eqb_eq in E1.
      exists (Some c). split; [reflexivity|]. split; [|auto]. exists 0. rewrite Nat.add_0_r, Nat.mod_small by lia. split; [lia|]. split; [auto|]. intros; lia.
    + assert (k <> 0) as Hk0.
      { intros ->. rewrite Nat.add_0_r, Nat.mod_small in E by lia. congruence. }
      destruct (IH idx hs h cmp ((pos + 1) mod length idx)) as (r & Er & Hr).
      { apply Nat.mod_upper_bound. lia. }
      { exists (k - 1). split; [lia|]. rewrite walk_next by lia. replace (S (k - 1)) with k by lia. exact E. }
      exists r. split; [exact Er|]. destruct r as [c'|].
      * destruct Hr as ((k' & Hk' & E' & Hb) & Hm). split; [|exact Hm]. exists (S k'). rewrite walk_next in E' by lia. split; [lia|].
        split; [exact E'|]. intros [|j] Hj.
        -- rewrite Nat.add_0_r, Nat.mod_small by lia. congruence.
        -- rewrite <- walk_next by lia. apply Hb. lia.
      * destruct Hr as (k' & Hk' & E' & Hb). exists (S k'). rewrite walk_next in E' by lia. split; [lia|]. split; [exact E'|].
        intros [|j] Hj.
        -- rewrite Nat.add_0_r, Nat.mod_small by lia. exists c. split; [exact Ec|]. intros [H1 H2].
           rewrite H2, (proj2 (Z.eqb_eq _ _) H1) in Em. discriminate.
        -- rewrite <- walk_next by lia. apply Hb. lia.
  - exists None. split; [reflexivity|]. exists 0. rewrite Nat.add_0_r, Nat.mod_small by lia. repeat split; auto; [lia|]. intros; lia.
Qed.

(** ** The invariant: the table holds exactly the live nodes *)
Record inv0 (t : ht) (L : list (nat * Z)) : Prop := {
  i_size : 0 < h_size t;
  i_nodup : NoDup (map fst L);
  i_live : forall n h, In (n, h) L -> h_hash t n = h /\ h_pos t n < h_size t /\ slot (h_idx t) (h_pos t n) = Some n;
  i_slot : forall p n, p < h_size t -> slot (h_idx t) p = Some n -> In n (map fst L) /\ h_pos t n = p;
  i_count : h_count t = Z.of_nat (length L)
}.
(** every live node is found: no empty slot between the place where the search of it starts and
    its slot *)
Definition found_slot (t : ht) (n : nat) (h : Z) : Prop :=
  exists k, k < h_size t /\ h_pos t n = (home (h_size t) h + k) mod h_size t /\
    (forall j, j < k -> slot (h_idx t) ((home (h_size t) h + j) mod h_size t) <> None).
Definition all_found (t : ht) (L : list (nat * Z)) : Prop := forall n h, In (n, h) L -> found_slot t n h.

Lemma inv0_somes t L : inv0 t L -> Permutation (somes (h_idx t)) (map fst L).
Proof.
  intros I. apply NoDup_Permutation; [|apply (i_nodup t L I)|].
  - apply somes_nodup. intros p q n Hp Hq Ep Eq.
    destruct (i_slot t L I p n Hp Ep) as [_ <-]. destruct (i_slot t L I q n Hq Eq) as [_ <-]. reflexivity.
  - intros n. rewrite in_somes. split.
    + intros (p & Hp & E). exact (proj1 (i_slot t L I p n Hp E)).
    + intros H. apply in_map_iff in H as ((m & h) & E & H). cbn in E; subst m.
      destruct (i_live t L I n h H) as (_ & Hp & Es). exists (h_pos t n). split; assumption.
Qed.
Lemma inv0_empty t L : inv0 t L -> length L < h_size t -> exists p, p < h_size t /\ slot (h_idx t) p = None.
Proof.
  intros I H. apply somes_empty_slot. rewrite (Permutation_length (inv0_somes t L I)), map_length. exact H.
Qed.
Lemma inv0_perm t L L' : Permutation L L' -> inv0 t L -> inv0 t L'.
Proof.
  intros P I. constructor.
  - apply (i_size t L I).
  - apply (Permutation_NoDup (Permutation_map fst P) (i_nodup t L I)).
  - intros n h H. apply (i_live t L I). now apply (Permutation_in _ (Permutation_sym P)).
  - intros p n Hp E. destruct (i_slot t L I p n Hp E) as [H1 H2]. split; [|exact H2].
    now apply (Permutation_in _ (Permutation_map fst P)).
  - rewrite (i_count t L I), (Permutation_length P). reflexivity.
Qed.

Lemma set_spec t L n h :
  inv0 t L -> length L < h_size t -> ~ In n (map fst L) -> h_hash t n = h ->
  exists t', ht_set t n = Some t' /\ inv0 t' ((n, h) :: L) /\ h_size t' = h_size t /\ h_hash t' = h_hash t /\
    (all_found t L -> all_found t' ((n, h) :: L)) /\ (forall m, m <> n -> h_pos t' m = h_pos t m).
Proof.
  intros I HL Hn Hh. unfold ht_set. rewrite Hh.
  pose proof (i_size t L I) as Hs. pose proof (home_lt (h_size t) h Hs) as Hhome.
  destruct (inv0_empty t L I HL) as (p0 & Hp0 & E0).
  destruct (walk_reaches _ _ _ Hhome Hp0) as (k0 & Hk0 & Ek0).
  destruct (free_slot_spec (h_size t) (h_idx t) (home (h_size t) h) Hhome) as (k & Hk & Ef & En & Hb).
  { exists k0. split; [exact Hk0|]. fold (h_size t). now rewrite Ek0. }
  rewrite Ef. fold (h_size t) in En, Hb |- *. set (p := (home (h_size t) h + k) mod h_size t) in *.
  assert (Hp : p < h_size t) by (apply Nat.mod_upper_bound; lia).
  eexists. split; [reflexivity|]. split; [|split; [|split; [|split]]].
  - constructor; cbn [h_idx h_count h_hash h_pos].
    + unfold h_size in *. cbn [h_idx]. rewrite put_length. exact Hs.
    + cbn [map fst]. constructor; [exact Hn|apply (i_nodup t L I)].
    + unfold h_size; cbn [h_idx]; rewrite put_length. intros m hm [E|H].
      * assert (m = n) by congruence. assert (hm = h) by congruence. subst m hm. split; [exact Hh|].
        rewrite upd_same. split; [exact Hp|]. now apply slot_put_same.
      * destruct (i_live t L I m hm H) as (H1 & H2 & H3). split; [exact H1|].
        assert (m <> n) by (intros ->; apply Hn; apply in_map_iff; exists (n, hm); auto).
        rewrite upd_other by assumption. split; [exact H2|].
        rewrite slot_put_other; [exact H3|]. intros E. rewrite <- E in H3. congruence.
    + unfold h_size; cbn [h_idx]; rewrite put_length. intros q m Hq E. cbn [map fst].
      destruct (Nat.eq_dec p q) as [<- |D].
      * rewrite slot_put_same in E by exact Hp. injection E as <-. split; [now left|]. now rewrite upd_same.
      * rewrite slot_put_other in E by exact D. destruct (i_slot t L I q m Hq E) as [H1 H2].
        split; [now right|]. rewrite upd_other; [exact H2|]. intros ->. contradiction.
    + rewrite (i_count t L I). cbn [length]. lia.
  - unfold h_size; cbn [h_idx]. apply put_length.
  - reflexivity.
  - intros F m hm Hin. unfold found_slot, h_size; cbn [h_idx h_pos h_hash]. rewrite put_length. fold (h_size t).
    destruct Hin as [E|H].
    + assert (m = n) by congruence. assert (hm = h) by congruence. subst m hm.
      exists k. rewrite upd_same. split; [exact Hk|]. split; [reflexivity|].
      intros j Hj. rewrite slot_put_other; [now apply Hb|]. intros E'. apply (Hb j Hj). rewrite <- E'. exact En.
    + assert (m <> n) by (intros ->; apply Hn; apply in_map_iff; exists (n, hm); auto).
      destruct (F m hm H) as (k' & Hk' & E' & Hb'). exists k'. rewrite upd_other by assumption.
      split; [exact Hk'|]. split; [exact E'|]. intros j Hj.
      destruct (Nat.eq_dec p ((home (h_size t) hm + j) mod h_size t)) as [D|D].
      * rewrite <- D. rewrite slot_put_same by exact Hp. discriminate.
      * rewrite slot_put_other by exact D. now apply Hb'.
  - intros m Hm. cbn [h_pos]. now apply upd_other.
Qed.

Lemma delete_spec t L n :
  inv0 t L -> In n (map fst L) ->
  exists t', ht_delete t n = Some t' /\ inv0 t' (filter (fun x => negb (fst x =? n)) L) /\ h_size t' = h_size t /\
    h_idx t' = put (h_idx t) (h_pos t n) None /\ h_hash t' = h_hash t /\ h_pos t' = h_pos t.
Proof.
  intros I H. apply in_map_iff in H as ((m & h) & E & H). cbn in E; subst m.
  destruct (i_live t L I n h H) as (Hh & Hp & Es). unfold ht_delete. rewrite Es, Nat.eqb_refl.
  eexists. split; [reflexivity|]. cbn [h_idx h_pos h_hash].
  assert (Hsz : forall a b c d, h_size (mkht (put (h_idx t) a b) c d (h_pos t)) = h_size t)
    by (intros; unfold h_size; cbn [h_idx]; apply put_length).
  split; [|split; [apply Hsz|repeat split; reflexivity]].
  assert (Hlen : forall L, NoDup (map fst L) -> forall h, In (n, h) L ->
            length L = S (length (filter (fun x : nat * Z => negb (fst x =? n)) L))).
  { clear. induction L as [|[m hm] L IH]; intros ND h H; [destruct H|]. cbn [map fst] in ND. inversion ND as [|? ? N1 N2]; subst.
    cbn [filter fst]. destruct (m =? n) eqn:E; cbn [negb length].
    - apply Nat.eqb_eq in E; subst m. f_equal.
      clear - N1. induction L as [|[a ha] L IH]; [reflexivity|]. cbn [map fst In] in N1. cbn [filter fst].
      rewrite (proj2 (Nat.eqb_neq a n)) by (intros ->; tauto). cbn [negb length]. f_equal. apply IH. tauto.
    - f_equal. destruct H as [H|H]; [injection H as -> _; rewrite Nat.eqb_refl in E; discriminate|]. apply (IH N2 _ H). }
  constructor; rewrite ?Hsz; cbn [h_idx h_count h_hash h_pos].
  - apply (i_size t L I).
  - pose proof (i_nodup t L I) as ND. clear - ND. induction L as [|[m hm] L IH]; [constructor|].
    cbn [map fst] in ND. inversion ND as [|? ? N1 N2]; subst. cbn [filter fst]. destruct (negb (m =? n)); [|apply IH; exact N2].
    cbn [map fst]. constructor; [|apply IH; exact N2]. intros H. apply N1. apply in_map_iff in H as (x & E & H).
    apply filter_In in H as [H _]. apply in_map_iff. exists x. auto.
  - intros m hm Hin. apply filter_In in Hin as [Hin Hne]. cbn [fst] in Hne. apply negb_true_iff, Nat.eqb_neq in Hne.
    destruct (i_live t L I m hm Hin) as (H1 & H2 & H3). repeat split; auto.
    rewrite slot_put_other; [exact H3|]. intros E. rewrite <- E in H3. congruence.
  - intros p m Hpm E. destruct (Nat.eq_dec (h_pos t n) p) as [<- |D].
    + rewrite slot_put_same in E by exact Hp. discriminate.
    + rewrite slot_put_other in E by exact D. destruct (i_slot t L I p m Hpm E) as [H1 H2]. split; [|exact H2].
      apply in_map_iff in H1 as ((a & ha) & Ea & Ha). cbn in Ea; subst a. apply in_map_iff. exists (m, ha). split; [reflexivity|].
      apply filter_In. split; [exact Ha|]. cbn [fst]. apply negb_true_iff, Nat.eqb_neq. intros ->. congruence.
  - rewrite (i_count t L I), (Hlen L (i_nodup t L I) h H). lia.
Qed.

Lemma slot_repeat n p : slot (repeat None n) p = None.
Proof. unfold slot. revert p; induction n as [|n IH]; intros [|p]; cbn [repeat nth]; auto. Qed.
Lemma create_inv n hs ps : 0 < n -> inv0 (ht_create n hs ps) [].
Proof.
  intros H. unfold ht_create. constructor; unfold h_size; cbn [h_idx h_count map]; rewrite ?repeat_length; auto.
  - constructor.
  - intros ? ? [].
  - intros p m Hp E. rewrite slot_repeat in E. discriminate.
Qed.

(** hashing a list of nodes into a table *)
Lemma refill_spec old : forall t L,
  inv0 t L -> all_found t L ->
  NoDup (somes old) -> (forall n, In n (somes old) -> ~ In n (map fst L)) ->
  length L + length (somes old) < h_size t + 1 ->
  exists t', refill t old = Some t' /\
    inv0 t' (rev (map (fun n => (n, h_hash t n)) (somes old)) ++ L) /\
    all_found t' (rev (map (fun n => (n, h_hash t n)) (somes old)) ++ L) /\ h_size t' = h_size t /\ h_hash t' = h_hash t.
Proof.
  induction old as [|[n|] r IH]; intros t L I F ND Hdis Hlen; cbn [refill somes] in *.
  - exists t. cbn [map rev app]. auto.
  - inversion ND as [|? ? N1 N2]; subst.
    destruct (set_spec t L n (h_hash t n) I) as (t' & E & I' & Hsz & Hh & F' & _).
    { cbn [length] in Hlen. lia. } { apply Hdis. now left. } { reflexivity. }
    rewrite E. destruct (IH t' ((n, h_hash t n) :: L) I' (F' F) N2) as (t2 & E2 & I2 & F2 & Hsz2 & Hh2).
    { intros m Hm. cbn [map fst]. intros [-> |H]; [contradiction|]. apply (Hdis m); [now right|exact H]. }
    { rewrite Hsz. cbn [length] in *. lia. }
    rewrite Hh in I2, F2. exists t2. split; [exact E2|]. cbn [map rev]. rewrite <- !app_assoc. cbn [app].
    split; [exact I2|]. split; [exact F2|]. split; congruence.
  - destruct (IH t L I F ND Hdis Hlen) as (t' & H). exists t'. exact H.
Qed.

(** the load: at most one more than half of the slots are used *)
Definition loaded (t : ht) (L : list (nat * Z)) : Prop := 3 <= h_size t /\ length L <= h_size t / 2 + 1.
Lemma half_lt s : 3 <= s -> s / 2 + 1 < s.
Proof. intros H. pose proof (Nat.div_mod s 2 ltac:(lia)) as E. pose proof (Nat.mod_upper_bound s 2 ltac:(lia)). lia. Qed.

Lemma reserve_spec t L :
  inv0 t L -> 3 <= h_size t -> length L <= h_size t / 2 + 1 ->
  exists t', ht_reserve t = Some t' /\ inv0 t' L /\ 3 <= h_size t' /\ length L <= h_size t' / 2 /\ h_hash t' = h_hash t /\
    (all_found t L -> all_found t' L) /\ (ht_full t = true -> all_found t' L).
Proof.
  intros I Hs HL. unfold ht_reserve, ht_full. rewrite (i_count t L I).
  destruct (Z.of_nat (length L) >? Z.of_nat (h_size t) / 2)%Z eqn:Ef; cbn [negb].
  - pose proof (inv0_somes t L I) as P.
    destruct (refill_spec (h_idx t) (ht_create (h_size t * 2) (h_hash t) (h_pos t)) []) as (t' & E & I' & F' & Hsz & Hh).
    + apply create_inv. lia.
    + intros ? ? [].
    + apply (Permutation_NoDup (Permutation_sym P) (i_nodup t L I)).
    + intros ? _ [].
    + unfold ht_create, h_size at 1; cbn [h_idx length]. rewrite repeat_length. rewrite (Permutation_length P), map_length.
      pose proof (half_lt _ Hs). lia.
    + unfold ht_create in I', F', Hh; cbn [h_hash] in I', F', Hh. rewrite app_nil_r in I', F'.
      assert (P2 : Permutation (rev (map (fun n => (n, h_hash t n)) (somes (h_idx t)))) L).
      { eapply Permutation_trans; [apply Permutation_sym, Permutation_rev|].
        eapply Permutation_trans; [apply Permutation_map; exact P|]. rewrite map_map.
        assert (Hid : forall x, In x L -> (fst x, h_hash t (fst x)) = x).
        { intros [m hm] Hm. cbn [fst]. destruct (i_live t L I m hm Hm) as [-> _]. reflexivity. }
        clear - Hid. induction L as [|x L IH]; cbn [map]; [constructor|]. rewrite Hid by now left. constructor.
        apply IH. intros y Hy. apply Hid. now right. }
      assert (A : all_found t' L).
      { intros n h H. apply F'. apply (Permutation_in _ (Permutation_sym P2)). exact H. }
      exists t'. split; [exact E|]. split; [exact (inv0_perm _ _ _ P2 I')|].
      unfold ht_create, h_size at 2 in Hsz; cbn [h_idx] in Hsz. rewrite repeat_length in Hsz.
      split; [lia|]. split; [|auto]. rewrite Hsz, Nat.div_mul by lia. pose proof (half_lt _ Hs). lia.
  - exists t. split; [reflexivity|]. split; [exact I|]. split; [exact Hs|]. split; [|split; [reflexivity|split; [auto|discriminate]]].
    assert (Z.of_nat (length L) <= Z.of_nat (h_size t) / 2)%Z by lia.
    pose proof (Nat2Z.inj_div (h_size t) 2) as Hd. change (Z.of_nat 2) with 2%Z in Hd. clear - H Hd. lia.
Qed.

Lemma add_spec t L n h :
  inv0 t L -> loaded t L -> ~ In n (map fst L) ->
  exists t', ht_add t n h = Some t' /\ inv0 t' ((n, h) :: L) /\ loaded t' ((n, h) :: L) /\
    (all_found t L -> all_found t' ((n, h) :: L)) /\ (ht_full t = true -> all_found t' ((n, h) :: L)).
Proof.
  intros I [Hs HL] Hn. unfold ht_add. set (t0 := mkht (h_idx t) (h_count t) (upd (h_hash t) n h) (upd (h_pos t) n 0)).
  assert (Hne : forall m hm, In (m, hm) L -> m <> n).
  { intros m hm H ->. apply Hn. apply in_map_iff. exists (n, hm). auto. }
  assert (I0 : inv0 t0 L).
  { constructor; unfold t0, h_size; cbn [h_idx h_count h_hash h_pos].
    - apply (i_size t L I).
    - apply (i_nodup t L I).
    - intros m hm H. rewrite !upd_other by (now apply (Hne m hm)). apply (i_live t L I m hm H).
    - intros p m Hp E. destruct (i_slot t L I p m Hp E) as [H1 H2]. split; [exact H1|].
      rewrite upd_other; [exact H2|]. intros ->. contradiction.
    - apply (i_count t L I). }
  assert (F0 : all_found t L -> all_found t0 L).
  { intros F m hm H. destruct (F m hm H) as (k & Hk & E & Hb). exists k. unfold t0, h_size; cbn [h_idx h_pos].
    rewrite upd_other by (now apply (Hne m hm)). auto. }
  destruct (reserve_spec t0 L I0 Hs HL) as (t1 & E1 & I1 & Hs1 & HL1 & Hh1 & F1 & F1').
  rewrite E1. destruct (set_spec t1 L n h I1) as (t2 & E2 & I2 & Hsz2 & Hh2 & F2 & _).
  { pose proof (half_lt _ Hs1). lia. } { exact Hn. } { rewrite Hh1. unfold t0; cbn [h_hash]. apply upd_same. }
  exists t2. split; [exact E2|]. split; [exact I2|]. split.
  - split; [lia|]. rewrite Hsz2. cbn [length]. lia.
  - split; [auto|]. intros Hf. apply F2, F1'. unfold ht_full, t0, h_size in *. cbn [h_count h_idx]. exact Hf.
Qed.

Lemma filter_length_le {A} (f : A -> bool) l : length (filter f l) <= length l.
Proof. induction l as [|x l IH]; cbn [filter length]; [lia|]. destruct (f x); cbn [length]; lia. Qed.

Lemma run_inv ops : forall t L,
  inv0 t L -> loaded t L -> sensible_from L ops ->
  exists t', ht_run t ops = Some t' /\ inv0 t' (live_from L ops) /\ loaded t' (live_from L ops) /\
    (no_removals ops -> all_found t L -> all_found t' (live_from L ops)).
Proof.
  induction ops as [|[n h|n] r IH]; intros t L I Ld Hsen; cbn [ht_run ht_step live_from sensible_from] in *.
  - exists t. auto.
  - destruct Hsen as [Hn Hsen]. destruct (add_spec t L n h I Ld Hn) as (t1 & E1 & I1 & Ld1 & F1 & _).
    rewrite E1. destruct (IH t1 _ I1 Ld1 Hsen) as (t2 & E2 & I2 & Ld2 & F2). exists t2. split; [exact E2|]. split; [exact I2|]. split; [exact Ld2|].
    intros Hno F. apply F2; auto. intros m Hm. apply (Hno m). now right.
  - destruct Hsen as [Hn Hsen]. destruct (delete_spec t L n I Hn) as (t1 & E1 & I1 & Hsz1 & _).
    rewrite E1. assert (Ld1 : loaded t1 (filter (fun x => negb (fst x =? n)) L)).
    { destruct Ld as [Hs HL]. split; [lia|]. rewrite Hsz1. pose proof (filter_length_le (fun x : nat * Z => negb (fst x =? n)) L). lia. }
    destruct (IH t1 _ I1 Ld1 Hsen) as (t2 & E2 & I2 & Ld2 & F2). exists t2. split; [exact E2|]. split; [exact I2|]. split; [exact Ld2|].
    intros Hno. exfalso. apply (Hno n). now left.
Qed.

Lemma get_spec t L hash cmp :
  inv0 t L -> length L < h_size t ->
  exists r, ht_get t hash cmp = Some r /\
  match r with
  | Some n => In (n, hash) L /\ cmp n = true /\ found_slot t n hash
  | None => forall n, In (n, hash) L -> found_slot t n hash -> cmp n = false
  end.
Proof.
  intros I HL. unfold ht_get. pose proof (i_size t L I) as Hs. pose proof (home_lt (h_size t) hash Hs) as Hh.
  destruct (inv0_empty t L I HL) as (p0 & Hp0 & E0).
  destruct (walk_reaches _ _ _ Hh Hp0) as (k0 & Hk0 & Ek0).
  destruct (find_slot_spec (h_size t) (h_idx t) (h_hash t) hash cmp (home (h_size t) hash) Hh) as (r & Er & Hr).
  { exists k0. split; [exact Hk0|]. fold (h_size t). now rewrite Ek0. }
  exists r. split; [exact Er|]. fold (h_size t) in Hr. destruct r as [c|].
  - destruct Hr as ((k & Hk & E & Hb) & Hc & Hcmp).
    destruct (i_slot t L I _ c (Nat.mod_upper_bound _ _ (Nat.neq_sym _ _ (Nat.lt_neq _ _ Hs))) E) as [H Hpos].
    split; [|split; [exact Hcmp|exists k; auto]].
    apply in_map_iff in H as ((m & hm) & Em & H). cbn in Em; subst m.
    destruct (i_live t L I c hm H) as [H1 _]. rewrite <- Hc, H1. exact H.
  - destruct Hr as (k & Hk & En & Hb). intros n Hin (k' & Hk' & Ep & Hb').
    destruct (i_live t L I n hash Hin) as (H1 & H2 & H3). rewrite Ep in H3.
    assert (k' < k) as Hlt.
    { destruct (Nat.lt_trichotomy k k') as [L1|[<- |L1]]; [|congruence|exact L1]. exfalso. now apply (Hb' k L1). }
    destruct (Hb k' Hlt) as (c & Ec & Hnm). assert (c = n) by congruence. subst c.
    destruct (cmp n); [|reflexivity]. exfalso. apply Hnm. auto.
Qed.

(** a lookup of a node by its identity *)
Lemma get_self_found t L n h :
  inv0 t L -> length L < h_size t -> ht_get t h (Nat.eqb n) = Some (Some n) -> found_slot t n h.
Proof.
  intros I HL E. destruct (get_spec t L h (Nat.eqb n) I HL) as (r & Er & Hr). rewrite E in Er. injection Er as <-.
  apply Hr.
Qed.
Lemma delete_keeps_found t L n t' :
  inv0 t L -> In n (map fst L) -> slot (h_idx t) ((h_pos t n + 1) mod h_size t) = None -> ht_delete t n = Some t' ->
  all_found t L -> all_found t' (filter (fun x => negb (fst x =? n)) L).
Proof.
  intros I Hn Hnext E F. destruct (delete_spec t L n I Hn) as (t1 & E1 & I1 & Hsz & Hidx & Hh & Hp).
  assert (t1 = t') by congruence. subst t1. intros m hm Hin. apply filter_In in Hin as [Hin _].
  destruct (F m hm Hin) as (k & Hk & Ep & Hb). destruct (i_live t L I m hm Hin) as (_ & _ & Em).
  exists k. rewrite Hsz, Hp, Hidx. split; [exact Hk|]. split; [exact Ep|]. intros j Hj.
  rewrite slot_put_other; [now apply Hb|]. intros D.
  assert (Hs := i_size t L I).
  assert (Hj1 : (home (h_size t) hm + S j) mod h_size t = (h_pos t n + 1) mod h_size t).
  { rewrite D, Nat.add_mod_idemp_l by lia. f_equal. lia. }
  destruct (Nat.eq_dec (S j) k) as [Ek|Ek].
  - rewrite Ep, <- Ek, Hj1 in Em. congruence.
  - apply (Hb (S j) ltac:(lia)). now rewrite Hj1.
Qed.
