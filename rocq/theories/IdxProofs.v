From Verif Require Import PartModel PartProofs ReplayModel ReplayProofs IdxModel.
From Coq Require Import List ZArith Lia Bool.
Import ListNotations.
Open Scope Z_scope.

(** *** building an index *)
Lemma build_spec i : forall image m,
  (forall r, In r image -> m (key_of i r) = None) ->
  (forall r r', In r image -> In r' image -> key_of i r = key_of i r' -> r = r') -> NoDup image ->
  exists m', build i m image = Some m' /\
    (forall r, In r image -> m' (key_of i r) = Some r) /\
    (forall k, (forall r, In r image -> key_of i r <> k) -> m' k = m k).
Proof.
  induction image as [|a image IH]; intros m Hm Hu Hn; cbn [build].
  - exists m. split; [reflexivity|]. split; [intros r []|auto].
  - rewrite (Hm a) by now left. inversion_clear Hn as [|? ? Ha Hn'].
    assert (Hd : forall r, In r image -> key_of i r <> key_of i a).
    { intros r Hr E. apply Ha. rewrite <- (Hu r a); [exact Hr|now right|now left|exact E]. }
    edestruct IH as (m' & E & B & C); [| |exact Hn'|].
    2: { intros r r' Hr Hr'. apply Hu; now right. }
    2: { exists m'. split; [exact E|]. split.
         - intros r [<-|Hr]; [|now apply B]. rewrite C; [now rewrite Z.eqb_refl|]. exact Hd.
         - intros k Hk. rewrite C; [|intros r Hr; apply Hk; now right].
           destruct (Z.eqb_spec k (key_of i a)) as [->|_]; [|reflexivity]. exfalso. apply (Hk a); [now left|reflexivity]. }
    intros r Hr. cbn beta. destruct (Z.eqb_spec (key_of i r) (key_of i a)) as [E|_]; [now apply Hd in E|].
    apply Hm. now right.
Qed.

Lemma build_some i : forall image m m', build i m image = Some m' ->
  (forall r, In r image -> m' (key_of i r) = Some r) /\
  (forall k, (forall r, In r image -> key_of i r <> k) -> m' k = m k) /\
  (forall r, In r image -> m (key_of i r) = None).
Proof.
  induction image as [|a image IH]; intros m m' E; cbn [build] in E.
  - injection E as <-. split; [intros r []|split; [auto|intros r []]].
  - destruct (m (key_of i a)) eqn:Ea; [discriminate|]. apply IH in E. destruct E as (B & C & D).
    assert (Hd : forall r, In r image -> key_of i r <> key_of i a).
    { intros r Hr E. specialize (D r Hr). cbn beta in D. rewrite E, Z.eqb_refl in D. discriminate. }
    split; [|split].
    + intros r [<-|Hr]; [|now apply B]. rewrite C; [now rewrite Z.eqb_refl|exact Hd].
    + intros k Hk. rewrite C by (intros r Hr; apply Hk; now right).
      destruct (Z.eqb_spec k (key_of i a)) as [->|_]; [|reflexivity]. exfalso. apply (Hk a); [now left|reflexivity].
    + intros r [<-|Hr]; [exact Ea|]. specialize (D r Hr). cbn beta in D.
      destruct (Z.eqb_spec (key_of i r) (key_of i a)); [discriminate|exact D].
Qed.

(** the rows of two partitions have the same columns *)
Definition rows_eq (p q : part) : Prop := forall k, view p 0%nat k = view q 0%nat k.

Lemma rows_eq_refl p : rows_eq p p. Proof. intros k. reflexivity. Qed.
Lemma rows_eq_sym p q : rows_eq p q -> rows_eq q p. Proof. intros H k. now rewrite H. Qed.
Lemma rows_eq_trans p q r : rows_eq p q -> rows_eq q r -> rows_eq p r.
Proof. intros H G k. now rewrite H. Qed.
Lemma same_rows p q : same p q -> rows_eq p q.
Proof. intros [_ H] k. apply H. lia. Qed.

Lemma create_consistent p image p1 : consistent p -> image_of p image -> create_index p image = Some p1 ->
  consistent p1 /\ nsec p1 = S (nsec p) /\ rows_eq p p1 /\ wal p1 = wal p.
Proof.
  intros [Hk Hc] [Hn Him] E. unfold create_index in E.
  destruct (build (S (nsec p)) (fun _ => None) image) as [m|] eqn:B; [|discriminate].
  assert (Q : p1 = mkpart (fun j k => if Nat.eqb j (S (nsec p)) then m k else ix p j k) (S (nsec p))
                   (log p) (wal p) (freed p) (made p) (next p)) by congruence. clear E. subst p1.
  cbn [nsec wal]. apply build_some in B. destruct B as (B & C & _).
  split; [|split; [reflexivity|split; [intros k; reflexivity|reflexivity]]].
  assert (Hm : forall k r, m k = Some r -> key_of (S (nsec p)) r = k /\ In r image).
  { intros k r Hr. destruct (in_dec Z.eq_dec k (map (key_of (S (nsec p))) image)) as [Hi|Hi].
    - apply in_map_iff in Hi. destruct Hi as (s & Es & Hs). specialize (B s Hs). rewrite Es, Hr in B.
      assert (s = r) by congruence. subst s. auto.
    - rewrite C in Hr; [discriminate|]. intros s Hs Es. apply Hi. apply in_map_iff. eauto. }
  split.
  - intros j k r Hr. cbn [ix] in Hr. destruct (Nat.eqb_spec j (S (nsec p))) as [->|Hne]; [now apply Hm|now apply Hk].
  - cbn [nsec]. intros i Hi. cbn [ix]. destruct (Nat.eqb_spec i (S (nsec p))) as [->|Hne].
    + cbn [Nat.eqb]. split.
      * intros k r Hr. apply B. apply Him. eauto.
      * intros k r Hr. apply Hm in Hr. destruct Hr as [_ Hr]. apply Him in Hr. destruct Hr as [k0 Hr].
        now rewrite (Hk _ _ _ Hr).
    + cbn [Nat.eqb]. apply Hc. lia.
Qed.

(** rows of [x] have the columns of rows of [q], in which index i is unique *)
Lemma unique_by p q i image : rows_eq p q -> consistent p -> consistent q -> (i <= nsec q)%nat -> image_of p image ->
  forall r r', In r image -> In r' image -> key_of i r = key_of i r' -> r = r'.
Proof.
  intros Hv [Hkp _] Hq Hi [_ Him] r r' Hr Hr' E.
  apply Him in Hr, Hr'. destruct Hr as [k Hr], Hr' as [k' Hr'].
  pose proof (Hv k) as V. pose proof (Hv k') as V'. unfold view in V, V'. rewrite Hr in V. rewrite Hr' in V'.
  cbn [option_map] in V, V'.
  destruct (ix q 0%nat k) as [s|] eqn:Es; [|discriminate]. destruct (ix q 0%nat k') as [s'|] eqn:Es'; [|discriminate].
  cbn [option_map] in V, V'.
  assert (K : forall j, key_of j r = key_of j s) by (intros j; unfold key_of; unfold content in V; congruence).
  assert (K' : forall j, key_of j r' = key_of j s') by (intros j; unfold key_of; unfold content in V'; congruence).
  assert (U : ix q i (key_of i s) = Some s).
  { apply update_keys_secondary; [exact Hq| |exact Hi]. now rewrite (proj1 Hq _ _ _ Es). }
  assert (U' : ix q i (key_of i s') = Some s').
  { apply update_keys_secondary; [exact Hq| |exact Hi]. now rewrite (proj1 Hq _ _ _ Es'). }
  rewrite <- K, E, K' in U. assert (s' = s) by congruence. subst s'.
  assert (k = k') by (rewrite <- (proj1 Hq _ _ _ Es), <- (proj1 Hq _ _ _ Es'); reflexivity). congruence.
Qed.

Lemma create_succeeds p q image : rows_eq p q -> consistent p -> consistent q -> (S (nsec p) <= nsec q)%nat ->
  image_of p image -> exists p1, create_index p image = Some p1.
Proof.
  intros Hv Hp Hq Hi Him. unfold create_index.
  destruct (build_spec (S (nsec p)) image (fun _ => None)) as (m & E & _); [reflexivity| |exact (proj1 Him)|].
  - exact (unique_by p q _ image Hv Hp Hq Hi Him).
  - rewrite E. eauto.
Qed.

(** opening a heap image with the indexes of the catalog *)
Lemma open_consistent p q n image : rows_eq p q -> consistent p -> consistent q -> (n <= nsec q)%nat -> image_of p image ->
  consistent (part_open n image) /\ nsec (part_open n image) = n /\ rows_eq p (part_open n image).
Proof.
  intros Hv Hp Hq Hn Him. unfold part_open.
  destruct (part_open_spec image (empty_part n)) as (N & A & B & C).
  { cbn [nsec empty_part]. intros i r r' Hi Hr Hr' E.
    apply (unique_by p q i image Hv Hp Hq ltac:(lia) Him r r' Hr Hr' E). }
  cbn [empty_part nsec ix] in N, A, B, C.
  set (x := fold_left part_apply image (empty_part n)) in *.
  assert (Hx : forall i k r, ix x i k = Some r -> (i <= n)%nat /\ In r image /\ key_of i r = k).
  { intros i k r Hr. destruct (Nat.leb_spec i n) as [Hi|Hi]; [|rewrite A in Hr by exact Hi; discriminate].
    split; [exact Hi|]. destruct (in_dec Z.eq_dec k (map (key_of i) image)) as [Hin|Hin].
    - apply in_map_iff in Hin. destruct Hin as (s & Es & Hs). pose proof (B i s Hi Hs) as Bs. rewrite Es, Hr in Bs.
      assert (s = r) by congruence. subst s. auto.
    - rewrite C in Hr; [discriminate|exact Hi|]. intros s Hs Es. apply Hin. apply in_map_iff. eauto. }
  split; [|split; [exact N|]].
  - split.
    + intros i k r Hr. now apply Hx in Hr.
    + rewrite N. intros i Hi. split; intros k r Hr; apply Hx in Hr; destruct Hr as (_ & Hr & _); apply B; auto; lia.
  - intros k. unfold view. destruct Him as [_ Him]. destruct (ix p 0%nat k) as [r|] eqn:E.
    + rewrite <- (proj1 Hp _ _ _ E). rewrite (B 0%nat r); [reflexivity|lia|]. apply Him. eauto.
    + destruct (ix x 0%nat k) as [r|] eqn:Ex; [|reflexivity]. exfalso. apply Hx in Ex. destruct Ex as (_ & Hr & <-).
      apply Him in Hr. destruct Hr as [k0 Hr]. rewrite (proj1 Hp _ _ _ Hr) in E. congruence.
Qed.

(** *** replay keeps the indexes in agreement *)
Lemma consistent_same p q : consistent p -> consistent q -> nsec p = nsec q -> rows_eq p q -> same p q.
Proof.
  intros Hp Hq Hn Hv. split; [exact Hn|]. intros i k Hi. unfold view.
  assert (G : forall a b, consistent a -> consistent b -> nsec a = nsec b -> rows_eq a b -> (i <= nsec a)%nat ->
            forall r, ix a i k = Some r -> option_map content (ix b i k) = Some (content r)).
  { clear. intros a b Ha Hb Hn Hv Hi r Hr.
    assert (H0 : ix a 0%nat (key_of 0 r) = Some r).
    { destruct (Nat.eq_dec i 0) as [->|Hne]; [now rewrite (proj1 Ha _ _ _ Hr)|].
      destruct (proj2 Ha i ltac:(lia)) as [_ C2]. eapply C2. exact Hr. }
    pose proof (Hv (key_of 0 r)) as V. unfold view in V. rewrite H0 in V. cbn [option_map] in V.
    destruct (ix b 0%nat (key_of 0 r)) as [s|] eqn:Es; [|discriminate]. cbn [option_map] in V.
    assert (K : forall j, key_of j s = key_of j r) by (intros j; unfold key_of; unfold content in V; congruence).
    assert (U : ix b i (key_of i s) = Some s).
    { apply update_keys_secondary; [exact Hb|now rewrite K|lia]. }
    rewrite K, (proj1 Ha _ _ _ Hr) in U. rewrite U. cbn [option_map]. congruence. }
  destruct (ix p i k) as [r|] eqn:Er.
  - now rewrite (G p q Hp Hq Hn Hv Hi r Er).
  - destruct (ix q i k) as [s|] eqn:Es; [|reflexivity]. exfalso.
    pose proof (G q p Hq Hp (eq_sym Hn) (rows_eq_sym _ _ Hv) ltac:(lia) s Es) as G1. rewrite Er in G1. discriminate.
Qed.

Lemma insert_consistent x r q' :
  consistent x -> part_insert x true false r = (q', SOk) ->
  ((forall j, (j <= nsec x)%nat -> ix x j (key_of j r) = None) \/
   (exists s, ix x 0%nat (key_of 0 r) = Some s /\ forall j, (j <= nsec x)%nat -> key_of j s = key_of j r)) ->
  consistent q'.
Proof.
  intros Hc E D. destruct (insert_replace x r) as (q & E' & Hp & Hn). rewrite E in E'. assert (q = q') by congruence. subst q.
  destruct D as [Hno|(s & Hs & Hk)].
  - set (z := mkpart (ix q') (nsec q') (log x ++ mklog REPLACE 0 r None :: []) (wal x ++ [(REPLACE, r)]) (freed x) (made x ++ [r]) (next x + 1)).
    set (x0 := mkpart (ix x) (nsec x) (log x) (wal x) (freed x) (made x) (rid r)).
    set (z0 := mkpart (ix q') (nsec q') (log x ++ mklog REPLACE 0 r None :: []) (wal x ++ [(REPLACE, r)]) (freed x) (made x ++ [r]) (rid r + 1)).
    assert (C0 : consistent z0); [|exact C0].
    apply (eff_consistent x0 z0); [exact Hc|].
    apply (E_new x0 z0 r []); try reflexivity; try assumption. constructor.
  - set (x0 := mkpart (ix x) (nsec x) (log x) (wal x) (freed x) (made x) (rid r)).
    set (z0 := mkpart (ix q') (nsec q') (log x ++ mklog REPLACE 0 r (Some s) :: []) (wal x ++ [(REPLACE, r)]) (freed x) (made x ++ [r]) (rid r + 1)).
    assert (C0 : consistent z0); [|exact C0].
    apply (eff_consistent x0 z0); [exact Hc|].
    apply (E_upd x0 z0 s r []); try reflexivity; try assumption; [|intros; symmetry; now apply Hk|constructor].
    cbn [ix x0]. rewrite Hk by lia. exact Hs.
Qed.

Lemma delete_consistent x r q' : consistent x -> part_delete_by x r = (q', SOk) -> consistent q'.
Proof.
  intros Hc E. unfold part_delete_by in E. destruct (ix x 0%nat (key_of 0 r)) as [s|] eqn:Es; [|discriminate].
  apply (eff_consistent x q'); [exact Hc|]. apply (step_eff x (Delete (key_of 0 r) false)); [exact Hc|].
  cbn [step]. now rewrite Es.
Qed.

(** the records of a successful operation, replayed on a partition with the same rows *)
Lemma eff_replay_c p p' q : eff p p' -> consistent p -> same p q -> consistent q ->
  exists w q', wal p' = wal p ++ w /\ replay q w = (q', SOk) /\ same p' q' /\ consistent q'.
Proof.
  intros He Hc Hs Hq. destruct (eff_replay p p' q He Hc Hs (proj1 Hq)) as (w & q' & W & R & S1 & K1).
  exists w, q'. do 3 (split; [assumption|]).
  pose proof (eff_consistent _ _ Hc He) as Hc'.
  (* the indexes of q' : by cases on the operation *)
  pose proof Hs as [Hn Hv].
  assert (Hcp : forall j k s, (j <= nsec q)%nat -> ix q j k = Some s -> exists t, ix p j k = Some t /\ content t = content s).
  { intros j k s Hj E. specialize (Hv j k ltac:(lia)). unfold view in Hv. rewrite E in Hv.
    destruct (ix p j k) as [t|]; cbn in Hv; [|discriminate]. exists t. split; [reflexivity|congruence]. }
  destruct He as [->|r H1 Hns Hl Hw _ _ _ _|r es Hno Hp Hns Hl Hse Hw _ _ _ _|r0 r es H0 Hr Hp Hns Hl Hse Hw _ _ _ _|r es H0 Hp Hns Hl Hse Hw _ _ _].
  - assert (w = []) by (apply (app_inv_head (wal p)); rewrite app_nil_r; congruence). subst w.
    cbn in R. assert (q = q') by congruence. now subst.
  - assert (w = []) by (apply (app_inv_head (wal p)); rewrite app_nil_r; congruence). subst w.
    cbn in R. assert (q = q') by congruence. now subst.
  - assert (w = [(REPLACE, r)]) by (apply (app_inv_head (wal p)); congruence). subst w.
    cbn [replay replay_cmd fst snd row_create] in R.
    match type of R with context [part_insert ?x true false ?s] => set (qx := x) in *; set (rx := s) in *;
      destruct (part_insert qx true false rx) as [y st] eqn:E end.
    destruct st; try discriminate. assert (y = q') by congruence. subst y.
    apply (insert_consistent qx rx); [exact Hq|exact E|]. left. intros j Hj.
    destruct (ix qx j (key_of j rx)) as [s|] eqn:Es; [|reflexivity]. exfalso.
    destruct (Hcp j _ s Hj Es) as (t & Et & _). change (key_of j rx) with (key_of j r) in Et.
    rewrite Hno in Et; [discriminate|]. cbn [qx nsec] in Hj. lia.
  - assert (w = [(REPLACE, r)]) by (apply (app_inv_head (wal p)); congruence). subst w.
    cbn [replay replay_cmd fst snd row_create] in R.
    match type of R with context [part_insert ?x true false ?s] => set (qx := x) in *; set (rx := s) in *;
      destruct (part_insert qx true false rx) as [y st] eqn:E end.
    destruct st; try discriminate. assert (y = q') by congruence. subst y.
    apply (insert_consistent qx rx); [exact Hq|exact E|]. right.
    assert (Er0 : ix p 0%nat (key_of 0 rx) = Some r0).
    { change (key_of 0 rx) with (key_of 0 r). rewrite Hr by lia. exact H0. }
    pose proof (Hv 0%nat (key_of 0 rx) ltac:(lia)) as V. unfold view in V. rewrite Er0 in V. cbn [option_map] in V.
    destruct (ix q 0%nat (key_of 0 rx)) as [s|] eqn:Es; [|discriminate]. cbn [option_map] in V.
    exists s. split; [exact Es|]. intros j Hj.
    change (key_of j rx) with (key_of j r). rewrite Hr by (cbn [qx nsec] in Hj; lia). unfold key_of. unfold content in V. congruence.
  - assert (w = [(DELETE, r)]) by (apply (app_inv_head (wal p)); congruence). subst w.
    cbn [replay replay_cmd fst snd] in R. destruct (part_delete_by q r) as [y st] eqn:E.
    destruct st; try discriminate. assert (y = q') by congruence. subst y. exact (delete_consistent q r q' Hq E).
Qed.

Lemma run_replay_c : forall ops p p' q, consistent p -> run p ops = (p', SOk) -> same p q -> consistent q ->
  exists w q', wal p' = wal p ++ w /\ replay q w = (q', SOk) /\ same p' q' /\ consistent q'.
Proof.
  induction ops as [|o ops IH]; intros p p' q Hc E Hs Hk; cbn [run] in E.
  - assert (p = p') by congruence. subst p'. exists [], q. rewrite app_nil_r. auto.
  - destruct (step p o) as [p1 st1] eqn:Es. destruct st1; try discriminate.
    pose proof (step_eff _ _ _ Hc Es) as He.
    destruct (eff_replay_c p p1 q He Hc Hs Hk) as (w1 & q1 & W1 & R1 & S1 & K1).
    destruct (IH p1 p' q1 (eff_consistent _ _ Hc He) E S1 K1) as (w2 & q2 & W2 & R2 & S2 & K2).
    exists (w1 ++ w2), q2. split; [rewrite W2, W1, app_assoc; reflexivity|].
    split; [rewrite (replay_app w1 w2 q q1 R1); exact R2|auto].
Qed.

(** an operation that writes no record changes no row *)
Lemma run_grows : forall ops p p', consistent p -> run p ops = (p', SOk) ->
  nsec p' = nsec p /\ exists w, wal p' = wal p ++ w /\ (w = [] -> rows_eq p p').
Proof.
  induction ops as [|o ops IH]; intros p p' Hc E; cbn [run] in E.
  - assert (p = p') by congruence. subst p'. split; [reflexivity|]. exists []. rewrite app_nil_r. split; [reflexivity|].
    intros _ k. reflexivity.
  - destruct (step p o) as [p1 st1] eqn:Es. destruct st1; try discriminate.
    pose proof (step_eff _ _ _ Hc Es) as He.
    destruct (IH p1 p' (eff_consistent _ _ Hc He) E) as (N & w & W & R).
    destruct He as [->|r H1 Hns Hl Hw _ _ _ _|r es Hno Hp Hns Hl Hse Hw _ _ _ _|r0 r es H0 Hr Hp Hns Hl Hse Hw _ _ _ _|r es H0 Hp Hns Hl Hse Hw _ _ _].
    + split; [exact N|]. exists w. auto.
    + split; [congruence|]. exists w. split; [congruence|]. intros Ew. eapply rows_eq_trans; [|exact (R Ew)].
      intros k. unfold view. now rewrite H1.
    + split; [congruence|]. exists ((REPLACE, r) :: w). split; [rewrite W, Hw, <- app_assoc; reflexivity|discriminate].
    + split; [congruence|]. exists ((REPLACE, r) :: w). split; [rewrite W, Hw, <- app_assoc; reflexivity|discriminate].
    + split; [congruence|]. exists ((DELETE, r) :: w). split; [rewrite W, Hw, <- app_assoc; reflexivity|discriminate].
Qed.
