(** Proofs about one store of the hash index that is never rehashed. *)
From Verif Require Import Base HashModel HashSpec.
Local Open Scope nat_scope.

Lemma set_nth_length {A} (l : list A) p v : length (set_nth l p v) = length l.
Proof. revert p; induction l as [|x l IH]; intros [|p]; cbn; auto. Qed.
Lemma set_nth_eq {A} (l : list A) p v d : p < length l -> nth p (set_nth l p v) d = v.
Proof. revert p; induction l as [|x l IH]; intros [|p] H; cbn in *; try lia; auto. apply IH; lia. Qed.
Lemma set_nth_neq {A} (l : list A) p q v d : p <> q -> nth q (set_nth l p v) d = nth q l d.
Proof. revert p q; induction l as [|x l IH]; intros [|p] [|q] H; cbn in *; try lia; auto. Qed.

Lemma mod_step n s j : n > 0 -> ((s + j) mod n + 1) mod n = (s + S j) mod n.
Proof.
  intros H. rewrite Nat.add_mod_idemp_l by lia. f_equal; lia.
Qed.
(* two offsets of a probe sequence reach the same slot only if equal *)
Lemma mod_inj n s i j : i < n -> j < n -> (s + i) mod n = (s + j) mod n -> i = j.
Proof.
  intros Hi Hj E.
  assert (forall a b, a < n -> b < n -> a <= b -> (s + a) mod n = (s + b) mod n -> a = b) as K.
  { intros a b Ha Hb Hab Eq.
    pose proof (Nat.div_mod (s + a) n ltac:(lia)) as D1. pose proof (Nat.div_mod (s + b) n ltac:(lia)) as D2.
    rewrite Eq in D1. pose proof (Nat.mod_upper_bound (s + b) n ltac:(lia)).
    assert ((s + b) / n = (s + a) / n \/ (s + b)/n >= (s + a) / n + 1 \/ (s+b)/n + 1 <= (s+a)/n) as [C|[C|C]] by lia; nia. }
  destruct (Nat.le_gt_cases i j); [apply K|symmetry; apply K]; auto; lia.
Qed.
Lemma mod_surj n s p : p < n -> exists j, j < n /\ (s + j) mod n = p.
Proof.
  intros Hp. exists ((p + (n - s mod n)) mod n). split; [apply Nat.mod_upper_bound; lia|].
  rewrite Nat.add_mod_idemp_r by lia.
  pose proof (Nat.mod_upper_bound s n ltac:(lia)).
  pose proof (Nat.div_mod s n ltac:(lia)) as D.
  replace (s + (p + (n - s mod n))) with (p + (s / n + 1) * n) by nia.
  rewrite Nat.mod_add by lia. apply Nat.mod_small; lia.
Qed.

Section H.
Variable rh : Z -> Z.
Notation home := (home rh).

Definition probe (s : store) (k : Z) (j : nat) : nat := (home s k + j) mod size s.

Lemma home_lt s k : size s > 0 -> home s k < size s.
Proof.
  intros H. unfold HashModel.home.
  pose proof (Z.mod_pos_bound (rh k) (Z.of_nat (size s)) ltac:(lia)). lia.
Qed.
Lemma probe0 s k : size s > 0 -> probe s k 0 = home s k.
Proof. intros H. unfold probe. rewrite Nat.add_0_r. apply Nat.mod_small. now apply home_lt. Qed.
Lemma probe_S s k j : size s > 0 -> (probe s k j + 1) mod size s = probe s k (S j).
Proof. intros; unfold probe; now apply mod_step. Qed.
Lemma probe_lt s k j : size s > 0 -> probe s k j < size s.
Proof. intros; unfold probe; apply Nat.mod_upper_bound; lia. Qed.

Definition is_key (k : Z) (x : slot) : Prop := match x with Used r => hkey r = k | _ => False end.


(** slot [a] of the probe sequence is passed over *)
Definition passed (s : store) (k : Z) (a : nat) : Prop :=
  slot_at s (probe s k a) <> Empty /\ ~ is_key k (slot_at s (probe s k a)).
Lemma passed_ext s k j i : passed s k j -> (forall a, S j <= a < i -> passed s k a) -> forall a, j <= a < i -> passed s k a.
Proof. intros P0 P a Ha. assert (a = j \/ S j <= a) as [->|?] by lia; [exact P0|apply P; lia]. Qed.

(** the outcome of hash_store_get *)
Lemma get_loop_spec s k (Hn : size s > 0) : forall f j, j + f = size s ->
  match get_loop s k f (probe s k j) with
  | Ok (Some r, p) => exists i, j <= i < size s /\ p = probe s k i /\ slot_at s p = Used r /\ hkey r = k /\
       forall a, j <= a < i -> passed s k a
  | Ok (None, p) => exists i, j <= i < size s /\ p = probe s k i /\ slot_at s p = Empty /\
       forall a, j <= a < i -> passed s k a
  | _ => forall a, j <= a < size s -> passed s k a
  end.
Proof.
  induction f as [|f IH]; intros j Hj; cbn [get_loop].
  { intros a Ha; lia. }
  specialize (IH (S j) ltac:(lia)). rewrite <- probe_S in IH by lia.
  assert (passed s k j -> match get_loop s k f ((probe s k j + 1) mod size s) with
  | Ok (Some r, p) => exists i, j <= i < size s /\ p = probe s k i /\ slot_at s p = Used r /\ hkey r = k /\
       forall a, j <= a < i -> passed s k a
  | Ok (None, p) => exists i, j <= i < size s /\ p = probe s k i /\ slot_at s p = Empty /\
       forall a, j <= a < i -> passed s k a
  | _ => forall a, j <= a < size s -> passed s k a
  end) as K.
  { intros P0. destruct (get_loop s k f _) as [[[r|] p]| |].
    - destruct IH as (i & Hi & Hp & Hr & Hk & R). exists i. split; [lia|]. split; [exact Hp|]. split; [exact Hr|].
      split; [exact Hk|]. now apply passed_ext.
    - destruct IH as (i & Hi & Hp & Hr & R). exists i. split; [lia|]. split; [exact Hp|]. split; [exact Hr|]. now apply passed_ext.
    - now apply passed_ext.
    - now apply passed_ext. }
  destruct (slot_at s (probe s k j)) as [| |ref] eqn:E.
  - exists j. split; [lia|]. split; [reflexivity|]. split; [exact E|]. intros; lia.
  - apply K. split; rewrite E; cbn; [discriminate|tauto].
  - destruct (hkey ref =? k)%Z eqn:Ek.
    + exists j. split; [lia|]. split; [reflexivity|]. split; [exact E|]. split; [lia|]. intros; lia.
    + apply K. split; rewrite E; cbn; [discriminate|lia].
Qed.

(** the outcome of hash_store_delete *)
Lemma delete_loop_spec s k (Hn : size s > 0) : forall f j, j + f = size s ->
  match delete_loop s k f (probe s k j) with
  | (s', Some r) => exists i, j <= i < size s /\ slot_at s (probe s k i) = Used r /\ hkey r = k /\
       s' = put s (probe s k i) Deleted (-1)%Z
  | (s', None) => s' = s /\ ((forall a, j <= a < size s -> passed s k a) \/
       exists i, j <= i < size s /\ slot_at s (probe s k i) = Empty /\ forall a, j <= a < i -> passed s k a)
  end.
Proof.
  induction f as [|f IH]; intros j Hj; cbn [delete_loop].
  { split; [reflexivity|left; intros a Ha; lia]. }
  specialize (IH (S j) ltac:(lia)). rewrite <- probe_S in IH by lia.
  assert (passed s k j -> match delete_loop s k f ((probe s k j + 1) mod size s) with
  | (s', Some r) => exists i, j <= i < size s /\ slot_at s (probe s k i) = Used r /\ hkey r = k /\
       s' = put s (probe s k i) Deleted (-1)%Z
  | (s', None) => s' = s /\ ((forall a, j <= a < size s -> passed s k a) \/
       exists i, j <= i < size s /\ slot_at s (probe s k i) = Empty /\ forall a, j <= a < i -> passed s k a)
  end) as K.
  { intros P0. destruct (delete_loop s k f _) as [s' [r|]].
    - destruct IH as (i & Hi & R). exists i. split; [lia|exact R].
    - destruct IH as [-> [A|(i & Hi & Ei & A)]]; (split; [reflexivity|]).
      + left. now apply passed_ext.
      + right. exists i. split; [lia|]. split; [exact Ei|]. now apply passed_ext. }
  destruct (slot_at s (probe s k j)) as [| |ref] eqn:E.
  - split; [reflexivity|right]. exists j. split; [lia|]. split; [exact E|]. intros; lia.
  - apply K. split; rewrite E; cbn; [discriminate|tauto].
  - destruct (hkey ref =? k)%Z eqn:Ek.
    + exists j. split; [lia|]. split; [exact E|]. split; [lia|]. reflexivity.
    + apply K. split; rewrite E; cbn; [discriminate|lia].
Qed.

(** the outcome of hash_store_set *)
Definition free_slot (x : slot) : Prop := match x with Used _ => False | _ => True end.
Lemma set_loop_spec s r (Hn : size s > 0) : forall f j, j + f = size s ->
  match set_loop s r f (probe s (hkey r) j) with
  | Ok (s', p) => exists i, j <= i < size s /\ (forall a, j <= a < i -> passed s (hkey r) a) /\
       match p with
       | Some ref => slot_at s (probe s (hkey r) i) = Used ref /\ hkey ref = hkey r /\ s' = put s (probe s (hkey r) i) (Used r) 0%Z
       | None => free_slot (slot_at s (probe s (hkey r) i)) /\ s' = put s (probe s (hkey r) i) (Used r) 1%Z
       end
  | _ => forall a, j <= a < size s -> passed s (hkey r) a
  end.
Proof.
  induction f as [|f IH]; intros j Hj; cbn [set_loop].
  { intros a Ha; lia. }
  specialize (IH (S j) ltac:(lia)). rewrite <- probe_S in IH by lia.
  destruct (slot_at s (probe s (hkey r) j)) as [| |ref] eqn:E.
  - exists j. split; [lia|]. split; [intros; lia|]. rewrite E. split; [exact I|reflexivity].
  - exists j. split; [lia|]. split; [intros; lia|]. rewrite E. split; [exact I|reflexivity].
  - destruct (hkey ref =? hkey r)%Z eqn:Ek.
    + exists j. split; [lia|]. split; [intros; lia|]. split; [exact E|]. split; [lia|reflexivity].
    + assert (passed s (hkey r) j) as P0 by (split; rewrite E; cbn; [discriminate|lia]).
      destruct (set_loop s r f _) as [[s' p]| |].
      * destruct IH as (i & Hi & A & R). exists i. split; [lia|]. split; [now apply passed_ext|exact R].
      * now apply passed_ext.
      * now apply passed_ext.
Qed.

(** ** the invariant of a store *)
Definition nonempty (l : list slot) : nat := length (filter (fun x => match x with Empty => false | _ => true end) l).
Definition live (l : list slot) : nat := length (filter (fun x => match x with Used _ => true | _ => false end) l).

Record inv (s : store) (m : hmap) (d : bool) : Prop := {
  i_map : forall k r, m k = Some r <-> (hkey r = k /\ exists p, p < size s /\ slot_at s p = Used r);
  i_uniq : forall p q r r', p < size s -> q < size s -> slot_at s p = Used r -> slot_at s q = Used r' ->
            hkey r = hkey r' -> p = q;
  i_chain : forall p r, p < size s -> slot_at s p = Used r ->
            exists j, j < size s /\ p = probe s (hkey r) j /\
                      forall i, i < j -> slot_at s (probe s (hkey r) i) <> Empty;
  i_count : count s = Z.of_nat (live (rows s));
  i_tomb : d = false -> forall p, slot_at s p <> Deleted }.

Lemma put_size s p v d : size (put s p v d) = size s.
Proof. apply set_nth_length. Qed.
Lemma put_home s p v d k : home (put s p v d) k = home s k.
Proof. unfold HashModel.home. now rewrite put_size. Qed.
Lemma put_probe s p v d k j : probe (put s p v d) k j = probe s k j.
Proof. unfold probe. now rewrite put_home, put_size. Qed.
Lemma put_eq s p v d : p < size s -> slot_at (put s p v d) p = v.
Proof. intros H. apply set_nth_eq, H. Qed.
Lemma put_neq s p q v d : p <> q -> slot_at (put s p v d) q = slot_at s q.
Proof. intros H. apply set_nth_neq, H. Qed.

Lemma live_put l p v : p < length l ->
  live (set_nth l p v) + (if match nth p l Empty with Used _ => true | _ => false end then 1 else 0) =
  live l + (if match v with Used _ => true | _ => false end then 1 else 0).
Proof.
  unfold live. revert p; induction l as [|x l IH]; intros [|p] H; cbn [length set_nth nth filter] in *; try lia.
  - destruct x, v; cbn [length]; lia.
  - specialize (IH p ltac:(lia)). destruct x; cbn [length]; lia.
Qed.
Lemma nonempty_put l p v : p < length l ->
  nonempty (set_nth l p v) + (if match nth p l Empty with Empty => false | _ => true end then 1 else 0) =
  nonempty l + (if match v with Empty => false | _ => true end then 1 else 0).
Proof.
  unfold nonempty. revert p; induction l as [|x l IH]; intros [|p] H; cbn [length set_nth nth filter] in *; try lia.
  - destruct x, v; cbn [length]; lia.
  - specialize (IH p ltac:(lia)). destruct x; cbn [length]; lia.
Qed.
Lemma live_le l : live l <= nonempty l.
Proof. unfold live, nonempty. induction l as [|x l IH]; cbn; [lia|]. destruct x; cbn [length]; lia. Qed.
Lemma nonempty_all l : (forall p, p < length l -> nth p l Empty <> Empty) -> nonempty l = length l.
Proof.
  unfold nonempty. induction l as [|x l IH]; intros H; [reflexivity|].
  cbn [filter length]. pose proof (H 0 ltac:(cbn; lia)) as H0. cbn in H0.
  destruct x; [congruence| |]; cbn [length]; f_equal; apply IH; intros p Hp; apply (H (S p)); cbn; lia.
Qed.

Lemma not_all_passed s k : size s > 0 -> nonempty (rows s) < size s -> ~ (forall a, 0 <= a < size s -> passed s k a).
Proof.
  intros Hn Hl H.
  assert (nonempty (rows s) = length (rows s)) as E; [|unfold size in *; lia].
  apply nonempty_all. intros p Hp. destruct (mod_surj (size s) (home s k) p Hp) as (j & Hj & <-).
  apply (H j). lia.
Qed.

(* a key that is present is found before an empty slot *)
Lemma present_before_empty s m d k r i : inv s m d -> m k = Some r -> i < size s ->
  slot_at s (probe s k i) = Empty -> (forall a, a < i -> passed s k a) -> False.
Proof.
  intros V Hk Hi Ei A. apply (i_map _ _ _ V) in Hk as (Kr & p & Hp & Ep).
  destruct (i_chain _ _ _ V p r Hp Ep) as (j & Hj & -> & C). rewrite Kr in *.
  assert (j < i \/ j = i \/ i < j) as [L|[->|L]] by lia.
  - destruct (A j L) as [_ N]. apply N. rewrite Ep. exact Kr.
  - congruence.
  - exact (C i L Ei).
Qed.

Lemma get_ok s m d k : inv s m d -> size s > 0 -> nonempty (rows s) < size s ->
  exists p, store_get rh s k = Ok (m k, p) /\ p < size s /\
    match m k with
    | Some r => slot_at s p = Used r
    | None => slot_at s p = Empty /\ exists i, i < size s /\ p = probe s k i /\ forall a, a < i -> slot_at s (probe s k a) <> Empty
    end.
Proof.
  intros V Hn Hl. pose proof (get_loop_spec s k Hn (size s) 0 eq_refl) as G.
  unfold store_get. rewrite <- probe0 by lia.
  destruct (get_loop s k (size s) (probe s k 0)) as [[[r|] p]| |].
  - destruct G as (i & Hi & -> & Er & Kr & A).
    assert (m k = Some r) as M by (apply (i_map _ _ _ V); split; [exact Kr|exists (probe s k i); split; [now apply probe_lt|exact Er]]).
    rewrite M. exists (probe s k i). split; [reflexivity|]. split; [now apply probe_lt|exact Er].
  - destruct G as (i & Hi & -> & Er & A). destruct (m k) as [r|] eqn:M.
    + exfalso. apply (present_before_empty s m d k r i V M ltac:(lia)); [assumption|]. intros; apply A; lia.
    + exists (probe s k i). split; [reflexivity|]. split; [now apply probe_lt|]. split; [exact Er|].
      exists i. split; [lia|]. split; [reflexivity|]. intros a Ha. apply A. lia.
  - exfalso. exact (not_all_passed s k Hn Hl G).
  - exfalso. exact (not_all_passed s k Hn Hl G).
Qed.

(* writing a new key in a free slot of its probe sequence *)
Lemma inv_insert s m d r i : inv s m d -> m (hkey r) = None -> i < size s -> size s > 0 ->
  free_slot (slot_at s (probe s (hkey r) i)) ->
  (forall a, a < i -> slot_at s (probe s (hkey r) a) <> Empty) ->
  inv (put s (probe s (hkey r) i) (Used r) 1%Z) (upd m (hkey r) (Some r)) d.
Proof.
  intros V M Hi Hn F A. set (p0 := probe s (hkey r) i) in *.
  assert (p0 < size s) as Hp0 by now apply probe_lt.
  assert (forall q x, slot_at s q = Used x -> q <> p0) as N by (intros q x E ->; rewrite E in F; exact F).
  assert (forall q x, q < size s -> slot_at s q = Used x -> hkey x <> hkey r) as NK.
  { intros q x Hq E K. assert (m (hkey x) = Some x) as C by (apply (i_map _ _ _ V); eauto). rewrite K, M in C. discriminate. }
  split.
  - intros k x. rewrite put_size. unfold upd. destruct (k =? hkey r)%Z eqn:E.
    + assert (k = hkey r) as -> by lia. split.
      * intros [= <-]. split; [reflexivity|]. exists p0. split; [exact Hp0|]. now apply put_eq.
      * intros (K & p & Hp & Ep). destruct (Nat.eq_dec p0 p) as [<-|NE].
        { rewrite put_eq in Ep by exact Hp0. congruence. }
        rewrite put_neq in Ep by exact NE. now destruct (NK p x Hp Ep).
    + rewrite (i_map _ _ _ V). split; intros (K & p & Hp & Ep); (split; [exact K|]); exists p; (split; [exact Hp|]).
      * rewrite put_neq; [exact Ep|]. intros ->. now apply (N p x Ep).
      * destruct (Nat.eq_dec p0 p) as [<-|NE].
        { rewrite put_eq in Ep by exact Hp0. injection Ep as <-. lia. }
        now rewrite put_neq in Ep by exact NE.
  - intros p q x y. rewrite put_size. intros Hp Hq Ep Eq K.
    destruct (Nat.eq_dec p0 p) as [<-|N1], (Nat.eq_dec p0 q) as [<-|N2]; auto.
    + rewrite put_eq in Ep by exact Hp0. injection Ep as <-. rewrite put_neq in Eq by exact N2.
      now destruct (NK q y Hq Eq).
    + rewrite put_eq in Eq by exact Hp0. injection Eq as <-. rewrite put_neq in Ep by exact N1.
      now destruct (NK p x Hp Ep).
    + rewrite put_neq in Ep, Eq by assumption. eapply (i_uniq _ _ _ V); eauto.
  - intros p x. rewrite put_size. intros Hp Ep. destruct (Nat.eq_dec p0 p) as [<-|N1].
    + rewrite put_eq in Ep by exact Hp0. injection Ep as <-. exists i. split; [exact Hi|].
      split; [rewrite put_probe; reflexivity|]. intros a Ha. rewrite put_probe.
      destruct (Nat.eq_dec p0 (probe s (hkey r) a)) as [<-|NE]; [rewrite put_eq by exact Hp0; discriminate|].
      rewrite put_neq by exact NE. now apply A.
    + rewrite put_neq in Ep by exact N1. destruct (i_chain _ _ _ V p x Hp Ep) as (j & Hj & Pj & C).
      exists j. split; [exact Hj|]. split; [rewrite put_probe; exact Pj|]. intros a Ha. rewrite put_probe.
      destruct (Nat.eq_dec p0 (probe s (hkey x) a)) as [<-|NE]; [rewrite put_eq by exact Hp0; discriminate|].
      rewrite put_neq by exact NE. now apply C.
  - cbn [put count rows]. rewrite (i_count _ _ _ V). pose proof (live_put (rows s) p0 (Used r) Hp0) as L.
    unfold slot_at in F. destruct (nth p0 (rows s) Empty); cbn in F, L; try lia; try tauto.
  - intros Hd p. destruct (Nat.eq_dec p0 p) as [<-|N1]; [rewrite put_eq by exact Hp0; discriminate|].
    rewrite put_neq by exact N1. now apply (i_tomb _ _ _ V).
Qed.

(* replacing the row of a present key in place *)
Lemma inv_replace s m d r x p : inv s m d -> p < size s -> slot_at s p = Used x -> hkey x = hkey r ->
  inv (put s p (Used r) 0%Z) (upd m (hkey r) (Some r)) d.
Proof.
  intros V Hp0 E K.
  assert (forall q y, q < size s -> slot_at s q = Used y -> q <> p -> hkey y <> hkey r) as NK.
  { intros q y Hq Eq NE KK. apply NE. eapply (i_uniq _ _ _ V); eauto. congruence. }
  split.
  - intros k y. rewrite put_size. unfold upd. destruct (k =? hkey r)%Z eqn:Ek.
    + assert (k = hkey r) as -> by lia. split.
      * intros [= <-]. split; [reflexivity|]. exists p. split; [exact Hp0|]. now apply put_eq.
      * intros (KK & q & Hq & Eq). destruct (Nat.eq_dec p q) as [<-|NE].
        { rewrite put_eq in Eq by exact Hp0. congruence. }
        rewrite put_neq in Eq by exact NE. destruct (NK q y Hq Eq); congruence.
    + rewrite (i_map _ _ _ V). split; intros (KK & q & Hq & Eq); (split; [exact KK|]); exists q; (split; [exact Hq|]).
      * rewrite put_neq; [exact Eq|]. intros <-. rewrite E in Eq. injection Eq as <-. lia.
      * destruct (Nat.eq_dec p q) as [<-|NE].
        { rewrite put_eq in Eq by exact Hp0. injection Eq as <-. lia. }
        now rewrite put_neq in Eq by exact NE.
  - intros a b y z. rewrite put_size. intros Ha Hb Ea Eb KK.
    destruct (Nat.eq_dec p a) as [<-|N1], (Nat.eq_dec p b) as [<-|N2]; auto.
    + rewrite put_eq in Ea by exact Hp0. injection Ea as <-. rewrite put_neq in Eb by exact N2.
      destruct (NK b z Hb Eb); congruence.
    + rewrite put_eq in Eb by exact Hp0. injection Eb as <-. rewrite put_neq in Ea by exact N1.
      destruct (NK a y Ha Ea); congruence.
    + rewrite put_neq in Ea, Eb by assumption. eapply (i_uniq _ _ _ V); eauto.
  - intros q y. rewrite put_size. intros Hq Eq.
    assert (exists y', slot_at s q = Used y' /\ hkey y' = hkey y) as (y' & Eq' & Ky).
    { destruct (Nat.eq_dec p q) as [<-|N1].
      - rewrite put_eq in Eq by exact Hp0. injection Eq as <-. eauto.
      - rewrite put_neq in Eq by exact N1. eauto. }
    destruct (i_chain _ _ _ V q y' Hq Eq') as (j & Hj & Pj & C). rewrite Ky in *.
    exists j. split; [exact Hj|]. split; [rewrite put_probe; exact Pj|]. intros a Ha. rewrite put_probe.
    destruct (Nat.eq_dec p (probe s (hkey y) a)) as [<-|NE]; [rewrite put_eq by exact Hp0; discriminate|].
    rewrite put_neq by exact NE. now apply C.
  - cbn [put count rows]. rewrite (i_count _ _ _ V). pose proof (live_put (rows s) p (Used r) Hp0) as L.
    unfold slot_at in E. rewrite E in L. lia.
  - intros Hd q. destruct (Nat.eq_dec p q) as [<-|N1]; [rewrite put_eq by exact Hp0; discriminate|].
    rewrite put_neq by exact N1. now apply (i_tomb _ _ _ V).
Qed.

(* deleting the row of a present key *)
Lemma inv_delete s m d k x p : inv s m d -> p < size s -> slot_at s p = Used x -> hkey x = k ->
  inv (put s p Deleted (-1)%Z) (upd m k None) true.
Proof.
  intros V Hp0 E K. split.
  - intros q y. rewrite put_size. unfold upd. destruct (q =? k)%Z eqn:Ek.
    + split; [discriminate|]. intros (KK & a & Ha & Ea). exfalso.
      destruct (Nat.eq_dec p a) as [<-|NE]; [rewrite put_eq in Ea by exact Hp0; discriminate|].
      rewrite put_neq in Ea by exact NE. apply NE. eapply (i_uniq _ _ _ V); eauto. lia.
    + rewrite (i_map _ _ _ V). split; intros (KK & a & Ha & Ea); (split; [exact KK|]); exists a; (split; [exact Ha|]).
      * rewrite put_neq; [exact Ea|]. intros <-. rewrite E in Ea. injection Ea as <-. lia.
      * destruct (Nat.eq_dec p a) as [<-|NE]; [rewrite put_eq in Ea by exact Hp0; discriminate|].
        now rewrite put_neq in Ea by exact NE.
  - intros a b y z. rewrite put_size. intros Ha Hb Ea Eb KK.
    destruct (Nat.eq_dec p a) as [<-|N1]; [rewrite put_eq in Ea by exact Hp0; discriminate|].
    destruct (Nat.eq_dec p b) as [<-|N2]; [rewrite put_eq in Eb by exact Hp0; discriminate|].
    rewrite put_neq in Ea, Eb by assumption. eapply (i_uniq _ _ _ V); eauto.
  - intros q y. rewrite put_size. intros Hq Eq.
    destruct (Nat.eq_dec p q) as [<-|N1]; [rewrite put_eq in Eq by exact Hp0; discriminate|].
    rewrite put_neq in Eq by exact N1.
    destruct (i_chain _ _ _ V q y Hq Eq) as (j & Hj & Pj & C).
    exists j. split; [exact Hj|]. split; [rewrite put_probe; exact Pj|]. intros a Ha. rewrite put_probe.
    destruct (Nat.eq_dec p (probe s (hkey y) a)) as [<-|NE]; [rewrite put_eq by exact Hp0; discriminate|].
    rewrite put_neq by exact NE. now apply C.
  - cbn [put count rows]. rewrite (i_count _ _ _ V). pose proof (live_put (rows s) p Deleted Hp0) as L.
    unfold slot_at in E. rewrite E in L. lia.
  - discriminate.
Qed.

Lemma inv_ext s m m' d : inv s m d -> (forall k, m k = m' k) -> inv s m' d.
Proof.
  intros V E. split; try apply V. intros k r. rewrite <- E. apply V.
Qed.
Lemma inv_weaken s m d d' : inv s m d -> inv s m (d || d').
Proof. intros V. split; try apply V. intros H. apply (i_tomb _ _ _ V). destruct d; [discriminate|reflexivity]. Qed.
Lemma inv_key s m d k r : inv s m d -> m k = Some r -> hkey r = k.
Proof. intros V H. now apply (i_map _ _ _ V) in H as [H _]. Qed.

Lemma set_ok s m d r : inv s m d -> size s > 0 -> nonempty (rows s) < size s ->
  (d = true -> m (hkey r) = None) ->
  exists s', store_set rh s r = Ok (s', m (hkey r)) /\ size s' = size s /\ inv s' (upd m (hkey r) (Some r)) d /\
    nonempty (rows s') <= S (nonempty (rows s)).
Proof.
  intros V Hn Hl HD. pose proof (set_loop_spec s r Hn (size s) 0 eq_refl) as G.
  unfold store_set. rewrite <- probe0 by lia.
  destruct (set_loop s r (size s) (probe s (hkey r) 0)) as [[s' p]| |].
  2,3: exfalso; exact (not_all_passed s (hkey r) Hn Hl G).
  destruct G as (i & Hi & A & G).
  assert (forall x v, nonempty (rows (put s (probe s (hkey r) i) v x)) <= S (nonempty (rows s))) as NE.
  { intros x v. pose proof (nonempty_put (rows s) (probe s (hkey r) i) v (probe_lt s (hkey r) i Hn)) as L.
    cbn [put rows]. destruct (nth _ _ _), v; cbn in L; lia. }
  destruct p as [ref|].
  - destruct G as (E & K & ->). eexists. split.
    + f_equal. f_equal. symmetry. apply (i_map _ _ _ V). split; [exact K|]. exists (probe s (hkey r) i). split; [now apply probe_lt|exact E].
    + split; [apply put_size|]. split; [|apply NE]. eapply inv_replace; eauto. now apply probe_lt.
  - destruct G as (F & ->).
    assert (m (hkey r) = None) as M.
    { destruct d; [now apply HD|]. destruct (m (hkey r)) as [y|] eqn:M; [|reflexivity]. exfalso.
      apply (present_before_empty s m false (hkey r) y i V M ltac:(lia)); [|intros; apply A; lia].
      pose proof (i_tomb _ _ _ V eq_refl (probe s (hkey r) i)). destruct (slot_at s (probe s (hkey r) i)); cbn in F; tauto. }
    rewrite M. eexists. split; [reflexivity|]. split; [apply put_size|]. split; [|apply NE].
    apply inv_insert; auto; [lia|]. intros a Ha. apply A. lia.
Qed.

Lemma del_ok s m d k : inv s m d -> size s > 0 -> nonempty (rows s) < size s ->
  exists s', store_delete rh s k = (s', m k) /\ size s' = size s /\ inv s' (upd m k None) true /\
    nonempty (rows s') = nonempty (rows s).
Proof.
  intros V Hn Hl. pose proof (delete_loop_spec s k Hn (size s) 0 eq_refl) as G.
  unfold store_delete. rewrite <- probe0 by lia.
  destruct (delete_loop s k (size s) (probe s k 0)) as [s' [r|]].
  - destruct G as (i & Hi & E & K & ->). eexists. split.
    + f_equal. symmetry. apply (i_map _ _ _ V). split; [exact K|]. exists (probe s k i). split; [now apply probe_lt|exact E].
    + split; [apply put_size|]. split.
      * eapply inv_delete; eauto. now apply probe_lt.
      * pose proof (nonempty_put (rows s) (probe s k i) Deleted (probe_lt s k i Hn)) as L.
        cbn [put rows]. unfold slot_at in E. rewrite E in L. lia.
  - destruct G as [-> [A|(i & Hi & E & A)]].
    + exfalso. exact (not_all_passed s k Hn Hl A).
    + exists s. destruct (m k) as [r|] eqn:M.
      * exfalso. apply (present_before_empty s m d k r i V M ltac:(lia)); [assumption|]. intros; apply A; lia.
      * split; [reflexivity|]. split; [reflexivity|]. split; [|reflexivity].
        eapply inv_ext; [rewrite <- (orb_true_r d); apply inv_weaken, V|]. intros q. unfold upd.
        destruct (q =? k)%Z eqn:Eq; [|reflexivity]. assert (q = k) as -> by lia. exact M.
Qed.

(** the rows of a store, for a full scan *)
Lemma store_rows_in l r : In r (flat_map (fun x => match x with Used r => [r] | _ => [] end) l) <->
  exists p, p < length l /\ nth p l Empty = Used r.
Proof.
  induction l as [|x l IH].
  - cbn. split; [tauto|]. intros (p & Hp & _). lia.
  - cbn [flat_map]. rewrite in_app_iff, IH. split.
    + intros [H|(p & Hp & E)].
      * exists 0. split; [cbn; lia|]. destruct x; cbn in H; try tauto. destruct H as [->|[]]. reflexivity.
      * exists (S p). split; [cbn; lia|exact E].
    + intros ([|p] & Hp & E); cbn in E, Hp.
      * left. subst x. now left.
      * right. exists p. split; [lia|exact E].
Qed.
Lemma store_rows_nodup l :
  (forall p q r r', p < length l -> q < length l -> nth p l Empty = Used r -> nth q l Empty = Used r' -> hkey r = hkey r' -> p = q) ->
  NoDup (map hkey (flat_map (fun x => match x with Used r => [r] | _ => [] end) l)).
Proof.
  induction l as [|x l IH]; intros U; [constructor|]. cbn [flat_map]. rewrite map_app.
  assert (NoDup (map hkey (flat_map (fun x => match x with Used r => [r] | _ => [] end) l))) as N.
  { apply IH. intros p q r r' Hp Hq E1 E2 K. specialize (U (S p) (S q) r r'). cbn in U. specialize (U ltac:(lia) ltac:(lia) E1 E2 K). lia. }
  destruct x as [| |r]; cbn; try exact N. constructor; [|exact N].
  intros Hin. apply in_map_iff in Hin as (r' & K & Hin). apply store_rows_in in Hin as (p & Hp & E).
  specialize (U 0 (S p) r r'). cbn in U. specialize (U ltac:(lia) ltac:(lia) eq_refl E (eq_sym K)). lia.
Qed.

Lemma live0_rows l : live l = 0 -> forall r, ~ exists p, p < length l /\ nth p l Empty = Used r.
Proof.
  unfold live. induction l as [|x l IH]; intros H r (p & Hp & E); [cbn in Hp; lia|].
  cbn [filter] in H. destruct x; cbn [length] in H, Hp; try lia; (destruct p as [|p]; cbn in E; [discriminate|]); apply (IH H r); exists p; (split; [lia|exact E]).
Qed.

Lemma scan_ok s m d rp : inv s m d ->
  NoDup (map hkey (scan (mkhash s None rp))) /\ forall r, In r (scan (mkhash s None rp)) <-> m (hkey r) = Some r.
Proof.
  intros V. unfold scan; cbn [prev current].
  destruct (count s =? 0)%Z eqn:E.
  - split; [constructor|]. intros r. cbn. split; [tauto|]. intros M. apply (i_map _ _ _ V) in M as (_ & P).
    rewrite (i_count _ _ _ V) in E. exact (live0_rows (rows s) ltac:(lia) r P).
  - split.
    + apply store_rows_nodup. intros p q r r'. apply (i_uniq _ _ _ V).
    + intros r. unfold store_rows. rewrite store_rows_in. rewrite (i_map _ _ _ V).
      split; [intros P; split; [reflexivity|exact P]|intros [_ P]; exact P].
Qed.

(** ** one operation, then a history *)
Lemma hstep_ok s m d rp o : inv s m d -> size s = 256 ->
  nonempty (rows s) + (if is_write o then 1 else 0) <= 128 ->
  (match o with HReplaceBy r => d = true -> m (hkey r) = None | _ => True end) ->
  exists s' x, hstep rh (mkhash s None rp) o = Ok (mkhash s' None rp, x) /\ spec_out m o x /\
    inv s' (spec_map m o) (d || is_delete o) /\ size s' = 256 /\
    nonempty (rows s') <= nonempty (rows s) + (if is_write o then 1 else 0).
Proof.
  intros V Hs Hl HD.
  assert (size s > 0) as Hn by lia. assert (nonempty (rows s) < size s) as Hlt by lia.
  assert (forall s', size s' = 256 -> forall m' d', inv s' m' d' -> nonempty (rows s') <= 128 -> store_is_full s' = false) as NF.
  { intros s' Hs' m' d' V' L'. unfold store_is_full. rewrite (i_count _ _ _ V'), Hs'.
    pose proof (live_le (rows s')). change (Z.of_nat 256 / 2)%Z with 128%Z. apply Z.ltb_ge. lia. }
  destruct o as [r|r|k|k|r|k|]; cbn [is_write is_delete] in *; cbn [hstep]; rewrite ?orb_false_r, ?orb_true_r.
  - destruct (set_ok s m d r V Hn Hlt HD) as (s' & E & S' & V' & L').
    unfold hash_set; cbn [prev current rehashing_pos]. rewrite E. cbn [bind].
    rewrite (NF s' ltac:(lia) _ _ V') by lia. cbn [bind].
    exists s', (ORow (m (hkey r))). split; [reflexivity|]. split; [reflexivity|]. split; [exact V'|]. split; lia.
  - destruct (get_ok s m d (hkey r) V Hn Hlt) as (p & E & Hp & P).
    unfold hash_get_or_set; cbn [prev current rehashing_pos]. rewrite E. cbn [bind].
    cbn [spec_map]. destruct (m (hkey r)) as [y|] eqn:M.
    + rewrite (NF s Hs _ _ V) by lia. cbn [bind]. exists s, (ORow (Some y)).
      split; [reflexivity|]. split; [cbn [spec_out]; auto|]. split; [exact V|]. split; lia.
    + destruct P as (Pe & i & Hi & Pi & A).
      assert (inv (put s p (Used r) 1%Z) (upd m (hkey r) (Some r)) d) as V'.
      { subst p. apply inv_insert; auto. rewrite Pe. exact I. }
      pose proof (nonempty_put (rows s) p (Used r) Hp) as L'. unfold slot_at in Pe. rewrite Pe in L'. cbn in L'.
      rewrite (NF (put s p (Used r) 1%Z) ltac:(rewrite put_size; exact Hs) _ _ V') by (cbn [put rows]; lia). cbn [bind].
      exists (put s p (Used r) 1%Z), (ORow None). split; [reflexivity|]. split; [cbn [spec_out]; auto|]. split; [exact V'|].
      split; [rewrite put_size; exact Hs|]. cbn [put rows]. lia.
  - destruct (del_ok s m d k V Hn Hlt) as (s' & E & S' & V' & L').
    unfold hash_delete; cbn [prev current rehashing_pos]. rewrite E. cbn [bind].
    exists s', (ORow (m k)). split; [reflexivity|]. split; [reflexivity|]. split; [exact V'|]. split; lia.
  - destruct (get_ok s m d k V Hn Hlt) as (p & E & Hp & P).
    unfold iter_open; cbn [prev current]. rewrite E. cbn [bind].
    exists s, (ORow (m k)). split; [destruct (m k); reflexivity|]. split; [reflexivity|]. split; [exact V|]. split; lia.
  - destruct (get_ok s m d (hkey r) V Hn Hlt) as (p & E & Hp & P).
    unfold iter_open; cbn [prev current]. rewrite E. cbn [bind spec_map].
    destruct (m (hkey r)) as [y|] eqn:M; cbn [bind].
    + exists (put s p (Used r) 0%Z), (ORow (Some y)). split; [reflexivity|]. split; [cbn [spec_out]; auto|].
      split; [eapply inv_replace; eauto; exact (inv_key _ _ _ _ _ V M)|]. split; [rewrite put_size; exact Hs|].
      pose proof (nonempty_put (rows s) p (Used r) Hp) as L'. cbn [put rows]. unfold slot_at in P. rewrite P in L'. lia.
    + exists s, (ORow None). split; [reflexivity|]. split; [cbn [spec_out]; auto|]. split; [exact V|]. split; lia.
  - destruct (get_ok s m d k V Hn Hlt) as (p & E & Hp & P).
    unfold iter_open; cbn [prev current]. rewrite E. cbn [bind spec_map].
    destruct (m k) as [y|] eqn:M; cbn [bind].
    + exists (put s p Deleted (-1)%Z), (ORow (Some y)). split; [reflexivity|]. split; [cbn [spec_out]; auto|].
      split; [eapply inv_delete; eauto; exact (inv_key _ _ _ _ _ V M)|]. split; [rewrite put_size; exact Hs|].
      pose proof (nonempty_put (rows s) p Deleted Hp) as L'. cbn [put rows]. unfold slot_at in P. rewrite P in L'. lia.
    + exists s, (ORow None). split; [reflexivity|]. split; [cbn [spec_out]; auto|]. split; [|split; lia].
      eapply inv_ext; [rewrite <- (orb_true_r d); apply inv_weaken, V|]. intros q. unfold upd.
      destruct (q =? k)%Z eqn:Eq; [|reflexivity]. assert (q = k) as -> by lia. exact M.
  - exists s, (ORows (scan (mkhash s None rp))). split; [reflexivity|]. split; [cbn [spec_out]; eapply scan_ok; exact V|].
    split; [exact V|]. split; lia.
Qed.

Lemma hrun_ok ops : forall s m d rp, inv s m d -> size s = 256 ->
  nonempty (rows s) + writes ops <= 128 -> fresh_inserts m d ops ->
  exists h xs, hrun rh (mkhash s None rp) ops = Ok (h, xs) /\ spec_run m ops xs.
Proof.
  induction ops as [|o ops IH]; intros s m d rp V Hs Hl HF.
  - exists (mkhash s None rp), []. split; reflexivity.
  - cbn [fresh_inserts] in HF. destruct HF as [HF0 HF1].
    assert (writes (o :: ops) = (if is_write o then 1 else 0) + writes ops) as W.
    { unfold writes; cbn [filter]. destruct (is_write o); reflexivity. }
    destruct (hstep_ok s m d rp o V Hs ltac:(lia) HF0) as (s' & x & E & SO & V' & S' & L').
    destruct (IH s' (spec_map m o) (d || is_delete o)%bool rp V' S' ltac:(lia) HF1) as (h & xs & E2 & SR).
    exists h, (x :: xs). cbn [hrun]. rewrite E. cbn [bind]. rewrite E2. cbn [bind]. split; [reflexivity|].
    cbn [spec_run]. split; [exact SO|exact SR].
Qed.

Lemma inv_create : inv (store_create 256) empty_map false.
Proof.
  assert (forall p, slot_at (store_create 256) p = Empty) as E.
  { intros p. unfold slot_at, store_create; cbn [rows]. apply nth_repeat. }
  split.
  - intros k r. split; [discriminate|]. intros (_ & p & _ & Ep). rewrite E in Ep. discriminate.
  - intros p q r r' _ _ Ep. rewrite E in Ep. discriminate.
  - intros p r _ Ep. rewrite E in Ep. discriminate.
  - reflexivity.
  - intros _ p. rewrite E. discriminate.
Qed.
End H.
