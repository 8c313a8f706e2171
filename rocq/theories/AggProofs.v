(** Proofs about the aggregates: a set is a map from keys to states. *)
From Verif Require Import Base JsonModel JsonSpec ValueModel ValueProps HashModel HashProofs SetModel SetProofs SetProps AggModel.
Local Open Scope nat_scope.

Lemma option_ext {A} (a b : option A) : (forall x, a = Some x <-> b = Some x) -> a = b.
Proof.
  intros H. destruct a as [x|]; [symmetry; now apply H|]. destruct b as [y|]; [|reflexivity]. apply H. reflexivity.
Qed.

(** ** a set as a map *)
Section Map.
Context {K A : Type}.
Variables (eqb : K -> K -> bool) (hash : K -> Z) (a0 : A) (ok : K -> Prop).
Hypothesis EQ : forall a b, ok a -> ok b -> (eqb a b = true <-> a = b).
Notation inv := (inv (A := A) eqb hash ok).

Definition get (s : gset K A) (k : K) : option A := option_map snd (find (fun r => eqb (fst r) k) (srows s)).

Lemma keys_nth (s : gset K A) r : nth_error (keys s) r = option_map fst (nth_error (srows s) r).
Proof. apply nth_error_map. Qed.
Lemma inv_ok_nth s r k a : inv s -> nth_error (srows s) r = Some (k, a) -> ok k.
Proof.
  intros I H. apply (proj1 (Forall_forall ok (keys s)) (i_ok _ _ _ s I)). apply (in_map fst (srows s) (k, a)). eapply nth_error_In; eauto.
Qed.
Lemma inv_inj s r r' k a a' : inv s -> nth_error (srows s) r = Some (k, a) -> nth_error (srows s) r' = Some (k, a') -> r = r'.
Proof.
  intros I H H'. pose proof (inv_ok_nth s r k a I H) as O.
  eapply (i_distinct _ _ _ s I); [rewrite keys_nth, H; reflexivity|rewrite keys_nth, H'; reflexivity|]. now apply EQ.
Qed.
Lemma find_nth {X} (f : X -> bool) l x : find f l = Some x -> exists r, nth_error l r = Some x /\ f x = true.
Proof.
  intros H. apply find_some in H as [H1 H2]. apply In_nth_error in H1 as (r & H1). eauto.
Qed.
Lemma get_some s k a : inv s -> ok k -> (get s k = Some a <-> exists r, nth_error (srows s) r = Some (k, a)).
Proof.
  intros I O. unfold get. split.
  - destruct (find _ (srows s)) as [[k' a']|] eqn:E; [|discriminate]. cbn. intros [= ->].
    apply find_nth in E as (r & H & Ek). cbn in Ek. apply EQ in Ek; [|eapply inv_ok_nth; eauto|exact O]. subst. eauto.
  - intros (r & H). destruct (find _ (srows s)) as [[k' a']|] eqn:E.
    + apply find_nth in E as (r' & H' & Ek). cbn in Ek. apply EQ in Ek; [|eapply inv_ok_nth; eauto|exact O]. subst.
      assert (r = r') by (eapply inv_inj; eauto). subst. cbn. congruence.
    + exfalso. eapply find_none in E; [|eapply nth_error_In; exact H]. cbn in E.
      assert (eqb k k = true) by now apply EQ. congruence.
Qed.
Lemma get_none s k : inv s -> ok k -> (get s k = None <-> ~ In k (keys s)).
Proof.
  intros I O. split.
  - intros H C. apply In_nth_error in C as (r & C). rewrite keys_nth in C.
    destruct (nth_error (srows s) r) as [[k' a]|] eqn:E; [|discriminate]. cbn in C. injection C as ->.
    assert (get s k = Some a) by (apply get_some; eauto). congruence.
  - intros H. destruct (get s k) as [a|] eqn:E; [|reflexivity]. exfalso. apply H.
    apply get_some in E as (r & E); auto. apply (in_map fst (srows s) (k, a)). eapply nth_error_In; eauto.
Qed.
Lemma get_empty k : get set_empty k = None.
Proof. reflexivity. Qed.

Lemma upsert_get s k h0 : inv s -> ok k -> h0 = 0%Z \/ h0 = hash k ->
  exists r ex s1, set_upsert eqb hash a0 s k h0 = Some (r, ex, s1) /\ inv s1 /\
    nth_error (keys s1) r = Some k /\ (ex = true <-> get s k <> None) /\
    get s1 k = Some (match get s k with Some a => a | None => a0 end) /\
    (forall k', ok k' -> k' <> k -> get s1 k' = get s k').
Proof.
  intros I O Hh.
  assert (forall a, ok a -> eqb a a = true) as R by (intros a Ha; now apply EQ).
  assert (forall a b, ok a -> ok b -> eqb a b = true -> eqb b a = true) as Sy by (intros a b Ha Hb H; apply EQ in H; auto; subst; now apply EQ).
  assert (forall a b c, ok a -> ok b -> ok c -> eqb a b = true -> eqb b c = true -> eqb a c = true) as Tr by (intros a b c Ha Hb Hc H1 H2; apply EQ in H1; auto; subst; exact H2).
  assert (forall a b, ok a -> ok b -> eqb a b = true -> hash a = hash b) as Hs by (intros a b Ha Hb H; apply EQ in H; auto; now subst).
  destruct (upsert_spec eqb hash a0 ok R Sy Tr Hs s k h0 I O Hh) as (r & ex & s1 & E & I1 & C).
  exists r, ex, s1. split; [exact E|]. split; [exact I1|].
  destruct C as [(-> & RE & k' & Hk & Ek)|(-> & -> & RE & No)].
  - assert (k' = k) as ->.
    { apply EQ; [|exact O|exact Ek]. rewrite keys_nth in Hk. destruct (nth_error (srows s) r) as [[x a]|] eqn:E0; [|discriminate].
      cbn in Hk. injection Hk as <-. exact (inv_ok_nth s r x a I E0). }
    assert (forall x, get s1 x = get s x) as G by (intros x; unfold get; now rewrite RE).
    assert (get s k <> None) as NN.
    { intros C. apply get_none in C; auto. apply C. eapply nth_error_In; eauto. }
    split; [unfold keys; rewrite RE; exact Hk|]. split; [split; auto|].
    split; [rewrite G; destruct (get s k); congruence|]. auto.
  - assert (get s k = None) as GN.
    { apply get_none; auto. intros C. specialize (No k C). assert (eqb k k = true) by now apply EQ. congruence. }
    assert (keys s1 = keys s ++ [k]) as KE by (unfold keys; rewrite RE, map_app; reflexivity).
    split; [rewrite KE, nth_error_app2 by (unfold keys; rewrite map_length; lia);
            replace (length (srows s) - length (keys s)) with 0 by (unfold keys; rewrite map_length; lia); reflexivity|].
    split; [split; [discriminate|congruence]|].
    rewrite GN. split.
    + apply get_some; auto. exists (length (srows s)). rewrite RE, nth_error_app2, Nat.sub_diag by lia. reflexivity.
    + intros k' O' D. apply option_ext. intros a. rewrite !get_some by auto. rewrite RE. split.
      * intros (n & H). exists n. destruct (Nat.lt_ge_cases n (length (srows s))) as [L|L].
        { now rewrite nth_error_app1 in H by exact L. }
        { rewrite nth_error_app2 in H by exact L. destruct (n - length (srows s)) as [|m]; [|destruct m; discriminate].
          cbn in H. congruence. }
      * intros (n & H). exists n. rewrite nth_error_app1; [exact H|]. apply nth_error_Some. congruence.
Qed.

Lemma nth_error_set_nth {X} (l : list X) r x i : nth_error (set_nth l r x) i =
  if i =? r then (match nth_error l i with Some _ => Some x | None => None end) else nth_error l i.
Proof.
  revert r i; induction l as [|y l IH]; intros r i.
  - destruct r, i; cbn; try reflexivity; destruct (_ =? _); reflexivity.
  - destruct r as [|r], i as [|i]; cbn; try reflexivity.
    all: try (destruct l; reflexivity). apply IH.
Qed.
Lemma update_keys s r f : keys (set_update (A := A) s r f) = keys (K := K) s.
Proof.
  unfold set_update. destruct (nth_error (srows s) r) as [[k a]|] eqn:E; [|reflexivity].
  unfold keys. cbn. apply nth_ext with (d := k) (d' := k).
  - now rewrite !map_length, set_nth_length.
  - intros n _. assert (forall d (l : list K), nth n l d = match nth_error l n with Some x => x | None => d end) as N.
    { intros d l. revert n. induction l; intros [|n]; cbn; auto. }
    rewrite !N, !nth_error_map, nth_error_set_nth. destruct (Nat.eqb_spec n r) as [->|D]; [|reflexivity]. rewrite E. reflexivity.
Qed.
Lemma update_inv s r f : inv s -> inv (set_update s r f).
Proof.
  intros I. assert (stab (set_update s r f) = stab s) as T by (unfold set_update; destruct (nth_error (srows s) r) as [[k a]|]; reflexivity).
  destruct I as [O D Tb L]. split; rewrite ?update_keys; auto.
  - unfold tab_of in *. rewrite T. exact Tb.
  - unfold tab_of in *. rewrite T. exact L.
Qed.
Lemma update_get s r f k : inv s -> nth_error (keys s) r = Some k ->
  get (set_update s r f) k = option_map f (get s k) /\
  (forall k', ok k' -> k' <> k -> get (set_update s r f) k' = get s k').
Proof.
  intros I H. pose proof (update_inv s r f I) as I'. rewrite keys_nth in H.
  destruct (nth_error (srows s) r) as [[k0 a]|] eqn:E; [|discriminate]. cbn in H. injection H as ->.
  pose proof (inv_ok_nth s r k a I E) as O.
  assert (srows (set_update s r f) = set_nth (srows s) r (k, f a)) as RE by (unfold set_update; rewrite E; reflexivity).
  split.
  - assert (get s k = Some a) as -> by (apply get_some; eauto). cbn. apply get_some; auto. exists r.
    rewrite RE, nth_error_set_nth, Nat.eqb_refl, E. reflexivity.
  - intros k' O' D. apply option_ext. intros x. rewrite !get_some by auto. rewrite RE. split; intros (n & H); exists n.
    + rewrite nth_error_set_nth in H. destruct (Nat.eqb_spec n r) as [En|Dn]; [|exact H]. rewrite En, E in H. congruence.
    + rewrite nth_error_set_nth. destruct (Nat.eqb_spec n r) as [En|Dn]; [|exact H]. rewrite En, E in H. congruence.
Qed.
(** the slots of the table are the rows, each once *)
Lemma entries_nodup ks : NoDup (entries hash ks).
Proof.
  unfold entries. assert (forall (a : list Z) n, NoDup (combine a (seq n (length a)))) as G.
  { induction a as [|x a IH]; intros n; cbn; constructor; [|apply IH].
    intros C. apply in_combine_r in C. apply in_seq in C. lia. }
  specialize (G (map hash ks) 0). now rewrite map_length in G.
Qed.
Lemma slots_tab_of (s : gset K A) : slots_of (stab s) = slots_of (tab_of s).
Proof. unfold tab_of. destruct (stab s); reflexivity. Qed.
Lemma slots_entries s : inv s -> NoDup (slots_of (stab s)) /\ (forall e, In e (slots_of (stab s)) <-> In e (entries hash (keys s))).
Proof.
  intros I. pose proof (i_tab _ _ _ s I) as T. rewrite slots_tab_of. split.
  - apply NoDup_incl_NoDup with (l := entries hash (keys s)); [apply entries_nodup|rewrite slots_length, (to_count _ _ T); lia|].
    intros e He. apply slots_in. destruct (to_reach _ _ T e He) as (j & _ & H & _). eauto.
  - intros e. rewrite slots_in. split.
    + intros (p & H). eapply to_in; eauto.
    + intros H. destruct (to_reach _ _ T e H) as (j & _ & H' & _). eauto.
Qed.
End Map.
