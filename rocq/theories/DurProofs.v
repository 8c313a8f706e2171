(** C71: the log, the catalog and the rows after a number of statements. *)
From Coq Require Import Permutation.
From Verif Require Import Base DurModel DurSpec.
Local Open Scope nat_scope.

Definition K (L : list stmt) (j : nat) : cat := fst (spec (firstn j L)).
Definition C (L : list stmt) (j : nat) : content := snd (spec (firstn j L)).
Definition touches (s : stmt) (t p : nat) : Prop := match s with Dml cs => exists os, In (t, p, os) cs | _ => False end.
(** a statement that the executor lets through *)
Fixpoint dml_fine (k : cat) (cs : list (nat * nat * list rop)) (c : content) : Prop :=
  match cs with
  | [] => True
  | (t, p, os) :: cs => (exists n d, find_table k t = Some (n, d) /\ p < n) /\ exists l, rops_do os (c t p) = Some l /\ dml_fine k cs (add_rows c t p l)
  end.
Definition fine (log : list stmt) (s : stmt) : Prop :=
  match s with
  | Dml cs => cs <> [] /\ dml_fine (fst (spec log)) cs (snd (spec log))
  | Create t n _ => used log t = false /\ 1 <= n
  | Alter t _ | Drop t => exists q, find_table (fst (spec log)) t = Some q
  | Truncate _ => False
  end.
Definition wf (L : list stmt) : Prop := forall j s, nth_error L j = Some s -> fine (firstn j L) s.

(** ** Prefixes *)
Lemma spec_app l s : spec (l ++ [s]) = spec1 (spec l) s.
Proof. unfold spec. rewrite fold_left_app. reflexivity. Qed.
Lemma firstn_S (L : list stmt) j s : nth_error L j = Some s -> firstn (S j) L = firstn j L ++ [s].
Proof.
  revert j; induction L as [|a L IH]; intros [|j] H; cbn in *; try discriminate; [injection H as ->; reflexivity|].
  f_equal. now apply IH.
Qed.
Lemma firstn_le_app (L M : list stmt) j : j <= length L -> firstn j (L ++ M) = firstn j L.
Proof. intro H. rewrite firstn_app. replace (j - length L) with 0 by lia. cbn. apply app_nil_r. Qed.
Lemma K_app L M j : j <= length L -> K (L ++ M) j = K L j.
Proof. intro H. unfold K. now rewrite firstn_le_app. Qed.
Lemma C_app L M j : j <= length L -> C (L ++ M) j = C L j.
Proof. intro H. unfold C. now rewrite firstn_le_app. Qed.
Lemma KC_S L j s : nth_error L j = Some s -> (K L (S j), C L (S j)) = spec1 (K L j, C L j) s.
Proof. intro H. unfold K, C. rewrite (firstn_S _ _ _ H), spec_app. destruct (spec (firstn j L)) as [k c]. cbn [fst snd]. now rewrite <- surjective_pairing. Qed.
Lemma wf_app L s : wf (L ++ [s]) <-> wf L /\ fine L s.
Proof.
  split.
  - intro W. split.
    + intros j q H. specialize (W j q). rewrite nth_error_app1 in W by (apply nth_error_Some; congruence).
      specialize (W H). now rewrite firstn_le_app in W by (apply Nat.lt_le_incl, nth_error_Some; congruence).
    + specialize (W (length L) s). rewrite nth_error_app2, Nat.sub_diag in W by lia. specialize (W eq_refl).
      now rewrite firstn_le_app, firstn_all in W by lia.
  - intros [W F] j q H. destruct (Nat.lt_ge_cases j (length L)) as [Hj|Hj].
    + rewrite nth_error_app1 in H by assumption. rewrite firstn_le_app by lia. now apply W.
    + rewrite nth_error_app2 in H by assumption. destruct (j - length L) as [|d] eqn:E; cbn in H; [|destruct d; discriminate].
      injection H as <-. assert (j = length L) as -> by lia. rewrite firstn_le_app, firstn_all by lia. exact F.
Qed.
Lemma wf_firstn L j : wf L -> wf (firstn j L).
Proof.
  intros W i s H. assert (i < j) as Hi.
  { assert (i < length (firstn j L)) by (apply nth_error_Some; congruence). rewrite firstn_length in *. lia. }
  rewrite firstn_firstn, Nat.min_l by lia. apply W.
  revert H. clear - Hi. revert i j Hi. induction L as [|a L IH]; intros i j Hi H; [destruct j, i; discriminate|].
  destruct j; [lia|]. destruct i; cbn in *; [exact H|]. apply (IH i j); [lia|exact H].
Qed.

(** ** The catalog *)
Lemma find_app k t q : find_table (k ++ [q]) t = match find_table k t with Some x => Some x | None => if t =? fst q then Some (snd q) else None end.
Proof. induction k as [|[t' x] k IH]; cbn; [destruct q; reflexivity|]. destruct (t =? t'); [reflexivity|exact IH]. Qed.
Lemma find_remove k t t' : find_table (filter (fun p => negb (fst p =? t)) k) t' = if t' =? t then None else find_table k t'.
Proof.
  induction k as [|[u x] k IH]; cbn; [destruct (t' =? t); reflexivity|].
  destruct (u =? t) eqn:E; cbn; rewrite ?IH.
  - apply Nat.eqb_eq in E as ->. destruct (t' =? t); reflexivity.
  - destruct (t' =? u) eqn:E'; [|reflexivity]. apply Nat.eqb_eq in E' as ->. now rewrite E.
Qed.
Lemma find_alter k t d t' : find_table (map (fun p : nat * (nat * Z) => if fst p =? t then (fst p, (fst (snd p), d)) else p) k) t' =
  option_map (fun x : nat * Z => if t' =? t then (fst x, d) else x) (find_table k t').
Proof.
  induction k as [|[u x] k IH]; cbn; [reflexivity|].
  destruct (u =? t) eqn:E; cbn; destruct (t' =? u) eqn:E'; try exact IH; cbn.
  - apply Nat.eqb_eq in E'; subst. now rewrite E.
  - apply Nat.eqb_eq in E'; subst. now rewrite E.
Qed.
Lemma find_in k t x : find_table k t = Some x -> In (t, x) k.
Proof. induction k as [|[u y] k IH]; cbn; [discriminate|]. destruct (t =? u) eqn:E; [apply Nat.eqb_eq in E as ->; injection 1 as ->; now left|right; auto]. Qed.
Lemma in_find k t x : NoDup (map fst k) -> In (t, x) k -> find_table k t = Some x.
Proof.
  induction k as [|[u y] k IH]; cbn; [easy|]. intros N [H|H]; inversion N; subst.
  - injection H as -> ->. now rewrite Nat.eqb_refl.
  - destruct (t =? u) eqn:E; [|auto]. apply Nat.eqb_eq in E as ->. exfalso. apply H2. apply in_map_iff. now exists (u, x).
Qed.
Lemma find_none k t : find_table k t = None <-> ~ In t (map fst k).
Proof.
  induction k as [|[u y] k IH]; cbn; [tauto|]. destruct (t =? u) eqn:E.
  - apply Nat.eqb_eq in E as ->. split; [discriminate|tauto].
  - apply Nat.eqb_neq in E. rewrite IH. split; [intros H [G|G]; auto|tauto].
Qed.
Lemma used_spec L t : used L t = true <-> exists n d, In (Create t n d) L.
Proof.
  unfold used. rewrite existsb_exists. split.
  - intros (s & Hs & E). destruct s; try discriminate. apply Nat.eqb_eq in E as ->. eauto.
  - intros (n & d & H). exists (Create t n d). split; [exact H|apply Nat.eqb_refl].
Qed.
Lemma in_app_used L M t : used L t = true -> used (L ++ M) t = true.
Proof. rewrite !used_spec. intros (n & d & H). exists n, d. apply in_or_app. now left. Qed.

(** every table of the catalog was created with its number of partitions *)
Lemma cat_created L : wf L -> forall t n d, find_table (fst (spec L)) t = Some (n, d) -> (exists d', In (Create t n d') L) /\ 1 <= n.
Proof.
  induction L as [|s L IH] using rev_ind; [discriminate|]. rewrite wf_app. intros [W F] t n d.
  rewrite spec_app. destruct (spec L) as [k c] eqn:E. cbn [fst] in IH.
  assert (forall d0, find_table k t = Some (n, d0) -> (exists d', In (Create t n d') (L ++ [s])) /\ 1 <= n) as G.
  { intros d0 H. destruct (IH W _ _ _ H) as [[d' H'] Hn]. split; [exists d'; apply in_or_app; now left|exact Hn]. }
  destruct s as [cs|t' n' d'|t' d'|t'|t']; cbn [spec1 fst].
  - apply G.
  - rewrite find_app. destruct (find_table k t) eqn:E'; [intro H; now apply (G d); rewrite <- H|].
    cbn. destruct (t =? t') eqn:Et; [|discriminate]. apply Nat.eqb_eq in Et as ->. injection 1 as <- <-.
    split; [exists d'; apply in_or_app; right; now left|apply F].
  - rewrite find_alter. destruct (find_table k t) as [[n0 d0]|] eqn:E'; [|discriminate]. cbn.
    destruct (t =? t'); injection 1 as <- <-; eapply G; reflexivity.
  - rewrite find_remove. destruct (t =? t'); [discriminate|apply G].
  - destruct F.
Qed.
Lemma create_unique L : wf L -> forall t n d n' d', In (Create t n d) L -> In (Create t n' d') L -> n = n'.
Proof.
  induction L as [|s L IH] using rev_ind; [easy|]. rewrite wf_app. intros [W F] t n d n' d' H H'.
  assert (forall m e, s = Create t m e -> ~ (exists n d, In (Create t n d) L)) as G.
  { intros m e -> X. apply used_spec in X. destruct F as [F _]. congruence. }
  apply in_app_or in H, H'. destruct H as [H|[H|[]]], H' as [H'|[H'|[]]].
  - eapply IH; eauto.
  - exfalso. eapply G; eauto.
  - exfalso. eapply G; eauto.
  - congruence.
Qed.
Lemma in_firstn {A} j (L : list A) a : In a (firstn j L) -> In a L.
Proof. intro H. rewrite <- (firstn_skipn j L). apply in_or_app. now left. Qed.
Lemma K_nparts L i j t n n' d d' : wf L -> find_table (K L i) t = Some (n, d) -> find_table (K L j) t = Some (n', d') -> n = n'.
Proof.
  intros W H H'. destruct (cat_created _ (wf_firstn _ i W) _ _ _ H) as [[e He] _].
  destruct (cat_created _ (wf_firstn _ j W) _ _ _ H') as [[e' He'] _].
  eapply create_unique; eauto using in_firstn.
Qed.
Lemma K_pos L j t n d : wf L -> find_table (K L j) t = Some (n, d) -> 1 <= n.
Proof. intros W H. now destruct (cat_created _ (wf_firstn _ j W) _ _ _ H). Qed.
Lemma cat_used L t q : wf L -> find_table (fst (spec L)) t = Some q -> used L t = true.
Proof. intros W H. destruct q as [n d]. destruct (cat_created _ W _ _ _ H) as [[e He] _]. apply used_spec. eauto. Qed.
Lemma cat_nodup L : wf L -> NoDup (map fst (fst (spec L))).
Proof.
  induction L as [|s L IH] using rev_ind; [constructor|]. rewrite wf_app. intros [W F]. specialize (IH W).
  rewrite spec_app. destruct (spec L) as [k c] eqn:E. cbn [fst] in IH. destruct s as [cs|t' n' d'|t' d'|t'|t']; cbn [spec1 fst]; try assumption.
  - rewrite map_app. cbn. apply Permutation_NoDup with (l := t' :: map fst k); [apply Permutation_cons_append|].
    constructor; [|exact IH]. rewrite <- find_none. destruct (find_table k t') eqn:E'; [|reflexivity].
    assert (used L t' = true) by (eapply cat_used; [exact W|rewrite E; exact E']). destruct F. congruence.
  - rewrite map_map. cbn. erewrite map_ext; [exact IH|]. intros [a b]. cbn. destruct (a =? t'); reflexivity.
  - clear - IH. induction k as [|[a b] k IHk]; cbn; [constructor|]. inversion IH; subst. destruct (a =? t'); cbn; [auto|].
    constructor; [|auto]. intro H. apply H1. apply in_map_iff in H as (q & <- & Hq). apply filter_In in Hq. apply in_map. apply Hq.
Qed.
Lemma K_nodup L j : wf L -> NoDup (map fst (K L j)).
Proof. intro W. apply cat_nodup. now apply wf_firstn. Qed.

(** ** The rows *)
Lemma dml_spec_other cs c t p : ~ (exists os, In (t, p, os) cs) -> dml_spec cs c t p = c t p.
Proof.
  revert c; induction cs as [|[[t' p'] os] cs IH]; intros c H; cbn; [reflexivity|].
  rewrite IH by (intros [o Ho]; apply H; exists o; now right). unfold add_rows.
  destruct ((t =? t') && (p =? p')) eqn:E; [|reflexivity]. apply andb_prop in E as [E1 E2].
  apply Nat.eqb_eq in E1, E2. subst. exfalso. apply H. exists os. now left.
Qed.
Lemma spec1_other k c s t p : match s with Truncate _ => False | _ => True end -> ~ touches s t p -> snd (spec1 (k, c) s) t p = c t p.
Proof. destruct s; cbn; intros F H; try reflexivity; [now apply dml_spec_other|destruct F]. Qed.
Lemma C_same L i j t p : wf L -> i <= j -> j <= length L -> (forall m s, i <= m < j -> nth_error L m = Some s -> ~ touches s t p) -> C L j t p = C L i t p.
Proof.
  intros W Hij. induction Hij as [|j Hij IH]; intros Hj H; [reflexivity|].
  destruct (nth_error L j) as [s|] eqn:E; [|apply nth_error_None in E; lia].
  rewrite <- IH; [|lia|intros; apply (H m s0); [lia|assumption]].
  pose proof (KC_S _ _ _ E) as G. pose proof (spec1_other (K L j) (C L j) s t p) as O.
  rewrite <- G in O. cbn [snd] in O. apply O; [|apply (H j); [lia|exact E]]. pose proof (W _ _ E) as F. destruct s; auto.
Qed.
Lemma dml_fine_touch k cs c t p os : dml_fine k cs c -> In (t, p, os) cs -> exists n d, find_table k t = Some (n, d) /\ p < n.
Proof.
  revert c; induction cs as [|[[t' p'] os'] cs IH]; intros c F H; [easy|]. cbn in F. destruct F as (E & l & _ & F).
  destruct H as [H|H]; [injection H as -> -> ->; exact E|eapply IH; eauto].
Qed.
Lemma touch_there L i s t p : wf L -> nth_error L i = Some s -> touches s t p -> exists n d, find_table (K L i) t = Some (n, d) /\ p < n.
Proof. intros W E T. pose proof (W _ _ E) as F. destruct s; cbn in T; try easy. destruct T as [os T]. destruct F as [_ F]. eapply dml_fine_touch; eauto. Qed.
Lemma used_firstn_le L i j t : i <= j -> used (firstn i L) t = true -> used (firstn j L) t = true.
Proof.
  intros H U. replace (firstn i L) with (firstn i (firstn j L)) in U by (rewrite firstn_firstn; f_equal; lia).
  rewrite <- (firstn_skipn i (firstn j L)). now apply in_app_used.
Qed.
(** nothing is in a table that was not created *)
Lemma C_fresh L j t p : wf L -> j <= length L -> used (firstn j L) t = false -> C L j t p = [].
Proof.
  intros W Hj U. replace (@nil (Z * Z)) with (C L 0 t p) by reflexivity. apply C_same; [exact W|lia|exact Hj|].
  intros m s Hm E T. destruct (touch_there _ _ _ _ _ W E T) as (n & d & F & _).
  apply (cat_used _ _ _ (wf_firstn _ m W)) in F. apply (used_firstn_le L m j) in F; [congruence|lia].
Qed.

Lemma put_in k v l a : In a (map fst (put k v l)) -> a = k \/ In a (map fst l).
Proof.
  induction l as [|[k' v'] l IH]; cbn; [intuition|]. destruct (k =? k')%Z eqn:E; cbn; [apply Z.eqb_eq in E; intuition|].
  intros [H|H]; [tauto|]. destruct (IH H); tauto.
Qed.
Lemma put_nodup k v l : NoDup (map fst l) -> NoDup (map fst (put k v l)).
Proof.
  induction l as [|[k' v'] l IH]; intro N; cbn; [constructor; [easy|constructor]|]. inversion N; subst.
  destruct (k =? k')%Z eqn:E; cbn; [apply Z.eqb_eq in E as ->; now constructor|].
  constructor; [|auto]. intro H. apply put_in in H as [->|H]; [rewrite Z.eqb_refl in E; discriminate|contradiction].
Qed.
Lemma del_in k l l' a : del k l = Some l' -> In a (map fst l') -> In a (map fst l).
Proof.
  revert l'; induction l as [|[k' v'] l IH]; intros l' H Ha; cbn in *; [discriminate|].
  destruct (k =? k')%Z; [injection H as <-; tauto|]. destruct (del k l); [|discriminate]. injection H as <-. cbn in Ha. destruct Ha; [tauto|right; eauto].
Qed.
Lemma del_nodup k l l' : del k l = Some l' -> NoDup (map fst l) -> NoDup (map fst l').
Proof.
  revert l'; induction l as [|[k' v'] l IH]; intros l' H N; cbn in *; [discriminate|]. inversion N; subst.
  destruct (k =? k')%Z; [injection H as <-; assumption|]. destruct (del k l) eqn:E; [|discriminate]. injection H as <-. cbn.
  constructor; [|eauto]. intro H. apply H2. eapply del_in; eauto.
Qed.
Lemma rops_nodup os l l' : rops_do os l = Some l' -> NoDup (map fst l) -> NoDup (map fst l').
Proof.
  revert l; induction os as [|[k v|k] os IH]; intros l H N; cbn in H; [injection H as <-; exact N| |].
  - eapply IH; [exact H|]. now apply put_nodup.
  - destruct (del k l) eqn:E; [|discriminate]. eapply IH; [exact H|]. eapply del_nodup; eauto.
Qed.
Lemma dml_nodup cs c : (forall t p, NoDup (map fst (c t p))) -> forall t p, NoDup (map fst (dml_spec cs c t p)).
Proof.
  revert c; induction cs as [|[[t' p'] os] cs IH]; intros c N; cbn; [exact N|]. apply IH. intros t p. unfold add_rows.
  destruct (_ && _); [|apply N]. destruct (rops_do os (c t' p')) eqn:E; [eapply rops_nodup; eauto|apply N].
Qed.
Lemma spec_nodup L t p : NoDup (map fst (snd (spec L) t p)).
Proof.
  revert t p. induction L as [|s L IH] using rev_ind; intros t p; [constructor|].
  rewrite spec_app. destruct (spec L) as [k c]. destruct s; cbn in *; auto.
  - now apply dml_nodup.
  - destruct (t =? _); [constructor|apply IH].
Qed.
Lemma put_new k v l : ~ In k (map fst l) -> put k v l = l ++ [(k, v)].
Proof.
  induction l as [|[k' v'] l IH]; cbn; intro H; [reflexivity|]. destruct (k =? k')%Z eqn:E; [apply Z.eqb_eq in E; subst; exfalso; apply H; now left|].
  f_equal. apply IH. tauto.
Qed.
Lemma load_same_ l r : NoDup (map fst (r ++ l)) -> fold_left (fun r (p : Z * Z) => put (fst p) (snd p) r) l r = r ++ l.
Proof.
  revert r; induction l as [|[k v] l IH]; intros r N; cbn; [now rewrite app_nil_r|].
  rewrite put_new.
  - rewrite IH; rewrite <- app_assoc; [reflexivity|exact N].
  - rewrite map_app in N. cbn in N. apply NoDup_remove in N as [_ N]. intro H. apply N. apply in_or_app. now left.
Qed.
(** the rows of a file are the rows of the indexes *)
Lemma load_same l : NoDup (map fst l) -> load l = l.
Proof. intro N. apply (load_same_ l []). exact N. Qed.

(** the table that is in the catalog now and was then: it was there all the time *)
Lemma K_step L j s : nth_error L j = Some s -> K L (S j) = fst (spec1 (K L j, C L j) s).
Proof. intro E. pose proof (KC_S _ _ _ E) as G. now rewrite <- G. Qed.
Lemma K_same L i j : i <= j -> j <= length L -> (forall m s, i <= m < j -> nth_error L m = Some s -> is_ddl s = false) -> K L j = K L i.
Proof.
  intros Hij. induction Hij as [|j Hij IH]; intros Hj H; [reflexivity|].
  destruct (nth_error L j) as [s|] eqn:E; [|apply nth_error_None in E; lia].
  rewrite <- IH; [|lia|intros; apply (H m s0); [lia|assumption]].
  rewrite (K_step _ _ _ E). specialize (H j s ltac:(lia) E). destruct s; try discriminate. reflexivity.
Qed.
(** a dropped table does not come back *)
Lemma gone_step L j t s : wf L -> nth_error L j = Some s -> used (firstn j L) t = true -> find_table (K L j) t = None -> find_table (K L (S j)) t = None.
Proof.
  intros W E U H. rewrite (K_step _ _ _ E). pose proof (W _ _ E) as F. destruct s; cbn [spec1 fst]; try assumption.
  - rewrite find_app, H. cbn. destruct (t =? t0) eqn:Et; [|reflexivity]. apply Nat.eqb_eq in Et as ->. destruct F. congruence.
  - now rewrite find_alter, H.
  - rewrite find_remove, H. now destruct (t =? t0).
Qed.
Lemma gone L i j t : wf L -> i <= j -> j <= length L -> used (firstn i L) t = true -> find_table (K L i) t = None -> find_table (K L j) t = None.
Proof.
  intros W Hij. induction Hij as [|j Hij IH]; intros Hj U H; [exact H|].
  destruct (nth_error L j) as [s|] eqn:E; [|apply nth_error_None in E; lia].
  eapply gone_step; eauto; [eapply used_firstn_le; eauto|apply IH; auto; lia].
Qed.
Lemma stays L i m j t q q' : wf L -> i <= m -> m <= j -> j <= length L -> find_table (K L i) t = Some q -> find_table (K L j) t = Some q' -> exists n d, find_table (K L m) t = Some (n, d) /\ n = fst q.
Proof.
  intros W Him Hmj Hj H H'. destruct (find_table (K L m) t) as [[n d]|] eqn:E.
  - exists n, d. split; [reflexivity|]. destruct q. eapply K_nparts; eauto.
  - rewrite (gone L m j t) in H'; auto; [discriminate|].
    apply (used_firstn_le L i m); [exact Him|]. eapply cat_used; [now apply wf_firstn|exact H].
Qed.
