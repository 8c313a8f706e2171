(** Proofs about the upsert code (UpsModel.v, UpsSpec.v). *)
From Verif Require Import Base UpsModel UpsSpec.
From Coq Require Import Sorted.
Local Open Scope nat_scope.

(** ** rows *)
Lemma nth_skipn0 : forall {A} (l : list A) i d, hd d (skipn i l) = nth i l d.
Proof. induction l as [|x l IH]; intros [|i] d; cbn; auto. Qed.
Lemma tl_skipn0 : forall {A} (l : list A) i, tl (skipn i l) = skipn (S i) l.
Proof.
  induction l as [|x l IH]; intros [|i]; cbn; auto.
  rewrite IH. destruct l; reflexivity.
Qed.

Lemma row_create_build : forall cols id vals i,
  row_create cols id (skipn i vals) = build (fun i c => cell c id (nth i vals None)) i cols.
Proof.
  induction cols as [|c cols IH]; intros id vals i; cbn [row_create build]; [reflexivity|].
  rewrite nth_skipn0, tl_skipn0, IH.
  unfold encode, cell, allowed.
  destruct (c_ident c).
  - rewrite orb_true_r. reflexivity.
  - rewrite orb_false_r. destruct (nth i vals None) as [v|]; cbn [option_map].
    + rewrite orb_true_r. reflexivity.
    + rewrite orb_false_r. destruct (c_notnull c); reflexivity.
Qed.

Lemma row_create_proposed : forall cols e,
  row_create cols (e_id e) (e_values e) = proposed cols e.
Proof. intros cols e. apply (row_create_build cols (e_id e) (e_values e) 0). Qed.

Lemma build_length : forall f cols i r, build f i cols = Ok r -> length r = length cols.
Proof.
  induction cols as [|c cols IH]; intros i r H; cbn [build] in H.
  - injection H as <-. reflexivity.
  - destruct (allowed c (f i c) || c_ident c); [|discriminate].
    destruct (build f (S i) cols) as [r'| |] eqn:E; cbn in H; try discriminate.
    injection H as <-. cbn. f_equal. eauto.
Qed.
Lemma build_nth : forall f cols i r, build f i cols = Ok r ->
  forall k c, nth_error cols k = Some c -> nth k r None = f (i + k) c.
Proof.
  induction cols as [|c cols IH]; intros i r H k c' Hk; cbn [build] in H.
  - destruct k; discriminate.
  - destruct (allowed c (f i c) || c_ident c); [|discriminate].
    destruct (build f (S i) cols) as [r'| |] eqn:E; cbn in H; try discriminate.
    injection H as <-. destruct k as [|k]; cbn in *.
    + injection Hk as ->. rewrite Nat.add_0_r. reflexivity.
    + rewrite (IH _ _ E _ _ Hk). f_equal. lia.
Qed.

(** ** SET lists *)
Definition below (i : nat) (l : list (nat * expr)) : Prop := Forall (fun p => i <= fst p) l.
Fixpoint sorted (l : list (nat * expr)) : Prop :=
  match l with
  | [] => True
  | (i, _) :: l' => below (S i) l' /\ sorted l'
  end.

Lemma below_le : forall i j l, i <= j -> below j l -> below i l.
Proof. intros i j l H. apply Forall_impl. intros; lia. Qed.

Lemma set_for_cons : forall j e l k,
  set_for ((j, e) :: l) k = if Nat.eqb j k then Some e else set_for l k.
Proof. intros. unfold set_for. cbn. destruct (Nat.eqb j k); reflexivity. Qed.

Lemma set_for_below : forall l i k, below i l -> k < i -> set_for l k = None.
Proof.
  induction l as [|[j e] l IH]; intros i k H Hk; [reflexivity|].
  inversion H; subst. cbn in *. rewrite set_for_cons.
  destruct (Nat.eqb_spec j k); [lia|]. eauto.
Qed.

Lemma set_insert_ok : forall i e l l', sorted l -> set_insert i e l = Ok l' ->
  sorted l' /\ (forall m, m <= i -> below m l -> below m l') /\
  set_for l i = None /\
  (forall k, set_for l' k = if Nat.eqb i k then Some e else set_for l k).
Proof.
  induction l as [|[j f] l IH]; intros l' Hs H; cbn [set_insert] in H.
  - injection H as <-. repeat split; auto.
    + constructor.
    + intros m Hm _. constructor; [exact Hm|constructor].
    + intros k. rewrite set_for_cons. reflexivity.
  - destruct Hs as [Hb Hs].
    destruct (Nat.eqb_spec i j) as [->|N]; [discriminate|].
    destruct (Nat.ltb_spec i j) as [L|L].
    + injection H as <-.
      assert (below (S i) ((j, f) :: l)).
      { constructor; [cbn; lia|]. eapply below_le; [|exact Hb]; lia. }
      repeat split; auto.
      * intros m Hm Hbm. constructor; [cbn; lia|exact Hbm].
      * apply set_for_below with (i := S i); [assumption|lia].
      * intros k. apply set_for_cons.
    + destruct (set_insert i e l) as [r| |] eqn:E; cbn in H; try discriminate.
      injection H as <-.
      destruct (IH r Hs eq_refl) as (S1 & B1 & N1 & F1).
      repeat split.
      * apply B1; [lia|assumption].
      * exact S1.
      * intros m Hm Hbm. inversion Hbm; subst. constructor; [assumption|].
        apply B1; [lia|]. assumption.
      * rewrite set_for_cons. destruct (Nat.eqb_spec j i); [lia|exact N1].
      * intros k. rewrite !set_for_cons, F1.
        destruct (Nat.eqb_spec j k), (Nat.eqb_spec i k); try lia; reflexivity.
Qed.


Lemma set_for_In : forall l k e, set_for l k = Some e -> In (k, e) l.
Proof.
  induction l as [|[j f] l IH]; intros k e H; [discriminate|].
  rewrite set_for_cons in H. destruct (Nat.eqb_spec j k) as [->|N].
  - injection H as ->. left; reflexivity.
  - right; auto.
Qed.
Lemma set_for_None : forall l k, set_for l k = None <-> ~ In k (map fst l).
Proof.
  induction l as [|[j f] l IH]; intros k; cbn [map]; [split; [intros _ []|reflexivity]|].
  rewrite set_for_cons. destruct (Nat.eqb_spec j k) as [->|N].
  - split; [discriminate|]. intros H; exfalso; apply H; left; reflexivity.
  - rewrite IH. cbn. intuition congruence.
Qed.

Lemma emit_sets_ok : forall cols sets acc l, sorted acc -> emit_sets cols sets acc = Ok l ->
  sorted l /\
  (forall k, set_for l k = match set_for acc k with Some e => Some e | None => set_for sets k end) /\
  NoDup (map fst sets) /\
  (forall i e, In (i, e) sets -> (exists c, nth_error cols i = Some c /\ c_refs c = false) /\ set_for acc i = None).
Proof.
  induction sets as [|[i e] sets IH]; intros acc l Hs H; cbn [emit_sets] in H.
  - injection H as <-. repeat split; auto.
    + intros k. destruct (set_for acc k); reflexivity.
    + constructor.
    + destruct H.
    + destruct H.
  - destruct (nth_error cols i) as [c|] eqn:Ec; [|discriminate].
    destruct (c_refs c) eqn:Er; [discriminate|].
    destruct (set_insert i e acc) as [acc'| |] eqn:Ei; cbn in H; try discriminate.
    destruct (set_insert_ok _ _ _ _ Hs Ei) as (S1 & _ & N1 & F1).
    destruct (IH _ _ S1 H) as (S2 & F2 & D2 & C2).
    split; [exact S2|]. split; [|split].
    + intros k. rewrite F2, F1, set_for_cons.
      destruct (Nat.eqb_spec i k) as [<-|N]; [rewrite N1|]; reflexivity.
    + cbn. constructor; [|exact D2].
      intros Hin. apply in_map_iff in Hin. destruct Hin as ([j f] & Hj & Hin). cbn in Hj. subst j.
      destruct (C2 _ _ Hin) as [_ Hn]. rewrite F1, Nat.eqb_refl in Hn. discriminate.
    + intros j f [Hj|Hj].
      * injection Hj as <- <-. split; [|exact N1]. exists c. auto.
      * destruct (C2 _ _ Hj) as [Hc Hn]. split; [exact Hc|].
        rewrite F1 in Hn. destruct (Nat.eqb i j); [discriminate|exact Hn].
Qed.

Lemma set_insert_err : forall i e l, sorted l -> set_for l i = None -> exists l', set_insert i e l = Ok l'.
Proof.
  induction l as [|[j f] l IH]; intros Hs H; cbn [set_insert]; [eauto|].
  rewrite set_for_cons in H. destruct (Nat.eqb_spec j i) as [->|N]; [discriminate|].
  destruct (Nat.eqb_spec i j); [congruence|].
  destruct (Nat.ltb i j); [eauto|]. destruct Hs as [_ Hs].
  destruct (IH Hs H) as [l' ->]. cbn. eauto.
Qed.

Lemma emit_sets_total : forall cols sets acc, sorted acc -> sets_ok cols sets ->
  (forall i, In i (map fst sets) -> set_for acc i = None) ->
  exists l, emit_sets cols sets acc = Ok l.
Proof.
  induction sets as [|[i e] sets IH]; intros acc Hs [Hd Hc] Hn; cbn [emit_sets]; [eauto|].
  destruct (Hc i e (or_introl eq_refl)) as (c & -> & ->).
  destruct (set_insert_err i e acc Hs (Hn i (or_introl eq_refl))) as [acc' E].
  rewrite E. cbn [bind].
  destruct (set_insert_ok _ _ _ _ Hs E) as (S1 & _ & N1 & F1).
  cbn in Hd. apply NoDup_cons_iff in Hd. destruct Hd as [Hni Hd].
  apply IH; auto.
  - split; [exact Hd|]. intros; eapply Hc; right; eauto.
  - intros k Hk. rewrite F1. destruct (Nat.eqb_spec i k) as [<-|]; [contradiction|].
    apply Hn. right; exact Hk.
Qed.

Lemma set_insert_no_ub : forall i e l, set_insert i e l <> UB.
Proof.
  induction l as [|[j f] l IH]; cbn [set_insert]; [discriminate|].
  destruct (Nat.eqb i j); [discriminate|]. destruct (Nat.ltb i j); [discriminate|].
  destruct (set_insert i e l); cbn; congruence.
Qed.
Lemma emit_sets_no_ub : forall cols sets acc, emit_sets cols sets acc <> UB.
Proof.
  induction sets as [|[i e] sets IH]; intros acc; cbn; [discriminate|].
  destruct (nth_error cols i) as [c|]; [|discriminate]. destruct (c_refs c); [discriminate|].
  pose proof (set_insert_no_ub i e acc). destruct (set_insert i e acc); cbn; congruence.
Qed.

Lemma emit_sets_iff : forall cols sets,
  (exists l, emit_sets cols sets [] = Ok l) <-> sets_ok cols sets.
Proof.
  intros cols sets. split.
  - intros [l H]. destruct (emit_sets_ok cols sets [] l I H) as (_ & _ & D & C).
    split; [exact D|]. intros i e Hi. apply (C i e Hi).
  - intros H. apply emit_sets_total; auto. exact I.
Qed.

(** ** row_update is assign *)
Lemma assign_ext : forall s1 s2 old excl cols i,
  (forall k, set_for s1 k = set_for s2 k) -> assign s1 old excl i cols = assign s2 old excl i cols.
Proof.
  induction cols as [|c cols IH]; intros i H; cbn [assign]; [reflexivity|].
  rewrite H, (IH (S i) H). reflexivity.
Qed.

Lemma assign_shift : forall j e l old excl cols i, j < i ->
  assign ((j, e) :: l) old excl i cols = assign l old excl i cols.
Proof.
  induction cols as [|c cols IH]; intros i H; cbn [assign]; [reflexivity|].
  rewrite set_for_cons. destruct (Nat.eqb_spec j i); [lia|].
  rewrite IH by lia. reflexivity.
Qed.

Lemma row_update_assign : forall old excl cols i l,
  sorted l -> below i l ->
  (forall j e c, In (j, e) l -> i <= j -> nth_error cols (j - i) = Some c -> c_ident c = false) ->
  row_update i cols (skipn i old) (map (fun '(j, e) => (j, eval old excl e)) l)
  = assign l old excl i cols.
Proof.
  induction cols as [|c cols IH]; intros i l Hs Hb Hi; cbn [row_update assign]; [reflexivity|].
  rewrite nth_skipn0, tl_skipn0.
  assert (Hi' : forall l', incl l' l -> forall j e c', In (j, e) l' -> S i <= j -> nth_error cols (j - S i) = Some c' -> c_ident c' = false).
  { intros l' Hl j e c' Hj Hle Hn. apply (Hi j e c'); [apply Hl; exact Hj|lia|].
    replace (j - i) with (S (j - S i)) by lia. exact Hn. }
  destruct l as [|[j e] l]; cbn [map].
  - rewrite <- (IH (S i) [] I (Forall_nil _) (Hi' _ (incl_refl _))). reflexivity.
  - destruct Hs as [Hb' Hs]. rewrite set_for_cons.
    destruct (Nat.eqb_spec j i) as [->|N].
    + assert (Hid : c_ident c = false).
      { apply (Hi i e c); [left; reflexivity|lia|]. rewrite Nat.sub_diag. reflexivity. }
      rewrite (IH (S i) l Hs Hb' (Hi' l (incl_tl _ (incl_refl _)))).
      rewrite assign_shift by lia.
      unfold encode, allowed. rewrite Hid.
      destruct (eval old excl e); cbn [option_map].
      * rewrite orb_true_r. reflexivity.
      * rewrite orb_false_r. destruct (c_notnull c); reflexivity.
    + inversion Hb; subst. cbn in H1.
      rewrite (set_for_below l (S j) i Hb') by lia.
      rewrite <- (IH (S i) ((j, e) :: l)); [reflexivity|split; assumption| |apply Hi'; apply incl_refl].
      constructor; [cbn; lia|]. eapply below_le; [|exact Hb']. lia.
Qed.

Lemma assign_length : forall sets old excl cols i r, assign sets old excl i cols = Ok r -> length r = length cols.
Proof.
  induction cols as [|c cols IH]; intros i r H; cbn [assign] in H.
  - injection H as <-. reflexivity.
  - destruct (set_for sets i) as [e|].
    + cbv zeta in H. destruct (allowed _ _); [|discriminate].
      destruct (assign sets old excl (S i) cols) eqn:E; cbn in H; try discriminate.
      injection H as <-. cbn. f_equal; eauto.
    + destruct (assign sets old excl (S i) cols) eqn:E; cbn in H; try discriminate.
      injection H as <-. cbn. f_equal; eauto.
Qed.
Lemma assign_nth : forall sets old excl cols i r, assign sets old excl i cols = Ok r ->
  forall k c, nth_error cols k = Some c ->
  nth k r None = match set_for sets (i + k) with
                 | None => nth (i + k) old None
                 | Some e => option_map (wrap (c_bits c)) (eval old excl e)
                 end.
Proof.
  induction cols as [|c cols IH]; intros i r H k c' Hk; cbn [assign] in H.
  - destruct k; discriminate.
  - assert (G : exists v r', r = v :: r' /\ assign sets old excl (S i) cols = Ok r' /\
       v = match set_for sets i with
           | None => nth i old None
           | Some e => option_map (wrap (c_bits c)) (eval old excl e) end).
    { destruct (set_for sets i) as [e|].
      + cbv zeta in H. destruct (allowed _ _); [|discriminate].
        destruct (assign sets old excl (S i) cols) eqn:E; cbn in H; try discriminate.
        injection H as <-. eauto.
      + destruct (assign sets old excl (S i) cols) eqn:E; cbn in H; try discriminate.
        injection H as <-. eauto. }
    destruct G as (v & r' & -> & E & ->).
    destruct k as [|k]; cbn [nth nth_error] in *.
    + injection Hk as <-. rewrite Nat.add_0_r. reflexivity.
    + rewrite (IH _ _ E _ _ Hk). replace (i + S k) with (S i + k) by lia. reflexivity.
Qed.
Lemma assign_no_ub : forall sets old excl cols i, assign sets old excl i cols <> UB.
Proof.
  induction cols as [|c cols IH]; intros i H; cbn [assign] in H; [discriminate|].
  specialize (IH (S i)).
  destruct (set_for sets i) as [e|]; cbv zeta in H.
  - destruct (allowed _ _); [|discriminate].
    destruct (assign sets old excl (S i) cols); cbn in H; congruence.
  - destruct (assign sets old excl (S i) cols); cbn in H; congruence.
Qed.

(** ** keys *)
Lemma oeqb_eq : forall a b, oeqb a b = true <-> a = b.
Proof.
  intros [x|] [y|]; cbn; try (split; [discriminate|congruence]); try tauto.
  rewrite Z.eqb_eq. split; congruence.
Qed.
Lemma key_eqb_eq : forall a b, key_eqb a b = true <-> a = b.
Proof.
  induction a as [|x a IH]; intros [|y b]; cbn; try (split; [discriminate|congruence]); try tauto.
  rewrite andb_true_iff, oeqb_eq, IH. split; [intros [-> ->]; reflexivity|intros H; injection H; auto].
Qed.
Lemma same_key_eq : forall ks a b, same_key ks a b = true <-> key_of ks a = key_of ks b.
Proof. intros. unfold same_key. apply key_eqb_eq. Qed.
Lemma same_key_neq : forall ks a b, same_key ks a b = false <-> key_of ks a <> key_of ks b.
Proof. intros. rewrite <- same_key_eq. symmetry. apply not_true_iff_false. Qed.
Lemma key_eqb_sym : forall a b, key_eqb a b = key_eqb b a.
Proof.
  intros a b. destruct (key_eqb b a) eqn:E.
  - apply key_eqb_eq. symmetry. apply key_eqb_eq. exact E.
  - apply not_true_iff_false. intros H. apply key_eqb_eq in H. subst.
    assert (key_eqb b b = true) by (apply key_eqb_eq; reflexivity). congruence.
Qed.

Lemma find_pos_find : forall ks new rows,
  match find_pos ks new rows with
  | Some p => exists old, nth_error rows p = Some old /\ find (same_key ks new) rows = Some old /\
                key_of ks old = key_of ks new
  | None => find (same_key ks new) rows = None
  end.
Proof.
  induction rows as [|x rows IH]; cbn [find_pos find]; [reflexivity|].
  rewrite (key_eqb_sym (key_of ks x)). fold (same_key ks new x).
  destruct (same_key ks new x) eqn:E.
  - exists x. repeat split. symmetry. apply same_key_eq. exact E.
  - destruct (find_pos ks new rows) as [p|]; cbn [option_map nth_error]; exact IH.
Qed.

Lemma find_pos_existsb : forall ks new rows,
  match find_pos ks new rows with Some _ => true | None => false end = existsb (same_key ks new) rows.
Proof.
  induction rows as [|x rows IH]; cbn [find_pos existsb]; [reflexivity|].
  rewrite <- IH. unfold same_key. rewrite (key_eqb_sym (key_of ks x)).
  destruct (key_eqb (key_of ks new) (key_of ks x)); [reflexivity|].
  destruct (find_pos ks new rows); reflexivity.
Qed.

Lemma set_row_map : forall ks new r rows p old,
  NoDup (map (key_of ks) rows) -> nth_error rows p = Some old -> key_of ks old = key_of ks new ->
  set_row p r rows = map (fun x => if same_key ks new x then r else x) rows.
Proof.
  induction rows as [|x rows IH]; intros [|p] old Hd Hn Hk; cbn in Hn; try discriminate.
  - injection Hn as ->. cbn [set_row map] in *. apply NoDup_cons_iff in Hd. destruct Hd as [Hni Hd].
    assert (same_key ks new old = true) as -> by (apply same_key_eq; auto).
    f_equal. symmetry. rewrite <- (map_id rows) at 2. apply map_ext_in.
    intros y Hy. assert (same_key ks new y = false) as ->; [|reflexivity].
    apply same_key_neq. intros E. apply Hni. rewrite Hk, E. apply in_map. exact Hy.
  - cbn [set_row map] in *. apply NoDup_cons_iff in Hd. destruct Hd as [Hni Hd].
    assert (same_key ks new x = false) as ->.
    { apply same_key_neq. intros E. apply Hni. rewrite <- E, <- Hk. apply in_map.
      eapply nth_error_In; exact Hn. }
    f_equal. eauto.
Qed.
Lemma set_row_same : forall p r rows, nth_error rows p = Some r -> set_row p r rows = rows.
Proof.
  intros p r rows. revert p. induction rows as [|x rows IH]; intros [|p] H; cbn in *; try discriminate.
  - congruence.
  - f_equal; auto.
Qed.
Lemma set_row_nth : forall p r rows old, nth_error rows p = Some old -> nth_error (set_row p r rows) p = Some r.
Proof.
  intros p r rows. revert p. induction rows as [|x rows IH]; intros [|p] old H; cbn in *; try discriminate; eauto.
Qed.

(** the row that stays has the key of the old one *)

Lemma key_of_ext : forall ks a b, (forall k, In k ks -> nth k a None = nth k b None) -> key_of ks a = key_of ks b.
Proof. intros ks a b H. unfold key_of. apply map_ext_in. exact H. Qed.

Lemma assign_key : forall cols sets old excl r keys,
  sets_ok cols sets -> keys_have_refs cols keys -> length old = length cols ->
  assign sets old excl 0 cols = Ok r -> key_of keys r = key_of keys old.
Proof.
  intros cols sets old excl r keys [_ Hs] Hk Hl H. apply key_of_ext. intros k Hin.
  destruct (nth_error cols k) as [c|] eqn:Ec.
  - rewrite (assign_nth _ _ _ _ _ _ H k c Ec). cbn [Nat.add].
    destruct (set_for sets k) as [e|] eqn:Es; [|reflexivity].
    apply set_for_In in Es. destruct (Hs _ _ Es) as (c' & Ec' & Hr).
    rewrite Ec in Ec'. injection Ec' as <-. rewrite (Hk k c Hin Ec) in Hr. discriminate.
  - apply nth_error_None in Ec. rewrite !nth_overflow; auto; rewrite ?Hl; auto.
    rewrite (assign_length _ _ _ _ _ _ H). exact Ec.
Qed.
Lemma resolve_key : forall cols cf old excl r keys,
  cf_ok cols cf -> keys_have_refs cols keys -> length old = length cols ->
  resolve cols cf old excl = Ok r -> key_of keys r = key_of keys old /\ length r = length cols.
Proof.
  intros cols cf old excl r keys Hc Hk Hl H.
  assert (A : forall sets, sets_ok cols sets -> assign sets old excl 0 cols = Ok r ->
      key_of keys r = key_of keys old /\ length r = length cols).
  { intros sets Hs Ha. split; [eapply assign_key; eauto|eapply assign_length; eauto]. }
  destruct cf as [| |sets [w|]]; cbn [resolve cf_ok] in *.
  - injection H as <-. auto.
  - discriminate.
  - destruct (is_true _); [eauto|]. injection H as <-. auto.
  - eauto.
Qed.

Lemma map_key_replace : forall ks new r rows,
  key_of ks r = key_of ks new ->
  map (key_of ks) (map (fun x => if same_key ks new x then r else x) rows) = map (key_of ks) rows.
Proof.
  intros ks new r rows H. rewrite map_map. apply map_ext. intros x.
  destruct (same_key ks new x) eqn:E; [|reflexivity]. apply same_key_eq in E. congruence.
Qed.

Lemma NoDup_app_snoc_local : forall {A} (l : list A) x, ~ In x l -> NoDup l -> NoDup (l ++ [x]).
Proof.
  induction l as [|y l IH]; intros x Hn Hd; cbn; [constructor; [intros []|constructor]|].
  apply NoDup_cons_iff in Hd. destruct Hd as [Hy Hd]. constructor.
  - rewrite in_app_iff. cbn. intros [H|[H|[]]]; [auto|subst; apply Hn; left; reflexivity].
  - apply IH; [|exact Hd]. intros H; apply Hn; right; exact H.
Qed.

(** the invariant of the table is kept by a row *)

Lemma put_row_inv : forall excl cols keys sec cf rows e rows' r,
  cf_ok cols cf -> keys_have_refs cols keys -> table_ok cols keys rows ->
  put_row excl cols keys sec cf rows e = Ok (rows', r) ->
  table_ok cols keys rows' /\
  (exists new, proposed cols e = Ok new /\ key_of keys r = key_of keys new /\
    forall x, key_of keys x <> key_of keys new -> (In x rows <-> In x rows')) /\
  In r rows'.
Proof.
  intros excl cols keys sec cf rows e rows' r Hc Hk [Hw Hd] H. unfold put_row in H.
  destruct (proposed cols e) as [new| |] eqn:En; cbn [bind] in H; try discriminate.
  destruct (find (same_key keys new) rows) as [old|] eqn:Ef.
  - destruct (find_some _ _ Ef) as [Hin Hs]. apply same_key_eq in Hs.
    destruct (resolve cols cf old (excl e new)) as [r0| |] eqn:Er; cbn [bind] in H; try discriminate.
    injection H as <- <-.
    assert (Hlo : length old = length cols) by (apply (proj1 (Forall_forall _ _) Hw); exact Hin).
    destruct (resolve_key _ _ _ _ _ _ Hc Hk Hlo Er) as [Hkr Hlr].
    split; [split|split].
    + unfold wf_rows in *. rewrite Forall_map. eapply Forall_impl; [|exact Hw].
      cbn. intros a Ha. destruct (same_key keys new a); auto.
    + rewrite map_key_replace by congruence. exact Hd.
    + exists new. split; [reflexivity|]. split; [congruence|].
      intros x Hx. rewrite in_map_iff. split.
      * intros Hix. exists x. assert (same_key keys new x = false) as -> by (apply same_key_neq; auto). auto.
      * intros (y & Hy & Hiy). destruct (same_key keys new y) eqn:Ey; [congruence|]. subst. exact Hiy.
    + apply in_map_iff. exists old. split; [|exact Hin].
      assert (same_key keys new old = true) as -> by (apply same_key_eq; auto). reflexivity.
  - destruct (existsb _ sec); [discriminate|]. injection H as <- <-.
    split; [split|split].
    + unfold wf_rows in *. apply Forall_app. split; [exact Hw|]. constructor; [|constructor].
      unfold proposed in En. eapply build_length; exact En.
    + rewrite map_app. cbn. apply NoDup_app_snoc_local.
      2:exact Hd.
      intros Hin. apply in_map_iff in Hin. destruct Hin as (x & Hx & Hin).
      assert (same_key keys new x = false) by (eapply find_none; eauto).
      apply same_key_neq in H. congruence.
    + exists new. split; [reflexivity|]. split; [reflexivity|].
      intros x Hx. rewrite in_app_iff. cbn. intuition congruence.
    + apply in_or_app. right; left; reflexivity.
Qed.

(** ** execution of the emitted code *)
Section Run.
  Variables (cols : list column) (keys : list nat) (sec : list (list nat)) (args : list entry).
  Variables (cf : conflict) (ret : list expr) (code : list op).
  Hypothesis Hemit : emit_upsert cols cf ret = Ok code.
  Hypothesis Hid : idents_are_keys cols.
  Hypothesis Hrefs : keys_have_refs cols keys.

  Notation run := (exec cols keys sec args code).

  (* where the returning code starts, and the CUPSERT *)
  Definition ret_at : nat :=
    2 + match cf with CNothing => 0 | CError => 1 | CUpdate _ None => 1 | CUpdate _ (Some _) => 2 end.
  Definition ups_at : nat := ret_at + match ret with [] => 0 | _ => 1 end.
  Definition ret_jmp : option nat := match ret with [] => None | _ => Some ret_at end.

  Lemma emit_cf_ok : cf_ok cols cf.
  Proof.
    unfold emit_upsert in Hemit. destruct cf as [| |sets w]; cbn [cf_ok]; auto.
    apply emit_sets_iff. destruct (emit_sets cols sets []) as [l| |]; cbn in Hemit; try discriminate. eauto.
  Qed.

  Lemma code_tail :
    nth_error code 0 = Some OPrepare /\ nth_error code 1 = Some (OJmp ups_at) /\
    nth_error code ups_at = Some (OUpsert 2 ret_jmp) /\
    nth_error code (S ups_at) = Some OFree /\ nth_error code (S (S ups_at)) = Some ORet /\
    (ret <> [] -> nth_error code ret_at = Some (OReturn ret)).
  Proof.
    revert Hemit. unfold emit_upsert, ups_at, ret_jmp, ret_at.
    destruct cf as [| |sets [w|]]; cbn [bind].
    - destruct ret as [|x r]; intros E; injection E as <-; repeat split; cbn; congruence.
    - destruct ret as [|x r]; intros E; injection E as <-; repeat split; cbn; congruence.
    - destruct (emit_sets cols sets []) as [l| |]; cbn [bind]; try discriminate.
      destruct ret as [|x r]; intros E; injection E as <-; repeat split; cbn; congruence.
    - destruct (emit_sets cols sets []) as [l| |]; cbn [bind]; try discriminate.
      destruct ret as [|x r]; intros E; injection E as <-; repeat split; cbn; congruence.
  Qed.

  Lemma code_conflict :
    match cf with
    | CNothing => ret_at = 2
    | CError => nth_error code 2 = Some OError
    | CUpdate sets None => exists l, emit_sets cols sets [] = Ok l /\
        nth_error code 2 = Some (OUpdate l) /\ ret_at = 3
    | CUpdate sets (Some w) => exists l, emit_sets cols sets [] = Ok l /\
        nth_error code 2 = Some (OJntr 4 w) /\ nth_error code 3 = Some (OUpdate l) /\ ret_at = 4
    end.
  Proof.
    revert Hemit. unfold emit_upsert, ret_at.
    destruct cf as [| |sets [w|]]; cbn [bind].
    - reflexivity.
    - destruct ret as [|x r]; intros E; injection E as <-; reflexivity.
    - destruct (emit_sets cols sets []) as [l| |]; cbn [bind]; try discriminate.
      destruct ret as [|x r]; intros E; injection E as <-; exists l; repeat split; reflexivity.
    - destruct (emit_sets cols sets []) as [l| |]; cbn [bind]; try discriminate.
      destruct ret as [|x r]; intros E; injection E as <-; exists l; repeat split; reflexivity.
  Qed.

  Lemma update_assign : forall sets l old excl, emit_sets cols sets [] = Ok l ->
    row_update 0 cols old (map (fun '(i, e) => (i, eval old excl e)) l) = assign sets old excl 0 cols.
  Proof.
    intros sets l old excl E.
    destruct (emit_sets_ok cols sets [] l I E) as (S1 & F1 & _ & C1).
    rewrite (assign_ext sets l) by (intros k; rewrite F1; reflexivity).
    apply (row_update_assign old excl cols 0 l S1).
    - apply Forall_forall. intros; lia.
    - intros j e c Hj _ Hc. rewrite Nat.sub_0_r in Hc.
      assert (Hsome : set_for l j <> None).
      { rewrite set_for_None. intros N. apply N. apply in_map_iff. exists (j, e). auto. }
      rewrite F1 in Hsome. cbn in Hsome.
      destruct (set_for sets j) as [e'|] eqn:Es; [|congruence].
      apply set_for_In in Es. destruct (C1 _ _ Es) as [(c' & Hc' & Hr) _].
      rewrite Hc in Hc'. injection Hc' as <-.
      destruct (c_ident c) eqn:Ei; [|reflexivity].
      rewrite (Hid c (nth_error_In _ _ Hc) Ei) in Hr. discriminate.
  Qed.

  (* the conflict code *)
  Lemma run_conflict : forall rest e rows p old out,
    nth_error rows p = Some old ->
    exists n, forall fuel,
      run (n + fuel) (mkst 2 rest (Some e) rows p out)
      = match resolve cols cf old (e_values e) with
        | Ok r => run fuel (mkst ret_at rest (Some e) (set_row p r rows) p out)
        | Err => Some Err
        | UB => Some UB
        end.
  Proof.
    intros rest e rows p old out Hp. pose proof code_conflict as C.
    assert (U : forall sets l pc fuel, emit_sets cols sets [] = Ok l -> nth_error code pc = Some (OUpdate l) ->
       run (S fuel) (mkst pc rest (Some e) rows p out)
       = match assign sets old (e_values e) 0 cols with
         | Ok r => run fuel (mkst (S pc) rest (Some e) (set_row p r rows) p out)
         | Err => Some Err
         | UB => Some UB end).
    { intros sets l pc fuel El Hc. cbn [exec]. unfold step. cbn [s_pc s_rows s_cursor s_last s_rest s_set]. rewrite Hc.
      unfold excluded. cbn [s_last bind]. rewrite Hp, (update_assign sets l old (e_values e) El).
      destruct (assign sets old (e_values e) 0 cols); reflexivity. }
    destruct cf as [| |sets [w|]]; cbn [resolve].
    - exists 0. intros fuel. rewrite C, (set_row_same p old rows Hp). reflexivity.
    - exists 1. intros fuel. cbn [Nat.add exec]. unfold step. cbn [s_pc]. rewrite C. reflexivity.
    - destruct C as (l & El & C2 & C3 & Er). rewrite Er.
      destruct (is_true (eval old (e_values e) w)) eqn:W.
      + exists 2. intros fuel. cbn [Nat.add]. rewrite <- (U sets l 3 fuel El C3).
        cbn [exec]. unfold step at 1. cbn [s_pc s_rows s_cursor s_last s_rest s_set]. rewrite C2.
        unfold excluded at 1. cbn [s_last bind]. rewrite Hp, W. reflexivity.
      + exists 1. intros fuel. cbn [Nat.add exec]. unfold step at 1. cbn [s_pc s_rows s_cursor s_last s_rest s_set]. rewrite C2.
        unfold excluded at 1. cbn [s_last bind]. rewrite Hp, W. rewrite (set_row_same p old rows Hp). reflexivity.
    - destruct C as (l & El & C2 & Er). rewrite Er. exists 1. intros fuel. apply (U sets l 2 fuel El C2).
  Qed.

  (* the returning code *)
  Lemma run_returning : forall rest e rows p r out,
    nth_error rows p = Some r ->
    exists n, forall fuel,
      run (n + fuel) (mkst ret_at rest (Some e) rows p out)
      = run fuel (mkst ups_at rest (Some e) rows p
                       (out ++ match ret with [] => [] | _ => [map (eval r (e_values e)) ret] end)).
  Proof.
    intros rest e rows p r out Hp. destruct code_tail as (_ & _ & _ & _ & _ & C).
    unfold ups_at. destruct ret as [|x rt] eqn:Eret.
    - exists 0. intros fuel. rewrite Nat.add_0_r, app_nil_r. reflexivity.
    - exists 1. intros fuel. rewrite <- Eret in *. assert (Hne : ret <> []) by congruence.
      cbn [Nat.add exec]. unfold step at 1. cbn [s_pc s_rows s_cursor s_last s_rest s_set].
      rewrite (C Hne). unfold excluded. cbn [s_last bind]. rewrite Hp.
      replace (ret_at + 1) with (S ret_at) by lia. reflexivity.
  Qed.

  Definition sent : entry -> row -> row := fun e _ => e_values e.

  Lemma run_rows : forall es rows last cur out,
    table_ok cols keys rows ->
    exists fuel, run fuel (mkst ups_at es last rows cur out)
    = Some (match put_rows sent cols keys sec cf ret rows es with
            | Ok (rows', out') => Ok (rows', out ++ out')
            | Err => Err
            | UB => UB
            end).
  Proof.
    destruct code_tail as (_ & _ & Cu & Cf & Cr & _).
    induction es as [|e es IH]; intros rows last cur out Hok.
    - exists 3. cbn [exec put_rows]. unfold step at 1. cbn [s_pc s_rows s_cursor s_last s_rest s_set].
      rewrite Cu. cbn [cupsert bind s_pc s_rows s_cursor s_last s_rest s_set]. unfold step at 1. cbn [s_pc]. rewrite Cf.
      cbn [s_pc s_rows s_cursor s_last s_rest s_set]. unfold step at 1. cbn [s_pc]. rewrite Cr.
      cbn [s_rows s_set]. rewrite app_nil_r. reflexivity.
    - assert (St : forall fuel, run (S fuel) (mkst ups_at (e :: es) last rows cur out)
        = match cupsert cols keys sec 2 ret_jmp (e :: es) (mkst ups_at (e :: es) last rows cur out) with
          | Ok y => run fuel y | Err => Some Err | UB => Some UB end).
      { intros fuel. cbn [exec]. unfold step at 1. cbn [s_pc s_rows s_cursor s_last s_rest s_set]. rewrite Cu.
        destruct (cupsert _ _ _ _ _ _ _); reflexivity. }
      cbn [cupsert s_pc s_rows s_set] in St.
      rewrite row_create_proposed in St. cbn [put_rows].
      destruct (proposed cols e) as [new| |] eqn:En; cbn [bind] in St |- *; try (exists 1; apply (St 0)).
      pose proof (put_row_inv sent cols keys sec cf rows e) as Inv.
      unfold put_row in Inv |- *. rewrite En in Inv |- *. cbn [bind] in Inv |- *.
      unfold part_upsert in St. pose proof (find_pos_find keys new rows) as Fp.
      destruct (find_pos keys new rows) as [p|].
      + destruct Fp as (old & Hp & Hf & Hk). rewrite Hf in Inv |- *. cbn [bind] in St.
        destruct (run_conflict es e rows p old out Hp) as [n1 R1].
        change (sent e new) with (e_values e) in *.
        destruct (resolve cols cf old (e_values e)) as [r| |] eqn:Er; cbn [bind] in Inv |- *.
        * destruct (run_returning es e (set_row p r rows) p r out (set_row_nth _ _ _ _ Hp)) as [n2 R2].
          pose proof (set_row_map keys new r rows p old (proj2 Hok) Hp Hk) as Em.
          rewrite Em in *.
          destruct (Inv _ _ emit_cf_ok Hrefs Hok eq_refl) as (Hok' & _).
          set (rows1 := map _ rows) in *.
          destruct (IH rows1 (Some e) p (out ++ match ret with [] => [] | _ => [map (eval r (e_values e)) ret] end) Hok') as [n3 R3].
          exists (S (n1 + (n2 + n3))). rewrite St, R1, R2, R3.
          destruct (put_rows sent cols keys sec cf ret rows1 es) as [[rows' out']| |]; cbn [bind]; [|reflexivity|reflexivity].
          rewrite app_assoc. reflexivity.
        * exists (S (n1 + 0)). rewrite St, R1. reflexivity.
        * exists (S (n1 + 0)). rewrite St, R1. reflexivity.
      + rewrite Fp in Inv |- *.
        assert (Ex : existsb (fun ks => match find_pos ks new rows with Some _ => true | None => false end) sec
                     = existsb (fun ks => existsb (same_key ks new) rows) sec).
        { clear. induction sec as [|ks l IHl]; cbn; [reflexivity|]. rewrite IHl, find_pos_existsb. reflexivity. }
        rewrite Ex in St. destruct (existsb (fun ks => existsb (same_key ks new) rows) sec) eqn:Ee; cbn [bind] in St |- *.
        * exists 1. apply (St 0).
        * destruct (Inv _ _ emit_cf_ok Hrefs Hok eq_refl) as (Hok' & _).
          assert (Hp : nth_error (rows ++ [new]) (length rows) = Some new).
          { rewrite nth_error_app2, Nat.sub_diag; [reflexivity|lia]. }
          change (sent e new) with (e_values e).
          destruct (run_returning es e (rows ++ [new]) (length rows) new out Hp) as [n2 R2].
          destruct (IH (rows ++ [new]) (Some e) (length rows) (out ++ match ret with [] => [] | _ => [map (eval new (e_values e)) ret] end) Hok') as [n3 R3].
          assert (Fin : match match put_rows sent cols keys sec cf ret (rows ++ [new]) es with
                   | Ok (rows', out') => Ok (rows', (out ++ match ret with [] => [] | _ => [map (eval new (e_values e)) ret] end) ++ out')
                   | Err => Err | UB => UB end with x => x end
              = match (do (rows2, out0) <- put_rows sent cols keys sec cf ret (rows ++ [new]) es;
                  Ok (rows2, match ret with [] => [] | _ => [map (eval new (e_values e)) ret] end ++ out0)) with
                | Ok (rows', out') => Ok (rows', out ++ out') | Err => Err | UB => UB end).
          { destruct (put_rows sent cols keys sec cf ret (rows ++ [new]) es) as [[rows' out']| |]; cbn [bind]; [|reflexivity|reflexivity].
            rewrite app_assoc. reflexivity. }
          unfold ret_jmp, ups_at in *. destruct ret as [|x rt] eqn:Eret.
          -- (* no RETURNING: the loop goes on inside the instruction *)
             rewrite Nat.add_0_r in *. rewrite app_nil_r in *.
             exists n3. etransitivity; [|exact (f_equal Some Fin)]. rewrite <- R3. destruct n3 as [|n3]; [cbn in R3; discriminate|].
             cbn [exec]. unfold step. cbn [s_pc s_rows s_cursor s_last s_rest s_set]. rewrite Cu.
             cbn [cupsert s_pc s_rows s_cursor s_last s_rest s_set].
             rewrite row_create_proposed, En. cbn [bind]. unfold part_upsert.
             pose proof (find_pos_find keys new rows) as Fp2.
             destruct (find_pos keys new rows) as [q|]; [destruct Fp2 as (o & _ & F2 & _); congruence|].
             rewrite Ex. cbn [bind]. destruct (cupsert _ _ _ _ _ _ _); reflexivity.
          -- rewrite <- Eret in *. exists (S (n2 + n3)). etransitivity; [|exact (f_equal Some Fin)]. rewrite St, R2. exact R3.
  Qed.

  Lemma run_upsert : forall rows, table_ok cols keys rows ->
    exists fuel, run fuel (start rows) = Some (put_rows sent cols keys sec cf ret rows args).
  Proof.
    intros rows Hok. destruct code_tail as (C0 & C1 & _).
    destruct (run_rows args rows None 0 [] Hok) as [n R].
    exists (S (S n)). cbn [exec]. unfold start. unfold step at 1. cbn [s_pc]. rewrite C0.
    cbn [s_pc s_rows s_cursor s_last s_rest s_set]. unfold step at 1. cbn [s_pc]. rewrite C1.
    cbn [s_pc s_rows s_cursor s_last s_rest s_set]. rewrite R.
    destruct (put_rows sent cols keys sec cf ret rows args) as [[rows' out']| |]; reflexivity.
  Qed.
End Run.

(** ** more fuel does not change the result *)
Lemma exec_mono : forall cols keys sec args code n x v,
  exec cols keys sec args code n x = Some v -> forall k, exec cols keys sec args code (n + k) x = Some v.
Proof.
  induction n as [|n IH]; intros x v H k; cbn [exec Nat.add] in *; [discriminate|].
  destruct (step cols keys sec args code x) as [[y|]| |]; auto.
Qed.
Lemma exec_det : forall cols keys sec args code n m x u v,
  exec cols keys sec args code n x = Some u -> exec cols keys sec args code m x = Some v -> u = v.
Proof.
  intros cols keys sec args code n m x u v Hu Hv.
  pose proof (exec_mono _ _ _ _ _ _ _ _ Hu m) as A.
  pose proof (exec_mono _ _ _ _ _ _ _ _ Hv n) as B.
  rewrite Nat.add_comm in B. congruence.
Qed.

(** ** the table after all rows *)
Lemma put_row_keys : forall excl cols keys sec cf rows e rows' r,
  cf_ok cols cf -> keys_have_refs cols keys -> table_ok cols keys rows ->
  put_row excl cols keys sec cf rows e = Ok (rows', r) ->
  incl (map (key_of keys) rows) (map (key_of keys) rows').
Proof.
  intros excl cols keys sec cf rows e rows' r Hc Hk [Hw Hd] H. unfold put_row in H.
  destruct (proposed cols e) as [new| |] eqn:En; cbn [bind] in H; try discriminate.
  destruct (find (same_key keys new) rows) as [old|] eqn:Ef.
  - destruct (find_some _ _ Ef) as [Hin Hs]. apply same_key_eq in Hs.
    destruct (resolve cols cf old (excl e new)) as [r0| |] eqn:Er; cbn [bind] in H; try discriminate.
    injection H as <- <-.
    assert (Hlo : length old = length cols) by (apply (proj1 (Forall_forall _ _) Hw); exact Hin).
    destruct (resolve_key _ _ _ _ _ _ Hc Hk Hlo Er) as [Hkr _].
    rewrite map_key_replace by congruence. apply incl_refl.
  - destruct (existsb _ sec); [discriminate|]. injection H as <- <-.
    rewrite map_app. apply incl_appl, incl_refl.
Qed.

Lemma put_rows_inv : forall excl cols keys sec cf ret,
  cf_ok cols cf -> keys_have_refs cols keys ->
  forall es rows rows' out, table_ok cols keys rows ->
  put_rows excl cols keys sec cf ret rows es = Ok (rows', out) ->
  table_ok cols keys rows' /\
  (length out = match ret with [] => 0 | _ => length es end) /\
  incl (map (key_of keys) rows) (map (key_of keys) rows') /\
  (forall e, In e es -> exists new, proposed cols e = Ok new /\ In (key_of keys new) (map (key_of keys) rows')) /\
  (forall x, (forall e new, In e es -> proposed cols e = Ok new -> key_of keys x <> key_of keys new) ->
     (In x rows <-> In x rows')).
Proof.
  intros excl cols keys sec cf ret Hc Hk.
  induction es as [|e es IH]; intros rows rows' out Hok H; cbn [put_rows] in H.
  - injection H as <- <-. split; [exact Hok|]. split; [destruct ret; reflexivity|].
    split; [apply incl_refl|]. split; [intros e []|tauto].
  - destruct (proposed cols e) as [new| |] eqn:En; cbn [bind] in H; try discriminate.
    destruct (put_row excl cols keys sec cf rows e) as [[rows1 r]| |] eqn:E1; cbn [bind] in H; try discriminate.
    destruct (put_rows excl cols keys sec cf ret rows1 es) as [[rows2 out2]| |] eqn:E2; cbn [bind] in H; try discriminate.
    injection H as <- <-.
    destruct (put_row_inv _ _ _ _ _ _ _ _ _ Hc Hk Hok E1) as (Hok1 & (new' & En' & Hkr & Hoth) & Hr).
    assert (new' = new) by congruence. subst new'.
    pose proof (put_row_keys _ _ _ _ _ _ _ _ _ Hc Hk Hok E1) as Hi1.
    destruct (IH _ _ _ Hok1 E2) as (Hok2 & Hl & Hi2 & Hp2 & Ho2).
    split; [exact Hok2|]. split; [|split; [|split]].
    + rewrite app_length. unfold row in *. rewrite Hl. destruct ret; reflexivity.
    + eapply incl_tran; eauto.
    + intros e' [<-|He]; [|auto]. exists new. split; [exact En|].
      apply Hi2. rewrite <- Hkr. apply in_map. exact Hr.
    + intros x Hx. rewrite (Hoth x); [|apply (Hx e new); [left; reflexivity|exact En]].
      apply Ho2. intros e' new' He'. apply Hx. right; exact He'.
Qed.

(** ** EXCLUDED *)
Lemma eval_excl : forall old a b e, (forall i, In i (excl_reads e) -> nth i a None = nth i b None) ->
  eval old a e = eval old b e.
Proof.
  induction e as [v|i|i|f x IHx y IHy]; intros H; cbn [eval excl_reads] in *; auto.
  - apply H. left; reflexivity.
  - rewrite IHx, IHy; [reflexivity| |]; intros i Hi; apply H, in_or_app; auto.
Qed.
Lemma assign_excl : forall sets old a b cols i,
  (forall k, In k (flat_map (fun '(_, e) => excl_reads e) sets) -> nth k a None = nth k b None) ->
  assign sets old a i cols = assign sets old b i cols.
Proof.
  induction cols as [|c cols IH]; intros i H; cbn [assign]; [reflexivity|].
  rewrite (IH (S i) H). destruct (set_for sets i) as [e|] eqn:Es; [|reflexivity].
  rewrite (eval_excl old a b e); [reflexivity|].
  intros k Hk. apply H. apply in_flat_map. exists (i, e). split; [apply set_for_In; exact Es|exact Hk].
Qed.
Lemma resolve_excl : forall cols cf old a b,
  (forall k, In k (conflict_reads cf) -> nth k a None = nth k b None) ->
  resolve cols cf old a = resolve cols cf old b.
Proof.
  intros cols [| |sets [w|]] old a b H; cbn [resolve conflict_reads] in *; auto.
  - rewrite (eval_excl old a b w) by (intros k Hk; apply H, in_or_app; auto).
    rewrite (assign_excl sets old a b) by (intros k Hk; apply H, in_or_app; auto). reflexivity.
  - apply assign_excl. intros k Hk; apply H, in_or_app; auto.
Qed.
Lemma put_rows_sent : forall cols keys sec cf ret es rows,
  excluded_ok cols cf ret es ->
  put_rows sent cols keys sec cf ret rows es = upsert cols keys sec cf ret rows es.
Proof.
  unfold upsert. induction es as [|e es IH]; intros rows H; cbn [put_rows]; [reflexivity|].
  destruct (proposed cols e) as [new| |] eqn:En; cbn [bind]; try reflexivity.
  assert (A : forall k, In k (conflict_reads cf ++ flat_map excl_reads ret) ->
              nth k (sent e new) None = nth k new None).
  { intros k Hk. apply (H e new k (or_introl eq_refl) En Hk). }
  assert (E1 : put_row sent cols keys sec cf rows e = put_row (fun _ new => new) cols keys sec cf rows e).
  { unfold put_row. rewrite En. cbn [bind]. destruct (find _ rows); [|reflexivity].
    rewrite (resolve_excl cols cf r (sent e new) new); [reflexivity|].
    intros k Hk; apply A, in_or_app; auto. }
  rewrite E1. destruct (put_row (fun _ new => new) cols keys sec cf rows e) as [[rows1 r]| |]; cbn [bind]; try reflexivity.
  rewrite IH by (intros e' new' i He; apply H; right; exact He).
  destruct (put_rows (fun _ new => new) cols keys sec cf ret rows1 es) as [[rows2 out]| |]; cbn [bind]; try reflexivity.
  assert (Em : map (eval r (sent e new)) ret = map (eval r new) ret); [|rewrite Em; reflexivity].
  apply map_ext_in.
  intros x0 Hx0. apply eval_excl. intros k Hk. apply A, in_or_app. right. apply in_flat_map. eauto.
Qed.

(** ** the compiler *)
Lemma emit_iff : forall cols cf ret,
  (exists code, emit_upsert cols cf ret = Ok code) <-> cf_ok cols cf.
Proof.
  intros cols cf ret. unfold emit_upsert. destruct cf as [| |sets w]; cbn [bind cf_ok].
  - destruct ret; split; eauto.
  - destruct ret; split; eauto.
  - rewrite <- emit_sets_iff. destruct (emit_sets cols sets []) as [l| |]; cbn [bind].
    + destruct w, ret; cbn [bind]; split; eauto.
    + split; intros [x H]; discriminate.
    + split; intros [x H]; discriminate.
Qed.
