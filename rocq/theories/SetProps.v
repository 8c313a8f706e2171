(** C40: GROUP BY / DISTINCT keep one row per key. *)
From Verif Require Import Base OrderLib JsonModel JsonSpec JsonOrder ValueModel ValueProps HashModel HashProofs SetModel SetProofs.
Local Open Scope nat_scope.

(** ** specification *)
(** the distinct keys in the order of their first appearance *)
Fixpoint first_seen {K} (eqb : K -> K -> bool) (ks : list K) : list K :=
  match ks with
  | [] => []
  | k :: r => k :: filter (fun x => negb (eqb k x)) (first_seen eqb r)
  end.
(** [eqb] is an equivalence on the keys in [ok], and equal keys have the same hash *)
Record key_equality {K} (ok : K -> Prop) (eqb : K -> K -> bool) (hash : K -> Z) : Prop := {
  ke_refl : forall a, ok a -> eqb a a = true;
  ke_sym : forall a b, ok a -> ok b -> eqb a b = true -> eqb b a = true;
  ke_trans : forall a b c, ok a -> ok b -> ok c -> eqb a b = true -> eqb b c = true -> eqb a c = true;
  ke_hash : forall a b, ok a -> ok b -> eqb a b = true -> hash a = hash b
}.
(** [groups]: the keys of the groups; [res]: for every input row its group and whether the
    group existed before *)
Record grouping_ok {K} (eqb : K -> K -> bool) (ks groups : list K) (res : list (nat * bool)) : Prop := {
  go_groups : groups = first_seen eqb ks;
  go_all : length res = length ks;
  (* the group of a row has its key *)
  go_row : forall i k r ex, nth_error ks i = Some k -> nth_error res i = Some (r, ex) ->
    exists k', nth_error groups r = Some k' /\ eqb k' k = true;
  (* two rows share a group exactly if their keys are equal *)
  go_same : forall i j k k' r r' ex ex',
    nth_error ks i = Some k -> nth_error ks j = Some k' ->
    nth_error res i = Some (r, ex) -> nth_error res j = Some (r', ex') ->
    (r = r' <-> eqb k k' = true);
  (* "exists" is reported exactly if an earlier row had an equal key *)
  go_exists : forall i k r ex, nth_error ks i = Some k -> nth_error res i = Some (r, ex) ->
    (ex = true <-> exists j k', j < i /\ nth_error ks j = Some k' /\ eqb k' k = true)
}.

(** ** proof *)
Section P.
Context {K A : Type}.
Variables (eqb : K -> K -> bool) (hash : K -> Z) (a0 : A) (ok : K -> Prop).
Hypothesis KE : key_equality ok eqb hash.
Let inv := @inv K A eqb hash ok.
Notation first_seen := (first_seen eqb).

Definition seen (ks : list K) (k : K) : bool := existsb (fun k' => eqb k' k) ks.
Lemma first_seen_in ks x : In x (first_seen ks) -> In x ks.
Proof.
  induction ks as [|k ks IH]; cbn; [tauto|]. intros [H|H]; [now left|]. apply filter_In in H as [H _]. right. auto.
Qed.

Lemma upsert_list_spec ks : forall s, inv s -> Forall ok ks ->
  exists res s', upsert_list eqb hash a0 s ks = Some (res, s') /\ inv s' /\
    length res = length ks /\
    keys s' = keys s ++ filter (fun x => negb (seen (keys s) x)) (first_seen ks) /\
    (forall i k r ex, nth_error ks i = Some k -> nth_error res i = Some (r, ex) ->
       (exists k', nth_error (keys s') r = Some k' /\ eqb k' k = true) /\
       (ex = true <-> seen (keys s) k = true \/ exists j k', j < i /\ nth_error ks j = Some k' /\ eqb k' k = true)).
Proof.
  destruct KE as [R Sy Tr Ha]. induction ks as [|k ks IH]; intros s I F; cbn [upsert_list].
  - exists [], s. split; [reflexivity|]. split; [exact I|]. split; [reflexivity|].
    split; [cbn; now rewrite app_nil_r|]. intros [|i]; discriminate.
  - pose proof (Forall_inv F) as Ok. pose proof (Forall_inv_tail F) as F'.
    destruct (upsert_spec eqb hash a0 ok R Sy Tr Ha s k 0%Z I Ok (or_introl eq_refl)) as (r & ex & s1 & E & I1 & C).
    rewrite E. destruct (IH s1 I1 F') as (res & s' & E2 & I2 & L2 & K2 & P2). rewrite E2.
    exists ((r, ex) :: res), s'. split; [reflexivity|]. split; [exact I2|]. split; [cbn; lia|].
    assert (forall x, In x (keys s) -> ok x) as OKs by (apply Forall_forall; apply (i_ok _ _ _ s I)).
    assert (forall x, In x ks -> ok x) as OKk by (now apply Forall_forall).
    (* keys after the first upsert *)
    assert (forall x, ok x -> seen (keys s1) x = seen (keys s) x || eqb k x) as SE.
    { intros x Hx. destruct C as [(_ & RE & k' & Hk' & Ek')|(_ & _ & RE & _)]; unfold keys; rewrite RE.
      - destruct (eqb k x) eqn:Ekx; [|now rewrite orb_false_r]. rewrite orb_true_r.
        apply existsb_exists. exists k'. split; [apply nth_error_In in Hk'; exact Hk'|].
        apply (Tr k' k x); auto. apply OKs. apply nth_error_In in Hk'. exact Hk'.
      - unfold seen. rewrite map_app, existsb_app. cbn. now rewrite orb_false_r. }
    split; [|].
    { rewrite K2. cbn [SetProps.first_seen filter]. destruct C as [(-> & RE & k' & Hk' & Ek')|(-> & -> & RE & No)].
      - assert (seen (keys s) k = true) as Sk by (apply existsb_exists; exists k'; split; [apply nth_error_In in Hk'; exact Hk'|exact Ek']).
        rewrite Sk. cbn [negb].
        assert (keys s1 = keys s) as -> by (unfold keys; now rewrite RE). f_equal.
        assert (forall l, (forall x, In x l -> ok x) -> filter (fun x => negb (seen (keys s) x)) l = filter (fun x => negb (seen (keys s) x)) (filter (fun x => negb (eqb k x)) l)) as G.
        { induction l as [|x l IHl]; intros Hl; [reflexivity|]. cbn. destruct (eqb k x) eqn:Ekx; cbn.
          - pose proof (SE x (Hl x (or_introl eq_refl))) as SEx. rewrite Ekx, orb_true_r in SEx.
            assert (keys s1 = keys s) as EK by (unfold keys; now rewrite RE). rewrite EK in SEx. rewrite SEx. cbn.
            apply IHl. intros; apply Hl; now right.
          - destruct (negb (seen (keys s) x)); [f_equal|]; apply IHl; intros; apply Hl; now right. }
        apply G. intros x Hx. apply OKk. now apply first_seen_in.
      - assert (seen (keys s) k = false) as Sk.
        { destruct (seen (keys s) k) eqn:E0; [|reflexivity]. apply existsb_exists in E0 as (x & Hx & Ex). rewrite (No x Hx) in Ex. discriminate. }
        rewrite Sk. cbn [negb].
        assert (keys s1 = keys s ++ [k]) as -> by (unfold keys; rewrite RE, map_app; reflexivity).
        rewrite <- app_assoc. cbn [app]. f_equal. f_equal.
        assert (forall l, filter (fun x => negb (seen (keys s ++ [k]) x)) l = filter (fun x => negb (seen (keys s) x)) (filter (fun x => negb (eqb k x)) l)) as G; [|apply G].
        induction l as [|x l IHl]; [reflexivity|]. cbn. unfold seen at 1. rewrite existsb_app. fold (seen (keys s) x).
        cbn. rewrite orb_false_r. destruct (eqb k x) eqn:Ekx; cbn.
        + rewrite orb_true_r. exact IHl.
        + rewrite orb_false_r. destruct (negb (seen (keys s) x)); rewrite IHl; reflexivity. }
    intros [|i] k1 r1 ex1 H1 H2.
    { cbn in H1, H2. injection H1 as <-. injection H2 as <- <-. split.
      - rewrite K2. destruct C as [(_ & RE & k' & Hk' & Ek')|(_ & -> & RE & No)].
        + exists k'. split; [|exact Ek']. assert (keys s1 = keys s) as -> by (unfold keys; now rewrite RE).
          rewrite nth_error_app1; [exact Hk'|]. apply nth_error_Some. congruence.
        + exists k. split; [|now apply R]. assert (keys s1 = keys s ++ [k]) as -> by (unfold keys; rewrite RE, map_app; reflexivity).
          rewrite nth_error_app1.
          * rewrite nth_error_app2 by (unfold keys; rewrite map_length; lia).
            replace (length (srows s) - length (keys s)) with 0 by (unfold keys; rewrite map_length; lia). reflexivity.
          * rewrite app_length. unfold keys. rewrite map_length. cbn. lia.
      - destruct C as [(-> & _ & k' & Hk' & Ek')|(-> & _ & _ & No)].
        + split; [intros _; left|reflexivity]. apply existsb_exists. exists k'. split; [apply nth_error_In in Hk'; exact Hk'|exact Ek'].
        + split; [discriminate|]. intros [Sk|(j & ? & Hj & _)]; [|lia].
          apply existsb_exists in Sk as (x & Hx & Ex). rewrite (No x Hx) in Ex. discriminate. }
    cbn in H1, H2. destruct (P2 i k1 r1 ex1 H1 H2) as [Pa Pb]. split; [exact Pa|]. rewrite Pb.
    assert (ok k1) as Ok1 by (apply OKk; eapply nth_error_In; eauto). rewrite SE by exact Ok1. rewrite orb_true_iff. split.
    + intros [[S|S]|(j & k' & Hj & Hn & Hq)].
      * now left.
      * right. exists 0, k. split; [lia|]. auto.
      * right. exists (S j), k'. split; [lia|]. auto.
    + intros [S|(j & k' & Hj & Hn & Hq)]; [left; now left|].
      destruct j as [|j]; cbn in Hn.
      * injection Hn as <-. left. now right.
      * right. exists j, k'. split; [lia|]. auto.
Qed.
End P.

(** C40: for every equality of keys with a consistent hash function (of any quality) and
    every sequence of keys *)
Theorem C40_one_group_per_key : forall {K A} (eqb : K -> K -> bool) hash (a0 : A) ok ks,
  key_equality ok eqb hash -> Forall ok ks ->
  exists res s, upsert_list eqb hash a0 set_empty ks = Some (res, s) /\ grouping_ok eqb ks (map fst (srows s)) res.
Proof.
  intros K A eqb hash a0 ok ks KE F.
  destruct (upsert_list_spec eqb hash a0 ok KE ks set_empty (inv_empty eqb hash ok) F) as (res & s & E & I & L & KS & P).
  exists res, s. split; [exact E|]. cbn [keys srows set_empty map app] in KS.
  assert (forall l : list K, filter (fun x => negb (seen eqb [] x)) l = l) as FL by (induction l as [|x l IH]; [reflexivity|]; change (x :: filter (fun x => negb (seen eqb [] x)) l = x :: l); now rewrite IH).
  rewrite FL in KS.
  assert (forall i k r ex, nth_error ks i = Some k -> nth_error res i = Some (r, ex) ->
    exists k', nth_error (keys s) r = Some k' /\ eqb k' k = true) as GR by (intros i k r ex H1 H2; apply (P i k r ex H1 H2)).
  assert (forall i x, nth_error ks i = Some x -> ok x) as OKk by (intros i x H; eapply (proj1 (Forall_forall ok ks) F), nth_error_In; eauto).
  split.
  - exact KS.
  - exact L.
  - exact GR.
  - intros i j k k' r r' ex ex' Hi Hj Hr Hr'.
    destruct (GR i k r ex Hi Hr) as (g & Hg & Eg). destruct (GR j k' r' ex' Hj Hr') as (g' & Hg' & Eg').
    assert (forall n x, nth_error (keys s) n = Some x -> ok x) as OKs.
    { intros n x H. apply (proj1 (Forall_forall ok (keys s)) (i_ok _ _ _ s I)). eapply nth_error_In; eauto. }
    pose proof (OKs _ _ Hg) as O1. pose proof (OKs _ _ Hg') as O2. pose proof (OKk _ _ Hi) as O3. pose proof (OKk _ _ Hj) as O4.
    destruct KE as [R Sy Tr Ha]. split.
    + intros <-. rewrite Hg in Hg'. injection Hg' as <-. apply (Tr k g k'); auto.
    + intros Ekk. eapply (i_distinct _ _ _ s I); [exact Hg|exact Hg'|].
      apply (Tr g k g'); auto. apply (Tr k k' g'); auto.
  - intros i k r ex Hi Hr. destruct (P i k r ex Hi Hr) as [_ Q]. rewrite Q. cbn. split.
    + intros [C|C]; [discriminate|exact C].
    + intros C. now right.
Qed.
Print Assumptions C40_one_group_per_key.

(** ** keys of values *)
(** a value whose equality is the equality of its bits: no NaN and no -0.0 *)
Definition plain_value (v : value) : Prop :=
  value_ok v /\
  match v with
  | VDouble d => (0 <= d < 2 ^ 64 /\ d <> 2 ^ 63)%Z
  | VVector l => Forall (fun f => (0 <= f < 2 ^ 32 /\ f <> 2 ^ 31)%Z) l
  | _ => True
  end.
Definition plain_key (n : nat) (k : list value) : Prop := length k = n /\ Forall plain_value k.

Lemma dbl_key_inj a b : (0 <= a < 2 ^ 64 /\ a <> 2 ^ 63 -> 0 <= b < 2 ^ 64 /\ b <> 2 ^ 63 -> dbl_key a = dbl_key b -> a = b)%Z.
Proof. unfold dbl_key. intros Ha Hb. destruct (Z.ltb_spec a (2 ^ 63)), (Z.ltb_spec b (2 ^ 63)); lia. Qed.
Lemma flt_key_inj a b : (0 <= a < 2 ^ 32 /\ a <> 2 ^ 31 -> 0 <= b < 2 ^ 32 /\ b <> 2 ^ 31 -> flt_key a = flt_key b -> a = b)%Z.
Proof. unfold flt_key. intros Ha Hb. destruct (Z.ltb_spec a (2 ^ 31)), (Z.ltb_spec b (2 ^ 31)); lia. Qed.
Lemma plain_same a b : plain_value a -> plain_value b -> same_value a b -> a = b.
Proof.
  intros [_ Ha] [_ Hb] S. destruct a, b; cbn in S; try congruence.
  - f_equal. now apply dbl_key_inj.
  - f_equal. revert v0 Hb S. induction v as [|x v IH]; intros [|y v0] Hb S; try discriminate; [reflexivity|].
    cbn in S. injection S as S1 S2. f_equal.
    + apply flt_key_inj; [exact (Forall_inv Ha)|exact (Forall_inv Hb)|exact S1].
    + apply IH; [exact (Forall_inv_tail Ha)|exact (Forall_inv_tail Hb)|exact S2].
Qed.
Lemma plain_keys_eq mag n : memcmp_ok mag -> forall a b, plain_key n a -> plain_key n b ->
  (store_compare_keys mag a b = true <-> a = b).
Proof.
  intros M. induction n as [|n IH]; intros [|x a] [|y b] [La Fa] [Lb Fb]; try discriminate.
  - cbn. tauto.
  - injection La as La. injection Lb as Lb. cbn [store_compare_keys].
    pose proof (Forall_inv Fa) as Px. pose proof (Forall_inv Fb) as Py.
    pose proof (value_zero mag M x y (proj1 Px) (proj1 Py)) as Z0.
    destruct (Z.eqb_spec (value_compare mag x y) 0) as [E|E]; cbn [negb].
    + rewrite IH by (split; [assumption|eapply Forall_inv_tail; eauto]).
      assert (x = y) as -> by (apply plain_same; tauto). split; [intros ->; reflexivity|congruence].
    + split; [discriminate|]. intros [= -> ->]. exfalso. apply E, Z0, vkey_eq. reflexivity.
Qed.
Lemma plain_keys_equality mag n : memcmp_ok mag -> key_equality (plain_key n) (store_compare_keys mag) keys_hash.
Proof.
  intros M. split.
  - intros a Ha. now apply (plain_keys_eq mag n M).
  - intros a b Ha Hb H. apply (plain_keys_eq mag n M) in H; auto. subst. now apply (plain_keys_eq mag n M).
  - intros a b c Ha Hb Hc H1 H2. apply (plain_keys_eq mag n M) in H1; auto. subst. exact H2.
  - intros a b Ha Hb H. apply (plain_keys_eq mag n M) in H; auto. now subst.
Qed.

(** C40 for SQL values: any number of key columns of any type (bool, int, double, string,
    date, timestamp, interval, vector, uuid, NULL) without NaN and -0.0 *)
Theorem C40_group_by_values_partial : forall {A} mag n (a0 : A) ks, memcmp_ok mag -> Forall (plain_key n) ks ->
  (forall a b, In a ks -> In b ks -> (store_compare_keys mag a b = true <-> a = b)) /\
  exists res s, upsert_list (store_compare_keys mag) keys_hash a0 set_empty ks = Some (res, s) /\
    grouping_ok (store_compare_keys mag) ks (map fst (srows s)) res.
Proof.
  intros A mag n a0 ks M F. split.
  - intros a b Ha Hb. apply (plain_keys_eq mag n M); eapply (proj1 (Forall_forall _ _) F); assumption.
  - eapply C40_one_group_per_key; [now apply plain_keys_equality with (n := n)|exact F].
Qed.
Print Assumptions C40_group_by_values_partial.

(* 80 keys, 40 distinct: the table is resized *)
Definition nv_keys : list (list value) :=
  map (fun i => [VInt (Z.of_nat (i mod 40)); VString [97; Z.of_nat (i mod 40)]%Z]) (seq 0 80).
Example C40_nonvacuous : Forall (plain_key 2) nv_keys /\
  match upsert_list (store_compare_keys Z.sub) keys_hash tt set_empty nv_keys with
  | Some (res, s) => (length (srows s) =? 40) && (length (stab s) =? 128) &&
                     forallb (fun '(i, (r, ex)) => (r =? i mod 40) && eqb ex (40 <=? i)) (combine (seq 0 80) res) = true
  | None => False
  end.
Proof.
  split; [|vm_compute; reflexivity].
  apply Forall_forall. intros k H. apply in_map_iff in H as (i & <- & _). split; [reflexivity|].
  repeat constructor.
Qed.

(** C40 is false of the code for the double -0.0: it is equal to 0.0 and gets its own group *)
Theorem C40_negative_zero_refuted : exists a b s,
  value_compare Z.sub a b = 0%Z /\
  upsert_list (store_compare_keys Z.sub) keys_hash tt set_empty [[a]; [b]] = Some ([(0, false); (1, false)], s) /\
  map fst (srows s) = [[a]; [b]].
Proof.
  exists (VDouble 0), (VDouble (2 ^ 63)). eexists. split; [vm_compute; reflexivity|]. split; [vm_compute; reflexivity|]. reflexivity.
Qed.
Print Assumptions C40_negative_zero_refuted.

(** ... and for JSON: a string parsed from a text with an escape is stored with a 32-bit
    size (encode.h:76-89 encode_string_unescape), any other with the shortest one.  The two encodings
    of one string compare equal, and their hashes (set_hash.h:116-119, over the bytes) differ *)
Theorem C40_json_refuted : exists a b, a = json_write_raw [97%Z] /\ b = json_write_wide [97%Z] /\
  json_compare Z.sub a b = Ok 0%Z /\ hash_fnv a <> hash_fnv b.
Proof. eexists _, _. split; [reflexivity|]. split; [reflexivity|]. split; vm_compute; [reflexivity|discriminate]. Qed.
Print Assumptions C40_json_refuted.
