(** C22: names of storage files. *)
From Verif Require Import Base DecLib IdModel.
Local Open Scope Z_scope.

Definition id64 (x : Z) : Prop := 0 <= x <= 9223372036854775807.

Lemma name_eqb_refl l : name_eqb l l = true.
Proof. induction l as [|x l IH]; [reflexivity|]. cbn [name_eqb]. now rewrite Z.eqb_refl. Qed.
Lemma pad_digits w x : 0 <= x -> forallb is_digit (pad w x) = true.
Proof. intros H. unfold pad. destruct (x <? 10 ^ Z.of_nat w); [apply fixed_ok|now apply digits_ok]. Qed.
Lemma pad_num w x : id64 x -> num (pad w x) = x.
Proof.
  intros H. unfold pad. destruct (Z.ltb_spec x (10 ^ Z.of_nat w)); [apply fixed_num; unfold id64 in H; lia|].
  apply digits_num. unfold id64 in H. change (10 ^ Z.of_nat 20) with 100000000000000000000. lia.
Qed.
Lemma pad_head w x : 0 <= x -> exists c r, pad (S w) x = c :: r /\ is_digit c = true.
Proof.
  intros H. pose proof (pad_digits (S w) x H) as D. destruct (pad (S w) x) as [|c r] eqn:E.
  - unfold pad in E. destruct (x <? 10 ^ Z.of_nat (S w)).
    + apply (f_equal (@length Z)) in E. rewrite fixed_length in E. discriminate.
    + now apply digits_nonempty in E.
  - cbn in D. apply andb_prop in D as [D _]. eauto.
Qed.
Lemma digit_not_dot c : is_digit c = true -> (c =? 46) = false.
Proof. unfold is_digit. lia. Qed.
Lemma next_digits l : forall acc rest, forallb is_digit l = true -> 0 <= acc ->
  fold_left (fun a b => a * 10 + (b - 48)) l acc <= 9223372036854775807 -> (rest = [] \/ exists r, rest = 46 :: r) ->
  id_of_next (l ++ rest) acc = Some (fold_left (fun a b => a * 10 + (b - 48)) l acc, rest).
Proof.
  induction l as [|c l IH]; intros acc rest D Ha Hb Hr; cbn [app fold_left id_of_next] in *.
  - destruct Hr as [-> |(r & ->)]; reflexivity.
  - cbn [forallb] in D. apply andb_prop in D as [D1 D2]. rewrite (digit_not_dot c D1), D1.
    assert (Hm : acc * 10 + (c - 48) <= fold_left (fun a b => a * 10 + (b - 48)) l (acc * 10 + (c - 48))).
    { clear -D1 D2 Ha. unfold is_digit in D1. assert (Hx : 0 <= acc * 10 + (c - 48)) by lia. revert Hx. generalize (acc * 10 + (c - 48)). clear -D2.
      induction l as [|b l IH]; intros x Hx; cbn [fold_left]; [lia|]. cbn [forallb] in D2. apply andb_prop in D2 as [D1 D2]. unfold is_digit in D1.
      specialize (IH D2 (x * 10 + (b - 48)) ltac:(lia)). lia. }
    unfold is_digit in D1. replace (acc * 10 <=? 9223372036854775807) with true by lia. replace (acc * 10 + (c - 48) <=? 9223372036854775807) with true by lia.
    cbn [andb]. apply IH; [exact D2|lia|exact Hb|exact Hr].
Qed.
Lemma next_pad w x rest : id64 x -> (rest = [] \/ exists r, rest = 46 :: r) -> id_of_next (pad w x ++ rest) 0 = Some (x, rest).
Proof.
  intros H Hr. pose proof (pad_num w x H) as N. unfold num in N. unfold id64 in H. rewrite next_digits; [now rewrite N|apply pad_digits; lia|lia|lia|exact Hr].
Qed.
Lemma state_rest s : id_state s = [] \/ exists r, id_state s = 46 :: r.
Proof. destruct s; [now left|right; eexists; reflexivity..]. Qed.
Lemma state_of s : id_state_of (id_state s) = Some s.
Proof. destruct s; reflexivity. Qed.

(** The name that is given to a file decodes to the same id, version and state, for every file with
    a version (objects) and every complete file without one (partitions).
    Missing: files without a version that are incomplete or snapshots, C22_refuted. *)
Theorem C22_partial : forall id version s, id64 id -> id64 version -> 0 < version \/ s = COMPLETE ->
  id_of (id_name id version s) = Some (id, version, s).
Proof.
  intros id version s Hi Hv Hs. unfold id_of, id_name. destruct (Z.ltb_spec 0 version) as [V|V].
  - rewrite next_pad; [|exact Hi|right; cbn [app]; eexists; reflexivity]. cbn [app].
    destruct (pad_head 1 version ltac:(lia)) as (c & r & E & D). pose proof (next_pad 2 version (id_state s) Hv (state_rest s)) as N.
    destruct (pad 2 version ++ id_state s) as [|c' r'] eqn:E'; [rewrite E in E'; discriminate|].
    assert (c' = c) by (rewrite E in E'; cbn in E'; congruence). subst c'. rewrite D, N.
    pose proof (state_of s) as T. destruct (id_state s) eqn:Es; [destruct s; [reflexivity|discriminate..]|]. now rewrite T.
  - destruct Hs as [?| ->]; [lia|]. rewrite app_nil_l. cbn [id_state]. rewrite next_pad by (auto; exact Hi). unfold id64 in Hv. repeat f_equal. lia.
Qed.
Print Assumptions C22_partial.

Lemma next_inj w x y l r : id64 x -> id64 y -> (l = [] \/ exists z, l = 46 :: z) -> (r = [] \/ exists z, r = 46 :: z) ->
  pad w x ++ l = pad w y ++ r -> x = y /\ l = r.
Proof.
  intros Hx Hy Hl Hr E. pose proof (next_pad w x l Hx Hl) as N1. pose proof (next_pad w y r Hy Hr) as N2. rewrite E, N2 in N1. split; congruence.
Qed.
(** Two files of a volume with the same name are the same file *)
Theorem C22_distinct : forall i v s i' v' s', id64 i -> id64 v -> id64 i' -> id64 v' ->
  id_name i v s = id_name i' v' s' -> i = i' /\ v = v' /\ s = s'.
Proof.
  intros i v s i' v' s' Hi Hv Hi' Hv' E. unfold id_name in E.
  assert (Rest : forall v s, (if 0 <? v then 46 :: pad 2 v else []) ++ id_state s = [] \/ exists z, (if 0 <? v then 46 :: pad 2 v else []) ++ id_state s = 46 :: z).
  { intros x y. destruct (0 <? x); [right; eexists; reflexivity|apply state_rest]. }
  apply next_inj in E; [|assumption|assumption|apply Rest|apply Rest]. destruct E as [-> E]. split; [reflexivity|]. unfold id64 in Hv, Hv'.
  destruct (Z.ltb_spec 0 v) as [V|V], (Z.ltb_spec 0 v') as [V'|V']; cbn [app] in E.
  - injection E as E. apply next_inj in E; [|assumption|assumption|apply state_rest|apply state_rest]. destruct E as [-> E]. split; [reflexivity|]. destruct s, s'; congruence || discriminate.
  - destruct (pad_head 1 v ltac:(lia)) as (c & r & Ep & D). rewrite Ep in E. unfold is_digit in D. destruct s'; cbn [id_state s_incomplete s_snapshot app] in E; [discriminate|injection E as E _; lia..].
  - destruct (pad_head 1 v' ltac:(lia)) as (c & r & Ep & D). rewrite Ep in E. unfold is_digit in D. destruct s; cbn [id_state s_incomplete s_snapshot app] in E; [discriminate|injection E as E _; lia..].
  - split; [lia|]. destruct s, s'; congruence || discriminate.
Qed.
Print Assumptions C22_distinct.

(** ** the scan of a directory *)
(** the files of a directory: id, version and state *)
Definition named (f : Z * Z * state) : list Z := let '(i, v, s) := f in id_name i v s.
Definition file_ok (f : Z * Z * state) : Prop := id64 (fst (fst f)) /\ id64 (snd (fst f)).
Definition is_part (f : Z * Z * state) : bool := let '(_, v, s) := f in (v =? 0) && match s with COMPLETE => true | _ => false end.
Definition is_object (f : Z * Z * state) : bool := let '(_, v, s) := f in negb (v =? 0) && match s with COMPLETE => true | _ => false end.
Definition is_temp_object (f : Z * Z * state) : bool := let '(_, v, s) := f in negb (v =? 0) && match s with COMPLETE => false | _ => true end.

Lemma name_head i v s : 0 <= i -> exists c r, id_name i v s = c :: r /\ (c =? 46) = false.
Proof. intros H. unfold id_name. destruct (pad_head 4 i H) as (c & r & -> & D). exists c. eexists. split; [reflexivity|now apply digit_not_dot]. Qed.
Lemma v0_temp i s : id64 i -> s <> COMPLETE -> id_of (id_name i 0 s) = None.
Proof.
  intros H Hs. unfold id_of, id_name. change (0 <? 0) with false. cbn [app].
  rewrite next_pad by (exact H || apply state_rest). destruct s; [congruence|reflexivity..].
Qed.
(** At startup exactly the complete partition files are opened, and the next number is above all of
    them.  Missing for the full property: the incomplete files, C22_leftover_refuted. *)
Theorem C22_scan_partial : forall files psn, Forall file_ok files ->
  let r := part_scan psn (map named files) in
  sc_open r = map fst (filter is_part files) /\ sc_removed r = [] /\ psn <= sc_psn r /\ (forall i, In (i, 0) (sc_open r) -> i <= sc_psn r).
Proof.
  intros files psn F. unfold part_scan.
  assert (G : forall s, (forall i, In (i, 0) (sc_open s) -> i <= sc_psn s) -> sc_removed s = [] ->
    let r := fold_left part_entry (map named files) s in
    sc_open r = sc_open s ++ map fst (filter is_part files) /\ sc_removed r = [] /\ sc_psn s <= sc_psn r /\ (forall i, In (i, 0) (sc_open r) -> i <= sc_psn r)).
  { induction files as [|[[i v] st] files IH]; intros s H1 H2; cbn [map fold_left filter].
    - rewrite app_nil_r. repeat split; auto; lia.
    - inversion F as [|? ? [Hi Hv] F']; subst. cbn [fst snd] in Hi, Hv.
      assert (E : part_entry s (named (i, v, st)) = if is_part (i, v, st) then mkscan (psn_follow (sc_psn s) i) (sc_open s ++ [(i, 0)]) (sc_removed s) else s).
      { unfold part_entry, named. destruct (name_head i v st (proj1 Hi)) as (c & r & En & Ec). rewrite En, Ec, <- En. clear r c En Ec. unfold is_part.
        destruct (Z.eqb_spec v 0) as [->|V]; cbn [andb].
        - destruct st; [rewrite C22_partial by auto; reflexivity|rewrite v0_temp by (auto; discriminate); reflexivity..].
        - unfold id64 in Hv. rewrite C22_partial by (auto; left; lia). replace (0 <? v) with true by lia. reflexivity. }
      rewrite E. specialize (IH F'). destruct (is_part (i, v, st)) eqn:P.
      + assert (v = 0) as -> by (unfold is_part in P; destruct (Z.eqb_spec v 0); [assumption|discriminate]). destruct (IH (mkscan (psn_follow (sc_psn s) i) (sc_open s ++ [(i, 0)]) (sc_removed s))) as (R1 & R2 & R3 & R4).
        * cbn [sc_open sc_psn]. intros j Hj. apply in_app_iff in Hj. unfold psn_follow. destruct Hj as [Hj|[Hj|[]]].
          -- specialize (H1 j Hj). destruct (Z.ltb_spec (sc_psn s) i); lia.
          -- injection Hj as <-. destruct (Z.ltb_spec (sc_psn s) i); lia.
        * exact H2.
        * cbn [sc_open sc_psn sc_removed] in *. rewrite <- app_assoc in R1. split; [exact R1|]. split; [exact R2|]. split; [|exact R4].
          apply Z.le_trans with (2 := R3). unfold psn_follow. destruct (Z.ltb_spec (sc_psn s) i); lia.
      + apply IH; assumption. }
  destruct (G (mkscan psn [] []) ltac:(intros i []) eq_refl) as (R1 & R2 & R3 & R4). cbv zeta. auto.
Qed.
Print Assumptions C22_scan_partial.
(** The same for the objects of a tier: exactly the complete objects are opened, exactly the
    incomplete objects and the snapshots of objects are removed, and the next number is above all *)
Theorem C22_scan_tier : forall files psn, Forall file_ok files ->
  let r := tier_scan psn (map named files) in
  sc_open r = map fst (filter is_object files) /\ sc_removed r = map named (filter is_temp_object files) /\
  psn <= sc_psn r /\ (forall i v s, In (i, v, s) files -> v <> 0 -> i <= sc_psn r).
Proof.
  intros files psn F. unfold tier_scan.
  assert (G : forall s, let r := fold_left tier_entry (map named files) s in
    sc_open r = sc_open s ++ map fst (filter is_object files) /\ sc_removed r = sc_removed s ++ map named (filter is_temp_object files) /\
    sc_psn s <= sc_psn r /\ (forall i v st, In (i, v, st) files -> v <> 0 -> i <= sc_psn r)).
  { induction files as [|[[i v] st] files IH]; intros s; cbn [map fold_left filter].
    - rewrite !app_nil_r. split; [reflexivity|]. split; [reflexivity|]. split; [lia|]. intros ? ? ? [].
    - inversion F as [|? ? [Hi Hv] F']; subst. cbn [fst snd] in Hi, Hv. specialize (IH F').
      destruct (Z.eq_dec v 0) as [->|V].
      + assert (E : tier_entry s (named (i, 0, st)) = s).
        { unfold tier_entry, named. destruct (name_head i 0 st (proj1 Hi)) as (c & r & En & Ec). rewrite En, Ec, <- En.
          destruct st; [rewrite C22_partial by auto; reflexivity|rewrite v0_temp by (auto; discriminate); reflexivity..]. }
        rewrite E. unfold is_object at 1, is_temp_object at 1. change (0 =? 0) with true. cbn [negb andb].
        destruct (IH s) as (R1 & R2 & R3 & R4). split; [exact R1|]. split; [exact R2|]. split; [exact R3|]. intros a b c [Hc|Hc] Hb; [congruence|eauto].
      + assert (E : tier_entry s (named (i, v, st)) = match st with COMPLETE => mkscan (psn_follow (sc_psn s) i) (sc_open s ++ [(i, v)]) (sc_removed s) | _ => mkscan (psn_follow (sc_psn s) i) (sc_open s) (sc_removed s ++ [id_name i v st]) end).
        { unfold tier_entry, named. destruct (name_head i v st (proj1 Hi)) as (c & r & En & Ec). rewrite En, Ec, <- En. clear r c En Ec.
          unfold id64 in Hv. rewrite C22_partial by (auto; left; lia). replace (v =? 0) with false by lia. reflexivity. }
        rewrite E. unfold is_object at 1, is_temp_object at 1. replace (v =? 0) with false by lia. cbn [negb andb].
        assert (Pf : forall r : scan, psn_follow (sc_psn s) i <= sc_psn r -> sc_psn s <= sc_psn r /\ i <= sc_psn r) by (intros r; unfold psn_follow; destruct (Z.ltb_spec (sc_psn s) i); lia).
        destruct st; cbn [map]; match goal with |- context [fold_left tier_entry _ ?x] => destruct (IH x) as (R1 & R2 & R3 & R4) end;
          cbn [sc_open sc_psn sc_removed] in *; rewrite <- ?app_assoc in *; apply Pf in R3; (split; [exact R1|]; split; [exact R2|]; split; [lia|]; intros a b c [Hc|Hc] Hb; [inversion Hc; subst; lia|eauto]). }
  destruct (G (mkscan psn [] [])) as (R1 & R2 & R3 & R4). cbv zeta. auto.
Qed.
Print Assumptions C22_scan_tier.

(** The name of an incomplete partition file does not decode *)
Theorem C22_refuted : id_name 7 0 INCOMPLETE = [48; 48; 48; 48; 55] ++ s_incomplete /\ id_of (id_name 7 0 INCOMPLETE) = None /\ id_of (id_name 7 0 SNAPSHOT) = None.
Proof. repeat split; reflexivity. Qed.
Print Assumptions C22_refuted.
(** so the incomplete file that a crash leaves is never removed, and its number is given again: after
    a crash while 00002.incomplete was written, the next file of the volume cannot be created *)
Theorem C22_leftover_refuted : let dir := map named [(1, 0, COMPLETE); (2, 0, INCOMPLETE)] in
  let r := part_scan 0 dir in sc_removed r = [] /\ create_fails dir (id_name (fst (psn_next (sc_psn r))) 0 INCOMPLETE).
Proof. split; [reflexivity|]. right. left. reflexivity. Qed.
Print Assumptions C22_leftover_refuted.

Example C22_nonvacuous : id64 123456 /\ id_name 123456 3 SNAPSHOT = [49; 50; 51; 52; 53; 54; 46; 48; 51] ++ s_snapshot /\
  id_of (id_name 123456 3 SNAPSHOT) = Some (123456, 3, SNAPSHOT) /\
  part_scan 2 (map named [(5, 0, COMPLETE); (1, 0, COMPLETE); (9, 1, COMPLETE); (4, 0, INCOMPLETE)]) = mkscan 5 [(5, 0); (1, 0)] [].
Proof. split; [unfold id64; lia|]. repeat split; reflexivity. Qed.

(** ** any names in the directory, also ones the server did not give *)
Lemma next_range name : forall id i r, id64 id -> id_of_next name id = Some (i, r) -> id64 i.
Proof.
  induction name as [|c name IH]; intros id i r H E; cbn [id_of_next] in E; [injection E as <- _; exact H|].
  destruct (c =? 46); [injection E as <- _; exact H|]. destruct (is_digit c) eqn:D; [|discriminate].
  destruct (id * 10 <=? 9223372036854775807) eqn:E1; [|discriminate]. destruct (id * 10 + (c - 48) <=? 9223372036854775807) eqn:E2; [|discriminate].
  cbn [andb] in E. apply (IH _ _ _) in E; [exact E|]. unfold id64, is_digit in *. lia.
Qed.
(** a number that does not fit is refused, it never comes out as another one *)
Theorem C22_in_range : forall name i v s, id_of name = Some (i, v, s) -> id64 i /\ id64 v.
Proof.
  intros name i v s H. unfold id_of in H. assert (id64 0) as Z0 by (unfold id64; lia).
  destruct (id_of_next name 0) as [[id [|d r]]|] eqn:E; [| |discriminate]; apply next_range in E; auto; [injection H as <- <- _; auto|].
  destruct r as [|c r]; [discriminate|]. destruct (is_digit c).
  - destruct (id_of_next (c :: r) 0) as [[w r']|] eqn:E'; [|discriminate]. apply next_range in E'; auto.
    destruct r'; [injection H as <- <- _; auto|]. destruct (id_state_of _); [|discriminate]. injection H as <- <- _. auto.
  - destruct (id_state_of _); [|discriminate]. injection H as <- <- _. auto.
Qed.
Print Assumptions C22_in_range.
(** what is opened as a partition or an object has the name of a complete file *)
Theorem C22_only_complete : forall dir psn,
  (forall i v, In (i, v) (sc_open (part_scan psn dir)) -> v = 0 /\ exists name, In name dir /\ id_of name = Some (i, v, COMPLETE)) /\
  (forall i v, In (i, v) (sc_open (tier_scan psn dir)) -> v <> 0 /\ exists name, In name dir /\ id_of name = Some (i, v, COMPLETE)).
Proof.
  intros dir psn. split.
  - unfold part_scan. assert (forall dir s i v, In (i, v) (sc_open (fold_left part_entry dir s)) -> In (i, v) (sc_open s) \/ (v = 0 /\ exists name, In name dir /\ id_of name = Some (i, v, COMPLETE))) as G.
    { clear. induction dir as [|a dir IH]; intros s i v H; cbn [fold_left] in H; [now left|]. apply IH in H as [H|(V & n & Hn & E)]; [|right; split; [exact V|exists n; split; [now right|exact E]]].
      unfold part_entry in H. destruct a as [|c r]; [now left|]. destruct (c =? 46); [now left|]. destruct (id_of (c :: r)) as [[[p w] st]|] eqn:E; [|now left].
      destruct (0 <? w) eqn:W; [now left|]. destruct st; cbn [sc_open] in H; [|now left..]. apply in_app_or in H as [H|[H|[]]]; [now left|].
      injection H as <- <-. pose proof (proj2 (C22_in_range _ _ _ _ E)) as R. assert (w = 0) as -> by (unfold id64 in R; lia). right. split; [reflexivity|]. exists (c :: r). split; [now left|exact E]. }
    intros i v H. apply G in H as [[]|H]. exact H.
  - unfold tier_scan. assert (forall dir s i v, In (i, v) (sc_open (fold_left tier_entry dir s)) -> In (i, v) (sc_open s) \/ (v <> 0 /\ exists name, In name dir /\ id_of name = Some (i, v, COMPLETE))) as G.
    { clear. induction dir as [|a dir IH]; intros s i v H; cbn [fold_left] in H; [now left|]. apply IH in H as [H|(V & n & Hn & E)]; [|right; split; [exact V|exists n; split; [now right|exact E]]].
      unfold tier_entry in H. destruct a as [|c r]; [now left|]. destruct (c =? 46); [now left|]. destruct (id_of (c :: r)) as [[[p w] st]|] eqn:E; [|now left].
      destruct (w =? 0) eqn:W; [now left|]. destruct st; cbn [sc_open] in H; [|now left..]. apply in_app_or in H as [H|[H|[]]]; [now left|].
      injection H as <- <-. right. split; [lia|]. exists (c :: r). split; [now left|exact E]. }
    intros i v H. apply G in H as [[]|H]. exact H.
Qed.
Print Assumptions C22_only_complete.
Example C22_names_nonvacuous : id_of [57; 50; 50; 51; 51; 55; 50; 48; 51; 54; 56; 53; 52; 55; 55; 53; 56; 48; 56] = None /\
  sc_open (part_scan 0 [[53]; [53; 46; 48; 46; 115; 110; 97; 112; 115; 104; 111; 116]; [54; 46; 48; 49]]) = [(5, 0)] /\
  sc_open (tier_scan 0 [[53]; [53; 46; 48; 46; 115; 110; 97; 112; 115; 104; 111; 116]; [54; 46; 48; 49]]) = [(6, 1)].
Proof. repeat split; reflexivity. Qed.
