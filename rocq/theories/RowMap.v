(** Proofs about the mapping of hash values to partitions. *)
From Coq Require Import Permutation.
From Verif Require Import Base JsonModel JsonSpec.
From Verif Require Import RowModel RowSpec RowProofs.

Lemma map_set_ok m : forall i v, (i < length m)%nat -> exists m', map_set m i v = Ok m' /\ length m' = length m /\ forall j, nth j m' None = if Nat.eqb j i then v else nth j m None.
Proof.
  induction m as [|x m IH]; intros [|i] v H; cbn [length] in H; try lia.
  - exists (v :: m). split; [reflexivity|]. split; [reflexivity|]. intros [|j]; reflexivity.
  - destruct (IH i v ltac:(lia)) as (m' & E & L & F). exists (x :: m'). cbn [map_set]. rewrite E. split; [reflexivity|]. split; [cbn; lia|]. intros [|j]; cbn [nth Nat.eqb]; [reflexivity|apply F].
Qed.
Lemma map_range_ok v : forall fuel m min max, 0 <= min -> max <= Z.of_nat (length m) -> max - min <= Z.of_nat fuel ->
  exists m', map_range m fuel min max v = Ok m' /\ length m' = length m /\ forall j, nth j m' None = if (min <=? Z.of_nat j) && (Z.of_nat j <? max) then v else nth j m None.
Proof.
  induction fuel as [|fuel IH]; intros m min max H1 H2 H3; cbn [map_range].
  - exists m. split; [reflexivity|]. split; [reflexivity|]. intros j. replace ((min <=? Z.of_nat j) && (Z.of_nat j <? max)) with false by lia. reflexivity.
  - destruct (Z.ltb_spec min max) as [L|L].
    + destruct (map_set_ok m (Z.to_nat min) v ltac:(lia)) as (m1 & E1 & L1 & F1). rewrite E1. cbn [bind]. destruct (IH m1 (min + 1) max ltac:(lia) ltac:(lia) ltac:(lia)) as (m2 & E2 & L2 & F2).
      exists m2. split; [exact E2|]. split; [lia|]. intros j. rewrite F2, F1. destruct (Nat.eqb_spec j (Z.to_nat min)) as [->|N].
      * replace ((min + 1 <=? Z.of_nat (Z.to_nat min)) && (Z.of_nat (Z.to_nat min) <? max)) with false by lia. replace ((min <=? Z.of_nat (Z.to_nat min)) && (Z.of_nat (Z.to_nat min) <? max)) with true by lia. reflexivity.
      * replace ((min + 1 <=? Z.of_nat j) && (Z.of_nat j <? max)) with ((min <=? Z.of_nat j) && (Z.of_nat j <? max)) by lia. reflexivity.
    + exists m. split; [reflexivity|]. split; [reflexivity|]. intros j. replace ((min <=? Z.of_nat j) && (Z.of_nat j <? max)) with false by lia. reflexivity.
Qed.
Definition inside (p : part) (z : Z) : Prop := p_min p <= z < p_max p.
Definition part_ok (p : part) : Prop := 0 <= p_min p /\ p_max p <= PART_MAPPING_MAX.
Lemma map_parts_ok l : forall m, length m = Z.to_nat PART_MAPPING_MAX -> Forall part_ok l -> exists m', map_parts m l = Ok m' /\ length m' = length m /\
  forall j, (forall p, In p l -> inside p (Z.of_nat j) -> (forall q, In q l -> inside q (Z.of_nat j) -> q = p) -> nth j m' None = Some p) /\
            ((forall p, In p l -> ~ inside p (Z.of_nat j)) -> nth j m' None = nth j m None).
Proof.
  induction l as [|p l IH]; intros m Lm Hp; cbn [map_parts].
  - exists m. split; [reflexivity|]. split; [reflexivity|]. intros j. split; [intros p []|reflexivity].
  - inversion Hp as [|? ? [P1 P2] Hp']; subst. unfold part_mapping_add. assert (Lz : Z.of_nat (length m) = PART_MAPPING_MAX) by (rewrite Lm; reflexivity).
    destruct (map_range_ok (Some p) (Z.to_nat (p_max p - p_min p)) m (p_min p) (p_max p) P1 ltac:(lia) ltac:(lia)) as (m1 & E1 & L1 & F1). rewrite E1. cbn [bind].
    destruct (IH m1 ltac:(lia) Hp') as (m2 & E2 & L2 & F2). exists m2. split; [exact E2|]. split; [lia|]. intros j. destruct (F2 j) as [G1 G2]. split.
    + intros q Hq Iq U. assert (Dec : (exists r, In r l /\ inside r (Z.of_nat j)) \/ (forall r, In r l -> ~ inside r (Z.of_nat j))).
      { clear. induction l as [|x l IH]; [right; intros r []|]. destruct IH as [(r & Hr & Ir)|N]; [left; exists r; split; [now right|exact Ir]|].
        destruct (Z_le_dec (p_min x) (Z.of_nat j)) as [A|A]; [destruct (Z_lt_dec (Z.of_nat j) (p_max x)) as [B|B]|].
        - left. exists x. split; [now left|split; assumption].
        - right. intros r [<-|Hr]; [intros [_ ?]; contradiction|now apply N].
        - right. intros r [<-|Hr]; [intros [? _]; contradiction|now apply N]. }
      destruct Dec as [(r & Hr & Ir)|N].
      * pose proof (U r (or_intror Hr) Ir) as ->. apply G1; [exact Hr|exact Ir|]. intros q' Hq' Iq'. apply U; [now right|exact Iq'].
      * destruct Hq as [->|Hq]; [|now destruct (N q Hq)]. rewrite (G2 N), F1. unfold inside in Iq. replace ((p_min q <=? Z.of_nat j) && (Z.of_nat j <? p_max q)) with true by lia. reflexivity.
    + intros N. rewrite (G2 (fun r Hr => N r (or_intror Hr))), F1. pose proof (N p (or_introl eq_refl)) as Np. unfold inside in Np. replace ((p_min p <=? Z.of_nat j) && (Z.of_nat j <? p_max p)) with false by lia. reflexivity.
Qed.
(** the ranges of a new table *)
Definition pieces (count : Z) (p : part) : Prop :=
  0 <= p_id p < count /\ p_min p = p_id p * (PART_MAPPING_MAX / count) /\ p_max p = (if p_id p =? count - 1 then PART_MAPPING_MAX else (p_id p + 1) * (PART_MAPPING_MAX / count)).
Lemma interval_bound count : 1 <= count <= PART_MAPPING_MAX -> 1 <= PART_MAPPING_MAX / count /\ count * (PART_MAPPING_MAX / count) <= PART_MAPPING_MAX.
Proof. intros H. split; [apply Z.div_le_lower_bound; lia|]. apply Z.mul_div_le. lia. Qed.
Lemma create_loop_ok count : 1 <= count <= PART_MAPPING_MAX -> forall fuel order, 0 <= order -> order + Z.of_nat fuel = count ->
  let l := part_create_loop fuel order count (order * (PART_MAPPING_MAX / count)) in
  Forall (pieces count) l /\ map p_id l = map (fun i => order + Z.of_nat i) (seq 0 fuel).
Proof.
  intros Hc. destruct (interval_bound count Hc) as [I1 I2]. set (iv := PART_MAPPING_MAX / count) in *. induction fuel as [|fuel IH]; intros order H0 H; cbv zeta; cbn [part_create_loop]; fold iv; [split; constructor|].
  assert (LE : (order + 1) * iv <= PART_MAPPING_MAX) by nia.
  assert (St : (if PART_MAPPING_MAX <? order * iv + (if order =? count - 1 then PART_MAPPING_MAX - order * iv else iv) then PART_MAPPING_MAX - order * iv else if order =? count - 1 then PART_MAPPING_MAX - order * iv else iv) = (if order =? count - 1 then PART_MAPPING_MAX - order * iv else iv)).
  { destruct (order =? count - 1); [destruct (Z.ltb_spec PART_MAPPING_MAX (order * iv + (PART_MAPPING_MAX - order * iv))); lia|]. destruct (Z.ltb_spec PART_MAPPING_MAX (order * iv + iv)); lia. }
  rewrite St. split.
  - constructor.
    + unfold pieces. cbn [p_id p_min p_max]. fold iv. split; [lia|]. split; [reflexivity|]. destruct (order =? count - 1); lia.
    + destruct (Z.eqb_spec order (count - 1)) as [E|N]; [replace fuel with 0%nat by lia; constructor|]. replace (order * iv + iv) with ((order + 1) * iv) by lia. apply IH; lia.
  - cbn [map p_id seq]. f_equal; [lia|]. rewrite <- seq_shift, map_map. destruct (Z.eqb_spec order (count - 1)) as [E|N]; [replace fuel with 0%nat by lia; reflexivity|].
    replace (order * iv + iv) with ((order + 1) * iv) by lia. destruct (IH (order + 1) ltac:(lia) ltac:(lia)) as [_ ->]. apply map_ext. intros; lia.
Qed.
Lemma pieces_inj count p q : pieces count p -> pieces count q -> p_id p = p_id q -> p = q.
Proof. intros (_ & A & B) (_ & C & D) E. destruct p as [i1 a1 b1], q as [i2 a2 b2]. cbn [p_id p_min p_max] in *. rewrite E in *. congruence. Qed.
Lemma pieces_ok count p : 1 <= count <= PART_MAPPING_MAX -> pieces count p -> part_ok p /\ p_min p < p_max p.
Proof.
  intros Hc (H & A & B). destruct (interval_bound count Hc) as [I1 I2]. unfold part_ok. rewrite A, B. set (iv := PART_MAPPING_MAX / count) in *. clearbody iv. destruct (Z.eqb_spec (p_id p) (count - 1)); [|split; [split|]; nia]. split; [split|]; [nia|lia|nia].
Qed.
Lemma pieces_disjoint count p q z : 1 <= count <= PART_MAPPING_MAX -> pieces count p -> pieces count q -> inside p z -> inside q z -> p = q.
Proof.
  intros Hc Hp Hq Ip Iq. apply (pieces_inj count p q Hp Hq). destruct Hp as (P & A & B), Hq as (Q & C & D). destruct (interval_bound count Hc) as [I1 I2]. unfold inside in *. rewrite A, B, C, D in *.
  set (iv := PART_MAPPING_MAX / count) in *. clearbody iv. destruct (Z.eqb_spec (p_id p) (count - 1)), (Z.eqb_spec (p_id q) (count - 1)); nia.
Qed.
Lemma pieces_cover count z : 1 <= count <= PART_MAPPING_MAX -> 0 <= z < PART_MAPPING_MAX -> exists p, In p (part_create_loop (Z.to_nat count) 0 count 0) /\ inside p z.
Proof.
  intros Hc Hz. destruct (interval_bound count Hc) as [I1 I2]. pose proof (create_loop_ok count Hc (Z.to_nat count) 0 ltac:(lia) ltac:(lia)) as [F M]. cbv zeta in *. rewrite Z.mul_0_l in *.
  set (l := part_create_loop _ _ _ _) in *. set (iv := PART_MAPPING_MAX / count) in *. set (o := Z.min (z / iv) (count - 1)).
  assert (O : 0 <= o < count) by (pose proof (Z.div_pos z iv ltac:(lia) ltac:(lia)); lia).
  assert (Hin : In o (map p_id l)) by (rewrite M; apply in_map_iff; exists (Z.to_nat o); split; [lia|apply in_seq; lia]).
  apply in_map_iff in Hin as (p & Ep & Hp). exists p. split; [exact Hp|]. rewrite Forall_forall in F. destruct (F p Hp) as (_ & A & B). unfold inside. rewrite A, B, Ep. fold iv.
  pose proof (Z.div_mod z iv ltac:(lia)) as DM. pose proof (Z.mod_pos_bound z iv ltac:(lia)) as MB. subst o. destruct (Z.eqb_spec (Z.min (z / iv) (count - 1)) (count - 1)); [split; [|lia]|]; nia.
Qed.
