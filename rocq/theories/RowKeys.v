(** Proofs about keys: comparison, search keys, hashing. *)
From Coq Require Import Permutation.
From Verif Require Import Base OrderLib JsonModel JsonSpec JsonProofs JsonOrder.
From Verif Require Import RowModel RowSpec RowProofs.

(** ** the order of values *)
Definition code (v : dval) : list Z := match v with DInt z => [z] | DString s => s | DUuid a b => [a; b] | _ => [] end.
Lemma bytes_order_lex a b : bytes_order a b = lexZ a b.
Proof. reflexivity. Qed.
Lemma val_order_code c a b : key_col c -> holds c a -> holds c b -> val_order a b = lexZ (code a) (code b).
Proof.
  unfold key_col, holds. destruct (c_type c), a, b; try contradiction; intros _ _ _; cbn [val_order code]; try apply bytes_order_lex; unfold lexZ; cbn [lex]; repeat (destruct (_ ?= _)); reflexivity.
Qed.
Lemma code_inj c a b : key_col c -> holds c a -> holds c b -> code a = code b -> a = b.
Proof. unfold key_col, holds. destruct (c_type c), a, b; try contradiction; intros _ _ _; cbn [code]; congruence. Qed.

(** a row whose key columns have values *)
Definition keyed (cols : list column) (ks : keys) (vs : list dval) : Prop :=
  forall k, In k ks -> exists c v, nth_error cols k = Some c /\ key_col c /\ nth_error vs k = Some v /\ holds c v.
Definition codes (ks : keys) (vs : list dval) : list (list Z) := map (fun k => code (nth k vs DNull)) ks.
Lemma keyed_cons cols k ks vs : keyed cols (k :: ks) vs -> keyed cols ks vs.
Proof. intros H j Hj. apply H. now right. Qed.
Lemma key_order_codes cols ks va vb : keyed cols ks va -> keyed cols ks vb -> key_order_of ks va vb = lexZZ (codes ks va) (codes ks vb).
Proof.
  intros Ha Hb. induction ks as [|k ks IH]; [reflexivity|]. unfold lexZZ in *. cbn [key_order_of codes map lex].
  destruct (Ha k (or_introl eq_refl)) as (c & v & Ec & Kc & Ev & Hv). destruct (Hb k (or_introl eq_refl)) as (c' & v' & Ec' & _ & Ev' & Hv'). rewrite Ec in Ec'. injection Ec' as <-.
  rewrite (nth_error_nth _ _ DNull Ev), (nth_error_nth _ _ DNull Ev'). rewrite (val_order_code c v v' Kc Hv Hv'). destruct (lexZ (code v) (code v')); try reflexivity. apply IH; eapply keyed_cons; eassumption.
Qed.
Lemma codes_eq cols ks va vb : keyed cols ks va -> keyed cols ks vb -> codes ks va = codes ks vb -> forall k, In k ks -> nth k va DNull = nth k vb DNull.
Proof.
  intros Ha Hb E k Hk. destruct (Ha k Hk) as (c & v & Ec & Kc & Ev & Hv). destruct (Hb k Hk) as (c' & v' & Ec' & _ & Ev' & Hv'). rewrite Ec in Ec'. injection Ec' as <-.
  rewrite (nth_error_nth _ _ DNull Ev), (nth_error_nth _ _ DNull Ev'). apply (code_inj c v v' Kc Hv Hv').
  assert (X : code (nth k va DNull) = code (nth k vb DNull)). { clear -E Hk. unfold codes in E. induction ks as [|j ks IH]; [contradiction|]. cbn [map] in E. destruct Hk as [-> |Hk]; [congruence|]. apply IH; [congruence|exact Hk]. }
  now rewrite (nth_error_nth _ _ DNull Ev), (nth_error_nth _ _ DNull Ev') in X.
Qed.

(** ** compare *)
Lemma row_cell cols vs row k c v : Row cols vs row -> nth_error cols k = Some c -> nth_error vs k = Some v -> v <> DNull ->
  exists bs rest, cell row k = Ok (bs ++ rest) /\ kept c v bs.
Proof.
  intros HR Hc Hv N. destruct (row_src cols vs row HR k c v Hc Hv) as [[-> _]|(bs & off & rest & K & R & T)]; [congruence|]. cbn [Nat.add] in R.
  exists bs, rest. unfold cell. rewrite R. cbn [bind]. auto.
Qed.
Lemma holds_not_null c v : holds c v -> v <> DNull.
Proof. intros H ->. unfold holds in H. destruct (c_type c); exact H. Qed.
Lemma sgn_cmp3 a b : Z.sgn (cmp3 a b) = sign (a ?= b) /\ (cmp3 a b =? 0) = match a ?= b with Eq => true | _ => false end.
Proof. unfold cmp3. destruct (Z.compare_spec a b) as [H|H|H]; cbn [sign]; destruct (Z.ltb_spec b a), (Z.ltb_spec a b); cbn; split; try reflexivity; lia. Qed.
Lemma key_values c v bs rest : key_col c -> holds c v -> stored c v bs ->
  (c_size c = 8 -> exists x r, rd_n 8 (bs ++ rest) = Ok (x, r) /\ v = DInt (sx 8 (le_dec x))) /\
  (c_size c = 4 -> exists x r, rd_n 4 (bs ++ rest) = Ok (x, r) /\ v = DInt (sx 4 (le_dec x))) /\
  (c_size c = 16 -> exists x r y r', rd_n 8 (bs ++ rest) = Ok (x, r) /\ rd_n 8 r = Ok (y, r') /\ v = DUuid (le_dec x) (le_dec y)) /\
  (c_size c = 0 -> exists s r, json_read_raw (bs ++ rest) = Ok (s, r) /\ v = DString s).
Proof.
  intros K H (_ & _ & R). destruct (R rest) as [C _]. unfold cell_read in C. unfold key_col in K. destruct (c_type c); try contradiction.
  - destruct K as [K|K]; rewrite K in *; cbn [Z.eqb Pos.eqb] in C; (repeat split; intros S; try discriminate).
    + destruct (rd_n 4 (bs ++ rest)) as [[x r]| |]; try discriminate. cbn [bind] in C. exists x, r. split; [reflexivity|]. congruence.
    + destruct (rd_n 8 (bs ++ rest)) as [[x r]| |]; try discriminate. cbn [bind] in C. exists x, r. split; [reflexivity|]. congruence.
  - rewrite K. repeat split; intros S; try discriminate. destruct (json_read_raw (bs ++ rest)) as [[x r]| |]; try discriminate. cbn [bind] in C. exists x, r. split; [reflexivity|]. congruence.
  - rewrite K. repeat split; intros S; try discriminate. destruct (rd_n 8 (bs ++ rest)) as [[x r]| |]; try discriminate. cbn [bind] in C. exists x, r. split; [reflexivity|]. congruence.
  - rewrite K. repeat split; intros S; try discriminate. destruct (rd_n 8 (bs ++ rest)) as [[x r]| |]; try discriminate. cbn [bind] in C. destruct (rd_n 8 r) as [[y r']| |] eqn:E; try discriminate. cbn [bind] in C.
    exists x, r, y, r'. split; [reflexivity|]. split; [exact E|]. congruence.
Qed.
Lemma key_sizes c : key_col c -> c_size c = 8 \/ c_size c = 4 \/ c_size c = 16 \/ c_size c = 0.
Proof. unfold key_col. destruct (c_type c); intros; tauto. Qed.
Lemma compare_sgn mag : memcmp_ok mag -> forall cols ks va vb a b, Row cols va a -> Row cols vb b -> keyed cols ks va -> keyed cols ks vb ->
  exists r, compare mag cols ks a b = Ok r /\ Z.sgn r = sign (key_order_of ks va vb).
Proof.
  intros Hm cols ks va vb a b Ra Rb Ha Hb. induction ks as [|k ks IH]; [exists 0; split; reflexivity|]. cbn [compare key_order_of].
  destruct (Ha k (or_introl eq_refl)) as (c & v & Ec & Kc & Ev & Hv). destruct (Hb k (or_introl eq_refl)) as (c' & v' & Ec' & _ & Ev' & Hv'). rewrite Ec in Ec'. injection Ec' as <-.
  rewrite Ec. cbn [bind]. rewrite (nth_error_nth _ _ DNull Ev), (nth_error_nth _ _ DNull Ev').
  destruct (row_cell cols va a k c v Ra Ec Ev (holds_not_null c v Hv)) as (bs & rest & Ca & (Sa & _)). destruct (row_cell cols vb b k c v' Rb Ec Ev' (holds_not_null c v' Hv')) as (bs' & rest' & Cb & (Sb & _)).
  rewrite Ca, Cb. cbn [bind]. destruct (key_values c v bs rest Kc Hv Sa) as (A8 & A4 & A16 & A0). destruct (key_values c v' bs' rest' Kc Hv' Sb) as (B8 & B4 & B16 & B0).
  destruct (IH (keyed_cons _ _ _ _ Ha) (keyed_cons _ _ _ _ Hb)) as (r & Er & Sr).
  destruct (key_sizes c Kc) as [S|[S|[S|S]]]; rewrite S; cbn [Z.eqb Pos.eqb].
  - destruct (A8 S) as (x & t & -> & ->). destruct (B8 S) as (y & t' & -> & ->). cbn [bind val_order]. destruct (sgn_cmp3 (sx 8 (le_dec x)) (sx 8 (le_dec y))) as [G Z0]. rewrite Z0. destruct (sx 8 (le_dec x) ?= sx 8 (le_dec y)); eauto.
  - destruct (A4 S) as (x & t & -> & ->). destruct (B4 S) as (y & t' & -> & ->). cbn [bind val_order]. destruct (sgn_cmp3 (sx 4 (le_dec x)) (sx 4 (le_dec y))) as [G Z0]. rewrite Z0. destruct (sx 4 (le_dec x) ?= sx 4 (le_dec y)); eauto.
  - destruct (A16 S) as (x & t & x' & t1 & E1 & E2 & ->). destruct (B16 S) as (y & t' & y' & t2 & E3 & E4 & ->). rewrite E1. cbn [bind]. rewrite E2. cbn [bind]. rewrite E3. cbn [bind]. rewrite E4. cbn [bind val_order].
    destruct (sgn_cmp3 (le_dec x) (le_dec y)) as [G Z0]. rewrite Z0. destruct (sgn_cmp3 (le_dec x') (le_dec y')) as [G' Z0'].
    destruct (le_dec x ?= le_dec y); try (rewrite Z0; eauto). rewrite Z0'. destruct (le_dec x' ?= le_dec y'); eauto.
  - destruct (A0 S) as (x & t & -> & ->). destruct (B0 S) as (y & t' & -> & ->). cbn [bind val_order]. pose proof (str_compare_sgn mag Hm x y) as G. rewrite bytes_order_lex.
    destruct (Z.eqb_spec (str_compare_fn mag x y) 0) as [E|E].
    + rewrite E in G. destruct (lexZ x y); try discriminate. eauto.
    + exists (str_compare_fn mag x y). split; [reflexivity|]. rewrite G. destruct (lexZ x y) eqn:L; try reflexivity. cbn in G. lia.
Qed.

(** ** search keys *)
Definition kv (c : column) (v : option dval) : dval := match v with Some d => d | None => least c end.
Lemma key_col_ok c : key_col c -> col_ok c.
Proof. unfold key_col, col_ok. destruct (c_type c); tauto. Qed.
Lemma least_holds c : key_col c -> holds c (least c).
Proof.
  unfold key_col, holds, least. destruct (c_type c); try contradiction; intros H; try reflexivity.
  - destruct H as [-> | ->]; unfold signed; lia.
  - rewrite H. unfold signed. lia.
  - lia.
Qed.
Lemma key_bytes_least c : key_col c -> key_bytes c None = key_bytes c (Some (least c)).
Proof. unfold key_col, key_bytes, least. destruct (c_type c); try contradiction; try (intros [-> | ->]; reflexivity); try (intros ->; reflexivity); intros _; reflexivity. Qed.
Lemma key_bytes_ok c v : key_col c -> (forall d, v = Some d -> holds c d) -> exists bs, key_bytes c v = Ok bs /\ kept c (kv c v) bs.
Proof.
  intros K H. assert (G : forall d, holds c d -> exists bs, key_bytes c (Some d) = Ok bs /\ kept c d bs).
  { intros d Hd. destruct (encode_ok c d (key_col_ok c K) Hd) as (bs & E & _ & St & W). exists bs. split; [|split; [exact St|split; [exact W|split; [apply (holds_not_null c d Hd)|exact E]]]].
    unfold encode1, value_data_encode in E. cbn [c_type c_size c_identity c_not_null] in E. unfold key_col in K. unfold holds in Hd. unfold key_bytes. destruct (c_type c); try contradiction.
    - destruct d; try contradiction. destruct K as [K|K]; rewrite K in *; cbn [deref bind Z.eqb Pos.eqb] in *; congruence.
    - destruct d; try contradiction. cbn [deref bind] in E. congruence.
    - destruct d; try contradiction. rewrite K in *. cbn [deref bind Z.eqb Pos.eqb] in *; congruence.
    - destruct d; try contradiction. rewrite K in *. cbn [deref bind Z.eqb Pos.eqb] in *; congruence. }
  destruct v as [d|]; [apply (G d (H d eq_refl))|]. rewrite (key_bytes_least c K). apply (G _ (least_holds c K)).
Qed.
(** the writes of the loop, the offset first *)
Fixpoint build2 (row : list Z) (pos i : Z) (l : cells) : res (list Z) :=
  match l with
  | [] => Ok row
  | Some bs :: r => do row1 <- row_set row i pos; do row2 <- poke row1 pos bs; build2 row2 (pos + zlen bs) (i + 1) r
  | None :: r => do row2 <- row_set row i 0; build2 row2 pos (i + 1) r
  end.
Lemma build2_ok l : forall h t J D K f i pos, 0 <= h < 256 -> h mod 4 = f -> zlen (h :: t) = 3 + Z.of_nat (width f) * (1 + i) ->
  length J = (width f * length l)%nat -> length K = length (cdata l) -> pos = zlen ((h :: t) ++ J ++ D) ->
  build2 ((h :: t) ++ J ++ D ++ K) pos i l = Ok ((h :: t) ++ idx (width f) (offs pos l) ++ D ++ cdata l).
Proof.
  induction l as [|c l IH]; intros h t J D K f i pos Hb Hf Hl Hj Hk Hp.
  - cbn [length] in Hj. rewrite Nat.mul_0_r in Hj. apply length_zero_iff_nil in Hj. apply length_zero_iff_nil in Hk. subst J K. cbn [build2 offs idx flat_map cdata]. reflexivity.
  - cbn [length] in Hj. destruct (split_len J (width f) (width f * length l)) as (J1 & J2 & -> & HJ1 & HJ2); [lia|].
    destruct c as [bs|]; cbn [build2 offs cdata flat_map] in *; fold (cdata l) in *.
    + rewrite app_length in Hk. destruct (split_len K (length bs) (length (cdata l))) as (K1 & K2 & -> & HK1 & HK2); [lia|].
      rewrite <- app_assoc. rewrite (set_slot h t J1 J2 _ f i pos Hb Hf Hl HJ1). cbn [bind].
      replace ((h :: t) ++ le_enc (width f) pos ++ J2 ++ D ++ K1 ++ K2) with (((h :: t) ++ le_enc (width f) pos ++ J2) ++ D ++ K1 ++ K2) by now rewrite <- !app_assoc.
      rewrite (put_data _ D (K1 ++ K2) bs pos) with (K1 := K1) (K2 := K2); [|rewrite !zlen_app, zlen_enc, Hp, !zlen_app; assert (zlen J1 = Z.of_nat (width f)) by (unfold zlen; now rewrite HJ1); lia|reflexivity|exact HK1]. cbn [bind].
      replace (((h :: t) ++ le_enc (width f) pos ++ J2) ++ (D ++ bs) ++ K2) with ((h :: t ++ le_enc (width f) pos) ++ J2 ++ (D ++ bs) ++ K2) by (cbn [app]; now rewrite <- !app_assoc).
      rewrite (IH h (t ++ le_enc (width f) pos) J2 (D ++ bs) K2 f (i + 1) (pos + zlen bs) Hb Hf).
      * f_equal. unfold idx. cbn [app flat_map]. now rewrite <- !app_assoc.
      * rewrite app_comm_cons, zlen_app, Hl, zlen_enc. lia.
      * exact HJ2.
      * exact HK2.
      * rewrite Hp. rewrite app_comm_cons, !zlen_app, zlen_enc. unfold zlen at 2. rewrite HJ1. lia.
    + rewrite <- app_assoc. rewrite (set_slot h t J1 J2 _ f i 0 Hb Hf Hl HJ1). cbn [bind].
      replace ((h :: t) ++ le_enc (width f) 0 ++ J2 ++ D ++ K) with ((h :: t ++ le_enc (width f) 0) ++ J2 ++ D ++ K) by (cbn [app]; now rewrite <- !app_assoc).
      rewrite (IH h (t ++ le_enc (width f) 0) J2 D K f (i + 1) pos Hb Hf).
      * f_equal. unfold idx. cbn [app flat_map]. now rewrite <- !app_assoc.
      * rewrite app_comm_cons, zlen_app, Hl, zlen_enc. lia.
      * exact HJ2.
      * exact Hk.
      * rewrite Hp. rewrite app_comm_cons, !zlen_app, zlen_enc. unfold zlen at 2. rewrite HJ1. lia.
Qed.
Lemma create_layout2 mem l : heap_ok mem -> Z.of_nat (length l) <= 65535 -> 3 + zlen (cdata l) + 4 * (1 + Z.of_nat (length l)) <= INT32_MAX ->
  exists row0 pos row, row_allocate mem (Z.of_nat (length l)) (zlen (cdata l)) = Ok row0 /\ row_data row0 (Z.of_nat (length l)) = Ok pos /\
    build2 row0 pos 0 l = Ok row /\ Layout l row.
Proof.
  intros Hm Hn Hb. destruct (allocate_ok mem (Z.of_nat (length l)) (zlen (cdata l)) Hm ltac:(lia) (zlen_nonneg _) Hb) as (f & rest & Hf & Hs & Ea & Lr).
  set (n := Z.of_nat (length l)) in *. set (size := 3 + Z.of_nat (width f) * (1 + n) + zlen (cdata l)) in *.
  set (t := [n mod 256; n / 256] ++ le_enc (width f) size). assert (Hh : 0 <= f < 256) by lia. assert (Hm4 : f mod 4 = f) by (destruct Hf as [-> |[-> | ->]]; reflexivity).
  assert (Ht : zlen (f :: t) = 3 + Z.of_nat (width f)) by (change (f :: t) with ([f; n mod 256; n / 256] ++ le_enc (width f) size); rewrite zlen_app, zlen_enc; unfold zlen; cbn [length]; lia).
  destruct (split_len rest (width f * length l) (length (cdata l))) as (J & K & -> & LJ & LK). { unfold zlen in Lr. subst n. lia. }
  exists ((f :: t) ++ J ++ K), (3 + Z.of_nat (width f) * (1 + n)), ((f :: t) ++ idx (width f) (offs (3 + Z.of_nat (width f) * (1 + n)) l) ++ cdata l).
  split; [exact Ea|]. split.
  - unfold row_data. rewrite <- app_comm_cons, factor_head by exact Hh. cbn [bind]. rewrite Hm4, width_factor by exact Hf. f_equal. lia.
  - split.
    + apply (build2_ok l f t J [] K f 0 (3 + Z.of_nat (width f) * (1 + n)) Hh Hm4).
      * rewrite Ht. lia.
      * exact LJ.
      * exact LK.
      * rewrite app_nil_r, zlen_app, Ht. unfold zlen. rewrite LJ. subst n. lia.
    + exists f. cbv zeta. fold n. fold size. split; [exact Hf|]. split; [exact Hn|]. split; [exact Hs|]. reflexivity.
Qed.

(** sums *)
Definition total (f : nat -> Z) (l : list nat) : Z := fold_right Z.add 0 (map f l).
Lemma total_app f a b : total f (a ++ b) = total f a + total f b.
Proof. unfold total. induction a as [|x a IH]; cbn [app map fold_right]; lia. Qed.
Lemma total_zero f l : (forall x, In x l -> f x = 0) -> total f l = 0.
Proof. unfold total. induction l as [|x l IH]; intros H; cbn [map fold_right]; [reflexivity|]. rewrite (H x) by now left. rewrite IH; [reflexivity|]. intros; apply H; now right. Qed.
Lemma total_sub f ks : forall L, NoDup ks -> NoDup L -> incl ks L -> (forall x, In x L -> ~ In x ks -> f x = 0) -> total f L = total f ks.
Proof.
  induction ks as [|k ks IH]; intros L Nk NL Hi Hz.
  - apply total_zero. intros x Hx. apply Hz; auto.
  - inversion Nk as [|? ? Hk Nk']; subst. destruct (in_split k L (Hi k (or_introl eq_refl))) as (l1 & l2 & ->). rewrite total_app. cbn. fold (total f l2) (total f ks).
    pose proof (NoDup_remove_1 _ _ _ NL) as NL'. pose proof (NoDup_remove_2 _ _ _ NL) as Nin.
    rewrite <- (IH (l1 ++ l2) Nk' NL').
    + rewrite total_app. unfold total. lia.
    + intros x Hx. specialize (Hi x (or_intror Hx)). rewrite in_app_iff in *. cbn in Hi. destruct Hi as [?|[->|?]]; auto. contradiction.
    + intros x Hx Nx. apply Hz; [rewrite in_app_iff in *; cbn; tauto|]. intros [->|?]; auto.
Qed.
Lemma total_ext f g l : (forall x, In x l -> f x = g x) -> total f l = total g l.
Proof. intros H. unfold total. f_equal. now apply map_ext_in. Qed.
Lemma find_column_at pre k post : forall o, ~ In k pre -> find_column (pre ++ k :: post) k o = Some (o + length pre)%nat.
Proof.
  induction pre as [|x pre IH]; intros o H; cbn [app find_column length]; [rewrite Nat.eqb_refl; f_equal; lia|].
  destruct (Nat.eqb_spec x k) as [->|N]; [destruct H; now left|]. rewrite IH by (intros ?; apply H; now right). f_equal. lia.
Qed.
Lemma find_column_none ks k : forall o, ~ In k ks -> find_column ks k o = None.
Proof. induction ks as [|x ks IH]; intros o H; cbn [find_column]; [reflexivity|]. destruct (Nat.eqb_spec x k) as [->|N]; [destruct H; now left|]. apply IH. intros ?; apply H; now right. Qed.
Lemma find_column_some ks k o n : find_column ks k o = Some n -> In k ks.
Proof. revert o. induction ks as [|x ks IH]; intros o H; cbn [find_column] in H; [discriminate|]. destruct (Nat.eqb_spec x k) as [->|N]; [now left|right; eauto]. Qed.

(** the columns of a key that may be searched *)
Definition ksearch (cols : list column) (ks : keys) (vals : list dval) : Prop :=
  NoDup ks /\ (forall k, In k ks -> exists c, nth_error cols k = Some c /\ key_col c) /\
  (forall o k c d, nth_error ks o = Some k -> nth_error cols k = Some c -> nth_error vals o = Some d -> holds c d).
(** the values of the search key, column by column of the table *)
Definition kcol (ks : keys) (vals : list dval) (i : nat) (c : column) : dval :=
  match find_column ks i 0 with None => DNull | Some o => kv c (nth_error vals o) end.
Fixpoint kcols (ks : keys) (vals : list dval) (i : nat) (cols : list column) : list dval :=
  match cols with [] => [] | c :: r => kcol ks vals i c :: kcols ks vals (S i) r end.
Lemma kcols_len ks vals cols : forall i, length (kcols ks vals i cols) = length cols.
Proof. induction cols as [|c cols IH]; intros i; cbn [kcols length]; [reflexivity|now rewrite IH]. Qed.
Lemma kcols_nth ks vals : forall cols i j c, nth_error cols j = Some c -> nth_error (kcols ks vals i cols) j = Some (kcol ks vals (i + j) c).
Proof.
  induction cols as [|c0 cols IH]; intros i [|j] c H; cbn [nth_error kcols] in *; try discriminate.
  - injection H as ->. now rewrite Nat.add_0_r.
  - rewrite (IH (S i) j c H). f_equal. f_equal. lia.
Qed.
Definition csize (c : column) (v : option dval) : Z := match key_bytes c v with Ok bs => zlen bs | _ => 0 end.
Definition ksz (cols : list column) (ks : keys) (vals : list dval) (i : nat) : Z :=
  match nth_error cols i, find_column ks i 0 with Some c, Some o => csize c (nth_error vals o) | _, _ => 0 end.
Lemma key_cells ks vals : forall cols i,
  (forall j c o, nth_error cols j = Some c -> find_column ks (i + j) 0 = Some o -> key_col c /\ forall d, nth_error vals o = Some d -> holds c d) ->
  exists l, Forall2 (fun cv x => cell_of (fst cv) (snd cv) x) (combine cols (kcols ks vals i cols)) l /\
    zlen (cdata l) = total (fun j => match nth_error cols j, find_column ks (i + j) 0 with Some c, Some o => csize c (nth_error vals o) | _, _ => 0 end) (seq 0 (length cols)) /\
    zlen (cdata l) <= fold_right Z.add 0 (map weight (kcols ks vals i cols)) /\
    forall row pos, key_loop row pos i cols ks vals = build2 row pos (Z.of_nat i) l.
Proof.
  induction cols as [|c cols IH]; intros i H.
  - exists []. repeat split; try constructor. cbn. lia.
  - destruct (IH (S i)) as (l & F & T & W & B). { intros j c0 o H1 H2. apply (H (S j) c0 o H1). now rewrite <- plus_n_Sm. }
    assert (TS : total (fun j => match nth_error (c :: cols) j, find_column ks (i + j) 0 with Some c, Some o => csize c (nth_error vals o) | _, _ => 0 end) (seq 0 (length (c :: cols)))
       = match find_column ks i 0 with Some o => csize c (nth_error vals o) | None => 0 end + zlen (cdata l)).
    { cbn [length seq]. unfold total at 1. cbn [map fold_right nth_error]. rewrite Nat.add_0_r. f_equal. rewrite T. rewrite <- seq_shift, map_map. unfold total. f_equal. apply map_ext. intros j. cbn [nth_error]. now rewrite <- plus_n_Sm. }
    cbn [kcols combine key_loop]. unfold kcol at 1 2. destruct (find_column ks i 0) as [o|] eqn:E.
    + destruct (H 0%nat c o eq_refl) as [K Hd]; [now rewrite Nat.add_0_r|]. destruct (key_bytes_ok c (nth_error vals o) K Hd) as (bs & Eb & Kb). exists (Some bs :: l).
      split; [constructor; [|exact F]|]. { cbn [fst snd]. unfold cell_of. destruct Kb as (K1 & K2 & K3 & K4). rename K3 into K3'. pose proof K3' as K3. destruct (kv c (nth_error vals o)) eqn:EV; try (now destruct K3); exists bs; repeat split; (apply K1 || exact K2 || exact K3 || exact K4). }
      cbn [cdata flat_map map fold_right]. fold (cdata l). rewrite zlen_app. split; [rewrite TS; unfold csize; now rewrite Eb|]. split; [destruct Kb as (_ & K2 & _); lia|].
      intros row pos. cbn [build2]. rewrite Eb. destruct (row_set row (Z.of_nat i) pos); cbn [bind]; try reflexivity. destruct (poke _ pos bs); cbn [bind]; try reflexivity. rewrite B. f_equal. lia.
    + exists (None :: l). split; [constructor; [reflexivity|exact F]|]. cbn [cdata flat_map map fold_right app]. fold (cdata l). split; [rewrite TS; lia|]. split; [cbn [weight]; lia|].
      intros row pos. cbn [build2]. destruct (row_set row (Z.of_nat i) 0); cbn [bind]; try reflexivity. rewrite B. f_equal. lia.
Qed.
Lemma key_size_ok cols ks vals : ksearch cols ks vals -> forall post pre, ks = pre ++ post -> key_size cols post (length pre) vals = Ok (total (ksz cols ks vals) post).
Proof.
  intros (Nd & Kc & Hv). induction post as [|k post IH]; intros pre E; [reflexivity|]. cbn [key_size]. destruct (Kc k) as (c & Ec & K); [rewrite E; apply in_or_app; right; now left|]. rewrite Ec. cbn [bind].
  assert (Nk : ~ In k pre). { intros Hi. rewrite E in Nd. apply NoDup_remove_2 in Nd. apply Nd. apply in_or_app. now left. }
  assert (FC : find_column ks k 0 = Some (length pre)) by (rewrite E; rewrite (find_column_at pre k post 0 Nk); reflexivity).
  assert (NE : nth_error ks (length pre) = Some k) by (rewrite E, nth_error_app2, Nat.sub_diag by lia; reflexivity).
  assert (S : (if 0 <? c_size c then Ok (c_size c) else match nth_error vals (length pre) with Some (DString s) => Ok (json_size_string (zlen s)) | Some _ => UB | None => Ok (json_size_string 0) end) = Ok (ksz cols ks vals k)).
  { unfold ksz. rewrite Ec, FC. destruct (key_bytes_ok c (nth_error vals (length pre)) K (fun d Hd => Hv _ _ _ _ NE Ec Hd)) as (bs & Eb & (St & _ & _)). unfold csize. rewrite Eb. destruct St as (_ & Sz & _).
    destruct (Z.ltb_spec 0 (c_size c)) as [L|L]; [now rewrite (Sz L)|]. unfold key_col in K. unfold key_bytes in Eb. destruct (c_type c) eqn:T; try contradiction; try lia.
    destruct (nth_error vals (length pre)) as [d|] eqn:En.
    - specialize (Hv _ _ _ _ NE Ec En). unfold holds in Hv. rewrite T in Hv. destruct d; try contradiction. injection Eb as <-. now rewrite (proj1 (raw_len s Hv)).
    - injection Eb as <-. reflexivity. }
  rewrite S. cbn [bind]. replace (Datatypes.S (length pre)) with (length (pre ++ [k])) by (rewrite app_length; cbn; lia). rewrite (IH (pre ++ [k])) by (rewrite <- app_assoc; exact E). reflexivity.
Qed.
Lemma key_row mem cols ks vals : heap_ok mem -> ksearch cols ks vals -> small (kcols ks vals 0 cols) ->
  exists row, row_create_key mem cols ks vals = Ok row /\ Row cols (kcols ks vals 0 cols) row.
Proof.
  intros Hm KS Sm. pose proof KS as (Nd & Kc & Hv). destruct (key_cells ks vals cols 0) as (l & F & T & W & B).
  { intros j c o Hj Ho. pose proof (find_column_some _ _ _ _ Ho) as Hin. destruct (in_split _ _ Hin) as (p0 & q0 & _). destruct (Kc _ Hin) as (c' & Ec & K). cbn [Nat.add] in *. rewrite Hj in Ec. injection Ec as <-. split; [exact K|].
    intros d Hd. apply (Hv o j c d); try assumption. clear -Ho. assert (G : forall ks a b, find_column ks j a = Some b -> (a <= b)%nat /\ nth_error ks (b - a) = Some j).
    { induction ks0 as [|x ks0 IH]; intros a b H; cbn [find_column] in H; [discriminate|]. destruct (Nat.eqb_spec x j) as [->|N]; [injection H as <-; rewrite Nat.sub_diag; split; [lia|reflexivity]|].
      destruct (IH _ _ H) as [L E]. split; [lia|]. replace (b - a)%nat with (S (b - S a)) by lia. exact E. }
    destruct (G ks 0%nat o Ho) as [_ E]. now rewrite Nat.sub_0_r in E. }
  assert (TS : key_size cols ks 0 vals = Ok (zlen (cdata l))).
  { change 0%nat with (length (@nil nat)). rewrite (key_size_ok cols ks vals KS ks [] eq_refl). f_equal. rewrite T. symmetry. apply (total_sub (ksz cols ks vals)).
    - exact Nd.
    - apply seq_NoDup.
    - intros k Hk. destruct (Kc k Hk) as (c & Ec & _). apply in_seq. apply nth_error_len in Ec. lia.
    - intros x _ Nx. unfold ksz. rewrite (find_column_none ks x 0 Nx). now destruct (nth_error cols x). }
  assert (Lk : length (kcols ks vals 0 cols) = length cols) by apply kcols_len.
  assert (Ll : length l = length cols) by (pose proof (F2_len F) as X; rewrite combine_length, Lk in X; lia). destruct Sm as [Sm1 Sm2]. rewrite Lk in Sm1, Sm2.
  destruct (create_layout2 mem l Hm ltac:(rewrite Ll; exact Sm2) ltac:(rewrite Ll; unfold INT32_MAX; lia)) as (row0 & pos & row & A & D & Bd & L).
  exists row. split; [|apply (cells_row cols _ l row L F Lk)]. unfold row_create_key. rewrite TS. cbn [bind]. rewrite <- Ll, A. cbn [bind]. rewrite D. cbn [bind]. rewrite (B row0 pos). exact Bd.
Qed.

(** ** a search key against a row *)
Lemma least_le c v : key_col c -> holds c v -> (forall z, c_type c = TTimestamp -> v = DInt z -> 0 <= z) -> val_order (least c) v <> Gt.
Proof.
  intros K H T. unfold key_col, holds, least in *. destruct (c_type c) eqn:Ec; try contradiction; destruct v; try contradiction; cbn [val_order].
  - unfold signed in H. destruct (Z.compare_spec (- 2 ^ (8 * c_size c - 1)) z); try discriminate. lia.
  - destruct s; cbn [bytes_order]; discriminate.
  - specialize (T z eq_refl eq_refl). destruct (Z.compare_spec 0 z); try discriminate. lia.
  - destruct (Z.compare_spec 0 a); try discriminate; try lia. destruct (Z.compare_spec 0 b); try discriminate; lia.
Qed.
Lemma search_order cols ks vals vs : ksearch cols ks vals -> keyed cols ks vs -> no_negative_time cols ks vs -> forall post pre, ks = pre ++ post ->
  match prefix_order post (skipn (length pre) vals) vs with
  | Eq => key_order_of post (kcols ks vals 0 cols) vs <> Gt /\ ((length ks <= length vals)%nat -> key_order_of post (kcols ks vals 0 cols) vs = Eq)
  | c => key_order_of post (kcols ks vals 0 cols) vs = c
  end.
Proof.
  intros (Nd & Kc & Hv) Hk Ht. induction post as [|k post IH]; intros pre E.
  { cbn [prefix_order key_order_of]. split; [discriminate|reflexivity]. }
  assert (Nk : ~ In k pre). { intros Hi. rewrite E in Nd. apply NoDup_remove_2 in Nd. apply Nd. apply in_or_app. now left. }
  assert (FC : find_column ks k 0 = Some (length pre)) by (rewrite E; rewrite (find_column_at pre k post 0 Nk); reflexivity).
  assert (NE : nth_error ks (length pre) = Some k) by (rewrite E, nth_error_app2, Nat.sub_diag by lia; reflexivity).
  assert (Hin : In k ks) by (rewrite E; apply in_or_app; right; now left).
  destruct (Hk k Hin) as (c & v & Ec & K & Ev & Hh).
  assert (NK : nth k (kcols ks vals 0 cols) DNull = kv c (nth_error vals (length pre))).
  { rewrite (nth_error_nth _ _ DNull (kcols_nth ks vals cols 0 k c Ec)). unfold kcol. cbn [Nat.add]. now rewrite FC. }
  specialize (IH (pre ++ [k]) ltac:(rewrite <- app_assoc; exact E)). rewrite app_length in IH. cbn [length] in IH. cbn [key_order_of]. rewrite NK, (nth_error_nth _ _ DNull Ev).
  replace (length pre + 1)%nat with (S (length pre)) in IH by lia.
  destruct (nth_error vals (length pre)) as [d|] eqn:En.
  - assert (SK : skipn (length pre) vals = d :: skipn (S (length pre)) vals). { clear -En. generalize dependent (length pre). intros n. revert vals. induction n as [|n IHn]; intros [|x vals] H; cbn in *; try discriminate; [congruence|now apply IHn]. }
    rewrite SK. cbn [prefix_order kv]. rewrite (nth_error_nth _ _ DNull Ev). destruct (val_order d v); try reflexivity. exact IH.
  - assert (SK : skipn (length pre) vals = []) by (apply skipn_all2; now apply nth_error_None). rewrite SK. cbn [prefix_order kv].
    assert (SK' : skipn (S (length pre)) vals = []) by (apply skipn_all2; apply nth_error_None in En; lia). rewrite SK' in IH.
    pose proof (least_le c v K Hh (fun z Tz Ez => Ht k c z Hin Ec Tz ltac:(now rewrite <- Ez))) as G.
    assert (PN : prefix_order post [] vs = Eq) by now destruct post. rewrite PN in IH. destruct IH as [I1 _].
    split; [destruct (val_order (least c) v); try exact I1; try discriminate; now destruct G|]. apply nth_error_None in En. apply nth_error_len in NE. lia.
Qed.

(** ** hashing *)
Lemma hash_cell c v bs rest h : key_col c -> holds c v -> kept c v bs ->
  (if 0 <? c_size c then do (x, _) <- rd_n (Z.to_nat (c_size c)) (bs ++ rest); Ok (murmur x h) else do (s, _) <- json_read_raw (bs ++ rest); Ok (murmur s h)) = value_hash v c h.
Proof.
  intros K H (St & _ & _ & E). unfold encode1, value_data_encode in E. cbn [c_type c_size c_identity c_not_null] in E. pose proof (proj1 (proj2 St)) as L. destruct (key_values c v bs rest K H St) as (_ & _ & _ & A0).
  unfold key_col in K. unfold holds in H. destruct (c_type c) eqn:T; try contradiction; destruct v; try contradiction; cbn [deref bind] in E.
  - destruct K as [K|K]; rewrite K in *; cbn [Z.eqb Pos.eqb Z.ltb Z.compare] in *.
    + assert (bs = le_enc 4 z) by congruence. subst bs. rewrite rd_n_app by apply le_enc_length. cbn [bind value_hash]. rewrite K. cbn [Z.eqb Pos.eqb]. reflexivity.
    + assert (bs = le_enc 8 z) by congruence. subst bs. rewrite rd_n_app by apply le_enc_length. cbn [bind value_hash]. rewrite K. cbn [Z.eqb Pos.eqb]. reflexivity.
  - rewrite K in *. cbn [Z.ltb Z.compare] in *. destruct (A0 eq_refl) as (s' & r & -> & Es). cbn [bind value_hash]. congruence.
  - rewrite K in *; cbn [Z.eqb Pos.eqb Z.ltb Z.compare] in *. assert (bs = le_enc 8 z) by congruence. subst bs. rewrite rd_n_app by apply le_enc_length. cbn [bind value_hash]. rewrite K. cbn [Z.eqb Pos.eqb]. reflexivity.
  - rewrite K in *; cbn [Z.eqb Pos.eqb Z.ltb Z.compare] in *. assert (bs = le_enc 8 a ++ le_enc 8 b) by congruence. subst bs. rewrite rd_n_app by (rewrite app_length, !le_enc_length; reflexivity). cbn [bind value_hash]. reflexivity.
Qed.
(** the hash of the values of the key *)
Fixpoint vhash (h : Z) (cols : list column) (ks : keys) (vs : list dval) : res Z :=
  match ks with
  | [] => Ok h
  | k :: ks' => match nth_error cols k, nth_error vs k with Some c, Some v => do h' <- value_hash v c h; vhash h' cols ks' vs | _, _ => UB end
  end.
Lemma row_hash_ok cols ks vs row : Row cols vs row -> keyed cols ks vs -> forall h, row_hash_from h cols ks row = vhash h cols ks vs.
Proof.
  intros HR Hk. induction ks as [|k ks IH]; intros h; [reflexivity|]. cbn [row_hash_from vhash]. destruct (Hk k (or_introl eq_refl)) as (c & v & Ec & K & Ev & Hh). rewrite Ec, Ev. cbn [bind].
  destruct (row_cell cols vs row k c v HR Ec Ev (holds_not_null c v Hh)) as (bs & rest & -> & Kb). cbn [bind]. rewrite (hash_cell c v bs rest h K Hh Kb). destruct (value_hash v c h); cbn [bind]; try reflexivity. apply IH. eapply keyed_cons; eassumption.
Qed.
Lemma vhash_total cols ks vs : keyed cols ks vs -> forall h, exists z, vhash h cols ks vs = Ok z.
Proof.
  intros Hk. induction ks as [|k ks IH]; intros h; [eexists; reflexivity|]. cbn [vhash]. destruct (Hk k (or_introl eq_refl)) as (c & v & Ec & K & Ev & Hh). rewrite Ec, Ev.
  assert (X : exists h', value_hash v c h = Ok h') by (unfold key_col in K; unfold holds in Hh; destruct (c_type c), v; try contradiction; cbn [value_hash]; eexists; reflexivity).
  destruct X as (h' & ->). cbn [bind]. apply IH. eapply keyed_cons; eassumption.
Qed.
Lemma hash_row_ok cols ks refs vals identity vs : Forall (ref_ok refs) vals -> keyed cols ks vs ->
  (forall k c v, In k ks -> nth_error cols k = Some c -> nth_error vals k = Some v -> nth_error vs k = Some (match (match v with DRef i => nth i refs DNull | _ => v end) with DNull => if c_identity c then match identity with Some i => i | None => DNull end else DNull | x => x end)) ->
  length vals = length cols -> (forall k c, In k ks -> nth_error cols k = Some c -> c_identity c = true -> identity <> None) ->
  forall h, value_hash_row_from h cols ks refs vals identity = vhash h cols ks vs.
Proof.
  intros Hr Hk He Len Hid. induction ks as [|k ks IH]; intros h; [reflexivity|]. cbn [value_hash_row_from vhash]. destruct (Hk k (or_introl eq_refl)) as (c & v & Ec & K & Ev & Hh). rewrite Ec. cbn [bind].
  destruct (nth_error vals k) as [u|] eqn:Eu; cycle 1. { apply nth_error_None in Eu. apply nth_error_len in Ec. lia. }
  cbn [bind]. pose proof (He k c u (or_introl eq_refl) Ec Eu) as X. rewrite Ev in X. injection X as X. rewrite Ev.
  destruct (deref_ok refs u) as (x & Ed & Ex & Nx). { rewrite Forall_forall in Hr. apply Hr. eapply nth_error_In; eassumption. }
  unfold value_hash_refs. rewrite Ed. cbn [bind]. rewrite <- Ex in X.
  assert (Y : match x with DNull => if c_identity c then match identity with Some i => Ok i | None => UB end else Ok x | _ => Ok x end = Ok v).
  { destruct x; try (now rewrite X). destruct (c_identity c) eqn:Ei; [|now rewrite X]. pose proof (Hid k c (or_introl eq_refl) Ec Ei). destruct identity; [now rewrite X|congruence]. }
  rewrite Y. cbn [bind]. destruct (value_hash v c h); cbn [bind]; try reflexivity. apply IH.
  - eapply keyed_cons; eassumption.
  - intros j c0 v0 Hj. apply He. now right.
  - intros j c0 Hj. apply Hid. now right.
Qed.
Lemma hash_keys_ok cols ks vs : keyed cols ks vs -> forall h, value_hash_keys_from h cols ks (map (fun k => nth k vs DNull) ks) = vhash h cols ks vs.
Proof.
  intros Hk. induction ks as [|k ks IH]; intros h; [reflexivity|]. cbn [value_hash_keys_from vhash map]. destruct (Hk k (or_introl eq_refl)) as (c & v & Ec & K & Ev & Hh). rewrite Ec, Ev. cbn [bind]. rewrite (nth_error_nth _ _ DNull Ev).
  assert (Y : value_hash_refs v c [] None h = value_hash v c h). { unfold value_hash_refs. unfold holds in Hh. destruct (c_type c), v; try contradiction; reflexivity. }
  rewrite Y. destruct (value_hash v c h); cbn [bind]; try reflexivity. apply IH. eapply keyed_cons; eassumption.
Qed.

(** ** the size of a search key *)
Lemma weight_nonneg v : 0 <= weight v.
Proof. destruct v; cbn [weight]; pose proof (zlen_nonneg []); unfold zlen in *; lia. Qed.
Definition kw (cols : list column) (ks : keys) (vals : list dval) (i : nat) : Z := match nth_error cols i with Some c => weight (kcol ks vals i c) | None => 0 end.
Lemma kcols_weight ks vals : forall cols i, fold_right Z.add 0 (map weight (kcols ks vals i cols)) = total (fun j => match nth_error cols j with Some c => weight (kcol ks vals (i + j) c) | None => 0 end) (seq 0 (length cols)).
Proof.
  induction cols as [|c cols IH]; intros i; [reflexivity|]. cbn [kcols map fold_right length seq]. unfold total. cbn [map fold_right nth_error]. rewrite Nat.add_0_r. f_equal.
  rewrite <- seq_shift, map_map, IH. unfold total. f_equal. apply map_ext. intros j. cbn [nth_error]. now rewrite <- plus_n_Sm.
Qed.
Lemma key_weight cols ks vals : ksearch cols ks vals -> fold_right Z.add 0 (map weight (kcols ks vals 0 cols)) <= fold_right Z.add 0 (map weight vals) + 16 * Z.of_nat (length cols).
Proof.
  intros (Nd & Kc & Hv). rewrite kcols_weight. change (fun j => match nth_error cols j with Some c => weight (kcol ks vals (0 + j) c) | None => 0 end) with (kw cols ks vals).
  assert (IN : incl ks (seq 0 (length cols))) by (intros k Hk; destruct (Kc k Hk) as (c & Ec & _); apply in_seq; apply nth_error_len in Ec; lia).
  rewrite (total_sub (kw cols ks vals) ks); [|exact Nd|apply seq_NoDup|exact IN|intros x _ Nx; unfold kw, kcol; rewrite (find_column_none ks x 0 Nx); now destruct (nth_error cols x)].
  assert (Lk : (length ks <= length cols)%nat) by (pose proof (NoDup_incl_length Nd IN) as X; now rewrite seq_length in X).
  assert (G : forall post pre, ks = pre ++ post -> total (kw cols ks vals) post <= fold_right Z.add 0 (map weight (skipn (length pre) vals)) + 16 * Z.of_nat (length post)).
  { induction post as [|k post IH]; intros pre E.
    - unfold total. cbn [map fold_right length]. assert (W : forall l, 0 <= fold_right Z.add 0 (map weight l)) by (induction l as [|x l IHl]; cbn [map fold_right]; [lia|pose proof (weight_nonneg x); lia]). specialize (W (skipn (length pre) vals)). lia.
    - assert (Nk : ~ In k pre). { intros Hi. rewrite E in Nd. apply NoDup_remove_2 in Nd. apply Nd. apply in_or_app. now left. }
      assert (FC : find_column ks k 0 = Some (length pre)) by (rewrite E; rewrite (find_column_at pre k post 0 Nk); reflexivity).
      specialize (IH (pre ++ [k]) ltac:(rewrite <- app_assoc; exact E)). rewrite app_length in IH. cbn [length] in IH. replace (length pre + 1)%nat with (S (length pre)) in IH by lia.
      unfold total in *. cbn [map fold_right length]. unfold kw at 1, kcol at 1. destruct (Kc k) as (c & Ec & K); [rewrite E; apply in_or_app; right; now left|]. rewrite Ec, FC.
      destruct (nth_error vals (length pre)) as [d|] eqn:En; cbn [kv].
      + assert (SK : skipn (length pre) vals = d :: skipn (S (length pre)) vals). { clear -En. generalize dependent (length pre). intros n. revert vals. induction n as [|n IHn]; intros [|x vals] H; cbn in *; try discriminate; [congruence|now apply IHn]. }
        rewrite SK. cbn [map fold_right]. lia.
      + assert (SK : skipn (length pre) vals = []) by (apply skipn_all2; now apply nth_error_None). assert (SK' : skipn (S (length pre)) vals = []) by (apply skipn_all2; apply nth_error_None in En; lia). rewrite SK. rewrite SK' in IH. cbn [map fold_right] in *.
        assert (weight (least c) <= 16) by (unfold least; destruct (c_type c); cbn; lia). lia. }
  specialize (G ks [] eq_refl). cbn [length skipn] in G. lia.
Qed.
