(** Proofs about the rows of a table. *)
From Verif Require Import Base JsonModel JsonSpec JsonProofs.
From Verif Require Import RowModel RowSpec.

Lemma ok_pair {A B} (a c : A) (b d : B) : Ok (a, b) = Ok (c, d) -> c = a /\ d = b.
Proof. intros H. split; congruence. Qed.
Lemma F2_len {A B} {P : A -> B -> Prop} {l m} (F : Forall2 P l m) : length l = length m.
Proof. induction F; cbn; congruence. Qed.
(** ** memory *)
Lemma zlen_app a b : zlen (a ++ b) = zlen a + zlen b.
Proof. unfold zlen. rewrite app_length. lia. Qed.
Lemma zlen_nonneg a : 0 <= zlen a.
Proof. unfold zlen. lia. Qed.
Lemma zlen_enc n v : zlen (le_enc n v) = Z.of_nat n.
Proof. unfold zlen. now rewrite le_enc_length. Qed.
Lemma poke_mid a b c b' off : zlen a = off -> length b = length b' -> poke (a ++ b ++ c) off b' = Ok (a ++ b' ++ c).
Proof.
  intros Ha Hb. unfold poke. unfold zlen in *. rewrite !app_length, <- Hb. replace (0 <=? off) with true by lia.
  replace (off + Z.of_nat (length b) <=? Z.of_nat (length a + (length b + length c))) with true by lia. cbn [andb]. f_equal.
  replace (Z.to_nat off) with (length a) by lia. rewrite firstn_app, firstn_all, Nat.sub_diag. cbn [firstn]. rewrite app_nil_r.
  f_equal. f_equal. rewrite app_assoc, skipn_app. rewrite app_length, Nat.sub_diag. rewrite skipn_all2 by (rewrite app_length; lia). reflexivity.
Qed.
Lemma at_mid a b off : zlen a = off -> at_ (a ++ b) off = Ok b.
Proof.
  intros Ha. unfold at_, zlen in *. rewrite app_length. replace (0 <=? off) with true by lia. replace (off <=? Z.of_nat (length a + length b)) with true by lia. cbn [andb].
  f_equal. replace (Z.to_nat off) with (length a) by lia. rewrite skipn_app, Nat.sub_diag, skipn_all. reflexivity.
Qed.
Lemma load_mid a x b off n : zlen a = off -> length x = n -> load (a ++ x ++ b) off n = Ok (le_dec x).
Proof. intros Ha Hx. unfold load. rewrite (at_mid a) by exact Ha. cbn [bind]. rewrite rd_n_app by exact Hx. reflexivity. Qed.
Lemma load_enc a n v b off : zlen a = off -> 0 <= v < 2 ^ (8 * Z.of_nat n) -> load (a ++ le_enc n v ++ b) off n = Ok v.
Proof. intros Ha Hv. rewrite (load_mid a) by (try exact Ha; apply le_enc_length). now rewrite le_dec_enc. Qed.

(** ** the layout *)
Definition cells := list (option (list Z)).
Definition cdata (l : cells) : list Z := flat_map (fun c => match c with Some b => b | None => [] end) l.
Fixpoint offs (pos : Z) (l : cells) : list Z :=
  match l with
  | [] => []
  | None :: r => 0 :: offs pos r
  | Some b :: r => pos :: offs (pos + zlen b) r
  end.
Lemma offs_length pos l : length (offs pos l) = length l.
Proof. revert pos. induction l as [|[b|] l IH]; intros pos; cbn [offs length]; [reflexivity|now rewrite IH..]. Qed.
(** the writes of a loop over columns *)
Fixpoint build (row : list Z) (pos i : Z) (l : cells) : res (list Z) :=
  match l with
  | [] => Ok row
  | Some bs :: r => do row1 <- poke row pos bs; do row2 <- row_set row1 i pos; build row2 (pos + zlen bs) (i + 1) r
  | None :: r => do row2 <- row_set row i 0; build row2 pos (i + 1) r
  end.
Definition idx (w : nat) (l : list Z) : list Z := flat_map (le_enc w) l.
Lemma idx_length w l : length (idx w l) = (w * length l)%nat.
Proof. unfold idx. induction l as [|x l IH]; cbn [flat_map length]; [lia|]. rewrite app_length, IH, le_enc_length. lia. Qed.
Lemma factor_head b t : 0 <= b < 256 -> row_factor (b :: t) = Ok (b mod 4).
Proof. intros B. unfold row_factor, load, at_. cbn [zlen]. replace ((0 <=? 0) && (0 <=? zlen (b :: t))) with true by (pose proof (zlen_nonneg (b :: t)); lia). cbn [Z.to_nat skipn bind rd_n rd_u8 le_dec]. now rewrite Z.mul_0_r, Z.add_0_r. Qed.
(** a step: any bytes of the right size in the slot and behind the data are overwritten *)
Lemma set_slot h t J1 J2 D f i off : 0 <= h < 256 -> h mod 4 = f -> zlen (h :: t) = 3 + Z.of_nat (width f) * (1 + i) -> length J1 = width f ->
  row_set ((h :: t) ++ J1 ++ J2 ++ D) i off = Ok ((h :: t) ++ le_enc (width f) off ++ J2 ++ D).
Proof.
  intros Hb Hf Hl Hj. unfold row_set. rewrite <- app_comm_cons. rewrite factor_head by exact Hb. cbn [bind]. rewrite Hf. rewrite app_comm_cons.
  apply poke_mid; [exact Hl|]. rewrite le_enc_length. exact Hj.
Qed.
Lemma put_data A D K bs pos : zlen (A ++ D) = pos -> forall K1 K2, K = K1 ++ K2 -> length K1 = length bs -> poke (A ++ D ++ K) pos bs = Ok (A ++ (D ++ bs) ++ K2).
Proof. intros Hp K1 K2 -> Hk. rewrite !app_assoc. rewrite <- (app_assoc (A ++ D)). rewrite (poke_mid (A ++ D) K1 K2 bs) by assumption. rewrite <- !app_assoc. reflexivity. Qed.
Lemma split_len {A} (l : list A) n m : length l = (n + m)%nat -> exists a b, l = a ++ b /\ length a = n /\ length b = m.
Proof. intros H. exists (firstn n l), (skipn n l). rewrite firstn_skipn, firstn_length, skipn_length. repeat split; lia. Qed.
Lemma build_ok l : forall h t J D K f i pos, 0 <= h < 256 -> h mod 4 = f -> zlen (h :: t) = 3 + Z.of_nat (width f) * (1 + i) ->
  length J = (width f * length l)%nat -> length K = length (cdata l) -> pos = zlen ((h :: t) ++ J ++ D) ->
  build ((h :: t) ++ J ++ D ++ K) pos i l = Ok ((h :: t) ++ idx (width f) (offs pos l) ++ D ++ cdata l).
Proof.
  induction l as [|c l IH]; intros h t J D K f i pos Hb Hf Hl Hj Hk Hp.
  - cbn [length] in Hj. rewrite Nat.mul_0_r in Hj. apply length_zero_iff_nil in Hj. apply length_zero_iff_nil in Hk. subst J K. cbn [build offs idx flat_map cdata]. reflexivity.
  - cbn [length] in Hj. destruct (split_len J (width f) (width f * length l)) as (J1 & J2 & -> & HJ1 & HJ2); [lia|].
    destruct c as [bs|]; cbn [build offs cdata flat_map] in *; fold (cdata l) in *.
    + rewrite app_length in Hk. destruct (split_len K (length bs) (length (cdata l))) as (K1 & K2 & -> & HK1 & HK2); [lia|].
      replace ((h :: t) ++ (J1 ++ J2) ++ D ++ K1 ++ K2) with (((h :: t) ++ J1 ++ J2) ++ D ++ K1 ++ K2) by now rewrite <- !app_assoc.
      rewrite (put_data _ D (K1 ++ K2) bs pos) with (K1 := K1) (K2 := K2); [|rewrite Hp, !app_assoc; reflexivity|reflexivity|exact HK1]. cbn [bind].
      replace (((h :: t) ++ J1 ++ J2) ++ (D ++ bs) ++ K2) with ((h :: t) ++ J1 ++ J2 ++ (D ++ bs) ++ K2) by now rewrite <- !app_assoc.
      rewrite (set_slot h t J1 J2 _ f i pos Hb Hf Hl HJ1). cbn [bind].
      replace ((h :: t) ++ le_enc (width f) pos ++ J2 ++ (D ++ bs) ++ K2) with ((h :: t ++ le_enc (width f) pos) ++ J2 ++ (D ++ bs) ++ K2) by (cbn [app]; now rewrite <- !app_assoc).
      rewrite (IH h (t ++ le_enc (width f) pos) J2 (D ++ bs) K2 f (i + 1) (pos + zlen bs) Hb Hf).
      * f_equal. unfold idx. cbn [app flat_map]. now rewrite <- !app_assoc.
      * rewrite app_comm_cons, zlen_app, Hl, zlen_enc. lia.
      * exact HJ2.
      * exact HK2.
      * rewrite Hp. rewrite app_comm_cons, !zlen_app, zlen_enc. unfold zlen at 2. rewrite HJ1. lia.
    + rewrite <- app_assoc. rewrite (set_slot h t J1 J2 _ f i 0 Hb Hf Hl HJ1). cbn [bind].
      replace ((h :: t) ++ le_enc (width f) 0 ++ J2 ++ D ++ K) with ((h :: t ++ le_enc (width f) 0) ++ J2 ++ D ++ K) by (cbn [app]; now rewrite <- !app_assoc).
      rewrite (IH h (t ++ le_enc (width f) 0) J2 D K f (i + 1) pos Hb Hf).
      * f_equal. unfold idx. cbn [app flat_map]. now rewrite <- !app_assoc.
      * rewrite app_comm_cons, zlen_app, Hl, zlen_enc. lia.
      * exact HJ2.
      * exact Hk.
      * rewrite Hp. rewrite app_comm_cons, !zlen_app, zlen_enc. unfold zlen at 2. rewrite HJ1. lia.
Qed.

(** a row with these cells *)
Definition Layout (l : cells) (row : list Z) : Prop :=
  exists f, let w := width f in let n := Z.of_nat (length l) in let pos := 3 + Z.of_nat w * (1 + n) in
  (f = 0 \/ f = 1 \/ f = 3) /\ n <= 65535 /\ pos + zlen (cdata l) < 2 ^ (8 * Z.of_nat w) /\
  row = ([f; n mod 256; n / 256] ++ le_enc w (pos + zlen (cdata l))) ++ idx w (offs pos l) ++ cdata l.


Lemma measure_ok n d size f : 0 <= n -> 0 <= d -> row_measure n d = Ok (size, f) ->
  (f = 0 \/ f = 1 \/ f = 3) /\ size = 3 + Z.of_nat (width f) * (1 + n) + d /\ size < 2 ^ (8 * Z.of_nat (width f)).
Proof.
  intros Hn Hd H. unfold row_measure in H. destruct (Z.ltb_spec INT32_MAX (3 + d + 4 * (1 + n))); [discriminate|]. unfold UINT8_MAX, UINT16_MAX, INT32_MAX in *.
  destruct (Z.ltb_spec 255 (3 + d + (1 + n))); [destruct (Z.ltb_spec 65535 (3 + d + 2 * (1 + n)))|]; apply ok_pair in H as [-> ->].
  - change (2 ^ (8 * Z.of_nat (width 3))) with 4294967296. change (Z.of_nat (width 3)) with 4. lia.
  - change (2 ^ (8 * Z.of_nat (width 1))) with 65536. change (Z.of_nat (width 1)) with 2. lia.
  - change (2 ^ (8 * Z.of_nat (width 0))) with 256. change (Z.of_nat (width 0)) with 1. lia.
Qed.
Lemma allocate_ok mem n d : heap_ok mem -> 0 <= n <= 65535 -> 0 <= d -> 3 + d + 4 * (1 + n) <= INT32_MAX ->
  exists f rest, (f = 0 \/ f = 1 \/ f = 3) /\ 3 + Z.of_nat (width f) * (1 + n) + d < 2 ^ (8 * Z.of_nat (width f)) /\
    row_allocate mem n d = Ok (([f; n mod 256; n / 256] ++ le_enc (width f) (3 + Z.of_nat (width f) * (1 + n) + d)) ++ rest) /\
    zlen rest = Z.of_nat (width f) * n + d.
Proof.
  intros Hm Hn Hd Hb. unfold row_allocate. destruct (row_measure n d) as [[size f]| |] eqn:E; cycle 1.
  { unfold row_measure in E. destruct (INT32_MAX <? _); [discriminate|]. destruct (UINT8_MAX <? _); [destruct (UINT16_MAX <? _)|]; discriminate. }
  { unfold row_measure in E. destruct (Z.ltb_spec INT32_MAX (3 + d + 4 * (1 + n))); [lia|]. destruct (UINT8_MAX <? _); [destruct (UINT16_MAX <? _)|]; discriminate. }
  cbn [bind]. destruct (measure_ok n d size f ltac:(lia) Hd E) as (Hf & Es & Hs). assert (W : (1 <= width f)%nat) by (destruct Hf as [-> |[-> | ->]]; cbn; lia).
  assert (Hmem : zlen (mem size) = size) by (apply Hm; nia). assert (Hge : size >= 3 + Z.of_nat (width f)) by nia.
  destruct (split_len (mem size) 1 (length (mem size) - 1)) as (a & r0 & E0 & La & L0); [unfold zlen in Hmem; lia|].
  destruct (split_len r0 2 (length r0 - 2)) as (b & r1 & E1 & Lb & L1); [unfold zlen in Hmem; lia|].
  destruct (split_len r1 (width f) (length r1 - width f)) as (c & rest & E2 & Lc & L2); [unfold zlen in Hmem; lia|].
  exists f, rest. split; [exact Hf|]. split; [rewrite <- Es; exact Hs|]. split.
  - unfold row_init. rewrite E0, E1, E2. pose proof (poke_mid [] a (b ++ c ++ rest) [f mod 4] 0 eq_refl La) as P1. cbn [app] in P1. rewrite P1. cbn [bind].
    pose proof (poke_mid [f mod 4] b (c ++ rest) (le_enc 2 n) 1 eq_refl Lb) as P2. cbn [app] in P2. rewrite P2. cbn [bind].
    change (f mod 4 :: le_enc 2 n ++ c ++ rest) with (([f mod 4] ++ le_enc 2 n) ++ c ++ rest).
    rewrite (poke_mid ([f mod 4] ++ le_enc 2 n) c rest (le_enc (width f) size) 3) by (try reflexivity; rewrite le_enc_length; exact Lc).
    f_equal. replace (f mod 4) with f by (destruct Hf as [-> |[-> | ->]]; reflexivity). rewrite <- Es. cbn [le_enc app]. replace (n / 256 mod 256) with (n / 256) by (symmetry; apply Z.mod_small; split; [apply Z.div_pos; lia|apply Z.div_lt_upper_bound; lia]). reflexivity.
  - unfold zlen in *. rewrite E0, E1, E2 in Hmem. rewrite !app_length in Hmem. lia.
Qed.
Lemma width_factor f : f = 0 \/ f = 1 \/ f = 3 -> Z.of_nat (width f) = f + 1.
Proof. intros [-> |[-> | ->]]; reflexivity. Qed.
(** the whole of a creation *)
Lemma create_layout mem l : heap_ok mem -> Z.of_nat (length l) <= 65535 -> 3 + zlen (cdata l) + 4 * (1 + Z.of_nat (length l)) <= INT32_MAX ->
  exists row0 pos row, row_allocate mem (Z.of_nat (length l)) (zlen (cdata l)) = Ok row0 /\ row_data row0 (Z.of_nat (length l)) = Ok pos /\
    build row0 pos 0 l = Ok row /\ Layout l row.
Proof.
  intros Hm Hn Hb. destruct (allocate_ok mem (Z.of_nat (length l)) (zlen (cdata l)) Hm ltac:(lia) (zlen_nonneg _) Hb) as (f & rest & Hf & Hs & Ea & Lr).
  set (n := Z.of_nat (length l)) in *. set (size := 3 + Z.of_nat (width f) * (1 + n) + zlen (cdata l)) in *.
  set (t := [n mod 256; n / 256] ++ le_enc (width f) size). assert (Hh : 0 <= f < 256) by lia. assert (Hm4 : f mod 4 = f) by (destruct Hf as [-> |[-> | ->]]; reflexivity).
  assert (Ht : zlen (f :: t) = 3 + Z.of_nat (width f)) by (change (f :: t) with ([f; n mod 256; n / 256] ++ le_enc (width f) size); rewrite zlen_app, zlen_enc; unfold zlen; cbn [length]; lia).
  destruct (split_len rest (width f * length l) (length (cdata l))) as (J & K & -> & LJ & LK). { unfold zlen in Lr. subst n. lia. }
  exists ((f :: t) ++ J ++ K), (3 + Z.of_nat (width f) * (1 + n)), ((f :: t) ++ idx (width f) (offs (3 + Z.of_nat (width f) * (1 + n)) l) ++ cdata l).
  split; [exact Ea|]. split.
  - unfold row_data. rewrite <- app_comm_cons, factor_head by exact Hh. cbn [bind]. rewrite Hm4, width_factor by exact Hf. f_equal. lia.
  - split.
    + apply (build_ok l f t J [] K f 0 (3 + Z.of_nat (width f) * (1 + n)) Hh Hm4).
      * rewrite Ht. lia.
      * exact LJ.
      * exact LK.
      * rewrite app_nil_r, zlen_app, Ht. unfold zlen. rewrite LJ. subst n. lia.
    + exists f. cbv zeta. fold n. fold size. split; [exact Hf|]. split; [exact Hn|]. split; [exact Hs|]. reflexivity.
Qed.

(** ** reading a layout *)
Lemma offs_nth l : forall i pos b, nth_error l i = Some (Some b) -> nth_error (offs pos l) i = Some (pos + zlen (cdata (firstn i l))).
Proof.
  induction l as [|c l IH]; intros [|i] pos b H; cbn [nth_error] in H; try discriminate.
  - injection H as ->. cbn [offs nth_error firstn cdata flat_map]. f_equal. unfold zlen. cbn [length]. lia.
  - destruct c as [x|]; cbn [offs nth_error firstn cdata flat_map]; rewrite (IH i _ b H); f_equal; fold (cdata (firstn i l)); rewrite ?zlen_app; cbn [app]; lia.
Qed.
Lemma offs_null l : forall i pos, nth_error l i = Some None -> nth_error (offs pos l) i = Some 0.
Proof.
  induction l as [|c l IH]; intros [|i] pos H; cbn [nth_error] in H; try discriminate.
  - injection H as ->. reflexivity.
  - destruct c as [x|]; cbn [offs nth_error]; apply IH; exact H.
Qed.
Lemma cdata_split l i b : nth_error l i = Some (Some b) -> cdata l = cdata (firstn i l) ++ b ++ cdata (skipn (S i) l).
Proof.
  revert i. induction l as [|c l IH]; intros [|i] H; cbn [nth_error] in H; try discriminate.
  - injection H as ->. reflexivity.
  - cbn [firstn skipn cdata flat_map]. fold (cdata l). rewrite (IH i H). fold (cdata (firstn i l)). now rewrite <- app_assoc.
Qed.
Lemma idx_split w l i x : nth_error l i = Some x -> idx w l = idx w (firstn i l) ++ le_enc w x ++ idx w (skipn (S i) l).
Proof.
  revert i. induction l as [|c l IH]; intros [|i] H; cbn [nth_error] in H; try discriminate.
  - injection H as ->. reflexivity.
  - unfold idx in *. cbn [firstn skipn flat_map]. rewrite (IH i H). now rewrite <- app_assoc.
Qed.
Lemma nth_error_len {A} (l : list A) i x : nth_error l i = Some x -> (i < length l)%nat.
Proof. intros H. apply nth_error_Some. congruence. Qed.
Lemma layout_columns l row : Layout l row -> load row 1 2 = Ok (Z.of_nat (length l)).
Proof.
  intros (f & H). cbv zeta in H. destruct H as (Hf & Hn & Hs & ->). set (n := Z.of_nat (length l)) in *. rewrite <- !app_assoc.
  assert (E : forall a, [f; n mod 256; n / 256] ++ a = [f] ++ le_enc 2 n ++ a).
  { intros a. cbn [le_enc app]. replace (n / 256 mod 256) with (n / 256); [reflexivity|]. symmetry. apply Z.mod_small. split; [apply Z.div_pos; lia|apply Z.div_lt_upper_bound; lia]. }
  rewrite E. apply load_enc; [reflexivity|]. change (2 ^ (8 * Z.of_nat 2)) with 65536. lia.
Qed.
Lemma layout_at l row i c : Layout l row -> nth_error l i = Some c ->
  match c with
  | None => row_at row (Z.of_nat i) = Ok None
  | Some b => exists off rest, row_at row (Z.of_nat i) = Ok (Some off) /\ at_ row off = Ok (b ++ rest)
  end.
Proof.
  intros HL Hi. pose proof (layout_columns l row HL) as Hc. destruct HL as (f & H). cbv zeta in H. destruct H as (Hf & Hn & Hs & Er).
  pose proof (nth_error_len _ _ _ Hi) as Li. set (n := Z.of_nat (length l)) in *. set (w := width f) in *. set (pos := 3 + Z.of_nat w * (1 + n)) in *. set (size := pos + zlen (cdata l)) in *.
  assert (W : (1 <= w)%nat) by (subst w; destruct Hf as [-> |[-> | ->]]; cbn; lia). assert (Hm4 : f mod 4 = f) by (destruct Hf as [-> |[-> | ->]]; reflexivity).
  assert (EX : exists x, nth_error (offs pos l) i = Some x /\ 0 <= x < 2 ^ (8 * Z.of_nat w) /\ match c with None => x = 0 | Some b => x = pos + zlen (cdata (firstn i l)) end).
  { destruct c as [b|].
    - exists (pos + zlen (cdata (firstn i l))). split; [apply (offs_nth l i pos b Hi)|]. split; [|reflexivity]. pose proof (cdata_split l i b Hi) as E. apply (f_equal zlen) in E. rewrite !zlen_app in E.
      pose proof (zlen_nonneg (cdata (firstn i l))). pose proof (zlen_nonneg b). pose proof (zlen_nonneg (cdata (skipn (S i) l))). subst size. lia.
    - exists 0. split; [apply (offs_null l i pos Hi)|]. split; [|reflexivity]. split; [lia|]. apply Z.pow_pos_nonneg; lia. }
  destruct EX as (x & Ex & Bx & Vx).
  assert (RA : row_at row (Z.of_nat i) = (if x =? 0 then Ok None else Ok (Some x))).
  { unfold row_at. rewrite Hc. cbn [bind]. destruct (Z.leb_spec n (Z.of_nat i)); [lia|]. rewrite Er at 1. rewrite <- app_assoc. rewrite <- app_comm_cons. rewrite factor_head by lia. cbn [bind]. rewrite Hm4. fold w.
    rewrite (idx_split w (offs pos l) i x Ex) in Er. rewrite Er.
    replace (load _ _ _) with (Ok x : res Z); [reflexivity|]. symmetry. rewrite <- (app_assoc (idx w _)), app_assoc, <- (app_assoc (le_enc w x)). apply load_enc; [|exact Bx].
    rewrite !zlen_app, zlen_enc. unfold zlen at 1 2. cbn [length]. rewrite idx_length, firstn_length, offs_length. rewrite Nat.min_l by lia. lia. }
  destruct c as [b|].
  - exists x, (cdata (skipn (S i) l)). rewrite RA. pose proof (zlen_nonneg (cdata (firstn i l))) as NN. replace (x =? 0) with false by (subst pos; lia). split; [reflexivity|].
    rewrite Er. rewrite (cdata_split l i b Hi). rewrite !app_assoc. rewrite <- (app_assoc _ b). apply at_mid. rewrite !zlen_app, zlen_enc. unfold zlen at 1 2. cbn [length]. rewrite idx_length, offs_length. subst x pos n. lia.
  - rewrite RA, Vx. reflexivity.
Qed.
Lemma layout_beyond l row i : Layout l row -> (length l <= i)%nat -> row_at row (Z.of_nat i) = Ok None.
Proof. intros HL Hi. unfold row_at. rewrite (layout_columns l row HL). cbn [bind]. destruct (Z.leb_spec (Z.of_nat (length l)) (Z.of_nat i)); [reflexivity|lia]. Qed.
Lemma layout_size l row : Layout l row -> row_size row = Ok (zlen row).
Proof.
  intros (f & H). cbv zeta in H. destruct H as (Hf & Hn & Hs & ->). unfold row_size. rewrite <- !app_assoc. rewrite <- app_comm_cons at 1. rewrite factor_head by lia. cbn [bind].
  replace (f mod 4) with f by (destruct Hf as [-> |[-> | ->]]; reflexivity). rewrite load_enc; [|reflexivity|].
  - f_equal. rewrite !zlen_app, zlen_enc. unfold zlen at 2 3. cbn [length]. rewrite idx_length, offs_length. lia.
  - split; [|exact Hs]. pose proof (zlen_nonneg (cdata l)). nia.
Qed.

(** ** the values *)
Lemma sx_enc n z : (0 < n)%nat -> - 2 ^ (8 * Z.of_nat n - 1) <= z < 2 ^ (8 * Z.of_nat n - 1) -> sx n (le_dec (le_enc n z)) = z.
Proof. intros Hn Hz. rewrite le_dec_enc_mod. now apply sx_mod. Qed.
Lemma rne_exact a b : 0 < b -> rne (a * b) b = a.
Proof.
  intros Hb. unfold rne. rewrite Z.div_mul, Z.mod_mul by lia. replace (b <? 2 * 0) with false by lia. replace (b =? 2 * 0) with false by lia. reflexivity.
Qed.
Lemma float_roundtrip f : float_bits f -> flt_of_dbl (dbl_of_flt f) = f.
Proof.
  intros [Hf Hn]. unfold dbl_of_flt. pose proof (Z.div_mod f (2 ^ 31) ltac:(lia)) as E. pose proof (Z.mod_pos_bound f (2 ^ 31) ltac:(lia)) as B.
  assert (S : 0 <= f / 2 ^ 31 < 2) by (split; [apply Z.div_pos; lia|apply Z.div_lt_upper_bound; lia]).
  set (s := f / 2 ^ 31) in *. set (m := f mod 2 ^ 31) in *. clearbody s m. replace (2139095040 <? m) with false by lia.
  assert (G : forall x, 0 <= x < 2 ^ 63 -> flt_of_dbl (s * 2 ^ 63 + x) = s * 2 ^ 31 + (if 2047 * 2 ^ 52 <? x then 2143289344 + (x / 2 ^ 29) mod 2 ^ 22 else if x <? FLT_MIN_BITS then (let e := x / 2 ^ 52 in if e =? 0 then 0 else rne (2 ^ 52 + x mod 2 ^ 52) (2 ^ (926 - e))) else Z.min (rne x (2 ^ 29) - 896 * 2 ^ 23) 2139095040)).
  { intros x Hx. unfold flt_of_dbl. replace ((s * 2 ^ 63 + x) / 2 ^ 63) with s by (symmetry; rewrite Z.div_add_l by lia; rewrite (Z.div_small x) by lia; lia).
    replace ((s * 2 ^ 63 + x) mod 2 ^ 63) with x by (symmetry; rewrite Z.add_comm, Z.mod_add by lia; apply Z.mod_small; lia). reflexivity. }
  unfold FLT_MIN_BITS in G. replace f with (s * 2 ^ 31 + m) by lia.
  destruct (Z.eqb_spec m 2139095040) as [-> |N1].
  { rewrite G by (vm_compute; split; congruence). reflexivity. }
  destruct (Z.leb_spec (2 ^ 23) m) as [H23|H23].
  { change (2 ^ 23) with 8388608 in *. change (2 ^ 31) with 2147483648 in *. change (896 * 8388608) with 7516192768 in *. change (2 ^ 29) with 536870912 in *. change (2 ^ 63) with 9223372036854775808 in *. change (2047 * 2 ^ 52) with 9218868437227405312 in *.
    rewrite G by lia. f_equal. replace (9218868437227405312 <? (m + 7516192768) * 536870912) with false by lia. replace ((m + 7516192768) * 536870912 <? 4039728865751334912) with false by lia.
    rewrite rne_exact by lia. lia. }
  destruct (Z.eqb_spec m 0) as [-> |N0].
  { rewrite G by lia. reflexivity. }
  assert (Hm : 0 < m) by lia. pose proof (Z.log2_spec m Hm) as L. pose proof (Z.log2_nonneg m) as L0. set (k := Z.log2 m) in *. clearbody k.
  assert (K : k < 23) by (apply (Z.pow_lt_mono_r_iff 2); lia). cbv zeta.
  assert (P : 2 ^ k * 2 ^ (52 - k) = 2 ^ 52) by (rewrite <- Z.pow_add_r by lia; f_equal; lia). assert (Q : 0 < 2 ^ (52 - k)) by (apply Z.pow_pos_nonneg; lia).
  rewrite Z.pow_succ_r in L by lia. set (p := 2 ^ k) in *. set (q := 2 ^ (52 - k)) in *.
  assert (R : 0 <= (m - p) * q < 2 ^ 52) by nia. set (r := (m - p) * q) in *. assert (Er : 2 ^ 52 + r = m * q) by (subst r; nia).
  assert (B2 : 0 <= (k + 874) * 2 ^ 52 + r < 4039728865751334912) by (change (2 ^ 52) with 4503599627370496 in *; lia).
  rewrite G by (change (2 ^ 63) with 9223372036854775808; lia). f_equal.
  replace (2047 * 2 ^ 52 <? (k + 874) * 2 ^ 52 + r) with false by (change (2047 * 2 ^ 52) with 9218868437227405312; lia).
  replace ((k + 874) * 2 ^ 52 + r <? 4039728865751334912) with true by lia. cbv zeta.
  replace (((k + 874) * 2 ^ 52 + r) / 2 ^ 52) with (k + 874) by (symmetry; rewrite Z.div_add_l by lia; rewrite (Z.div_small r) by exact R; lia).
  replace (k + 874 =? 0) with false by lia.
  replace (((k + 874) * 2 ^ 52 + r) mod 2 ^ 52) with r by (symmetry; rewrite Z.add_comm, Z.mod_add by lia; apply Z.mod_small; exact R).
  rewrite Er. replace (926 - (k + 874)) with (52 - k) by lia. fold q. now apply rne_exact.
Qed.
Lemma flt_range f : float_bits f -> 0 <= f < 2 ^ 32.
Proof. intros [H _]. exact H. Qed.

Definition stored (c : column) (v : dval) (bs : list Z) : Prop :=
  bs <> [] /\ (0 < c_size c -> zlen bs = c_size c) /\ forall rest, cell_read c (bs ++ rest) = Ok v /\ cell_bytes c (bs ++ rest) = Ok bs.
(** value_data.h:66-141 *)
Definition encode1 (c : column) (v : dval) : res (option (list Z)) := value_data_encode v (mkcol (c_type c) (c_size c) false (c_not_null c)) [] None.
Definition size1 (c : column) (v : dval) : res Z := value_data_size v (mkcol (c_type c) (c_size c) false (c_not_null c)) [].
Lemma firstn_sub (a b : list Z) : firstn (length (a ++ b) - length b) (a ++ b) = a.
Proof. rewrite app_length. replace (length a + length b - length b)%nat with (length a) by lia. rewrite firstn_app, firstn_all, Nat.sub_diag. cbn [firstn]. apply app_nil_r. Qed.
Lemma floats_len f : length (flat_map (le_enc 4) f) = (4 * length f)%nat.
Proof. exact (idx_length 4 f). Qed.
Lemma read_floats_ok f rest : Forall (fun x => 0 <= x < 2 ^ 32) f -> read_floats (length f) (flat_map (le_enc 4) f ++ rest) = Ok f.
Proof.
  induction 1 as [|x f Hx _ IH]; [reflexivity|]. cbn [length read_floats flat_map]. rewrite <- app_assoc. rewrite rd_n_app by apply le_enc_length. cbn [bind].
  rewrite IH. cbn [bind]. rewrite le_dec_enc by exact Hx. reflexivity.
Qed.
Lemma enc_str s : Enc (JStr s) (json_write_raw s).
Proof. unfold Enc. cbn [toks]. rewrite <- (app_nil_r (json_write_raw s)). apply te_cons; [now left|constructor]. Qed.
Lemma raw_len s : str_wf s = true -> zlen (json_write_raw s) = json_size_string (zlen s) /\ zlen (json_write_raw s) <= 5 + zlen s.
Proof.
  intros H. unfold str_wf in H. apply andb_prop in H as [_ H]. unfold json_write_raw, json_size_string, json_size_of. fold (zlen s) in *.
  destruct (zlen s <=? 31); [unfold zlen; cbn [length]; lia|]. destruct (zlen s <=? INT8_MAX); [|destruct (zlen s <=? INT16_MAX); [|rewrite H]];
    unfold zlen; cbn [length]; rewrite app_length, le_enc_length; lia.
Qed.
Lemma enc_nonempty j s : Enc j s -> s <> [].
Proof.
  intros E. unfold Enc in E. assert (X : toks j <> []) by (destruct j; discriminate). inversion E as [E1|t ts b bs T _ E1 E2]; [congruence|].
  assert (b <> []). { destruct t; cbn [tok_enc] in T; try (subst b; discriminate); [destruct b0; subst b; discriminate|subst b|subst b|].
    - unfold json_write_integer. repeat match goal with |- context [if ?c then _ else _] => destruct c end; discriminate.
    - unfold json_write_real. destruct (real_fits_float _); discriminate.
    - destruct T as [-> | ->]; [destruct (write_raw_head s0) as (h & r & -> & _); discriminate|discriminate]. }
  destruct b; [congruence|discriminate].
Qed.
Lemma int_stored c n z : c_size c = Z.of_nat n -> (0 < n)%nat -> cell_bytes c = (fun l => do (x, _) <- rd_n (Z.to_nat (c_size c)) l; Ok x) ->
  (forall rest, cell_read c (le_enc n z ++ rest) = Ok (DInt z)) -> stored c (DInt z) (le_enc n z).
Proof.
  intros E Hn Hb Hr. split; [destruct n; [lia|discriminate]|]. split; [intros _; rewrite zlen_enc; lia|]. intros rest. split; [apply Hr|]. rewrite Hb, E, Nat2Z.id. rewrite rd_n_app by apply le_enc_length. reflexivity.
Qed.
Lemma encode_ok c v : col_ok c -> holds c v -> exists bs, encode1 c v = Ok (Some bs) /\ size1 c v = Ok (zlen bs) /\ stored c v bs /\ zlen bs <= weight v.
Proof.
  intros Hc Hv. destruct c as [ty sz ident nn]. unfold col_ok, holds, signed in *. cbn [c_type c_size] in *.
  unfold encode1, size1, value_data_encode, value_data_size. cbn [c_type c_size c_identity c_not_null].
  destruct ty; destruct v as [|z|b|s|s|m d us|f|a b|i]; try contradiction; cbn [deref bind].
  - (* bool *) subst sz. exists (le_enc 1 z). change (0 <? 1) with true. change (1 =? 1) with true. repeat (split; [reflexivity|]). split; [|cbn; lia].
    apply int_stored with (n := 1%nat); try reflexivity; try lia. intros rest. unfold cell_read. cbn [c_type]. rewrite rd_n_app by apply le_enc_length. cbn [bind]. destruct Hv as [-> | ->]; reflexivity.
  - (* int *) destruct Hc as [-> |[-> |[-> | ->]]]; cbn [Z.eqb Z.ltb Pos.eqb];
      [exists (le_enc 1 z)|exists (le_enc 2 z)|exists (le_enc 4 z)|exists (le_enc 8 z)]; (split; [reflexivity|]); (split; [reflexivity|]); (split; [|cbn; lia]).
    + apply int_stored with (n := 1%nat); try reflexivity; try lia. intros rest. unfold cell_read. cbn [c_type c_size Z.eqb Pos.eqb]. rewrite rd_n_app by apply le_enc_length. cbn [bind]. rewrite sx_enc by (try lia; exact Hv). reflexivity.
    + apply int_stored with (n := 2%nat); try reflexivity; try lia. intros rest. unfold cell_read. cbn [c_type c_size Z.eqb Pos.eqb]. rewrite rd_n_app by apply le_enc_length. cbn [bind]. rewrite sx_enc by (try lia; exact Hv). reflexivity.
    + apply int_stored with (n := 4%nat); try reflexivity; try lia. intros rest. unfold cell_read. cbn [c_type c_size Z.eqb Pos.eqb]. rewrite rd_n_app by apply le_enc_length. cbn [bind]. rewrite sx_enc by (try lia; exact Hv). reflexivity.
    + apply int_stored with (n := 8%nat); try reflexivity; try lia. intros rest. unfold cell_read. cbn [c_type c_size Z.eqb Pos.eqb]. rewrite rd_n_app by apply le_enc_length. cbn [bind]. rewrite sx_enc by (try lia; exact Hv). reflexivity.
  - (* double *) destruct Hc as [-> | ->]; cbn [Z.eqb Z.ltb Pos.eqb] in *.
    + destruct Hv as (f & Hf & ->). rewrite (float_roundtrip f Hf). exists (le_enc 4 f). split; [reflexivity|]. split; [reflexivity|]. split; [|cbn; lia].
      split; [discriminate|]. split; [reflexivity|]. intros rest. unfold cell_read, cell_bytes. cbn [c_type c_size Z.eqb Pos.eqb]. change (Z.to_nat 4) with 4%nat. rewrite rd_n_app by apply le_enc_length. cbn [bind].
      rewrite le_dec_enc by (apply flt_range; exact Hf). split; reflexivity.
    + exists (le_enc 8 b). split; [reflexivity|]. split; [reflexivity|]. split; [|cbn; lia].
      split; [discriminate|]. split; [reflexivity|]. intros rest. unfold cell_read, cell_bytes. cbn [c_type c_size Z.eqb Pos.eqb]. change (Z.to_nat 8) with 8%nat. rewrite rd_n_app by apply le_enc_length. cbn [bind].
      rewrite le_dec_enc by exact Hv. split; reflexivity.
  - (* string *) subst sz. destruct (raw_len s Hv) as [L1 L2]. exists (json_write_raw s). split; [reflexivity|]. split; [cbn [Z.ltb Z.compare]; now rewrite L1|]. split; [|exact L2].
    split; [destruct (write_raw_head s) as (h & r & -> & _); discriminate|]. split; [cbn; lia|]. intros rest. unfold cell_read, cell_bytes. cbn [c_type c_size]. rewrite (read_raw_ok s rest Hv). cbn [bind].
    split; [reflexivity|]. rewrite (json_skip_ok (JStr s) (json_write_raw s) rest Hv (enc_str s)). cbn [bind]. now rewrite firstn_sub.
  - (* json *) subst sz. destruct Hv as (j & W & E). exists s. split; [reflexivity|]. split; [reflexivity|]. split; [|cbn; lia].
    split; [exact (enc_nonempty j s E)|]. split; [cbn; lia|]. intros rest. unfold cell_read, cell_bytes. cbn [c_type c_size]. rewrite (json_skip_ok j s rest W E). cbn [bind]. rewrite firstn_sub. split; reflexivity.
  - (* date *) subst sz. exists (le_enc 4 z). split; [reflexivity|]. split; [reflexivity|]. split; [|cbn; lia].
    apply int_stored with (n := 4%nat); try reflexivity; try lia. intros rest. unfold cell_read. cbn [c_type c_size Z.eqb Pos.eqb]. rewrite rd_n_app by apply le_enc_length. cbn [bind]. rewrite sx_enc by (try lia; exact Hv). reflexivity.
  - (* timestamp *) subst sz. exists (le_enc 8 z). split; [reflexivity|]. split; [reflexivity|]. split; [|cbn; lia].
    apply int_stored with (n := 8%nat); try reflexivity; try lia. intros rest. unfold cell_read. cbn [c_type c_size Z.eqb Pos.eqb]. rewrite rd_n_app by apply le_enc_length. cbn [bind]. rewrite sx_enc by (try lia; exact Hv). reflexivity.
  - (* interval *) subst sz. destruct Hv as (Hm & Hd & Hu). exists (le_enc 4 m ++ le_enc 4 d ++ le_enc 8 us). split; [reflexivity|]. split; [reflexivity|]. split; [|cbn; lia].
    split; [discriminate|]. split; [reflexivity|]. intros rest. unfold cell_read, cell_bytes. cbn [c_type c_size]. split.
    + rewrite <- !app_assoc. rewrite rd_n_app by apply le_enc_length. cbn [bind]. rewrite rd_n_app by apply le_enc_length. cbn [bind]. rewrite rd_n_app by apply le_enc_length. cbn [bind].
      rewrite !sx_enc by (try lia; assumption). reflexivity.
    + rewrite rd_n_app by reflexivity. reflexivity.
  - (* vector *) subst sz. destruct Hv as (Hf & Hl). exists (le_enc 4 (Z.of_nat (length f)) ++ flat_map (le_enc 4) f). change (2 ^ 29) with 536870912 in Hl.
    assert (L : length (le_enc 4 (Z.of_nat (length f)) ++ flat_map (le_enc 4) f) = (4 + 4 * length f)%nat) by (rewrite app_length, floats_len, le_enc_length; reflexivity).
    split; [reflexivity|]. split; [cbn [Z.ltb Z.compare]; f_equal; unfold vector_size, zlen; rewrite L; lia|]. split; [|unfold weight, zlen; rewrite L; lia].
    split; [discriminate|]. split; [cbn; lia|]. intros rest. unfold cell_read, cell_bytes. cbn [c_type c_size]. split.
    + rewrite <- app_assoc. rewrite rd_n_app by apply le_enc_length. cbn [bind]. rewrite le_dec_enc by (change (2 ^ (8 * Z.of_nat 4)) with 4294967296; lia). rewrite Nat2Z.id. rewrite read_floats_ok by exact Hf. reflexivity.
    + rewrite <- app_assoc at 1. rewrite rd_n_app by apply le_enc_length. cbn [bind]. rewrite le_dec_enc by (change (2 ^ (8 * Z.of_nat 4)) with 4294967296; lia).
      rewrite rd_n_app by (rewrite L; lia). reflexivity.
  - (* uuid *) subst sz. destruct Hv as (Ha & Hb). exists (le_enc 8 a ++ le_enc 8 b). split; [reflexivity|]. split; [reflexivity|]. split; [|cbn; lia].
    split; [discriminate|]. split; [reflexivity|]. intros rest. unfold cell_read, cell_bytes. cbn [c_type c_size]. split.
    + rewrite <- app_assoc. rewrite rd_n_app by apply le_enc_length. cbn [bind]. rewrite rd_n_app by apply le_enc_length. cbn [bind]. rewrite !le_dec_enc by assumption. reflexivity.
    + rewrite rd_n_app by reflexivity. reflexivity.
Qed.

(** ** rows with values *)
Definition kept (c : column) (v : dval) (bs : list Z) : Prop := stored c v bs /\ zlen bs <= weight v /\ v <> DNull /\ encode1 c v = Ok (Some bs).
Definition Row (cols : list column) (vs : list dval) (row : list Z) : Prop :=
  exists l, Layout l row /\ (length l <= length cols)%nat /\ length vs = length cols /\
    forall i c v, nth_error cols i = Some c -> nth_error vs i = Some v ->
      match nth_error l i with
      | Some (Some bs) => kept c v bs
      | _ => v = DNull
      end.
Lemma row_reads cols vs row i c v : Row cols vs row -> nth_error cols i = Some c -> nth_error vs i = Some v -> row_read row c (Z.of_nat i) = Ok v.
Proof.
  intros (l & L & Len & _ & H) Hc Hv. specialize (H i c v Hc Hv). unfold row_read. destruct (nth_error l i) as [[bs|]|] eqn:E.
  - destruct (layout_at l row i _ L E) as (off & rest & -> & A). cbn [bind]. rewrite A. cbn [bind]. apply (proj1 H).
  - pose proof (layout_at l row i _ L E) as A. cbn in A. rewrite A. cbn [bind]. congruence.
  - rewrite (layout_beyond l row i L) by (now apply nth_error_None). cbn [bind]. congruence.
Qed.
Lemma row_extend cols vs row c : Row cols vs row -> Row (cols ++ [c]) (vs ++ [DNull]) row.
Proof.
  intros (l & L & Len & Lv & H). exists l. split; [exact L|]. rewrite !app_length. cbn [length]. split; [lia|]. split; [lia|]. intros i c0 v Hc Hv.
  destruct (Nat.lt_ge_cases i (length cols)) as [Hi|Hi].
  - rewrite nth_error_app1 in Hc by exact Hi. rewrite nth_error_app1 in Hv by lia. now apply (H i c0 v).
  - replace (nth_error l i) with (@None (option (list Z))) by (symmetry; apply nth_error_None; lia).
    rewrite nth_error_app2 in Hv by lia. destruct (i - length vs)%nat as [|[|]]; cbn in Hv; congruence.
Qed.
(** a value (reference and identity resolved) and its cell *)
Definition cell_of (c : column) (v : dval) (x : option (list Z)) : Prop :=
  match v with
  | DNull => x = None
  | _ => exists bs, x = Some bs /\ kept c v bs
  end.
Lemma cells_row cols vs l row : Layout l row -> Forall2 (fun cv x => cell_of (fst cv) (snd cv) x) (combine cols vs) l -> length vs = length cols -> Row cols vs row.
Proof.
  intros L F Lv. exists l. split; [exact L|]. pose proof (F2_len F) as Len. rewrite combine_length in Len. split; [lia|]. split; [exact Lv|].
  intros i c v Hc Hv. assert (Hi : nth_error (combine cols vs) i = Some (c, v)).
  { clear -Hc Hv. revert vs i Hc Hv. induction cols as [|a cols IH]; intros [|b vs] [|i] Hc Hv; cbn in *; try discriminate; [congruence|now apply IH]. }
  assert (X : exists x, nth_error l i = Some x /\ cell_of c v x).
  { clear -F Hi. revert i Hi. induction F as [|a x ls rs P _ IH]; intros [|i] Hi; cbn in *; try discriminate; [injection Hi as ->; exists x; auto|now apply IH]. }
  destruct X as (x & -> & P). destruct v; cbn in P; try (destruct P as (bs & -> & S); exact S). now rewrite P.
Qed.

(** creation: the cells of the resolved values *)
Definition eff (refs : list dval) (identity : option dval) (c : column) (v : dval) : dval :=
  if c_identity c then match identity with Some i => i | None => DNull end else match v with DRef i => nth i refs DNull | _ => v end.
Lemma deref_ok refs v : ref_ok refs v -> exists x, deref refs v = Ok x /\ x = (match v with DRef i => nth i refs DNull | _ => v end) /\ (forall j, x <> DRef j).
Proof.
  destruct v; cbn [ref_ok deref]; try (intros _; eexists; split; [reflexivity|]; split; [reflexivity|discriminate]).
  intros (x & E & N). rewrite E. exists x. split; [reflexivity|]. split; [|exact N]. symmetry. now apply nth_error_nth.
Qed.
Lemma encode_eff c refs identity v : column_ok c -> ref_ok refs v -> (c_identity c = true -> identity <> None) -> fits c (eff refs identity c v) -> (c_identity c = true -> eff refs identity c v <> DNull) ->
  exists x, value_data_encode v c refs identity = Ok x /\ cell_of c (eff refs identity c v) x /\ value_data_size v c refs = Ok (match x with Some bs => zlen bs | None => 0 end) /\
    match x with Some bs => zlen bs | None => 0 end <= weight (eff refs identity c v).
Proof.
  intros [Hc Hi] Hr Hn Hf Hid. destruct (deref_ok refs v Hr) as (x & Ed & Ex & Nx). unfold eff in *. rewrite <- Ex in *. clear Ex.
  unfold value_data_encode, value_data_size. rewrite Ed. cbn [bind]. destruct c as [ty sz ident nn]. cbn [c_identity] in *. destruct ident.
  - destruct (Hi eq_refl) as [T Sz]. cbn [c_type c_size] in T, Sz. subst ty. destruct identity as [i|]; [|now destruct (Hn eq_refl)]. cbn [bind].
    destruct Hf as [[-> _]|Hh]; [now destruct (Hid eq_refl)|]. destruct (encode_ok (mkcol TInt sz true nn) i Hc Hh) as (bs & E & S & St & W). pose proof E as E0. exists (Some bs).
    unfold holds in Hh. cbn [c_type] in Hh. destruct i; try contradiction. split; [exact E|]. split; [exists bs; repeat split; (discriminate || apply St || exact W || exact E0)|]. split; [|exact W]. rewrite (proj1 (proj2 St)) by (cbn [c_size]; lia). reflexivity.
  - cbn [bind]. destruct Hf as [[-> N]|Hh].
    + exists None. cbn [c_not_null] in N. rewrite N. repeat split; try reflexivity.
    + destruct (encode_ok (mkcol ty sz false nn) x Hc Hh) as (bs & E & S & St & W). pose proof E as E0. exists (Some bs).
      unfold encode1, size1, value_data_encode, value_data_size in E, S. cbn [c_type c_size c_identity c_not_null] in *.
      destruct x; try (now destruct (Nx i)); try (exfalso; unfold holds in Hh; cbn [c_type] in Hh; destruct ty; exact Hh);
        cbn [deref bind] in E, S; (split; [exact E|]); (split; [exists bs; repeat split; (discriminate || apply St || exact W || exact E0)|]); (split; [exact S|exact W]).
Qed.
Lemma create_cells refs identity : forall cols vals, length vals = length cols -> Forall column_ok cols -> Forall (ref_ok refs) vals -> (existsb c_identity cols = true -> identity <> None) ->
  Forall2 (fun c v => fits c (eff refs identity c v) /\ (c_identity c = true -> eff refs identity c v <> DNull)) cols vals ->
  let vs := map (fun cv => eff refs identity (fst cv) (snd cv)) (combine cols vals) in
  exists l, Forall2 (fun cv x => cell_of (fst cv) (snd cv) x) (combine cols vs) l /\ data_size cols vals refs = Ok (zlen (cdata l)) /\ zlen (cdata l) <= fold_right Z.add 0 (map weight vs) /\
    forall row pos i, create_loop row pos i cols vals refs identity = build row pos i l.
Proof.
  induction cols as [|c cols IH]; intros [|v vals] Len Hc Hr Hid F; try discriminate; cbn zeta.
  - exists []. repeat split; try constructor. cbn. lia.
  - inversion Hc as [|? ? Hc1 Hc2]; subst. inversion Hr as [|? ? Hr1 Hr2]; subst. inversion F as [|? ? ? ? [F1 F1'] F2]; subst. cbn [existsb] in Hid.
    destruct (encode_eff c refs identity v Hc1 Hr1 ltac:(intros E; apply Hid; now rewrite E) F1 F1') as (x & E & C & S & W).
    destruct (IH vals ltac:(now injection Len) Hc2 Hr2 ltac:(intros E'; apply Hid; rewrite E'; now rewrite orb_true_r) F2) as (l & FL & DS & WL & CL). cbn zeta in *.
    exists (x :: l). cbn [combine map fst snd]. split; [now constructor|]. cbn [data_size create_loop cdata flat_map fold_right map]. fold (cdata l). rewrite zlen_app. split.
    + rewrite S. cbn [bind]. rewrite DS. cbn [bind]. f_equal. destruct x; [reflexivity|]. unfold zlen. cbn [length]. lia.
    + split; [destruct x; [lia|unfold zlen at 1; cbn [length]; lia]|]. intros row pos i. rewrite E. cbn [bind]. destruct x as [bs|]; cbn [build].
      * destruct (poke row pos bs); cbn [bind]; try reflexivity. destruct (row_set _ i pos); cbn [bind]; try reflexivity. apply CL.
      * destruct (row_set row i 0); cbn [bind]; try reflexivity. apply CL.
Qed.
Lemma combine_map_fst {A B C} (f : A * B -> C) : forall (l : list A) (m : list B), length l = length m -> length (map f (combine l m)) = length l.
Proof. intros l m H. rewrite map_length, combine_length. lia. Qed.
Lemma create_row mem cols vals refs identity : heap_ok mem -> length vals = length cols -> Forall column_ok cols -> Forall (ref_ok refs) vals -> (existsb c_identity cols = true -> identity <> None) ->
  Forall2 (fun c v => fits c (eff refs identity c v) /\ (c_identity c = true -> eff refs identity c v <> DNull)) cols vals ->
  small (map (fun cv => eff refs identity (fst cv) (snd cv)) (combine cols vals)) ->
  exists row, row_create mem cols vals refs identity = Ok row /\ Row cols (map (fun cv => eff refs identity (fst cv) (snd cv)) (combine cols vals)) row /\ row_size row = Ok (zlen row).
Proof.
  intros Hm Len Hc Hr Hid F Sm. destruct (create_cells refs identity cols vals Len Hc Hr Hid F) as (l & FL & DS & WL & CL). cbn zeta in *.
  set (vs := map _ (combine cols vals)) in *. assert (Lv : length vs = length cols) by (apply combine_map_fst; now symmetry).
  assert (Ll : length l = length cols) by (pose proof (F2_len FL) as X; rewrite combine_length, Lv in X; lia). destruct Sm as [Sm1 Sm2]. rewrite Lv in Sm1, Sm2.
  destruct (create_layout mem l Hm ltac:(rewrite Ll; exact Sm2) ltac:(rewrite Ll; unfold INT32_MAX; lia)) as (row0 & pos & row & A & D & B & L).
  exists row. split; [|split; [apply (cells_row cols vs l row L FL Lv)|apply (layout_size l row L)]].
  unfold row_create. rewrite DS. cbn [bind]. rewrite <- Ll, A. cbn [bind]. rewrite D. cbn [bind]. rewrite CL. exact B.
Qed.

(** ** update *)
Inductive ascending : Z -> list (Z * dval) -> Prop :=
| asc_nil i : ascending i []
| asc_cons i o v l : i <= o -> ascending (o + 1) l -> ascending i ((o, v) :: l).
Lemma asc_weak i j l : ascending j l -> i <= j -> ascending i l.
Proof. intros A L; destruct A; constructor; [lia|assumption]. Qed.
Lemma asc_assoc_low i l : ascending i l -> forall j, j < i -> assoc j l = None.
Proof. induction 1 as [|i o v l Ho _ IH]; intros j Hj; cbn [assoc]; [reflexivity|]. replace (o =? j) with false by lia. apply IH. lia. Qed.
Lemma take_ok i ups : ascending i ups -> exists r, take i ups = (assoc i ups, r) /\ ascending (i + 1) r /\ forall j, i < j -> assoc j r = assoc j ups.
Proof.
  intros A. destruct A as [|i o v l Ho A]; cbn [take assoc].
  - exists []. repeat split; constructor.
  - destruct (Z.eqb_spec o i) as [-> |N].
    + exists l. split; [reflexivity|]. split; [exact A|]. intros j Hj. replace (i =? j) with false by lia. reflexivity.
    + exists ((o, v) :: l). split; [|split; [constructor; [lia|exact A]|reflexivity]]. rewrite (asc_assoc_low _ _ A) by lia. reflexivity.
Qed.
Definition upd_from (i : nat) (vals : list dval) (ups : list (Z * dval)) : list dval :=
  map (fun iv => match assoc (Z.of_nat (fst iv)) ups with Some v => v | None => snd iv end) (combine (seq i (length vals)) vals).
Lemma upd_from_len i vals ups : length (upd_from i vals ups) = length vals.
Proof. unfold upd_from. rewrite map_length, combine_length, seq_length. lia. Qed.
Lemma upd_from_ext i vals u1 u2 : (forall j, Z.of_nat i <= j -> assoc j u1 = assoc j u2) -> upd_from i vals u1 = upd_from i vals u2.
Proof.
  intros H. unfold upd_from. apply map_ext_in. intros [k v] Hin. cbn [fst snd]. apply in_combine_l in Hin. apply in_seq in Hin. rewrite H by lia. reflexivity.
Qed.
(** the cells that an update may change *)
Definition can_set (cols : list column) (ups : list (Z * dval)) : Prop :=
  forall i c v, nth_error cols i = Some c -> assoc (Z.of_nat i) ups = Some v -> c_identity c = false /\ fits c v.
Lemma encode_plain c v : column_ok c -> c_identity c = false -> fits c v ->
  exists x, value_data_encode v c [] None = Ok x /\ cell_of c v x /\ value_data_size v c [] = Ok (match x with Some bs => zlen bs | None => 0 end) /\ match x with Some bs => zlen bs | None => 0 end <= weight v.
Proof.
  intros Hc Hi Hf. assert (Hr : ref_ok [] v). { destruct v; cbn; auto. destruct Hf as [[? _]|Hf]; [discriminate|]. unfold holds in Hf. destruct (c_type c); contradiction. }
  assert (E : eff [] None c v = v). { unfold eff. rewrite Hi. destruct v; try reflexivity. destruct Hf as [[? _]|Hf]; [discriminate|]. unfold holds in Hf. destruct (c_type c); contradiction. }
  pose proof (encode_eff c [] None v Hc Hr) as H. rewrite E in H. apply H; try exact Hf; congruence.
Qed.
Definition src_ok (src : list Z) (i : nat) (cols : list column) (vs : list dval) : Prop :=
  forall j c v, nth_error cols j = Some c -> nth_error vs j = Some v ->
    (v = DNull /\ row_at src (Z.of_nat (i + j)) = Ok None) \/
    (exists bs off rest, kept c v bs /\ row_at src (Z.of_nat (i + j)) = Ok (Some off) /\ at_ src off = Ok (bs ++ rest)).
Lemma row_src cols vs row : Row cols vs row -> src_ok row 0 cols vs.
Proof.
  intros (l & L & Len & _ & H) j c v Hc Hv. specialize (H j c v Hc Hv). cbn [Nat.add]. destruct (nth_error l j) as [[bs|]|] eqn:E.
  - right. destruct (layout_at l row j _ L E) as (off & rest & A & B). exists bs, off, rest. auto.
  - left. split; [exact H|]. exact (layout_at l row j _ L E).
  - left. split; [exact H|]. apply (layout_beyond l row j L). now apply nth_error_None.
Qed.
Lemma update_cells src : forall cols vs i ups, length vs = length cols -> Forall column_ok cols -> src_ok src i cols vs -> ascending (Z.of_nat i) ups ->
  (forall j c v, nth_error cols j = Some c -> assoc (Z.of_nat (i + j)) ups = Some v -> c_identity c = false /\ fits c v) ->
  exists l, Forall2 (fun cv x => cell_of (fst cv) (snd cv) x) (combine cols (upd_from i vs ups)) l /\ update_size src (Z.of_nat i) cols ups = Ok (zlen (cdata l)) /\
    zlen (cdata l) <= fold_right Z.add 0 (map weight (upd_from i vs ups)) /\ forall row pos, update_loop src row pos (Z.of_nat i) cols ups = build row pos (Z.of_nat i) l.
Proof.
  induction cols as [|c cols IH]; intros [|v vs] i ups Len Hc Hs A Hu; try discriminate.
  - exists []. repeat split; try constructor. cbn. lia.
  - inversion Hc as [|? ? Hc1 Hc2]; subst. destruct (take_ok _ _ A) as (r & Et & Ar & Er). replace (Z.of_nat i + 1) with (Z.of_nat (S i)) in * by lia.
    destruct (IH vs (S i) r) as (l & FL & SZ & WL & CL).
    + now injection Len.
    + exact Hc2.
    + intros j c0 v0 H1 H2. replace (S i + j)%nat with (i + S j)%nat by lia. apply Hs; assumption.
    + exact Ar.
    + intros j c0 v0 H1 H2. rewrite Er in H2 by lia. apply (Hu (S j) c0 v0 H1). rewrite <- H2. f_equal. lia.
    + rewrite (upd_from_ext (S i) vs r ups) in * by (intros; apply Er; lia).
      assert (X : exists x, cell_of c (match assoc (Z.of_nat i) ups with Some u => u | None => v end) x /\
        match assoc (Z.of_nat i) ups with Some v => value_data_size v c [] | None => do p <- row_at src (Z.of_nat i);
                  match p with None => Ok 0 | Some off => if 0 <? c_size c then Ok (c_size c) else do l <- at_ src off; do bs <- cell_bytes c l; Ok (zlen bs) end end
          = Ok (match x with Some bs => zlen bs | None => 0 end) /\
        match assoc (Z.of_nat i) ups with Some v => value_data_encode v c [] None | None =>
                  do p <- row_at src (Z.of_nat i); match p with None => Ok None | Some off => do l <- at_ src off; do bs <- cell_bytes c l; Ok (Some bs) end end = Ok x /\
        match x with Some bs => zlen bs | None => 0 end <= weight (match assoc (Z.of_nat i) ups with Some u => u | None => v end)).
      { destruct (assoc (Z.of_nat i) ups) as [u|] eqn:Eu.
        - destruct (Hu 0%nat c u eq_refl) as [I F]; [now rewrite Nat.add_0_r|]. destruct (encode_plain c u Hc1 I F) as (x & E & C & S & W). exists x. auto.
        - destruct (Hs 0%nat c v eq_refl eq_refl) as [[-> R]|(bs & off & rest & K & R & T)]; rewrite Nat.add_0_r in R; rewrite R; cbn [bind].
          + exists None. repeat split. cbn. lia.
          + destruct K as (St & W & N & En). exists (Some bs). split; [destruct v; try congruence; cbn; exists bs; repeat split; (apply St || assumption)|]. rewrite T. cbn [bind].
            destruct St as (_ & Sz & Rd). rewrite (proj2 (Rd rest)). cbn [bind]. split; [|split; [reflexivity|exact W]]. destruct (Z.ltb_spec 0 (c_size c)); [now rewrite Sz|reflexivity]. }
      destruct X as (x & C & S & E & W). exists (x :: l). unfold upd_from in *. cbn [length seq combine map fst snd] in *. split; [now constructor|].
      cbn [cdata flat_map fold_right]. fold (cdata l). rewrite zlen_app. cbn [update_size update_loop]. rewrite Et. split.
      * rewrite S. cbn [bind]. replace (Z.of_nat i + 1) with (Z.of_nat (Datatypes.S i)) by lia. rewrite SZ. cbn [bind]. f_equal. destruct x; [reflexivity|]. unfold zlen. cbn [length]. lia.
      * split; [destruct x; [lia|unfold zlen at 1; cbn [length]; lia]|]. intros row pos. rewrite E. cbn [bind]. destruct x as [bs|]; cbn [build].
        -- destruct (poke row pos bs); cbn [bind]; try reflexivity. destruct (row_set _ _ pos); cbn [bind]; try reflexivity. replace (Z.of_nat i + 1) with (Z.of_nat (Datatypes.S i)) by lia. apply CL.
        -- destruct (row_set row _ 0); cbn [bind]; try reflexivity. replace (Z.of_nat i + 1) with (Z.of_nat (Datatypes.S i)) by lia. apply CL.
Qed.
Lemma update_row mem src cols vs ups : heap_ok mem -> Row cols vs src -> Forall column_ok cols -> ascending 0 ups -> can_set cols ups -> small (updated vs ups) ->
  exists row, row_update mem src cols ups = Ok row /\ Row cols (updated vs ups) row /\ row_size row = Ok (zlen row).
Proof.
  intros Hm HR Hc A Hu Sm. assert (Lv : length vs = length cols) by (destruct HR as (l & _ & _ & Lv & _); exact Lv).
  destruct (update_cells src cols vs 0 ups Lv Hc (row_src cols vs src HR) A) as (l & FL & SZ & WL & CL); [intros j c v H1 H2; now apply (Hu j c v)|].
  change (upd_from 0 vs ups) with (updated vs ups) in *. assert (Lu : length (updated vs ups) = length cols) by (rewrite <- Lv; apply (upd_from_len 0)).
  assert (Ll : length l = length cols) by (pose proof (F2_len FL) as X; rewrite combine_length, Lu in X; lia). destruct Sm as [Sm1 Sm2]. rewrite Lu in Sm1, Sm2.
  destruct (create_layout mem l Hm ltac:(rewrite Ll; exact Sm2) ltac:(rewrite Ll; unfold INT32_MAX; lia)) as (row0 & pos & row & Al & D & B & L).
  exists row. split; [|split; [apply (cells_row cols _ l row L FL Lu)|apply (layout_size l row L)]].
  unfold row_update. change 0 with (Z.of_nat 0). rewrite SZ. cbn [bind]. rewrite <- Ll, Al. cbn [bind]. rewrite D. cbn [bind]. rewrite CL. exact B.
Qed.
(** the updates as the compiler sorts them *)
Lemma sort_insert_ok u : forall l i, ascending i l -> i <= fst u -> match sort_insert u l with
  | Some r => ascending i r /\ assoc (fst u) l = None /\ forall j, assoc j r = (if fst u =? j then Some (snd u) else assoc j l)
  | None => assoc (fst u) l <> None end.
Proof.
  intros l. induction l as [|[o v] l IH]; intros i A Hi; cbn [sort_insert].
  - destruct u as [a b]. cbn [fst snd assoc] in *. split; [constructor; [exact Hi|constructor]|]. split; [reflexivity|]. intros j. reflexivity.
  - inversion A as [|? ? ? ? Ho A']; subst. cbn [fst assoc]. destruct (Z.eqb_spec (fst u) o) as [E|N].
    + rewrite E, Z.eqb_refl. discriminate.
    + destruct (Z.ltb_spec (fst u) o) as [L|L].
      * destruct u as [a b]. cbn [fst snd] in *. split; [constructor; [exact Hi|constructor; [lia|exact A']]|]. split; [replace (o =? a) with false by lia; apply (asc_assoc_low _ _ A'); lia|]. intros j. reflexivity.
      * specialize (IH (o + 1) A' ltac:(lia)). replace (o =? fst u) with false by lia. destruct (sort_insert u l) as [r|].
        -- destruct IH as (A2 & N2 & F). split; [constructor; [exact Ho|exact A2]|]. split; [exact N2|]. intros j. cbn [assoc]. rewrite F. destruct (Z.eqb_spec o j), (Z.eqb_spec (fst u) j); try reflexivity; lia.
        -- exact IH.
Qed.
Lemma sort_updates_ok l : forall acc r, Forall (fun u => 0 <= fst u) l -> ascending 0 acc -> sort_updates l acc = Some r ->
  ascending 0 r /\ NoDup (map fst l) /\ forall j, assoc j r = match assoc j acc with Some v => Some v | None => assoc j l end.
Proof.
  induction l as [|u l IH]; intros acc r Hp A H; cbn [sort_updates map] in *.
  - injection H as ->. split; [exact A|]. split; [constructor|]. intros j. cbn [assoc]. now destruct (assoc j r).
  - inversion Hp as [|? ? Hp1 Hp2]; subst. pose proof (sort_insert_ok u acc 0 A Hp1) as S. destruct (sort_insert u acc) as [acc'|]; [|discriminate]. destruct S as (A' & N & F).
    destruct (IH acc' r Hp2 A' H) as (Ar & Nd & Fr). split; [exact Ar|]. 
    assert (NI : forall x, In x (map fst l) -> assoc x acc' = None).
    { intros x Hx. clear -H Hp2 A' Hx. revert acc' A' H Hp2 Hx. induction l as [|u l IH]; intros acc A H Hp Hx; cbn in *; [contradiction|]. inversion Hp; subst. pose proof (sort_insert_ok u acc 0 A H2) as S.
      destruct (sort_insert u acc) as [acc2|]; [|discriminate]. destruct S as (A2 & N & F). destruct Hx as [<- |Hx]; [exact N|]. specialize (IH acc2 A2 H H3 Hx). rewrite F in IH. destruct (fst u =? x); [discriminate|exact IH]. }
    split; [constructor; [intros Hi; specialize (NI _ Hi); rewrite F, Z.eqb_refl in NI; discriminate|exact Nd]|].
    intros j. rewrite Fr, F. destruct u as [o v]. cbn [fst snd assoc]. destruct (Z.eqb_spec o j) as [-> |]; [cbn [fst] in N; now rewrite N|reflexivity].
Qed.
