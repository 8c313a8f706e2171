(** C14: the checksums of WAL records.  C60: the two checksum implementations agree. *)
From Verif Require Import Base CrcTables CrcModel CrcProofs WalModel WalSpec WalRecord WalFiles WalLog WalProps.
Local Open Scope Z_scope.

(** ** specification *)
(** bit [i] of a buffer, from the lowest bit of the first byte *)
Definition bit (l : list Z) (i : nat) : bool := Z.testbit (nth (i / 8) l 0) (Z.of_nat (i mod 8)).
(** two different buffers whose differing bits are within 32 consecutive positions *)
Definition burst32 (a b : list Z) : Prop :=
  length a = length b /\ a <> b /\ exists k, forall i, bit a i <> bit b i -> (k <= i < k + 32)%nat.

(** ** C60 *)
(** The table implementation and the one with the CRC32 instruction give the same checksum of
    every buffer, at every address and from every previous checksum. *)
Theorem C60_implementations_agree : forall addr crc buf, 0 <= crc < 2 ^ 32 -> bytes_ok buf = true ->
  crc32 addr crc buf = crc32_sse crc buf.
Proof. intros addr c l Hc H. now rewrite crc32_div, crc32_sse_div. Qed.
Print Assumptions C60_implementations_agree.
(** The checksum can be computed in parts, whatever implementation computes each of them. *)
Theorem C60_chunks : forall addr addr' crc a b, 0 <= crc < 2 ^ 32 -> bytes_ok a = true -> bytes_ok b = true ->
  crc32 addr' (crc32_sse crc a) b = crc32_sse crc (a ++ b) /\ crc32_sse (crc32 addr crc a) b = crc32 addr' crc (a ++ b) /\
  0 <= crc32_sse crc (a ++ b) < 2 ^ 32.
Proof.
  intros addr addr' c a b Hc Ha Hb. assert (bytes_ok (a ++ b) = true) as Hab by now rewrite bytes_ok_app, Ha, Hb.
  pose proof (crc_div_range c a Hc Ha). rewrite !crc32_div, !crc32_sse_div; auto; [|now rewrite crc32_div..|now rewrite crc32_sse_div].
  rewrite crc_div_app by exact Ha. repeat split; try reflexivity; apply crc_div_range; auto.
Qed.
Print Assumptions C60_chunks.
Example C60_nonvacuous : crc32 3 7 (map Z.of_nat (seq 0 21)) = crc32_sse 7 (map Z.of_nat (seq 0 21)) /\ crc32_sse 4294967295 [49; 50; 51; 52; 53; 54; 55; 56; 57] = Z.lxor 3808858755 4294967295.
Proof. split; vm_compute; reflexivity. Qed.

(** ** bits *)
Lemma le_dec_bit l : bytes_ok l = true -> forall i, bit l i = Z.testbit (le_dec l) (Z.of_nat i).
Proof.
  induction l as [|b l IH]; intros H i.
  - unfold bit. cbn [le_dec]. destruct (i / 8)%nat; cbn [nth]; now rewrite !Z.bits_0.
  - apply bytes_ok_cons in H as [Hb H]. rewrite le_dec_cons by exact Hb. rewrite Z.lxor_spec, Z.shiftl_spec by lia. unfold bit.
    destruct (Nat.lt_ge_cases i 8) as [L|L].
    + rewrite Nat.div_small, Nat.mod_small by lia. cbn [nth]. rewrite (Z.testbit_neg_r _ (Z.of_nat i - 8)) by lia. now rewrite xorb_false_r.
    + replace i with (8 + (i - 8))%nat at 1 2 by lia. replace ((8 + (i - 8)) / 8)%nat with (S ((i - 8) / 8)) by (replace (8 + (i - 8))%nat with (1 * 8 + (i - 8))%nat by lia; now rewrite Nat.div_add_l by lia).
      replace ((8 + (i - 8)) mod 8)%nat with ((i - 8) mod 8)%nat by (replace (8 + (i - 8))%nat with ((i - 8) + 1 * 8)%nat by lia; now rewrite Nat.mod_add by lia).
      cbn [nth]. fold (bit l (i - 8)). rewrite IH by exact H. replace (Z.of_nat (i - 8)) with (Z.of_nat i - 8) by lia.
      assert (Z.testbit b (Z.of_nat i) = false) as ->; [|now rewrite xorb_false_l].
      apply (proj1 (lt_pow_bits b 8 ltac:(lia) ltac:(lia))); lia.
Qed.
Lemma le_dec_inj a b : length a = length b -> bytes_ok a = true -> bytes_ok b = true -> le_dec a = le_dec b -> a = b.
Proof.
  revert b. induction a as [|x a IH]; intros [|y b] L Ha Hb E; try discriminate; [reflexivity|].
  apply bytes_ok_cons in Ha as [Hx Ha]. apply bytes_ok_cons in Hb as [Hy Hb]. injection L as L. cbn [le_dec] in E.
  assert (x = y /\ le_dec a = le_dec b) as [-> E2] by lia. f_equal. auto.
Qed.
Lemma burst_of a b : bytes_ok a = true -> bytes_ok b = true -> burst32 a b -> burst a b.
Proof.
  intros Ha Hb (L & N & k & H). set (X := Z.lxor (le_dec a) (le_dec b)).
  assert (0 <= X) as P by (apply Z.lxor_nonneg; pose proof (le_dec_range a Ha); pose proof (le_dec_range b Hb); lia).
  assert (forall i, Z.testbit X i = true -> Z.of_nat k <= i < Z.of_nat k + 32) as HX.
  { intros i Hi. destruct (Z.neg_nonneg_cases i) as [Hn|Hn]; [rewrite Z.testbit_neg_r in Hi by lia; discriminate|].
    unfold X in Hi. rewrite Z.lxor_spec in Hi. replace i with (Z.of_nat (Z.to_nat i)) in Hi by lia. rewrite <- !le_dec_bit in Hi by assumption.
    specialize (H (Z.to_nat i)). destruct (bit a (Z.to_nat i)), (bit b (Z.to_nat i)); try discriminate; specialize (H ltac:(discriminate)); lia. }
  exists (Z.of_nat k), (Z.shiftr X (Z.of_nat k)). split; [lia|].
  assert (X = Z.shiftl (Z.shiftr X (Z.of_nat k)) (Z.of_nat k)) as E.
  { apply Z.bits_inj'. intros i Hi. rewrite Z.shiftl_spec by lia. destruct (Z.le_gt_cases (Z.of_nat k) i) as [G|G].
    - rewrite Z.shiftr_spec by lia. f_equal. lia.
    - rewrite (Z.testbit_neg_r _ (i - Z.of_nat k)) by lia. destruct (Z.testbit X i) eqn:T; [|reflexivity]. apply HX in T. lia. }
  split; [|exact E]. assert (0 <= Z.shiftr X (Z.of_nat k)) as P2 by now apply Z.shiftr_nonneg. split.
  - enough (Z.shiftr X (Z.of_nat k) <> 0) by lia. intros E0. rewrite E0, Z.shiftl_0_l in E. apply N, le_dec_inj; auto. now apply Z.lxor_eq.
  - apply lt_pow_bits; [lia|lia|]. intros i Hi. rewrite Z.shiftr_spec by lia. destruct (Z.testbit X (i + Z.of_nat k)) eqn:T; [|reflexivity]. apply HX in T. lia.
Qed.
Lemma bit_app_l a c i : (i < 8 * length a)%nat -> bit (a ++ c) i = bit a i.
Proof. intros H. unfold bit. rewrite app_nth1; [reflexivity|]. apply Nat.div_lt_upper_bound; lia. Qed.
Lemma bit_app_r a c i : bit (a ++ c) (8 * length a + i) = bit c i.
Proof.
  unfold bit. replace (8 * length a + i)%nat with (length a * 8 + i)%nat by lia. rewrite Nat.div_add_l by lia.
  rewrite app_nth2 by lia. f_equal; [f_equal; lia|]. f_equal. rewrite Nat.add_comm. apply Nat.mod_add. lia.
Qed.
Lemma bit_over a i : (8 * length a <= i)%nat -> bit a i = false.
Proof. intros H. unfold bit. rewrite nth_overflow; [apply Z.bits_0|]. apply Nat.div_le_lower_bound; lia. Qed.
(** a part of a burst *)
Lemma burst32_app_l a b c d : length a = length b -> a <> b -> burst32 (a ++ c) (b ++ d) -> burst32 a b.
Proof.
  intros L N (_ & _ & k & H). split; [exact L|]. split; [exact N|]. exists k. intros i Hi. apply H.
  destruct (Nat.lt_ge_cases i (8 * length a)) as [G|G]; [now rewrite !bit_app_l by lia|]. rewrite !bit_over in Hi by lia. congruence.
Qed.
Lemma burst32_app_r a b c d : length a = length b -> length c = length d -> c <> d -> burst32 (a ++ c) (b ++ d) -> burst32 c d.
Proof.
  intros L L2 N (_ & _ & k & H). split; [exact L2|]. split; [exact N|]. exists (k - 8 * length a)%nat. intros i Hi.
  specialize (H (8 * length a + i)%nat). rewrite bit_app_r in H. rewrite L, bit_app_r in H. specialize (H Hi). lia.
Qed.
Lemma crc_burst c a b : 0 <= c < 2 ^ 32 -> bytes_ok a = true -> bytes_ok b = true -> burst32 a b -> crc_div c a <> crc_div c b.
Proof. intros Hc Ha Hb H. apply crc_div_burst; auto; [apply H|now apply burst_of]. Qed.

(** ** C14 *)
Local Open Scope nat_scope.
Lemma replay_cmds_burst M : forall chunks A B D E l, Forall2 (cmd_ok true) M chunks ->
  length D = length (flat_map data chunks) -> bytes_ok D = true -> burst32 (flat_map data chunks) D ->
  l = A ++ meta_bytes M ++ B ++ D -> (Z.of_nat (length (flat_map data chunks)) < 2 ^ 32)%Z ->
  E = length A + length (meta_bytes M) + length B ->
  replay_cmds (fun _ _ => false) true l (length M) (length A) E = Err.
Proof.
  induction M as [|c M IH]; intros chunks A B D E l F2 LD BD Bu El Sm ->; inversion F2 as [|? chunk ? chunks' H F2']; subst.
  { destruct D; [|discriminate]. now destruct Bu as (_ & N & _). }
  cbn [length replay_cmds].
  assert (meta_bytes (c :: M) = rcmd_bytes c ++ meta_bytes M) as EM by reflexivity. rewrite EM in *.
  assert (flat_map data (chunk :: chunks') = data chunk ++ flat_map data chunks') as ED by reflexivity. rewrite ED in *.
  rewrite app_length in Sm, LD. pose proof H as (Sh & Fo & Li & Bi & Sz & RK & CK).
  assert (length (rcmd_bytes c) = 25) as L25 by now apply rcmd_bytes_length.
  set (D1 := firstn (length (data chunk)) D) in *. set (D2 := skipn (length (data chunk)) D) in *.
  assert (D = D1 ++ D2) as Esp by (symmetry; apply firstn_skipn).
  assert (length D1 = length (data chunk)) as L1 by (unfold D1; rewrite firstn_length; lia).
  assert (length D2 = length (flat_map data chunks')) as L2 by (unfold D2; rewrite skipn_length; lia).
  destruct (bytes_ok_firstn (length (data chunk)) D BD) as [B1 B2]. fold D1 in B1. fold D2 in B2.
  clearbody D1 D2. subst D.
  rewrite (read_rcmd_at true c chunk _ A (meta_bytes M ++ B ++ D1 ++ D2)); [|exact H|now rewrite <- !app_assoc|reflexivity].
  cbn [bind]. rewrite <- !app_assoc.
  set (l := A ++ rcmd_bytes c ++ meta_bytes M ++ B ++ D1 ++ D2) in *.
  set (P := A ++ rcmd_bytes c ++ meta_bytes M ++ B).
  assert (l = P ++ D1 ++ D2) as El by (unfold l, P; now rewrite <- !app_assoc).
  assert (length A + length (rcmd_bytes c ++ meta_bytes M) + length B = length P) as LP by (unfold P; rewrite !app_length; lia). rewrite LP.
  unfold record_validate_cmd. rewrite (slice_at l P D1 D2); [|exact El|reflexivity|rewrite Sz, u32_small by lia; lia]. cbn [bind].
  rewrite crc_sse_div by (try lia; exact B1).
  destruct (list_eq_dec Z.eq_dec (data chunk) D1) as [<-|N].
  - rewrite <- CK by reflexivity. rewrite Z.eqb_refl.
    rewrite (replay_cmd_ok true c chunk l P D2 H El) by lia. cbn [bind].
    replace (length A + 25) with (length (A ++ rcmd_bytes c)) by (rewrite app_length; lia).
    rewrite (IH chunks' (A ++ rcmd_bytes c) (B ++ data chunk) D2 _ l F2'); auto.
    + apply (burst32_app_r (data chunk) (data chunk) _ D2); auto. intros Eq. destruct Bu as (_ & N & _). congruence.
    + unfold l. now rewrite <- !app_assoc.
    + lia.
    + unfold P. rewrite !app_length. lia.
  - assert (crc_div 0 D1 <> c_crc c) as Nc.
    { rewrite CK by reflexivity. intros Eq. symmetry in Eq. revert Eq. apply crc_burst; [lia|apply data_ok; exact Fo|exact B1|].
      apply (burst32_app_l _ _ (flat_map data chunks') D2); auto. }
    apply Z.eqb_neq in Nc. now rewrite Nc.
Qed.

Lemma firstn_exact {A} (a b : list A) n : n = length a -> firstn n (a ++ b) = a.
Proof. intros ->. rewrite firstn_app, firstn_all, Nat.sub_diag. apply app_nil_r. Qed.
Lemma skipn_exact {A} (a b : list A) n : n = length a -> skipn n (a ++ b) = b.
Proof. intros ->. rewrite skipn_app, skipn_all, Nat.sub_diag. reflexivity. Qed.
Lemma app_inj {A} (a b c d : list A) : a ++ c = b ++ d -> length a = length b -> a = b /\ c = d.
Proof. revert b. induction a as [|x a IH]; intros [|y b] E L; try discriminate; [auto|]. injection E as -> E. injection L as L. destruct (IH b E L) as [-> ->]. auto. Qed.
Lemma burst32_ctx a b c : burst32 a b -> burst32 (a ++ c) (b ++ c).
Proof.
  intros (L & N & k & H). split; [now rewrite !app_length, L|]. split; [intros E; now apply app_inv_tail in E|]. exists k. intros i Hi.
  destruct (Nat.lt_ge_cases i (8 * length a)) as [G|G]; [rewrite !bit_app_l in Hi by lia; now apply H|].
  replace i with (8 * length a + (i - 8 * length a)) in Hi by lia. rewrite bit_app_r, L, bit_app_r in Hi. congruence.
Qed.
Lemma validate_parts K Bd Ms D n : length K = 4 -> length Bd = 20 -> le_dec (firstn 4 (skipn 12 Bd)) = Z.of_nat n -> length Ms = 25 * n ->
  bytes_ok (K ++ Bd ++ Ms ++ D) = true -> record_validate (K ++ Bd ++ Ms ++ D) = Ok (crc_div 0 (Ms ++ Bd) =? le_dec K)%Z.
Proof.
  intros LK LB Hn LM H. rewrite !bytes_ok_app in H. apply andb_prop in H as [BK H]. apply andb_prop in H as [BB H]. apply andb_prop in H as [BM _].
  assert (exists h, read_header (K ++ Bd ++ Ms ++ D) = Ok h /\ h_crc h = le_dec K /\ h_count h = Z.of_nat n) as (h & Eh & E1 & E2).
  { assert (forall off k, off + k <= 24 -> get_u (K ++ Bd ++ Ms ++ D) off k = Ok (le_dec (firstn k (skipn off (K ++ Bd ++ Ms ++ D))))) as G.
    { intros off k Hk. unfold get_u, slice. assert (off + k <=? length (K ++ Bd ++ Ms ++ D) = true) as -> by (apply Nat.leb_le; rewrite !app_length; lia). reflexivity. }
    unfold read_header. rewrite !G by lia. cbn [bind]. eexists. split; [reflexivity|]. cbn [h_crc h_count]. split.
    - cbn [skipn]. rewrite firstn_app, LK, firstn_all2 by lia. cbn [Nat.sub firstn]. now rewrite app_nil_r.
    - rewrite skipn_app, LK, (skipn_all2 K) by lia. cbn [app]. change (16 - 4) with 12. rewrite skipn_app, firstn_app, skipn_length, LB.
      change (4 - (20 - 12)) with 0. cbn [firstn]. now rewrite app_nil_r. }
  unfold record_validate. rewrite Eh. cbn [bind].
  rewrite (slice_at _ (K ++ Bd) Ms D); [|now rewrite <- app_assoc|rewrite app_length; lia|rewrite E2; lia]. cbn [bind].
  rewrite (slice_at _ K Bd (Ms ++ D)); [|reflexivity|lia|lia]. cbn [bind]. rewrite E1.
  pose proof (crc_div_range 0 Ms ltac:(lia) BM).
  rewrite !crc_sse_div; auto; try lia; [|rewrite crc_sse_div by (auto; lia); lia]. now rewrite crc_div_app by exact BM.
Qed.

(** Full statement: every burst of at most 32 bits is detected.  It is false (below): for a
    burst over the end of the stored checksum, and for a changed number of commands.
    Proved: every burst that is within the stored checksum, within the rest of the header
    without a change of the number of commands, or behind the header.  The record fails the
    validation of the record, or the validation of a command when it is replayed. *)
Theorem C14_burst_partial : forall t lsn r', txn_ok true t -> (0 <= lsn < 2 ^ 64)%Z ->
  let r := record_of true lsn t in
  bytes_ok r' = true -> burst32 r r' ->
  (firstn 4 r' = firstn 4 r \/ skipn 4 r' = skipn 4 r) ->
  (firstn 24 r' = firstn 24 r \/ skipn 24 r' = skipn 24 r) ->
  firstn 4 (skipn 16 r') = firstn 4 (skipn 16 r) ->
  record_validate r' = Ok false \/ replay_all true r' = Err.
Proof.
  intros t lsn r' Ht R r B' Bu C1 C2 C3. pose proof (txn_size true t Ht) as S.
  destruct Ht as (F & _ & _).
  destruct (record_facts true lsn t F R S) as (E & HR & E1 & E2 & E3 & E4 & BM & LM & (chunks & Ec & F2) & CK).
  specialize (CK eq_refl). fold r in E.
  set (h := w_header (write_end true (make_write true t) lsn)) in *. set (M := all_metas (make_write true t)) in *.
  assert (flat_map data chunks = data (concat t)) as ED.
  { rewrite <- Ec. clear. induction chunks as [|c l IH]; [reflexivity|]. cbn. rewrite data_app. f_equal. exact IH. }
  assert (length (header_body h) = 20) as LB by apply header_body_bytes.
  assert (length (le_enc 4 (h_crc h)) = 4) as LK by apply le_enc_length.
  assert (bytes_ok r = true) as BR by (apply record_length; auto).
  assert (le_dec (firstn 4 (skipn 12 (header_body h))) = Z.of_nat (length M)) as Hn.
  { unfold header_body. rewrite (app_assoc (le_enc 8 _)), skipn_exact, firstn_exact by (rewrite ?app_length, !le_enc_length; reflexivity).
    destruct HR as (_ & _ & _ & HC & _). rewrite <- E3. apply le_dec_enc. exact HC. }
  unfold header_bytes in E. rewrite <- app_assoc in E. 
  assert (Z.of_nat (length (data (concat t))) < 2 ^ 32)%Z as Sz' by (unfold write_size in S; fold M in S; lia).
  set (K := le_enc 4 (h_crc h)) in *. set (Bd := header_body h) in *. set (Mb := meta_bytes M) in *. set (Db := data (concat t)) in *.
  assert (le_dec K = h_crc h) as EK by (unfold K; apply le_dec_enc; apply HR).
  pose proof (proj1 Bu) as Lr.
  (* the parts of the other buffer *)
  assert (exists K' B2 M' D', r' = K' ++ B2 ++ M' ++ D' /\ length K' = 4 /\ length B2 = 20 /\ length M' = length Mb /\ length D' = length Db) as (K' & B2 & M' & D' & E' & LK' & LB' & LM' & LD').
  { exists (firstn 4 r'), (firstn 20 (skipn 4 r')), (firstn (length Mb) (skipn 24 r')), (skipn (length Mb) (skipn 24 r')).
    rewrite E, !app_length in Lr. rewrite firstn_skipn. change 24 with (4 + 20). rewrite <- (skipn_skipn 20 4), firstn_skipn, firstn_skipn, !firstn_length, !skipn_length. repeat split; lia. }
  assert (forall X, read_header (K ++ Bd ++ X) = Ok h) as RH by (intros X; rewrite app_assoc; now apply (read_header_at h)).
  assert (Mb = meta_bytes M) as EMb by reflexivity. rewrite <- ED in Sz'.
  clearbody K Bd Mb Db r. subst r r'.
  assert (firstn 4 (K' ++ B2 ++ M' ++ D') = K') as e1 by (now apply firstn_exact).
  assert (firstn 4 (K ++ Bd ++ Mb ++ Db) = K) as e2 by (now apply firstn_exact).
  assert (skipn 4 (K' ++ B2 ++ M' ++ D') = B2 ++ M' ++ D') as e3 by (now apply skipn_exact).
  assert (skipn 4 (K ++ Bd ++ Mb ++ Db) = Bd ++ Mb ++ Db) as e4 by (now apply skipn_exact).
  assert (forall A B C : list Z, length A = 4 -> length B = 20 -> firstn 24 (A ++ B ++ C) = A ++ B /\ skipn 24 (A ++ B ++ C) = C) as e5.
  { intros A B C L1 L2. rewrite app_assoc. split; [apply firstn_exact|apply skipn_exact]; rewrite app_length; lia. }
  rewrite e1, e2, e3, e4 in C1. rewrite !(proj1 (e5 _ _ _ LK LB)), !(proj2 (e5 _ _ _ LK LB)), !(proj1 (e5 _ _ _ LK' LB')), !(proj2 (e5 _ _ _ LK' LB')) in C2.
  assert (le_dec (firstn 4 (skipn 12 B2)) = Z.of_nat (length M)) as Hn'.
  { rewrite <- Hn. f_equal. assert (forall A B C : list Z, length A = 4 -> length B = 20 -> firstn 4 (skipn 16 (A ++ B ++ C)) = firstn 4 (skipn 12 B)) as e6.
    { intros A B C L1 L2. rewrite skipn_app, L1, skipn_all2 by lia. cbn [app]. change (16 - 4) with 12. rewrite skipn_app, firstn_app, skipn_length, L2.
      change (4 - (20 - 12)) with 0. cbn [firstn]. now rewrite app_nil_r. }
    rewrite !e6 in C3 by assumption. exact C3. }
  pose proof (validate_parts K' B2 M' D' (length M) LK' LB' Hn' ltac:(lia) B') as V.
  pose proof B' as Bp. rewrite !bytes_ok_app in Bp. apply andb_prop in Bp as [BK' Bp]. apply andb_prop in Bp as [BB' Bp]. apply andb_prop in Bp as [BM' BD'].
  pose proof BR as Bq. rewrite !bytes_ok_app in Bq. apply andb_prop in Bq as [BK Bq]. apply andb_prop in Bq as [BB Bq]. apply andb_prop in Bq as [_ BD].
  destruct (list_eq_dec Z.eq_dec K' K) as [->|NK].
  2:{ left. destruct C1 as [C1|C1]; [contradiction|]. apply app_inj in C1 as [-> C1]; [|lia]. apply app_inj in C1 as [-> _]; [|lia].
      rewrite V, <- CK, <- EK. f_equal. apply Z.eqb_neq. intros Eq. apply NK. apply le_dec_inj; auto; lia. }
  destruct (list_eq_dec Z.eq_dec B2 Bd) as [->|NB].
  2:{ left. destruct C2 as [C2|C2]; [apply app_inv_head in C2; contradiction|]. apply app_inj in C2 as [-> ->]; [|lia].
      rewrite V, EK, CK. f_equal. apply Z.eqb_neq. rewrite !crc_div_app by exact BM. apply not_eq_sym. apply crc_burst; auto; [apply crc_div_range; auto; lia|].
      apply (burst32_app_r K K) in Bu; auto; [|rewrite !app_length; lia|intros Eq; apply app_inj in Eq as [Eq _]; [congruence|lia]].
      now apply burst32_app_l in Bu; auto; lia. }
  destruct (list_eq_dec Z.eq_dec M' Mb) as [->|NM].
  2:{ left. rewrite V, EK, CK. f_equal. apply Z.eqb_neq. apply not_eq_sym. apply crc_burst; [lia|now rewrite bytes_ok_app, BM, BB|now rewrite bytes_ok_app, BM', BB|].
      apply burst32_ctx. rewrite !app_assoc in Bu. rewrite <- !(app_assoc (K ++ Bd)) in Bu.
      apply (burst32_app_r (K ++ Bd) (K ++ Bd)) in Bu; auto; [|rewrite !app_length; lia|intros Eq; apply app_inj in Eq as [Eq _]; [congruence|lia]].
      now apply burst32_app_l in Bu; auto; lia. }
  right. unfold replay_all, replay_record.
  rewrite RH. cbn [bind]. rewrite E3, Nat2Z.id.
  replace 24 with (length (K ++ Bd)) by (rewrite app_length; lia).
  apply (replay_cmds_burst M chunks (K ++ Bd) [] D'); auto; try lia; rewrite ?ED; auto.
  - rewrite !app_assoc in Bu. apply (burst32_app_r ((K ++ Bd) ++ Mb) ((K ++ Bd) ++ Mb)) in Bu; auto.
    intros Eq. destruct Bu as (_ & N & _). now rewrite Eq in N.
  - rewrite EMb. now rewrite <- !app_assoc.
  - rewrite <- EMb. cbn [length]. lia.
Qed.
Print Assumptions C14_burst_partial.

Local Open Scope Z_scope.
Definition flip (l : list Z) (n : nat) (x : Z) : list Z := firstn n l ++ [Z.lxor (nth n l 0) x] ++ skipn (S n) l.
Definition ex_rec := record_of true 12 (ex_txn 7).
Lemma burst_check r k : length ex_rec = length r -> ex_rec <> r ->
  forallb (fun i => Bool.eqb (bit ex_rec i) (bit r i) || ((k <=? i)%nat && (i <? k + 32)%nat)) (seq 0 712) = true -> burst32 ex_rec r.
Proof.
  intros L N H. split; [exact L|]. split; [exact N|]. exists k. intros i Hi. assert (length ex_rec = 89)%nat as E by (vm_compute; reflexivity).
  destruct (Nat.lt_ge_cases i 712) as [G|G]; [|rewrite !bit_over in Hi by lia; congruence].
  rewrite forallb_forall in H. specialize (H i ltac:(apply in_seq; lia)). destruct (Bool.eqb_spec (bit ex_rec i) (bit r i)); [contradiction|].
  cbn [orb] in H. apply andb_prop in H as [H1 H2]. apply Nat.leb_le in H1. apply Nat.ltb_lt in H2. lia.
Qed.
(** a burst over five bytes of the commands, one in the rows *)
Example C14_nonvacuous :
  let r1 := flip (flip (flip ex_rec 30 128) 32 255) 34 127 in
  let r2 := flip (flip ex_rec 76 1) 79 192 in
  burst32 ex_rec r1 /\ burst32 ex_rec r2 /\
  record_validate ex_rec = Ok true /\ record_validate r1 = Ok false /\ record_validate r2 = Ok true /\ replay_all true r2 = Err.
Proof.
  split; [|split; [|split; [|split; [|split]]]]; try (vm_compute; reflexivity).
  - apply (burst_check _ 247%nat); [vm_compute; reflexivity|vm_compute; discriminate|vm_compute; reflexivity].
  - apply (burst_check _ 608%nat); [vm_compute; reflexivity|vm_compute; discriminate|vm_compute; reflexivity].
Qed.

(** The stored checksum (bytes 0 to 3) is in front of the lsn (bytes 4 to 11), but the lsn is in
    the middle of what is summed.  A burst of 32 bits from bit 4 of the checksum to bit 3 of the
    lsn gives a record that is accepted and replayed with the lsn 1 instead of 12. *)
Theorem C14_crossing_refuted : exists r', burst32 ex_rec r' /\ txn_ok true (ex_txn 7) /\
  record_validate r' = Ok true /\ replay_all true r' = Ok (concat (ex_txn 7)) /\
  get_u ex_rec 4 8 = Ok 12 /\ get_u r' 4 8 = Ok 1.
Proof.
  exists (flip (flip (flip (flip (flip ex_rec 0 80) 1 226) 2 191) 3 85) 4 13). split; [|split; [now apply ex_txn_ok|]].
  - apply (burst_check _ 4%nat); [vm_compute; reflexivity|vm_compute; discriminate|vm_compute; reflexivity].
  - repeat split; vm_compute; reflexivity.
Qed.
Print Assumptions C14_crossing_refuted.
(** The number of commands is used to read them before it is checked: with one flipped bit the
    validation reads behind the record. *)
Theorem C14_count_refuted : record_validate (flip ex_rec 16 8) = UB.
Proof. vm_compute. reflexivity. Qed.
Print Assumptions C14_count_refuted.
