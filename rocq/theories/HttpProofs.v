(** Lemmas about the reader of HTTP messages. *)
From Verif Require Import Base HttpModel HttpSpec.

Lemma zlen_app a b : zlen (a ++ b) = zlen a + zlen b.
Proof. unfold zlen. rewrite app_length. lia. Qed.
Lemma zlen_nonneg a : 0 <= zlen a.
Proof. unfold zlen. lia. Qed.
Lemma zlen_nil a : zlen a = 0 -> a = [].
Proof. unfold zlen. destruct a; cbn; [reflexivity|lia]. Qed.

Lemma skipn_skipn {A} (a b : nat) (l : list A) : skipn a (skipn b l) = skipn (a + b) l.
Proof. revert a l. induction b as [|b IH]; intros a l; [now rewrite Nat.add_0_r|]. destruct l; [now rewrite !skipn_nil|]. rewrite Nat.add_succ_r. cbn [skipn]. apply IH. Qed.

(** ** the stream *)
Definition RI (r : readahead) : Prop := 0 <= roff r <= zlen (rbuf r) /\ Forall (fun c => c <> []) (incoming r).
Lemma ri_connected cs bytes : arrives cs bytes -> RI (connected cs) /\ remaining (connected cs) = bytes.
Proof. intros (E & F). split; [split; [cbn; lia|exact F]|exact E]. Qed.
Definition took (r : readahead) (size : Z) (p : list Z) (r' : readahead) : Prop :=
  p <> [] /\ zlen p <= size /\ remaining r = p ++ remaining r' /\ RI r' /\
  forall k, 0 <= k <= zlen p -> exists r2, readahead_pushback r' k = Ok r2 /\ RI r2 /\ remaining r2 = skipn (Z.to_nat (zlen p - k)) p ++ remaining r'.
Lemma take_took b o inc size : 0 < size -> 0 <= o -> 0 < zlen b - o -> Forall (fun c => c <> []) inc ->
  let n := if zlen b - o <? size then zlen b - o else size in
  took {| rbuf := b; roff := o; incoming := inc |} size (firstn (Z.to_nat n) (skipn (Z.to_nat o) b)) {| rbuf := b; roff := o + n; incoming := inc |}.
Proof.
  intros S O L F n. assert (N : 0 < n <= zlen b - o /\ n <= size) by (unfold n; destruct (Z.ltb_spec (zlen b - o) size); lia). clearbody n.
  assert (LP : zlen (firstn (Z.to_nat n) (skipn (Z.to_nat o) b)) = n) by (unfold zlen in *; rewrite firstn_length, skipn_length; lia).
  unfold took. repeat split.
  - intros X. rewrite X in LP. cbn in LP. lia.
  - lia.
  - unfold remaining. cbn. rewrite app_assoc. f_equal. rewrite <- (firstn_skipn (Z.to_nat n) (skipn (Z.to_nat o) b)) at 1. f_equal. rewrite skipn_skipn. f_equal. lia.
  - cbn. lia.
  - cbn. lia.
  - exact F.
  - intros k K. rewrite LP in *. unfold readahead_pushback. cbn [roff rbuf incoming]. destruct (Z.ltb_spec (o + n - k) 0); [lia|]. eexists. split; [reflexivity|]. split; [split; cbn; [lia|exact F]|].
    unfold remaining. cbn [roff rbuf incoming]. rewrite app_assoc. f_equal.
    rewrite skipn_firstn_comm, skipn_skipn. replace (Z.to_nat (o + n)) with (Z.to_nat k + Z.to_nat (o + n - k))%nat by lia.     replace (Z.to_nat (n - k) + Z.to_nat o)%nat with (Z.to_nat (o + n - k)) by lia. replace (Z.to_nat n - Z.to_nat (n - k))%nat with (Z.to_nat k) by lia.
    rewrite <- skipn_skipn. now rewrite firstn_skipn.
Qed.
Lemma read_spec r size : RI r -> 0 < size ->
  (remaining r = [] /\ exists r', readahead_read r size = Ok (None, r') /\ RI r' /\ remaining r' = []) \/
  exists p r', readahead_read r size = Ok (Some p, r') /\ took r size p r'.
Proof.
  intros (O & F) S. unfold readahead_read. destruct (Z.ltb_spec size 0); [lia|]. cbv zeta. destruct r as [b o inc]. cbn [rbuf roff incoming] in *.
  destruct (Z.ltb_spec 0 (zlen b - o)) as [L|L].
  - right. do 2 eexists. split; [reflexivity|]. apply take_took; [exact S|lia|exact L|exact F].
  - assert (E : skipn (Z.to_nat o) b = []) by (apply skipn_all2; unfold zlen in *; lia). destruct inc as [|c inc].
    + left. split; [unfold remaining; cbn; now rewrite E|]. eexists. split; [reflexivity|]. split; [split; cbn; [lia|constructor]|reflexivity].
    + inversion F as [|? ? F1 F2]; subst. right. destruct (Z.eqb_spec (zlen c) 0) as [Z|Z]; [now apply zlen_nil in Z|]. pose proof (zlen_nonneg c).
      do 2 eexists. split; [reflexivity|]. cbn [rbuf roff incoming]. pose proof (take_took c 0 inc size S ltac:(lia) ltac:(lia) F2) as T. cbv zeta in T.
      destruct T as (A & B & C & D). split; [exact A|]. split; [exact B|]. split; [|exact D]. unfold remaining at 1. cbn [rbuf roff incoming]. rewrite E. cbn [concat app].
      rewrite <- C. reflexivity.
Qed.

(** ** the end of the header *)
Lemma header_end_S a l : header_end (a :: l) = match l with b :: c :: d :: _ => if (a =? CR) && (b =? LF) && (c =? CR) && (d =? LF) then Some 4%nat else option_map S (header_end l) | _ => None end.
Proof. reflexivity. Qed.
Lemma header_end_len l h : header_end l = Some h -> (4 <= h <= length l)%nat.
Proof.
  revert h. induction l as [|a l IH]; intros h; [discriminate|]. rewrite header_end_S. destruct l as [|b [|c [|d l]]]; try discriminate.
  destruct ((a =? CR) && (b =? LF) && (c =? CR) && (d =? LF)); [intros X; inversion X; subst; cbn; lia|]. destruct (header_end (b :: c :: d :: l)) as [n|]; [|discriminate].
  intros X. inversion X; subst. specialize (IH n eq_refl). cbn in *. lia.
Qed.
Lemma header_end_app l t h : header_end l = Some h -> header_end (l ++ t) = Some h.
Proof.
  revert h. induction l as [|a l IH]; intros h; [discriminate|]. cbn [app]. rewrite !header_end_S. destruct l as [|b [|c [|d l]]]; try discriminate. cbn [app].
  destruct ((a =? CR) && (b =? LF) && (c =? CR) && (d =? LF)); [auto|]. destruct (header_end (b :: c :: d :: l)) as [n|] eqn:E; [|discriminate].
  specialize (IH n eq_refl). cbn [app] in IH. now rewrite IH.
Qed.
Lemma header_end_prefix l t h : header_end (l ++ t) = Some h -> (h <= length l)%nat -> header_end l = Some h.
Proof.
  revert h. induction l as [|a l IH]; intros h E L; [pose proof (header_end_len _ _ E); cbn in L; lia|]. cbn [app] in E. rewrite header_end_S in *. pose proof E as E0.
  destruct l as [|b [|c [|d l]]]; try (assert (4 <= h)%nat by (rewrite <- header_end_S in E0; apply header_end_len in E0; lia); cbn in L; lia). cbn [app] in E.
  destruct ((a =? CR) && (b =? LF) && (c =? CR) && (d =? LF)); [exact E|].
  match type of E with option_map S ?x = _ => destruct x as [n|] eqn:Q; [|discriminate] end. inversion E; subst. rewrite (IH n Q) by (cbn in *; lia). reflexivity.
Qed.
(** The header is found in every arrival, if it is not longer than 512 bytes *)
Lemma read_header_ok h : forall fuel r raw all, RI r -> all = raw ++ remaining r -> header_end all = Some h -> (h <= 512)%nat -> (length raw < h)%nat -> (512 - length raw <= fuel)%nat ->
  exists r', read_header fuel r raw = Ok (Some (firstn h all), r') /\ RI r' /\ remaining r' = skipn h all.
Proof.
  induction fuel as [|fuel IH]; intros r raw all R A H L1 L2 F; [lia|]. cbn [read_header]. pose proof (header_end_len _ _ H) as HL.
  destruct (read_spec r 256 R ltac:(lia)) as [(E & _)|(p & r' & -> & P1 & P2 & P3 & P4 & P5)].
  { rewrite E, app_nil_r in A. subst all. lia. }
  cbn [bind]. assert (AA : all = (raw ++ p) ++ remaining r') by (rewrite A, P3, app_assoc; reflexivity).
  destruct (le_lt_dec h (length (raw ++ p))) as [Q|Q].
  - assert (HH : header_end (raw ++ p) = Some h) by (rewrite AA in H; apply header_end_prefix in H; assumption). rewrite HH.
    destruct (P5 (zlen (raw ++ p) - Z.of_nat h)) as (r2 & -> & R2 & E2). { unfold zlen in *. rewrite app_length in *. lia. }
    cbn [bind]. exists r2. assert (FN : firstn h all = firstn h (raw ++ p)). { rewrite AA, firstn_app. replace (h - length (raw ++ p))%nat with 0%nat by lia. cbn. now rewrite app_nil_r. }
    split; [now rewrite FN|]. split; [exact R2|]. rewrite E2, AA, skipn_app. replace (h - length (raw ++ p))%nat with 0%nat by lia. cbn [skipn]. f_equal.
    rewrite skipn_app, (skipn_all2 raw) by lia. cbn [app]. f_equal. unfold zlen. rewrite app_length in *. lia.
  - destruct (header_end (raw ++ p)) as [h'|] eqn:HH. { pose proof (header_end_len _ _ HH). apply (header_end_app _ (remaining r')) in HH. rewrite <- AA, H in HH. inversion HH. lia. }
    destruct (Z.leb_spec 512 (zlen (raw ++ p))); [unfold zlen in *; lia|]. apply IH; auto; try lia.
    assert (length p <> 0)%nat by (destruct p; [congruence|cbn; lia]). rewrite app_length. lia.
Qed.
Lemma http_read_ok r h : RI r -> header_end (remaining r) = Some h -> (h <= 512)%nat ->
  exists r', RI r' /\ remaining r' = skipn h (remaining r) /\
    http_read r = match parse_message (firstn h (remaining r)) with Ok m => Ok (Some m, r') | Err => Err | UB => UB end.
Proof.
  intros R H L. pose proof (header_end_len _ _ H). destruct (read_header_ok h 512 r [] (remaining r) R eq_refl H L ltac:(cbn; lia) ltac:(cbn; lia)) as (r' & E & R' & E').
  exists r'. split; [exact R'|]. split; [exact E'|]. unfold http_read, http_read_header. rewrite E. cbn [bind]. destruct (parse_message _); reflexivity.
Qed.
(** more than 512 bytes without an end *)
Lemma read_header_long : forall fuel r raw all, RI r -> all = raw ++ remaining r -> (forall h, header_end all = Some h -> (768 <= h)%nat) -> (768 <= length all)%nat -> (length raw < 512)%nat -> (512 - length raw <= fuel)%nat ->
  read_header fuel r raw = Err.
Proof.
  induction fuel as [|fuel IH]; intros r raw all R A H LA L2 F; [lia|]. cbn [read_header].
  destruct (read_spec r 256 R ltac:(lia)) as [(E & _)|(p & r' & -> & P1 & P2 & P3 & P4 & P5)]; [rewrite E, app_nil_r in A; subst all; lia|].
  cbn [bind]. assert (AA : all = (raw ++ p) ++ remaining r') by (rewrite A, P3, app_assoc; reflexivity).
  destruct (header_end (raw ++ p)) as [h'|] eqn:HH.
  - pose proof (header_end_len _ _ HH). apply (header_end_app _ (remaining r')) in HH. rewrite <- AA in HH. apply H in HH. rewrite app_length in *. unfold zlen in P2. lia.
  - destruct (Z.leb_spec 512 (zlen (raw ++ p))) as [X|X]; [reflexivity|]. apply (IH _ _ all); auto; unfold zlen in *; try lia.
    assert (length p <> 0)%nat by (destruct p; [congruence|cbn; lia]). rewrite app_length. lia.
Qed.
(** the end of the stream *)
Lemma http_read_eof r : RI r -> remaining r = [] -> exists r', http_read r = Ok (None, r').
Proof.
  intros R E. unfold http_read, http_read_header. change (read_header 512 r []) with (do (p, r) <- readahead_read r 256;
    match p with
    | None => Ok (None, r)
    | Some p =>
      match header_end p with
      | Some e => do r <- readahead_pushback r (zlen p - Z.of_nat e); Ok (Some (firstn e p), r)
      | None => if 512 <=? zlen p then Err else read_header 511 r p
      end
    end).
  destruct (read_spec r 256 R ltac:(lia)) as [(_ & r' & -> & _)|(p & r' & _ & P1 & _ & P3 & _)]; [cbn; eauto|]. rewrite E in P3. destruct p; [congruence|discriminate].
Qed.
(** never undefined *)
Lemma read_header_safe : forall fuel r raw, RI r -> header_end raw = None -> (length raw < 512)%nat -> (512 - length raw <= fuel)%nat ->
  read_header fuel r raw = Err \/ (exists r', read_header fuel r raw = Ok (None, r') /\ RI r') \/
  exists raw' r', read_header fuel r raw = Ok (Some raw', r') /\ RI r' /\ header_end raw' = Some (length raw').
Proof.
  induction fuel as [|fuel IH]; intros r raw R H L F; [lia|]. cbn [read_header].
  destruct (read_spec r 256 R ltac:(lia)) as [(E & r' & -> & R' & _)|(p & r' & -> & P1 & P2 & P3 & P4 & P5)].
  { cbn [bind]. destruct raw; [right; left; eauto|auto]. }
  cbn [bind]. destruct (header_end (raw ++ p)) as [h|] eqn:HH.
  - pose proof (header_end_len _ _ HH) as HL. assert (LT : (length raw < h)%nat). { apply Nat.nle_gt. intros X. apply (header_end_prefix raw p h HH) in X. congruence. }
    destruct (P5 (zlen (raw ++ p) - Z.of_nat h)) as (r2 & -> & R2 & E2). { unfold zlen in *. rewrite app_length in *. lia. }
    cbn [bind]. right. right. exists (firstn h (raw ++ p)), r2. split; [reflexivity|]. split; [exact R2|]. rewrite firstn_length_le by lia.
    apply (header_end_prefix _ (skipn h (raw ++ p))); [now rewrite firstn_skipn|rewrite firstn_length_le; lia].
  - destruct (Z.leb_spec 512 (zlen (raw ++ p))) as [X|X]; [auto|]. apply IH; auto; unfold zlen in *; [lia|]. assert (length p <> 0)%nat by (destruct p; [congruence|cbn; lia]). rewrite app_length. lia.
Qed.

(** ** the text of a header *)
Lemma scan_no c a l : no c a -> scan c (a ++ c :: l) = Some (a, l).
Proof.
  induction a as [|x a IH]; intros N; cbn; [now rewrite Z.eqb_refl|]. destruct (Z.eqb_spec x c) as [->|Q]; [exfalso; apply N; now left|]. rewrite IH; [reflexivity|]. intros X. apply N. now right.
Qed.
Lemma scan_some c l a b : scan c l = Some (a, b) -> l = a ++ c :: b /\ no c a.
Proof.
  revert a b. induction l as [|x l IH]; intros a b; cbn; [discriminate|]. destruct (Z.eqb_spec x c) as [->|Q]; [intros X; inversion X; subst; split; [reflexivity|intros []]|].
  destruct (scan c l) as [[a' b']|]; [|discriminate]. intros X. inversion X; subst. destruct (IH a' b eq_refl) as (-> & N). split; [reflexivity|]. intros [Y|Y]; [now subst x|now apply N].
Qed.
Lemma scan_none c l : scan c l = None -> no c l.
Proof.
  induction l as [|x l IH]; cbn; [intros _ []|]. destruct (Z.eqb_spec x c) as [->|Q]; [discriminate|]. destruct (scan c l) as [[a' b']|]; [discriminate|]. intros _ [Y|Y]; [congruence|now apply IH].
Qed.
Lemma header_end_skip x l : no CR x -> header_end (x ++ l) = option_map (Nat.add (length x)) (header_end l).
Proof.
  induction x as [|a x IH]; intros N; [cbn; destruct (header_end l); reflexivity|]. assert (NA : a <> CR) by (intros X; apply N; now left). assert (NX : no CR x) by (intros X; apply N; now right).
  specialize (IH NX). cbn [app length]. rewrite header_end_S. replace (a =? CR) with false by (symmetry; now apply Z.eqb_neq). cbn [andb].
  assert (Q : option_map S (header_end (x ++ l)) = option_map (Nat.add (S (length x))) (header_end l)). { rewrite IH. destruct (header_end l); reflexivity. }
  rewrite <- Q. destruct (x ++ l) as [|b [|c [|d k]]]; reflexivity.
Qed.
Lemma header_end_line y l : y <> CR -> header_end (CR :: LF :: y :: l) = option_map (Nat.add 2) (header_end (y :: l)).
Proof.
  intros N. rewrite header_end_S. destruct l as [|d l]; [reflexivity|]. replace (y =? CR) with false by (symmetry; now apply Z.eqb_neq). rewrite !andb_false_r. cbn [andb].
  change (LF :: y :: d :: l) with ([LF] ++ (y :: d :: l)). rewrite header_end_skip by (intros [X|[]]; discriminate). destruct (header_end (y :: d :: l)); reflexivity.
Qed.
Lemma header_end_marker l : header_end (CR :: LF :: CR :: LF :: l) = Some 4%nat.
Proof. reflexivity. Qed.
Lemma header_end_headers hs l : Forall (fun h => no COLON (fst h) /\ no CR (fst h) /\ no CR (snd h)) hs ->
  header_end ([CR; LF] ++ concat (map encode_header hs) ++ [CR; LF] ++ l) = Some (length (concat (map encode_header hs)) + 4)%nat.
Proof.
  induction hs as [|(n, v) hs IH]; intros F; [reflexivity|]. inversion F as [|? ? (F1 & F2 & F3) F4]; subst. specialize (IH F4). cbn [fst snd] in *.
  cbn [map concat]. unfold encode_header at 1 3. cbn [fst snd].
  rewrite <- !app_assoc. cbn [app].
  assert (HD : exists y k, n ++ COLON :: SP :: v ++ CR :: LF :: concat (map encode_header hs) ++ CR :: LF :: l = y :: k /\ y <> CR).
  { destruct n as [|y n]; [exists COLON; eexists; split; [reflexivity|discriminate]|]. exists y. eexists. split; [reflexivity|]. intros X. apply F2. now left. }
  destruct HD as (y & k & E & NE). rewrite E, header_end_line by exact NE. rewrite <- E.
  replace (n ++ COLON :: SP :: v ++ CR :: LF :: concat (map encode_header hs) ++ CR :: LF :: l) with ((n ++ [COLON; SP] ++ v) ++ [CR; LF] ++ concat (map encode_header hs) ++ [CR; LF] ++ l) by (rewrite <- !app_assoc; reflexivity).
  rewrite header_end_skip.
  - rewrite IH. cbn [option_map]. f_equal. rewrite !app_length. cbn [length]. rewrite !app_length. cbn [length]. lia.
  - intros X. apply in_app_iff in X. destruct X as [X|X]; [now apply F2|]. apply in_app_iff in X. destruct X as [[X|[X|[]]]|X]; [discriminate|discriminate|now apply F3].
Qed.
Lemma header_end_message m l : ok_message m -> header_end (encode_message m ++ l) = Some (length (encode_message m)).
Proof.
  intros (A1 & A2 & A3 & B1 & B2 & B3 & C1 & C2 & H). unfold encode_message.
  replace ((m_a m ++ [SP] ++ m_b m ++ [SP] ++ m_c m ++ [CR; LF] ++ concat (map encode_header (m_headers m)) ++ [CR; LF]) ++ l)
    with ((m_a m ++ [SP] ++ m_b m ++ [SP] ++ m_c m) ++ [CR; LF] ++ concat (map encode_header (m_headers m)) ++ [CR; LF] ++ l) by (rewrite <- !app_assoc; reflexivity).
  rewrite header_end_skip; [rewrite header_end_headers by exact H|].
  2:{ intros X. apply in_app_iff in X. destruct X as [X|X]; [now apply A3|]. apply in_app_iff in X. destruct X as [[X|[]]|X]; [discriminate|]. apply in_app_iff in X. destruct X as [X|X]; [now apply B3|].
      apply in_app_iff in X. destruct X as [[X|[]]|X]; [discriminate|now apply C2]. }
  cbn [option_map]. f_equal. rewrite !app_length. cbn [length]. lia.
Qed.
Lemma read_headers_ok hs : Forall (fun h => no COLON (fst h) /\ no CR (fst h) /\ no CR (snd h)) hs ->
  forall fuel, (length (concat (map encode_header hs)) < fuel)%nat -> read_headers fuel (concat (map encode_header hs) ++ [CR; LF]) = Ok hs.
Proof.
  induction hs as [|(n, v) hs IH]; intros F fuel L; (destruct fuel as [|fuel]; [lia|]); [reflexivity|].
  inversion F as [|? ? (F1 & F2 & F3) F4]; subst. cbn [fst snd] in *. cbn [map concat] in *. unfold encode_header at 1. unfold encode_header at 1 in L. cbn [fst snd] in *.
  rewrite <- !app_assoc in *. cbn [app] in *. cbn [read_headers].
  assert (HD : exists y k, n ++ COLON :: SP :: v ++ CR :: LF :: concat (map encode_header hs) ++ [CR; LF] = y :: k /\ y <> CR).
  { destruct n as [|y n]; [exists COLON; eexists; split; [reflexivity|discriminate]|]. exists y. eexists. split; [reflexivity|]. intros X. apply F2. now left. }
  destruct HD as (y & k & E & NE). rewrite E. replace (y =? CR) with false by (symmetry; now apply Z.eqb_neq). rewrite <- E. unfold scan_to. rewrite scan_no by exact F1.
  cbn [bind]. rewrite Z.eqb_refl. unfold scan_line. rewrite scan_no by exact F3. rewrite Z.eqb_refl. cbn [bind]. rewrite IH; [reflexivity|exact F4|]. rewrite !app_length in L. cbn [length] in L. rewrite app_length in L. cbn [length] in L. lia.
Qed.
Lemma parse_ok m : ok_message m -> parse_message (encode_message m) = Ok m.
Proof.
  intros (A1 & A2 & A3 & B1 & B2 & B3 & C1 & C2 & H). unfold parse_message. set (fuel := S (length (encode_message m))).
  assert (L : (length (concat (map encode_header (m_headers m))) < fuel)%nat). { unfold fuel, encode_message. rewrite !app_length. lia. }
  clearbody fuel. unfold encode_message. cbn [app]. unfold scan_to. rewrite scan_no by exact A2. cbn [bind]. replace (nonempty (m_a m)) with true by (destruct (m_a m); [congruence|reflexivity]). cbn [negb].
  rewrite scan_no by exact B2. cbn [bind]. replace (nonempty (m_b m)) with true by (destruct (m_b m); [congruence|reflexivity]). cbn [negb].
  unfold scan_line. rewrite scan_no by exact C2. rewrite Z.eqb_refl. cbn [bind]. replace (nonempty (m_c m)) with true by (destruct (m_c m); [congruence|reflexivity]). cbn [negb].
  rewrite (read_headers_ok _ H) by exact L. destruct m; reflexivity.
Qed.

(** ** the content *)
Lemma is_case_spec a b : is_case a b = true <-> same_name a b.
Proof.
  unfold same_name. revert b. induction a as [|x a IH]; intros [|y b]; cbn; try (split; [discriminate|discriminate]); [tauto|]. rewrite andb_true_iff, Z.eqb_eq, IH. split; [intros (-> & ->); reflexivity|]. intros X. inversion X; auto.
Qed.
Lemma find_none hs name : Forall (fun h => ~ same_name (fst h) name) hs -> http_find hs name = None.
Proof.
  induction 1 as [|(n, v) hs F _ IH]; [reflexivity|]. cbn. destruct (is_case n name) eqn:E; [apply is_case_spec in E; tauto|exact IH].
Qed.
Lemma find_some hs1 n v hs2 name : Forall (fun h => ~ same_name (fst h) name) hs1 -> same_name n name -> http_find (hs1 ++ (n, v) :: hs2) name = Some v.
Proof.
  induction 1 as [|(n', v') hs F _ IH]; intros S; cbn.
  - apply is_case_spec in S. now rewrite S.
  - destruct (is_case n' name) eqn:E; [apply is_case_spec in E; tauto|auto].
Qed.
Lemma digits_mono l : Forall digit l -> forall v, 0 <= v -> v <= digits_value l v.
Proof. induction 1 as [|c l D _ IH]; intros v V; cbn; [lia|]. unfold digit in D. specialize (IH (v * 10 + (c - 48)) ltac:(lia)). lia. Qed.
Lemma toint_ok l : Forall digit l -> forall v, 0 <= v -> digits_value l v < 2 ^ 63 -> toint l v = Ok (digits_value l v).
Proof.
  induction 1 as [|c l D F IH]; intros v V L; cbn [toint digits_value] in *; [reflexivity|]. unfold digit in D. pose proof (digits_mono l F (v * 10 + (c - 48)) ltac:(lia)).
  replace ((48 <=? c) && (c <=? 57)) with true by (symmetry; apply andb_true_iff; split; apply Z.leb_le; lia).
  cbv zeta. replace (v * 10 + (c - 48) <? 2 ^ 63) with true by (symmetry; apply Z.ltb_lt; lia). apply IH; [lia|exact L].
Qed.
Lemma toint_range l : forall v x, 0 <= v -> toint l v = Ok x -> 0 <= x.
Proof.
  induction l as [|c l IH]; intros v x V; cbn [toint]; [intros X; inversion X; subst; exact V|]. destruct ((48 <=? c) && (c <=? 57)) eqn:D; [|discriminate]. cbv zeta. destruct (_ <? _); [|discriminate]. apply IH. apply andb_true_iff in D. lia.
Qed.
Lemma toint_noub l : forall v, toint l v <> UB.
Proof. induction l as [|c l IH]; intros v; cbn [toint]; [discriminate|]. destruct (_ && _); [|discriminate]. cbv zeta. destruct (_ <? _); [apply IH|discriminate]. Qed.
Lemma int32_small v : - 2 ^ 31 <= v < 2 ^ 31 -> int32 v = v.
Proof. intros H. unfold int32. rewrite Z.mod_small; lia. Qed.
Lemma read_content_ok : forall fuel r len content, RI r -> 0 <= len < 2 ^ 31 -> zlen content <= len -> (Z.to_nat (len - zlen content) <= fuel)%nat ->
  (len - zlen content <= zlen (remaining r) -> exists r', read_content fuel r len content = Ok (content ++ firstn (Z.to_nat (len - zlen content)) (remaining r), r') /\ RI r' /\ remaining r' = skipn (Z.to_nat (len - zlen content)) (remaining r)) /\
  (zlen (remaining r) < len - zlen content -> read_content fuel r len content = Err).
Proof.
  induction fuel as [|fuel IH]; intros r len content R L C F; cbn [read_content]; pose proof (zlen_nonneg content); pose proof (zlen_nonneg (remaining r)); rewrite int32_small by lia.
  - replace (len - zlen content) with 0 by lia. cbn. split; [intros _; exists r; rewrite app_nil_r; auto|lia].
  - destruct (Z.eqb_spec (len - zlen content) 0) as [E|E]; [rewrite E; cbn; split; [intros _; exists r; rewrite app_nil_r; auto|lia]|].
    set (size := if len - zlen content <? 16384 then len - zlen content else 16384). assert (SZ : 0 < size <= len - zlen content) by (unfold size; destruct (Z.ltb_spec (len - zlen content) 16384); lia). clearbody size.
    destruct (read_spec r size R ltac:(lia)) as [(E0 & r' & -> & R' & _)|(p & r' & -> & P1 & P2 & P3 & P4 & _)].
    + cbn [bind]. rewrite E0. cbn. split; [lia|auto].
    + cbn [bind]. assert (0 < zlen p) by (unfold zlen; destruct p; [congruence|cbn; lia]). destruct (IH r' len (content ++ p) P4 L) as (I1 & I2); [rewrite zlen_app; lia|rewrite zlen_app; lia|].
      rewrite P3, zlen_app. rewrite zlen_app in I1, I2. split.
      * intros Q. destruct I1 as (r2 & E2 & R2 & Q2); [lia|]. exists r2. rewrite E2. split.
        -- rewrite <- app_assoc. rewrite firstn_app. rewrite (firstn_all2 p) by (unfold zlen in *; lia). do 4 f_equal. unfold zlen in *. f_equal. lia.
        -- split; [exact R2|]. rewrite Q2, skipn_app. rewrite (skipn_all2 p) by (unfold zlen in *; lia). cbn [app]. f_equal. unfold zlen in *. lia.
      * intros Q. apply I2. lia.
Qed.
Lemma body_ok hs body rest r limit : RI r -> limit <= 2 ^ 31 -> body_length hs (zlen body) -> zlen body < limit -> remaining r = body ++ rest ->
  exists r', http_read_content_limit r hs limit = Ok (Some body, r') /\ RI r' /\ remaining r' = rest.
Proof.
  intros R LM B L E. unfold http_read_content_limit. pose proof (zlen_nonneg body). remember (zlen body) as len eqn:LEN. destruct B as [hs F|hs1 n v hs2 F S D].
  - rewrite find_none by exact F. symmetry in LEN. apply zlen_nil in LEN. subst body. exists r. auto.
  - rewrite (find_some _ _ _ _ _ F S). rewrite toint_ok by (try exact D; lia). cbn [bind]. destruct (Z.leb_spec limit (digits_value v 0)); [lia|].
    destruct (read_content_ok (Z.to_nat (digits_value v 0)) r (digits_value v 0) [] R) as (X & _); [lia|cbn; lia|cbn; lia|]. cbn [app zlen length] in X. change (Z.of_nat 0) with 0 in X. rewrite Z.sub_0_r in X.
    destruct X as (r' & -> & R' & E'); [rewrite E, zlen_app; pose proof (zlen_nonneg rest); lia|]. cbn [bind]. exists r'. assert (LB : Z.to_nat (digits_value v 0) = length body) by (unfold zlen in LEN; lia). rewrite LB in *.
    rewrite E in *. rewrite firstn_app, Nat.sub_diag, firstn_all. cbn [firstn]. rewrite app_nil_r. split; [reflexivity|]. split; [exact R'|]. rewrite E', skipn_app, Nat.sub_diag, skipn_all. reflexivity.
Qed.

(** ** the parser stays in the header *)
Definition marker : list Z := [CR; LF; CR; LF].
Definition tailed (l : list Z) : Prop := exists x, l = x ++ marker.
Lemma header_end_tailed l : header_end l = Some (length l) -> tailed l.
Proof.
  induction l as [|a l IH]; [discriminate|]. rewrite header_end_S. destruct l as [|b [|c [|d l]]]; try discriminate.
  destruct ((a =? CR) && (b =? LF) && (c =? CR) && (d =? LF)) eqn:E.
  - intros X. assert (length l = 0)%nat by (cbn in X; inversion X; lia). destruct l; [|discriminate]. rewrite !andb_true_iff, !Z.eqb_eq in E. destruct E as (((-> & ->) & ->) & ->). exists []. reflexivity.
  - destruct (header_end (b :: c :: d :: l)) as [n|]; [|discriminate]. intros X. assert (n = length (b :: c :: d :: l)) by (inversion X; reflexivity). subst n. destruct (IH eq_refl) as (x & ->). now exists (a :: x).
Qed.
Lemma tailed_cons a l : tailed (a :: l) -> a <> CR -> tailed l.
Proof. intros ([|y x] & E) N; [inversion E; congruence|]. inversion E; subst. now exists x. Qed.
Lemma tailed_nil : ~ tailed [].
Proof. intros ([|? ?] & E); discriminate. Qed.
Lemma scan_tailed c l a b : tailed l -> c <> CR -> c <> LF -> scan c l = Some (a, b) -> tailed b.
Proof.
  intros (x & E) N1 N2 S. apply scan_some in S. destruct S as (S & _). subst l. revert a S. induction x as [|y x IH]; intros a S.
  - exfalso. destruct a as [|a1 [|a2 [|a3 [|a4 a]]]]; cbn in S; inversion S; subst; try congruence. destruct a; discriminate.
  - destruct a as [|a1 a]; cbn in S; inversion S; subst; [now exists x|now apply (IH a)].
Qed.
(** the rest behind a line: the marker again, or its second half *)
Lemma first_cr x v k : x ++ marker = v ++ CR :: k -> no CR v -> k = [LF; CR; LF] \/ tailed k.
Proof.
  revert v. induction x as [|y x IH]; intros v S N.
  - destruct v as [|v1 v]; cbn in S; inversion S; subst; [auto|]. exfalso. apply N. now left.
  - destruct v as [|v1 v]; cbn in S; inversion S; subst; [right; now exists x|]. apply (IH v); [assumption|]. intros X. apply N. now right.
Qed.
Lemma scan_line_tailed l : tailed l -> scan_line l = Err \/ exists v l', scan_line l = Ok (v, l') /\ (tailed l' \/ l' = [CR; LF]) /\ (length l' < length l)%nat.
Proof.
  intros (x & E). unfold scan_line. destruct (scan CR l) as [(v, k)|] eqn:S.
  - apply scan_some in S. destruct S as (S & N). pose proof S as S0. rewrite E in S0. apply first_cr in S0; [|exact N]. assert (LL : (length k < length l)%nat) by (rewrite S, app_length; cbn; lia).
    destruct S0 as [->|T].
    + right. rewrite Z.eqb_refl. exists v, [CR; LF]. cbn in *. split; [reflexivity|]. split; [auto|lia].
    + destruct k as [|y k]; [now apply tailed_nil in T|]. destruct (Z.eqb_spec y LF) as [->|Q]; [|auto]. right. exists v, k. split; [reflexivity|]. split; [left; apply (tailed_cons LF); [exact T|discriminate]|cbn in LL; lia].
  - exfalso. apply scan_none in S. apply S. rewrite E. apply in_or_app. right. now left.
Qed.
Lemma read_headers_safe : forall fuel l, (tailed l \/ l = [CR; LF]) -> (length l < fuel)%nat -> read_headers fuel l <> UB.
Proof.
  induction fuel as [|fuel IH]; intros l T L; [lia|]. cbn [read_headers]. destruct T as [T| ->]; [|discriminate]. destruct l as [|x l]; [now apply tailed_nil in T|].
  destruct (Z.eqb_spec x CR) as [->|Q].
  - destruct l as [|y l]; [destruct T as (z & E); apply (f_equal (@length Z)) in E; rewrite app_length in E; cbn in E; lia|]. destruct (y =? LF); discriminate.
  - unfold scan_to. destruct (scan COLON (x :: l)) as [(n, k)|] eqn:S; [|discriminate]. cbn [bind]. pose proof (scan_tailed COLON _ _ _ T ltac:(discriminate) ltac:(discriminate) S) as T2.
    apply scan_some in S. destruct S as (S & _). assert (LL : (length k < length (x :: l))%nat) by (rewrite S, app_length; cbn; lia). destruct k as [|y k]; [now apply tailed_nil in T2|].
    destruct (Z.eqb_spec y SP) as [->|]; [|discriminate]. apply tailed_cons in T2; [|discriminate]. destruct (scan_line_tailed k T2) as [->|(v & l' & -> & T3 & L3)]; [discriminate|]. cbn [bind].
    destruct (read_headers fuel l') eqn:RH; cbn [bind]; try discriminate. exfalso. revert RH. apply IH; [exact T3|cbn in *; lia].
Qed.
Lemma parse_safe raw : header_end raw = Some (length raw) -> parse_message raw <> UB.
Proof.
  intros H. apply header_end_tailed in H. unfold parse_message, scan_to. destruct (scan SP raw) as [(a, l)|] eqn:S1; [|discriminate]. cbn [bind]. pose proof (scan_tailed SP _ _ _ H ltac:(discriminate) ltac:(discriminate) S1) as T1.
  apply scan_some in S1. destruct S1 as (S1 & _). destruct (nonempty a); [|discriminate]. cbn [negb]. destruct (scan SP l) as [(b, l2)|] eqn:S2; [|discriminate]. cbn [bind]. pose proof (scan_tailed SP _ _ _ T1 ltac:(discriminate) ltac:(discriminate) S2) as T2.
  apply scan_some in S2. destruct S2 as (S2 & _). destruct (nonempty b); [|discriminate]. cbn [negb]. destruct (scan_line_tailed l2 T2) as [->|(v & l' & -> & T3 & L3)]; [discriminate|]. cbn [bind]. destruct (nonempty v); [|discriminate]. cbn [negb].
  destruct (read_headers (S (length raw)) l') eqn:RH; cbn [bind]; try discriminate. exfalso. revert RH. apply read_headers_safe; [exact T3|]. rewrite S1, S2, !app_length. cbn. rewrite app_length. cbn. lia.
Qed.
Lemma http_read_safe r : RI r -> http_read r = Err \/ exists m r', http_read r = Ok (m, r') /\ RI r'.
Proof.
  intros R. unfold http_read, http_read_header. destruct (read_header_safe 512 r [] R eq_refl ltac:(cbn; lia) ltac:(cbn; lia)) as [->|[(r' & -> & R')|(raw & r' & -> & R' & H)]]; cbn [bind]; [auto|right; eauto|].
  pose proof (parse_safe raw H). destruct (parse_message raw); cbn [bind]; [right; eauto|auto|congruence].
Qed.
Lemma content_safe r hs limit : RI r -> limit <= 2 ^ 31 -> http_read_content_limit r hs limit = Err \/ exists b r', http_read_content_limit r hs limit = Ok (b, r') /\ RI r'.
Proof.
  intros R LM. unfold http_read_content_limit. destruct (http_find hs content_length) as [v|]; [|right; eauto]. destruct (toint v 0) as [len| |] eqn:T; cbn [bind]; [|auto|now apply toint_noub in T].
  destruct (Z.leb_spec limit len); [right; eauto|]. pose proof (toint_range _ _ _ (Z.le_refl 0) T) as T0.
  destruct (read_content_ok (Z.to_nat len) r len [] R ltac:(lia) ltac:(cbn; lia) ltac:(cbn; lia)) as (X & Y). change (zlen []) with 0 in *. rewrite Z.sub_0_r in *.
  destruct (Z.le_gt_cases len (zlen (remaining r))) as [C|C]; [destruct (X C) as (r' & -> & R' & _); right; cbn [bind]; eauto|rewrite (Y C); auto].
Qed.

(** a stream that ends in the header *)
Lemma read_header_cut : forall fuel r raw, RI r -> header_end (raw ++ remaining r) = None -> raw ++ remaining r <> [] -> (length raw < 512)%nat -> (512 - length raw <= fuel)%nat ->
  read_header fuel r raw = Err.
Proof.
  induction fuel as [|fuel IH]; intros r raw R H N L F; [lia|]. cbn [read_header].
  destruct (read_spec r 256 R ltac:(lia)) as [(E & r' & -> & _)|(p & r' & -> & P1 & P2 & P3 & P4 & P5)].
  { cbn [bind]. rewrite E, app_nil_r in N. destruct raw; [congruence|reflexivity]. }
  cbn [bind]. rewrite P3, app_assoc in H. destruct (header_end (raw ++ p)) as [h|] eqn:HH; [apply (header_end_app _ (remaining r')) in HH; congruence|].
  destruct (Z.leb_spec 512 (zlen (raw ++ p))) as [X|X]; [reflexivity|]. apply IH; auto; unfold zlen in *.
  - intros Y. apply app_eq_nil in Y. destruct Y as (Y & _). apply app_eq_nil in Y. tauto.
  - lia.
  - assert (length p <> 0)%nat by (destruct p; [congruence|cbn; lia]). rewrite app_length. lia.
Qed.
Lemma header_end_firstn l h k : header_end l = Some h -> (k < h)%nat -> header_end (firstn k l) = None.
Proof.
  intros H L. destruct (header_end (firstn k l)) as [h'|] eqn:E; [|reflexivity]. pose proof (header_end_len _ _ E) as Q. rewrite firstn_length in Q. apply (header_end_app _ (skipn k l)) in E. rewrite firstn_skipn, H in E. inversion E. lia.
Qed.
(** one request of a connection *)
Lemma serve_one limit q rest n r : RI r -> limit <= 2 ^ 31 -> ok_request limit q -> remaining r = encode_request q ++ rest ->
  exists r', RI r' /\ remaining r' = rest /\ serve (S n) r limit = (q :: fst (serve n r' limit), snd (serve n r' limit)).
Proof.
  intros R LM (M & S & B & L) E. unfold encode_request in E. rewrite <- app_assoc in E. pose proof (header_end_message (rq q) (rq_body q ++ rest) M) as H. rewrite <- E in H.
  destruct (http_read_ok r _ R H ltac:(unfold zlen in S; lia)) as (r' & R' & E' & X). rewrite E in *. rewrite firstn_app, Nat.sub_diag, firstn_all in X. cbn [firstn] in X. rewrite app_nil_r, parse_ok in X by exact M.
  rewrite skipn_app, Nat.sub_diag, skipn_all in E'. cbn [skipn app] in E'. destruct (body_ok _ _ _ r' limit R' LM B L E') as (r2 & Y & R2 & E2). exists r2. split; [exact R2|]. split; [exact E2|].
  cbn [serve]. rewrite X, Y. destruct (serve n r2 limit), q. reflexivity.
Qed.
Lemma serve_all limit rs rest n : forall r, RI r -> limit <= 2 ^ 31 -> Forall (ok_request limit) rs -> remaining r = concat (map encode_request rs) ++ rest ->
  exists r', RI r' /\ remaining r' = rest /\ serve (length rs + n) r limit = (rs ++ fst (serve n r' limit), snd (serve n r' limit)).
Proof.
  induction rs as [|q rs IH]; intros r R LM F E; [exists r; cbn; destruct (serve n r limit); auto|]. inversion F as [|? ? F1 F2]; subst. cbn [map concat] in E. rewrite <- app_assoc in E.
  destruct (serve_one limit q _ (length rs + n) r R LM F1 E) as (r1 & R1 & E1 & X). destruct (IH r1 R1 LM F2 E1) as (r2 & R2 & E2 & Y). exists r2. split; [exact R2|]. split; [exact E2|].
  cbn [length Nat.add]. rewrite X, Y. reflexivity.
Qed.
