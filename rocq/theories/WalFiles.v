(** Reading a log that is split into files: the cursor of db/wal/wal_cursor.c. *)
From Verif Require Import Base CrcModel CrcProofs WalModel WalRecord.
Local Open Scope nat_scope.

(** ** records and files *)
Definition rec_lsn (r : list Z) : Z := match get_u r 4 8 with Ok z => z | _ => 0%Z end.
(** a complete record: its size field is its length and it has at least one byte after the header *)
Definition good (crc_on : bool) (r : list Z) : Prop :=
  24 < length r /\ (Z.of_nat (length r) < 2 ^ 32)%Z /\ get_u r 12 4 = Ok (Z.of_nat (length r)) /\
  (crc_on = true -> record_validate r = Ok true).
(** a proper prefix of a complete record at offset [off]: what remains of an interrupted
    write.  The whole record would have ended below 4 GiB *)
Definition torn (crc_on : bool) (off : nat) (t : list Z) : Prop :=
  t = [] \/ exists r q, good crc_on r /\ r = t ++ q /\ q <> [] /\ (Z.of_nat off + Z.of_nat (length r) < 2 ^ 32)%Z.
(** a file: its id, its complete records and what follows them *)
Record lfile := mklfile { lf_id : Z; lf_recs : list (list Z); lf_tail : list Z }.
Definition phys (f : lfile) : Z * list Z := (lf_id f, concat (lf_recs f) ++ lf_tail f).
Definition file_good (crc_on : bool) (f : lfile) : Prop :=
  Forall (good crc_on) (lf_recs f) /\ torn crc_on (length (concat (lf_recs f))) (lf_tail f) /\
  (Z.of_nat (length (snd (phys f))) + 24 < 2 ^ 32)%Z.
Fixpoint ids_sorted (L : list lfile) : Prop :=
  match L with
  | [] => True
  | f :: L' => (forall g, In g L' -> (lf_id f < lf_id g)%Z) /\ ids_sorted L'
  end.
Definition all_recs (L : list lfile) : list (list Z) := flat_map lf_recs L.

Lemma good_lsn b r : good b r -> get_u r 4 8 = Ok (rec_lsn r).
Proof.
  intros (H & _). unfold rec_lsn, get_u, slice. replace (_ <=? _) with true by (symmetry; apply Nat.leb_le; lia). reflexivity.
Qed.

(** ** wal_file_pread *)
Lemma eof_false fsize off size : off + size <= fsize -> (Z.of_nat fsize < 2 ^ 32)%Z -> wal_file_eof (Z.of_nat fsize) (Z.of_nat off) (Z.of_nat size) = false.
Proof. intros H S. unfold wal_file_eof. rewrite (u32_small (Z.of_nat off)) by lia. rewrite u32_small by lia. lia. Qed.
(** the sum wraps only if it is at least 2^32 *)
Lemma eof_true fsize off size : fsize < off + size -> (Z.of_nat off + Z.of_nat size < 2 ^ 32)%Z -> wal_file_eof (Z.of_nat fsize) (Z.of_nat off) (Z.of_nat size) = true.
Proof. intros H S. unfold wal_file_eof. rewrite (u32_small (Z.of_nat off)) by lia. rewrite u32_small by lia. lia. Qed.
Lemma file_pread_at f A x B off n : f = A ++ x ++ B -> off = length A -> n = length x -> n <> 0 -> file_pread f off n = Ok x.
Proof.
  intros -> -> -> N. unfold file_pread. replace (_ =? 0) with false by (symmetry; now apply Nat.eqb_neq).
  rewrite !app_length. replace (_ <=? _) with true by (symmetry; apply Nat.leb_le; lia).
  rewrite skipn_app, skipn_all, Nat.sub_diag. cbn [app skipn]. rewrite firstn_app, firstn_all, Nat.sub_diag. cbn. now rewrite app_nil_r.
Qed.
Lemma get_u_firstn l k off n x : get_u l off n = Ok x -> off + n <= k -> get_u (firstn k l) off n = Ok x.
Proof.
  intros H K. unfold get_u, slice in *. destruct (Nat.leb_spec (off + n) (length l)) as [Hl|]; [|discriminate].
  rewrite firstn_length. replace (_ <=? _) with true by (symmetry; apply Nat.leb_le; lia). cbn [bind] in *.
  rewrite skipn_firstn_comm, firstn_firstn. replace (Nat.min n (k - off)) with n by lia. exact H.
Qed.
(** a complete record inside of the known size is returned as it is *)
Lemma pread_good b r f A B fsize : good b r -> f = A ++ r ++ B -> length A + length r <= fsize -> fsize <= length f ->
  (Z.of_nat (length f) < 2 ^ 32)%Z -> wal_file_pread f fsize (length A) = Ok (Some r).
Proof.
  intros (G1 & G2 & G3 & _) E S1 S2 S3. unfold wal_file_pread. change 24%Z with (Z.of_nat 24). rewrite eof_false by lia.
  rewrite <- (firstn_skipn 24 r) in E. rewrite <- app_assoc in E.
  assert (length (firstn 24 r) = 24) as L24 by (rewrite firstn_length; lia).
  rewrite (file_pread_at f A (firstn 24 r) (skipn 24 r ++ B)) by (auto; lia). cbn [bind].
  rewrite (get_u_firstn r 24 12 4 _ G3) by lia. cbn [bind]. rewrite eof_false by lia.
  rewrite u32_small by lia. replace (Z.to_nat (Z.of_nat (length r) - Z.of_nat 24)) with (length (skipn 24 r)) by (rewrite skipn_length; lia).
  rewrite (file_pread_at f (A ++ firstn 24 r) (skipn 24 r) B).
  - cbn [bind]. now rewrite firstn_skipn.
  - now rewrite <- app_assoc.
  - rewrite app_length. lia.
  - reflexivity.
  - rewrite skipn_length. lia.
Qed.
(** the known size ends inside of a record: end of file *)
Lemma pread_short b r f A B fsize : good b r -> f = A ++ r ++ B -> fsize < length A + length r -> length A <= fsize ->
  (Z.of_nat (length f) < 2 ^ 32)%Z -> wal_file_pread f fsize (length A) = Ok None.
Proof.
  intros (G1 & G2 & G3 & _) E S1 S2 S3. assert (length f = length A + length r + length B) as Lf by (rewrite E, !app_length; lia).
  unfold wal_file_pread. change 24%Z with (Z.of_nat 24).
  destruct (le_lt_dec (length A + 24) fsize) as [H|H].
  2:{ rewrite eof_true by lia. reflexivity. }
  rewrite eof_false by lia. rewrite <- (firstn_skipn 24 r) in E. rewrite <- app_assoc in E.
  assert (length (firstn 24 r) = 24) as L24 by (rewrite firstn_length; lia).
  rewrite (file_pread_at f A (firstn 24 r) (skipn 24 r ++ B)) by (auto; lia). cbn [bind].
  rewrite (get_u_firstn r 24 12 4 _ G3) by lia. cbn [bind]. rewrite eof_true by lia. reflexivity.
Qed.

Lemma pread_torn b t f A fsize : torn b (length A) t -> f = A ++ t -> length A <= fsize -> fsize <= length f ->
  (Z.of_nat (length f) + 24 < 2 ^ 32)%Z -> wal_file_pread f fsize (length A) = Ok None.
Proof.
  intros T E S1 S2 S3. assert (length f = length A + length t) as Lf by (rewrite E, app_length; lia).
  unfold wal_file_pread. change 24%Z with (Z.of_nat 24).
  destruct (le_lt_dec (length A + 24) fsize) as [H|H].
  2:{ rewrite eof_true by lia. reflexivity. }
  rewrite eof_false by lia. destruct T as [->|(r & q & (G1 & G2 & G3 & _) & Er & Nq & Sr)]; [cbn in Lf; lia|].
  assert (length r = length t + length q) as Lr by (rewrite Er, app_length; lia).
  assert (0 < length q) by (destruct q; [congruence|cbn; lia]).
  assert (firstn 24 r = firstn 24 t) as E24 by (rewrite Er, firstn_app; replace (24 - length t) with 0 by lia; cbn; apply app_nil_r).
  assert (length (firstn 24 t) = 24) as L24 by (rewrite firstn_length; lia).
  rewrite (file_pread_at f A (firstn 24 t) (skipn 24 t)) by (try (rewrite firstn_skipn); auto; lia). cbn [bind].
  rewrite <- E24, (get_u_firstn r 24 12 4 _ G3) by lia. cbn [bind]. rewrite eof_true by lia. reflexivity.
Qed.

(** ** the cursor *)
Lemma file_of_phys L : forall L1 f L2, L = L1 ++ f :: L2 -> ids_sorted L -> file_of (map phys L) (lf_id f) = Ok (snd (phys f)).
Proof.
  induction L as [|g L IH]; intros L1 f L2 E S; [destruct L1; discriminate|]. destruct S as [S1 S2].
  destruct L1 as [|g' L1]; cbn in E; injection E as -> E; cbn [map file_of phys].
  - unfold phys at 1. now rewrite Z.eqb_refl.
  - unfold phys at 1. assert (lf_id g' < lf_id f)%Z by (apply S1; rewrite E; apply in_or_app; right; left; reflexivity).
    replace (_ =? _)%Z with false by lia. now apply (IH L1 f L2).
Qed.
Lemma ids_sorted_app L1 : forall L2, ids_sorted (L1 ++ L2) -> ids_sorted L1 /\ ids_sorted L2 /\ (forall f g, In f L1 -> In g L2 -> (lf_id f < lf_id g)%Z).
Proof.
  induction L1 as [|f L1 IH]; intros L2 S; [cbn in *; repeat split; auto; intros ? ? []|]. destruct S as [S1 S2]. destruct (IH _ S2) as (I1 & I2 & I3).
  split; [|split; [exact I2|]].
  - split; [intros g Hg; apply S1; apply in_or_app; now left|exact I1].
  - intros x g [<-|Hx] Hg; [apply S1; apply in_or_app; now right|now apply I3].
Qed.
Lemma id_next_phys L1 : forall f L2, ids_sorted (L1 ++ f :: L2) ->
  id_next (map phys (L1 ++ f :: L2)) (lf_id f) = match L2 with [] => None | g :: _ => Some (lf_id g) end.
Proof.
  induction L1 as [|h L1 IH]; intros f L2 S; cbn [app map id_next]; unfold phys at 1.
  - rewrite Z.ltb_irrefl. destruct L2 as [|g L2]; [reflexivity|]. cbn [map id_next]. unfold phys at 1.
    destruct S as [S1 _]. specialize (S1 g (or_introl eq_refl)). now replace (_ <? _)%Z with true by lia.
  - destruct S as [S1 S2]. assert (lf_id h < lf_id f)%Z by (apply S1; apply in_or_app; right; now left).
    replace (_ <? _)%Z with false by lia. now apply IH.
Qed.

Section Cursor.
Variable crc_on file_next : bool.
Variable L : list lfile.
Hypothesis sorted : ids_sorted L.
Hypothesis goods : Forall (file_good crc_on) L.
(** the records that a cursor still has to return *)
Definition At (c : cursor) (rem : list (list Z)) : Prop :=
  exists L1 f L2 done todo, L = L1 ++ f :: L2 /\ lf_recs f = done ++ todo /\ cu_id c = lf_id f /\ cu_off c = length (concat done) /\
    cu_off c <= cu_size c <= length (snd (phys f)) /\ rem = todo ++ (if file_next then all_recs L2 else []).
Definition back (c : cursor) (n : nat) : cursor := mkcursor (cu_id c) (cu_size c) (cu_off c - n).

Lemma read_spec_in n : forall c L1 f L2 done todo, L = L1 ++ f :: L2 -> lf_recs f = done ++ todo -> cu_id c = lf_id f -> cu_off c = length (concat done) ->
    cu_off c <= cu_size c <= length (snd (phys f)) -> (if cu_size c =? length (snd (phys f)) then 1 else 2) + length L2 <= n ->
    match todo ++ (if file_next then all_recs L2 else []) with
    | [] => exists c', cursor_read n (map phys L) file_next crc_on c = Ok (None, c') /\ At c' [] /\ (file_next = false -> cu_id c' = cu_id c)
    | r :: rem => exists c', cursor_read n (map phys L) file_next crc_on c = Ok (Some r, c') /\ At c' rem /\ At (back c' (length r)) (r :: rem) /\
        (file_next = false -> cu_id c' = cu_id c)
    end.
Proof.
  induction n as [|n IH]; intros c L1 f L2 done todo EL Ef Ei Eo Es Hn; [destruct (_ =? _); lia|].
  assert (file_good crc_on f) as (Gr & Gt & Gs) by (rewrite Forall_forall in goods; apply goods; rewrite EL; apply in_or_app; right; now left).
  cbn [cursor_read]. rewrite Ei, (file_of_phys L L1 f L2 EL sorted). cbn [bind].
  assert (snd (phys f) = concat done ++ concat todo ++ lf_tail f) as Ep by (cbn; rewrite Ef, concat_app, <- app_assoc; reflexivity).
  (* a record inside of the known size *)
  assert (forall r todo', todo = r :: todo' -> cu_off c + length r <= cu_size c ->
    exists c', (do r0 <- wal_file_pread (snd (phys f)) (cu_size c) (cu_off c);
       match r0 with
       | Some rec => do valid <- (if crc_on then record_validate rec else Ok true);
           if valid : bool then do size <- get_u rec 12 4; Ok (Some rec, mkcursor (lf_id f) (cu_size c) (cu_off c + Z.to_nat size)) else Err
       | None => if negb (cu_size c =? length (snd (phys f))) then cursor_read n (map phys L) file_next crc_on (mkcursor (lf_id f) (length (snd (phys f))) (cu_off c))
          else if negb file_next then Ok (None, c) else match id_next (map phys L) (lf_id f) with None => Ok (None, c)
            | Some id => do g <- file_of (map phys L) id; cursor_read n (map phys L) file_next crc_on (mkcursor id (length g) 0) end
       end) = Ok (Some r, c') /\ At c' (todo' ++ (if file_next then all_recs L2 else [])) /\
       At (back c' (length r)) (r :: todo' ++ (if file_next then all_recs L2 else [])) /\ (file_next = false -> cu_id c' = lf_id f)) as Rec.
  { intros r todo' -> Hr. assert (good crc_on r) as G by (rewrite Ef in Gr; apply Forall_app in Gr as [_ Gr]; now inversion Gr).
    cbn [concat] in Ep. rewrite <- app_assoc in Ep. rewrite Eo. rewrite (pread_good crc_on r _ (concat done) (concat todo' ++ lf_tail f) (cu_size c) G) by (auto; lia).
    cbn [bind]. pose proof G as (G1 & G2 & G3 & G4).
    assert ((if crc_on then record_validate r else Ok true) = Ok true) as -> by (destruct crc_on; [now apply G4|reflexivity]). cbn [bind].
    rewrite G3. cbn [bind]. rewrite Nat2Z.id. eexists. split; [reflexivity|]. split; [|split; [|intros _; reflexivity]].
    - exists L1, f, L2, (done ++ [r]), todo'. cbn [cu_id cu_off cu_size]. rewrite concat_app, app_length. cbn [concat]. rewrite app_nil_r.
      rewrite <- app_assoc. repeat split; auto; lia.
    - exists L1, f, L2, done, (r :: todo'). unfold back. cbn [cu_id cu_off cu_size]. replace (length (concat done) + length r - length r) with (length (concat done)) by lia.
      repeat split; auto; lia. }
  destruct todo as [|r todo'].
  - (* nothing left in this file *)
    cbn [concat] in Ep. cbn [app] in *. rewrite app_nil_r in Ef. subst done.
    assert (forall sz, length (concat (lf_recs f)) <= sz <= length (snd (phys f)) -> wal_file_pread (snd (phys f)) sz (length (concat (lf_recs f))) = Ok None) as P.
    { intros sz Hsz. apply (pread_torn crc_on (lf_tail f)); auto; lia. }
    rewrite Eo, P by lia. cbn [bind].
    destruct (Nat.eqb_spec (cu_size c) (length (snd (phys f)))) as [Esz|Nsz]; cbn [negb].
    2:{ specialize (IH (mkcursor (lf_id f) (length (snd (phys f))) (length (concat (lf_recs f)))) L1 f L2 (lf_recs f) [] EL ltac:(now rewrite app_nil_r) eq_refl eq_refl).
        cbn [cu_id cu_off cu_size] in IH. rewrite Nat.eqb_refl in IH. cbn [app] in IH. apply IH; lia. }
    assert (At c []  \/ (file_next = true /\ all_recs L2 <> [])) as AtN.
    { destruct (if file_next then all_recs L2 else []) eqn:ER.
      - left. exists L1, f, L2, (lf_recs f), []. rewrite app_nil_r, Eo, ER. cbn [app]. repeat split; auto; lia.
      - right. destruct file_next; [|discriminate]. split; [reflexivity|]. rewrite ER. discriminate. }
    destruct file_next eqn:Efn; cbn [negb].
    + assert (id_next (map phys L) (lf_id f) = match L2 with [] => None | g :: _ => Some (lf_id g) end) as -> by (rewrite EL; apply id_next_phys; rewrite <- EL; exact sorted).
      destruct L2 as [|g L2].
      * cbn. destruct AtN as [AtN|[_ F]]; [|contradiction F; reflexivity]. exists c. auto.
      * rewrite (file_of_phys L (L1 ++ [f]) g L2) by (auto; now rewrite <- app_assoc). cbn [bind].
        specialize (IH (mkcursor (lf_id g) (length (snd (phys g))) 0) (L1 ++ [f]) g L2 [] (lf_recs g) ltac:(now rewrite <- app_assoc) eq_refl eq_refl eq_refl).
        cbn [cu_id cu_off cu_size] in IH. rewrite Nat.eqb_refl in IH. cbn [all_recs flat_map] in IH |- *. cbn [length] in Hn.
        specialize (IH ltac:(lia) ltac:(lia)). unfold all_recs in *.
        destruct (lf_recs g ++ flat_map lf_recs L2); destruct IH as (c' & I1 & I2); exists c'; (split; [exact I1|]); [split; [apply I2|]|split; [apply I2|split; [apply I2|]]]; discriminate.
    + destruct AtN as [AtN|[F _]]; [|discriminate F]. exists c. auto.
  - cbn [app]. destruct (le_lt_dec (cu_off c + length r) (cu_size c)) as [Hr|Hr].
    + apply (Rec r todo' eq_refl Hr).
    + assert (good crc_on r) as G by (rewrite Ef in Gr; apply Forall_app in Gr as [_ Gr]; now inversion Gr).
      cbn [concat] in Ep. rewrite <- app_assoc in Ep. rewrite Eo in *.
      rewrite (pread_short crc_on r _ (concat done) (concat todo' ++ lf_tail f) (cu_size c) G) by (auto; lia). cbn [bind].
      assert (length (snd (phys f)) = length (concat done) + (length r + length (concat todo' ++ lf_tail f))) as Lp by (rewrite Ep, !app_length; lia).
      destruct (Nat.eqb_spec (cu_size c) (length (snd (phys f)))) as [Esz|Nsz]; cbn [negb]; [lia|].
      specialize (IH (mkcursor (lf_id f) (length (snd (phys f))) (length (concat done))) L1 f L2 done (r :: todo') EL Ef eq_refl eq_refl).
      cbn [cu_id cu_off cu_size] in IH. rewrite Nat.eqb_refl in IH. cbn [app] in IH. apply IH; lia.
Qed.
Lemma read_spec c rem : At c rem ->
  match rem with
  | [] => exists c', cursor_read (read_fuel (map phys L)) (map phys L) file_next crc_on c = Ok (None, c') /\ At c' [] /\ (file_next = false -> cu_id c' = cu_id c)
  | r :: rem' => exists c', cursor_read (read_fuel (map phys L)) (map phys L) file_next crc_on c = Ok (Some r, c') /\ At c' rem' /\ At (back c' (length r)) (r :: rem') /\
      (file_next = false -> cu_id c' = cu_id c)
  end.
Proof.
  intros (L1 & f & L2 & done & todo & EL & Ef & Ei & Eo & Es & ->). apply (read_spec_in _ c L1 f L2 done todo); auto.
  unfold read_fuel. rewrite map_length, EL, app_length. cbn [length]. destruct (_ =? _); lia.
Qed.
Lemma At_len c rem : At c rem -> length rem <= total_bytes (map phys L).
Proof.
  intros (L1 & f & L2 & done & todo & EL & Ef & _ & _ & _ & ->).
  assert (forall M, Forall (file_good crc_on) M -> length (all_recs M) <= total_bytes (map phys M)) as H.
  { induction M as [|g M IH]; intros F; [cbn; lia|]. inversion F as [|? ? [G _] F']; subst. specialize (IH F'). unfold all_recs, total_bytes in *. cbn [flat_map map].
    rewrite !app_length. cbn [phys snd]. rewrite app_length.
    assert (length (lf_recs g) <= length (concat (lf_recs g))); [|lia]. clear - G. induction G as [|r l G F IH]; cbn; [lia|]. rewrite app_length. destruct G. lia. }
  pose proof (H L goods) as HL. rewrite EL in HL at 1. unfold all_recs in *. rewrite flat_map_app in HL. cbn [flat_map] in HL. rewrite Ef in HL. rewrite !app_length in *.
  destruct file_next; cbn [length]; lia.
Qed.
Fixpoint dropw (lsn : Z) (l : list (list Z)) : list (list Z) :=
  match l with
  | [] => []
  | r :: l' => if (lsn <=? rec_lsn r)%Z then l else dropw lsn l'
  end.
Lemma At_good c r rem : At c (r :: rem) -> good crc_on r.
Proof.
  intros (L1 & f & L2 & done & todo & EL & Ef & _ & _ & _ & E).
  assert (In r (all_recs L)) as I.
  { unfold all_recs. rewrite EL, flat_map_app. apply in_or_app. right. cbn [flat_map]. rewrite Ef. destruct todo as [|r' todo].
    - cbn in E. apply in_or_app. right. destruct file_next; [|discriminate]. unfold all_recs in E. rewrite <- E. now left.
    - cbn in E. injection E as -> _. apply in_or_app. left. apply in_or_app. right. now left. }
  unfold all_recs in I. apply in_flat_map in I as (g & Ig & Ir). rewrite Forall_forall in goods. destruct (goods g Ig) as [G _]. rewrite Forall_forall in G. now apply G.
Qed.
Lemma rewind_spec lsn rem : forall n c, At c rem -> length rem < n ->
  exists c', cursor_rewind n (map phys L) file_next crc_on lsn c = Ok c' /\ At c' (dropw lsn rem) /\ (file_next = false -> cu_id c' = cu_id c).
Proof.
  induction rem as [|r rem IH]; intros n c A Hn; (destruct n as [|n]; [lia|]); cbn [cursor_rewind]; pose proof (read_spec c _ A) as R.
  - destruct R as (c' & -> & A' & Ic). cbn [bind dropw]. eauto.
  - pose proof (At_good _ _ _ A) as G. destruct R as (c' & -> & A' & B' & Ic). cbn [bind dropw]. rewrite (good_lsn _ _ G). cbn [bind].
    destruct (_ <=? _)%Z.
    + destruct G as (_ & _ & -> & _). cbn [bind]. rewrite Nat2Z.id. eexists. split; [reflexivity|]. split; [exact B'|exact Ic].
    + cbn [length] in Hn. destruct (IH n c' A' ltac:(lia)) as (c2 & E2 & A2 & I2). exists c2. split; [exact E2|]. split; [exact A2|]. intros F. now rewrite I2, Ic.
Qed.
Lemma drain_spec rem : forall n c, At c rem -> length rem < n ->
  exists c', cursor_drain n (map phys L) file_next crc_on c = Ok (rem, c') /\ (file_next = false -> cu_id c' = cu_id c).
Proof.
  induction rem as [|r rem IH]; intros n c A Hn; (destruct n as [|n]; [lia|]); cbn [cursor_drain]; pose proof (read_spec c _ A) as R.
  - destruct R as (c' & -> & A' & Ic). cbn [bind]. eauto.
  - destruct R as (c' & -> & A' & B' & Ic). cbn [bind]. cbn [length] in Hn. destruct (IH n c' A' ltac:(lia)) as (c2 & -> & I2). cbn [bind].
    eexists. split; [reflexivity|]. intros F. now rewrite I2, Ic.
Qed.
Lemma open_file f L1 L2 lsn : L = L1 ++ f :: L2 -> (if (lsn =? 0)%Z then id_min (map phys L) else id_find (map phys L) lsn None) = Some (lf_id f) ->
  exists c, cursor_open (map phys L) lsn file_next crc_on = Ok (Some c) /\ At c (dropw lsn (lf_recs f ++ (if file_next then all_recs L2 else []))) /\
    (file_next = false -> cu_id c = lf_id f).
Proof.
  intros EL E. unfold cursor_open. rewrite E, (file_of_phys L L1 f L2 EL sorted). cbn [bind].
  assert (At (mkcursor (lf_id f) (length (snd (phys f))) 0) (lf_recs f ++ (if file_next then all_recs L2 else []))) as A
    by (exists L1, f, L2, [], (lf_recs f); cbn [cu_id cu_size cu_off concat length]; repeat split; auto; lia).
  pose proof (At_len _ _ A).
  destruct (rewind_spec lsn _ (S (total_bytes (map phys L))) _ A ltac:(lia)) as (c & -> & A' & I). cbn [bind]. exists c. auto.
Qed.
End Cursor.

(** ** recovery of any log of complete records, each file with an interrupted record at its end *)
Lemma id_find_sorted L1 : forall f L2 o, ids_sorted (L1 ++ f :: L2) -> id_find (map phys (L1 ++ f :: L2)) (lf_id f) o = Some (lf_id f).
Proof.
  induction L1 as [|g L IHL]; intros f L2 o S.
  - cbn [app map id_find]. unfold phys at 1. rewrite Z.ltb_irrefl. destruct L2 as [|h L2]; [reflexivity|]. cbn [map id_find]. unfold phys at 1.
    destruct S as [S _]. specialize (S h (or_introl eq_refl)). now replace (_ <? _)%Z with true by lia.
  - cbn [app map id_find]. unfold phys at 1. destruct S as [S1 S2]. assert (lf_id g < lf_id f)%Z by (apply S1; apply in_or_app; right; now left).
    replace (_ <? _)%Z with false by lia. now apply IHL.
Qed.
Lemma dropw_all lsn l : Forall (fun r => (lsn <= rec_lsn r)%Z) l -> dropw lsn l = l.
Proof. intros F. destruct F as [|r l H F]; [reflexivity|]. cbn. now replace (_ <=? _)%Z with true by lia. Qed.
Definition after_id (f : lfile) : Prop := (0 < lf_id f)%Z /\ Forall (fun r => (lf_id f <= rec_lsn r)%Z) (lf_recs f).
Lemma recover_general_in w L : ids_sorted L -> Forall (file_good w) L -> Forall after_id L ->
  forall n L1 L2 id, L = L1 ++ L2 -> L2 <> [] -> length L2 <= n ->
  (id = 0%Z /\ L1 = [] \/ exists f L3, L2 = f :: L3 /\ id = lf_id f) ->
  recover_files n (map phys L) id w = Ok (all_recs L2).
Proof.
  intros So G A. induction n as [|n IH]; intros L1 L2 id E N Hn Hid; (destruct L2 as [|f L2]; [congruence|]); cbn [length] in Hn; [lia|]. cbn [recover_files].
  assert (after_id f) as [Pf Af] by (rewrite Forall_forall in A; apply A; rewrite E; apply in_or_app; right; now left).
  assert ((if (id =? 0)%Z then id_min (map phys L) else id_find (map phys L) id None) = Some (lf_id f)) as Ei.
  { destruct Hid as [[-> ->]|(f' & L3 & E' & ->)].
    - rewrite E. reflexivity.
    - injection E' as <- <-. replace (_ =? 0)%Z with false by lia. rewrite E. apply id_find_sorted. now rewrite <- E. }
  destruct (open_file w false L So G f L1 L2 id E Ei) as (c & Ec & Ac & Ic). rewrite Ec. cbn [bind].
  pose proof (At_len w false L So G c _ Ac) as Hlen.
  destruct (drain_spec w false L So G _ (S (total_bytes (map phys L))) c Ac ltac:(lia)) as (c' & -> & Ic'). cbn [bind].
  rewrite Ic', Ic by reflexivity. rewrite app_nil_r.
  assert (id_next (map phys L) (lf_id f) = match L2 with [] => None | g :: _ => Some (lf_id g) end) as -> by (rewrite E; apply id_next_phys; rewrite <- E; exact So).
  rewrite dropw_all.
  2:{ destruct Hid as [[-> _]|(f' & L3 & E' & ->)]; [|injection E' as <- <-; exact Af]. revert Af. apply Forall_impl. intros r Hr. lia. }
  destruct L2 as [|g L2]; [cbn; now rewrite app_nil_r|].
  rewrite (IH (L1 ++ [f]) (g :: L2) (lf_id g)); [reflexivity|now rewrite <- app_assoc|discriminate|lia|right; eauto].
Qed.
Lemma recover_general w L : L <> [] -> ids_sorted L -> Forall (file_good w) L -> Forall after_id L -> recover_wal (map phys L) w = Ok (all_recs L).
Proof.
  intros N So G A. unfold recover_wal. rewrite map_length. apply (recover_general_in w L So G A _ [] L); auto.
Qed.

(** ** truncation *)
Definition upto (lsn : Z) (l : list (list Z)) : list (list Z) := filter (fun r => (rec_lsn r <=? lsn)%Z) l.
Fixpoint lsn_sorted (l : list (list Z)) : Prop :=
  match l with
  | [] => True
  | r :: l' => Forall (fun x => (rec_lsn r < rec_lsn x)%Z) l' /\ lsn_sorted l'
  end.
Lemma upto_none lsn l : Forall (fun r => (lsn < rec_lsn r)%Z) l -> upto lsn l = [].
Proof. unfold upto. induction 1 as [|r l H F IH]; [reflexivity|]. cbn. replace (_ <=? _)%Z with false by lia. exact IH. Qed.
Lemma upto_all lsn l : Forall (fun r => (rec_lsn r <= lsn)%Z) l -> upto lsn l = l.
Proof. unfold upto. induction 1 as [|r l H F IH]; [reflexivity|]. cbn. replace (_ <=? _)%Z with true by lia. now rewrite IH. Qed.
Lemma truncate_offset_spec w f lsn todo : file_good w f -> forall done n, lf_recs f = done ++ todo -> lsn_sorted todo -> length todo < n ->
  truncate_offset n (snd (phys f)) w lsn (length (concat done)) = Ok (length (concat (done ++ upto lsn todo))).
Proof.
  intros (Gr & Gt & Gs). induction todo as [|r todo IH]; intros done n E S Hn; (destruct n as [|n]; [lia|]); cbn [truncate_offset].
  - rewrite app_nil_r in E. rewrite (pread_torn w (lf_tail f) _ (concat done)); [cbn; now rewrite app_nil_r|now rewrite <- E|cbn; now rewrite E| | |exact Gs]; cbn [phys snd]; rewrite app_length, E; lia.
  - assert (snd (phys f) = concat done ++ r ++ concat todo ++ lf_tail f) as Ep by (cbn; rewrite E, concat_app; cbn; now rewrite <- !app_assoc).
    assert (good w r) as G by (rewrite E in Gr; apply Forall_app in Gr as [_ Gr]; now inversion Gr).
    assert (length (snd (phys f)) = length (concat done) + (length r + length (concat todo ++ lf_tail f))) as Lp by (rewrite Ep, !app_length; lia).
    rewrite (pread_good w r _ (concat done) (concat todo ++ lf_tail f) _ G Ep) by lia. cbn [bind].
    pose proof G as (G1 & G2 & G3 & G4).
    assert ((if w then record_validate r else Ok true) = Ok true) as -> by (destruct w; [now apply G4|reflexivity]). cbn [bind].
    rewrite (good_lsn _ _ G), G3. cbn [bind]. destruct S as [S1 S2]. cbn [upto filter].
    destruct (Z.ltb_spec lsn (rec_lsn r)) as [H|H].
    + replace (_ <=? _)%Z with false by lia. fold (upto lsn todo). rewrite upto_none by (revert S1; apply Forall_impl; intros; lia). now rewrite app_nil_r.
    + replace (_ <=? _)%Z with true by lia. fold (upto lsn todo). destruct (Z.eqb_spec (rec_lsn r) lsn) as [Eq|Ne].
      * rewrite upto_none by (revert S1; apply Forall_impl; intros; lia). rewrite concat_app, app_length. cbn [concat]. rewrite app_nil_r. f_equal. lia.
      * cbn [length] in Hn. specialize (IH (done ++ [r]) n). rewrite <- app_assoc in IH. specialize (IH E S2 ltac:(lia)).
        rewrite <- app_assoc in IH. cbn [app] in IH. rewrite <- IH. f_equal. rewrite concat_app, app_length. cbn [concat]. rewrite app_nil_r. lia.
Qed.
