From Verif Require Import Base JsonModel JsonSpec JsonProofs JupdModel JupdSpec JupdProofs.

Section SetPath.
Variable vb : list Z.
Variable x : json.
Hypothesis Hx : Enc x vb.
Hypothesis Hxw : json_wf x = true.

Lemma set_obj_S f path found l : set_obj vb (S f) path found l = (
      do (key, path1) <- update_read path;
      do b <- json_is JSON_OBJ l;
      if (b : bool) then
        do l1 <- json_read_marker JSON_OBJ l;
        do (out, st) <- set_fields vb f key path1 found l1;
        Ok (JSON_OBJ :: out, st)
      else Err).
Proof. reflexivity. Qed.
Lemma set_fields_S f key path found l : set_fields vb (S f) key path found l = (
      do (e, l1) <- json_read_end JSON_OBJ_END l;
      if (e : bool) then
        if found then Ok ([JSON_OBJ_END], (l1, path, found))
        else if update_has path then Err
        else Ok (json_write_raw key ++ vb ++ [JSON_OBJ_END], (l1, path, found))
      else
        do (at_, l2) <- json_read_raw l1;
        if negb found && bytes_eqb key at_ then
          if update_has path then
            do (o1, st) <- set_obj vb f path found l2;
            let '(l3, path', found') := st in
            do (o2, st') <- set_fields vb f key path' found' l3;
            Ok (json_write_raw at_ ++ o1 ++ o2, st')
          else
            do l3 <- json_skip l2;
            do (o2, st') <- set_fields vb f key path true l3;
            Ok (json_write_raw at_ ++ vb ++ o2, st')
        else
          do l3 <- json_skip l2;
          do (o2, st') <- set_fields vb f key path found l3;
          Ok (json_write_raw at_ ++ between l2 l3 ++ o2, st')).
Proof. reflexivity. Qed.
(** fields that are not the key are copied *)
Lemma set_copy key path found : forall l1 b1, fields_wf l1 = true -> toks_enc (field_toks l1) b1 -> found = true \/ ~ In key (map fst l1) ->
  exists b1', toks_enc (field_toks l1) b1' /\ forall fuel tail,
    set_fields vb (length l1 + fuel) key path found (b1 ++ tail) = (do (o, st) <- set_fields vb fuel key path found tail; Ok (b1' ++ o, st)).
Proof.
  induction l1 as [|[k v] l1 IH]; intros b1 W E F.
  - exists []. split; [constructor|]. unfold field_toks in E. inversion E; subst. intros fuel tail. cbn [length Nat.add app]. destruct (set_fields vb fuel key path found tail) as [[o st]| |]; reflexivity.
  - apply wf_cons in W. destruct W as (W1 & W2 & W3). apply fields_cons in E. destruct E as (kb & bv & bl & -> & E1 & E2 & E3).
    destruct (IH bl W3 E3) as (bl' & El & Hc). { destruct F as [F|F]; [now left|right; intros H; apply F; now right]. }
    exists (json_write_raw k ++ bv ++ bl'). split; [apply fields_mk; [apply name_enc|exact E2|exact El]|]. intros fuel tail. cbn [length Nat.add]. rewrite set_fields_S. rewrite <- !app_assoc.
    destruct (read_name k kb (bv ++ bl ++ tail) W1 E1) as [R1 R2]. rewrite R1. cbn [bind]. rewrite R2. cbn [bind].
    replace (negb found && bytes_eqb key k) with false by (destruct F as [->|F]; [reflexivity|rewrite beq_false by (intros ->; apply F; now left); now rewrite andb_false_r]).
    rewrite (json_skip_ok v bv) by assumption. cbn [bind]. rewrite between_ok, Hc. destruct (set_fields vb fuel key path found tail) as [[o st]| |]; cbn [bind]; [|reflexivity|reflexivity]. now rewrite !app_assoc.
Qed.
Lemma set_end fuel key path rest : set_fields vb (S fuel) key path true (JSON_OBJ_END :: rest) = Ok ([JSON_OBJ_END], (rest, path, true)).
Proof. reflexivity. Qed.
Lemma set_end_append fuel key rest : set_fields vb (S fuel) key [] false (JSON_OBJ_END :: rest) = Ok (json_write_raw key ++ vb ++ [JSON_OBJ_END], (rest, [], false)).
Proof. reflexivity. Qed.
Lemma set_end_err fuel key path rest : update_has path = true -> set_fields vb (S fuel) key path false (JSON_OBJ_END :: rest) = Err.
Proof. intros H. rewrite set_fields_S. unfold json_read_end. cbn [rd_u8 bind]. rewrite Z.eqb_refl. cbn [bind]. now rewrite H. Qed.

Lemma set_ok keys : forall text l bs rest fuel y, written keys text -> json_wf (JObj l) = true -> Enc (JObj l) bs -> (length bs <= fuel)%nat -> lookup keys (JObj l) = Some y ->
  exists w out, set_obj vb fuel text false (bs ++ rest) = Ok (out, (rest, [], true)) /\ Enc w out /\ json_wf w = true /\ changed keys x (JObj l) w.
Proof.
  induction keys as [|k ks IH]; intros text l bs rest fuel y Wt W E Lf Hl; [destruct Wt as (Wt & _); congruence|].
  destruct (read_written k ks text Wt) as (text' & Rt & T1 & T2). cbn [lookup] in Hl. destruct (field k l) as [z|] eqn:Ef; [|discriminate]. destruct (field_split k l z Ef) as (l1 & l2 & -> & Nk).
  pose proof (is_obj_true _ bs rest E) as Io. apply Enc_obj_inv in E. destruct E as (b & -> & Eb). apply fields_app_inv in Eb. destruct Eb as (b1 & b0 & -> & E1 & E0). apply fields_cons in E0. destruct E0 as (kb & bv & b2 & -> & Ek & Ez & E2).
  cbn [json_wf] in W. apply wf_app in W. destruct W as [W1 W0]. apply wf_cons in W0. destruct W0 as (Wk & Wz & W2).
  pose proof (fields_length _ _ E1) as L1. pose proof (fields_length _ _ E2) as L2. pose proof (name_pos _ _ Ek) as L3. pose proof (enc_pos _ _ Ez) as L4. cbn [length] in Lf. rewrite !app_length in Lf. cbn [length] in Lf.
  destruct fuel as [|fuel]; [lia|]. rewrite set_obj_S. rewrite Rt. cbn [bind]. rewrite Io. cbn [bind]. unfold json_read_marker at 1. cbn [app rd_u8 bind]. rewrite Z.eqb_refl. cbn [bind]. rewrite <- !app_assoc. cbn [app].
  destruct (set_copy k text' false l1 b1 W1 E1 (or_intror Nk)) as (b1' & E1' & C1). replace fuel with (length l1 + S (fuel - length l1 - 1))%nat by lia. rewrite C1. set (f := (fuel - length l1 - 1)%nat). assert (Lf' : (length bv + length b2 + 1 <= f)%nat) by lia. clearbody f.
  rewrite set_fields_S. destruct (read_name k kb (bv ++ b2 ++ JSON_OBJ_END :: rest) Wk Ek) as [R1 R2]. rewrite R1. cbn [bind]. rewrite R2. cbn [bind negb andb]. rewrite beq_refl.
  destruct (set_copy k [] true l2 b2 W2 E2 (or_introl eq_refl)) as (b2' & E2' & C2). specialize (C2 (S (f - length l2 - 1)) (JSON_OBJ_END :: rest)). replace (length l2 + S (f - length l2 - 1))%nat with f in C2 by lia. rewrite set_end in C2. cbn [bind] in C2.
  destruct ks as [|k2 ks].
  - rewrite (T1 eq_refl) in *. cbn [update_has]. rewrite (json_skip_ok z bv) by assumption. cbn [bind]. rewrite C2. cbn [bind]. cbn [lookup] in Hl.
    exists (JObj (l1 ++ (k, x) :: l2)), (JSON_OBJ :: (b1' ++ json_write_raw k ++ vb ++ b2') ++ [JSON_OBJ_END]). split; [now rewrite <- !app_assoc|]. split; [apply Enc_obj_mk, fields_app; [exact E1'|apply fields_mk; [apply name_enc|exact Hx|exact E2']]|].
    split; [cbn [json_wf]; apply wf_app; split; [exact W1|apply wf_cons; auto]|]. apply changed_field; [exact Nk|apply changed_nil].
  - assert (Ne : k2 :: ks <> []) by discriminate. specialize (T2 Ne). rewrite (written_has _ _ Ne T2). destruct z as [| | | | |lz|]; try (cbn in Hl; discriminate).
    destruct (IH text' lz bv (b2 ++ JSON_OBJ_END :: rest) f y T2 Wz Ez ltac:(lia) Hl) as (w & o1 & -> & Ew & Ww & Cw). cbn [bind]. rewrite C2. cbn [bind].
    exists (JObj (l1 ++ (k, w) :: l2)), (JSON_OBJ :: (b1' ++ json_write_raw k ++ o1 ++ b2') ++ [JSON_OBJ_END]). split; [now rewrite <- !app_assoc|]. split; [apply Enc_obj_mk, fields_app; [exact E1'|apply fields_mk; [apply name_enc|exact Ew|exact E2']]|].
    split; [cbn [json_wf]; apply wf_app; split; [exact W1|apply wf_cons; auto]|]. now apply changed_field.
Qed.
Lemma set_append k text l bs rest fuel : written [k] text -> json_wf (JObj l) = true -> Enc (JObj l) bs -> (length bs <= fuel)%nat -> ~ In k (map fst l) ->
  exists out, set_obj vb fuel text false (bs ++ rest) = Ok (out, (rest, [], false)) /\ Enc (JObj (l ++ [(k, x)])) out /\ json_wf (JObj (l ++ [(k, x)])) = true.
Proof.
  intros Wt W E Lf Nk. destruct (read_written k [] text Wt) as (text' & Rt & T1 & _). rewrite (T1 eq_refl) in Rt. pose proof (is_obj_true _ bs rest E) as Io. apply Enc_obj_inv in E. destruct E as (b & -> & Eb). cbn [json_wf] in W. fold (fields_wf l) in W.
  pose proof (fields_length _ _ Eb) as L1. cbn [length] in Lf. rewrite !app_length in Lf. cbn [length] in Lf.
  destruct fuel as [|fuel]; [lia|]. rewrite set_obj_S. rewrite Rt. cbn [bind]. rewrite Io. cbn [bind]. unfold json_read_marker at 1. cbn [app rd_u8 bind]. rewrite Z.eqb_refl. cbn [bind]. rewrite <- !app_assoc. cbn [app].
  destruct (set_copy k [] false l b W Eb (or_intror Nk)) as (b1' & E1' & C1). replace fuel with (length l + S (fuel - length l - 1))%nat by lia. rewrite C1. rewrite set_end_append. cbn [bind].
  exists (JSON_OBJ :: (b1' ++ json_write_raw k ++ vb) ++ [JSON_OBJ_END]). split; [now rewrite <- !app_assoc|]. split; [apply Enc_obj_mk, fields_app; [exact E1'|]|].
  - rewrite <- (app_nil_r vb). apply fields_mk; [apply name_enc|exact Hx|constructor].
  - cbn [json_wf]. apply wf_app. split; [exact W|]. apply wf_cons. split; [|split; [exact Hxw|reflexivity]]. destruct Wt as (_ & F & _). inversion F as [|? ? (_ & Hk & _) _]; subst. exact Hk.
Qed.
Lemma set_err keys : forall text l bs rest fuel, written keys text -> json_wf (JObj l) = true -> Enc (JObj l) bs -> (length bs <= fuel)%nat -> no_object keys (JObj l) ->
  set_obj vb fuel text false (bs ++ rest) = Err.
Proof.
  induction keys as [|k ks IH]; intros text l bs rest fuel Wt W E Lf (q & r & Eq & Nr & Hq); [destruct Wt as (Wt & _); congruence|].
  destruct q as [|j q]; [exfalso; exact (Hq l eq_refl)|]. injection Eq as <- Eks. assert (Ne : ks <> []) by (rewrite Eks; destruct q; [exact Nr|discriminate]).
  destruct (read_written k ks text Wt) as (text' & Rt & _ & T2). specialize (T2 Ne). pose proof (written_has _ _ Ne T2) as Hh.
  pose proof (is_obj_true _ bs rest E) as Io. apply Enc_obj_inv in E. destruct E as (b & -> & Eb). cbn [json_wf] in W. fold (fields_wf l) in W.
  pose proof (fields_length _ _ Eb) as L1. cbn [length] in Lf. rewrite !app_length in Lf. cbn [length] in Lf.
  destruct fuel as [|fuel]; [lia|]. rewrite set_obj_S. rewrite Rt. cbn [bind]. rewrite Io. cbn [bind]. unfold json_read_marker at 1. cbn [app rd_u8 bind]. rewrite Z.eqb_refl. cbn [bind]. rewrite <- !app_assoc. cbn [app].
  destruct (field k l) as [z|] eqn:Ef.
  - destruct (field_split k l z Ef) as (l1 & l2 & -> & Nk). apply fields_app_inv in Eb. destruct Eb as (b1 & b0 & -> & E1 & E0). apply fields_cons in E0. destruct E0 as (kb & bv & b2 & -> & Ek & Ez & E2).
    apply wf_app in W. destruct W as [W1 W0]. apply wf_cons in W0. destruct W0 as (Wk & Wz & W2). pose proof (fields_length _ _ E1). pose proof (name_pos _ _ Ek). pose proof (enc_pos _ _ Ez). rewrite !app_length in Lf.
    destruct (set_copy k text' false l1 b1 W1 E1 (or_intror Nk)) as (b1' & E1' & C1). rewrite <- !app_assoc. replace fuel with (length l1 + S (fuel - length l1 - 1))%nat by lia. rewrite C1. set (f := (fuel - length l1 - 1)%nat). assert (Lf' : (length bv + length b2 + 1 <= f)%nat) by lia. clearbody f.
    rewrite set_fields_S. destruct (read_name k kb (bv ++ b2 ++ JSON_OBJ_END :: rest) Wk Ek) as [R1 R2]. rewrite R1. cbn [bind]. rewrite R2. cbn [bind negb andb]. rewrite beq_refl, Hh.
    assert (X : set_obj vb f text' false (bv ++ b2 ++ JSON_OBJ_END :: rest) = Err).
    { assert (Q : (exists lz, z = JObj lz) \/ forall lz, z <> JObj lz) by (destruct z; eauto; right; discriminate). destruct Q as [(lz & ->)|Q].
      - apply (IH text' lz); try assumption; [lia|]. exists q, r. split; [exact Eks|]. split; [exact Nr|]. intros l' Hl'. apply (Hq l'). cbn [lookup]. now rewrite field_at.
      - destruct f as [|f]; [lia|]. rewrite set_obj_S. destruct ks as [|k2 ks]; [congruence|]. destruct (read_written k2 ks text' T2) as (t2 & -> & _). cbn [bind]. rewrite (is_obj_false z bv) by assumption. reflexivity. }
    rewrite X. reflexivity.
  - apply field_none in Ef. destruct (set_copy k text' false l b W Eb (or_intror Ef)) as (b1' & E1' & C1). replace fuel with (length l + S (fuel - length l - 1))%nat by lia. rewrite C1, set_end_err by exact Hh. reflexivity.
Qed.
End SetPath.

(** ** unset *)
Lemma unset_obj_S f path l : unset_obj (S f) path l = (
      do (key, path1) <- update_read path;
      do b <- json_is JSON_OBJ l;
      if (b : bool) then
        do l1 <- json_read_marker JSON_OBJ l;
        do (out, st) <- unset_fields f key path1 l1;
        Ok (JSON_OBJ :: out, st)
      else Err).
Proof. reflexivity. Qed.
Lemma unset_fields_S f key path l : unset_fields (S f) key path l = (
      do (e, l1) <- json_read_end JSON_OBJ_END l;
      if (e : bool) then Ok ([JSON_OBJ_END], (l1, path))
      else
        do (at_, l2) <- json_read_raw l1;
        if bytes_eqb key at_ then
          if update_has path then
            do (o1, st) <- unset_obj f path l2;
            let '(l3, path') := st in
            do (o2, st') <- unset_fields f key path' l3;
            Ok (json_write_raw at_ ++ o1 ++ o2, st')
          else
            do l3 <- json_skip l2; unset_fields f key path l3
        else
          do l3 <- json_skip l2;
          do (o2, st') <- unset_fields f key path l3;
          Ok (json_write_raw at_ ++ between l2 l3 ++ o2, st')).
Proof. reflexivity. Qed.
Lemma unset_copy key path : forall l1 b1, fields_wf l1 = true -> toks_enc (field_toks l1) b1 -> ~ In key (map fst l1) ->
  exists b1', toks_enc (field_toks l1) b1' /\ forall fuel tail,
    unset_fields (length l1 + fuel) key path (b1 ++ tail) = (do (o, st) <- unset_fields fuel key path tail; Ok (b1' ++ o, st)).
Proof.
  induction l1 as [|[k v] l1 IH]; intros b1 W E F.
  - exists []. split; [constructor|]. unfold field_toks in E. inversion E; subst. intros fuel tail. cbn [length Nat.add app]. destruct (unset_fields fuel key path tail) as [[o st]| |]; reflexivity.
  - apply wf_cons in W. destruct W as (W1 & W2 & W3). apply fields_cons in E. destruct E as (kb & bv & bl & -> & E1 & E2 & E3).
    destruct (IH bl W3 E3) as (bl' & El & Hc). { intros H; apply F; now right. }
    exists (json_write_raw k ++ bv ++ bl'). split; [apply fields_mk; [apply name_enc|exact E2|exact El]|]. intros fuel tail. cbn [length Nat.add]. rewrite unset_fields_S. rewrite <- !app_assoc.
    destruct (read_name k kb (bv ++ bl ++ tail) W1 E1) as [R1 R2]. rewrite R1. cbn [bind]. rewrite R2. cbn [bind].
    rewrite beq_false by (intros ->; apply F; now left).
    rewrite (json_skip_ok v bv) by assumption. cbn [bind]. rewrite between_ok, Hc. destruct (unset_fields fuel key path tail) as [[o st]| |]; cbn [bind]; [|reflexivity|reflexivity]. now rewrite !app_assoc.
Qed.
Lemma unset_end fuel key path rest : unset_fields (S fuel) key path (JSON_OBJ_END :: rest) = Ok ([JSON_OBJ_END], (rest, path)).
Proof. reflexivity. Qed.
Lemma unset_all key : forall l b rest fuel, fields_wf l = true -> toks_enc (field_toks l) b -> (length l < fuel)%nat ->
  exists b', toks_enc (field_toks (without key l)) b' /\ unset_fields fuel key [] (b ++ JSON_OBJ_END :: rest) = Ok (b' ++ [JSON_OBJ_END], (rest, [])).
Proof.
  induction l as [|[k v] l IH]; intros b rest fuel W E Lf.
  - exists []. split; [constructor|]. unfold field_toks in E. inversion E; subst. destruct fuel; [cbn in Lf; lia|]. reflexivity.
  - apply wf_cons in W. destruct W as (W1 & W2 & W3). apply fields_cons in E. destruct E as (kb & bv & bl & -> & E1 & E2 & E3). destruct fuel as [|fuel]; [lia|]. cbn [length] in Lf.
    destruct (IH bl rest fuel W3 E3 ltac:(lia)) as (bl' & El & Hc). rewrite unset_fields_S. rewrite <- !app_assoc.
    destruct (read_name k kb (bv ++ bl ++ JSON_OBJ_END :: rest) W1 E1) as [R1 R2]. rewrite R1. cbn [bind]. rewrite R2. cbn [bind]. unfold without. cbn [filter fst].
    destruct (bytes_eqb key k) eqn:Ek; cbn [negb update_has]; rewrite (json_skip_ok v bv) by assumption; cbn [bind]; rewrite Hc; [exists bl'; split; [exact El|reflexivity]|].
    cbn [bind]. rewrite between_ok. exists (json_write_raw k ++ bv ++ bl'). split; [apply fields_mk; [apply name_enc|exact E2|exact El]|now rewrite <- !app_assoc].
Qed.
Lemma without_wf k l : fields_wf l = true -> fields_wf (without k l) = true.
Proof. unfold fields_wf, without. rewrite !forallb_forall. intros H kv Hi. apply filter_In in Hi. apply H, Hi. Qed.

Lemma unset_ok keys : forall text l bs rest fuel, written keys text -> json_wf (JObj l) = true -> Enc (JObj l) bs -> (length bs <= fuel)%nat ->
  ~ through_value keys (JObj l) -> (forall q r k l', keys = q ++ k :: r -> r <> [] -> lookup q (JObj l) = Some (JObj l') -> NoDup (map fst l')) ->
  exists w out path, unset_obj fuel text (bs ++ rest) = Ok (out, (rest, path)) /\ Enc w out /\ json_wf w = true /\ removed keys (JObj l) w.
Proof.
  induction keys as [|k ks IH]; intros text l bs rest fuel Wt W E Lf Nt Nd; [destruct Wt as (Wt & _); congruence|].
  destruct (read_written k ks text Wt) as (text' & Rt & T1 & T2).
  pose proof (is_obj_true _ bs rest E) as Io. apply Enc_obj_inv in E. destruct E as (b & -> & Eb). cbn [json_wf] in W. fold (fields_wf l) in W.
  pose proof (fields_length _ _ Eb) as L1. cbn [length] in Lf. rewrite !app_length in Lf. cbn [length] in Lf.
  destruct fuel as [|fuel]; [lia|]. rewrite unset_obj_S. rewrite Rt. cbn [bind]. rewrite Io. cbn [bind]. unfold json_read_marker at 1. cbn [app rd_u8 bind]. rewrite Z.eqb_refl. cbn [bind]. rewrite <- !app_assoc. cbn [app].
  destruct ks as [|k2 ks].
  - rewrite (T1 eq_refl). destruct (unset_all k l b rest fuel W Eb ltac:(lia)) as (b' & Eb' & ->). cbn [bind]. exists (JObj (without k l)), (JSON_OBJ :: b' ++ [JSON_OBJ_END]), []. split; [reflexivity|]. split; [now apply Enc_obj_mk|]. split; [now apply without_wf|apply removed_all].
  - set (kk := k2 :: ks) in *. assert (Ne : kk <> []) by discriminate. specialize (T2 Ne). pose proof (written_has _ _ Ne T2) as Hh. destruct (field k l) as [z|] eqn:Ef.
    + destruct (field_split k l z Ef) as (l1 & l2 & -> & Nk). assert (N2 : ~ In k (map fst l2)). { pose proof (Nd [] kk k (l1 ++ (k, z) :: l2) eq_refl Ne eq_refl) as N. rewrite map_app in N. cbn [map fst] in N. apply NoDup_remove_2 in N. intros H. apply N, in_or_app. now right. }
      apply fields_app_inv in Eb. destruct Eb as (b1 & b0 & -> & E1 & E0). apply fields_cons in E0. destruct E0 as (kb & bv & b2 & -> & Ek & Ez & E2).
      apply wf_app in W. destruct W as [W1 W0]. apply wf_cons in W0. destruct W0 as (Wk & Wz & W2). pose proof (fields_length _ _ E1). pose proof (fields_length _ _ E2). pose proof (name_pos _ _ Ek). pose proof (enc_pos _ _ Ez). rewrite !app_length in Lf.
      destruct (unset_copy k text' l1 b1 W1 E1 Nk) as (b1' & E1' & C1). rewrite <- !app_assoc. replace fuel with (length l1 + S (fuel - length l1 - 1))%nat by lia. rewrite C1. set (f := (fuel - length l1 - 1)%nat). assert (Lf' : (length bv + length b2 + 1 <= f)%nat) by lia. clearbody f.
      rewrite unset_fields_S. destruct (read_name k kb (bv ++ b2 ++ JSON_OBJ_END :: rest) Wk Ek) as [R1 R2]. rewrite R1. cbn [bind]. rewrite R2. cbn [bind]. rewrite beq_refl, Hh.
      assert (Q : (exists lz, z = JObj lz) \/ forall lz, z <> JObj lz) by (destruct z; eauto; right; discriminate). destruct Q as [(lz & ->)|Q].
      2:{ exfalso. apply Nt. exists [k], kk, z. split; [reflexivity|]. split; [exact Ne|]. split; [cbn [lookup]; now rewrite field_at|exact Q]. }
      destruct (IH text' lz bv (b2 ++ JSON_OBJ_END :: rest) f T2 Wz Ez ltac:(lia)) as (w & o1 & path & -> & Ew & Ww & Rw).
      { intros (q & r & z & E & N & L & Z'). apply Nt. exists (k :: q), r, z. rewrite E. split; [reflexivity|]. split; [exact N|]. split; [cbn [lookup]; now rewrite field_at|exact Z']. }
      { intros q r k' l' E N L. apply (Nd (k :: q) r k' l'); [now rewrite E|exact N|]. cbn [lookup]. now rewrite field_at. }
      cbn [bind]. destruct (unset_copy k path l2 b2 W2 E2 N2) as (b2' & E2' & C2). replace f with (length l2 + S (f - length l2 - 1))%nat by lia. rewrite C2, unset_end. cbn [bind].
      exists (JObj (l1 ++ (k, w) :: l2)), (JSON_OBJ :: (b1' ++ json_write_raw k ++ o1 ++ b2') ++ [JSON_OBJ_END]), path. split; [now rewrite <- !app_assoc|]. split; [apply Enc_obj_mk, fields_app; [exact E1'|apply fields_mk; [apply name_enc|exact Ew|exact E2']]|].
      split; [cbn [json_wf]; apply wf_app; split; [exact W1|apply wf_cons; auto]|]. now apply removed_field.
    + apply field_none in Ef. destruct (unset_copy k text' l b W Eb Ef) as (b1' & E1' & C1). replace fuel with (length l + S (fuel - length l - 1))%nat by lia. rewrite C1, unset_end. cbn [bind].
      exists (JObj l), (JSON_OBJ :: b1' ++ [JSON_OBJ_END]), text'. split; [reflexivity|]. split; [now apply Enc_obj_mk|]. split; [exact W|now apply removed_missing].
Qed.
Lemma unset_err keys : forall text l bs rest fuel, written keys text -> json_wf (JObj l) = true -> Enc (JObj l) bs -> (length bs <= fuel)%nat -> through_value keys (JObj l) ->
  unset_obj fuel text (bs ++ rest) = Err.
Proof.
  induction keys as [|k ks IH]; intros text l bs rest fuel Wt W E Lf (q & r & x & Eq & Nr & Hq & Hx); [destruct Wt as (Wt & _); congruence|].
  destruct q as [|j q]; [exfalso; injection Hq as Hq; exact (Hx l (eq_sym Hq))|]. injection Eq as <- Eks. assert (Ne : ks <> []) by (rewrite Eks; destruct q; [exact Nr|discriminate]).
  destruct (read_written k ks text Wt) as (text' & Rt & _ & T2). specialize (T2 Ne). pose proof (written_has _ _ Ne T2) as Hh.
  pose proof (is_obj_true _ bs rest E) as Io. apply Enc_obj_inv in E. destruct E as (b & -> & Eb). cbn [json_wf] in W. fold (fields_wf l) in W.
  pose proof (fields_length _ _ Eb) as L1. cbn [length] in Lf. rewrite !app_length in Lf. cbn [length] in Lf.
  destruct fuel as [|fuel]; [lia|]. rewrite unset_obj_S. rewrite Rt. cbn [bind]. rewrite Io. cbn [bind]. unfold json_read_marker at 1. cbn [app rd_u8 bind]. rewrite Z.eqb_refl. cbn [bind]. rewrite <- !app_assoc. cbn [app].
  cbn [lookup] in Hq. destruct (field k l) as [z|] eqn:Ef; [|discriminate].
  destruct (field_split k l z Ef) as (l1 & l2 & -> & Nk). apply fields_app_inv in Eb. destruct Eb as (b1 & b0 & -> & E1 & E0). apply fields_cons in E0. destruct E0 as (kb & bv & b2 & -> & Ek & Ez & E2).
  apply wf_app in W. destruct W as [W1 W0]. apply wf_cons in W0. destruct W0 as (Wk & Wz & W2). pose proof (fields_length _ _ E1). pose proof (name_pos _ _ Ek). pose proof (enc_pos _ _ Ez). rewrite !app_length in Lf.
  destruct (unset_copy k text' l1 b1 W1 E1 Nk) as (b1' & E1' & C1). rewrite <- !app_assoc. replace fuel with (length l1 + S (fuel - length l1 - 1))%nat by lia. rewrite C1. set (f := (fuel - length l1 - 1)%nat). assert (Lf' : (length bv + length b2 + 1 <= f)%nat) by lia. clearbody f.
  rewrite unset_fields_S. destruct (read_name k kb (bv ++ b2 ++ JSON_OBJ_END :: rest) Wk Ek) as [R1 R2]. rewrite R1. cbn [bind]. rewrite R2. cbn [bind]. rewrite beq_refl, Hh.
  assert (X : unset_obj f text' (bv ++ b2 ++ JSON_OBJ_END :: rest) = Err).
  { assert (Q : (exists lz, z = JObj lz) \/ forall lz, z <> JObj lz) by (destruct z; eauto; right; discriminate). destruct Q as [(lz & ->)|Q].
    - apply (IH text' lz); try assumption; [lia|]. exists q, r, x. auto.
    - destruct f as [|f]; [lia|]. rewrite unset_obj_S. destruct ks as [|k2 ks]; [congruence|]. destruct (read_written k2 ks text' T2) as (t2 & -> & _). cbn [bind]. rewrite (is_obj_false z bv) by assumption. reflexivity. }
  rewrite X. reflexivity.
Qed.

(** ** arrays *)
Lemma items_cons v l b : toks_enc (item_toks (v :: l)) b -> exists bv bl, b = bv ++ bl /\ Enc v bv /\ toks_enc (item_toks l) bl.
Proof. unfold item_toks. cbn [flat_map]. apply toks_enc_app_inv. Qed.
Lemma items_mk v l bv bl : Enc v bv -> toks_enc (item_toks l) bl -> toks_enc (item_toks (v :: l)) (bv ++ bl).
Proof. unfold item_toks. cbn [flat_map]. apply toks_enc_app. Qed.
Lemma items_app l1 l2 b1 b2 : toks_enc (item_toks l1) b1 -> toks_enc (item_toks l2) b2 -> toks_enc (item_toks (l1 ++ l2)) (b1 ++ b2).
Proof. unfold item_toks. rewrite flat_map_app. apply toks_enc_app. Qed.
Lemma Enc_arr_mk l b : toks_enc (item_toks l) b -> Enc (JArr l) (JSON_ARRAY :: b ++ [JSON_ARRAY_END]).
Proof. intros H. unfold Enc. cbn [toks]. change (JSON_ARRAY :: b ++ [JSON_ARRAY_END]) with ([JSON_ARRAY] ++ b ++ [JSON_ARRAY_END]). constructor; [reflexivity|]. apply toks_enc_app; [exact H|]. change [JSON_ARRAY_END] with ([JSON_ARRAY_END] ++ []) at 1. constructor; [reflexivity|constructor]. Qed.
Lemma items_values vs bs : Forall2 Enc vs bs -> toks_enc (item_toks vs) (concat bs).
Proof. induction 1; cbn [concat]; [constructor|now apply items_mk]. Qed.
Lemma items_length l b : toks_enc (item_toks l) b -> (length l <= length b)%nat.
Proof. intros H. pose proof (item_toks_length l). apply toks_enc_length in H. lia. Qed.
Lemma item_head v bv tail : Enc v bv -> json_read_end JSON_ARRAY_END (bv ++ tail) = Ok (false, bv ++ tail) /\ json_is JSON_ARRAY_END (bv ++ tail) = Ok false.
Proof.
  intros H. destruct (Enc_head v bv H) as (h & r & -> & N & _). unfold json_read_end, json_is. cbn [app rd_u8 bind]. destruct (Z.eqb_spec h JSON_ARRAY_END); [contradiction|]. split; reflexivity.
Qed.
Lemma append_ok l vs bs vbs : Enc (JArr l) bs -> Forall2 Enc vs vbs -> Enc (JArr (l ++ vs)) (value_array_append bs vbs).
Proof.
  intros E V. apply Enc_arr_inv in E. destruct E as (b & -> & Eb). unfold value_array_append. cbn [length]. rewrite app_length. cbn [length].
  replace (S (length b + 1) - 1)%nat with (S (length b)) by lia. cbn [firstn]. rewrite firstn_app, firstn_all, Nat.sub_diag. cbn [firstn]. rewrite app_nil_r. cbn [app]. rewrite app_assoc. apply Enc_arr_mk, items_app; [exact Eb|now apply items_values].
Qed.
Lemma push_ok l vs bs vbs : Enc (JArr l) bs -> Forall2 Enc vs vbs -> Enc (JArr (vs ++ l)) (value_array_push bs vbs).
Proof. intros E V. apply Enc_arr_inv in E. destruct E as (b & -> & Eb). unfold value_array_push. cbn [skipn]. rewrite app_assoc. apply Enc_arr_mk, items_app; [now apply items_values|exact Eb]. Qed.
Lemma pop_ok l bs : json_wf (JArr l) = true -> Enc (JArr l) bs -> exists out, value_array_pop bs = Ok out /\ Enc (JArr (tl l)) out.
Proof.
  intros W E. apply Enc_arr_inv in E. destruct E as (b & -> & Eb). unfold value_array_pop, json_read_marker. cbn [rd_u8 bind]. rewrite Z.eqb_refl. cbn [bind]. destruct l as [|v l].
  - unfold item_toks in Eb. inversion Eb; subst. eexists. split; [reflexivity|]. apply (Enc_arr_mk [] []). constructor.
  - apply items_cons in Eb. destruct Eb as (bv & bl & -> & Ev & El). cbn [json_wf forallb] in W. apply andb_prop in W. destruct W as [W1 W2]. rewrite <- app_assoc. destruct (item_head v bv (bl ++ [JSON_ARRAY_END]) Ev) as [_ ->]. cbn [bind]. rewrite (json_skip_ok v bv) by assumption. cbn [bind].
    eexists. split; [reflexivity|]. now apply Enc_arr_mk.
Qed.
Lemma last_loop l : forall b fuel, l <> [] -> forallb json_wf l = true -> toks_enc (item_toks l) b -> (length l < fuel)%nat ->
  exists b1 bv, b = b1 ++ bv /\ toks_enc (item_toks (removelast l)) b1 /\ array_last_loop fuel (b ++ [JSON_ARRAY_END]) = Ok (Some (bv ++ [JSON_ARRAY_END])).
Proof.
  induction l as [|v l IH]; intros b fuel Ne W E Lf; [congruence|]. apply items_cons in E. destruct E as (bv & bl & -> & Ev & El). cbn [forallb] in W. apply andb_prop in W. destruct W as [W1 W2]. destruct fuel as [|fuel]; [lia|]. cbn [length] in Lf.
  cbn [array_last_loop]. rewrite <- app_assoc. destruct (item_head v bv (bl ++ [JSON_ARRAY_END]) Ev) as [-> _]. cbn [bind]. rewrite (json_skip_ok v bv) by assumption. cbn [bind]. destruct l as [|v2 l].
  - unfold item_toks in El. inversion El; subst. exists [], bv. split; [now rewrite app_nil_r|]. split; [constructor|]. reflexivity.
  - destruct (IH bl fuel ltac:(discriminate) W2 El ltac:(lia)) as (b1 & bz & -> & E1 & H). assert (X : json_is JSON_ARRAY_END ((b1 ++ bz) ++ [JSON_ARRAY_END]) = Ok false). { apply items_cons in El. destruct El as (c1 & c2 & E & Ec & _). rewrite E, <- app_assoc. apply (item_head v2 c1). exact Ec. }
    rewrite X. cbn [bind]. exists (bv ++ b1), bz. split; [now rewrite app_assoc|]. split; [|exact H]. change (removelast (v :: v2 :: l)) with (v :: removelast (v2 :: l)). now apply items_mk.
Qed.
Lemma pop_back_ok l bs : json_wf (JArr l) = true -> Enc (JArr l) bs -> exists out, value_array_pop_back bs = Ok out /\ Enc (JArr (removelast l)) out.
Proof.
  intros W E. apply Enc_arr_inv in E. destruct E as (b & -> & Eb). unfold value_array_pop_back, json_array_last, json_is, json_read_marker. cbn [rd_u8 bind]. replace (JSON_ARRAY =? JSON_NULL) with false by reflexivity. rewrite Z.eqb_refl. cbn [bind]. destruct l as [|v l].
  - unfold item_toks in Eb. inversion Eb; subst. eexists. split; [reflexivity|]. apply (Enc_arr_mk [] []). constructor.
  - pose proof (items_length _ _ Eb) as L. destruct (last_loop (v :: l) b (length (JSON_ARRAY :: b ++ [JSON_ARRAY_END])) ltac:(discriminate) W Eb) as (b1 & bv & -> & E1 & H). { cbn [length] in *. rewrite app_length. cbn [length]. lia. }
    rewrite H. cbn [bind]. eexists. split; [reflexivity|]. rewrite <- app_assoc. change (JSON_ARRAY :: b1 ++ bv ++ [JSON_ARRAY_END]) with ((JSON_ARRAY :: b1) ++ bv ++ [JSON_ARRAY_END]). rewrite between_ok. cbn [app]. now apply Enc_arr_mk.
Qed.
(** the items with the one at [n] replaced or dropped *)
Fixpoint put_at (n : Z) (x : json) (l : list json) : list json :=
  match l with [] => [] | v :: r => (if n =? 0 then x else v) :: put_at (n - 1) x r end.
Fixpoint drop_at (n : Z) (l : list json) : list json :=
  match l with [] => [] | v :: r => if n =? 0 then drop_at (n - 1) r else v :: drop_at (n - 1) r end.
Lemma put_at_neg x l : forall n, n < 0 -> put_at n x l = l.
Proof. induction l as [|v l IH]; intros n H; [reflexivity|]. cbn [put_at]. destruct (Z.eqb_spec n 0); [lia|]. f_equal. apply IH. lia. Qed.
Lemma drop_at_neg l : forall n, n < 0 -> drop_at n l = l.
Proof. induction l as [|v l IH]; intros n H; [reflexivity|]. cbn [drop_at]. destruct (Z.eqb_spec n 0); [lia|]. f_equal. apply IH. lia. Qed.
Lemma put_at_eq x l : forall n, 0 <= n < Z.of_nat (length l) -> put_at n x l = firstn (Z.to_nat n) l ++ x :: skipn (S (Z.to_nat n)) l.
Proof.
  induction l as [|v l IH]; intros n H; cbn [length] in H; [lia|]. cbn [put_at]. destruct (Z.eqb_spec n 0) as [->|N]; [cbn; now rewrite put_at_neg by lia|].
  rewrite IH by lia. replace (Z.to_nat n) with (S (Z.to_nat (n - 1))) by lia. reflexivity.
Qed.
Lemma drop_at_eq l : forall n, 0 <= n < Z.of_nat (length l) -> drop_at n l = firstn (Z.to_nat n) l ++ skipn (S (Z.to_nat n)) l.
Proof.
  induction l as [|v l IH]; intros n H; cbn [length] in H; [lia|]. cbn [drop_at]. destruct (Z.eqb_spec n 0) as [->|N]; [cbn; now rewrite drop_at_neg by lia|].
  rewrite IH by lia. replace (Z.to_nat n) with (S (Z.to_nat (n - 1))) by lia. reflexivity.
Qed.
Lemma put_loop_ok idx value x : Enc x value -> forall l b rest fuel i, forallb json_wf l = true -> toks_enc (item_toks l) b -> (length l < fuel)%nat ->
  exists out, put_loop fuel idx i value (b ++ JSON_ARRAY_END :: rest) = Ok (out, i + Z.of_nat (length l)) /\ toks_enc (item_toks (put_at (idx - i) x l)) out.
Proof.
  intros Hx. induction l as [|v l IH]; intros b rest fuel i W E Lf.
  - unfold item_toks in E. inversion E; subst. destruct fuel; [cbn in Lf; lia|]. exists []. split; [cbn [length]; rewrite Z.add_0_r; reflexivity|constructor].
  - apply items_cons in E. destruct E as (bv & bl & -> & Ev & El). cbn [forallb] in W. apply andb_prop in W. destruct W as [W1 W2]. destruct fuel as [|fuel]; [lia|]. cbn [length] in *.
    destruct (IH bl rest fuel (i + 1) W2 El ltac:(lia)) as (out & Ho & Eo). cbn [put_loop]. rewrite <- app_assoc. destruct (item_head v bv (bl ++ JSON_ARRAY_END :: rest) Ev) as [-> _]. cbn [bind]. rewrite (json_skip_ok v bv) by assumption. cbn [bind]. rewrite Ho. cbn [bind]. rewrite between_ok.
    eexists. split; [f_equal; f_equal; lia|]. cbn [put_at]. replace (idx - i - 1) with (idx - (i + 1)) by lia. apply items_mk; [|exact Eo]. destruct (Z.eqb_spec i idx), (Z.eqb_spec (idx - i) 0); try lia; assumption.
Qed.
Lemma remove_loop_ok idx : forall l b rest fuel i, forallb json_wf l = true -> toks_enc (item_toks l) b -> (length l < fuel)%nat ->
  exists out, remove_loop fuel idx i (b ++ JSON_ARRAY_END :: rest) = Ok (out, i + Z.of_nat (length l)) /\ toks_enc (item_toks (drop_at (idx - i) l)) out.
Proof.
  induction l as [|v l IH]; intros b rest fuel i W E Lf.
  - unfold item_toks in E. inversion E; subst. destruct fuel; [cbn in Lf; lia|]. exists []. split; [cbn [length]; rewrite Z.add_0_r; reflexivity|constructor].
  - apply items_cons in E. destruct E as (bv & bl & -> & Ev & El). cbn [forallb] in W. apply andb_prop in W. destruct W as [W1 W2]. destruct fuel as [|fuel]; [lia|]. cbn [length] in *.
    destruct (IH bl rest fuel (i + 1) W2 El ltac:(lia)) as (out & Ho & Eo). cbn [remove_loop]. rewrite <- app_assoc. destruct (item_head v bv (bl ++ JSON_ARRAY_END :: rest) Ev) as [-> _]. cbn [bind]. rewrite (json_skip_ok v bv) by assumption. cbn [bind]. rewrite Ho. cbn [bind]. rewrite between_ok.
    eexists. split; [f_equal; f_equal; lia|]. cbn [drop_at]. replace (idx - i - 1) with (idx - (i + 1)) by lia. destruct (Z.eqb_spec i idx), (Z.eqb_spec (idx - i) 0); try lia; [exact Eo|now apply items_mk].
Qed.
Lemma to_int_small z : -2147483648 <= z <= 2147483647 -> to_int z = z.
Proof.
  intros H. unfold to_int. change (2 ^ 32) with (2 ^ (8 * Z.of_nat 4)). rewrite sx_mod; [reflexivity|lia|change (8 * Z.of_nat 4 - 1) with 31; lia].
Qed.
Lemma put_ok l bs idx value x : json_wf (JArr l) = true -> Enc (JArr l) bs -> Enc x value -> -2147483648 <= idx <= 2147483647 ->
  if (0 <=? idx) && (idx <? Z.of_nat (length l))
  then exists out, value_array_put bs idx value = Ok out /\ Enc (JArr (firstn (Z.to_nat idx) l ++ x :: skipn (S (Z.to_nat idx)) l)) out
  else value_array_put bs idx value = Err.
Proof.
  intros W E Hx B. apply Enc_arr_inv in E. destruct E as (b & -> & Eb). unfold value_array_put. rewrite to_int_small by exact B. unfold json_read_marker. cbn [rd_u8 bind]. rewrite Z.eqb_refl. cbn [bind]. pose proof (items_length _ _ Eb) as L.
  destruct (put_loop_ok idx value x Hx l b [] (length (JSON_ARRAY :: b ++ [JSON_ARRAY_END])) 0 W Eb) as (out & -> & Eo). { cbn [length]. rewrite app_length. cbn [length]. lia. }
  cbn [bind]. rewrite Z.add_0_l, Z.sub_0_r in *. destruct (Z.leb_spec 0 idx), (Z.ltb_spec idx (Z.of_nat (length l))), (Z.ltb_spec idx 0), (Z.leb_spec (Z.of_nat (length l)) idx); cbn [andb orb]; try lia; try reflexivity.
  eexists. split; [reflexivity|]. apply Enc_arr_mk. rewrite <- put_at_eq by lia. exact Eo.
Qed.
Lemma remove_ok l bs idx : json_wf (JArr l) = true -> Enc (JArr l) bs -> -2147483648 <= idx <= 2147483647 ->
  if (0 <=? idx) && (idx <? Z.of_nat (length l))
  then exists out, value_array_remove bs idx = Ok out /\ Enc (JArr (firstn (Z.to_nat idx) l ++ skipn (S (Z.to_nat idx)) l)) out
  else value_array_remove bs idx = Err.
Proof.
  intros W E B. apply Enc_arr_inv in E. destruct E as (b & -> & Eb). unfold value_array_remove. rewrite to_int_small by exact B. unfold json_read_marker. cbn [rd_u8 bind]. rewrite Z.eqb_refl. cbn [bind]. pose proof (items_length _ _ Eb) as L.
  destruct (remove_loop_ok idx l b [] (length (JSON_ARRAY :: b ++ [JSON_ARRAY_END])) 0 W Eb) as (out & -> & Eo). { cbn [length]. rewrite app_length. cbn [length]. lia. }
  cbn [bind]. rewrite Z.add_0_l, Z.sub_0_r in *. destruct (Z.leb_spec 0 idx), (Z.ltb_spec idx (Z.of_nat (length l))), (Z.ltb_spec idx 0), (Z.leb_spec (Z.of_nat (length l)) idx); cbn [andb orb]; try lia; try reflexivity.
  eexists. split; [reflexivity|]. apply Enc_arr_mk. rewrite <- drop_at_eq by lia. exact Eo.
Qed.
