(** Proofs for C69: the catalog file. *)
From Verif Require Import Base JsonModel JsonSpec JsonProofs JsonOrder JsonProps JsonTextModel JsonTextSpec JsonTextProofs JsonTextProps CodecModel CodecSpec CodecProps Utf8Model Utf8Spec DdlModel DdlSpec DdlProofs CatModel CatSpec.
From Coq Require Import String Ascii.
Local Open Scope Z_scope.

(** ** values that survive export and parse *)
Definition fine (v : json) : Prop :=
  json_wf v = true /\ json_no_reals v = true /\ strings_ok (string_ok true) v /\ ints_ok (fun z => z <> INT64_MIN) v.
Definition str_fine (s : str) : Prop := str_wf s = true /\ string_ok true s.
Lemma utf8_fine s : utf8_str s -> str_fine s.
Proof.
  intros (B & L & l & E & C). split; [unfold str_wf; rewrite B; apply Z.leb_le in L; rewrite L; reflexivity|]. exists l. split; [exact E|exact C].
Qed.
Lemma fine_str s : str_fine s -> fine (JStr s).
Proof. intros [W S]. split; [exact W|]. split; [reflexivity|]. split; [exact S|exact I]. Qed.
Lemma fine_bool b : fine (JBool b).
Proof. repeat split. Qed.
Lemma fine_int z : int64 z -> fine (JInt z).
Proof.
  intros H. unfold int64 in H. split; [|split; [reflexivity|split; [exact I|]]]; cbn [json_wf ints_ok]; unfold INT64_MIN, INT64_MAX; lia.
Qed.
Lemma int32_64 z : int32 z -> int64 z.
Proof. unfold int32, int64. lia. Qed.
Lemma fine_arr l : Forall fine l -> fine (JArr l).
Proof.
  induction 1 as [|v l (A & B & C & D) _ (A' & B' & C' & D')]; [repeat split|]. unfold fine. cbn [json_wf json_no_reals strings_ok ints_ok forallb fold_right] in *.
  rewrite A, B. split; [exact A'|]. split; [exact B'|]. split; split; assumption.
Qed.
Lemma fine_obj l : Forall (fun kv => str_fine (fst kv) /\ fine (snd kv)) l -> fine (JObj l).
Proof.
  induction 1 as [|[k v] l ((W & S) & A & B & C & D) _ (A' & B' & C' & D')]; [repeat split|]. unfold fine. cbn [fst snd] in *. cbn [fst snd json_wf json_no_reals strings_ok ints_ok forallb fold_right] in *.
  rewrite W, A, B. split; [exact A'|]. split; [exact B'|]. split; [split; [exact S|split; assumption]|split; assumption].
Qed.
Lemma ascii_fine s : Forall (fun b => 0 <= b < 128) s -> Z.of_nat (List.length s) <= INT32_MAX -> str_fine s.
Proof.
  intros H L. split.
  - unfold str_wf. apply Z.leb_le in L. rewrite L, andb_true_r. unfold bytes_ok. apply forallb_forall. intros b Hb.
    rewrite Forall_forall in H. specialize (H b Hb). unfold byte_ok. lia.
  - exists s. split.
    + clear L. induction H as [|b s Hb _ IH]; [reflexivity|]. unfold text in *. cbn [flat_map]. rewrite <- IH. unfold utf8.
      replace (b <? 128) with true by lia. reflexivity.
    + eapply Forall_impl; [|exact H]. intros b Hb. cbv beta in Hb. unfold char_ok, code. lia.
Qed.
Lemma key_fine s : (String.length s <= 1000)%nat -> forallb (fun c => Nat.ltb (nat_of_ascii c) 128) (list_ascii_of_string s) = true -> str_fine (K s).
Proof.
  intros L H. apply ascii_fine.
  - unfold K. apply Forall_map, Forall_forall. intros c Hc. rewrite forallb_forall in H. specialize (H c Hc). apply Nat.ltb_lt in H. lia.
  - unfold K. rewrite map_length. assert (List.length (list_ascii_of_string s) = String.length s) as -> by (clear; induction s; cbn; congruence).
    unfold INT32_MAX. lia.
Qed.
Lemma hex_ascii n v : 0 <= v -> Forall (fun b => 0 <= b < 128) (fmt_hex n v).
Proof.
  revert v. induction n as [|n IH]; intros v Hv; [constructor|]. cbn [fmt_hex]. apply Forall_app. split; [apply IH; apply Z.div_pos; lia|].
  constructor; [|constructor]. unfold hex_char. pose proof (Z.mod_pos_bound v 16). destruct (v mod 16 <? 10) eqn:E; lia.
Qed.
Lemma uuid_fine u : uuid_ok u -> str_fine (uuid_get u).
Proof.
  intros (Ha & Hb & Hc & Hd & He & Hf). apply ascii_fine.
  - unfold uuid_get. repeat match goal with |- Forall _ (_ ++ _) => apply Forall_app; split | |- Forall _ (fmt_hex _ _) => apply hex_ascii; lia | |- Forall _ (_ :: _) => apply Forall_cons; [lia|] | |- Forall _ [] => apply Forall_nil end.
  - unfold uuid_get. rewrite !app_length, !fmt_hex_length. vm_compute. discriminate.
Qed.
Lemma char_ascii v : 0 <= v < 64 -> 0 <= b64_char 45 95 v < 128.
Proof. unfold b64_char. intros H. destruct (v <? 26) eqn:E1; [lia|]. destruct (v <? 52) eqn:E2; [lia|]. destruct (v <? 62) eqn:E3; [lia|]. destruct (v =? 62); lia. Qed.
Lemma byte_bounds a : byte_ok a = true -> 0 <= a < 256.
Proof. unfold byte_ok. lia. Qed.
Lemma base64_ascii s : bytes_ok s = true -> Forall (fun b => 0 <= b < 128) (base64url_text s).
Proof.
  unfold base64url_text. induction s as [|a|a b|a b c s IH] using list3_ind; intros H; unfold bytes_ok in H; cbn [forallb] in H;
    repeat (match goal with H : _ && _ = true |- _ => apply andb_prop in H; destruct H end); cbn [rfc_encode app]; cbv zeta;
    repeat match goal with H : byte_ok _ = true |- _ => apply byte_bounds in H end;
    repeat match goal with |- Forall _ (_ :: _) => apply Forall_cons | |- Forall _ [] => apply Forall_nil end; try (apply IH; assumption);
    apply char_ascii; try (apply Z.mod_pos_bound; lia); (split; [apply Z.div_pos; lia|apply Z.div_lt_upper_bound; lia]).
Qed.
Lemma base64_fine s : bytes_ok s = true -> Z.of_nat (List.length s) <= 2 ^ 30 -> str_fine (base64url_text s).
Proof.
  intros H L. apply ascii_fine; [apply base64_ascii, H|]. unfold base64url_text. rewrite (rfc_length 45 95 false s).
  unfold INT32_MAX. assert ((4 * Z.of_nat (List.length s) + 2) / 3 <= (4 * 2 ^ 30 + 2) / 3) by (apply Z.div_le_mono; lia).
  change ((4 * 2 ^ 30 + 2) / 3) with 1431655766 in *. lia.
Qed.

Ltac kf := apply key_fine; [cbn; lia|reflexivity].
Ltac fo := apply fine_obj; repeat (apply Forall_cons; [split; [cbn [fst]; kf|cbn [snd]]|]); try apply Forall_nil.

Lemma cons_write_fine k l : cons_fine k -> constraints_write k = Ok l -> Forall (fun i => fine (cons_json i)) l.
Proof.
  intros (A & B & C & D & E & F) H. unfold constraints_write in H. destruct (C34_base64url _ E) as [He _].
  assert (exists d, (match k_default k with [] => Ok [] | z :: q => do t <- base64url_encode (z :: q); Ok [K_default t] end) = Ok d /\ Forall (fun i => fine (cons_json i)) d) as (d & Hd & Fd).
  { destruct (k_default k) as [|z q] eqn:Ek; [exists []; split; [reflexivity|constructor]|]. rewrite He. eexists. split; [reflexivity|].
    constructor; [|constructor]. cbn [cons_json]. apply fine_arr. constructor; [apply fine_str; kf|]. constructor; [|constructor]. apply fine_str, base64_fine; assumption. }
  match type of H with (do _ <- ?m; _) = _ => replace m with (Ok d : res (list cons_item)) in H by (rewrite <- Hd; destruct (k_default k); reflexivity) end.
  cbn [bind] in H. injection H as <-.
  repeat (apply Forall_app; split); try exact Fd.
  - destruct (k_not_null k); constructor; [|constructor]. apply fine_arr. constructor; [apply fine_str; kf|]. constructor; [apply fine_bool|constructor].
  - destruct (k_identity k =? 0); constructor; [|constructor]. apply fine_arr. constructor; [apply fine_str; kf|]. constructor; [apply fine_int, A|constructor].
  - destruct (k_modulo k =? 9223372036854775807); constructor; [|constructor]. apply fine_arr. constructor; [apply fine_str; kf|]. constructor; [apply fine_int, B|constructor].
  - destruct (k_stored k); constructor; [|constructor]. apply fine_arr. constructor; [apply fine_str; kf|]. constructor; [apply fine_str, utf8_fine, C|constructor].
  - destruct (k_resolved k); constructor; [|constructor]. apply fine_arr. constructor; [apply fine_str; kf|]. constructor; [apply fine_str, utf8_fine, D|constructor].
Qed.
Lemma cons_items l : map_res json_cons (map cons_json l) = Ok l.
Proof.
  induction l as [|i l IH]; [reflexivity|]. cbn [map map_res]. rewrite IH.
  assert (json_cons (cons_json i) = Ok i) as -> by (destruct i; reflexivity). reflexivity.
Qed.
Ltac dec := match goal with |- context [decode_obj ?t (JObj ?l)] => replace (decode_obj t (JObj l)) with (Ok (map snd l)) by reflexivity end; cbn [map snd bind v_str v_int v_bool v_uuid].
Lemma read_array_ok {A} (f : json -> res A) l xs : Forall2 (fun x v => f v = Ok x) xs l -> read_array f (JArr l) = Ok xs.
Proof.
  intros H. unfold read_array. cbn [v_arr bind]. induction H as [|x v xs l E _ IH]; [reflexivity|]. cbn [map_res]. rewrite E, IH. reflexivity.
Qed.
Lemma read_array_map {A} (f : json -> res A) w xs : Forall (fun x => f (w x) = Ok x) xs -> read_array f (JArr (map w xs)) = Ok xs.
Proof. intros H. apply read_array_ok. induction H; constructor; assumption. Qed.
Lemma map_res_ok {A} (w : A -> res json) (f : json -> res A) xs : Forall (fun x => exists v, w x = Ok v /\ f v = Ok x /\ fine v) xs ->
  exists l, map_res w xs = Ok l /\ read_array f (JArr l) = Ok xs /\ Forall fine l.
Proof.
  intros H. cut (exists l, map_res w xs = Ok l /\ Forall2 (fun x v => f v = Ok x) xs l /\ Forall fine l).
  { intros (l & E & F & G). exists l. split; [exact E|]. split; [apply read_array_ok, F|exact G]. }
  induction H as [|x xs (v & W & R & F) _ (l & E & F2 & G)]; [exists []; repeat constructor|]. exists (v :: l). cbn [map_res]. rewrite W, E.
  split; [reflexivity|]. split; constructor; assumption.
Qed.
Lemma column_ok x : column_fine x -> exists v, column_write x = Ok v /\ column_read v = Ok x /\ fine v.
Proof.
  intros (A & B & C & D). destruct (cons_write_ok (cc_cons x)) as (l & W & R); [apply D|]. unfold column_write. rewrite W. cbn [bind].
  eexists. split; [reflexivity|]. split.
  - unfold column_read. dec.
    assert (read_array json_cons (JArr (map cons_json l)) = Ok l) as -> by (unfold read_array; cbn [v_arr bind]; apply cons_items).
    cbn [bind]. rewrite R. destruct x; reflexivity.
  - fo; [apply fine_str, utf8_fine, A|apply fine_int, int32_64, B|apply fine_int, int32_64, C|apply fine_bool|].
    apply fine_arr, Forall_map. apply (cons_write_fine _ _ D W).
Qed.
Lemma index_ok x : index_fine x -> index_config_read (index_config_write x) = Ok x /\ fine (index_config_write x).
Proof.
  intros (A & B & C). unfold index_config_write. split.
  - unfold index_config_read. dec. rewrite read_array_map; [destruct x; reflexivity|]. apply Forall_forall. intros k _. unfold key_read, key_write. dec. destruct k; reflexivity.
  - fo; [apply fine_str, utf8_fine, A|apply fine_int, int32_64, B|apply fine_bool|apply fine_bool|].
    apply fine_arr, Forall_map. eapply Forall_impl; [|exact C]. intros k Hk. unfold key_write. fo; [apply fine_int, int32_64, Hk|apply fine_bool].
Qed.
Lemma volume_ok x : volume_fine x -> volume_read (volume_write x) = Ok x /\ fine (volume_write x).
Proof.
  intros (A & B). unfold volume_write. split.
  - unfold volume_read. dec. rewrite C33_format_parse by exact B. destruct x; reflexivity.
  - fo; [apply fine_str, utf8_fine, A|apply fine_str, uuid_fine, B|apply fine_bool].
Qed.
Lemma volumes_ok l : Forall volume_fine l -> read_array volume_read (JArr (map volume_write l)) = Ok l /\ fine (JArr (map volume_write l)).
Proof.
  intros H. split; [apply read_array_map|apply fine_arr, Forall_map]; (eapply Forall_impl; [|exact H]); intros v Hv; apply (volume_ok v Hv).
Qed.
Lemma tier_ok x : tier_fine x -> tier_config_read (tier_config_write x) = Ok x /\ fine (tier_config_write x).
Proof.
  intros (A & B & C & D). destruct (volumes_ok _ D) as [R F]. unfold tier_config_write. split.
  - unfold tier_config_read. dec. rewrite R. destruct x; reflexivity.
  - fo; [apply fine_str, utf8_fine, A|apply fine_int, int32_64, B|apply fine_int, int32_64, C|exact F].
Qed.
Lemma table_ok x : table_fine x -> exists v, table_config_write x = Ok v /\ table_config_read v = Ok x /\ fine v.
Proof.
  intros (A & B & C & D & E & F & G & H). destruct (map_res_ok column_write column_read (cb_columns x)) as (l & W & R & Q).
  { eapply Forall_impl; [|exact D]. intros c Hc. apply column_ok, Hc. }
  unfold table_config_write. rewrite W. cbn [bind]. eexists. split; [reflexivity|]. destruct (volumes_ok _ G) as [RV FV]. split.
  - unfold table_config_read. dec. rewrite C33_format_parse by exact C. cbn [bind]. rewrite R. cbn [bind].
    rewrite read_array_map by (eapply Forall_impl; [|exact E]; intros i Hi; apply (index_ok i Hi)). cbn [bind].
    assert (part_mgr_config_read (part_mgr_config_write (cb_parts x)) = Ok (cb_parts x)) as ->.
    { unfold part_mgr_config_read, part_mgr_config_write. dec. rewrite RV. destruct (cb_parts x); reflexivity. }
    cbn [bind]. rewrite read_array_map by (eapply Forall_impl; [|exact H]; intros i Hi; apply (tier_ok i Hi)). destruct x; reflexivity.
  - fo; [apply fine_str, utf8_fine, A|apply fine_str, utf8_fine, B|apply fine_str, uuid_fine, C|apply fine_bool|apply fine_arr, Q| | |].
    + apply fine_arr, Forall_map. eapply Forall_impl; [|exact E]. intros i Hi. apply (index_ok i Hi).
    + unfold part_mgr_config_write. fo; [apply fine_int, int32_64, F|exact FV].
    + apply fine_arr, Forall_map. eapply Forall_impl; [|exact H]. intros i Hi. apply (tier_ok i Hi).
Qed.
Lemma udf_ok x : udf_fine x -> exists v, udf_config_write x = Ok v /\ udf_config_read v = Ok x /\ fine v.
Proof.
  intros (A & B & C & D & E & F).
  assert (P : forall l, Forall arg_fine l -> exists v, map_res column_write l = Ok v /\ read_array column_read (JArr v) = Ok l /\ Forall fine v).
  { intros l Hl. apply map_res_ok. eapply Forall_impl; [|exact Hl]. intros c [Hc _]. apply column_ok, Hc. }
  destruct (P _ E) as (la & WA & RA & FA), (P _ F) as (lr & WR & RR & FR). unfold udf_config_write. rewrite WA, WR. cbn [bind]. eexists. split; [reflexivity|]. split.
  - unfold udf_config_read.
    match goal with |- context [decode_obj ?t (JObj ?l)] => replace (decode_obj t (JObj l)) with (Ok [JStr (cu_db x); JStr (cu_name x); JStr (cu_text x); JArr la; JInt (cu_type x); JArr lr]) by reflexivity end.
    cbn [bind v_str v_int]. rewrite RA, RR. destruct x; reflexivity.
  - fo; [apply fine_str, utf8_fine, A|apply fine_str, utf8_fine, B|apply fine_str, utf8_fine, C|apply fine_int, int32_64, D|apply fine_arr, FA|apply fine_arr, FR].
Qed.
Lemma storage_ok x : storage_fine x -> cs_system x = false -> storage_config_read (storage_config_write x) = Ok x /\ fine (storage_config_write x).
Proof.
  intros (A & B & C & D) E. unfold storage_config_write. split.
  - unfold storage_config_read. dec. destruct x. cbn in E |- *. rewrite E. reflexivity.
  - fo; [apply fine_str, utf8_fine, A|apply fine_str, utf8_fine, B|apply fine_str, utf8_fine, C|apply fine_int, int32_64, D].
Qed.
Lemma db_ok x : utf8_str (cd_name x) -> cd_system x = false -> database_config_read (database_config_write x) = Ok x /\ fine (database_config_write x).
Proof.
  intros A E. unfold database_config_write. split.
  - unfold database_config_read. dec. destruct x. cbn in E |- *. rewrite E. reflexivity.
  - fo. apply fine_str, utf8_fine, A.
Qed.

(** ** copies *)
Lemma to_i32_id z : int32 z -> to_i32 z = z.
Proof.
  unfold int32, to_i32. intros H. cbv zeta. destruct (Z_lt_dec z 0).
  - assert (z mod 4294967296 = z + 4294967296) as -> by (symmetry; apply (Z.mod_unique_pos z 4294967296 (-1)); lia). destruct (z + 4294967296 <? 2147483648) eqn:E; lia.
  - rewrite Z.mod_small by lia. destruct (z <? 2147483648) eqn:E; lia.
Qed.
Lemma map_id_in {A} (f : A -> A) l : Forall (fun x => f x = x) l -> map f l = l.
Proof. induction 1 as [|x l E _ IH]; [reflexivity|]. cbn [map]. rewrite E, IH. reflexivity. Qed.
Lemma storage_copy x : storage_fine x -> storage_config_copy x = x.
Proof. intros (_ & _ & _ & H). unfold storage_config_copy. rewrite to_i32_id by exact H. destruct x; reflexivity. Qed.
Lemma column_copy_ok x : column_fine x -> ccolumn_copy x = undrop x.
Proof. intros (_ & B & C & _). unfold ccolumn_copy, undrop. rewrite !to_i32_id by assumption. reflexivity. Qed.
Lemma arg_copy x : arg_fine x -> ccolumn_copy x = x.
Proof. intros [H D]. rewrite column_copy_ok by exact H. unfold undrop. rewrite <- D. destruct x; reflexivity. Qed.
Lemma index_copy x : index_fine x -> index_config_copy x = x.
Proof.
  intros (_ & B & C). unfold index_config_copy. rewrite to_i32_id by exact B. rewrite map_id_in; [destruct x; reflexivity|].
  eapply Forall_impl; [|exact C]. intros k Hk. unfold key_copy. rewrite to_i32_id by exact Hk. destruct k; reflexivity.
Qed.
Lemma tier_copy x : tier_fine x -> ctier_config_copy x = x.
Proof.
  intros (_ & B & C & D). unfold ctier_config_copy. rewrite !to_i32_id by assumption. rewrite map_id_in; [destruct x; reflexivity|].
  apply Forall_forall. reflexivity.
Qed.
Lemma table_copy x : table_fine x -> table_config_copy x = undrop_table x.
Proof.
  intros (A & B & C & D & E & F & G & H). unfold table_config_copy, undrop_table. f_equal.
  - apply map_ext_in. intros c Hc. apply column_copy_ok. rewrite Forall_forall in D. apply D, Hc.
  - apply map_id_in. eapply Forall_impl; [|exact E]. apply index_copy.
  - unfold part_mgr_config_copy. rewrite to_i32_id by exact F. rewrite map_id_in by (apply Forall_forall; reflexivity). destruct (cb_parts x); reflexivity.
  - apply map_id_in. eapply Forall_impl; [|exact H]. apply tier_copy.
Qed.
Lemma udf_copy x : udf_fine x -> udf_config_copy x = x.
Proof.
  intros (A & B & C & D & E & F). unfold udf_config_copy. rewrite to_i32_id by exact D.
  rewrite (map_id_in ccolumn_copy (cu_args x)) by (eapply Forall_impl; [|exact E]; apply arg_copy).
  rewrite (map_id_in ccolumn_copy (cu_returning x)) by (eapply Forall_impl; [|exact F]; apply arg_copy). destruct x; reflexivity.
Qed.

(** ** restore *)
Lemma compare_case a b : str_compare_case a b = true -> map lower a = map lower b.
Proof.
  revert b. induction a as [|x a IH]; intros [|y b] H; cbn in H; try discriminate; [reflexivity|]. apply andb_prop in H. destruct H as [E H].
  cbn [map]. apply Z.eqb_eq in E. rewrite E, (IH b H). reflexivity.
Qed.
Lemma case_compare a b : map lower a = map lower b -> str_compare_case a b = true.
Proof.
  revert b. induction a as [|x a IH]; intros [|y b] H; cbn in H; try discriminate; [reflexivity|]. injection H as E H. cbn [str_compare_case].
  rewrite E, Z.eqb_refl, (IH b H). reflexivity.
Qed.
Lemma nodup_new {A B} (key : A -> B) (eqb : A -> A -> bool) l x l2 : (forall a b, eqb a b = true -> key a = key b) ->
  NoDup (map key (l ++ x :: l2)) -> existsb (fun y => eqb y x) l = false.
Proof.
  intros H N. rewrite map_app in N. cbn [map] in N. apply NoDup_remove_2 in N. destruct (existsb _ l) eqn:E; [|reflexivity]. exfalso. apply N.
  apply existsb_exists in E. destruct E as (y & I & E). rewrite <- (H y x E). apply in_or_app. left. apply in_map, I.
Qed.
Lemma restore_gen {A} (rd : json -> res A) f (put : list A -> ccatalog) (cp : A -> A) xs : forall vs done, Forall2 (fun x v => rd v = Ok x) xs vs ->
  (forall l1 x l2, xs = l1 ++ x :: l2 -> f (put (done ++ map cp l1)) x = Ok (put (done ++ map cp l1 ++ [cp x]))) ->
  restore_all rd f vs (put done) = Ok (put (done ++ map cp xs)).
Proof.
  induction xs as [|x xs IH]; intros vs done F H; inversion F; subst; cbn [restore_all]; [cbn [map]; rewrite app_nil_r; reflexivity|].
  match goal with E : rd ?y = _ |- _ => rewrite E end. cbn [bind]. specialize (H [] x xs eq_refl) as H0. cbn [map app] in H0. rewrite app_nil_r in H0. rewrite H0. cbn [bind].
  rewrite (IH _ (done ++ [cp x])) by (try assumption; intros l1 y' l2 E; specialize (H (x :: l1) y' l2 (f_equal (cons x) E)); cbn [map app] in H; rewrite <- !app_assoc; exact H).
  rewrite <- app_assoc. reflexivity.
Qed.
Lemma forall2_map {A} (rd : json -> res A) w xs : Forall (fun x => rd (w x) = Ok x) xs -> Forall2 (fun x v => rd v = Ok x) xs (map w xs).
Proof. induction 1; constructor; assumption. Qed.
Lemma map_res_ok2 {A} (w : A -> res json) (f : json -> res A) xs : Forall (fun x => exists v, w x = Ok v /\ f v = Ok x /\ fine v) xs ->
  exists l, map_res w xs = Ok l /\ Forall2 (fun x v => f v = Ok x) xs l /\ Forall fine l.
Proof.
  induction 1 as [|x xs (v & W & R & F) _ (l & E & F2 & G)]; [exists []; repeat constructor|]. exists (v :: l). cbn [map_res]. rewrite W, E.
  split; [reflexivity|]. split; constructor; assumption.
Qed.
Lemma Forall_mid {A} (P : A -> Prop) l1 x l2 : Forall P (l1 ++ x :: l2) -> Forall P l1 /\ P x.
Proof. intros H. apply Forall_app in H. destruct H as [H1 H2]. inversion H2; subst. split; assumption. Qed.
Lemma filter_all {A} (f : A -> bool) l : Forall (fun x => f x = true) l -> filter f l = l.
Proof. induction 1 as [|x l E _ IH]; [reflexivity|]. cbn [filter]. rewrite E, IH. reflexivity. Qed.

Lemma restore_ok compiles c : catalog_fine c -> compile_in_order compiles (undrop_catalog c) ->
  exists v, catalog_write_prepare c = Ok v /\ fine v /\ catalog_restore compiles v catalog_prepare = Ok (undrop_catalog c).
Proof.
  intros (Hl & (ls & ES & FS & YS) & (ld & ED & FD & YD) & FT & HT & FU & NS & ND & NT & NU) HC.
  destruct (map_res_ok2 table_config_write table_config_read (g_tables c)) as (lt & WT & RT & QT); [eapply Forall_impl; [|exact FT]; apply table_ok|].
  destruct (map_res_ok2 udf_config_write udf_config_read (g_udfs c)) as (lu & WU & RU & QU); [eapply Forall_impl; [|exact FU]; apply udf_ok|].
  unfold catalog_write_prepare. rewrite WT, WU. cbn [bind]. rewrite ES, ED. cbn [filter main_storage main_db cs_system cd_system negb].
  rewrite (filter_all _ ls) by (eapply Forall_impl; [|exact YS]; cbn; intros a ->; reflexivity).
  rewrite (filter_all _ ld) by (eapply Forall_impl; [|exact YD]; cbn; intros a ->; reflexivity).
  eexists. split; [reflexivity|].
  assert (OS : Forall (fun x => storage_config_read (storage_config_write x) = Ok x /\ fine (storage_config_write x)) ls).
  { rewrite Forall_forall in *. intros x Hx. apply storage_ok; auto. }
  assert (OD : Forall (fun x => database_config_read (database_config_write x) = Ok x /\ fine (database_config_write x)) ld).
  { rewrite Forall_forall in *. intros x Hx. apply db_ok; auto. }
  split.
  { fo; [apply fine_int, Hl| | |apply fine_arr, QT|apply fine_arr, QU]; apply fine_arr, Forall_map.
    - eapply Forall_impl; [|exact OS]. cbn. tauto.
    - eapply Forall_impl; [|exact OD]. cbn. tauto. }
  unfold catalog_restore. dec. cbn [v_arr bind]. unfold catalog_prepare.
  rewrite (restore_gen storage_config_read restore_storage (fun l => mkccat 0 l [main_db] [] []) storage_config_copy ls _ [main_storage]).
  2:{ apply forall2_map. eapply Forall_impl; [|exact OS]. cbn. tauto. }
  2:{ intros l1 x l2 E. rewrite E in FS. apply Forall_mid in FS. destruct FS as [F1 F2]. rewrite map_id_in by (eapply Forall_impl; [|exact F1]; apply storage_copy).
      unfold restore_storage, find_storage. cbn [g_storages]. rewrite ES, E in NS.
      rewrite (nodup_new (fun x => map lower (cs_name x)) (fun a b => str_compare_case (cs_name a) (cs_name b)) ([main_storage] ++ l1) x l2); [|intros a b; apply compare_case|exact NS].
      cbn [g_lsn g_dbs g_tables g_udfs]. rewrite app_assoc. reflexivity. }
  cbn [bind]. rewrite map_id_in by (eapply Forall_impl; [|exact FS]; apply storage_copy). cbn [app]. rewrite <- ES.
  rewrite (restore_gen database_config_read restore_db (fun l => mkccat 0 (g_storages c) l [] []) database_config_copy ld _ [main_db]).
  2:{ apply forall2_map. eapply Forall_impl; [|exact OD]. cbn. tauto. }
  2:{ intros l1 x l2 E. rewrite map_id_in by (apply Forall_forall; reflexivity).
      unfold restore_db. cbn [g_dbs]. rewrite ED, E in ND.
      rewrite (nodup_new (fun x => map lower (cd_name x)) (fun a b => str_compare_case (cd_name a) (cd_name b)) ([main_db] ++ l1) x l2); [|intros a b; apply compare_case|exact ND].
      cbn [g_lsn g_storages g_tables g_udfs]. rewrite app_assoc. reflexivity. }
  cbn [bind]. rewrite map_id_in by (apply Forall_forall; reflexivity). cbn [app]. rewrite <- ED.
  rewrite (restore_gen table_config_read restore_table (fun l => mkccat 0 (g_storages c) (g_dbs c) l []) undrop_table (g_tables c) lt []).
  2:{ exact RT. }
  2:{ intros l1 x l2 E. cbn [app]. unfold restore_table. cbn [g_tables g_lsn g_storages g_dbs g_udfs].
      rewrite E in FT, HT, NT. apply Forall_mid in FT. apply Forall_mid in HT. destruct FT as [F1 F2], HT as [_ H2].
      assert (existsb (fun y => str_compare_case (cb_db y) (cb_db x) && str_compare_case (cb_name y) (cb_name x)) (map undrop_table l1) = false) as ->.
      { rewrite <- (nodup_new (fun x => (map lower (cb_db x), map lower (cb_name x))) (fun a b => str_compare_case (cb_db a) (cb_db b) && str_compare_case (cb_name a) (cb_name b)) l1 x l2); [|intros a b Q; apply andb_prop in Q; destruct Q as [Q1 Q2]; f_equal; apply compare_case; assumption|exact NT].
        clear. induction l1 as [|y l1 IH]; [reflexivity|]. cbn [map existsb]. rewrite IH. reflexivity. }
      assert (Hf : forall v, In v (cp_volumes (cb_parts x)) \/ (exists t, In t (cb_tiers x) /\ In v (ct_volumes t)) -> find_storage (mkccat 0 (g_storages c) (g_dbs c) (map undrop_table l1) []) (cv_name v) = true).
      { intros v Hv. destruct (H2 v Hv) as (s & I & N). unfold find_storage. apply existsb_exists. exists s. split; [exact I|apply case_compare, N]. }
      assert (volumes_found (mkccat 0 (g_storages c) (g_dbs c) (map undrop_table l1) []) x = true) as ->.
      { unfold volumes_found. apply andb_true_intro. split; apply forallb_forall; [intros v Hv; apply Hf; left; exact Hv|].
        intros t Ht. apply forallb_forall. intros v Hv. apply Hf. right. exists t. split; assumption. }
      rewrite table_copy by exact F2. reflexivity. }
  cbn [bind app].
  rewrite (restore_gen udf_config_read (restore_udf compiles) (fun l => mkccat 0 (g_storages c) (g_dbs c) (map undrop_table (g_tables c)) l) udf_config_copy (g_udfs c) lu []).
  2:{ exact RU. }
  2:{ intros l1 x l2 E. cbn [app]. unfold restore_udf. cbn [g_tables g_lsn g_storages g_dbs g_udfs].
      rewrite E in FU, NU. apply Forall_mid in FU. destruct FU as [F1 F2]. rewrite map_id_in by (eapply Forall_impl; [|exact F1]; apply udf_copy). rewrite udf_copy by exact F2.
      rewrite (nodup_new (fun x => (map lower (cu_db x), map lower (cu_name x))) (fun a b => str_compare_case (cu_db a) (cu_db b) && str_compare_case (cu_name a) (cu_name b)) l1 x l2); [|intros a b Q; apply andb_prop in Q; destruct Q as [Q1 Q2]; f_equal; apply compare_case; assumption|exact NU].
      cbv zeta. rewrite (HC l1 x l2 E : compiles (mkccat 0 (g_storages c) (g_dbs c) (map undrop_table (g_tables c)) (l1 ++ [x])) x = true). reflexivity. }
  cbn [bind app g_storages g_dbs g_tables g_udfs]. rewrite (map_id_in udf_config_copy) by (eapply Forall_impl; [|exact FU]; apply udf_copy). reflexivity.
Qed.
Lemma load_text compiles g sd c v : catalog_write_prepare c = Ok v -> fine v ->
  exists t, catalog_text g c = Ok t /\ catalog_load compiles sd t = catalog_restore compiles v catalog_prepare.
Proof.
  intros W (A & B & C & D). destruct (C29_round_trip_partial g sd v (json_bytes v) true A B C D (C25_json_stored_form v)) as (t & bs & X & P & E).
  exists t. unfold catalog_text, catalog_load. rewrite W. cbn [bind]. rewrite X. cbn [bind]. split; [reflexivity|]. rewrite P. cbn [bind].
  destruct (C25_json_roundtrip v bs [] A (json_no_reals_exact v B) E) as [R _]. rewrite app_nil_r in R. rewrite R. reflexivity.
Qed.
