(** What C69 and C70 are about, apart from the code: catalogs a server can hold. *)
From Verif Require Import Base JsonModel JsonSpec CodecModel Utf8Spec DdlModel DdlSpec CatModel.
Local Open Scope Z_scope.

(** a string of UTF-8 characters of a size below 2^31 *)
Definition utf8_str (s : str) : Prop := bytes_ok s = true /\ Z.of_nat (List.length s) <= INT32_MAX /\ exists l, s = text l /\ Forall code l.
Definition int32 (z : Z) : Prop := - 2 ^ 31 <= z < 2 ^ 31.
Definition int64 (z : Z) : Prop := - 2 ^ 63 < z < 2 ^ 63.
Definition cons_fine (k : constraints) : Prop :=
  int64 (k_identity k) /\ int64 (k_modulo k) /\ utf8_str (k_stored k) /\ utf8_str (k_resolved k) /\
  bytes_ok (k_default k) = true /\ Z.of_nat (List.length (k_default k)) <= 2 ^ 30.
Definition column_fine (x : ccolumn) : Prop := utf8_str (cc_name x) /\ int32 (cc_type x) /\ int32 (cc_size x) /\ cons_fine (cc_cons x).
Definition index_fine (x : cindex) : Prop := utf8_str (cx_name x) /\ int32 (cx_type x) /\ Forall (fun k => int32 (ck_ref k)) (cx_keys x).
Definition volume_fine (x : cvolume) : Prop := utf8_str (cv_name x) /\ uuid_ok (cv_id x).
Definition tier_fine (x : ctier) : Prop := utf8_str (ct_name x) /\ int32 (ct_region x) /\ int32 (ct_object x) /\ Forall volume_fine (ct_volumes x).
Definition table_fine (x : ctable) : Prop :=
  utf8_str (cb_db x) /\ utf8_str (cb_name x) /\ uuid_ok (cb_id x) /\ Forall column_fine (cb_columns x) /\ Forall index_fine (cb_indexes x) /\
  int32 (cp_count (cb_parts x)) /\ Forall volume_fine (cp_volumes (cb_parts x)) /\ Forall tier_fine (cb_tiers x).
(** the arguments of a function cannot be dropped *)
Definition arg_fine (x : ccolumn) : Prop := column_fine x /\ cc_dropped x = false.
Definition udf_fine (x : cudf) : Prop :=
  utf8_str (cu_db x) /\ utf8_str (cu_name x) /\ utf8_str (cu_text x) /\ int32 (cu_type x) /\ Forall arg_fine (cu_args x) /\ Forall arg_fine (cu_returning x).
Definition storage_fine (x : cstorage) : Prop := utf8_str (cs_name x) /\ utf8_str (cs_path x) /\ utf8_str (cs_compression x) /\ int32 (cs_level x).

(** all storages that volumes of a table name are there *)
Definition has_storages (c : ccatalog) (x : ctable) : Prop :=
  forall v, In v (cp_volumes (cb_parts x)) \/ (exists t, In t (cb_tiers x) /\ In v (ct_volumes t)) ->
  exists s, In s (g_storages c) /\ same_name (cs_name s) (cv_name v).

(** a catalog of a server: first the objects every server has, then those of the users, with names
    that differ by more than the case of letters (C49_names) *)
Definition catalog_fine (c : ccatalog) : Prop :=
  int64 (g_lsn c) /\
  (exists l, g_storages c = main_storage :: l /\ Forall storage_fine l /\ Forall (fun x => cs_system x = false) l) /\
  (exists l, g_dbs c = main_db :: l /\ Forall (fun x => utf8_str (cd_name x)) l /\ Forall (fun x => cd_system x = false) l) /\
  Forall table_fine (g_tables c) /\ Forall (has_storages c) (g_tables c) /\ Forall udf_fine (g_udfs c) /\
  NoDup (map (fun x => map lower (cs_name x)) (g_storages c)) /\ NoDup (map (fun x => map lower (cd_name x)) (g_dbs c)) /\
  NoDup (map (fun x => (map lower (cb_db x), map lower (cb_name x))) (g_tables c)) /\
  NoDup (map (fun x => (map lower (cu_db x), map lower (cu_name x))) (g_udfs c)).

(** every function compiles when the tables and the functions listed before it are there *)
Definition compile_in_order (compiles : ccatalog -> cudf -> bool) (c : ccatalog) : Prop :=
  forall l1 x l2, g_udfs c = l1 ++ x :: l2 -> compiles (mkccat 0 (g_storages c) (g_dbs c) (g_tables c) (l1 ++ [x])) x = true.

(** the catalog in which every dropped column is back *)
Definition undrop (x : ccolumn) : ccolumn := mkccol (cc_name x) (cc_type x) (cc_size x) false (cc_cons x).
Definition undrop_table (x : ctable) : ctable :=
  mkctab (cb_db x) (cb_name x) (cb_id x) (cb_unlogged x) (map undrop (cb_columns x)) (cb_indexes x) (cb_parts x) (cb_tiers x).
Definition undrop_catalog (c : ccatalog) : ccatalog := mkccat (g_lsn c) (g_storages c) (g_dbs c) (map undrop_table (g_tables c)) (g_udfs c).
Definition no_dropped (c : ccatalog) : Prop := forall t x, In t (g_tables c) -> In x (cb_columns t) -> cc_dropped x = false.
