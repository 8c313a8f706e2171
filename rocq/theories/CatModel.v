(** Model of the catalog file: db/catalog/catalog_file.c with the configuration of storages
    (db/storage/storage_config.h, volume.h), databases (database_config.h), tables (table_config.h,
    db/row/column.h, columns.h, constraints.h, key.h, keys.h, db/index/index_config.h,
    db/part/part_mgr_config.h, db/tier/tier_config.h) and functions (udf_config.h).

    A dump is a JSON value; its binary form and its text are those of JsonModel.v and
    JsonTextModel.v.  decode_obj reads the binary form field by field; the model reads the value. *)
From Verif Require Import Base JsonModel JsonSpec JsonTextModel CodecModel DdlModel.
From Coq Require Import String Ascii.
Local Open Scope Z_scope.

(** a key written by encode_raw(buf, "...", size) *)
Definition K (s : string) : str := map (fun c => Z.of_nat (nat_of_ascii c)) (list_ascii_of_string s).

(** ** decode.h *)
(** decode.h:16-30 the flags used *)
Inductive dtype := D_uuid | D_string | D_int | D_bool | D_array | D_obj.
(** decode.h:55-150: the check of the type of a field *)
Definition d_match (t : dtype) (v : json) : bool :=
  match t, v with
  | D_uuid, JStr _ | D_string, JStr _ | D_int, JInt _ | D_bool, JBool _ | D_array, JArr _ | D_obj, JObj _ => true
  | _, _ => false
  end.
(** decode.h:48-52: the first entry of the table with the key *)
Fixpoint d_find (k : str) (t : list (str * dtype)) : option dtype :=
  match t with [] => None | (n, d) :: t => if str_is k n then Some d else d_find k t end.
(** decode.h:41-157: fields in their order; unknown ones are skipped, a later one of the same name replaces *)
Fixpoint d_fields (t : list (str * dtype)) (l : list (str * json)) (found : list (str * json)) : res (list (str * json)) :=
  match l with
  | [] => Ok found
  | (k, v) :: l => match d_find k t with
                   | None => d_fields t l found
                   | Some d => if d_match d v then d_fields t l ((k, v) :: found) else Err
                   end
  end.
Fixpoint d_get (k : str) (l : list (str * json)) : res json :=
  match l with [] => Err | (n, v) :: l => if str_is n k then Ok v else d_get k l end.
(** decode.h:37-166 decode_obj: the values in the order of the table; all must be found *)
Fixpoint d_all (t : list (str * dtype)) (found : list (str * json)) : res (list json) :=
  match t with [] => Ok [] | (n, _) :: t => do v <- d_get n found; do r <- d_all t found; Ok (v :: r) end.
Definition decode_obj (t : list (str * dtype)) (v : json) : res (list json) :=
  match v with JObj l => do f <- d_fields t l []; d_all t f | _ => Err end.
(** values of a decoded field (the type is checked by decode_obj) *)
Definition v_str (v : json) : res str := match v with JStr s => Ok s | _ => Err end.
Definition v_int (v : json) : res Z := match v with JInt z => Ok z | _ => Err end.
Definition v_bool (v : json) : res bool := match v with JBool b => Ok b | _ => Err end.
Definition v_arr (v : json) : res (list json) := match v with JArr l => Ok l | _ => Err end.
Definition v_uuid (v : json) : res uuid := match v with JStr s => uuid_set (mkuuid 0 0 0 0 0 0) s | _ => Err end.
Fixpoint map_res {A B} (f : A -> res B) (l : list A) : res (list B) :=
  match l with [] => Ok [] | x :: l => do y <- f x; do r <- map_res f l; Ok (y :: r) end.
(** json_read_array ... json_read_array_end with a reader of the items *)
Definition read_array {B} (f : json -> res B) (v : json) : res (list B) := do l <- v_arr v; map_res f l.

(** ** Configurations *)
(** storage_config.h:16-23 *)
Record cstorage := mkcst { cs_name : str; cs_path : str; cs_compression : str; cs_level : Z; cs_system : bool }.
(** storage_config.h:73-85 storage_config_copy: the level is passed as int *)
Definition storage_config_copy (x : cstorage) : cstorage := mkcst (cs_name x) (cs_path x) (cs_compression x) (to_i32 (cs_level x)) (cs_system x).
(** storage_config.h:104-131 storage_config_write: [system] is not written *)
Definition storage_config_write (x : cstorage) : json :=
  JObj [(K "name", JStr (cs_name x)); (K "path", JStr (cs_path x)); (K "compression", JStr (cs_compression x)); (K "compression_level", JInt (cs_level x))].
(** storage_config.h:87-102 storage_config_read *)
Definition storage_config_read (v : json) : res cstorage :=
  do l <- decode_obj [(K "name", D_string); (K "path", D_string); (K "compression", D_string); (K "compression_level", D_int)] v;
  match l with
  | [a; b; c; d] => do a <- v_str a; do b <- v_str b; do c <- v_str c; do d <- v_int d; Ok (mkcst a b c d false)
  | _ => UB
  end.

(** database_config.h:16-20, 52-59 copy, 61-73 read, 75-88 write *)
Record cdb := mkcdb { cd_name : str; cd_system : bool }.
Definition database_config_copy (x : cdb) : cdb := x.
Definition database_config_write (x : cdb) : json := JObj [(K "name", JStr (cd_name x))].
Definition database_config_read (v : json) : res cdb :=
  do l <- decode_obj [(K "name", D_string)] v;
  match l with [a] => do a <- v_str a; Ok (mkcdb a false) | _ => UB end.

(** column.h:17-28 *)
Record ccolumn := mkccol { cc_name : str; cc_type : Z; cc_size : Z; cc_dropped : bool; cc_cons : constraints }.
(** column.h:84-92 column_copy: type and size are passed as int, the flag [dropped] is not copied *)
Definition ccolumn_copy (x : ccolumn) : ccolumn := mkccol (cc_name x) (to_i32 (cc_type x)) (to_i32 (cc_size x)) false (cc_cons x).
(** constraints.h:151-213 constraints_write *)
Definition cons_json (i : cons_item) : json :=
  match i with
  | K_not_null b => JArr [JStr (K "not_null"); JBool b]
  | K_identity v => JArr [JStr (K "as_identity"); JInt v]
  | K_modulo v => JArr [JStr (K "as_identity_modulo"); JInt v]
  | K_stored s => JArr [JStr (K "as_stored"); JStr s]
  | K_resolved s => JArr [JStr (K "as_resolved"); JStr s]
  | K_default t => JArr [JStr (K "default"); JStr t]
  end.
(** constraints.h:110-149 constraints_read: one pair; the readers of the values raise an error for another type *)
Definition json_cons (v : json) : res cons_item :=
  match v with
  | JArr [JStr n; x] =>
      if str_compare_case n (K "not_null") then do b <- v_bool x; Ok (K_not_null b)
      else if str_compare_case n (K "as_identity") then do z <- v_int x; Ok (K_identity z)
      else if str_compare_case n (K "as_identity_modulo") then do z <- v_int x; Ok (K_modulo z)
      else if str_compare_case n (K "as_stored") then do s <- v_str x; Ok (K_stored s)
      else if str_compare_case n (K "as_resolved") then do s <- v_str x; Ok (K_resolved s)
      else if str_compare_case n (K "default") then do s <- v_str x; Ok (K_default s)
      else Err
  | _ => Err
  end.
(** column.h:116-144 column_write *)
Definition column_write (x : ccolumn) : res json :=
  do k <- constraints_write (cc_cons x);
  Ok (JObj [(K "name", JStr (cc_name x)); (K "type", JInt (cc_type x)); (K "type_size", JInt (cc_size x)); (K "dropped", JBool (cc_dropped x));
            (K "constraints", JArr (map cons_json k))]).
(** column.h:94-114 column_read *)
Definition column_read (v : json) : res ccolumn :=
  do l <- decode_obj [(K "name", D_string); (K "type", D_int); (K "type_size", D_int); (K "dropped", D_bool); (K "constraints", D_array)] v;
  match l with
  | [a; b; c; d; e] => do a <- v_str a; do b <- v_int b; do c <- v_int c; do d <- v_bool d; do e <- read_array json_cons e;
                       do k <- constraints_read constraints_init e; Ok (mkccol a b c d k)
  | _ => UB
  end.

(** key.h:16-23, 53-60 key_copy (the reference is passed as int), 62-75 key_read, 77-92 key_write *)
Record ckey := mkckey { ck_ref : Z; ck_asc : bool }.
Definition key_copy (x : ckey) : ckey := mkckey (to_i32 (ck_ref x)) (ck_asc x).
Definition key_write (x : ckey) : json := JObj [(K "column", JInt (ck_ref x)); (K "asc", JBool (ck_asc x))].
Definition key_read (v : json) : res ckey :=
  do l <- decode_obj [(K "column", D_int); (K "asc", D_bool)] v;
  match l with [a; b] => do a <- v_int a; do b <- v_bool b; Ok (mkckey a b) | _ => UB end.
(** index_config.h *)
Record cindex := mkcix { cx_name : str; cx_type : Z; cx_unique : bool; cx_primary : bool; cx_keys : list ckey }.
(** index_config.h:80-90 index_config_copy *)
Definition index_config_copy (x : cindex) : cindex := mkcix (cx_name x) (to_i32 (cx_type x)) (cx_unique x) (cx_primary x) (map key_copy (cx_keys x)).
(** index_config.h:112-142 index_config_write *)
Definition index_config_write (x : cindex) : json :=
  JObj [(K "name", JStr (cx_name x)); (K "type", JInt (cx_type x)); (K "unique", JBool (cx_unique x)); (K "primary", JBool (cx_primary x));
        (K "keys", JArr (map key_write (cx_keys x)))].
(** index_config.h:92-110 index_config_read *)
Definition index_config_read (v : json) : res cindex :=
  do l <- decode_obj [(K "name", D_string); (K "type", D_int); (K "unique", D_bool); (K "primary", D_bool); (K "keys", D_array)] v;
  match l with
  | [a; b; c; d; e] => do a <- v_str a; do b <- v_int b; do c <- v_bool c; do d <- v_bool d; do e <- read_array key_read e; Ok (mkcix a b c d e)
  | _ => UB
  end.

(** volume.h:16-25, 82-90 volume_copy, 92-105 volume_read, 107-127 volume_write *)
Record cvolume := mkcvol { cv_name : str; cv_id : uuid; cv_pause : bool }.
Definition volume_copy (x : cvolume) : cvolume := x.
Definition volume_write (x : cvolume) : json := JObj [(K "name", JStr (cv_name x)); (K "id", JStr (uuid_get (cv_id x))); (K "pause", JBool (cv_pause x))].
Definition volume_read (v : json) : res cvolume :=
  do l <- decode_obj [(K "name", D_string); (K "id", D_uuid); (K "pause", D_bool)] v;
  match l with [a; b; c] => do a <- v_str a; do b <- v_uuid b; do c <- v_bool c; Ok (mkcvol a b c) | _ => UB end.

(** part_mgr_config.h:16-20, 42-47 copy, 49-63 read, 65-79 write *)
Record cparts := mkcparts { cp_count : Z; cp_volumes : list cvolume }.
Definition part_mgr_config_copy (x : cparts) : cparts := mkcparts (to_i32 (cp_count x)) (map volume_copy (cp_volumes x)).
Definition part_mgr_config_write (x : cparts) : json := JObj [(K "partitions", JInt (cp_count x)); (K "volumes", JArr (map volume_write (cp_volumes x)))].
Definition part_mgr_config_read (v : json) : res cparts :=
  do l <- decode_obj [(K "partitions", D_int); (K "volumes", D_array)] v;
  match l with [a; b] => do a <- v_int a; do b <- read_array volume_read b; Ok (mkcparts a b) | _ => UB end.

(** tier_config.h:22-29, 75-84 tier_config_copy, 96-115 read, 117-138 write *)
Record ctier := mkctier { ct_name : str; ct_region : Z; ct_object : Z; ct_volumes : list cvolume }.
Definition ctier_config_copy (x : ctier) : ctier := mkctier (ct_name x) (to_i32 (ct_region x)) (to_i32 (ct_object x)) (map volume_copy (ct_volumes x)).
Definition tier_config_write (x : ctier) : json :=
  JObj [(K "name", JStr (ct_name x)); (K "region_size", JInt (ct_region x)); (K "object_size", JInt (ct_object x)); (K "volumes", JArr (map volume_write (ct_volumes x)))].
Definition tier_config_read (v : json) : res ctier :=
  do l <- decode_obj [(K "name", D_string); (K "region_size", D_int); (K "object_size", D_int); (K "volumes", D_array)] v;
  match l with [a; b; c; d] => do a <- v_str a; do b <- v_int b; do c <- v_int c; do d <- read_array volume_read d; Ok (mkctier a b c d) | _ => UB end.

(** table_config.h:16-28 *)
Record ctable := mkctab { cb_db : str; cb_name : str; cb_id : uuid; cb_unlogged : bool; cb_columns : list ccolumn; cb_indexes : list cindex; cb_parts : cparts; cb_tiers : list ctier }.
(** table_config.h:122-152 table_config_copy *)
Definition table_config_copy (x : ctable) : ctable :=
  mkctab (cb_db x) (cb_name x) (cb_id x) (cb_unlogged x) (map ccolumn_copy (cb_columns x)) (map index_config_copy (cb_indexes x))
         (part_mgr_config_copy (cb_parts x)) (map ctier_config_copy (cb_tiers x)).
(** table_config.h:198-255 table_config_write *)
Definition table_config_write (x : ctable) : res json :=
  do c <- map_res column_write (cb_columns x);
  Ok (JObj [(K "db", JStr (cb_db x)); (K "name", JStr (cb_name x)); (K "id", JStr (uuid_get (cb_id x))); (K "unlogged", JBool (cb_unlogged x));
            (K "columns", JArr c); (K "indexes", JArr (map index_config_write (cb_indexes x))); (K "partitions", part_mgr_config_write (cb_parts x));
            (K "tiers", JArr (map tier_config_write (cb_tiers x)))]).
(** table_config.h:154-196 table_config_read *)
Definition table_config_read (v : json) : res ctable :=
  do l <- decode_obj [(K "db", D_string); (K "name", D_string); (K "id", D_uuid); (K "unlogged", D_bool); (K "columns", D_array); (K "indexes", D_array);
                      (K "partitions", D_obj); (K "tiers", D_array)] v;
  match l with
  | [a; b; c; d; e; f; g; h] =>
      do a <- v_str a; do b <- v_str b; do c <- v_uuid c; do d <- v_bool d; do e <- read_array column_read e; do f <- read_array index_config_read f;
      do g <- part_mgr_config_read g; do h <- read_array tier_config_read h; Ok (mkctab a b c d e f g h)
  | _ => UB
  end.

(** udf_config.h:16-24 *)
Record cudf := mkcudf { cu_db : str; cu_name : str; cu_text : str; cu_type : Z; cu_args : list ccolumn; cu_returning : list ccolumn }.
(** udf_config.h:77-88 udf_config_copy *)
Definition udf_config_copy (x : cudf) : cudf :=
  mkcudf (cu_db x) (cu_name x) (cu_text x) (to_i32 (cu_type x)) (map ccolumn_copy (cu_args x)) (map ccolumn_copy (cu_returning x)).
(** udf_config.h:112-148 udf_config_write *)
Definition udf_config_write (x : cudf) : res json :=
  do a <- map_res column_write (cu_args x); do r <- map_res column_write (cu_returning x);
  Ok (JObj [(K "db", JStr (cu_db x)); (K "name", JStr (cu_name x)); (K "text", JStr (cu_text x)); (K "type", JInt (cu_type x)); (K "args", JArr a); (K "returning", JArr r)]).
(** udf_config.h:90-110 udf_config_read *)
Definition udf_config_read (v : json) : res cudf :=
  do l <- decode_obj [(K "db", D_string); (K "name", D_string); (K "text", D_string); (K "args", D_array); (K "type", D_int); (K "returning", D_array)] v;
  match l with
  | [a; b; c; d; e; f] => do a <- v_str a; do b <- v_str b; do c <- v_str c; do d <- read_array column_read d; do e <- v_int e; do f <- read_array column_read f;
                          Ok (mkcudf a b c e d f)
  | _ => UB
  end.

(** ** The catalog *)
Record ccatalog := mkccat { g_lsn : Z; g_storages : list cstorage; g_dbs : list cdb; g_tables : list ctable; g_udfs : list cudf }.
(** catalog_file.c:190-220 catalog_write_prepare with storage_mgr.c:147-160, database_mgr.c:144-157,
    table_mgr.c:140-151, udf_mgr.c:238-249: system objects are not written *)
Definition catalog_write_prepare (c : ccatalog) : res json :=
  do t <- map_res table_config_write (g_tables c); do u <- map_res udf_config_write (g_udfs c);
  Ok (JObj [(K "lsn", JInt (g_lsn c));
            (K "storages", JArr (map storage_config_write (filter (fun x => negb (cs_system x)) (g_storages c))));
            (K "databases", JArr (map database_config_write (filter (fun x => negb (cd_system x)) (g_dbs c))));
            (K "tables", JArr t); (K "udfs", JArr u)]).

Section Restore.
(** whether the function can be compiled when the catalog is what it is (system/frontend.c udf_compile) *)
Variable compiles : ccatalog -> cudf -> bool.
Definition find_storage (c : ccatalog) (n : str) : bool := existsb (fun x => str_compare_case (cs_name x) n) (g_storages c).
(** storage_mgr.c:30-52 storage_mgr_create (if_not_exists is false) *)
Definition restore_storage (c : ccatalog) (x : cstorage) : res ccatalog :=
  if find_storage c (cs_name x) then Err
  else Ok (mkccat (g_lsn c) (g_storages c ++ [storage_config_copy x]) (g_dbs c) (g_tables c) (g_udfs c)).
(** database_mgr.c:36-58 database_mgr_create *)
Definition restore_db (c : ccatalog) (x : cdb) : res ccatalog :=
  if existsb (fun y => str_compare_case (cd_name y) (cd_name x)) (g_dbs c) then Err
  else Ok (mkccat (g_lsn c) (g_storages c) (g_dbs c ++ [database_config_copy x]) (g_tables c) (g_udfs c)).
(** volume_mgr.h:84-93 volume_mgr_ref: the storages of the partitions and of the tiers must be there *)
Definition volumes_found (c : ccatalog) (x : ctable) : bool :=
  forallb (fun v => find_storage c (cv_name v)) (cp_volumes (cb_parts x)) &&
  forallb (fun t => forallb (fun v => find_storage c (cv_name v)) (ct_volumes t)) (cb_tiers x).
(** table_mgr.c:42-69 table_mgr_create; the files of the partitions are not modelled here *)
Definition restore_table (c : ccatalog) (x : ctable) : res ccatalog :=
  if existsb (fun y => str_compare_case (cb_db y) (cb_db x) && str_compare_case (cb_name y) (cb_name x)) (g_tables c) then Err
  else if volumes_found c x
  then Ok (mkccat (g_lsn c) (g_storages c) (g_dbs c) (g_tables c ++ [table_config_copy x]) (g_udfs c)) else Err.
(** udf_mgr.c:38-58 udf_mgr_create, catalog_file.c:64-78 with the compilation *)
Definition restore_udf (c : ccatalog) (x : cudf) : res ccatalog :=
  if existsb (fun y => str_compare_case (cu_db y) (cu_db x) && str_compare_case (cu_name y) (cu_name x)) (g_udfs c) then Err
  else let c' := mkccat (g_lsn c) (g_storages c) (g_dbs c) (g_tables c) (g_udfs c ++ [udf_config_copy x]) in
       if compiles c' (udf_config_copy x) then Ok c' else Err.
(** catalog_file.c:122-143: one object after the other; the first error stops *)
Fixpoint restore_all {A} (rd : json -> res A) (f : ccatalog -> A -> res ccatalog) (l : list json) (c : ccatalog) : res ccatalog :=
  match l with [] => Ok c | v :: l => do x <- rd v; do c <- f c x; restore_all rd f l c end.
(** catalog_file.c:103-150 catalog_restore *)
Definition catalog_restore (v : json) (c : ccatalog) : res ccatalog :=
  do l <- decode_obj [(K "lsn", D_int); (K "storages", D_array); (K "databases", D_array); (K "tables", D_array); (K "udfs", D_array)] v;
  match l with
  | [a; s; d; t; u] =>
      do a <- v_int a; do s <- v_arr s; do d <- v_arr d; do t <- v_arr t; do u <- v_arr u;
      do c <- restore_all storage_config_read restore_storage s c;
      do c <- restore_all database_config_read restore_db d c;
      do c <- restore_all table_config_read restore_table t c;
      do c <- restore_all udf_config_read restore_udf u c;
      Ok (mkccat a (g_storages c) (g_dbs c) (g_tables c) (g_udfs c))
  | _ => UB
  end.
(** catalog.c:47-95 catalog_prepare: what is there before the file is read *)
Definition main_storage : cstorage := mkcst (K "main") [] (K "zstd") 0 true.
Definition main_db : cdb := mkcdb (K "main") true.
Definition catalog_prepare : ccatalog := mkccat 0 [main_storage] [main_db] [] [].

(** catalog_file.c:230-258: the text of the file.  [g]: the text of a real (there are none) *)
Definition catalog_text (g : Z -> list Z) (c : ccatalog) : res (list Z) :=
  do v <- catalog_write_prepare c; do (t, _) <- json_export g true (json_bytes v); Ok t.
(** catalog_file.c:170-187: what is read from the text, when the binary form of a value is read as the value *)
Definition catalog_load (sd : list Z -> option (Z * list Z)) (text : list Z) : res ccatalog :=
  do (bs, _) <- json_parse sd text; do (v, _) <- json_read (List.length bs) bs; catalog_restore v catalog_prepare.
End Restore.
