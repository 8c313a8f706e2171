(** Model of the schema operations: db/catalog/{catalog,cascade,database_mgr,table_mgr,
    table_mgr_alter,table_index,table_tier,udf_mgr}.c, db/storage/storage_mgr.c,
    db/transaction/{relation_mgr.c,log.h,commit.c} and session_execute_utility of
    system/session/session.c.

    An object of the catalog (relation, column, index, tier) is a C object with an address; the
    model gives it an identifier [Z] that is never used again ([c_next]).  A list of objects is a
    list of pairs (identifier, contents).  Strings are lists of bytes. *)
From Verif Require Import Base CodecModel.
Local Open Scope Z_scope.

Definition str := list Z.
(** strncasecmp (str.h: str_is_case) in the "C" locale *)
Definition lower (b : Z) : Z := if (65 <=? b) && (b <=? 90) then b + 32 else b.
Fixpoint str_is (a b : str) : bool :=
  match a, b with
  | [], [] => true
  | x :: a, y :: b => (x =? y) && str_is a b
  | _, _ => false
  end.
(** runtime/base/str.h:145-149 str_compare_case *)
Fixpoint str_compare_case (a b : str) : bool :=
  match a, b with
  | [], [] => true
  | x :: a, y :: b => (lower x =? lower y) && str_compare_case a b
  | _, _ => false
  end.
(** runtime/base/str.h:152-155 str_compare *)
Definition str_compare := str_is.

(** lists of objects *)
Definition objs (A : Type) := list (Z * A).
Definition upd {A} (id : Z) (f : A -> A) (l : objs A) : objs A :=
  map (fun p => if fst p =? id then (fst p, f (snd p)) else p) l.
Definition del {A} (id : Z) (l : objs A) : objs A := filter (fun p => negb (fst p =? id)) l.
Definition find_obj {A} (P : A -> bool) (l : objs A) : option (Z * A) := find (fun p => P (snd p)) l.
Definition find_id {A} (id : Z) (l : objs A) : option (Z * A) := find (fun p => fst p =? id) l.
(** new objects get the next identifiers *)
Fixpoint number {A} (n : Z) (l : list A) : objs A :=
  match l with [] => [] | x :: l => (n, x) :: number (n + 1) l end.

(** ** Configurations *)
(** db/row/constraints.h:23-31 *)
Record constraints := mkcons { k_not_null : bool; k_identity : Z; k_modulo : Z; k_stored : str; k_resolved : str; k_default : list Z }.
(** constraints.h:33-42 constraints_init *)
Definition constraints_init : constraints := mkcons false 0 9223372036854775807 [] [] [].
(** db/row/column.h:17-28; [refs] counts the keys that use the column *)
Record column := mkcol { co_name : str; co_type : Z; co_type_size : Z; co_dropped : bool; co_cons : constraints; co_refs : Z }.
(** index configuration: the name and the rest of it *)
Record indexc := mkix { ix_name : str; ix_def : list Z }.
(** db/storage/volume.h:16-25 *)
Record volume := mkvol { vo_name : str; vo_id : list Z; vo_pause : bool; vo_objects : Z }.
(** db/tier/tier_config.h:22-29 *)
Record tier := mktier { ti_name : str; ti_region : Z; ti_object : Z; ti_volumes : list volume }.
(** db/catalog/table.h:16-24 with table_config.h:16-28; [tb_rows]: the contents of the partitions
    and tiers, [tb_part]: part_mgr_config *)
Record table := mktab { tb_db : str; tb_name : str; tb_uuid : list Z; tb_columns : objs column; tb_indexes : objs indexc;
  tb_unlogged : bool; tb_part : list Z; tb_tiers : objs tier; tb_seq : Z; tb_rows : list (list Z) }.
Record tablec := mktabc { tc_db : str; tc_name : str; tc_uuid : list Z; tc_columns : list column; tc_indexes : list indexc;
  tc_unlogged : bool; tc_part : list Z; tc_tiers : list tier }.
(** db/catalog/database_config.h *)
Record dbase := mkdb { db_name : str; db_system : bool }.
(** db/storage/storage_config.h: name, system and the rest *)
Record storage := mkst { st_name : str; st_system : bool; st_def : list Z }.
(** db/catalog/udf_config.h: the signature (arguments, return type, returning columns) and the text *)
Record udf := mkudf { uf_db : str; uf_name : str; uf_sig : list Z; uf_text : list Z }.

Record catalog := mkcat { c_storages : objs storage; c_dbs : objs dbase; c_tables : objs table; c_udfs : objs udf; c_next : Z }.
Definition set_storages c l := mkcat l (c_dbs c) (c_tables c) (c_udfs c) (c_next c).
Definition set_dbs c l := mkcat (c_storages c) l (c_tables c) (c_udfs c) (c_next c).
Definition set_tables c l := mkcat (c_storages c) (c_dbs c) l (c_udfs c) (c_next c).
Definition set_udfs c l := mkcat (c_storages c) (c_dbs c) (c_tables c) l (c_next c).
Definition set_next c n := mkcat (c_storages c) (c_dbs c) (c_tables c) (c_udfs c) n.

(** setters of the table: table_config.h:69-95, table.h:101-105, sequence.h *)
Definition t_set_names d n t := mktab d n (tb_uuid t) (tb_columns t) (tb_indexes t) (tb_unlogged t) (tb_part t) (tb_tiers t) (tb_seq t) (tb_rows t).
Definition t_set_columns l t := mktab (tb_db t) (tb_name t) (tb_uuid t) l (tb_indexes t) (tb_unlogged t) (tb_part t) (tb_tiers t) (tb_seq t) (tb_rows t).
Definition t_set_indexes l t := mktab (tb_db t) (tb_name t) (tb_uuid t) (tb_columns t) l (tb_unlogged t) (tb_part t) (tb_tiers t) (tb_seq t) (tb_rows t).
Definition t_set_unlogged b t := mktab (tb_db t) (tb_name t) (tb_uuid t) (tb_columns t) (tb_indexes t) b (tb_part t) (tb_tiers t) (tb_seq t) (tb_rows t).
Definition t_set_tiers l t := mktab (tb_db t) (tb_name t) (tb_uuid t) (tb_columns t) (tb_indexes t) (tb_unlogged t) (tb_part t) l (tb_seq t) (tb_rows t).
Definition t_set_seq q t := mktab (tb_db t) (tb_name t) (tb_uuid t) (tb_columns t) (tb_indexes t) (tb_unlogged t) (tb_part t) (tb_tiers t) q (tb_rows t).
Definition t_set_rows r t := mktab (tb_db t) (tb_name t) (tb_uuid t) (tb_columns t) (tb_indexes t) (tb_unlogged t) (tb_part t) (tb_tiers t) (tb_seq t) r.
(** column.h:62-82 *)
Definition co_set_name n c := mkcol n (co_type c) (co_type_size c) (co_dropped c) (co_cons c) (co_refs c).
Definition co_set_dropped b c := mkcol (co_name c) (co_type c) (co_type_size c) b (co_cons c) (co_refs c).
Definition co_set_cons k c := mkcol (co_name c) (co_type c) (co_type_size c) (co_dropped c) k (co_refs c).
Definition ix_set_name n x := mkix n (ix_def x).
Definition ti_set_name n t := mktier n (ti_region t) (ti_object t) (ti_volumes t).
Definition ti_set_volumes v t := mktier (ti_name t) (ti_region t) (ti_object t) v.
(** tier_config.h:63-73: the argument is a C [int] *)
Definition to_i32 (x : Z) : Z := let u := x mod 4294967296 in if u <? 2147483648 then u else u - 4294967296.
Definition ti_set_region r t := mktier (ti_name t) (to_i32 r) (ti_object t) (ti_volumes t).
Definition ti_set_object o t := mktier (ti_name t) (ti_region t) (to_i32 o) (ti_volumes t).
Definition st_set_name n s := mkst n (st_system s) (st_def s).
Definition db_set_name n d := mkdb n (db_system d).
Definition uf_set_names d n u := mkudf d n (uf_sig u) (uf_text u).
Definition vo_set_pause b v := mkvol (vo_name v) (vo_id v) b (vo_objects v).

(** ** Saved constraints: constraints.h:151-213 constraints_write and 110-149 constraints_read.
    The encoding of the array as binary JSON is the subject of C25 *)
Inductive cons_item := K_not_null (b : bool) | K_identity (v : Z) | K_modulo (v : Z) | K_stored (s : str) | K_resolved (s : str) | K_default (base64 : list Z).
Definition constraints_write (k : constraints) : res (list cons_item) :=
  do d <- (match k_default k with [] => Ok [] | v => do t <- base64url_encode v; Ok [K_default t] end);
  Ok ((if k_not_null k then [K_not_null true] else []) ++
      (if k_identity k =? 0 then [] else [K_identity (k_identity k)]) ++
      (if k_modulo k =? 9223372036854775807 then [] else [K_modulo (k_modulo k)]) ++
      (match k_stored k with [] => [] | s => [K_stored s] end) ++
      (match k_resolved k with [] => [] | s => [K_resolved s] end) ++ d).
Definition cons_read1 (k : constraints) (i : cons_item) : res constraints :=
  match i with
  | K_not_null b => Ok (mkcons b (k_identity k) (k_modulo k) (k_stored k) (k_resolved k) (k_default k))
  | K_identity v => Ok (mkcons (k_not_null k) v (k_modulo k) (k_stored k) (k_resolved k) (k_default k))
  | K_modulo v => Ok (mkcons (k_not_null k) (k_identity k) v (k_stored k) (k_resolved k) (k_default k))
  | K_stored s => Ok (mkcons (k_not_null k) (k_identity k) (k_modulo k) s (k_resolved k) (k_default k))
  | K_resolved s => Ok (mkcons (k_not_null k) (k_identity k) (k_modulo k) (k_stored k) s (k_default k))
  | K_default t => do v <- base64url_decode t; Ok (mkcons (k_not_null k) (k_identity k) (k_modulo k) (k_stored k) (k_resolved k) v)
  end.
Fixpoint constraints_read (k : constraints) (l : list cons_item) : res constraints :=
  match l with [] => Ok k | i :: l => do k <- cons_read1 k i; constraints_read k l end.

(** ** The log of a transaction: log.h:28-48 LogOp with the data saved behind LogRelation *)
Inductive entry :=
| L_create_storage (o : Z) | L_create_db (o : Z) | L_create_table (o : Z) | L_create_udf (o : Z)
| L_drop_storage (x : Z * storage) | L_drop_db (x : Z * dbase) | L_drop_table (x : Z * table) | L_drop_udf (x : Z * udf)
| L_rename_storage (o : Z) (n : str) | L_rename_db (o : Z) (n : str) | L_rename_table (o : Z) (d n : str) | L_rename_udf (o : Z) (d n : str)
| L_replace_udf (o : Z) (prev : udf)
| L_truncate (o : Z) | L_identity (o : Z) (v : Z) | L_unlogged (o : Z)
| L_column_rename (o c : Z) (n : str) | L_column_add (o c : Z) | L_column_drop (o c : Z) (k : list cons_item) | L_column_set (o c : Z) (k : list cons_item)
| L_index_drop (o i : Z) | L_index_rename (o i : Z) (n : str)
| L_tier_create (o i : Z) | L_tier_drop (o i : Z) | L_tier_rename (o i : Z) (n : str) | L_tier_set (o i : Z) (region object : Z)
| L_volume_add (o i : Z) (n : str) | L_volume_drop (o i : Z) (n : str) | L_volume_pause (o i : Z) (n : str).

(** volume_mgr.h:109-119 volume_mgr_find with a change or removal of the volume found *)
Fixpoint vol_find (n : str) (l : list volume) : option volume :=
  match l with [] => None | v :: l => if str_compare (vo_name v) n then Some v else vol_find n l end.
Fixpoint vol_remove (n : str) (l : list volume) : list volume :=
  match l with [] => [] | v :: l => if str_compare (vo_name v) n then l else v :: vol_remove n l end.
Fixpoint vol_change (n : str) (f : volume -> volume) (l : list volume) : list volume :=
  match l with [] => [] | v :: l => if str_compare (vo_name v) n then f v :: l else v :: vol_change n f l end.

Definition on_table (o : Z) (f : table -> table) (c : catalog) : catalog := set_tables c (upd o f (c_tables c)).
Definition on_column (o i : Z) (f : column -> column) : catalog -> catalog := on_table o (fun t => t_set_columns (upd i f (tb_columns t)) t).
Definition on_index (o i : Z) (f : indexc -> indexc) : catalog -> catalog := on_table o (fun t => t_set_indexes (upd i f (tb_indexes t)) t).
Definition on_tier (o i : Z) (f : tier -> tier) : catalog -> catalog := on_table o (fun t => t_set_tiers (upd i f (tb_tiers t)) t).

(** the [abort] function of an entry.  The saved constraints are decoded again; an error there
    would leave abort half way, so it is undefined behaviour here *)
Definition abort1 (e : entry) (c : catalog) : res catalog :=
  match e with
  (* relation_mgr.c:80-87 create_if_abort *)
  | L_create_storage o => Ok (set_storages c (del o (c_storages c)))
  | L_create_db o => Ok (set_dbs c (del o (c_dbs c)))
  | L_create_table o => Ok (set_tables c (del o (c_tables c)))
  | L_create_udf o => Ok (set_udfs c (del o (c_udfs c)))
  (* relation_mgr.c:114-120 drop_if_abort *)
  | L_drop_storage x => Ok (set_storages c (c_storages c ++ [x]))
  | L_drop_db x => Ok (set_dbs c (c_dbs c ++ [x]))
  | L_drop_table x => Ok (set_tables c (c_tables c ++ [x]))
  | L_drop_udf x => Ok (set_udfs c (c_udfs c ++ [x]))
  (* storage_mgr.c:88-99, database_mgr.c:90-100, table_mgr_alter.c:31-43, udf_mgr.c:178-190 rename_if_abort *)
  | L_rename_storage o n => Ok (set_storages c (upd o (st_set_name n) (c_storages c)))
  | L_rename_db o n => Ok (set_dbs c (upd o (db_set_name n) (c_dbs c)))
  | L_rename_table o d n => Ok (on_table o (t_set_names d n) c)
  | L_rename_udf o d n => Ok (set_udfs c (upd o (uf_set_names d n) (c_udfs c)))
  (* udf_mgr.c:72-93 replace_if_abort *)
  | L_replace_udf o prev => Ok (set_udfs c (upd o (fun _ => prev) (c_udfs c)))
  (* table_mgr.c:104-109 truncate_if_abort *)
  | L_truncate _ => Ok c
  (* table_mgr_alter.c:98-107 set_identity_if_abort, 150-156 set_unlogged_if_abort *)
  | L_identity o v => Ok (on_table o (t_set_seq v) c)
  | L_unlogged o => Ok (on_table o (fun t => t_set_unlogged (negb (tb_unlogged t)) t) c)
  (* table_mgr_alter.c:196-205, 272-281, 340-355, 423-434 *)
  | L_column_rename o i n => Ok (on_column o i (co_set_name n) c)
  | L_column_add o i => Ok (on_table o (fun t => t_set_columns (del i (tb_columns t)) t) c)
  | L_column_drop o i l => match constraints_read constraints_init l with
                           | Ok k => Ok (on_column o i (fun x => co_set_cons k (co_set_dropped false x)) c) | _ => UB end
  | L_column_set o i l => match constraints_read constraints_init l with Ok k => Ok (on_column o i (co_set_cons k) c) | _ => UB end
  (* table_index.c:81-86 drop_if_abort, 124-133 rename_if_abort *)
  | L_index_drop _ _ => Ok c
  | L_index_rename o i n => Ok (on_index o i (ix_set_name n) c)
  (* table_tier.c:51-58, 112-117, 156-165, 219-236, 320-325, 394-407, 480-492 *)
  | L_tier_create o i => Ok (on_table o (fun t => t_set_tiers (del i (tb_tiers t)) t) c)
  | L_tier_drop _ _ => Ok c
  | L_tier_rename o i n => Ok (on_tier o i (ti_set_name n) c)
  | L_tier_set o i r ob => Ok (on_tier o i (fun t => ti_set_object ob (ti_set_region r t)) c)
  | L_volume_add o i n => Ok (on_tier o i (fun t => ti_set_volumes (vol_remove n (ti_volumes t)) t) c)
  | L_volume_drop _ _ _ => Ok c
  | L_volume_pause o i n => Ok (on_tier o i (fun t => ti_set_volumes (vol_change n (fun v => vo_set_pause (negb (vo_pause v)) v) (ti_volumes t)) t) c)
  end.

(** commit.c:54-68 tr_abort: the entries in reverse order.  [log] has the last entry first *)
Fixpoint tr_abort (log : list entry) (c : catalog) : res catalog :=
  match log with [] => Ok c | e :: log => do c <- abort1 e c; tr_abort log c end.

(** the [commit] function of an entry *)
Definition commit1 (e : entry) (c : catalog) : catalog :=
  match e with
  (* table_mgr.c:93-102 truncate_if_commit *)
  | L_truncate o => on_table o (t_set_rows []) c
  (* table_index.c:24-36 table_index_delete, 72-79 drop_if_commit *)
  | L_index_drop o i => on_table o (fun t => t_set_indexes (del i (tb_indexes t)) t) c
  (* table_tier.c:24-42 table_tier_delete, 103-110 drop_if_commit *)
  | L_tier_drop o i => on_table o (fun t => t_set_tiers (del i (tb_tiers t)) t) c
  (* table_tier.c:300-318 storage_drop_if_commit *)
  | L_volume_drop o i n => on_tier o i (fun t => ti_set_volumes (vol_remove n (ti_volumes t)) t) c
  | _ => c
  end.
(** commit.c:38-52 tr_commit: the entries in their order *)
Definition tr_commit (log : list entry) (c : catalog) : catalog := fold_right commit1 c log.

(** ** Lookups *)
(** relation_mgr.c:52-64 relation_mgr_get *)
Definition table_is (d n : str) (t : table) : bool := str_compare_case (tb_db t) d && str_compare_case (tb_name t) n.
Definition udf_is (d n : str) (u : udf) : bool := str_compare_case (uf_db u) d && str_compare_case (uf_name u) n.
Definition db_is (n : str) (d : dbase) : bool := str_compare_case (db_name d) n.
Definition storage_is (n : str) (s : storage) : bool := str_compare_case (st_name s) n.
Definition table_mgr_find (c : catalog) (d n : str) := find_obj (table_is d n) (c_tables c).
Definition udf_mgr_find (c : catalog) (d n : str) := find_obj (udf_is d n) (c_udfs c).
Definition database_mgr_find (c : catalog) (n : str) := find_obj (db_is n) (c_dbs c).
Definition storage_mgr_find (c : catalog) (n : str) := find_obj (storage_is n) (c_storages c).
(** columns.h:110-122 columns_find *)
Definition columns_find (t : table) (n : str) := find_obj (fun x => negb (co_dropped x) && str_compare_case (co_name x) n) (tb_columns t).
(** table_index.c:207-220 table_index_find; tier/tier_mgr.c:98-108 tier_mgr_find, where the case of letters counts *)
Definition table_index_find (t : table) (n : str) := find_obj (fun x => str_compare_case (ix_name x) n) (tb_indexes t).
Definition tier_mgr_find (t : table) (n : str) := find_obj (fun x => str_compare (ti_name x) n) (tb_tiers t).
(** storage.h refs: the counter is the number of volumes that name the storage *)
Definition storage_used (c : catalog) (n : str) : bool :=
  existsb (fun p => existsb (fun q => existsb (fun v => str_compare_case (vo_name v) n) (ti_volumes (snd q))) (tb_tiers (snd p))) (c_tables c).

(** ** Operations *)
(** What the operations need of the rest of the system: catalog.c:152-164 udf_depends, udf_compile
    (compiler), and whether the files of a new table, of a new tier or of a volume can be opened *)
Record env := mkenv { e_depends : udf -> str -> bool; e_compiles : udf -> bool; e_table_open : bool; e_tier_open : bool; e_mkdir : bool }.

(** outcome of an operation: the state, the log (last entry first) and whether the operation is
    to be written to the WAL ([Some true]), had nothing to do ([Some false]) or raised an error ([None]).
    Changes made before an error stay until the transaction is aborted *)
Definition state := (catalog * list entry)%type.
Definition outcome := (state * option bool)%type.
Definition done (c : catalog) (log : list entry) : outcome := ((c, log), Some true).
Definition skip (s : state) : outcome := (s, Some false).
Definition raise (s : state) : outcome := (s, None).
(** an object is missing or is there: an error or, with IF (NOT) EXISTS, nothing to do *)
Definition unless (tolerate : bool) (s : state) : outcome := if tolerate then skip s else raise s.

(** relation_mgr.c:96-105 relation_mgr_create *)
Definition new_id (c : catalog) : Z := c_next c.

(** storage_mgr.c:30-52 storage_mgr_create *)
Definition storage_mgr_create (x : storage) (ine : bool) (s : state) : outcome :=
  let (c, log) := s in
  match storage_mgr_find c (st_name x) with
  | Some _ => unless ine s
  | None => done (set_next (set_storages c (c_storages c ++ [(new_id c, x)])) (c_next c + 1)) (L_create_storage (new_id c) :: log)
  end.
(** storage_mgr.c:53-79 storage_mgr_drop *)
Definition storage_mgr_drop (n : str) (ie : bool) (s : state) : outcome :=
  let (c, log) := s in
  match storage_mgr_find c n with
  | None => unless ie s
  | Some (o, x) => if storage_used c (st_name x) then raise s else if st_system x then raise s
                   else done (set_storages c (del o (c_storages c))) (L_drop_storage (o, x) :: log)
  end.
(** storage_mgr.c:107-145 storage_mgr_rename: the name given is saved *)
Definition storage_mgr_rename (n n' : str) (ie : bool) (s : state) : outcome :=
  let (c, log) := s in
  match storage_mgr_find c n with
  | None => unless ie s
  | Some (o, x) => if storage_used c (st_name x) then raise s else if st_system x then raise s
                   else match storage_mgr_find c n' with
                        | Some _ => raise s
                        | None => done (set_storages c (upd o (st_set_name n') (c_storages c))) (L_rename_storage o n :: log)
                        end
  end.

(** database_mgr.c:36-58 database_mgr_create *)
Definition database_mgr_create (x : dbase) (ine : bool) (s : state) : outcome :=
  let (c, log) := s in
  match database_mgr_find c (db_name x) with
  | Some _ => unless ine s
  | None => done (set_next (set_dbs c (c_dbs c ++ [(new_id c, x)])) (c_next c + 1)) (L_create_db (new_id c) :: log)
  end.
(** database_mgr.c:60-81 database_mgr_drop *)
Definition database_mgr_drop (n : str) (ie : bool) (s : state) : outcome :=
  let (c, log) := s in
  match database_mgr_find c n with
  | None => unless ie s
  | Some (o, x) => if db_system x then raise s else done (set_dbs c (del o (c_dbs c))) (L_drop_db (o, x) :: log)
  end.
(** database_mgr.c:108-141 database_mgr_rename: the name given is saved *)
Definition database_mgr_rename (n n' : str) (ie : bool) (s : state) : outcome :=
  let (c, log) := s in
  match database_mgr_find c n with
  | None => unless ie s
  | Some (o, x) => if db_system x then raise s
                   else match database_mgr_find c n' with
                        | Some _ => raise s
                        | None => done (set_dbs c (upd o (db_set_name n') (c_dbs c))) (L_rename_db o n :: log)
                        end
  end.

(** column.h:84-92 column_copy: the flag of a dropped column is not copied *)
Definition column_copy (x : column) : column := mkcol (co_name x) (co_type x) (co_type_size x) false (co_cons x) (co_refs x).
(** tier_config.h:75-84 tier_config_copy *)
Definition tier_config_copy (t : tier) : tier := mktier (ti_name t) (to_i32 (ti_region t)) (to_i32 (ti_object t)) (ti_volumes t).
(** table.h:66-95 table_allocate with table_config.h:122-152 table_config_copy *)
Definition table_allocate (n : Z) (x : tablec) : table :=
  mktab (tc_db x) (tc_name x) (tc_uuid x) (number n (map column_copy (tc_columns x))) (number n (tc_indexes x))
        (tc_unlogged x) (tc_part x) (number n (map tier_config_copy (tc_tiers x))) 0 [].
Definition table_ids (x : tablec) : Z := 1 + Z.of_nat (length (tc_columns x) + length (tc_indexes x) + length (tc_tiers x)).
(** table_mgr.c:42-69 table_mgr_create; table_open may raise an error *)
Definition table_mgr_create (v : env) (x : tablec) (ine : bool) (s : state) : outcome :=
  let (c, log) := s in
  match table_mgr_find c (tc_db x) (tc_name x) with
  | Some _ => unless ine s
  | None => let s' := (set_next (set_tables c (c_tables c ++ [(new_id c, table_allocate (new_id c) x)])) (c_next c + table_ids x),
                       L_create_table (new_id c) :: log) in
            if e_table_open v then (s', Some true) else raise s'
  end.
(** table_mgr.c:71-76 table_mgr_drop_of *)
Definition table_mgr_drop_of (p : Z * table) (s : state) : state :=
  (set_tables (fst s) (del (fst p) (c_tables (fst s))), L_drop_table p :: snd s).
(** table_mgr.c:78-91 table_mgr_drop *)
Definition table_mgr_drop (d n : str) (ie : bool) (s : state) : outcome :=
  match table_mgr_find (fst s) d n with
  | None => unless ie s
  | Some p => (table_mgr_drop_of p s, Some true)
  end.
(** table_mgr.c:117-140 table_mgr_truncate *)
Definition table_mgr_truncate (d n : str) (ie : bool) (s : state) : outcome :=
  let (c, log) := s in
  match table_mgr_find c d n with None => unless ie s | Some (o, _) => done c (L_truncate o :: log) end.
(** table_mgr_alter.c:52-87 table_mgr_rename *)
Definition table_mgr_rename (d n d' n' : str) (ie : bool) (s : state) : outcome :=
  let (c, log) := s in
  match table_mgr_find c d n with
  | None => unless ie s
  | Some (o, t) =>
      match table_mgr_find c d' n' with
      | Some _ => raise s
      | None => done (on_table o (t_set_names (if str_compare_case (tb_db t) d' then tb_db t else d')
                                              (if str_compare_case (tb_name t) n' then tb_name t else n')) c)
                     (L_rename_table o (tb_db t) (tb_name t) :: log)
      end
  end.
(** table_mgr_alter.c:115-141 table_mgr_set_identity *)
Definition table_mgr_set_identity (d n : str) (q : Z) (ie : bool) (s : state) : outcome :=
  let (c, log) := s in
  match table_mgr_find c d n with
  | None => unless ie s
  | Some (o, t) => done (on_table o (t_set_seq q) c) (L_identity o (tb_seq t) :: log)
  end.
(** table_mgr_alter.c:164-187 table_mgr_set_unlogged: the value before is not saved *)
Definition table_mgr_set_unlogged (d n : str) (b : bool) (ie : bool) (s : state) : outcome :=
  let (c, log) := s in
  match table_mgr_find c d n with
  | None => unless ie s
  | Some (o, t) => done (on_table o (t_set_unlogged b) c) (L_unlogged o :: log)
  end.
(** table_mgr_alter.c:213-263 table_mgr_column_rename *)
Definition table_mgr_column_rename (d n k k' : str) (ie ice : bool) (s : state) : outcome :=
  let (c, log) := s in
  match table_mgr_find c d n with
  | None => unless ie s
  | Some (o, t) =>
      match columns_find t k with
      | None => unless ice s
      | Some (i, x) => match columns_find t k' with
                       | Some _ => raise s
                       | None => done (on_column o i (co_set_name k') c) (L_column_rename o i (co_name x) :: log)
                       end
      end
  end.
(** columns.h:84-106 columns_sync: the first column with an identity *)
Definition has_identity (t : table) : bool := existsb (fun p => negb (k_identity (co_cons (snd p)) =? 0)) (tb_columns t).
(** table_mgr_alter.c:289-331 table_mgr_column_add *)
Definition table_mgr_column_add (d n : str) (x : column) (ie icne : bool) (s : state) : outcome :=
  let (c, log) := s in
  match table_mgr_find c d n with
  | None => unless ie s
  | Some (o, t) =>
      match columns_find t (co_name x) with
      | Some _ => unless icne s
      | None => if negb (k_identity (co_cons x) =? 0) && has_identity t then raise s
                else done (set_next (on_table o (fun t => t_set_columns (tb_columns t ++ [(new_id c, column_copy x)]) t) c) (c_next c + 1))
                          (L_column_add o (new_id c) :: log)
      end
  end.
(** table_mgr_alter.c:363-414 table_mgr_column_drop.  A failure to encode the constraints cannot
    happen; it is undefined behaviour in the model *)
Definition table_mgr_column_drop (d n k : str) (ie ice : bool) (s : state) : res outcome :=
  let (c, log) := s in
  match table_mgr_find c d n with
  | None => Ok (unless ie s)
  | Some (o, t) =>
      match columns_find t k with
      | None => Ok (unless ice s)
      | Some (i, x) =>
          if 0 <? co_refs x then Ok (raise s)
          else match constraints_write (co_cons x) with
               | Ok l => Ok (done (on_column o i (fun x => co_set_cons constraints_init (co_set_dropped true x)) c) (L_column_drop o i l :: log))
               | _ => UB
               end
      end
  end.
Inductive column_set := Set_default | Set_stored | Set_resolved.
(** constraints.h:72-99 *)
Definition cons_set (w : column_set) (v : list Z) (k : constraints) : constraints :=
  match w with
  | Set_default => mkcons (k_not_null k) (k_identity k) (k_modulo k) (k_stored k) (k_resolved k) v
  | Set_stored => mkcons (k_not_null k) (k_identity k) (k_modulo k) v (k_resolved k) (k_default k)
  | Set_resolved => mkcons (k_not_null k) (k_identity k) (k_modulo k) (k_stored k) v (k_default k)
  end.
(** table_mgr_alter.c:442-502 table_mgr_column_set *)
Definition table_mgr_column_set (d n k : str) (w : column_set) (v : list Z) (ie ice : bool) (s : state) : res outcome :=
  let (c, log) := s in
  match table_mgr_find c d n with
  | None => Ok (unless ie s)
  | Some (o, t) =>
      match columns_find t k with
      | None => Ok (unless ice s)
      | Some (i, x) => match constraints_write (co_cons x) with
                       | Ok l => Ok (done (on_column o i (fun x => co_set_cons (cons_set w v (co_cons x)) x) c) (L_column_set o i l :: log))
                       | _ => UB
                       end
      end
  end.

(** table_index.c:94-115 table_index_drop: done at commit *)
Definition table_index_drop (p : Z * table) (n : str) (ie : bool) (s : state) : outcome :=
  match table_index_find (snd p) n with None => unless ie s | Some (i, _) => done (fst s) (L_index_drop (fst p) i :: snd s) end.
(** table_index.c:141-177 table_index_rename *)
Definition table_index_rename (p : Z * table) (n n' : str) (ie : bool) (s : state) : outcome :=
  match table_index_find (snd p) n with
  | None => unless ie s
  | Some (i, x) => match table_index_find (snd p) n' with
                   | Some _ => raise s
                   | None => done (on_index (fst p) i (ix_set_name n') (fst s)) (L_index_rename (fst p) i (ix_name x) :: snd s)
                   end
  end.
(** table_tier.c:66-100 table_tier_create *)
Definition table_tier_create (v : env) (p : Z * table) (x : tier) (ine : bool) (s : state) : outcome :=
  let (c, log) := s in
  match tier_mgr_find (snd p) (ti_name x) with
  | Some _ => unless ine s
  | None => let s' := (set_next (on_table (fst p) (fun t => t_set_tiers (tb_tiers t ++ [(new_id c, tier_config_copy x)]) t) c) (c_next c + 1),
                       L_tier_create (fst p) (new_id c) :: log) in
            if e_tier_open v && e_mkdir v then (s', Some true) else raise s'
  end.
(** table_tier.c:125-146 table_tier_drop: done at commit *)
Definition table_tier_drop (p : Z * table) (n : str) (ie : bool) (s : state) : outcome :=
  match tier_mgr_find (snd p) n with None => unless ie s | Some (i, _) => done (fst s) (L_tier_drop (fst p) i :: snd s) end.
(** table_tier.c:173-209 table_tier_rename *)
Definition table_tier_rename (p : Z * table) (n n' : str) (ie : bool) (s : state) : outcome :=
  match tier_mgr_find (snd p) n with
  | None => unless ie s
  | Some (i, x) => match tier_mgr_find (snd p) n' with
                   | Some _ => raise s
                   | None => done (on_tier (fst p) i (ti_set_name n') (fst s)) (L_tier_rename (fst p) i (ti_name x) :: snd s)
                   end
  end.
(** table_tier.c:500-530 table_tier_set with tier_config.h:86-94 tier_config_set *)
Definition table_tier_set (p : Z * table) (x : tier) (region object : bool) (ie : bool) (s : state) : outcome :=
  match tier_mgr_find (snd p) (ti_name x) with
  | None => unless ie s
  | Some (i, y) => done (on_tier (fst p) i (fun t => let t := if region then ti_set_region (ti_region x) t else t in
                                                      if object then ti_set_object (ti_object x) t else t) (fst s))
                        (L_tier_set (fst p) i (ti_region y) (ti_object y) :: snd s)
  end.
(** table_tier.c:245-297 table_tier_storage_add *)
Definition table_tier_storage_add (v : env) (p : Z * table) (n : str) (x : volume) (ie isne : bool) (s : state) : outcome :=
  match tier_mgr_find (snd p) n with
  | None => unless ie s
  | Some (i, y) =>
      match storage_mgr_find (fst s) (vo_name x) with
      | None => raise s
      | Some _ =>
          match vol_find (vo_name x) (ti_volumes y) with
          | Some _ => unless isne s
          | None => let s' := (on_tier (fst p) i (fun t => ti_set_volumes (ti_volumes t ++ [mkvol (vo_name x) (vo_id x) (vo_pause x) 0]) t) (fst s),
                               L_volume_add (fst p) i (vo_name x) :: snd s) in
                    if e_mkdir v then (s', Some true) else raise s'
          end
      end
  end.
(** table_tier.c:333-391 table_tier_storage_drop: done at commit *)
Definition table_tier_storage_drop (p : Z * table) (n m : str) (ie ise : bool) (s : state) : outcome :=
  match tier_mgr_find (snd p) n with
  | None => unless ie s
  | Some (i, y) => match vol_find m (ti_volumes y) with
                   | None => unless ise s
                   | Some w => if 0 <? vo_objects w then raise s else done (fst s) (L_volume_drop (fst p) i m :: snd s)
                   end
  end.
(** table_tier.c:414-471 table_tier_storage_pause *)
Definition table_tier_storage_pause (p : Z * table) (n m : str) (b : bool) (ie ise : bool) (s : state) : outcome :=
  match tier_mgr_find (snd p) n with
  | None => unless ie s
  | Some (i, y) =>
      match vol_find m (ti_volumes y) with
      | None => unless ise s
      | Some w => if Bool.eqb (vo_pause w) b then skip s
                  else if b && (Z.of_nat (length (filter (fun v => negb (vo_pause v)) (ti_volumes y))) <=? 1) then raise s
                  else done (on_tier (fst p) i (fun t => ti_set_volumes (vol_change m (vo_set_pause b) (ti_volumes t)) t) (fst s))
                            (L_volume_pause (fst p) i m :: snd s)
      end
  end.

(** udf_mgr.c:38-58 udf_mgr_create followed by udf_compile (catalog.c:516-530) *)
Definition udf_mgr_create (v : env) (x : udf) (s : state) : outcome :=
  let (c, log) := s in
  match udf_mgr_find c (uf_db x) (uf_name x) with
  | Some _ => raise s
  | None => let s' := (set_next (set_udfs c (c_udfs c ++ [(new_id c, x)])) (c_next c + 1), L_create_udf (new_id c) :: log) in
            if e_compiles v x then (s', Some true) else raise s'
  end.
(** catalog.c:531-565 with udf_mgr.c:100-119 udf_mgr_replace_validate and 121-146 udf_mgr_replace *)
Definition udf_replace (v : env) (x : udf) (s : state) : outcome :=
  let (c, log) := s in
  match udf_mgr_find c (uf_db x) (uf_name x) with
  | Some (o, u) => if str_is (uf_sig u) (uf_sig x)
                   then if e_compiles v x then done (set_udfs c (upd o (fun _ => x) (c_udfs c))) (L_replace_udf o u :: log) else raise s
                   else raise s
  | None => udf_mgr_create v x s
  end.
(** udf_mgr.c:148-153 udf_mgr_drop_of *)
Definition udf_mgr_drop_of (p : Z * udf) (s : state) : state :=
  (set_udfs (fst s) (del (fst p) (c_udfs (fst s))), L_drop_udf p :: snd s).
(** udf_mgr.c:155-169 udf_mgr_drop *)
Definition udf_mgr_drop (d n : str) (ie : bool) (s : state) : outcome :=
  match udf_mgr_find (fst s) d n with None => unless ie s | Some p => (udf_mgr_drop_of p s, Some true) end.
(** udf_mgr.c:198-235 udf_mgr_rename *)
Definition udf_mgr_rename (d n d' n' : str) (ie : bool) (s : state) : outcome :=
  let (c, log) := s in
  match udf_mgr_find c d n with
  | None => unless ie s
  | Some (o, u) =>
      match udf_mgr_find c d' n' with
      | Some _ => raise s
      | None => done (set_udfs c (upd o (uf_set_names (if str_compare_case (uf_db u) d' then uf_db u else d')
                                                      (if str_compare_case (uf_name u) n' then uf_name u else n')) (c_udfs c)))
                     (L_rename_udf o (uf_db u) (uf_name u) :: log)
      end
  end.

(** cascade.c:24-56 cascade_db_drop_execute: the lists are walked from the first to the last
    element; the element visited is the only one that is changed *)
Fixpoint drop_tables (d : str) (drop : bool) (l : objs table) (s : state) : state * bool :=
  match l with
  | [] => (s, true)
  | p :: l => if str_compare_case (tb_db (snd p)) d
              then if drop then drop_tables d drop l (table_mgr_drop_of p s) else (s, false)
              else drop_tables d drop l s
  end.
Fixpoint drop_udfs (d : str) (drop : bool) (l : objs udf) (s : state) : state * bool :=
  match l with
  | [] => (s, true)
  | p :: l => if str_compare_case (uf_db (snd p)) d
              then if drop then drop_udfs d drop l (udf_mgr_drop_of p s) else (s, false)
              else drop_udfs d drop l s
  end.
(** cascade.c:58-81 cascade_db_drop *)
Definition cascade_db_drop (n : str) (cascade ie : bool) (s : state) : outcome :=
  match database_mgr_find (fst s) n with
  | None => unless ie s
  | Some (_, x) =>
      if db_system x then raise s
      else match drop_tables n cascade (c_tables (fst s)) s with
           | (s1, false) => raise s1
           | (s1, true) => match drop_udfs n cascade (c_udfs (fst s1)) s1 with
                           | (s2, false) => raise s2
                           | (s2, true) => database_mgr_drop n false s2
                           end
           end
  end.
(** cascade.c:83-106 cascade_db_rename_execute: every table of the database is renamed *)
Fixpoint rename_tables (d d' : str) (l : objs table) (s : state) : state * bool :=
  match l with
  | [] => (s, true)
  | p :: l => if str_compare_case (tb_db (snd p)) d
              then match table_mgr_rename (tb_db (snd p)) (tb_name (snd p)) d' (tb_name (snd p)) false s with
                   | (s1, None) => (s1, false)
                   | (s1, Some _) => rename_tables d d' l s1
                   end
              else rename_tables d d' l s
  end.
(** cascade.c:108-133 cascade_db_rename *)
Definition cascade_db_rename (n n' : str) (ie : bool) (s : state) : outcome :=
  match database_mgr_find (fst s) n with
  | None => unless ie s
  | Some (_, x) =>
      if db_system x then raise s
      else match rename_tables n n' (c_tables (fst s)) s with
           | (s1, false) => raise s1
           | (s1, true) => if existsb (fun p => str_compare_case (uf_db (snd p)) n) (c_udfs (fst s1)) then raise s1
                           else database_mgr_rename n n' false s1
           end
  end.

(** catalog.c:152-164 catalog_validate_udfs *)
Definition depends (v : env) (c : catalog) (n : str) : bool := existsb (fun p => e_depends v (snd p) n) (c_udfs c).

Inductive ddl :=
| Storage_create (x : storage) (ine : bool) | Storage_drop (n : str) (ie : bool) | Storage_rename (n n' : str) (ie : bool)
| Db_create (x : dbase) (ine : bool) | Db_drop (n : str) (cascade ie : bool) | Db_rename (n n' : str) (ie : bool)
| Table_create (x : tablec) (ine : bool) | Table_drop (d n : str) (ie : bool) | Table_rename (d n d' n' : str) (ie : bool)
| Table_truncate (d n : str) (ie : bool) | Table_set_identity (d n : str) (q : Z) (ie : bool) | Table_set_unlogged (d n : str) (b ie : bool)
| Column_add (d n : str) (x : column) (ie icne : bool) | Column_drop (d n k : str) (ie ice : bool)
| Column_rename (d n k k' : str) (ie ice : bool) | Column_set (d n k : str) (w : column_set) (v : list Z) (ie ice : bool)
| Index_drop (d n i : str) (ie : bool) | Index_rename (d n i i' : str) (ie : bool)
| Tier_create (d n : str) (x : tier) (ine : bool) | Tier_drop (d n i : str) (ie : bool) | Tier_rename (d n i i' : str) (ie : bool)
| Tier_set (d n : str) (x : tier) (region object ie : bool)
| Tier_storage_add (d n i : str) (x : volume) (ie isne : bool) | Tier_storage_drop (d n i m : str) (ie ise : bool)
| Tier_storage_pause (d n i m : str) (b ie ise : bool)
| Udf_create (x : udf) | Udf_replace (x : udf) | Udf_drop (d n : str) (ie : bool) | Udf_rename (d n d' n' : str) (ie : bool).

(** table_mgr_find with error_if_not_exists *)
Definition with_table (d n : str) (s : state) (f : Z * table -> outcome) : outcome :=
  match table_mgr_find (fst s) d n with None => raise s | Some p => f p end.
(** catalog.c:166-613 catalog_execute.  CREATE INDEX has its own path (service/op.c:136-187) and
    is not modelled *)
Definition catalog_execute (v : env) (op : ddl) (s : state) : res outcome :=
  match op with
  | Storage_create x ine => Ok (storage_mgr_create x ine s)
  | Storage_drop n ie => Ok (storage_mgr_drop n ie s)
  | Storage_rename n n' ie => Ok (storage_mgr_rename n n' ie s)
  | Db_create x ine => Ok (database_mgr_create x ine s)
  | Db_drop n cascade ie => Ok (cascade_db_drop n cascade ie s)
  | Db_rename n n' ie => Ok (cascade_db_rename n n' ie s)
  | Table_create x ine => Ok (table_mgr_create v x ine s)
  | Table_drop d n ie => Ok (if depends v (fst s) n then raise s else table_mgr_drop d n ie s)
  | Table_rename d n d' n' ie => Ok (match database_mgr_find (fst s) d' with
                                     | None => raise s
                                     | Some _ => if depends v (fst s) n then raise s else table_mgr_rename d n d' n' ie s end)
  | Table_truncate d n ie => Ok (table_mgr_truncate d n ie s)
  | Table_set_identity d n q ie => Ok (table_mgr_set_identity d n q ie s)
  | Table_set_unlogged d n b ie => Ok (table_mgr_set_unlogged d n b ie s)
  | Column_add d n x ie icne => Ok (table_mgr_column_add d n x ie icne s)
  | Column_drop d n k ie ice => if depends v (fst s) n then Ok (raise s) else table_mgr_column_drop d n k ie ice s
  | Column_rename d n k k' ie ice => Ok (if depends v (fst s) n then raise s else table_mgr_column_rename d n k k' ie ice s)
  | Column_set d n k w x ie ice => table_mgr_column_set d n k w x ie ice s
  | Index_drop d n i ie => Ok (if depends v (fst s) n then raise s else with_table d n s (fun p => table_index_drop p i ie s))
  | Index_rename d n i i' ie => Ok (if depends v (fst s) n then raise s else with_table d n s (fun p => table_index_rename p i i' ie s))
  | Tier_create d n x ine => Ok (with_table d n s (fun p => table_tier_create v p x ine s))
  | Tier_drop d n i ie => Ok (with_table d n s (fun p => table_tier_drop p i ie s))
  | Tier_rename d n i i' ie => Ok (with_table d n s (fun p => table_tier_rename p i i' ie s))
  | Tier_set d n x r o ie => Ok (with_table d n s (fun p => table_tier_set p x r o ie s))
  | Tier_storage_add d n i x ie isne => Ok (with_table d n s (fun p => table_tier_storage_add v p i x ie isne s))
  | Tier_storage_drop d n i m ie ise => Ok (with_table d n s (fun p => table_tier_storage_drop p i m ie ise s))
  | Tier_storage_pause d n i m b ie ise => Ok (with_table d n s (fun p => table_tier_storage_pause p i m b ie ise s))
  | Udf_create x => Ok (udf_mgr_create v x s)
  | Udf_replace x => Ok (udf_replace v x s)
  | Udf_drop d n ie => Ok (if depends v (fst s) n then raise s else udf_mgr_drop d n ie s)
  | Udf_rename d n d' n' ie => Ok (match database_mgr_find (fst s) d' with
                                   | None => raise s
                                   | Some _ => if depends v (fst s) n then raise s else udf_mgr_rename d n d' n' ie s end)
  end.

(** a transaction with several operations: it stops at the first error.  The result has the state
    and whether all operations were executed *)
Fixpoint run (v : env) (ops : list ddl) (s : state) : res (state * bool) :=
  match ops with
  | [] => Ok (s, true)
  | op :: ops => do r <- catalog_execute v op s;
                 match snd r with None => Ok (fst r, false) | Some _ => run v ops (fst r) end
  end.

(** session.c:153-250 session_execute_utility: one DDL statement.  [read_only]: the system is
    read-only; [wal_ok]: the write to the log succeeds.  The result: the catalog, whether the
    client got an error, and whether the operation was logged.  tr_free (tr.h:57-63) does not abort *)
Record reply := mkreply { r_cat : catalog; r_error : bool; r_logged : bool }.
Definition session_execute_utility (v : env) (read_only wal_ok : bool) (op : ddl) (c : catalog) : res reply :=
  do (s, ok) <- run v [op] (c, []);
  if ok then
    match snd s with
    | [] => Ok (mkreply (fst s) false false)
    | log => if read_only then Ok (mkreply (fst s) true false)
             else if wal_ok then Ok (mkreply (tr_commit log (fst s)) false true)
             else Ok (mkreply (fst s) true false)
    end
  else do c' <- tr_abort (snd s) (fst s); Ok (mkreply c' true false).
