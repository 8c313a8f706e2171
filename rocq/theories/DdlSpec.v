(** What C49 says, apart from the code.  The catalog of the model is the list of the relations of
    each kind with their complete configuration. *)
From Verif Require Import Base DdlModel.
From Coq Require Import Permutation.
Local Open Scope Z_scope.

(** the same storages, databases, tables (with columns, indexes, tiers, identity value and rows)
    and functions; only the order in which they are listed may differ *)
Definition same_catalog (c c' : catalog) : Prop :=
  Permutation (c_storages c) (c_storages c') /\ Permutation (c_dbs c) (c_dbs c') /\
  Permutation (c_tables c) (c_tables c') /\ Permutation (c_udfs c) (c_udfs c').

(** names are unique, whatever the case of their letters *)
Definition same_name (a b : str) : Prop := map lower a = map lower b.
Definition unique_names {A} (same : A -> A -> Prop) (l : objs A) : Prop :=
  forall p q, In p l -> In q l -> same (snd p) (snd q) -> p = q.
Definition names_unique (c : catalog) : Prop :=
  unique_names (fun a b => same_name (st_name a) (st_name b)) (c_storages c) /\
  unique_names (fun a b => same_name (db_name a) (db_name b)) (c_dbs c) /\
  unique_names (fun a b => same_name (tb_db a) (tb_db b) /\ same_name (tb_name a) (tb_name b)) (c_tables c) /\
  unique_names (fun a b => same_name (uf_db a) (uf_db b) /\ same_name (uf_name a) (uf_name b)) (c_udfs c).

(** strings and constants in a statement are bytes *)
Definition column_bytes (x : column) : Prop := bytes_ok (k_default (co_cons x)) = true.
Definition op_bytes (op : ddl) : Prop :=
  match op with
  | Table_create x _ => Forall column_bytes (tc_columns x)
  | Column_add _ _ x _ _ => column_bytes x
  | Column_set _ _ _ _ v _ _ => bytes_ok v = true
  | _ => True
  end.

(** every statement executed so far: each with the behaviour of the compiler, of the files, of
    the read-only mode and of the log *)
Record statement := mkstmt { s_env : env; s_read_only : bool; s_wal_ok : bool; s_op : ddl }.
Inductive history : list statement -> catalog -> Prop :=
| H_start : history [] (mkcat [] [] [] [] 0)
| H_step : forall h c st r, history h c -> op_bytes (s_op st) ->
    session_execute_utility (s_env st) (s_read_only st) (s_wal_ok st) (s_op st) c = Ok r ->
    history (st :: h) (r_cat r).

(** An operation of a transaction that saves enough to be undone: ALTER DATABASE/STORAGE RENAME
    spell the name as it is stored, SET (UN)LOGGED changes the setting *)
Definition exact (op : ddl) (c : catalog) : Prop :=
  match op with
  | Storage_rename n _ _ => forall o x, storage_mgr_find c n = Some (o, x) -> st_name x = n
  | Db_rename n _ _ => forall o x, database_mgr_find c n = Some (o, x) -> db_name x = n
  | Table_set_unlogged d n b _ => forall o t, table_mgr_find c d n = Some (o, t) -> tb_unlogged t <> b
  | _ => True
  end.
Fixpoint exact_run (v : env) (ops : list ddl) (s : state) : Prop :=
  match ops with
  | [] => True
  | op :: ops => exact op (fst s) /\
      forall s' b, catalog_execute v op s = Ok (s', Some b) -> exact_run v ops s'
  end.

(** ** What a statement that succeeds does *)
(** one object that satisfies [P] is replaced by one related by [R]; one is removed; one is added.
    All others stay as they are *)
Definition replaced {A} (P : A -> Prop) (R : A -> A -> Prop) (l l' : objs A) : Prop :=
  exists l1 i x y l2, l = l1 ++ (i, x) :: l2 /\ l' = l1 ++ (i, y) :: l2 /\ P x /\ R x y.
Definition removed {A} (P : A -> Prop) (l l' : objs A) : Prop :=
  exists l1 i x l2, l = l1 ++ (i, x) :: l2 /\ l' = l1 ++ l2 /\ P x.
Definition added {A} (P : A -> Prop) (l l' : objs A) : Prop :=
  exists i x, l' = l ++ [(i, x)] /\ ~ In i (map fst l) /\ P x.
Definition same_storages c c' := c_storages c' = c_storages c.
Definition same_dbs c c' := c_dbs c' = c_dbs c.
Definition same_tables c c' := c_tables c' = c_tables c.
Definition same_udfs c c' := c_udfs c' = c_udfs c.

Definition named_storage (n : str) (x : storage) := same_name (st_name x) n.
Definition named_db (n : str) (x : dbase) := same_name (db_name x) n.
Definition named_table (d n : str) (x : table) := same_name (tb_db x) d /\ same_name (tb_name x) n.
Definition named_udf (d n : str) (x : udf) := same_name (uf_db x) d /\ same_name (uf_name x) n.
Definition named_column (n : str) (x : column) := co_dropped x = false /\ same_name (co_name x) n.
Definition named_index (n : str) (x : indexc) := same_name (ix_name x) n.
Definition named_tier (n : str) (x : tier) := ti_name x = n.

(** the storages of a tier: the first one of that name *)
Definition on_volume (n : str) (R : volume -> volume -> Prop) (l l' : list volume) : Prop :=
  exists l1 x y l2, l = l1 ++ x :: l2 /\ l' = l1 ++ y :: l2 /\ vo_name x = n /\ R x y.
Definition no_volume (n : str) (l l' : list volume) : Prop :=
  exists l1 x l2, l = l1 ++ x :: l2 /\ l' = l1 ++ l2 /\ vo_name x = n.

(** the table [x] becomes [y]: only its columns, indexes or tiers change *)
Definition columns_change (R : objs column -> objs column -> Prop) (x y : table) : Prop :=
  exists l, R (tb_columns x) l /\ y = t_set_columns l x.
Definition indexes_change (R : objs indexc -> objs indexc -> Prop) (x y : table) : Prop :=
  exists l, R (tb_indexes x) l /\ y = t_set_indexes l x.
Definition tiers_change (R : objs tier -> objs tier -> Prop) (x y : table) : Prop :=
  exists l, R (tb_tiers x) l /\ y = t_set_tiers l x.
Definition volumes_change (R : list volume -> list volume -> Prop) (x y : tier) : Prop :=
  exists l, R (ti_volumes x) l /\ y = ti_set_volumes l x.

(** a new table has the definition of the statement, no rows and an identity that starts at 0 *)
Definition new_table (x : tablec) (y : table) : Prop :=
  tb_db y = tc_db x /\ tb_name y = tc_name x /\ tb_uuid y = tc_uuid x /\
  map snd (tb_columns y) = map column_copy (tc_columns x) /\ map snd (tb_indexes y) = tc_indexes x /\
  tb_unlogged y = tc_unlogged x /\ tb_part y = tc_part x /\ map snd (tb_tiers y) = map tier_config_copy (tc_tiers x) /\
  tb_seq y = 0 /\ tb_rows y = [].
(** a function is kept as its name was spelled if only the case of letters changes *)
Definition renamed (n n' : str) (m : str) : Prop := (same_name n n' /\ m = n) \/ (~ same_name n n' /\ m = n').

Definition table_changes (d n : str) (R : table -> table -> Prop) (c c' : catalog) : Prop :=
  same_storages c c' /\ same_dbs c c' /\ replaced (named_table d n) R (c_tables c) (c_tables c') /\ same_udfs c c'.

(** one setting of the column has the new text, everything else of it stays *)
Definition setting_changed (w : column_set) (v : list Z) (x y : column) : Prop :=
  co_name y = co_name x /\ co_type y = co_type x /\ co_type_size y = co_type_size x /\ co_dropped y = co_dropped x /\ co_refs y = co_refs x /\
  k_not_null (co_cons y) = k_not_null (co_cons x) /\ k_identity (co_cons y) = k_identity (co_cons x) /\
  k_modulo (co_cons y) = k_modulo (co_cons x) /\
  k_default (co_cons y) = match w with Set_default => v | _ => k_default (co_cons x) end /\
  k_stored (co_cons y) = match w with Set_stored => v | _ => k_stored (co_cons x) end /\
  k_resolved (co_cons y) = match w with Set_resolved => v | _ => k_resolved (co_cons x) end.

(** the statement changes or drops the table or function of this name *)
Definition alters (op : ddl) : option str :=
  match op with
  | Table_drop _ n _ | Table_rename _ n _ _ _ | Column_drop _ n _ _ _ | Column_rename _ n _ _ _ _ | Index_drop _ n _ _
  | Index_rename _ n _ _ _ | Udf_drop _ n _ | Udf_rename _ n _ _ _ => Some n
  | _ => None
  end.

(** the catalog [c'] is the catalog [c] after the statement *)
Definition effect (op : ddl) (c c' : catalog) : Prop :=
  match op with
  | Storage_create x _ => added (eq x) (c_storages c) (c_storages c') /\ same_dbs c c' /\ same_tables c c' /\ same_udfs c c'
  | Storage_drop n _ => removed (named_storage n) (c_storages c) (c_storages c') /\ same_dbs c c' /\ same_tables c c' /\ same_udfs c c'
  | Storage_rename n n' _ => replaced (named_storage n) (fun x y => y = st_set_name n' x) (c_storages c) (c_storages c') /\ same_dbs c c' /\ same_tables c c' /\ same_udfs c c'
  | Db_create x _ => same_storages c c' /\ added (eq x) (c_dbs c) (c_dbs c') /\ same_tables c c' /\ same_udfs c c'
  | Db_drop n cascade _ =>
      same_storages c c' /\ removed (named_db n) (c_dbs c) (c_dbs c') /\
      (* the tables and functions of the database are dropped, all others stay *)
      (forall p, In p (c_tables c') <-> In p (c_tables c) /\ ~ same_name (tb_db (snd p)) n) /\
      (forall p, In p (c_udfs c') <-> In p (c_udfs c) /\ ~ same_name (uf_db (snd p)) n) /\
      (cascade = false -> same_tables c c' /\ same_udfs c c')
  | Db_rename n n' _ =>
      same_storages c c' /\ replaced (named_db n) (fun x y => y = db_set_name n' x) (c_dbs c) (c_dbs c') /\
      Forall2 (fun p q => (same_name (tb_db (snd p)) n /\ q = (fst p, t_set_names n' (tb_name (snd p)) (snd p))) \/
                          (~ same_name (tb_db (snd p)) n /\ q = p)) (c_tables c) (c_tables c') /\
      same_udfs c c' /\ (forall p, In p (c_udfs c) -> ~ same_name (uf_db (snd p)) n)
  | Table_create x _ => same_storages c c' /\ same_dbs c c' /\ added (new_table x) (c_tables c) (c_tables c') /\ same_udfs c c'
  | Table_drop d n _ => same_storages c c' /\ same_dbs c c' /\ removed (named_table d n) (c_tables c) (c_tables c') /\ same_udfs c c'
  | Table_rename d n d' n' _ => table_changes d n (fun x y => exists d2 n2, renamed (tb_db x) d' d2 /\ renamed (tb_name x) n' n2 /\ y = t_set_names d2 n2 x) c c'
  | Table_truncate d n _ => table_changes d n (fun x y => y = t_set_rows [] x) c c'
  | Table_set_identity d n q _ => table_changes d n (fun x y => y = t_set_seq q x) c c'
  | Table_set_unlogged d n b _ => table_changes d n (fun x y => y = t_set_unlogged b x) c c'
  | Column_add d n k _ _ => table_changes d n (columns_change (added (eq (column_copy k)))) c c'
  | Column_drop d n k _ _ => table_changes d n (columns_change (replaced (named_column k) (fun x y => co_refs x <= 0 /\ y = co_set_cons constraints_init (co_set_dropped true x)))) c c'
  | Column_rename d n k k' _ _ => table_changes d n (columns_change (replaced (named_column k) (fun x y => y = co_set_name k' x))) c c'
  | Column_set d n k w v _ _ => table_changes d n (columns_change (replaced (named_column k) (setting_changed w v))) c c'
  | Index_drop d n i _ => table_changes d n (indexes_change (removed (named_index i))) c c'
  | Index_rename d n i i' _ => table_changes d n (indexes_change (replaced (named_index i) (fun x y => y = ix_set_name i' x))) c c'
  | Tier_create d n x _ => table_changes d n (tiers_change (added (eq (tier_config_copy x)))) c c'
  | Tier_drop d n i _ => table_changes d n (tiers_change (removed (named_tier i))) c c'
  | Tier_rename d n i i' _ => table_changes d n (tiers_change (replaced (named_tier i) (fun x y => y = ti_set_name i' x))) c c'
  | Tier_set d n x region object _ =>
      table_changes d n (tiers_change (replaced (named_tier (ti_name x))
        (fun y z => z = mktier (ti_name y) (if region then to_i32 (ti_region x) else ti_region y) (if object then to_i32 (ti_object x) else ti_object y) (ti_volumes y)))) c c'
  | Tier_storage_add d n i x _ _ =>
      table_changes d n (tiers_change (replaced (named_tier i) (volumes_change (fun l l' =>
        (forall w, In w l -> vo_name w <> vo_name x) /\ l' = l ++ [mkvol (vo_name x) (vo_id x) (vo_pause x) 0])))) c c' /\
      exists o s, In (o, s) (c_storages c) /\ named_storage (vo_name x) s
  | Tier_storage_drop d n i m _ _ => table_changes d n (tiers_change (replaced (named_tier i) (volumes_change (no_volume m)))) c c'
  | Tier_storage_pause d n i m b _ _ =>
      table_changes d n (tiers_change (replaced (named_tier i) (volumes_change (fun l l' => on_volume m (fun x y => vo_pause x <> b /\ y = vo_set_pause b x) l l' /\
        (* an active storage remains *) (b = true -> exists w, In w l' /\ vo_pause w = false))))) c c'
  | Udf_create x => same_storages c c' /\ same_dbs c c' /\ same_tables c c' /\ added (eq x) (c_udfs c) (c_udfs c')
  | Udf_replace x => same_storages c c' /\ same_dbs c c' /\ same_tables c c' /\
      (added (eq x) (c_udfs c) (c_udfs c') \/ replaced (fun y => named_udf (uf_db x) (uf_name x) y /\ uf_sig y = uf_sig x) (fun _ y => y = x) (c_udfs c) (c_udfs c'))
  | Udf_drop d n _ => same_storages c c' /\ same_dbs c c' /\ same_tables c c' /\ removed (named_udf d n) (c_udfs c) (c_udfs c')
  | Udf_rename d n d' n' _ => same_storages c c' /\ same_dbs c c' /\ same_tables c c' /\
      replaced (named_udf d n) (fun x y => exists d2 n2, renamed (uf_db x) d' d2 /\ renamed (uf_name x) n' n2 /\ y = uf_set_names d2 n2 x) (c_udfs c) (c_udfs c')
  end.
