(** C69: a restart finds the catalog that was written. *)
From Verif Require Import Base JsonModel JsonSpec JsonProps JsonTextModel CodecModel CodecSpec Utf8Spec DdlModel DdlSpec CatModel CatSpec CatProofs.
From Coq Require Import String.
Local Open Scope Z_scope.

(** The text of the catalog file is read to the catalog it was written from, in which every dropped
    column is back.  [compiles] says which functions can be compiled; [g] and [sd] are the text of a
    real and strtod, which play no role. *)
Theorem C69_catalog_file compiles g sd c : catalog_fine c -> compile_in_order compiles (undrop_catalog c) ->
  exists t, catalog_text g c = Ok t /\ catalog_load compiles sd t = Ok (undrop_catalog c).
Proof.
  intros F C. destruct (restore_ok compiles c F C) as (v & W & V & R). destruct (load_text compiles g sd c v W V) as (t & T & L).
  exists t. split; [exact T|]. rewrite L. exact R.
Qed.
Print Assumptions C69_catalog_file.
(** so a catalog without dropped columns survives as it is *)
Theorem C69_restart_partial compiles g sd c : catalog_fine c -> no_dropped c -> compile_in_order compiles c ->
  exists t, catalog_text g c = Ok t /\ catalog_load compiles sd t = Ok c.
Proof.
  intros F N C. assert (E : undrop_catalog c = c).
  { unfold undrop_catalog. rewrite map_id_in; [destruct c; reflexivity|]. apply Forall_forall. intros t Ht. unfold undrop_table.
    rewrite map_id_in; [destruct t; reflexivity|]. apply Forall_forall. intros x Hx. unfold undrop. rewrite <- (N t x Ht Hx). destruct x; reflexivity. }
  destruct (C69_catalog_file compiles g sd c F) as (t & T & L); [rewrite E; exact C|]. exists t. rewrite <- E at 2. split; assumption.
Qed.
Print Assumptions C69_restart_partial.

(** ** a catalog *)
Definition ex_cons : constraints := mkcons true 1 9223372036854775807 [] [] [].
Definition ex_col n d := mkccol (K n) 3 8 d ex_cons.
Definition ex_uuid := mkuuid 1 2 3 4 5 6.
Definition ex_volume := mkcvol (K "Main") ex_uuid false.
Definition ex_table d := mkctab (K "main") (K "t") ex_uuid false [ex_col "id" false; ex_col "a" d]
  [mkcix (K "primary") 0 true true [mkckey 0 true]] (mkcparts 4 [ex_volume]) [mkctier (K "main") 100 200 [ex_volume]].
Definition ex_storage := mkcst (K "disk") (K "/mnt") (K "zstd") 0 false.
Definition ex_udf n t := mkcudf (K "main") (K n) t 1 [ex_col "x" false] [].
Definition ex_catalog d u := mkccat 12 [main_storage; ex_storage] [main_db] [ex_table d] u.
Lemma ascii_utf8 s : forallb (fun b => (0 <=? b) && (b <? 128)) s = true -> (List.length s <=? 1000)%nat = true -> utf8_str s.
Proof.
  intros H L. apply Nat.leb_le in L. assert (F : Forall (fun b => 0 <= b < 128) s) by (apply Forall_forall; intros b Hb; rewrite forallb_forall in H; specialize (H b Hb); lia).
  destruct (ascii_fine s F) as [W (l & E & C)]; [unfold INT32_MAX; lia|]. split.
  - unfold bytes_ok. apply forallb_forall. intros b Hb. rewrite Forall_forall in F. specialize (F b Hb). unfold byte_ok. lia.
  - split; [unfold INT32_MAX; lia|]. exists l. split; [exact E|exact C].
Qed.
Ltac asc := apply ascii_utf8; reflexivity.
Lemma ex_col_fine n d : utf8_str (K n) -> column_fine (ex_col n d).
Proof.
  intros H. split; [exact H|]. split; [split; vm_compute; [discriminate|reflexivity]|]. split; [split; vm_compute; [discriminate|reflexivity]|].
  split; [split; vm_compute; reflexivity|]. split; [split; vm_compute; reflexivity|]. split; [asc|]. split; [asc|]. split; [reflexivity|vm_compute; discriminate].
Qed.
Lemma ex_volume_fine : volume_fine ex_volume.
Proof. split; [asc|]. repeat split; vm_compute; try discriminate; reflexivity. Qed.
Lemma ex_fine d u : Forall udf_fine u -> NoDup (map (fun x => (map lower (cu_db x), map lower (cu_name x))) u) -> catalog_fine (ex_catalog d u).
Proof.
  intros Fu Nu. split; [split; reflexivity|].
  split. { exists [ex_storage]. split; [reflexivity|]. split; [|repeat constructor]. constructor; [|constructor]. split; [asc|]. split; [asc|]. split; [asc|]. split; vm_compute; [discriminate|reflexivity]. }
  split. { exists []. split; [reflexivity|]. split; constructor. }
  split. { constructor; [|constructor]. split; [asc|]. split; [asc|]. split; [apply ex_volume_fine|].
    split; [constructor; [apply ex_col_fine; asc|constructor; [apply ex_col_fine; asc|constructor]]|].
    split; [constructor; [|constructor]; split; [asc|split; [split; vm_compute; [discriminate|reflexivity]|constructor; [split; vm_compute; [discriminate|reflexivity]|constructor]]]|].
    split; [split; vm_compute; [discriminate|reflexivity]|]. split; [constructor; [apply ex_volume_fine|constructor]|].
    constructor; [|constructor]. split; [asc|]. split; [split; vm_compute; [discriminate|reflexivity]|]. split; [split; vm_compute; [discriminate|reflexivity]|]. constructor; [apply ex_volume_fine|constructor]. }
  split. { constructor; [|constructor]. intros v Hv. exists main_storage. split; [left; reflexivity|].
    assert (v = ex_volume) as ->; [|reflexivity]. cbn in Hv. destruct Hv as [[<-|[]]|(t & [<-|[]] & Hv)]; [reflexivity|]. cbn in Hv. destruct Hv as [<-|[]]. reflexivity. }
  split; [exact Fu|]. split; [repeat constructor; cbn; intuition discriminate|]. split; [repeat constructor; cbn; tauto|]. split; [repeat constructor; cbn; tauto|exact Nu].
Qed.
Lemma ex_udf_fine n t : utf8_str (K n) -> utf8_str t -> udf_fine (ex_udf n t).
Proof.
  intros H Ht. split; [asc|]. split; [exact H|]. split; [exact Ht|]. split; [split; vm_compute; [discriminate|reflexivity]|].
  split; [|constructor]. constructor; [|constructor]. split; [apply ex_col_fine; asc|reflexivity].
Qed.
(** a function compiles when the functions its text names are there: here the text is the name of the
    function it calls *)
Definition ex_compiles (c : ccatalog) (x : cudf) : bool :=
  match cu_text x with [] => true | s => existsb (fun y => str_compare_case (cu_name y) s) (g_udfs c) end.

Example C69_nonvacuous : catalog_fine (ex_catalog false [ex_udf "g" []; ex_udf "f" (K "g")]) /\ no_dropped (ex_catalog false [ex_udf "g" []; ex_udf "f" (K "g")]) /\
  compile_in_order ex_compiles (ex_catalog false [ex_udf "g" []; ex_udf "f" (K "g")]).
Proof.
  split. { apply ex_fine; [constructor; [apply ex_udf_fine; asc|constructor; [apply ex_udf_fine; asc|constructor]]|]. repeat constructor; cbn; intuition discriminate. }
  split. { intros t x [<-|[]] [<-|[<-|[]]]; reflexivity. }
  intros l1 x l2 E. cbn [ex_catalog g_udfs] in E. destruct l1 as [|a l1]; [injection E as <- _; reflexivity|]. injection E as <- E. destruct l1 as [|b l1]; [injection E as <- _; reflexivity|].
  injection E as _ E. destruct l1; discriminate.
Qed.

(** FALSE of the code: a column that was dropped is back after a restart (column.h:84-92: column_copy
    does not copy the flag, although column_write wrote it). *)
Theorem C69_dropped_column_refuted compiles g sd : exists c t c', catalog_fine c /\ g_udfs c = [] /\ catalog_text g c = Ok t /\ catalog_load compiles sd t = Ok c' /\
  (exists tb x, In tb (g_tables c) /\ In x (cb_columns tb) /\ cc_name x = K "a" /\ cc_dropped x = true) /\
  (exists tb x, In tb (g_tables c') /\ In x (cb_columns tb) /\ cc_name x = K "a" /\ cc_dropped x = false).
Proof.
  assert (F : catalog_fine (ex_catalog true [])) by (apply ex_fine; constructor).
  destruct (C69_catalog_file compiles g sd (ex_catalog true []) F) as (t & T & L); [intros [|? l1] x l2 E; discriminate|].
  exists (ex_catalog true []), t. eexists. split; [exact F|]. split; [reflexivity|]. split; [exact T|]. split; [exact L|]. split.
  - exists (ex_table true), (ex_col "a" true). cbn. auto.
  - exists (undrop_table (ex_table true)), (undrop (ex_col "a" true)). cbn. auto.
Qed.
Print Assumptions C69_dropped_column_refuted.

(** FALSE of the code: functions are compiled one by one in the order of their creation.  After
    CREATE FUNCTION f, CREATE FUNCTION g, CREATE OR REPLACE FUNCTION f that calls g all functions
    compile, but the server does not start from its own file. *)
Theorem C69_function_order_refuted g sd : exists c t, catalog_fine c /\ no_dropped c /\ Forall (fun x => ex_compiles c x = true) (g_udfs c) /\
  catalog_text g c = Ok t /\ catalog_load ex_compiles sd t = Err.
Proof.
  set (c := ex_catalog false [ex_udf "f" (K "g"); ex_udf "g" []]).
  assert (F : catalog_fine c). { apply ex_fine; [constructor; [apply ex_udf_fine; asc|constructor; [apply ex_udf_fine; asc|constructor]]|]. repeat constructor; cbn; intuition discriminate. }
  destruct (restore_ok (fun _ _ => true) c F) as (v & W & V & _); [intros l1 x l2 _; reflexivity|].
  destruct (load_text ex_compiles g sd c v W V) as (t & T & L). exists c, t. split; [exact F|]. split; [intros tb x [<-|[]] [<-|[<-|[]]]; reflexivity|].
  split; [repeat constructor|]. split; [exact T|]. rewrite L. assert (E : Ok v = catalog_write_prepare c) by (symmetry; exact W). vm_compute in E. injection E as ->. vm_compute. reflexivity.
Qed.
Print Assumptions C69_function_order_refuted.

(** FALSE of the code: the text of a function may have bytes that are not UTF-8 (in a comment:
    compiler/parser/lex.c:200-225 skips them, only string literals are checked); the file that holds
    it is rejected. *)
Theorem C69_not_utf8_refuted compiles sd : exists c t, g_udfs c = [ex_udf "f" (K "-- " ++ [255])] /\ Forall table_fine (g_tables c) /\
  catalog_text (fun _ => []) c = Ok t /\ catalog_load compiles sd t = Err.
Proof.
  exists (ex_catalog false [ex_udf "f" (K "-- " ++ [255])]). eexists. split; [reflexivity|]. split; [apply (ex_fine false [] (Forall_nil _) (NoDup_nil _))|].
  split; [vm_compute; reflexivity|vm_compute; reflexivity].
Qed.
Print Assumptions C69_not_utf8_refuted.
