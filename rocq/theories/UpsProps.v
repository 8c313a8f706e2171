(** C83: INSERT ... ON CONFLICT ... RETURNING. *)
From Verif Require Import Base UpsModel UpsSpec UpsProofs HashModel UpsHashModel.
Local Open Scope nat_scope.

(** The program emitted for the partition does what the statement says, row by
    row, errors included, if it reads from EXCLUDED only what the proposed rows
    hold.  (Missing for the full property: C83_excluded_refuted.) *)
Theorem C83_upsert_partial : forall cols keys sec cf ret code rows es,
  emit_upsert cols cf ret = Ok code ->
  idents_are_keys cols -> keys_have_refs cols keys -> table_ok cols keys rows ->
  excluded_ok cols cf ret es ->
  exists fuel, exec cols keys sec es code fuel (start rows) = Some (upsert cols keys sec cf ret rows es).
Proof.
  intros cols keys sec cf ret code rows es He Hi Hk Hok Hx.
  destruct (run_upsert cols keys sec es cf ret code He Hi Hk rows Hok) as [n R].
  exists n. rewrite R. f_equal. apply put_rows_sent. exact Hx.
Qed.
Print Assumptions C83_upsert_partial.

(** Whatever it reads: EXCLUDED is the list of values as they were sent. *)
Theorem C83_upsert_sent_partial : forall cols keys sec cf ret code rows es,
  emit_upsert cols cf ret = Ok code ->
  idents_are_keys cols -> keys_have_refs cols keys -> table_ok cols keys rows ->
  exists fuel, exec cols keys sec es code fuel (start rows)
    = Some (put_rows (fun e _ => e_values e) cols keys sec cf ret rows es).
Proof.
  intros cols keys sec cf ret code rows es He Hi Hk Hok.
  apply (run_upsert cols keys sec es cf ret code He Hi Hk rows Hok).
Qed.
Print Assumptions C83_upsert_sent_partial.

(** What holds of the table and of the result after every upsert that ends. *)
Theorem C83_table_after : forall cols keys sec cf ret code rows es fuel rows' out,
  emit_upsert cols cf ret = Ok code ->
  idents_are_keys cols -> keys_have_refs cols keys -> table_ok cols keys rows ->
  exec cols keys sec es code fuel (start rows) = Some (Ok (rows', out)) ->
  (* one row for a key *)
  table_ok cols keys rows' /\
  (* RETURNING has a row for every given row *)
  length out = match ret with [] => 0 | _ => length es end /\
  (* no key is lost *)
  incl (map (key_of keys) rows) (map (key_of keys) rows') /\
  (* every given key is there *)
  (forall e, In e es -> exists new, proposed cols e = Ok new /\ In (key_of keys new) (map (key_of keys) rows')) /\
  (* rows with other keys are as they were *)
  (forall x, (forall e new, In e es -> proposed cols e = Ok new -> key_of keys x <> key_of keys new) ->
     (In x rows <-> In x rows')).
Proof.
  intros cols keys sec cf ret code rows es fuel rows' out He Hi Hk Hok H.
  destruct (run_upsert cols keys sec es cf ret code He Hi Hk rows Hok) as [n R].
  pose proof (exec_det _ _ _ _ _ _ _ _ _ _ H R) as E.
  apply (put_rows_inv sent cols keys sec cf ret (emit_cf_ok cols cf ret code He) Hk es rows rows' out Hok).
  symmetry. exact E.
Qed.
Print Assumptions C83_table_after.

(** What a column of [bits] bits holds for z: the number in its range that is z
    modulo 2^bits; and what WHERE takes for true. *)
Theorem C83_values : forall bits z v, (1 <= bits)%Z ->
  (- 2 ^ (bits - 1) <= wrap bits z < 2 ^ (bits - 1))%Z /\
  ((wrap bits z - z) mod 2 ^ bits = 0)%Z /\
  (is_true v = true <-> exists n, v = Some n /\ (0 < n)%Z).
Proof.
  intros bits z v Hb. unfold wrap.
  assert (H2 : (2 ^ bits = 2 * 2 ^ (bits - 1))%Z).
  { rewrite <- Z.pow_succ_r by lia. f_equal. lia. }
  assert (H1 : (0 < 2 ^ (bits - 1))%Z) by (apply Z.pow_pos_nonneg; lia).
  set (h := (2 ^ (bits - 1))%Z) in *. rewrite H2.
  pose proof (Z.mod_pos_bound (z + h) (2 * h) ltac:(lia)) as Hm.
  split; [lia|]. split.
  - pose proof (Z.div_mod (z + h) (2 * h) ltac:(lia)) as Hd.
    replace ((z + h) mod (2 * h) - h - z)%Z with ((- ((z + h) / (2 * h))) * (2 * h))%Z by lia.
    apply Z.mod_mul. lia.
  - destruct v as [n|]; cbn [is_true].
    + rewrite Z.ltb_lt. split; [eauto|]. intros (m & E & Hm'). congruence.
    + split; [discriminate|]. intros (m & E & _). discriminate.
Qed.
Print Assumptions C83_values.

(** The statement is accepted exactly when SET names existing columns that are
    in no key, each once. *)
Theorem C83_accepted : forall cols cf ret,
  (exists code, emit_upsert cols cf ret = Ok code) <-> cf_ok cols cf.
Proof. exact emit_iff. Qed.
Print Assumptions C83_accepted.

(** ** a concrete case *)
(* create table t (k int primary key, v int, s smallint) *)
Definition t_cols : list column :=
  [mkcol 64 true false true; mkcol 64 false false false; mkcol 16 false false false].
Definition t_rows : list row := [[Some 1; Some 10; Some 7]; [Some 2; Some 20; None]]%Z.
(* on conflict do update set s = excluded.s, v = v + excluded.v where v < 100 returning k, v *)
Definition t_cf : conflict :=
  CUpdate [(2, EExcl 2); (1, EBin Z.add (ECol 1) (EExcl 1))]
          (Some (EBin (fun a b => if (a <? b)%Z then 1 else 0)%Z (ECol 1) (EConst (Some 100%Z)))).
Definition t_ret : list expr := [ECol 0; ECol 1].
Definition t_args : list entry :=
  [mkentry [Some 2; Some 5; Some 1] 0; mkentry [Some 3; Some 100; None] 0;
   mkentry [Some 3; Some 1; Some 2] 0; mkentry [Some 2; Some 1; Some 3] 0]%Z.

Example C83_nonvacuous :
  idents_are_keys t_cols /\ keys_have_refs t_cols [0] /\ table_ok t_cols [0] t_rows /\
  excluded_ok t_cols t_cf t_ret t_args /\
  exists code, emit_upsert t_cols t_cf t_ret = Ok code /\
    exec t_cols [0] [] t_args code 100 (start t_rows) =
    Some (Ok ([[Some 1; Some 10; Some 7]; [Some 2; Some 26; Some 3]; [Some 3; Some 100; None]],
              [[Some 2; Some 25]; [Some 3; Some 100]; [Some 3; Some 100]; [Some 2; Some 26]]))%Z.
Proof.
  split; [|split; [|split; [|split]]].
  - intros c [<-|[<-|[<-|[]]]]; cbn; congruence.
  - intros k c [<-|[]] H. cbn in H. injection H as <-. reflexivity.
  - split.
    + repeat constructor.
    + cbn. constructor; [|constructor; [intros []|constructor]].
      intros [H|[]]. discriminate.
  - intros e new i He Hn Hi.
    assert (Hb : i = 1 \/ i = 2) by (cbn in Hi; intuition).
    destruct He as [<-|[<-|[<-|[<-|[]]]]]; cbv in Hn; injection Hn as <-; destruct Hb as [->| ->]; reflexivity.
  - eexists. split; [reflexivity|]. vm_compute. reflexivity.
Qed.

(** ** FALSE: EXCLUDED is the row proposed for insertion.  With a smallint
    column s, VALUES (1, 0, 70000) ... SET v = EXCLUDED.s stores 70000, though
    no row with s = 70000 can exist (the proposed row has s = 4464). *)
Theorem C83_excluded_refuted : exists cols keys cf code rows es rows' spec out out',
  emit_upsert cols cf [] = Ok code /\ idents_are_keys cols /\ keys_have_refs cols keys /\ table_ok cols keys rows /\
  exec cols keys [] es code 100 (start rows) = Some (Ok (rows', out)) /\
  upsert cols keys [] cf [] rows es = Ok (spec, out') /\
  rows' = [[Some 1; Some 70000; Some 7]]%Z /\ spec = [[Some 1; Some 4464; Some 7]]%Z.
Proof.
  exists t_cols, [0], (CUpdate [(1, EExcl 2)] None).
  eexists. exists [[Some 1; Some 10; Some 7]]%Z, [mkentry [Some 1; Some 0; Some 70000]%Z 0%Z]. do 4 eexists.
  split; [reflexivity|].
  destruct C83_nonvacuous as (Hi & Hk & _).
  split; [exact Hi|]. split; [exact Hk|].
  split; [split; [repeat constructor|cbn; constructor; [intros []|constructor]]|].
  repeat split; vm_compute; reflexivity.
Qed.
Print Assumptions C83_excluded_refuted.

(** ** FALSE: an accepted statement ends with a result or an error.  ALTER TABLE
    ADD COLUMN ... SERIAL adds an identity column that is in no key; SET of it
    reads through a NULL pointer. *)
Theorem C83_identity_column_refuted : exists cols keys cf code rows es,
  emit_upsert cols cf [] = Ok code /\ keys_have_refs cols keys /\ table_ok cols keys rows /\
  exec cols keys [] es code 100 (start rows) = Some UB.
Proof.
  exists [mkcol 64 true false true; mkcol 64 false true false], [0], (CUpdate [(1, EConst (Some 5%Z))] None).
  eexists. exists [[Some 1; None]]%Z, [mkentry [Some 1; None]%Z 9%Z].
  split; [reflexivity|]. split; [|split].
  - intros k c [<-|[]] H. cbn in H. injection H as <-. reflexivity.
  - split; [repeat constructor|cbn; constructor; [intros []|constructor]].
  - vm_compute. reflexivity.
Qed.
Print Assumptions C83_identity_column_refuted.

(** ** hash primary key: the row RETURNING reads *)
Lemma get_loop_at : forall s k f pos p at_, size s > 0 -> pos < size s ->
  get_loop s k f pos = Ok (p, at_) ->
  at_ < size s /\ match p with Some x => slot_at s at_ = Used x /\ hkey x = k | None => slot_at s at_ = Empty end.
Proof.
  induction f as [|f IH]; intros pos p at_ Hs Hp H; cbn [get_loop] in H; [discriminate|].
  assert (Hm : (pos + 1) mod size s < size s) by (apply Nat.mod_upper_bound; lia).
  destruct (slot_at s pos) as [| |x] eqn:E; eauto.
  - injection H as <- <-. auto.
  - destruct (Z.eqb_spec (hkey x) k); eauto. injection H as <- <-. auto.
Qed.

Lemma set_nth_get : forall {A} (l : list A) p v d, p < length l -> nth p (set_nth l p v) d = v.
Proof. induction l as [|x l IH]; intros [|p] v d H; cbn in *; auto; try lia. apply IH; lia. Qed.
Lemma set_nth_len : forall {A} (l : list A) p v, length (set_nth l p v) = length l.
Proof. induction l as [|x l IH]; intros [|p] v; cbn; auto. Qed.
Lemma set_nth_other : forall {A} (l : list A) p q v d, p <> q -> nth q (set_nth l p v) d = nth q l d.
Proof. induction l as [|x l IH]; intros [|p] [|q] v d H; cbn in *; auto; lia. Qed.

(** while the hash is not being enlarged, the cursor is on the row of the key *)
Theorem C83_hash_cursor_partial : forall row_hash h r h' ex s,
  prev h = None -> size (current h) > 0 ->
  index_hash_upsert row_hash h r = Ok (h', ex, s) -> prev h' = None -> size (current h') = size (current h) ->
  exists x, s = Used x /\ hkey x = hkey r /\ (ex = false -> x = r).
Proof.
  intros row_hash h r h' ex s Hp Hs H Hp' Hsz. unfold index_hash_upsert, hash_get_or_set in H. rewrite Hp in H.
  unfold store_get in H.
  destruct (get_loop (current h) (hkey r) (size (current h)) (home row_hash (current h) (hkey r))) as [[p at_]| |] eqn:E;
    cbn [bind] in H; try discriminate.
  assert (Hh : home row_hash (current h) (hkey r) < size (current h)).
  { unfold home. apply Nat2Z.inj_lt. rewrite Z2Nat.id; [apply Z.mod_pos_bound; lia|].
    apply Z.mod_pos_bound. lia. }
  destruct (get_loop_at _ _ _ _ _ _ Hs Hh E) as [Hat Hsl].
  cbv zeta in H.
  destruct (store_is_full _) eqn:Ef in H.
  - (* a rehash was started: the size is different *)
    exfalso.
    set (cur' := match p with Some _ => current h | None => put (current h) at_ (Used r) 1%Z end) in *.
    assert (Hc : size cur' = size (current h)).
    { subst cur'. destruct p; [reflexivity|]. unfold size, put. cbn.
      clear. generalize at_. induction (rows (current h)) as [|y l IH]; intros [|q]; cbn; auto. }
    unfold hash_rehash, hash_rehash_start in H. cbn [prev current rehashing_pos] in H.
    assert (L : forall cur pos f h'', rehash_loop row_hash cur cur' pos f = Ok h'' -> size (current h'') = size cur).
    { clear. intros cur pos f. revert pos. induction f as [|f IH]; intros pos h'' H; cbn [rehash_loop] in H.
      - injection H as <-. reflexivity.
      - destruct (pos <? size cur'); [|injection H as <-; reflexivity].
        destruct (slot_at cur' pos) as [| |x]; eauto.
        destruct (store_set row_hash cur x) as [[c o]| |] eqn:E; cbn [bind] in H; try discriminate.
        injection H as <-. cbn [current]. clear - E. unfold store_set in E. revert E.
        generalize (home row_hash cur (hkey x)). generalize (size cur) at 1.
        assert (P : forall q v d, size (put cur q v d) = size cur).
        { intros q v d. unfold size, put. cbn. generalize (rows cur). intros l. revert q.
          induction l as [|y l IH]; intros [|q]; cbn; auto. }
        induction n as [|n IH]; intros q E; cbn [set_loop] in E; [discriminate|].
        destruct (slot_at cur q); try (injection E as <- <-; apply P).
        destruct (hkey r =? hkey x)%Z; [injection E as <- <-; apply P|eauto]. }
    destruct (rehash_loop _ _ _ _ _) as [h1| |] eqn:E1 in H; cbn [bind] in H; try discriminate.
    injection H as <- <- <-. apply L in E1. unfold store_create, size in E1. cbn [rows] in E1.
    rewrite repeat_length in E1. fold (size cur') in E1. fold (size (current h1)) in E1. lia.
  - cbn [bind] in H. injection H as <- <- <-. cbn [current].
    destruct p as [x|].
    + exists x. destruct Hsl as [-> Hk]. repeat split; [exact Hk|discriminate].
    + exists r. repeat split. unfold slot_at, put. cbn [rows]. apply set_nth_get. exact Hat.
Qed.
Print Assumptions C83_hash_cursor_partial.

(** The insert that starts an enlargement, for every hash function and every
    table: the new store has one row (the first one of the old store), and the
    cursor is on that row or on none, whichever row was inserted. *)
Theorem C83_hash_enlarged_cursor : forall row_hash h r h' ex s,
  prev h = None ->
  index_hash_upsert row_hash h r = Ok (h', ex, s) -> prev h' <> None ->
  exists m, (s = Empty \/ s = Used m) /\
    forall q, slot_at (current h') q = Empty \/ slot_at (current h') q = Used m.
Proof.
  intros row_hash h r h' ex s Hp H Hp'. unfold index_hash_upsert, hash_get_or_set in H. rewrite Hp in H.
  destruct (store_get row_hash (current h) (hkey r)) as [[p at_]| |]; cbn [bind] in H; try discriminate.
  cbv zeta in H.
  destruct (store_is_full _) eqn:Ef in H; [|cbn [bind] in H; injection H as <- <- <-; cbn in Hp'; congruence].
  unfold hash_rehash, hash_rehash_start in H. cbn [prev current rehashing_pos] in H.
  set (cur' := match p with Some _ => current h | None => put (current h) at_ (Used r) 1%Z end) in *.
  set (cur := store_create _) in *.
  assert (Z0 : forall q, slot_at cur q = Empty).
  { intros q. subst cur. unfold slot_at, store_create. cbn [rows]. clear.
    generalize (2 * size cur'). intros n. revert q. induction n as [|n IH]; intros [|q]; cbn; auto. }
  assert (L : forall f pos h'', rehash_loop row_hash cur cur' pos f = Ok h'' -> prev h'' <> None ->
     exists m, forall q, slot_at (current h'') q = Empty \/ slot_at (current h'') q = Used m).
  { clear - Z0. clearbody cur cur'. intros f. induction f as [|f IH]; intros pos h'' H Hn; cbn [rehash_loop] in H.
    - injection H as <-. cbn in Hn. congruence.
    - destruct (pos <? size cur'); [|injection H as <-; cbn in Hn; congruence].
      destruct (slot_at cur' pos) as [| |x]; eauto.
      destruct (store_set row_hash cur x) as [[c o]| |] eqn:E; cbn [bind] in H; try discriminate.
      injection H as <-. cbn [current]. exists x. intros q.
      unfold store_set in E. destruct (size cur); cbn [set_loop] in E; [discriminate|].
      rewrite Z0 in E. injection E as <- <-. unfold slot_at, put. cbn [rows].
      set (a := home row_hash cur (hkey x)).
      destruct (Nat.eq_dec a q) as [<-|N].
      + destruct (Nat.lt_ge_cases a (length (rows cur))).
        * right. apply set_nth_get. assumption.
        * left. apply nth_overflow. rewrite set_nth_len. assumption.
      + left. rewrite set_nth_other by exact N. apply Z0. }
  destruct (rehash_loop _ _ _ _ _) as [h1| |] eqn:E1 in H; cbn [bind] in H; try discriminate.
  injection H as <- <- <-. destruct (L _ _ _ E1 Hp') as [m M]. exists m. split; [apply M|exact M].
Qed.
Print Assumptions C83_hash_enlarged_cursor.

(** ** FALSE: INSERT ... RETURNING reads the row it inserted.  When the insert
    starts an enlargement, the position belongs to the old store: with 129
    inserts into an empty hash the cursor of the last one has no row (NULL). *)
Definition seq_rows (n : nat) : list hrow := map (fun i => mkhrow (Z.of_nat i) 0%Z) (seq 0 n).
Definition cursor_of (x : res (hash * slot)) : option slot := match x with Ok (_, s) => Some s | _ => None end.

Theorem C83_hash_returning_refuted : exists row_hash,
  cursor_of (index_hash_inserts row_hash hash_create (seq_rows 128)) = Some (Used (mkhrow 127%Z 0%Z)) /\
  cursor_of (index_hash_inserts row_hash hash_create (seq_rows 129)) = Some Empty.
Proof. exists (fun k => k). split; vm_compute; reflexivity. Qed.
Print Assumptions C83_hash_returning_refuted.
