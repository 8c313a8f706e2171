(** A concrete table for C75. *)
From Coq Require Import Permutation.
From Verif Require Import Base JsonModel JsonSpec RowModel RowSpec RowProofs RowKeys RowMap RowProps ScanModel ScanSpec ScanProofs ScanProofs2.

(** id bigint PRIMARY KEY, n int, name text; UNIQUE INDEX (n), INDEX (name), INDEX (n) USING HASH *)
Definition ecols : list column := [mkcol TInt 8 false true; mkcol TInt 4 false true; mkcol TString 0 false true].
Definition eidx : list index :=
  [mkindex [0%nat] false true; mkindex [1%nat] false true; mkindex [2%nat; 0%nat] false false; mkindex [1%nat; 0%nat] true false].
Definition ev (id n : Z) (name : Z) : list dval := [DInt id; DInt n; DString [name]].
Definition er (vs : list dval) : list Z := match row_create zeros ecols vs [] (Some (DInt 0)) with Ok r => r | _ => [] end.
Definition v1 := ev 1 10 98.
Definition v2 := ev 2 5 97.
Definition v3 := ev 3 0 99.
Definition r1 := er v1.
Definition r2 := er v2.
Definition r3 := er v3.
Definition ep0 := mkpart 0 0 4096.
Definition ep1 := mkpart 1 4096 8192.
Definition emap : mapping := repeat (Some ep0) (Z.to_nat 4096) ++ repeat (Some ep1) (Z.to_nat 4096).
Definition et : table := mktable eidx emap
  [mktp ep0 [[r2]; [r2]; [r2]; [r2]]; mktp ep1 [[r1; r3]; [r3; r1]; [r1; r3]; [r3; r1]]].

Lemma emap_at h : map_at emap h = Some (if h mod PART_MAPPING_MAX <? 4096 then ep0 else ep1).
Proof.
  unfold map_at, emap. pose proof (Z.mod_pos_bound h PART_MAPPING_MAX ltac:(reflexivity)) as B. change PART_MAPPING_MAX with 8192 in *. set (z := h mod 8192) in *. clearbody z.
  assert (G : forall (p : part) n k, (k < n)%nat -> nth k (repeat (Some p) n) None = Some p) by (intros p n; induction n as [|n IH]; intros [|k] L; cbn [repeat nth]; [lia|lia|reflexivity|apply IH; lia]).
  assert (L : forall p : option part, length (repeat p (Z.to_nat 4096)) = Z.to_nat 4096) by (intros p; apply repeat_length).
  destruct (Z.ltb_spec z 4096).
  - rewrite app_nth1 by (rewrite L; lia). apply G. lia.
  - rewrite app_nth2 by (rewrite L; lia). apply G. rewrite L. lia.
Qed.
Lemma e_insert id n name : 0 <= id < 100 -> 0 <= n < 100 -> str_wf [name] = true -> insert_ok ecols [] (ev id n name) 0.
Proof.
  intros H1 H2 H3. split; [reflexivity|]. split; [unfold ecols; repeat (apply Forall_cons; [split; [cbn; tauto|cbn; intros; discriminate]|]); constructor|]. split; [vm_compute; lia|]. split; [repeat constructor|]. split; [|unfold small; cbn; lia].
  unfold meant_row, ecols, ev. cbn [combine map fst snd meant nth c_identity]. repeat apply Forall2_cons; try apply Forall2_nil; right; unfold holds; cbn [c_type c_size]; [unfold signed; lia|unfold signed; lia|exact H3].
Qed.
Lemma made1 : made ecols v1 r1.
Proof. exact (made_insert zeros ecols [] v1 0 (DInt 0) r1 zeros_ok (e_insert 1 10 98 ltac:(lia) ltac:(lia) eq_refl) eq_refl ltac:(vm_compute; reflexivity)). Qed.
Lemma made2 : made ecols v2 r2.
Proof. exact (made_insert zeros ecols [] v2 0 (DInt 0) r2 zeros_ok (e_insert 2 5 97 ltac:(lia) ltac:(lia) eq_refl) eq_refl ltac:(vm_compute; reflexivity)). Qed.
Lemma made3 : made ecols v3 r3.
Proof. exact (made_insert zeros ecols [] v3 0 (DInt 0) r3 zeros_ok (e_insert 3 0 99 ltac:(lia) ltac:(lia) eq_refl) eq_refl ltac:(vm_compute; reflexivity)). Qed.
Lemma e_keys x : In x eidx -> x_keys x <> [] /\ NoDup (x_keys x) /\ key_ok ecols (x_keys x).
Proof.
  intros H. assert (K : forall k, (k < 3)%nat -> exists c, nth_error ecols k = Some c /\ key_col c /\ c_not_null c = true).
  { intros [|[|[|k]]] L; try lia; (eexists; split; [reflexivity|split; [unfold key_col; cbn; tauto|reflexivity]]). }
  cbn in H. destruct H as [<-|[<-|[<-|[<-|[]]]]]; cbn [x_keys]; (split; [discriminate|split; [repeat constructor; cbn; lia|intros k Hk; apply K; cbn in Hk; lia]]).
Qed.
Lemma e_pair x va vb a b : made ecols va a -> made ecols vb b -> (if x_hash x then key_of (x_keys x) va <> key_of (x_keys x) vb else key_order_of (x_keys x) va vb = Lt) -> in_order ecols x [a; b].
Proof.
  intros Ma Mb H. unfold in_order. constructor; [|constructor; [constructor|constructor]]. constructor; [|constructor]. intros va' vb' Ma' Mb'. rewrite (made_fun _ _ _ _ Ma' Ma), (made_fun _ _ _ _ Mb' Mb). exact H.
Qed.
Lemma e_one x a : in_order ecols x [a].
Proof. unfold in_order. constructor; constructor. Qed.
Lemma e_where vs r p : made ecols vs r -> (do h <- row_hash ecols [0%nat] r; Ok (h mod PART_MAPPING_MAX <? 4096)) = Ok (p_id p =? 0) -> (p = ep0 \/ p = ep1) -> part_mapping_map emap ecols [0%nat] r = Ok (Some p).
Proof. intros M E Hp. unfold part_mapping_map. destruct (row_hash ecols [0%nat] r) as [h| |]; try discriminate. cbn [bind] in *. rewrite emap_at. injection E as ->. destruct Hp as [-> | ->]; reflexivity. Qed.
Lemma e_rows r : In r (rows_of et) -> exists vs, made ecols vs r.
Proof. cbn. intros [<-|[<-|[<-|[]]]]; eauto using made1, made2, made3. Qed.
Lemma et_ok : table_ok ecols et.
Proof.
  constructor.
  - discriminate.
  - exact e_keys.
  - cbn. lia.
  - change (primary et) with [0%nat]. change (t_map et) with emap. change (t_idx et) with eidx. intros tp [<-|[<-|[]]]; cbn [tp_rows tp_part hd].
    + split; [reflexivity|]. split; [intros [|[|[|[|i]]]] l E; cbn in E; try discriminate; try (injection E as <-; apply Permutation_refl); destruct i; discriminate|].
      split; [intros [|[|[|[|i]]]] x l Ex El; cbn in Ex, El; try (injection El as <-; apply e_one); destruct i; discriminate|].
      intros r [<-|[]]. exists v2, ep0. split; [exact made2|]. split; [|reflexivity]. eapply e_where; [exact made2|vm_compute; reflexivity|now left].
    + split; [reflexivity|]. split; [intros [|[|[|[|i]]]] l E; cbn in E; try discriminate; try (injection E as <-; apply Permutation_refl || apply perm_swap); destruct i; discriminate|].
      split.
      * intros [|[|[|[|i]]]] x l Ex El; cbn in Ex, El; try (destruct i; discriminate); injection Ex as <-; injection El as <-;
          [apply (e_pair _ v1 v3 _ _ made1 made3)|apply (e_pair _ v3 v1 _ _ made3 made1)|apply (e_pair _ v1 v3 _ _ made1 made3)|apply (e_pair _ v3 v1 _ _ made3 made1)]; cbn; congruence.
      * intros r [<-|[<-|[]]]; [exists v1, ep1|exists v3, ep1]; (split; [exact made1 || exact made3|]); (split; [|reflexivity]); (eapply e_where; [exact made1 || exact made3|vm_compute; reflexivity|now right]).
  - cbn. repeat constructor; cbn; intuition discriminate.
  - intros h. cbn [t_map et]. rewrite emap_at. eauto.
  - intros r vs _ _ x Hx k c z Hk Ec T. exfalso. clear -Ec T. destruct k as [|[|[|k]]]; cbn in Ec; try (injection Ec as <-; discriminate). destruct k; discriminate.
Qed.
