(** C01, C02: the ordered index. *)
From Coq Require Import Sorted.
From Verif Require Import Base RbModel RbProofs TreeModel TreeSpec TreeProofs.

Section Run.
Context {A : Type} (cmp : A -> A -> Z) (size_page size_split : nat).
Notation tree := (tree A).

Definition olist {B} (o : option B) : list B := match o with Some x => [x] | None => [] end.
(** the operations of TreeSpec.v on the model of the index; index_tree.c:21-104.
    Upsert returns the row the cursor is left on when the key exists (tree_iterator_open_at);
    Lookup is iterator open + at, when open reports a match *)
Definition run_op (t : tree) (o : op A) : res (tree * list A) :=
  match o with
  | Replace r => do (t', p) <- tree_replace A cmp size_page size_split t r; Ok (t', olist p)
  | Upsert r =>
    do (x, e) <- tree_upsert A cmp size_page size_split t r;
    let '(t', a) := x in
    do y <- row_at A t' a; Ok (t', if (e : bool) then [y] else [])
  | Delete k => do (t', p) <- tree_delete_by A cmp t k; Ok (t', olist p)
  | Lookup k => do (it, m) <- iter_open A cmp t (Some k); Ok (t, if (m : bool) then olist (i_current A it) else [])
  | Scan => do l <- scan A cmp t None; Ok (t, l)
  | DeleteWhere d => delete_scan A cmp t d
  end.
Fixpoint run (t : tree) (os : list (op A)) : res (tree * list (list A)) :=
  match os with
  | [] => Ok (t, [])
  | o :: os' => do (t1, r) <- run_op t o; do (t2, rs) <- run t1 os'; Ok (t2, r :: rs)
  end.
End Run.

Section Proofs.
Context {A : Type} (cmp : A -> A -> Z) (size_page size_split : nat).
Hypothesis HO : key_order cmp.
Hypothesis HT : three_valued cmp.
Hypothesis HS : (1 <= size_split < size_page)%nat.
Notation tree := (tree A).
Notation inv := (inv A cmp size_page).
Notation flat := (flat A).

Lemma c_opp a b : cmp b a = - cmp a b.
Proof. pose proof (ko_opp _ HO a b) as H. destruct (HT a b) as [E|[E|E]], (HT b a) as [F|[F|F]]; rewrite E, F in *; cbn in H; lia. Qed.
Let c_trans := ko_trans _ HO.

Lemma filter_all {B} (f : B -> bool) l : (forall x, In x l -> f x = true) -> filter f l = l.
Proof. induction l as [|a l IH]; intros H; [reflexivity|]. cbn [filter]. rewrite (H a) by now left. f_equal. apply IH. intros x Hx. apply H. now right. Qed.
Lemma filter_none {B} (f : B -> bool) l : (forall x, In x l -> f x = false) -> filter f l = [].
Proof. induction l as [|a l IH]; intros H; [reflexivity|]. cbn [filter]. rewrite (H a) by now left. apply IH. intros x Hx. apply H. now right. Qed.

Lemma split_filters key pre post : around A cmp key pre post ->
  below cmp key (pre ++ post) = pre /\ above cmp key (pre ++ post) = post /\ same cmp key (pre ++ post) = [].
Proof.
  intros [H1 H2]. unfold below, above, same. rewrite !filter_app.
  assert (P : forall x, In x post -> 0 < cmp x key) by (intros x Hx; pose proof (H2 x Hx); pose proof (c_opp key x); lia).
  rewrite (filter_all _ pre), (filter_none _ post), (filter_none _ pre), (filter_all _ post), (filter_none _ pre), (filter_none _ post);
    try (intros x Hx; try specialize (H1 x Hx); try specialize (P x Hx); lia).
  now rewrite app_nil_r.
Qed.
Lemma split_filters1 key pre y post : cmp y key = 0 -> around A cmp key pre post ->
  below cmp key (pre ++ y :: post) = pre /\ above cmp key (pre ++ y :: post) = post /\ same cmp key (pre ++ y :: post) = [y]
  /\ filter (fun r => negb (cmp r key =? 0)) (pre ++ y :: post) = pre ++ post.
Proof.
  intros Hy [H1 H2]. unfold below, above, same. rewrite !filter_app. cbn [filter]. rewrite Hy. cbn [Z.ltb Z.eqb Z.compare negb].
  assert (P : forall x, In x post -> 0 < cmp x key) by (intros x Hx; pose proof (H2 x Hx); pose proof (c_opp key x); lia).
  rewrite (filter_all (fun r => cmp r key <? 0) pre), (filter_none _ post), (filter_none (fun r => 0 <? cmp r key) pre), (filter_all _ post),
    (filter_none (fun r => cmp r key =? 0) pre), (filter_none _ post), (filter_all _ pre), (filter_all _ post);
    try (intros x Hx; try specialize (H1 x Hx); try specialize (P x Hx); lia).
  now rewrite app_nil_r.
Qed.
Lemma del_none key pre post : around A cmp key pre post -> filter (fun r => negb (cmp r key =? 0)) (pre ++ post) = pre ++ post.
Proof.
  intros [H1 H2]. apply filter_all. intros x Hx. apply in_app_or in Hx. destruct Hx as [Hx|Hx]; [specialize (H1 x Hx); lia|].
  pose proof (H2 x Hx); pose proof (c_opp key x); lia.
Qed.

Lemma run_op_ok t o : inv t ->
  exists t' r, run_op cmp size_page size_split t o = Ok (t', r) /\ inv t' /\ (flat t', r) = spec_op cmp (flat t) o.
Proof.
  intros Hi. destruct o as [r|r|k|k| |d]; cbn [run_op spec_op].
  - destruct (tree_replace_ok A cmp size_page size_split c_opp c_trans HT HS t r Hi) as (t' & p & E1 & Hi' & pre & post & Har & Hf' & Hp).
    rewrite E1. cbn [bind]. eexists _, _. split; [reflexivity|]. split; [exact Hi'|]. rewrite Hf'. destruct p as [y|].
    + destruct Hp as [Hy Hf]. rewrite Hf. destruct (split_filters1 r pre y post Hy Har) as (-> & -> & -> & _). reflexivity.
    + rewrite Hp. destruct (split_filters r pre post Har) as (-> & -> & ->). reflexivity.
  - destruct (tree_upsert_ok A cmp size_page size_split c_opp c_trans HT HS t r Hi) as (t' & a & e & E1 & Hi' & pre & y & post & AP & Har & He).
    rewrite E1. cbn [bind]. rewrite (at_pos_row A cmp size_page size_split c_opp c_trans HT HS _ _ _ _ _ AP). cbn [bind]. eexists _, _. split; [reflexivity|]. split; [exact Hi'|].
    rewrite (at_pos_flat _ _ _ _ _ _ AP). destruct e.
    + destruct He as [-> Hy]. rewrite (at_pos_flat _ _ _ _ _ _ AP). destruct (split_filters1 r pre y post Hy Har) as (_ & _ & -> & _). reflexivity.
    + destruct He as [-> Hf]. rewrite Hf. destruct (split_filters r pre post Har) as (-> & -> & ->). reflexivity.
  - destruct (tree_delete_by_ok A cmp size_page size_split c_opp c_trans HT HS t k Hi) as (t' & p & E1 & Hi' & pre & post & Har & Hf' & Hp).
    rewrite E1. cbn [bind]. eexists _, _. split; [reflexivity|]. split; [exact Hi'|]. rewrite Hf'. destruct p as [y|].
    + destruct Hp as [Hy Hf]. rewrite Hf. destruct (split_filters1 k pre y post Hy Har) as (_ & _ & -> & ->). reflexivity.
    + rewrite Hp in Hf'. rewrite Hf'. destruct (split_filters k pre post Har) as (_ & _ & ->). now rewrite del_none.
  - destruct (flat t) as [|z zs] eqn:Ef.
    + unfold iter_open. rewrite (inv_count _ _ _ _ Hi), Ef. cbn. eexists _, _. split; [reflexivity|]. split; [exact Hi|]. now rewrite Ef.
    + destruct (iter_open_key A cmp size_page size_split c_opp c_trans HT HS t k Hi) as (pa & pg & pb & _ & Hpg & Hcov & it & m & E1 & HC); [congruence|].
      rewrite E1. cbn [bind]. eexists _, _. split; [reflexivity|]. split; [exact Hi|]. rewrite Ef. f_equal. rewrite <- Ef.
      destruct HC as [(_ & (pre & HR) & Hm)|(Hlt & _ & ->)].
      * (* the rows from k on; the first one decides *)
        pose proof (inv_sorted _ _ _ _ Hi) as Hs.
        assert (G : forall l, sorted A cmp l -> existsb (fun r => cmp r k =? 0) l = true ->
                  exists y l', filter (fun r => 0 <=? cmp r k) l = y :: l' /\ same cmp k l = [y]).
        { induction l as [|x l IH]; intros Sl Hx; [discriminate|]. inversion Sl as [|? ? Sl' Hfa]; subst. rewrite Forall_forall in Hfa.
          unfold same in *. cbn [filter existsb] in *. destruct (Z_lt_le_dec (cmp x k) 0).
          - replace (0 <=? cmp x k) with false by lia. replace (cmp x k =? 0) with false in * by lia. now apply IH.
          - destruct (cmp x k =? 0) eqn:Ex.
            + replace (0 <=? cmp x k) with true by lia. eexists _, _. split; [reflexivity|]. f_equal. apply filter_none.
              intros w Hw. pose proof (lt_le_trans A cmp size_page size_split c_opp c_trans HT HS x w k (Hfa w Hw)). destruct (cmp w k =? 0) eqn:Ew; [|reflexivity].
              specialize (H ltac:(lia)). lia.
            + cbn [orb] in Hx. exfalso. apply existsb_exists in Hx. destruct Hx as (w & Hw & Hx).
              pose proof (lt_le_trans A cmp size_page size_split c_opp c_trans HT HS x w k (Hfa w Hw) ltac:(lia)). lia. }
        assert (G2 : existsb (fun r => cmp r k =? 0) (flat t) = false -> same cmp k (flat t) = []).
        { intros He. apply filter_none. intros w Hw. destruct (cmp w k =? 0) eqn:Ew; [|reflexivity].
          rewrite (proj2 (existsb_exists _ _) (ex_intro _ w (conj Hw Ew))) in He. discriminate. }
        rewrite Hm. destruct (existsb (fun r => cmp r k =? 0) (flat t)) eqn:He; [|now rewrite G2].
        destruct (G (flat t) Hs He) as (y & l' & F1 & F2). rewrite F1 in HR. cbn [it_rest] in HR. destruct HR as (a & -> & _).
        cbn [i_current olist]. now rewrite F2.
      * symmetry. apply filter_none. intros w Hw. unfold TreeProofs.flat in Hw. rewrite Hpg, concat_app in Hw. cbn [concat] in Hw.
        destruct Hcov as [Ha Hb]. apply in_app_or in Hw. destruct Hw as [Hw|Hw]; [specialize (Ha w Hw); lia|].
        apply in_app_or in Hw. destruct Hw as [Hw|Hw]; [specialize (Hlt w Hw); lia|]. specialize (Hb w Hw). pose proof (c_opp k w). lia.
  - rewrite (scan_all A cmp size_page size_split c_opp c_trans HT HS t Hi). cbn [bind]. eexists _, _. split; [reflexivity|]. now split.
  - destruct (delete_scan_ok A cmp size_page size_split c_opp c_trans HT HS t d Hi) as (t' & E1 & Hi' & Hf). rewrite E1. eexists _, _. split; [reflexivity|].
    split; [exact Hi'|]. now rewrite Hf.
Qed.

Lemma run_ok os : forall t, inv t ->
  exists t' rs, run cmp size_page size_split t os = Ok (t', rs) /\ inv t' /\ (flat t', rs) = spec_run cmp (flat t) os.
Proof.
  induction os as [|o os IH]; intros t Hi; cbn [run spec_run].
  - eexists _, _. split; [reflexivity|]. now split.
  - destruct (run_op_ok t o Hi) as (t1 & r & E1 & Hi1 & S1). rewrite E1. cbn [bind].
    destruct (IH t1 Hi1) as (t2 & rs & E2 & Hi2 & S2). rewrite E2. cbn [bind]. eexists _, _. split; [reflexivity|].
    split; [exact Hi2|]. rewrite <- S1, <- S2. reflexivity.
Qed.
End Proofs.

(** ** an index that fits one page: only the sign of the comparison matters *)
Section Small.
Context {A : Type} (cmp : A -> A -> Z) (size_page size_split : nat).
Hypothesis HO : key_order cmp.
Hypothesis HS : (1 <= size_split < size_page)%nat.
Notation tree := (tree A).
Definition ncmp (a b : A) : Z := Z.sgn (cmp a b).

Lemma sgn_ltb z : (Z.sgn z <? 0) = (z <? 0). Proof. destruct z; reflexivity. Qed.
Lemma sgn_gtb z : (0 <? Z.sgn z) = (0 <? z). Proof. destruct z; reflexivity. Qed.
Lemma sgn_eqb z : (Z.sgn z =? 0) = (z =? 0). Proof. destruct z; reflexivity. Qed.
Lemma sgn_le z : Z.sgn z <= 0 <-> z <= 0. Proof. destruct z; cbn; lia. Qed.

Lemma ncmp_order : key_order ncmp.
Proof.
  split; unfold ncmp.
  - intros a b. rewrite (ko_opp _ HO a b). now destruct (Z.sgn (cmp a b)).
  - intros a b c. rewrite !sgn_le. apply (ko_trans _ HO).
Qed.
Lemma ncmp_three : three_valued ncmp.
Proof. intros a b. unfold ncmp. destruct (cmp a b); cbn; auto. Qed.

Lemma n_opp a b : ncmp b a = - ncmp a b.
Proof. apply (ko_opp _ HO). Qed.

Lemma search_loop_sgn page key : forall fuel min max,
  search_loop A cmp fuel page key min max = search_loop A ncmp fuel page key min max.
Proof.
  induction fuel as [|f IH]; intros min max; [reflexivity|]. cbn [search_loop].
  destruct (min <=? max); [|reflexivity]. destruct (nth_error page _) as [r|]; [|reflexivity].
  cbv zeta. change (ncmp r key) with (Z.sgn (cmp r key)). rewrite sgn_ltb, sgn_gtb, !IH. reflexivity.
Qed.
Lemma tree_search_sgn page key : tree_search A cmp page key = tree_search A ncmp page key.
Proof. unfold tree_search. now rewrite search_loop_sgn. Qed.

Definition one (t : tree) : Prop := t_rb A t = E \/ exists p, t_rb A t = T Black E p E.

Lemma page_index_sgn t key : one t -> page_index A cmp t key = page_index A ncmp t key.
Proof.
  unfold page_index, search_for_write. intros [->|(p & ->)]; [reflexivity|].
  cbn [rb_get]. destruct p as [|m p]; [reflexivity|]. cbn [tree_compare bind].
  change (ncmp m key) with (Z.sgn (cmp m key)). rewrite sgn_ltb, sgn_gtb.
  destruct (cmp m key <? 0), (0 <? cmp m key); cbn [bind rb_prev up_while];
    destruct (cmp m key =? 1), (Z.sgn (cmp m key) =? 1); reflexivity.
Qed.

(** the page of a small index *)
Lemma set_page_one t p i v : t_rb A t = T Black E p E -> (i < 1)%nat -> set_page A (t_rb A t) i v = Ok (T Black E v E).
Proof. intros -> Hi. destruct i; [reflexivity|lia]. Qed.

(* a page position inside a one page tree *)
Lemma get_page_one t i p : one t -> get_page A t i = Ok p -> i = 0%nat /\ t_rb A t = T Black E p E.
Proof.
  unfold get_page, pages. intros [->|(q & E0)].
  - destruct i; discriminate.
  - rewrite E0. cbn [inorder app]. destruct i as [|i]; [cbn; intros H; injection H as ->; now split|].
    cbn [nth_error]. destruct i; discriminate.
Qed.

Lemma tree_set_one t a key p : one t -> get_page A t (p_page a) = Ok p -> (length p < size_page)%nat ->
  exists t', tree_set A cmp size_page size_split t a key = Ok (t', a) /\ tree_set A ncmp size_page size_split t a key = Ok (t', a) /\ one t'.
Proof.
  intros Ho Hg Hl. unfold tree_set. rewrite Hg. cbn [bind]. replace (length p =? size_page)%nat with false by lia.
  destruct (get_page_one t _ p Ho Hg) as [Ha Hr]. rewrite (set_page_one t p) by (auto; lia). cbn [bind].
  eexists. split; [reflexivity|]. split; [reflexivity|]. right. eexists. reflexivity.
Qed.

Lemma flat_one t p : t_rb A t = T Black E p E -> flat A t = p.
Proof. intros E0. unfold flat, pages. rewrite E0. cbn. apply app_nil_r. Qed.

Lemma bind_ok {X Y} (m : res X) (f : X -> res Y) y : bind m f = Ok y -> exists x, m = Ok x /\ f x = Ok y.
Proof. destruct m as [x| |]; cbn [bind]; intros H; [now exists x|discriminate|discriminate]. Qed.

(** insertion, when the outcome of the normalised comparison leaves at most one page *)
Lemma upsert_sgn t key t' a e : one t -> inv A ncmp size_page t ->
  tree_upsert A ncmp size_page size_split t key = Ok (t', a, e) -> (length (flat A t') <= size_page)%nat ->
  tree_upsert A cmp size_page size_split t key = Ok (t', a, e) /\ one t'.
Proof.
  intros Ho Hi H Hl.
  destruct (tree_upsert_ok A ncmp size_page size_split n_opp (ko_trans _ ncmp_order) ncmp_three HS t key Hi)
    as (t2 & a2 & e2 & H2 & Hi2 & pre & y & post & AP & Har & He).
  rewrite H in H2. injection H2 as <- <- <-. pose proof (at_pos_flat _ _ _ _ _ _ AP) as Hf'.
  unfold tree_upsert in *. destruct (count_pages A t =? 0).
  - split; [exact H|]. cbn [rb_set set_fixup bind paint] in H. injection H as <- _ _. right. eexists. reflexivity.
  - rewrite page_index_sgn by exact Ho. destruct (page_index A ncmp t key) as [i| |]; cbn [bind] in *; try discriminate.
    destruct (get_page A t i) as [p| |] eqn:Hg; cbn [bind] in *; try discriminate.
    rewrite tree_search_sgn. destruct (tree_search A ncmp p key) as [[q m]| |]; cbn [bind] in *; try discriminate.
    destruct m.
    + split; [exact H|]. now injection H as <- _ _.
    + destruct (tree_set A ncmp size_page size_split t {| p_page := i; p_at := q |} key) as [[t3 a3]| |] eqn:Es; cbn [bind] in H; try discriminate.
      injection H as -> -> <-. destruct He as [-> Hf]. destruct (get_page_one t _ p Ho Hg) as [Hi0 Hr].
      rewrite Hf', app_length in Hl. cbn [length] in Hl.
      assert (Hlp : (length p < size_page)%nat) by (rewrite <- (flat_one t p Hr), Hf, app_length; lia).
      destruct (tree_set_one t {| p_page := i; p_at := q |} key p Ho Hg Hlp) as (t4 & E4 & E5 & O4).
      rewrite Es in E5. injection E5 as <- E5. rewrite E4. cbn [bind]. split; [now rewrite <- E5|exact O4].
Qed.

Lemma put_at_one t a key t' y : one t -> put_at A t a key = Ok (t', y) -> one t'.
Proof.
  intros Ho. unfold put_at. destruct (get_page A t (p_page a)) as [p| |] eqn:Hg; cbn [bind]; try discriminate.
  destruct (nth_error p (p_at a)); try discriminate. destruct (get_page_one t _ p Ho Hg) as [Ha Hr].
  rewrite (set_page_one t p) by (auto; lia). cbn [bind]. intros H. injection H as <- _. right. eexists. reflexivity.
Qed.
Lemma delete_one t a t' np : one t -> tree_delete A t a = Ok (t', np) -> one t'.
Proof.
  intros Ho. unfold tree_delete. destruct (get_page A t (p_page a)) as [p| |] eqn:Hg; cbn [bind]; try discriminate.
  destruct (nth_error p (p_at a)); try discriminate. destruct (get_page_one t _ p Ho Hg) as [Ha Hr]. rewrite Ha in *.
  unfold page_next. rewrite (set_page_one t p) by (auto; lia). rewrite Hr. cbn [locate size Nat.ltb Nat.leb Nat.eqb bind rb_remove is_red del_fixup paint].
  destruct (length _ =? 0)%nat; intros H; injection H as <- _; [now left|right; eexists; reflexivity].
Qed.
Lemma delete_by_sgn t key t' r : one t -> tree_delete_by A ncmp t key = Ok (t', r) ->
  tree_delete_by A cmp t key = Ok (t', r) /\ one t'.
Proof.
  intros Ho H. unfold tree_delete_by in *. destruct (count_pages A t =? 0); [split; [exact H|now injection H as <- _]|].
  rewrite page_index_sgn by exact Ho. destruct (page_index A ncmp t key) as [i| |]; cbn [bind] in *; try discriminate.
  destruct (get_page A t i) as [p| |] eqn:Hg; cbn [bind] in *; try discriminate.
  rewrite tree_search_sgn. destruct (tree_search A ncmp p key) as [[q m]| |]; cbn [bind] in *; try discriminate.
  split; [exact H|]. destruct m; [|now injection H as <- _].
  destruct (nth_error p q); [|discriminate]. apply bind_ok in H. destruct H as ([t2 np] & H1 & H2). injection H2 as <- _.
  eapply delete_one; eassumption.
Qed.
Lemma open_sgn t key : one t -> iter_open A cmp t key = iter_open A ncmp t key.
Proof.
  intros Ho. unfold iter_open, tree_get. destruct (count A t =? 0); [reflexivity|].
  destruct (count_pages A t =? 0); [reflexivity|]. destruct key as [k|]; [|reflexivity].
  rewrite page_index_sgn by exact Ho. destruct (page_index A ncmp t k) as [i| |]; cbn [bind]; try reflexivity.
  destruct (get_page A t i) as [p| |] eqn:Hg; cbn [bind]; try reflexivity. now rewrite tree_search_sgn.
Qed.
Lemma delete_walk_one d : forall fuel t it t' l, one t -> delete_walk A fuel d t it = Ok (t', l) -> one t'.
Proof.
  induction fuel as [|f IH]; intros t it t' l Ho; cbn [delete_walk].
  - destruct (i_current A it); [discriminate|]. intros H; now injection H as <- _.
  - destruct (i_current A it) as [r|]; [|intros H; now injection H as <- _]. destruct (d r); intros H.
    + apply bind_ok in H. destruct H as ([[t1 it1] y] & H1 & H). apply bind_ok in H. destruct H as (it2 & H2 & H).
      apply bind_ok in H. destruct H as ([t2 l2] & H3 & H). injection H as <- _. eapply IH; [|exact H3].
      unfold iter_delete in H1. destruct (i_pos A it) as [a|]; [|discriminate]. apply bind_ok in H1. destruct H1 as (z & _ & H1).
      apply bind_ok in H1. destruct H1 as ([t3 np] & H1 & H4). destruct (i_repos A it); [discriminate|]. injection H4 as <- _ _.
      eapply delete_one; eassumption.
    + apply bind_ok in H. destruct H as (it2 & H2 & H). apply bind_ok in H. destruct H as ([t2 l2] & H3 & H). injection H as <- _. eapply IH; eassumption.
Qed.

Lemma run_op_sgn t o t' r : one t -> inv A ncmp size_page t ->
  run_op ncmp size_page size_split t o = Ok (t', r) -> (length (flat A t') <= size_page)%nat ->
  run_op cmp size_page size_split t o = Ok (t', r) /\ one t'.
Proof.
  intros Ho Hi H Hl. destruct o as [k|k|k|k| |d]; cbn [run_op] in *.
  - apply bind_ok in H. destruct H as ([t1 p] & H & H1). injection H1 as -> <-.
    unfold tree_replace in *. apply bind_ok in H. destruct H as ([[t2 a] e] & H & H1).
    destruct (tree_upsert_ok A ncmp size_page size_split n_opp (ko_trans _ ncmp_order) ncmp_three HS t k Hi)
      as (t3 & a3 & e3 & H3 & Hi3 & pre & y & post & AP & Har & He).
    rewrite H in H3. injection H3 as <- <- <-.
    assert (Hl2 : (length (flat A t2) <= size_page)%nat).
    { destruct e; [|now injection H1 as -> _].
      destruct (put_at_ok A ncmp size_page size_split n_opp (ko_trans _ ncmp_order) ncmp_three HS t2 a pre y post k Hi3 AP Har) as (t5 & E5 & _ & AP5).
      rewrite E5 in H1. cbn [bind] in H1. injection H1 as <- _. rewrite (at_pos_flat _ _ _ _ _ _ AP5), app_length in Hl.
      rewrite (at_pos_flat _ _ _ _ _ _ AP), app_length. exact Hl. }
    destruct (upsert_sgn t k t2 a e Ho Hi H Hl2) as [H4 O2]. rewrite H4. cbn [bind]. rewrite H1. cbn [bind]. split; [reflexivity|].
    destruct e; [|now injection H1 as <- _]. apply bind_ok in H1. destruct H1 as ([t5 y5] & H5 & H6). injection H6 as <- _. eapply put_at_one; eassumption.
  - apply bind_ok in H. destruct H as ([[t2 a] e] & H & H1). cbv beta iota in H1. apply bind_ok in H1. destruct H1 as (y & H1 & H2). injection H2 as <- <-.
    destruct (upsert_sgn t k t2 a e Ho Hi H Hl) as [H4 O2]. rewrite H4. cbn [bind]. rewrite H1. now split.
  - apply bind_ok in H. destruct H as ([t1 p] & H & H1). injection H1 as -> <-. destruct (delete_by_sgn t k t' p Ho H) as [-> O]. now split.
  - rewrite open_sgn by exact Ho. split; [exact H|]. apply bind_ok in H. destruct H as ([it m] & _ & H). now injection H as <- _.
  - unfold scan in *. rewrite open_sgn by exact Ho. split; [exact H|]. apply bind_ok in H. destruct H as (l & _ & H). now injection H as <- _.
  - unfold delete_scan in *. rewrite open_sgn by exact Ho. split; [exact H|]. apply bind_ok in H. destruct H as ([it m] & _ & H).
    eapply delete_walk_one; eassumption.
Qed.

Lemma spec_sgn m o : spec_op cmp m o = spec_op ncmp m o.
Proof.
  assert (F : forall f g : A -> bool, (forall x, f x = g x) -> forall l, filter f l = filter g l) by (intros; now apply filter_ext).
  assert (F1 : forall k l, same cmp k l = same ncmp k l) by (intros; apply F; intros; unfold ncmp; now rewrite sgn_eqb).
  assert (F2 : forall k l, below cmp k l = below ncmp k l) by (intros; apply F; intros; unfold ncmp; now rewrite sgn_ltb).
  assert (F3 : forall k l, above cmp k l = above ncmp k l) by (intros; apply F; intros; unfold ncmp; now rewrite sgn_gtb).
  destruct o; cbn [spec_op]; rewrite ?F1, ?F2, ?F3; try reflexivity.
  f_equal. apply F. intros x. unfold ncmp. now rewrite sgn_eqb.
Qed.

(** the index never holds more than [n] rows *)
Fixpoint fits (n : nat) (m : list A) (os : list (op A)) : Prop :=
  match os with [] => True | o :: os' => let m1 := fst (spec_op cmp m o) in (length m1 <= n)%nat /\ fits n m1 os' end.

Lemma run_small os : forall t, one t -> inv A ncmp size_page t -> fits size_page (flat A t) os ->
  exists t' rs, run cmp size_page size_split t os = Ok (t', rs) /\ inv A ncmp size_page t' /\ (flat A t', rs) = spec_run cmp (flat A t) os.
Proof.
  induction os as [|o os IH]; intros t Ho Hi Hf; cbn [run spec_run].
  - eexists _, _. split; [reflexivity|]. now split.
  - cbn [fits] in Hf. destruct Hf as [Hl Hf].
    destruct (run_op_ok ncmp size_page size_split ncmp_order ncmp_three HS t o Hi) as (t1 & r & E1 & Hi1 & S1).
    rewrite <- spec_sgn in S1. rewrite <- S1 in Hl, Hf. cbn [fst] in Hl, Hf.
    destruct (run_op_sgn t o t1 r Ho Hi E1 Hl) as [E2 O1]. rewrite E2. cbn [bind].
    destruct (IH t1 O1 Hi1 Hf) as (t2 & rs & E3 & Hi2 & S2). rewrite E3. cbn [bind]. eexists _, _. split; [reflexivity|].
    split; [exact Hi2|]. rewrite <- S1. rewrite <- S2. reflexivity.
Qed.
End Small.

(** ** C01 *)
(** An index whose key comparison returns -1, 0 or 1 (integer, timestamp, date, uuid keys
    and composite keys of these) is the map of TreeSpec.v for every history: no operation
    fails, every result is the expected one, and the rows are in key order. *)
Theorem C01_ordered_index_map_partial {A} (cmp : A -> A -> Z) size_page size_split (os : list (op A)) :
  key_order cmp -> three_valued cmp -> (1 <= size_split < size_page)%nat ->
  exists t, run cmp size_page size_split (tree_init A) os = Ok (t, snd (spec_run cmp [] os))
    /\ scan A cmp t None = Ok (fst (spec_run cmp [] os))
    /\ ordered cmp (fst (spec_run cmp [] os))
    /\ count A t = Z.of_nat (length (fst (spec_run cmp [] os))).
Proof.
  intros HO HT HS. destruct (run_ok cmp size_page size_split HO HT HS os (tree_init A)) as (t & rs & E1 & Hi & Hsp).
  { apply inv_init. }
  change (flat A (tree_init A)) with (@nil A) in Hsp. rewrite <- Hsp. cbn [fst snd]. exists t.
  split; [exact E1|]. split.
  - apply (scan_all A cmp size_page size_split (c_opp cmp size_page size_split HO HT HS) (ko_trans _ HO) HT HS t Hi).
  - split; [apply Hi|apply Hi].
Qed.
Print Assumptions C01_ordered_index_map_partial.

(* lib/misc.h:20-24 compare_int64 *)
Definition compare_int64 (a b : Z) : Z := Z.b2z (b <? a) - Z.b2z (a <? b).
Example C01_nonvacuous : key_order compare_int64 /\ three_valued compare_int64.
Proof.
  unfold three_valued, compare_int64. repeat split; intros.
  - destruct (b <? a) eqn:E1, (a <? b) eqn:E2; cbn; lia.
  - destruct (b <? a) eqn:E1, (a <? b) eqn:E2, (c <? b) eqn:E3, (b <? c) eqn:E4; cbn in *;
      destruct (c <? a) eqn:E5, (a <? c) eqn:E6; cbn; lia.
  - destruct (b <? a) eqn:E1, (a <? b) eqn:E2; cbn; lia.
Qed.
(* several splits, removal of a page *)
Example C01_nonvacuous_run :
  match run compare_int64 4 2 (tree_init Z) (map (fun i => Replace (7 * i mod 23)) [1;2;3;4;5;6;7;8;9;10;11;12] ++ [DeleteWhere (fun x => x <? 12)]) with
  | Ok (t, _) => pages Z t = [[12; 14; 15]; [17; 19; 21]]
  | _ => False
  end.
Proof. vm_compute. reflexivity. Qed.

(** C01 for any comparison, as long as the index fits one page (512 rows) *)
Theorem C01_small_index_partial {A} (cmp : A -> A -> Z) size_page size_split (os : list (op A)) :
  key_order cmp -> (1 <= size_split < size_page)%nat -> fits cmp size_page [] os ->
  exists t, run cmp size_page size_split (tree_init A) os = Ok (t, snd (spec_run cmp [] os)).
Proof.
  intros HO HS Hf. destruct (run_small cmp size_page size_split HO HS os (tree_init A)) as (t & rs & E1 & Hi & Hsp).
  { now left. }
  { apply inv_init. }
  { exact Hf. }
  change (flat A (tree_init A)) with (@nil A) in Hsp. rewrite <- Hsp. cbn [fst snd]. now exists t.
Qed.
Print Assumptions C01_small_index_partial.
Example C01_small_nonvacuous : fits (fun a b => a - b) 512 [] [Replace 10; Replace 30; Replace 20; Delete 30] /\ key_order (fun a b => a - b).
Proof. split; [cbn; lia|]. split; intros; lia. Qed.

(** C01 does not hold for string keys.  runtime/base/str.h:169-183 str_compare_fn returns the
    value of memcmp(), of which C fixes only the sign; glibc returns the difference of the
    first differing bytes.  tree.c:94 compares the result of the descent with 1. *)
Fixpoint memcmp (a b : list Z) : Z :=
  match a, b with x :: a', y :: b' => if x =? y then memcmp a' b' else x - y | _, _ => 0 end.
Definition str_compare_fn (a b : list Z) : Z :=
  let n := Nat.min (length a) (length b) in
  let rc := memcmp (firstn n a) (firstn n b) in
  if rc =? 0 then Z.b2z (length b <? length a)%nat - Z.b2z (length a <? length b)%nat else rc.
(* strings "@@", "@A", ... in ascending order *)
Definition key2 (i : nat) : list Z := [64 + Z.of_nat (i / 60); 64 + Z.of_nat (i mod 60)].
(* 513 rows are inserted with distinct keys; the row with key "AA" is not found, and a
   second row with this key is accepted *)
Theorem C01_string_keys_refuted :
  let ks := map key2 (seq 0 513) in
  match run str_compare_fn 512 256 (tree_init _) (map Replace ks ++ [Lookup (key2 61); Replace (key2 61); Scan]) with
  | Ok (_, outs) =>
      In (key2 61) ks /\ nth 513 outs [[0]] = [] /\ nth 514 outs [[0]] = []
      /\ length (filter (fun k => str_compare_fn k (key2 61) =? 0) (nth 515 outs [])) = 2%nat
  | _ => False
  end.
Proof. vm_compute. repeat split. do 61 right. now left. Qed.
Print Assumptions C01_string_keys_refuted.

(** ** C02 *)
(** 513 rows 0, 10, 20, ...: a scan from 2555 returns nothing, although 2560, ... exist *)
Theorem C02_range_scan_refuted :
  match run compare_int64 512 256 (tree_init Z) (map (fun i => Replace (10 * Z.of_nat i)) (seq 0 513)) with
  | Ok (t, _) => scan Z compare_int64 t (Some 2555) = Ok []
                 /\ length (from compare_int64 2555 (flat Z t)) = 257%nat
  | _ => False
  end.
Proof. vm_compute. now split. Qed.
Print Assumptions C02_range_scan_refuted.

(** What holds: a scan from a key returns every row from the key on, in order, or nothing
    at all; it is complete if the key is in the index, and whenever some page holds both a
    row below or equal to the key and a row not below it -- in particular for one page. *)
Lemma scan_from {A} (cmp : A -> A -> Z) size_page size_split t k :
  key_order cmp -> three_valued cmp -> (1 <= size_split < size_page)%nat -> inv A cmp size_page t ->
  (scan A cmp t (Some k) = Ok (from cmp k (flat A t)) \/ scan A cmp t (Some k) = Ok [])
  /\ (same cmp k (flat A t) <> [] -> scan A cmp t (Some k) = Ok (from cmp k (flat A t)))
  /\ ((length (pages A t) <= 1)%nat -> scan A cmp t (Some k) = Ok (from cmp k (flat A t))).
Proof.
  intros HO HT HS Hi.
  pose proof (c_opp cmp size_page size_split HO HT HS) as Hopp. pose proof (ko_trans _ HO) as Htr.
  destruct (flat A t) as [|z zs] eqn:Ef.
  { assert (scan A cmp t (Some k) = Ok []).
    { unfold scan, iter_open. rewrite (inv_count _ _ _ _ Hi), Ef. reflexivity. }
    repeat split; intros; auto. }
  rewrite <- Ef. assert (Hne : flat A t <> []) by congruence.
  destruct (iter_open_key A cmp size_page size_split Hopp Htr HT HS t k Hi Hne) as (pa & pg & pb & _ & Hpg & Hcov & it & m & E1 & HC).
  unfold scan. rewrite E1. cbn [bind]. rewrite (inv_count _ _ _ _ Hi), Nat2Z.id.
  destruct HC as [(_ & (pre & HR) & _)|(Hlt & Hend & _)].
  - assert (HW : walk A (length (flat A t)) t it = Ok (from cmp k (flat A t))).
    { eapply walk_ok; eauto. unfold from. clear. induction (flat A t) as [|a l IH]; cbn [filter length]; [lia|]. destruct (0 <=? cmp a k); cbn [length]; lia. }
    rewrite HW. repeat split; intros; auto.
  - assert (HW : walk A (length (flat A t)) t it = Ok []) by (rewrite Hend; destruct (length (flat A t)); reflexivity).
    rewrite HW. split; [now right|]. destruct Hcov as [Ha Hb].
    assert (Hfl : flat A t = concat pa ++ pg ++ concat pb) by (unfold flat; rewrite Hpg, concat_app; reflexivity).
    split.
    + intros Hs. exfalso. apply Hs. unfold same. apply filter_none. intros x Hx. rewrite Hfl in Hx.
      apply in_app_or in Hx. destruct Hx as [Hx|Hx]; [specialize (Ha x Hx); lia|].
      apply in_app_or in Hx. destruct Hx as [Hx|Hx]; [specialize (Hlt x Hx); lia|]. specialize (Hb x Hx). pose proof (Hopp k x). lia.
    + intros Hone. rewrite Hpg, app_length in Hone. cbn [length] in Hone.
      destruct pa; [|cbn [length] in Hone; lia]. destruct pb; [|cbn [length] in Hone; lia].
      rewrite Hfl. cbn [concat app]. rewrite app_nil_r. unfold from. rewrite filter_none; [reflexivity|].
      intros x Hx. specialize (Hlt x Hx). lia.
Qed.

Theorem C02_range_scan_partial {A} (cmp : A -> A -> Z) size_page size_split (os : list (op A)) k t outs :
  key_order cmp -> three_valued cmp -> (1 <= size_split < size_page)%nat ->
  run cmp size_page size_split (tree_init A) os = Ok (t, outs) ->
  let rows := fst (spec_run cmp [] os) in
  (scan A cmp t (Some k) = Ok (from cmp k rows) \/ scan A cmp t (Some k) = Ok [])
  /\ (same cmp k rows <> [] -> scan A cmp t (Some k) = Ok (from cmp k rows))
  /\ (count_pages A t <= 1 -> scan A cmp t (Some k) = Ok (from cmp k rows)).
Proof.
  intros HO HT HS E0 rows. destruct (run_ok cmp size_page size_split HO HT HS os (tree_init A)) as (t' & rs & E1 & Hi & Hsp).
  { apply inv_init. }
  rewrite E0 in E1. injection E1 as <- <-. change (flat A (tree_init A)) with (@nil A) in Hsp.
  assert (Hr : rows = flat A t) by (unfold rows; now rewrite <- Hsp). rewrite Hr.
  destruct (scan_from cmp size_page size_split t k HO HT HS Hi) as (H1 & H2 & H3). repeat split; auto.
  intros Hc. apply H3. rewrite (inv_pages _ _ _ _ Hi) in Hc. lia.
Qed.
Print Assumptions C02_range_scan_partial.
Example C02_nonvacuous :
  match run compare_int64 4 2 (tree_init Z) (map Replace [10; 20; 30; 40; 50; 60; 70]) with
  | Ok (t, _) => scan Z compare_int64 t (Some 15) = Ok [20; 30; 40; 50; 60; 70] /\ scan Z compare_int64 t (Some 60) = Ok [60; 70]
  | _ => False
  end.
Proof. vm_compute. now split. Qed.

(** ** C53: the pages are kept in a balanced tree: the number of pages compared by a lookup
    is at most twice the logarithm of the number of pages *)
Theorem C53_index_balanced {A} (cmp : A -> A -> Z) size_page size_split (os : list (op A)) t outs :
  key_order cmp -> three_valued cmp -> (1 <= size_split < size_page)%nat ->
  run cmp size_page size_split (tree_init A) os = Ok (t, outs) ->
  (height (t_rb A t) <= 2 * Nat.log2 (S (length (pages A t))) + 1)%nat.
Proof.
  intros HO HT HS E0. destruct (run_ok cmp size_page size_split HO HT HS os (tree_init A)) as (t' & rs & E1 & Hi & _).
  { apply inv_init. }
  rewrite E0 in E1. injection E1 as <- <-. pose proof (wf_log (t_rb A t) (inv_rb _ _ _ _ Hi)) as H.
  unfold pages. rewrite inorder_length. apply Nat.log2_le_pow2 in H; [|lia].
  pose proof (Nat.div_mod (height (t_rb A t)) 2 ltac:(lia)). pose proof (Nat.mod_upper_bound (height (t_rb A t)) 2 ltac:(lia)). lia.
Qed.
Print Assumptions C53_index_balanced.
Example C53_nonvacuous :
  match run compare_int64 2 1 (tree_init Z) (map Replace [1;2;3;4;5;6;7;8;9;10;11;12;13;14;15;16]) with
  | Ok (t, _) => height (t_rb Z t) = 6%nat /\ length (pages Z t) = 15%nat
  | _ => False
  end.
Proof. vm_compute. now split. Qed.
