(** The ordered index is a sorted map, for a three-valued comparison of keys. *)
From Coq Require Import Sorted.
From Verif Require Import Base RbModel RbProofs TreeModel.

Section Tree.
Variable A : Type.
Variable cmp : A -> A -> Z.
Variables size_page size_split : nat.
Hypothesis cmp_opp : forall a b, cmp b a = - cmp a b.
Hypothesis cmp_trans : forall a b c, cmp a b <= 0 -> cmp b c <= 0 -> cmp a c <= 0.
Hypothesis cmp_norm : forall a b, cmp a b = -1 \/ cmp a b = 0 \/ cmp a b = 1.
Hypothesis size_ok : (1 <= size_split < size_page)%nat.

Notation lt a b := (cmp a b < 0).
Lemma cmp_refl a : cmp a a = 0.
Proof. pose proof (cmp_opp a a). lia. Qed.
Lemma lt_le_trans a b c : lt a b -> cmp b c <= 0 -> lt a c.
Proof.
  intros H1 H2. pose proof (cmp_trans a b c ltac:(lia) H2).
  destruct (Z.eq_dec (cmp a c) 0) as [E|]; [|lia].
  pose proof (cmp_opp a c). pose proof (cmp_trans b c a ltac:(lia) ltac:(lia)). pose proof (cmp_opp a b). lia.
Qed.
Lemma le_lt_trans a b c : cmp a b <= 0 -> lt b c -> lt a c.
Proof.
  intros H1 H2. pose proof (cmp_trans a b c H1 ltac:(lia)).
  destruct (Z.eq_dec (cmp a c) 0) as [E|]; [|lia].
  pose proof (cmp_opp a c). pose proof (cmp_trans c a b ltac:(lia) ltac:(lia)). pose proof (cmp_opp b c). lia.
Qed.

Definition sorted := StronglySorted (fun a b => lt a b).
Lemma sorted_app l1 l2 : sorted (l1 ++ l2) -> sorted l1 /\ sorted l2 /\ forall x y, In x l1 -> In y l2 -> lt x y.
Proof.
  unfold sorted. induction l1 as [|a l IH]; cbn [app]; intros H.
  - repeat split; [constructor|exact H|easy].
  - inversion H as [|? ? Hs Hf]; subst. destruct (IH Hs) as (H1 & H2 & H3).
    rewrite Forall_app in Hf. destruct Hf as [Hf1 Hf2]. repeat split; [now constructor|exact H2|].
    intros x y [<-|Hx] Hy; [now apply (proj1 (Forall_forall _ _) Hf2)|now apply H3].
Qed.
Lemma sorted_app_intro l1 l2 : sorted l1 -> sorted l2 -> (forall x y, In x l1 -> In y l2 -> lt x y) -> sorted (l1 ++ l2).
Proof.
  unfold sorted. induction l1 as [|a l IH]; cbn [app]; intros H1 H2 H3; [exact H2|].
  inversion H1; subst. constructor.
  - apply IH; auto. intros x y Hx Hy. apply H3; [now right|exact Hy].
  - rewrite Forall_app. split; [assumption|]. apply Forall_forall. intros y Hy. apply H3; [now left|exact Hy].
Qed.

(** the rows of the index in order *)
Notation tree := (tree A).
Definition flat (t : tree) : list A := concat (pages A t).
Definition page_ok (p : list A) : Prop := p <> [] /\ (length p <= size_page)%nat.
Record inv (t : tree) : Prop := {
  inv_rb : wf (t_rb A t);
  inv_page : Forall page_ok (pages A t);
  inv_sorted : sorted (flat t);
  inv_count : count A t = Z.of_nat (length (flat t));
  inv_pages : count_pages A t = Z.of_nat (length (pages A t)) }.

(** ** locating a page *)
Lemma wf_payload c l (x y : list A) r k : wf (plug (T c l x r) k) -> wf (plug (T c l y r) k).
Proof.
  intros [h H]. destruct (unplug _ _ _ H) as (c0 & h0 & Ht & Hk).
  eapply cok_plug; [|exact Hk]. inversion Ht; subst; econstructor; eassumption.
Qed.
Lemma loc_rank_ok c l (x : list A) r k : loc_rank A (T c l x r, k) = length (before k ++ inorder l).
Proof. cbn [loc_rank]. now rewrite app_length, rank_before, inorder_length. Qed.
Lemma locate_nth (t : rb (list A)) i : (i < length (inorder t))%nat ->
  exists c l x r k, locate t i [] = Ok (T c l x r, k) /\ plug (T c l x r) k = t
    /\ length (before k ++ inorder l) = i /\ inorder t = (before k ++ inorder l) ++ x :: inorder r ++ after k.
Proof.
  intros H. rewrite inorder_length in H.
  destruct (locate_ok t i [] H) as (c & l & x & r & k & H1 & H2 & H3).
  exists c, l, x, r, k. split; [exact H1|]. cbn [plug] in H2. split; [exact H2|]. split.
  - rewrite app_length, inorder_length. cbn [before length] in H3. lia.
  - rewrite <- H2, inorder_plug. cbn [inorder]. rewrite <- !app_assoc. reflexivity.
Qed.

Lemma app_split_len {B} (a b c d : list B) : a ++ b = c ++ d -> length a = length c -> a = c /\ b = d.
Proof.
  revert c; induction a as [|x a IH]; intros [|y c]; cbn [app length]; intros H L; try lia; [now split|].
  injection H as -> H. injection L as L. destruct (IH c H L) as [-> ->]. now split.
Qed.

Lemma set_page_ok (t : rb (list A)) pa p pb v : wf t -> inorder t = pa ++ p :: pb ->
  exists t', set_page A t (length pa) v = Ok t' /\ wf t' /\ inorder t' = pa ++ v :: pb.
Proof.
  intros Hw Hi. destruct (locate_nth t (length pa)) as (c & l & x & r & k & H1 & H2 & H3 & H4).
  { rewrite Hi, app_length. cbn [length]. lia. }
  rewrite Hi in H4. destruct (app_split_len _ _ _ _ H4) as [E1 E2]; [now rewrite H3|]. injection E2 as -> E2.
  unfold set_page. rewrite H1. cbn [bind]. eexists; split; [reflexivity|]. split.
  - eapply wf_payload. rewrite H2. exact Hw.
  - rewrite inorder_plug. cbn [inorder]. rewrite E1, E2, <- !app_assoc. reflexivity.
Qed.
Lemma nth_page (pa pb : list (list A)) p : nth_error (pa ++ p :: pb) (length pa) = Some p.
Proof. rewrite nth_error_app2, Nat.sub_diag by lia. reflexivity. Qed.
Lemma get_page_ok t pa p pb : pages A t = pa ++ p :: pb -> get_page A t (length pa) = Ok p.
Proof. intros H. unfold get_page. now rewrite H, nth_page. Qed.

(** the next page *)
Lemma page_next_ok (t : rb (list A)) pa p pb : inorder t = pa ++ p :: pb ->
  page_next A t (length pa) = Ok (match pb with [] => None | _ => Some (S (length pa)) end).
Proof.
  intros Hi. destruct (locate_nth t (length pa)) as (c & l & x & r & k & H1 & H2 & H3 & H4).
  { rewrite Hi, app_length. cbn [length]. lia. }
  rewrite Hi in H4. destruct (app_split_len _ _ _ _ H4) as [E1 E2]; [now rewrite H3|]. injection E2 as -> E2.
  unfold page_next. rewrite H1. cbn [bind]. f_equal.
  pose proof (rb_next_ok c l x r k) as HN. destruct (rb_next (T c l x r, k)) as [[n k']|].
  - destruct HN as (c' & l' & x' & r' & -> & _ & H5 & H6). rewrite E2, H6. rewrite loc_rank_ok, H5. f_equal.
    rewrite !app_length in *. cbn [length]. lia.
  - now rewrite E2, HN.
Qed.

(** the first page *)
Lemma rb_min_rank (t : rb (list A)) : match rb_min t [] with
  | Some n => loc_rank A n = 0%nat /\ t <> E | None => t = E end.
Proof.
  destruct t as [|c l x r]; [reflexivity|].
  destruct (rb_min_ok (T c l x r) []) as (c' & x' & r' & k' & H1 & H2 & H3 & H4); [discriminate|].
  rewrite H1. split; [|discriminate]. rewrite loc_rank_ok, H3. reflexivity.
Qed.

(** ** search of the page of a key *)
Definition hdcmp (key : A) (p : list A) : Z := match p with [] => 0 | m :: _ => cmp m key end.
Lemma concat_in (ps : list (list A)) x : In x (concat ps) <-> exists p, In p ps /\ In x p.
Proof. apply in_concat. Qed.

Lemma hd_mono key (ps : list (list A)) : Forall page_ok ps -> sorted (concat ps) -> mono (hdcmp key) ps.
Proof.
  intros Hp Hs a x b y c -> Hx.
  rewrite Forall_app in Hp. destruct Hp as [_ Hp]. inversion Hp as [|? ? Hpx Hp2]; subst.
  rewrite Forall_app in Hp2. destruct Hp2 as [_ Hp2]. inversion Hp2 as [|? ? Hpy _]; subst.
  destruct x as [|mx x]; [now destruct (proj1 Hpx)|]. destruct y as [|my y]; [now destruct (proj1 Hpy)|].
  cbn [hdcmp] in *.
  rewrite concat_app in Hs. apply sorted_app in Hs. destruct Hs as (_ & Hs & _). cbn [concat] in Hs.
  apply sorted_app in Hs. destruct Hs as (_ & _ & Hs).
  assert (H : lt mx my).
  { apply Hs; [now left|]. rewrite concat_app. apply in_or_app; right. cbn [concat]. now left. }
  pose proof (cmp_opp my key). pose proof (cmp_opp mx key).
  pose proof (le_lt_trans key mx my ltac:(lia) H). lia.
Qed.

(** what the search of a page guarantees *)
Definition covers (key : A) (pa : list (list A)) (pb : list (list A)) : Prop :=
  (forall x, In x (concat pa) -> lt x key) /\ (forall x, In x (concat pb) -> lt key x).
Lemma hd_pos_all key p : page_ok p -> sorted p -> 0 < hdcmp key p -> forall x, In x p -> lt key x.
Proof.
  intros [Hn _] Hs Hh x Hx. destruct p as [|m p]; [congruence|]. cbn [hdcmp] in Hh. pose proof (cmp_opp m key).
  destruct Hx as [<-|Hx]; [lia|]. inversion Hs as [|? ? _ Hf]; subst.
  apply (le_lt_trans key m x); [lia|]. exact (proj1 (Forall_forall _ _) Hf x Hx).
Qed.
Lemma pages_above key ps : Forall page_ok ps -> sorted (concat ps) ->
  (forall p, In p ps -> 0 < hdcmp key p) -> forall x, In x (concat ps) -> lt key x.
Proof.
  intros Hp Hs Hh x Hx. apply concat_in in Hx. destruct Hx as (p & Hin & Hx).
  apply (hd_pos_all key p); auto.
  - now apply (proj1 (Forall_forall _ _) Hp).
  - apply in_split in Hin. destruct Hin as (u & v & ->). rewrite concat_app in Hs. cbn [concat] in Hs.
    apply sorted_app in Hs. destruct Hs as (_ & Hs & _). now apply sorted_app in Hs.
Qed.
(* the pages before a page that starts at or below the key *)
Lemma pages_below key pa p pb : page_ok p -> sorted (concat (pa ++ p :: pb)) -> hdcmp key p <= 0 ->
  forall x, In x (concat pa) -> lt x key.
Proof.
  intros [Hn _] Hs Hh x Hx. destruct p as [|m p]; [congruence|]. cbn [hdcmp] in Hh.
  rewrite concat_app in Hs. apply sorted_app in Hs. destruct Hs as (_ & _ & Hs).
  eapply lt_le_trans; [|exact Hh]. apply Hs; [exact Hx|]. cbn [concat]. now left.
Qed.

Lemma search_ok t key : inv t -> pages A t <> [] ->
  exists c l x r k rel i pa pg pb,
    search_for_write A cmp t key = Ok ((T c l x r, k), rel, i)
    /\ plug (T c l x r) k = t_rb A t
    /\ rel = hdcmp key x /\ (rel < 0 -> r = E) /\ (0 < rel -> l = E)
    /\ (rel < 0 -> forall p, In p (inorder r ++ after k) -> 0 < hdcmp key p)
    /\ (0 < rel -> forall p, In p (before k ++ inorder l) -> hdcmp key p < 0)
    /\ pages A t = pa ++ pg :: pb /\ i = length pa /\ covers key pa pb.
Proof.
  intros Hi Hne. destruct Hi as [Hw Hp Hs _ _]. unfold flat, pages in *.
  assert (Hte : t_rb A t <> E) by (intros E0; rewrite E0 in Hne; now apply Hne).
  destruct (rb_get_ok (tree_compare A cmp key) (hdcmp key) (t_rb A t) []) as (c & l & x & r & k & a & b & H1 & H2 & H3 & H4 & H5 & H6 & H7).
  { intros p Hin. pose proof (proj1 (Forall_forall _ _) Hp p Hin) as [Hn _]. destruct p; [congruence|reflexivity]. }
  { now apply hd_mono. } { exact Hte. }
  cbn [before after app] in H4, H5. rewrite app_nil_r in H5.
  unfold search_for_write. rewrite H1. cbn [bind].
  rewrite H3 in Hp, Hs.
  assert (Hpx : page_ok x) by (rewrite Forall_app in Hp; destruct Hp as [_ Hp]; now inversion Hp).
  assert (Hpb : Forall page_ok b) by (rewrite Forall_app in Hp; destruct Hp as [_ Hp]; now inversion Hp).
  assert (Hsb : sorted (concat b)).
  { rewrite concat_app in Hs. cbn [concat] in Hs. apply sorted_app in Hs. destruct Hs as (_ & Hs & _). now apply sorted_app in Hs. }
  assert (Hsx : sorted (x ++ concat b)).
  { rewrite concat_app in Hs. cbn [concat] in Hs. now apply sorted_app in Hs. }
  assert (Hrel : hdcmp key x = -1 \/ hdcmp key x = 0 \/ hdcmp key x = 1).
  { destruct x as [|m x]; [now destruct (proj1 Hpx)|]. apply cmp_norm. }
  assert (Habove : 0 <= hdcmp key x -> forall z, In z (concat b) -> lt key z).
  { intros Hge z Hz. apply (pages_above key b); auto. intros p Hin.
    eapply (mono_above (hdcmp key) a x b); [|exact Hge|exact Hin].
    apply hd_mono; assumption. }
  destruct (hdcmp key x =? 1) eqn:E1.
  - (* the page is above the key *)
    destruct (H7 ltac:(lia)) as [-> Ha].
    assert (Hax : forall z, In z (concat (x :: b)) -> lt key z).
    { intros z Hz. cbn [concat] in Hz. apply in_app_or in Hz. destruct Hz as [Hz|Hz].
      - apply (hd_pos_all key x); auto; [now apply sorted_app in Hsx|lia].
      - apply Habove; [lia|exact Hz]. }
    pose proof (rb_prev_ok c E x r k) as HP. destruct (rb_prev (T c E x r, k)) as [[n k']|].
    + destruct HP as (c' & l' & x' & r' & -> & Hpl & H8 & H9).
      rewrite H4 in H8. rewrite app_assoc in H8.
      exists c, E, x, r, k, (hdcmp key x), (loc_rank A (T c' l' x' r', k')), (before k' ++ inorder l'), x', (x :: b).
      split; [reflexivity|]. split; [exact H2|]. split; [reflexivity|]. split; [lia|]. split; [reflexivity|].
      split; [lia|]. split; [intros _; rewrite H4; exact Ha|].
      split. { rewrite H3, H8, <- app_assoc. reflexivity. }
      split; [apply loc_rank_ok|]. split; [|exact Hax].
      intros z Hz. rewrite H8, <- app_assoc in Hs, Hp. cbn [app] in Hs, Hp.
      eapply (pages_below key _ x'); [| exact Hs | | exact Hz].
      * rewrite Forall_app in Hp. destruct Hp as [_ Hp]. now inversion Hp.
      * assert (hdcmp key x' < 0) by (apply Ha; rewrite H8; apply in_or_app; right; now left). lia.
    + rewrite H4 in HP. destruct a; [clear HP|discriminate].
      exists c, E, x, r, k, (hdcmp key x), (loc_rank A (T c E x r, k)), [], x, b.
      split; [reflexivity|]. split; [exact H2|]. split; [reflexivity|]. split; [lia|]. split; [reflexivity|].
      split; [lia|]. split; [intros _; rewrite H4; exact Ha|].
      split; [exact H3|]. split. { rewrite loc_rank_ok, H4. reflexivity. }
      split; [easy|]. intros z Hz. apply Hax. cbn [concat]. apply in_or_app. now right.
  - exists c, l, x, r, k, (hdcmp key x), (loc_rank A (T c l x r, k)), a, x, b.
    split; [reflexivity|]. split; [exact H2|]. split; [reflexivity|].
    split. { intros Hr. now apply (H6 Hr). }
    split; [lia|]. split. { intros Hr. rewrite H5. now apply (H6 Hr). }
    split; [lia|]. split; [exact H3|]. split. { now rewrite loc_rank_ok, H4. }
    split.
    + eapply pages_below; [exact Hpx|exact Hs|lia].
    + destruct (Z.eq_dec (hdcmp key x) 0); [apply Habove; lia|].
      apply pages_above; auto. now apply (H6 ltac:(lia)).
Qed.

Lemma page_index_ok t key : inv t -> pages A t <> [] ->
  exists pa pg pb, page_index A cmp t key = Ok (length pa) /\ pages A t = pa ++ pg :: pb /\ covers key pa pb.
Proof.
  intros Hi Hne. destruct (search_ok t key Hi Hne) as (c & l & x & r & k & rel & i & pa & pg & pb & H & _ & _ & _ & _ & _ & _ & H1 & -> & H3).
  exists pa, pg, pb. unfold page_index. rewrite H. cbn [bind]. now split.
Qed.

(** ** binary search in a page *)
Definition found_at (key : A) (page : list A) (p : nat) (m : bool) : Prop :=
  exists u v, page = u ++ v /\ length u = p /\ (forall x, In x u -> lt x key) /\
    (if m then exists y w, v = y :: w /\ cmp y key = 0 /\ (forall x, In x w -> lt key x)
     else forall x, In x v -> lt key x).

Lemma nth_split_at (page : list A) i r : nth_error page i = Some r ->
  page = firstn i page ++ r :: skipn (S i) page /\ length (firstn i page) = i.
Proof.
  intros H. assert (Hl : (i < length page)%nat) by (apply nth_error_Some; congruence).
  split; [|rewrite firstn_length; lia].
  revert i H Hl; induction page as [|a page IH]; intros i H Hl; [destruct i; discriminate|].
  destruct i as [|i]; cbn [nth_error firstn skipn app] in *; [now injection H as ->|].
  f_equal. apply IH; [exact H|cbn [length] in Hl; lia].
Qed.
Lemma search_loop_ok page key : sorted page -> forall fuel min max,
  0 <= min -> min <= max + 1 -> max < Z.of_nat (length page) -> (max - min + 1 < Z.of_nat fuel) ->
  (forall x, In x (firstn (Z.to_nat min) page) -> lt x key) ->
  (forall x, In x (skipn (Z.to_nat (max + 1)) page) -> lt key x) ->
  exists p m, search_loop A cmp fuel page key min max = Ok (p, m) /\ 0 <= p /\ found_at key page (Z.to_nat p) m.
Proof.
  intros Hs. induction fuel as [|f IH]; intros min max H0 H1 H2 H3 HL HR; [lia|].
  cbn [search_loop]. destruct (min <=? max) eqn:E1.
  - rewrite Z.shiftr_div_pow2 by lia. change (2 ^ 1) with 2.
    set (mid := min + (max - min) / 2).
    assert (Hmid : min <= mid <= max) by (unfold mid; pose proof (Z.div_mod (max - min) 2 ltac:(lia)); pose proof (Z.mod_pos_bound (max - min) 2 ltac:(lia)); lia).
    destruct (nth_error page (Z.to_nat mid)) as [r|] eqn:En.
    2: { apply nth_error_None in En. lia. }
    destruct (nth_split_at page _ r En) as [Hsp Hlen].
    pose proof Hs as Hs'. rewrite Hsp in Hs'. apply sorted_app in Hs'. destruct Hs' as (_ & Hs2 & Hs3).
    inversion Hs2 as [|? ? _ Hf]; subst. rewrite Forall_forall in Hf.
    destruct (cmp r key <? 0) eqn:E2.
    + apply IH; try exact HR; try lia.
      { intros x Hx. replace (Z.to_nat (mid + 1)) with (S (Z.to_nat mid)) in Hx by lia.
        rewrite Hsp in Hx. replace (S (Z.to_nat mid)) with (length (firstn (Z.to_nat mid) page) + 1)%nat in Hx at 1 by lia.
        rewrite firstn_app_2 in Hx. apply in_app_or in Hx. destruct Hx as [Hx|Hx].
        { eapply lt_le_trans; [apply (Hs3 x r Hx); now left|lia]. }
        { cbn [firstn] in Hx. destruct Hx as [<-|[]]. lia. } }
    + destruct (0 <? cmp r key) eqn:E3.
      * apply IH; try exact HL; try lia. replace (mid - 1 + 1) with mid by lia.
        intros x Hx. rewrite Hsp in Hx. rewrite skipn_app, Hlen in Hx. rewrite Nat.sub_diag in Hx. cbn [skipn] in Hx.
        rewrite skipn_all2 in Hx by lia. cbn [app] in Hx. pose proof (cmp_opp r key).
        destruct Hx as [<-|Hx]; [lia|]. eapply le_lt_trans; [|apply Hf; exact Hx]. lia.
      * exists mid, true. split; [reflexivity|]. split; [lia|].
        exists (firstn (Z.to_nat mid) page), (r :: skipn (S (Z.to_nat mid)) page).
        split; [exact Hsp|]. split; [exact Hlen|]. pose proof (cmp_opp r key). split.
        { intros x Hx. eapply lt_le_trans; [apply (Hs3 x r Hx); now left|lia]. }
        { eexists _, _. split; [reflexivity|]. split; [lia|]. intros x Hx. eapply le_lt_trans; [|apply Hf; exact Hx]. lia. }
  - exists min, false. split; [reflexivity|]. split; [lia|].
    exists (firstn (Z.to_nat min) page), (skipn (Z.to_nat min) page).
    split; [now rewrite firstn_skipn|]. split; [rewrite firstn_length; lia|]. split; [exact HL|].
    intros x Hx. apply HR. now replace (max + 1) with min by lia.
Qed.
Lemma tree_search_ok page key : sorted page ->
  exists p m, tree_search A cmp page key = Ok (p, m) /\ found_at key page p m.
Proof.
  intros Hs. destruct (search_loop_ok page key Hs (S (length page)) 0 (Z.of_nat (length page) - 1)) as (p & m & H & Hp & Hf); try lia.
  - easy.
  - intros x Hx. rewrite skipn_all2 in Hx by lia. easy.
  - exists (Z.to_nat p), m. unfold tree_search. rewrite H. cbn [bind]. now split.
Qed.

(** ** a position in the index *)
Definition at_pos (t : tree) (a : pos) (pre : list A) (y : A) (post : list A) : Prop :=
  exists pa u w pb, pages A t = pa ++ (u ++ y :: w) :: pb /\ a = mkpos (length pa) (length u)
    /\ pre = concat pa ++ u /\ post = w ++ concat pb.
Lemma at_pos_flat t a pre y post : at_pos t a pre y post -> flat t = pre ++ y :: post.
Proof.
  intros (pa & u & w & pb & H & _ & -> & ->). unfold flat. rewrite H, concat_app. cbn [concat].
  rewrite <- !app_assoc. reflexivity.
Qed.
Lemma nth_app_len (u w : list A) y : nth_error (u ++ y :: w) (length u) = Some y.
Proof. rewrite nth_error_app2, Nat.sub_diag by lia. reflexivity. Qed.
Lemma firstn_app_len {B} (u w : list B) : firstn (length u) (u ++ w) = u.
Proof. rewrite firstn_app, Nat.sub_diag, firstn_all, firstn_O. apply app_nil_r. Qed.
Lemma skipn_app_len {B} (u w : list B) : skipn (length u) (u ++ w) = w.
Proof. rewrite skipn_app, Nat.sub_diag, skipn_all. reflexivity. Qed.
Lemma skipn_app_len1 {B} (u w : list B) y : skipn (S (length u)) (u ++ y :: w) = w.
Proof.
  replace (S (length u)) with (length (u ++ [y])) by (rewrite app_length; cbn [length]; lia).
  replace (u ++ y :: w) with ((u ++ [y]) ++ w) by (rewrite <- app_assoc; reflexivity). apply skipn_app_len.
Qed.
Lemma at_pos_row t a pre y post : at_pos t a pre y post -> row_at A t a = Ok y.
Proof.
  intros (pa & u & w & pb & H & -> & _). unfold row_at. cbn [p_page p_at].
  rewrite (get_page_ok t pa (u ++ y :: w) pb H). cbn [bind]. now rewrite nth_app_len.
Qed.

Lemma inv_parts t pa p pb : inv t -> pages A t = pa ++ p :: pb ->
  Forall page_ok pa /\ page_ok p /\ Forall page_ok pb /\ sorted p.
Proof.
  intros [_ Hp Hs _ _] H. unfold flat in Hs. rewrite H in Hp, Hs. rewrite Forall_app in Hp. destruct Hp as [H1 H2].
  inversion H2; subst. repeat split; try assumption; try (now destruct H4).
  rewrite concat_app in Hs. cbn [concat] in Hs. apply sorted_app in Hs. destruct Hs as (_ & Hs & _).
  now apply sorted_app in Hs.
Qed.

(* a sorted list split around a key *)
Definition around (key : A) (pre post : list A) : Prop :=
  (forall x, In x pre -> lt x key) /\ (forall x, In x post -> lt key x).
Lemma sorted_insert pre post key : sorted (pre ++ post) -> around key pre post -> sorted (pre ++ key :: post).
Proof.
  intros Hs [H1 H2]. apply sorted_app in Hs. destruct Hs as (Hs1 & Hs2 & H3). apply sorted_app_intro; [exact Hs1| |].
  - constructor; [exact Hs2|]. apply Forall_forall. exact H2.
  - intros x y Hx [<-|Hy]; [now apply H1|now apply H3].
Qed.
Lemma sorted_remove pre y post : sorted (pre ++ y :: post) -> sorted (pre ++ post) /\ around y pre post.
Proof.
  intros Hs. apply sorted_app in Hs. destruct Hs as (Hs1 & Hs2 & H3). inversion Hs2 as [|? ? Hs4 Hf]; subst. split.
  - apply sorted_app_intro; auto. intros x z Hx Hz. apply H3; [exact Hx|now right].
  - split; [intros x Hx; apply H3; [exact Hx|now left]|]. now apply Forall_forall.
Qed.
Lemma around_equal a b pre post : cmp a b = 0 -> around a pre post -> around b pre post.
Proof.
  intros E0 [H1 H2]. pose proof (cmp_opp a b). split; intros x Hx.
  - eapply lt_le_trans; [now apply H1|lia].
  - eapply le_lt_trans; [|now apply H2]. lia.
Qed.

(** building the invariant of a changed tree *)
Lemma inv_intro t : wf (t_rb A t) -> Forall page_ok (pages A t) -> sorted (flat t) ->
  count A t = Z.of_nat (length (flat t)) -> count_pages A t = Z.of_nat (length (pages A t)) -> inv t.
Proof. now constructor. Qed.

Lemma pages_unique (P : list A -> bool) a b c d :
  a ++ b = c ++ d -> forallb P a = true -> forallb P c = true ->
  forallb (fun x => negb (P x)) b = true -> forallb (fun x => negb (P x)) d = true -> a = c /\ b = d.
Proof.
  revert c; induction a as [|x a IH]; intros [|y c] H Ha Hc Hb Hd; cbn [app] in H.
  - now split.
  - subst b. cbn [forallb] in Hb, Hc. apply andb_prop in Hb, Hc. destruct Hb as [Hb _], Hc as [Hc _]. now rewrite Hc in Hb.
  - subst d. cbn [forallb] in Hd, Ha. apply andb_prop in Hd, Ha. destruct Hd as [Hd _], Ha as [Ha _]. now rewrite Ha in Hd.
  - injection H as -> H. cbn [forallb] in Ha, Hc. apply andb_prop in Ha, Hc. destruct Ha as [_ Ha], Hc as [_ Hc].
    destruct (IH c H Ha Hc Hb Hd) as [-> ->]. now split.
Qed.

(** the new page of a split goes right after the page it was split from *)
Lemma place_page t pa l pb r m r0 : inv t -> pages A t = pa ++ l :: pb -> r = m :: r0 ->
  (forall x, In x (concat (pa ++ [l])) -> lt x m) -> (forall x, In x (concat pb) -> lt m x) ->
  exists ref rel i rb2, search_for_write A cmp t m = Ok (ref, rel, i) /\ rb_set (Some ref) rel r = Ok rb2
    /\ wf rb2 /\ inorder rb2 = pa ++ l :: r :: pb
    /\ (if 0 <? rel then loc_rank A ref else S (loc_rank A ref)) = S (length pa).
Proof.
  intros Hi Hpg Hr Hb Ha.
  destruct (inv_parts t pa l pb Hi Hpg) as (Hpa & Hl & Hpb & _).
  destruct (search_ok t m Hi) as (c & lt_ & x & rt & k & rel & i & pa' & pg & pb' & H1 & H2 & H3 & H4 & H5 & H6 & H7 & _).
  { rewrite Hpg. intros E0. destruct pa; discriminate. }
  assert (Hneg : forall p, In p (pa ++ [l]) -> hdcmp m p < 0).
  { intros p Hp. assert (Hok : page_ok p). { apply (proj1 (Forall_forall page_ok (pa ++ [l]))); [|exact Hp]. apply Forall_app. split; [exact Hpa|]. now constructor. }
    destruct p as [|z p]; [now destruct (proj1 Hok)|]. cbn [hdcmp]. apply Hb. apply concat_in. exists (z :: p). split; [exact Hp|now left]. }
  assert (Hpos : forall p, In p pb -> 0 < hdcmp m p).
  { intros p Hp. assert (Hok : page_ok p) by now apply (proj1 (Forall_forall page_ok pb)).
    destruct p as [|z p]; [now destruct (proj1 Hok)|]. cbn [hdcmp].
    assert (lt m z) by (apply Ha; apply concat_in; exists (z :: p); split; [exact Hp|now left]). pose proof (cmp_opp m z). lia. }
  assert (Hino : pages A t = (before k ++ inorder lt_) ++ x :: (inorder rt ++ after k)).
  { unfold pages. rewrite <- H2, inorder_plug. cbn [inorder]. rewrite <- !app_assoc. reflexivity. }
  assert (Hx : In x (pa ++ l :: pb)) by (rewrite <- Hpg, Hino; apply in_or_app; right; now left).
  assert (Hx' : In x (pa ++ [l]) \/ In x pb).
  { apply in_app_or in Hx. destruct Hx as [Hx|[<-|Hx]]; [left; apply in_or_app; now left|left; apply in_or_app; right; now left|now right]. }
  assert (Hrel : rel <> 0).
  { destruct Hx' as [Hx'|Hx']; [pose proof (Hneg x Hx')|pose proof (Hpos x Hx')]; lia. }
  destruct (rb_set_ok c lt_ x rt k rel r) as (rb2 & E2 & W2 & I2); auto.
  { rewrite H2. apply Hi. }
  exists (T c lt_ x rt, k), rel, i, rb2. split; [exact H1|]. split; [exact E2|]. split; [exact W2|].
  set (P := fun p => hdcmp m p <? 0).
  assert (FP1 : forallb P (pa ++ [l]) = true).
  { apply forallb_forall. intros p Hp. unfold P. pose proof (Hneg p Hp). lia. }
  assert (FP2 : forallb (fun p => negb (P p)) pb = true).
  { apply forallb_forall. intros p Hp. unfold P. pose proof (Hpos p Hp). lia. }
  assert (Hsplit : pages A t = (pa ++ [l]) ++ pb) by (rewrite Hpg, <- app_assoc; reflexivity).
  pose proof (hd_mono m (pages A t) (inv_page _ Hi) (inv_sorted _ Hi)) as Hm. rewrite Hino in Hm.
  destruct (0 <? rel) eqn:Er.
  - assert (EQ : before k ++ inorder lt_ = pa ++ [l] /\ x :: (inorder rt ++ after k) = pb).
    { apply (pages_unique P); auto.
      - now rewrite <- Hino, <- Hsplit.
      - apply forallb_forall. intros p Hp. unfold P. pose proof (H7 ltac:(lia) p Hp). lia.
      - apply forallb_forall. intros p [<-|Hp]; unfold P; [lia|].
        pose proof (mono_above (hdcmp m) _ _ _ Hm ltac:(lia) p Hp). lia. }
    destruct EQ as [EQ1 EQ2]. split.
    + rewrite I2. rewrite app_assoc, EQ1. cbn [app]. rewrite EQ2, <- app_assoc. reflexivity.
    + rewrite loc_rank_ok, EQ1, app_length. cbn [length]. lia.
  - assert (EQ : (before k ++ inorder lt_) ++ [x] = pa ++ [l] /\ inorder rt ++ after k = pb).
    { apply (pages_unique P); auto.
      - rewrite <- app_assoc. cbn [app]. now rewrite <- Hino, <- Hsplit.
      - apply forallb_forall. intros p Hp. apply in_app_or in Hp. unfold P. destruct Hp as [Hp|[<-|[]]]; [|lia].
        pose proof (mono_below (hdcmp m) _ _ _ Hm ltac:(lia) p Hp). lia.
      - apply forallb_forall. intros p Hp. unfold P. pose proof (H6 ltac:(lia) p Hp). lia. }
    destruct EQ as [EQ1 EQ2]. split.
    + rewrite I2. change ([x; r]) with ([x] ++ [r]). rewrite <- !app_assoc.
      rewrite EQ2. rewrite !app_assoc. rewrite EQ1. rewrite <- !app_assoc. reflexivity.
    + rewrite loc_rank_ok. apply (f_equal (@length _)) in EQ1. rewrite !app_length in EQ1. rewrite app_length. cbn [length] in EQ1. lia.
Qed.

Lemma concat_mid (pa : list (list A)) p pb : concat (pa ++ p :: pb) = concat pa ++ p ++ concat pb.
Proof. now rewrite concat_app. Qed.

Lemma tree_set_ok t pa u v pb key : inv t -> pages A t = pa ++ (u ++ v) :: pb ->
  around key (concat pa ++ u) (v ++ concat pb) ->
  exists t' a, tree_set A cmp size_page size_split t (mkpos (length pa) (length u)) key = Ok (t', a)
    /\ inv t' /\ at_pos t' a (concat pa ++ u) key (v ++ concat pb).
Proof.
  intros Hi Hpg Har.
  destruct (inv_parts t pa (u ++ v) pb Hi Hpg) as (Hpa & Hp & Hpb & Hsp).
  assert (Hflat : flat t = (concat pa ++ u) ++ (v ++ concat pb)).
  { unfold flat. rewrite Hpg, concat_mid, <- !app_assoc. reflexivity. }
  pose proof (inv_sorted _ Hi) as Hso. rewrite Hflat in Hso.
  pose proof (sorted_insert _ _ _ Hso Har) as Hsk.
  unfold tree_set. cbn [p_page p_at]. rewrite (get_page_ok t pa (u ++ v) pb Hpg). cbn [bind].
  destruct (length (u ++ v) =? size_page)%nat eqn:Efull.
  2: { (* room in the page *)
    destruct (set_page_ok (t_rb A t) pa (u ++ v) pb (insert_nth (u ++ v) (length u) key) (inv_rb _ Hi) Hpg) as (rb1 & E1 & W1 & I1).
    rewrite E1. cbn [bind]. eexists _, _. split; [reflexivity|].
    unfold insert_nth in I1. rewrite firstn_app_len, skipn_app_len in I1.
    assert (AP : at_pos (mktree A rb1 (count A t + 1) (count_pages A t)) (mkpos (length pa) (length u)) (concat pa ++ u) key (v ++ concat pb)).
    { exists pa, u, v, pb. repeat split. exact I1. }
    split; [|exact AP]. apply inv_intro; cbn [t_rb count count_pages].
    - exact W1.
    - unfold pages. cbn [t_rb]. rewrite I1. apply Forall_app. split; [exact Hpa|]. constructor; [|exact Hpb]. split.
      + intros E0. destruct u; discriminate.
      + destruct Hp as [_ Hl]. rewrite !app_length in *. cbn [length]. lia.
    - rewrite (at_pos_flat _ _ _ _ _ AP). exact Hsk.
    - rewrite (at_pos_flat _ _ _ _ _ AP), (inv_count _ Hi), Hflat, !app_length. cbn [length]. rewrite !app_length. lia.
    - rewrite (inv_pages _ Hi). unfold pages. cbn [t_rb]. rewrite I1. unfold pages in Hpg. rewrite Hpg, !app_length. reflexivity. }
  (* split *)
  assert (Hlen : length (u ++ v) = size_page) by lia.
  assert (Hll : length (firstn size_split (u ++ v)) = size_split) by (rewrite firstn_length; lia).
  rewrite Hll.
  set (l := firstn size_split (u ++ v)) in *. set (r := skipn size_split (u ++ v)) in *.
  assert (Hlr : u ++ v = l ++ r) by (symmetry; apply firstn_skipn).
  assert (Hrl : length r = (size_page - size_split)%nat) by (unfold r; rewrite skipn_length; lia).
  destruct (size_split <=? length u)%nat eqn:Eright.
  - (* into the new page *)
    assert (Hu : exists u2, u = l ++ u2 /\ r = u2 ++ v).
    { exists (skipn size_split u). unfold l, r. split.
      - rewrite firstn_app. replace (size_split - length u)%nat with 0%nat by lia. rewrite firstn_O, app_nil_r.
        symmetry. apply firstn_skipn.
      - rewrite skipn_app. replace (size_split - length u)%nat with 0%nat by lia. reflexivity. }
    destruct Hu as (u2 & Hu & Hr).
    assert (Hlu : (length u - size_split = length u2)%nat) by (rewrite Hu, app_length; lia).
    rewrite Hlu. unfold insert_nth. rewrite Hr, firstn_app_len, skipn_app_len.
    destruct (set_page_ok (t_rb A t) pa (u ++ v) pb l (inv_rb _ Hi) Hpg) as (rb1 & E1 & W1 & I1).
    rewrite E1. cbn [bind].
    set (r' := u2 ++ key :: v). set (t1 := mktree A rb1 (count A t + 1) (count_pages A t)).
    assert (Hr' : exists m r0, r' = m :: r0) by (unfold r'; destruct u2; cbn [app]; eexists _, _; reflexivity).
    destruct Hr' as (m & r0 & Hm). rewrite Hm.
    (* the tree with the left half only *)
    rewrite Hu in Hsk. rewrite <- !app_assoc in Hsk.
    assert (Hsk' : sorted ((concat pa ++ l) ++ (r' ++ concat pb))).
    { unfold r'. rewrite <- !app_assoc. cbn [app]. exact Hsk. }
    pose proof (sorted_app _ _ Hsk') as (Hs1 & Hs2 & Hs3).
    pose proof (sorted_app _ _ Hs2) as (_ & Hs4 & Hs5).
    assert (Hi1 : inv (mktree A rb1 (Z.of_nat (length (concat (inorder rb1)))) (count_pages A t))).
    { apply inv_intro; cbn [t_rb count count_pages]; auto.
      - unfold pages. cbn [t_rb]. rewrite I1. apply Forall_app. split; [exact Hpa|]. constructor; [|exact Hpb]. split.
        + intros E0. rewrite E0 in Hll. cbn [length] in Hll. lia.
        + lia.
      - unfold flat, pages. cbn [t_rb]. rewrite I1, concat_mid, app_assoc. apply sorted_app_intro; auto.
        intros x y Hx Hy. apply Hs3; [exact Hx|]. apply in_or_app; now right.
      - rewrite (inv_pages _ Hi). unfold pages. cbn [t_rb]. rewrite I1. unfold pages in Hpg. rewrite Hpg, !app_length. reflexivity. }
    destruct (place_page _ pa l pb r' m r0 Hi1 I1 Hm) as (ref & rel & i & rb2 & Q1 & Q2 & Q3 & Q4 & Q5).
    { intros x Hx. apply Hs3; [rewrite concat_app in Hx; cbn [concat] in Hx; now rewrite app_nil_r in Hx|]. rewrite Hm. now left. }
    { intros x Hx. apply Hs5; [rewrite Hm; now left|exact Hx]. }
    change (search_for_write A cmp t1 m) with (search_for_write A cmp (mktree A rb1 (Z.of_nat (length (concat (inorder rb1)))) (count_pages A t)) m).
    rewrite Q1. cbn [bind]. rewrite <- Hm, Q2. cbn [bind]. rewrite Q5.
    eexists _, _. split; [reflexivity|].
    assert (AP : at_pos (mktree A rb2 (count A t + 1) (count_pages A t + 1)) (mkpos (S (length pa)) (length u2)) (concat pa ++ u) key (v ++ concat pb)).
    { exists (pa ++ [l]), u2, v, pb. split; [|split; [|split]].
      - unfold pages. cbn [t_rb]. rewrite Q4, <- app_assoc. reflexivity.
      - f_equal. rewrite app_length. cbn [length]. lia.
      - rewrite Hu, concat_app. cbn [concat]. rewrite app_nil_r, <- !app_assoc. reflexivity.
      - reflexivity. }
    split; [|exact AP]. apply inv_intro; cbn [t_rb count count_pages]; auto.
    + unfold pages. cbn [t_rb]. rewrite Q4. apply Forall_app. split; [exact Hpa|]. constructor; [|constructor; [|exact Hpb]]; split.
      * intros E0. rewrite E0 in Hll. cbn [length] in Hll. lia.
      * lia.
      * congruence.
      * rewrite Hr in Hrl. unfold r'. rewrite !app_length in *. cbn [length]. lia.
    + rewrite (at_pos_flat _ _ _ _ _ AP), Hu, <- !app_assoc. exact Hsk.
    + rewrite (at_pos_flat _ _ _ _ _ AP), (inv_count _ Hi), Hflat, !app_length. cbn [length]. rewrite !app_length. lia.
    + rewrite (inv_pages _ Hi). unfold pages. cbn [t_rb]. rewrite Q4. unfold pages in Hpg. rewrite Hpg, !app_length. cbn [length]. lia.
  - (* into the old page *)
    assert (Hv : exists v1, l = u ++ v1 /\ v = v1 ++ r).
    { exists (firstn (size_split - length u) v). unfold l, r. split.
      - rewrite firstn_app. f_equal. apply firstn_all2. lia.
      - rewrite skipn_app, (skipn_all2 u) by lia. cbn [app]. symmetry. apply firstn_skipn. }
    destruct Hv as (v1 & Hl & Hv).
    unfold insert_nth. rewrite Hl, firstn_app_len, skipn_app_len.
    destruct (set_page_ok (t_rb A t) pa (u ++ v) pb (u ++ key :: v1) (inv_rb _ Hi) Hpg) as (rb1 & E1 & W1 & I1).
    rewrite E1. cbn [bind]. set (t1 := mktree A rb1 (count A t + 1) (count_pages A t)).
    destruct r as [|m r0] eqn:Hm; [cbn [length] in Hrl; lia|].
    rewrite Hv in Hsk.
    assert (Hsk' : sorted ((concat pa ++ u ++ key :: v1) ++ ((m :: r0) ++ concat pb))).
    { rewrite <- ?app_assoc in Hsk. rewrite <- ?app_assoc. cbn [app] in Hsk |- *. rewrite <- ?app_assoc in Hsk. rewrite <- ?app_assoc. exact Hsk. }
    pose proof (sorted_app _ _ Hsk') as (Hs1 & Hs2 & Hs3).
    pose proof (sorted_app _ _ Hs2) as (_ & Hs4 & Hs5).
    assert (Hokl : page_ok (u ++ key :: v1)).
    { split; [intros E0; destruct u; discriminate|]. rewrite Hl in Hll. rewrite app_length in *. cbn [length]. lia. }
    assert (Hi1 : inv (mktree A rb1 (Z.of_nat (length (concat (inorder rb1)))) (count_pages A t))).
    { apply inv_intro; cbn [t_rb count count_pages]; auto.
      - unfold pages. cbn [t_rb]. rewrite I1. apply Forall_app. split; [exact Hpa|]. now constructor.
      - unfold flat, pages. cbn [t_rb]. rewrite I1, concat_mid, app_assoc. apply sorted_app_intro; auto.
        intros x y Hx Hy. apply Hs3; [exact Hx|]. apply in_or_app; now right.
      - rewrite (inv_pages _ Hi). unfold pages. cbn [t_rb]. rewrite I1. unfold pages in Hpg. rewrite Hpg, !app_length. reflexivity. }
    destruct (place_page _ pa (u ++ key :: v1) pb (m :: r0) m r0 Hi1 I1 eq_refl) as (ref & rel & i & rb2 & Q1 & Q2 & Q3 & Q4 & Q5).
    { intros x Hx. apply Hs3; [rewrite concat_app in Hx; cbn [concat] in Hx; now rewrite app_nil_r in Hx|]. now left. }
    { intros x Hx. apply Hs5; [now left|exact Hx]. }
    change (search_for_write A cmp t1 m) with (search_for_write A cmp (mktree A rb1 (Z.of_nat (length (concat (inorder rb1)))) (count_pages A t)) m).
    rewrite Q1. cbn [bind]. rewrite Q2. cbn [bind]. rewrite Q5.
    replace (S (length pa) <=? length pa)%nat with false by lia.
    eexists _, _. split; [reflexivity|].
    assert (AP : at_pos (mktree A rb2 (count A t + 1) (count_pages A t + 1)) (mkpos (length pa) (length u)) (concat pa ++ u) key (v ++ concat pb)).
    { exists pa, u, v1, ((m :: r0) :: pb). split; [|split; [|split]].
      - exact Q4.
      - reflexivity.
      - reflexivity.
      - rewrite Hv. cbn [concat]. rewrite <- !app_assoc. reflexivity. }
    split; [|exact AP]. apply inv_intro; cbn [t_rb count count_pages]; auto.
    + unfold pages. cbn [t_rb]. rewrite Q4. apply Forall_app. split; [exact Hpa|]. constructor; [exact Hokl|constructor; [|exact Hpb]]; split.
      * congruence.
      * lia.
    + rewrite (at_pos_flat _ _ _ _ _ AP), Hv. exact Hsk.
    + rewrite (at_pos_flat _ _ _ _ _ AP), (inv_count _ Hi), Hflat, !app_length. cbn [length]. rewrite !app_length. lia.
    + rewrite (inv_pages _ Hi). unfold pages. cbn [t_rb]. rewrite Q4. unfold pages in Hpg. rewrite Hpg, !app_length. cbn [length]. lia.
Qed.

(** lookup of a key in a non-empty index *)
Lemma find_ok t key : inv t -> pages A t <> [] ->
  exists pa pg pb p m u v, page_index A cmp t key = Ok (length pa) /\ pages A t = pa ++ pg :: pb
    /\ tree_search A cmp pg key = Ok (p, m) /\ p = length u /\ pg = u ++ v
    /\ (if (m : bool) then exists y w, v = y :: w /\ cmp y key = 0 /\ around key (concat pa ++ u) (w ++ concat pb)
        else around key (concat pa ++ u) (v ++ concat pb)).
Proof.
  intros Hi Hne. destruct (page_index_ok t key Hi Hne) as (pa & pg & pb & H1 & H2 & H3 & H4).
  destruct (inv_parts t pa pg pb Hi H2) as (_ & _ & _ & Hs).
  destruct (tree_search_ok pg key Hs) as (p & m & H5 & u & v & H6 & H7 & H8 & H9).
  exists pa, pg, pb, p, m, u, v. repeat (split; [eassumption || congruence|]).
  destruct m.
  - destruct H9 as (y & w & H10 & H11 & H12). exists y, w. split; [exact H10|]. split; [exact H11|].
    split; intros x Hx; apply in_app_or in Hx; destruct Hx; auto.
  - split; intros x Hx; apply in_app_or in Hx; destruct Hx; auto.
Qed.

Lemma empty_pages t : inv t -> (count_pages A t =? 0) = true <-> pages A t = [].
Proof.
  intros Hi. rewrite Z.eqb_eq, (inv_pages _ Hi). split; [|now intros ->].
  intros H. destruct (pages A t); [reflexivity|cbn [length] in H; lia].
Qed.

Lemma tree_upsert_ok t key : inv t ->
  exists t' a e, tree_upsert A cmp size_page size_split t key = Ok (t', a, e) /\ inv t' /\
    exists pre y post, at_pos t' a pre y post /\ around key pre post /\
    if (e : bool) then t' = t /\ cmp y key = 0 else y = key /\ flat t = pre ++ post.
Proof.
  intros Hi. unfold tree_upsert. destruct (count_pages A t =? 0) eqn:E0.
  - apply (empty_pages t Hi) in E0. rewrite rb_set_empty. cbn [bind].
    eexists _, _, _. split; [reflexivity|]. 
    assert (AP : at_pos (mktree A (T Black E [key] E) (count A t + 1) (count_pages A t + 1)) (mkpos 0 0) [] key []).
    { exists [], [], [], []. repeat split. }
    split.
    + apply inv_intro; cbn [t_rb count count_pages].
      * exists 1%nat. repeat econstructor.
      * unfold pages. cbn [t_rb inorder app]. constructor; [|constructor]. split; [discriminate|cbn [length]; lia].
      * rewrite (at_pos_flat _ _ _ _ _ AP). cbn [app]. repeat constructor.
      * rewrite (at_pos_flat _ _ _ _ _ AP), (inv_count _ Hi). unfold flat. rewrite E0. reflexivity.
      * rewrite (inv_pages _ Hi), E0. reflexivity.
    + exists [], key, []. split; [exact AP|]. split; [easy|]. split; [reflexivity|]. unfold flat. now rewrite E0.
  - assert (Hne : pages A t <> []) by (intros E1; apply (empty_pages t Hi) in E1; congruence).
    destruct (find_ok t key Hi Hne) as (pa & pg & pb & p & m & u & v & H1 & H2 & H3 & H4 & H5 & H6).
    rewrite H1. cbn [bind]. rewrite (get_page_ok t pa pg pb H2). cbn [bind]. rewrite H3. cbn [bind]. subst p pg.
    destruct m.
    + destruct H6 as (y & w & -> & Hy & Har). eexists _, _, _. split; [reflexivity|]. split; [exact Hi|].
      exists (concat pa ++ u), y, (w ++ concat pb). split; [|split; [exact Har|now split]].
      exists pa, u, w, pb. now repeat split.
    + destruct (tree_set_ok t pa u v pb key Hi H2 H6) as (t' & a & E1 & Hi' & AP).
      rewrite E1. cbn [bind]. eexists _, _, _. split; [reflexivity|]. split; [exact Hi'|].
      exists (concat pa ++ u), key, (v ++ concat pb). split; [exact AP|]. split; [exact H6|]. split; [reflexivity|].
      unfold flat. rewrite H2, concat_mid, <- !app_assoc. reflexivity.
Qed.

Lemma put_at_ok t a pre y post key : inv t -> at_pos t a pre y post -> around key pre post ->
  exists t', put_at A t a key = Ok (t', y) /\ inv t' /\ at_pos t' a pre key post.
Proof.
  intros Hi AP Har. destruct AP as (pa & u & w & pb & H1 & -> & -> & ->).
  unfold put_at. cbn [p_page p_at]. rewrite (get_page_ok t pa _ pb H1). cbn [bind]. rewrite nth_app_len.
  destruct (set_page_ok (t_rb A t) pa (u ++ y :: w) pb (set_nth (u ++ y :: w) (length u) key) (inv_rb _ Hi) H1) as (rb1 & E1 & W1 & I1).
  rewrite E1. cbn [bind]. eexists. split; [reflexivity|].
  unfold set_nth in I1. rewrite firstn_app_len, skipn_app_len1 in I1.
  destruct (inv_parts t pa _ pb Hi H1) as (Hpa & Hp & Hpb & _).
  assert (AP : at_pos (mktree A rb1 (count A t) (count_pages A t)) (mkpos (length pa) (length u)) (concat pa ++ u) key (w ++ concat pb)).
  { exists pa, u, w, pb. now repeat split. }
  split; [|exact AP].
  assert (Hfl : flat t = (concat pa ++ u) ++ y :: (w ++ concat pb)).
  { unfold flat. rewrite H1, concat_mid, <- !app_assoc. reflexivity. }
  apply inv_intro; cbn [t_rb count count_pages]; auto.
  - unfold pages. cbn [t_rb]. rewrite I1. apply Forall_app. split; [exact Hpa|]. constructor; [|exact Hpb]. split.
    + intros E0. destruct u; discriminate.
    + destruct Hp as [_ Hl]. rewrite app_length in *. cbn [length] in *. lia.
  - rewrite (at_pos_flat _ _ _ _ _ AP). pose proof (inv_sorted _ Hi) as Hs. rewrite Hfl in Hs.
    apply sorted_insert; [|exact Har]. now apply sorted_remove in Hs.
  - rewrite (at_pos_flat _ _ _ _ _ AP), (inv_count _ Hi), Hfl, !app_length. cbn [length]. lia.
  - rewrite (inv_pages _ Hi). unfold pages. cbn [t_rb]. rewrite I1. unfold pages in H1. rewrite H1, !app_length. reflexivity.
Qed.

Lemma tree_replace_ok t key : inv t ->
  exists t' r, tree_replace A cmp size_page size_split t key = Ok (t', r) /\ inv t' /\
    exists pre post, around key pre post /\ flat t' = pre ++ key :: post /\
      match r with Some y => cmp y key = 0 /\ flat t = pre ++ y :: post | None => flat t = pre ++ post end.
Proof.
  intros Hi. destruct (tree_upsert_ok t key Hi) as (t1 & a & e & E1 & Hi1 & pre & y & post & AP & Har & He).
  unfold tree_replace. rewrite E1. cbn [bind]. destruct e.
  - destruct He as [-> Hy]. destruct (put_at_ok t a pre y post key Hi AP Har) as (t2 & E2 & Hi2 & AP2).
    rewrite E2. cbn [bind]. eexists _, _. split; [reflexivity|]. split; [exact Hi2|].
    exists pre, post. split; [exact Har|]. split; [apply (at_pos_flat _ _ _ _ _ AP2)|]. split; [exact Hy|].
    apply (at_pos_flat _ _ _ _ _ AP).
  - destruct He as [-> Hf]. eexists _, _. split; [reflexivity|]. split; [exact Hi1|].
    exists pre, post. split; [exact Har|]. split; [apply (at_pos_flat _ _ _ _ _ AP)|exact Hf].
Qed.

Lemma tree_delete_ok t a pre y post : inv t -> at_pos t a pre y post ->
  exists t' np, tree_delete A t a = Ok (t', np) /\ inv t' /\ flat t' = pre ++ post /\
    match post with
    | [] => np = None
    | z :: post' => exists a', np = Some a' /\ at_pos t' a' pre z post'
    end.
Proof.
  intros Hi AP. pose proof (at_pos_flat _ _ _ _ _ AP) as Hfl. destruct AP as (pa & u & w & pb & H1 & -> & -> & ->).
  destruct (inv_parts t pa _ pb Hi H1) as (Hpa & Hp & Hpb & _).
  pose proof (inv_sorted _ Hi) as Hs. rewrite Hfl in Hs. apply sorted_remove in Hs. destruct Hs as [Hs _].
  unfold tree_delete. cbn [p_page p_at]. rewrite (get_page_ok t pa _ pb H1). cbn [bind]. rewrite nth_app_len.
  rewrite (page_next_ok (t_rb A t) pa (u ++ y :: w) pb H1). cbn [bind].
  unfold remove_nth. rewrite firstn_app_len, skipn_app_len1.
  destruct (length (u ++ w) =? 0)%nat eqn:El.
  - (* the page goes away *)
    assert (u = [] /\ w = []) as [-> ->].
    { rewrite app_length in El. destruct u; [|cbn [length] in El; lia]. destruct w; [now split|cbn [length] in El; lia]. }
    cbn [app] in *. destruct (locate_nth (t_rb A t) (length pa)) as (c & l & x & r & k & L1 & L2 & L3 & L4).
    { unfold pages in H1. rewrite H1, app_length. cbn [length]. lia. }
    unfold pages in H1. rewrite H1 in L4. destruct (app_split_len _ _ _ _ L4) as [Q1 Q2]; [now rewrite L3|]. injection Q2 as <- Q2.
    rewrite L1. cbn [bind]. destruct (rb_remove_ok c l [y] r k) as (rb1 & E1 & W1 & I1).
    { rewrite L2. apply Hi. }
    rewrite E1. cbn [bind]. eexists _, _. split; [reflexivity|].
    assert (I1' : inorder rb1 = pa ++ pb) by (rewrite I1, Q1, Q2, <- !app_assoc; reflexivity).
    assert (Hfl' : concat (inorder rb1) = concat pa ++ concat pb) by now rewrite I1', concat_app.
    split; [|split].
    + apply inv_intro; cbn [t_rb count count_pages]; auto.
      * unfold pages. cbn [t_rb]. rewrite I1'. apply Forall_app. now split.
      * unfold flat, pages. cbn [t_rb]. rewrite Hfl'. rewrite app_nil_r in Hs. exact Hs.
      * unfold flat, pages. cbn [t_rb]. rewrite Hfl', (inv_count _ Hi), Hfl, !app_length. cbn [length]. lia.
      * rewrite (inv_pages _ Hi). unfold pages. cbn [t_rb]. rewrite I1', H1, !app_length. cbn [length]. lia.
    + unfold flat, pages. cbn [t_rb]. now rewrite Hfl', app_nil_r.
    + rewrite app_nil_r. destruct pb as [|q pb]; [reflexivity|].
      pose proof (Forall_inv Hpb) as Hq. destruct q as [|z q]; [now destruct (proj1 Hq)|]. cbn [concat app].
      replace (length pa <? S (length pa))%nat with true by lia. cbn [pred].
      exists (mkpos (length pa) 0). split; [reflexivity|]. exists pa, [], q, pb. cbn [app length]. rewrite app_nil_r.
      now repeat split.
  - destruct (set_page_ok (t_rb A t) pa (u ++ y :: w) pb (u ++ w) (inv_rb _ Hi) H1) as (rb1 & E1 & W1 & I1).
    rewrite E1. cbn [bind]. eexists _, _. split; [reflexivity|].
    assert (Hfl' : concat (inorder rb1) = (concat pa ++ u) ++ w ++ concat pb) by (rewrite I1, concat_mid, <- !app_assoc; reflexivity).
    split; [|split].
    + apply inv_intro; cbn [t_rb count count_pages]; auto.
      * unfold pages. cbn [t_rb]. rewrite I1. apply Forall_app. split; [exact Hpa|]. constructor; [|exact Hpb]. split.
        { intros E0. rewrite E0 in El. discriminate. }
        { destruct Hp as [_ Hl]. rewrite app_length in *. cbn [length] in *. lia. }
      * unfold flat, pages. cbn [t_rb]. rewrite Hfl'. exact Hs.
      * unfold flat, pages. cbn [t_rb]. rewrite Hfl', (inv_count _ Hi), Hfl, !app_length. cbn [length]. rewrite !app_length. lia.
      * rewrite (inv_pages _ Hi). unfold pages. cbn [t_rb]. rewrite I1. unfold pages in H1. rewrite H1, !app_length. reflexivity.
    + exact Hfl'.
    + destruct w as [|z w].
      * cbn [app]. rewrite app_nil_r in *. replace (length u <? length u)%nat with false by lia.
        destruct pb as [|q pb]; [reflexivity|].
        pose proof (Forall_inv Hpb) as Hq. destruct q as [|z q]; [now destruct (proj1 Hq)|]. cbn [concat app].
        exists (mkpos (S (length pa)) 0). split; [reflexivity|]. exists (pa ++ [u]), [], q, pb. cbn [app length].
        split; [unfold pages; cbn [t_rb]; rewrite I1, <- app_assoc; reflexivity|].
        split; [rewrite app_length; cbn [length]; f_equal; lia|]. split; [|reflexivity].
        rewrite concat_app. cbn [concat]. now rewrite !app_nil_r.
      * cbn [app]. rewrite app_length. cbn [length]. replace (length u <? length u + S (length w))%nat with true by lia.
        eexists. split; [reflexivity|]. exists pa, u, w, pb. now repeat split.
Qed.

Lemma tree_delete_by_ok t key : inv t ->
  exists t' r, tree_delete_by A cmp t key = Ok (t', r) /\ inv t' /\
    exists pre post, around key pre post /\ flat t' = pre ++ post /\
      match r with Some y => cmp y key = 0 /\ flat t = pre ++ y :: post | None => t' = t end.
Proof.
  intros Hi. unfold tree_delete_by. destruct (count_pages A t =? 0) eqn:E0.
  - eexists _, _. split; [reflexivity|]. split; [exact Hi|]. exists [], [].
    apply (empty_pages t Hi) in E0. split; [easy|]. split; [unfold flat; now rewrite E0|reflexivity].
  - assert (Hne : pages A t <> []) by (intros E1; apply (empty_pages t Hi) in E1; congruence).
    destruct (find_ok t key Hi Hne) as (pa & pg & pb & p & m & u & v & H1 & H2 & H3 & H4 & H5 & H6).
    rewrite H1. cbn [bind]. rewrite (get_page_ok t pa pg pb H2). cbn [bind]. rewrite H3. cbn [bind]. subst p pg.
    destruct m.
    + destruct H6 as (y & w & -> & Hy & Har). rewrite nth_app_len.
      assert (AP : at_pos t (mkpos (length pa) (length u)) (concat pa ++ u) y (w ++ concat pb)).
      { exists pa, u, w, pb. now repeat split. }
      destruct (tree_delete_ok t _ _ _ _ Hi AP) as (t' & np & E1 & Hi' & Hf & _). rewrite E1. cbn [bind].
      eexists _, _. split; [reflexivity|]. split; [exact Hi'|]. eexists _, _. split; [exact Har|]. split; [exact Hf|].
      split; [exact Hy|]. apply (at_pos_flat _ _ _ _ _ AP).
    + eexists _, _. split; [reflexivity|]. split; [exact Hi|]. eexists _, _. split; [exact H6|]. split; [|reflexivity].
      unfold flat. rewrite H2, concat_mid, <- !app_assoc. reflexivity.
Qed.

(** ** iteration *)
Definition on_row (t : tree) (it : iter A) (pre : list A) (y : A) (post : list A) : Prop :=
  exists a, it = mkiter A (Some y) (Some a) false /\ at_pos t a pre y post.
Definition at_end (it : iter A) : Prop := it = mkiter A None None false.
(* the iterator is at the first row of [l], the rows before are [pre] *)
Definition it_rest (t : tree) (it : iter A) (pre l : list A) : Prop :=
  match l with [] => at_end it | y :: post => on_row t it pre y post end.

Lemma iter_open_start t : inv t -> exists it m, iter_open A cmp t None = Ok (it, m) /\ it_rest t it [] (flat t).
Proof.
  intros Hi. unfold iter_open. rewrite (inv_count _ Hi).
  destruct (flat t) as [|y post] eqn:Ef.
  - cbn [length Z.of_nat Z.eqb]. eexists _, _. split; [reflexivity|]. reflexivity.
  - replace (Z.of_nat (length (y :: post)) =? 0) with false by (cbn [length]; lia).
    destruct (pages A t) as [|p pb] eqn:Ep; [unfold flat in Ef; rewrite Ep in Ef; discriminate|].
    unfold tree_get. destruct (count_pages A t =? 0) eqn:E0; [apply (empty_pages t Hi) in E0; congruence|].
    pose proof (rb_min_rank (t_rb A t)) as Hm. destruct (rb_min (t_rb A t) []) as [n|].
    2: { unfold pages in Ep. rewrite Hm in Ep. discriminate. }
    destruct Hm as [Hm _]. cbn [bind]. rewrite Hm. cbn [p_page p_at].
    rewrite (get_page_ok t [] p pb Ep : get_page A t 0 = Ok p). cbn [bind].
    destruct (inv_parts t [] p pb Hi Ep) as (_ & [Hn _] & _). destruct p as [|y' w]; [congruence|].
    cbn [length Nat.leb].
    assert (Hyp : y' :: w ++ concat pb = y :: post) by (rewrite <- Ef; unfold flat; rewrite Ep; reflexivity).
    injection Hyp as -> Hpo.
    assert (AP : at_pos t (mkpos 0 0) [] y post).
    { exists [], [], w, pb. split; [exact Ep|]. split; [reflexivity|]. split; [reflexivity|now symmetry]. }
    rewrite (at_pos_row _ _ _ _ _ AP). cbn [bind]. eexists _, _. split; [reflexivity|]. eexists. split; [reflexivity|exact AP].
Qed.

Lemma iter_next_ok t it pre y post : inv t -> on_row t it pre y post ->
  exists it', iter_next A t it = Ok it' /\ it_rest t it' (pre ++ [y]) post.
Proof.
  intros Hi (a & -> & pa & u & w & pb & H1 & -> & -> & ->).
  unfold iter_next. cbn [i_current i_repos i_pos p_page p_at].
  rewrite (get_page_ok t pa _ pb H1). cbn [bind].
  destruct w as [|z w].
  - rewrite app_length. cbn [length]. replace (S (length u) <? length u + 1)%nat with false by lia.
    rewrite (page_next_ok (t_rb A t) pa (u ++ [y]) pb H1). cbn [bind app].
    destruct (inv_parts t pa _ pb Hi H1) as (_ & _ & Hpb & _).
    destruct pb as [|q pb]; [eexists; split; [reflexivity|]; reflexivity|].
    pose proof (Forall_inv Hpb) as Hq. destruct q as [|z q]; [now destruct (proj1 Hq)|]. cbn [concat app it_rest].
    assert (AP : at_pos t (mkpos (S (length pa)) 0) ((concat pa ++ u) ++ [y]) z (q ++ concat pb)).
    { exists (pa ++ [u ++ [y]]), [], q, pb. cbn [app length].
      split; [rewrite H1, <- app_assoc; reflexivity|]. split; [rewrite app_length; cbn [length]; f_equal; lia|].
      split; [|reflexivity]. rewrite concat_app. cbn [concat]. rewrite !app_nil_r, <- !app_assoc. reflexivity. }
    rewrite (at_pos_row _ _ _ _ _ AP). cbn [bind]. eexists. split; [reflexivity|]. eexists. split; [reflexivity|exact AP].
  - rewrite app_length. cbn [length]. replace (S (length u) <? length u + S (S (length w)))%nat with true by lia.
    assert (AP : at_pos t (mkpos (length pa) (S (length u))) ((concat pa ++ u) ++ [y]) z (w ++ concat pb)).
    { exists pa, (u ++ [y]), w, pb. split; [rewrite H1, <- app_assoc; reflexivity|].
      split; [rewrite app_length; cbn [length]; f_equal; lia|]. split; [now rewrite <- app_assoc|reflexivity]. }
    rewrite (at_pos_row _ _ _ _ _ AP). cbn [bind app it_rest]. eexists. split; [reflexivity|]. eexists. split; [reflexivity|exact AP].
Qed.

Lemma walk_ok t : inv t -> forall l fuel it pre, it_rest t it pre l -> (length l <= fuel)%nat -> walk A fuel t it = Ok l.
Proof.
  intros Hi. induction l as [|y post IH]; intros fuel it pre H Hf; cbn [it_rest] in H.
  - rewrite H. destruct fuel; reflexivity.
  - cbn [length] in Hf. destruct fuel as [|f]; [lia|].
    destruct (iter_next_ok t it pre y post Hi H) as (it' & E1 & H1).
    destruct H as (a & -> & _). cbn [walk i_current]. rewrite E1. cbn [bind].
    rewrite (IH f it' _ H1) by lia. reflexivity.
Qed.

Lemma scan_all t : inv t -> scan A cmp t None = Ok (flat t).
Proof.
  intros Hi. destruct (iter_open_start t Hi) as (it & m & E1 & H). unfold scan. rewrite E1. cbn [bind].
  eapply walk_ok; [exact Hi|exact H|]. rewrite (inv_count _ Hi). lia.
Qed.

(** a scan from a key *)
Lemma iter_open_key t key : inv t -> flat t <> [] ->
  exists pa pg pb, page_index A cmp t key = Ok (length pa) /\ pages A t = pa ++ pg :: pb /\ covers key pa pb /\
  exists it m, iter_open A cmp t (Some key) = Ok (it, m) /\
    ((exists x, In x pg /\ cmp x key >= 0) /\
       (exists pre, it_rest t it pre (filter (fun r => 0 <=? cmp r key) (flat t))) /\
       m = existsb (fun r => cmp r key =? 0) (flat t)
     \/ (forall x, In x pg -> lt x key) /\ at_end it /\ m = false).
Proof.
  intros Hi Hf. assert (Hne : pages A t <> []) by (intros E; apply Hf; unfold flat; now rewrite E).
  destruct (find_ok t key Hi Hne) as (pa & pg & pb & p & m & u & v & H1 & H2 & H3 & H4 & H5 & H6).
  destruct (page_index_ok t key Hi Hne) as (pa' & pg' & pb' & H1' & H2' & H3').
  exists pa', pg', pb'. rewrite H1 in H1'. injection H1' as Hlen.
  rewrite H2 in H2'. destruct (app_split_len _ _ _ _ H2' Hlen) as [<- Q]. injection Q as <- <-.
  split; [exact H1|]. split; [exact H2|]. split; [exact H3'|].
  unfold iter_open. rewrite (inv_count _ Hi).
  destruct (Z.of_nat (length (flat t)) =? 0) eqn:E0; [destruct (flat t); [congruence|cbn [length] in E0; lia]|].
  unfold tree_get. destruct (count_pages A t =? 0) eqn:E1; [apply (empty_pages t Hi) in E1; congruence|].
  rewrite H1. cbn [bind]. rewrite (get_page_ok t pa pg pb H2). cbn [bind]. rewrite H3. cbn [bind p_page p_at].
  rewrite (get_page_ok t pa pg pb H2). cbn [bind]. subst p pg.
  assert (Hfl : flat t = (concat pa ++ u) ++ v ++ concat pb).
  { unfold flat. rewrite H2, concat_mid, <- !app_assoc. reflexivity. }
  assert (Hge : forall l, (forall x, In x l -> 0 <= cmp x key) -> filter (fun r => 0 <=? cmp r key) l = l).
  { induction l as [|z l IH]; intros HA; [reflexivity|]. cbn [filter]. pose proof (HA z (or_introl eq_refl)).
    replace (0 <=? cmp z key) with true by lia. f_equal. apply IH. intros x Hx. apply HA. now right. }
  assert (Hlt : forall l, (forall x, In x l -> lt x key) -> filter (fun r => 0 <=? cmp r key) l = [] /\ existsb (fun r => cmp r key =? 0) l = false).
  { induction l as [|z l IH]; intros HA; [now split|]. cbn [filter existsb]. pose proof (HA z (or_introl eq_refl)).
    replace (0 <=? cmp z key) with false by lia. replace (cmp z key =? 0) with false by lia. apply IH. intros x Hx. apply HA. now right. }
  assert (Hgt : forall l, (forall x, In x l -> lt key x) -> existsb (fun r => cmp r key =? 0) l = false).
  { induction l as [|z l IH]; intros HA; [reflexivity|]. cbn [existsb]. pose proof (HA z (or_introl eq_refl)). pose proof (cmp_opp key z).
    replace (cmp z key =? 0) with false by lia. apply IH. intros x Hx. apply HA. now right. }
  destruct v as [|y w].
  - (* past the last row of the page *)
    rewrite app_nil_r. replace (length u <=? length u)%nat with true by lia.
    eexists _, _. split; [reflexivity|]. right. split; [|split; reflexivity].
    destruct m; [destruct H6 as (y & w & D & _); discriminate|]. destruct H6 as [H6 _].
    intros x Hx. apply H6. apply in_or_app. now right.
  - rewrite app_length. cbn [length]. replace (length u + S (length w) <=? length u)%nat with false by lia.
    assert (AP : at_pos t (mkpos (length pa) (length u)) (concat pa ++ u) y (w ++ concat pb)).
    { exists pa, u, w, pb. now repeat split. }
    rewrite (at_pos_row _ _ _ _ _ AP). cbn [bind]. eexists _, _. split; [reflexivity|]. left.
    assert (HH : (forall x, In x (concat pa ++ u) -> lt x key) /\ (forall x, In x ((y :: w) ++ concat pb) -> 0 <= cmp x key)
               /\ m = existsb (fun r => cmp r key =? 0) ((y :: w) ++ concat pb)).
    { destruct m.
      - destruct H6 as (y' & w' & D & Hy & Ha & Hb). injection D as <- <-. split; [exact Ha|]. split.
        + intros x [<-|Hx]; [lia|]. pose proof (Hb x Hx). pose proof (cmp_opp key x). lia.
        + cbn [app existsb]. replace (cmp y key =? 0) with true by lia. reflexivity.
      - destruct H6 as [Ha Hb]. split; [exact Ha|]. split.
        + intros x Hx. pose proof (Hb x Hx). pose proof (cmp_opp key x). lia.
        + symmetry. now apply Hgt. }
    destruct HH as (HA & HB & HC). split; [|split].
    + exists y. split; [apply in_or_app; right; now left|]. specialize (HB y (or_introl eq_refl)). lia.
    + exists (concat pa ++ u). rewrite Hfl, filter_app, (proj1 (Hlt _ HA)). rewrite (Hge _ HB). cbn [app it_rest].
      eexists. split; [reflexivity|exact AP].
    + rewrite Hfl, existsb_app, (proj2 (Hlt _ HA)). exact HC.
Qed.

(** deleting the current row *)
Lemma iter_delete_ok t it pre y post : inv t -> on_row t it pre y post ->
  exists t' it1 it2, iter_delete A t it = Ok (t', it1, y) /\ i_current A it1 = Some y /\ inv t' /\ flat t' = pre ++ post
    /\ iter_next A t' it1 = Ok it2 /\ it_rest t' it2 pre post.
Proof.
  intros Hi (a & -> & AP). unfold iter_delete. cbn [i_pos i_repos].
  rewrite (at_pos_row _ _ _ _ _ AP). cbn [bind].
  destruct (tree_delete_ok t a pre y post Hi AP) as (t' & np & E1 & Hi' & Hf & Hnp). rewrite E1. cbn [bind].
  destruct post as [|z post].
  - subst np. eexists _, _, _. repeat (split; [reflexivity || eassumption|]). reflexivity.
  - destruct Hnp as (a' & -> & AP'). eexists _, _, _. split; [reflexivity|]. split; [reflexivity|].
    split; [exact Hi'|]. split; [exact Hf|]. unfold iter_next. cbn [i_current i_repos i_pos].
    rewrite (at_pos_row _ _ _ _ _ AP'). cbn [bind]. split; [reflexivity|].
    eexists. split; [reflexivity|exact AP'].
Qed.

Lemma delete_walk_ok del : forall l fuel t it pre, inv t -> it_rest t it pre l -> flat t = pre ++ l -> (length l <= fuel)%nat ->
  exists t', delete_walk A fuel del t it = Ok (t', l) /\ inv t' /\ flat t' = pre ++ filter (fun r => negb (del r)) l.
Proof.
  induction l as [|y post IH]; intros fuel t it pre Hi H Hfl Hf; cbn [it_rest] in H.
  - rewrite H. exists t. split; [destruct fuel; reflexivity|]. now split.
  - cbn [length] in Hf. destruct fuel as [|f]; [lia|].
    pose proof H as H0. destruct H0 as (a & E & _). rewrite E. cbn [delete_walk i_current]. rewrite <- E.
    cbn [filter]. destruct (del y).
    + destruct (iter_delete_ok t it pre y post Hi H) as (t1 & it1 & it2 & D1 & _ & Hi1 & Hf1 & D2 & H2).
      rewrite D1. cbn [bind]. rewrite D2. cbn [bind].
      destruct (IH f t1 it2 pre Hi1 H2 Hf1 ltac:(lia)) as (t' & D3 & Hi' & Hf'). rewrite D3. cbn [bind negb].
      exists t'. split; [reflexivity|]. split; [exact Hi'|exact Hf'].
    + destruct (iter_next_ok t it pre y post Hi H) as (it2 & D2 & H2). rewrite D2. cbn [bind negb].
      destruct (IH f t it2 (pre ++ [y]) Hi H2) as (t' & D3 & Hi' & Hf'); [now rewrite Hfl, <- app_assoc|lia|].
      rewrite D3. cbn [bind]. exists t'. split; [reflexivity|]. split; [exact Hi'|]. rewrite Hf', <- app_assoc. reflexivity.
Qed.
Lemma delete_scan_ok t del : inv t ->
  exists t', delete_scan A cmp t del = Ok (t', flat t) /\ inv t' /\ flat t' = filter (fun r => negb (del r)) (flat t).
Proof.
  intros Hi. destruct (iter_open_start t Hi) as (it & m & E1 & H). unfold delete_scan. rewrite E1. cbn [bind].
  eapply (delete_walk_ok del _ _ t it []); auto. rewrite (inv_count _ Hi). lia.
Qed.

(** replacing the current row by a row of the same key *)
Lemma iter_replace_ok t it pre y post key : inv t -> on_row t it pre y post -> cmp key y = 0 ->
  exists t' it', iter_replace A t it key = Ok (t', it', y) /\ inv t' /\ flat t' = pre ++ key :: post /\ on_row t' it' pre key post.
Proof.
  intros Hi (a & -> & AP) Hk. unfold iter_replace. cbn [i_current i_pos].
  pose proof (inv_sorted _ Hi) as Hs. rewrite (at_pos_flat _ _ _ _ _ AP) in Hs. apply sorted_remove in Hs. destruct Hs as [_ Har].
  destruct (put_at_ok t a pre y post key Hi AP) as (t' & E1 & Hi' & AP').
  { pose proof (cmp_opp key y). eapply around_equal; [|exact Har]. lia. }
  rewrite E1. cbn [bind i_repos]. eexists _, _. split; [reflexivity|]. split; [exact Hi'|]. split; [apply (at_pos_flat _ _ _ _ _ AP')|].
  eexists. split; [reflexivity|exact AP'].
Qed.

Lemma inv_init : inv (tree_init A).
Proof. apply inv_intro; cbn; try reflexivity; [exists 0%nat; constructor|constructor|constructor]. Qed.
End Tree.
