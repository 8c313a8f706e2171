(** The result of the plans is an answer (SelModel.v, SelSpec.v, SelProofs.v). *)
From Coq Require Import Permutation Sorted.
From Verif Require Import Base TreeSpec UnionModel UnionProofs UnionProps SelModel SelSpec SelProofs.

(** what the C library promises of qsort_r *)
Definition qsort_ok {V} (qsort : (list V -> list V -> Z) -> list (list V) -> list (list V)) : Prop :=
  forall cmp l, key_order cmp -> Permutation l (qsort cmp l) /\ nondecreasing cmp (qsort cmp l).

(** ** sorted lists *)
Section Lists.
Context {A : Type} (cmp : A -> A -> Z).

Lemma ss_app : forall (R : A -> A -> Prop) l1 l2, StronglySorted R l1 -> StronglySorted R l2 ->
  (forall x y, In x l1 -> In y l2 -> R x y) -> StronglySorted R (l1 ++ l2).
Proof.
  intros R l1 l2 H1 H2 H. induction l1 as [|a l1 IH]; [exact H2|].
  apply StronglySorted_inv in H1. destruct H1 as [H1 F]. cbn. constructor.
  - apply IH; [exact H1|]. intros x y Hx Hy. apply H; [right; exact Hx|exact Hy].
  - apply Forall_app. split; [exact F|]. apply Forall_forall. intros y Hy. apply H; [left; reflexivity|exact Hy].
Qed.
Lemma ss_split : forall (R : A -> A -> Prop) l1 l2, StronglySorted R (l1 ++ l2) ->
  StronglySorted R l1 /\ StronglySorted R l2 /\ (forall x y, In x l1 -> In y l2 -> R x y).
Proof.
  intros R l1 l2. induction l1 as [|a l1 IH]; cbn; intros H.
  - repeat split; [constructor|exact H|intros x y []].
  - apply StronglySorted_inv in H. destruct H as [H F]. destruct (IH H) as (H1 & H2 & H3).
    apply Forall_app in F. destruct F as [F1 F2]. repeat split.
    + constructor; assumption.
    + exact H2.
    + intros x y [->|Hx] Hy; [rewrite Forall_forall in F2; exact (F2 y Hy)|exact (H3 x y Hx Hy)].
Qed.
Lemma ss_filter : forall (R : A -> A -> Prop) f l, StronglySorted R l -> StronglySorted R (filter f l).
Proof.
  intros R f l H. induction H as [|a l H IH F]; [constructor|]. cbn. destruct (f a); [|exact IH].
  constructor; [exact IH|]. apply Forall_forall. intros x Hx. apply filter_In in Hx. rewrite Forall_forall in F. apply F, Hx.
Qed.
Lemma ss_map : forall {B} (g : B -> A) (R : A -> A -> Prop) (R' : B -> B -> Prop) l, (forall x y, In x l -> In y l -> R' x y -> R (g x) (g y)) ->
  StronglySorted R' l -> StronglySorted R (map g l).
Proof.
  intros B g R R' l H S. induction S as [|a l S IH F]; [constructor|]. cbn. constructor.
  - apply IH. intros x y Hx Hy. apply H; right; assumption.
  - apply Forall_forall. intros y Hy. apply in_map_iff in Hy. destruct Hy as (z & <- & Hz).
    apply H; [left; reflexivity|right; exact Hz|]. rewrite Forall_forall in F. exact (F z Hz).
Qed.
Lemma ss_unmap : forall {B} (g : B -> A) (R : A -> A -> Prop) l, StronglySorted R (map g l) -> StronglySorted (fun x y => R (g x) (g y)) l.
Proof.
  intros B g R l. induction l as [|a l IH]; cbn; intros H; [constructor|].
  apply StronglySorted_inv in H. destruct H as [H F]. constructor; [exact (IH H)|].
  apply Forall_forall. intros y Hy. rewrite Forall_forall in F. apply F. apply in_map. exact Hy.
Qed.

Hypothesis KO : key_order cmp.

Lemma cmp_flip : forall a b, cmp a b <= 0 \/ cmp b a <= 0.
Proof. intros a b. pose proof (ko_opp _ KO a b). destruct (Z.sgn_spec (cmp a b)) as [[? E]|[[? E]|[? E]]], (Z.sgn_spec (cmp b a)) as [[? F]|[[? F]|[? F]]]; lia. Qed.
Lemma cmp_gt : forall a b, 0 < cmp a b -> cmp b a < 0.
Proof. intros a b H. pose proof (ko_opp _ KO a b). destruct (Z.sgn_spec (cmp a b)) as [[? E]|[[? E]|[? E]]], (Z.sgn_spec (cmp b a)) as [[? F]|[[? F]|[? F]]]; lia. Qed.

(** in a sorted list with at least [n] elements <= x the first n are *)
Lemma first_le : forall x (M : list A) n, nondecreasing cmp M ->
  (n <= length (filter (fun m => (cmp m x <=? 0)%Z) M))%nat -> forall m, In m (firstn n M) -> cmp m x <= 0.
Proof.
  intros x M. induction M as [|a M IH]; intros n S Hn m Hm.
  - rewrite firstn_nil in Hm. destruct Hm.
  - destruct n as [|n]; [destruct Hm|]. apply StronglySorted_inv in S. destruct S as [S F]. cbn [filter] in Hn.
    destruct (Z.leb_spec (cmp a x) 0) as [Ha|Ha].
    + cbn [length] in Hn. destruct Hm as [<-|Hm]; [exact Ha|]. apply (IH n S); [lia|exact Hm].
    + (* nothing behind a is <= x *)
      exfalso. assert (E : filter (fun m => cmp m x <=? 0) M = []).
      { clear IH Hn Hm S. induction M as [|b M IHM]; [reflexivity|]. cbn [filter].
        apply Forall_cons_iff in F. destruct F as [Fb F]. destruct (Z.leb_spec (cmp b x) 0) as [Hb|Hb].
        - pose proof (ko_trans _ KO a b x Fb Hb). lia.
        - apply IHM, F. }
      rewrite E in Hn. cbn in Hn. lia.
Qed.

Lemma filter_all : forall (f : A -> bool) l, (forall x, In x l -> f x = true) -> filter f l = l.
Proof.
  intros f l H. induction l as [|a l IH]; [reflexivity|]. cbn. rewrite (H a (or_introl eq_refl)). f_equal. apply IH.
  intros x Hx. apply H. right. exact Hx.
Qed.
Lemma perm_filter_length : forall (f : A -> bool) l l', Permutation l l' -> length (filter f l) = length (filter f l').
Proof.
  intros f l l' P. induction P; cbn; [reflexivity| | |congruence].
  - destruct (f x); cbn; congruence.
  - destruct (f x), (f y); reflexivity.
Qed.
Lemma filter_concat_length : forall (f : A -> bool) (Ls : list (list A)) l, In l Ls -> (length (filter f l) <= length (filter f (concat Ls)))%nat.
Proof.
  intros f Ls l H. induction Ls as [|a Ls IH]; [destruct H|]. cbn. rewrite filter_app, app_length.
  destruct H as [->|H]; [lia|]. specialize (IH H). lia.
Qed.

(** the first n rows of every sorted input are enough for the first n of the merge *)
Lemma cut : forall (sort : list A -> list A) n (Ss : list (list A)) M',
  (forall l, Permutation l (sort l) /\ nondecreasing cmp (sort l)) ->
  Forall (nondecreasing cmp) Ss ->
  Permutation M' (concat (map (firstn n) Ss)) -> nondecreasing cmp M' ->
  exists M, Permutation M (concat Ss) /\ nondecreasing cmp M /\ firstn n M = firstn n M'.
Proof.
  intros sort n Ss M' Hsort HS P S'.
  set (rest := skipn n M' ++ concat (map (skipn n) Ss)).
  exists (firstn n M' ++ sort rest). destruct (Hsort rest) as [Pr Sr].
  assert (Long : forall l x, In l Ss -> In x (skipn n l) -> (n <= length M')%nat /\ forall m, In m (firstn n M') -> cmp m x <= 0).
  { intros l x Hl Hx.
    assert (Ln : length (firstn n l) = n).
    { apply firstn_length_le. destruct (Nat.le_gt_cases n (length l)); [assumption|]. rewrite skipn_all2 in Hx by lia. destruct Hx. }
    rewrite Forall_forall in HS. pose proof (HS l Hl) as Sl. rewrite <- (firstn_skipn n l) in Sl.
    apply ss_split in Sl. destruct Sl as (_ & _ & Hle).
    assert (C : (n <= length (filter (fun m => (cmp m x <=? 0)%Z) M'))%nat).
    { rewrite (perm_filter_length _ _ _ P).
      etransitivity; [|apply filter_concat_length, in_map, Hl].
      rewrite filter_all; [lia|]. intros y Hy. apply Z.leb_le. apply Hle; assumption. }
    split; [|intros m Hm; exact (first_le x M' n S' C m Hm)].
    etransitivity; [exact C|]. clear. induction M' as [|a M IH]; [reflexivity|]. cbn. destruct (cmp a x <=? 0); cbn; lia. }
  assert (Pc : Permutation (concat (map (firstn n) Ss) ++ concat (map (skipn n) Ss)) (concat Ss)).
  { clear. induction Ss as [|l Ss IH]; [constructor|]. cbn.
    rewrite <- (firstn_skipn n l) at 3. rewrite <- !app_assoc. apply Permutation_app_head.
    rewrite app_assoc. rewrite (Permutation_app_comm _ (skipn n l)), <- app_assoc. apply Permutation_app_head. exact IH. }
  split; [|split].
  - rewrite <- Pr. unfold rest. rewrite app_assoc, firstn_skipn. rewrite P. exact Pc.
  - rewrite <- (firstn_skipn n M') in S'. pose proof (ss_split _ _ _ S') as (S1 & _ & S2).
    apply ss_app; [exact S1|exact Sr|]. intros x y Hx Hy. apply (Permutation_in _ (Permutation_sym Pr)) in Hy.
    unfold rest in Hy. apply in_app_iff in Hy. destruct Hy as [Hy|Hy]; [exact (S2 x y Hx Hy)|].
    apply in_concat in Hy. destruct Hy as (sl & Hsl & Hy). apply in_map_iff in Hsl. destruct Hsl as (l & <- & Hl).
    exact (proj2 (Long l y Hl Hy) x Hx).
  - destruct (Nat.le_gt_cases n (length M')) as [Hn|Hn].
    + rewrite firstn_app, firstn_firstn, Nat.min_id, firstn_length_le by exact Hn.
      rewrite Nat.sub_diag, firstn_O, app_nil_r. reflexivity.
    + assert (E : rest = []).
      { unfold rest. rewrite skipn_all2 by lia. destruct (concat (map (skipn n) Ss)) as [|y ys] eqn:Ec; [reflexivity|].
        exfalso. assert (Hy : In y (concat (map (skipn n) Ss))) by (rewrite Ec; left; reflexivity).
        apply in_concat in Hy. destruct Hy as (sl & Hsl & Hy). apply in_map_iff in Hsl. destruct Hsl as (l & <- & Hl).
        destruct (Long l y Hl Hy). lia. }
      rewrite E in *. apply Permutation_nil in Pr. rewrite Pr, app_nil_r, firstn_firstn, Nat.min_id. reflexivity.
Qed.

(** elements that are all different for [cmp] *)
Definition differ (l : list A) : Prop := ForallOrdPairs (fun a b => cmp a b <> 0) l.
Lemma cmp_refl : forall a, cmp a a = 0.
Proof. intros a. pose proof (ko_opp _ KO a a). destruct (Z.sgn_spec (cmp a a)) as [[? E]|[[? E]|[? E]]]; lia. Qed.
Lemma cmp_sym0 : forall a b, cmp a b = 0 -> cmp b a = 0.
Proof. intros a b H. pose proof (ko_opp _ KO a b) as E. rewrite H in E. cbn in E. destruct (Z.sgn_spec (cmp b a)) as [[? F]|[[? F]|[? F]]]; lia. Qed.
Lemma differ_eq : forall l x y, differ l -> In x l -> In y l -> cmp x y = 0 -> x = y.
Proof.
  intros l x y D Hx Hy E. destruct (ForallOrdPairs_In D x y Hx Hy) as [H|[H|H]]; [exact H|congruence|].
  apply cmp_sym0 in E. congruence.
Qed.
Lemma differ_nodup : forall l, differ l -> NoDup l.
Proof.
  intros l D. induction D as [|a l F D IH]; constructor; [|exact IH]. intros H. rewrite Forall_forall in F.
  apply (F a H). apply cmp_refl.
Qed.
Lemma differ_perm : forall l l', Permutation l l' -> differ l -> differ l'.
Proof.
  intros l l' P. induction P as [|x l l' P IH|x y l|l l' l'' P1 IH1 P2 IH2]; intros D; [exact D| | |auto].
  - inversion D as [|? ? F D' E]; subst. constructor; [|exact (IH D')]. rewrite <- P. exact F.
  - inversion D as [|? ? F D1]; subst. inversion D1 as [|? ? F' D2]; subst.
    apply Forall_cons_iff in F. destruct F as [Fx F]. constructor.
    + constructor; [|exact F']. intros E. apply Fx, cmp_sym0, E.
    + constructor; assumption.
Qed.
Lemma increasing_nondecreasing : forall l, increasing cmp l -> nondecreasing cmp l.
Proof.
  intros l H. induction H as [|a l H IH F]; constructor; [exact IH|]. eapply Forall_impl; [|exact F]. cbn. intros; lia.
Qed.
Lemma increasing_differ : forall l, increasing cmp l -> differ l.
Proof.
  intros l H. induction H as [|a l H IH F]; constructor; [|exact IH]. eapply Forall_impl; [|exact F]. cbn. intros; lia.
Qed.
Lemma differ_increasing : forall l, nondecreasing cmp l -> differ l -> increasing cmp l.
Proof.
  intros l H D. induction H as [|a l H IH F]; [constructor|]. inversion D as [|? ? Fd D']; subst. constructor; [exact (IH D')|].
  rewrite Forall_forall in *. intros x Hx. specialize (F x Hx). specialize (Fd x Hx). cbn in *. lia.
Qed.
Lemma differ_sub : forall (Ss : list (list A)) n, differ (concat Ss) -> differ (concat (map (firstn n) Ss)).
Proof.
  assert (Happ : forall l1 l2, differ (l1 ++ l2) <-> differ l1 /\ differ l2 /\ forall x y, In x l1 -> In y l2 -> cmp x y <> 0).
  { intros l1 l2. induction l1 as [|a l1 IH]; cbn.
    - split; [intros H; split; [constructor|split; [exact H|intros x y []]]|intros (_ & H & _); exact H].
    - split.
      + intros D. inversion D as [|? ? F D']; subst. apply IH in D'. destruct D' as (D1 & D2 & D3).
        apply Forall_app in F. destruct F as [F1 F2]. split; [constructor; assumption|]. split; [exact D2|].
        intros x y [<-|Hx] Hy; [rewrite Forall_forall in F2; exact (F2 y Hy)|exact (D3 x y Hx Hy)].
      + intros (D1 & D2 & D3). inversion D1 as [|? ? F D']; subst. constructor.
        * apply Forall_app. split; [exact F|]. apply Forall_forall. intros y Hy. apply D3; [left; reflexivity|exact Hy].
        * apply IH. split; [exact D'|]. split; [exact D2|]. intros x y Hx Hy. apply D3; [right; exact Hx|exact Hy]. }
  intros Ss n. induction Ss as [|l Ss IH]; cbn; intros D; [exact D|].
  apply Happ in D. destruct D as (D1 & D2 & D3). rewrite <- (firstn_skipn n l) in D1. apply Happ in D1. destruct D1 as (D1 & _ & _).
  apply Happ. split; [exact D1|]. split; [exact (IH D2)|]. intros x y Hx Hy. apply D3.
  - rewrite <- (firstn_skipn n l). apply in_or_app. left. exact Hx.
  - apply in_concat in Hy. destruct Hy as (sl & Hs & Hy). apply in_map_iff in Hs. destruct Hs as (l2 & <- & Hl).
    apply in_concat. exists l2. split; [exact Hl|]. rewrite <- (firstn_skipn n l2). apply in_or_app. left. exact Hy.
Qed.
End Lists.

(** ** answers *)
Section Answers.
Context {V : Type} (vnull : V) (vcmp : V -> V -> Z).
Hypothesis KO : key_order vcmp.
Hypothesis TV : three_valued vcmp.
Context (q : @query V).
Hypothesis Q : query_ok q.

Notation scmp := (store_compare vnull vcmp (length (q_ret q)) (map snd (order_by q))).
Notation push := (pushed vnull q).
Notation kept rows := (map push (filter (keeps q) rows)).
Definition ret_of (r : list V) : list V := map (ev vnull r) (q_ret q).
Definition keys_of (r : list V) : list V := map (fun p => ev vnull r (fst p)) (order_by q).

Lemma scmp_order : key_order scmp.
Proof.
  pose proof (keys_cmp_order vnull vcmp KO TV (map snd (order_by q))) as [O T]. unfold store_compare. split.
  - intros a b. apply O.
  - intros a b c. apply T.
Qed.
Lemma scmp_three : three_valued scmp.
Proof. intros a b. unfold store_compare. apply keys_cmp_three; assumption. Qed.

Lemma firstn_push : forall r, firstn (length (q_ret q)) (push r) = ret_of r.
Proof.
  intros r. unfold pushed, ret_of. rewrite firstn_app, map_length, Nat.sub_diag, firstn_O, app_nil_r.
  apply firstn_all2. rewrite map_length. lia.
Qed.
Lemma skipn_push : forall r, skipn (length (q_ret q)) (push r) = keys_of r.
Proof.
  intros r. unfold pushed, keys_of. rewrite skipn_app, map_length, Nat.sub_diag.
  rewrite skipn_all2 by (rewrite map_length; lia). reflexivity.
Qed.
Lemma scmp_push : forall a b, scmp (push a) (push b) = keys_cmp vnull vcmp (map snd (order_by q)) (keys_of a) (keys_of b).
Proof. intros a b. unfold store_compare. rewrite !skipn_push. reflexivity. Qed.

Lemma window_map : forall {A B} (f : A -> B) l, map f (window q l) = window q (map f l).
Proof.
  intros A B f l. unfold window. cbv zeta. rewrite skipn_map. destruct (q_limit q); [|reflexivity].
  rewrite firstn_map. reflexivity.
Qed.
Lemma window_firstn : forall {A} (l o : Z) (a b : list A), q_limit q = Some l -> q_offset q = Some o ->
  firstn (Z.to_nat (l + o)) a = firstn (Z.to_nat (l + o)) b -> window q a = window q b.
Proof.
  intros A l o a b El Eo E. destruct Q as (Ql & Qo & _). pose proof (Ql l El). pose proof (Qo o Eo).
  unfold window. rewrite El, Eo, !firstn_skipn_comm. f_equal.
  replace (Z.to_nat o + Z.to_nat l)%nat with (Z.to_nat (l + o)) by lia. exact E.
Qed.
Lemma window_firstn_no : forall {A} (l : Z) (a b : list A), q_limit q = Some l -> q_offset q = None ->
  firstn (Z.to_nat l) a = firstn (Z.to_nat l) b -> window q a = window q b.
Proof. intros A l a b El Eo E. unfold window. rewrite El, Eo. exact E. Qed.

Lemma answer_plain : forall rows M, q_distinct q = false ->
  Permutation M (kept rows) -> nondecreasing scmp M ->
  answer vnull vcmp q rows (map (firstn (length (q_ret q))) (window q M)).
Proof.
  intros rows M D P S. unfold answer. rewrite D.
  apply Permutation_map_inv in P. destruct P as (F & -> & P).
  exists (map (fun r => (ret_of r, keys_of r)) F). split; [|split].
  - unfold selected, ret_of, keys_of, order_by. rewrite D. apply Permutation_map. symmetry. exact P.
  - unfold ordered. apply ss_unmap in S. eapply ss_map; [|exact S]. cbn. intros x y _ _ H.
    rewrite scmp_push in H. unfold order_by in H. rewrite D in H.
    assert (E : map (fun p : expr * bool => negb (snd p)) (q_orderby q) = map negb (map snd (q_orderby q)))
      by (rewrite map_map; reflexivity).
    rewrite E, (lex_keys vnull).
    + exact H.
    + unfold keys_of, order_by. rewrite D, !map_length. reflexivity.
    + unfold keys_of, order_by. rewrite D, !map_length. reflexivity.
  - rewrite window_map, !map_map. f_equal. apply map_ext. intros r. cbn. apply firstn_push.
Qed.

Lemma distinct_keys : forall r, q_distinct q = true -> keys_of r = ret_of r.
Proof. intros r D. unfold keys_of, ret_of, order_by. rewrite D, map_map. reflexivity. Qed.
Lemma scmp_distinct : forall a b, q_distinct q = true -> scmp (push a) (push b) = lex vcmp [] (ret_of a) (ret_of b).
Proof.
  intros a b D. rewrite scmp_push, !distinct_keys by exact D. rewrite (lex_nil vnull).
  - f_equal. unfold order_by, ret_of. rewrite D, !map_map. reflexivity.
  - unfold ret_of. rewrite !map_length. reflexivity.
Qed.

Lemma answer_distinct : forall rows M, q_distinct q = true ->
  increasing scmp M -> (forall x, In x M -> In x (kept rows)) ->
  (forall x, In x (kept rows) -> exists y, In y M /\ scmp y x = 0) ->
  answer vnull vcmp q rows (map (firstn (length (q_ret q))) (window q M)).
Proof.
  intros rows M D S Hin Hcov. unfold answer. rewrite D.
  assert (Sel : forall r, In r (map fst (selected vnull q rows)) <-> exists x, In x (filter (keeps q) rows) /\ r = ret_of x).
  { intros r. unfold selected. rewrite map_map. rewrite in_map_iff. cbn. unfold ret_of, keeps. split.
    - intros (x & <- & Hx). exists x. auto.
    - intros (x & Hx & ->). exists x. auto. }
  exists (map (firstn (length (q_ret q))) M). split; [|split; [|split]].
  - eapply ss_map; [|exact S]. cbn. intros x y Hx Hy H.
    apply Hin in Hx. apply Hin in Hy. apply in_map_iff in Hx. apply in_map_iff in Hy.
    destruct Hx as (a & <- & _). destruct Hy as (b & <- & _). rewrite scmp_distinct in H by exact D.
    rewrite !firstn_push. exact H.
  - intros r Hr. apply in_map_iff in Hr. destruct Hr as (x & <- & Hx). apply Hin in Hx.
    apply in_map_iff in Hx. destruct Hx as (a & <- & Ha). apply Sel. exists a. split; [exact Ha|apply firstn_push].
  - intros r Hr. apply Sel in Hr. destruct Hr as (a & Ha & ->).
    destruct (Hcov (push a) (in_map _ _ _ Ha)) as (y & Hy & E).
    exists (firstn (length (q_ret q)) y). split; [apply in_map; exact Hy|].
    apply Hin in Hy. apply in_map_iff in Hy. destruct Hy as (b & <- & _). rewrite scmp_distinct in E by exact D.
    rewrite firstn_push. exact E.
  - apply window_map.
Qed.

(** the union with the window of the query *)
Lemma union_window_rows : forall c t inputs, Z.of_nat (length (concat inputs)) < INT64_MAX ->
  union_rows (A:=list V) c t inputs (match q_limit q with Some n => n | None => INT64_MAX end)
    (Z.to_nat (match q_offset q with Some n => n | None => 0 end)) = window q (no_limit c t inputs).
Proof.
  intros c t inputs H. destruct Q as (Ql & _). rewrite C41_limit_offset.
  - unfold window. assert (E : Z.to_nat (match q_offset q with Some n => n | None => 0 end) =
      match q_offset q with Some o => Z.to_nat o | None => 0%nat end) by (destruct (q_offset q); reflexivity).
    rewrite E. destruct (q_limit q) as [l|]; [reflexivity|]. apply firstn_all2.
    rewrite skipn_length. destruct (yields_exists c t inputs) as (r & Y & B).
    unfold no_limit. rewrite (union_rows_yields c t inputs r _ _ Y B) by (try exact H; unfold INT64_MAX; lia).
    cbn [skipn]. rewrite firstn_length. unfold total in *. unfold INT64_MAX in *. lia.
  - destruct (q_limit q) as [l|]; [apply (Ql l eq_refl)|unfold INT64_MAX; lia].
  - exact H.
Qed.

Lemma visible_union : forall t (lists : list (list (list V))), Z.of_nat (length (concat lists)) < INT64_MAX ->
  visible (union_store vnull vcmp (the_union q t (map (the_store q) lists)))
  = map (firstn (length (q_ret q))) (window q (no_limit scmp t lists)).
Proof.
  intros t lists H. unfold visible, union_store. cbn [the_union u_inputs u_type u_limit u_offset].
  destruct lists as [|l ls] eqn:El.
  - assert (E : no_limit scmp t [] = []).
    { pose proof (yields_exists scmp t []) as (r & Y & B). unfold no_limit.
      rewrite (union_rows_yields scmp t [] r _ _ Y B) by (unfold total, INT64_MAX; cbn; lia).
      destruct r; [|cbn in B; lia]. cbn [skipn]. apply firstn_nil. }
    rewrite E. unfold window. rewrite skipn_nil. destruct (q_limit q); rewrite ?firstn_nil; reflexivity.
  - rewrite <- El in *. assert (E : map (the_store q) lists = the_store q l :: map (the_store q) ls) by (rewrite El; reflexivity).
    rewrite E. rewrite <- E. cbn [st_cols st_keys st_order st_rows the_store].
    rewrite map_map. cbn [st_rows the_store]. rewrite map_id. rewrite union_window_rows by exact H. reflexivity.
Qed.

(** the keys of the ORDER BY are the keys of the index *)
Lemma match_keys_spec : forall l keys, match_keys l keys = true ->
  (forall r, map (fun p => ev vnull r (fst p)) l = map (fun i => nth i r vnull) keys) /\ map snd l = map (fun _ => true) keys.
Proof.
  induction l as [|[e b] l IH]; intros [|k keys] H; cbn in H; try discriminate.
  - split; reflexivity.
  - destruct e; [destruct b|]; discriminate H.
  - destruct e as [i|f]; [|discriminate]. destruct b; [|discriminate].
    apply andb_true_iff in H. destruct H as [H1 H2]. apply Nat.eqb_eq in H1. subst i.
    destruct (IH keys H2) as [E1 E2]. split; [intros r; cbn; rewrite E1; reflexivity|cbn; rewrite E2; reflexivity].
Qed.
Lemma scmp_key : forall t a b, match_index q t = true -> scmp (push a) (push b) = lex vcmp [] (key vnull t a) (key vnull t b).
Proof.
  intros t a b H. unfold match_index in H. apply andb_true_iff in H. destruct H as [_ H].
  destruct (match_keys_spec _ _ H) as [E1 E2]. rewrite scmp_push. unfold keys_of. rewrite !E1, E2.
  rewrite (lex_nil vnull) by (unfold key; rewrite !map_length; reflexivity).
  unfold key. rewrite map_map. reflexivity.
Qed.

Lemma sorted_kept : forall t part, match_index q t = true ->
  StronglySorted (fun a b => lex vcmp [] (key vnull t a) (key vnull t b) <= 0) part -> nondecreasing scmp (kept part).
Proof.
  intros t part H S. unfold nondecreasing. eapply ss_map; [|apply ss_filter; exact S].
  cbn. intros x y _ _ Hxy. rewrite (scmp_key t) by exact H. exact Hxy.
Qed.

Lemma fop_filter_map : forall {A B} (R : A -> A -> Prop) (R' : B -> B -> Prop) (g : A -> B) f l,
  (forall x y, R x y -> R' (g x) (g y)) -> ForallOrdPairs R l -> ForallOrdPairs R' (map g (filter f l)).
Proof.
  intros A B R R' g f l H F. induction F as [|a l Fa F IH]; [constructor|]. cbn. destruct (f a); [|exact IH].
  cbn. constructor; [|exact IH]. apply Forall_forall. intros y Hy. apply in_map_iff in Hy. destruct Hy as (x & <- & Hx).
  apply filter_In in Hx. rewrite Forall_forall in Fa. apply H, Fa, Hx.
Qed.

Lemma concat_kept : forall parts, kept (concat parts) = concat (map (fun p => kept p) parts).
Proof.
  intros parts. induction parts as [|p ps IH]; [reflexivity|]. cbn. rewrite filter_app, map_app, IH. reflexivity.
Qed.
Lemma kept_length : forall rows, (length (kept rows) <= length rows)%nat.
Proof. intros rows. rewrite map_length. induction rows as [|a rows IH]; [cbn; lia|]. cbn. destruct (keeps q a); cbn; lia. Qed.

(** ** the union of the partitions *)
Lemma nondecreasing_zero : forall (l : list (list V)), order_by q = [] -> nondecreasing scmp l.
Proof.
  intros l H. induction l as [|a l IH]; constructor; [exact IH|]. apply Forall_forall. intros x _.
  unfold store_compare. rewrite H. cbn. lia.
Qed.
Lemma not_distinct : order_by q = [] -> q_distinct q = false.
Proof.
  intros H. destruct (q_distinct q) eqn:D; [|reflexivity]. destruct Q as (_ & _ & _ & N). unfold order_by in H. rewrite D in H.
  destruct (q_ret q); [congruence|discriminate].
Qed.

(** merge of full sorted inputs *)
Lemma union_full : forall parts (Ss : list (list (list V))),
  Z.of_nat (length (concat parts)) < INT64_MAX ->
  Permutation (concat Ss) (kept (concat parts)) -> Forall (nondecreasing scmp) Ss ->
  answer vnull vcmp q (concat parts)
    (map (firstn (length (q_ret q))) (window q (no_limit scmp (if q_distinct q then UDISTINCT else UORDERED) Ss))).
Proof.
  intros parts Ss HT P HS.
  assert (HL : Z.of_nat (length (concat Ss)) < INT64_MAX).
  { rewrite (Permutation_length P). pose proof (kept_length (concat parts)). lia. }
  destruct (q_distinct q) eqn:D.
  - destruct (C42_union_distinct_partial _ scmp Ss scmp_order scmp_three HS HL) as (I & H1 & H2).
    apply answer_distinct; [exact D|exact I| |].
    + intros x Hx. eapply Permutation_in; [exact P|]. apply H1, Hx.
    + intros x Hx. apply H2. eapply Permutation_in; [symmetry; exact P|exact Hx].
  - destruct (C05_merge_sorted_partial _ scmp Ss scmp_order scmp_three HS HL) as (P1 & S1).
    apply answer_plain; [exact D| |exact S1]. rewrite <- P1. exact P.
Qed.

(** merge of inputs that were cut after [n] rows *)
Lemma union_cut : forall sort parts n (Ss : list (list (list V))) t,
  (forall l, Permutation l (sort l) /\ nondecreasing scmp (sort l)) ->
  Z.of_nat (length (concat parts)) < INT64_MAX ->
  concat Ss = kept (concat parts) -> Forall (nondecreasing scmp) Ss ->
  (forall (a b : list (list V)), firstn n a = firstn n b -> window q a = window q b) ->
  (t = UALL /\ order_by q = []) \/ (t = (if q_distinct q then UDISTINCT else UORDERED)) ->
  (q_distinct q = true -> differ scmp (concat Ss)) ->
  answer vnull vcmp q (concat parts)
    (map (firstn (length (q_ret q))) (window q (no_limit scmp t (map (firstn n) Ss)))).
Proof.
  intros sort parts n Ss t Hsort HT P HS Hw Ht HD.
  assert (HL : Z.of_nat (length (concat (map (firstn n) Ss))) < INT64_MAX).
  { assert (L : (length (concat (map (firstn n) Ss)) <= length (concat Ss))%nat).
    { clear. induction Ss as [|l Ss IH]; [reflexivity|]. cbn. rewrite !app_length, firstn_length. lia. }
    rewrite P in L. pose proof (kept_length (concat parts)). lia. }
  assert (HF : Forall (nondecreasing scmp) (map (firstn n) Ss)).
  { apply Forall_forall. intros l Hl. apply in_map_iff in Hl. destruct Hl as (s & <- & Hs).
    rewrite Forall_forall in HS. specialize (HS s Hs). unfold nondecreasing in *.
    rewrite <- (firstn_skipn n s) in HS. apply ss_split in HS. tauto. }
  set (M' := no_limit scmp t (map (firstn n) Ss)).
  assert (PM : Permutation M' (concat (map (firstn n) Ss)) /\ nondecreasing scmp M').
  { unfold M'. destruct Ht as [[Et E]|Et]; rewrite Et.
    - rewrite C42_union_all by exact HL. split; [reflexivity|apply nondecreasing_zero, E].
    - destruct (q_distinct q) eqn:D.
      + destruct (C42_union_distinct_partial _ scmp _ scmp_order scmp_three HF HL) as (I & H1 & H2).
        specialize (HD eq_refl). apply (differ_sub scmp _ n) in HD.
        split; [|apply increasing_nondecreasing, I]. apply NoDup_Permutation.
        * apply (differ_nodup scmp scmp_order), increasing_differ, I.
        * apply (differ_nodup scmp scmp_order), HD.
        * intros x. split; [apply H1|]. intros Hx. destruct (H2 x Hx) as (y & Hy & E).
          rewrite <- (differ_eq scmp scmp_order _ y x HD (H1 y Hy) Hx E). exact Hy.
      + destruct (C05_merge_sorted_partial _ scmp _ scmp_order scmp_three HF HL) as (P1 & S1).
        split; [symmetry; exact P1|exact S1]. }
  destruct PM as [PM SM].
  destruct (cut scmp scmp_order sort n Ss M' Hsort HS PM SM) as (M & P1 & S1 & E).
  rewrite (Hw M' M) by (symmetry; exact E). rewrite P in P1.
  destruct (q_distinct q) eqn:D.
  - apply answer_distinct; [exact D| | |].
    + apply differ_increasing; [exact S1|]. apply (differ_perm scmp scmp_order (kept (concat parts))); [symmetry; exact P1|].
      rewrite <- P. apply HD. reflexivity.
    + intros x Hx. eapply Permutation_in; [exact P1|exact Hx].
    + intros x Hx. exists x. split; [eapply Permutation_in; [symmetry; exact P1|exact Hx]|apply (cmp_refl scmp scmp_order)].
  - apply answer_plain; [exact D|exact P1|exact S1].
Qed.
End Answers.
