(** Proofs about the order of decisions (executor, queue of the commit task). *)
From Coq Require Import Permutation Sorted.
From Verif Require Import Base TxModel TxSpec.
Local Open Scope nat_scope.

Lemma inb_iff t l : existsb (Nat.eqb t) l = true <-> In t l.
Proof. rewrite existsb_exists. split; [intros (x & H & E); apply Nat.eqb_eq in E; congruence|intros H; exists t; split; [exact H|apply Nat.eqb_refl]]. Qed.
Lemma inb_false t l : existsb (Nat.eqb t) l = false <-> ~ In t l.
Proof. rewrite <- inb_iff. destruct (existsb (Nat.eqb t) l); intuition congruence. Qed.
Lemma overlaps_iff a b : overlaps a b = true <-> exists p, In p a /\ In p b.
Proof. unfold overlaps. rewrite existsb_exists. split; intros (p & H1 & H2); exists p; (split; [exact H1|]); now apply inb_iff. Qed.

(** ** the queue of the commit task *)
Lemma group_add_perm o l t : Permutation (group_add o l t) (t :: l).
Proof. induction l as [|x l IH]; [reflexivity|]. cbn [group_add]. destruct (o t <? o x); [reflexivity|]. rewrite IH. apply perm_swap. Qed.
Lemma group_pop_spec o : forall l next pop rest n, group_pop o l next = (pop, rest, n) ->
  l = pop ++ rest /\ n = next + length pop /\ map o pop = seq next (length pop) /\ (forall x r, rest = x :: r -> o x <> n).
Proof.
  induction l as [|x l IH]; intros next pop rest n H; cbn [group_pop] in H.
  - inversion H. subst. cbn. repeat split; [lia|discriminate].
  - destruct (Nat.eqb_spec (o x) next) as [E|E].
    + destruct (group_pop o l (S next)) as [[pop1 rest1] n1] eqn:Eg. inversion H. subst. destruct (IH _ _ _ _ Eg) as (-> & -> & H3 & H4).
      cbn [app length map seq]. repeat split; [lia|f_equal; assumption|exact H4].
    + inversion H. subst. cbn. repeat split; [lia|]. intros y r Ey. inversion Ey. subst. exact E.
Qed.
Lemma commit_add_spec o : forall q g t, exists q1 x q2 pop rest n,
  (q = q1 ++ x :: q2 \/ (q = q1 /\ q2 = [] /\ x = mkgroup g 0 [])) /\ g_id x = g /\ ~ In g (map g_id q1) /\
  group_pop o (group_add o (g_list x) t) (g_next x) = (pop, rest, n) /\ commit_add o q g t = (q1 ++ mkgroup g n rest :: q2, pop).
Proof.
  induction q as [|x q IH]; intros g t.
  - destruct (group_pop o (group_add o [] t) 0) as [[pop rest] n] eqn:E. exists [], (mkgroup g 0 []), [], pop, rest, n. cbn [commit_add]. rewrite E. cbn. auto 8.
  - cbn [commit_add]. destruct (Nat.eqb_spec (g_id x) g) as [E|E].
    + destruct (group_pop o (group_add o (g_list x) t) (g_next x)) as [[pop rest] n] eqn:Eg. exists [], x, q, pop, rest, n. cbn. auto 8.
    + destruct (IH g t) as (q1 & y & q2 & pop & rest & n & H1 & H2 & H3 & H4 & H5). rewrite H5. exists (x :: q1), y, q2, pop, rest, n. split; [|split; [exact H2|split; [|split; [exact H4|reflexivity]]]].
      * destruct H1 as [->|(-> & -> & ->)]; [left|right]; auto.
      * cbn. tauto.
Qed.

(** ** the invariant *)
Definition grp (txs : list tx) (t : nat) : nat := t_group (nth t txs notx).
Definition ord (txs : list tx) (t : nat) : nat := t_order (nth t txs notx).
Definition prt (txs : list tx) (t : nat) : list nat := t_parts (nth t txs notx).
Definition shr (txs : list tx) (t1 t2 : nat) : Prop := exists p, In p (prt txs t1) /\ In p (prt txs t2).
(** [D]: the transactions that left the list of the executor *)
Record core (txs : list tx) (next : nat) (D mail : list nat) (q : list group) (pop : list nat) (done : nat -> bool) : Prop := mkcore {
  k_D : incl D pop;
  k_nodup : NoDup (mail ++ concat (map g_list q) ++ pop);
  k_att : forall t, In t (mail ++ concat (map g_list q) ++ pop) -> t < length txs /\ done t = true;
  k_queue : forall x t, In x q -> In t (g_list x) -> grp txs t = g_id x;
  k_qid : NoDup (map g_id q);
  k_qnext : forall x, In x q -> g_id x < next;
  k_grp : forall t, t < length txs -> 1 <= grp txs t < next;
  k_same : forall t1 t2, t1 < length txs -> t2 < length txs -> grp txs t1 = grp txs t2 -> shr txs t1 t2;
  k_ord : forall t1 t2, t1 < t2 -> t2 < length txs -> grp txs t1 = grp txs t2 -> ord txs t1 < ord txs t2;
  k_diff : forall t1 t2, t1 < t2 -> t2 < length txs -> shr txs t1 t2 -> grp txs t1 <> grp txs t2 -> In t1 D;
  k_pre : forall g, exists k, (forall t, t < length txs -> grp txs t = g -> (In t pop <-> ord txs t < k)) /\
            (forall x, In x q -> g_id x = g -> g_next x = k \/ g_next x = 0) /\
            (k = 0 \/ exists t, t < length txs /\ grp txs t = g /\ S (ord txs t) = k);
  k_c11 : forall A t2 B, pop = A ++ t2 :: B -> forall t1, t1 < t2 -> shr txs t1 t2 -> In t1 A }.

Lemma concat_mid (q1 q2 : list group) x : concat (map g_list (q1 ++ x :: q2)) = concat (map g_list q1) ++ g_list x ++ concat (map g_list q2).
Proof. rewrite map_app, concat_app. cbn [map concat]. reflexivity. Qed.
Lemma nth_split_eq {A} (l : list A) i d : i < length l -> l = firstn i l ++ nth i l d :: skipn (S i) l.
Proof. revert i. induction l as [|x l IH]; intros [|i] H; cbn in *; try lia; [reflexivity|]. f_equal. apply IH. lia. Qed.
Lemma app_split {A} (l r A1 B1 : list A) x : l ++ r = A1 ++ x :: B1 -> (exists B2, l = A1 ++ x :: B2) \/ (exists A2, A1 = l ++ A2 /\ r = A2 ++ x :: B1).
Proof.
  revert A1. induction l as [|y l IH]; intros A1 H; cbn in H; [right; exists A1; auto|]. destruct A1 as [|z A1]; cbn in H.
  - inversion H. subst. left. exists l. reflexivity.
  - inversion H. subst. destruct (IH _ H2) as [[B2 ->]|(A2 & -> & ->)]; [left; exists B2; reflexivity|right; exists A2; split; reflexivity].
Qed.

Lemma nodup_r {A} (l r : list A) : NoDup (l ++ r) -> NoDup r.
Proof. induction l as [|x l IH]; intros H; [exact H|]. cbn in H. inversion H. auto. Qed.
Lemma nodup_dis {A} (l r : list A) x : NoDup (l ++ r) -> In x l -> In x r -> False.
Proof. induction l as [|y l IH]; intros H Hl Hr; [destruct Hl|]. cbn in H. inversion H as [|? ? N H']. subst. destruct Hl as [->|Hl]; [apply N, in_or_app; now right|now apply IH]. Qed.
Lemma core_add txs next D t mail q pop done : core txs next D (t :: mail) q pop done ->
  let (q', b) := commit_add (ord txs) q (grp txs t) t in core txs next D mail q' (pop ++ b) done.
Proof.
  intros K. set (g := grp txs t). destruct (commit_add_spec (ord txs) q g t) as (q1 & x & q2 & b & rest & n & Hq & Hx & Hn & Hp & ->).
  destruct (group_pop_spec _ _ _ _ _ _ Hp) as (Hl & Hn' & Ho & _). pose proof (group_add_perm (ord txs) (g_list x) t) as Pa. rewrite Hl in Pa. clear Hp.
  assert (Ht : t < length txs) by (apply (k_att _ _ _ _ _ _ _ K); now left).
  assert (P : Permutation (mail ++ concat (map g_list (q1 ++ mkgroup g n rest :: q2)) ++ pop ++ b) (t :: mail ++ concat (map g_list q) ++ pop)).
  { apply (Permutation_count_occ Nat.eq_dec). intros y. apply (Permutation_count_occ Nat.eq_dec) with (x := y) in Pa. rewrite concat_mid. cbn [g_list].
    destruct Hq as [->|(-> & -> & ->)].
    - rewrite concat_mid. change (t :: mail ++ ?r) with ([t] ++ mail ++ r). change (t :: g_list x) with ([t] ++ g_list x) in Pa. rewrite !count_occ_app in *. lia.
    - cbn [map concat g_list] in *. change (t :: mail ++ ?r) with ([t] ++ mail ++ r). rewrite !count_occ_app in *. cbn [count_occ] in *. lia. }
  assert (ND : NoDup (mail ++ concat (map g_list (q1 ++ mkgroup g n rest :: q2)) ++ pop ++ b)) by (apply (Permutation_NoDup (Permutation_sym P)); exact (k_nodup _ _ _ _ _ _ _ K)).
  assert (Hb : forall y, In y b -> y < length txs /\ grp txs y = g /\ ~ In y pop).
  { intros y Hy. assert (Hy' : In y (t :: g_list x)) by (apply (Permutation_in _ Pa), in_or_app; now left).
    split; [apply (k_att _ _ _ _ _ _ _ K); apply (Permutation_in _ P); rewrite !in_app_iff; tauto|]. split.
    - destruct Hy' as [<-|Hy']; [reflexivity|]. destruct Hq as [->|(-> & -> & ->)]; [|destruct Hy']. rewrite <- Hx. apply (k_queue _ _ _ _ _ _ _ K x); [apply in_or_app; right; now left|exact Hy'].
    - intros Hp. apply nodup_r, nodup_r in ND. exact (nodup_dis _ _ _ ND Hp Hy). }
  assert (Qn : forall z, In z (q1 ++ q2) -> In z q) by (intros z; destruct Hq as [->|(-> & -> & ->)]; rewrite !in_app_iff; cbn; tauto).
  assert (Qi : ~ In g (map g_id (q1 ++ q2))).
  { destruct Hq as [Hq|(-> & -> & ->)]; [|now rewrite app_nil_r]. pose proof (k_qid _ _ _ _ _ _ _ K) as Q. rewrite Hq, map_app in Q. cbn [map] in Q. rewrite Hx in Q. apply NoDup_remove_2 in Q. now rewrite map_app. }
  destruct (k_pre _ _ _ _ _ _ _ K g) as (k & K1 & K2 & K3).
  assert (Nx : b <> [] -> g_next x = k).
  { intros Nb. destruct Hq as [Hq|(-> & -> & ->)].
    - destruct (K2 x) as [E|E]; [rewrite Hq; apply in_or_app; right; now left|exact Hx|exact E|]. destruct k as [|k]; [exact E|]. exfalso. destruct b as [|y b]; [congruence|]. destruct (Hb y) as (B1 & B2 & B3); [now left|].
      cbn [map length seq] in Ho. pose proof (f_equal (hd 0) Ho) as E1; cbn [hd] in E1. apply B3. apply K1; [exact B1|exact B2|]. lia.
    - cbn [g_next] in *. destruct b as [|y b]; [congruence|]. destruct (Hb y) as (B1 & B2 & B3); [now left|]. cbn [map length seq] in Ho. pose proof (f_equal (hd 0) Ho) as E1; cbn [hd] in E1. destruct k as [|k]; [reflexivity|]. exfalso. apply B3. apply K1; [exact B1|exact B2|]. lia. }
  assert (Bi : forall i, i < length b -> ord txs (nth i b 0) = g_next x + i).
  { intros i Hi. rewrite <- (map_nth (ord txs)). rewrite (nth_indep _ _ 0) by now rewrite map_length. rewrite Ho. now rewrite seq_nth. }
  assert (Inj : forall y z, y < length txs -> z < length txs -> grp txs y = grp txs z -> ord txs y = ord txs z -> y = z).
  { intros y z Hy Hz Eg Eo. destruct (Nat.lt_trichotomy y z) as [L|[L|L]]; [|exact L|]; [pose proof (k_ord _ _ _ _ _ _ _ K y z L Hz Eg)|pose proof (k_ord _ _ _ _ _ _ _ K z y L Hy (eq_sym Eg))]; lia. }
  assert (Bk : forall y, y < length txs -> grp txs y = g -> forall i, i <= length b -> b <> [] -> ord txs y < k + i -> In y pop \/ In y (firstn i b)).
  { intros y Hy Eg i Hi Nb Lo. destruct (Nat.lt_ge_cases (ord txs y) k) as [L|L]; [left; now apply K1|right]. set (j := ord txs y - k). assert (Hj : j < i) by (unfold j; lia).
    assert (E : y = nth j b 0). { apply Inj; [exact Hy| | |]; try (destruct (Hb (nth j b 0)) as (B1 & B2 & _); [apply nth_In; lia|]); [exact B1|congruence|]. rewrite Bi by lia. rewrite (Nx Nb). unfold j. lia. }
    rewrite E. rewrite <- (firstn_skipn i b) at 1. rewrite app_nth1 by (rewrite firstn_length; lia). apply nth_In. rewrite firstn_length. lia. }
  split.
  - intros y Hy. apply in_or_app. left. now apply (k_D _ _ _ _ _ _ _ K).
  - exact ND.
  - intros y Hy. apply (k_att _ _ _ _ _ _ _ K). apply (Permutation_in _ P). exact Hy.
  - intros z y Hz Hy. apply in_app_iff in Hz as [Hz|[<-|Hz]]; [apply (k_queue _ _ _ _ _ _ _ K z); [apply Qn, in_or_app; now left|exact Hy]| |apply (k_queue _ _ _ _ _ _ _ K z); [apply Qn, in_or_app; now right|exact Hy]].
    cbn [g_list g_id] in *. assert (Hy' : In y (t :: g_list x)) by (apply (Permutation_in _ Pa), in_or_app; now right).
    destruct Hy' as [<-|Hy']; [reflexivity|]. destruct Hq as [->|(-> & -> & ->)]; [|destruct Hy']. rewrite <- Hx. apply (k_queue _ _ _ _ _ _ _ K x); [apply in_or_app; right; now left|exact Hy'].
  - rewrite map_app. cbn [map g_id]. apply (NoDup_Add (a := g) (l := map g_id q1 ++ map g_id q2)); [apply Add_app|]. rewrite <- map_app. split; [|exact Qi].
    pose proof (k_qid _ _ _ _ _ _ _ K) as Q. destruct Hq as [->|(-> & -> & ->)]; [|now rewrite app_nil_r]. rewrite map_app in Q. cbn [map] in Q. apply NoDup_remove_1 in Q. now rewrite map_app.
  - intros z Hz. apply in_app_iff in Hz as [Hz|[<-|Hz]]; [apply (k_qnext _ _ _ _ _ _ _ K), Qn, in_or_app; now left| |apply (k_qnext _ _ _ _ _ _ _ K), Qn, in_or_app; now right].
    cbn [g_id]. now apply (k_grp _ _ _ _ _ _ _ K).
  - exact (k_grp _ _ _ _ _ _ _ K).
  - exact (k_same _ _ _ _ _ _ _ K).
  - exact (k_ord _ _ _ _ _ _ _ K).
  - exact (k_diff _ _ _ _ _ _ _ K).
  - intros g'. destruct (Nat.eq_dec g' g) as [->|Ng].
    + destruct (list_eq_dec Nat.eq_dec b []) as [->|Nb].
      * exists k. rewrite app_nil_r. split; [exact K1|]. split; [|exact K3]. intros z Hz Ez. apply in_app_iff in Hz as [Hz|[<-|Hz]].
        -- exfalso. apply Qi. rewrite <- Ez. apply in_map, in_or_app. now left.
        -- cbn [g_next length] in *. rewrite Hn'. rewrite Nat.add_0_r. destruct Hq as [->|(-> & -> & ->)]; [apply K2; [apply in_or_app; right; now left|exact Hx]|now right].
        -- exfalso. apply Qi. rewrite <- Ez. apply in_map, in_or_app. now right.
      * exists (k + length b). split; [|split].
        -- intros y Hy Eg. rewrite in_app_iff. split.
           ++ intros [Hp|Hyb]; [apply K1 in Hp; [lia|exact Hy|exact Eg]|]. apply (In_nth _ _ 0) in Hyb as (i & Hi & <-). rewrite (Bi i Hi), (Nx Nb). lia.
           ++ intros Lo. destruct (Bk y Hy Eg (length b) (Nat.le_refl _) Nb Lo) as [H|H]; [now left|right]. now rewrite firstn_all in H.
        -- intros z Hz Ez. apply in_app_iff in Hz as [Hz|[<-|Hz]].
           ++ exfalso. apply Qi. rewrite <- Ez. apply in_map, in_or_app. now left.
           ++ left. cbn [g_next]. rewrite Hn', (Nx Nb). reflexivity.
           ++ exfalso. apply Qi. rewrite <- Ez. apply in_map, in_or_app. now right.
        -- right. assert (Lb : length b > 0) by (destruct b; [congruence|cbn; lia]). exists (nth (length b - 1) b 0). destruct (Hb (nth (length b - 1) b 0)) as (B1 & B2 & _); [apply nth_In; lia|].
           split; [exact B1|]. split; [exact B2|]. rewrite Bi, (Nx Nb) by lia. lia.
    + destruct (k_pre _ _ _ _ _ _ _ K g') as (k' & K1' & K2' & K3'). exists k'. split; [|split; [|exact K3']].
      * intros y Hy Eg. rewrite in_app_iff. rewrite <- (K1' y Hy Eg). split; [|now left]. intros [H|H]; [exact H|]. destruct (Hb y H) as (_ & B2 & _). congruence.
      * intros z Hz Ez. apply in_app_iff in Hz as [Hz|[<-|Hz]]; [apply K2'; [apply Qn, in_or_app; now left|exact Ez]|cbn [g_id] in Ez; congruence|apply K2'; [apply Qn, in_or_app; now right|exact Ez]].
  - intros A t2 B E t1 L S. apply app_split in E as [[B2 E]|(A2 & -> & E)]; [exact (k_c11 _ _ _ _ _ _ _ K _ _ _ E t1 L S)|].
    destruct (Hb t2) as (T1 & T2 & _); [rewrite E; apply in_or_app; right; now left|]. apply in_or_app.
    destruct (Nat.eq_dec (grp txs t1) (grp txs t2)) as [Eg|Ng]; [|left; apply (k_D _ _ _ _ _ _ _ K); exact (k_diff _ _ _ _ _ _ _ K t1 t2 L T1 S Ng)].
    assert (Nb : b <> []) by (rewrite E; destruct A2; discriminate). pose proof (k_ord _ _ _ _ _ _ _ K t1 t2 L T1 Eg) as Lo.
    assert (E2 : t2 = nth (length A2) b 0) by (rewrite E; rewrite app_nth2, Nat.sub_diag by lia; reflexivity). assert (Hl2 : length A2 < length b) by (rewrite E, app_length; cbn; lia).
    rewrite E2, (Bi _ Hl2), (Nx Nb) in Lo. destruct (Bk t1 ltac:(lia) ltac:(congruence) (length A2) ltac:(lia) Nb Lo) as [H|H]; [now left|right].
    rewrite E, firstn_app, Nat.sub_diag, firstn_all in H. cbn [firstn] in H. now rewrite app_nil_r in H.
Qed.
Lemma core_loop s next D done : forall l mail q b, core (s_txs s) next D (l ++ mail) q (s_pop s ++ b) done ->
  let (q', b') := collect_loop s l q b in core (s_txs s) next D mail q' (s_pop s ++ b') done.
Proof.
  induction l as [|t l IH]; intros mail q b K; cbn [collect_loop]; [exact K|]. cbn [app] in K. apply core_add in K.
  change (order_of s) with (ord (s_txs s)). change (group_of s t) with (grp (s_txs s) t). destruct (commit_add (ord (s_txs s)) q (grp (s_txs s) t) t) as [q' p].
  apply IH. now rewrite app_assoc.
Qed.
(** ** the whole state *)
Record ginv (s : state) (D : list nat) : Prop := mkginv {
  v_core : core (s_txs s) (s_next s) D (s_mail s) (s_queue s) (s_pop s) (s_done s);
  v_pop : s_pop s = D ++ s_batch s;
  v_list : s_list s = filter (fun t => negb (existsb (Nat.eqb t) D)) (seq 0 (length (s_txs s)));
  v_next : 1 <= s_next s;
  v_parts : forall t, t < length (s_txs s) -> prt (s_txs s) t <> [] /\ NoDup (prt (s_txs s) t);
  v_seen : forall t1 t2, t2 < length (s_txs s) -> In t1 (t_seen (nth t2 (s_txs s) notx)) -> t1 < t2;
  v_free : forall t1 t2, t1 < t2 -> t2 < length (s_txs s) -> shr (s_txs s) t1 t2 -> ~ In t1 (t_seen (nth t2 (s_txs s) notx)) -> In t1 D }.
Lemma in_list s D t : ginv s D -> In t (s_list s) <-> t < length (s_txs s) /\ ~ In t D.
Proof. intros V. rewrite (v_list _ _ V), filter_In, in_seq, Bool.negb_true_iff, inb_false. intuition lia. Qed.
Lemma nth_snoc {A} (l : list A) x d t : nth t (l ++ [x]) d = if t <? length l then nth t l d else if t =? length l then x else d.
Proof.
  destruct (Nat.ltb_spec t (length l)); [now rewrite app_nth1|]. rewrite app_nth2 by lia. destruct (Nat.eqb_spec t (length l)) as [->|]; [now rewrite Nat.sub_diag|].
  destruct (t - length l) as [|k] eqn:E; [lia|]. cbn. destruct k; reflexivity.
Qed.
Lemma find_rev {A} (f : A -> bool) l r : find f (rev l) = Some r -> exists a b, l = a ++ r :: b /\ f r = true /\ forall y, In y b -> f y = false.
Proof.
  induction l as [|x l IH] using rev_ind; cbn; [discriminate|]. rewrite rev_app_distr. cbn [rev app find]. destruct (f x) eqn:E.
  - intros H. inversion H. subst. exists l, []. repeat split; [exact E|intros y []].
  - intros H. destruct (IH H) as (a & b & -> & Hr & Hb). exists a, (b ++ [x]). rewrite <- app_assoc. split; [reflexivity|]. split; [exact Hr|]. intros y Hy. apply in_app_iff in Hy as [Hy|[<-|[]]]; auto.
Qed.
Lemma filter_seq_lt (f : nat -> bool) n a r b : filter f (seq 0 n) = a ++ r :: b -> (forall y, In y b -> r < y) /\ (forall y, In y a -> y < r).
Proof.
  intros H. assert (S : StronglySorted lt (filter f (seq 0 n))).
  { generalize 0. clear H. induction n as [|n IH]; intros i; cbn; [constructor|]. destruct (f i); [|apply IH]. constructor; [apply IH|]. apply Forall_forall. intros y Hy. apply filter_In in Hy as [Hy _]. apply in_seq in Hy. lia. }
  rewrite H in S. clear H. induction a as [|x a IH]; cbn in S.
  - inversion S as [|? ? _ F]. subst. rewrite Forall_forall in F. split; [exact F|intros y []].
  - inversion S as [|? ? S' F]. subst. destruct (IH S') as [I1 I2]. split; [exact I1|]. intros y [<-|Hy]; [|now apply I2]. rewrite Forall_forall in F. apply F. apply in_or_app. right. now left.
Qed.
Lemma laned_attach s parts pr : laned (attach s parts pr) -> laned s.
Proof.
  unfold attach. destruct (match find _ _ with Some _ => _ | None => _ end) as [[g o] nx]. intros L t1 t2 H1 H2 S p Hp.
  unfold laned, attached, shares, parts_of, tx_of in *. cbn [s_txs] in L. specialize (L t1 t2). rewrite app_length in L. cbn [length] in L.
  rewrite !nth_snoc in L. destruct (Nat.ltb_spec t1 (length (s_txs s))); [|lia]. destruct (Nat.ltb_spec t2 (length (s_txs s))); [|lia]. exact (L ltac:(lia) ltac:(lia) S p Hp).
Qed.
Lemma step_txs s e s' : step s e = Some s' -> s_txs s' = s_txs s \/ exists parts pr, e = Attach parts pr.
Proof.
  destruct e as [parts pr|p|t err|n|w|]; cbn [step]; intros H; [right; eauto|left..].
  - unfold execute in H. destruct (p_queue (s_part s p)) as [|[t c] q]; [discriminate|]. destruct (run_writes _ _ _). inversion H. reflexivity.
  - unfold complete in H. destruct (_ && _); [|discriminate]. inversion H. reflexivity.
  - unfold collect in H. destruct (s_batch s); [|discriminate]. destruct (_ && _); [|discriminate]. destruct (collect_loop _ _ _ _). inversion H. reflexivity.
  - unfold process in H. destruct (s_batch s) as [|x r]; [discriminate|]. destruct (s_ready s); [discriminate|]. destruct (process_loop _ _ _ _) as [ab parts]. match type of H with (let (_, _) := ?m in _) = _ => destruct m as [ab2 parts2] end. inversion H. reflexivity.
  - unfold detach in H. destruct (s_batch s) as [|x r]; [discriminate|]. destruct (s_ready s); [|discriminate]. inversion H. reflexivity.
Qed.
Lemma laned_prev s e s' : step s e = Some s' -> laned s' -> laned s.
Proof.
  intros H L. destruct (step_txs _ _ _ H) as [E|(parts & pr & ->)].
  - intros t1 t2. specialize (L t1 t2). unfold attached, shares, parts_of, tx_of in *. now rewrite E in L.
  - cbn in H. inversion H. subst. now apply laned_attach in L.
Qed.
Lemma ginv_attach s D parts pr : ginv s D -> parts <> [] -> NoDup parts -> laned (attach s parts pr) -> ginv (attach s parts pr) D.
Proof.
  intros V Np Ndp L. pose proof (v_core _ _ V) as K. set (n := length (s_txs s)).
  assert (X : exists g o nx, attach s parts pr = mkstate (s_txs s ++ [mktx parts pr g o (s_list s)]) nx (s_list s ++ [n]) (s_abort s) (s_id s) (s_wrote s)
          (s_done s) (s_mail s) (s_queue s) (s_batch s) (s_ready s) (s_pop s) (s_dec s) (s_part (attach s parts pr)) /\ s_next s <= nx /\ 1 <= g < nx /\
      ((exists r, In r (s_list s) /\ overlaps (prt (s_txs s) r) parts = true /\ (forall y, In y (s_list s) -> r < y -> overlaps (prt (s_txs s) y) parts = false) /\ g = grp (s_txs s) r /\ o = S (ord (s_txs s) r)) \/
       (g = s_next s /\ o = 0 /\ forall y, In y (s_list s) -> overlaps (prt (s_txs s) y) parts = false))).
  { unfold attach. destruct (find (fun r => overlaps (t_parts (tx_of s r)) parts) (rev (s_list s))) as [r|] eqn:Ef.
    - apply find_rev in Ef as (a & b & El & Er & Eb). exists (grp (s_txs s) r), (S (ord (s_txs s) r)), (s_next s). split; [reflexivity|]. split; [lia|].
      assert (Hr : In r (s_list s)) by (rewrite El; apply in_or_app; right; now left). split; [apply (k_grp _ _ _ _ _ _ _ K); now apply (in_list s D r V) in Hr|]. left. exists r. split; [exact Hr|]. split; [exact Er|]. split; [|split; reflexivity].
      intros y Hy Ly. pose proof El as El'. rewrite (v_list _ _ V) in El'. apply filter_seq_lt in El' as [_ La]. rewrite El in Hy. apply in_app_iff in Hy as [Hy|[<-|Hy]]; [specialize (La y Hy); lia|lia|now apply Eb].
    - exists (s_next s), 0, (S (s_next s)). split; [reflexivity|]. split; [lia|]. split; [pose proof (v_next _ _ V); lia|]. right. split; [reflexivity|]. split; [reflexivity|]. intros y Hy. apply (find_none _ _ Ef). now apply -> in_rev. }
  destruct X as (g & o & nx & EA & Hnx & Hg & HX). rewrite EA in *. clear EA. set (txs' := s_txs s ++ [mktx parts pr g o (s_list s)]).
  assert (Ln : length txs' = S n) by (unfold txs'; rewrite app_length; cbn; unfold n; lia).
  assert (Eo : forall t, t < n -> nth t txs' notx = nth t (s_txs s) notx) by (intros t Ht; unfold txs'; now rewrite app_nth1).
  assert (En : nth n txs' notx = mktx parts pr g o (s_list s)) by (unfold txs', n; rewrite app_nth2, Nat.sub_diag by lia; reflexivity).
  assert (Lc : forall t1 t2 p, t1 < S n -> t2 < S n -> shr txs' t1 t2 -> In p (prt txs' t1) -> In p (prt txs' t2)).
  { intros t1 t2 p H1 H2 S Hp. refine (L t1 t2 _ _ S p Hp); unfold attached; cbn [s_txs]; fold txs'; rewrite Ln; assumption. }
  assert (Sym : forall txs a b, shr txs a b -> shr txs b a) by (intros txs a b (p & P1 & P2); exists p; auto).
  assert (Tr : forall a b c, a < S n -> b < S n -> c < S n -> shr txs' a b -> shr txs' b c -> shr txs' a c).
  { intros a b c Ha Hb Hc Sab (p & P1 & P2). exists p. split; [|exact P2]. apply (Lc b a); auto. }
  assert (So : forall a b, a < n -> b < n -> shr txs' a b <-> shr (s_txs s) a b).
  { intros a b Ha Hb. unfold shr, prt. rewrite !Eo by assumption. tauto. }
  assert (Sn : forall a, a < n -> shr txs' a n <-> overlaps (prt (s_txs s) a) parts = true).
  { intros a Ha. rewrite overlaps_iff. unfold shr, prt. rewrite Eo, En by assumption. reflexivity. }
  assert (Sall : forall a b, a < n -> b < n -> shr txs' a b <-> shr (s_txs s) a b) by exact So.
  assert (Gm : forall t, t < n -> g = grp (s_txs s) t -> exists r, In r (s_list s) /\ overlaps (prt (s_txs s) r) parts = true /\ (forall y, In y (s_list s) -> r < y -> overlaps (prt (s_txs s) y) parts = false) /\ g = grp (s_txs s) r /\ o = S (ord (s_txs s) r)).
  { intros t Ht Eg. destruct HX as [HX|(E & _)]; [exact HX|]. pose proof (k_grp _ _ _ _ _ _ _ K t Ht). lia. }
  assert (Gs : forall t, t < n -> g = grp (s_txs s) t -> shr txs' t n /\ ord (s_txs s) t < o).
  { intros t Ht Eg. destruct (Gm t Ht Eg) as (r & R1 & R2 & R3 & R4 & R5). pose proof R1 as R1'. apply (in_list s D r V) in R1' as [Rn Rd].
    assert (S1 : shr txs' t n) by (apply (Tr t r n); [lia|unfold n; lia|lia| |apply Sn; [exact Rn|exact R2]]; apply So; [exact Ht|exact Rn|]; apply (k_same _ _ _ _ _ _ _ K); [exact Ht|exact Rn|congruence]).
    split; [exact S1|]. destruct (Nat.lt_trichotomy t r) as [Lt|[->|Lt]]; [pose proof (k_ord _ _ _ _ _ _ _ K t r Lt Rn); lia|lia|].
    exfalso. destruct (in_dec Nat.eq_dec t D) as [Hd|Hd].
    - apply in_split in Hd as (A & B & Ed). assert (Sr : shr (s_txs s) r t) by (apply (k_same _ _ _ _ _ _ _ K); [exact Rn|exact Ht|congruence]).
      apply Rd. rewrite Ed. apply in_or_app. left. refine (k_c11 _ _ _ _ _ _ _ K A t (B ++ s_batch s) _ r Lt Sr). rewrite (v_pop _ _ V), Ed, <- app_assoc. reflexivity.
    - assert (Hin : In t (s_list s)) by (apply (in_list s D t V); auto). pose proof (R3 t Hin Lt) as F. apply (Sn t Ht) in S1. congruence. }
  split; cbn [s_txs s_next s_list s_mail s_queue s_pop s_done s_batch]; fold txs'.
  - split.
    + exact (k_D _ _ _ _ _ _ _ K).
    + exact (k_nodup _ _ _ _ _ _ _ K).
    + intros t Ht. apply (k_att _ _ _ _ _ _ _ K) in Ht as [Ht1 Ht2]. rewrite Ln. fold n in Ht1. split; [lia|exact Ht2].
    + intros x t Hx Ht. unfold grp. rewrite Eo; [apply (k_queue _ _ _ _ _ _ _ K); assumption|].
      apply (k_att _ _ _ _ _ _ _ K). apply in_or_app. right. apply in_or_app. left. apply in_concat. exists (g_list x). split; [now apply in_map|exact Ht].
    + exact (k_qid _ _ _ _ _ _ _ K).
    + intros x Hx. pose proof (k_qnext _ _ _ _ _ _ _ K x Hx). lia.
    + intros t Ht. rewrite Ln in Ht. unfold grp. destruct (Nat.eq_dec t n) as [->|N]; [rewrite En; cbn; lia|]. rewrite Eo by lia. pose proof (k_grp _ _ _ _ _ _ _ K t ltac:(fold n; lia)). unfold grp in *. lia.
    + intros t1 t2 H1 H2 Eg. rewrite Ln in H1, H2. unfold grp in Eg. destruct (Nat.eq_dec t1 n) as [->|N1], (Nat.eq_dec t2 n) as [->|N2].
      * destruct parts as [|p parts']; [congruence|]. exists p. unfold prt. rewrite En. cbn. auto.
      * rewrite En, Eo in Eg by lia. cbn in Eg. apply Sym. apply Gs; [lia|exact Eg].
      * rewrite En, Eo in Eg by lia. cbn in Eg. apply Gs; [lia|now symmetry].
      * rewrite !Eo in Eg by lia. apply So; [lia|lia|]. apply (k_same _ _ _ _ _ _ _ K); [fold n; lia|fold n; lia|exact Eg].
    + intros t1 t2 Lt H2 Eg. rewrite Ln in H2. unfold grp in Eg. unfold ord. destruct (Nat.eq_dec t2 n) as [->|N2].
      * rewrite En, Eo in Eg |- * by lia. cbn in Eg |- *. apply Gs; [lia|now symmetry].
      * rewrite !Eo in Eg |- * by lia. apply (k_ord _ _ _ _ _ _ _ K); [exact Lt|fold n; lia|exact Eg].
    + intros t1 t2 Lt H2 S Ng. rewrite Ln in H2. unfold grp in Ng. destruct (Nat.eq_dec t2 n) as [->|N2].
      * rewrite En, Eo in Ng by lia. cbn in Ng. pose proof S as S0. apply Sn in S; [|lia]. destruct (in_dec Nat.eq_dec t1 D) as [Hd|Hd]; [exact Hd|]. exfalso.
        assert (Hin : In t1 (s_list s)) by (apply (in_list s D t1 V); fold n; auto with arith).
        destruct HX as [(r & R1 & R2 & R3 & R4 & R5)|(_ & _ & F)]; [|rewrite F in S by exact Hin; discriminate].
        pose proof R1 as R1'. apply (in_list s D r V) in R1' as [Rn Rd]. fold n in Rn. destruct (Nat.lt_trichotomy t1 r) as [Lr|[->|Lr]]; [|unfold grp in *; congruence|rewrite R3 in S by assumption; discriminate].
        apply Hd. apply (k_diff _ _ _ _ _ _ _ K t1 r Lr Rn); [|unfold grp in *; congruence]. apply So; [lia|exact Rn|]. apply (Tr t1 n r); [lia|lia|lia|exact S0|]. apply Sym. apply Sn; [exact Rn|exact R2].
      * rewrite !Eo in Ng by lia. apply So in S; [|lia|lia]. apply (k_diff _ _ _ _ _ _ _ K t1 t2); [exact Lt|fold n; lia|exact S|exact Ng].
    + intros g'. destruct (k_pre _ _ _ _ _ _ _ K g') as (k & K1 & K2 & K3). exists k. split; [|split; [exact K2|]].
      * intros t Ht Eg. rewrite Ln in Ht. unfold grp in Eg. unfold ord. destruct (Nat.eq_dec t n) as [->|N].
        -- rewrite En in Eg |- *. cbn in Eg |- *. subst g'. split.
           ++ intros H. exfalso. assert (X : n < length (s_txs s)) by (apply (k_att _ _ _ _ _ _ _ K); rewrite !in_app_iff; auto). fold n in X. lia.
           ++ intros H. exfalso. destruct K3 as [->|(t & T1 & T2 & T3)]; [lia|]. destruct (Gs t T1 (eq_sym T2)) as [_ G]. lia.
        -- rewrite Eo in Eg |- * by lia. apply K1; [fold n; lia|exact Eg].
      * destruct K3 as [->|(t & T1 & T2 & T3)]; [now left|right]. exists t. unfold grp, ord. rewrite Ln, Eo by exact T1. split; [fold n in T1; lia|auto].
    + intros A t2 B E t1 Lt S. assert (H2 : t2 < n) by (apply (k_att _ _ _ _ _ _ _ K); rewrite E, !in_app_iff; cbn; auto). apply So in S; [|lia|exact H2].
      exact (k_c11 _ _ _ _ _ _ _ K A t2 B E t1 Lt S).
  - exact (v_pop _ _ V).
  - rewrite Ln. rewrite seq_S. cbn [Nat.add]. rewrite filter_app. cbn [filter]. rewrite (v_list _ _ V). fold n.
    replace (existsb (Nat.eqb n) D) with false; [reflexivity|]. symmetry. apply inb_false. intros H. apply (k_D _ _ _ _ _ _ _ K) in H. assert (X : n < length (s_txs s)) by (apply (k_att _ _ _ _ _ _ _ K); rewrite !in_app_iff; auto). fold n in X. lia.
  - pose proof (v_next _ _ V). lia.
  - intros t Ht. rewrite Ln in Ht. unfold prt. destruct (Nat.eq_dec t n) as [->|N]; [rewrite En; auto|]. rewrite Eo by lia. apply (v_parts _ _ V). fold n. lia.
  - intros t1 t2 H2 Hin. rewrite Ln in H2. destruct (Nat.eq_dec t2 n) as [->|N]; [rewrite En in Hin; cbn in Hin; apply (in_list s D t1 V) in Hin; fold n in Hin; lia|]. rewrite Eo in Hin by lia. apply (v_seen _ _ V t1 t2); [fold n; lia|exact Hin].
  - intros t1 t2 Lt H2 S Ns. rewrite Ln in H2. destruct (Nat.eq_dec t2 n) as [->|N].
    + rewrite En in Ns. cbn in Ns. destruct (in_dec Nat.eq_dec t1 D) as [Hd|Hd]; [exact Hd|]. exfalso. apply Ns. apply (in_list s D t1 V). fold n. auto with arith.
    + rewrite Eo in Ns by lia. apply So in S; [|lia|lia]. apply (v_free _ _ V t1 t2); [exact Lt|fold n; lia|exact S|exact Ns].
Qed.
Lemma filter_filter {A} (f h : A -> bool) l : filter f (filter h l) = filter (fun x => h x && f x) l.
Proof. induction l as [|x l IH]; [reflexivity|]. cbn. destruct (h x); cbn; [destruct (f x)|]; rewrite IH; reflexivity. Qed.
Lemma sublist_nodup {A B} (f : A -> B) (h : A -> bool) l : NoDup (map f l) -> NoDup (map f (filter h l)).
Proof.
  induction l as [|x l IH]; intros H; [constructor|]. cbn in H. inversion H as [|? ? N H']. subst. cbn. destruct (h x); [|now apply IH]. cbn. constructor; [|now apply IH].
  intros Hin. apply N. apply in_map_iff in Hin as (y & Ey & Hy). apply filter_In in Hy as [Hy _]. apply in_map_iff. eauto.
Qed.
Lemma concat_filter_count (h : group -> bool) q y : count_occ Nat.eq_dec (concat (map g_list (filter h q))) y <= count_occ Nat.eq_dec (concat (map g_list q)) y.
Proof. induction q as [|x q IH]; [cbn; lia|]. cbn [filter map concat]. destruct (h x); cbn [map concat]; rewrite ?count_occ_app; lia. Qed.
(** changes of the lists that remove entries of the queue only *)
Lemma core_gc txs next D mail q pop done h D' : core txs next D mail q pop done -> incl D D' -> incl D' pop -> core txs next D' mail (filter h q) pop done.
Proof.
  intros K I1 I2. split.
  - exact I2.
  - apply (NoDup_count_occ Nat.eq_dec). intros y. pose proof (proj1 (NoDup_count_occ Nat.eq_dec _) (k_nodup _ _ _ _ _ _ _ K) y) as H. rewrite !count_occ_app in *. pose proof (concat_filter_count h q y). lia.
  - intros t Ht. apply (k_att _ _ _ _ _ _ _ K). rewrite !in_app_iff in *. destruct Ht as [Ht|[Ht|Ht]]; [tauto| |tauto]. right; left. apply in_concat in Ht as (l & Hl & Ht). apply in_map_iff in Hl as (x & <- & Hx). apply filter_In in Hx as [Hx _]. apply in_concat. exists (g_list x). split; [now apply in_map|exact Ht].
  - intros x t Hx. apply filter_In in Hx as [Hx _]. now apply (k_queue _ _ _ _ _ _ _ K).
  - apply sublist_nodup. exact (k_qid _ _ _ _ _ _ _ K).
  - intros x Hx. apply filter_In in Hx as [Hx _]. now apply (k_qnext _ _ _ _ _ _ _ K).
  - exact (k_grp _ _ _ _ _ _ _ K).
  - exact (k_same _ _ _ _ _ _ _ K).
  - exact (k_ord _ _ _ _ _ _ _ K).
  - intros t1 t2 H1 H2 H3 H4. apply I1. exact (k_diff _ _ _ _ _ _ _ K t1 t2 H1 H2 H3 H4).
  - intros g. destruct (k_pre _ _ _ _ _ _ _ K g) as (k & K1 & K2 & K3). exists k. split; [exact K1|]. split; [|exact K3]. intros x Hx. apply filter_In in Hx as [Hx _]. now apply K2.
  - exact (k_c11 _ _ _ _ _ _ _ K).
Qed.
Lemma core_done txs next D mail q pop done t : core txs next D mail q pop done -> t < length txs -> done t = false -> core txs next D (mail ++ [t]) q pop (set1 done t true).
Proof.
  intros K Ht Hd. split.
  - exact (k_D _ _ _ _ _ _ _ K).
  - rewrite <- app_assoc. cbn [app]. apply (NoDup_Add (a := t) (l := mail ++ concat (map g_list q) ++ pop)); [apply Add_app|]. split; [exact (k_nodup _ _ _ _ _ _ _ K)|]. intros H. apply (k_att _ _ _ _ _ _ _ K) in H as [_ H]. congruence.
  - intros y Hy. rewrite <- app_assoc in Hy. unfold set1. destruct (Nat.eqb_spec y t) as [->|N]; [auto|]. apply (k_att _ _ _ _ _ _ _ K). rewrite !in_app_iff in *. cbn in Hy. intuition congruence.
  - exact (k_queue _ _ _ _ _ _ _ K).
  - exact (k_qid _ _ _ _ _ _ _ K).
  - exact (k_qnext _ _ _ _ _ _ _ K).
  - exact (k_grp _ _ _ _ _ _ _ K).
  - exact (k_same _ _ _ _ _ _ _ K).
  - exact (k_ord _ _ _ _ _ _ _ K).
  - exact (k_diff _ _ _ _ _ _ _ K).
  - exact (k_pre _ _ _ _ _ _ _ K).
  - exact (k_c11 _ _ _ _ _ _ _ K).
Qed.
Lemma ginv_execute s D p s' : ginv s D -> execute s p = Some s' -> ginv s' D.
Proof.
  intros V H. unfold execute in H. destruct (p_queue (s_part s p)) as [|[t c] q]; [discriminate|]. destruct (run_writes _ _ _). inversion H. subst s'. destruct V. split; assumption.
Qed.
Lemma ginv_complete s D t err s' : ginv s D -> complete s t err = Some s' -> ginv s' D.
Proof.
  intros V H. unfold complete in H. destruct (_ && _) eqn:C; [|discriminate]. inversion H. subst s'. apply andb_prop in C as [C _]. apply andb_prop in C as [C1 C2]. apply Nat.ltb_lt in C1. apply Bool.negb_true_iff in C2.
  pose proof (core_done _ _ _ _ _ _ _ t (v_core _ _ V) C1 C2). destruct V. split; assumption.
Qed.
Lemma ginv_collect s D n s' : ginv s D -> collect s n = Some s' -> ginv s' D.
Proof.
  intros V H. unfold collect in H. destruct (s_batch s) as [|x r] eqn:Eb; [|discriminate]. destruct (_ && _); [|discriminate].
  pose proof (core_loop s (s_next s) D (s_done s) (firstn n (s_mail s)) (skipn n (s_mail s)) (s_queue s) []) as X. rewrite firstn_skipn, app_nil_r in X. specialize (X (v_core _ _ V)).
  destruct (collect_loop s (firstn n (s_mail s)) (s_queue s) []) as [q b]. inversion H. subst s'. pose proof (v_pop _ _ V) as P. rewrite Eb, app_nil_r in P. destruct V. split; try assumption. cbn [s_pop s_batch]. congruence.
Qed.
Lemma ginv_process s D w s' : ginv s D -> process s w = Some s' -> ginv s' D.
Proof.
  intros V H. unfold process in H. destruct (s_batch s) as [|x r] eqn:Eb; [discriminate|]. destruct (s_ready s); [discriminate|]. destruct (process_loop _ _ _ _) as [ab parts].
  match type of H with (let (_, _) := ?m in _) = _ => destruct m as [ab2 parts2] end. inversion H. subst s'. pose proof (v_pop _ _ V) as P. rewrite Eb in P. destruct V. split; assumption.
Qed.
Lemma ginv_detach s D s' : ginv s D -> detach s = Some s' -> ginv s' (s_pop s).
Proof.
  intros V H. unfold detach in H. destruct (s_batch s) as [|x r] eqn:Eb; [discriminate|]. destruct (s_ready s); [|discriminate]. rewrite <- Eb in H.
  assert (I : incl D (s_pop s)) by (rewrite (v_pop _ _ V); apply incl_appl, incl_refl).
  assert (Q : exists h, match filter (fun t => negb (existsb (Nat.eqb t) (s_batch s))) (s_list s) with [] => [] | t :: _ => filter (fun g => negb (g_id g <? group_of s t)) (s_queue s) end = filter h (s_queue s)).
  { destruct (filter _ (s_list s)) as [|y l]; [|eexists; reflexivity]. exists (fun _ => false). induction (s_queue s) as [|z q IH]; [reflexivity|exact IH]. }
  destruct Q as [h Q]. rewrite Q in H. inversion H. subst s'. clear H. split; cbn [s_txs s_next s_list s_mail s_queue s_pop s_done s_batch].
  - apply (core_gc _ _ D); [exact (v_core _ _ V)|exact I|apply incl_refl].
  - now rewrite app_nil_r.
  - rewrite (v_list _ _ V), filter_filter. apply filter_ext. intros t. rewrite (v_pop _ _ V), existsb_app, Bool.negb_orb. reflexivity.
  - exact (v_next _ _ V).
  - exact (v_parts _ _ V).
  - exact (v_seen _ _ V).
  - intros t1 t2 H1 H2 H3 H4. apply I. exact (v_free _ _ V t1 t2 H1 H2 H3 H4).
Qed.
Lemma ginv_start init : ginv (start init) [].
Proof.
  split; cbn; try reflexivity; try (intros; lia).
  split; cbn; try (intros; lia); try (intros; contradiction); try constructor.
  - intros x [].
  - intros g. exists 0. split; [intros; lia|]. split; [intros x []|now left].
  - intros A t2 B E. destruct A; discriminate.
Qed.
Lemma ginv_step s D e s' : ginv s D -> valid e -> laned s' -> step s e = Some s' -> exists D', ginv s' D' /\ incl D D'.
Proof.
  intros V Va L H. destruct e as [parts pr|p|t err|n|w|]; cbn [step] in H.
  - inversion H. subst s'. exists D. split; [apply ginv_attach; [exact V|apply Va|apply Va|exact L]|apply incl_refl].
  - exists D. split; [exact (ginv_execute _ _ _ _ V H)|apply incl_refl].
  - exists D. split; [exact (ginv_complete _ _ _ _ _ V H)|apply incl_refl].
  - exists D. split; [exact (ginv_collect _ _ _ _ V H)|apply incl_refl].
  - exists D. split; [exact (ginv_process _ _ _ _ V H)|apply incl_refl].
  - exists (s_pop s). split; [exact (ginv_detach _ _ _ V H)|rewrite (v_pop _ _ V); apply incl_appl, incl_refl].
Qed.
Lemma reach_ginv init s : reach init s -> laned s -> exists D, ginv s D.
Proof.
  intros H. induction H as [|s e s' H IH Va E]; intros L; [exists []; apply ginv_start|].
  destruct (IH (laned_prev _ _ _ E L)) as [D V]. destruct (ginv_step _ _ _ _ V Va L E) as (D' & V' & _). eauto.
Qed.
(** decisions are made in the order of [s_pop] *)
Definition dinv (s : state) : Prop := s_pop s = map fst (s_dec s) ++ (if s_ready s then [] else s_batch s) /\ (s_batch s = [] -> s_ready s = false).
Lemma dinv_step s e s' : dinv s -> step s e = Some s' -> dinv s'.
Proof.
  intros [I1 I2] H. destruct e as [parts pr|p|t err|n|w|]; cbn [step] in H.
  - inversion H. unfold attach. destruct (match find _ _ with Some _ => _ | None => _ end) as [[g o] nx]. split; assumption.
  - unfold execute in H. destruct (p_queue (s_part s p)) as [|[t c] q]; [discriminate|]. destruct (run_writes _ _ _). inversion H. split; assumption.
  - unfold complete in H. destruct (_ && _); [|discriminate]. inversion H. split; assumption.
  - unfold collect in H. destruct (s_batch s); [|discriminate]. destruct (_ && _); [|discriminate]. destruct (collect_loop _ _ _ _). inversion H. split; [|reflexivity]. cbn [s_pop s_dec s_ready s_batch]. rewrite I1, I2 by reflexivity. now rewrite app_nil_r.
  - unfold process in H. destruct (s_batch s) as [|x r] eqn:Eb; [discriminate|]. destruct (s_ready s); [discriminate|]. destruct (process_loop _ _ _ _) as [ab parts].
    match type of H with (let (_, _) := ?m in _) = _ => destruct m as [ab2 parts2] end. inversion H. split; [|discriminate]. cbn [s_pop s_dec s_ready s_batch]. rewrite I1, app_nil_r. rewrite map_app. cbn [map fst]. rewrite map_map. cbn [fst]. now rewrite map_id.
  - unfold detach in H. destruct (s_batch s) as [|x r] eqn:Eb; [discriminate|]. destruct (s_ready s); [|discriminate]. inversion H. split; [|reflexivity]. cbn [s_pop s_dec s_ready s_batch]. now rewrite I1.
Qed.
Lemma reach_dinv init s : reach init s -> dinv s.
Proof. induction 1 as [|s e s' H IH Va E]; [split; reflexivity|exact (dinv_step _ _ _ IH E)]. Qed.
Lemma decided_order init s : reach init s -> laned s -> forall A t2 b B, s_dec s = A ++ (t2, b) :: B -> forall t1, t1 < t2 -> shares s t1 t2 -> exists b', In (t1, b') A.
Proof.
  intros R L A t2 b B E t1 Lt S. destruct (reach_ginv _ _ R L) as [D V]. destruct (reach_dinv _ _ R) as [P _].
  assert (X : In t1 (map fst A)).
  { refine (k_c11 _ _ _ _ _ _ _ (v_core _ _ V) (map fst A) t2 (map fst B ++ _) _ t1 Lt S). rewrite P, E, map_app. cbn [map fst]. rewrite <- app_assoc. reflexivity. }
  apply in_map_iff in X as ([x b'] & Ex & X). cbn in Ex. subst x. eauto.
Qed.
