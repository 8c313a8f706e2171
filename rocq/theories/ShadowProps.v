(** Property theorems: C73 (CREATE INDEX while others write), C74 (checkpoint of a
    partition while others write). *)
From Verif Require Import PartModel PartProofs ReplayModel ReplayProofs IdxModel IdxSpec IdxProofs IdxProofs2 IdxProps
  ShadowModel ShadowSpec ShadowProofs ShadowProofs2.
From Coq Require Import List ZArith Lia Bool Permutation.
Import ListNotations.
Open Scope Z_scope.

(** the indexes after a transaction do not depend on the heaps *)
Lemma remove_all_p : forall l s s', remove_all s l = Some s' -> s_p s' = s_p s.
Proof.
  induction l as [|r l IH]; intros s s' H; cbn [remove_all] in H; [congruence|].
  destruct (heap_remove s r) as [s1|] eqn:E; [|discriminate]. rewrite (IH _ _ H). unfold heap_remove in E.
  destruct (s_flag s (rid r)), (s_sh s); try discriminate E; injection E as <-; reflexivity.
Qed.
Lemma add_all_p : forall l s, s_p (fold_left heap_add l s) = s_p s.
Proof.
  induction l as [|r l IH]; intros s; cbn [fold_left]; [reflexivity|]. rewrite IH. unfold heap_add. now destruct (s_sh s).
Qed.
Lemma writes_p : forall txs s t s' t', s_p s = s_p t -> writes s txs = Some s' -> writes t txs = Some t' -> s_p s' = s_p t'.
Proof.
  induction txs as [|x txs IH]; intros s t s' t' E H G; cbn [writes] in H, G; [congruence|].
  destruct (write s x) as [s1|] eqn:W; [|discriminate]. destruct (write t x) as [t1|] eqn:V; [|discriminate].
  apply (IH s1 t1 s' t'); auto. clear - E W V. unfold write in W, V. rewrite <- E in V. destruct (run (s_p s) x) as [p1 st].
  apply remove_all_p in W, V. rewrite add_all_p in W, V. cbn [with_p s_p] in W, V. congruence.
Qed.
Lemma writes_settled : forall txs s, settled s -> exists t, writes s txs = Some t /\ settled t /\ nsec (s_p t) = nsec (s_p s).
Proof.
  induction txs as [|x txs IH]; intros s H; cbn [writes]; [eauto|].
  destruct (write_settled s x H) as (s1 & E & H1 & N1). rewrite E. destruct (IH s1 H1) as (t & E2 & H2 & N2).
  exists t. split; [exact E2|]. split; [exact H2|]. congruence.
Qed.
Lemma main_rids s : settled s -> forall r, In r (s_main s) <-> prim (s_p s) r.
Proof. intros (_ & _ & [_ H] & _). exact H. Qed.

(** ** C74.  A checkpoint of a partition with any transactions (committed or failed)
    running between its start and its end: it never fails on account of them; the file it
    writes has exactly the rows of its start; and afterwards the rows and every index of
    the partition are what the transactions alone would have left, in one heap again. *)
Theorem C74_checkpoint : forall s txs,
  settled s ->
  exists t s' image,
    writes s txs = Some t /\ settled t /\
    refresh s txs = Some (s', image) /\ settled s' /\
    image_of (s_p s) image /\
    nsec (s_p s') = nsec (s_p t) /\
    forall i k, (i <= nsec (s_p t))%nat -> view (s_p s') i k = view (s_p t) i k.
Proof.
  intros s txs Hs. destruct (writes_settled txs s Hs) as (t & Et & Ht & _).
  pose proof (begin_snapping s Hs) as Hb.
  destruct (writes_snapping txs _ _ Hb) as (s1 & l & E1 & H1 & M1 & _).
  pose proof (writes_p txs s (snapshot_begin s) t s1 eq_refl Et E1) as Ep.
  destruct (merge_settled l _ (merging_begin s1 l H1)) as (s2 & E2 & H2 & S2).
  exists t, s2, (s_main s1). split; [exact Et|]. split; [exact Ht|]. unfold refresh. rewrite E1. unfold refresh_apply.
  pose proof H1 as (Hsh & _). rewrite Hsh, E2. split; [reflexivity|]. split; [exact H2|].
  split; [rewrite M1; exact (proj1 (proj2 (proj2 Hs)))|]. cbn [s_p] in S2. rewrite <- Ep in S2.
  destruct S2 as [N2 V2]. split; [now symmetry|]. intros i k Hi. symmetry. now apply V2.
Qed.
Print Assumptions C74_checkpoint.

(** *** concrete states *)
Definition s0 : sst := mks (empty_part 1) [] None (fun _ => false).
Lemma s0_settled : settled s0.
Proof.
  split; [reflexivity|]. split; [|split; [|intros r []]].
  { split; [split; [intros i k r H; discriminate H|]|split; [|auto]].
    - intros i Hi. split; intros k r H; discriminate H.
    - split; intros; discriminate. } split; [constructor|]. intros r. split; [intros []|]. intros [k H]. discriminate H.
Qed.
Definition wr (s : sst) (txs : list (list op)) : sst := match writes s txs with Some t => t | None => s end.
Lemma wr_settled s txs : settled s -> settled (wr s txs).
Proof. intros H. unfold wr. destruct (writes_settled txs s H) as (t & E & Ht & _). now rewrite E. Qed.
(* rows (1, 10) and (2, 20) with a unique index on the second column *)
Definition s1 := wr s0 [[Insert [1; 10; 5] 0 false; Insert [2; 20; 6] 0 false]].

(** during the checkpoint row 1 is updated, row 2 deleted, row 3 inserted and a failing
    transaction runs: the file has rows 1 and 2 as they were, the partition 1 and 3 *)
Example C74_nonvacuous :
  settled s1 /\
  exists s' image, refresh s1 [[Update 1 [1; 10; 7] 9 false]; [Delete 2 false; Insert [3; 20; 8] 1 false];
                               [Insert [4; 10; 0] 0 false]] = Some (s', image) /\
    map content image = [([1; 10; 5], 0); ([2; 20; 6], 0)] /\
    view (s_p s') 0 1 = Some ([1; 10; 7], 9) /\ view (s_p s') 0 2 = None /\
    view (s_p s') 1 20 = Some ([3; 20; 8], 1) /\ view (s_p s') 0 4 = None.
Proof.
  split; [apply wr_settled, s0_settled|].
  destruct (C74_checkpoint s1 [[Update 1 [1; 10; 7] 9 false]; [Delete 2 false; Insert [3; 20; 8] 1 false];
                               [Insert [4; 10; 0] 0 false]] (wr_settled _ _ s0_settled)) as (t & s' & image & Et & _ & E & _).
  exists s', image. split; [exact E|].
  assert (X : match refresh s1 [[Update 1 [1; 10; 7] 9 false]; [Delete 2 false; Insert [3; 20; 8] 1 false]; [Insert [4; 10; 0] 0 false]] with
    | Some (s', image) => map content image = [([1; 10; 5], 0); ([2; 20; 6], 0)] /\
    view (s_p s') 0 1 = Some ([1; 10; 7], 9) /\ view (s_p s') 0 2 = None /\
    view (s_p s') 1 20 = Some ([3; 20; 8], 1) /\ view (s_p s') 0 4 = None
    | None => False end) by (vm_compute; repeat split; reflexivity).
  rewrite E in X. exact X.
Qed.

(** ** C73.  CREATE INDEX with any transactions running between its start and its end, as
    long as every row of its start is still there at its end, neither updated nor deleted:
    it succeeds exactly if no two rows have the same key, and then the rows are those the
    transactions alone would have left, and every index of the table, the new one
    included, agrees with them.
    Missing for the full property: transactions that update or delete rows of the start;
    for them it is false (see below).  Also missing: a failed CREATE INDEX leaves the
    table as it was; false as well. *)
Theorem C73_create_index_partial : forall s txs t,
  settled s -> writes s txs = Some t ->
  (forall r, In r (s_main s) -> In r (s_main t)) ->
  exists s' st,
    indexate s txs = Some (s', st) /\ (st = SOk \/ st = SErr) /\
    (st = SOk <-> forall r r', In r (s_main t) -> In r' (s_main t) ->
                    key_of (S (nsec (s_p t))) r = key_of (S (nsec (s_p t))) r' -> r = r') /\
    (st = SOk ->
       settled s' /\ nsec (s_p s') = S (nsec (s_p t)) /\
       (forall k, view (s_p s') 0%nat k = view (s_p t) 0%nat k) /\
       forall i, (i <= nsec (s_p s'))%nat -> index_exact (s_p s') i).
Proof.
  intros s txs t Hs Et Hkeep. destruct (writes_settled txs s Hs) as (t0 & Et0 & Ht & _).
  assert (t0 = t) by congruence. subst t0.
  destruct (writes_snapping txs _ _ (begin_snapping s Hs)) as (q & l & E1 & H1 & M1 & _).
  pose proof (writes_p txs s (snapshot_begin s) t q eq_refl Et E1) as Ep.
  pose proof (main_rids t Ht) as Hmt.
  assert (Hnf : frees l = []).
  { apply (no_frees q l (s_main s) H1 M1). intros r Hr. rewrite <- Ep. apply Hmt. now apply Hkeep. }
  destruct (indexate_spec q l H1 Hnf) as (s' & st & E & U & O & R). rewrite <- Ep in U, R.
  exists s', st. unfold indexate. rewrite E1. split; [exact E|]. split; [exact O|]. split.
  - rewrite U. split; intros G r r' Hr Hr' Ek; (apply G; [now apply Hmt|now apply Hmt|exact Ek]).
  - intros Hok. destruct (R Hok) as (R1 & R2 & R3 & R4). split; [exact R1|]. split; [exact R2|]. split.
    + intros k. symmetry. apply R3.
    + now apply consistent_exact.
Qed.
Print Assumptions C73_create_index_partial.

(** the hypotheses are met: two rows, two more are inserted meanwhile, one of them deleted again *)
Definition w3 := [[Insert [3; 30; 8] 0 false]; [Insert [4; 40; 8] 0 false; Delete 4 false]].
Example C73_nonvacuous :
  settled s1 /\ writes s1 w3 = Some (wr s1 w3) /\
  (forall r, In r (s_main s1) -> In r (s_main (wr s1 w3))) /\
  length (s_main s1) = 2%nat /\ length (s_main (wr s1 w3)) = 3%nat /\
  match indexate s1 w3 with Some (s', st) => st = SOk /\ view (s_p s') 2 8 = Some ([3; 30; 8], 0) | None => False end /\
  match indexate s1 [[Insert [3; 30; 6] 0 false]] with Some (_, st) => st = SErr | None => False end.
Proof.
  split; [apply wr_settled, s0_settled|]. split.
  { unfold wr. destruct (writes_settled w3 s1 (wr_settled _ _ s0_settled)) as (t & -> & _). reflexivity. }
  split.
  { intros r Hr. vm_compute in Hr. vm_compute. destruct Hr as [Hr|[Hr|[]]]; rewrite <- Hr; auto. }
  vm_compute. repeat split; reflexivity.
Qed.

(** *** C73 is false of the code without the condition *)
(** DELETE of a row while the index is built: CREATE INDEX succeeds and the new index
    keeps an entry for the deleted row, whose memory was released; the heap has no such row. *)
Theorem C73_deleted_row_refuted : exists s txs t s' r,
  settled s /\ writes s txs = Some t /\ indexate s txs = Some (s', SOk) /\
  ix (s_p s') (nsec (s_p s')) 6 = Some r /\ (forall k, ix (s_p s') 0%nat k <> Some r) /\ ~ In r (s_main s').
Proof.
  pose (txs := [[Delete 2 false]]).
  assert (X : match indexate s1 txs with
    | Some (s', st) => st = SOk /\ nsec (s_p s') = 2%nat /\ ix (s_p s') 2%nat 6 = Some (mkrow 1 [2; 20; 6] 0) /\
        (forall k, ix (s_p s') 0%nat k <> Some (mkrow 1 [2; 20; 6] 0)) /\ ~ In (mkrow 1 [2; 20; 6] 0) (s_main s')
    | None => False end).
  { vm_compute. split; [reflexivity|]. split; [reflexivity|]. split; [reflexivity|]. split.
    - intros k. destruct k as [|k|k]; try discriminate; destruct k as [k|k|]; try discriminate; destruct k; discriminate.
    - intros [H|[]]. discriminate H. }
  destruct (indexate s1 txs) as [[s' st]|] eqn:E; [|contradiction]. destruct X as (-> & N & X1 & X2 & X3).
  exists s1, txs, (wr s1 txs), s', (mkrow 1 [2; 20; 6] 0). split; [apply wr_settled, s0_settled|]. split.
  { unfold wr. destruct (writes_settled txs s1 (wr_settled _ _ s0_settled)) as (t & -> & _). reflexivity. }
  split; [exact E|]. rewrite N. auto.
Qed.
Print Assumptions C73_deleted_row_refuted.

(** UPDATE of a row while the index is built, of another column than the key of the
    index: CREATE INDEX fails with "index unique constraint violation", although no two
    rows have the same key, before and after. *)
Theorem C73_updated_row_refuted : exists s txs t s',
  settled s /\ writes s txs = Some t /\ indexate s txs = Some (s', SErr) /\
  forall r r', In r (s_main t) -> In r' (s_main t) ->
    key_of (S (nsec (s_p t))) r = key_of (S (nsec (s_p t))) r' -> r = r'.
Proof.
  pose (txs := [[Update 2 [2; 20; 6] 1 false]]).
  assert (X : match indexate s1 txs with Some (s', st) => st = SErr | None => False end) by (vm_compute; reflexivity).
  destruct (indexate s1 txs) as [[s' st]|] eqn:E; [|contradiction]. subst st.
  exists s1, txs, (wr s1 txs), s'. split; [apply wr_settled, s0_settled|]. split.
  { unfold wr. destruct (writes_settled txs s1 (wr_settled _ _ s0_settled)) as (t & -> & _). reflexivity. }
  split; [exact E|]. intros r r' Hr Hr'. vm_compute in Hr, Hr'.
  destruct Hr as [Hr|[Hr|[]]], Hr' as [Hr'|[Hr'|[]]]; rewrite <- Hr, <- Hr'; vm_compute; intros K; first [reflexivity|discriminate K].
Qed.
Print Assumptions C73_updated_row_refuted.

(** CREATE INDEX that fails (rows 1 and 2 have the same key): the second heap stays in
    use.  A row committed afterwards is in the table, but the file of the next checkpoint
    lacks it: after a restart it is lost, since the log is not read for what the file
    covers.  If that row is deleted after the checkpoint, the heap that holds it is gone. *)
Definition s2 := wr s0 [[Insert [1; 10; 5] 0 false; Insert [2; 20; 5] 0 false]].
Theorem C73_failed_index_refuted : exists s s' t s'' image,
  settled s /\ indexate s [] = Some (s', SErr) /\ ~ settled s' /\
  writes s' [[Insert [3; 30; 6] 0 false]] = Some t /\ view (s_p t) 0 3 = Some ([3; 30; 6], 0) /\
  refresh t [] = Some (s'', image) /\
  (forall r, In r image -> key_of 0 r <> 3) /\ view (s_p s'') 0 3 = Some ([3; 30; 6], 0) /\
  write s'' [Delete 3 false] = None.
Proof.
  assert (X : match indexate s2 [] with
    | Some (s', st) => st = SErr /\ s_sh s' <> None /\
      match writes s' [[Insert [3; 30; 6] 0 false]] with
      | Some t => view (s_p t) 0 3 = Some ([3; 30; 6], 0) /\
        match refresh t [] with
        | Some (s'', image) => (forall r, In r image -> key_of 0 r <> 3) /\ view (s_p s'') 0 3 = Some ([3; 30; 6], 0) /\
            write s'' [Delete 3 false] = None
        | None => False end
      | None => False end
    | None => False end).
  { vm_compute. split; [reflexivity|]. split; [discriminate|]. split; [reflexivity|]. split; [|split; reflexivity].
    intros r [<-|[<-|[]]]; discriminate. }
  destruct (indexate s2 []) as [[s' st]|] eqn:E1; [|contradiction]. destruct X as (-> & Hsh & X).
  destruct (writes s' [[Insert [3; 30; 6] 0 false]]) as [t|] eqn:E2; [|contradiction]. destruct X as (V & X).
  destruct (refresh t []) as [[s'' image]|] eqn:E3; [|contradiction]. destruct X as (X1 & X2 & X3).
  exists s2, s', t, s'', image. split; [apply wr_settled, s0_settled|]. split; [exact E1|].
  split; [intros (H & _); contradiction|]. do 3 (split; [assumption|]). auto.
Qed.
Print Assumptions C73_failed_index_refuted.
