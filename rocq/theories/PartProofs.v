From Coq Require Import Permutation.
From Verif Require Import PartModel.
From Coq Require Import List ZArith Lia Bool.
Import ListNotations.
Open Scope Z_scope.

(** ** maps *)
Definition eqix (a b : indexes) : Prop := forall i k, a i k = b i k.
Definition keyed (a : indexes) : Prop := forall i k r, a i k = Some r -> key_of i r = k.

Lemma set_same a i k v : set_idx a i k v i k = v.
Proof. unfold set_idx. now rewrite Nat.eqb_refl, Z.eqb_refl. Qed.
Lemma set_cases a i k v j q : (j = i /\ q = k /\ set_idx a i k v j q = v) \/
                              (~ (j = i /\ q = k) /\ set_idx a i k v j q = a j q).
Proof.
  unfold set_idx. destruct (Nat.eqb_spec j i), (Z.eqb_spec q k); cbn [andb]; intuition.
Qed.
Lemma set_other a i k v j q : ~ (j = i /\ q = k) -> set_idx a i k v j q = a j q.
Proof. intros H. destruct (set_cases a i k v j q) as [(?&?&?)|[_ E]]; [tauto|exact E]. Qed.
Lemma set_eqix a b i k v : eqix a b -> eqix (set_idx a i k v) (set_idx b i k v).
Proof. intros H j q. unfold set_idx. destruct (_ && _); [reflexivity|apply H]. Qed.
Lemma set_set a i k v w : eqix (set_idx (set_idx a i k v) i k w) (set_idx a i k w).
Proof. intros j q. unfold set_idx. destruct (_ && _); reflexivity. Qed.
Lemma set_id a i k : eqix (set_idx a i k (a i k)) a.
Proof. intros j q. destruct (set_cases a i k (a i k) j q) as [(->&->&E)|[_ E]]; exact E. Qed.
Lemma eqix_trans a b c : eqix a b -> eqix b c -> eqix a c.
Proof. intros H1 H2 i k. now rewrite H1. Qed.
Lemma eqix_refl a : eqix a a.
Proof. intros i k. reflexivity. Qed.

Lemma keyed_put a i r : keyed a -> keyed (set_idx a i (key_of i r) (Some r)).
Proof.
  intros H j q s E. destruct (set_cases a i (key_of i r) (Some r) j q) as [(->&->&E')|[_ E']]; rewrite E' in E.
  - injection E as <-. reflexivity.
  - now apply H.
Qed.
Lemma keyed_del a i k : keyed a -> keyed (set_idx a i k None).
Proof.
  intros H j q s E. destruct (set_cases a i k None j q) as [(->&->&E')|[_ E']]; rewrite E' in E;
    [discriminate|now apply H].
Qed.

(** ** undo *)
Definition undo1 (a : indexes) (e : logop) : indexes :=
  match lprev e with
  | Some prev => set_idx a (lidx e) (key_of (lidx e) prev) (Some prev)
  | None => set_idx a (lidx e) (key_of (lidx e) (lrow e)) None
  end.
Definition undo (a : indexes) (lg : list logop) : indexes := fold_left undo1 (rev lg) a.

Lemma undo1_eqix a b e : eqix a b -> eqix (undo1 a e) (undo1 b e).
Proof. intros H. unfold undo1. destruct (lprev e); now apply set_eqix. Qed.
Lemma undo_eqix lg : forall a b, eqix a b -> eqix (undo a lg) (undo b lg).
Proof.
  unfold undo. induction (rev lg) as [|e l IH]; intros a b H; cbn [fold_left]; [exact H|].
  apply IH. now apply undo1_eqix.
Qed.
Lemma undo_snoc a lg e : undo a (lg ++ [e]) = undo (undo1 a e) lg.
Proof. unfold undo. rewrite rev_app_distr. reflexivity. Qed.

(** a put/delete at the key of [r] is undone by its log record *)
Lemma undo1_put a i r v c : keyed a ->
  eqix (undo1 (set_idx a i (key_of i r) v) (mklog c i r (a i (key_of i r)))) a.
Proof.
  intros Hk. unfold undo1. cbn [lprev lidx lrow].
  destruct (a i (key_of i r)) as [prev|] eqn:E.
  - rewrite (Hk _ _ _ E). eapply eqix_trans; [apply set_set|]. rewrite <- E. apply set_id.
  - eapply eqix_trans; [apply set_set|]. rewrite <- E at 1. apply set_id.
Qed.

(** the invariant of a running transaction that started with indexes [a0] *)
Definition Undo (a0 : indexes) (p : part) : Prop := keyed (ix p) /\ eqix (undo (ix p) (log p)) a0.

Lemma Undo_same a0 p p' : ix p' = ix p -> log p' = log p -> Undo a0 p -> Undo a0 p'.
Proof. unfold Undo. intros -> ->. auto. Qed.

Lemma Undo_put a0 p i r c : Undo a0 p ->
  Undo a0 (add_log (with_ix p (set_idx (ix p) i (key_of i r) (Some r))) (mklog c i r (ix p i (key_of i r)))).
Proof.
  intros [Hk Hu]. split; cbn [ix add_log with_ix log].
  - now apply keyed_put.
  - rewrite undo_snoc. eapply eqix_trans; [apply undo_eqix, undo1_put; exact Hk|exact Hu].
Qed.
Lemma Undo_del a0 p i r c : Undo a0 p ->
  Undo a0 (add_log (with_ix p (set_idx (ix p) i (key_of i r) None)) (mklog c i r (ix p i (key_of i r)))).
Proof.
  intros [Hk Hu]. split; cbn [ix add_log with_ix log].
  - now apply keyed_del.
  - rewrite undo_snoc. eapply eqix_trans; [apply undo_eqix, undo1_put; exact Hk|exact Hu].
Qed.

Lemma insert_secondary_undo a0 replace r : forall n i p p' st,
  Undo a0 p -> insert_secondary p replace r i n = (p', st) -> Undo a0 p'.
Proof.
  induction n as [|n IH]; intros i p p' st H E; cbn [insert_secondary] in E.
  - injection E as <- <-. exact H.
  - unfold replace_by in E. pose proof (Undo_put a0 p i r REPLACE H) as H1.
    destruct (ix p i (key_of i r)) as [prev|] eqn:Ep.
    + destruct (negb replace); [injection E as <- <-; exact H1|eapply IH; [exact H1|exact E]].
    + eapply IH; [exact H1|exact E].
Qed.

Lemma update_secondary_undo a0 r : forall n i p p' st,
  Undo a0 p -> update_secondary p r i n = (p', st) -> Undo a0 p'.
Proof.
  induction n as [|n IH]; intros i p p' st H E; cbn [update_secondary] in E.
  - injection E as <- <-. exact H.
  - pose proof (Undo_put a0 p i r REPLACE H) as H1.
    destruct (ix p i (key_of i r)) as [prev|] eqn:Ep.
    + eapply IH; [exact H1|exact E].
    + injection E as <- <-. exact H.
Qed.

Lemma delete_secondary_undo a0 r : forall n i p, Undo a0 p -> Undo a0 (delete_secondary p r i n).
Proof.
  induction n as [|n IH]; intros i p H; cbn [delete_secondary]; [exact H|].
  apply IH. unfold delete_by. now apply Undo_del.
Qed.

Lemma part_insert_undo a0 p replace over r p' st :
  Undo a0 p -> part_insert p replace over r = (p', st) -> Undo a0 p'.
Proof.
  intros H E. unfold part_insert in E.
  assert (H1 : Undo a0 (fst (replace_by (persist p REPLACE r) 0 r))).
  { unfold replace_by. cbn [fst]. apply Undo_put. now apply (Undo_same a0 p). }
  destruct (replace_by (persist p REPLACE r) 0 r) as [p1 prev]. cbn [fst] in H1.
  destruct (insert_secondary p1 replace r 1 (nsec p1)) as [p2 st2] eqn:E2.
  pose proof (insert_secondary_undo _ _ _ _ _ _ _ _ H1 E2) as H2.
  destruct prev as [q|]; [destruct replace|];
    try (injection E as <- <-; exact H1); destruct st2, over; injection E as <- <-; exact H2.
Qed.

Lemma part_upsert_undo a0 p over r p' st b :
  Undo a0 p -> part_upsert p over r = (p', st, b) -> Undo a0 p'.
Proof.
  intros H E. unfold part_upsert in E.
  pose proof (Undo_put a0 p 0 r REPLACE H) as H1.
  destruct (ix p 0%nat (key_of 0 r)) as [q|] eqn:Eq.
  - injection E as <- <- <-. now apply (Undo_same a0 p).
  - match type of E with (let '(_, _) := insert_secondary ?q _ _ _ _ in _) = _ =>
      assert (H1' : Undo a0 q) by (eapply Undo_same; [| |exact H1]; reflexivity);
      destruct (insert_secondary q false r 1 (nsec q)) as [p3 st3] eqn:E3 end.
    pose proof (insert_secondary_undo _ _ _ _ _ _ _ _ H1' E3) as H3.
    destruct st3; injection E as <- <- <-; exact H3.
Qed.

Lemma part_update_undo a0 p k over r p' st :
  Undo a0 p -> key_of 0 r = k -> part_update p k over r = (p', st) -> Undo a0 p'.
Proof.
  intros H <- E. unfold part_update in E. pose proof (Undo_put a0 p 0 r REPLACE H) as H1.
  destruct (ix p 0%nat (key_of 0 r)) as [q|] eqn:Eq.
  - match type of E with (let '(_, _) := update_secondary ?q _ _ _ in _) = _ =>
      assert (H1' : Undo a0 q) by (eapply Undo_same; [| |exact H1]; reflexivity);
      destruct (update_secondary q r 1 (nsec q)) as [p3 st3] eqn:E3 end.
    pose proof (update_secondary_undo _ _ _ _ _ _ _ H1' E3) as H3.
    destruct st3; injection E as <- <-; exact H3.
  - injection E as <- <-. exact H.
Qed.

Lemma part_delete_undo a0 p k over p' st :
  Undo a0 p -> part_delete p k over = (p', st) -> Undo a0 p'.
Proof.
  intros H E. unfold part_delete in E.
  destruct (ix p 0%nat k) as [r|] eqn:Er.
  - injection E as <- <-. apply delete_secondary_undo.
    pose proof (proj1 H _ _ _ Er) as Hk.
    pose proof (Undo_del a0 p 0 r DELETE H) as H1. rewrite Hk, Er in H1.
    eapply Undo_same; [| |exact H1]; reflexivity.
  - injection E as <- <-. exact H.
Qed.

(** the key columns of an updated row *)
Lemma keep_keys_nth n old new j : (j <= n)%nat -> nth j (keep_keys n old new) 0 = nth j old 0.
Proof.
  intros Hj. unfold keep_keys.
  set (f := fun j0 : nat => nth j0 (if (j0 <=? n)%nat then old else new) 0).
  destruct (Nat.lt_ge_cases j (length old)) as [H|H].
  - rewrite (nth_indep _ 0 (f 0%nat)) by (rewrite map_length, seq_length; exact H).
    rewrite map_nth. rewrite seq_nth by exact H. unfold f. cbn [plus].
    destruct (Nat.leb_spec j n); [reflexivity|lia].
  - rewrite (nth_overflow old) by exact H. apply nth_overflow. now rewrite map_length, seq_length.
Qed.

Lemma step_undo a0 p o p' st : Undo a0 p -> step p o = (p', st) -> Undo a0 p'.
Proof.
  intros H E. destruct o as [keys data over|keys data over|k cols data over|k over]; cbn [step row_create] in E.
  - eapply part_insert_undo; [|exact E]. now apply (Undo_same a0 p).
  - destruct (part_upsert _ over _) as [[p1 st1] b] eqn:Eu. cbn [fst] in E. injection E as <- <-.
    eapply part_upsert_undo; [|exact Eu]. now apply (Undo_same a0 p).
  - destruct (ix p 0%nat k) as [r0|] eqn:Er; [|injection E as <- <-; exact H].
    eapply part_update_undo; [| |exact E]; [now apply (Undo_same a0 p)|].
    unfold key_of; cbn [rkeys]. rewrite keep_keys_nth by lia. exact (proj1 H _ _ _ Er).
  - destruct (ix p 0%nat k) as [r0|] eqn:Er; [|injection E as <- <-; exact H].
    eapply part_delete_undo; [exact H|exact E].
Qed.

Lemma run_undo a0 : forall ops p p' st, Undo a0 p -> run p ops = (p', st) -> Undo a0 p'.
Proof.
  induction ops as [|o ops IH]; intros p p' st H E; cbn [run] in E.
  - injection E as <- <-. exact H.
  - destruct (step p o) as [p1 st1] eqn:Es. pose proof (step_undo _ _ _ _ _ H Es) as H1.
    destruct st1; [eapply IH; eassumption| |]; injection E as <- <-; exact H1.
Qed.

Lemma fold_abort_ix : forall l p, ix (fold_left op_abort l p) = fold_left undo1 l (ix p).
Proof.
  induction l as [|e l IH]; intros p; cbn [fold_left]; [reflexivity|].
  rewrite IH. f_equal. unfold op_abort, log_if_rollback, undo1.
  destruct (lprev e), (lidx e), (lcmd e); reflexivity.
Qed.
Lemma tr_abort_ix p : ix (tr_abort p) = undo (ix p) (log p).
Proof. unfold tr_abort, log_reset. cbn [ix]. apply fold_abort_ix. Qed.

(** C06 *)
Lemma abort_restores p ops p' st :
  keyed (ix p) -> log p = [] -> run p ops = (p', st) ->
  forall i k, ix (tr_abort p') i k = ix p i k.
Proof.
  intros Hk Hl E. rewrite tr_abort_ix.
  apply (run_undo (ix p) ops p p' st); [|exact E].
  split; [exact Hk|]. rewrite Hl. apply eqix_refl.
Qed.

(** ** consistency of the indexes: every secondary index holds the rows of the
    primary one, each under its key *)
Definition consistent (p : part) : Prop :=
  keyed (ix p) /\
  forall i, (1 <= i <= nsec p)%nat ->
    (forall k r, ix p 0%nat k = Some r -> ix p i (key_of i r) = Some r) /\
    (forall k r, ix p i k = Some r -> ix p 0%nat (key_of 0 r) = Some r).

(** what the secondary loops do *)
Lemma insert_secondary_spec replace r : forall n i p p' st,
  insert_secondary p replace r i n = (p', st) ->
  nsec p' = nsec p /\ wal p' = wal p /\ freed p' = freed p /\ made p' = made p /\ next p' = next p /\
  (exists es, log p' = log p ++ es /\ Forall (fun e => (i <= lidx e)%nat) es) /\
  (st = SOk \/ st = SErr) /\
  (forall j k, ~ (i <= j < i + n)%nat -> ix p' j k = ix p j k) /\
  (st = SOk -> forall j, (i <= j < i + n)%nat ->
     (replace = false -> ix p j (key_of j r) = None) /\
     (forall k, ix p' j k = set_idx (ix p) j (key_of j r) (Some r) j k)) /\
  (forall j k s, ix p' j k = Some s -> ix p j k = Some s \/ s = r).
Proof.
  induction n as [|n IH]; intros i p p' st E; cbn [insert_secondary] in E.
  - injection E as <- <-. repeat (split; [reflexivity|]). split; [exists []; rewrite app_nil_r; auto|].
    split; [auto|]. split; [auto|]. split; [intros _ j Hj; lia|]. auto.
  - unfold replace_by in E.
    set (p1 := add_log (with_ix p (set_idx (ix p) i (key_of i r) (Some r)))
                 (mklog REPLACE i r (ix p i (key_of i r)))) in E.
    assert (Hcont : insert_secondary p1 replace r (S i) n = (p', st) ->
       (replace = false -> ix p i (key_of i r) = None) ->
       nsec p' = nsec p /\ wal p' = wal p /\ freed p' = freed p /\ made p' = made p /\ next p' = next p /\
       (exists es, log p' = log p ++ es /\ Forall (fun e => (i <= lidx e)%nat) es) /\
       (st = SOk \/ st = SErr) /\
       (forall j k, ~ (i <= j < i + S n)%nat -> ix p' j k = ix p j k) /\
       (st = SOk -> forall j, (i <= j < i + S n)%nat ->
         (replace = false -> ix p j (key_of j r) = None) /\
         (forall k, ix p' j k = set_idx (ix p) j (key_of j r) (Some r) j k)) /\
       (forall j k s, ix p' j k = Some s -> ix p j k = Some s \/ s = r)).
    { intros E1 Hnone. apply IH in E1.
      destruct E1 as (A1&A2&A3&A4&A5&(es&A6&A6')&A7&A8&A9&A10).
      repeat (split; [assumption|]). split.
      { exists (mklog REPLACE i r (ix p i (key_of i r)) :: es). split.
        - rewrite A6. unfold p1. cbn [log add_log with_ix]. rewrite <- app_assoc. reflexivity.
        - constructor; [cbn; lia|]. eapply Forall_impl; [|exact A6']. cbn. intros; lia. }
      split; [assumption|]. split.
      { intros j k Hj. rewrite A8 by lia. unfold p1. cbn [ix add_log with_ix]. apply set_other. lia. }
      split.
      { intros Hst j Hj. destruct (Nat.eq_dec j i) as [->|Hne].
        - split; [exact Hnone|]. intros k. rewrite A8 by lia. reflexivity.
        - destruct (A9 Hst j ltac:(lia)) as [B1 B2]. unfold p1 in B1, B2. cbn [ix add_log with_ix] in B1, B2.
          split.
          + intros Hr. specialize (B1 Hr). now rewrite set_other in B1 by tauto.
          + intros k. rewrite B2. unfold set_idx. rewrite Nat.eqb_refl.
            destruct (Nat.eqb_spec j i); [lia|]. cbn [andb]. reflexivity. }
      intros j k s Hs. apply A10 in Hs. destruct Hs as [Hs|Hs]; [|auto].
      unfold p1 in Hs. cbn [ix add_log with_ix] in Hs.
      destruct (set_cases (ix p) i (key_of i r) (Some r) j k) as [(->&->&E')|[_ E']]; rewrite E' in Hs;
        [injection Hs as <-; auto|auto]. }
    destruct (ix p i (key_of i r)) as [prev|] eqn:Ep.
    + destruct replace; cbn [negb] in E; [apply Hcont; [exact E|discriminate]|].
      injection E as <- <-. repeat (split; [reflexivity|]). split.
      { exists [mklog REPLACE i r (Some prev)]. split; [reflexivity|]. constructor; [cbn; lia|constructor]. }
      split; [auto|]. split.
      { intros j k Hj. unfold p1; cbn [ix add_log with_ix]. apply set_other. lia. }
      split; [discriminate|]. intros j k s Hs. unfold p1 in Hs; cbn [ix add_log with_ix] in Hs.
      destruct (set_cases (ix p) i (key_of i r) (Some r) j k) as [(->&->&E')|[_ E']]; rewrite E' in Hs;
        [injection Hs as <-; auto|auto].
    + apply Hcont; [exact E|auto].
Qed.

Lemma update_secondary_spec r : forall n i p p' st,
  update_secondary p r i n = (p', st) ->
  nsec p' = nsec p /\ wal p' = wal p /\ freed p' = freed p /\ made p' = made p /\ next p' = next p /\
  (exists es, log p' = log p ++ es /\ Forall (fun e => (i <= lidx e)%nat) es) /\
  ((forall j, (i <= j < i + n)%nat -> ix p j (key_of j r) <> None) -> st = SOk) /\
  (forall j k, ~ (i <= j < i + n)%nat -> ix p' j k = ix p j k) /\
  (st = SOk -> forall j, (i <= j < i + n)%nat ->
     forall k, ix p' j k = set_idx (ix p) j (key_of j r) (Some r) j k) /\
  (forall j k s, ix p' j k = Some s -> ix p j k = Some s \/ s = r).
Proof.
  induction n as [|n IH]; intros i p p' st E; cbn [update_secondary] in E.
  - injection E as <- <-. repeat (split; [reflexivity|]). split; [exists []; rewrite app_nil_r; auto|].
    split; [auto|]. split; [auto|]. split; [intros _ j Hj; lia|auto].
  - destruct (ix p i (key_of i r)) as [prev|] eqn:Ep.
    + apply IH in E. destruct E as (A1&A2&A3&A4&A5&(es&A6&A6')&A7&A8&A9&A10).
      cbn [ix add_log with_ix] in *.
      repeat (split; [assumption|]). split.
      { exists (mklog REPLACE i r (Some prev) :: es). split.
        - rewrite A6. cbn [log add_log with_ix]. rewrite <- app_assoc. reflexivity.
        - constructor; [cbn; lia|]. eapply Forall_impl; [|exact A6']. cbn. intros; lia. }
      split.
      { intros Hn. apply A7. intros j Hj. rewrite set_other by lia. apply Hn. lia. }
      split.
      { intros j k Hj. rewrite A8 by lia. apply set_other. lia. }
      split.
      { intros Hst j Hj k. destruct (Nat.eq_dec j i) as [->|Hne].
        - rewrite A8 by lia. reflexivity.
        - rewrite (A9 Hst j ltac:(lia)). unfold set_idx. rewrite Nat.eqb_refl.
          destruct (Nat.eqb_spec j i); [lia|]. cbn [andb]. reflexivity. }
      intros j k s Hs. apply A10 in Hs. destruct Hs as [Hs|Hs]; [|auto].
      destruct (set_cases (ix p) i (key_of i r) (Some r) j k) as [(->&->&E')|[_ E']]; rewrite E' in Hs;
        [injection Hs as <-; auto|auto].
    + injection E as <- <-. repeat (split; [reflexivity|]). split; [exists []; rewrite app_nil_r; auto|].
      split. { intros Hn. exfalso. apply (Hn i); [lia|exact Ep]. }
      split; [auto|]. split; [discriminate|auto].
Qed.

Lemma delete_secondary_spec r : forall n i p, let p' := delete_secondary p r i n in
  nsec p' = nsec p /\ wal p' = wal p /\ freed p' = freed p /\ made p' = made p /\ next p' = next p /\
  (exists es, log p' = log p ++ es /\ Forall (fun e => (i <= lidx e)%nat) es) /\
  (forall j k, ~ (i <= j < i + n)%nat -> ix p' j k = ix p j k) /\
  (forall j, (i <= j < i + n)%nat ->
     forall k, ix p' j k = set_idx (ix p) j (key_of j r) None j k).
Proof.
  cbv zeta. induction n as [|n IH]; intros i p; cbn [delete_secondary].
  - repeat (split; [reflexivity|]). split; [exists []; rewrite app_nil_r; auto|].
    split; [auto|]. intros j Hj; lia.
  - destruct (IH (S i) (delete_by p i r)) as (A1&A2&A3&A4&A5&(es&A6&A6')&A8&A9).
    unfold delete_by in *. cbn [ix add_log with_ix nsec wal freed made next log] in *.
    repeat (split; [assumption|]). split.
    { exists (mklog DELETE i r (ix p i (key_of i r)) :: es). split.
      - rewrite A6. rewrite <- app_assoc. reflexivity.
      - constructor; [cbn; lia|]. eapply Forall_impl; [|exact A6']. cbn. intros; lia. }
    split.
    { intros j k Hj. rewrite A8 by lia. apply set_other. lia. }
    intros j Hj k. destruct (Nat.eq_dec j i) as [->|Hne].
    + rewrite A8 by lia. reflexivity.
    + rewrite (A9 j ltac:(lia)). unfold set_idx. rewrite Nat.eqb_refl.
      destruct (Nat.eqb_spec j i); [lia|]. cbn [andb]. reflexivity.
Qed.

(** ** effect of one successful operation *)
Definition secs (es : list logop) : Prop := Forall (fun e => (1 <= lidx e)%nat) es.
Definition put_all (p p' : part) (r : row) (v : option row) : Prop :=
  forall j k, ix p' j k = if (j <=? nsec p)%nat then set_idx (ix p) j (key_of j r) v j k else ix p j k.

Inductive eff (p p' : part) : Prop :=
| E_none : p' = p -> eff p p'
| E_drop r : ix p' = ix p -> nsec p' = nsec p -> log p' = log p -> wal p' = wal p ->
    freed p' = freed p ++ [r] -> made p' = made p ++ [r] -> next p' = next p + 1 -> rid r = next p -> eff p p'
| E_new r es : (forall j, (j <= nsec p)%nat -> ix p j (key_of j r) = None) ->
    put_all p p' r (Some r) -> nsec p' = nsec p ->
    log p' = log p ++ mklog REPLACE 0 r None :: es -> secs es -> wal p' = wal p ++ [(REPLACE, r)] ->
    freed p' = freed p -> made p' = made p ++ [r] -> next p' = next p + 1 -> rid r = next p -> eff p p'
| E_upd r0 r es : ix p 0%nat (key_of 0 r0) = Some r0 -> (forall j, (j <= nsec p)%nat -> key_of j r = key_of j r0) ->
    put_all p p' r (Some r) -> nsec p' = nsec p ->
    log p' = log p ++ mklog REPLACE 0 r (Some r0) :: es -> secs es -> wal p' = wal p ++ [(REPLACE, r)] ->
    freed p' = freed p -> made p' = made p ++ [r] -> next p' = next p + 1 -> rid r = next p -> eff p p'
| E_del r es : ix p 0%nat (key_of 0 r) = Some r ->
    put_all p p' r None -> nsec p' = nsec p ->
    log p' = log p ++ mklog DELETE 0 r (Some r) :: es -> secs es -> wal p' = wal p ++ [(DELETE, r)] ->
    freed p' = freed p -> made p' = made p -> next p' = next p -> eff p p'.

Lemma put_all_of p p' p1 r v :
  (forall j k, ix p1 j k = set_idx (ix p) 0 (key_of 0 r) v j k) ->
  (forall j k, ~ (1 <= j < 1 + nsec p)%nat -> ix p' j k = ix p1 j k) ->
  (forall j, (1 <= j < 1 + nsec p)%nat -> forall k, ix p' j k = set_idx (ix p1) j (key_of j r) v j k) ->
  put_all p p' r v.
Proof.
  intros H0 H1 H2 j k. destruct (Nat.leb_spec j (nsec p)).
  - destruct (Nat.eq_dec j 0) as [->|Hne].
    + rewrite H1 by lia. apply H0.
    + rewrite H2 by lia. unfold set_idx. rewrite Nat.eqb_refl. cbn [andb]. rewrite H0.
      unfold set_idx. destruct (Nat.eqb_spec j 0); [lia|]. cbn [andb]. reflexivity.
  - rewrite H1 by lia. rewrite H0. apply set_other. lia.
Qed.

Lemma step_eff p o p' : consistent p -> step p o = (p', SOk) -> eff p p'.
Proof.
  intros [Hk Hc] E. destruct o as [keys data over|keys data over|k cols data over|k over]; cbn [step row_create] in E.
  - unfold part_insert, replace_by in E. cbn [persist ix] in E.
    set (r := mkrow (next p) keys data) in *.
    destruct (ix p 0%nat (key_of 0 r)) as [q|] eqn:E0; [discriminate|].
    match type of E with (let '(_, _) := insert_secondary ?q _ _ _ _ in _) = _ =>
      set (p1 := q) in *; destruct (insert_secondary p1 false r 1 (nsec p1)) as [p2 st2] eqn:E2 end.
    apply insert_secondary_spec in E2. destruct E2 as (A1&A2&A3&A4&A5&(es&A6&A6')&A7&A8&A9&A10).
    destruct st2; try discriminate. destruct over; [discriminate|]. injection E as <-.
    specialize (A9 eq_refl).
    unfold p1 in *; cbn [ix add_log with_ix nsec wal freed made next log persist] in *.
    apply (E_new p p2 r es); try assumption; try reflexivity.
    + intros j Hj. destruct (Nat.eq_dec j 0) as [->|Hne]; [exact E0|].
      destruct (A9 j ltac:(lia)) as [B1 _]. specialize (B1 eq_refl). rewrite set_other in B1 by tauto. exact B1.
    + eapply put_all_of with (p1 := p1); [reflexivity| |].
      * intros j k Hj. apply A8. exact Hj.
      * intros j Hj k. apply (A9 j Hj).
    + rewrite A6. rewrite <- app_assoc. reflexivity.
  - unfold part_upsert in E. cbn [ix] in E.
    set (r := mkrow (next p) keys data) in *.
    destruct (ix p 0%nat (key_of 0 r)) as [q|] eqn:E0.
    + cbn [fst] in E. injection E as <-. apply (E_drop p _ r); reflexivity.
    + match type of E with context [insert_secondary ?q _ _ _ _] =>
      set (p1 := q) in *; destruct (insert_secondary p1 false r 1 (nsec p1)) as [p2 st2] eqn:E2 end.
      apply insert_secondary_spec in E2. destruct E2 as (A1&A2&A3&A4&A5&(es&A6&A6')&A7&A8&A9&A10).
      destruct st2; cbn [fst] in E; try discriminate. destruct over; [discriminate|]. injection E as <-.
      specialize (A9 eq_refl).
      unfold p1 in *; cbn [ix add_log with_ix nsec wal freed made next log persist] in *.
      apply (E_new p p2 r es); try assumption; try reflexivity.
      * intros j Hj. destruct (Nat.eq_dec j 0) as [->|Hne]; [exact E0|].
        destruct (A9 j ltac:(lia)) as [B1 _]. specialize (B1 eq_refl). rewrite set_other in B1 by tauto. exact B1.
      * eapply put_all_of with (p1 := p1); [reflexivity| |].
        -- intros j k Hj. apply A8. exact Hj.
        -- intros j Hj k. apply (A9 j Hj).
      * rewrite A6. rewrite <- app_assoc. reflexivity.
  - destruct (ix p 0%nat k) as [r0|] eqn:E0; [|injection E as <-; now apply E_none].
    pose proof (Hk _ _ _ E0) as Hr0. unfold part_update in E. cbn [ix] in E. rewrite E0 in E.
    set (r := mkrow (next p) (keep_keys (nsec p) (rkeys r0) cols) data) in *.
    assert (Hkr : key_of 0 r = k) by (rewrite <- Hr0; unfold key_of, r; cbn [rkeys]; apply keep_keys_nth; lia).
    match type of E with context [update_secondary ?q _ _ _] =>
      set (p1 := q) in *; destruct (update_secondary p1 r 1 (nsec p1)) as [p2 st2] eqn:E2 end.
    apply update_secondary_spec in E2. destruct E2 as (A1&A2&A3&A4&A5&(es&A6&A6')&A7&A8&A9&A10).
    destruct st2; try discriminate. destruct over; [discriminate|]. injection E as <-. specialize (A9 eq_refl).
    unfold p1 in *; cbn [ix add_log with_ix nsec wal freed made next log persist] in *.
    apply (E_upd p p2 r0 r es); try assumption; try reflexivity.
    + now rewrite Hr0.
    + intros j Hj. unfold key_of, r. cbn [rkeys]. now apply keep_keys_nth.
    + eapply put_all_of with (p1 := p1); [cbn [ix p1 persist add_log with_ix]; now rewrite Hkr| |].
      * intros j q Hj. apply A8. exact Hj.
      * intros j Hj q. apply (A9 j Hj).
    + rewrite A6. rewrite <- app_assoc. reflexivity.
  - destruct (ix p 0%nat k) as [r|] eqn:E0; [|injection E as <-; now apply E_none].
    pose proof (Hk _ _ _ E0) as Hr. unfold part_delete in E. rewrite E0 in E.
    destruct over; [discriminate|]. injection E as <-.
    match goal with |- eff _ (delete_secondary ?q _ _ _) => set (p1 := q) end.
    destruct (delete_secondary_spec r (nsec p) 1 p1) as (A1&A2&A3&A4&A5&(es&A6&A6')&A8&A9).
    unfold p1 in *; cbn [ix add_log with_ix nsec wal freed made next log persist] in *.
    eapply (E_del p _ r es); try eassumption; try reflexivity.
    + now rewrite Hr.
    + eapply put_all_of with (p1 := p1); [cbn [ix p1 persist add_log with_ix]; now rewrite Hr| |].
      * intros j q Hj. apply A8. exact Hj.
      * intros j Hj q. apply (A9 j Hj).
    + rewrite A6. rewrite <- app_assoc. reflexivity.
Qed.

Lemma update_keys_secondary p r0 : consistent p -> ix p 0%nat (key_of 0 r0) = Some r0 ->
  forall j, (j <= nsec p)%nat -> ix p j (key_of j r0) = Some r0.
Proof.
  intros [Hk Hc] H0 j Hj. destruct (Nat.eq_dec j 0) as [->|Hne]; [exact H0|].
  destruct (Hc j ltac:(lia)) as [H1 _]. eapply H1. exact H0.
Qed.

Lemma step_no_ub p o p' st : consistent p -> step p o = (p', st) -> st <> SUB.
Proof.
  intros [Hk Hc] E. destruct o as [keys data over|keys data over|k cols data over|k over]; cbn [step row_create] in E.
  - unfold part_insert in E. destruct (replace_by _ 0 _) as [p1 prev].
    destruct (insert_secondary p1 false _ 1 (nsec p1)) as [p2 st2] eqn:E2.
    apply insert_secondary_spec in E2. destruct E2 as (_&_&_&_&_&_&A7&_).
    destruct prev; [congruence|]. destruct st2; [destruct over; congruence|congruence|destruct A7; congruence].
  - unfold part_upsert in E. destruct (ix _ 0%nat _); [cbn in E; congruence|].
    destruct (insert_secondary _ false _ 1 _) as [p2 st2] eqn:E2.
    apply insert_secondary_spec in E2. destruct E2 as (_&_&_&_&_&_&A7&_).
    destruct st2; cbn [fst] in E; [destruct over; congruence|congruence|destruct A7; congruence].
  - destruct (ix p 0%nat k) as [r0|] eqn:E0; [|congruence].
    pose proof (Hk _ _ _ E0) as Hr0. unfold part_update in E. cbn [ix] in E. rewrite E0 in E.
    destruct (update_secondary _ _ 1 _) as [p2 st2] eqn:E2.
    apply update_secondary_spec in E2. destruct E2 as (_&_&_&_&_&_&A7&_).
    assert (st2 = SOk).
    { apply A7. cbn [ix persist add_log with_ix nsec]. intros j Hj. rewrite set_other by lia.
      assert (Hx : ix p j (key_of j r0) = Some r0).
      { apply update_keys_secondary; [split; assumption|now rewrite Hr0|lia]. }
      unfold key_of in *. cbn [rkeys]. rewrite keep_keys_nth by lia. rewrite Hx. discriminate. }
    subst. destruct over; congruence.
  - destruct (ix p 0%nat k) as [r0|] eqn:E0; [|congruence]. unfold part_delete in E. rewrite E0 in E.
    destruct over; congruence.
Qed.

Lemma eff_consistent p p' : consistent p -> eff p p' -> consistent p'.
Proof.
  intros Hcons H. pose proof Hcons as [Hk Hc]. destruct H as [->|r H1 H2|r es Hn Hp Hns _ _ _ _ _ _ _|r0 r es H0 Hr Hp Hns _ _ _ _ _ _ _|r es H0 Hp Hns _ _ _ _ _ _].
  - exact Hcons.
  - split; rewrite H1; [exact Hk|]. rewrite H2. exact Hc.
  - split.
    + intros j k s Hs. rewrite Hp in Hs. destruct (j <=? nsec p)%nat; [|now apply Hk].
      eapply keyed_put; [exact Hk|exact Hs].
    + rewrite Hns. intros i Hi. destruct (Hc i Hi) as [C1 C2].
      assert (L0 : forall k, ix p' 0%nat k = set_idx (ix p) 0 (key_of 0 r) (Some r) 0%nat k) by (intros; rewrite Hp; reflexivity).
      assert (Li : forall k, ix p' i k = set_idx (ix p) i (key_of i r) (Some r) i k).
      { intros k. rewrite Hp. destruct (Nat.leb_spec i (nsec p)); [reflexivity|lia]. }
      split; intros k s Hs.
      * rewrite Li. rewrite L0 in Hs.
        destruct (set_cases (ix p) 0 (key_of 0 r) (Some r) 0%nat k) as [(_&->&E)|[Hd E]]; rewrite E in Hs.
        -- injection Hs as <-. apply set_same.
        -- rewrite set_other; [now apply (C1 k)|]. intros [_ Hkk].
           apply C1 in Hs. rewrite Hkk in Hs. rewrite Hn in Hs by lia. discriminate.
      * rewrite L0. rewrite Li in Hs.
        destruct (set_cases (ix p) i (key_of i r) (Some r) i k) as [(_&->&E)|[Hd E]]; rewrite E in Hs.
        -- injection Hs as <-. apply set_same.
        -- rewrite set_other; [now apply (C2 k)|]. intros [_ Hkk].
           apply C2 in Hs. rewrite Hkk in Hs. rewrite Hn in Hs by lia. discriminate.
  - pose proof Hr as Hkeys.
    assert (Hr0 : forall j, (j <= nsec p)%nat -> ix p j (key_of j r0) = Some r0)
      by (apply update_keys_secondary; assumption).
    split.
    + intros j k s Hs. rewrite Hp in Hs. destruct (j <=? nsec p)%nat; [|now apply Hk].
      eapply keyed_put; [exact Hk|exact Hs].
    + rewrite Hns. intros i Hi. destruct (Hc i Hi) as [C1 C2].
      assert (L0 : forall k, ix p' 0%nat k = set_idx (ix p) 0 (key_of 0 r) (Some r) 0%nat k) by (intros; rewrite Hp; reflexivity).
      assert (Li : forall k, ix p' i k = set_idx (ix p) i (key_of i r) (Some r) i k).
      { intros k. rewrite Hp. destruct (Nat.leb_spec i (nsec p)); [reflexivity|lia]. }
      split; intros k s Hs.
      * rewrite Li. rewrite L0 in Hs.
        destruct (set_cases (ix p) 0 (key_of 0 r) (Some r) 0%nat k) as [(_&->&E)|[Hd E]]; rewrite E in Hs.
        -- injection Hs as <-. apply set_same.
        -- rewrite set_other; [now apply (C1 k)|]. intros [_ Hkk].
           pose proof (Hk _ _ _ Hs) as Hks. apply C1 in Hs. rewrite Hkk, Hkeys in Hs by lia. rewrite Hr0 in Hs by lia.
           injection Hs as <-. apply Hd. split; [reflexivity|]. now rewrite Hkeys by lia.
      * rewrite L0. rewrite Li in Hs.
        destruct (set_cases (ix p) i (key_of i r) (Some r) i k) as [(_&->&E)|[Hd E]]; rewrite E in Hs.
        -- injection Hs as <-. apply set_same.
        -- rewrite set_other; [now apply (C2 k)|]. intros [_ Hkk].
           pose proof (Hk _ _ _ Hs) as Hks. apply C2 in Hs. rewrite Hkk, Hkeys in Hs by lia. rewrite Hr0 in Hs by lia.
           injection Hs as <-. apply Hd. split; [reflexivity|]. now rewrite Hkeys by lia.
  - assert (Hr0 : forall j, (j <= nsec p)%nat -> ix p j (key_of j r) = Some r)
      by (apply update_keys_secondary; assumption).
    split.
    + intros j k s Hs. rewrite Hp in Hs. destruct (j <=? nsec p)%nat; [|now apply Hk].
      eapply keyed_del; [exact Hk|exact Hs].
    + rewrite Hns. intros i Hi. destruct (Hc i Hi) as [C1 C2].
      assert (L0 : forall k, ix p' 0%nat k = set_idx (ix p) 0 (key_of 0 r) None 0%nat k) by (intros; rewrite Hp; reflexivity).
      assert (Li : forall k, ix p' i k = set_idx (ix p) i (key_of i r) None i k).
      { intros k. rewrite Hp. destruct (Nat.leb_spec i (nsec p)); [reflexivity|lia]. }
      split; intros k s Hs.
      * rewrite Li. rewrite L0 in Hs.
        destruct (set_cases (ix p) 0 (key_of 0 r) None 0%nat k) as [(_&->&E)|[Hd E]]; rewrite E in Hs;
          [discriminate|].
        rewrite set_other; [now apply (C1 k)|]. intros [_ Hkk].
        pose proof (Hk _ _ _ Hs) as Hks. apply C1 in Hs. rewrite Hkk in Hs. rewrite Hr0 in Hs by lia.
        injection Hs as <-. apply Hd. split; [reflexivity|]. now rewrite Hks.
      * rewrite L0. rewrite Li in Hs.
        destruct (set_cases (ix p) i (key_of i r) None i k) as [(_&->&E)|[Hd E]]; rewrite E in Hs; [discriminate|].
        rewrite set_other; [now apply (C2 k)|]. intros [_ Hkk].
        pose proof (Hk _ _ _ Hs) as Hks. apply C2 in Hs. rewrite Hkk in Hs. rewrite Hr0 in Hs by lia.
        injection Hs as <-. apply Hd. split; [reflexivity|]. now rewrite Hks.
Qed.

Lemma run_consistent : forall ops p p', consistent p -> run p ops = (p', SOk) -> consistent p'.
Proof.
  induction ops as [|o ops IH]; intros p p' Hc E; cbn [run] in E.
  - injection E as <-. exact Hc.
  - destruct (step p o) as [p1 st1] eqn:Es. destruct st1; try discriminate.
    eapply IH; [|exact E]. eapply eff_consistent; [exact Hc|]. eapply step_eff; eassumption.
Qed.
Lemma run_no_ub : forall ops p p' st, consistent p -> run p ops = (p', st) -> st <> SUB.
Proof.
  induction ops as [|o ops IH]; intros p p' st Hc E; cbn [run] in E.
  - congruence.
  - destruct (step p o) as [p1 st1] eqn:Es. pose proof (step_no_ub _ _ _ _ Hc Es) as Hn.
    destruct st1; try congruence.
    eapply IH; [|exact E]. eapply eff_consistent; [exact Hc|]. eapply step_eff; eassumption.
Qed.

(** ** accounting of rows *)
Definition cprevs (lg : list logop) : list row :=
  flat_map (fun e => match lidx e, lprev e with O, Some r => [r] | _, _ => [] end) lg.
Definition prows (lg : list logop) : list row :=
  flat_map (fun e => match lidx e, lcmd e with O, REPLACE => [lrow e] | _, _ => [] end) lg.
Lemma cprevs_secs es : secs es -> cprevs es = [].
Proof.
  unfold secs, cprevs. induction 1 as [|e es He _ IH]; [reflexivity|]. cbn [flat_map]. rewrite IH.
  destruct (lidx e); [lia|reflexivity].
Qed.
Lemma prows_secs es : secs es -> prows es = [].
Proof.
  unfold secs, prows. induction 1 as [|e es He _ IH]; [reflexivity|]. cbn [flat_map]. rewrite IH.
  destruct (lidx e); [lia|reflexivity].
Qed.
Lemma cprevs_app a b : cprevs (a ++ b) = cprevs a ++ cprevs b.
Proof. apply flat_map_app. Qed.
Lemma cprevs_cons e es : secs es -> cprevs (e :: es) = match lidx e, lprev e with O, Some r => [r] | _, _ => [] end.
Proof. intros H. change (cprevs (e :: es)) with (match lidx e, lprev e with O, Some r => [r] | _, _ => [] end ++ cprevs es).
  rewrite cprevs_secs by assumption. apply app_nil_r. Qed.
Lemma prows_cons e es : secs es -> prows (e :: es) = match lidx e, lcmd e with O, REPLACE => [lrow e] | _, _ => [] end.
Proof. intros H. change (prows (e :: es)) with (match lidx e, lcmd e with O, REPLACE => [lrow e] | _, _ => [] end ++ prows es).
  rewrite prows_secs by assumption. apply app_nil_r. Qed.
Lemma prows_app a b : prows (a ++ b) = prows a ++ prows b.
Proof. apply flat_map_app. Qed.

Lemma fold_commit : forall lg p,
  freed (fold_left op_commit lg p) = freed p ++ cprevs lg /\
  ix (fold_left op_commit lg p) = ix p /\ made (fold_left op_commit lg p) = made p /\
  nsec (fold_left op_commit lg p) = nsec p /\ next (fold_left op_commit lg p) = next p.
Proof.
  induction lg as [|e lg IH]; intros p; cbn [fold_left].
  - rewrite app_nil_r. auto.
  - destruct (IH (op_commit p e)) as (A1&A2&A3&A4&A5). rewrite A1, A2, A3, A4, A5.
    unfold op_commit, cprevs at 2. cbn [flat_map]. fold (cprevs lg).
    destruct (lidx e), (lprev e); cbn [freed ix made nsec next row_free app];
      rewrite <- ?app_assoc; auto.
Qed.

Lemma fold_abort : forall lg p,
  freed (fold_left op_abort lg p) = freed p ++ prows lg /\
  made (fold_left op_abort lg p) = made p /\
  nsec (fold_left op_abort lg p) = nsec p /\ next (fold_left op_abort lg p) = next p.
Proof.
  induction lg as [|e lg IH]; intros p; cbn [fold_left].
  - rewrite app_nil_r. auto.
  - destruct (IH (op_abort p e)) as (A1&A3&A4&A5). rewrite A1, A3, A4, A5.
    unfold op_abort, log_if_rollback, prows at 2. cbn [flat_map]. fold (prows lg).
    destruct (lidx e), (lcmd e), (lprev e); cbn [freed ix made nsec next row_free app with_ix];
      rewrite <- ?app_assoc; auto.
Qed.

Definition rids_ok (p : part) : Prop :=
  (forall k r, ix p 0%nat k = Some r -> rid r < next p) /\
  (forall k r k' r', ix p 0%nat k = Some r -> ix p 0%nat k' = Some r' -> rid r = rid r' -> r = r').
(** a partition with no transaction running *)
Definition quiet (p : part) : Prop :=
  consistent p /\ rids_ok p /\ log p = [] /\ wal p = [] /\ freed p = [] /\ made p = [].

Definition Fr (p : part) : list row := freed p ++ cprevs (log p).
Definition Acc (p0 p : part) : Prop :=
  rids_ok p /\
  (forall r, In r (Fr p) -> rid r < next p /\ forall k s, ix p 0%nat k = Some s -> rid s <> rid r) /\
  NoDup (map rid (Fr p)) /\
  (forall r, In r (made p) \/ (exists k, ix p0 0%nat k = Some r) ->
     (exists k, ix p 0%nat k = Some r) \/ In r (Fr p)).

Lemma NoDup_snoc {A} (l : list A) x : NoDup l -> ~ In x l -> NoDup (l ++ [x]).
Proof.
  intros Hl Hx. induction Hl as [|y l Hy Hl IH]; cbn [app].
  - constructor; [intros []|constructor].
  - constructor.
    + rewrite in_app_iff. intros [H|[->|[]]]; [contradiction|]. apply Hx. now left.
    + apply IH. intros H. apply Hx. now right.
Qed.

Lemma eff_acc p0 p p' : consistent p -> Acc p0 p -> eff p p' -> Acc p0 p'.
Proof.
  intros Hcons (HR&HF&HN&HL) H. pose proof Hcons as [Hk Hc].
  destruct HR as [HR1 HR2].
  destruct H as [->|r H1 Hns Hl _ Hf Hm Hx Hrid|r es Hn Hp Hns Hl Hs _ Hf Hm Hx Hrid|r0 r es H0 Hr Hp Hns Hl Hs _ Hf Hm Hx Hrid|r es H0 Hp Hns Hl Hs _ Hf Hm Hx].
  - exact (conj (conj HR1 HR2) (conj HF (conj HN HL))).
  - (* drop: the new row is released at once *)
    assert (EF : Permutation (Fr p') (r :: Fr p)).
    { unfold Fr. rewrite Hf, Hl, <- app_assoc. cbn [app]. symmetry. apply Permutation_middle. }
    split; [|split; [|split]].
    + split; rewrite H1; [intros k s Hs; apply HR1 in Hs; lia|exact HR2].
    + intros s Hs. apply (Permutation_in s EF) in Hs. rewrite Hx, H1. destruct Hs as [<-|Hs].
      * split; [lia|]. intros k t Ht. apply HR1 in Ht. lia.
      * destruct (HF s Hs) as [F1 F2]. split; [lia|exact F2].
    + apply (Permutation_NoDup (l := map rid (r :: Fr p))); [apply Permutation_map; now symmetry|].
      cbn [map]. constructor; [|exact HN]. intros Hin. apply in_map_iff in Hin. destruct Hin as (s & Es & Hs).
      destruct (HF s Hs). lia.
    + intros s Hs. rewrite H1. rewrite Hm in Hs. rewrite in_app_iff in Hs.
      assert (D : (In s (made p) \/ (exists k, ix p0 0%nat k = Some s)) \/ s = r).
      { destruct Hs as [[Hs|[->|[]]]|Hs]; auto. }
      destruct D as [D| ->].
      * destruct (HL s D) as [|D']; [auto|]. right. apply (Permutation_in s (Permutation_sym EF)). now right.
      * right. apply (Permutation_in r (Permutation_sym EF)). now left.
  - (* new row *)
    assert (EF : Fr p' = Fr p).
    { unfold Fr. rewrite Hf, Hl, cprevs_app, cprevs_cons by assumption. cbn [lidx lprev]. now rewrite app_nil_r. }
    assert (L0 : forall k, ix p' 0%nat k = set_idx (ix p) 0 (key_of 0 r) (Some r) 0%nat k) by (intros; rewrite Hp; reflexivity).
    assert (Hcase : forall k s, ix p' 0%nat k = Some s -> s = r \/ ix p 0%nat k = Some s).
    { intros k s Hs'. rewrite L0 in Hs'. destruct (set_cases (ix p) 0 (key_of 0 r) (Some r) 0%nat k) as [(_&->&E)|[Hd E]];
        rewrite E in Hs'; [injection Hs' as <-; auto|auto]. }
    split; [|split; [|split]].
    + split.
      * intros k s Hs'. destruct (Hcase k s Hs') as [->|Hs'']; [lia|]. apply HR1 in Hs''. lia.
      * intros k s k' s' A B Hid. destruct (Hcase k s A) as [->|A'], (Hcase k' s' B) as [->|B'].
        -- reflexivity.
        -- apply HR1 in B'. lia.
        -- apply HR1 in A'. lia.
        -- eapply HR2; eassumption.
    + rewrite EF, Hx. intros s Hs'. destruct (HF s Hs') as [F1 F2]. split; [lia|].
      intros k t Ht. destruct (Hcase k t Ht) as [->|Ht']; [lia|]. now apply (F2 k).
    + now rewrite EF.
    + rewrite EF, Hm. intros s Hs'. rewrite in_app_iff in Hs'.
      assert (D : (In s (made p) \/ (exists k, ix p0 0%nat k = Some s)) \/ s = r).
      { destruct Hs' as [[Hs'|[->|[]]]|Hs']; auto. }
      destruct D as [D| ->].
      * destruct (HL s D) as [[k Hk']|D']; [|auto]. left. exists k. rewrite L0.
        rewrite set_other; [exact Hk'|]. intros [_ ->]. rewrite Hn in Hk' by lia. discriminate.
      * left. exists (key_of 0 r). rewrite L0. apply set_same.
  - (* update *)
    assert (Hkeys : key_of 0 r = key_of 0 r0) by (apply Hr; lia).
    assert (EF : Fr p' = Fr p ++ [r0]).
    { unfold Fr. rewrite Hf, Hl, cprevs_app, cprevs_cons by assumption. cbn [lidx lprev]. now rewrite app_assoc. }
    assert (L0 : forall k, ix p' 0%nat k = set_idx (ix p) 0 (key_of 0 r) (Some r) 0%nat k) by (intros; rewrite Hp; reflexivity).
    assert (Hcase : forall k s, ix p' 0%nat k = Some s -> s = r \/ (ix p 0%nat k = Some s /\ rid s <> rid r0)).
    { intros k s Hs'. rewrite L0 in Hs'. destruct (set_cases (ix p) 0 (key_of 0 r) (Some r) 0%nat k) as [(_&->&E)|[Hd E]];
        rewrite E in Hs'; [injection Hs' as <-; auto|]. right. split; [exact Hs'|].
      intros Hid. assert (s = r0) by (eapply HR2; eassumption). subst s. apply Hk in Hs'. apply Hd.
      split; [reflexivity|]. rewrite <- Hs'. now symmetry. }
    split; [|split; [|split]].
    + split.
      * intros k s Hs'. destruct (Hcase k s Hs') as [->|[Hs'' _]]; [lia|]. apply HR1 in Hs''. lia.
      * intros k s k' s' A B Hid. destruct (Hcase k s A) as [->|[A' _]], (Hcase k' s' B) as [->|[B' _]].
        -- reflexivity.
        -- apply HR1 in B'. lia.
        -- apply HR1 in A'. lia.
        -- eapply HR2; eassumption.
    + rewrite EF, Hx. intros s Hs'. rewrite in_app_iff in Hs'. destruct Hs' as [Hs'|[<-|[]]].
      * destruct (HF s Hs') as [F1 F2]. split; [lia|].
        intros k t Ht. destruct (Hcase k t Ht) as [->|[Ht' _]]; [lia|]. now apply (F2 k).
      * pose proof (HR1 _ _ H0). split; [lia|]. intros k t Ht. destruct (Hcase k t Ht) as [->|[Ht' Hne]]; [lia|exact Hne].
    + rewrite EF, map_app. cbn [map]. apply NoDup_snoc; [exact HN|]. intros Hin. apply in_map_iff in Hin.
      destruct Hin as (s & Es & Hs'). destruct (HF s Hs') as [_ F2]. now apply (F2 _ _ H0).
    + rewrite EF, Hm. intros s Hs'. rewrite !in_app_iff in *.
      assert (D : (In s (made p) \/ (exists k, ix p0 0%nat k = Some s)) \/ s = r).
      { destruct Hs' as [[Hs'|[->|[]]]|Hs']; auto. }
      destruct D as [D| ->].
      * destruct (HL s D) as [[k Hk']|D']; [|auto].
        destruct (Z.eq_dec k (key_of 0 r)) as [->|Hne].
        -- right. right. left. rewrite Hkeys, H0 in Hk'. congruence.
        -- left. exists k. rewrite L0. rewrite set_other; [exact Hk'|]. tauto.
      * left. exists (key_of 0 r). rewrite L0. apply set_same.
  - (* delete *)
    assert (EF : Fr p' = Fr p ++ [r]).
    { unfold Fr. rewrite Hf, Hl, cprevs_app, cprevs_cons by assumption. cbn [lidx lprev]. now rewrite app_assoc. }
    assert (L0 : forall k, ix p' 0%nat k = set_idx (ix p) 0 (key_of 0 r) None 0%nat k) by (intros; rewrite Hp; reflexivity).
    assert (Hcase : forall k s, ix p' 0%nat k = Some s -> ix p 0%nat k = Some s /\ rid s <> rid r).
    { intros k s Hs'. rewrite L0 in Hs'. destruct (set_cases (ix p) 0 (key_of 0 r) None 0%nat k) as [(_&->&E)|[Hd E]];
        rewrite E in Hs'; [discriminate|]. split; [exact Hs'|].
      intros Hid. assert (s = r) by (eapply HR2; eassumption). subst s. apply Hk in Hs'. apply Hd. auto. }
    split; [|split; [|split]].
    + split.
      * intros k s Hs'. destruct (Hcase k s Hs') as [Hs'' _]. apply HR1 in Hs''. lia.
      * intros k s k' s' A B Hid. destruct (Hcase k s A) as [A' _], (Hcase k' s' B) as [B' _].
        eapply HR2; eassumption.
    + rewrite EF, Hx. intros s Hs'. rewrite in_app_iff in Hs'. destruct Hs' as [Hs'|[<-|[]]].
      * destruct (HF s Hs') as [F1 F2]. split; [lia|].
        intros k t Ht. destruct (Hcase k t Ht) as [Ht' _]. now apply (F2 k).
      * pose proof (HR1 _ _ H0). split; [lia|]. intros k t Ht. now destruct (Hcase k t Ht).
    + rewrite EF, map_app. cbn [map]. apply NoDup_snoc; [exact HN|]. intros Hin. apply in_map_iff in Hin.
      destruct Hin as (s & Es & Hs'). destruct (HF s Hs') as [_ F2]. now apply (F2 _ _ H0).
    + rewrite EF, Hm. intros s D. rewrite !in_app_iff.
      destruct (HL s D) as [[k Hk']|D']; [|auto].
      destruct (Z.eq_dec k (key_of 0 r)) as [->|Hne].
      * right. right. left. rewrite H0 in Hk'. congruence.
      * left. exists k. rewrite L0. rewrite set_other; [exact Hk'|]. tauto.
Qed.

Lemma run_acc p0 : forall ops p p', consistent p -> Acc p0 p -> run p ops = (p', SOk) -> Acc p0 p'.
Proof.
  induction ops as [|o ops IH]; intros p p' Hc Ha E; cbn [run] in E.
  - injection E as <-. exact Ha.
  - destruct (step p o) as [p1 st1] eqn:Es. destruct st1; try discriminate.
    pose proof (step_eff _ _ _ Hc Es) as He.
    eapply IH; [|  |exact E]; [eapply eff_consistent|eapply eff_acc]; eassumption.
Qed.

Lemma commit_accounting p ops p' : quiet p -> run p ops = (p', SOk) ->
  let q := tr_commit p' in
  consistent q /\
  NoDup (map rid (freed q)) /\
  (forall r i k s, In r (freed q) -> (i <= nsec q)%nat -> ix q i k = Some s -> rid s <> rid r) /\
  (forall r, In r (made q) \/ (exists k, ix p 0%nat k = Some r) ->
     (exists k, ix q 0%nat k = Some r) \/ In r (freed q)).
Proof.
  intros (Hc & [R1 R2] & Hl & Hw & Hf & Hm) E. cbv zeta.
  assert (Ha : Acc p p).
  { split; [split; assumption|]. unfold Fr. rewrite Hf, Hl. cbn [cprevs flat_map app map].
    split; [intros r []|]. split; [constructor|]. rewrite Hm. intros r [[]|H]; auto. }
  pose proof (run_acc p ops p p' Hc Ha E) as (_&A2&A3&A4).
  pose proof (run_consistent ops p p' Hc E) as Hc'.
  destruct (fold_commit (log p') p') as (F1&F2&F3&F4&F5).
  unfold tr_commit, log_reset. cbn [freed ix made nsec]. rewrite F1, F2, F3, F4. fold (Fr p').
  split; [|split; [exact A3|split; [|exact A4]]].
  - destruct Hc' as [K1 K2]. split; cbn [ix nsec]; [exact K1|exact K2].
  - intros r i k s Hr Hi Hs. destruct (A2 r Hr) as [_ A]. destruct (Nat.eq_dec i 0) as [->|Hne]; [now apply (A k)|].
    destruct Hc' as [_ K2]. destruct (K2 i ltac:(lia)) as [_ K3]. apply (A (key_of 0 s)). now apply (K3 k).
Qed.

(** abort: what an operation adds, whatever its outcome *)
Definition delta (p p' : part) : Prop :=
  exists es fr mk, log p' = log p ++ es /\ freed p' = freed p ++ fr /\ made p' = made p ++ mk /\
    nsec p' = nsec p /\ Permutation (fr ++ prows es) mk /\
    (mk = [] /\ next p' = next p \/ exists r, mk = [r] /\ rid r = next p /\ next p' = next p + 1).

Lemma step_delta p o p' st : consistent p -> step p o = (p', st) -> delta p p'.
Proof.
  intros [Hk Hc] E. destruct o as [keys data over|keys data over|k cols data over|k over]; cbn [step row_create] in E.
  - unfold part_insert, replace_by in E. cbn [persist ix] in E.
    set (r := mkrow (next p) keys data) in *.
    match type of E with context [insert_secondary ?q _ _ _ _] => set (p1 := q) in *;
      destruct (insert_secondary p1 false r 1 (nsec p1)) as [p2 st2] eqn:E2 end.
    apply insert_secondary_spec in E2. destruct E2 as (A1&A2&A3&A4&A5&(es&A6&A6')&A7&_).
    assert (D1 : delta p p1).
    { exists [mklog REPLACE 0 r (ix p 0%nat (key_of 0 r))], [], [r]. cbn. rewrite app_nil_r.
      repeat (split; [reflexivity|]). right. exists r. auto. }
    assert (D2 : delta p p2).
    { exists (mklog REPLACE 0 r (ix p 0%nat (key_of 0 r)) :: es), [], [r].
      rewrite A6, A3, A4, A1, A5. unfold p1. cbn [log freed made nsec next add_log with_ix persist].
      rewrite app_nil_r, <- app_assoc. repeat (split; [reflexivity|]). split.
      { rewrite prows_cons by exact A6'. cbn [lidx lcmd lrow app]. apply Permutation_refl. }
      right. exists r. auto. }
    destruct (ix p 0%nat (key_of 0 r)); [injection E as <- <-; exact D1|].
    destruct st2, over; injection E as <- <-; exact D2.
  - unfold part_upsert in E. cbn [ix] in E.
    set (r := mkrow (next p) keys data) in *.
    destruct (ix p 0%nat (key_of 0 r)) as [q|] eqn:E0.
    + cbn [fst] in E. injection E as <- <-. exists [], [r], [r]. cbn. rewrite !app_nil_r.
      repeat (split; [reflexivity|]). right. exists r. auto.
    + match type of E with context [insert_secondary ?q _ _ _ _] =>
      set (p1 := q) in *; destruct (insert_secondary p1 false r 1 (nsec p1)) as [p2 st2] eqn:E2 end.
      apply insert_secondary_spec in E2. destruct E2 as (A1&A2&A3&A4&A5&(es&A6&A6')&A7&_).
      assert (D2 : delta p p2).
      { exists (mklog REPLACE 0 r None :: es), [], [r].
        rewrite A6, A3, A4, A1, A5. unfold p1. cbn [log freed made nsec next add_log with_ix persist].
        rewrite app_nil_r, <- app_assoc. repeat (split; [reflexivity|]). split.
        { rewrite prows_cons by exact A6'. cbn [lidx lcmd lrow app]. apply Permutation_refl. }
        right. exists r. auto. }
      destruct st2; cbn [fst] in E; injection E as <- <-; exact D2.
  - destruct (ix p 0%nat k) as [r0|] eqn:E0.
    2: { injection E as <- <-. exists [], [], []. rewrite !app_nil_r. repeat (split; [reflexivity|]). auto. }
    unfold part_update in E. cbn [ix] in E. rewrite E0 in E.
    set (r := mkrow (next p) (keep_keys (nsec p) (rkeys r0) cols) data) in *.
    match type of E with context [update_secondary ?q _ _ _] =>
      set (p1 := q) in *; destruct (update_secondary p1 r 1 (nsec p1)) as [p2 st2] eqn:E2 end.
    apply update_secondary_spec in E2. destruct E2 as (A1&A2&A3&A4&A5&(es&A6&A6')&A7&_).
    assert (D2 : delta p p2).
    { exists (mklog REPLACE 0 r (Some r0) :: es), [], [r].
      rewrite A6, A3, A4, A1, A5. unfold p1. cbn [log freed made nsec next add_log with_ix persist].
      rewrite app_nil_r, <- app_assoc. repeat (split; [reflexivity|]). split.
      { rewrite prows_cons by exact A6'. cbn [lidx lcmd lrow app]. apply Permutation_refl. }
      right. exists r. auto. }
    destruct st2; injection E as <- <-; exact D2.
  - destruct (ix p 0%nat k) as [r|] eqn:E0.
    2: { injection E as <- <-. exists [], [], []. rewrite !app_nil_r. repeat (split; [reflexivity|]). auto. }
    unfold part_delete in E. rewrite E0 in E. injection E as <- <-.
    match goal with |- delta _ (delete_secondary ?q _ _ _) => set (p1 := q) end.
    destruct (delete_secondary_spec r (nsec p) 1 p1) as (A1&A2&A3&A4&A5&(es&A6&A6')&_).
    exists (mklog DELETE 0 r (Some r) :: es), [], [].
    unfold p1 in *; cbn [log freed made nsec next add_log with_ix persist] in *.
    rewrite A6, A3, A4, A1, A5. rewrite !app_nil_r, <- app_assoc. repeat (split; [reflexivity|]). split.
    { rewrite prows_cons by exact A6'. cbn [lidx lcmd lrow app]. apply perm_nil. }
    auto.
Qed.

Definition AccA (p0 p : part) : Prop :=
  nsec p = nsec p0 /\
  Permutation (freed p ++ prows (log p)) (made p) /\ NoDup (map rid (made p)) /\
  next p0 <= next p /\ forall r, In r (made p) -> next p0 <= rid r < next p.

Lemma delta_acc p0 p p' : AccA p0 p -> delta p p' -> AccA p0 p'.
Proof.
  intros (H0&H1&H2&H3&H4) (es&fr&mk&E1&E2&E3&E4&E5&E6).
  unfold AccA. rewrite E1, E2, E3, E4, prows_app.
  split; [exact H0|]. split.
  { rewrite <- H1, <- E5. rewrite <- !app_assoc. apply Permutation_app_head.
    rewrite !app_assoc. apply Permutation_app_tail. apply Permutation_app_comm. }
  destruct E6 as [[-> E6]|(r & -> & Hr & E6)].
  - rewrite app_nil_r, E6. repeat split; try assumption; apply H4; assumption.
  - split.
    { rewrite map_app. cbn [map]. apply NoDup_snoc; [exact H2|]. intros Hin. apply in_map_iff in Hin.
      destruct Hin as (s & Es & Hs). apply H4 in Hs. lia. }
    split; [lia|]. intros s Hs. rewrite in_app_iff in Hs. destruct Hs as [Hs|[<-|[]]]; [apply H4 in Hs|]; lia.
Qed.

Lemma run_accA p0 : forall ops p p' st, consistent p -> AccA p0 p -> run p ops = (p', st) -> AccA p0 p'.
Proof.
  induction ops as [|o ops IH]; intros p p' st Hc Ha E; cbn [run] in E.
  - injection E as <- <-. exact Ha.
  - destruct (step p o) as [p1 st1] eqn:Es. pose proof (step_delta _ _ _ _ Hc Es) as Hd.
    pose proof (delta_acc _ _ _ Ha Hd) as Ha1.
    destruct st1; try (injection E as <- <-; exact Ha1).
    eapply IH; [|exact Ha1|exact E]. eapply eff_consistent; [exact Hc|]. eapply step_eff; eassumption.
Qed.

Lemma prows_rev lg : Permutation (prows (rev lg)) (prows lg).
Proof.
  induction lg as [|e lg IH]; [apply perm_nil|]. cbn [rev]. rewrite prows_app, IH.
  rewrite Permutation_app_comm. change (e :: lg) with ([e] ++ lg). now rewrite prows_app.
Qed.

Lemma abort_accounting p ops p' st : quiet p -> run p ops = (p', st) ->
  let q := tr_abort p' in
  st <> SUB /\
  nsec q = nsec p /\
  (forall i k, ix q i k = ix p i k) /\
  Permutation (freed q) (made q) /\ NoDup (map rid (freed q)) /\
  (forall r i k s, In r (freed q) -> (i <= nsec q)%nat -> ix q i k = Some s -> rid s <> rid r).
Proof.
  intros (Hc & [R1 R2] & Hl & Hw & Hf & Hm) E. cbv zeta.
  assert (Ha : AccA p p).
  { unfold AccA. rewrite Hf, Hl, Hm. cbn. repeat split; try constructor; try lia; contradiction. }
  pose proof (run_accA p ops p p' st Hc Ha E) as (A0&A1&A2&A3&A4).
  destruct (fold_abort (rev (log p')) p') as (F1&F3&F4&F5).
  pose proof (abort_restores p ops p' st (proj1 Hc) Hl E) as Hix.
  assert (P : Permutation (freed (tr_abort p')) (made (tr_abort p'))).
  { unfold tr_abort, log_reset. cbn [freed made]. rewrite F1, F3, prows_rev. exact A1. }
  split; [eapply run_no_ub; eassumption|].
  split; [unfold tr_abort, log_reset; cbn [nsec]; now rewrite F4|].
  split; [exact Hix|]. split; [exact P|]. split.
  - apply (Permutation_NoDup (l := map rid (made (tr_abort p')))); [apply Permutation_map; now symmetry|].
    unfold tr_abort, log_reset. cbn [made]. now rewrite F3.
  - intros r i k s Hr Hi Hs. rewrite Hix in Hs. apply (Permutation_in r P) in Hr.
    unfold tr_abort, log_reset in Hr, Hi. cbn [made nsec] in Hr, Hi. rewrite F3 in Hr. rewrite F4, A0 in Hi. apply A4 in Hr.
    destruct (Nat.eq_dec i 0) as [->|Hne]; [apply R1 in Hs; lia|].
    destruct Hc as [_ K2]. destruct (K2 i ltac:(lia)) as [_ K3]. apply K3 in Hs. apply R1 in Hs. lia.
Qed.
