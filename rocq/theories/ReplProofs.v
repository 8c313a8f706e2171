(** Proofs for C52. *)
From Verif Require Import Base ReplModel ReplSpec.
Local Open Scope nat_scope.

(** ** slices of the log *)
Definition slice (b k : nat) (log : list payload) : list rec := number b (firstn k (skipn b log)).
Lemma number_nth l : forall b i, nth_error (number b l) i = option_map (fun x => (S (b + i), x)) (nth_error l i).
Proof.
  induction l as [|x l IH]; intros b i; unfold number; cbn [length seq combine]; [destruct i; reflexivity|].
  destruct i as [|i]; cbn [nth_error option_map]; [rewrite Nat.add_0_r; reflexivity|]. change (combine (seq (S (S b)) (length l)) l) with (number (S b) l).
  rewrite IH. replace (S b + i) with (b + S i) by lia. reflexivity.
Qed.
Lemma number_length b l : length (number b l) = length l.
Proof. unfold number. rewrite combine_length, seq_length. lia. Qed.
Lemma number_app l1 : forall b l2, number b (l1 ++ l2) = number b l1 ++ number (b + length l1) l2.
Proof.
  induction l1 as [|x l1 IH]; intros b l2; [cbn; rewrite Nat.add_0_r; reflexivity|].
  change (number b ((x :: l1) ++ l2)) with ((S b, x) :: number (S b) (l1 ++ l2)). rewrite IH. cbn [length]. replace (b + S (length l1)) with (S b + length l1) by lia. reflexivity.
Qed.
Lemma slice_length b k log : b + k <= length log -> length (slice b k log) = k.
Proof. intros H. unfold slice. rewrite number_length, firstn_length, skipn_length. lia. Qed.
Lemma slice_grow b k log x : b + k <= length log -> slice b k (log ++ x) = slice b k log.
Proof.
  intros H. unfold slice. rewrite skipn_app, firstn_app, skipn_length. replace (k - (length log - b)) with 0 by lia. cbn [firstn]. rewrite app_nil_r. reflexivity.
Qed.
Lemma nth_skipn' {A} (l : list A) b i : nth_error (skipn b l) i = nth_error l (b + i).
Proof. revert l. induction b as [|b IH]; intros l; [reflexivity|]. destruct l; [destruct i; reflexivity|]. cbn [skipn plus nth_error]. apply IH. Qed.
Lemma nth_firstn' {A} (l : list A) k i : i < k -> nth_error (firstn k l) i = nth_error l i.
Proof. revert l i. induction k as [|k IH]; intros l i H; [lia|]. destruct l; [destruct i; reflexivity|]. destruct i; [reflexivity|]. cbn [firstn nth_error]. apply IH. lia. Qed.
Lemma slice_nth b k log i : i < k -> b + k <= length log -> nth_error (slice b k log) i = Some (S (b + i), nth (b + i) log []).
Proof.
  intros H L. unfold slice. rewrite number_nth, nth_firstn' by exact H. rewrite nth_skipn'. rewrite (nth_error_nth' log []) by lia. reflexivity.
Qed.
Lemma slice_nth_none b k log i : k <= i -> b + k <= length log -> nth_error (slice b k log) i = None.
Proof. intros H L. apply nth_error_None. rewrite slice_length by exact L. exact H. Qed.
Lemma skipn_cons {A} b (l : list A) x r : skipn b l = x :: r -> skipn (S b) l = r.
Proof. revert l. induction b as [|b IH]; intros l E; [cbn in E; subst; reflexivity|]. destruct l; [discriminate|]. cbn [skipn] in *. apply IH, E. Qed.
Lemma slice_cons b k log : b + S k <= length log -> slice b (S k) log = (S b, nth b log []) :: slice (S b) k log.
Proof.
  intros H. unfold slice. destruct (skipn b log) as [|x l] eqn:E.
  - apply (f_equal (@length _)) in E. rewrite skipn_length in E. cbn in E. lia.
  - assert (skipn (S b) log = l) as -> by exact (skipn_cons b log x l E).
    assert (nth b log [] = x) as ->. { rewrite <- (Nat.add_0_r b). pose proof (nth_skipn' log b 0) as Q. rewrite E in Q. cbn in Q. symmetry in Q. apply nth_error_nth, Q. }
    reflexivity.
Qed.
Lemma slice_snoc b k log : b + k < length log -> slice b (S k) log = slice b k log ++ [(S (b + k), nth (b + k) log [])].
Proof.
  revert b. induction k as [|k IH]; intros b H.
  - rewrite slice_cons by lia. unfold slice. cbn [firstn number combine seq length app]. rewrite Nat.add_0_r. reflexivity.
  - rewrite slice_cons by lia. rewrite IH by lia. rewrite (slice_cons b k) by lia. cbn [app]. replace (S b + k) with (b + S k) by lia. reflexivity.
Qed.
Lemma slice_0 b log : slice b 0 log = [].
Proof. reflexivity. Qed.

(** ** the files *)
Fixpoint files_at (b : nat) (fs : list wfile) (log : list payload) : Prop :=
  match fs with
  | [] => False
  | f :: fs => wf_id f = S b /\ match fs with
                               | [] => b <= length log /\ wf_recs f = slice b (length log - b) log
                               | _ => exists k, 0 < k /\ b + k <= length log /\ wf_recs f = slice b k log /\ files_at (b + k) fs log
                               end
  end.
Definition last_file (f : wfile) (fs : list wfile) : Prop := exists l, fs = l ++ [f].
(** the file that starts after record [b], with [k] records: it is the last one or has a next one *)
Definition file_place (fs : list wfile) (log : list payload) (b k : nat) : Prop :=
  (file_next fs (S b) = None /\ b + k = length log /\ exists f, find (fun f => wf_id f =? S b) fs = Some f) \/
  (exists f, file_next fs (S b) = Some f /\ wf_id f = S (b + k)).
Lemma files_ids b fs log f : files_at b fs log -> In f fs -> S b <= wf_id f.
Proof.
  revert b. induction fs as [|g fs IH]; intros b H I; [contradiction|]. destruct H as [E H]. destruct I as [->|I]; [lia|]. destruct fs as [|h fs]; [contradiction|].
  destruct H as (k & K & L & R & H). specialize (IH _ H I). lia.
Qed.
Lemma files_head b fs log : files_at b fs log -> exists f r, fs = f :: r /\ wf_id f = S b.
Proof. destruct fs as [|f r]; [contradiction|]. intros [E _]. exists f, r. auto. Qed.
Lemma files_len b fs log : files_at b fs log -> b <= length log.
Proof. destruct fs as [|f [|g r]]; cbn; [contradiction|tauto|]. intros (_ & k & ? & ? & _). lia. Qed.
Lemma file_props b fs log f : files_at b fs log -> In f fs ->
  exists b' k, b <= b' /\ wf_id f = S b' /\ wf_recs f = slice b' k log /\ b' + k <= length log /\ find (fun g => wf_id g =? S b') fs = Some f /\ file_place fs log b' k.
Proof.
  revert b. induction fs as [|g fs IH]; intros b H I; [contradiction|]. destruct H as [E H]. destruct fs as [|h fs].
  - destruct I as [->|[]]. destruct H as [L R]. exists b, (length log - b). split; [lia|]. split; [exact E|]. split; [exact R|]. split; [lia|].
    assert (Fd : find (fun g => wf_id g =? S b) [f] = Some f) by (cbn [find]; rewrite E, Nat.eqb_refl; reflexivity).
    split; [exact Fd|]. left. cbn [file_next]. rewrite E. replace (S b <? S b) with false by (symmetry; apply Nat.ltb_ge; lia). split; [reflexivity|]. split; [lia|]. exists f. exact Fd.
  - destruct H as (k & K & L & R & H). destruct I as [->|I].
    + exists b, k. split; [lia|]. split; [exact E|]. split; [exact R|]. split; [exact L|]. split; [cbn [find]; rewrite E, Nat.eqb_refl; reflexivity|].
      right. destruct H as [E2 H]. exists h. split; [|exact E2]. cbn [file_next]. rewrite E. replace (S b <? S b) with false by (symmetry; apply Nat.ltb_ge; lia).
      rewrite E2. replace (S b <? S (b + k)) with true by (symmetry; apply Nat.ltb_lt; lia). reflexivity.
    + destruct (IH _ H I) as (b' & k' & A1 & A2 & A3 & A4 & A5 & A6). exists b', k'. split; [lia|]. split; [exact A2|]. split; [exact A3|]. split; [exact A4|].
      split; [cbn [find]; rewrite E; replace (S b =? S b') with false by (symmetry; apply Nat.eqb_neq; lia); exact A5|].
      unfold file_place in *. cbn [find file_next] in *. rewrite E in *. replace (S b' <? S b) with false by (symmetry; apply Nat.ltb_ge; lia).
      replace (S b =? S b') with false by (symmetry; apply Nat.eqb_neq; lia). exact A6.
Qed.
Lemma next_in fs v f : file_next fs v = Some f -> In f fs /\ v < wf_id f.
Proof.
  induction fs as [|g fs IH]; cbn [file_next]; [discriminate|]. destruct (v <? wf_id g) eqn:E; [intros [= ->]; apply Nat.ltb_lt in E; split; [left; reflexivity|exact E]|].
  intros H. destruct (IH H). split; [right; assumption|assumption].
Qed.

(** ** cursors *)
Definition cursor_at (fs : list wfile) (log : list payload) (c : rcursor) (m : nat) : Prop :=
  exists b k, rc_id c = S b /\ b + rc_off c = m /\ rc_off c <= k /\ b + k <= length log /\ rc_refresh fs c = slice b k log /\ file_place fs log b k.
Lemma cursor_start b fs log f : files_at b fs log -> In f fs -> cursor_at fs log (mkrc (wf_id f) (wf_recs f) 0) (wf_id f - 1).
Proof.
  intros H I. destruct (file_props b fs log f H I) as (b' & k & _ & E & R & L & F & P). exists b', k. cbn [rc_id rc_off]. split; [exact E|]. split; [lia|]. split; [lia|]. split; [exact L|].
  split; [|exact P]. unfold rc_refresh. cbn [rc_id]. rewrite E, F. exact R.
Qed.
Lemma refresh_same fs c o : rc_refresh fs (mkrc (rc_id c) (rc_refresh fs c) o) = rc_refresh fs c.
Proof. unfold rc_refresh. cbn [rc_id rc_recs]. destruct (find _ fs); reflexivity. Qed.
Lemma read_in fuel fs log c m b k : rc_id c = S b -> b + rc_off c = m -> rc_off c < k -> b + k <= length log -> rc_refresh fs c = slice b k log -> file_place fs log b k ->
  exists c', rc_read fuel fs c = (Some (S m, nth m log []), c') /\ cursor_at fs log c' (S m) /\ 0 < rc_off c' /\ rc_id c' = rc_id c /\ rc_refresh fs c' = rc_refresh fs c.
Proof.
  intros E M K L R P. destruct fuel; cbn [rc_read]; rewrite R, slice_nth by assumption; rewrite M; eexists; (split; [reflexivity|]); (split; [|split; [cbn; lia|split; [reflexivity|rewrite <- R at 1; rewrite refresh_same; exact R]]]);
    exists b, k; cbn [rc_id rc_off]; (split; [exact E|]); (split; [lia|]); (split; [lia|]); (split; [exact L|]); (split; [rewrite <- R at 1; rewrite refresh_same; exact R|exact P]).
Qed.
Lemma read_at b0 fs log c m : files_at b0 fs log -> cursor_at fs log c m -> m < length log ->
  exists c', rc_read (length fs) fs c = (Some (S m, nth m log []), c') /\ cursor_at fs log c' (S m) /\ 0 < rc_off c'.
Proof.
  intros H (b & k & E & M & K & L & R & P) Lt. destruct (Nat.eq_dec (rc_off c) k) as [Ek|Ne].
  - destruct P as [(_ & X & _)|(f & N & I)]; [lia|]. destruct (next_in _ _ _ N) as [In' _].
    destruct (length fs) as [|n] eqn:Ln; [destruct fs; [contradiction|discriminate]|]. cbn [rc_read]. rewrite R, slice_nth_none by lia. rewrite E, N.
    pose proof (cursor_start b0 fs log f H In') as (b' & k' & E' & M' & K' & L' & R' & P'). cbn [rc_id rc_off] in E', M'.
    assert (0 < k') as Kp.
    { destruct P' as [(_ & X & _)|(g & N' & I')]; [lia|]. destruct (next_in _ _ _ N') as [_ G]. lia. }
    assert (wf_id f - 1 = m) as Em by lia. rewrite Em in M'.
    destruct (read_in n fs log (mkrc (wf_id f) (wf_recs f) 0) m b' k' E' M' Kp L' R' P') as (c' & A & B & C & _). exists c'. auto.
  - destruct (read_in (length fs) fs log c m b k E M ltac:(lia) L R P) as (c' & A & B & C & _). exists c'. auto.
Qed.
Lemma read_end b0 fs log c : files_at b0 fs log -> cursor_at fs log c (length log) -> exists c', rc_read (length fs) fs c = (None, c') /\ cursor_at fs log c' (length log).
Proof.
  intros H (b & k & E & M & K & L & R & P). assert (rc_off c = k) as Ek by lia.
  assert (Stop : forall b k c, rc_id c = S b -> rc_off c = k -> b + k = length log -> rc_refresh fs c = slice b k log -> file_place fs log b k -> cursor_at fs log (mkrc (rc_id c) (slice b k log) k) (length log)).
  { intros b1 k1 c1 E1 O1 T1 R1 P1. exists b1, k1. cbn [rc_id rc_off]. split; [exact E1|]. split; [exact T1|]. split; [lia|]. split; [lia|]. split; [rewrite <- R1 at 1; rewrite refresh_same; exact R1|exact P1]. }
  destruct P as [(N & X & F)|(f & N & I)].
  - assert (rc_read (length fs) fs c = (None, mkrc (rc_id c) (slice b k log) k)) as Eq.
    { destruct (length fs); cbn [rc_read]; rewrite R, slice_nth_none by lia; rewrite ?E, ?N, Ek; reflexivity. }
    rewrite Eq. eexists. split; [reflexivity|]. apply Stop; auto. left. auto.
  - destruct (next_in _ _ _ N) as [In' G]. destruct (length fs) as [|n] eqn:Ln; [destruct fs; [contradiction|discriminate]|]. cbn [rc_read]. rewrite R, slice_nth_none by lia. rewrite E, N.
    pose proof (cursor_start b0 fs log f H In') as (b' & k' & E' & M' & K' & L' & R' & P'). cbn [rc_id rc_off] in E', M'. assert (k' = 0) by lia. subst k'.
    assert (file_next fs (wf_id f) = None) as N2.
    { rewrite E'. destruct P' as [(X & _)|(g & X & Y)]; [exact X|]. destruct (next_in _ _ _ X) as [_ Z]. lia. }
    assert (rc_read n fs (mkrc (wf_id f) (wf_recs f) 0) = (None, mkrc (rc_id (mkrc (wf_id f) (wf_recs f) 0)) (slice b' 0 log) 0)) as Eq.
    { destruct n; cbn [rc_read]; rewrite R', slice_nth_none by lia; cbn [rc_id]; rewrite ?N2; reflexivity. }
    rewrite Eq. eexists. split; [reflexivity|]. apply (Stop b' 0 (mkrc (wf_id f) (wf_recs f) 0)); auto. lia.
Qed.
Lemma cursor_le fs log c m : cursor_at fs log c m -> m <= length log.
Proof. intros (b & k & E & M & K & L & _). lia. Qed.
Lemma readahead_at b0 fs log k : forall c m, files_at b0 fs log -> cursor_at fs log c m ->
  exists c', rc_readahead k fs c = (slice m (Nat.min k (length log - m)) log, c') /\ cursor_at fs log c' (m + Nat.min k (length log - m)).
Proof.
  induction k as [|k IH]; intros c m H C; [exists c; split; [reflexivity|]; rewrite Nat.add_0_r; exact C|]. cbn [rc_readahead]. pose proof (cursor_le _ _ _ _ C) as Le.
  destruct (Nat.eq_dec m (length log)) as [Em|Ne].
  - subst m. destruct (read_end b0 fs log c H C) as (c' & R & C'). rewrite R. exists c'. rewrite Nat.sub_diag, Nat.min_0_r. split; [reflexivity|]. rewrite Nat.add_0_r. exact C'.
  - destruct (read_at b0 fs log c m H C) as (c' & R & C' & _); [lia|]. rewrite R. destruct (IH c' (S m) H C') as (c2 & R2 & C2). rewrite R2. exists c2.
    replace (Nat.min (S k) (length log - m)) with (S (Nat.min k (length log - S m))) by lia. rewrite slice_cons by lia. split; [reflexivity|].
    replace (m + S (Nat.min k (length log - S m))) with (S m + Nat.min k (length log - S m)) by lia. exact C2.
Qed.
Lemma rewind_at b0 fs log lsn n : forall c m, files_at b0 fs log -> cursor_at fs log c m -> m <= lsn -> lsn <= length log -> lsn - m < n -> cursor_at fs log (rc_rewind n fs (S lsn) c) lsn.
Proof.
  induction n as [|n IH]; intros c m H C Lm Ll Ln; [lia|]. cbn [rc_rewind]. destruct (Nat.eq_dec m (length log)) as [Em|Ne].
  - subst m. destruct (read_end b0 fs log c H C) as (c' & R & C'). rewrite R. replace lsn with (length log) by lia. exact C'.
  - pose proof (cursor_le _ _ _ _ C). destruct (read_at b0 fs log c m H C) as (c' & R & C' & O); [lia|]. rewrite R. cbn [fst]. destruct (Nat.leb_spec (S lsn) (S m)).
    + assert (m = lsn) by lia. subst m. destruct C' as (b & k & E & M & K & L & Rr & P). exists b, k. cbn [rc_id rc_off]. split; [exact E|]. split; [lia|]. split; [lia|]. split; [exact L|]. split; [|exact P].
      unfold rc_refresh in *. cbn [rc_id rc_recs]. exact Rr.
    + apply (IH c' (S m)); auto; lia.
Qed.
Lemma find_le fs v : forall r f, file_find fs v r = Some f -> In f fs /\ wf_id f <= v \/ r = Some f.
Proof.
  induction fs as [|g fs IH]; intros r f H; cbn [file_find] in H; [right; exact H|]. destruct (Nat.ltb_spec v (wf_id g)); [right; exact H|].
  destruct (IH _ _ H) as [[A B]|A]; [left; split; [right; exact A|exact B]|]. injection A as ->. left. split; [left; reflexivity|assumption].
Qed.
Lemma files_total b fs log : files_at b fs log -> length (flat_map wf_recs fs) = length log - b.
Proof.
  revert b. induction fs as [|f fs IH]; intros b H; [contradiction|]. destruct H as [E H]. cbn [flat_map]. rewrite app_length. destruct fs as [|g fs].
  - destruct H as [L R]. rewrite R, slice_length by lia. cbn. lia.
  - destruct H as (k & K & L & R & H). rewrite R, slice_length by lia. rewrite (IH _ H). lia.
Qed.
Lemma open_at b0 fs log lsn c : files_at b0 fs log -> lsn <= length log -> rc_open fs (S lsn) = Some c -> cursor_at fs log c lsn.
Proof.
  intros H L E. unfold rc_open in E. destruct (file_find fs (S lsn) None) as [f|] eqn:F; [|discriminate]. apply (f_equal (fun o => match o with Some x => x | None => c end)) in E. cbv beta iota in E. rewrite <- E. clear E.
  destruct (find_le _ _ _ _ F) as [[I Le]|X]; [|discriminate]. pose proof (files_ids _ _ _ _ H I).
  apply (rewind_at b0 fs log lsn _ _ (wf_id f - 1)); auto; [apply (cursor_start b0 fs log f); assumption|lia|]. rewrite (files_total b0 fs log) by exact H. lia.
Qed.
