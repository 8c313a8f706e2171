(** Proofs for C52: a replica the primary still has the log for can catch up. *)
From Verif Require Import Base ReplModel ReplSpec ReplProofs ReplProofs2.
Local Open Scope nat_scope.

Definition tail_ok (fs : list wfile) (n : nat) : Prop := list_min fs <= n \/ list_min fs = 1.
Lemma find_above fs v : forall r f, r = Some f -> exists g, file_find fs v r = Some g.
Proof. induction fs as [|h fs IH]; intros r f E; cbn [file_find]; [exists f; exact E|]. destruct (v <? wf_id h); [exists f; exact E|]. apply (IH _ h eq_refl). Qed.
Lemma open_some fs n : fs <> [] -> tail_ok fs n -> exists c, rc_open fs (S n) = Some c.
Proof.
  intros N T. unfold rc_open. destruct fs as [|f fs]; [contradiction|]. unfold tail_ok in T. cbn [list_min] in T. assert (wf_id f <= S n) by lia.
  assert (exists g, file_find (f :: fs) (S n) None = Some g) as (g & ->).
  { cbn [file_find]. replace (S n <? wf_id f) with false by (symmetry; apply Nat.ltb_ge; lia). apply (find_above fs (S n) (Some f) f eq_refl). }
  eexists. reflexivity.
Qed.
Lemma run_app a : forall b s, rrun s (a ++ b) = match rrun s a with Some s' => rrun s' b | None => None end.
Proof. induction a as [|e a IH]; intros b s; [reflexivity|]. cbn [app rrun]. destruct (rstep s e); [apply IH|reflexivity]. Qed.
Lemma always_app P a : forall b s s', rrun s a = Some s' -> always P s a -> always P s' b -> always P s (a ++ b).
Proof.
  induction a as [|e a IH]; intros b s s' R A B; [injection R as <-; exact B|]. cbn [app always rrun] in *. destruct A as [A1 A2]. split; [exact A1|]. destruct (rstep s e) as [s1|]; [|discriminate]. apply (IH b s1 s'); assumption.
Qed.
Lemma commits_app a b : commits (a ++ b) = commits a ++ commits b.
Proof. induction a as [|e a IH]; [reflexivity|]. destruct e; cbn [app commits]; rewrite IH; reflexivity. Qed.
Lemma apply_all l : forall s c, r_sess s = [(c, l)] -> exists s', rrun s (repeat (Apply 0) (length l)) = Some s' /\ always careful s (repeat (Apply 0) (length l)) /\ commits (repeat (Apply 0) (length l)) = [] /\ r_log s' = r_log s ++ map snd l /\ p_files s' = p_files s.
Proof.
  induction l as [|x l IH]; intros s c E; [exists s; cbn; rewrite app_nil_r; auto|]. cbn [length repeat rrun always commits].
  assert (exists s1, rstep s (Apply 0) = Some s1 /\ r_log s1 = r_log s ++ [snd x] /\ r_sess s1 = [(c, l)] /\ p_files s1 = p_files s) as (s1 & S1 & L1 & E1 & F1).
  { cbn [rstep]. rewrite E. cbn [nth_error]. eexists. split; [reflexivity|]. cbn [r_log r_sess p_files update_nth]. auto. }
  rewrite S1. destruct (IH s1 c E1) as (s' & R & A & C & L & F). exists s'. split; [exact R|]. split; [split; [split; exact Logic.I|exact A]|]. split; [exact C|]. split; [|congruence].
  rewrite L, L1, <- app_assoc. reflexivity.
Qed.
Lemma number_snd b l : map snd (number b l) = l.
Proof. revert b. induction l as [|x l IH]; intros b; [reflexivity|]. unfold number in *. cbn [length seq combine map]. rewrite IH. reflexivity. Qed.
Lemma slice_rest n log : map snd (slice n (length log - n) log) = skipn n log.
Proof. unfold slice. rewrite number_snd. apply firstn_all2. rewrite skipn_length. lia. Qed.
Lemma remove_last {A} (l : list A) x : nth_error (l ++ [x]) (length l) = Some x.
Proof. rewrite nth_error_app2 by lia. rewrite Nat.sub_diag. reflexivity. Qed.

Lemma catch_up s log : inv s log -> r_sess s = [] -> tail_ok (p_files s) (length (r_log s)) -> length (r_log s) < length log ->
  exists es s', quiet es /\ rrun s es = Some s' /\ always careful s es /\ r_log s' = log.
Proof.
  intros I Se T Lt. pose proof I as [(b & F) L R S J N P Q]. set (n := length (r_log s)) in *.
  destruct (open_some (p_files s) n) as (cur & Ec); [destruct (p_files s); [contradiction|discriminate]|exact T|].
  pose proof (open_at b _ log n cur F ltac:(lia) Ec) as Ca. destruct (readahead_at b (p_files s) log (length log - n) cur n F Ca) as (cur' & Rr & _). rewrite Nat.min_id in Rr.
  set (s1 := mkrepl (p_files s) (p_lsn s) (p_slot s) None (n_conn s) None (n_net s) (n_reply s) (r_log s) (r_sess s)).
  set (s2 := mkrepl (p_files s) (p_lsn s) (p_slot s) None (Datatypes.S (n_conn s)) (Some (n_conn s, n)) (n_net s) (n_reply s) (r_log s) (r_sess s)).
  set (s3 := mkrepl (p_files s) (p_lsn s) n (Some (mkstream (n_conn s) n false (Some cur))) (Datatypes.S (n_conn s)) None (n_net s) (n_reply s) (r_log s) (r_sess s)).
  set (recs := slice n (length log - n) log). set (q := mkreq (n_conn s) n recs).
  assert (exists t, rstep s3 (Send (length log - n)) = Some (mkrepl (p_files s) (p_lsn s) n t (Datatypes.S (n_conn s)) None (n_net s ++ [q]) (n_reply s) (r_log s) (r_sess s))) as (t & E4).
  { cbn [rstep s3 p_stream p_files]. rewrite Rr. fold recs. assert (recs <> []) as Ne.
    { intros Z. apply (f_equal (@length _)) in Z. subst recs. rewrite slice_length in Z by lia. cbn in Z. lia. }
    destruct recs as [|x l]; [contradiction|]. eexists. reflexivity. }
  set (s4 := mkrepl (p_files s) (p_lsn s) n t (Datatypes.S (n_conn s)) None (n_net s ++ [q]) (n_reply s) (r_log s) (r_sess s)) in *.
  set (s5 := mkrepl (p_files s) (p_lsn s) n t (Datatypes.S (n_conn s)) None (remove_nth (length (n_net s)) (n_net s ++ [q])) (n_reply s) (r_log s) [(n_conn s, recs)]).
  assert (E1 : rstep s Drop = Some s1) by reflexivity. assert (E2 : rstep s1 Join = Some s2) by reflexivity.
  assert (E3 : rstep s2 Connect = Some s3).
  { cbn [rstep s2 n_join p_files p_lsn n_conn n_net n_reply r_log r_sess]. cbv zeta. rewrite Ec. replace ((n =? 0) || (list_min (p_files s) <=? n)) with true; [reflexivity|].
    symmetry. apply orb_true_iff. destruct T as [T|T]; [right; apply Nat.leb_le, T|]. destruct (Nat.eqb_spec n 0); [left; reflexivity|right; apply Nat.leb_le; lia]. }
  assert (E5 : rstep s4 (Deliver (length (n_net s))) = Some s5).
  { cbn [rstep s4 n_net]. rewrite remove_last. cbn [q_lsn q]. change (r_log s4) with (r_log s). fold n. rewrite Nat.eqb_refl. cbn [p_files p_lsn p_slot p_stream n_conn n_join n_reply r_log r_sess s4 q_conn q_recs]. rewrite Se. reflexivity. }
  destruct (apply_all recs s5 (n_conn s) eq_refl) as (s6 & R6 & A6 & C6 & L6 & _).
  exists ([Drop; Join; Connect; Send (length log - n); Deliver (length (n_net s))] ++ repeat (Apply 0) (length recs)), s6. split; [|split; [|split]].
  - intros e Ie. apply in_app_or in Ie. destruct Ie as [Ie|Ie]; [|apply repeat_spec in Ie; subst e; exact Logic.I]. cbn [In] in Ie. repeat destruct Ie as [<-|Ie]; try exact Logic.I; contradiction.
  - rewrite run_app. cbn [rrun]. rewrite E1, E2, E3, E4, E5. exact R6.
  - apply (always_app careful _ _ s s5); [cbn [rrun]; rewrite E1, E2, E3, E4, E5; reflexivity| |exact A6].
    cbn [always]. rewrite E1, E2, E3, E4, E5. split; [split; exact Logic.I|]. split; [split; exact Logic.I|]. split; [split; exact Logic.I|]. split; [split; exact Logic.I|]. split; [|exact Logic.I].
    split; [|exact Logic.I]. exact Se.
  - rewrite L6. change (r_log s5) with (r_log s). subst recs. rewrite slice_rest. rewrite R. fold n. rewrite firstn_skipn. reflexivity.
Qed.
Lemma catch_up_any s log : inv s log -> tail_ok (p_files s) (length (r_log s)) ->
  exists es s', quiet es /\ rrun s es = Some s' /\ always careful s es /\ r_log s' = log.
Proof.
  intros I T. pose proof (firstn_len _ _ (i_log s log I)) as Le. destruct (Nat.eq_dec (length (r_log s)) (length log)) as [En|Ne].
  { exists [], s. split; [intros e []|]. split; [reflexivity|]. split; [exact Logic.I|]. rewrite (i_log s log I), En. apply firstn_all. }
  destruct (r_sess s) as [|x l] eqn:Es; [apply catch_up; auto; lia|].
  destruct (i_sess s log I) as [Z|(c & k & Z & _)]; rewrite Es in Z; [discriminate|]. destruct l; [|discriminate].
  destruct (rstep s (Fail 0)) as [s1|] eqn:E1; [|cbn [rstep] in E1; rewrite Es in E1; discriminate].
  assert (careful s (Fail 0)) as Ca by (split; exact Logic.I).
  pose proof (step_other s log (Fail 0) s1 I Ca E1 Logic.I) as I1.
  cbn [rstep] in E1. rewrite Es in E1. cbn [nth_error] in E1.
  assert (r_sess s1 = [] /\ r_log s1 = r_log s /\ p_files s1 = p_files s) as (A & B & C) by (injection E1 as <-; auto).
  destruct (catch_up s1 log I1 A) as (es & s' & Qu & R & Al & L); [rewrite B, C; exact T|rewrite B; lia|].
  assert (rstep s (Fail 0) = Some s1) as E2 by (cbn [rstep]; rewrite Es; exact E1).
  exists (Fail 0 :: es), s'. split; [intros e [<-|Ie]; [exact Logic.I|apply Qu, Ie]|]. cbn [rrun always]. rewrite E2. split; [exact R|]. split; [split; [exact Ca|exact Al]|exact L].
Qed.
