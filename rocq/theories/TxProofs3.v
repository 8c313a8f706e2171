(** The invariant of the partitions is kept by every step. *)
From Coq Require Import Permutation.
From Verif Require Import Base TxModel TxSpec TxProofs TxProofs2.
Local Open Scope nat_scope.

Lemma fold_ext (f f' : rows -> nat -> rows) l d : (forall d t, In t l -> f d t = f' d t) -> fold_left f l d = fold_left f' l d.
Proof. revert d. induction l as [|x l IH]; intros d H; [reflexivity|]. cbn. rewrite (H d x) by now left. apply IH. intros e t Ht. apply H. now right. Qed.
Lemma in_firstn {A} (l : list A) m x : In x (firstn m l) -> In x l.
Proof. intros H. rewrite <- (firstn_skipn m l). apply in_or_app. now left. Qed.
Lemma xinv_ext l r dec (single single' : nat -> Prop) f f' d0 m pt : (forall t, In t l -> single' t -> single t) -> (forall d t, In t l -> f d t = f' d t) ->
  xinv l dec single f d0 m pt -> xinv (l ++ r) dec single' f' d0 m pt.
Proof.
  intros Hs Hf [Xm Xpod Xprep Xab Xal Xo Xo2 Xr Xu].
  assert (Ff : forall k out, fold_left f (kept out (firstn k l)) d0 = fold_left f' (kept out (firstn k l)) d0).
  { intros k out. apply fold_ext. intros d t Ht. apply Hf. apply filter_In in Ht as [Ht _]. now apply in_firstn in Ht. }
  assert (En : forall i, i < length l -> nth_error (l ++ r) i = nth_error l i) by (intros i Hi; now apply nth_error_app1).
  assert (Hlo : lo pt <= m) by (unfold lo; lia).
  split.
  - rewrite app_length. lia.
  - exact Xpod.
  - rewrite Xprep. apply map_ext_in. intros i Hi. apply in_seq in Hi. f_equal. symmetry. apply app_nth1. lia.
  - intros i t Hi Ht. rewrite En in Ht by lia. now apply Xab.
  - intros t Hm Ht St. rewrite En in Ht by lia. apply (Xal t Hm Ht). apply Hs; [exact (nth_error_In _ _ Ht)|exact St].
  - intros t b H. destruct (Xo t b H) as (H1 & i & H2 & H3). split; [exact H1|]. exists i. split; [rewrite En by (apply nth_error_Some; congruence); exact H2|exact H3].
  - intros i t Hi Ht. rewrite En in Ht by lia. exact (Xo2 i t Hi Ht).
  - rewrite Xr, Ff. f_equal. f_equal. rewrite firstn_app. replace (m - length l) with 0 by lia. cbn. now rewrite app_nil_r.
  - intros H1 H2. destruct (Xu H1 H2) as (pre & x & E1 & E2). exists pre, x. split; [exact E1|]. rewrite E2, Ff. f_equal. f_equal. rewrite firstn_app. replace (m - 1 - length l) with 0 by lia. cbn. now rewrite app_nil_r.
Qed.
Lemma xinv_part l dec single f d0 m pt pt' : p_prep pt' = p_prep pt -> p_pod pt' = p_pod pt -> p_rows pt' = p_rows pt -> p_out pt' = p_out pt -> xinv l dec single f d0 m pt -> xinv l dec single f d0 m pt'.
Proof. intros E1 E2 E3 E4 [Xm Xpod Xprep Xab Xal Xo Xo2 Xr Xu]. unfold lo in *. split; unfold lo; rewrite ?E1, ?E2, ?E3, ?E4; assumption. Qed.
Lemma xinv_dec l dec dec' single f d0 m pt : incl dec dec' -> (forall i t, S i < m -> nth_error l i = Some t -> In (t, false) dec' -> In (t, false) dec) ->
  xinv l dec single f d0 m pt -> xinv l dec' single f d0 m pt.
Proof.
  intros I Hd [Xm Xpod Xprep Xab Xal Xo Xo2 Xr Xu]. split; try assumption.
  - intros i t Hi Ht H. exact (Xab i t Hi Ht (Hd i t Hi Ht H)).
  - intros t b H. destruct (Xo t b H) as [H1 H2]. split; [now apply I|exact H2].
Qed.

Lemma attach_form s parts pr : exists g o nx, attach s parts pr = mkstate (s_txs s ++ [mktx parts pr g o (s_list s)]) nx (s_list s ++ [length (s_txs s)]) (s_abort s) (s_id s) (s_wrote s)
          (s_done s) (s_mail s) (s_queue s) (s_batch s) (s_ready s) (s_pop s) (s_dec s)
   (fun p => let pt := s_part s p in if existsb (Nat.eqb p) parts then mkpart (p_seq pt) (p_queue pt ++ [(length (s_txs s), p_cons pt)]) (p_prep pt) (p_pod pt) (p_cons pt) (p_pend pt) (p_rows pt) (p_out pt) else pt).
Proof. unfold attach. destruct (match find _ _ with Some _ => _ | None => _ end) as [[g o] nx]. exists g, o, nx. reflexivity. Qed.
Lemma pinv_attach init s D parts pr : ginv s D -> dinv s -> (forall t p, t >= length (s_txs s) -> s_id s t p = 0) -> (forall p, pinv init s D p) -> forall p, pinv init (attach s parts pr) D p.
Proof.
  intros V DI Z J p. destruct (attach_form s parts pr) as (g & o & nx & ->). set (n := length (s_txs s)). set (txs' := s_txs s ++ [mktx parts pr g o (s_list s)]).
  match goal with |- pinv _ ?x _ _ => set (s' := x) end.
  assert (Eo : forall t, t < n -> tx_of s' t = tx_of s t) by (intros t Ht; unfold tx_of, s'; cbn [s_txs]; unfold txs'; now rewrite app_nth1).
  assert (En : tx_of s' n = mktx parts pr g o (s_list s)) by (unfold tx_of, s'; cbn [s_txs]; unfold txs', n; rewrite app_nth2, Nat.sub_diag by lia; reflexivity).
  assert (Eon : on s' p = on s p ++ (if existsb (Nat.eqb p) parts then [n] else [])).
  { unfold on at 1. unfold s' at 2. cbn [s_txs]. unfold txs'. rewrite app_length. cbn [length]. rewrite Nat.add_1_r, seq_S, filter_app. cbn [filter Nat.add]. unfold parts_of at 2. fold n. rewrite En. cbn [t_parts].
    f_equal. apply filter_ext_in. intros t Ht. apply in_seq in Ht. unfold parts_of. rewrite Eo by (fold n in Ht; lia). reflexivity. }
  assert (Lt : forall t, In t (on s p) -> t < n) by (intros t Ht; now apply on_in in Ht).
  destruct (J p) as [(m & J1 & J2 & J3 & J4 & J5) (Mp & Gp & Hp) (Mc & Gc & Hc)]. pose proof (x_m _ _ _ _ _ _ _ J5) as Xm.
  assert (Hx : xinv (on s' p) (s_dec s) (single s') (run1 s' p) (init p) m (s_part s p)).
  { rewrite Eon. refine (xinv_ext _ _ _ _ _ _ _ _ _ _ _ _ J5).
    - intros t Ht St u Hu (x & X1 & X2). pose proof (Lt t Ht) as Ltn. assert (Hu2 : u < t) by (apply (v_seen _ _ V u t); [exact Ltn|exact Hu]).
      apply (St u); [rewrite Eo by exact Ltn; exact Hu|]. exists x. unfold prt, s'. cbn [s_txs]. unfold txs'. rewrite !app_nth1 by (fold n; lia). split; assumption.
    - intros d t Ht. unfold run1. now rewrite Eo by (apply Lt; exact Ht). }
  assert (Hsd : s_dec s' = s_dec s) by reflexivity.
  assert (Nnew : ~ In n (s_pop s)). { intros H. assert (X : n < length (s_txs s)) by (apply (k_att _ _ _ _ _ _ _ (v_core _ _ V)); rewrite !in_app_iff; tauto). unfold n in X. lia. }
  split.
  - exists m. unfold s' at 1 2. cbn [s_part]. destruct (existsb (Nat.eqb p) parts) eqn:Ep; cbn [p_seq p_queue].
    + split; [exact J1|]. split; [|split; [|split]].
      * rewrite map_app, J2, Eon, skipn_app. cbn [map fst]. replace (m - length (on s p)) with 0 by lia. reflexivity.
      * intros i t Hi. unfold s'. cbn [s_id]. rewrite Eon in Hi. destruct (Nat.lt_ge_cases i (length (on s p))) as [Hl|Hl].
        -- rewrite nth_error_app1 in Hi by exact Hl. exact (J3 i t Hi).
        -- rewrite nth_error_app2 in Hi by exact Hl. destruct (i - length (on s p)) as [|k] eqn:Ek; cbn in Hi; [|destruct k; discriminate]. inversion Hi. subst t. rewrite Z by (fold n; lia). destruct (Nat.ltb_spec i m); [lia|reflexivity].
      * intros j t c Hj. unfold s' in Hj. cbn [s_part] in Hj. rewrite Ep in Hj. cbn [p_queue] in Hj. rewrite Hsd, Eon. destruct (Nat.lt_ge_cases j (length (p_queue (s_part s p)))) as [Hl|Hl].
        -- rewrite nth_error_app1 in Hj by exact Hl. destruct (J4 j t c Hj) as (M & G & HM & HS). assert (Hin : In t (on s p)).
           { assert (X : In t (map fst (p_queue (s_part s p)))) by (apply in_map_iff; exists (t, c); split; [reflexivity|exact (nth_error_In _ _ Hj)]). rewrite J2 in X. rewrite <- (firstn_skipn m (on s p)). apply in_or_app. now right. }
           exists M. split; [now apply good_app|]. split; [exact HM|]. intros i u Hi Hu. rewrite Eo by (apply Lt; exact Hin).
           assert (Hlen : m + j < length (on s p)). { apply (f_equal (@length _)) in J2. rewrite map_length, skipn_length in J2. lia. }
           rewrite nth_error_app1 in Hu by lia. apply HS; assumption.
        -- rewrite nth_error_app2 in Hj by exact Hl. destruct (j - length (p_queue (s_part s p))) as [|k] eqn:Ek; cbn in Hj; [|destruct k; discriminate]. inversion Hj. subst t c.
           assert (Hlen : m + j = length (on s p)). { apply (f_equal (@length _)) in J2. rewrite map_length, skipn_length in J2. lia. }
           exists Mc. split; [now apply good_app|]. destruct Gc as (Gc1 & _). split; [lia|]. intros i u Hi Hu. rewrite nth_error_app1 in Hu by lia. fold n. rewrite En. cbn [t_seen].
           rewrite (Hc i u Hu). rewrite (in_list s D u V). pose proof (Lt u (nth_error_In _ _ Hu)) as Hu'. fold n. split; [tauto|]. intros H. destruct (in_dec Nat.eq_dec u D) as [Hd|Hd]; [exact Hd|]. exfalso. apply H. auto.
      * apply (xinv_part _ _ _ _ _ _ (s_part s p)); unfold s'; cbn [s_part]; try rewrite Ep; try reflexivity. exact Hx.
    + split; [exact J1|]. rewrite Eon in Hx |- *. rewrite app_nil_r in *. split; [exact J2|]. split; [exact J3|]. split.
      * intros j t c Hj. unfold s' in Hj. cbn [s_part] in Hj. rewrite Ep in Hj. destruct (J4 j t c Hj) as (M & G & HM & HS). exists M. split; [exact G|]. split; [exact HM|]. intros i u Hi Hu.
        assert (Hin : In t (on s p)). { assert (X : In t (map fst (p_queue (s_part s p)))) by (apply in_map_iff; exists (t, c); split; [reflexivity|exact (nth_error_In _ _ Hj)]). rewrite J2 in X. rewrite <- (firstn_skipn m (on s p)). apply in_or_app. now right. }
        rewrite Eo by (apply Lt; exact Hin). apply HS; assumption.
      * unfold s' at 4. cbn [s_part]. rewrite Ep. exact Hx.
  - exists Mp. rewrite Hsd, Eon. assert (Ee : p_pend (s_part s' p) = p_pend (s_part s p)) by (unfold s'; cbn [s_part]; destruct (existsb (Nat.eqb p) parts); reflexivity). rewrite Ee. split; [now apply good_app|].
    intros i t Hi. destruct (Nat.lt_ge_cases i (length (on s p))) as [Hl|Hl]; [rewrite nth_error_app1 in Hi by exact Hl; now apply Hp|]. destruct Gp as (Gp1 & _). split; [lia|]. intros Hin. exfalso.
    destruct (existsb (Nat.eqb p) parts); [|rewrite app_nil_r in Hi; apply nth_error_None in Hl; congruence]. rewrite nth_error_app2 in Hi by exact Hl. destruct (i - length (on s p)) as [|k]; cbn in Hi; [|destruct k; discriminate]. inversion Hi. subst t. apply Nnew. rewrite (proj1 DI). apply in_or_app. now left.
  - exists Mc. rewrite Hsd, Eon. assert (Ee : p_cons (s_part s' p) = p_cons (s_part s p)) by (unfold s'; cbn [s_part]; destruct (existsb (Nat.eqb p) parts); reflexivity). rewrite Ee. split; [now apply good_app|].
    intros i t Hi. destruct (Nat.lt_ge_cases i (length (on s p))) as [Hl|Hl]; [rewrite nth_error_app1 in Hi by exact Hl; now apply Hc|]. destruct Gc as (Gc1 & _). split; [lia|]. intros Hin. exfalso.
    destruct (existsb (Nat.eqb p) parts); [|rewrite app_nil_r in Hi; apply nth_error_None in Hl; congruence]. rewrite nth_error_app2 in Hi by exact Hl. destruct (i - length (on s p)) as [|k]; cbn in Hi; [|destruct k; discriminate]. inversion Hi. subst t. apply Nnew. apply (k_D _ _ _ _ _ _ _ (v_core _ _ V)). exact Hin.
Qed.
