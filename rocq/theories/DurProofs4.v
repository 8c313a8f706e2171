(** C71: recovery. *)
From Verif Require Import Base DurModel DurSpec DurProofs DurProofs2 DurProofs3.
Local Open Scope nat_scope.

(** ** Opening a table *)
Lemma lsn_fold (file : nat -> nat -> option (nat * rows)) t l : forall a,
  let b := fold_left (fun a p => match file t p with Some f => Nat.max a (fst f) | None => a end) l a in
  a <= b /\ (forall p h r, In p l -> file t p = Some (h, r) -> h <= b) /\ (forall N, a <= N -> (forall p h r, In p l -> file t p = Some (h, r) -> h <= N) -> b <= N).
Proof.
  induction l as [|q l IH]; intro a; cbn [fold_left].
  - split; [lia|]. split; [easy|auto].
  - destruct (IH (match file t q with Some f => Nat.max a (fst f) | None => a end)) as (H1 & H2 & H3). cbn zeta in *.
    assert (a <= match file t q with Some f => Nat.max a (fst f) | None => a end) as Ha by (destruct (file t q); lia).
    split; [lia|]. split.
    + intros p h r [<-|Hp] Hf; [|eauto]. rewrite Hf in H1 at 1. cbn in H1. lia.
    + intros N HN Hf. apply H3; [|intros; eapply Hf; [right; eassumption|eassumption]].
      destruct (file t q) as [[h r]|] eqn:E; [|exact HN]. cbn. pose proof (Hf q h r (or_introl eq_refl) E). lia.
Qed.
Lemma any_file_true file t n : any_file file t n = true <-> exists p, p < n /\ file t p <> None.
Proof.
  unfold any_file. rewrite existsb_exists. split.
  - intros (p & Hp & E). apply in_seq in Hp. exists p. split; [lia|]. now destruct (file t p).
  - intros (p & Hp & E). exists p. split; [apply in_seq; lia|]. now destruct (file t p).
Qed.
(** the files are there *)
Lemma table_open_found t n d m : any_file (d_file d) t n = true ->
  exists m', table_open t n d m = (d, m') /\ m_cat m' = m_cat m /\ m_pend m' = m_pend m /\ m_lsn m <= m_lsn m' /\
    (forall p h r, p < n -> d_file d t p = Some (h, r) -> h <= m_lsn m') /\
    (forall N, m_lsn m <= N -> (forall t p h r, d_file d t p = Some (h, r) -> h <= N) -> m_lsn m' <= N) /\
    (forall t' p, t' <> t -> m_part m' t' p = m_part m t' p) /\ (forall p, p < n -> m_part m' t p = option_map part_open (d_file d t p)).
Proof.
  intro A. unfold table_open, open_files. rewrite A. eexists. split; [destruct d; reflexivity|]. split; [reflexivity|]. split; [reflexivity|].
  destruct (lsn_fold (d_file d) t (seq 0 n) (m_lsn m)) as (H1 & H2 & H3). cbn [m_lsn m_part]. split; [exact H1|].
  split; [intros p h r Hp; apply H2; apply in_seq; lia|]. split; [intros N HN Hf; apply H3; eauto|]. split.
  - intros t' p Ht. apply Nat.eqb_neq in Ht. now rewrite Ht.
  - intros p Hp. now rewrite Nat.eqb_refl, (proj2 (Nat.ltb_lt _ _) Hp).
Qed.
(** no file is there *)
Lemma table_open_new t n d m : any_file (d_file d) t n = false ->
  exists d' m', table_open t n d m = (d', m') /\ d_clsn d' = d_clsn d /\ d_cat d' = d_cat d /\ d_wal d' = d_wal d /\
    (forall t' p, t' <> t -> d_file d' t' p = d_file d t' p) /\ (forall p, p < n -> d_file d' t p = Some (0, [])) /\ (forall p, n <= p -> d_file d' t p = d_file d t p) /\
    m_cat m' = m_cat m /\ m_pend m' = m_pend m /\ m_lsn m' = m_lsn m /\
    (forall t' p, t' <> t -> m_part m' t' p = m_part m t' p) /\ (forall p, p < n -> m_part m' t p = Some (mkpart 0 0 [] [])).
Proof.
  intro A. unfold table_open, open_files. rewrite A. eexists. eexists. split; [reflexivity|]. cbn [d_clsn d_cat d_wal d_file m_cat m_pend m_lsn m_part].
  do 3 (split; [reflexivity|]). split; [intros t' p Ht; apply Nat.eqb_neq in Ht; now rewrite Ht|].
  split; [intros p Hp; now rewrite Nat.eqb_refl, (proj2 (Nat.ltb_lt _ _) Hp)|].
  split; [intros p Hp; now rewrite Nat.eqb_refl, (proj2 (Nat.ltb_ge _ _) Hp)|]. do 2 (split; [reflexivity|]). split.
  - assert (forall l a, (forall p, In p l -> p < n) -> fold_left (fun l p => match (if (t =? t) && (p <? n) then Some (0, []) else d_file d t p) with Some f => Nat.max l (fst f) | None => l end) l a = a) as G.
    { induction l as [|q l IH]; intros a Hl; [reflexivity|]. cbn [fold_left].
      assert ((t =? t) && (q <? n) = true) as -> by (rewrite Nat.eqb_refl; apply Nat.ltb_lt; apply Hl; now left).
      cbn [fst]. rewrite Nat.max_0_r. apply IH. intros; apply Hl; now right. }
    apply G. intros p Hp. apply in_seq in Hp. lia.
  - split; [intros t' p Ht; apply Nat.eqb_neq in Ht; now rewrite Ht|].
    intros p Hp. rewrite Nat.eqb_refl, (proj2 (Nat.ltb_lt _ _) Hp). reflexivity.
Qed.
(** ** The tables of the catalog file *)
Lemma load_tables d N (l : cat) : forall m, (forall t p h r, d_file d t p = Some (h, r) -> h <= N) -> NoDup (map fst l) ->
  (forall t n e, In (t, (n, e)) l -> any_file (d_file d) t n = true) -> m_lsn m <= N ->
  exists m', fold_left (fun (x : disk * mem) (p : nat * (nat * Z)) => table_open (fst p) (fst (snd p)) (fst x) (snd x)) l (d, m) = (d, m') /\
    m_cat m' = m_cat m /\ m_pend m' = m_pend m /\ m_lsn m <= m_lsn m' /\ m_lsn m' <= N /\
    (forall t n e p h r, In (t, (n, e)) l -> p < n -> d_file d t p = Some (h, r) -> h <= m_lsn m') /\
    (forall t p, ~ In t (map fst l) -> m_part m' t p = m_part m t p) /\
    (forall t n e p, In (t, (n, e)) l -> p < n -> m_part m' t p = option_map part_open (d_file d t p)).
Proof.
  induction l as [|[t [n e]] l IH]; intros m HN ND A Hm; cbn [fold_left].
  - exists m. do 4 (split; [lia || reflexivity|]). split; [exact Hm|]. split; [easy|]. split; [auto|easy].
  - inversion ND as [|? ? Nt ND']; subst. cbn in Nt.
    destruct (table_open_found t n d m (A _ _ _ (or_introl eq_refl))) as (m1 & E & E1 & E2 & E3 & E4 & E5 & E6 & E7). cbn [fst snd]. rewrite E.
    destruct (IH m1 HN ND') as (m' & F & F1 & F2 & F3 & F4 & F5 & F6 & F7); [intros; eapply A; right; eassumption|now apply E5|].
    exists m'. split; [exact F|]. split; [congruence|]. split; [congruence|]. split; [lia|]. split; [exact F4|]. split; [|split].
    + intros t' n' e' p h r [X|X] Hp Hf; [|eauto]. injection X as <- <- <-. pose proof (E4 _ _ _ Hp Hf). lia.
    + intros t' p Ht. cbn in Ht. rewrite F6 by tauto. apply E6. intros ->. tauto.
    + intros t' n' e' p [X|X] Hp; [|eauto]. injection X as <- <- <-. rewrite F6 by exact Nt. now apply E7.
Qed.

(** a table that is gone was dropped *)
Lemma was_dropped L i j t q : wf L -> i <= j -> j <= length L -> find_table (K L i) t = Some q -> find_table (K L j) t = None -> exists m, i <= m < j /\ nth_error L m = Some (Drop t).
Proof.
  intros W Hij. induction Hij as [|j Hij IH]; intros Hj H H'; [congruence|].
  destruct (find_table (K L j) t) as [q'|] eqn:E.
  - destruct (nth_error L j) as [s|] eqn:Es; [|apply nth_error_None in Es; lia]. rewrite (K_step _ _ _ Es) in H'. pose proof (W _ _ Es) as F.
    destruct s; cbn [spec1 fst] in H'; try congruence.
    + rewrite find_app, E in H'. discriminate.
    + rewrite find_alter, E in H'. discriminate.
    + rewrite find_remove in H'. destruct (t =? t0) eqn:Et; [|congruence]. apply Nat.eqb_eq in Et as ->. exists j. split; [lia|exact Es].
  - destruct (IH ltac:(lia) H eq_refl) as (m & Hm & D). exists m. split; [lia|exact D].
Qed.
Lemma in_recs_ (L : list stmt) a i s : nth_error L i = Some s -> In (a + i, s) (combine (seq a (length L)) L).
Proof. revert a i; induction L as [|x L IH]; intros a [|i] H; cbn in *; try discriminate; [injection H as ->; left; f_equal; lia|]. right. replace (a + S i) with (S a + i) by lia. now apply IH. Qed.
Lemma in_recs L i s : nth_error L i = Some s -> In (S i, s) (recs L).
Proof. intro H. apply (in_recs_ L 1 i s H). Qed.

(** ** Commands *)
Definition rec_part (i : nat) (c : content) (t p : nat) (y : part) : Prop := S i <= hdr y \/ (hdr y <= i /\ live y = c t p).
Lemma recover_cmds_ok L i cs : wf L -> forall m k c, m_cat m = K L k ->
  (forall t n e p, find_table (K L k) t = Some (n, e) -> p < n -> exists y, m_part m t p = Some y /\ rec_part i c t p y) ->
  dml_fine (K L i) cs c ->
  exists m', recover_cmds (S i) m cs = Some m' /\ m_cat m' = m_cat m /\ m_pend m' = m_pend m /\ m_lsn m' = m_lsn m /\
    forall t n e p, find_table (K L k) t = Some (n, e) -> p < n ->
      exists y y', m_part m t p = Some y /\ m_part m' t p = Some y' /\ hdr y' = hdr y /\ leak y' = leak y /\
        (S i <= hdr y -> live y' = live y) /\ (hdr y <= i -> live y' = dml_spec cs c t p) /\
        (((exists os, In (t, p, os) cs) /\ trk y' = Nat.max (trk y) (S i)) \/ (~ (exists os, In (t, p, os) cs) /\ trk y' = trk y)).
Proof.
  intro W. induction cs as [|[[t p] os] cs IH]; intros m k c Hc HM F; cbn [recover_cmds dml_fine dml_spec] in *.
  - exists m. do 4 (split; [reflexivity|]). intros t n e p Ht Hp. destruct (HM _ _ _ _ Ht Hp) as (y & Ey & R).
    exists y, y. do 4 (split; [assumption || reflexivity|]). split; [reflexivity|]. split; [destruct R as [R|[_ R]]; [lia|auto]|]. right. split; [intros [o []]|reflexivity].
  - destruct F as ((n & e & Et & Ep) & l & El & F). rewrite El. unfold recover_cmd at 1. rewrite Hc.
    destruct (find_table (K L k) t) as [[n' e']|] eqn:Ek.
    + assert (n' = n) as -> by (eapply K_nparts; eauto). destruct (HM _ _ _ _ Ek Ep) as (y & Ey & R). rewrite Ey. cbn zeta.
      set (z := mkpart (hdr y) (Nat.max (trk y) (S i)) (if S i <=? hdr y then live y else l) (leak y)).
      assert ((if S i <=? hdr y then Some (mkmem (m_lsn m) (m_pend m) (K L k) (upd2 (m_part m) t p (Some (mkpart (hdr y) (Nat.max (trk y) (S i)) (live y) (leak y)))))
               else match rops_do os (live y) with Some l0 => Some (mkmem (m_lsn m) (m_pend m) (K L k) (upd2 (m_part m) t p (Some (mkpart (hdr y) (Nat.max (trk y) (S i)) l0 (leak y))))) | None => None end)
             = Some (mkmem (m_lsn m) (m_pend m) (K L k) (upd2 (m_part m) t p (Some z)))) as ->.
      { unfold z. destruct (S i <=? hdr y) eqn:E; [reflexivity|]. apply Nat.leb_gt in E. destruct R as [R|[_ R]]; [lia|]. now rewrite R, El. }
      edestruct (IH (mkmem (m_lsn m) (m_pend m) (K L k) (upd2 (m_part m) t p (Some z))) k (add_rows c t p l)) as (m' & H & H1 & H2 & H3 & H4); [reflexivity| |exact F|].
      * intros t' n' e0 p' Ht' Hp'. cbn [m_part]. unfold upd2, rec_part, add_rows. destruct ((t' =? t) && (p' =? p)) eqn:E; [|apply (HM _ _ _ _ Ht' Hp')].
        exists z. split; [reflexivity|]. unfold z. cbn [hdr live]. destruct (S i <=? hdr y) eqn:E'; [left; now apply Nat.leb_le|right]. apply Nat.leb_gt in E'. split; [lia|reflexivity].
      * exists m'. split; [exact H|]. split; [cbn in H1; congruence|]. split; [exact H2|]. split; [exact H3|].
        intros t' n' e0 p' Ht' Hp'. destruct (H4 _ _ _ _ Ht' Hp') as (w & w' & G1 & G2 & G3 & G4 & G5 & G6 & G7). cbn [m_part] in G1. unfold upd2 in G1.
        destruct ((t' =? t) && (p' =? p)) eqn:E.
        -- apply andb_prop in E as [E1 E2]. apply Nat.eqb_eq in E1, E2. subst t' p'. injection G1 as <-. unfold z in *. cbn [hdr trk live leak] in *.
           exists y, w'. do 4 (split; [assumption|]). split.
           { intro X. rewrite (G5 X). now rewrite (proj2 (Nat.leb_le _ _) X). }
           split; [exact G6|]. left. split; [exists os; now left|]. destruct G7 as [[_ G]|[_ G]]; lia.
        -- exists w, w'. do 6 (split; [assumption|]). destruct G7 as [[[o Ho] G]|[N G]]; [left; split; [exists o; now right|exact G]|].
           right. split; [|exact G]. intros [o [Ho|Ho]]; [|apply N; eauto]. injection Ho as <- <- _. rewrite !Nat.eqb_refl in E. discriminate.
    + (* the table was dropped later *)
      edestruct (IH m k (add_rows c t p l)) as (m' & H & H1 & H2 & H3 & H4); [exact Hc| |exact F|].
      * intros t' n' e0 p' Ht' Hp'. destruct (HM _ _ _ _ Ht' Hp') as (y & Ey & R). exists y. split; [exact Ey|]. unfold rec_part, add_rows in *.
        destruct (t' =? t) eqn:E; [apply Nat.eqb_eq in E; congruence|exact R].
      * exists m'. split; [exact H|]. split; [congruence|]. split; [exact H2|]. split; [exact H3|].
        intros t' n' e0 p' Ht' Hp'. destruct (H4 _ _ _ _ Ht' Hp') as (w & w' & G1 & G2 & G3 & G4 & G5 & G6 & G7). exists w, w'. do 6 (split; [assumption|]).
        destruct G7 as [[[o Ho] G]|[N G]]; [left; split; [exists o; now right|exact G]|]. right. split; [|exact G].
        intros [o [Ho|Ho]]; [|apply N; eauto]. injection Ho as <- <- _. congruence.
Qed.
