(** C71: recovery, record by record. *)
From Verif Require Import Base DurModel DurSpec DurProofs DurProofs2 DurProofs3 DurProofs4.
Local Open Scope nat_scope.

Section Recovery.
Variables (L : list stmt) (d0 : disk) (low : nat).
Let N := length L.
Hypothesis W : wf L.
Hypothesis Hlow : low <= S N.
Hypothesis Hwal : d_wal d0 = filter (fun r => low <=? fst r) (recs L).
Hypothesis R : retain L d0 low.
Hypothesis Hcl : d_clsn d0 <= N.
Hypothesis Hcat : d_cat d0 = K L (d_clsn d0).
Hypothesis FG : file_good L d0.
Hypothesis There : forall t n e p, find_table (K L N) t = Some (n, e) -> p < n -> d_file d0 t p <> None.
Hypothesis Whole : files_whole d0.
Hypothesis NoDrop : no_drop_pending d0.

Lemma in_wal i s : nth_error L i = Some s -> low <= S i -> In (S i, s) (d_wal d0).
Proof. intros H H'. rewrite Hwal. apply filter_In. split; [now apply in_recs|]. now apply Nat.leb_le. Qed.
(** the tables of the catalog file are still there *)
Lemma cat_still t q : find_table (K L (d_clsn d0)) t = Some q -> exists e, find_table (K L N) t = Some (fst q, e).
Proof.
  intro H. destruct (find_table (K L N) t) as [[n e]|] eqn:E.
  - exists e. destruct q as [n' e']. assert (n = n') as -> by (eapply K_nparts; eauto). reflexivity.
  - destruct (was_dropped L _ _ _ _ W Hcl (le_n _) H E) as (m & Hm & D). exfalso.
    assert (low <= S m) as Hl by (eapply (proj2 R); [exact D|reflexivity|lia]).
    pose proof (NoDrop _ _ (in_wal _ _ D Hl) ltac:(lia)) as X. rewrite Hcat in X. congruence.
Qed.

Definition rpart (j : nat) (d : disk) (t p : nat) (y : part) : Prop :=
  live y = C L (Nat.max j (hdr y)) t p /\ leak y = [] /\ hdr y <= trk y /\ trk y <= N /\
  (forall i s, i < Nat.max j (hdr y) -> nth_error L i = Some s -> touches s t p -> i < trk y) /\
  d_file d t p = Some (hdr y, C L (hdr y) t p).
Definition rinv (j : nat) (d : disk) (m : mem) : Prop :=
  let k := Nat.max j (d_clsn d0) in
  (d_clsn d = d_clsn d0 /\ d_cat d = d_cat d0 /\ d_wal d = d_wal d0) /\ file_good L d /\
  (forall t q p, find_table (K L N) t = Some q -> d_file d t p = d_file d0 t p) /\
  (forall t p, used (firstn k L) t = false -> d_file d t p = d_file d0 t p) /\
  m_cat m = K L k /\
  (forall t n e p, find_table (K L k) t = Some (n, e) -> p < n -> exists y, m_part m t p = Some y /\ rpart j d t p y /\ hdr y <= m_lsn m) /\
  (d_clsn d0 <= m_pend m /\ m_pend m <= k /\ forall i s, i < k -> nth_error L i = Some s -> is_ddl s = true -> i < m_pend m) /\
  (d_clsn d0 <= m_lsn m /\ m_lsn m <= N /\ (low <= j -> j <= m_lsn m)).

(** the rows of a file of the table [t], when no statement for them is missing in the log *)
Lemma part_open_ok j d t p h r : d_file d t p = Some (h, r) -> file_good L d -> j <= N ->
  (forall i s, h <= i < j -> nth_error L i = Some s -> ~ touches s t p) -> rpart j d t p (part_open (h, r)).
Proof.
  intros Hf G Hj Hn. destruct (G _ _ _ _ Hf) as [Hh ->]. unfold part_open. cbn [fst snd].
  split; [|cbn [leak hdr trk]].
  - cbn [live hdr]. rewrite load_same by (unfold C; apply spec_nodup). symmetry. apply C_same; [exact W|lia|lia|].
    intros m s Hm. apply Hn. lia.
  - split; [reflexivity|]. split; [lia|]. split; [exact Hh|]. split; [|exact Hf].
    intros i s Hi E T. destruct (Nat.lt_ge_cases i h) as [X|X]; [exact X|]. exfalso. apply (Hn i s); [lia|exact E|exact T].
Qed.

Lemma pred_low : pred low <= N. Proof. lia. Qed.
Lemma load_rinv : exists m, catalog_load d0 = (d0, m) /\ rinv (pred low) d0 m.
Proof.
  assert (forall t n e p, In (t, (n, e)) (d_cat d0) -> p < n -> d_file d0 t p <> None) as HF.
  { intros t n e p Hi Hp. rewrite Hcat in Hi. apply in_find in Hi; [|now apply K_nodup].
    destruct (cat_still _ _ Hi) as [e' He]. eapply There; eauto. }
  destruct (load_tables d0 N (d_cat d0) (mkmem (d_clsn d0) (d_clsn d0) (d_cat d0) (fun _ _ => None))) as (m & E & E1 & E2 & E3 & E4 & E5 & E6 & E7).
  - intros t p h r H. apply (FG _ _ _ _ H).
  - rewrite Hcat. now apply K_nodup.
  - intros t n e Hi. apply any_file_true. exists 0. assert (1 <= n).
    { rewrite Hcat in Hi. apply in_find in Hi; [|now apply K_nodup]. eapply K_pos; eauto. }
    split; [lia|eapply HF; eauto].
  - exact Hcl.
  - exists m. split; [exact E|]. cbn [m_cat m_pend m_lsn] in E1, E2, E3.
    assert (K L (Nat.max (pred low) (d_clsn d0)) = K L (d_clsn d0)) as EK.
    { apply K_same; [lia|pose proof pred_low; lia|]. intros i s Hi Hs. destruct (is_ddl s) eqn:Ed; [|reflexivity].
      pose proof (proj2 R _ _ Hs Ed ltac:(lia)). lia. }
    split; [auto|]. split; [exact FG|]. split; [reflexivity|]. split; [reflexivity|]. split; [congruence|]. split; [|split].
    + rewrite EK. intros t n e p Ht Hp. pose proof Ht as Hi. apply find_in in Hi. rewrite <- Hcat in Hi. rewrite (E7 _ _ _ _ Hi Hp).
      destruct (cat_still _ _ Ht) as [e' He]. cbn in He.
      destruct (d_file d0 t p) as [[h r]|] eqn:Ef; [|exfalso; eapply HF; eauto]. exists (part_open (h, r)). split; [reflexivity|]. split; [|cbn; eapply E5; eauto].
      apply part_open_ok; [exact Ef|exact FG|apply pred_low|]. intros i s Hi' Hs T.
      pose proof (proj1 R _ _ _ _ _ _ _ _ He Hp Ef Hs T ltac:(lia)). lia.
    + rewrite E2. split; [lia|]. split; [lia|]. intros i s Hi Hs Hd. destruct (Nat.lt_ge_cases i (d_clsn d0)) as [X|X]; [exact X|].
      pose proof (proj2 R _ _ Hs Hd X). lia.
    + split; [exact E3|]. split; [exact E4|]. intro X. assert (low = 0) by lia. subst. cbn. lia.
Qed.

(** a record that does not touch a partition *)
Lemma rpart_next j d t p y s : rpart j d t p y -> nth_error L j = Some s -> ~ touches s t p -> rpart (S j) d t p y.
Proof.
  intros (P1 & P2 & P3 & P4 & P5 & P6) E T. assert (j < N) as Hj by (apply nth_error_Some; congruence).
  destruct (Nat.lt_ge_cases j (hdr y)) as [X|X].
  - assert (Nat.max (S j) (hdr y) = Nat.max j (hdr y)) as EM by lia. split; [now rewrite EM|]. do 3 (split; [assumption|]). split; [|assumption]. now rewrite EM.
  - split; [|do 3 (split; [assumption|]); split; [|assumption]].
    + rewrite P1. replace (Nat.max j (hdr y)) with j by lia. replace (Nat.max (S j) (hdr y)) with (S j) by lia. symmetry.
      apply C_same; [exact W|lia|exact Hj|]. intros m q Hm Em. assert (m = j) as -> by lia. congruence.
    + intros i q Hi Hq Tq. destruct (Nat.eq_dec i j) as [->|]; [congruence|]. apply (P5 i q); [lia|exact Hq|exact Tq].
Qed.
Lemma dml_next j d m cs : low <= S j -> rinv j d m -> nth_error L j = Some (Dml cs) -> exists m', recover_cmds (S j) m cs = Some m' /\ rinv (S j) d (set_lsn m' (S j)).
Proof.
  intros Hl (D1 & D2 & D3 & D4 & D5 & D6 & (D7 & D8 & D9) & D10 & D11 & D12) E.
  assert (j < N) as Hj by (apply nth_error_Some; congruence). pose proof (W _ _ E) as [_ F]. fold (K L j) (C L j) in F.
  edestruct (recover_cmds_ok L j cs W m _ (C L j) D5) as (m' & H & H1 & H2 & H3 & H4); [|exact F|].
  { intros t n e p Ht Hp. destruct (D6 _ _ _ _ Ht Hp) as (y & Ey & (P1 & _) & _). exists y. split; [exact Ey|]. unfold rec_part.
    destruct (Nat.lt_ge_cases j (hdr y)) as [X|X]; [left; lia|right]. split; [exact X|]. now replace (Nat.max j (hdr y)) with j in P1 by lia. }
  exists m'. split; [exact H|].
  assert (K L (Nat.max (S j) (d_clsn d0)) = K L (Nat.max j (d_clsn d0))) as EK.
  { apply K_same; [lia|lia|]. intros i s Hi Hs. assert (i = j) as -> by lia. rewrite E in Hs. injection Hs as <-. reflexivity. }
  split; [exact D1|]. split; [exact D2|]. split; [exact D3|]. split.
  - intros t p U. apply D4. destruct (used (firstn _ L) t) eqn:X in |- *; [|reflexivity]. rewrite (used_firstn_le L (Nat.max j (d_clsn d0)) _ t) in U; [discriminate|lia|exact X].
  - split; [cbn [m_cat set_lsn]; congruence|]. split; [|split].
    + rewrite EK. intros t n e p Ht Hp. destruct (H4 _ _ _ _ Ht Hp) as (y & y' & Ey & Ey' & G1 & G2 & G3 & G4 & G5).
      destruct (D6 _ _ _ _ Ht Hp) as (z & Ez & Pz & Hz). rewrite Ey in Ez. injection Ez as <-. exists y'. split; [exact Ey'|].
      split; [|cbn; lia]. destruct Pz as (P1 & P2 & P3 & P4 & P5 & P6). unfold rpart. rewrite G1. split.
      * destruct (Nat.lt_ge_cases j (hdr y)) as [X|X].
        -- rewrite (G3 X), P1. f_equal. lia.
        -- rewrite (G4 X). replace (Nat.max (S j) (hdr y)) with (S j) by lia. pose proof (KC_S _ _ _ E) as KC. cbn [spec1] in KC.
           assert (C L (S j) = dml_spec cs (C L j)) as -> by (change (snd (K L (S j), C L (S j)) = dml_spec cs (C L j)); now rewrite KC). reflexivity.
      * split; [congruence|]. destruct G5 as [[To ->]|[No ->]].
        -- split; [lia|]. split; [lia|]. split; [|exact P6]. intros i s Hi Hs Ts. destruct (Nat.lt_ge_cases i (S j)) as [X|X]; [lia|].
           pose proof (P5 i s ltac:(lia) Hs Ts). lia.
        -- split; [exact P3|]. split; [exact P4|]. split; [|exact P6]. intros i s Hi Hs Ts. destruct (Nat.eq_dec i j) as [->|].
           { rewrite E in Hs. injection Hs as <-. contradiction. } apply (P5 i s); [lia|exact Hs|exact Ts].
    + cbn [m_pend set_lsn]. rewrite H2. split; [exact D7|]. split; [lia|]. intros i s Hi Hs Hd. destruct (Nat.eq_dec i j) as [->|].
      { rewrite E in Hs. injection Hs as <-. discriminate. } apply (D9 i s); [lia|exact Hs|exact Hd].
    + cbn [m_lsn set_lsn]. rewrite H3. split; [lia|]. split; [lia|]. intros _. lia.
Qed.
(** a schema change that the catalog file has *)
Lemma ddl_skip j d m s : rinv j d m -> nth_error L j = Some s -> is_ddl s = true -> S j <= d_clsn d0 -> rinv (S j) d (set_lsn m (S j)).
Proof.
  intros (D1 & D2 & D3 & D4 & D5 & D6 & (D7 & D8 & D9) & D10 & D11 & D12) E Hd Hle.
  assert (j < N) as Hj by (apply nth_error_Some; congruence).
  assert (Nat.max (S j) (d_clsn d0) = Nat.max j (d_clsn d0)) as EM by lia. unfold rinv. rewrite EM.
  split; [exact D1|]. split; [exact D2|]. split; [exact D3|]. split; [exact D4|]. split; [exact D5|]. split; [|split].
  - intros t n e p Ht Hp. destruct (D6 _ _ _ _ Ht Hp) as (y & Ey & Py & Hy). exists y. split; [exact Ey|]. split; [|cbn; lia].
    eapply rpart_next; eauto. destruct s; try discriminate; cbn; tauto.
  - split; [exact D7|]. split; [exact D8|exact D9].
  - cbn [m_lsn set_lsn]. split; [lia|]. split; [lia|]. intros _. lia.
Qed.
(** files of [t] may have changed *)
Lemma ddl_parts j d d' m m' s t : rinv j d m -> d_clsn d0 <= j -> nth_error L j = Some s -> is_ddl s = true ->
  (forall t' p, t' <> t -> d_file d' t' p = d_file d t' p) -> (forall t' p, t' <> t -> m_part m' t' p = m_part m t' p) -> m_lsn m <= m_lsn m' ->
  forall t' n e p, find_table (K L j) t' = Some (n, e) -> p < n -> t' <> t -> exists y, m_part m' t' p = Some y /\ rpart (S j) d' t' p y /\ hdr y <= m_lsn m'.
Proof.
  intros (_ & _ & _ & _ & _ & D6 & _) Hc E Hd Hf Hm Hl t' n e p Ht Hp Hne. rewrite Nat.max_l in D6 by exact Hc.
  destruct (D6 _ _ _ _ Ht Hp) as (y & Ey & Py & Hy). exists y. rewrite Hm by exact Hne. split; [exact Ey|]. split; [|lia].
  assert (rpart (S j) d t' p y) as (P1 & P2 & P3 & P4 & P5 & P6).
  { eapply rpart_next; eauto. destruct s; try discriminate; cbn; tauto. }
  do 5 (split; [assumption|]). now rewrite Hf.
Qed.
Lemma rinv_ddl j d d' m m' s : rinv j d m -> d_clsn d0 <= j -> nth_error L j = Some s ->
  d_clsn d' = d_clsn d0 -> d_cat d' = d_cat d0 -> d_wal d' = d_wal d0 -> file_good L d' ->
  (forall t q p, find_table (K L N) t = Some q -> d_file d' t p = d_file d0 t p) ->
  (forall t p, used (firstn (S j) L) t = false -> d_file d' t p = d_file d0 t p) ->
  m_cat m' = K L (S j) -> m_pend m' = S j -> m_lsn m <= m_lsn m' -> m_lsn m' <= N ->
  (forall t n e p, find_table (K L (S j)) t = Some (n, e) -> p < n -> exists y, m_part m' t p = Some y /\ rpart (S j) d' t p y /\ hdr y <= m_lsn m') ->
  rinv (S j) d' (set_lsn m' (S j)).
Proof.
  intros (D1 & D2 & D3 & D4 & D5 & D6 & (D7 & D8 & D9) & D10 & D11 & D12) Hc E A1 A2 A3 A4 A5 A6 A7 A8 A9 A10 A11.
  assert (j < N) as Hj by (apply nth_error_Some; congruence).
  unfold rinv. rewrite Nat.max_l by lia. split; [auto|]. split; [exact A4|]. split; [exact A5|]. split; [exact A6|]. split; [exact A7|]. split; [|split].
  - intros t n e p Ht Hp. destruct (A11 _ _ _ _ Ht Hp) as (y & Ey & Py & Hy). exists y. split; [exact Ey|]. split; [exact Py|]. cbn [m_lsn set_lsn]. lia.
  - cbn [m_pend set_lsn]. rewrite A8. split; [lia|]. split; [lia|]. intros i q Hi _ _. exact Hi.
  - cbn [m_lsn set_lsn]. split; [lia|]. split; [lia|]. intros _. lia.
Qed.
Lemma ddl_next j d m s : low <= S j -> rinv j d m -> nth_error L j = Some s -> is_ddl s = true -> d_clsn d0 <= j ->
  exists d' m', recover_ddl (S j) (d, m) s = Some (d', m') /\ rinv (S j) d' (set_lsn m' (S j)).
Proof.
  intros Hl I E Hd Hc. assert (j < N) as Hj by (apply nth_error_Some; congruence). pose proof (W _ _ E) as F.
  pose proof I as (D1 & D2 & D3 & D4 & D5 & D6 & (D7 & D8 & D9) & D10 & D11 & D12). rewrite Nat.max_l in D4, D5, D6, D8 by exact Hc.
  destruct D1 as (D1a & D1b & D1c).
  assert (forall t p, used (firstn (S j) L) t = false -> d_file d t p = d_file d0 t p) as D4'.
  { intros t p U. apply D4. destruct (used (firstn j L) t) eqn:X; [|reflexivity]. rewrite (used_firstn_le L j (S j) t) in U; [discriminate|lia|exact X]. }
  unfold recover_ddl. rewrite D1a. rewrite (proj2 (Nat.leb_gt (S j) (d_clsn d0))) by lia. rewrite D5.
  pose proof (K_step _ _ _ E) as KS. destruct s as [cs|t n e|t e|t|t]; [discriminate| | | |destruct F]; cbn [spec1 fst fine] in KS, F.
  - (* Create *)
    destruct F as [U Hn]. assert (find_table (K L j) t = None) as Nt.
    { destruct (find_table (K L j) t) eqn:X; [|reflexivity]. apply (cat_used _ _ _ (wf_firstn _ j W)) in X. congruence. }
    cbn [cat_exec]. rewrite Nt. rewrite <- KS.
    assert (forall i s, i < S j -> nth_error L i = Some s -> forall p, ~ touches s t p) as NoTouch.
    { intros i s Hi Hs p T. destruct (Nat.eq_dec i j) as [->|]; [rewrite E in Hs; injection Hs as <-; exact T|].
      destruct (touch_there _ _ _ _ _ W Hs T) as (n9 & e9 & G & _). apply (cat_used _ _ _ (wf_firstn _ i W)) in G.
      apply (used_firstn_le L i j) in G; [congruence|lia]. }
    destruct (any_file (d_file d) t n) eqn:A.
    + assert (forall p, p < n -> d_file d t p <> None) as Full.
      { intros p Hp X. apply any_file_true in A as (p0 & Hp0 & Hf0). rewrite D4 in X, Hf0 by exact U.
        pose proof (Whole t p0 p Hf0 X n) as Y. assert (n <= p); [|lia]. apply Y. exists e. right.
        change (Create t n e) with (snd (S j, Create t n e)). apply in_map. now apply in_wal. }
      destruct (table_open_found t n d (set_cat m (S j) (K L (S j))) A) as (m' & E0 & E1 & E2 & E3 & E4 & E5 & E6 & E7). rewrite E0.
      exists d, m'. split; [reflexivity|]. cbn [m_lsn m_cat m_pend set_cat] in *.
      apply (rinv_ddl j d d m m' (Create t n e)); try assumption.
      * apply E5; [exact D11|]. intros t' p h r Hf. apply (D2 _ _ _ _ Hf).
      * intros t' n' e' p Ht Hp. rewrite KS, find_app in Ht. cbn in Ht. destruct (Nat.eq_dec t' t) as [->|Ne].
        -- rewrite Nt, Nat.eqb_refl in Ht. injection Ht as <- <-. rewrite (E7 _ Hp). destruct (d_file d t p) as [[h r]|] eqn:Ef; [|exfalso; now apply (Full p)].
           eexists. split; [reflexivity|]. split; [|cbn; eauto]. apply part_open_ok; [exact Ef|exact D2|exact Hj|].
           intros i s Hi Hs. apply (NoTouch i s); [lia|exact Hs].
        -- apply Nat.eqb_neq in Ne as Ne'. rewrite Ne' in Ht. destruct (find_table (K L j) t') as [[n0 e0]|] eqn:Et; [|discriminate]. injection Ht as -> ->.
           eapply (ddl_parts j d d m m'); eauto.
    + destruct (table_open_new t n d (set_cat m (S j) (K L (S j))) A) as (d' & m' & E0 & B1 & B2 & B3 & B4 & B5 & B6 & E1 & E2 & E3 & E4 & E5). rewrite E0.
      exists d', m'. split; [reflexivity|]. cbn [m_lsn m_cat m_pend m_part set_cat] in *.
      assert (find_table (K L N) t = None) as NN.
      { destruct (find_table (K L N) t) as [[n' e']|] eqn:X; [|reflexivity]. exfalso.
        assert (find_table (K L (S j)) t = Some (n, e)) as Y by (rewrite KS, find_app, Nt; cbn; now rewrite Nat.eqb_refl).
        assert (n' = n) as -> by (eapply K_nparts; eauto). assert (any_file (d_file d) t n = true); [|congruence].
        apply any_file_true. exists 0. split; [lia|]. rewrite D4 by exact U. eapply There; eauto. }
      apply (rinv_ddl j d d' m m' (Create t n e)); try assumption; try congruence.
      * intros t' p h r Hf. destruct (Nat.eq_dec t' t) as [->|Ne]; [|rewrite B4 in Hf by exact Ne; now apply D2].
        destruct (Nat.lt_ge_cases p n) as [X|X]; [|rewrite B6 in Hf by exact X; now apply D2]. rewrite B5 in Hf by exact X. injection Hf as <- <-. split; [lia|reflexivity].
      * intros t' q p Ht. rewrite B4; [eapply D3; eauto|]. intros ->. congruence.
      * intros t' p Ht. rewrite B4; [now apply D4'|]. intros ->. assert (used (firstn (S j) L) t = true); [|congruence].
        apply used_spec. exists n, e. rewrite (firstn_S _ _ _ E). apply in_or_app. right. now left.
      * lia.
      * intros t' n' e' p Ht Hp. rewrite KS, find_app in Ht. cbn in Ht. destruct (Nat.eq_dec t' t) as [->|Ne].
        -- rewrite Nt, Nat.eqb_refl in Ht. injection Ht as <- <-. rewrite (E5 _ Hp). eexists. split; [reflexivity|]. split; [|cbn; lia].
           change (mkpart 0 0 [] []) with (part_open (0, [])). apply part_open_ok; [now apply B5| |exact Hj|intros i s Hi Hs; apply (NoTouch i s); [lia|exact Hs]].
           intros t' p' h r Hf. destruct (Nat.eq_dec t' t) as [->|Ne]; [|rewrite B4 in Hf by exact Ne; now apply D2].
           destruct (Nat.lt_ge_cases p' n) as [X|X]; [|rewrite B6 in Hf by exact X; now apply D2]. rewrite B5 in Hf by exact X. injection Hf as <- <-. split; [lia|reflexivity].
        -- apply Nat.eqb_neq in Ne as Ne'. rewrite Ne' in Ht. destruct (find_table (K L j) t') as [[n0 e0]|] eqn:Et; [|discriminate]. injection Ht as -> ->.
           eapply (ddl_parts j d d' m m'); eauto. lia.
  - (* Alter *)
    destruct F as [q0 F]. fold (K L j) in F. cbn [cat_exec]. rewrite F. exists d, (set_cat m (S j) (alter_table t e (K L j))). split; [reflexivity|].
    apply (rinv_ddl j d d m (set_cat m (S j) (alter_table t e (K L j))) (Alter t e)); try assumption; cbn [m_lsn m_cat m_pend m_part set_cat]; try lia.
    + symmetry. exact KS.
    + intros t' n' e' p Ht Hp. rewrite KS, find_alter in Ht. destruct (find_table (K L j) t') as [[a b]|] eqn:E'; [|discriminate]. cbn in Ht.
      assert (n' = a) as -> by (destruct (t' =? t); injection Ht as <- <-; reflexivity).
      destruct (D6 _ _ _ _ E' Hp) as (y & Ey & Py & Hy). exists y. split; [exact Ey|]. split; [|exact Hy]. eapply rpart_next; eauto.
  - (* Drop *)
    destruct F as [q0 F]. fold (K L j) in F. cbn [cat_exec]. rewrite F. eexists. eexists. split; [reflexivity|].
    assert (find_table (K L N) t = None) as NN.
    { apply (gone L (S j) N t); [exact W|lia|lia| |rewrite KS, find_remove, Nat.eqb_refl; reflexivity].
      apply (used_firstn_le L j (S j)); [lia|]. eapply cat_used; [now apply wf_firstn|exact F]. }
    eapply (rinv_ddl j d _ m _ (Drop t)); try eassumption; cbn [m_lsn m_cat m_pend m_part set_cat d_clsn d_cat d_wal d_file]; try lia; try assumption.
    + intros t' p h r Hf. cbn in Hf. unfold drop_files in Hf. destruct (t' =? t); [discriminate|now apply D2].
    + intros t' q p Ht. unfold drop_files. destruct (t' =? t) eqn:X; [apply Nat.eqb_eq in X; congruence|eapply D3; eauto].
    + intros t' p Ht. unfold drop_files. destruct (t' =? t) eqn:X; [|now apply D4']. apply Nat.eqb_eq in X as ->.
      rewrite (used_firstn_le L j (S j) t) in Ht; [discriminate|lia|]. eapply cat_used; [now apply wf_firstn|exact F].
    + symmetry. exact KS.
    + intros t' n' e' p Ht Hp. rewrite KS, find_remove in Ht. destruct (t' =? t) eqn:X; [discriminate|]. apply Nat.eqb_neq in X.
      eapply (ddl_parts j d _ m _ (Drop t) t I); eauto. intros t2 p2 Ne. cbn. unfold drop_files. apply Nat.eqb_neq in Ne. now rewrite Ne.
Qed.
End Recovery.
