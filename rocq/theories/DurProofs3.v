(** C71: the steps of the running server keep the invariant. *)
From Verif Require Import Base DurModel DurSpec DurProofs DurProofs2.
Local Open Scope nat_scope.

Definition with_file (d : disk) (t p : nat) (v : option (nat * rows)) : disk := mkdisk (d_clsn d) (d_cat d) (upd2 (d_file d) t p v) (d_wal d).
Lemma upd2_other {A} (f : nat -> nat -> A) t p v t' p' : t' <> t -> upd2 f t p v t' p' = f t' p'.
Proof. intro H. unfold upd2. apply Nat.eqb_neq in H. now rewrite H. Qed.
Lemma upd2_same {A} (f : nat -> nat -> A) t p v : upd2 f t p v t p = v.
Proof. unfold upd2. now rewrite !Nat.eqb_refl. Qed.

(** ** Files of tables that are not in the catalog *)
Section Out.
Variables (L : list stmt) (t p : nat) (v : option (nat * rows)).
Hypothesis Out : find_table (K L (length L)) t = None.
Hypothesis V : v = None \/ v = Some (0, []).
Lemma out_ne t' q : find_table (K L (length L)) t' = Some q -> t' <> t.
Proof. intros H ->. congruence. Qed.
Lemma retain_out d low : retain L d low -> retain L (with_file d t p v) low.
Proof.
  intros [R1 R2]. split; [|exact R2]. intros t' n e p' h r i s Ht Hp Hf. cbn in Hf. rewrite upd2_other in Hf by (eapply out_ne; eauto). eapply R1; eauto.
Qed.
Lemma dinv_out d : dinv L d -> dinv L (with_file d t p v).
Proof.
  intros (W & (low & Hl & Hw & R) & Hc & Hk & F & X). split; [exact W|]. split; [exists low; split; [exact Hl|split; [exact Hw|now apply retain_out]]|].
  split; [exact Hc|]. split; [exact Hk|]. split.
  - intros t' p' h r H. cbn in H. unfold upd2 in H. destruct (_ && _); [|now apply F].
    destruct V as [V0|V0]; rewrite V0 in H; [discriminate|]. injection H as <- <-. split; [lia|reflexivity].
  - intros t' n e p' Ht Hp. cbn. rewrite upd2_other by (eapply out_ne; eauto). eapply X; eauto.
Qed.
Lemma minv_out L0 d m : minv L0 L d m -> minv L0 L (with_file d t p v) m.
Proof.
  intros (M1 & M2 & M3 & M4 & M5). split; [exact M1|]. split; [|split; [exact M3|split; [exact M4|exact M5]]].
  intros t' n e p' Ht Hp. destruct (M2 _ _ _ _ Ht Hp) as (y & Ey & P1 & P2 & P3 & P4 & P5 & P6). exists y. split; [exact Ey|].
  split; [exact P1|]. split; [exact P2|]. split; [exact P3|]. split; [exact P4|]. split; [exact P5|].
  intro N. cbn. rewrite upd2_other; [now apply P6|]. destruct (find_table (K L (length L)) t') as [q|] eqn:E; [|discriminate]. eapply out_ne; eauto.
Qed.
Lemma ginv_out d g : ginv L d g -> ginv L (with_file d t p v) g.
Proof. intros G min l E. destruct (G _ _ E) as [Hl H]. split; [exact Hl|]. intros low A B. apply retain_out. now apply H. Qed.
End Out.

Lemma unused_out L t : wf L -> used L t = false -> find_table (K L (length L)) t = None.
Proof. intros W U. rewrite K_full. destruct (find_table (fst (spec L)) t) eqn:E; [|reflexivity]. apply cat_used in E; [congruence|exact W]. Qed.

(** ** Logging *)
Lemma dinv_log L d s : dinv L d -> fine L s -> files_done s d -> dinv (L ++ [s]) (mkdisk (d_clsn d) (d_cat d) (d_file d) (d_wal d ++ [(S (length L), s)])).
Proof.
  intros (W & (low & Hl & Hw & R) & Hc & Hk & F & X) Fs Fd. split; [now apply wf_app|]. split.
  - exists low. split; [rewrite app_length; cbn; lia|]. split; [|now apply retain_log].
    cbn [d_wal]. rewrite Hw, recs_app, filter_app. cbn [filter fst]. now rewrite (proj2 (Nat.leb_le _ _) Hl).
  - split; [cbn; rewrite app_length; lia|]. split; [cbn; now rewrite K_app|]. split; [now apply file_good_log|].
    intros t n e p Ht Hp. cbn. destruct (K_before _ _ _ _ _ W Fs Ht) as [[d' ->]|[e' Ht']]; [rewrite Fd by exact Hp; discriminate|eapply X; eauto].
Qed.
Lemma minv_log L d s m : wf L -> fine L s -> minv L L d m -> minv L (L ++ [s]) (mkdisk (d_clsn d) (d_cat d) (d_file d) (d_wal d ++ [(S (length L), s)])) (mkmem (S (m_lsn m)) (m_pend m) (m_cat m) (m_part m)).
Proof.
  intros W F (M1 & M2 & M3 & M4 & M5). split; [exact M1|]. split; [|split; [exact M3|split; [exact M4|exact M5]]].
  intros t n e p Ht Hp. destruct (M2 _ _ _ _ Ht Hp) as (y & Ey & P1 & P2 & P3 & P4 & P5 & P6). exists y. split; [exact Ey|].
  split; [exact P1|]. split; [exact P2|]. split; [exact P3|]. split; [exact P4|]. split; [exact P5|].
  intro N. cbn. rewrite P6 by (now rewrite Ht). rewrite C_app by lia. reflexivity.
Qed.
Lemma ginv_log L d s g w : wf L -> fine L s -> ginv L d g -> ginv (L ++ [s]) (mkdisk (d_clsn d) (d_cat d) (d_file d) w) g.
Proof.
  intros W F G min l E. destruct (G _ _ E) as [Hl H]. split; [rewrite app_length; lia|]. intros low A B.
  apply retain_log; auto. lia.
Qed.

(** ** Commit *)
Lemma part_commit L0 s d t p y n : fine L0 s -> ~ touches s t p -> part_inv L0 (L0 ++ [s]) d t p y n -> part_inv (L0 ++ [s]) (L0 ++ [s]) d t p y n.
Proof.
  intros F T (P1 & P2 & P3 & P4 & P5 & P6). split.
  - rewrite P1, C_new. symmetry. apply spec1_other; [destruct s; auto|exact T].
  - split; [exact P2|]. split; [exact P3|]. split; [rewrite app_length; lia|]. split; [|exact P6].
    intros i q Hi Hq. destruct (nth_app_cases _ _ _ _ Hi) as [[_ E]|[_ ->]]; [eauto|contradiction].
Qed.
Lemma touches_dec s t p : match s with Dml _ => False | _ => True end -> ~ touches s t p.
Proof. destruct s; cbn; tauto. Qed.
Lemma commit_ok L0 s d m : wf L0 -> fine L0 s -> files_done s d -> dinv (L0 ++ [s]) d -> m_lsn m = length (L0 ++ [s]) -> minv L0 (L0 ++ [s]) d m ->
  exists m', mem_commit m s = Some m' /\ minv (L0 ++ [s]) (L0 ++ [s]) d m' /\ m_lsn m' = length (L0 ++ [s]).
Proof.
  intros W F Fd D Hlsn (M1 & M2 & M3 & M4 & M5).
  assert (length (L0 ++ [s]) = S (length L0)) as EL by (rewrite app_length; cbn; lia).
  assert (forall i q, nth_error (L0 ++ [s]) i = Some q -> i < S (length L0)) as Hall.
  { intros i q H. rewrite <- EL. apply nth_error_Some. congruence. }
  assert (d_clsn d <= length (L0 ++ [s])) as Hcl by lia.
  destruct s as [cs|t n e|t e|t|t]; unfold mem_commit.
  - (* Dml *)
    destruct F as [_ F]. pose proof F as F'. rewrite <- K_full, <- C_full in F.
    edestruct (dml_fine_ok L0 cs m (m_lsn m) (C L0 (length L0))) as (m' & H & H1 & H2 & H3 & H4); [exact M1| |exact F|].
    { intros t n e p Ht Hp. destruct (M2 _ _ _ _ Ht Hp) as (y & Ey & P1 & _). eauto. }
    exists m'. split; [exact H|]. split; [|congruence].
    assert (K (L0 ++ [Dml cs]) (length (L0 ++ [Dml cs])) = K L0 (length L0)) as EK by (now rewrite K_new).
    split; [congruence|]. split.
    + intros t n e p Ht Hp. rewrite EK in Ht. destruct (H4 _ _ _ _ Ht Hp) as (y & y' & Ey & Ey' & G1 & G2 & G3 & G4).
      exists y'. split; [exact Ey'|]. destruct (M2 _ _ _ _ Ht Hp) as (z & Ez & P1 & P2 & P3 & P4 & P5 & P6). rewrite Ey in Ez. injection Ez as <-.
      split; [rewrite G1, C_new; reflexivity|]. split; [congruence|]. rewrite EK, Ht in *. rewrite G2.
      destruct G4 as [[To ->]|[No ->]].
      * split; [lia|]. split; [lia|]. split; [|exact P6]. intros i q Hi _. rewrite Hlsn, EL. eauto.
      * split; [exact P3|]. split; [lia|]. split; [|exact P6]. intros i q Hi T. destruct (nth_app_cases _ _ _ _ Hi) as [[_ E]|[_ ->]]; [eauto|contradiction].
    + split; [lia|]. split; [lia|]. intros i q Hi Hq. destruct (nth_app_cases _ _ _ _ Hi) as [[_ E]|[_ ->]]; [rewrite H2; eauto|discriminate].
  - (* Create *)
    destruct F as [U Hn]. assert (find_table (K L0 (length L0)) t = None) as Nt by (now apply unused_out).
    cbn [cat_exec]. rewrite M1, Nt. eexists. split; [reflexivity|]. split; [|exact Hlsn].
    split; [cbn; now rewrite K_new|]. split.
    + intros t' n' e' p Ht Hp. rewrite Ht. cbn [m_part is_some]. rewrite K_new in Ht. cbn in Ht. rewrite find_app in Ht. cbn in Ht. destruct (t' =? t) eqn:Et.
      * apply Nat.eqb_eq in Et as ->. rewrite Nt in Ht. injection Ht as <- <-. rewrite (proj2 (Nat.ltb_lt _ _) Hp).
        eexists. split; [reflexivity|]. split; [cbn; symmetry; rewrite C_new; cbn|].
        { apply C_fresh; [exact W|lia|now rewrite firstn_all]. }
        cbn. split; [reflexivity|]. split; [lia|]. split; [lia|]. split; [|intros _; rewrite Fd by exact Hp; reflexivity].
        intros i q Hi T. exfalso. destruct (nth_app_cases _ _ _ _ Hi) as [[Hi' E]|[_ ->]]; [|exact T].
        destruct (touch_there _ _ _ _ _ W E T) as (n0 & d0 & G & _). apply (cat_used _ _ _ (wf_firstn _ i W)) in G.
        apply (used_firstn_le L0 i (length L0)) in G; [|lia]. rewrite firstn_all in G. congruence.
      * destruct (find_table (K L0 (length L0)) t') as [q|] eqn:E'; [|discriminate]. injection Ht as ->.
        destruct (M2 _ _ _ _ E' Hp) as (y & Ey & P). exists y. split; [exact Ey|].
        apply part_commit; [now split|now apply touches_dec|]. destruct P as (P1 & P2 & P3 & P4 & P5 & P6). do 5 (split; [assumption|]). intros _. apply P6.
        rewrite K_new. cbn. now rewrite find_app, E'.
    + cbn. split; [lia|]. split; [lia|]. intros i q Hi _. rewrite Hlsn, EL. eauto.
  - (* Alter *)
    destruct F as [q0 F0]. pose proof F0 as F. rewrite <- K_full in F. cbn [cat_exec]. rewrite M1, F. eexists. split; [reflexivity|]. split; [|exact Hlsn].
    split; [cbn; now rewrite K_new|]. split.
    + intros t' n' e' p Ht Hp. cbn. pose proof Ht as Ht0. rewrite K_new in Ht. cbn in Ht. rewrite find_alter in Ht.
      destruct (find_table (K L0 (length L0)) t') as [[a b]|] eqn:E'; [|discriminate]. cbn in Ht.
      assert (n' = a) as -> by (destruct (t' =? t); injection Ht as <- <-; reflexivity).
      destruct (M2 _ _ _ _ E' Hp) as (y & Ey & P). exists y. split; [exact Ey|].
      apply part_commit; [now exists q0|now apply touches_dec|exact P].
    + cbn. split; [lia|]. split; [lia|]. intros i q Hi _. rewrite Hlsn, EL. eauto.
  - (* Drop *)
    destruct F as [q0 F0]. pose proof F0 as F. rewrite <- K_full in F. cbn [cat_exec]. rewrite M1, F. eexists. split; [reflexivity|]. split; [|exact Hlsn].
    split; [cbn; now rewrite K_new|]. split.
    + intros t' n' e' p Ht Hp. cbn. pose proof Ht as Ht0. rewrite K_new in Ht. cbn in Ht. rewrite find_remove in Ht.
      destruct (t' =? t) eqn:Et; [discriminate|].
      destruct (M2 _ _ _ _ Ht Hp) as (y & Ey & P). exists y. split; [exact Ey|].
      apply part_commit; [now exists q0|now apply touches_dec|exact P].
    + cbn. split; [lia|]. split; [lia|]. intros i q Hi _. rewrite Hlsn, EL. eauto.
  - destruct F.
Qed.

(** ** Steps *)
Lemma begin_inv x s x' : inv x -> no_truncate x (Begin s) -> step x (Begin s) = Some x' -> inv x'.
Proof.
  intros (D & Hl & G & Ph) T H. unfold step in H. destruct (x_todo x) eqn:Etd; [|discriminate].
  destruct (stmt_ok x s) eqn:Eok; [|discriminate]. injection H as <-. split; [exact D|]. split; [exact Hl|]. split; [exact G|].
  destruct Ph as [[_ M]|[(s0 & q & rest & E & _)|(L0 & s0 & rest & _ & E & _)]];
    [|rewrite E in Etd; destruct q; discriminate|rewrite E in Etd; destruct rest; discriminate].
  assert (fine (g_log x) s) as F.
  { unfold stmt_ok in Eok. destruct M as (M1 & M2 & _). destruct s as [cs|t n e|t e|t|t]; cbn [fine].
    - destruct cs as [|c cs]; [discriminate|]. split; [discriminate|]. destruct (dml_ok (x_mem x) (c :: cs) 0) as [m'|] eqn:E; [|discriminate].
      rewrite <- K_full, <- C_full. eapply dml_ok_fine; [apply D|exact M1| |exact E].
      intros t n e p Ht Hp. destruct (M2 _ _ _ _ Ht Hp) as (y & Ey & P1 & _). eauto.
    - apply andb_prop in Eok as [E1 E2]. apply negb_true_iff in E1. apply Nat.leb_le in E2. now split.
    - rewrite <- K_full, <- M1. destruct (find_table _ t); [eauto|discriminate].
    - rewrite <- K_full, <- M1. destruct (find_table _ t); [eauto|discriminate].
    - destruct T. }
  right; left. cbn [g_log x_disk x_mem x_todo].
  assert (forall s q rest, micros (x_mem x) s = q ++ MLog s :: rest ++ [MCommit s] -> Forall (removes s) rest -> files_to_do s (x_disk x) q -> fine (g_log x) s ->
    exists s1 q rest, micros (x_mem x) s = q ++ MLog s1 :: rest ++ [MCommit s1] /\ Forall (removes s1) rest /\ files_to_do s1 (x_disk x) q /\ fine (g_log x) s1 /\ minv (g_log x) (g_log x) (x_disk x) (x_mem x)) as X.
  { intros. exists s0, q, rest. auto. }
  destruct s as [cs|t n e|t e|t|t].
  - apply (X _ [] []); [reflexivity|constructor|reflexivity|exact F].
  - apply (X _ (map (MFile t) (seq 0 n)) []); [reflexivity|constructor| |exact F]. exists 0. split; [lia|]. rewrite Nat.sub_0_r. split; [reflexivity|]. intros; lia.
  - apply (X _ [] []); [reflexivity|constructor|reflexivity|exact F].
  - eapply (X _ []); [reflexivity| |reflexivity|exact F]. apply Forall_forall. intros o Ho. apply in_map_iff in Ho as (p & <- & _). reflexivity.
  - destruct F.
Qed.

Lemma step_inv x x' : inv x -> step x Step = Some x' -> inv x'.
Proof.
  intros (D & Hl & G & Ph) H. unfold step in H. destruct (x_todo x) as [|o todo] eqn:Etd; [discriminate|].
  pose proof (proj1 D) as W.
  destruct Ph as [[E _]|[(s & q & rest & E & Fr & Fd & F & M)|(L0 & s & rest & EL & E & Fr & Fd & M)]]; [congruence| |].
  - (* before the log *)
    rewrite Etd in E. destruct q as [|o' q]; cbn in E; injection E as -> ->.
    + cbn in H. injection H as <-.
      assert (files_done s (x_disk x)) as Fd'.
      { destruct s; try exact I. destruct Fd as (i & Hi & E & Hf). cbn. intros p Hp. apply Hf.
        destruct (n - i) eqn:En; [lia|discriminate]. }
      split; [cbn; rewrite Hl; now apply dinv_log|]. split; [cbn; rewrite app_length, Hl; cbn; lia|].
      split; [now apply ginv_log|]. right; right. exists (g_log x), s, rest. cbn [g_log x_disk x_mem x_todo].
      split; [reflexivity|]. split; [reflexivity|]. split; [exact Fr|]. split; [destruct s; exact Fd'|]. rewrite Hl at 1. now apply minv_log.
    + destruct s; try discriminate Fd. cbn in Fd. destruct Fd as (i & Hi & E & Hf).
      destruct (n - i) as [|k] eqn:En; [discriminate|]. cbn in E. injection E as -> ->. cbn in H. injection H as <-.
      assert (find_table (K (g_log x) (length (g_log x))) t = None) as Out by (apply unused_out; [exact W|apply F]).
      split; [now apply (dinv_out _ t i (Some (0, [])) Out (or_intror eq_refl))|]. split; [exact Hl|].
      split; [now apply (ginv_out _ t i _ Out)|]. right; left. exists (Create t n d), (map (MFile t) (seq (S i) k)), rest. cbn [g_log x_disk x_mem x_todo].
      split; [reflexivity|]. split; [exact Fr|]. split.
      * cbn. exists (S i). split; [lia|]. split; [f_equal; f_equal; lia|]. intros p Hp. unfold upd2. rewrite Nat.eqb_refl. cbn.
        destruct (p =? i) eqn:Ep; [reflexivity|]. apply Nat.eqb_neq in Ep. apply Hf. lia.
      * split; [exact F|]. now apply (minv_out _ t i _ Out).
  - (* after the log *)
    rewrite EL in *. destruct (proj1 (wf_app _ _) W) as [W0 F]. rewrite Etd in E. destruct rest as [|o' rest]; cbn in E; injection E as -> ->.
    + cbn in H. destruct (commit_ok L0 s (x_disk x) (x_mem x) W0 F Fd D Hl M) as (m' & Em & M' & Hl'). rewrite Em in H. injection H as <-.
      unfold inv, phase; cbn [g_log x_disk x_mem x_todo x_gc]; rewrite EL. split; [exact D|]. split; [exact Hl'|]. split; [exact G|]. left. split; [reflexivity|exact M'].
    + inversion Fr as [|? ? R Fr']; subst. destruct s; cbn in R; try easy. destruct o'; try easy. subst. cbn in H. injection H as <-.
      assert (find_table (K (L0 ++ [Drop t]) (length (L0 ++ [Drop t]))) t = None) as Out by (rewrite K_new; cbn; rewrite find_remove, Nat.eqb_refl; reflexivity).
      unfold inv, phase; cbn [g_log x_disk x_mem x_todo x_gc]; rewrite EL. split; [now apply (dinv_out _ t p None Out (or_introl eq_refl))|]. split; [exact Hl|].
      split; [now apply (ginv_out _ t p _ Out)|]. right; right. exists L0, (Drop t), rest. cbn [g_log x_disk x_mem x_todo].
      split; [reflexivity|]. split; [reflexivity|]. split; [exact Fr'|]. split; [exact I|]. now apply (minv_out _ t p _ Out).
Qed.

Lemma idle_minv x : phase x -> x_todo x = [] -> minv (g_log x) (g_log x) (x_disk x) (x_mem x).
Proof.
  intros [[_ M]|[(s & q & rest & E & _)|(L0 & s & rest & _ & E & _)]] H; [exact M|rewrite H in E; destruct q; discriminate|rewrite H in E; destruct rest; discriminate].
Qed.
Lemma refresh_inv x t p x' : inv x -> step x (Refresh t p) = Some x' -> inv x'.
Proof.
  intros (D & Hl & G & Ph) H. unfold step in H. destruct (x_todo x) eqn:Etd; [|discriminate].
  pose proof (idle_minv _ Ph Etd) as M. clear Ph. pose proof M as (M1 & M2 & M3 & M4 & M5).
  destruct (find_table (m_cat (x_mem x)) t) as [[n e]|] eqn:Et; [|discriminate]. rewrite M1 in Et.
  destruct (m_part (x_mem x) t p) as [y|] eqn:Ey; [|discriminate]. destruct (p <? n) eqn:Ep; [|discriminate]. apply Nat.ltb_lt in Ep. injection H as <-.
  destruct (M2 _ _ _ _ Et Ep) as (y0 & Ey0 & P1 & P2 & P3 & P4 & P5 & P6). rewrite Ey in Ey0. injection Ey0 as <-.
  pose proof (proj1 D) as W. set (L := g_log x) in *.
  assert (C L (trk y) t p = live y) as EC.
  { rewrite P1. symmetry. apply C_same; [exact W|lia|lia|]. intros m s Hm E T. pose proof (P5 _ _ E T). lia. }
  assert (leak y ++ live y = C L (trk y) t p) as Erows by (rewrite P2, EC; reflexivity).
  set (d' := mkdisk _ _ _ _).
  assert (forall low, retain L (x_disk x) low -> retain L d' low) as RT.
  { intros low [R1 R2]. split; [|exact R2]. intros t' n' e' p' h r i s Ht Hp Hf Hi T Hh. cbn in Hf. unfold upd2 in Hf.
    destruct ((t' =? t) && (p' =? p)) eqn:E; [|eapply R1; eauto].
    apply andb_prop in E as [E1 E2]. apply Nat.eqb_eq in E1, E2. subst t' p'. injection Hf as <- <-. pose proof (P5 _ _ Hi T). lia. }
  split; [|split; [exact Hl|split]].
  - destruct D as (_ & (low & Hlow & Hw & R) & Hc & Hk & F & X). split; [exact W|]. split; [exists low; split; [exact Hlow|split; [exact Hw|now apply RT]]|].
    split; [exact Hc|]. split; [exact Hk|]. split.
    + intros t' p' h r Hf. cbn in Hf. unfold upd2 in Hf. destruct ((t' =? t) && (p' =? p)) eqn:E; [|now apply F].
      apply andb_prop in E as [E1 E2]. apply Nat.eqb_eq in E1, E2. subst t' p'. injection Hf as <- <-. split; [exact P4|exact Erows].
    + intros t' n' e' p' Ht Hp. cbn. unfold upd2. destruct ((t' =? t) && (p' =? p)); [discriminate|eapply X; eauto].
  - intros min l E. destruct (G _ _ E) as [Hll Hlow]. split; [exact Hll|]. intros low A B. apply RT. now apply Hlow.
  - left. split; [reflexivity|]. cbn [g_log x_disk x_mem]. split; [exact M1|]. split; [|split; [exact M3|split; [exact M4|exact M5]]].
    intros t' n' e' p' Ht Hp. cbn [m_part]. unfold upd2. destruct ((t' =? t) && (p' =? p)) eqn:E.
    + apply andb_prop in E as [E1 E2]. apply Nat.eqb_eq in E1, E2. subst t' p'. eexists. split; [reflexivity|].
      split; [exact P1|]. split; [exact P2|]. cbn [hdr trk]. split; [lia|]. split; [exact P4|]. split; [exact P5|].
      intros _. unfold d'. cbn [d_file]. rewrite upd2_same. f_equal. f_equal. exact Erows.
    + destruct (M2 _ _ _ _ Ht Hp) as (z & Ez & Q1 & Q2 & Q3 & Q4 & Q5 & Q6). exists z. split; [exact Ez|]. do 5 (split; [assumption|]).
      intro N. unfold d'. cbn [d_file]. unfold upd2. rewrite E. now apply Q6.
Qed.
Lemma catalog_inv x x' : inv x -> step x Catalog = Some x' -> inv x'.
Proof.
  intros (D & Hl & G & Ph) H. unfold step in H. destruct (x_todo x) eqn:Etd; [|discriminate]. injection H as <-.
  pose proof (idle_minv _ Ph Etd) as M. clear Ph. pose proof M as (M1 & M2 & M3 & M4 & M5).
  assert (forall low, retain (g_log x) (x_disk x) low -> retain (g_log x) (mkdisk (m_pend (x_mem x)) (m_cat (x_mem x)) (d_file (x_disk x)) (d_wal (x_disk x))) low) as RT.
  { intros low [R1 R2]. split; [exact R1|]. intros i s Hi Hd Hc. cbn in Hc. pose proof (M5 _ _ Hi Hd). lia. }
  split; [|split; [exact Hl|split]].
  - destruct D as (W & (low & Hlow & Hw & R) & Hc & Hk & F & X). split; [exact W|]. split; [exists low; split; [exact Hlow|split; [exact Hw|now apply RT]]|].
    split; [exact M4|]. split; [|split; [exact F|exact X]]. cbn. rewrite M1. apply K_same; [exact M4|lia|].
    intros m s Hm Hi. destruct (is_ddl s) eqn:E; [|reflexivity]. pose proof (M5 _ _ Hi E). lia.
  - intros min l E. destruct (G _ _ E) as [Hll Hlow]. split; [exact Hll|]. intros low A B. apply RT. now apply Hlow.
  - left. split; [reflexivity|]. cbn [g_log x_disk x_mem]. split; [exact M1|]. split; [exact M2|]. split; [cbn; lia|]. split; [exact M4|exact M5].
Qed.
Lemma gcstart_inv x x' : inv x -> step x GcStart = Some x' -> inv x'.
Proof.
  intros (D & Hl & G & Ph) H. unfold step in H. destruct (x_todo x) eqn:Etd; [|discriminate]. injection H as <-.
  pose proof (idle_minv _ Ph Etd) as M. split; [exact D|]. split; [exact Hl|]. split; [|left; split; [reflexivity|exact M]].
  cbn. intros min l E. injection E as <- <-. split; [lia|]. intros low A _. now apply gc_retain.
Qed.
Lemma gcend_inv x low x' : inv x -> gc_fresh x (GcEnd low) -> step x (GcEnd low) = Some x' -> inv x'.
Proof.
  intros (D & Hl & G & Ph) Fr H. unfold step in H. unfold gc_fresh in Fr. destruct (x_gc x) as [[min l]|] eqn:Eg; [|discriminate].
  destruct (below low min && (low <=? S (m_lsn (x_mem x)))) eqn:E; [|discriminate]. injection H as <-. apply andb_prop in E as [E1 E2]. apply Nat.leb_le in E2.
  destruct (G _ _ eq_refl) as [Hll Hlow].
  split; [|split; [exact Hl|split]].
  - destruct D as (W & (low0 & Hlow0 & Hw & R) & Hc & Hk & F & X). split; [exact W|]. split.
    + exists (Nat.max low0 low). cbn [d_wal g_log x_disk]. split; [lia|]. split.
      * rewrite Hw, filter_filter. apply filter_ext_. intro a.
        destruct (low0 <=? fst a) eqn:A1, (low <=? fst a) eqn:A2; cbn; symmetry; try apply Nat.leb_le in A1; try apply Nat.leb_le in A2; try apply Nat.leb_gt in A1; try apply Nat.leb_gt in A2; try (apply Nat.leb_le; lia); apply Nat.leb_gt; lia.
      * specialize (Hlow _ E1 Fr). destruct R as [R1 R2], Hlow as [Q1 Q2]. split.
        -- intros t n e p h r i s Ht Hp Hf Hi T Hh. pose proof (R1 _ _ _ _ _ _ _ _ Ht Hp Hf Hi T Hh). pose proof (Q1 _ _ _ _ _ _ _ _ Ht Hp Hf Hi T Hh). lia.
        -- intros i s Hi Hd Hcl. pose proof (R2 _ _ Hi Hd Hcl). pose proof (Q2 _ _ Hi Hd Hcl). lia.
    + split; [exact Hc|]. split; [exact Hk|]. split; [exact F|exact X].
  - intros min' l' E'. discriminate E'.
  - destruct Ph as [[E M]|[(s & q & rest & E & Fr' & Fd & F & M)|(L0 & s & rest & EL & E & Fr' & Fd & M)]].
    + left. split; [exact E|exact M].
    + right; left. exists s, q, rest. auto.
    + right; right. exists L0, s, rest. auto 6.
Qed.
