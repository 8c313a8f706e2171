(** C71: the invariant of the running server. *)
From Verif Require Import Base DurModel DurSpec DurProofs.
Local Open Scope nat_scope.

Definition recs (L : list stmt) : list (nat * stmt) := combine (seq 1 (length L)) L.
Definition retain (L : list stmt) (d : disk) (low : nat) : Prop :=
  (forall t n e p h r i s, find_table (K L (length L)) t = Some (n, e) -> p < n -> d_file d t p = Some (h, r) -> nth_error L i = Some s -> touches s t p -> h <= i -> low <= S i) /\
  (forall i s, nth_error L i = Some s -> is_ddl s = true -> d_clsn d <= i -> low <= S i).
Definition file_good (L : list stmt) (d : disk) : Prop := forall t p h r, d_file d t p = Some (h, r) -> h <= length L /\ r = C L h t p.
Definition dinv (L : list stmt) (d : disk) : Prop :=
  wf L /\ (exists low, low <= S (length L) /\ d_wal d = filter (fun r => low <=? fst r) (recs L) /\ retain L d low) /\
  d_clsn d <= length L /\ d_cat d = K L (d_clsn d) /\ file_good L d /\
  (forall t n e p, find_table (K L (length L)) t = Some (n, e) -> p < n -> d_file d t p <> None).
(** the memory shows the first [length L0] statements; the files are there for the tables of [L] *)
Definition part_inv (L0 L : list stmt) (d : disk) (t p : nat) (y : part) (now : bool) : Prop :=
  live y = C L0 (length L0) t p /\ leak y = [] /\ hdr y <= trk y /\ trk y <= length L0 /\
  (forall i s, nth_error L0 i = Some s -> touches s t p -> i < trk y) /\
  (now = true -> d_file d t p = Some (hdr y, C L (hdr y) t p)).
Definition is_some {A} (o : option A) : bool := match o with Some _ => true | None => false end.
Definition minv (L0 L : list stmt) (d : disk) (m : mem) : Prop :=
  m_cat m = K L0 (length L0) /\
  (forall t n e p, find_table (K L0 (length L0)) t = Some (n, e) -> p < n ->
     exists y, m_part m t p = Some y /\ part_inv L0 L d t p y (is_some (find_table (K L (length L)) t))) /\
  d_clsn d <= m_pend m /\ m_pend m <= length L0 /\ (forall i s, nth_error L0 i = Some s -> is_ddl s = true -> i < m_pend m).
Definition ginv (L : list stmt) (d : disk) (g : option (option nat * nat)) : Prop :=
  forall min l, g = Some (min, l) -> l <= length L /\ forall low, below low min = true -> low <= S l -> retain L d low.

Definition removes (s : stmt) (o : micro) : Prop := match s, o with Drop t, MRemove t' _ => t' = t | _, _ => False end.
Definition files_to_do (s : stmt) (d : disk) (q : list micro) : Prop :=
  match s with
  | Create t n _ => exists i, i <= n /\ q = map (MFile t) (seq i (n - i)) /\ forall p, p < i -> d_file d t p = Some (0, [])
  | _ => q = []
  end.
Definition files_done (s : stmt) (d : disk) : Prop := match s with Create t n _ => forall p, p < n -> d_file d t p = Some (0, []) | _ => True end.
Definition phase (x : server) : Prop :=
  let L := g_log x in let d := x_disk x in let m := x_mem x in
  (x_todo x = [] /\ minv L L d m) \/
  (exists s q rest, x_todo x = q ++ MLog s :: rest ++ [MCommit s] /\ Forall (removes s) rest /\ files_to_do s d q /\ fine L s /\ minv L L d m) \/
  (exists L0 s rest, L = L0 ++ [s] /\ x_todo x = rest ++ [MCommit s] /\ Forall (removes s) rest /\ files_done s d /\ minv L0 L d m).
Definition inv (x : server) : Prop :=
  dinv (g_log x) (x_disk x) /\ m_lsn (x_mem x) = length (g_log x) /\ ginv (g_log x) (x_disk x) (x_gc x) /\ phase x.

(** ** Log *)
Lemma combine_app_ {A B} (a a' : list A) (b b' : list B) : length a = length b -> combine (a ++ a') (b ++ b') = combine a b ++ combine a' b'.
Proof. revert b; induction a as [|x a IH]; intros [|y b] H; cbn in *; try discriminate; [reflexivity|]. f_equal. apply IH. lia. Qed.
Lemma recs_app L s : recs (L ++ [s]) = recs L ++ [(S (length L), s)].
Proof. unfold recs. rewrite app_length. cbn. rewrite seq_app. rewrite combine_app_ by apply seq_length. reflexivity. Qed.
Lemma filter_filter {A} (f g : A -> bool) l : filter f (filter g l) = filter (fun a => g a && f a) l.
Proof. induction l as [|a l IH]; cbn; [reflexivity|]. destruct (g a); cbn; [destruct (f a); now rewrite IH|exact IH]. Qed.
Lemma filter_ext_ {A} (f g : A -> bool) l : (forall a, f a = g a) -> filter f l = filter g l.
Proof. intro H. induction l as [|a l IH]; cbn; [reflexivity|]. now rewrite H, IH. Qed.

Lemma K_len L s : K (L ++ [s]) (length L) = K L (length L).
Proof. now apply K_app. Qed.
Lemma K_new L s : K (L ++ [s]) (length (L ++ [s])) = fst (spec1 (K L (length L), C L (length L)) s).
Proof.
  rewrite app_length, Nat.add_1_r. rewrite (K_step _ _ s).
  - now rewrite K_app, C_app by lia.
  - rewrite nth_error_app2, Nat.sub_diag by lia. reflexivity.
Qed.
Lemma C_new L s : C (L ++ [s]) (length (L ++ [s])) = snd (spec1 (K L (length L), C L (length L)) s).
Proof.
  rewrite app_length, Nat.add_1_r.
  pose proof (KC_S (L ++ [s]) (length L) s) as G. rewrite nth_error_app2 in G by lia. rewrite Nat.sub_diag in G. specialize (G eq_refl).
  rewrite (K_app L [s] (length L)), (C_app L [s] (length L)) in G by lia. now rewrite <- G.
Qed.
Lemma nth_app_cases (L : list stmt) s i q : nth_error (L ++ [s]) i = Some q -> (i < length L /\ nth_error L i = Some q) \/ (i = length L /\ q = s).
Proof.
  intro H. destruct (Nat.lt_ge_cases i (length L)) as [G|G].
  - rewrite nth_error_app1 in H by assumption. now left.
  - rewrite nth_error_app2 in H by assumption. destruct (i - length L) as [|k] eqn:E; cbn in H; [|destruct k; discriminate]. injection H as ->. right. split; [lia|reflexivity].
Qed.
Lemma K_full L : K L (length L) = fst (spec L).
Proof. unfold K. now rewrite firstn_all. Qed.
Lemma C_full L : C L (length L) = snd (spec L).
Proof. unfold C. now rewrite firstn_all. Qed.

(** a table of the catalog after a statement is new or was there *)
Lemma K_before L s t n e : wf L -> fine L s -> find_table (K (L ++ [s]) (length (L ++ [s]))) t = Some (n, e) ->
  (exists d, s = Create t n d) \/ (exists e', find_table (K L (length L)) t = Some (n, e')).
Proof.
  intros W F. rewrite K_new. destruct s; cbn [spec1 fst].
  - eauto.
  - rewrite find_app. destruct (find_table (K L (length L)) t) eqn:E; [injection 1 as ->; eauto|]. cbn.
    destruct (t =? t0) eqn:Et; [|discriminate]. apply Nat.eqb_eq in Et as ->. injection 1 as <- <-. eauto.
  - rewrite find_alter. destruct (find_table (K L (length L)) t) as [[a b]|] eqn:E; [|discriminate]. cbn. destruct (t =? t0); injection 1 as <- <-; eauto.
  - rewrite find_remove. destruct (t =? t0); [discriminate|eauto].
  - destruct F.
Qed.

(** logging a statement keeps what is retained *)
Lemma retain_log L d w s low : wf L -> fine L s -> low <= S (length L) -> retain L d low -> retain (L ++ [s]) (mkdisk (d_clsn d) (d_cat d) (d_file d) w) low.
Proof.
  intros W F Hl [R1 R2]. split.
  - intros t n e p h r i q Ht Hp Hf Hi T Hh. cbn in Hf. destruct (nth_app_cases _ _ _ _ Hi) as [[Hi' E]|[-> _]]; [|lia].
    destruct (K_before _ _ _ _ _ W F Ht) as [[d' ->]|[e' Ht']].
    + destruct (touch_there _ _ _ _ _ W E T) as (n0 & d0 & G & _).
      apply (cat_used _ _ _ (wf_firstn _ i W)) in G. apply (used_firstn_le L i (length L)) in G; [|lia]. rewrite firstn_all in G. destruct F. congruence.
    + eapply R1; eauto.
  - intros i q Hi D Hc. cbn in Hc. destruct (nth_app_cases _ _ _ _ Hi) as [[Hi' E]|[-> _]]; [|lia]. eapply R2; eauto.
Qed.
Lemma file_good_log L d w s : file_good L d -> file_good (L ++ [s]) (mkdisk (d_clsn d) (d_cat d) (d_file d) w).
Proof. intros F t p h r H. destruct (F _ _ _ _ H) as [Hh ->]. rewrite app_length. cbn. split; [lia|]. now rewrite C_app. Qed.

(** ** Commands *)
Lemma dml_ok_fine L m cs : forall lsn m', wf L -> m_cat m = K L (length L) ->
  forall c, (forall t n e p, find_table (K L (length L)) t = Some (n, e) -> p < n -> exists y, m_part m t p = Some y /\ live y = c t p) ->
  dml_ok m cs lsn = Some m' -> dml_fine (K L (length L)) cs c.
Proof.
  revert m. induction cs as [|[[t p] os] cs IH]; intros m lsn m' W Hc c HM H; cbn [dml_ok dml_fine] in *; [exact I|].
  rewrite Hc in H. destruct (find_table (K L (length L)) t) as [[n e]|] eqn:Et; [|discriminate].
  destruct (m_part m t p) as [x|] eqn:Ex; [|discriminate]. destruct (p <? n) eqn:Ep; [|discriminate]. apply Nat.ltb_lt in Ep.
  destruct (rops_do os (live x)) as [l|] eqn:Eo; [|discriminate].
  destruct (HM _ _ _ _ Et Ep) as (y & Ey & El). rewrite Ey in Ex. injection Ex as ->.
  split; [eauto|]. exists l. split; [now rewrite <- El|]. eapply IH; try exact H; [exact W|reflexivity|].
  intros t' n' e' p' Ht' Hp'. cbn. unfold upd2, add_rows. destruct ((t' =? t) && (p' =? p)); [eauto|eauto].
Qed.
Lemma dml_fine_ok L cs : forall m lsn c, m_cat m = K L (length L) ->
  (forall t n e p, find_table (K L (length L)) t = Some (n, e) -> p < n -> exists y, m_part m t p = Some y /\ live y = c t p) ->
  dml_fine (K L (length L)) cs c ->
  exists m', dml_ok m cs lsn = Some m' /\ m_cat m' = m_cat m /\ m_pend m' = m_pend m /\ m_lsn m' = m_lsn m /\
    forall t n e p, find_table (K L (length L)) t = Some (n, e) -> p < n ->
      exists y y', m_part m t p = Some y /\ m_part m' t p = Some y' /\ live y' = dml_spec cs c t p /\ hdr y' = hdr y /\ leak y' = leak y /\
        (((exists os, In (t, p, os) cs) /\ trk y' = lsn) \/ (~ (exists os, In (t, p, os) cs) /\ trk y' = trk y)).
Proof.
  induction cs as [|[[t p] os] cs IH]; intros m lsn c Hc HM F; cbn [dml_ok dml_fine dml_spec] in *.
  - exists m. repeat (split; [reflexivity|]). intros t n e p Ht Hp. destruct (HM _ _ _ _ Ht Hp) as (y & Ey & El).
    exists y, y. repeat (split; [assumption || reflexivity|]). right. split; [intros [os []]|reflexivity].
  - destruct F as ((n & e & Et & Ep) & l & El & F). destruct (HM _ _ _ _ Et Ep) as (y & Ey & Hy).
    rewrite Hc, Et, Ey. rewrite (proj2 (Nat.ltb_lt _ _) Ep), Hy, El.
    edestruct (IH (mkmem (m_lsn m) (m_pend m) (K L (length L)) (upd2 (m_part m) t p (Some (mkpart (hdr y) lsn l (leak y))))) lsn (add_rows c t p l)) as (m' & H & H1 & H2 & H3 & H4).
    + reflexivity.
    + intros t' n' e' p' Ht' Hp'. cbn. unfold upd2, add_rows. destruct ((t' =? t) && (p' =? p)); eauto.
    + exact F.
    + exists m'. rewrite H. cbn in H1, H2, H3. repeat (split; [congruence|]).
      intros t' n' e' p' Ht' Hp'. destruct (H4 _ _ _ _ Ht' Hp') as (z & z' & G1 & G2 & G3 & G4 & G5 & G6). cbn in G1.
      unfold upd2 in G1. destruct ((t' =? t) && (p' =? p)) eqn:E.
      * apply andb_prop in E as [E1 E2]. apply Nat.eqb_eq in E1, E2. subst t' p'. injection G1 as <-. cbn in *.
        exists y, z'. repeat (split; [assumption|]). left. split; [exists os; now left|]. destruct G6 as [[_ G]|[_ G]]; exact G.
      * exists z, z'. repeat (split; [assumption|]). destruct G6 as [[[o Ho] G]|[N G]]; [left; split; [exists o; now right|exact G]|].
        right. split; [|exact G]. intros [o [Ho|Ho]]; [|apply N; eauto]. injection Ho as <- <- _. rewrite !Nat.eqb_refl in E. discriminate.
Qed.

(** ** The lsn that is computed for the removal *)
Lemma below_min low r h : below low (min_opt r h) = true -> below low r = true /\ low <= h.
Proof. destruct r; cbn; intro H; apply Nat.leb_le in H; [split; [apply Nat.leb_le|]; lia|auto]. Qed.
Lemma gc_parts m t l : forall r low, below low (fold_left (fun r p => match m_part m t p with Some x => if hdr x <? trk x then min_opt r (hdr x) else r | None => r end) l r) = true ->
  below low r = true /\ forall p x, In p l -> m_part m t p = Some x -> hdr x < trk x -> low <= hdr x.
Proof.
  induction l as [|a l IH]; intros r low H; cbn [fold_left] in H; [split; [exact H|easy]|]. apply IH in H as [H G].
  assert (below low r = true /\ forall x, m_part m t a = Some x -> hdr x < trk x -> low <= hdr x) as [H1 H2].
  { destruct (m_part m t a) as [x|]; [|split; [exact H|discriminate]]. destruct (hdr x <? trk x) eqn:E.
    - apply below_min in H as [H H']. split; [exact H|]. intros y [= <-] _. exact H'.
    - apply Nat.ltb_ge in E. split; [exact H|]. intros y [= <-] ?. lia. }
  split; [exact H1|]. intros p x [<-|Hp]; eauto.
Qed.
Lemma gc_tables m l : forall r low, below low (fold_left (gc_table m) l r) = true ->
  below low r = true /\ forall t n d p x, In (t, (n, d)) l -> p < n -> m_part m t p = Some x -> hdr x < trk x -> low <= hdr x.
Proof.
  induction l as [|[t [n d]] l IH]; intros r low H; cbn [fold_left] in H; [split; [exact H|easy]|]. apply IH in H as [H G].
  unfold gc_table in H. cbn [fst snd] in H. apply gc_parts in H as [H1 H2]. split; [exact H1|].
  intros t' n' d' p x [E|Hi] Hp; [|eauto]. injection E as <- <- <-. apply H2. apply in_seq. lia.
Qed.
Lemma gc_min_low x low : below low (gc_min x) = true ->
  (d_clsn (x_disk x) < m_pend (x_mem x) -> low <= d_clsn (x_disk x)) /\
  forall t n d p y, In (t, (n, d)) (m_cat (x_mem x)) -> p < n -> m_part (x_mem x) t p = Some y -> hdr y < trk y -> low <= hdr y.
Proof.
  unfold gc_min. intro H. apply gc_tables in H as [H G]. split; [|exact G].
  destruct (_ <? _) eqn:E; [|apply Nat.ltb_ge in E; lia]. cbn in H. apply Nat.leb_le in H. auto.
Qed.
Lemma gc_retain x low : dinv (g_log x) (x_disk x) -> minv (g_log x) (g_log x) (x_disk x) (x_mem x) -> below low (gc_min x) = true -> retain (g_log x) (x_disk x) low.
Proof.
  intros D M H. apply gc_min_low in H as [H1 H2]. destruct M as (Mc & Mp & Ma & Mb & Md). split.
  - intros t n e p h r i s Ht Hp Hf Hi T Hh. destruct (Mp _ _ _ _ Ht Hp) as (y & Ey & _ & _ & Hle & _ & Hn & Hfile).
    rewrite Ht in Hfile. specialize (Hfile eq_refl). rewrite Hf in Hfile. injection Hfile as -> ->.
    pose proof (Hn _ _ Hi T). rewrite Mc in H2. pose proof (find_in _ _ _ Ht) as Hin.
    pose proof (H2 _ _ _ _ _ Hin Hp Ey ltac:(lia)). lia.
  - intros i s Hi Hd Hc. pose proof (Md _ _ Hi Hd). lia.
Qed.
