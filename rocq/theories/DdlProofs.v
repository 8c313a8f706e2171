(** Proofs for C49: lists of objects, the invariant of the catalog, undoing one entry. *)
From Verif Require Import Base CodecModel CodecSpec CodecProps DdlModel DdlSpec.
From Coq Require Import Permutation.
Local Open Scope Z_scope.

(** ** strings *)
Lemma compare_case_spec a b : str_compare_case a b = true <-> same_name a b.
Proof.
  unfold same_name. revert b; induction a as [|x a IH]; intros [|y b]; cbn; try (split; intros H; [discriminate H|discriminate H]); [tauto|].
  rewrite andb_true_iff, Z.eqb_eq, IH. split.
  - intros [-> ->]. reflexivity.
  - intros H. inversion H. auto.
Qed.
Lemma str_is_eq a b : str_is a b = true <-> a = b.
Proof.
  revert b; induction a as [|x a IH]; intros [|y b]; cbn; try (split; intros H; [discriminate H|discriminate H]); [tauto|].
  rewrite andb_true_iff, Z.eqb_eq, IH. split; [intros [-> ->]; reflexivity|intros H; inversion H; auto].
Qed.

(** ** lists of objects *)
Section Objs.
Context {A : Type}.
Implicit Types l : objs A.
Definition ids l := map fst l.
Lemma ids_upd o f l : ids (upd o f l) = ids l.
Proof. unfold ids, upd. rewrite map_map. apply map_ext. intros [i x]. cbn. destruct (i =? o); reflexivity. Qed.
Lemma upd_absent o f l : ~ In o (ids l) -> upd o f l = l.
Proof.
  intros H. unfold upd. rewrite <- (map_id l) at 2. apply map_ext_in. intros [i x] Hp. cbn.
  destruct (i =? o) eqn:E; [|reflexivity]. apply Z.eqb_eq in E. subst i. exfalso. apply H, (in_map fst _ _ Hp).
Qed.
Lemma upd_undo o x f g l : NoDup (ids l) -> In (o, x) l -> g (f x) = x -> upd o g (upd o f l) = l.
Proof.
  intros Hn Hi Hg. unfold upd. rewrite map_map. rewrite <- (map_id l) at 2. apply map_ext_in. intros [i y] Hp. cbn [fst snd].
  destruct (i =? o) eqn:E; cbn [fst snd]; rewrite E; [|reflexivity].
  apply Z.eqb_eq in E. subst i. f_equal.
  assert (y = x) as ->; [|exact Hg].
  clear - Hn Hi Hp. unfold ids in *. induction l as [|[i z] l IH]; [destruct Hi|].
  cbn [map fst] in Hn. inversion Hn as [|? ? H1 H2]; subst.
  destruct Hi as [Hi|Hi], Hp as [Hp|Hp].
  - congruence.
  - inversion Hi; subst. exfalso. apply H1. apply (in_map fst _ _ Hp).
  - inversion Hp; subst. exfalso. apply H1. apply (in_map fst _ _ Hi).
  - auto.
Qed.
Lemma del_absent o l : ~ In o (ids l) -> del o l = l.
Proof.
  intros H. unfold del. induction l as [|[i x] l IH]; [reflexivity|]. cbn [filter fst].
  destruct (i =? o) eqn:E; cbn [negb].
  - apply Z.eqb_eq in E. subst. exfalso. apply H. left. reflexivity.
  - f_equal. apply IH. intros Hi. apply H. right. exact Hi.
Qed.
Lemma del_new o x l : ~ In o (ids l) -> del o (l ++ [(o, x)]) = l.
Proof.
  intros H. unfold del. rewrite filter_app. cbn [filter fst]. rewrite Z.eqb_refl. cbn [negb]. rewrite app_nil_r. apply del_absent, H.
Qed.
Lemma del_drop o x l : NoDup (ids l) -> In (o, x) l -> Permutation (del o l ++ [(o, x)]) l.
Proof.
  intros Hn Hi. induction l as [|[i z] l IH]; [destruct Hi|].
  unfold ids in Hn. cbn [map fst] in Hn. inversion Hn as [|? ? H1 H2]; subst.
  unfold del. cbn [filter fst]. destruct Hi as [Hi|Hi].
  - inversion Hi; subst. rewrite Z.eqb_refl. cbn [negb]. fold (del o l). rewrite del_absent by exact H1.
    apply Permutation_sym, Permutation_cons_append.
  - destruct (i =? o) eqn:E; cbn [negb].
    + apply Z.eqb_eq in E. subst. exfalso. apply H1. apply (in_map fst _ _ Hi).
    + cbn [app]. apply perm_skip. apply IH; assumption.
Qed.
Lemma ids_del_in o i l : In i (ids (del o l)) -> In i (ids l).
Proof.
  unfold ids, del. rewrite !in_map_iff. intros (p & E & Hp). apply filter_In in Hp. exists p. tauto.
Qed.
Lemma ids_del_nodup o l : NoDup (ids l) -> NoDup (ids (del o l)).
Proof.
  unfold ids, del. induction l as [|[i z] l IH]; intros H; [constructor|]. cbn [map fst] in H. inversion H as [|? ? H1 H2]; subst.
  cbn [filter fst]. destruct (i =? o); cbn [negb]; [auto|]. cbn [map fst]. constructor; [|auto].
  intros Hi. apply H1. apply ids_del_in in Hi. exact Hi.
Qed.
Lemma ids_new_nodup o x l : NoDup (ids l) -> ~ In o (ids l) -> NoDup (ids (l ++ [(o, x)])).
Proof.
  intros H Hn. unfold ids. rewrite map_app. cbn [map fst].
  apply (Permutation_NoDup (Permutation_cons_append (map fst l) o)). constructor; assumption.
Qed.
Lemma in_upd p o f l : In p (upd o f l) -> In p l \/ exists x, In (o, x) l /\ p = (o, f x).
Proof.
  unfold upd. rewrite in_map_iff. intros ([i x] & E & Hi). cbn in E. destruct (i =? o) eqn:Eo; [|subst; auto].
  apply Z.eqb_eq in Eo. subst. right. exists x. auto.
Qed.
Lemma in_del p o l : In p (del o l) <-> In p l /\ fst p <> o.
Proof. unfold del. rewrite filter_In, negb_true_iff, Z.eqb_neq. tauto. Qed.
Lemma upd_perm o f l l' : Permutation l l' -> Permutation (upd o f l) (upd o f l').
Proof. apply Permutation_map. Qed.
Lemma filter_perm {B} (f : B -> bool) (l l' : list B) : Permutation l l' -> Permutation (filter f l) (filter f l').
Proof.
  induction 1 as [|x l l' H IH|x y l|l l' l'' H1 IH1 H2 IH2]; cbn.
  - constructor.
  - destruct (f x); [constructor|]; assumption.
  - destruct (f x), (f y); try constructor; apply Permutation_refl.
  - eapply Permutation_trans; eassumption.
Qed.
Lemma del_perm o l l' : Permutation l l' -> Permutation (del o l) (del o l').
Proof. apply filter_perm. Qed.
Lemma find_obj_in P o x l : find_obj P l = Some (o, x) -> In (o, x) l /\ P x = true.
Proof. intros H. apply find_some in H. exact H. Qed.
Lemma find_obj_none P l : find_obj P l = None -> forall p, In p l -> P (snd p) = false.
Proof. intros H p Hp. exact (find_none _ _ H p Hp). Qed.
Lemma number_ids n (l : list A) : forall i, In i (ids (number n l)) -> n <= i < n + Z.of_nat (length l).
Proof.
  revert n; induction l as [|x l IH]; intros n i H; [destruct H|]. cbn [number ids map fst length] in *.
  destruct H as [<-|H]; [lia|]. apply IH in H. lia.
Qed.
Lemma number_nodup n (l : list A) : NoDup (ids (number n l)).
Proof.
  revert n; induction l as [|x l IH]; intros n; [constructor|]. cbn [number ids map fst]. constructor; [|apply IH].
  intros H. apply number_ids in H. lia.
Qed.
Lemma in_number n (l : list A) p : In p (number n l) -> In (snd p) l.
Proof. revert n; induction l as [|x l IH]; intros n H; [destruct H|]. cbn in H. destruct H as [<-|H]; [left; reflexivity|right; eauto]. Qed.
End Objs.

(** ** the invariant *)
Definition ids_ok {A} (n : Z) (l : objs A) : Prop := NoDup (ids l) /\ forall i, In i (ids l) -> i < n.
Definition tier_ok (t : tier) : Prop := to_i32 (ti_region t) = ti_region t /\ to_i32 (ti_object t) = ti_object t.
Definition table_ok (n : Z) (t : table) : Prop :=
  ids_ok n (tb_columns t) /\ ids_ok n (tb_indexes t) /\ ids_ok n (tb_tiers t) /\
  (forall p, In p (tb_columns t) -> column_bytes (snd p)) /\ (forall p, In p (tb_tiers t) -> tier_ok (snd p)).
Definition inv (c : catalog) : Prop :=
  ids_ok (c_next c) (c_storages c) /\ ids_ok (c_next c) (c_dbs c) /\ ids_ok (c_next c) (c_tables c) /\ ids_ok (c_next c) (c_udfs c) /\
  forall p, In p (c_tables c) -> table_ok (c_next c) (snd p).

Lemma ids_ok_mono {A} n m (l : objs A) : n <= m -> ids_ok n l -> ids_ok m l.
Proof. intros H [H1 H2]. split; [exact H1|]. intros i Hi. apply H2 in Hi. lia. Qed.
Lemma table_ok_mono n m t : n <= m -> table_ok n t -> table_ok m t.
Proof. intros H (H1 & H2 & H3 & H4 & H5). split; [eapply ids_ok_mono; eassumption|split; [eapply ids_ok_mono; eassumption|split; [eapply ids_ok_mono; eassumption|split; assumption]]]. Qed.
Lemma ids_ok_new {A} n m (x : A) l : n < m -> ids_ok n l -> ids_ok m (l ++ [(n, x)]).
Proof.
  intros H [H1 H2]. split.
  - apply ids_new_nodup; [exact H1|]. intros Hi. apply H2 in Hi. lia.
  - intros i Hi. unfold ids in Hi. rewrite map_app in Hi. apply in_app_iff in Hi. destruct Hi as [Hi|[<-|[]]]; [apply H2 in Hi; lia|exact H].
Qed.
Lemma ids_ok_del {A} n o (l : objs A) : ids_ok n l -> ids_ok n (del o l).
Proof. intros [H1 H2]. split; [apply ids_del_nodup, H1|]. intros i Hi. apply H2. eapply ids_del_in, Hi. Qed.
Lemma ids_ok_upd {A} n o f (l : objs A) : ids_ok n l -> ids_ok n (upd o f l).
Proof. unfold ids_ok. rewrite ids_upd. auto. Qed.
Lemma ids_ok_fresh {A} n (l : objs A) : ids_ok n l -> ~ In n (ids l).
Proof. intros [_ H] Hi. apply H in Hi. lia. Qed.
Lemma ids_ok_number {A} n m (l : list A) : n + Z.of_nat (length l) <= m -> ids_ok m (number n l).
Proof. intros H. split; [apply number_nodup|]. intros i Hi. apply number_ids in Hi. lia. Qed.
Lemma ids_ok_perm {A} n (l l' : objs A) : Permutation l l' -> ids_ok n l -> ids_ok n l'.
Proof.
  intros H [H1 H2]. pose proof (Permutation_map fst H) as Hp. split; [exact (Permutation_NoDup Hp H1)|].
  intros i Hi. apply H2. exact (Permutation_in _ (Permutation_sym Hp) Hi).
Qed.

(** ** permutations *)
Lemma same_refl c : same_catalog c c.
Proof. repeat split; apply Permutation_refl. Qed.
Lemma same_trans a b c : same_catalog a b -> same_catalog b c -> same_catalog a c.
Proof. intros (H1 & H2 & H3 & H4) (K1 & K2 & K3 & K4). repeat split; eapply Permutation_trans; eassumption. Qed.
Lemma same_sym a b : same_catalog a b -> same_catalog b a.
Proof. intros (H1 & H2 & H3 & H4). repeat split; apply Permutation_sym; assumption. Qed.
Lemma inv_same c c' : inv c -> same_catalog c c' -> c_next c <= c_next c' -> inv c'.
Proof.
  intros (H1 & H2 & H3 & H4 & H5) (P1 & P2 & P3 & P4) Hn.
  split; [|split; [|split; [|split]]]; try (eapply ids_ok_perm; [eassumption|]; eapply ids_ok_mono; eassumption).
  intros p Hp. eapply table_ok_mono; [exact Hn|]. apply H5. exact (Permutation_in _ (Permutation_sym P3) Hp).
Qed.

Lemma abort1_same e c c1 d : abort1 e c = Ok c1 -> same_catalog d c -> exists d1, abort1 e d = Ok d1 /\ same_catalog d1 c1.
Proof.
  intros H (P1 & P2 & P3 & P4).
  assert (forall (l l' : objs table) x, Permutation l l' -> Permutation (l ++ [x]) (l' ++ [x])) as Ha by (intros; apply Permutation_app_tail; assumption).
  destruct e; cbn [abort1] in *; unfold on_column, on_index, on_tier, on_table in *;
    try (match type of H with context [constraints_read ?a ?b] => destruct (constraints_read a b); try discriminate H end);
    inversion H; subst; clear H; eexists; (split; [reflexivity|]); repeat split; cbn [c_storages c_dbs c_tables c_udfs set_storages set_dbs set_tables set_udfs];
    try assumption; try (apply upd_perm; assumption); try (apply del_perm; assumption); try (apply Permutation_app_tail; assumption).
Qed.

(** the log [new] (last entry first) leads from [c'] back to [c] *)
Definition undoes (c : catalog) (new : list entry) (c' : catalog) : Prop :=
  forall d, same_catalog d c' -> exists d', tr_abort new d = Ok d' /\ same_catalog d' c.
Lemma undoes_nil c : undoes c [] c.
Proof. intros d Hd. exists d. split; [reflexivity|exact Hd]. Qed.
Lemma tr_abort_app n1 n2 d : tr_abort (n1 ++ n2) d = (do c <- tr_abort n1 d; tr_abort n2 c).
Proof. revert d; induction n1 as [|e n1 IH]; intros d; [reflexivity|]. cbn. destruct (abort1 e d); cbn; auto. Qed.
Lemma undoes_app c c1 c2 n1 n2 : undoes c n1 c1 -> undoes c1 n2 c2 -> undoes c (n2 ++ n1) c2.
Proof.
  intros H1 H2 d Hd. destruct (H2 d Hd) as (d1 & E1 & S1). destruct (H1 d1 S1) as (d2 & E2 & S2).
  exists d2. rewrite tr_abort_app, E1. cbn [bind]. auto.
Qed.
Lemma undoes_one c e c' c'' : abort1 e c' = Ok c'' -> same_catalog c'' c -> undoes c [e] c'.
Proof.
  intros H1 H2 d Hd. destruct (abort1_same e c' c'' d H1 Hd) as (d1 & E & S).
  exists d1. cbn [tr_abort]. rewrite E. cbn [bind]. split; [reflexivity|]. exact (same_trans _ _ _ S H2).
Qed.

(** ** saved constraints are read back *)
Lemma cons_write_ok k : bytes_ok (k_default k) = true -> exists l, constraints_write k = Ok l /\ constraints_read constraints_init l = Ok k.
Proof.
  intros H. destruct k as [a b c d e f]. unfold constraints_write. cbn [k_not_null k_identity k_modulo k_stored k_resolved k_default] in *.
  destruct (C34_base64url f H) as [He Hd].
  assert (exists l, (match f with [] => Ok [] | z :: q => do t <- base64url_encode (z :: q); Ok [K_default t] end) = Ok l /\
          forall k, constraints_read k l = Ok (mkcons (k_not_null k) (k_identity k) (k_modulo k) (k_stored k) (k_resolved k) (match f with [] => k_default k | _ => f end))) as (l & El & Hl).
  { destruct f as [|x f].
    - exists []. split; [reflexivity|]. intros []; reflexivity.
    - rewrite He. cbn [bind]. eexists. split; [reflexivity|]. intros k. cbn [constraints_read cons_read1]. rewrite Hd. cbn [bind]. reflexivity. }
  assert ((do d0 <- match f with [] => Ok [] | z :: l0 => do t <- base64url_encode (z :: l0); Ok [K_default t] end;
           Ok ((if a then [K_not_null true] else []) ++ (if b =? 0 then [] else [K_identity b]) ++ (if c =? 9223372036854775807 then [] else [K_modulo c]) ++
               match d with [] => [] | z :: q => [K_stored (z :: q)] end ++ match e with [] => [] | z :: q => [K_resolved (z :: q)] end ++ d0)) =
          Ok ((if a then [K_not_null true] else []) ++ (if b =? 0 then [] else [K_identity b]) ++ (if c =? 9223372036854775807 then [] else [K_modulo c]) ++
               match d with [] => [] | z :: q => [K_stored (z :: q)] end ++ match e with [] => [] | z :: q => [K_resolved (z :: q)] end ++ l)) as E2.
  { destruct f as [|x f]; [injection El as <-; reflexivity|]. rewrite El. reflexivity. }
  eexists. split; [exact E2|].
  assert (forall l1 l2 k, constraints_read k (l1 ++ l2) = (do k <- constraints_read k l1; constraints_read k l2)) as Happ.
  { induction l1 as [|i l1 IH]; intros l2 k; [reflexivity|]. cbn. destruct (cons_read1 k i); cbn; auto. }
  rewrite !Happ.
  assert (constraints_read constraints_init (if a then [K_not_null true] else []) = Ok (mkcons a 0 9223372036854775807 [] [] [])) as -> by (destruct a; reflexivity).
  cbn [bind]. rewrite !Happ.
  assert (constraints_read (mkcons a 0 9223372036854775807 [] [] []) (if b =? 0 then [] else [K_identity b]) = Ok (mkcons a b 9223372036854775807 [] [] [])) as ->.
  { destruct (b =? 0) eqn:E; [apply Z.eqb_eq in E; subst; reflexivity|reflexivity]. }
  cbn [bind]. rewrite !Happ.
  assert (constraints_read (mkcons a b 9223372036854775807 [] [] []) (if c =? 9223372036854775807 then [] else [K_modulo c]) = Ok (mkcons a b c [] [] [])) as ->.
  { destruct (c =? 9223372036854775807) eqn:E; [apply Z.eqb_eq in E; subst; reflexivity|reflexivity]. }
  cbn [bind]. rewrite !Happ.
  assert (constraints_read (mkcons a b c [] [] []) (match d with [] => [] | z :: q => [K_stored (z :: q)] end) = Ok (mkcons a b c d [] [])) as -> by (destruct d; reflexivity).
  cbn [bind]. rewrite !Happ.
  assert (constraints_read (mkcons a b c d [] []) (match e with [] => [] | z :: q => [K_resolved (z :: q)] end) = Ok (mkcons a b c d e [])) as -> by (destruct e; reflexivity).
  cbn [bind]. rewrite Hl. cbn. destruct f; reflexivity.
Qed.

(** ** volumes *)
Lemma vol_remove_new n v l : vol_find n l = None -> vo_name v = n -> vol_remove n (l ++ [v]) = l.
Proof.
  intros H Hn. induction l as [|w l IH]; cbn in *.
  - subst n. unfold str_compare. rewrite (proj2 (str_is_eq _ _) eq_refl). reflexivity.
  - destruct (str_compare (vo_name w) n); [discriminate H|]. f_equal. auto.
Qed.
Lemma vol_pause_undo m w b l : vol_find m l = Some w -> vo_pause w = negb b ->
  vol_change m (fun v => vo_set_pause (negb (vo_pause v)) v) (vol_change m (vo_set_pause b) l) = l.
Proof.
  intros H Hb. induction l as [|x l IH]; cbn in *; [reflexivity|].
  destruct (str_compare (vo_name x) m) eqn:E.
  - injection H as ->. cbn [vol_change vo_set_pause vo_name]. rewrite E. cbn. destruct w as [a i q r]; unfold vo_set_pause; cbn in *. subst q. reflexivity.
  - cbn [vol_change]. rewrite E. f_equal. auto.
Qed.
