(** C21: crash safety of refresh and flush *)
From Verif Require Import Base RefreshModel RefreshSpec.
Local Open Scope Z_scope.

Lemma fname_eqb_eq a b : fname_eqb a b = true <-> a = b.
Proof.
  destruct a as [i x|i x|i x], b as [j y|j y|j y]; cbn [fname_eqb]; try (split; discriminate);
    rewrite andb_true_iff, Z.eqb_eq, Bool.eqb_true_iff; split; [intros [-> ->]; reflexivity|intros E; split; congruence|
    intros [-> ->]; reflexivity|intros E; split; congruence|intros [-> ->]; reflexivity|intros E; split; congruence].
Qed.
Lemma dset_same d n v : dset d n v n = v.
Proof. unfold dset. now rewrite (proj2 (fname_eqb_eq n n) eq_refl). Qed.
Lemma dset_other d n v m : m <> n -> dset d n v m = d m.
Proof.
  intros H. unfold dset. destruct (fname_eqb m n) eqn:E; [|reflexivity]. apply fname_eqb_eq in E. contradiction.
Qed.
Ltac ds := repeat (first [rewrite dset_same | rewrite dset_other by (try discriminate; congruence || (intros ?X; injection X; lia) || assumption)]).
Lemma fn_dec (a b : fname) : {a = b} + {a <> b}.
Proof. destruct (fname_eqb a b) eqn:E; [left; now apply fname_eqb_eq|right; intros ->; rewrite (proj2 (fname_eqb_eq b b) eq_refl) in E; discriminate]. Qed.

(** ** The invariant *)
(** the files a partition may have: a complete heap file [p], objects; numbers below [psn] *)
Definition only_part (d : disk) (p : Z) : Prop := forall i, d (Part i false) <> None -> i = p.
Definition no_part (d : disk) : Prop := forall i, d (Part i false) = None.
Definition only_svc (d : disk) (v : Z) (inc : bool) : Prop := forall i x, d (Svc i x) <> None -> i = v /\ x = inc.
Definition no_svc (d : disk) : Prop := forall i x, d (Svc i x) = None.
Definition fresh (d : disk) (psn : Z) : Prop :=
  forall i x, psn <= i -> d (Part i x) = None /\ d (Obj i x) = None /\ d (Svc i x) = None.
Definition in_obj (d : disk) (x : Z) : Prop := exists o a b, d (Obj o false) = Some (Rows a b) /\ a < x <= b.
Definition covered (d : disk) (from lsn low : Z) (commits : list Z) : Prop :=
  forall x, In x commits -> from < x <= lsn \/ (low <= x /\ lsn < x) \/ in_obj d x.

Record common (s : st) : Prop := {
  m_low : s_low s <= s_trk s + 1;
  m_trk : forall x, In x (s_commits s) -> x <= s_trk s;
  m_fresh : fresh (s_disk s) (s_psn s)
}.
Definition idle (s : st) : Prop :=
  s_todo s = [] /\ no_svc (s_disk s) /\ s_part s < s_psn s /\
  exists lsn, s_disk s (Part (s_part s) false) = Some (Image (s_from s) lsn) /\ only_part (s_disk s) (s_part s) /\
    covered (s_disk s) (s_from s) lsn (s_low s) (s_commits s) /\ s_hdr s <= lsn <= s_trk s /\ 0 <= s_from s <= lsn.

(** the last operations, from the creation of the service file: [tail] *)
Definition tail_ops (o n v : Z) (b : option Z) : list fop :=
  [ Write (Svc v true) (Service [Part o false] (Part n false :: match b with Some b => [Obj b false] | None => [] end));
    Rename (Svc v true) (Svc v false); Unlink (Part o false); Rename (Part n true) (Part n false) ] ++
  match b with Some b => [Rename (Obj b true) (Obj b false)] | None => [] end ++ [Unlink (Svc v false)].
(** the new files *)
Definition new_ops (n : Z) (b : option Z) (from0 l : Z) : list fop :=
  match b with
  | None => [SetLsn l; Write (Part n true) (Image from0 l)]
  | Some b => [Write (Part n true) (Image l l); Write (Obj b true) (Rows from0 l); SetLsn 0]
  end.
Definition new_from (b : option Z) (from0 l : Z) : Z := match b with None => from0 | Some _ => l end.

(** a service from [o] to [n] with the service file [v] and the object [b]; the old heap file has
    the transactions from [f0] to [l0], the new one up to [l] *)
Record setup (s : st) (o n v : Z) (b : option Z) (f0 l0 l : Z) : Prop := {
  u_ids : o < n < s_psn s /\ n < v < s_psn s /\ match b with Some b => n < b < s_psn s | None => True end;
  u_part : s_part s = n /\ s_from s = new_from b f0 l;
  u_lsn : 0 <= f0 <= l0 /\ l0 <= l <= s_trk s /\ s_hdr s <= l;
  u_cov : covered (s_disk s) f0 l0 (s_low s) (s_commits s);
  u_nobj : match b with Some b => s_disk s (Obj b false) = None | None => True end
}.
Definition old_image (s : st) (o f0 l0 : Z) : Prop :=
  s_disk s (Part o false) = Some (Image f0 l0) /\ only_part (s_disk s) o.
Definition new_files (s : st) (n : Z) (b : option Z) (f0 l : Z) : Prop :=
  s_disk s (Part n true) = Some (Image (new_from b f0 l) l) /\
  match b with Some b => s_disk s (Obj b true) = Some (Rows f0 l) | None => True end.

Inductive phase (s : st) : Prop :=
| Ph_idle : idle s -> phase s
| Ph_new o n v b f0 l0 l done todo : setup s o n v b f0 l0 l -> old_image s o f0 l0 -> no_svc (s_disk s) ->
    new_ops n b f0 l = done ++ todo -> s_todo s = todo ++ tail_ops o n v b ->
    (forall x c, In (Write x c) done -> s_disk s x = Some c) -> phase s
| Ph_svc o n v b f0 l0 l : setup s o n v b f0 l0 l -> old_image s o f0 l0 -> new_files s n b f0 l ->
    only_svc (s_disk s) v true -> s_todo s = skipn 1 (tail_ops o n v b) ->
    s_disk s (Svc v true) = Some (Service [Part o false] (Part n false :: match b with Some b => [Obj b false] | None => [] end)) -> phase s
| Ph_ready o n v b f0 l0 l : setup s o n v b f0 l0 l -> old_image s o f0 l0 -> new_files s n b f0 l ->
    only_svc (s_disk s) v false -> s_todo s = skipn 2 (tail_ops o n v b) ->
    s_disk s (Svc v false) = Some (Service [Part o false] (Part n false :: match b with Some b => [Obj b false] | None => [] end)) -> phase s
| Ph_gap o n v b f0 l0 l : setup s o n v b f0 l0 l -> no_part (s_disk s) -> new_files s n b f0 l ->
    only_svc (s_disk s) v false -> s_todo s = skipn 3 (tail_ops o n v b) ->
    s_disk s (Svc v false) = Some (Service [Part o false] (Part n false :: match b with Some b => [Obj b false] | None => [] end)) -> phase s
| Ph_gap2 o n v b f0 l0 l : setup s o n v (Some b) f0 l0 l -> s_disk s (Part n false) = Some (Image l l) -> only_part (s_disk s) n ->
    s_disk s (Obj b true) = Some (Rows f0 l) ->
    only_svc (s_disk s) v false -> s_todo s = skipn 4 (tail_ops o n v (Some b)) ->
    s_disk s (Svc v false) = Some (Service [Part o false] [Part n false; Obj b false]) -> phase s
| Ph_end o n v outs : o < n < s_psn s -> s_part s = n ->
    (exists lsn, s_disk s (Part n false) = Some (Image (s_from s) lsn) /\ only_part (s_disk s) n /\
       covered (s_disk s) (s_from s) lsn (s_low s) (s_commits s) /\ s_hdr s <= lsn <= s_trk s /\ 0 <= s_from s <= lsn) ->
    only_svc (s_disk s) v false -> s_todo s = [Unlink (Svc v false)] ->
    s_disk s (Svc v false) = Some (Service [Part o false] outs) -> (forall x, In x outs -> s_disk s x <> None) -> phase s.

Lemma covered_low d d' from lsn low commits :
  (forall x, in_obj d x -> in_obj d' x) -> covered d from lsn low commits -> covered d' from lsn low commits.
Proof. intros H C x Hx. destruct (C x Hx) as [?|[?|?]]; auto. Qed.
Lemma in_obj_ext d d' : (forall o, d' (Obj o false) = d (Obj o false)) -> forall x, in_obj d x -> in_obj d' x.
Proof. intros H x (o & a & b & E & R). exists o, a, b. rewrite H. auto. Qed.

Lemma phase_commit s x : common s -> phase s -> s_trk s < x ->
  let s' := mkst (s_disk s) (s_part s) (s_from s) (s_psn s) (s_hdr s) x (s_low s) (s_commits s ++ [x]) (s_todo s) in common s' /\ phase s'.
Proof.
  intros [L T F] P Hx s'. split.
  - constructor; cbn; [lia| |exact F]. intros y Hy. apply in_app_or in Hy as [Hy|[<- |[]]]; [specialize (T y Hy); lia|lia].
  - assert (Cv : forall from lsn, lsn <= s_trk s -> covered (s_disk s) from lsn (s_low s) (s_commits s) ->
              covered (s_disk s) from lsn (s_low s) (s_commits s ++ [x])).
    { intros from lsn Hl C y Hy. apply in_app_or in Hy as [Hy|[<- |[]]]; [now apply C|]. right. left. lia. }
    assert (Su : forall o n v b f0 l0 l, setup s o n v b f0 l0 l -> setup s' o n v b f0 l0 l).
    { intros o n v b f0 l0 l [A B C D E]. constructor; cbn; auto; [lia|]. apply Cv; [lia|exact D]. }
    destruct P as [(I1 & I2 & I3 & lsn & I4 & I5 & I6 & I7)|o n v b f0 l0 l dn td S O N1 N2 N3 N4|o n v b f0 l0 l S O N1 N2 N3 N4|o n v b f0 l0 l S O N1 N2 N3 N4
      |o n v b f0 l0 l S O N1 N2 N3 N4|o n v b f0 l0 l S O N1 N2 N3 N4 N5|o n v outs S O (lsn & I4 & I5 & I6 & I7) N2 N3 N4 N5].
    + apply Ph_idle. split; [exact I1|]. split; [exact I2|]. split; [exact I3|]. exists lsn. split; [exact I4|]. split; [exact I5|].
      split; [apply Cv; [lia|exact I6]|]. cbn. lia.
    + apply (Ph_new s' o n v b f0 l0 l dn td); auto.
    + apply (Ph_svc s' o n v b f0 l0 l); auto.
    + apply (Ph_ready s' o n v b f0 l0 l); auto.
    + apply (Ph_gap s' o n v b f0 l0 l); auto.
    + apply (Ph_gap2 s' o n v b f0 l0 l); auto.
    + apply (Ph_end s' o n v outs); auto. exists lsn. split; [exact I4|]. split; [exact I5|].
      split; [apply Cv; [lia|exact I6]|]. cbn. lia.
Qed.

Lemma phase_gc s low : common s -> phase s -> s_todo s = [] -> s_low s <= low -> low <= s_trk s + 1 ->
  (match gc_min (s_hdr s) (s_trk s) with Some m => low <= m | None => True end) ->
  let s' := mkst (s_disk s) (s_part s) (s_from s) (s_psn s) (s_hdr s) (s_trk s) low (s_commits s) (s_todo s) in common s' /\ phase s'.
Proof.
  intros [L T F] P Ht H1 H2 H3 s'. split; [constructor; cbn; auto|].
  assert (I : idle s).
  { destruct P as [I|o n v b f0 l0 l dn td S O N1 N2 N3 N4|o n v b f0 l0 l S O N1 N2 N3 N4|o n v b f0 l0 l S O N1 N2 N3 N4
      |o n v b f0 l0 l S O N1 N2 N3 N4|o n v b f0 l0 l S O N1 N2 N3 N4 N5|o n v outs S O N1 N2 N3 N4 N5]; auto; exfalso; rewrite Ht in *; try discriminate;
    try (destruct b; discriminate). destruct td; discriminate. }
  destruct I as (I1 & I2 & I3 & lsn & I4 & I5 & I6 & I7).
  apply Ph_idle. split; [exact I1|]. split; [exact I2|]. split; [exact I3|]. exists lsn. split; [exact I4|]. split; [exact I5|]. split; [|exact I7].
  intros x Hx. cbn. destruct (I6 x Hx) as [H|[H|H]]; [auto| |auto]. right. left. split; [|lia].
  unfold gc_min in H3. destruct (s_hdr s <? s_trk s) eqn:E; [lia|]. specialize (T x Hx). lia.
Qed.

Lemma phase_begin s b : common s -> idle s ->
  let v := s_psn s + match b with true => 2 | false => 1 end in
  let bo := if b then Some (s_psn s + 1) else None in
  let s' := mkst (s_disk s) (s_psn s) (new_from bo (s_from s) (s_trk s)) (v + 1) (s_hdr s) (s_trk s) (s_low s) (s_commits s)
              (new_ops (s_psn s) bo (s_from s) (s_trk s) ++ tail_ops (s_part s) (s_psn s) v bo) in
  common s' /\ phase s'.
Proof.
  intros [L T F] (I1 & I2 & I3 & lsn & I4 & I5 & I6 & I7) v bo s'. split.
  - constructor; cbn; auto. intros i x Hi. apply F. unfold v in Hi. destruct b; lia.
  - apply (Ph_new s' (s_part s) (s_psn s) v bo (s_from s) lsn (s_trk s) [] (new_ops (s_psn s) bo (s_from s) (s_trk s))); auto.
    + constructor; cbn.
      * unfold v, bo. destruct b; repeat split; lia.
      * auto.
      * lia.
      * exact I6.
      * unfold bo. destruct b; [|exact Logic.I]. apply F. lia.
    + split; auto.
    + intros x c [].
Qed.

Lemma fresh_le d psn psn' : psn <= psn' -> fresh d psn -> fresh d psn'.
Proof. intros H F i x Hi. apply F. lia. Qed.
Definition low_name (psn : Z) (n : fname) : Prop := match n with Part i _ | Obj i _ | Svc i _ => i < psn end.
Lemma fresh_dset d psn n v : low_name psn n -> fresh d psn -> fresh (dset d n v) psn.
Proof.
  intros H F i x Hi. destruct (F i x Hi) as (A & B & C). repeat split; rewrite dset_other; auto; intros <-; cbn in H; lia.
Qed.
Ltac tick s := cbn [step run s_disk s_part s_from s_psn s_hdr s_trk s_low s_commits s_todo do_op].

Lemma phase_step s o r : common s -> phase s -> s_todo s = o :: r ->
  let s' := mkst (do_op (s_disk s) o) (s_part s) (s_from s) (s_psn s) (match o with SetLsn l => l | _ => s_hdr s end)
              (s_trk s) (s_low s) (s_commits s) r in
  common s' /\ phase s'.
Proof.
  intros [L T F] P Ht s'. subst s'.
  destruct P as [(I1 & _)|og n v b f0 l0 l dn td S O N1 N2 N3 N4|og n v b f0 l0 l S O N1 N2 N3 N4|og n v b f0 l0 l S O N1 N2 N3 N4
      |og n v b f0 l0 l S O N1 N2 N3 N4|og n v b f0 l0 l S O N1 N2 N3 N4 N5|og n v outs S O (lsn & I4 & I5 & I6 & I7) N2 N3 N4 N5].
  - congruence.
  - (* new files *)
    destruct S as [U1 U2 U3 U4 U5]. destruct O as [O1 O2]. rewrite Ht in N3. destruct td as [|o' td].
    + (* creation of the service file *)
      cbn [app tail_ops] in N3. assert (Eo : o = Write (Svc v true) (Service [Part og false] (Part n false :: match b with Some b => [Obj b false] | None => [] end))) by congruence.
      assert (Er : r = skipn 1 (tail_ops og n v b)) by (cbn [skipn tail_ops app]; congruence). clear N3. subst o.
      rewrite app_nil_r in N2. split.
      * constructor; cbn; auto. apply fresh_dset; [cbn; lia|exact F].
      * apply (Ph_svc _ og n v b f0 l0 l); cbn [s_disk s_todo do_op]; auto.
        -- constructor; cbn [s_disk s_part s_from s_psn s_hdr s_trk s_low s_commits]; auto.
        -- split; cbn [s_disk]; [now ds|]. intros i H. rewrite dset_other in H by discriminate. now apply O2.
        -- split; cbn [s_disk]; ds; subst dn.
           ++ apply N4. destruct b; cbn; auto.
           ++ destruct b; [|exact Logic.I]. ds. apply N4. cbn. auto.
        -- intros i x H. destruct (fn_dec (Svc i x) (Svc v true)) as [E|E]; [split; congruence|]. rewrite dset_other in H by exact E. now rewrite N1 in H.
        -- now ds.
    + cbn [app] in N3. assert (o' = o) by congruence. assert (Er : r = td ++ tail_ops og n v b) by congruence. subst o'. clear N3.
      assert (Ho : (exists l, o = SetLsn l) \/ (exists c, o = Write (Part n true) c) \/ (exists b' c, b = Some b' /\ o = Write (Obj b' true) c)).
      { assert (In o (new_ops n b f0 l)) by (rewrite N2; apply in_or_app; right; now left).
        destruct b as [b|]; cbn in H; intuition (subst; eauto). }
      assert (Hh : match o with SetLsn l' => l' | _ => s_hdr s end <= l).
      { assert (In o (new_ops n b f0 l)) by (rewrite N2; apply in_or_app; right; now left).
        destruct b as [b|]; cbn in H; (destruct H as [<- |[<- |H]]; [lia|lia|]); [|destruct H]. destruct H as [<- |[]].
        lia. }
      split.
      * constructor; cbn; auto. destruct Ho as [(l' & ->)|[(c & ->)|(b' & c & -> & ->)]]; cbn [do_op]; auto; apply fresh_dset; auto; cbn; lia.
      * apply (Ph_new _ og n v b f0 l0 l (dn ++ [o]) td); cbn [s_disk s_todo]; auto.
        -- constructor; cbn [s_disk s_part s_from s_psn s_hdr s_trk s_low s_commits]; auto; [lia| |].
           ++ apply (covered_low (s_disk s)); [|exact U4]. apply in_obj_ext. intros i. destruct Ho as [(l' & ->)|[(c & ->)|(b' & c & -> & ->)]]; cbn [do_op]; now ds.
           ++ destruct b as [b|]; [|exact Logic.I]. destruct Ho as [(l' & ->)|[(c & ->)|(b' & c & Hb & ->)]]; cbn [do_op]; now ds.
        -- split; cbn [s_disk].
           ++ destruct Ho as [(l' & ->)|[(c & ->)|(b' & c & -> & ->)]]; cbn [do_op]; now ds.
           ++ intros i H. apply O2. destruct Ho as [(l' & ->)|[(c & ->)|(b' & c & -> & ->)]]; cbn [do_op] in H; auto; rewrite dset_other in H by discriminate; exact H.
        -- intros i x. destruct Ho as [(l' & ->)|[(c & ->)|(b' & c & -> & ->)]]; cbn [do_op]; ds; apply N1.
        -- rewrite N2, <- app_assoc. reflexivity.
        -- intros x c H. apply in_app_or in H as [H|[H|[]]].
           ++ specialize (N4 x c H).
              assert (Hne : forall y c', o = Write y c' -> x <> y).
              { intros y c' -> ->. clear - N2 H.
                destruct b as [b|]; cbn [new_ops] in N2; destruct dn as [|d1 [|d2 [|d3 [|d4 dn]]]]; cbn [app] in N2; try congruence; cbn [In] in H;
                  intuition congruence. }
              destruct o as [l'|y c'|y|y z]; cbn [do_op]; auto; [|destruct Ho as [(? & ?)|[(? & ?)|(? & ? & ? & ?)]]; discriminate..].
              rewrite dset_other; [exact N4|]. now apply (Hne y c').
           ++ subst o. cbn [do_op]. now ds.
  - (* rename of the service file *)
    destruct S as [U1 U2 U3 U4 U5]. destruct O as [O1 O2]. destruct N1 as [N1 N1']. rewrite Ht in N3. cbn [skipn tail_ops app] in N3.
    assert (Eo : o = Rename (Svc v true) (Svc v false)) by congruence.
    assert (Er : r = skipn 2 (tail_ops og n v b)) by (cbn [skipn tail_ops app]; congruence). clear N3. subst o.
    assert (Ed : forall m, m <> Svc v true -> m <> Svc v false -> do_op (s_disk s) (Rename (Svc v true) (Svc v false)) m = s_disk s m).
    { intros m H1 H2. cbn [do_op]. rewrite N4. now ds. }
    split.
    + constructor; cbn; auto. rewrite N4. apply fresh_dset; [cbn; lia|]. apply fresh_dset; [cbn; lia|exact F].
    + apply (Ph_ready _ og n v b f0 l0 l); cbn [s_disk s_todo]; auto.
      * constructor; cbn [s_disk s_part s_from s_psn s_hdr s_trk s_low s_commits]; auto.
        -- apply (covered_low (s_disk s)); [|exact U4]. apply in_obj_ext. intros i. apply Ed; discriminate.
        -- destruct b; [|exact Logic.I]. rewrite Ed by discriminate. exact U5.
      * split; cbn [s_disk]; [rewrite Ed by discriminate; exact O1|]. intros i H. rewrite Ed in H by discriminate. now apply O2.
      * split; cbn [s_disk]; [rewrite Ed by discriminate; exact N1|]. destruct b; [|exact Logic.I]. rewrite Ed by discriminate. exact N1'.
      * intros i x H. cbn [do_op] in H. rewrite N4 in H. destruct (fn_dec (Svc i x) (Svc v false)) as [E|E]; [split; congruence|].
        rewrite dset_other in H by exact E. destruct (fn_dec (Svc i x) (Svc v true)) as [E2|E2]; [rewrite E2, dset_same in H; congruence|].
        rewrite dset_other in H by exact E2. destruct (N2 i x H) as [-> ->]. congruence.
      * cbn [do_op]. rewrite N4. now ds.
  - (* unlink of the origin *)
    destruct S as [U1 U2 U3 U4 U5]. destruct O as [O1 O2]. destruct N1 as [N1 N1']. rewrite Ht in N3. cbn [skipn tail_ops app] in N3.
    assert (Eo : o = Unlink (Part og false)) by congruence.
    assert (Er : r = skipn 3 (tail_ops og n v b)) by (cbn [skipn tail_ops app]; congruence). clear N3. subst o. cbn [do_op].
    split.
    + constructor; cbn; auto. apply fresh_dset; [cbn; lia|exact F].
    + apply (Ph_gap _ og n v b f0 l0 l); cbn [s_disk s_todo]; auto.
      * constructor; cbn [s_disk s_part s_from s_psn s_hdr s_trk s_low s_commits]; auto.
      * intros i. destruct (Z.eq_dec i og) as [->|E]; [now ds|]. ds. destruct (s_disk s (Part i false)) eqn:Ei; [|reflexivity].
        exfalso. apply E. apply O2. congruence.
      * split; cbn [s_disk]; ds; auto.
  - (* rename of the new heap file *)
    destruct S as [U1 U2 U3 U4 U5]. destruct N1 as [N1 N1']. rewrite Ht in N3. cbn [skipn tail_ops app] in N3.
    assert (Eo : o = Rename (Part n true) (Part n false)) by (destruct b; congruence).
    assert (Ed : forall m, m <> Part n true -> m <> Part n false -> do_op (s_disk s) (Rename (Part n true) (Part n false)) m = s_disk s m).
    { intros m H1 H2. cbn [do_op]. rewrite N1. now ds. }
    assert (En : do_op (s_disk s) (Rename (Part n true) (Part n false)) (Part n false) = Some (Image (new_from b f0 l) l)).
    { cbn [do_op]. rewrite N1. now ds. }
    assert (Eop : only_part (do_op (s_disk s) (Rename (Part n true) (Part n false))) n).
    { intros i H. destruct (Z.eq_dec i n) as [|E]; [assumption|]. exfalso. apply H. rewrite Ed by congruence. apply O. }
    assert (Eos : only_svc (do_op (s_disk s) (Rename (Part n true) (Part n false))) v false).
    { intros i x H. rewrite Ed in H by discriminate. now apply N2. }
    assert (Fr : fresh (do_op (s_disk s) (Rename (Part n true) (Part n false))) (s_psn s)).
    { cbn [do_op]. rewrite N1. apply fresh_dset; [cbn; lia|]. apply fresh_dset; [cbn; lia|exact F]. }
    split; [constructor; cbn [s_low s_trk s_commits s_disk s_psn]; auto; subst o; exact Fr|].
    destruct b as [b|].
    + assert (Er : r = skipn 4 (tail_ops og n v (Some b))) by (cbn in N3 |- *; congruence). clear N3. subst o.
      apply (Ph_gap2 _ og n v b f0 l0 l); cbn [s_disk s_todo]; auto; try (rewrite Ed by discriminate; assumption).
      constructor; cbn [s_disk s_part s_from s_psn s_hdr s_trk s_low s_commits]; auto.
      * apply (covered_low (s_disk s)); [|exact U4]. apply in_obj_ext. intros i. apply Ed; discriminate.
      * rewrite Ed by discriminate. exact U5.
    + assert (Er : r = [Unlink (Svc v false)]) by (cbn in N3; congruence). clear N3. subst o. destruct U2 as [U2 U2'].
      apply (Ph_end _ og n v [Part n false]); cbn [s_disk s_todo s_part s_from s_psn s_trk s_hdr s_low s_commits]; auto; try lia.
      * exists l. rewrite U2'. split; [exact En|]. split; [exact Eop|]. split; [|cbn [new_from]; lia].
        intros x Hx. cbn [new_from]. destruct (U4 x Hx) as [H|[H|H]].
        -- left. lia.
        -- destruct (Z_le_gt_dec x l); [left; lia|right; left; lia].
        -- right. right. revert H. apply in_obj_ext. intros i. apply Ed; discriminate.
      * rewrite Ed by discriminate. exact N4.
      * intros x [<- |[]]. rewrite En. discriminate.
  - (* rename of the object *)
    destruct S as [U1 U2 U3 U4 U5]. rewrite Ht in N4. cbn [skipn tail_ops app] in N4.
    assert (Eo : o = Rename (Obj b true) (Obj b false)) by congruence. assert (Er : r = [Unlink (Svc v false)]) by congruence. clear N4. subst o.
    assert (Ed : forall m, m <> Obj b true -> m <> Obj b false -> do_op (s_disk s) (Rename (Obj b true) (Obj b false)) m = s_disk s m).
    { intros m H1 H2. cbn [do_op]. rewrite N2. now ds. }
    assert (En : do_op (s_disk s) (Rename (Obj b true) (Obj b false)) (Obj b false) = Some (Rows f0 l)).
    { cbn [do_op]. rewrite N2. now ds. }
    split.
    + constructor; cbn [s_low s_trk s_commits s_disk s_psn]; auto. cbn [do_op]. rewrite N2. apply fresh_dset; [cbn; lia|]. apply fresh_dset; [cbn; lia|exact F].
    + destruct U2 as [U2 U2'].
      apply (Ph_end _ og n v [Part n false; Obj b false]); cbn [s_disk s_todo s_part s_from s_psn s_trk s_hdr s_low s_commits]; auto; try lia.
      * exists l. rewrite U2'. cbn [new_from]. rewrite Ed by discriminate. split; [exact O|]. split; [|split; [|lia]].
        -- intros i H. rewrite Ed in H by discriminate. now apply N1.
        -- intros x Hx. destruct (U4 x Hx) as [H|[H|(i & a & c & H)]].
           ++ right. right. exists b, f0, l. split; [exact En|lia].
           ++ destruct (Z_le_gt_dec x l); [|right; left; lia]. right. right. exists b, f0, l. split; [exact En|lia].
           ++ right. right. exists i, a, c. rewrite Ed; [exact H|discriminate|]. intros E. assert (i = b) by congruence. subst i. rewrite U5 in H. destruct H. discriminate.
      * intros i x H. rewrite Ed in H by discriminate. now apply N3.
      * rewrite Ed by discriminate. exact N5.
      * intros x [<- |[<- |[]]]; [rewrite Ed by discriminate; congruence|rewrite En; discriminate].
  - (* removal of the service file *)
    rewrite Ht in N3. assert (Eo : o = Unlink (Svc v false)) by congruence. assert (Er : r = []) by congruence. clear N3. subst o r. cbn [do_op].
    split.
    + constructor; cbn; auto. apply fresh_dset; [|exact F]. cbn. destruct (Z_lt_le_dec v (s_psn s)) as [H|H]; [exact H|].
      destruct (F v false H) as (_ & _ & H'). congruence.
    + apply Ph_idle. split; [reflexivity|]. split; [|split; [cbn; lia|]]; cbn [s_disk s_part s_from s_psn s_trk s_hdr s_low s_commits].
      * intros i x. destruct (fn_dec (Svc i x) (Svc v false)) as [->|E]; [now ds|]. rewrite dset_other by exact E.
        destruct (s_disk s (Svc i x)) eqn:Ei; [|reflexivity]. exfalso. destruct (N2 i x ltac:(congruence)) as [-> ->]. congruence.
      * rewrite O. exists lsn. ds. split; [exact I4|]. split; [|split; [|exact I7]].
        -- intros i H. rewrite dset_other in H by discriminate. now apply I5.
        -- apply (covered_low (s_disk s)); [|exact I6]. apply in_obj_ext. intros i. now ds.
Qed.

Lemma init_ok : common st_init /\ phase st_init.
Proof.
  split.
  - constructor; cbn; [lia|intros x []|]. intros i x Hi. repeat split; try reflexivity. unfold dset; cbn [fname_eqb].
    rewrite (proj2 (Z.eqb_neq i 0)) by lia. reflexivity.
  - apply Ph_idle. split; [reflexivity|]. split; [intros i x; reflexivity|]. split; [cbn; lia|]. exists 0. cbn. split; [reflexivity|].
    split; [|split; [intros x []|lia]]. intros i. unfold st_init, dset; cbn. destruct (i =? 0) eqn:E; cbn; [intros _; lia|congruence].
Qed.
Lemma idle_of s : phase s -> s_todo s = [] -> idle s.
Proof.
  intros P Ht.
  destruct P as [I|o n v b f0 l0 l dn td S O N1 N2 N3 N4|o n v b f0 l0 l S O N1 N2 N3 N4|o n v b f0 l0 l S O N1 N2 N3 N4
      |o n v b f0 l0 l S O N1 N2 N3 N4|o n v b f0 l0 l S O N1 N2 N3 N4 N5|o n v outs S O N1 N2 N3 N4 N5]; auto; exfalso; rewrite Ht in *; try discriminate;
    try (destruct b; discriminate). destruct td; discriminate.
Qed.
Lemma run_phase l : forall s s', common s -> phase s -> gc_waits s l -> run s l = Some s' -> common s' /\ phase s'.
Proof.
  induction l as [|e r IH]; intros s s' C P W E; cbn [run gc_waits] in *; [assert (s = s') by congruence; subst; auto|].
  destruct W as [W W']. destruct (step s e) as [s1|] eqn:Es; [|discriminate]. enough (common s1 /\ phase s1) by (apply (IH s1 s'); tauto).
  clear IH W' E. destruct e as [x| | | |low]; cbn [step] in Es.
  - destruct (s_trk s <? x) eqn:E; [|discriminate]. assert (Hx : s_trk s < x) by lia.
    pose proof (phase_commit s x C P Hx) as H. cbv zeta in H. assert (s1 = mkst (s_disk s) (s_part s) (s_from s) (s_psn s) (s_hdr s) x (s_low s) (s_commits s ++ [x]) (s_todo s)) by congruence.
    subst s1. exact H.
  - destruct (s_todo s) as [|? ?] eqn:Et; [|discriminate]. pose proof (phase_begin s false C (idle_of s P Et)) as H. cbv zeta in H. cbn [new_from] in H.
    replace (s_psn s + 1 + 1) with (s_psn s + 2) in H by lia.
    injection Es as <-. exact H.
  - destruct (s_todo s) as [|? ?] eqn:Et; [|discriminate]. pose proof (phase_begin s true C (idle_of s P Et)) as H. cbv zeta in H. cbn [new_from] in H.
    replace (s_psn s + 2 + 1) with (s_psn s + 3) in H by lia.
    injection Es as <-. exact H.
  - destruct (s_todo s) as [|o td] eqn:Et; [discriminate|]. pose proof (phase_step s o td C P Et) as H. cbv zeta in H.
    injection Es as <-. exact H.
  - destruct ((s_low s <=? low) && (low <=? s_trk s + 1) && match gc_min (s_hdr s) (s_trk s) with Some m => low <=? m | None => true end) eqn:E; [|discriminate].
    apply andb_prop in E as [E E3]. apply andb_prop in E as [E1 E2].
    pose proof (phase_gc s low C P W ltac:(lia) ltac:(lia)) as H. cbv zeta in H. injection Es as <-. apply H.
    destruct (gc_min (s_hdr s) (s_trk s)); [lia|exact Logic.I].
Qed.

Lemma listing_nil d order : no_svc d -> listing d order -> order = [].
Proof. intros H [_ L]. destruct order as [|[i x] r]; [reflexivity|]. exfalso. apply (proj1 (L i x)); [now left|apply H]. Qed.
Lemma listing_one d order v x : d (Svc v x) <> None -> only_svc d v x -> listing d order -> order = [(v, x)].
Proof.
  intros H O [ND L]. assert (In (v, x) order) as Hin by now apply L.
  assert (forall e, In e order -> e = (v, x)) as Hall.
  { intros [i y] He. destruct (O i y) as [-> ->]; [now apply L|reflexivity]. }
  destruct order as [|e [|e' r]]; [destruct Hin| |].
  - f_equal. apply Hall. now left.
  - exfalso. inversion ND as [|? ? N1 N2]; subst. apply N1. left. rewrite (Hall e), (Hall e'); [reflexivity|right; now left|now left].
Qed.
Lemma lost_of d p from lsn low commits :
  d (Part p false) = Some (Image from lsn) -> only_part d p -> covered d from lsn low commits -> nothing_lost d low commits.
Proof. intros H1 H2 H3. exists p, from, lsn. split; [exact H1|]. split; [exact H2|exact H3]. Qed.

Lemma crash_ok s d order :
  phase s -> ~ switching s -> crashed s d -> listing d order ->
  nothing_lost (service_recover d order) (s_low s) (s_commits s).
Proof.
  intros P Hsw Hc Hl.
  destruct P as [(I1 & I2 & I3 & lsn & I4 & I5 & I6 & I7)|o n v b f0 l0 l dn td S [O1 O2] N1 N2 N3 N4|o n v b f0 l0 l S [O1 O2] N1 N2 N3 N4|o n v b f0 l0 l S [O1 O2] N1 N2 N3 N4
      |o n v b f0 l0 l S O N1 N2 N3 N4|o n v b f0 l0 l S O N1 N2 N3 N4 N5|o n v outs S O (lsn & I4 & I5 & I6 & I7) N2 N3 N4 N5].
  - destruct Hc as [-> |(x & c & r & E & _)]; [|congruence]. rewrite (listing_nil _ _ I2 Hl). cbn.
    apply (lost_of _ _ _ _ _ _ I4 I5 I6).
  - assert (Hd : (no_svc d /\ (forall i, d (Part i false) = s_disk s (Part i false)) /\ (forall i, d (Obj i false) = s_disk s (Obj i false)))
                 \/ d = dset (s_disk s) (Svc v true) (Some Torn)).
    { destruct Hc as [-> |(x & c & r & E & Hd)]; [left; auto|]. rewrite E in N3. destruct td as [|o' td].
      - right. cbn in N3. congruence.
      - left. cbn [app] in N3. assert (Hin : In (Write x c) (new_ops n b f0 l)).
        { rewrite N2. apply in_or_app. right. left. congruence. }
        assert (Hx : x = Part n true \/ exists b', x = Obj b' true).
        { clear -Hin. destruct b as [b|]; cbn in Hin; intuition (try discriminate);
            match goal with H : Write _ _ = Write _ _ |- _ => injection H as <- _ end; eauto. }
        subst d. destruct Hx as [-> |(b' & ->)]; (split; [intros i x; unfold dset; cbn [fname_eqb]; apply N1|]; split; intros i; unfold dset; cbn [fname_eqb]; rewrite ?Bool.andb_false_r; reflexivity). }
    destruct S as [U1 U2 U3 U4 U5]. destruct Hd as [(D1 & D2 & D3)| ->].
    + rewrite (listing_nil _ _ D1 Hl). cbn. apply (lost_of _ o f0 l0); [rewrite D2; exact O1| |].
      * intros i H. rewrite D2 in H. now apply O2.
      * apply (covered_low (s_disk s)); [|exact U4]. now apply in_obj_ext.
    + rewrite (listing_one (dset (s_disk s) (Svc v true) (Some Torn)) order v true); [|now ds| |exact Hl].
      2: { intros i x H. destruct (fn_dec (Svc i x) (Svc v true)) as [E|E]; [split; congruence|]. rewrite dset_other in H by exact E. now rewrite N1 in H. }
      cbn [service_recover fold_left]. apply (lost_of _ o f0 l0); [now ds| |].
      * intros i H. rewrite !dset_other in H by discriminate. now apply O2.
      * apply (covered_low (s_disk s)); [|exact U4]. apply in_obj_ext. intros i. now ds.
  - destruct Hc as [-> |(x & c & r & E & _)]; [|rewrite E in N3; destruct b; discriminate].
    rewrite (listing_one _ _ v true ltac:(rewrite N4; discriminate) N2 Hl). cbn [service_recover fold_left].
    destruct S as [U1 U2 U3 U4 U5]. apply (lost_of _ o f0 l0); [now ds| |].
    + intros i H. rewrite !dset_other in H by discriminate. now apply O2.
    + apply (covered_low (s_disk s)); [|exact U4]. apply in_obj_ext. intros i. now ds.
  - destruct Hc as [-> |(x & c & r & E & _)]; [|rewrite E in N3; destruct b; discriminate].
    rewrite (listing_one _ _ v false ltac:(rewrite N4; discriminate) N2 Hl). cbn [service_recover fold_left].
    destruct S as [U1 U2 U3 U4 U5]. unfold recover_of. rewrite N4.
    assert (Hn : s_disk s (Part n false) = None).
    { destruct (s_disk s (Part n false)) eqn:En; [|reflexivity]. exfalso. assert (n = o) by (apply O2; congruence). lia. }
    cbn [forallb]. unfold exists_ at 1. rewrite Hn. cbn [andb]. unfold gc_files.
    apply (lost_of _ o f0 l0).
    + destruct b as [b|]; cbn [fold_left]; ds; exact O1.
    + intros i H. apply O2. destruct b as [b|]; cbn [fold_left] in H; intros X; apply H; rewrite !dset_other by discriminate;
        (destruct (Z.eq_dec i n) as [->|]; [now ds|ds; exact X]).
    + intros x Hx. destruct (U4 x Hx) as [H|[H|(i & a & c & H)]]; auto. right. right. exists i, a, c.
      destruct b as [b|]; cbn [fold_left]; [|ds; exact H]. destruct (Z.eq_dec i b) as [->|Ei]; [rewrite U5 in H; destruct H; discriminate|]. ds. exact H.
  - exfalso. apply Hsw. exists n. cbn [skipn tail_ops app] in N3. eexists. left. exact N3.
  - exfalso. apply Hsw. exists b. cbn [skipn tail_ops app] in N4. eexists. right. exact N4.
  - destruct Hc as [-> |(x & c & r & E & _)]; [|rewrite E in N3; discriminate].
    rewrite (listing_one _ _ v false ltac:(rewrite N4; discriminate) N2 Hl). cbn [service_recover fold_left].
    unfold recover_of. rewrite N4.
    assert (Ho : forallb (exists_ (s_disk s)) outs = true).
    { apply forallb_forall. intros x Hx. unfold exists_. specialize (N5 x Hx). destruct (s_disk s x); [reflexivity|congruence]. }
    rewrite Ho. unfold gc_files. cbn [fold_left]. apply (lost_of _ n (s_from s) lsn); [ds; exact I4| |].
    + intros i H. rewrite dset_other in H by discriminate. destruct (Z.eq_dec i o) as [->|E]; [rewrite dset_same in H; congruence|].
      rewrite dset_other in H by congruence. now apply I5.
    + apply (covered_low (s_disk s)); [|exact I6]. apply in_obj_ext. intros i. now ds.
Qed.

(** ** C21 *)
(** For every history of transactions, refreshes, flushes and cleanings of the log, and for every
    crash point but those of [switching]: after the recovery nothing is lost.  Two things are
    missing for the full property: the crash points while the files are switched
    (C21_switch_refuted, C21_flush_refuted), and cleaning the log during a refresh
    (C21_gc_refuted). *)
Theorem C21_partial : forall l s d order,
  run st_init l = Some s -> gc_waits st_init l -> ~ switching s ->
  crashed s d -> listing d order -> nothing_lost (service_recover d order) (s_low s) (s_commits s).
Proof.
  intros l s d order E W Hsw Hc Hl. destruct init_ok as [C P]. destruct (run_phase l st_init s C P W E) as [C' P'].
  now apply crash_ok.
Qed.
Print Assumptions C21_partial.

Lemma run_steps : forall ops s, s_todo s = ops ->
  exists s', run s (repeat Step (length ops)) = Some s' /\ s_disk s' = fold_left do_op ops (s_disk s) /\ s_todo s' = [].
Proof.
  induction ops as [|o ops IH]; intros s H; cbn [length repeat run].
  - exists s. split; [reflexivity|]. split; [reflexivity|exact H].
  - unfold step. rewrite H. match goal with |- context [run ?x _] => destruct (IH x eq_refl) as (s' & H1 & H2 & H3) end.
    exists s'. split; [exact H1|]. split; [exact H2|exact H3].
Qed.
(** A refresh that runs to its end leaves one complete heap file with every transaction that was
    committed when it began, and no other files of its own *)
Theorem C21_refresh_done : forall l s, run st_init l = Some s -> gc_waits st_init l -> s_todo s = [] ->
  exists s', run s (Begin_refresh :: repeat Step 7) = Some s' /\ s_todo s' = [] /\
    s_disk s' (Part (s_psn s) false) = Some (Image (s_from s) (s_trk s)) /\ s_disk s' (Part (s_part s) false) = None /\
    (forall x, In x (s_commits s) -> x <= s_trk s) /\ (forall i x, s_disk s' (Svc i x) = None).
Proof.
  intros l s E W Ht. destruct init_ok as [C P]. destruct (run_phase l st_init s C P W E) as [C' P'].
  pose proof (idle_of s P' Ht) as I. destruct I as (_ & I2 & I3 & _).
  set (s1 := mkst (s_disk s) (s_psn s) (s_from s) (s_psn s + 2) (s_hdr s) (s_trk s) (s_low s) (s_commits s)
                       (refresh_ops (s_part s) (s_psn s) (s_psn s + 1) (s_from s) (s_trk s))).
  destruct (run_steps _ s1 eq_refl) as (s' & R1 & R2 & R3). exists s'. split; [|split; [exact R3|]].
  { change (match step s Begin_refresh with Some x => run x (repeat Step 7) | None => None end = Some s').
    unfold step. rewrite Ht. exact R1. }
  rewrite R2. clear R1 R2 R3. subst s1. cbn [s_disk s_todo]. unfold refresh_ops. cbn [fold_left].
  destruct C' as [_ T _].
  assert (Hv : forall d : disk, d (Part (s_psn s) true) = Some (Image (s_from s) (s_trk s)) -> 
    do_op d (Rename (Part (s_psn s) true) (Part (s_psn s) false)) = dset (dset d (Part (s_psn s) true) None) (Part (s_psn s) false) (Some (Image (s_from s) (s_trk s)))).
  { intros d H. unfold do_op. rewrite H. reflexivity. }
  assert (Hw : forall d : disk, forall c, d (Svc (s_psn s + 1) true) = Some c ->
    do_op d (Rename (Svc (s_psn s + 1) true) (Svc (s_psn s + 1) false)) = dset (dset d (Svc (s_psn s + 1) true) None) (Svc (s_psn s + 1) false) (Some c)).
  { intros d c H. unfold do_op. rewrite H. reflexivity. }
  erewrite Hw by (unfold do_op; now rewrite dset_same). rewrite Hv by (unfold do_op; rewrite !dset_other by discriminate; now rewrite dset_same). unfold do_op.
  split; [now ds|]. split; [now ds|]. split; [exact T|].
  intros i x. destruct (fn_dec (Svc i x) (Svc (s_psn s + 1) false)) as [->|E1]; [now ds|].
  rewrite dset_other by exact E1. ds. destruct (fn_dec (Svc i x) (Svc (s_psn s + 1) true)) as [->|E2]; [now ds|].
  rewrite !dset_other by (discriminate || assumption). apply I2.
Qed.
Print Assumptions C21_refresh_done.

Lemma run_cons s e r s1 s' : step s e = Some s1 -> run s1 r = Some s' -> run s (e :: r) = Some s'.
Proof. intros H H'. cbn [run]. now rewrite H. Qed.
Lemma step_rename s a b r c : s_todo s = Rename a b :: r -> s_disk s a = Some c ->
  step s Step = Some (mkst (dset (dset (s_disk s) a None) b (Some c)) (s_part s) (s_from s) (s_psn s) (s_hdr s) (s_trk s) (s_low s) (s_commits s) r).
Proof. intros H H'. unfold step. rewrite H. unfold do_op. now rewrite H'. Qed.
Lemma step_op s o r : s_todo s = o :: r -> match o with Rename _ _ => False | _ => True end ->
  step s Step = Some (mkst (match o with Write n c => dset (s_disk s) n (Some c) | Unlink n => dset (s_disk s) n None | _ => s_disk s end)
     (s_part s) (s_from s) (s_psn s) (match o with SetLsn l => l | _ => s_hdr s end) (s_trk s) (s_low s) (s_commits s) r).
Proof. intros H H'. unfold step. rewrite H. destruct o; try contradiction; reflexivity. Qed.
Lemma waits_nogc : forall l s, Forall (fun e => match e with Gc _ => False | _ => True end) l -> gc_waits s l.
Proof.
  induction l as [|e l IH]; intros s H; [exact Logic.I|]. inversion H; subst. cbn [gc_waits]. split; [destruct e; tauto|].
  destruct (step s e); [now apply IH|exact Logic.I].
Qed.
Lemma waits_app : forall l1 l2 s s1, run s l1 = Some s1 -> gc_waits s l1 -> gc_waits s1 l2 -> gc_waits s (l1 ++ l2).
Proof.
  induction l1 as [|e l1 IH]; intros l2 s s1 E H H2; cbn [run app] in *; [injection E as <-; exact H2|].
  cbn [gc_waits] in *. destruct H as [H0 H]. split; [exact H0|]. destruct (step s e); [|exact Logic.I]. now apply (IH _ _ s1).
Qed.
Ltac go1 := eapply run_cons;
  [match goal with
   | |- step _ Step = _ => first [eapply step_op; [reflexivity|exact Logic.I] | eapply step_rename; [reflexivity|cbn [s_disk]; now ds]]
   | _ => reflexivity
   end|cbn [s_disk s_part s_from s_psn s_hdr s_trk s_low s_commits s_todo]].
Ltac go := repeat go1; reflexivity.
Ltac nogc := apply waits_nogc; repeat constructor.

(** The counterexamples.  A crash of a refresh after the old heap file was removed and before the
    new one was renamed: the recovery finds no file of the partition *)
Definition ex_gap : list event := [Commit 1; Commit 2; Begin_refresh; Step; Step; Step; Step; Step].
Theorem C21_switch_refuted :
  exists s, run st_init ex_gap = Some s /\ gc_waits st_init ex_gap /\ s_commits s = [1; 2] /\
    listing (s_disk s) [(2, false)] /\ (forall i, service_recover (s_disk s) [(2, false)] (Part i false) = None).
Proof.
  eexists. split; [unfold ex_gap; go|]. split; [nogc|]. split; [reflexivity|]. cbn [s_disk]. split.
  - split; [repeat constructor; intros []|]. intros i x. unfold dset, st_init; cbn [s_disk fname_eqb]. unfold dset; cbn [fname_eqb]. split.
    + intros [H|[]]. injection H as <- <-. discriminate.
    + intros H. destruct (i =? 2) eqn:E; destruct x; cbn in H; rewrite ?E in H; cbn in H; try congruence. left. f_equal. lia.
  - intros i. cbn [service_recover fold_left]. unfold recover_of. rewrite dset_other by discriminate. rewrite dset_same.
    cbn [forallb]. unfold exists_. rewrite !dset_other by discriminate. cbn [st_init s_disk]. rewrite dset_other by discriminate. cbn [andb gc_files fold_left].
    unfold dset; cbn [fname_eqb s_disk st_init]. unfold dset; cbn. destruct (i =? 1), (i =? 0); reflexivity.
Qed.
Print Assumptions C21_switch_refuted.
(** The same for a flush, also after the heap file was renamed and before the object is: the
    recovery then removes the new heap file too *)
Definition ex_flush : list event := [Commit 1; Begin_flush; Step; Step; Step; Step; Step; Step; Step].
Theorem C21_flush_refuted :
  exists s, run st_init ex_flush = Some s /\ gc_waits st_init ex_flush /\ s_commits s = [1] /\
    s_disk s (Part 1 false) = Some (Image 1 1) /\
    listing (s_disk s) [(3, false)] /\
    (forall i, service_recover (s_disk s) [(3, false)] (Part i false) = None /\ service_recover (s_disk s) [(3, false)] (Obj i false) = None).
Proof.
  eexists. split; [unfold ex_flush; go|]. split; [nogc|]. split; [reflexivity|]. cbn [s_disk]. split; [reflexivity|]. split.
  - split; [repeat constructor; intros []|]. intros i x. unfold dset, st_init; cbn [s_disk fname_eqb]. unfold dset; cbn [fname_eqb]. split.
    + intros [H|[]]. injection H as <- <-. discriminate.
    + intros H. destruct (i =? 3) eqn:E; destruct x; cbn in H; rewrite ?E in H; cbn in H; try congruence. left. f_equal. lia.
  - intros i. cbn [service_recover fold_left]. unfold recover_of. rewrite dset_other by discriminate. rewrite dset_other by discriminate. rewrite dset_other by discriminate. rewrite dset_same.
    cbn [forallb]. unfold exists_. rewrite dset_same. rewrite !dset_other by discriminate. cbn [st_init s_disk]. rewrite dset_other by discriminate. cbn [andb gc_files fold_left].
    unfold dset; cbn [fname_eqb s_disk st_init]. unfold dset; cbn. destruct (i =? 1), (i =? 0), (i =? 2); split; reflexivity.
Qed.
Print Assumptions C21_flush_refuted.
(** Cleaning the log by another session while a refresh writes its file: the lsn in memory is the
    one of the file that is not there yet, so the records are removed that only the old file needs *)
Definition ex_gc : list event := [Commit 1; Commit 2; Begin_refresh; Step; Gc 3].
Theorem C21_gc_refuted :
  exists s, run st_init ex_gc = Some s /\ ~ switching s /\ s_commits s = [1; 2] /\ listing (s_disk s) [] /\
    ~ nothing_lost (service_recover (s_disk s) []) (s_low s) (s_commits s).
Proof.
  eexists. split; [unfold ex_gc; go|]. split; [|split; [reflexivity|split]].
  - intros (n & r & [H|H]); discriminate H.
  - split; [constructor|]. intros i x. cbn. split; [tauto|]. intros H. now apply H.
  - cbn [service_recover fold_left s_disk s_low s_commits]. intros (id & from & lsn & H1 & H2 & H3). cbn in H1. unfold dset in H1; cbn in H1. destruct (id =? 0); cbn in H1; [|discriminate].
    injection H1 as <- <-. destruct (H3 1 (or_introl eq_refl)) as [H|[H|(o & a & b & H & _)]]; [lia|lia|discriminate H].
Qed.
Print Assumptions C21_gc_refuted.

Example C21_nonvacuous :
  let l := [Commit 1; Begin_refresh; Step; Commit 2; Step; Step; Step; Step; Step; Step] ++ [Gc 1; Commit 5; Begin_flush; Step; Step; Step; Step] in
  exists s, run st_init l = Some s /\ gc_waits st_init l /\ ~ switching s /\ crashed s (s_disk s) /\ listing (s_disk s) [(5, true)] /\ s_commits s = [1; 2; 5].
Proof.
  cbv zeta. eexists. split; [cbn [app]; go|]. split; [|split; [intros (n & r & [H|H]); discriminate H|]; split; [now left|]; split; [|reflexivity]].
  - eapply waits_app; [go|nogc|].
    split; [reflexivity|].
    match goal with |- match ?x with _ => _ end => generalize x end. intros [s|]; [|exact Logic.I].
    change (gc_waits s [Commit 5; Begin_flush; Step; Step; Step; Step]). nogc.
  - cbn [s_disk]. split; [repeat constructor; intros []|]. intros i x. unfold dset, st_init; cbn [s_disk fname_eqb]. unfold dset; cbn [fname_eqb]. split.
    + intros [H|[]]. injection H as <- <-. discriminate.
    + intros H. destruct (i =? 5) eqn:E; destruct x; cbn in H; rewrite ?E in H; cbn in H; try congruence; [left; f_equal; lia|..]; destruct (i =? 2); cbn in H; congruence.
Qed.
