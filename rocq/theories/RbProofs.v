(** The red-black tree keeps its order and its balance; pointer walks are rank steps. *)
From Verif Require Import Base RbModel.

Section Rb.
Context {X : Type}.
Implicit Types (t n : rb X) (k : ctx X).

(** ** order of the nodes around a hole *)
Fixpoint before k : list X :=
  match k with
  | [] => []
  | f :: k' => match f_side f with L => before k' | R => before k' ++ inorder (f_other f) ++ [f_x f] end
  end.
Fixpoint after k : list X :=
  match k with
  | [] => []
  | f :: k' => match f_side f with L => f_x f :: inorder (f_other f) ++ after k' | R => after k' end
  end.

Lemma inorder_plug t k : inorder (plug t k) = before k ++ inorder t ++ after k.
Proof.
  revert t; induction k as [|f k IH]; intros t; cbn [plug before after]; [now rewrite app_nil_r|].
  rewrite IH. unfold plug1, mk. destruct (f_side f); cbn [inorder]; rewrite <- ?app_assoc; cbn [app]; reflexivity.
Qed.
Lemma inorder_length t : length (inorder t) = size t.
Proof. induction t as [|c l IHl x r IHr]; cbn [inorder size]; [reflexivity|]. rewrite app_length; cbn [length]. lia. Qed.
Lemma rank_before k : rank k = length (before k).
Proof.
  induction k as [|f k IH]; cbn [rank before]; [reflexivity|].
  destruct (f_side f); [exact IH|]. rewrite !app_length, IH, <- inorder_length. cbn [length]. lia.
Qed.
Lemma inorder_paint c t : inorder (paint c t) = inorder t.
Proof. now destruct t. Qed.
Lemma plug_app t k1 k2 : plug t (k1 ++ k2) = plug (plug t k1) k2.
Proof. revert t; induction k1 as [|f k IH]; intros t; cbn [app plug]; auto. Qed.
Lemma before_app k1 k2 : before (k1 ++ k2) = before k2 ++ before k1.
Proof.
  induction k1 as [|f k IH]; cbn [app before]; [now rewrite app_nil_r|].
  destruct (f_side f); [exact IH|]. rewrite IH, <- !app_assoc. reflexivity.
Qed.
Lemma after_app k1 k2 : after (k1 ++ k2) = after k1 ++ after k2.
Proof.
  induction k1 as [|f k IH]; cbn [app after]; [reflexivity|].
  destruct (f_side f); [|exact IH]. rewrite IH. cbn [app]. rewrite <- !app_assoc. reflexivity.
Qed.

(** ** the invariant *)
Inductive rbt : rb X -> color -> nat -> Prop :=
| rbE : rbt E Black 0
| rbR l x r h : rbt l Black h -> rbt r Black h -> rbt (T Red l x r) Red h
| rbB l x r c1 c2 h : rbt l c1 h -> rbt r c2 h -> rbt (T Black l x r) Black (S h).
(** [cok k c h]: a subtree with root colour c and black height h fits the hole *)
Inductive cok : ctx X -> color -> nat -> Prop :=
| cokN h : cok [] Black h
| cokR d x o k h : rbt o Black h -> cok k Red h -> cok (mkframe d Red x o :: k) Black h
| cokB d x o k c co h : rbt o co h -> cok k Black (S h) -> cok (mkframe d Black x o :: k) c h.
Definition wf t : Prop := exists h, rbt t Black h.

Lemma rbt_color t c h : rbt t c h -> c = if is_red t then Red else Black.
Proof. now intros []. Qed.
Lemma rbt_mk_red d x a b h : rbt a Black h -> rbt b Black h -> rbt (mk d Red x a b) Red h.
Proof. destruct d; intros; constructor; assumption. Qed.
Lemma rbt_mk_black d x a b ca cb h : rbt a ca h -> rbt b cb h -> rbt (mk d Black x a b) Black (S h).
Proof. destruct d; intros; econstructor; eassumption. Qed.
Lemma rbt_paint_red t h : rbt t Red h -> rbt (paint Black t) Black (S h).
Proof. inversion 1; subst; cbn [paint]. econstructor; eassumption. Qed.

Lemma cok_weak k c h : cok k Red h -> cok k c h.
Proof. inversion 1; subst. econstructor; eassumption. Qed.
Lemma cok_plug k : forall t c h, rbt t c h -> cok k c h -> wf (plug t k).
Proof.
  induction k as [|f k IH]; intros t c h Ht Hk; cbn [plug].
  - inversion Hk; subst. now exists h.
  - inversion Hk; subst; unfold plug1; cbn [f_side f_color f_x f_other].
    + eapply IH; [|eassumption]. apply rbt_mk_red; assumption.
    + eapply IH; [|eassumption]. eapply rbt_mk_black; eassumption.
Qed.
(* a hole that is not a child of a red node takes a red subtree, the root excepted *)
Lemma paint_wf t : wf t -> paint Black t = t.
Proof. intros [h Hw]. inversion Hw; subst; reflexivity. Qed.

(** ** insertion *)
Lemma set_fixup_ok k : forall n h c, rbt n Red h -> cok k c h ->
  exists t, set_fixup n k = Ok t /\ wf t /\ inorder t = before k ++ inorder n ++ after k.
Proof.
  induction k as [k IH] using (well_founded_induction (Wf_nat.well_founded_ltof _ (@length _))).
  intros n h c Hn Hk. destruct k as [|p k1].
  - cbn [set_fixup]. eexists; split; [reflexivity|]. split.
    + exists (S h). now apply rbt_paint_red.
    + rewrite inorder_paint. cbn [before after]. now rewrite app_nil_r.
  - cbn [set_fixup]. destruct p as [ps pc px po]. cbn [f_color f_side f_other f_x].
    destruct pc.
    + inversion Hk; subst.
      assert (Hw : wf (plug n (mkframe ps Black px po :: k1))).
      { eapply (cok_plug (_ :: k1)); [exact Hn|]. econstructor; eassumption. }
      eexists; split; [reflexivity|]. split.
      * change (plug (plug1 n (mkframe ps Black px po)) k1) with (plug n (mkframe ps Black px po :: k1)).
        now rewrite paint_wf.
      * rewrite inorder_paint. apply inorder_plug.
    + inversion Hk as [|d0 x0 o0 k0 h0 Ho Hk1|]; subst.
      destruct k1 as [|g k2]; [inversion Hk1|]. destruct g as [gs gc gx u].
      inversion Hk1 as [| |gd0 gx0 go0 gk0 gc0 co gh0 Hu Hk2]; subst. cbn [f_side f_color f_x f_other].
      destruct (is_red u) eqn:Eu.
      * pose proof (rbt_color _ _ _ Hu) as Ec. rewrite Eu in Ec. subst co.
        edestruct (IH k2) with (n := mk gs Red gx (mk ps Black px n po) (paint Black u)) as (t & Et & Wt & It).
        3: { exact Hk2. }
        { unfold ltof. cbn [length]. lia. }
        { apply (rbt_mk_red gs gx).
          - eapply (rbt_mk_black ps px); eassumption.
          - eapply rbt_paint_red; eassumption. }
        exists t. split; [exact Et|]. split; [exact Wt|]. rewrite It.
        unfold mk. destruct gs, ps; cbn [inorder before after f_side f_x f_other]; rewrite ?inorder_paint;
          rewrite <- ?app_assoc; cbn [app]; rewrite <- ?app_assoc; reflexivity.
      * pose proof (rbt_color _ _ _ Hu) as Ec. rewrite Eu in Ec. subst co.
        inversion Hn as [|nl nx nr h1 Hnl Hnr|]; subst.
        assert (HP : forall t, rbt t Black (S h) -> wf (plug t k2)) by (intros; eapply cok_plug; eassumption).
        destruct gs, ps; cbn [mk rotate bind opp paint]; (eexists; split; [reflexivity|]);
          (rewrite paint_wf; [split|]);
          try (apply HP; eapply rbB; [try eassumption|try eassumption]; try (constructor; eassumption));
          rewrite inorder_plug; cbn [inorder before after f_side f_x f_other];
          rewrite <- ?app_assoc; cbn [app]; rewrite <- ?app_assoc; reflexivity.
Qed.

(** [locate] finds the node of a given rank *)
Lemma locate_ok t : forall i k, (i < size t)%nat ->
  exists c l x r k', locate t i k = Ok (T c l x r, k') /\ plug (T c l x r) k' = plug t k
    /\ (length (before k') + size l = length (before k) + i)%nat.
Proof.
  induction t as [|c l IHl x r IHr]; intros i k H; cbn [size] in H; [lia|]. cbn [locate].
  destruct (i <? size l)%nat eqn:E1.
  - destruct (IHl i (mkframe L c x r :: k)) as (c' & l' & x' & r' & k' & H1 & H2 & H3); [lia|].
    exists c', l', x', r', k'. split; [exact H1|]. split; [exact H2|]. cbn [before f_side] in H3. lia.
  - destruct (i =? size l)%nat eqn:E2.
    + exists c, l, x, r, k. repeat split. lia.
    + destruct (IHr (i - size l - 1)%nat (mkframe R c x l :: k)) as (c' & l' & x' & r' & k' & H1 & H2 & H3); [lia|].
      exists c', l', x', r', k'. split; [exact H1|]. split; [exact H2|].
      cbn [before f_side f_other f_x] in H3. rewrite !app_length in H3. cbn [length] in H3.
      rewrite inorder_length in H3. lia.
Qed.

(** a zipper of a well formed tree *)
Lemma unplug k : forall t h0 , rbt (plug t k) Black h0 -> exists c h, rbt t c h /\ cok k c h.
Proof.
  induction k as [|f k IH]; intros t h0 H; cbn [plug] in H.
  - exists Black, h0. split; [exact H|constructor].
  - destruct (IH _ _ H) as (c & h & Ht & Hk). destruct f as [d fc x o]. unfold plug1 in Ht. cbn in Ht.
    destruct d; cbn [mk] in Ht; inversion Ht; subst.
    + exists Black, h. split; [assumption|]. constructor; assumption.
    + exists c1, h1. split; [assumption|]. econstructor; eassumption.
    + exists Black, h. split; [assumption|]. constructor; assumption.
    + exists c2, h1. split; [assumption|]. econstructor; eassumption.
Qed.

(** ** removal *)
Definition dleft (d : side) (a b : list X) : list X := match d with L => a | R => b end.
Lemma inorder_mk d c x a b : inorder (mk d c x a b)
  = dleft d (inorder a) (inorder b) ++ x :: dleft d (inorder b) (inorder a).
Proof. now destruct d. Qed.

(* [n] is one black short of the sibling *)
Lemma del_case_ok d pc px n s h : rbt n Black h -> rbt s Black (S h) ->
  exists o, del_case d pc px n s = Ok o /\
  match o with
  | DStop t => rbt t pc (if pc then S (S h) else S h) /\ inorder t = inorder (mk d pc px n s)
  | DUp t => rbt (paint Black t) Black (S h) /\ (pc = Black -> paint Black t = t)
      /\ inorder t = inorder (mk d pc px n s)
  end.
Proof.
  intros Hn Hs.
  inversion Hs as [| |sl sx sr c1 c2 h1 Hsl Hsr]; subst.
  unfold del_case.
  pose proof (rbt_color _ _ _ Hsl) as El. pose proof (rbt_color _ _ _ Hsr) as Er.
  destruct d; cbn [child opp bind negb];
  (destruct (is_red sl) eqn:Rl, (is_red sr) eqn:Rr; cbn [negb andb bind]; subst c1 c2;
   try (inversion Hsr; subst); try (inversion Hsl; subst); cbn [child opp bind elt paint mk rotate];
   eexists; (split; [reflexivity|]); cbn [paint]; repeat split; try (intros ->; reflexivity);
   try (destruct pc; repeat (eassumption || econstructor); fail);
   cbn [inorder]; rewrite <- ?app_assoc; cbn [app]; rewrite <- ?app_assoc; reflexivity).
Qed.

Lemma del_fixup_ok k : forall n h c, rbt n Black h -> cok k c (S h) ->
  exists t, del_fixup n k = Ok t /\ wf t /\ inorder t = before k ++ inorder n ++ after k.
Proof.
  induction k as [|p k1 IH]; intros n h c Hn Hk.
  - cbn [del_fixup]. eexists; split; [reflexivity|]. split.
    + exists h. inversion Hn; subst; cbn [paint]; econstructor; eassumption.
    + rewrite inorder_paint. cbn. now rewrite app_nil_r.
  - destruct p as [d pc px s]. cbn [del_fixup f_side f_color f_x f_other].
    assert (HI : forall t, inorder t = inorder (mk d pc px n s) ->
              before k1 ++ inorder t ++ after k1
              = before (mkframe d pc px s :: k1) ++ inorder n ++ after (mkframe d pc px s :: k1)).
    { intros t ->. rewrite <- (inorder_plug _ k1), <- (inorder_plug _ (_ :: k1)). reflexivity. }
    inversion Hk as [|d0 x0 o0 k0 h0 Ho Hk1|d0 x0 o0 k0 c0 co h0 Ho Hk1]; subst.
    + (* p red, sibling black *)
      destruct (del_case_ok d Red px n s h Hn Ho) as (o & Eo & HC).
      inversion Ho as [| |sl sx sr c1 c2 h1 Hsl Hsr]; subst. rewrite Eo; cbn [bind].
      destruct o as [t|t].
      * destruct HC as (H1 & H3).
        assert (Hw : wf (plug t k1)) by (eapply cok_plug; eassumption).
        eexists; split; [reflexivity|]. rewrite paint_wf by exact Hw. split; [exact Hw|].
        rewrite inorder_plug. now apply HI.
      * destruct HC as (H1 & _ & H3).
        eexists; split; [reflexivity|]. split.
        { eapply cok_plug; [exact H1|]. now apply cok_weak. }
        rewrite inorder_plug, inorder_paint. now apply HI.
    + destruct s as [|cs sl sx sr]; [inversion Ho|]. destruct cs.
      * (* sibling black *)
        assert (Ho' : rbt (T Black sl sx sr) Black (S h)) by (inversion Ho; subst; exact Ho).
        destruct (del_case_ok d Black px n _ h Hn Ho') as (o & Eo & HC). rewrite Eo; cbn [bind].
        destruct o as [t|t].
        { destruct HC as (H1 & H3).
          assert (Hw : wf (plug t k1)) by (eapply cok_plug; eassumption).
          eexists; split; [reflexivity|]. rewrite paint_wf by exact Hw. split; [exact Hw|].
          rewrite inorder_plug. now apply HI. }
        { destruct HC as (H1 & H2 & H3). rewrite (H2 eq_refl) in H1.
          destruct (IH t (S h) Black H1 Hk1) as (t' & E' & W' & I').
          exists t'. split; [exact E'|]. split; [exact W'|]. rewrite I'. now apply HI. }
      * (* sibling red *)
        inversion Ho as [|sl' sx' sr' h1 Hsl Hsr|]; subst.
        assert (HX : exists sn sf, child d (T Red sl sx sr) = Ok sn /\ child (opp d) (T Red sl sx sr) = Ok sf
                  /\ rbt sn Black (S h) /\ rbt sf Black (S h)
                  /\ T Red sl sx sr = mk d Red sx sn sf).
        { destruct d; cbn [child opp mk]; eauto 10. }
        destruct HX as (sn & sf & E1 & E2 & Hsn & Hsf & Emk).
        rewrite E1, E2; cbn [bind].
        destruct (del_case_ok d Red px n sn h Hn Hsn) as (o & Eo & HC). rewrite Eo; cbn [bind].
        assert (HJ : forall t, inorder t = inorder (mk d Red px n sn) ->
                  inorder (mk d Black sx t sf) = inorder (mk d Black px n (T Red sl sx sr))).
        { intros t Ht. rewrite Emk. destruct d; cbn [mk inorder] in *; rewrite Ht, <- ?app_assoc; reflexivity. }
        destruct o as [t|t].
        { destruct HC as (H1 & H3).
          assert (Hw : wf (plug (mk d Black sx t sf) k1)).
          { eapply cok_plug; [|exact Hk1]. eapply rbt_mk_black; eassumption. }
          eexists; split; [reflexivity|]. rewrite paint_wf by exact Hw. split; [exact Hw|].
          rewrite inorder_plug. apply HI. now apply HJ. }
        { destruct HC as (H1 & _ & H3). eexists; split; [reflexivity|]. split.
          - eapply cok_plug; [|exact Hk1]. eapply rbt_mk_black; eassumption.
          - rewrite inorder_plug. apply HI. apply HJ. now rewrite inorder_paint. }
Qed.

(* splicing a child out of the tree *)
Lemma splice_ok c n k h0 : rbt n (if is_red n then Red else Black) h0 ->
  (c = Red -> is_red n = false /\ cok k Red h0) -> (c = Black -> cok k Black (S h0)) ->
  exists t, match c with
            | Red => Ok (plug n k)
            | Black => if is_red n then Ok (plug (paint Black n) k) else del_fixup n k
            end = Ok t /\ wf t /\ inorder t = before k ++ inorder n ++ after k.
Proof.
  intros Hn H1 H2. destruct c.
  - specialize (H2 eq_refl). destruct (is_red n) eqn:En.
    + eexists; split; [reflexivity|]. split; [eapply cok_plug; [|exact H2]; now apply rbt_paint_red|].
      rewrite inorder_plug, inorder_paint. reflexivity.
    + eapply del_fixup_ok; eassumption.
  - destruct (H1 eq_refl) as [En Hk]. rewrite En in Hn. eexists; split; [reflexivity|].
    split; [|apply inorder_plug]. eapply cok_plug; [exact Hn|]. now apply cok_weak.
Qed.

Lemma rbt_color' t c h : rbt t c h -> rbt t (if is_red t then Red else Black) h.
Proof. intros H. now rewrite <- (rbt_color _ _ _ H). Qed.

Lemma leftmost_ok r : forall k c h, rbt r c h -> cok k c h -> r <> E ->
  exists cy xy ry ky h', leftmost r k = Ok (cy, xy, ry, ky)
    /\ (exists c', rbt (T cy E xy ry) c' h' /\ cok ky c' h')
    /\ plug (T cy E xy ry) ky = plug r k
    /\ before ky = before k /\ inorder r ++ after k = xy :: inorder ry ++ after ky.
Proof.
  induction r as [|c l IHl x r' IHr]; intros k c0 h Hr Hk Hne; [congruence|].
  destruct l as [|cl ll lx lr].
  - exists c, x, r', k, h. cbn [leftmost]. repeat split. exists c0. split; assumption.
  - cbn [leftmost]. 
    assert (HK : exists c1 h1, rbt (T cl ll lx lr) c1 h1 /\ cok (mkframe L c x r' :: k) c1 h1).
    { inversion Hr; subst.
      - exists Black, h. split; [assumption|]. constructor; assumption.
      - exists c1, h0. split; [assumption|]. econstructor; eassumption. }
    destruct HK as (c1 & h1 & Hl & HK).
    destruct (IHl _ _ _ Hl HK) as (cy & xy & ry & ky & h' & H1 & H2 & H3 & H4 & H5); [congruence|].
    exists cy, xy, ry, ky, h'. split; [exact H1|]. split; [exact H2|]. split; [exact H3|].
    split; [exact H4|]. cbn [after f_side f_x f_other] in H5. rewrite <- H5.
    cbn [inorder]. rewrite <- !app_assoc. reflexivity.
Qed.

(* the path found by [leftmost] does not depend on what is above *)
Lemma leftmost_app r : forall k k0, leftmost r (k ++ k0) =
  do (y : color * X * rb X * ctx X) <- leftmost r k; let '(a, b, c, ky) := y in Ok (a, b, c, ky ++ k0).
Proof.
  induction r as [|c l IHl x r' IHr]; intros k k0; [reflexivity|].
  destruct l as [|cl ll lx lr]; [reflexivity|]. cbn [leftmost]. apply (IHl (mkframe L c x r' :: k) k0).
Qed.

(* the payload stored in the frames above does not matter for the shape *)
Lemma cok_frame d c x y o k cc h : cok (mkframe d c x o :: k) cc h -> cok (mkframe d c y o :: k) cc h.
Proof. inversion 1; subst; econstructor; eassumption. Qed.
Lemma cok_app_frame k1 : forall d c x y o k cc h, cok (k1 ++ mkframe d c x o :: k) cc h ->
  cok (k1 ++ mkframe d c y o :: k) cc h.
Proof.
  induction k1 as [|f k1 IH]; intros; cbn [app] in *; [eapply cok_frame; eassumption|].
  inversion H; subst; econstructor; eauto.
Qed.

Lemma rb_remove_ok c l x r k : wf (plug (T c l x r) k) ->
  exists t, rb_remove (T c l x r, k) = Ok t /\ wf t
    /\ inorder t = before k ++ inorder l ++ inorder r ++ after k.
Proof.
  intros [h0 H0]. destruct (unplug _ _ _ H0) as (c0 & h & Ht & Hk). clear H0 h0.
  unfold rb_remove.
  assert (Hc : c0 = c) by (inversion Ht; reflexivity). subst c0.
  (* the node has at most one child *)
  assert (One : forall n, (n = r /\ l = E) \/ (n = l /\ r = E) ->
            exists t, match c with
                      | Red => Ok (plug n k)
                      | Black => if is_red n then Ok (plug (paint Black n) k) else del_fixup n k
                      end = Ok t /\ wf t /\ inorder t = before k ++ inorder n ++ after k).
  { intros n Hn. inversion Ht as [|l0 x0 r0 h0 Hl0 Hr0|l0 x0 r0 c1 c2 h1 Hl0 Hr0]; subst.
    - apply (splice_ok Red n k h).
      + eapply rbt_color' with (c := Black). destruct Hn as [[-> _]|[-> _]]; assumption.
      + intros _. split; [|exact Hk]. destruct Hn as [[-> _]|[-> _]].
        * inversion Hr0; reflexivity.
        * inversion Hl0; reflexivity.
      + discriminate.
    - apply (splice_ok Black n k h1).
      + destruct Hn as [[-> _]|[-> _]]; eapply rbt_color'; eassumption.
      + discriminate.
      + intros _. exact Hk. }
  destruct l as [|cl ll lx lr].
  { cbn [bind]. destruct (One r) as (t & E1 & W & I); [now left|]. exists t. now rewrite I. }
  destruct r as [|cr rl rx rr].
  { cbn [bind]. destruct (One (T cl ll lx lr)) as (t & E1 & W & I); [now right|]. exists t. rewrite I.
    split; [exact E1|]. split; [exact W|]. cbn [inorder app]. reflexivity. }
  set (l := T cl ll lx lr) in *. set (r := T cr rl rx rr) in *.
  assert (HR : exists c1 h1, rbt r c1 h1 /\ cok (mkframe R c x l :: k) c1 h1).
  { inversion Ht; subst; (eexists _, _; split; [eassumption|]; econstructor; eassumption). }
  destruct HR as (c1 & h1 & Hr & HK).
  destruct (leftmost_ok r _ _ _ Hr HK) as (cy & xy & ry & ky & h' & H1 & (c' & H2 & H2') & H3 & H4 & H5); [discriminate|].
  pose proof (leftmost_app r [] (mkframe R c x l :: k)) as HA. cbn [app] in HA.
  rewrite H1 in HA. destruct (leftmost r []) as [[[[cy0 xy0] ry0] ky0]| |]; cbn [bind] in HA; try discriminate.
  injection HA as -> -> -> ->. cbn [bind].
  assert (Hk' : cok (ky0 ++ mkframe R c xy0 l :: k) c' h') by (eapply cok_app_frame; exact H2').
  assert (HB : inorder l ++ inorder r ++ after k = inorder l ++ xy0 :: inorder ry0 ++ after (ky0 ++ mkframe R c x l :: k)).
  { f_equal. exact H5. }
  assert (HC : before (ky0 ++ mkframe R c xy0 l :: k) ++ inorder ry0 ++ after (ky0 ++ mkframe R c xy0 l :: k)
             = before k ++ inorder l ++ inorder r ++ after k).
  { rewrite HB. rewrite before_app in H4 |- *. rewrite !after_app. cbn [after before f_side f_x f_other] in H4 |- *.
    assert (before ky0 = []) as ->.
    { apply (f_equal (@length _)) in H4. rewrite !app_length in H4. cbn [length] in H4.
      destruct (before ky0); [reflexivity|]. cbn [length] in H4. lia. }
    rewrite app_nil_r, <- !app_assoc. cbn [app]. reflexivity. }
  rewrite <- HC.
  inversion H2 as [|l0 x0 r0 h2 Hl0 Hr0|l0 x0 r0 cc1 cc2 h2 Hl0 Hr0]; subst.
  - apply (splice_ok Red ry0 _ h').
    + eapply rbt_color'; eassumption.
    + intros _. split; [|exact Hk']. inversion Hr0; reflexivity.
    + discriminate.
  - apply (splice_ok Black ry0 _ h2).
    + eapply rbt_color'; eassumption.
    + discriminate.
    + intros _. exact Hk'.
Qed.

(** ** search *)
(** along the order: first the nodes below the key, at most one equal, then those above *)
Definition mono (g : X -> Z) (l : list X) : Prop :=
  forall a x b y c, l = a ++ x :: b ++ y :: c -> 0 <= g x -> 0 < g y.
Lemma mono_app g a b : mono g (a ++ b) -> mono g a /\ mono g b.
Proof.
  intros H; split.
  - intros a1 x b1 y c1 -> Hx. apply (H a1 x b1 y (c1 ++ b)); [|exact Hx].
    rewrite <- !app_assoc. cbn [app]. rewrite <- !app_assoc. reflexivity.
  - intros a1 x b1 y c1 -> Hx. apply (H (a ++ a1) x b1 y c1); [|exact Hx]. now rewrite <- !app_assoc.
Qed.
Lemma mono_below g a x b : mono g (a ++ x :: b) -> g x <= 0 -> forall y, In y a -> g y < 0.
Proof.
  intros H Hx y Hy. apply in_split in Hy. destruct Hy as (a1 & a2 & ->).
  destruct (Z_lt_le_dec (g y) 0) as [|Hc]; [assumption|].
  specialize (H a1 y a2 x b). rewrite <- app_assoc in H. specialize (H eq_refl Hc). lia.
Qed.
Lemma mono_above g a x b : mono g (a ++ x :: b) -> 0 <= g x -> forall y, In y b -> 0 < g y.
Proof.
  intros H Hx y Hy. apply in_split in Hy. destruct Hy as (b1 & b2 & ->).
  apply (H a x b1 y b2); [reflexivity|exact Hx].
Qed.

Definition found (g : X -> Z) (x : X) (l r : rb X) (a b : list X) : Prop :=
  (g x < 0 -> r = E /\ forall y, In y b -> 0 < g y) /\
  (0 < g x -> l = E /\ forall y, In y a -> g y < 0).
Lemma rb_get_ok f g t : forall k,
  (forall x, In x (inorder t) -> f x = Ok (g x)) -> mono g (inorder t) -> t <> E ->
  exists c l x r k' a b, rb_get f t k = Ok (Some (T c l x r, k'), g x)
    /\ plug (T c l x r) k' = plug t k /\ inorder t = a ++ x :: b
    /\ before k' ++ inorder l = before k ++ a /\ inorder r ++ after k' = b ++ after k
    /\ found g x l r a b.
Proof.
  induction t as [|c l IHl x r IHr]; intros k Hf Hm Hne; [congruence|].
  cbn [inorder] in Hf, Hm. destruct (mono_app _ _ _ Hm) as [Hml Hmr].
  destruct (mono_app g [x] (inorder r) Hmr) as [_ Hmr'].
  cbn [rb_get]. rewrite (Hf x) by (apply in_or_app; right; now left). cbn [bind].
  destruct (g x <? 0) eqn:E1.
  - destruct r as [|cr rl rx rr].
    + cbn [rb_get bind]. exists c, l, x, E, k, (inorder l), []. cbn [inorder app].
      repeat split; auto; intros; try lia; try easy. 
    + destruct (IHr (mkframe R c x l :: k)) as (c' & l' & x' & r' & k' & a & b & H1 & H2 & H3 & H4 & H5 & H6 & H7).
      { intros y Hy. apply Hf. apply in_or_app; right; now right. } { exact Hmr'. } { discriminate. }
      rewrite H1. cbn [bind]. exists c', l', x', r', k', (inorder l ++ x :: a), b.
      split; [reflexivity|]. split; [exact H2|]. split.
      { cbn [inorder]. cbn [inorder] in H3. rewrite H3, <- app_assoc. reflexivity. }
      split. { rewrite H4. cbn [before f_side f_x f_other]. rewrite <- !app_assoc. reflexivity. }
      split; [exact H5|]. split; [exact H6|]. intros Hx. destruct (H7 Hx) as [Hl Ha]. split; [exact Hl|].
      intros y Hy. apply in_app_or in Hy. destruct Hy as [Hy|[<-|Hy]]; [|lia|now apply Ha].
      apply (mono_below g (inorder l) x (inorder (T cr rl rx rr)) Hm); [lia|exact Hy].
  - destruct (0 <? g x) eqn:E2.
    + destruct l as [|cl ll lx lr].
      * cbn [rb_get bind]. exists c, E, x, r, k, [], (inorder r). cbn [inorder app].
        repeat split; auto; intros; try lia; try easy; try now rewrite app_nil_r.
      * destruct (IHl (mkframe L c x r :: k)) as (c' & l' & x' & r' & k' & a & b & H1 & H2 & H3 & H4 & H5 & H6 & H7).
        { intros y Hy. apply Hf. apply in_or_app; now left. } { exact Hml. } { discriminate. }
        rewrite H1. cbn [bind]. exists c', l', x', r', k', a, (b ++ x :: inorder r).
        split; [reflexivity|]. split; [exact H2|]. split.
        { cbn [inorder]. cbn [inorder] in H3. rewrite H3, <- app_assoc. reflexivity. }
        split; [exact H4|]. split. { rewrite H5. cbn [after f_side f_x f_other]. rewrite <- !app_assoc. reflexivity. }
        split; [|exact H7]. intros Hx. destruct (H6 Hx) as [Hr Hb]. split; [exact Hr|].
        intros y Hy. apply in_app_or in Hy. destruct Hy as [Hy|[<-|Hy]]; [now apply Hb|lia|].
        apply (mono_above g (inorder (T cl ll lx lr)) x (inorder r) Hm); [lia|exact Hy].
    + exists c, l, x, r, k, (inorder l), (inorder r). repeat split; auto; intros; lia.
Qed.

(** insertion where the search ended *)
Lemma rb_set_ok c l x r k prel y : wf (plug (T c l x r) k) -> prel <> 0 ->
  (prel < 0 -> r = E) -> (0 < prel -> l = E) ->
  exists t, rb_set (Some (T c l x r, k)) prel y = Ok t /\ wf t /\
    inorder t = before k ++ inorder l ++ (if 0 <? prel then [y; x] else [x; y]) ++ inorder r ++ after k.
Proof.
  intros [h0 Hw] Hp Hr Hl. destruct (unplug _ _ _ Hw) as (c0 & h & Ht & Hk).
  unfold rb_set. replace (prel =? 0) with false by lia.
  destruct (0 <? prel) eqn:E1.
  - rewrite Hl by lia. rewrite Hl in Ht by lia.
    assert (HK : exists cc, cok (mkframe L c x r :: k) cc 0).
    { inversion Ht as [|? ? ? ? HA HB|? ? ? ? ? ? HA HB]; subst; inversion HA; subst; exists Black; econstructor; eassumption. }
    destruct HK as (cc & HK).
    destruct (set_fixup_ok (mkframe L c x r :: k) (T Red E y E) 0 cc) as (t & E2 & W & I); [repeat constructor|exact HK|].
    exists t. split; [exact E2|]. split; [exact W|]. rewrite I. reflexivity.
  - rewrite Hr by lia. rewrite Hr in Ht by lia.
    assert (HK : exists cc, cok (mkframe R c x l :: k) cc 0).
    { inversion Ht as [|? ? ? ? HA HB|? ? ? ? ? ? HA HB]; subst; inversion HB; subst; exists Black; econstructor; eassumption. }
    destruct HK as (cc & HK).
    destruct (set_fixup_ok (mkframe R c x l :: k) (T Red E y E) 0 cc) as (t & E2 & W & I); [repeat constructor|exact HK|].
    exists t. split; [exact E2|]. split; [exact W|]. rewrite I.
    cbn [before after f_side f_x f_other inorder app]. rewrite <- !app_assoc. reflexivity.
Qed.
Lemma rb_set_empty (y : X) : rb_set None 0 y = Ok (T Black E y E).
Proof. reflexivity. Qed.

(** ** steps to the neighbour: [loc] points into the tree [t0] *)
Lemma rb_min_ok t : forall k, t <> E -> exists c x r k', rb_min t k = Some (T c E x r, k')
  /\ plug (T c E x r) k' = plug t k /\ before k' = before k
  /\ inorder t ++ after k = x :: inorder r ++ after k'.
Proof.
  induction t as [|c l IHl x r IHr]; intros k Hne; [congruence|]. destruct l as [|cl ll lx lr].
  - exists c, x, r, k. repeat split.
  - destruct (IHl (mkframe L c x r :: k)) as (c' & x' & r' & k' & H1 & H2 & H3 & H4); [discriminate|].
    exists c', x', r', k'. repeat split; try assumption.
    cbn [after f_side f_x f_other] in H4. rewrite <- H4. cbn [inorder]. rewrite <- !app_assoc. reflexivity.
Qed.
Lemma rb_max_ok t : forall k, t <> E -> exists c l x k', rb_max t k = Some (T c l x E, k')
  /\ plug (T c l x E) k' = plug t k /\ after k' = after k
  /\ before k ++ inorder t = (before k' ++ inorder l) ++ [x].
Proof.
  induction t as [|c l IHl x r IHr]; intros k Hne; [congruence|]. destruct r as [|cl ll lx lr].
  - exists c, l, x, k. repeat split. cbn [inorder]. now rewrite <- app_assoc.
  - destruct (IHr (mkframe R c x l :: k)) as (c' & l' & x' & k' & H1 & H2 & H3 & H4); [discriminate|].
    exists c', l', x', k'. repeat split; try assumption.
    cbn [before f_side f_x f_other] in H4. rewrite <- H4. cbn [inorder]. rewrite <- !app_assoc. reflexivity.
Qed.
Lemma up_right k : forall t, match up_while R t k with
  | None => after k = []
  | Some (n, k') => exists c l x r, n = T c l x r /\ plug n k' = plug t k
      /\ before k' ++ inorder l = before k ++ inorder t
      /\ after k = x :: inorder r ++ after k'
  end.
Proof.
  induction k as [|f k IH]; intros t; cbn [up_while]; [reflexivity|]. destruct f as [d c x o].
  destruct d; cbn [f_side plug1 mk f_color f_x f_other].
  - exists c, t, x, o. repeat split.
  - unfold plug1; cbn [f_side mk f_color f_x f_other].
    specialize (IH (T c o x t)). destruct (up_while R (T c o x t) k) as [[n k']|]; [|exact IH].
    destruct IH as (c' & l' & x' & r' & -> & H1 & H2 & H3). exists c', l', x', r'.
    repeat split; try assumption. rewrite H2. cbn [inorder before f_side f_x f_other]. rewrite <- !app_assoc. reflexivity.
Qed.
Lemma up_left k : forall t, match up_while L t k with
  | None => before k = []
  | Some (n, k') => exists c l x r, n = T c l x r /\ plug n k' = plug t k
      /\ before k = before k' ++ inorder l ++ [x]
      /\ inorder r ++ after k' = inorder t ++ after k
  end.
Proof.
  induction k as [|f k IH]; intros t; cbn [up_while]; [reflexivity|]. destruct f as [d c x o].
  destruct d; cbn [f_side plug1 mk f_color f_x f_other].
  - unfold plug1; cbn [f_side mk f_color f_x f_other].
    specialize (IH (T c t x o)). destruct (up_while L (T c t x o) k) as [[n k']|]; [|exact IH].
    destruct IH as (c' & l' & x' & r' & -> & H1 & H2 & H3). exists c', l', x', r'.
    repeat split; try assumption. rewrite H3. cbn [inorder after f_side f_x f_other]. rewrite <- !app_assoc. reflexivity.
  - exists c, o, x, t. repeat split.
Qed.

Lemma rb_next_ok c l x r k : match rb_next (T c l x r, k) with
  | None => inorder r ++ after k = []
  | Some (n, k') => exists c' l' x' r', n = T c' l' x' r' /\ plug n k' = plug (T c l x r) k
      /\ before k' ++ inorder l' = before k ++ inorder l ++ [x]
      /\ inorder r ++ after k = x' :: inorder r' ++ after k'
  end.
Proof.
  destruct r as [|cr rl rx rr].
  - cbn [rb_next]. pose proof (up_right k (T c l x E)) as H.
    destruct (up_while R (T c l x E) k) as [[n k']|]; [exact H|exact H].
  - cbn [rb_next]. destruct (rb_min_ok (T cr rl rx rr) (mkframe R c x l :: k)) as (c' & x' & r' & k' & H1 & H2 & H3 & H4); [discriminate|].
    rewrite H1. exists c', E, x', r'. split; [reflexivity|]. split; [exact H2|]. split; [|exact H4].
    rewrite H3. cbn [inorder before f_side f_x f_other]. now rewrite app_nil_r.
Qed.
Lemma rb_prev_ok c l x r k : match rb_prev (T c l x r, k) with
  | None => before k ++ inorder l = []
  | Some (n, k') => exists c' l' x' r', n = T c' l' x' r' /\ plug n k' = plug (T c l x r) k
      /\ before k ++ inorder l = before k' ++ inorder l' ++ [x']
      /\ inorder r' ++ after k' = x :: inorder r ++ after k
  end.
Proof.
  destruct l as [|cl ll lx lr].
  - cbn [rb_prev]. pose proof (up_left k (T c E x r)) as H.
    destruct (up_while L (T c E x r) k) as [[n k']|].
    + cbn [inorder app] in *. rewrite app_nil_r. exact H.
    + cbn [inorder]. now rewrite app_nil_r.
  - cbn [rb_prev]. destruct (rb_max_ok (T cl ll lx lr) (mkframe L c x r :: k)) as (c' & l' & x' & k' & H1 & H2 & H3 & H4); [discriminate|].
    rewrite H1. exists c', l', x', E. split; [reflexivity|]. split; [exact H2|]. split.
    + cbn [before f_side] in H4. rewrite H4, <- app_assoc. reflexivity.
    + rewrite H3. reflexivity.
Qed.

(** ** balance *)
Fixpoint height (t : rb X) : nat := match t with E => 0 | T _ l _ r => S (Nat.max (height l) (height r)) end.
Lemma rbt_height t c h : rbt t c h -> (height t <= 2 * h + if c then 0 else 1)%nat.
Proof.
  induction 1 as [|l x r h _ IH1 _ IH2|l x r c1 c2 h _ IH1 _ IH2]; cbn [height]; [lia|lia|].
  destruct c1, c2; lia.
Qed.
Lemma rbt_size t c h : rbt t c h -> (2 ^ h <= S (size t))%nat.
Proof.
  induction 1 as [|l x r h _ IH1 _ IH2|l x r c1 c2 h _ IH1 _ IH2]; cbn [size].
  - cbn. lia. - lia. - rewrite Nat.pow_succ_r'. lia.
Qed.
(* the number of nodes compared on a search *)
Lemma wf_log t : wf t -> (2 ^ (height t / 2) <= S (size t))%nat.
Proof.
  intros [h H]. pose proof (rbt_height _ _ _ H) as H1. pose proof (rbt_size _ _ _ H) as H2.
  cbv iota in H1. eapply Nat.le_trans; [|exact H2]. apply Nat.pow_le_mono_r; [lia|].
  apply Nat.div_le_upper_bound; lia.
Qed.
End Rb.
