From Coq Require Import Permutation.
From Verif Require Import Base JsonModel JsonSpec RowModel RowSpec RowProofs RowKeys RowMap RowProps ScanModel ScanSpec.

Lemma str_bytes_order a : forall b, str_order a b = bytes_order a b.
Proof. induction a as [|x a IH]; intros [|y b]; cbn; try reflexivity; destruct (x ?= y); auto. Qed.

Lemma compare_sat mixed o v w : compare_values mixed o v w = true <-> sat mixed o v w.
Proof.
  unfold compare_values, sat. destruct v; destruct w; try tauto; try (split; [discriminate|tauto]).
  - cbn [val_order]. destruct (z ?= z0), o; cbn; split; congruence.
  - cbn [val_order]. rewrite str_bytes_order. destruct (bytes_order _ _), o; cbn; split; congruence.
  - cbn [val_order]. destruct (match a ?= a0 with Eq => b ?= b0 | c => c end), o; cbn; split; congruence.
Qed.

(** ** evaluation *)
Definition fixed (o : operand) : Prop := forall n, In n (all_names o) -> n_own n = None.
Lemma fixed_own o : fixed o <-> ~ uses_own o.
Proof.
  split; [intros F (n & Hi & Hn); apply Hn, F, Hi|]. intros H n Hi. destruct (n_own n) eqn:E; [|reflexivity]. exfalso. apply H. exists n. split; [exact Hi|congruence].
Qed.
Lemma fixed_in o vs vs' : fixed o -> operand_in vs o = operand_in vs' o.
Proof.
  intros F. destruct o as [n| |names inner f]; cbn in *; [|reflexivity|].
  - unfold name_in. rewrite (F n) by now left. reflexivity.
  - f_equal. apply map_ext_in. intros n Hn. unfold name_in. rewrite (F n Hn). reflexivity.
Qed.
Lemma names_fixed own vs l : (forall n, In n l -> n_own n = None) -> names_values own l = Ok (map (name_in vs) l).
Proof.
  induction l as [|n l IH]; intros H; [reflexivity|]. cbn [names_values map]. unfold name_value. rewrite (H n) by now left. cbn [bind].
  rewrite IH by (intros m Hm; apply H; now right). cbn [bind]. unfold name_in. rewrite (H n) by now left. reflexivity.
Qed.
Lemma fixed_value own o : fixed o -> operand_value own o = Ok (operand_in [] o).
Proof.
  intros F. destruct o as [n| |names inner f]; cbn in *; [|reflexivity|].
  - unfold name_value, name_in. rewrite (F n) by now left. reflexivity.
  - rewrite (names_fixed own []) by exact F. reflexivity.
Qed.
Definition exist_in (n : nat) (o : operand) : Prop := forall m k, In m (all_names o) -> n_own m = Some k -> (k < n)%nat.
Lemma names_open vs l : (forall m k, In m l -> n_own m = Some k -> (k < length vs)%nat) -> names_values (Some vs) l = Ok (map (name_in vs) l).
Proof.
  induction l as [|n l IH]; intros H; [reflexivity|]. cbn [names_values map]. unfold name_value, name_in at 1. destruct (n_own n) as [k|] eqn:E.
  - destruct (nth_error vs k) as [v|] eqn:Ev; [|exfalso; apply nth_error_None in Ev; specialize (H n k (or_introl eq_refl) E); lia].
    cbn [bind]. rewrite IH by (intros m j Hm; apply H; now right). cbn [bind]. rewrite (nth_error_nth _ _ _ Ev). reflexivity.
  - cbn [bind]. rewrite IH by (intros m j Hm; apply H; now right). reflexivity.
Qed.
Lemma open_value vs o : exist_in (length vs) o -> operand_value (Some vs) o = Ok (operand_in vs o).
Proof.
  intros H. destruct o as [n| |names inner f]; cbn in *; [|reflexivity|].
  - pose proof (names_open vs [n] H) as E. cbn in E. destruct (name_value (Some vs) n); cbn in E; [|discriminate|discriminate]. congruence.
  - rewrite names_open by exact H. reflexivity.
Qed.
Lemma cmp_open mixed vs o l r : exist_in (length vs) l -> exist_in (length vs) r ->
  cmp_value mixed (Some vs) o l r = Ok (compare_values mixed o (operand_in vs l) (operand_in vs r)).
Proof. intros Hl Hr. unfold cmp_value. rewrite (open_value vs l Hl), (open_value vs r Hr). reflexivity. Qed.
Lemma cond_open mixed vs c : (forall o, In o (cond_operands c) -> exist_in (length vs) o) ->
  exists b, cond_value mixed (Some vs) c = Ok b /\ (b = true <-> is_true mixed vs c).
Proof.
  induction c as [a IHa b IHb|o l r|e x y|names f]; intros H; cbn [cond_value is_true cond_operands] in *.
  - destruct IHa as (ba & Ea & Ta); [intros o Ho; apply H, in_or_app; now left|]. destruct IHb as (bb & Eb & Tb); [intros o Ho; apply H, in_or_app; now right|].
    rewrite Ea, Eb. cbn [bind]. eexists. split; [reflexivity|]. rewrite andb_true_iff. tauto.
  - rewrite cmp_open by (apply H; cbn; auto). eexists. split; [reflexivity|]. apply compare_sat.
  - rewrite !cmp_open by (apply H; cbn; auto). cbn [bind]. eexists. split; [reflexivity|]. rewrite andb_true_iff, !compare_sat. tauto.
  - rewrite names_open. 2:{ intros m k Hm. apply (H _ (or_introl eq_refl) m k). cbn. rewrite app_nil_r. exact Hm. } cbn [bind]. eexists. split; [reflexivity|tauto].
Qed.

(** ** the conditions *)
Lemma ops_comparisons c p : In p (path_ops c) -> In (po_op p, po_l p, po_r p) (comparisons c).
Proof.
  induction c as [a IHa b IHb|o l r|e x y|names f]; cbn; intros H.
  - apply in_or_app. apply in_app_or in H. tauto.
  - destruct H as [<-|[]]. now left.
  - destruct H as [<-|[<-|[]]]; cbn; auto.
  - destruct H.
Qed.
Lemma comparisons_operands c o l r : In (o, l, r) (comparisons c) -> In l (cond_operands c) /\ In r (cond_operands c).
Proof.
  induction c as [a IHa b IHb|o' l' r'|e x y|names f]; cbn; intros H.
  - apply in_app_or in H. split; apply in_or_app; tauto.
  - destruct H as [[= <- <- <-]|[]]. auto.
  - destruct H as [[= <- <- <-]|[[= <- <- <-]|[]]]; auto.
  - destruct H.
Qed.
Lemma comparisons_true mixed vs c o l r : is_true mixed vs c -> In (o, l, r) (comparisons c) -> sat mixed o (operand_in vs l) (operand_in vs r).
Proof.
  induction c as [a IHa b IHb|o' l' r'|e x y|names f]; cbn; intros T H.
  - apply in_app_or in H. tauto.
  - destruct H as [[= <- <- <-]|[]]. exact T.
  - destruct H as [[= <- <- <-]|[[= <- <- <-]|[]]]; tauto.
  - destruct H.
Qed.
Definition wops (w : option cond) := match w with Some c => path_ops c | None => [] end.
Lemma wops_cmps w p : In p (wops w) -> In (po_op p, po_l p, po_r p) (cmps w).
Proof. destruct w; cbn; [apply ops_comparisons|tauto]. Qed.
Lemma cmps_operands w o l r : In (o, l, r) (cmps w) -> In l (operands w) /\ In r (operands w).
Proof. destruct w; cbn; [apply comparisons_operands|tauto]. Qed.
Lemma cmps_true mixed vs w o l r : where_true mixed vs w -> In (o, l, r) (cmps w) -> sat mixed o (operand_in vs l) (operand_in vs r).
Proof. destruct w; cbn; [apply comparisons_true|tauto]. Qed.

Lemma key_compare_own k o : path_key_compare k o = true <-> own_column o k.
Proof.
  unfold path_key_compare, own_column. destruct o as [n| |]; try (split; [discriminate|intros (m & [=] & _)]). destruct (n_own n) as [j|] eqn:E.
  - rewrite Nat.eqb_eq. split; [intros ->; eauto|intros (m & [= <-] & Em); congruence].
  - split; [discriminate|intros (m & [= <-] & Em); congruence].
Qed.

(** the operands of a comparison of WHERE that is used as a bound do not use the table *)
Lemma names_sub o : incl (names_of o) (all_names o).
Proof. destruct o; cbn; intros m Hm; auto. apply in_or_app. now left. Qed.
Section Fixed.
Variable w : option cond.
Hypothesis Hs : no_shadowing w.
Hypothesis Hq : subqueries_ok w.
Hypothesis Hb : between_ok w.

Lemma outer_fixed o : In o (operands w) -> forallb n_outer (names_of o) = true -> fixed o.
Proof.
  intros Ho F. rewrite forallb_forall in F. destruct o as [n|v|names inner f]; cbn in *.
  - intros m [<-|[]]. apply (Hs (OName n) n Ho); cbn; auto.
  - intros m [].
  - intros m Hm. apply in_app_or in Hm. destruct Hm as [Hm|Hm]; [|exact (Hq names inner f m Ho Hm)]. apply (Hs _ m Ho); [cbn; apply in_or_app; now left|]. now apply F.
Qed.
Lemma path_shape c p : In p (path_ops c) -> (exists o l r, p = mkpo o l r [] true true) \/
  exists e x y, In (e, x, y) (betweens c) /\ (p = mkpo OpGe e x [] true false \/ p = mkpo OpLe e y (names_of x) false true).
Proof.
  induction c as [a IHa b IHb|o l r|e x y|names f]; cbn; intros H.
  - apply in_app_or in H. destruct H as [H|H]; [destruct (IHa H) as [?|(e & x & y & Hi & Hp)]|destruct (IHb H) as [?|(e & x & y & Hi & Hp)]]; auto; right; exists e, x, y; (split; [apply in_or_app; auto|exact Hp]).
  - destruct H as [<-|[]]. left. eauto.
  - right. exists e, x, y. split; [now left|]. destruct H as [<-|[<-|[]]]; auto.
  - destruct H.
Qed.
Lemma value_fixed p k : In p (wops w) ->
  (own_column (po_l p) k -> path_value p true = true -> fixed (po_r p)) /\
  (own_column (po_r p) k -> path_value p false = true -> fixed (po_l p)).
Proof.
  intros Hp. pose proof (wops_cmps w p Hp) as Hc. destruct (cmps_operands w _ _ _ Hc) as [Ol Or].
  assert (Sh : (exists o l r, p = mkpo o l r [] true true) \/ exists e x y, In (e, x, y) (betweens_of w) /\ (p = mkpo OpGe e x [] true false \/ p = mkpo OpLe e y (names_of x) false true)).
  { destruct w as [c|]; [exact (path_shape c p Hp)|destruct Hp]. }
  destruct Sh as [(o & l & r & ->)|(e & x & y & Hi & [->| ->])]; cbn [po_l po_r] in *; unfold path_value; cbn [po_l po_r po_lin po_rin po_extra andb negb app].
  - split; intros _ V; [apply outer_fixed; assumption|]. rewrite app_nil_r in V. apply outer_fixed; assumption.
  - split; [intros O _; apply fixed_own; exact (proj1 (Hb e x y Hi) k O)|]. intros _ V. rewrite app_nil_r in V. apply outer_fixed; assumption.
  - split; [intros _ V; rewrite forallb_app in V; apply andb_true_iff in V; apply outer_fixed; tauto|]. intros O _. apply fixed_own. exact (proj2 (Hb e x y Hi) k O).
Qed.
End Fixed.

(** ** the order of the values of a key column *)
Lemma bytes_order_opp a : forall b, bytes_order b a = CompOpp (bytes_order a b).
Proof. induction a as [|x a IH]; intros [|y b]; cbn; try reflexivity. rewrite (Z.compare_antisym x y). destruct (x ?= y); cbn; auto. Qed.
Lemma bytes_order_eq a : forall b, bytes_order a b = Eq -> a = b.
Proof. induction a as [|x a IH]; intros [|y b]; cbn; try discriminate; [reflexivity|]. destruct (x ?= y) eqn:E; try discriminate. intros H. apply Z.compare_eq in E. subst. f_equal. auto. Qed.
Lemma bytes_order_trans a : forall b c, bytes_order a b = Lt -> bytes_order b c = Lt -> bytes_order a c = Lt.
Proof.
  induction a as [|x a IH]; intros [|y b] [|z c]; cbn; try discriminate; try reflexivity. destruct (x ?= y) eqn:E1; try discriminate.
  - apply Z.compare_eq in E1. subst. destruct (y ?= z); try discriminate; eauto.
  - intros _. destruct (y ?= z) eqn:E2; try discriminate.
    + apply Z.compare_eq in E2. subst. now rewrite E1.
    + intros _. rewrite Z.compare_lt_iff in *. replace (x ?= z) with Lt; [reflexivity|]. symmetry. apply Z.compare_lt_iff. lia.
Qed.
Lemma val_order_opp v u : val_order u v = CompOpp (val_order v u).
Proof.
  destruct v, u; cbn; try reflexivity; [apply Z.compare_antisym|apply bytes_order_opp|].
  rewrite (Z.compare_antisym a a0). destruct (a ?= a0); cbn; auto. apply Z.compare_antisym.
Qed.
Definition same_kind (v u : dval) : Prop :=
  match v, u with DInt _, DInt _ | DString _, DString _ | DUuid _ _, DUuid _ _ => True | _, _ => False end.
Lemma holds_kind c v u : key_col c -> holds c v -> holds c u -> same_kind v u.
Proof. unfold key_col, holds. destruct (c_type c); try tauto; destruct v; try tauto; destruct u; cbn; tauto. Qed.
Lemma val_order_eq v u : same_kind v u -> val_order v u = Eq -> v = u.
Proof.
  destruct v, u; cbn; try tauto; intros _ E; [now apply Z.compare_eq in E; subst|now apply bytes_order_eq in E; subst|].
  destruct (a ?= a0) eqn:E1; try discriminate. apply Z.compare_eq in E1, E. now subst.
Qed.
Lemma val_order_trans a b c : same_kind a b -> same_kind b c -> val_order a b = Lt -> val_order b c = Lt -> val_order a c = Lt.
Proof.
  destruct a, b; cbn; try tauto; destruct c; cbn; try tauto; intros _ _.
  - rewrite !Z.compare_lt_iff. lia.
  - apply bytes_order_trans.
  - destruct (Z.compare_spec a a0), (Z.compare_spec a0 a1), (Z.compare_spec a a1); try discriminate; try lia; try reflexivity; subst.
    rewrite !Z.compare_lt_iff. lia.
Qed.
Lemma sat_order mixed o v u : same_kind v u -> (sat mixed o v u <->
  match o with OpEq => val_order v u = Eq | OpLt => val_order v u = Lt | OpLe => val_order v u <> Gt | OpGt => val_order v u = Gt | OpGe => val_order v u <> Lt end).
Proof. destruct v, u; cbn [same_kind]; try tauto; intros _; unfold sat; tauto. Qed.

(** ** the path *)
Section Path.
Variable mag : Z -> Z -> Z.
Variable junk : operand -> Z.
Variable mixed : cmpop -> dval -> dval -> bool.
Variable cols : list column.
Variable t : table.
Variable w : option cond.
Hypothesis Ht : table_ok cols t.
Hypothesis Hw : where_ok cols t w.

Definition keycol (k : nat) (c : column) : Prop :=
  nth_error cols k = Some c /\ key_col c /\ c_not_null c = true /\ exists x, In x (t_idx t) /\ In k (x_keys x).
(** a value [v] a key column is compared with *)
Definition bound (k : nat) (v : operand) : Prop := compared w k v /\ fixed v.
Definition matches (vs : list dval) : Prop := Forall2 fits cols vs /\ where_true mixed vs w.

Lemma bound_typed k c v : keycol k c -> bound k v -> holds c (operand_in [] v) /\ (c_type c = TUuid -> exists u, v = OLit u) /\
  Z.of_nat (length cols) * (weight (operand_in [] v) + 20) + 7 <= 2147483647.
Proof. intros (Ec & _ & _ & x & Hx & Hk) [Hc Hf]. destruct Hw as (_ & _ & _ & _ & Hty & _). apply (Hty x k c v Hx Hk Ec Hc). now apply fixed_own. Qed.
Lemma col_holds k c vs : keycol k c -> Forall2 fits cols vs -> holds c (nth k vs DNull).
Proof.
  intros (Ec & Kc & Nn & _) F. assert (X : exists v, nth_error vs k = Some v /\ fits c v). { clear -F Ec. revert k Ec. induction F as [|a b l m Hab F IH]; intros [|k] E; try discriminate; [injection E as <-; exists b; auto|exact (IH k E)]. }
  destruct X as (v & Ev & Fv). rewrite (nth_error_nth _ _ _ Ev). destruct Fv as [[_ Fv]|Fv]; [congruence|exact Fv].
Qed.

Lemma ast_compare_ok k c a b : keycol k c -> bound k a -> bound k b -> exists rc, path_ast_compare mag junk a b = Ok rc.
Proof.
  intros Kc Ha Hb. destruct (bound_typed k c a Kc Ha) as (Ta & Ua & _). destruct (bound_typed k c b Kc Hb) as (Tb & Ub & _). destruct Kc as (_ & Kc & _).
  destruct a as [|v|]; cbn [path_ast_compare]; eauto. destruct v; eauto; cbn in Ta.
  - unfold key_col, holds in *. destruct b as [|v|]; eauto. destruct v; eauto; cbn in Tb; destruct (c_type c); tauto.
  - unfold key_col, holds in *. destruct (c_type c); try tauto. destruct (Ub eq_refl) as (u & ->). cbn in Tb. destruct u; try tauto. eauto.
Qed.

Record Inv (order k : nat) (pk : pathkey) : Prop := {
  iv_start : forall o v, pk_start pk = Some (o, v) -> bound k v /\
    forall vs, matches vs -> val_order (operand_in [] v) (nth k vs DNull) <> Gt /\ (o = OpEq -> val_order (operand_in [] v) (nth k vs DNull) = Eq);
  iv_stop : forall o l r, pk_stop pk = Some (o, l, r) -> order = 0%nat /\ In (o, l, r) (cmps w) /\ upper_bound w k /\
    ((own_column l k /\ (o = OpLt \/ o = OpLe) /\ bound k r) \/ (own_column r k /\ path_key_compare k l = false /\ (o = OpGt \/ o = OpGe) /\ bound k l)) }.

Lemma own_in o k vs : own_column o k -> operand_in vs o = nth k vs DNull.
Proof. intros (n & -> & E). cbn. unfold name_in. now rewrite E. Qed.

Lemma step_ok order k c pk p : keycol k c -> In p (wops w) -> Inv order k pk -> exists pk', path_key_step mag junk order k pk p = Ok pk' /\ Inv order k pk'.
Proof.
  intros Kc Hp I. pose proof (wops_cmps w p Hp) as Hc. pose proof Hw as (_ & Hs & Hq & Hb & _ & _). destruct (value_fixed w Hs Hq Hb p k Hp) as [FL FR].
  destruct I as [I1 I2]. unfold path_key_step.
  assert (Start : forall v, bound k v -> (forall vs, matches vs -> val_order (operand_in [] v) (nth k vs DNull) <> Gt /\ (po_op p = OpEq -> val_order (operand_in [] v) (nth k vs DNull) = Eq)) ->
    exists pk', (do b <- path_start mag junk (pk_start pk) (po_op p) v; Ok (if b then mkpk (Some (po_op p, v)) (pk_stop pk) else pk)) = Ok pk' /\ Inv order k pk').
  { intros v Bv Hv. assert (P : exists b, path_start mag junk (pk_start pk) (po_op p) v = Ok b).
    { unfold path_start. destruct (pk_start pk) as [[o s]|] eqn:E; [|eauto]. destruct (I1 o s eq_refl) as [Bs _]. destruct (ast_compare_ok k c s v Kc Bs Bv) as (rc & Erc).
      destruct o; [eauto| | | |]; destruct (po_op p); eauto; rewrite Erc; cbn; eauto. }
    destruct P as (b & ->). cbn [bind]. eexists. split; [reflexivity|]. destruct b; [|split; assumption]. split; cbn [pk_start pk_stop]; [|exact I2]. intros o' v' [= <- <-]. split; assumption. }
  assert (Stop : forall v, bound k v -> upper_bound w k -> ((own_column (po_l p) k /\ (po_op p = OpLt \/ po_op p = OpLe) /\ bound k (po_r p)) \/ (own_column (po_r p) k /\ path_key_compare k (po_l p) = false /\ (po_op p = OpGt \/ po_op p = OpGe) /\ bound k (po_l p))) ->
    exists pk', (do b <- path_stop mag junk order (stop_value k (pk_stop pk)) v; Ok (if b then mkpk (pk_start pk) (Some (po_op p, po_l p, po_r p)) else pk)) = Ok pk' /\ Inv order k pk').
  { intros v Bv Hu Hsh. unfold path_stop. destruct (Nat.ltb 0 order) eqn:Eo; [cbn [bind]; eexists; split; [reflexivity|split; assumption]|].
    assert (order = 0%nat) by (apply Nat.ltb_ge in Eo; lia).
    assert (P : exists b, match stop_value k (pk_stop pk) with None => Ok true | Some s => do rc <- path_ast_compare mag junk s v; Ok (0 <? rc) end = Ok b).
    { unfold stop_value. destruct (pk_stop pk) as [[[o l] r]|] eqn:E; [|eauto]. destruct (I2 o l r eq_refl) as (_ & _ & _ & [(Ol & _ & Br)|(Or & Nl & _ & Bl)]).
      - apply key_compare_own in Ol. rewrite Ol. destruct (ast_compare_ok k c r v Kc Br Bv) as (rc & ->). cbn. eauto.
      - rewrite Nl. destruct (ast_compare_ok k c l v Kc Bl Bv) as (rc & ->). cbn. eauto. }
    destruct P as (b & ->). cbn [bind]. eexists. split; [reflexivity|]. destruct b; [|split; assumption]. split; cbn [pk_start pk_stop]; [exact I1|]. intros o' l' r' [= <- <- <-]. auto. }
  destruct (path_key_compare k (po_l p)) eqn:El.
  - apply key_compare_own in El. destruct (path_value p true) eqn:Ev; [|eexists; split; [reflexivity|split; assumption]].
    assert (Br : bound k (po_r p)). { split; [|now apply FL]. exists (po_op p), (po_l p), (po_r p). auto. }
    assert (O : forall vs, matches vs -> val_order (operand_in [] (po_r p)) (nth k vs DNull) = CompOpp (val_order (operand_in vs (po_l p)) (operand_in vs (po_r p))) /\
      sat mixed (po_op p) (operand_in vs (po_l p)) (operand_in vs (po_r p)) /\ same_kind (operand_in vs (po_l p)) (operand_in vs (po_r p))).
    { intros vs [Mf Mt]. rewrite (own_in _ _ vs El), (fixed_in (po_r p) vs []) by exact (proj2 Br). split; [apply val_order_opp|]. split.
      - pose proof (cmps_true mixed vs w _ _ _ Mt Hc) as S. rewrite (own_in _ _ vs El), (fixed_in (po_r p) vs []) in S by exact (proj2 Br). exact S.
      - apply (holds_kind c); [exact (proj1 (proj2 Kc))|now apply col_holds|exact (proj1 (bound_typed k c _ Kc Br))]. }
    destruct (po_op p) eqn:Eop; (apply Start || apply Stop); auto 10.
    all: try (exists (po_op p), (po_l p), (po_r p); rewrite Eop; auto 10; fail).
    all: intros vs M; destruct (O vs M) as (-> & S & K); apply (sat_order mixed) in S; [|exact K]; split; [|intros E; try discriminate E].
    all: destruct (val_order (operand_in vs (po_l p)) (operand_in vs (po_r p))); cbn; congruence.
  - destruct (path_key_compare k (po_r p)) eqn:Er; [|eexists; split; [reflexivity|split; assumption]].
    apply key_compare_own in Er. destruct (path_value p false) eqn:Ev; [|eexists; split; [reflexivity|split; assumption]].
    assert (Bl : bound k (po_l p)). { split; [|now apply FR]. exists (po_op p), (po_l p), (po_r p). auto. }
    assert (O : forall vs, matches vs -> val_order (operand_in [] (po_l p)) (nth k vs DNull) = val_order (operand_in vs (po_l p)) (operand_in vs (po_r p)) /\
      sat mixed (po_op p) (operand_in vs (po_l p)) (operand_in vs (po_r p)) /\ same_kind (operand_in vs (po_l p)) (operand_in vs (po_r p))).
    { intros vs [Mf Mt]. rewrite (own_in _ _ vs Er), (fixed_in (po_l p) vs []) by exact (proj2 Bl). split; [reflexivity|]. split.
      - pose proof (cmps_true mixed vs w _ _ _ Mt Hc) as S. rewrite (own_in _ _ vs Er), (fixed_in (po_l p) vs []) in S by exact (proj2 Bl). exact S.
      - apply (holds_kind c); [exact (proj1 (proj2 Kc))|exact (proj1 (bound_typed k c _ Kc Bl))|now apply col_holds]. }
    destruct (po_op p) eqn:Eop; (apply Start || apply Stop); auto 10.
    all: try (exists (po_op p), (po_l p), (po_r p); rewrite Eop; auto 10; fail).
    all: intros vs M; destruct (O vs M) as (-> & S & K); apply (sat_order mixed) in S; [|exact K]; split; [|intros E; try discriminate E].
    all: destruct (val_order (operand_in vs (po_l p)) (operand_in vs (po_r p))); cbn; congruence.
Qed.

Lemma key_fold_ok order k c ops : keycol k c -> incl ops (wops w) -> forall pk, Inv order k pk -> exists pk', path_key mag junk order k pk ops = Ok pk' /\ Inv order k pk'.
Proof.
  intros Kc. induction ops as [|p ops IH]; intros Hi pk I; [exists pk; auto|]. cbn [path_key].
  destruct (step_ok order k c pk p Kc (Hi p (or_introl eq_refl)) I) as (pk1 & -> & I1). cbn [bind]. apply IH; [|exact I1]. intros q Hq. apply Hi. now right.
Qed.
Lemma inv_empty order k : Inv order k (mkpk None None).
Proof. split; discriminate. Qed.

Fixpoint Invs (order : nat) (ks : keys) (l : list pathkey) : Prop :=
  match ks, l with
  | [], [] => True
  | k :: ks', pk :: l' => Inv order k pk /\ Invs (S order) ks' l'
  | _, _ => False
  end.
Definition is_eq (pk : pathkey) : Prop := exists v, pk_start pk = Some (OpEq, v).
Lemma path_loop_ok ks : (forall k, In k ks -> exists c, keycol k c) -> forall order ss sp,
  exists l n1 n2 n3, path_loop mag junk order ks (wops w) ss sp = Ok (l, (n1, n2, n3)) /\ Invs order ks l /\ (n3 <= length ks)%nat /\
    (n3 = length ks -> ks = [] \/ ss = true /\ Forall is_eq l) /\
    (match l with [] => True | pk :: _ => pk_stop pk = None end -> n2 = 0%nat).
Proof.
  induction ks as [|k ks IH]; intros Hk order ss sp; cbn [path_loop].
  - exists [], 0%nat, 0%nat, 0%nat. cbn. repeat split; auto; discriminate.
  - destruct (Hk k (or_introl eq_refl)) as (c & Kc). destruct (key_fold_ok order k c (wops w) Kc (incl_refl _) _ (inv_empty order k)) as (pk & -> & I). cbn [bind].
    destruct (IH (fun j Hj => Hk j (or_intror Hj)) (S order) (ss && is_some (pk_start pk)) (sp && is_some (pk_stop pk))) as (l & n1 & n2 & n3 & -> & Il & Le & Eq & St). cbn [bind].
    eexists _, _, _, _. split; [reflexivity|]. split; [split; assumption|]. cbn [length].
    set (e := match pk_start pk with Some (OpEq, _) => true | _ => false end).
    assert (He : e = true -> is_eq pk) by (unfold e, is_eq; destruct (pk_start pk) as [[[] v]|]; try discriminate; eauto).
    split; [|split].
    + destruct (ss && is_some (pk_start pk) && e); lia.
    + intros E. right. destruct (ss && is_some (pk_start pk) && e) eqn:Ea; [|exfalso; lia]. apply andb_true_iff in Ea. destruct Ea as [Ea Ee]. apply andb_true_iff in Ea. destruct Ea as [-> _]. split; [reflexivity|].
      constructor; [auto|]. destruct (Eq ltac:(lia)) as [->|[_ F]]; [destruct l; [constructor|destruct Il]|exact F].
    + intros Sn. rewrite Sn. cbn [is_some]. rewrite andb_false_r. apply St. destruct l as [|q l]; [exact Logic.I|].
      destruct ks as [|k' ks]; [destruct Il|]. destruct Il as [Iq _]. destruct (pk_stop q) as [[[o a] b]|] eqn:E; [|reflexivity]. destruct (iv_stop _ _ _ Iq o a b E) as (O & _). discriminate.
Qed.
End Path.
