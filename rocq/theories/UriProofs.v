(** Proofs for C88. *)
From Coq Require Import String.
From Verif Require Import Base HttpModel UriModel UriSpec.

Lemma str_is_iff a b : str_is a b = true <-> a = b.
Proof.
  revert b; induction a as [|x a IH]; intros [|y b]; cbn; split; intros H; try easy.
  - apply andb_prop in H as [H1 H2]. apply IH in H2. apply Z.eqb_eq in H1. now subst.
  - injection H as -> ->. rewrite Z.eqb_refl. now apply IH.
Qed.
Lemma str_is_refl a : str_is a a = true.
Proof. now apply str_is_iff. Qed.
Lemma str_is_false a b : a <> b -> str_is a b = false.
Proof. intros H. destruct (str_is a b) eqn:E; auto. now apply str_is_iff in E. Qed.
Lemma after_prefix_iff s p r : after_prefix s p = Some r <-> s = p ++ r.
Proof.
  revert s; induction p as [|y p IH]; intros s; cbn.
  - split; [now intros [= ->]|now intros ->].
  - destruct s as [|x s]; [split; easy|]. destruct (x =? y) eqn:E.
    + apply Z.eqb_eq in E; subst. rewrite IH. split; [now intros ->|now intros [= ->]].
    + apply Z.eqb_neq in E. split; [easy|]. now intros [= -> _].
Qed.
Lemma cstring_id s : ~ In 0 s -> cstring s = s.
Proof.
  induction s as [|c s IH]; intros H; [easy|]. cbn. destruct (c =? 0) eqn:E.
  - apply Z.eqb_eq in E. subst. exfalso. apply H. now left.
  - rewrite IH; auto. intros H'. apply H. now right.
Qed.

(** the table of options *)
Definition table (base : opts) (l : list (list Z * optval)) : opts := map (fun x : list Z * optval => (fst x, last_given (fst x) l (snd x))) base.
Lemma last_given_snoc n l m v d : last_given n (l ++ [(m, v)]) d = if list_eq_dec Z.eq_dec m n then v else last_given n l d.
Proof. revert d; induction l as [|[k w] l IH]; intros d; cbn; [now destruct (list_eq_dec Z.eq_dec m n)|]. now rewrite IH. Qed.
Lemma table_other base l n v : ~ In n (map fst base) -> table base (l ++ [(n, v)]) = table base l.
Proof.
  intros H. apply map_ext_in. intros [m d] Hi. cbn. f_equal. rewrite last_given_snoc.
  destruct (list_eq_dec Z.eq_dec n m) as [->|]; auto. exfalso. apply H. now apply (in_map fst) in Hi.
Qed.
Lemma put_table base l n v : NoDup (map fst base) -> In n (map fst base) -> opts_put (table base l) n v = table base (l ++ [(n, v)]).
Proof.
  induction base as [|[m d] base IH]; intros Hn Hi; [easy|]. cbn in Hn, Hi. inversion Hn as [|? ? H1 H2]; subst. cbn.
  rewrite last_given_snoc. destruct (list_eq_dec Z.eq_dec n m) as [->|Hne].
  - rewrite str_is_refl. f_equal. symmetry. now apply table_other.
  - rewrite str_is_false by auto. f_equal. apply IH; auto. destruct Hi as [->|]; easy.
Qed.
Lemma find_table base l n : opts_find (table base l) n = match opts_find base n with Some d => Some (last_given n l d) | None => None end.
Proof.
  induction base as [|[m d] base IH]; [easy|]. cbn. destruct (str_is m n) eqn:E; [|exact IH].
  apply str_is_iff in E. now subst.
Qed.
Lemma NoDup_names : NoDup (map fst endpoint_init).
Proof.
  assert (H : (fix nd (l : list (list Z)) := match l with [] => true | x :: l => negb (existsb (str_is x) l) && nd l end) (map fst endpoint_init) = true) by (vm_compute; reflexivity).
  revert H. generalize (map fst endpoint_init). induction l as [|x l IH]; intros H; constructor.
  - apply andb_prop in H as [H _]. intros Hi. assert (existsb (str_is x) l = true) as E; [|rewrite E in H; discriminate].
    apply existsb_exists. exists x. split; auto. apply str_is_refl.
  - apply IH. now apply andb_prop in H as [_ H].
Qed.
Lemma put_options l n v : In n (map fst endpoint_init) -> opts_put (options l) n v = options (l ++ [(n, v)]).
Proof. apply put_table. apply NoDup_names. Qed.
Lemma find_in o n d : opts_find o n = Some d -> In (n, d) o.
Proof.
  induction o as [|[m e] o IH]; [easy|]. cbn. destruct (str_is m n) eqn:E; [|auto].
  apply str_is_iff in E. intros [= ->]. subst. now left.
Qed.
Lemma find_of n d : In (n, d) endpoint_init -> opts_find endpoint_init n = Some d.
Proof. intros H. cbn in H. repeat (destruct H as [H|H]; [injection H as <- <-; reflexivity|]). easy. Qed.

Lemma kind_sym a b : same_kind a b -> same_kind b a.
Proof. destruct a, b; auto. Qed.
Lemma kind_trans a b c : same_kind a b -> same_kind b c -> same_kind a c.
Proof. destruct a, b, c; cbn; tauto. Qed.
Lemma kind_refl a : same_kind a a.
Proof. now destruct a. Qed.
(** what is given has the type of its option *)
Definition fits (x : list Z * optval) : Prop := forall d, opts_find endpoint_init (fst x) = Some d -> same_kind (snd x) d.
Lemma last_fits n l d : Forall fits l -> opts_find endpoint_init n = Some d -> forall e, same_kind e d -> same_kind (last_given n l e) d.
Proof.
  induction 1 as [|[m v] l H1 H2 IH]; intros Hd e He; cbn; [auto|]. apply IH; auto.
  destruct (list_eq_dec Z.eq_dec m n) as [->|]; auto.
Qed.
Lemma find_options l n : Forall fits l ->
  match opts_find endpoint_init n with None => opts_find (options l) n = None | Some d => exists e, opts_find (options l) n = Some e /\ same_kind e d end.
Proof.
  intros H. unfold options. change (map _ endpoint_init) with (table endpoint_init l). rewrite find_table.
  destruct (opts_find endpoint_init n) as [d|] eqn:E; auto. eexists. split; [reflexivity|]. eapply last_fits; eauto. apply kind_refl.
Qed.

Lemma reset_some o : some_endpoint o -> endpoint_reset o = endpoint_init.
Proof.
  unfold some_endpoint, endpoint_reset. intros H.
  assert (E : map (fun x : list Z * optval => (fst x, match snd x with OBool _ => OBool 0 | OInt _ => OInt 0 | OStr _ => OStr [] end)) o
            = map (fun x : list Z * optval => (fst x, match snd x with OBool _ => OBool 0 | OInt _ => OInt 0 | OStr _ => OStr [] end)) endpoint_init).
  { clear -H. induction H as [|[n v] [m w] o b [H1 H2] H3 IH]; [easy|]. cbn [map]. rewrite IH. f_equal. cbn in *. subst. f_equal.
    destruct v, w; cbn in H2; try easy. }
  rewrite E. reflexivity.
Qed.
Lemma options_nil : options [] = endpoint_init.
Proof. reflexivity. Qed.

(** the options that can be given *)
Lemma kinds_of n d : In (n, d) endpoint_init ->
  (In n text_options /\ d = OStr []) \/ (n = text "uri" /\ d = OStr []) \/ (In n number_options /\ exists z, d = OInt z) \/ (n = text "debug" /\ d = OBool 0).
Proof.
  intros H. cbn in H.
  repeat (destruct H as [H|H]; [injection H as <- <-; first
    [ left; split; [unfold text_options; cbn; solve [repeat (first [left; reflexivity | right])]|reflexivity]
    | right; left; split; reflexivity
    | right; right; left; split; [unfold number_options; cbn; solve [repeat (first [left; reflexivity | right])]|eexists; reflexivity]
    | right; right; right; split; reflexivity] |]).
  easy.
Qed.

(** percent-encoding *)
Lemma decode_hex_iff d v : decode_hex d = Ok v <-> exists n, hex_digit d n /\ v = Z.of_nat n.
Proof.
  split.
  - unfold decode_hex. intros H.
    destruct ((48 <=? d) && (d <=? 57)) eqn:E1; [|destruct ((65 <=? d) && (d <=? 70)) eqn:E2; [|destruct ((97 <=? d) && (d <=? 102)) eqn:E3; [|discriminate]]]; injection H as <-.
    + exists (Z.to_nat (d - 48)). assert (d = 48 \/ d = 49 \/ d = 50 \/ d = 51 \/ d = 52 \/ d = 53 \/ d = 54 \/ d = 55 \/ d = 56 \/ d = 57) as H by lia.
      split; [|lia]. left. repeat (destruct H as [->|H]; [reflexivity|]). now subst.
    + exists (Z.to_nat (d - 65 + 10)). assert (d = 65 \/ d = 66 \/ d = 67 \/ d = 68 \/ d = 69 \/ d = 70) as H by lia.
      split; [|lia]. right. repeat (destruct H as [->|H]; [reflexivity|]). now subst.
    + exists (Z.to_nat (d - 97 + 10)). assert (d = 97 \/ d = 98 \/ d = 99 \/ d = 100 \/ d = 101 \/ d = 102) as H by lia.
      split; [|lia]. left. repeat (destruct H as [->|H]; [reflexivity|]). now subst.
  - intros (n & [H|H] & ->); do 16 (destruct n as [|n]; [injection H as <-; reflexivity|]); destruct n; discriminate H.
Qed.
Lemma hex_small d n : hex_digit d n -> (n < 16)%nat.
Proof.
  intros [H|H]; (destruct (Nat.lt_ge_cases n 16) as [L|L]; [exact L|]); exfalso.
  - rewrite (proj2 (nth_error_None (text "0123456789abcdef") n) L) in H. discriminate.
  - rewrite (proj2 (nth_error_None (text "0123456789ABCDEF") n) L) in H. discriminate.
Qed.
Lemma decode_hex_no_ub d : decode_hex d <> UB.
Proof. unfold decode_hex. repeat (match goal with |- context [if ?c then _ else _] => destruct c end); discriminate. Qed.
Lemma nibbles n m : (n < 16)%nat -> (m < 16)%nat -> Z.lor (Z.shiftl (Z.of_nat n) 4) (Z.of_nat m) = Z.of_nat (16 * n + m).
Proof.
  intros Hn Hm.
  assert (H : forallb (fun n => forallb (fun m => Z.lor (Z.shiftl (Z.of_nat n) 4) (Z.of_nat m) =? Z.of_nat (16 * n + m)) (seq 0 16)) (seq 0 16) = true) by (vm_compute; reflexivity).
  assert (In1 : In n (seq 0 16)) by (apply in_seq; lia). assert (In2 : In m (seq 0 16)) by (apply in_seq; lia).
  pose proof (proj1 (forallb_forall _ _) H n In1) as H1. cbv beta in H1. pose proof (proj1 (forallb_forall _ _) H1 m In2) as H2. now apply Z.eqb_eq.
Qed.
Lemma decode_iff t b : decode t = Ok b <-> spells t b.
Proof.
  split.
  - assert (G : forall n t b, (length t <= n)%nat -> decode t = Ok b -> spells t b).
    { clear. induction n as [|n IH]; intros t b Hn H.
      - destruct t; [|cbn in Hn; lia]. injection H as <-. constructor.
      - destruct t as [|c r]; [injection H as <-; constructor|]. cbn [decode] in H; cbn in Hn. destruct (c =? PERCENT) eqn:E.
        + apply Z.eqb_eq in E. subst. destruct r as [|h [|l r]]; try discriminate.
          destruct (decode_hex h) as [a| |] eqn:Eh; try discriminate. destruct (decode_hex l) as [w| |] eqn:El; try discriminate.
          cbn [bind] in H. destruct (decode r) as [t| |] eqn:Er; try discriminate. cbn [bind] in H. assert (Hb : Z.lor (Z.shiftl a 4) w :: t = b) by congruence. subst b. clear H.
          apply decode_hex_iff in Eh as (v & Hv & ->). apply decode_hex_iff in El as (w' & Hw & ->).
          rewrite nibbles by (eapply hex_small; eauto). constructor; auto. apply IH; auto. cbn in Hn. lia.
        + apply Z.eqb_neq in E. destruct (decode r) as [t| |] eqn:Er; try discriminate. injection H as <-. constructor; auto. apply IH; auto. lia. }
    now apply (G (length t)).
  - induction 1 as [|c t b Hc H IH|h l v w t b Hh Hl H IH]; [easy| |].
    + cbn. destruct (c =? PERCENT) eqn:E; [apply Z.eqb_eq in E; now subst|]. now rewrite IH.
    + cbn [decode]. change (37 =? PERCENT) with true. cbv iota. replace (decode_hex h) with (@Ok Z (Z.of_nat v)) by (symmetry; apply decode_hex_iff; eauto).
      replace (decode_hex l) with (@Ok Z (Z.of_nat w)) by (symmetry; apply decode_hex_iff; eauto). cbn [bind]. rewrite IH. cbn [bind].
      rewrite nibbles by (eapply hex_small; eauto). reflexivity.
Qed.
Lemma decode_no_ub t : decode t <> UB.
Proof.
  assert (G : forall n t, (length t <= n)%nat -> decode t <> UB).
  { clear. induction n as [|n IH]; intros t Hn; destruct t as [|c r]; try discriminate; [cbn in Hn; lia|]. cbn in Hn |- *.
    destruct (c =? PERCENT).
    - destruct r as [|h [|l r]]; try discriminate. pose proof (decode_hex_no_ub h). pose proof (decode_hex_no_ub l).
      destruct (decode_hex h); try easy. destruct (decode_hex l); try easy. cbn in Hn |- *. specialize (IH r ltac:(lia)). now destruct (decode r).
    - specialize (IH r ltac:(lia)). now destruct (decode r). }
  now apply (G (length t)).
Qed.
(** numbers *)
Lemma toint_iff t acc z : 0 <= acc < 2 ^ 63 ->
  (toint t acc = Ok z <-> Forall (fun d => 48 <= d <= 57) t /\ acc * 10 ^ Z.of_nat (length t) + number t < 2 ^ 63 /\ z = acc * 10 ^ Z.of_nat (length t) + number t).
Proof.
  revert acc; induction t as [|d t IH]; intros acc Ha.
  - cbn. split; [intros [= ->]; repeat split; [constructor|lia..]|]. intros (_ & _ & ->). f_equal. lia.
  - cbn [toint number length]. rewrite Nat2Z.inj_succ, Z.pow_succ_r by lia.
    assert (HN : forall t, Forall (fun d => 48 <= d <= 57) t -> 0 <= number t).
    { clear. induction 1 as [|d t H1 H2 IH]; cbn [number]; [lia|]. assert (0 <= 10 ^ Z.of_nat (length t)) by (apply Z.pow_nonneg; lia). nia. }
    assert (HP : 0 < 10 ^ Z.of_nat (length t)) by (apply Z.pow_pos_nonneg; lia).
    destruct ((48 <=? d) && (d <=? 57)) eqn:E.
    + destruct (acc * 10 + (d - 48) <? 2 ^ 63) eqn:E2.
      * rewrite IH by lia. split; (intros (H1 & H2 & H3); repeat split; [|lia..]).
        -- constructor; [lia|easy].
        -- now inversion H1.
      * split; [easy|]. intros (H1 & H2 & _). exfalso. inversion H1 as [|? ? H3 H4]; subst. specialize (HN _ H4).
        apply Z.ltb_ge in E2. nia.
    + split; [easy|]. intros (H1 & _). exfalso. inversion H1; subst. lia.
Qed.
Lemma toint_no_ub t acc : toint t acc <> UB.
Proof. revert acc; induction t as [|d t IH]; intros acc; [easy|]. cbn [toint]. destruct (_ && _); [|easy]. cbv zeta. destruct (_ <? _); [apply IH|easy]. Qed.
Lemma is_case_iff a b : is_case a b = true <-> map lower a = map lower b.
Proof.
  revert b; induction a as [|x a IH]; intros [|y b]; cbn; split; intros H; try easy.
  - apply andb_prop in H as [H1 H2]. apply IH in H2. apply Z.eqb_eq in H1. congruence.
  - injection H as H1 H2. rewrite H1, Z.eqb_refl. now apply IH.
Qed.

(** an argument *)
Lemma gives_name a g : gives a g -> fst g = fst a /\ exists d, In (fst a, d) endpoint_init /\ same_kind (snd g) d /\ fst a <> text "uri".
Proof.
  intros H. destruct H as [n v H|n v H H1 H2 H3|v H|v H]; cbn [fst snd]; (split; [reflexivity|]).
  - exists (OStr []). unfold text_options in H. cbn in H. repeat (destruct H as [<-|H]; [split; [cbn; solve [repeat (first [left; reflexivity | right])]|split; [exact I|discriminate]]|]). easy.
  - unfold number_options in H. cbn in H. destruct H as [<-|[<-|[]]].
    + exists (OInt 0). split; [cbn; now left|split; [exact I|discriminate]].
    + exists (OInt 3485). split; [cbn; solve [repeat (first [left; reflexivity | right])]|split; [exact I|discriminate]].
  - exists (OBool 0). split; [cbn; solve [repeat (first [left; reflexivity | right])]|split; [exact I|discriminate]].
  - exists (OBool 0). split; [cbn; solve [repeat (first [left; reflexivity | right])]|split; [exact I|discriminate]].
Qed.
Lemma gives_fits a g : gives a g -> fits g.
Proof. intros H. apply gives_name in H as (E & d & H1 & H2 & _). intros e He. rewrite E, (find_of _ _ H1) in He. injection He as <-. exact H2. Qed.
Lemma gives_in a g : gives a g -> In (fst g) (map fst endpoint_init).
Proof. intros H. apply gives_name in H as (E & d & H1 & _). rewrite E. now apply (in_map fst) in H1. Qed.
Ltac absurd_in H := exfalso; unfold text_options, number_options in H; cbn in H; repeat (destruct H as [H|H]; [discriminate H|]); now destruct H.
Lemma gives_text n v g : In n text_options -> gives (n, v) g -> g = (n, OStr v).
Proof.
  intros H G. inversion G as [|? ? K K1 K2 K3|? K|? K]; subst; [reflexivity|..]; [|absurd_in H..].
  exfalso. unfold number_options in K. cbn in K. destruct K as [<-|[<-|[]]]; absurd_in H.
Qed.
Lemma gives_number n v g : In n number_options -> gives (n, v) g -> v <> [] /\ Forall (fun d => 48 <= d <= 57) v /\ number v < 2 ^ 63 /\ g = (n, OInt (number v)).
Proof.
  intros H G. inversion G as [? ? K|? ? K K1 K2 K3|? K|? K]; subst; [|now repeat split|absurd_in H..].
  exfalso. unfold number_options in H. cbn in H. destruct H as [<-|[<-|[]]]; absurd_in K.
Qed.
Lemma gives_bool v g : gives (text "debug", v) g -> ((v = [] \/ map lower v = text "true") /\ g = (text "debug", OBool 1)) \/ (map lower v = text "false" /\ g = (text "debug", OBool 0)).
Proof. intros G. inversion G as [? ? K|? ? K K1 K2 K3|? K|? K]; subst; [absurd_in K|absurd_in K|left; now split|right; now split]. Qed.
Lemma args_set_iff l n v o : Forall fits l -> (args_set (options l) n v = Ok o <-> exists g, gives (n, v) g /\ o = options (l ++ [g])).
Proof.
  intros Hl. pose proof (find_options l n Hl) as Hf. unfold args_set.
  destruct (opts_find endpoint_init n) as [d|] eqn:Ed.
  2: { rewrite Hf. split; [easy|]. intros (g & H & _). apply gives_name in H as (_ & d & H & _). cbn in H. rewrite (find_of _ _ H) in Ed. discriminate. }
  destruct Hf as (e & -> & He). pose proof (find_in _ _ _ Ed) as Hi. pose proof (in_map fst _ _ Hi) as Hn. cbn [fst] in Hn.
  assert (Hput : forall w, opts_put (options l) n w = options (l ++ [(n, w)])) by (intros w; now apply put_options).
  assert (Hg : forall g, gives (n, v) g -> fst g = n /\ same_kind (snd g) d).
  { intros g H. pose proof (gives_fits _ _ H d) as K. apply gives_name in H as (E & _). cbn in E. rewrite E in K. auto. }
  destruct (kinds_of n d Hi) as [[H ->]|[[-> ->]|[[H [z ->]]|[-> ->]]]]; destruct e; try easy.
  - rewrite str_is_false.
    2: { intros ->. absurd_in H. }
    rewrite Hput. split.
    + intros [= <-]. exists (n, OStr v). split; [now constructor|reflexivity].
    + intros (g & Hgv & ->). now rewrite (gives_text _ _ _ H Hgv).
  - rewrite str_is_refl. split; [easy|]. intros (g & G & _). apply gives_name in G as (_ & _ & _ & _ & G). easy.
  - destruct v as [|c v]; cbn [nonempty negb].
    { split; [easy|]. intros (g & Hgv & _). now apply gives_number in Hgv as (? & _). }
    destruct (toint (c :: v) 0) as [z'| |] eqn:Et; cbn [bind].
    + apply toint_iff in Et; [|lia]. destruct Et as (T1 & T2 & T3). rewrite Z.mul_0_l, Z.add_0_l in T2, T3. rewrite Hput. split.
      * intros [= <-]. exists (n, OInt z'). split; [|reflexivity]. subst z'. now constructor.
      * intros (g & Hgv & ->). apply gives_number in Hgv as (_ & _ & _ & ->); auto. now subst z'.
    + split; [easy|]. intros (g & Hgv & _). exfalso. apply gives_number in Hgv as (_ & K1 & K2 & _); auto.
      assert (toint (c :: v) 0 = Ok (number (c :: v))) by (apply toint_iff; [lia|]; repeat split; auto; lia). congruence.
    + now apply toint_no_ub in Et.
  - destruct v as [|c v]; cbn [nonempty negb].
    { rewrite Hput. split.
      - intros [= <-]. eexists. split; [apply G_true; now left|reflexivity].
      - intros (g & Hgv & ->). apply gives_bool in Hgv as [[_ ->]|[K _]]; [reflexivity|discriminate K]. }
    destruct (is_case (c :: v) (text "true")) eqn:E1; [|destruct (is_case (c :: v) (text "false")) eqn:E2].
    + rewrite Hput. apply is_case_iff in E1. split.
      * intros [= <-]. eexists. split; [apply G_true; right; exact E1|reflexivity].
      * intros (g & Hgv & ->). apply gives_bool in Hgv as [[_ ->]|[K _]]; [reflexivity|]. rewrite E1 in K. discriminate K.
    + rewrite Hput. apply is_case_iff in E2. split.
      * intros [= <-]. eexists. split; [apply G_false; exact E2|reflexivity].
      * intros (g & Hgv & ->). apply gives_bool in Hgv as [[[K|K] _]|[K ->]]; [discriminate K| |reflexivity]. rewrite E2 in K. discriminate K.
    + split; [easy|]. intros (g & Hgv & _). exfalso. apply gives_bool in Hgv as [[[K|K] _]|[K _]]; [discriminate K|..].
      * assert (is_case (c :: v) (text "true") = true) by (apply is_case_iff; exact K). congruence.
      * assert (is_case (c :: v) (text "false") = true) by (apply is_case_iff; exact K). congruence.
Qed.
Lemma args_set_ub l n v : Forall fits l -> args_set (options l) n v = UB -> n = text "uri".
Proof.
  intros Hl. unfold args_set. destruct (opts_find (options l) n) as [[]|]; try easy.
  - repeat (match goal with |- context [if ?c then _ else _] => destruct c end); easy.
  - destruct (negb (nonempty v)); [easy|]. pose proof (toint_no_ub v 0). now destruct (toint v 0).
  - destruct (str_is n (text "uri")) eqn:E; [|easy]. intros _. now apply str_is_iff.
Qed.

(** the arguments *)
Lemma upto_some c s a r : upto c s = (a, Some r) <-> s = a ++ c :: r /\ ~ In c a.
Proof.
  revert a; induction s as [|x s IH]; intros a; cbn.
  - split; [easy|]. intros [H _]. now destruct a.
  - destruct (x =? c) eqn:E.
    + apply Z.eqb_eq in E. subst. split; [intros [= <- ->]; now split|]. intros [H Hn]. destruct a as [|y a]; [now injection H as ->|].
      injection H as -> _. exfalso. apply Hn. now left.
    + apply Z.eqb_neq in E. destruct (upto c s) as [b q] eqn:Eu. split.
      * intros [= <- ->]. destruct (proj1 (IH b) eq_refl) as [-> Hn]. split; [reflexivity|]. intros [H|H]; [now subst|auto].
      * intros [H Hn]. destruct a as [|y a]; [injection H as -> _; easy|]. injection H as -> H.
        assert (H2 : (b, q) = (a, Some r)) by (apply IH; split; auto; intros K; apply Hn; now right). now injection H2 as -> ->.
Qed.
Lemma upto_none c s a : upto c s = (a, None) <-> s = a /\ ~ In c s.
Proof.
  revert a; induction s as [|x s IH]; intros a; cbn.
  - split; [intros [= <-]; easy|]. now intros [<- _].
  - destruct (x =? c) eqn:E.
    + apply Z.eqb_eq in E. subst. split; [easy|]. intros [_ H]. exfalso. apply H. now left.
    + apply Z.eqb_neq in E. destruct (upto c s) as [b q] eqn:Eu. split.
      * intros [= <- ->]. destruct (proj1 (IH b) eq_refl) as [-> Hn]. split; [reflexivity|]. intros [H|H]; [now subst|auto].
      * intros [<- Hn]. assert (H2 : (b, q) = (s, None)) by (apply IH; split; auto). now injection H2 as -> ->.
Qed.
Lemma args_loop_iff fuel l s o : (length s < fuel)%nat -> Forall fits l ->
  (args_loop fuel (options l) s = Ok o <-> exists al given, arguments s al /\ Forall2 gives al given /\ o = options (l ++ given)).
Proof.
  revert l s; induction fuel as [|fuel IH]; intros l s Hf Hl; [lia|]. cbn [args_loop]. split.
  - destruct (upto EQUAL s) as [tn [r|]] eqn:E1; [|easy]. apply upto_some in E1 as [-> Hn].
    destruct tn as [|c tn]; [easy|]. cbn [nonempty negb].
    destruct (decode (c :: tn)) as [n| |] eqn:Dn; try easy. cbn [bind]. destruct (upto AMPERSAND r) as [tv q] eqn:E2.
    destruct (decode tv) as [v| |] eqn:Dv; try easy. cbn [bind]. apply decode_iff in Dn, Dv.
    destruct (args_set (options l) n v) as [o1| |] eqn:Es; try easy. cbn [bind]. apply args_set_iff in Es as (g & Hg & ->); auto.
    destruct q as [r'|].
    + apply upto_some in E2 as [-> Hv]. intros H. apply IH in H as (al & given & H1 & H2 & ->).
      * exists ((n, v) :: al), (g :: given). split; [|split; [now constructor|now rewrite <- app_assoc]].
        replace ((c :: tn) ++ EQUAL :: tv ++ AMPERSAND :: r') with (((c :: tn) ++ text "=" ++ tv) ++ text "&" ++ r') by (now rewrite <- !app_assoc).
        constructor; auto. now constructor.
      * cbn in Hf. rewrite app_length in Hf. cbn in Hf. rewrite app_length in Hf. cbn in Hf. lia.
      * apply Forall_app. split; auto. constructor; [eapply gives_fits; eauto|constructor].
    + apply upto_none in E2 as [-> Hv]. intros [= <-]. exists [(n, v)], [g]. split; [|split; [repeat constructor; auto|reflexivity]].
      constructor. now apply (A_arg (c :: tn) tv n v).
  - intros (al & given & Ha & Hg & ->). destruct Ha as [t a Ha|t a t' al' Ha Ht].
    + destruct Ha as [tn tv n v K1 K2 K3 K4 K5]. inversion Hg as [|? g ? ? G1 G2]; subst. inversion G2; subst.
      replace (upto EQUAL (tn ++ text "=" ++ tv)) with (tn, Some tv) by (symmetry; now apply upto_some).
      destruct tn as [|c tn]; [easy|]. cbn [nonempty negb]. rewrite (proj2 (decode_iff _ _) K4). cbn [bind].
      replace (upto AMPERSAND tv) with (tv, @None (list Z)) by (symmetry; now apply upto_none). rewrite (proj2 (decode_iff _ _) K5). cbn [bind].
      replace (args_set (options l) n v) with (Ok (options (l ++ [g]))) by (symmetry; apply args_set_iff; eauto). reflexivity.
    + destruct Ha as [tn tv n v K1 K2 K3 K4 K5]. inversion Hg as [|? g ? given' G1 G2]; subst.
      replace (upto EQUAL ((tn ++ text "=" ++ tv) ++ text "&" ++ t')) with (tn, Some (tv ++ AMPERSAND :: t')) by (symmetry; apply upto_some; split; [now rewrite <- !app_assoc|auto]).
      destruct tn as [|c tn]; [easy|]. cbn [nonempty negb]. rewrite (proj2 (decode_iff _ _) K4). cbn [bind].
      replace (upto AMPERSAND (tv ++ AMPERSAND :: t')) with (tv, Some t') by (symmetry; now apply upto_some). rewrite (proj2 (decode_iff _ _) K5). cbn [bind].
      replace (args_set (options l) n v) with (Ok (options (l ++ [g]))) by (symmetry; apply args_set_iff; eauto). cbn [bind].
      apply IH.
      * cbn in Hf. repeat (rewrite app_length in Hf; cbn in Hf). lia.
      * apply Forall_app. split; auto. constructor; [eapply gives_fits; eauto|constructor].
      * exists al', given'. split; [auto|split; [auto|now rewrite <- app_assoc]].
Qed.
Lemma args_loop_ub fuel l s : (length s < fuel)%nat -> Forall fits l -> args_loop fuel (options l) s = UB ->
  exists before name after, s = before ++ name ++ text "=" ++ after /\ spells name (text "uri") /\ (before = [] \/ exists b, before = b ++ text "&").
Proof.
  revert l s; induction fuel as [|fuel IH]; intros l s Hf Hl; [lia|]. cbn [args_loop].
  destruct (upto EQUAL s) as [tn [r|]] eqn:E1; [|easy]. apply upto_some in E1 as [-> Hn].
  destruct tn as [|c tn]; [easy|]. cbn [nonempty negb].
  destruct (decode (c :: tn)) as [n| |] eqn:Dn; [|easy|now apply decode_no_ub in Dn]. cbn [bind]. destruct (upto AMPERSAND r) as [tv q] eqn:E2.
  destruct (decode tv) as [v| |] eqn:Dv; [|easy|now apply decode_no_ub in Dv]. cbn [bind].
  destruct (args_set (options l) n v) as [o1| |] eqn:Es; [|easy|].
  - cbn [bind]. apply args_set_iff in Es as (g & Hg & ->); auto. destruct q as [r'|]; [|easy].
    apply upto_some in E2 as [-> Hv]. intros H. apply IH in H as (b & nm & a & -> & H1 & H2).
    + exists ((c :: tn) ++ EQUAL :: tv ++ AMPERSAND :: b), nm, a. split; [now rewrite <- !app_assoc, <- !app_comm_cons, <- !app_assoc|]. split; [auto|]. right.
      destruct H2 as [->|[b' ->]].
      * exists ((c :: tn) ++ EQUAL :: tv). now rewrite <- app_assoc.
      * exists ((c :: tn) ++ EQUAL :: tv ++ AMPERSAND :: b'). now rewrite <- !app_assoc, <- !app_comm_cons, <- !app_assoc.
    + cbn in Hf. repeat (rewrite app_length in Hf; cbn in Hf). lia.
    + apply Forall_app. split; auto. constructor; [eapply gives_fits; eauto|constructor].
  - intros _. apply args_set_ub in Es; auto. subst n. apply decode_iff in Dn. exists [], (c :: tn), r. split; [reflexivity|]. split; [auto|now left].
Qed.
Lemma parse_args_iff l s o : Forall fits l ->
  (parse_args (options l) s = Ok o <-> (s = [] /\ o = options l) \/ exists t al given, s = text "?" ++ t /\ arguments t al /\ Forall2 gives al given /\ o = options (l ++ given)).
Proof.
  intros Hl. destruct s as [|c s]; cbn [parse_args].
  - split; [intros [= <-]; now left|]. intros [[_ ->]|(t & al & given & H & _)]; [reflexivity|discriminate].
  - destruct (c =? QUESTION) eqn:E.
    + apply Z.eqb_eq in E. subst. rewrite args_loop_iff by (auto; lia). split.
      * intros (al & given & H1 & H2 & ->). right. exists s, al, given. now repeat split.
      * intros [[H _]|(t & al & given & H & H1 & H2 & ->)]; [discriminate|]. injection H as ->. eauto.
    + split; [easy|]. intros [[H _]|(t & al & given & H & _)]; [discriminate|]. injection H as -> _. discriminate E.
Qed.
(** the path *)
Definition texts (a : list assignment) : list (list Z * optval) := map (fun x : assignment => (fst x, OStr (snd x))) a.
Lemma path_next_app s : let (a, b) := path_next s in s = a ++ b /\ ~ In 47 a /\ ~ In 63 a /\ (b = [] \/ exists r, b = 47 :: r \/ b = 63 :: r).
Proof.
  induction s as [|c s IH]; cbn; [repeat split; auto|]. destruct ((c =? SLASH) || (c =? QUESTION)) eqn:E.
  - repeat split; auto. right. exists s. apply orb_prop in E as [E|E]; apply Z.eqb_eq in E; subst; auto.
  - apply orb_false_elim in E as [E1 E2]. apply Z.eqb_neq in E1, E2. destruct (path_next s) as [a b]. destruct IH as (-> & H1 & H2 & H3).
    repeat split; auto; intros [H|H]; auto.
Qed.
Lemma path_next_word w s : ~ In 47 w -> ~ In 63 w -> (s = [] \/ exists r, s = 47 :: r \/ s = 63 :: r) -> path_next (w ++ s) = (w, s).
Proof.
  induction w as [|c w IH]; intros H1 H2 H3; cbn [app].
  - destruct H3 as [->|[r [->| ->]]]; reflexivity.
  - cbn [path_next]. destruct ((c =? SLASH) || (c =? QUESTION)) eqn:E.
    { exfalso. apply orb_prop in E as [E|E]; apply Z.eqb_eq in E; subst; [apply H1|apply H2]; now left. }
    rewrite IH; auto; intros K; [apply H1|apply H2]; now right.
Qed.
Lemma ends_iff s : path_ends s = true <-> s = [] \/ exists r, s = 63 :: r.
Proof.
  destruct s as [|c s]; cbn; [split; auto|]. rewrite Z.eqb_eq. unfold QUESTION. split; [intros ->; right; eauto|].
  intros [H|[r H]]; [discriminate|now injection H].
Qed.
Lemma In_db : In (text "db") (map fst endpoint_init).
Proof. cbn. solve [repeat (first [left; reflexivity | right])]. Qed.
Lemma In_relation : In (text "relation") (map fst endpoint_init).
Proof. cbn. solve [repeat (first [left; reflexivity | right])]. Qed.
Lemma In_service : In (text "service") (map fst endpoint_init).
Proof. cbn. solve [repeat (first [left; reflexivity | right])]. Qed.
Lemma parse_path_sound l s o rest : parse_path (options l) s = Ok (o, rest) -> path_ends rest = true ->
  exists p a, s = p ++ rest /\ path p a /\ o = options (l ++ texts a).
Proof.
  unfold parse_path. intros H He. destruct (path_ends s) eqn:E0.
  { injection H as <- <-. exists [], []. split; [reflexivity|]. split; [constructor|now rewrite app_nil_r]. }
  pose proof (path_next_app s) as Hp. destruct (path_next s) as [db s1]. destruct Hp as (-> & W1 & W2 & W3).
  destruct db as [|c db]; cbn [nonempty negb] in H.
  { injection H as <- <-. cbn [app] in E0. congruence. }
  assert (Wd : word (c :: db)) by (split; [discriminate|auto]). rewrite put_options in H by apply In_db.
  destruct (path_ends s1) eqn:E1.
  { injection H as <- <-. exists (c :: db), [(text "db", c :: db)]. split; [reflexivity|]. split; [now constructor|reflexivity]. }
  destruct W3 as [->|[r [->| ->]]]; try discriminate E1. cbn [tl] in H.
  destruct (path_ends r) eqn:E2.
  { injection H as <- <-. exists ((c :: db) ++ text "/"), [(text "db", c :: db)]. split; [now rewrite <- app_assoc|]. split; [now constructor|reflexivity]. }
  pose proof (path_next_app r) as Hp. destruct (path_next r) as [rel s2]. destruct Hp as (-> & V1 & V2 & V3).
  destruct rel as [|d rel]; cbn [nonempty negb] in H; [discriminate|].
  assert (Wr : word (d :: rel)) by (split; [discriminate|auto]). rewrite put_options in H by apply In_relation. rewrite <- app_assoc in H.
  destruct (path_ends s2) eqn:E3.
  { injection H as <- <-. exists ((c :: db) ++ text "/" ++ (d :: rel)), [(text "db", c :: db); (text "relation", d :: rel)]. split; [now rewrite <- !app_assoc|]. split; [now constructor|reflexivity]. }
  destruct V3 as [->|[r [->| ->]]]; try discriminate E3. cbn [tl] in H. injection H as <- <-.
  exists ((c :: db) ++ text "/" ++ (d :: rel) ++ text "/"), [(text "db", c :: db); (text "relation", d :: rel)]. split; [now rewrite <- !app_assoc|]. split; [now constructor|reflexivity].
Qed.
Lemma ends_next s : path_ends s = true -> s = [] \/ exists r, s = 47 :: r \/ s = 63 :: r.
Proof. intros H. apply ends_iff in H as [->|[r ->]]; eauto. Qed.
Lemma word_not_end w s : word w -> path_ends (w ++ s) = false.
Proof. intros (H & _ & H2). destruct w as [|c w]; [easy|]. cbn. apply Z.eqb_neq. intros ->. apply H2. now left. Qed.
Lemma parse_path_complete l p a rest : path p a -> path_ends rest = true -> parse_path (options l) (p ++ rest) = Ok (options (l ++ texts a), rest).
Proof.
  intros Hp He. pose proof (ends_next _ He) as Hn. unfold parse_path.
  assert (Hw : forall w, word w -> nonempty w = true) by (intros [|] [? ?]; easy).
  destruct Hp as [|db W|db W|db r W V|db r W V].
  - cbn [app]. rewrite He. cbn. now rewrite app_nil_r.
  - rewrite word_not_end by auto. pose proof W as (_ & W1 & W2). rewrite path_next_word by auto. rewrite Hw by auto. cbn [negb]. rewrite He, put_options by apply In_db. reflexivity.
  - rewrite <- app_assoc, word_not_end by auto. pose proof W as (_ & W1 & W2). rewrite path_next_word by (auto; right; eexists; left; reflexivity). rewrite Hw by auto. cbn [negb].
    change (path_ends (text "/" ++ rest)) with false. cbn [tl text map list_ascii_of_string app]. cbv iota. rewrite He, put_options by apply In_db. reflexivity.
  - rewrite <- !app_assoc, word_not_end by auto. pose proof W as (_ & W1 & W2). rewrite path_next_word by (auto; right; eexists; left; reflexivity). rewrite Hw by auto. cbn [negb].
    change (path_ends (text "/" ++ r ++ rest)) with false. change (tl (text "/" ++ r ++ rest)) with (r ++ rest). cbv iota. rewrite word_not_end by auto.
    pose proof V as (_ & V1 & V2). rewrite path_next_word by auto. rewrite Hw by auto. cbn [negb]. rewrite He, put_options by apply In_db. rewrite put_options by apply In_relation.
    now rewrite <- app_assoc.
  - rewrite <- !app_assoc, word_not_end by auto. pose proof W as (_ & W1 & W2). rewrite path_next_word by (auto; right; eexists; left; reflexivity). rewrite Hw by auto. cbn [negb].
    change (path_ends (text "/" ++ r ++ text "/" ++ rest)) with false. change (tl (text "/" ++ r ++ text "/" ++ rest)) with (r ++ text "/" ++ rest). cbv iota. rewrite word_not_end by auto.
    pose proof V as (_ & V1 & V2). rewrite path_next_word by (auto; right; eexists; left; reflexivity). rewrite Hw by auto. cbn [negb].
    change (path_ends (text "/" ++ rest)) with false. change (tl (text "/" ++ rest)) with rest. cbv iota. rewrite put_options by apply In_db. rewrite put_options by apply In_relation.
    now rewrite <- app_assoc.
Qed.
Lemma parse_path_no_ub o s : parse_path o s <> UB.
Proof.
  unfold parse_path. destruct (path_ends s); [easy|]. destruct (path_next s) as [n s1]. destruct (negb (nonempty n)); [easy|]. cbv zeta. destruct (path_ends s1); [easy|].
  destruct (path_ends (tl s1)); [easy|]. destruct (path_next (tl s1)) as [n2 s2]. destruct (negb (nonempty n2)); [easy|]. now destruct (path_ends s2).
Qed.
Lemma path_gives p a : path p a -> Forall2 gives a (texts a) /\ (forall g, Forall2 gives a g -> g = texts a).
Proof.
  intros H.
  assert (K : Forall (fun x : assignment => In (fst x) text_options) a).
  { assert (In (text "db") text_options) by (unfold text_options; cbn; solve [repeat (first [left; reflexivity | right])]).
    assert (In (text "relation") text_options) by (unfold text_options; cbn; solve [repeat (first [left; reflexivity | right])]).
    destruct H; repeat (apply Forall_cons; [assumption|]); apply Forall_nil. }
  clear H. induction K as [|[n v] a K1 K2 [IH1 IH2]]; cbn.
  - split; [constructor|]. intros g H. now inversion H.
  - split; [constructor; [now constructor|auto]|]. intros g H. inversion H as [|? x ? g' G1 G2]; subst. rewrite (gives_text _ _ _ K1 G1). f_equal. auto.
Qed.

(** the whole text *)
Lemma parse_endpoint_sound l s o : Forall fits l -> ~ In 0 s -> parse_endpoint (options l) s = Ok o ->
  exists a al given, uri s a al /\ Forall2 gives (a ++ al) given /\ o = options ((l ++ [(text "uri", OStr s)]) ++ given).
Proof.
  intros Hl H0 H. unfold parse_endpoint in H. rewrite put_options in H by (cbn; solve [repeat (first [left; reflexivity | right])]). cbv zeta in H.
  set (l1 := l ++ [(text "uri", OStr s)]) in *.
  assert (Hl1 : Forall fits l1).
  { apply Forall_app. split; auto. constructor; [|constructor]. intros d Hd. cbn [fst snd] in *. vm_compute in Hd. injection Hd as <-. exact I. }
  destruct (after_prefix s (text "/v1/db/")) as [r|] eqn:Ep.
  - apply after_prefix_iff in Ep. rewrite cstring_id in H by (intros K; apply H0; rewrite Ep; apply in_or_app; now right).
    destruct (parse_path (options l1) r) as [[o1 rest]| |] eqn:Epp; try easy. cbn [bind] in H.
    assert (He : path_ends rest = true).
    { destruct rest as [|c rest]; [reflexivity|]. cbn in H |- *. destruct (c =? QUESTION); [reflexivity|discriminate]. }
    apply parse_path_sound in Epp as (p & a & -> & Hp & ->); auto.
    assert (Hl2 : Forall fits (l1 ++ texts a)).
    { apply Forall_app. split; auto. destruct (path_gives _ _ Hp) as [G _]. clear -G. induction G; constructor; auto. eapply gives_fits; eauto. }
    apply parse_args_iff in H; auto. destruct H as [[-> ->]|(t & al & given & -> & H1 & H2 & ->)].
    + exists a, [], (texts a). split; [|split; [rewrite app_nil_r; now apply (path_gives p)|reflexivity]]. rewrite Ep, app_nil_r. now constructor.
    + exists a, al, (texts a ++ given). split; [|split; [apply Forall2_app; [now apply (path_gives p)|auto]|now rewrite <- !app_assoc]]. rewrite Ep. now constructor.
  - assert (Hs : forall w, gives (text "service", w) (text "service", OStr w)) by (intros w; constructor; unfold text_options; cbn; solve [repeat (first [left; reflexivity | right])]).
    destruct (str_is s (text "/v1/backup")) eqn:E1; [|destruct (str_is s (text "/v1/repl")) eqn:E2; [|discriminate]].
    + apply str_is_iff in E1. rewrite put_options in H by apply In_service. injection H as <-. eexists _, [], [_]. split; [rewrite E1; apply U_backup|]. split; [constructor; [apply Hs|constructor]|reflexivity].
    + apply str_is_iff in E2. rewrite put_options in H by apply In_service. injection H as <-. eexists _, [], [_]. split; [rewrite E2; apply U_repl|]. split; [constructor; [apply Hs|constructor]|reflexivity].
Qed.
Lemma parse_endpoint_complete l s a al given : Forall fits l -> ~ In 0 s -> uri s a al -> Forall2 gives (a ++ al) given ->
  parse_endpoint (options l) s = Ok (options ((l ++ [(text "uri", OStr s)]) ++ given)).
Proof.
  intros Hl H0 Hu Hg. unfold parse_endpoint. rewrite put_options by (cbn; solve [repeat (first [left; reflexivity | right])]). cbv zeta.
  assert (Hl1 : Forall fits (l ++ [(text "uri", OStr s)])).
  { apply Forall_app. split; auto. constructor; [|constructor]. intros d Hd. cbn [fst snd] in *. vm_compute in Hd. injection Hd as <-. exact I. }
  remember (l ++ [(text "uri", OStr s)]) as l1 eqn:El1.
  assert (Hs : forall w g, Forall2 gives [(text "service", w)] g -> g = [(text "service", OStr w)]).
  { intros w g H. inversion H as [|? x ? g' G1 G2]; subst. inversion G2; subst. f_equal. apply gives_text in G1; auto. unfold text_options; cbn; solve [repeat (first [left; reflexivity | right])]. }
  assert (Hdb : forall p rest a', path p a' -> path_ends rest = true -> ~ In 0 (p ++ rest) ->
     match after_prefix (text "/v1/db/" ++ p ++ rest) (text "/v1/db/") with Some s => do (o, s) <- parse_path (options l1) (cstring s); parse_args o s | None => @Err opts end
     = parse_args (options (l1 ++ texts a')) rest).
  { intros p rest a' Hp He Hz. rewrite (proj2 (after_prefix_iff _ _ (p ++ rest)) eq_refl). rewrite cstring_id by auto. rewrite (parse_path_complete _ _ _ _ Hp He). reflexivity. }
  destruct Hu as [p a' Hp|p a' t al' Hp Ht| |].
  - specialize (Hdb p [] a' Hp eq_refl). rewrite app_nil_r in Hdb.
    assert (Hz : ~ In 0 p) by (intros K; apply H0; apply in_or_app; now right). specialize (Hdb Hz).
    rewrite app_nil_r in Hg. rewrite (proj2 (path_gives _ _ Hp) _ Hg) in *.
    rewrite (proj2 (after_prefix_iff _ _ p) eq_refl) in Hdb |- *. exact Hdb.
  - assert (Hz : ~ In 0 (p ++ text "?" ++ t)) by (intros K; apply H0; apply in_or_app; now right).
    specialize (Hdb p (text "?" ++ t) a' Hp eq_refl Hz). rewrite (proj2 (after_prefix_iff _ _ (p ++ text "?" ++ t)) eq_refl) in Hdb |- *. rewrite Hdb.
    apply Forall2_app_inv_l in Hg as (g1 & g2 & G1 & G2 & ->). rewrite (proj2 (path_gives _ _ Hp) _ G1).
    apply parse_args_iff.
    + apply Forall_app. split; auto. destruct (path_gives _ _ Hp) as [G _]. clear -G. induction G; constructor; auto. eapply gives_fits; eauto.
    + right. exists t, al', g2. split; [reflexivity|]. split; [auto|]. split; [auto|now rewrite <- app_assoc].
  - cbn [app] in Hg. rewrite (Hs _ _ Hg). change (after_prefix (text "/v1/backup") (text "/v1/db/")) with (@None (list Z)). change (str_is (text "/v1/backup") (text "/v1/backup")) with true.
    cbv iota. rewrite put_options by apply In_service. reflexivity.
  - cbn [app] in Hg. rewrite (Hs _ _ Hg). change (after_prefix (text "/v1/repl") (text "/v1/db/")) with (@None (list Z)). change (str_is (text "/v1/repl") (text "/v1/backup")) with false. change (str_is (text "/v1/repl") (text "/v1/repl")) with true.
    cbv iota. rewrite put_options by apply In_service. reflexivity.
Qed.
Lemma parse_endpoint_ub l s : Forall fits l -> ~ In 0 s -> parse_endpoint (options l) s = UB ->
  exists before name after, s = before ++ name ++ text "=" ++ after /\ spells name (text "uri") /\ exists b, before = b ++ text "?" \/ before = b ++ text "&".
Proof.
  intros Hl H0 H. unfold parse_endpoint in H. rewrite put_options in H by (cbn; solve [repeat (first [left; reflexivity | right])]). cbv zeta in H.
  assert (Hl1 : Forall fits (l ++ [(text "uri", OStr s)])).
  { apply Forall_app. split; auto. constructor; [|constructor]. intros d Hd. cbn [fst snd] in *. vm_compute in Hd. injection Hd as <-. exact I. }
  destruct (after_prefix s (text "/v1/db/")) as [r|] eqn:Ep.
  - apply after_prefix_iff in Ep. rewrite cstring_id in H by (intros K; apply H0; rewrite Ep; apply in_or_app; now right).
    destruct (parse_path _ r) as [[o1 rest]| |] eqn:Epp; [|easy|now apply parse_path_no_ub in Epp]. cbn [bind] in H.
    destruct rest as [|c rest]; [easy|]. cbn [parse_args] in H. destruct (c =? QUESTION) eqn:Ec; [|easy].
    assert (He : path_ends (c :: rest) = true) by exact Ec. apply Z.eqb_eq in Ec. subst c.
    apply parse_path_sound in Epp as (p & a & -> & Hp & ->); auto.
    apply args_loop_ub in H as (b & n & af & -> & H1 & H2); [|lia|].
    + exists (text "/v1/db/" ++ p ++ QUESTION :: b), n, af. split; [rewrite Ep; now rewrite <- !app_assoc|]. split; [auto|].
      destruct H2 as [->|[b' ->]]; [exists (text "/v1/db/" ++ p); left; now rewrite <- app_assoc|exists (text "/v1/db/" ++ p ++ QUESTION :: b'); right; now rewrite <- !app_assoc, <- !app_comm_cons].
    + apply Forall_app. split; auto. destruct (path_gives _ _ Hp) as [G _]. clear -G. induction G; constructor; auto. eapply gives_fits; eauto.
  - destruct (str_is s (text "/v1/backup")); [easy|]. now destruct (str_is s (text "/v1/repl")).
Qed.
(** the message *)
Lemma http_find_header hs name d : match http_find hs (text name) with Some v => v | None => d end = header hs name d.
Proof.
  unfold header. induction hs as [|[n v] hs IH]; [reflexivity|]. cbn [http_find find fst]. destruct (is_case n (text name)) eqn:E.
  - apply is_case_iff in E. destruct (list_eq_dec Z.eq_dec (map lower n) (map lower (text name))); easy.
  - destruct (list_eq_dec Z.eq_dec (map lower n) (map lower (text name))) as [K|K]; [apply is_case_iff in K; congruence|auto].
Qed.
Definition msg_given (q : message) : list (list Z * optval) :=
  (match http_find (m_headers q) (text "Content-Type") with Some v => [(text "content_type", OStr v)] | None => [] end) ++ [(text "accept", OStr (header (m_headers q) "Accept" (text "application/json")))].
Lemma In_ct : In (text "content_type") (map fst endpoint_init).
Proof. cbn. solve [repeat (first [left; reflexivity | right])]. Qed.
Lemma In_accept : In (text "accept") (map fst endpoint_init).
Proof. cbn. solve [repeat (first [left; reflexivity | right])]. Qed.
Lemma msg_fits q : Forall fits (msg_given q).
Proof.
  assert (forall n v, In n text_options -> fits (n, OStr v)) as K by (intros n v H; apply (gives_fits (n, v)); now constructor).
  apply Forall_app. split; [destruct (http_find _ _); [constructor; [|constructor]|constructor]|constructor; [|constructor]]; apply K; unfold text_options; cbn; solve [repeat (first [left; reflexivity | right])].
Qed.
Lemma frontend_unfold o q : some_endpoint o -> frontend_endpoint o q = if str_is (m_a q) s_post then parse_endpoint (options (msg_given q)) (m_b q) else Err.
Proof.
  intros Ho. unfold frontend_endpoint. rewrite (reset_some _ Ho), <- options_nil. cbv zeta. destruct (str_is (m_a q) s_post); [|reflexivity]. cbn [negb].
  rewrite http_find_header. unfold msg_given. destruct (http_find (m_headers q) (text "Content-Type")).
  - rewrite put_options by apply In_ct. rewrite put_options by apply In_accept. reflexivity.
  - rewrite put_options by apply In_accept. reflexivity.
Qed.
Lemma last_given_app n a b d : last_given n (a ++ b) d = last_given n b (last_given n a d).
Proof. revert d; induction a as [|[m v] a IH]; intros d; cbn; auto. Qed.
Lemma msg_options q given : options ((msg_given q ++ [(text "uri", OStr (m_b q))]) ++ given) = options (given_by_message q ++ given).
Proof.
  unfold options. apply map_ext_in. intros [n d] Hi. cbn [fst snd]. f_equal. rewrite !last_given_app. f_equal.
  unfold msg_given, given_by_message. pose proof (http_find_header (m_headers q) "Content-Type" []) as E.
  destruct (http_find (m_headers q) (text "Content-Type")); rewrite <- E; cbn [app last_given].
  - reflexivity.
  - destruct (list_eq_dec Z.eq_dec (text "content_type") n) as [<-|]; [|reflexivity].
    pose proof (find_of _ _ Hi) as F. vm_compute in F. injection F as <-. reflexivity.
Qed.
Lemma header_fact : text "POST" = s_post.
Proof. reflexivity. Qed.
Lemma fits_kind x d : In (fst x, d) endpoint_init -> fits x -> same_kind (snd x) d.
Proof. intros H F. apply F. now apply find_of. Qed.
