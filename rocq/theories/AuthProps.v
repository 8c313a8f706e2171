(** C68: which tokens are accepted *)
From Verif Require Import Base CodecModel CodecSpec CodecProps HtModel HtSpec HtProofs AuthModel AuthSpec.
Local Open Scope Z_scope.

Lemma bytes_eqb_eq a b : bytes_eqb a b = true <-> a = b.
Proof.
  revert b; induction a as [|x a IH]; intros [|y b]; cbn [bytes_eqb]; try (split; congruence).
  rewrite andb_true_iff, Z.eqb_eq, IH. split; [intros [-> ->]; reflexivity|intros E; split; congruence].
Qed.
Lemma split_spec s c x y : str_split s c = Some (x, y) <-> s = x ++ c :: y /\ ~ In c x.
Proof.
  revert x y; induction s as [|b r IH]; intros x y; cbn [str_split].
  - split; [discriminate|]. intros [H _]. destruct x; discriminate.
  - destruct (b =? c) eqn:E.
    + apply Z.eqb_eq in E; subst b. split.
      * intros H. assert (x = []) by congruence. assert (y = r) by congruence. subst. auto.
      * intros [H Hn]. destruct x as [|b x]; cbn [app] in H; [congruence|]. exfalso. apply Hn. left. congruence.
    + apply Z.eqb_neq in E. destruct (str_split r c) as [[x' y']|] eqn:Es.
      * destruct (IH x' y') as [IH1 _]. destruct (IH1 eq_refl) as [-> Hn]. split.
        -- intros H. assert (x = b :: x') by congruence. assert (y = y') by congruence. subst. split; [reflexivity|].
           intros [H1|H1]; [congruence|contradiction].
        -- intros [H Hn']. destruct x as [|b' x]; cbn [app] in H; [congruence|].
           assert (b' = b) by congruence. subst b'. assert (Hr : x' ++ c :: y' = x ++ c :: y) by congruence.
           destruct (IH x y) as [_ IH2]. assert (Some (x', y') = Some (x, y)) as Hxy.
           { apply IH2. split; [exact Hr|]. intros H1. apply Hn'. now right. }
           congruence.
      * split; [discriminate|]. intros [H Hn]. destruct x as [|b' x]; cbn [app] in H; [congruence|].
        destruct (IH x y) as [_ IH2]. assert (None = Some (x, y)); [|discriminate]. apply IH2. split; [congruence|].
        intros H1. apply Hn. now right.
Qed.
Lemma len0 {A} (l : list A) : (Z.of_nat (length l) =? 0) = false <-> l <> [].
Proof. destruct l; cbn [length]; split; try congruence; try discriminate. intros _. apply Z.eqb_neq. lia. Qed.

Lemma jwt_decode_ok token j :
  jwt_decode token = Ok j <->
  token_parts token (j_header j) (j_payload j) (j_digest j) /\ j_origin j = j_header j ++ [dot] ++ j_payload j.
Proof.
  unfold jwt_decode, token_parts. split.
  - destruct ((7 <=? Z.of_nat (length token)) && bytes_eqb (firstn 7 token) bearer) eqn:E1; cbn [negb]; [|discriminate].
    apply andb_prop in E1 as [_ E1]. apply bytes_eqb_eq in E1.
    destruct (str_split (skipn 7 token) dot) as [[h r]|] eqn:E2; [|discriminate]. apply split_spec in E2 as [E2 N2].
    destruct (Z.of_nat (length h) =? 0) eqn:L1; [discriminate|]. apply len0 in L1.
    destruct (str_split r dot) as [[p d]|] eqn:E3; [|discriminate]. apply split_spec in E3 as [E3 N3].
    destruct (Z.of_nat (length p) =? 0) eqn:L2; [discriminate|]. apply len0 in L2.
    destruct (Z.of_nat (length d) =? 0) eqn:L3; [discriminate|]. apply len0 in L3.
    intros H. assert (j = mkjwt h p (h ++ [dot] ++ p) d) by congruence. subst j. cbn [j_header j_payload j_origin j_digest].
    split; [|reflexivity]. split; [|auto].
    rewrite <- (firstn_skipn 7 token), E1, E2, E3. reflexivity.
  - destruct j as [h p o d]. cbn [j_header j_payload j_origin j_digest]. intros ((E & N1 & N2 & L1 & L2 & L3) & ->). subst token.
    replace (firstn 7 (bearer ++ h ++ [dot] ++ p ++ [dot] ++ d)) with bearer by reflexivity.
    replace (skipn 7 (bearer ++ h ++ [dot] ++ p ++ [dot] ++ d)) with (h ++ dot :: p ++ dot :: d) by reflexivity.
    rewrite (proj2 (bytes_eqb_eq _ _) eq_refl).
    assert (Hl : (7 <=? Z.of_nat (length (bearer ++ h ++ [dot] ++ p ++ [dot] ++ d))) = true).
    { rewrite app_length. change (length bearer) with 7%nat. lia. }
    rewrite Hl. cbn [andb negb]. rewrite (proj2 (split_spec _ _ h (p ++ dot :: d)) (conj eq_refl N1)).
    rewrite (proj2 (len0 h) L1), (proj2 (split_spec _ _ p d) (conj eq_refl N2)), (proj2 (len0 p) L2), (proj2 (len0 d) L3). reflexivity.
Qed.
Lemma jwt_decode_not_ub token : jwt_decode token <> UB.
Proof.
  unfold jwt_decode. destruct (negb _); [discriminate|]. destruct (str_split _ _) as [[h r]|]; [|discriminate].
  destruct (_ =? 0); [discriminate|]. destruct (str_split _ _) as [[p d]|]; [|discriminate].
  destruct (_ =? 0); [discriminate|]. destruct (_ =? 0); discriminate.
Qed.
Lemma token_parts_inj token h p d h' p' d' :
  token_parts token h p d -> token_parts token h' p' d' -> h = h' /\ p = p' /\ d = d'.
Proof.
  intros H H'. assert (E : Ok (mkjwt h p (h ++ [dot] ++ p) d) = Ok (mkjwt h' p' (h' ++ [dot] ++ p') d')).
  { rewrite <- (proj2 (jwt_decode_ok token (mkjwt h p (h ++ [dot] ++ p) d))) by (split; [exact H|reflexivity]).
    symmetry. rewrite <- (proj2 (jwt_decode_ok token (mkjwt h' p' (h' ++ [dot] ++ p') d'))) by (split; [exact H'|reflexivity]). reflexivity. }
  repeat split; congruence.
Qed.
Lemma user_find_ok users name secret : user_find users name = Some secret <-> secret_of users name secret.
Proof.
  unfold secret_of. induction users as [|[n s] r IH]; cbn [user_find].
  - split; [discriminate|]. intros (b & a & H & _). destruct b; discriminate.
  - destruct (bytes_eqb n name) eqn:E.
    + apply bytes_eqb_eq in E; subst n. split.
      * intros H. assert (s = secret) by congruence. subst s. exists [], r. auto.
      * intros ([|[n' s'] b] & a & H & Hn); cbn [app] in H; [congruence|]. exfalso. apply Hn. left. cbn [fst]. congruence.
    + assert (n <> name) as Hne by (intros ->; rewrite (proj2 (bytes_eqb_eq name name) eq_refl) in E; discriminate).
      rewrite IH. split; intros (b & a & H & Hn).
      * exists ((n, s) :: b), a. split; [cbn [app]; congruence|]. cbn [map fst]. intros [H1|H1]; contradiction.
      * destruct b as [|[n' s'] b]; cbn [app] in H; [congruence|]. exists b, a. split; [congruence|]. intros H1. apply Hn. now right.
Qed.

Section Env.
Variable hmac : list Z -> list Z -> list Z.
Variable hashf : list Z -> Z.
Variable header_fields : list Z -> res unit.
Variable payload_fields : list Z -> res (list Z * Z * Z).
Notation valid := (valid_token hmac header_fields payload_fields).
Notation run := (auth_run hmac hashf header_fields payload_fields).
Notation hist := (auth_hist hmac hashf header_fields payload_fields).

Lemma auth_token_ok users token j now user exp :
  jwt_decode token = Ok j ->
  (auth_token hmac header_fields payload_fields users j now = Ok (user, exp) <-> valid users token now user exp).
Proof.
  intros Hj. apply jwt_decode_ok in Hj as [Hp Ho]. unfold auth_token, jwt_decode_data, jwt_validate, valid_token. split.
  - destruct (base64url_decode (j_header j)) as [h| |] eqn:E1; cbn [bind]; try discriminate.
    destruct (header_fields h) as [[]| |] eqn:E2; cbn [bind]; try discriminate.
    destruct (base64url_decode (j_payload j)) as [p| |] eqn:E3; cbn [bind]; try discriminate.
    destruct (payload_fields p) as [[[sub iat] ex]| |] eqn:E4; cbn [bind]; try discriminate.
    destruct ((iat =? 0) || (ex =? 0) || (ex <? iat)) eqn:E5; [discriminate|].
    destruct (ex <=? now) eqn:E6; [discriminate|].
    destruct (user_find users sub) as [secret|] eqn:E7; [|discriminate].
    destruct (base64url_decode (j_digest j)) as [d| |] eqn:E8; cbn [bind]; try discriminate.
    destruct (Z.of_nat (length d) =? 32) eqn:E9; cbn [negb bind]; [|discriminate].
    destruct (bytes_eqb d (hmac secret (j_origin j))) eqn:E10; cbn [bind]; [|discriminate].
    intros H. assert (sub = user) by congruence. assert (ex = exp) by congruence. subst sub ex.
    exists (j_header j), (j_payload j), (j_digest j), h, p, d, iat, secret.
    apply user_find_ok in E7. apply bytes_eqb_eq in E10. rewrite Ho in E10.
    split; [exact Hp|]. repeat (split; [assumption || lia|]). exact E10.
  - intros (header & payload & digest & h & p & d & iat & secret & Hp' & E1 & E2 & E3 & E4 & H1 & H2 & H3 & H4 & E7 & E8 & E9 & E10).
    destruct (token_parts_inj _ _ _ _ _ _ _ Hp Hp') as (X1 & X2 & X3). subst header payload digest.
    rewrite E1; cbn [bind]. rewrite E2; cbn [bind]. rewrite E3; cbn [bind]. rewrite E4; cbn [bind].
    rewrite (proj2 (Z.eqb_neq iat 0) H1), (proj2 (Z.eqb_neq exp 0) H2), (proj2 (Z.ltb_ge exp iat) H3). cbn [orb].
    rewrite (proj2 (Z.leb_gt exp now) H4). rewrite (proj2 (user_find_ok users user secret) E7).
    rewrite E8; cbn [bind]. rewrite E9. change (Z.of_nat 32 =? 32) with true. cbn [negb]. rewrite Ho.
    rewrite (proj2 (bytes_eqb_eq _ _) E10). reflexivity.
Qed.

(** The nodes of the cache are tokens that were valid *)
Definition entry_ok (users : list (list Z * list Z)) (reqs : list (list Z * Z)) (e : centry) : Prop :=
  exists tk now h p, In (tk, now) reqs /\ valid users tk now (c_user e) (c_expire e) /\ token_parts tk h p (c_digest e).
Definition cache_ok (a : auth) (users : list (list Z * list Z)) (reqs : list (list Z * Z)) (t : ht) : Prop :=
  exists L, inv0 t L /\ loaded t L /\
    forall n h, In (n, h) L -> (n < a_next a)%nat /\ h = hashf (c_digest (a_nodes a n)) /\ entry_ok users reqs (a_nodes a n).
Definition auth_ok (a : auth) (users : list (list Z * list Z)) (reqs : list (list Z * Z)) : Prop :=
  a_users a = users /\ match a_ht a with None => True | Some t => cache_ok a users reqs t end.

Lemma entry_ok_more users reqs x e : entry_ok users reqs e -> entry_ok users (reqs ++ [x]) e.
Proof. intros (tk & now & h & p & H & R). exists tk, now, h, p. split; [apply in_or_app; now left|exact R]. Qed.
Lemma prepare_ok a users reqs : auth_ok a users reqs -> cache_ok a users reqs (auth_prepare a).
Proof.
  intros [_ H]. unfold auth_prepare. destruct (a_ht a) as [t|]; [exact H|]. exists []. split; [apply create_inv; lia|].
  split; [|intros ? ? []]. unfold loaded, h_size, ht_create; cbn [h_idx length]. rewrite repeat_length. split; [lia|].
  change (256 / 2)%nat with 128%nat. lia.
Qed.
Lemma loaded_room t L : loaded t L -> (length L < h_size t)%nat.
Proof. intros [H1 H2]. pose proof (half_lt _ H1). lia. Qed.

Lemma filter_more a users reqs x t n t' :
  cache_ok a users reqs t -> (exists h, exists L, inv0 t L /\ loaded t L /\ In (n, h) L /\
     (forall n h, In (n, h) L -> (n < a_next a)%nat /\ h = hashf (c_digest (a_nodes a n)) /\ entry_ok users reqs (a_nodes a n))) ->
  ht_delete t n = Some t' -> cache_ok a users (reqs ++ [x]) t'.
Proof.
  intros _ (h & L & I & Ld & Hin & Hall) E.
  destruct (delete_spec t L n I) as (t1 & E1 & I1 & Hsz & _).
  { apply in_map_iff. exists (n, h). auto. }
  assert (t1 = t') by congruence. subst t1. exists (filter (fun x => negb (fst x =? n)%nat) L). split; [exact I1|]. split.
  - destruct Ld as [H1 H2]. split; [lia|]. rewrite Hsz. pose proof (filter_length_le (fun x : nat * Z => negb (fst x =? n)%nat) L). lia.
  - intros m hm H. apply filter_In in H as [H _]. destruct (Hall m hm H) as (A & B & C). split; [exact A|]. split; [exact B|].
    now apply entry_ok_more.
Qed.

(** One request *)
Lemma run_ok a users reqs token now :
  auth_ok a users reqs ->
  let (a', r) := run a token now in
  auth_ok a' users (reqs ++ [(token, now)]) /\
  match r with
  | Ok u => exists tk' now' exp h p h' p' d, In (tk', now') (reqs ++ [(token, now)]) /\
             valid users tk' now' u exp /\ now < exp /\ token_parts token h p d /\ token_parts tk' h' p' d
  | Err => True
  | UB => exists j, jwt_decode token = Ok j /\ auth_token hmac header_fields payload_fields users j now = UB
  end /\
  (forall u exp, valid users token now u exp ->
     (forall tk' now', In (tk', now') reqs -> forall h p d h' p', token_parts token h p d -> token_parts tk' h' p' d -> tk' = token) ->
     r = Ok u).
Proof.
  intros A. pose proof (prepare_ok a users reqs A) as C. unfold auth_run. set (t := auth_prepare a) in *.
  set (a1 := mkauth (a_users a) (Some t) (a_nodes a) (a_next a)).
  assert (C1 : cache_ok a1 users reqs t) by exact C.
  destruct A as [Au _].
  assert (Keep : auth_ok a1 users (reqs ++ [(token, now)])).
  { split; [exact Au|]. cbn [a_ht a1]. destruct C1 as (L & I & Ld & Hall). exists L. split; [exact I|]. split; [exact Ld|].
    intros n h H. destruct (Hall n h H) as (X & Y & Z'). split; [exact X|]. split; [exact Y|]. now apply entry_ok_more. }
  destruct (jwt_decode token) as [j| |] eqn:Ej.
  2: { split; [exact Keep|]. split; [exact Logic.I|]. intros u exp V. exfalso.
       destruct V as (h & p & d & V). destruct V as (? & ? & ? & ? & ? & V & _).
       assert (jwt_decode token = Ok (mkjwt h p (h ++ [dot] ++ p) d)) by (apply jwt_decode_ok; split; [exact V|reflexivity]). congruence. }
  2: { exfalso. now apply (jwt_decode_not_ub token). }
  pose proof Ej as Hj. apply jwt_decode_ok in Hj as [Hp Ho].
  destruct C1 as (L & I & Ld & Hall).
  destruct (get_spec t L (hashf (j_digest j)) (fun n => bytes_eqb (c_digest (a_nodes a1 n)) (j_digest j)) I (loaded_room _ _ Ld)) as (r & Er & Hr).
  unfold auth_find. rewrite Er. destruct r as [n|].
  - destruct Hr as (Hin & Hd & _). apply bytes_eqb_eq in Hd. destruct (Hall n _ Hin) as (Hn & _ & He).
    destruct (now <? c_expire (a_nodes a1 n)) eqn:Ex.
    + split; [exact Keep|]. split.
      * destruct He as (tk & nw & h & p & H1 & H2 & H3). exists tk, nw, (c_expire (a_nodes a1 n)), (j_header j), (j_payload j), h, p, (j_digest j).
        split; [apply in_or_app; now left|]. split; [exact H2|]. split; [lia|]. split; [exact Hp|]. rewrite <- Hd. exact H3.
      * intros u exp V Huniq. f_equal. destruct He as (tk & nw & h & p & H1 & H2 & H3).
        assert (tk = token) by (rewrite Hd in H3; exact (Huniq tk nw H1 _ _ _ _ _ Hp H3)). subst tk.
        apply (auth_token_ok users token j) in V; [|exact Ej]. apply (auth_token_ok users token j) in H2; [|exact Ej].
        revert V H2. unfold auth_token. destruct (jwt_decode_data _ _ j) as [[[sub iat] ex]| |]; cbn [bind]; try discriminate.
        destruct (_ || _); [discriminate|]. destruct (ex <=? now); [discriminate|]. destruct (ex <=? nw); [discriminate|].
        destruct (user_find users sub) as [s|]; [|discriminate]. destruct (jwt_validate _ _ _) as [[]| |]; cbn [bind]; try discriminate.
        congruence.
    + destruct (delete_spec t L n I) as (t' & Et & _).
      { apply in_map_iff. exists (n, hashf (j_digest j)). auto. }
      rewrite Et. split.
      * split; [exact Au|]. cbn [a_ht]. apply (filter_more _ users reqs _ t n t'); [exists L; auto| |exact Et].
        exists (hashf (j_digest j)), L. auto.
      * split; [exact Logic.I|]. intros u exp V Huniq. exfalso.
        destruct He as (tk & nw & h & p & H1 & H2 & H3).
        assert (tk = token) by (rewrite Hd in H3; exact (Huniq tk nw H1 _ _ _ _ _ Hp H3)). subst tk.
        assert (now < exp) by (destruct V as (? & ? & ? & ? & ? & ? & ? & ? & ? & ? & ? & ? & ? & ? & ? & ? & ? & _); assumption).
        apply (auth_token_ok users token j) in V; [|exact Ej]. apply (auth_token_ok users token j) in H2; [|exact Ej].
        assert (exp = c_expire (a_nodes a1 n)); [|lia].
        revert V H2. unfold auth_token. destruct (jwt_decode_data _ _ j) as [[[sub iat] ex]| |]; cbn [bind]; try discriminate.
        destruct (_ || _); [discriminate|]. destruct (ex <=? now); [discriminate|]. destruct (ex <=? nw); [discriminate|].
        destruct (user_find users sub) as [s|]; [|discriminate]. destruct (jwt_validate _ _ _) as [[]| |]; cbn [bind]; try discriminate.
        congruence.
  - change (a_users a1) with (a_users a). rewrite Au.
    destruct (auth_token hmac header_fields payload_fields users j now) as [[user exp]| |] eqn:Et.
    + assert (V : valid users token now user exp) by (apply (auth_token_ok users token j); [exact Ej|exact Et]).
      unfold auth_add. cbn [c_digest].
      destruct (add_spec t L (a_next a1) (hashf (j_digest j)) I Ld) as (t' & Ea & I' & Ld' & _).
      { intros H. apply in_map_iff in H as ((m & hm) & Em & H). cbn [fst] in Em; subst m. destruct (Hall _ _ H) as [X _]. lia. }
      rewrite Ea. assert (Hne : now < exp) by (destruct V as (? & ? & ? & ? & ? & ? & ? & ? & ? & ? & ? & ? & ? & ? & ? & ? & ? & _); assumption).
      split.
      * split; [exact Au|]. cbn [a_ht]. exists ((a_next a1, hashf (j_digest j)) :: L). split; [exact I'|]. split; [exact Ld'|].
        cbn [a_nodes a_next]. intros n h [H|H].
        -- assert (n = a_next a1) by congruence. assert (h = hashf (j_digest j)) by congruence. subst n h. split; [lia|].
           rewrite upd_same. cbn [c_digest]. split; [reflexivity|]. exists token, now, (j_header j), (j_payload j).
           split; [apply in_or_app; right; now left|]. split; [exact V|exact Hp].
        -- destruct (Hall n h H) as (X & Y & Z'). split; [lia|]. rewrite upd_other by lia. split; [exact Y|]. now apply entry_ok_more.
      * split.
        -- exists token, now, exp, (j_header j), (j_payload j), (j_header j), (j_payload j), (j_digest j).
           split; [apply in_or_app; right; now left|]. auto.
        -- intros u ex V' _. apply (auth_token_ok users token j) in V'; [|exact Ej]. congruence.
    + split; [exact Keep|]. split; [exact Logic.I|]. intros u exp V. apply (auth_token_ok users token j) in V; [|exact Ej]. congruence.
    + split; [exact Keep|]. split; [exists j; auto|]. intros u exp V. apply (auth_token_ok users token j) in V; [|exact Ej]. congruence.
Qed.

Lemma hist_ok ops : forall a users reqs,
  auth_ok a users reqs ->
  let (users', reqs') := current users reqs ops in auth_ok (hist a ops) users' reqs'.
Proof.
  induction ops as [|[tk now|u] r IH]; intros a users reqs A; cbn [current].
  - exact A.
  - unfold auth_hist; cbn [fold_left auth_step]. fold (hist (fst (run a tk now)) r). apply IH.
    pose proof (run_ok a users reqs tk now A) as R. destruct (run a tk now) as [a' res]. exact (proj1 R).
  - unfold auth_hist; cbn [fold_left auth_step]. fold (hist (auth_sync a u) r). apply IH. split; [reflexivity|exact Logic.I].
Qed.
End Env.

(** Who is let in: a request is accepted as a user only if its digest is the one of a token that
    was valid for that user when it was first presented since the last change of the users (this
    request or an earlier one), and that token has not expired.  (Missing for C68: that the
    accepted token itself is the one that was signed, see C68_refuted.) *)
Theorem C68_accepted_partial :
  forall hmac hashf header_fields payload_fields users0 ops token now a' u users reqs,
  current users0 [] ops = (users, reqs) ->
  auth_run hmac hashf header_fields payload_fields
    (auth_hist hmac hashf header_fields payload_fields (auth_init users0) ops) token now = (a', Ok u) ->
  exists tk' now' exp h p h' p' d, In (tk', now') (reqs ++ [(token, now)]) /\
    valid_token hmac header_fields payload_fields users tk' now' u exp /\ now < exp /\
    token_parts token h p d /\ token_parts tk' h' p' d.
Proof.
  intros hmac hashf hf pf users0 ops token now a' u users reqs Hc E.
  pose proof (hist_ok hmac hashf hf pf ops (auth_init users0) users0 [] (conj eq_refl Logic.I)) as A. rewrite Hc in A.
  pose proof (run_ok hmac hashf hf pf _ users reqs token now A) as R. rewrite E in R. apply R.
Qed.
Print Assumptions C68_accepted_partial.

(** A valid token is accepted as its user, whatever was presented before, as long as no other
    token with the same digest was *)
Theorem C68_valid_token_is_accepted :
  forall hmac hashf header_fields payload_fields users0 ops token now u exp users reqs,
  current users0 [] ops = (users, reqs) ->
  valid_token hmac header_fields payload_fields users token now u exp ->
  (forall tk' now', In (tk', now') reqs -> forall h p d h' p', token_parts token h p d -> token_parts tk' h' p' d -> tk' = token) ->
  exists a', auth_run hmac hashf header_fields payload_fields
    (auth_hist hmac hashf header_fields payload_fields (auth_init users0) ops) token now = (a', Ok u).
Proof.
  intros hmac hashf hf pf users0 ops token now u exp users reqs Hc V Hu.
  pose proof (hist_ok hmac hashf hf pf ops (auth_init users0) users0 [] (conj eq_refl Logic.I)) as A. rewrite Hc in A.
  pose proof (run_ok hmac hashf hf pf _ users reqs token now A) as R.
  destruct (auth_run hmac hashf hf pf _ token now) as [a' r]. exists a'. f_equal. apply (proj2 (proj2 R) u exp V Hu).
Qed.
Print Assumptions C68_valid_token_is_accepted.

(** When a listener requires a token, nothing is accepted without one; the setting is not looked
    at for a request that has one *)
Theorem C68_token_required :
  forall hmac hashf hf pf a required header now a',
  frontend_auth hmac hashf hf pf a required header now = (a', Ok tt) ->
  (header = None /\ required = false) \/ exists token u, header = Some token /\ auth_run hmac hashf hf pf a token now = (a', Ok u).
Proof.
  intros hmac hashf hf pf a required [token|] now a' H; cbn [frontend_auth] in H.
  - right. exists token. destruct (auth_run hmac hashf hf pf a token now) as [a1 [u| |]] eqn:E; try discriminate.
    exists u. split; [reflexivity|]. congruence.
  - left. destruct required; [discriminate|]. auto.
Qed.
Print Assumptions C68_token_required.

(** The cache trusts the digest of the request alone: after a valid token of a user was accepted,
    a token with any other header and payload and the same digest is accepted as that user, for
    every hash function and whatever the JSON of the two tokens is *)
Theorem C68_refuted :
  forall hmac hashf header_fields payload_fields users token now u exp h p d h' p',
  valid_token hmac header_fields payload_fields users token now u exp ->
  token_parts token h p d -> token_parts (bearer ++ h' ++ [dot] ++ p' ++ [dot] ++ d) h' p' d ->
  exists a', auth_run hmac hashf header_fields payload_fields
    (auth_hist hmac hashf header_fields payload_fields (auth_init users) [Token token now])
    (bearer ++ h' ++ [dot] ++ p' ++ [dot] ++ d) now = (a', Ok u).
Proof.
  intros hmac hashf hf pf users token now u exp h p d h' p' V P P'. unfold auth_hist; cbn [fold_left auth_step].
  assert (Ej : jwt_decode token = Ok (mkjwt h p (h ++ [dot] ++ p) d)) by (apply jwt_decode_ok; split; [exact P|reflexivity]).
  assert (Ej' : jwt_decode (bearer ++ h' ++ [dot] ++ p' ++ [dot] ++ d) = Ok (mkjwt h' p' (h' ++ [dot] ++ p') d)) by (apply jwt_decode_ok; split; [exact P'|reflexivity]).
  assert (Hexp : now < exp) by (destruct V as (? & ? & ? & ? & ? & ? & ? & ? & ? & ? & ? & ? & ? & ? & ? & ? & ? & _); assumption).
  pose proof (proj2 (auth_token_ok hmac hashf hf pf users token _ now u exp Ej) V) as Et.
  unfold auth_run at 2. rewrite Ej. unfold auth_init, auth_prepare; cbn [a_ht a_users a_nodes a_next j_digest].
  unfold auth_find. cbn [a_nodes].
  assert (I0 : inv0 (ht_create 256 (fun _ => 0) (fun _ => 0%nat)) []) by (apply create_inv; lia).
  assert (L0 : loaded (ht_create 256 (fun _ => 0) (fun _ => 0%nat)) []).
  { unfold loaded, h_size, ht_create; cbn [h_idx length]. rewrite repeat_length. split; [lia|]. change (256 / 2)%nat with 128%nat. lia. }
  destruct (get_spec _ _ (hashf d) (fun n : nat => bytes_eqb (c_digest (mkentry [] [] 0)) d) I0 (loaded_room _ _ L0)) as (r & Er & Hr).
  rewrite Er. destruct r as [n|]; [destruct Hr as [[] _]|]. rewrite Et.
  unfold auth_add. cbn [c_digest a_next a_users a_nodes].
  destruct (add_spec _ _ 0%nat (hashf d) I0 L0) as (t' & Ea & I' & Ld' & F' & _). { intros []. }
  rewrite Ea. cbn [fst]. unfold auth_run. rewrite Ej'. unfold auth_prepare; cbn [a_ht a_users a_nodes a_next j_digest]. unfold auth_find.
  cbn [a_nodes].
  destruct (get_spec t' _ (hashf d) (fun n : nat => bytes_eqb (c_digest (upd (fun _ : nat => mkentry [] [] 0) 0%nat (mkentry d u exp) n)) d) I' (loaded_room _ _ Ld')) as (r & Er' & Hr').
  rewrite Er'. destruct r as [n|].
  - destruct Hr' as ([H|[]] & _). assert (n = 0%nat) by congruence. subst n. cbn [a_nodes]. rewrite upd_same. cbn [c_expire c_user].
    rewrite (proj2 (Z.ltb_lt now exp) Hexp). eexists. reflexivity.
  - exfalso. specialize (Hr' 0%nat (or_introl eq_refl) (F' ltac:(intros ? ? []) 0%nat (hashf d) (or_introl eq_refl))).
    rewrite upd_same in Hr'. cbn [c_digest] in Hr'. rewrite (proj2 (bytes_eqb_eq d d) eq_refl) in Hr'. discriminate.
Qed.
Print Assumptions C68_refuted.

(** A request can make the server read outside of a table of base64url.c before it is
    authenticated: a token with a byte above 127 in its header *)
Theorem C68_untrusted_token_refuted :
  forall hmac hashf header_fields payload_fields users now,
  snd (auth_run hmac hashf header_fields payload_fields (auth_init users)
         (bearer ++ [200; dot; 65; dot; 65]) now) = UB.
Proof.
  intros. unfold auth_run.
  assert (Ej : jwt_decode (bearer ++ [200; dot; 65; dot; 65]) = Ok (mkjwt [200] [65] [200; 46; 65] [65])) by (vm_compute; reflexivity).
  rewrite Ej. unfold auth_init, auth_prepare; cbn [a_ht a_users a_nodes a_next j_digest]. unfold auth_find.
  assert (I0 : inv0 (ht_create 256 (fun _ => 0) (fun _ => 0%nat)) []) by (apply create_inv; lia).
  assert (L0 : loaded (ht_create 256 (fun _ => 0) (fun _ => 0%nat)) []).
  { unfold loaded, h_size, ht_create; cbn [h_idx length]. rewrite repeat_length. split; [lia|]. change (256 / 2)%nat with 128%nat. lia. }
  cbn [a_nodes].
  destruct (get_spec _ _ (hashf [65]) (fun n : nat => bytes_eqb (c_digest (mkentry [] [] 0)) [65]) I0 (loaded_room _ _ L0)) as (r & Er & Hr).
  rewrite Er. destruct r as [n|]; [destruct Hr as [[] _]|].
  unfold auth_token, jwt_decode_data. cbn [j_header]. reflexivity.
Qed.
Print Assumptions C68_untrusted_token_refuted.

(** The hypotheses are met: an HMAC that is 32 bytes of the length of the text, one user "a" *)
Definition hm_ex (secret text : list Z) : list Z := repeat (Z.of_nat (length text) mod 256) 32.
Definition hf_ex (h : list Z) : res unit := Ok tt.
Definition pf_ex (p : list Z) : res (list Z * Z * Z) := Ok ([97], 5, 50).
Definition tok_ex : list Z := bearer ++ [65; 65; 65; 65; dot; 66; 66; 66; 66; dot] ++
  match base64url_encode (hm_ex [] (repeat 65 9)) with Ok d => d | _ => [] end.
Example C68_nonvacuous :
  valid_token hm_ex hf_ex pf_ex [([98], [1]); ([97], [2])] tok_ex 20 [97] 50 /\
  (exists d, token_parts tok_ex [65; 65; 65; 65] [66; 66; 66; 66] d /\ token_parts (bearer ++ [67] ++ [dot] ++ [68] ++ [dot] ++ d) [67] [68] d) /\
  (exists a', auth_run hm_ex (fun _ => 7) hf_ex pf_ex (auth_init [([98], [1]); ([97], [2])]) tok_ex 20 = (a', Ok [97])).
Proof.
  assert (P : token_parts tok_ex [65; 65; 65; 65] [66; 66; 66; 66] (skipn 17 tok_ex)).
  { unfold token_parts. split; [vm_compute; reflexivity|]. cbn [In]. unfold dot. repeat split; try (vm_compute; congruence); intuition lia. }
  split; [|split].
  - exists [65; 65; 65; 65], [66; 66; 66; 66], (skipn 17 tok_ex). do 2 eexists. exists (hm_ex [] (repeat 65 9)), 5, [2].
    split; [exact P|]. split; [vm_compute; reflexivity|]. split; [reflexivity|]. split; [vm_compute; reflexivity|].
    split; [reflexivity|]. split; [lia|]. split; [lia|]. split; [lia|]. split; [lia|].
    split; [exists [([98], [1])], []; split; [reflexivity|cbn; intuition congruence]|].
    split; [vm_compute; reflexivity|]. split; vm_compute; reflexivity.
  - exists (skipn 17 tok_ex). split; [exact P|]. destruct P as (_ & _ & _ & _ & _ & Hd).
    unfold token_parts. split; [reflexivity|]. cbn [In]. unfold dot. repeat split; try congruence; intuition lia.
  - eexists. vm_compute. reflexivity.
Qed.
