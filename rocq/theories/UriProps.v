(** C88: a request goes to the database, relation and options its URI names. *)
From Coq Require Import String.
From Verif Require Import Base HttpModel UriModel UriSpec UriProofs.

(** A request is accepted exactly if it is a POST whose URI is of the grammar and gives every option a
    value of its type; then every option has the value that is given last, or its default.  Partial:
    the URI has no NUL (C88_nul_refuted), parts of the path mean their bytes (C88_path_refuted). *)
Theorem C88_request_partial o q o' : some_endpoint o -> ~ In 0 (m_b q) -> (frontend_endpoint o q = Ok o' <-> means q o').
Proof.
  intros Ho H0. rewrite frontend_unfold by auto. unfold means. rewrite header_fact. destruct (str_is (m_a q) s_post) eqn:E.
  - apply str_is_iff in E. split.
    + intros H. split; [exact E|]. apply parse_endpoint_sound in H as (a & al & given & Hu & Hg & ->); [|apply msg_fits|auto].
      exists a, al, given. split; [auto|split; [auto|apply msg_options]].
    + intros (_ & a & al & given & Hu & Hg & ->). rewrite <- msg_options. now apply (parse_endpoint_complete _ _ a al); [apply msg_fits|..].
  - split; [easy|]. intros (K & _). apply str_is_iff in K. congruence.
Qed.
Print Assumptions C88_request_partial.

(** Whatever the URI, no memory outside of it is read, unless an argument is named "uri"
    (C88_uri_refuted). *)
Theorem C88_safe_partial o q : some_endpoint o -> ~ In 0 (m_b q) ->
  (forall name before after, spells name (text "uri") -> (exists b, before = b ++ text "?" \/ before = b ++ text "&") -> m_b q <> before ++ name ++ text "=" ++ after) ->
  frontend_endpoint o q <> UB.
Proof.
  intros Ho H0 Hn H. rewrite frontend_unfold in H by auto. destruct (str_is (m_a q) s_post); [|easy].
  apply parse_endpoint_ub in H as (b & n & a & E & H1 & H2); [|apply msg_fits|auto]. exact (Hn n b a H1 H2 E).
Qed.
Print Assumptions C88_safe_partial.

(** What the requests before have set does not matter. *)
Theorem C88_history o q : some_endpoint o ->
  frontend_endpoint o q = frontend_endpoint endpoint_init q /\ forall o', ~ In 0 (m_b q) -> frontend_endpoint o q = Ok o' -> some_endpoint o'.
Proof.
  intros Ho. assert (Hi : some_endpoint endpoint_init).
  { unfold some_endpoint. generalize endpoint_init. intros l. induction l; constructor; auto. split; [reflexivity|apply kind_refl]. }
  split; [now rewrite !frontend_unfold by auto|]. intros o' H0 H. rewrite frontend_unfold in H by auto. destruct (str_is (m_a q) s_post); [|easy].
  apply parse_endpoint_sound in H as (a & al & given & Hu & Hg & ->); [|apply msg_fits|auto].
  assert (Hf : Forall fits ((msg_given q ++ [(text "uri", OStr (m_b q))]) ++ given)).
  { apply Forall_app. split; [apply Forall_app; split; [apply msg_fits|]|].
    - constructor; [|constructor]. intros d Hd. cbn [fst snd] in *. vm_compute in Hd. injection Hd as <-. exact I.
    - clear -Hg. induction Hg; constructor; auto. eapply gives_fits; eauto. }
  unfold some_endpoint, options.
  assert (G : forall l, (forall x, In x l -> In x endpoint_init) -> Forall2 (fun x y : list Z * optval => fst x = fst y /\ same_kind (snd x) (snd y))
     (map (fun x => (fst x, last_given (fst x) ((msg_given q ++ [(text "uri", OStr (m_b q))]) ++ given) (snd x))) l) l).
  { induction l as [|[n d] l IH]; intros Hx; constructor.
    - split; [reflexivity|]. cbn [fst snd]. eapply last_fits; [exact Hf|apply find_of; apply Hx; now left|apply kind_refl].
    - apply IH. intros x K. apply Hx. now right. }
  now apply G.
Qed.
Print Assumptions C88_history.

(** Every byte can be written by its two hexadecimal digits, so every database and relation can be
    named, whatever bytes their names have. *)
Definition digit (v : nat) : Z := nth v (text "0123456789abcdef") 0.
Definition percent (c : Z) : list Z := [37; digit (Z.to_nat (c / 16)); digit (Z.to_nat (c mod 16))].
Definition percents (s : list Z) : list Z := flat_map percent s.
Lemma digit_ok v : (v < 16)%nat -> hex_digit (digit v) v.
Proof. intros H. left. do 16 (destruct v as [|v]; [reflexivity|]). lia. Qed.
Lemma percents_spell s : Forall (fun c => 0 <= c < 256) s -> spells (percents s) s.
Proof.
  induction 1 as [|c s H1 H2 IH]; [constructor|]. cbn [percents flat_map percent app].
  assert (0 <= c / 16 < 16) by (split; [apply Z.div_pos; lia|apply Z.div_lt_upper_bound; lia]). pose proof (Z.mod_pos_bound c 16 ltac:(lia)).
  replace c with (Z.of_nat (16 * Z.to_nat (c / 16) + Z.to_nat (c mod 16))) at 3.
  - constructor; [apply digit_ok; lia|apply digit_ok; lia|exact IH].
  - rewrite Nat2Z.inj_add, Nat2Z.inj_mul, !Z2Nat.id by lia. pose proof (Z.div_mod c 16 ltac:(lia)). lia.
Qed.
Lemma percents_safe s x : Forall (fun c => 0 <= c < 256) s -> In x (percents s) -> x = 37 \/ 48 <= x <= 57 \/ 97 <= x <= 102.
Proof.
  intros H Hi. apply in_flat_map in Hi as (c & Hc & Hx). pose proof (proj1 (Forall_forall _ _) H c Hc) as Hb. cbv beta in Hb.
  assert (D : forall v, (v < 16)%nat -> 48 <= digit v <= 57 \/ 97 <= digit v <= 102) by (intros v Hv; do 16 (destruct v as [|v]; [vm_compute; intuition discriminate|]); lia).
  assert (0 <= c / 16 < 16) by (split; [apply Z.div_pos; lia|apply Z.div_lt_upper_bound; lia]). pose proof (Z.mod_pos_bound c 16 ltac:(lia)).
  cbn in Hx. destruct Hx as [<-|[<-|[<-|[]]]]; [now left|right; apply D; lia|right; apply D; lia].
Qed.
Theorem C88_any_name o db rel hs : some_endpoint o -> Forall (fun c => 0 <= c < 256) db -> Forall (fun c => 0 <= c < 256) rel ->
  exists o', frontend_endpoint o {| m_a := text "POST"; m_b := text "/v1/db/?db=" ++ percents db ++ text "&relation=" ++ percents rel; m_c := text "HTTP/1.1"; m_headers := hs |} = Ok o' /\
    opts_find o' (text "db") = Some (OStr db) /\ opts_find o' (text "relation") = Some (OStr rel) /\ opts_find o' (text "service") = Some (OStr []).
Proof.
  intros Ho Hd Hr.
  set (q := {| m_a := text "POST"; m_b := text "/v1/db/?db=" ++ percents db ++ text "&relation=" ++ percents rel; m_c := text "HTTP/1.1"; m_headers := hs |}).
  exists (options (given_by_message q ++ [(text "db", OStr db); (text "relation", OStr rel)])).
  assert (Hz : forall t, Forall (fun c => 0 <= c < 256) t -> ~ In 0 (percents t)) by (intros t Ht Hi; apply (percents_safe _ _ Ht) in Hi; lia).
  split.
  - apply C88_request_partial; auto.
    + unfold q. cbn [m_b]. intros Hi. apply in_app_or in Hi as [Hi|Hi]; [cbn in Hi; intuition discriminate|]. apply in_app_or in Hi as [Hi|Hi]; [now apply Hz in Hi|].
      apply in_app_or in Hi as [Hi|Hi]; [cbn in Hi; intuition discriminate|now apply Hz in Hi].
    + split; [reflexivity|]. exists [], [(text "db", db); (text "relation", rel)], [(text "db", OStr db); (text "relation", OStr rel)].
      split; [|split; [|reflexivity]].
      * replace (m_b q) with (text "/v1/db/" ++ [] ++ text "?" ++ ((text "db" ++ text "=" ++ percents db) ++ text "&" ++ (text "relation" ++ text "=" ++ percents rel))).
        2: { unfold q. cbn [m_b]. rewrite <- !app_assoc. reflexivity. }
        constructor; [constructor|]. assert (P : forall w, ~ In 37 w -> spells w w).
        { induction w as [|c w IH]; intros H; [constructor|]. constructor; [intros ->; apply H; now left|]. apply IH. intros K. apply H. now right. }
        constructor; [|constructor]; constructor; try discriminate; try (cbn; intuition discriminate); try (apply P; cbn; intuition discriminate); try now apply percents_spell.
        all: intros Hi; (apply (percents_safe _ _ Hd) in Hi || apply (percents_safe _ _ Hr) in Hi); lia.
      * cbn [app]. constructor; [|constructor; [|constructor]]; constructor; unfold text_options; cbn; solve [repeat (first [left; reflexivity | right])].
  - unfold options. change (map _ endpoint_init) with (table endpoint_init (given_by_message q ++ [(text "db", OStr db); (text "relation", OStr rel)])).
    rewrite !find_table. repeat split; reflexivity.
Qed.
Print Assumptions C88_any_name.

(** What the client of this project asks for is what the server does: the names of database and
    relation, and the options.  Partial: a value without '%' and '&' (C88_client_refuted), names
    without '/' and '?'. *)
Definition plain_value (s : list Z) : Prop := ~ In 0 s /\ ~ In 37 s /\ ~ In 38 s.
Lemma plain_spells w : ~ In 37 w -> spells w w.
Proof. induction w as [|c w IH]; intros H; [constructor|]. constructor; [intros ->; apply H; now left|]. apply IH. intros K. apply H. now right. Qed.
Definition given_args (l : list (list Z * list Z)) : list assignment := filter (fun x => nonempty (snd x)) l.
Lemma export_arguments l : Forall (fun x => fst x <> [] /\ ~ In 61 (fst x) /\ ~ In 37 (fst x) /\ plain_value (snd x)) l ->
  (given_args l = [] /\ forall b, export_args b l = []) \/
  (exists t, arguments t (given_args l) /\ export_args true l = text "?" ++ t /\ export_args false l = text "&" ++ t).
Proof.
  induction 1 as [|[n v] l (N1 & N2 & N3 & V1 & V2 & V3) Hl IH]; [left; split; reflexivity|]. cbn [fst snd] in *. cbn [given_args filter snd export_args].
  destruct (nonempty v) eqn:E; [|exact IH]. right. fold (given_args l).
  assert (A : argument (n ++ text "=" ++ v) (n, v)) by (constructor; auto; now apply plain_spells).
  destruct IH as [[-> IH]|(t & T1 & T2 & T3)].
  - exists (n ++ text "=" ++ v). split; [now constructor|]. rewrite !IH, !app_nil_r. split; reflexivity.
  - exists ((n ++ text "=" ++ v) ++ text "&" ++ t). split; [now constructor|]. rewrite T3, <- !app_assoc. split; reflexivity.
Qed.
Theorem C88_client_partial o ep hs : some_endpoint o -> ep_service ep = [] ->
  word (ep_db ep) /\ ~ In 0 (ep_db ep) -> ep_relation ep = [] \/ (word (ep_relation ep) /\ ~ In 0 (ep_relation ep)) ->
  plain_value (ep_columns ep) -> plain_value (ep_timezone ep) -> plain_value (ep_format ep) ->
  let q := {| m_a := text "POST"; m_b := request_url ep; m_c := text "HTTP/1.1"; m_headers := hs |} in
  frontend_endpoint o q = Ok (options (given_by_message q ++ [(text "db", OStr (ep_db ep)); (text "relation", OStr (ep_relation ep));
     (text "columns", OStr (ep_columns ep)); (text "timezone", OStr (ep_timezone ep)); (text "format", OStr (ep_format ep))])).
Proof.
  intros Ho Hsv [Wd Hd] Hr Hc Ht Hfm q.
  set (args := [(s_columns, ep_columns ep); (s_timezone, ep_timezone ep); (s_format, ep_format ep)]).
  set (p := ep_db ep ++ (if nonempty (ep_relation ep) then [47] ++ ep_relation ep else [])).
  set (a := (text "db", ep_db ep) :: given_args [(text "relation", ep_relation ep)]).
  assert (Hp : path p a).
  { unfold p, a, given_args. cbn [filter snd]. destruct Hr as [->|[Hr _]]; [cbn [nonempty]; rewrite app_nil_r; now constructor|].
    assert (nonempty (ep_relation ep) = true) as -> by (destruct Hr as [? _]; now destruct (ep_relation ep)). now constructor. }
  assert (Hurl : request_url ep = text "/v1/db/" ++ p ++ export_args true args).
  { unfold request_url, p. rewrite Hsv. cbn [nonempty]. assert (nonempty (ep_db ep) = true) as -> by (destruct Wd as [? _]; now destruct (ep_db ep)).
    rewrite <- !app_assoc. reflexivity. }
  assert (Hargs : Forall (fun x => fst x <> [] /\ ~ In 61 (fst x) /\ ~ In 37 (fst x) /\ plain_value (snd x)) args).
  { unfold args. repeat (apply Forall_cons; [cbn [fst snd]; (split; [discriminate|split; [cbn; intuition discriminate|split; [cbn; intuition discriminate|assumption]]])|]). apply Forall_nil. }
  assert (Hz : ~ In 0 (request_url ep)).
  { rewrite Hurl. intros Hi. apply in_app_or in Hi as [Hi|Hi]; [cbn in Hi; intuition discriminate|]. apply in_app_or in Hi as [Hi|Hi].
    - unfold p in Hi. apply in_app_or in Hi as [Hi|Hi]; [easy|]. destruct Hr as [E|[_ E]]; [now rewrite E in Hi|]. destruct (nonempty (ep_relation ep)); [|easy]. destruct Hi as [Hi|Hi]; [discriminate|easy].
    - assert (K : forall b l, Forall (fun x => ~ In 0 (fst x) /\ ~ In 0 (snd x)) l -> ~ In 0 (export_args b l)).
      { intros b l H. revert b. induction H as [|[n v] l [N V] Hl IH]; intros b; [easy|]. cbn [export_args]. destruct (nonempty v); [|apply IH].
        intros [K|K]; [destruct b; discriminate|]. cbn [fst snd] in *. repeat (apply in_app_or in K as [K|K]; try easy). { destruct K as [K|[]]; discriminate. } now apply IH in K. }
      revert Hi. apply K. unfold args. destruct Hc, Ht, Hfm. repeat (apply Forall_cons; [cbn [fst snd]; split; [cbn; intuition discriminate|assumption]|]). apply Forall_nil. }
  assert (Hg : forall l, Forall (fun x : assignment => In (fst x) text_options) l -> Forall2 gives l (texts l)).
  { induction 1 as [|[n v] l K1 K2 IH]; constructor; auto. now constructor. }
  assert (Hall : Forall (fun x : assignment => In (fst x) text_options) (a ++ given_args args)).
  { apply Forall_app. split; [unfold a; apply Forall_cons; [|apply incl_Forall with (l1 := [(text "relation", ep_relation ep)]); [apply incl_filter|]]|apply incl_Forall with (l1 := args); [apply incl_filter|unfold args]];
    repeat (apply Forall_cons; [unfold text_options; cbn; solve [repeat (first [left; reflexivity | right])]|]); try apply Forall_nil.
    unfold text_options; cbn; solve [repeat (first [left; reflexivity | right])]. }
  assert (Hu : uri (m_b q) a (given_args args)).
  { cbn [q m_b]. rewrite Hurl. destruct (export_arguments args Hargs) as [[-> E]|(t & T1 & -> & _)].
    - rewrite E, app_nil_r. now constructor.
    - now constructor. }
  assert (Hm : means q (options (given_by_message q ++ texts (a ++ given_args args)))).
  { split; [reflexivity|]. exists a, (given_args args), (texts (a ++ given_args args)). split; [exact Hu|split; [now apply Hg|reflexivity]]. }
  apply (C88_request_partial o q) in Hm; auto. rewrite Hm. f_equal. unfold options. apply map_ext_in. intros [n d] Hi. cbn [fst snd]. f_equal.
  rewrite !last_given_app. set (e := last_given n (given_by_message q) d).
  assert (Hdef : forall m, In m [text "relation"; s_columns; s_timezone; s_format] -> m = n -> e = OStr []).
  { intros m Hin <-. unfold e. pose proof (find_of _ _ Hi) as F. destruct Hin as [<-|[<-|[<-|[<-|[]]]]]; vm_compute in F; injection F as <-; reflexivity. }
  unfold a, args, given_args, texts. cbn [filter snd].
  change (text "columns") with s_columns. change (text "timezone") with s_timezone. change (text "format") with s_format.
  assert (Hne : forall v, nonempty v = false -> v = []) by (now intros []).
  assert (D1 := Hdef (text "relation") ltac:(now left)). assert (D2 := Hdef s_columns ltac:(right; now left)). assert (D3 := Hdef s_timezone ltac:(right; right; now left)). assert (D4 := Hdef s_format ltac:(right; right; right; now left)).
  clear - Hne D1 D2 D3 D4. clearbody e.
  destruct (nonempty (ep_relation ep)) eqn:E1; destruct (nonempty (ep_columns ep)) eqn:E2; destruct (nonempty (ep_timezone ep)) eqn:E3; destruct (nonempty (ep_format ep)) eqn:E4;
  try rewrite (Hne _ E1); try rewrite (Hne _ E2); try rewrite (Hne _ E3); try rewrite (Hne _ E4);
  cbn [app map fst snd last_given];
  repeat (match goal with |- context [list_eq_dec Z.eq_dec ?m ?k] => destruct (list_eq_dec Z.eq_dec m k) as [?Q|?Q] end);
  try reflexivity; try (exfalso; congruence); try (rewrite D1 by assumption; reflexivity); try (rewrite D2 by assumption; reflexivity); try (rewrite D3 by assumption; reflexivity); try (rewrite D4 by assumption; reflexivity);
  try (subst n; discriminate).
Qed.
Print Assumptions C88_client_partial.

(** a service of the client *)
Theorem C88_client_service o ep hs : some_endpoint o -> ep_service ep = text "backup" \/ ep_service ep = text "repl" ->
  ep_columns ep = [] -> ep_timezone ep = [] -> ep_format ep = [] ->
  let q := {| m_a := text "POST"; m_b := request_url ep; m_c := text "HTTP/1.1"; m_headers := hs |} in
  frontend_endpoint o q = Ok (options (given_by_message q ++ [(text "service", OStr (ep_service ep))])).
Proof.
  intros Ho Hsv H1 H2 H3 q. assert (E : request_url ep = text "/v1/" ++ ep_service ep).
  { unfold request_url. rewrite H1, H2, H3. cbn [export_args nonempty]. destruct Hsv as [->| ->]; reflexivity. }
  assert (Hs : In (text "service") text_options) by (unfold text_options; cbn; solve [repeat (first [left; reflexivity | right])]).
  apply (C88_request_partial o q); auto.
  - cbn [q m_b]. rewrite E. destruct Hsv as [->| ->]; cbn; intuition discriminate.
  - split; [reflexivity|]. exists [(text "service", ep_service ep)], [], [(text "service", OStr (ep_service ep))].
    split; [|split; [constructor; [now constructor|constructor]|reflexivity]]. cbn [q m_b]. rewrite E. destruct Hsv as [->| ->]; constructor.
Qed.
Print Assumptions C88_client_service.

Definition post (u : string) : message := {| m_a := text "POST"; m_b := text u; m_c := text "HTTP/1.1"; m_headers := [(text "content-type", text "text/plain")] |}.
Definition shown (u n : string) : option optval := match frontend_endpoint endpoint_init (post u) with Ok o => opts_find o (text n) | _ => None end.
(** FALSE of the code: a percent-encoded part of the path is not decoded, so the usual way to write
    the database "my db" names another one. *)
Theorem C88_path_refuted : exists u, spells (text u) (text "/v1/db/my db") /\ shown u "db" = Some (OStr (text "my%20db")).
Proof.
  exists "/v1/db/my%20db"%string. split; [|reflexivity].
  repeat (apply S_plain; [discriminate|]). apply (S_hex 50 48 2 0); [left; reflexivity|left; reflexivity|]. repeat (apply S_plain; [discriminate|]). constructor.
Qed.
Print Assumptions C88_path_refuted.
(** FALSE of the code: an argument of the URI of a database starts a service, and redirects the
    request to another database than its path. *)
Theorem C88_service_refuted : shown "/v1/db/main?service=backup" "service" = Some (OStr (text "backup")) /\ shown "/v1/db/main/t?db=other" "db" = Some (OStr (text "other")).
Proof. split; reflexivity. Qed.
Print Assumptions C88_service_refuted.
(** FALSE of the code: an argument named "uri" frees the text while it is read. *)
Theorem C88_uri_refuted : exists u, frontend_endpoint endpoint_init (post u) = UB.
Proof. exists "/v1/db/main?uri=x"%string. reflexivity. Qed.
Print Assumptions C88_uri_refuted.
(** FALSE of the code: what follows a NUL in the URI is not looked at. *)
Theorem C88_nul_refuted : exists s o', In 0 s /\ frontend_endpoint endpoint_init {| m_a := text "POST"; m_b := s; m_c := text "HTTP/1.1"; m_headers := [] |} = Ok o' /\ opts_find o' (text "db") = Some (OStr (text "a")).
Proof. exists (text "/v1/db/a" ++ [0] ++ text "b"). eexists. split; [cbn; repeat (first [left; reflexivity|right])|]. split; reflexivity. Qed.
Print Assumptions C88_nul_refuted.
(** FALSE of the code: the client writes its values without escaping, so columns "a&b" is refused by
    the server, "%41" becomes "A". *)
Theorem C88_client_refuted : exists ep, ep_columns ep = text "%41" /\ ep_db ep = text "main" /\
  exists o', frontend_endpoint endpoint_init {| m_a := text "POST"; m_b := request_url ep; m_c := text "HTTP/1.1"; m_headers := [] |} = Ok o' /\ opts_find o' (text "columns") = Some (OStr (text "A")).
Proof.
  exists {| ep_service := []; ep_db := text "main"; ep_relation := text "t"; ep_columns := text "%41"; ep_timezone := []; ep_format := []; ep_token := []; ep_content_type := []; ep_accept := [] |}.
  split; [reflexivity|]. split; [reflexivity|]. eexists. split; reflexivity.
Qed.
Print Assumptions C88_client_refuted.

(** a request with a path, encoded and plain arguments, a number and a boolean *)
Example C88_nonvacuous : some_endpoint endpoint_init /\
  shown "/v1/db/main/t?columns=a%2cb&format=json&port=77&debug=TRUE&name=" "db" = Some (OStr (text "main")) /\
  shown "/v1/db/main/t?columns=a%2cb&format=json&port=77&debug=TRUE&name=" "relation" = Some (OStr (text "t")) /\
  shown "/v1/db/main/t?columns=a%2cb&format=json&port=77&debug=TRUE&name=" "columns" = Some (OStr (text "a,b")) /\
  shown "/v1/db/main/t?columns=a%2cb&format=json&port=77&debug=TRUE&name=" "port" = Some (OInt 77) /\
  shown "/v1/db/main/t?columns=a%2cb&format=json&port=77&debug=TRUE&name=" "debug" = Some (OBool 1) /\
  shown "/v1/db/main/t?columns=a%2cb&format=json&port=77&debug=TRUE&name=" "content_type" = Some (OStr (text "text/plain")) /\
  shown "/v1/db/main/t?columns" "db" = None /\ shown "/v1/db//t" "db" = None /\ shown "/v1/db/main?port=9223372036854775808" "db" = None.
Proof. split; [unfold some_endpoint; repeat (apply Forall2_cons; [split; [reflexivity|exact I]|]); apply Forall2_nil|]. repeat split; reflexivity. Qed.
