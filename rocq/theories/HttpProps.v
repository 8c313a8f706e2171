(** C81: the requests of a connection are read as they were sent, however they arrive. *)
From Verif Require Import Base CodecModel HtModel AuthModel HttpModel HttpSpec HttpProofs.

(** ** requests *)
(** Any requests, one behind the other, in any pieces: exactly these requests are read, then the end of the
    connection.  (Headers up to 512 bytes, bodies below the limit, which is at most 2^31.) *)
Theorem C81_requests limit rs chunks : limit <= 2 ^ 31 -> Forall (ok_request limit) rs -> arrives chunks (concat (map encode_request rs)) ->
  serve (S (length rs)) (connected chunks) limit = (rs, Eof).
Proof.
  intros LM F A. destruct (ri_connected _ _ A) as (R & E). revert R E. generalize (connected chunks). clear A chunks. induction F as [|rq rs (M & S & B & L) F IH]; intros r R E.
  - destruct (http_read_eof r R E) as (r' & X). cbn [length serve]. now rewrite X.
  - cbn [length]. cbn [map concat] in E. unfold encode_request in E at 1. rewrite <- app_assoc in E. pose proof (header_end_message (HttpModel.rq rq) (rq_body rq ++ concat (map encode_request rs)) M) as H. rewrite <- E in H.
    destruct (http_read_ok r _ R H ltac:(unfold zlen in S; lia)) as (r' & R' & E' & X). remember (Datatypes.S (length rs)) as n eqn:N. cbn [serve]. rewrite X.
    rewrite E in *. rewrite firstn_app, Nat.sub_diag, firstn_all. cbn [firstn]. rewrite app_nil_r. rewrite parse_ok by exact M. rewrite skipn_app, Nat.sub_diag, skipn_all in E'. cbn [skipn app] in E'.
    destruct (body_ok _ _ _ r' limit R' LM B L E') as (r2 & -> & R2 & E2). rewrite (IH r2 R2 E2). destruct rq; reflexivity.
Qed.
Print Assumptions C81_requests.
(** A connection that breaks within a request: the requests before it are read, the broken one is not run. *)
Theorem C81_cut limit rs q k chunks : limit <= 2 ^ 31 -> Forall (ok_request limit) rs -> ok_request limit q -> (0 < k < length (encode_request q))%nat ->
  arrives chunks (concat (map encode_request rs) ++ firstn k (encode_request q)) -> serve (S (length rs)) (connected chunks) limit = (rs, Failed).
Proof.
  intros LM F (M & S & B & L) K A. destruct (ri_connected _ _ A) as (R & E). destruct (serve_all limit rs _ 1 _ R LM F E) as (r & R' & E' & X). replace (Datatypes.S (length rs)) with (length rs + 1)%nat by lia. rewrite X. clear X E R A chunks.
  enough (Y : serve 1 r limit = ([], Failed)) by (rewrite Y; cbn; now rewrite app_nil_r). cbn [serve].
  pose proof (header_end_message (rq q) (rq_body q) M) as H. fold (encode_request q) in H. unfold zlen in S. destruct (le_lt_dec (length (encode_message (rq q))) k) as [G|G].
  - assert (FE : firstn k (encode_request q) = encode_message (rq q) ++ firstn (k - length (encode_message (rq q))) (rq_body q)) by (unfold encode_request; rewrite firstn_app, firstn_all2 by lia; reflexivity).
    rewrite FE in E'. pose proof (header_end_message (rq q) (firstn (k - length (encode_message (rq q))) (rq_body q)) M) as H2. rewrite <- E' in H2.
    destruct (http_read_ok r _ R' H2 ltac:(lia)) as (r' & R2 & E2 & X). rewrite E' in *. rewrite firstn_app, Nat.sub_diag, firstn_all in X. cbn [firstn] in X. rewrite app_nil_r, parse_ok in X by exact M. rewrite X.
    rewrite skipn_app, Nat.sub_diag, skipn_all in E2. cbn [skipn app] in E2. unfold http_read_content_limit. pose proof (zlen_nonneg (rq_body q)).
    assert (LT : zlen (remaining r') < zlen (rq_body q)). { rewrite E2. unfold encode_request in K. rewrite app_length in K. unfold zlen. rewrite firstn_length. lia. }
    remember (zlen (rq_body q)) as len eqn:LEN. destruct B as [hs N|hs1 n v hs2 N SN D]; [pose proof (zlen_nonneg (remaining r')); lia|]. rewrite (find_some _ _ _ _ _ N SN), toint_ok by (try exact D; lia). cbn [bind].
    destruct (Z.leb_spec limit (digits_value v 0)); [lia|]. destruct (read_content_ok (Z.to_nat (digits_value v 0)) r' (digits_value v 0) [] R2) as (_ & Y); [lia|cbn; lia|cbn; lia|]. change (zlen []) with 0 in Y. rewrite Y by lia. reflexivity.
  - unfold http_read, http_read_header. rewrite (read_header_cut 512 r [] R'); [reflexivity|cbn [app]; rewrite E'; now apply (header_end_firstn _ _ _ H)| |cbn; lia|cbn; lia]. cbn [app]. rewrite E'. intros Y. apply (f_equal (@length Z)) in Y. rewrite firstn_length in Y. cbn in Y. lia.
Qed.
Print Assumptions C81_cut.
(** A content of the limit or more is refused, and nothing of it is run. *)
Theorem C81_limit limit rs q chunks rest : 0 < limit <= 2 ^ 31 -> Forall (ok_request limit) rs -> ok_request (2 ^ 63) q -> limit <= zlen (rq_body q) ->
  arrives chunks (concat (map encode_request rs) ++ encode_request q ++ rest) -> serve (S (length rs)) (connected chunks) limit = (rs, TooLarge).
Proof.
  intros LM F (M & S & B & L) G A. destruct (ri_connected _ _ A) as (R & E). destruct (serve_all limit rs _ 1 _ R ltac:(lia) F E) as (r & R' & E' & X). replace (Datatypes.S (length rs)) with (length rs + 1)%nat by lia. rewrite X. clear X E R A chunks.
  enough (Y : serve 1 r limit = ([], TooLarge)) by (rewrite Y; cbn; now rewrite app_nil_r). cbn [serve]. unfold encode_request in E'. rewrite <- app_assoc in E'.
  pose proof (header_end_message (rq q) (rq_body q ++ rest) M) as H. rewrite <- E' in H. unfold zlen in S.
  destruct (http_read_ok r _ R' H ltac:(lia)) as (r' & R2 & E2 & X). rewrite E' in *. rewrite firstn_app, Nat.sub_diag, firstn_all in X. cbn [firstn] in X. rewrite app_nil_r, parse_ok in X by exact M. rewrite X.
  unfold http_read_content_limit. remember (zlen (rq_body q)) as len eqn:LEN. destruct B as [hs N|hs1 n v hs2 N SN D]; [lia|]. rewrite (find_some _ _ _ _ _ N SN), toint_ok by (try exact D; lia). cbn [bind].
  destruct (Z.leb_spec limit (digits_value v 0)); [reflexivity|lia].
Qed.
Print Assumptions C81_limit.
(** What is read does not depend on the pieces: for every stream, also one that is not a request, whose
    first header is complete within 512 bytes. *)
Theorem C81_arrival_partial c1 c2 bytes h limit : arrives c1 bytes -> arrives c2 bytes -> header_end bytes = Some h -> (h <= 512)%nat -> limit <= 2 ^ 31 ->
  (http_read (connected c1) = Err /\ http_read (connected c2) = Err) \/
  exists m r1 r2, http_read (connected c1) = Ok (Some m, r1) /\ http_read (connected c2) = Ok (Some m, r2) /\ remaining r1 = skipn h bytes /\ remaining r2 = skipn h bytes /\
    ((http_read_content_limit r1 (m_headers m) limit = Err /\ http_read_content_limit r2 (m_headers m) limit = Err) \/
     exists body r1' r2', http_read_content_limit r1 (m_headers m) limit = Ok (body, r1') /\ http_read_content_limit r2 (m_headers m) limit = Ok (body, r2') /\ remaining r1' = remaining r2').
Proof.
  intros A1 A2 H L LM. destruct (ri_connected _ _ A1) as (R1 & E1). destruct (ri_connected _ _ A2) as (R2 & E2).
  destruct (http_read_ok _ h R1 ltac:(now rewrite E1) L) as (r1 & R1' & Q1 & ->). destruct (http_read_ok _ h R2 ltac:(now rewrite E2) L) as (r2 & R2' & Q2 & ->). rewrite E1 in *. rewrite E2 in *.
  destruct (parse_message (firstn h bytes)) as [m| |] eqn:P; [|now left|].
  2:{ exfalso. revert P. apply parse_safe. pose proof (header_end_len _ _ H). rewrite firstn_length_le by lia. apply (header_end_prefix _ (skipn h bytes)); [now rewrite firstn_skipn|rewrite firstn_length_le; lia]. }
  right. exists m, r1, r2. do 4 (split; [auto; congruence|]). unfold http_read_content_limit.
  destruct (http_find (m_headers m) content_length) as [v|]; [|right; exists (Some []), r1, r2; rewrite Q1, Q2; auto].
  destruct (toint v 0) as [len| |] eqn:T; cbn [bind]; [|now left|now apply toint_noub in T]. destruct (Z.leb_spec limit len) as [G|G]; [right; exists None, r1, r2; rewrite Q1, Q2; auto|].
  pose proof (toint_range _ _ _ (Z.le_refl 0) T) as T0.
  destruct (read_content_ok (Z.to_nat len) r1 len [] R1' ltac:(lia) ltac:(cbn; lia) ltac:(cbn; lia)) as (X1 & Y1). destruct (read_content_ok (Z.to_nat len) r2 len [] R2' ltac:(lia) ltac:(cbn; lia) ltac:(cbn; lia)) as (X2 & Y2).
  rewrite Q1 in *. rewrite Q2 in *. change (zlen []) with 0 in *. rewrite Z.sub_0_r in *. destruct (Z.le_gt_cases len (zlen (skipn h bytes))) as [C|C].
  - destruct (X1 C) as (a & -> & _ & Ea). destruct (X2 C) as (b & -> & _ & Eb). cbn [bind]. right. do 3 eexists. split; [reflexivity|]. split; [reflexivity|]. congruence.
  - rewrite (Y1 C), (Y2 C). now left.
Qed.
Print Assumptions C81_arrival_partial.

(** ** every stream *)
(** No stream of bytes makes the reader read or write outside of its buffers. *)
Theorem C81_safe limit n chunks bytes : limit <= 2 ^ 31 -> arrives chunks bytes -> snd (serve n (connected chunks) limit) <> Undefined.
Proof.
  intros LM A. destruct (ri_connected _ _ A) as (R & _). revert R. generalize (connected chunks). clear A chunks bytes. induction n as [|n IH]; intros r R; [discriminate|]. cbn [serve].
  destruct (http_read_safe r R) as [->|([m|] & r1 & -> & R1)]; [discriminate| |discriminate]. destruct (content_safe r1 (m_headers m) limit R1 LM) as [->|([b|] & r2 & -> & R2)]; [discriminate| |discriminate].
  specialize (IH r2 R2). destruct (serve n r2 limit) as [l e]. exact IH.
Qed.
Print Assumptions C81_safe.
(** A header of 768 bytes or more is refused in every arrival. *)
Theorem C81_long_header limit n chunks bytes : arrives chunks bytes -> (768 <= length bytes)%nat -> (forall h, header_end bytes = Some h -> (768 <= h)%nat) ->
  serve (S n) (connected chunks) limit = ([], Failed).
Proof.
  intros A L H. destruct (ri_connected _ _ A) as (R & E). cbn [serve]. unfold http_read, http_read_header. rewrite (read_header_long 512 _ [] bytes R ltac:(now rewrite E) H L ltac:(cbn; lia) ltac:(cbn; lia)). reflexivity.
Qed.
Print Assumptions C81_long_header.

(** two requests, the second one in the same piece as the end of the first one *)
Definition ex_m1 : message := {| m_a := s_post; m_b := [47;118;49;47;100;98;47;120]; m_c := s_http11; m_headers := [(s_content_length, [53]); (s_accept, [42;47;42])] |}.
Definition ex_m2 : message := {| m_a := s_post; m_b := [47;118;49;47;114;101;112;108]; m_c := s_http11; m_headers := [] |}.
Definition ex_rs : list request := [{| rq := ex_m1; rq_body := [72;69;76;76;79] |}; {| rq := ex_m2; rq_body := [] |}].
Definition ex_chunks : list (list Z) := let b := concat (map encode_request ex_rs) in [firstn 30 b; firstn 33 (skipn 30 b); skipn 63 b].
Lemma no_dec c l : forallb (fun x => negb (x =? c)) l = true -> no c l.
Proof. rewrite forallb_forall. intros F X. specialize (F c X). rewrite Z.eqb_refl in F. discriminate. Qed.
Ltac okm := repeat split; cbn; try (now intros); try (apply no_dec; reflexivity); repeat (constructor; [repeat split; apply no_dec; reflexivity|]); try constructor.
Example C81_nonvacuous : Forall (ok_request 1048576) ex_rs /\ arrives ex_chunks (concat (map encode_request ex_rs)) /\ serve 3 (connected ex_chunks) 1048576 = (ex_rs, Eof).
Proof.
  split; [|split; [|vm_compute; reflexivity]].
  - constructor; [|constructor; [|constructor]]; unfold ok_request.
    + split; [okm|]. split; [vm_compute; discriminate|]. split; [|vm_compute; reflexivity]. apply (bl_some [] s_content_length [53] [(s_accept, [42;47;42])]); [constructor|reflexivity|repeat constructor; unfold digit; lia].
    + split; [okm|]. split; [vm_compute; discriminate|]. split; [|vm_compute; reflexivity]. apply (bl_none []). constructor.
  - split; [reflexivity|]. repeat constructor; vm_compute; discriminate.
Qed.

(** The code refutes the property for headers of 513 to 767 bytes: the same request (600 bytes) is read if it
    arrives in pieces of 255 bytes and refused if it arrives at once. *)
Definition ex_long : message := {| m_a := s_post; m_b := 47 :: repeat 120 (600 - 19); m_c := s_http11; m_headers := [] |}.
Theorem C81_arrival_refuted : exists bytes c1 c2, arrives c1 bytes /\ arrives c2 bytes /\ bytes = encode_message ex_long /\ length bytes = 600%nat /\
  serve 2 (connected c1) 1048576 = ([{| rq := ex_long; rq_body := [] |}], Eof) /\ serve 2 (connected c2) 1048576 = ([], Failed).
Proof.
  pose (b := encode_message ex_long). exists b, [firstn 255 b; firstn 255 (skipn 255 b); skipn 510 b], [b].
  split; [split; [vm_compute; reflexivity|repeat constructor; vm_compute; discriminate]|]. split; [split; [vm_compute; reflexivity|repeat constructor; vm_compute; discriminate]|].
  split; [reflexivity|]. split; [vm_compute; reflexivity|]. split; vm_compute; reflexivity.
Qed.
Print Assumptions C81_arrival_refuted.
(** If the limit (limit_recv) is raised, a length of 2^32 is taken as 0: the body is read as further requests.
    A length of 2^31 is undefined behaviour. *)
Definition ex_len (d : list Z) : message := {| m_a := s_post; m_b := [47]; m_c := s_http11; m_headers := [(s_content_length, d)] |}.
Theorem C81_length_refuted : exists limit, 2 ^ 31 < limit /\
  serve 3 (connected [encode_message (ex_len (dec (2 ^ 32))) ++ encode_message ex_m2]) limit = ([{| rq := ex_len (dec (2 ^ 32)); rq_body := [] |}; {| rq := ex_m2; rq_body := [] |}], Eof) /\
  snd (serve 3 (connected [encode_message (ex_len (dec (2 ^ 31))) ++ encode_message ex_m2]) limit) = Undefined.
Proof.
  exists (2 ^ 33). split; [lia|]. split.
  - set (r0 := connected _). cbn [serve]. assert (A : exists r1, http_read r0 = Ok (Some (ex_len (dec (2 ^ 32))), r1) /\ RI r1 /\ remaining r1 = encode_message ex_m2).
    { eexists. split; [vm_compute; reflexivity|]. split; [split; cbn; [lia|constructor]|vm_compute; reflexivity]. }
    destruct A as (r1 & -> & R1 & E1). unfold http_read_content_limit. replace (http_find (m_headers (ex_len (dec (2 ^ 32)))) content_length) with (Some (dec (2 ^ 32))) by reflexivity.
    replace (toint (dec (2 ^ 32)) 0) with (@Ok Z (2 ^ 32)) by (vm_compute; reflexivity). cbn [bind]. replace (2 ^ 33 <=? 2 ^ 32) with false by reflexivity.
    assert (RC : forall f, read_content f r1 (2 ^ 32) [] = Ok ([], r1)) by (destruct f; reflexivity). rewrite RC. cbn [bind]. clear RC r0.
    assert (H : header_end (remaining r1) = Some (length (encode_message ex_m2))) by (rewrite E1; vm_compute; reflexivity). destruct (http_read_ok r1 _ R1 H ltac:(vm_compute; lia)) as (r2 & R2 & E2 & ->). rewrite E1 in *.
    rewrite firstn_all, parse_ok by okm. cbn [http_find m_headers ex_m2]. rewrite skipn_all in E2. destruct (http_read_eof r2 R2 E2) as (r3 & ->). reflexivity.
  - set (r0 := connected _). cbn [serve]. assert (A : exists r1, http_read r0 = Ok (Some (ex_len (dec (2 ^ 31))), r1)) by (eexists; vm_compute; reflexivity).
    destruct A as (r1 & ->). unfold http_read_content_limit. replace (http_find (m_headers (ex_len (dec (2 ^ 31)))) content_length) with (Some (dec (2 ^ 31))) by reflexivity.
    replace (toint (dec (2 ^ 31)) 0) with (@Ok Z (2 ^ 31)) by (vm_compute; reflexivity). cbn [bind]. replace (2 ^ 33 <=? 2 ^ 31) with false by reflexivity.
    assert (RC : forall f, read_content f r1 (2 ^ 31) [] = UB) by (destruct f; reflexivity). now rewrite RC.
Qed.
Print Assumptions C81_length_refuted.

(** ** the client *)
Lemma dec_digits_value fuel : forall v acc, 0 <= v < 10 ^ Z.of_nat fuel -> (0 < fuel)%nat -> digits_value (dec_digits fuel v acc) 0 = digits_value acc v.
Proof.
  induction fuel as [|fuel IH]; intros v acc V F; [lia|]. cbn [dec_digits]. cbv zeta. pose proof (Z.div_mod v 10 ltac:(lia)) as DM. pose proof (Z.mod_pos_bound v 10 ltac:(lia)) as MB.
  destruct (Z.ltb_spec v 10) as [L|L].
  - cbn [digits_value]. f_equal. rewrite Z.mod_small by lia. lia.
  - destruct fuel as [|fuel]; [cbn in V; lia|]. rewrite IH; [|split; [apply Z.div_pos; lia|apply Z.div_lt_upper_bound; [lia|]]|lia].
    + cbn [digits_value]. f_equal. lia.
    + rewrite <- Z.pow_succ_r by lia. replace (Z.succ (Z.of_nat (S fuel))) with (Z.of_nat (S (S fuel))) by lia. lia.
Qed.
Lemma dec_digits_digit fuel : forall v acc, Forall digit acc -> Forall digit (dec_digits fuel v acc).
Proof.
  induction fuel as [|fuel IH]; intros v acc F; [exact F|]. cbn [dec_digits]. cbv zeta. pose proof (Z.mod_pos_bound v 10 ltac:(lia)) as MB.
  assert (D : Forall digit ((48 + v mod 10) :: acc)) by (constructor; [unfold digit; lia|exact F]). destruct (v <? 10); [exact D|now apply IH].
Qed.
Lemma dec_ok v : 0 <= v < 2 ^ 31 -> digits_value (dec v) 0 = v /\ Forall digit (dec v) /\ no CR (dec v).
Proof.
  intros V. assert (D : Forall digit (dec v)) by (apply dec_digits_digit; constructor). split; [unfold dec; rewrite dec_digits_value; [reflexivity|split; [lia|change (10 ^ Z.of_nat 20) with 100000000000000000000; lia]|lia]|].
  split; [exact D|]. intros X. rewrite Forall_forall in D. apply D in X. unfold digit, CR in X. lia.
Qed.
Lemma enc_headers_app a b : concat (map encode_header (a ++ b)) = concat (map encode_header a) ++ concat (map encode_header b).
Proof. now rewrite map_app, concat_app. Qed.
Lemma write_set n v : write_header n v = concat (map encode_header (set_header n v)).
Proof. unfold write_header, set_header, encode_header. destruct v; cbn; [reflexivity|]. now rewrite app_nil_r. Qed.
Lemma write_length size : (if 0 <? size then s_content_length ++ [COLON; SP] ++ dec size ++ crlf else []) = concat (map encode_header (length_header size)).
Proof. unfold length_header, encode_header. destruct (0 <? size); cbn; [now rewrite app_nil_r|reflexivity]. Qed.
Lemma set_ok n v : no COLON n -> no CR n -> no CR v -> Forall (fun h => no COLON (fst h) /\ no CR (fst h) /\ no CR (snd h)) (set_header n v).
Proof. intros A B C. unfold set_header. destruct v; constructor; [auto|constructor]. Qed.
Lemma length_ok size : size < 2 ^ 31 -> Forall (fun h => no COLON (fst h) /\ no CR (fst h) /\ no CR (snd h)) (length_header size).
Proof. intros L. unfold length_header. destruct (Z.ltb_spec 0 size); constructor; [|constructor]. cbn [fst snd]. split; [apply no_dec; reflexivity|]. split; [apply no_dec; reflexivity|]. apply dec_ok. lia. Qed.
Lemma set_other n v : ~ same_name n content_length -> Forall (fun h => ~ same_name (fst h) content_length) (set_header n v).
Proof. intros A. unfold set_header. destruct v; constructor; [auto|constructor]. Qed.
Lemma body_length_between a size b : Forall (fun h => ~ same_name (fst h) content_length) a -> Forall (fun h => ~ same_name (fst h) content_length) b -> 0 <= size < 2 ^ 31 -> body_length (a ++ length_header size ++ b) size.
Proof.
  intros A B S. unfold length_header. destruct (Z.ltb_spec 0 size) as [L|L].
  - destruct (dec_ok size S) as (E & D & _). rewrite <- E at 2. apply bl_some; [exact A|reflexivity|exact D].
  - replace size with 0 by lia. apply bl_none. apply Forall_app. split; [exact A|exact B].
Qed.
Lemma request_url_eq ep : request_url ep = url_of ep.
Proof.
  unfold request_url, url_of, url_path, url_args.
  destruct (ep_service ep) as [|sv svs]; cbn [nonempty]; [destruct (ep_db ep) as [|db dbs]; cbn [nonempty]; [|destruct (ep_relation ep) as [|re res]; cbn [nonempty]]|];
  (destruct (ep_columns ep) as [|c1 c2], (ep_timezone ep) as [|t1 t2], (ep_format ep) as [|f1 f2]; cbn [export_args nonempty set_header app map fst snd url_query concat];
   rewrite ?app_nil_r, <- ?app_assoc; cbn [app]; rewrite <- ?app_assoc; cbn [app]; reflexivity).
Qed.
Lemma write_request_eq ep auth size : (if nonempty (ep_token ep) then firstn 21 s_auth_bearer ++ ep_token ep ++ crlf else []) = concat (map encode_header auth) ->
  write_request ep size = encode_message (request_message ep auth size).
Proof.
  intros E. unfold write_request, encode_message, request_message. cbn [m_a m_b m_c m_headers]. rewrite request_url_eq, E, !write_set, write_length, !enc_headers_app. rewrite <- !app_assoc. reflexivity.
Qed.
Lemma request_ok ep auth size : plain ep -> size < 2 ^ 31 -> Forall (fun h => no COLON (fst h) /\ no CR (fst h) /\ no CR (snd h)) auth -> ok_message (request_message ep auth size).
Proof.
  intros (P1 & P2 & P3 & P4 & P5) S A. unfold ok_message, request_message. cbn [m_a m_b m_c m_headers]. split; [discriminate|]. split; [apply no_dec; reflexivity|]. split; [apply no_dec; reflexivity|].
  split; [unfold url_of, url_path; destruct (ep_service ep), (ep_db ep), (ep_relation ep); discriminate|]. split; [exact P2|]. split; [exact P1|]. split; [discriminate|]. split; [apply no_dec; reflexivity|].
  repeat (apply Forall_app; split); [exact A|apply set_ok; [apply no_dec; reflexivity|apply no_dec; reflexivity|exact P4]|apply length_ok; lia|apply set_ok; [apply no_dec; reflexivity|apply no_dec; reflexivity|exact P5]].
Qed.
(** What the client of this project sends is read by the server as it was meant: the url, the headers and
    the content.  Partial: without a token (C81_token_refuted). *)
Theorem C81_client_partial ep body chunks limit : plain ep -> ep_token ep = [] -> limit <= 2 ^ 31 -> zlen body < limit ->
  zlen (write_request ep (zlen body)) <= 512 -> arrives chunks (write_request ep (zlen body) ++ body) ->
  serve 2 (connected chunks) limit = ([{| rq := request_message ep [] (zlen body); rq_body := body |}], Eof).
Proof.
  intros P T LM L H A. assert (E : write_request ep (zlen body) = encode_message (request_message ep [] (zlen body))) by (apply write_request_eq; now rewrite T). rewrite E in *.
  apply (C81_requests limit [{| rq := request_message ep [] (zlen body); rq_body := body |}]); [exact LM| |unfold encode_request; cbn [map concat rq rq_body]; rewrite app_nil_r; exact A].
  constructor; [|constructor]. unfold ok_request. cbn [rq rq_body]. split; [apply request_ok; [exact P|lia|constructor]|]. split; [exact H|]. split; [|exact L]. unfold request_message. cbn [m_headers app].
  apply body_length_between; [apply set_other; discriminate|apply set_other; discriminate|split; [apply zlen_nonneg|lia]].
Qed.
Print Assumptions C81_client_partial.
(** The code refutes the rest: the client writes 21 of the 22 bytes of "Authorization: Bearer ", and the server
    refuses every request with a token (that does not begin with a space), whatever its users are. *)
Theorem C81_token_refuted ep body chunks limit : plain ep -> ep_token ep <> [] -> hd 0 (ep_token ep) <> SP -> limit <= 2 ^ 31 -> zlen body < limit ->
  zlen (write_request ep (zlen body)) <= 512 -> arrives chunks (write_request ep (zlen body) ++ body) ->
  exists r, serve 2 (connected chunks) limit = ([r], Eof) /\
    forall hmac hashf hf pf a required now, snd (frontend_auth hmac hashf hf pf a required (http_find (m_headers (rq r)) s_authorization) now) = Err.
Proof.
  intros P T HD LM L H A. pose (auth := [(s_authorization, [66;101;97;114;101;114] ++ ep_token ep)]).
  assert (E : write_request ep (zlen body) = encode_message (request_message ep auth (zlen body))).
  { apply write_request_eq. unfold auth, encode_header. destruct (ep_token ep); [congruence|]. cbn [nonempty map concat fst snd]. rewrite app_nil_r. reflexivity. }
  rewrite E in *. exists {| rq := request_message ep auth (zlen body); rq_body := body |}. split.
  - apply (C81_requests limit [{| rq := request_message ep auth (zlen body); rq_body := body |}]); [exact LM| |unfold encode_request; cbn [map concat rq rq_body]; rewrite app_nil_r; exact A].
    constructor; [|constructor]. unfold ok_request. cbn [rq rq_body]. destruct P as (P1 & P2 & P3 & P4). split.
    { apply request_ok; [split; [exact P1|split; [exact P2|split; [exact P3|exact P4]]]|lia|]. constructor; [|constructor]. cbn [fst snd]. split; [apply no_dec; reflexivity|]. split; [apply no_dec; reflexivity|].
      intros X. apply in_app_iff in X. destruct X as [X|X]; [cbn in X; unfold CR in X; lia|now apply P3]. }
    split; [exact H|]. split; [|exact L]. unfold request_message. cbn [m_headers]. rewrite app_assoc. apply body_length_between; [|apply set_other; discriminate|split; [apply zlen_nonneg|lia]].
    apply Forall_app. split; [constructor; [discriminate|constructor]|apply set_other; discriminate].
  - intros hmac hashf hf pf a required now. unfold request_message, auth. cbn [rq m_headers app http_find]. replace (is_case s_authorization s_authorization) with true by reflexivity.
    unfold frontend_auth, auth_run. destruct (ep_token ep) as [|t0 t] eqn:ET; [congruence|]. cbn [hd] in HD. replace (jwt_decode _) with (@Err jwt); [reflexivity|].
    unfold jwt_decode. cbn [app firstn]. replace (bytes_eqb [66; 101; 97; 114; 101; 114; t0] bearer) with false; [rewrite andb_false_r; reflexivity|].
    unfold bearer. cbn [bytes_eqb]. replace (t0 =? 32) with false; [reflexivity|]. symmetry. now apply Z.eqb_neq.
Qed.
Print Assumptions C81_token_refuted.
(** The reply of the server is read by the client: the code, the text and the content. *)
Theorem C81_reply ep code text body chunks : no CR (ep_accept ep) -> code <> [] -> no SP code -> no CR code -> text <> [] -> no CR text -> zlen body < 2 ^ 31 ->
  zlen (write_reply ep (code ++ [SP] ++ text) (zlen body)) <= 512 -> arrives chunks (write_reply ep (code ++ [SP] ++ text) (zlen body) ++ body) ->
  serve 2 (connected chunks) (2 ^ 31) = ([{| rq := reply_message ep code text (zlen body); rq_body := body |}], Eof).
Proof.
  intros P C1 C2 C3 T1 T2 L H A. assert (E : write_reply ep (code ++ [SP] ++ text) (zlen body) = encode_message (reply_message ep code text (zlen body))).
  { unfold write_reply, encode_message, reply_message. cbn [m_a m_b m_c m_headers]. rewrite write_set, write_length, enc_headers_app. rewrite <- !app_assoc. reflexivity. }
  rewrite E in *. apply (C81_requests (2 ^ 31) [{| rq := reply_message ep code text (zlen body); rq_body := body |}]); [lia| |unfold encode_request; cbn [map concat rq rq_body]; rewrite app_nil_r; exact A].
  constructor; [|constructor]. unfold ok_request. cbn [rq rq_body]. split; [|split; [exact H|split; [|exact L]]].
  - unfold ok_message, reply_message. cbn [m_a m_b m_c m_headers]. split; [discriminate|]. split; [apply no_dec; reflexivity|]. split; [apply no_dec; reflexivity|]. do 5 (split; [assumption|]).
    apply Forall_app. split; [apply set_ok; [apply no_dec; reflexivity|apply no_dec; reflexivity|exact P]|apply length_ok; lia].
  - unfold reply_message. cbn [m_headers]. rewrite <- (app_nil_r (length_header (zlen body))). apply body_length_between; [apply set_other; discriminate|constructor|split; [apply zlen_nonneg|lia]].
Qed.
Print Assumptions C81_reply.

(** an endpoint with a token, and one with a content *)
Definition ex_ep (token : list Z) : endpoint :=
  {| ep_service := []; ep_db := [109;97;105;110]; ep_relation := [116]; ep_columns := []; ep_timezone := []; ep_format := [106;115;111;110]; ep_token := token; ep_content_type := [116;47;112]; ep_accept := [42;47;42] |}.
Example C81_client_nonvacuous : plain (ex_ep [101;121;74]) /\ hd 0 (ep_token (ex_ep [101;121;74])) <> SP /\ zlen (write_request (ex_ep [101;121;74]) 5) <= 512 /\
  serve 2 (connected [write_request (ex_ep []) 5 ++ [72;69;76;76;79]]) 1048576 = ([{| rq := request_message (ex_ep []) [] 5; rq_body := [72;69;76;76;79] |}], Eof).
Proof. split; [repeat split; apply no_dec; reflexivity|]. split; [discriminate|]. split; [vm_compute; discriminate|vm_compute; reflexivity]. Qed.
