(** What a client that speaks HTTP relies on: the bytes of a message, independent of the reader. *)
From Verif Require Import Base HttpModel.

Definition no (c : Z) (l : list Z) : Prop := ~ In c l.
(** a b c CRLF (name: value CRLF)... CRLF *)
Definition encode_header (h : list Z * list Z) : list Z := fst h ++ [COLON; SP] ++ snd h ++ [CR; LF].
Definition encode_message (m : message) : list Z :=
  m_a m ++ [SP] ++ m_b m ++ [SP] ++ m_c m ++ [CR; LF] ++ concat (map encode_header (m_headers m)) ++ [CR; LF].
Definition ok_message (m : message) : Prop :=
  m_a m <> [] /\ no SP (m_a m) /\ no CR (m_a m) /\ m_b m <> [] /\ no SP (m_b m) /\ no CR (m_b m) /\ m_c m <> [] /\ no CR (m_c m) /\
  Forall (fun h => no COLON (fst h) /\ no CR (fst h) /\ no CR (snd h)) (m_headers m).
(** the value of a text of digits *)
Definition digit (c : Z) : Prop := 48 <= c <= 57.
Fixpoint digits_value (l : list Z) (v : Z) : Z := match l with [] => v | c :: l => digits_value l (v * 10 + (c - 48)) end.
(** letters without case *)
Definition same_name (a b : list Z) : Prop := map lower a = map lower b.
(** the header Content-Length gives the length of the body; without it there is no body *)
Inductive body_length : list (list Z * list Z) -> Z -> Prop :=
| bl_none hs : Forall (fun h => ~ same_name (fst h) content_length) hs -> body_length hs 0
| bl_some hs1 n v hs2 : Forall (fun h => ~ same_name (fst h) content_length) hs1 -> same_name n content_length -> Forall digit v ->
    body_length (hs1 ++ (n, v) :: hs2) (digits_value v 0).
Definition encode_request (r : request) : list Z := encode_message (rq r) ++ rq_body r.
Definition ok_request (limit : Z) (r : request) : Prop :=
  ok_message (rq r) /\ zlen (encode_message (rq r)) <= 512 /\ body_length (m_headers (rq r)) (zlen (rq_body r)) /\ zlen (rq_body r) < limit.
(** a stream of bytes arrives in pieces, none of them empty *)
Definition arrives (chunks : list (list Z)) (bytes : list Z) : Prop := concat chunks = bytes /\ Forall (fun c => c <> []) chunks.
(** the bytes that a reader has not handed out *)
Definition remaining (r : readahead) : list Z := skipn (Z.to_nat (roff r)) (rbuf r) ++ concat (incoming r).
(** what the writer of the client means: the first line and the headers *)
Definition set_header (name v : list Z) : list (list Z * list Z) := match v with [] => [] | _ => [(name, v)] end.
Definition length_header (size : Z) : list (list Z * list Z) := if 0 <? size then [(s_content_length, dec size)] else [].
(** the url: the path /v1/SERVICE, /v1/db/DB[/RELATION] or /, then the set arguments as ?name=value&name=value *)
Definition url_path (ep : endpoint) : list Z :=
  match ep_service ep, ep_db ep, ep_relation ep with
  | _ :: _, _, _ => 47 :: s_v1 ++ ep_service ep
  | [], _ :: _, [] => 47 :: s_v1 ++ s_db ++ ep_db ep
  | [], _ :: _, _ :: _ => 47 :: s_v1 ++ s_db ++ ep_db ep ++ [47] ++ ep_relation ep
  | [], [], _ => [47]
  end.
Definition url_args (ep : endpoint) : list (list Z) :=
  map (fun a => fst a ++ [61] ++ snd a)
      (set_header s_columns (ep_columns ep) ++ set_header s_timezone (ep_timezone ep) ++ set_header s_format (ep_format ep)).
Definition url_query (args : list (list Z)) : list Z :=
  match args with
  | [] => []
  | a :: rest => 63 :: a ++ concat (map (fun b => 38 :: b) rest)
  end.
Definition url_of (ep : endpoint) : list Z := url_path ep ++ url_query (url_args ep).
Definition request_message (ep : endpoint) (auth : list (list Z * list Z)) (size : Z) : message :=
  {| m_a := s_post; m_b := url_of ep; m_c := s_http11;
     m_headers := auth ++ set_header s_content_type (ep_content_type ep) ++ length_header size ++ set_header s_accept (ep_accept ep) |}.
Definition reply_message (ep : endpoint) (code text : list Z) (size : Z) : message :=
  {| m_a := s_http11; m_b := code; m_c := text; m_headers := set_header s_content_type (ep_accept ep) ++ length_header size |}.
(** the strings of an endpoint that fit into a header: no CR, and no space in the url *)
Definition plain (ep : endpoint) : Prop :=
  no CR (url_of ep) /\ no SP (url_of ep) /\ no CR (ep_token ep) /\ no CR (ep_content_type ep) /\ no CR (ep_accept ep).
