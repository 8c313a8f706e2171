(** Model of the reader and the writer of HTTP messages: runtime/os/readahead.h, server/http/http.c,
    the loop of system/frontend/frontend_client.c that reads requests, server/client/client_io.h.
    A byte is a [Z].  Simplified: the growth of buffers and out of memory are not modelled; a chunk is what
    one successful read of the socket or of TLS returned (tcp.c:236-300), the end of the list of chunks
    or an empty chunk is the end of the stream. *)
From Verif Require Import Base.

Definition CR : Z := 13.
Definition LF : Z := 10.
Definition SP : Z := 32.
Definition COLON : Z := 58.

(** runtime/os/readahead.h:16-22 *)
Record readahead := { rbuf : list Z; roff : Z; incoming : list (list Z) }.
Definition zlen (l : list Z) : Z := Z.of_nat (length l).
(** readahead.h:45-67 readahead_read: [None] at the end of the stream.  The size is an int: with a
    negative one the caller copies a negative number of bytes *)
Definition readahead_read (r : readahead) (size : Z) : res (option (list Z) * readahead) :=
  if size <? 0 then UB else
  let take r := let left := zlen (rbuf r) - roff r in
                let n := if left <? size then left else size in
                Ok (Some (firstn (Z.to_nat n) (skipn (Z.to_nat (roff r)) (rbuf r))), {| rbuf := rbuf r; roff := roff r + n; incoming := incoming r |}) in
  if 0 <? zlen (rbuf r) - roff r then take r
  else match incoming r with
       | [] => Ok (None, {| rbuf := []; roff := 0; incoming := [] |})
       | c :: rest => if zlen c =? 0 then Ok (None, {| rbuf := []; roff := 0; incoming := rest |})
                      else take {| rbuf := c; roff := 0; incoming := rest |}
       end.
(** readahead.h:69-74 readahead_pushback *)
Definition readahead_pushback (r : readahead) (size : Z) : res readahead :=
  if roff r - size <? 0 then UB else Ok {| rbuf := rbuf r; roff := roff r - size; incoming := incoming r |}.

(** memmem for CR LF CR LF: the position behind it *)
Fixpoint header_end (l : list Z) : option nat :=
  match l with
  | [] => None
  | a :: l' => match l with
               | a :: b :: c :: d :: _ => if (a =? CR) && (b =? LF) && (c =? CR) && (d =? LF) then Some 4%nat else option_map S (header_end l')
               | _ => None
               end
  end.
(** http.c:85-117 http_read_header: the header with its end marker, [None] at the end of the stream.
    Every round reads at least one byte and a round begins with less than 512 bytes: 512 rounds. *)
Fixpoint read_header (fuel : nat) (r : readahead) (raw : list Z) : res (option (list Z) * readahead) :=
  match fuel with
  | O => UB
  | S fuel =>
    do (p, r) <- readahead_read r 256;
    match p with
    | None => match raw with [] => Ok (None, r) | _ => Err end
    | Some p =>
      let raw := raw ++ p in
      match header_end raw with
      | Some e => do r <- readahead_pushback r (zlen raw - Z.of_nat e); Ok (Some (firstn e raw), r)
      | None => if 512 <=? zlen raw then Err else read_header fuel r raw
      end
    end
  end.
Definition http_read_header (r : readahead) : res (option (list Z) * readahead) := read_header 512 r [].

(** while (pos < end && *pos != c): the text, and the rest behind [c]; [None] if pos is end *)
Fixpoint scan (c : Z) (l : list Z) : option (list Z * list Z) :=
  match l with
  | [] => None
  | x :: l => if x =? c then Some ([], l) else match scan c l with Some (a, b) => Some (x :: a, b) | None => None end
  end.
(** http.c:147-166, 195-201: up to [c], which must be there *)
Definition scan_to (c : Z) (l : list Z) : res (list Z * list Z) := match scan c l with Some x => Ok x | None => Err end.
(** http.c:168-178, 208-216: up to a CR without a check of the end, and the LF behind it *)
Definition scan_line (l : list Z) : res (list Z * list Z) :=
  match scan CR l with
  | None => UB
  | Some (v, l) => match l with [] => UB | x :: l => if x =? LF then Ok (v, l) else Err end
  end.
Definition nonempty (l : list Z) : bool := match l with [] => false | _ => true end.
(** http.c:180-218 the headers *)
Fixpoint read_headers (fuel : nat) (l : list Z) : res (list (list Z * list Z)) :=
  match fuel with
  | O => UB
  | S fuel =>
    match l with
    | [] => UB
    | x :: l' =>
      if x =? CR then match l' with [] => UB | y :: _ => if y =? LF then Ok [] else Err end
      else
        do (name, l) <- scan_to COLON l;
        match l with
        | [] => UB
        | y :: l => if y =? SP then do (value, l) <- scan_line l; do hs <- read_headers fuel l; Ok ((name, value) :: hs) else Err
        end
    end
  end.
(** The three parts of the first line (http.h:18-26) and the headers *)
Record message := { m_a : list Z; m_b : list Z; m_c : list Z; m_headers : list (list Z * list Z) }.
Definition parse_message (raw : list Z) : res message :=
  do (a, l) <- scan_to SP raw;
  if negb (nonempty a) then Err else
  do (b, l) <- scan_to SP l;
  if negb (nonempty b) then Err else
  do (c, l) <- scan_line l;
  if negb (nonempty c) then Err else
  do hs <- read_headers (S (length raw)) l;
  Ok {| m_a := a; m_b := b; m_c := c; m_headers := hs |}.
(** http.c:119-225 http_read *)
Definition http_read (r : readahead) : res (option message * readahead) :=
  do (raw, r) <- http_read_header r;
  match raw with
  | None => Ok (None, r)
  | Some raw => do m <- parse_message raw; Ok (Some m, r)
  end.

(** tolower of the C locale *)
Definition lower (c : Z) : Z := if (65 <=? c) && (c <=? 90) then c + 32 else c.
Fixpoint is_case (a b : list Z) : bool :=
  match a, b with
  | [], [] => true
  | x :: a, y :: b => (lower x =? lower y) && is_case a b
  | _, _ => false
  end.
(** http.c:46-57 http_find *)
Fixpoint http_find (hs : list (list Z * list Z)) (name : list Z) : option (list Z) :=
  match hs with
  | [] => None
  | (n, v) :: hs => if is_case n name then Some v else http_find hs name
  end.
(** str.h:273-288 str_toint *)
Fixpoint toint (l : list Z) (v : Z) : res Z :=
  match l with
  | [] => Ok v
  | c :: l => if (48 <=? c) && (c <=? 57) then
                let v := v * 10 + (c - 48) in if v <? 2 ^ 63 then toint l v else Err
              else Err
  end.
(** the conversion to int *)
Definition int32 (v : Z) : Z := (v + 2 ^ 31) mod 2 ^ 32 - 2 ^ 31.
(** "content-length" *)
Definition content_length : list Z := [99;111;110;116;101;110;116;45;108;101;110;103;116;104].
(** http.c:243-258: the loop.  Every round reads at least one byte *)
Fixpoint read_content (fuel : nat) (r : readahead) (len : Z) (content : list Z) : res (list Z * readahead) :=
  let left := int32 (len - zlen content) in
  if left =? 0 then Ok (content, r) else
  match fuel with
  | O => UB
  | S fuel =>
    do (p, r) <- readahead_read r (if left <? 16384 then left else 16384);
    match p with
    | None => Err
    | Some p => read_content fuel r len (content ++ p)
    end
  end.
(** http.c:226-261 http_read_content_limit: [None] if the limit is reached.  [limit] is a uint64_t *)
Definition http_read_content_limit (r : readahead) (hs : list (list Z * list Z)) (limit : Z) : res (option (list Z) * readahead) :=
  match http_find hs content_length with
  | None => Ok (Some [], r)
  | Some v =>
    do len <- toint v 0;
    if limit <=? len then Ok (None, r)
    else do (c, r) <- read_content (Z.to_nat len) r len []; Ok (Some c, r)
  end.

(** frontend_client.c:117-136, 138-188: the requests of a connection that are handed over, and how the
    connection ends *)
Inductive ending := Eof | TooLarge | Failed | Undefined | More.
Record request := { rq : message; rq_body : list Z }.
Fixpoint serve (n : nat) (r : readahead) (limit : Z) : list request * ending :=
  match n with
  | O => ([], More)
  | S n =>
    match http_read r with
    | Err => ([], Failed)
    | UB => ([], Undefined)
    | Ok (None, _) => ([], Eof)
    | Ok (Some m, r) =>
      match http_read_content_limit r (m_headers m) limit with
      | Err => ([], Failed)
      | UB => ([], Undefined)
      | Ok (None, _) => ([], TooLarge)
      | Ok (Some body, r) => let (l, e) := serve n r limit in ({| rq := m; rq_body := body |} :: l, e)
      end
    end
  end.
(** client.c:32 *)
Definition connected (chunks : list (list Z)) : readahead := {| rbuf := []; roff := 0; incoming := chunks |}.

(** ** the writer *)
Definition crlf : list Z := [CR; LF].
(** "HTTP/1.1", "POST", "Authorization: Bearer " and the names of the headers *)
Definition s_http11 : list Z := [72;84;84;80;47;49;46;49].
Definition s_post : list Z := [80;79;83;84].
Definition s_authorization : list Z := [65;117;116;104;111;114;105;122;97;116;105;111;110].
Definition s_auth_bearer : list Z := s_authorization ++ [COLON; SP; 66;101;97;114;101;114;SP].
Definition s_content_type : list Z := [67;111;110;116;101;110;116;45;84;121;112;101].
Definition s_content_length : list Z := [67;111;110;116;101;110;116;45;76;101;110;103;116;104].
Definition s_accept : list Z := [65;99;99;101;112;116].
Definition s_v1 : list Z := [118;49;47].
Definition s_db : list Z := [100;98;47].
(** %PRIu64 *)
Fixpoint dec_digits (fuel : nat) (v : Z) (acc : list Z) : list Z :=
  match fuel with
  | O => acc
  | S fuel => let acc := (48 + v mod 10) :: acc in if v <? 10 then acc else dec_digits fuel (v / 10) acc
  end.
Definition dec (v : Z) : list Z := dec_digits 20 v [].
(** the options of an endpoint (endpoint.h:23-57) that a request writes; a string that is not set is empty *)
Record endpoint := { ep_service : list Z; ep_db : list Z; ep_relation : list Z; ep_columns : list Z; ep_timezone : list Z; ep_format : list Z;
                     ep_token : list Z; ep_content_type : list Z; ep_accept : list Z }.
(** "columns", "timezone", "format" *)
Definition s_columns : list Z := [99;111;108;117;109;110;115].
Definition s_timezone : list Z := [116;105;109;101;122;111;110;101].
Definition s_format : list Z := [102;111;114;109;97;116].
(** uri.c:413-424 uri_export_arg, the three calls of http.c:299-307 *)
Fixpoint export_args (first : bool) (l : list (list Z * list Z)) : list Z :=
  match l with
  | [] => []
  | (n, v) :: l => if nonempty v then (if first then 63 else 38) :: n ++ [61] ++ v ++ export_args false l else export_args first l
  end.
(** http.c:278-307: the url *)
Definition request_url (ep : endpoint) : list Z :=
  [47] ++
  (if nonempty (ep_service ep) then s_v1 ++ ep_service ep
   else if nonempty (ep_db ep) then s_v1 ++ s_db ++ ep_db ep ++ (if nonempty (ep_relation ep) then [47] ++ ep_relation ep else [])
   else []) ++
  export_args true [(s_columns, ep_columns ep); (s_timezone, ep_timezone ep); (s_format, ep_format ep)].
(** a header that is written if its value is not empty *)
Definition write_header (name v : list Z) : list Z := if nonempty v then name ++ [COLON; SP] ++ v ++ crlf else [].
(** http.c:267-346 http_begin_request, 383-387 http_end.  21 bytes of "Authorization: Bearer " *)
Definition write_request (ep : endpoint) (size : Z) : list Z :=
  s_post ++ [SP] ++ request_url ep ++ [SP] ++ s_http11 ++ crlf ++
  (if nonempty (ep_token ep) then firstn 21 s_auth_bearer ++ ep_token ep ++ crlf else []) ++
  write_header s_content_type (ep_content_type ep) ++
  (if 0 <? size then s_content_length ++ [COLON; SP] ++ dec size ++ crlf else []) ++
  write_header s_accept (ep_accept ep) ++
  crlf.
(** http.c:348-381 http_begin_reply, http_end *)
Definition write_reply (ep : endpoint) (msg : list Z) (size : Z) : list Z :=
  s_http11 ++ [SP] ++ msg ++ crlf ++
  write_header s_content_type (ep_accept ep) ++
  (if 0 <? size then s_content_length ++ [COLON; SP] ++ dec size ++ crlf else []) ++
  crlf.
