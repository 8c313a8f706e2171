(** Model of the endpoint of a request: server/http/uri.c:156-411, server/http/endpoint.c:17-77,
    runtime/base opts (opts_find, opt_string_set), system/frontend/frontend_client.c:60-90, over the
    messages of HttpModel.v.

    Simplified: an option is its name and its value, its type is the one of the value; a text is its
    bytes, a C string ends at the first NUL; output_set (frontend_client.c:92-94) is not modelled. *)
From Coq Require Import String Ascii.
From Verif Require Import Base HttpModel.

Definition text (s : string) : list Z := map (fun c => Z.of_nat (nat_of_ascii c)) (list_ascii_of_string s).

(** opt.h:38-49 *)
Inductive optval := OBool (v : Z) | OInt (v : Z) | OStr (s : list Z).
Definition opts := list (list Z * optval).
(** endpoint.c:17-57 endpoint_init *)
Definition endpoint_init : opts :=
  [ (text "proto", OInt 0); (text "user", OStr []); (text "secret", OStr []); (text "token", OStr []);
    (text "host", OStr []); (text "port", OInt 3485); (text "path", OStr []);
    (text "tls_capath", OStr []); (text "tls_ca", OStr []); (text "tls_cert", OStr []); (text "tls_key", OStr []); (text "tls_server", OStr []);
    (text "uri", OStr []); (text "content_type", OStr []); (text "accept", OStr []);
    (text "db", OStr []); (text "relation", OStr []); (text "service", OStr []);
    (text "columns", OStr []); (text "timezone", OStr []); (text "format", OStr []);
    (text "name", OStr []); (text "debug", OBool 0) ].

(** str.h:115-119 str_is, 121-125 str_is_prefix (returns what follows) *)
Fixpoint str_is (a b : list Z) : bool :=
  match a, b with
  | [], [] => true
  | x :: a, y :: b => (x =? y) && str_is a b
  | _, _ => false
  end.
Fixpoint after_prefix (s prefix : list Z) {struct prefix} : option (list Z) :=
  match prefix, s with
  | [], _ => Some s
  | y :: prefix, x :: s => if x =? y then after_prefix s prefix else None
  | _ :: _, [] => None
  end.
(** opts.c:92-102 opts_find, str_compare is exact *)
Fixpoint opts_find (o : opts) (name : list Z) : option optval :=
  match o with
  | [] => None
  | (n, v) :: o => if str_is n name then Some v else opts_find o name
  end.
(** opt_int_set, opt_string_set (opt.h:75-135) on the option that opts_find finds *)
Fixpoint opts_put (o : opts) (name : list Z) (v : optval) : opts :=
  match o with
  | [] => []
  | (n, w) :: o => if str_is n name then (n, v) :: o else (n, w) :: opts_put o name v
  end.
(** endpoint.c:65-77 endpoint_reset *)
Definition endpoint_reset (o : opts) : opts :=
  opts_put (map (fun x : list Z * optval => (fst x, match snd x with OBool _ => OBool 0 | OInt _ => OInt 0 | OStr _ => OStr [] end)) o)
           (text "port") (OInt 3485).

(** the bytes of a C string *)
Fixpoint cstring (s : list Z) : list Z :=
  match s with [] => [] | c :: s => if c =? 0 then [] else c :: cstring s end.
Definition SLASH : Z := 47.
Definition QUESTION : Z := 63.
Definition PERCENT : Z := 37.
Definition EQUAL : Z := 61.
Definition AMPERSAND : Z := 38.

(** uri.c:156-164 uri_parse_path_next *)
Fixpoint path_next (s : list Z) : list Z * list Z :=
  match s with
  | [] => ([], [])
  | c :: r => if (c =? SLASH) || (c =? QUESTION) then ([], s) else let (a, b) := path_next r in (c :: a, b)
  end.
(** [!*self->pos || *self->pos == '?'] *)
Definition path_ends (s : list Z) : bool := match s with [] => true | c :: _ => c =? QUESTION end.
(** uri.c:166-202 uri_parse_path *)
Definition parse_path (o : opts) (s : list Z) : res (opts * list Z) :=
  if path_ends s then Ok (o, s)
  else
    let (name, s) := path_next s in
    if negb (nonempty name) then Ok (o, s)
    else
      let o := opts_put o (text "db") (OStr name) in
      if path_ends s then Ok (o, s)
      else
        let s := tl s in
        if path_ends s then Ok (o, s)
        else
          let (name, s) := path_next s in
          if negb (nonempty name) then Err
          else
            let o := opts_put o (text "relation") (OStr name) in
            if path_ends s then Ok (o, s) else Ok (o, tl s).

(** uri.c:204-217 decode_hex *)
Definition decode_hex (d : Z) : res Z :=
  if (48 <=? d) && (d <=? 57) then Ok (d - 48)
  else if (65 <=? d) && (d <=? 70) then Ok (d - 65 + 10)
  else if (97 <=? d) && (d <=? 102) then Ok (d - 97 + 10)
  else Err.
(** uri.c:219-240 decode *)
Fixpoint decode (s : list Z) : res (list Z) :=
  match s with
  | [] => Ok []
  | c :: r =>
      if c =? PERCENT then
        match r with
        | h :: l :: r => do a <- decode_hex h; do b <- decode_hex l; do t <- decode r; Ok (Z.lor (Z.shiftl a 4) b :: t)
        | _ => Err
        end
      else do t <- decode r; Ok (c :: t)
  end.

(** uri.c:242-289 uri_parse_args_set.  The string of the option "uri" is the text that is read: once
    it is freed (opt.h:132) the next read is from freed memory *)
Definition args_set (o : opts) (name value : list Z) : res opts :=
  match opts_find o name with
  | None => Err
  | Some (OBool _) =>
      if negb (nonempty value) then Ok (opts_put o name (OBool 1))
      else if is_case value (text "true") then Ok (opts_put o name (OBool 1))
      else if is_case value (text "false") then Ok (opts_put o name (OBool 0))
      else Err
  | Some (OInt _) =>
      if negb (nonempty value) then Err
      else do v <- toint value 0; Ok (opts_put o name (OInt v))
  | Some (OStr _) => if str_is name (text "uri") then UB else Ok (opts_put o name (OStr value))
  end.
(** the bytes to a character, what follows it is [None] at the end of the text *)
Fixpoint upto (c : Z) (s : list Z) : list Z * option (list Z) :=
  match s with
  | [] => ([], None)
  | x :: r => if x =? c then ([], Some r) else let (a, b) := upto c r in (x :: a, b)
  end.
(** uri.c:305-345 the loop.  [fuel] is at least the number of bytes left *)
Fixpoint args_loop (fuel : nat) (o : opts) (s : list Z) : res opts :=
  match fuel with
  | O => UB
  | S fuel =>
      match upto EQUAL s with
      | (_, None) => Err
      | (name, Some s) =>
          if negb (nonempty name) then Err
          else
            do name <- decode name;
            let (value, rest) := upto AMPERSAND s in
            do value <- decode value;
            do o <- args_set o name value;
            match rest with None => Ok o | Some s => args_loop fuel o s end
      end
  end.
(** uri.c:291-303 uri_parse_args *)
Definition parse_args (o : opts) (s : list Z) : res opts :=
  match s with
  | [] => Ok o
  | c :: s => if c =? QUESTION then args_loop (S (length s)) o s else Err
  end.
(** uri.c:375-411 uri_parse_endpoint.  The text is a copy with a NUL behind it (str.h:290-297) *)
Definition parse_endpoint (o : opts) (spec : list Z) : res opts :=
  let o := opts_put o (text "uri") (OStr spec) in
  match after_prefix spec (text "/v1/db/") with
  | Some s => do (o, s) <- parse_path o (cstring s); parse_args o s
  | None =>
      if str_is spec (text "/v1/backup") then parse_args (opts_put o (text "service") (OStr (text "backup"))) []
      else if str_is spec (text "/v1/repl") then parse_args (opts_put o (text "service") (OStr (text "repl"))) []
      else Err
  end.
(** frontend_client.c:60-90 frontend_endpoint: [o] is what the request before has left; an error is
    the reply 403 or 400 *)
Definition frontend_endpoint (o : opts) (q : message) : res opts :=
  let o := endpoint_reset o in
  if negb (str_is (m_a q) s_post) then Err
  else
    let o := match http_find (m_headers q) (text "Content-Type") with Some v => opts_put o (text "content_type") (OStr v) | None => o end in
    let o := opts_put o (text "accept") (OStr (match http_find (m_headers q) (text "Accept") with Some v => v | None => text "application/json" end)) in
    parse_endpoint o (m_b q).
