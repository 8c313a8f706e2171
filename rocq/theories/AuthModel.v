(** Model of the authentication of a request by its token: server/auth/auth.c, auth_cache.c,
    jwt_decode.c, server/user/user_cache.h, system/frontend/frontend_client.c. *)
From Verif Require Import Base CodecModel HtModel.
Local Open Scope Z_scope.

(** str.h:185-208 str_chr, str_split by one character: the part before it and the part after it *)
Fixpoint str_split (s : list Z) (c : Z) : option (list Z * list Z) :=
  match s with
  | [] => None
  | b :: r => if b =? c then Some ([], r)
              else match str_split r c with None => None | Some (x, y) => Some (b :: x, y) end
  end.
Fixpoint bytes_eqb (a b : list Z) : bool :=
  match a, b with
  | [], [] => true
  | x :: a', y :: b' => (x =? y) && bytes_eqb a' b'
  | _, _ => false
  end.
(** "Bearer " *)
Definition bearer : list Z := [66; 101; 97; 114; 101; 114; 32].
Definition dot : Z := 46.

(** jwt_decode.c:49-86 jwt_decode: header, payload, the text that is signed, digest.
    digest_origin is the text between "Bearer " and the second dot *)
Record jwt := mkjwt { j_header : list Z; j_payload : list Z; j_origin : list Z; j_digest : list Z }.
Definition jwt_decode (token : list Z) : res jwt :=
  if negb ((7 <=? Z.of_nat (length token)) && bytes_eqb (firstn 7 token) bearer) then Err
  else match str_split (skipn 7 token) dot with
  | None => Err
  | Some (header, r) =>
    if Z.of_nat (length header) =? 0 then Err
    else match str_split r dot with
    | None => Err
    | Some (payload, digest) =>
      if Z.of_nat (length payload) =? 0 then Err
      else if Z.of_nat (length digest) =? 0 then Err
      else Ok (mkjwt header payload (header ++ [dot] ++ payload) digest)
    end
  end.

(** user_cache.h:38-47 user_cache_find: the users with their secrets, by name *)
Fixpoint user_find (users : list (list Z * list Z)) (name : list Z) : option (list Z) :=
  match users with
  | [] => None
  | (n, s) :: r => if bytes_eqb n name then Some s else user_find r name
  end.

(** auth_cache.h AuthCacheNode: digest, user, expire *)
Record centry := mkentry { c_digest : list Z; c_user : list Z; c_expire : Z }.
(** auth.h: the users and the cache.  [a_ht] is [None] before the table is created; [a_nodes] are
    the nodes by address, [a_next] is the address of the next node that is allocated *)
Record auth := mkauth { a_users : list (list Z * list Z); a_ht : option ht; a_nodes : nat -> centry; a_next : nat }.

Section Env.
(** HMAC-SHA256 of openssl (secret, text), hash_murmur3_32 with seed 0, and the JSON parts of
    jwt_decode.c:94-121 (the header has alg HS256 and typ JWT) and :133-148 (sub, iat and exp of
    the payload) on the decoded text.  Nothing is assumed about them *)
Variable hmac : list Z -> list Z -> list Z.
Variable hashf : list Z -> Z.
Variable header_fields : list Z -> res unit.
Variable payload_fields : list Z -> res (list Z * Z * Z).

(** jwt_decode.c:151-158 jwt_decode_data *)
Definition jwt_decode_data (j : jwt) : res (list Z * Z * Z) :=
  do h <- base64url_decode (j_header j);
  do _ <- header_fields h;
  do p <- base64url_decode (j_payload j);
  payload_fields p.
(** jwt_decode.c:160-178 jwt_decode_validate *)
Definition jwt_validate (j : jwt) (secret : list Z) : res unit :=
  do d <- base64url_decode (j_digest j);
  if negb (Z.of_nat (length d) =? 32) then Err
  else if bytes_eqb d (hmac secret (j_origin j)) then Ok tt else Err.

(** auth.c:69-99: authentication of a token that is not in the cache *)
Definition auth_token (users : list (list Z * list Z)) (j : jwt) (now : Z) : res (list Z * Z) :=
  do (si, exp) <- jwt_decode_data j;
  let (sub, iat) := si in
  if (iat =? 0) || (exp =? 0) || (exp <? iat) then Err
  else if exp <=? now then Err
  else match user_find users sub with
  | None => Err
  | Some secret => do _ <- jwt_validate j secret; Ok (sub, exp)
  end.

(** auth_cache.c:48-53 auth_cache_prepare: a table of 256 slots *)
Definition auth_prepare (a : auth) : ht :=
  match a_ht a with Some t => t | None => ht_create 256 (fun _ => 0) (fun _ => 0%nat) end.
(** auth_cache.c:83-97 auth_cache_cmp, auth_cache_find *)
Definition auth_find (a : auth) (t : ht) (digest : list Z) : option (option nat) :=
  ht_get t (hashf digest) (fun n => bytes_eqb (c_digest (a_nodes a n)) digest).
(** auth_cache.c:61-75 auth_cache_add *)
Definition auth_add (a : auth) (t : ht) (e : centry) : option auth :=
  let n := a_next a in
  match ht_add t n (hashf (c_digest e)) with
  | None => None
  | Some t' => Some (mkauth (a_users a) (Some t') (upd (a_nodes a) n e) (S n))
  end.

(** auth.c:40-110 auth: the state after it and the user, [Err] if the token is refused.  A loop of
    the table that never ends and a failed assertion are [UB] here *)
Definition auth_run (a : auth) (token : list Z) (now : Z) : auth * res (list Z) :=
  let t := auth_prepare a in
  let a := mkauth (a_users a) (Some t) (a_nodes a) (a_next a) in
  match jwt_decode token with
  | Err => (a, Err)
  | UB => (a, UB)
  | Ok j =>
    match auth_find a t (j_digest j) with
    | None => (a, UB)
    | Some (Some n) =>
      if now <? c_expire (a_nodes a n) then (a, Ok (c_user (a_nodes a n)))
      else match ht_delete t n with
           | None => (a, UB)
           | Some t' => (mkauth (a_users a) (Some t') (a_nodes a) (a_next a), Err)
           end
    | Some None =>
      match auth_token (a_users a) j now with
      | Err => (a, Err)
      | UB => (a, UB)
      | Ok (user, exp) =>
        match auth_add a t (mkentry (j_digest j) user exp) with
        | None => (a, UB)
        | Some a' => (a', Ok user)
        end
      end
    end
  end.
(** auth.c:33-38 auth_sync, auth_cache.c:55-59, user_cache.h:65-93 *)
Definition auth_sync (a : auth) (users : list (list Z * list Z)) : auth := mkauth users None (a_nodes a) (a_next a).

(** frontend_client.c:40-59 frontend_auth: [Ok tt] lets the request pass.  [header] is the value of
    the Authorization header, [required] is the setting of the listener *)
Definition frontend_auth (a : auth) (required : bool) (header : option (list Z)) (now : Z) : auth * res unit :=
  match header with
  | None => (a, if required then Err else Ok tt)
  | Some token =>
    match auth_run a token now with
    | (a', Ok _) => (a', Ok tt)
    | (a', Err) => (a', Err)
    | (a', UB) => (a', UB)
    end
  end.

(** A history of a frontend: requests with a token, and changes of the users *)
Inductive auth_op := Token (token : list Z) (now : Z) | Users (users : list (list Z * list Z)).
Definition auth_step (a : auth) (o : auth_op) : auth :=
  match o with Token tk now => fst (auth_run a tk now) | Users u => auth_sync a u end.
Definition auth_hist (a : auth) (ops : list auth_op) : auth := fold_left auth_step ops a.
Definition auth_init (users : list (list Z * list Z)) : auth := mkauth users None (fun _ => mkentry [] [] 0) 0.
End Env.
