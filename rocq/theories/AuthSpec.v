(** What a valid token is, apart from the order of checks and from the cache *)
From Verif Require Import Base CodecModel AuthModel.
Local Open Scope Z_scope.

(** the three parts of "Bearer header.payload.digest": no dot in the first two, none is empty *)
Definition token_parts (token header payload digest : list Z) : Prop :=
  token = bearer ++ header ++ [dot] ++ payload ++ [dot] ++ digest /\
  ~ In dot header /\ ~ In dot payload /\ header <> [] /\ payload <> [] /\ digest <> [].

(** the name of the user list is taken from its first entry *)
Definition secret_of (users : list (list Z * list Z)) (name secret : list Z) : Prop := 
  exists before after, users = before ++ (name, secret) :: after /\ ~ In name (map fst before).

Section Env.
Variable hmac : list Z -> list Z -> list Z.
Variable header_fields : list Z -> res unit.
Variable payload_fields : list Z -> res (list Z * Z * Z).

(** the token is signed with the secret of the user it names and is not expired *)
Definition valid_token (users : list (list Z * list Z)) (token : list Z) (now : Z) (user : list Z) (exp : Z) : Prop :=
  exists header payload digest h p d iat secret,
    token_parts token header payload digest /\
    base64url_decode header = Ok h /\ header_fields h = Ok tt /\
    base64url_decode payload = Ok p /\ payload_fields p = Ok (user, iat, exp) /\
    iat <> 0 /\ exp <> 0 /\ iat <= exp /\ now < exp /\
    secret_of users user secret /\
    base64url_decode digest = Ok d /\ length d = 32%nat /\ d = hmac secret (header ++ [dot] ++ payload).
End Env.

(** the requests since the users were last changed, and the users then *)
Fixpoint current (users : list (list Z * list Z)) (acc : list (list Z * Z)) (ops : list auth_op) : list (list Z * list Z) * list (list Z * Z) :=
  match ops with
  | [] => (users, acc)
  | Token tk now :: r => current users (acc ++ [(tk, now)]) r
  | Users u :: r => current u [] r
  end.
