(** What the URI of a request means: a grammar, without the parser. *)
From Coq Require Import String.
From Verif Require Import Base UriModel HttpModel.

(** "%41" is the byte 65.  [d] is the hexadecimal digit of value [v] *)
Definition hex_digit (d : Z) (v : nat) : Prop :=
  nth_error (text "0123456789abcdef") v = Some d \/ nth_error (text "0123456789ABCDEF") v = Some d.
(** a text spells bytes *)
Inductive spells : list Z -> list Z -> Prop :=
  | S_end : spells [] []
  | S_plain c t b : c <> 37 -> spells t b -> spells (c :: t) (c :: b)
  | S_hex h l v w t b : hex_digit h v -> hex_digit l w -> spells t b -> spells (37 :: h :: l :: t) (Z.of_nat (16 * v + w) :: b).

(** an assignment: the name of an option and a text *)
Notation assignment := (list Z * list Z)%type.
(** a part of the path *)
Definition word (w : list Z) : Prop := w <> [] /\ ~ In 47 w /\ ~ In 63 w.
(** [db [/ [relation [/]]]] *)
Inductive path : list Z -> list assignment -> Prop :=
  | P_none : path [] []
  | P_db db : word db -> path db [(text "db", db)]
  | P_db_slash db : word db -> path (db ++ text "/") [(text "db", db)]
  | P_relation db r : word db -> word r -> path (db ++ text "/" ++ r) [(text "db", db); (text "relation", r)]
  | P_relation_slash db r : word db -> word r -> path (db ++ text "/" ++ r ++ text "/") [(text "db", db); (text "relation", r)].
(** name=value *)
Inductive argument : list Z -> assignment -> Prop :=
  | A_arg tn tv n v : tn <> [] -> ~ In 61 tn -> ~ In 38 tv -> spells tn n -> spells tv v -> argument (tn ++ text "=" ++ tv) (n, v).
(** name=value&name=value *)
Inductive arguments : list Z -> list assignment -> Prop :=
  | A_one t a : argument t a -> arguments t [a]
  | A_more t a t' l : argument t a -> arguments t' l -> arguments (t ++ text "&" ++ t') (a :: l).
(** what the path says and what the arguments say *)
Inductive uri : list Z -> list assignment -> list assignment -> Prop :=
  | U_db p a : path p a -> uri (text "/v1/db/" ++ p) a []
  | U_db_args p a t l : path p a -> arguments t l -> uri (text "/v1/db/" ++ p ++ text "?" ++ t) a l
  | U_backup : uri (text "/v1/backup") [(text "service", text "backup")] []
  | U_repl : uri (text "/v1/repl") [(text "service", text "repl")] [].

(** the options of a request *)
Definition number_options := map text ["proto"; "port"]%string.
Definition text_options := map text ["user"; "secret"; "token"; "host"; "path"; "tls_capath"; "tls_ca"; "tls_cert"; "tls_key"; "tls_server";
                                     "content_type"; "accept"; "db"; "relation"; "service"; "columns"; "timezone"; "format"; "name"]%string.
(** the number a text of digits shows *)
Fixpoint number (t : list Z) : Z := match t with [] => 0 | d :: t => (d - 48) * 10 ^ Z.of_nat (length t) + number t end.
(** what an assignment gives an option *)
Inductive gives : assignment -> list Z * optval -> Prop :=
  | G_text n v : In n text_options -> gives (n, v) (n, OStr v)
  | G_number n v : In n number_options -> v <> [] -> Forall (fun d => 48 <= d <= 57) v -> number v < 2 ^ 63 -> gives (n, v) (n, OInt (number v))
  | G_true v : v = [] \/ map lower v = text "true" -> gives (text "debug", v) (text "debug", OBool 1)
  | G_false v : map lower v = text "false" -> gives (text "debug", v) (text "debug", OBool 0).

(** the value of an option: the last one given, else [d] *)
Fixpoint last_given (n : list Z) (l : list (list Z * optval)) (d : optval) : optval :=
  match l with
  | [] => d
  | (m, v) :: l => last_given n l (if list_eq_dec Z.eq_dec m n then v else d)
  end.
(** every option: given by the request in this order, else its default *)
Definition options (l : list (list Z * optval)) : opts := map (fun x => (fst x, last_given (fst x) l (snd x))) endpoint_init.
(** the options that are not given by the uri *)
Definition header (hs : list (list Z * list Z)) (name : string) (d : list Z) : list Z :=
  match find (fun h => if list_eq_dec Z.eq_dec (map lower (fst h)) (map lower (text name)) then true else false) hs with Some h => snd h | None => d end.
Definition given_by_message (q : message) : list (list Z * optval) :=
  [ (text "content_type", OStr (header (m_headers q) "Content-Type" [])); (text "accept", OStr (header (m_headers q) "Accept" (text "application/json")));
    (text "uri", OStr (m_b q)) ].
(** the request [q] means the options [o] *)
Definition means (q : message) (o : opts) : Prop :=
  m_a q = text "POST" /\
  exists a l given, uri (m_b q) a l /\ Forall2 gives (a ++ l) given /\ o = options (given_by_message q ++ given).
(** the endpoint a thread has for its requests: it was made by endpoint_init, values have changed *)
Definition same_kind (a b : optval) : Prop :=
  match a, b with OBool _, OBool _ | OInt _, OInt _ | OStr _, OStr _ => True | _, _ => False end.
Definition some_endpoint (o : opts) : Prop := Forall2 (fun x y : list Z * optval => fst x = fst y /\ same_kind (snd x) (snd y)) o endpoint_init.
