(** Specification: RFC 4648 base64 and base64url, RFC 9562 text form of UUIDs. *)
From Verif Require Import Base.
Local Open Scope Z_scope.

(** RFC 4648, tables 1 and 2: the character of a 6-bit value, the characters of 62 and 63 *)
Definition b64_char (c62 c63 : Z) (v : Z) : Z :=
  if v <? 26 then 65 + v          (* A-Z *)
  else if v <? 52 then 97 + (v - 26) (* a-z *)
  else if v <? 62 then 48 + (v - 52) (* 0-9 *)
  else if v =? 62 then c62 else c63.
(** RFC 4648, section 4: 24-bit groups, and the two cases of the final group *)
Fixpoint rfc_encode (c62 c63 : Z) (pad : bool) (s : list Z) : list Z :=
  let ch := b64_char c62 c63 in
  match s with
  | [] => []
  | [a] => let n := a * 2 ^ 4 in [ch (n / 64); ch (n mod 64)] ++ (if pad then [61; 61] else [])
  | [a; b] => let n := (a * 256 + b) * 2 ^ 2 in [ch (n / 64 ^ 2); ch (n / 64 mod 64); ch (n mod 64)] ++ (if pad then [61] else [])
  | a :: b :: c :: s' =>
    let n := a * 256 ^ 2 + b * 256 + c in
    [ch (n / 64 ^ 3); ch (n / 64 ^ 2 mod 64); ch (n / 64 mod 64); ch (n mod 64)] ++ rfc_encode c62 c63 pad s'
  end.
Definition base64_text (s : list Z) : list Z := rfc_encode 43 47 true s.      (* + / *)
Definition base64url_text (s : list Z) : list Z := rfc_encode 45 95 false s.  (* - _ *)

(** a hexadecimal digit and its lower case *)
Definition is_hex (c : Z) : bool := ((48 <=? c) && (c <=? 57)) || ((97 <=? c) && (c <=? 102)) || ((65 <=? c) && (c <=? 70)).
Definition lower (c : Z) : Z := if (65 <=? c) && (c <=? 90) then c + 32 else c.
(** the 36 characters xxxxxxxx-xxxx-xxxx-xxxx-xxxxxxxxxxxx *)
Definition uuid_text (s : list Z) : bool :=
  (length s =? 36)%nat &&
  forallb (fun i => let c := nth i s 0 in if existsb (Nat.eqb i) [8; 13; 18; 23]%nat then c =? 45 else is_hex c) (seq 0 36).
