(** Model of runtime/lib/base64.c, base64url.c, uuid.c. *)
From Verif Require Import Base.
Local Open Scope Z_scope.

(** base64.c:19-30; base64url.c:19-30 *)
Definition b64_enc_head : list Z :=
  [65; 66; 67; 68; 69; 70; 71; 72; 73; 74; 75; 76; 77; 78; 79; 80;
   81; 82; 83; 84; 85; 86; 87; 88; 89; 90; 97; 98; 99; 100; 101; 102;
   103; 104; 105; 106; 107; 108; 109; 110; 111; 112; 113; 114; 115; 116; 117; 118;
   119; 120; 121; 122; 48; 49; 50; 51; 52; 53; 54; 55; 56; 57].
Definition base64_encode_table : list Z := b64_enc_head ++ [43; 47].
Definition base64url_encode_table : list Z := b64_enc_head ++ [45; 95].
(** base64.c:32-51 *)
Definition base64_decode_table : list Z :=
  [255; 255; 255; 255; 255; 255; 255; 255;
   255; 255; 255; 255; 255; 255; 255; 255;
   255; 255; 255; 255; 255; 255; 255; 255;
   255; 255; 255; 255; 255; 255; 255; 255;
   255; 255; 255; 255; 255; 255; 255; 255;
   255; 255; 255;  62; 255; 255; 255;  63;
    52;  53;  54;  55;  56;  57;  58;  59;
    60;  61; 255; 255; 255; 255; 255; 255;
   255;   0;   1;  2;   3;   4;   5;    6;
     7;   8;   9;  10;  11;  12;  13;  14;
    15;  16;  17;  18;  19;  20;  21;  22;
    23;  24;  25; 255; 255; 255; 255; 255;
   255;  26;  27;  28;  29;  30;  31;  32;
    33;  34;  35;  36;  37;  38;  39;  40;
    41;  42;  43;  44;  45;  46;  47;  48;
    49;  50;  51; 255; 255; 255; 255; 255].
(** base64url.c:32-82 *)
Definition base64url_decode_table : list Z :=
  [255; 255; 255; 255; 255; 255; 255; 255;
   255; 255; 255; 255; 255; 255; 255; 255;
   255; 255; 255; 255; 255; 255; 255; 255;
   255; 255; 255; 255; 255; 255; 255; 255;
   255; 255; 255; 255; 255; 255; 255; 255;
   255; 255; 255; 255; 255;  62; 255; 255;
    52;  53;  54;  55;  56;  57;  58;  59;
    60;  61; 255; 255; 255; 255; 255; 255;
   255;   0;   1;  2;   3;   4;   5;    6;
     7;   8;   9;  10;  11;  12;  13;  14;
    15;  16;  17;  18;  19;  20;  21;  22;
    23;  24;  25; 255; 255; 255; 255;  63;
   255;  26;  27;  28;  29;  30;  31;  32;
    33;  34;  35;  36;  37;  38;  39;  40;
    41;  42;  43;  44;  45;  46;  47;  48;
    49;  50;  51; 255; 255; 255; 255; 255].
(** an access to a table; outside of it is undefined behaviour *)
Definition tab (t : list Z) (i : Z) : res Z :=
  if i <? 0 then UB else match nth_error t (Z.to_nat i) with Some v => Ok v | None => UB end.

(** base64.c:61-91, base64url.c:92-119: the loop and the end; [pad] tells base64.  The output is
    appended to a buffer that grows *)
Fixpoint enc_loop (t : list Z) (pad : bool) (state last : Z) (s : list Z) : res (list Z) :=
  match s with
  | [] =>
    if state =? 1 then do c <- tab t (Z.shiftl (Z.land last 3) 4); Ok (c :: if pad then [61; 61] else [])
    else if state =? 2 then do c <- tab t (Z.shiftl (Z.land last 15) 2); Ok (c :: if pad then [61] else [])
    else Ok []
  | b :: s' =>
    if state =? 0 then
      do c <- tab t (Z.land (Z.shiftr b 2) 63);
      do r <- enc_loop t pad 1 b s'; Ok (c :: r)
    else if state =? 1 then
      do c <- tab t (Z.lor (Z.shiftl (Z.land last 3) 4) (Z.land (Z.shiftr b 4) 15));
      do r <- enc_loop t pad 2 b s'; Ok (c :: r)
    else
      do c <- tab t (Z.lor (Z.shiftl (Z.land last 15) 2) (Z.land (Z.shiftr b 6) 3));
      do d <- tab t (Z.land b 63);
      do r <- enc_loop t pad 0 b s'; Ok (c :: d :: r)
  end.
(** base64.c:53-92 base64_encode *)
Definition base64_encode (s : list Z) : res (list Z) := enc_loop base64_encode_table true 0 0 s.
(** base64url.c:84-120 base64url_encode *)
Definition base64url_encode (s : list Z) : res (list Z) := enc_loop base64url_encode_table false 0 0 s.

(** base64.c:103-131, base64url.c:131-155: [out] are the bytes before out_order, [cur] is
    out[out_order], [room] is the number of bytes reserved; a store outside of them is undefined
    behaviour.  The result is the bytes before out_order (buf_advance) *)
Fixpoint dec_loop (t : list Z) (stop : bool) (room : Z) (order : Z) (out : list Z) (cur : Z) (s : list Z) : res (list Z) :=
  match s with
  | [] => Ok out
  | b :: s' =>
    if stop && (b =? 61) then Ok out
    else
      do c <- tab t b;
      if c =? 255 then Err
      else
        let n := Z.of_nat (length out) in
        let o := Z.land order 3 in
        if o =? 0 then
          if n <? room then dec_loop t stop room (order + 1) out (Z.land (Z.shiftl c 2) 255) s' else UB
        else if o =? 1 then
          if n + 1 <? room then dec_loop t stop room (order + 1) (out ++ [Z.lor cur (Z.land (Z.shiftr c 4) 3)]) (Z.shiftl (Z.land c 15) 4) s' else UB
        else if o =? 2 then
          if n + 1 <? room then dec_loop t stop room (order + 1) (out ++ [Z.lor cur (Z.land (Z.shiftr c 2) 15)]) (Z.land (Z.shiftl (Z.land c 3) 6) 255) s' else UB
        else
          if n <? room then dec_loop t stop room (order + 1) (out ++ [Z.land (Z.lor cur c) 255]) 0 s' else UB
  end.
(** base64.c:97: ceil(size / 4.0) * 3 *)
Definition reserve (s : list Z) : Z := (Z.of_nat (length s) + 3) / 4 * 3.
(** base64.c:94-135 base64_decode *)
Definition base64_decode (s : list Z) : res (list Z) := dec_loop base64_decode_table true (reserve s) 0 [] 0 s.
(** base64url.c:122-159 base64url_decode *)
Definition base64url_decode (s : list Z) : res (list Z) := dec_loop base64url_decode_table false (reserve s) 0 [] 0 s.

(** ** uuid.c *)
(** uuid.c:17-27: the fields of the 16 bytes *)
Record uuid := mkuuid { ua : Z; ub : Z; uc : Z; ud : Z; ue : Z; uf : Z }.
Definition uuid_ok (u : uuid) : Prop :=
  0 <= ua u < 2 ^ 32 /\ 0 <= ub u < 2 ^ 16 /\ 0 <= uc u < 2 ^ 16 /\ 0 <= ud u < 2 ^ 16 /\ 0 <= ue u < 2 ^ 16 /\ 0 <= uf u < 2 ^ 32.
(** a digit of "%x" *)
Definition hex_char (d : Z) : Z := if d <? 10 then 48 + d else 87 + d.
(** "%0nx" of an unsigned value below 16^n *)
Fixpoint fmt_hex (n : nat) (v : Z) : list Z :=
  match n with O => [] | S n' => fmt_hex n' (v / 16) ++ [hex_char (v mod 16)] end.
(** uuid.c:102-110 uuid_get *)
Definition uuid_get (u : uuid) : list Z :=
  fmt_hex 8 (ua u) ++ [45] ++ fmt_hex 4 (ub u) ++ [45] ++ fmt_hex 4 (uc u) ++ [45] ++ fmt_hex 4 (ud u) ++ [45] ++ fmt_hex 4 (ue u) ++ fmt_hex 8 (uf u).
(** uuid.c:112-118 uuid_get_short *)
Definition uuid_get_short (u : uuid) : list Z := fmt_hex 8 (ua u).
(** uuid.c:74-84 *)
Definition hex_val (b : Z) : option Z :=
  if (48 <=? b) && (b <=? 57) then Some (b - 48)
  else if (97 <=? b) && (b <=? 102) then Some (b - 97 + 10)
  else if (65 <=? b) && (b <=? 70) then Some (b - 65 + 10)
  else None.
(** uuid.c:41-91: [i] counts up to 36, value is uint64_t *)
Fixpoint uuid_loop (n : nat) (i : Z) (value : Z) (u : uuid) (s : list Z) : res uuid :=
  match n with
  | O => Ok (mkuuid (ua u) (ub u) (uc u) (ud u) (ue u) (value mod 2 ^ 32))
  | S n' =>
    match s with
    | [] => UB
    | b :: s' =>
      if i =? 8 then if b =? 45 then uuid_loop n' (i + 1) 0 (mkuuid (value mod 2 ^ 32) (ub u) (uc u) (ud u) (ue u) (uf u)) s' else Err
      else if i =? 13 then if b =? 45 then uuid_loop n' (i + 1) 0 (mkuuid (ua u) (value mod 2 ^ 16) (uc u) (ud u) (ue u) (uf u)) s' else Err
      else if i =? 18 then if b =? 45 then uuid_loop n' (i + 1) 0 (mkuuid (ua u) (ub u) (value mod 2 ^ 16) (ud u) (ue u) (uf u)) s' else Err
      else if i =? 23 then if b =? 45 then uuid_loop n' (i + 1) 0 (mkuuid (ua u) (ub u) (uc u) (value mod 2 ^ 16) (ue u) (uf u)) s' else Err
      else
        let '(value, u) := if i =? 28 then (0, mkuuid (ua u) (ub u) (uc u) (ud u) (value mod 2 ^ 16) (uf u)) else (value, u) in
        match hex_val b with
        | None => Err
        | Some d => uuid_loop n' (i + 1) (Z.lor (Z.shiftl value 4 mod 2 ^ 64) (Z.land d 15)) u s'
        end
    end
  end.
(** uuid.c:29-92 uuid_set_nothrow, 94-100 uuid_set; the fields before are arbitrary *)
Definition uuid_set (u : uuid) (s : list Z) : res uuid :=
  if Z.of_nat (length s) <? 36 then Err else uuid_loop 36 0 0 u s.
(** uuid.h:18-22, 37-44: the two 64-bit halves in memory and their order *)
Definition uuid_hi (u : uuid) : Z := le_dec (le_enc 4 (ua u) ++ le_enc 2 (ub u) ++ le_enc 2 (uc u)).
Definition uuid_lo (u : uuid) : Z := le_dec (le_enc 2 (ud u) ++ le_enc 2 (ue u) ++ le_enc 4 (uf u)).
Definition uuid_compare (a b : uuid) : comparison :=
  match uuid_hi a ?= uuid_hi b with Eq => uuid_lo a ?= uuid_lo b | c => c end.
