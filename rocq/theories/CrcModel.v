(** Model of runtime/lib/crc.c: the checksum of WAL records and storage regions. *)
From Verif Require Import Base CrcTables.
Local Open Scope Z_scope.

Definition tab (t : list Z) (i : Z) : Z := nth (Z.to_nat (Z.land i 255)) t 0.

(** crc.c:336, 362: one byte.  [*p_buf] is a signed char: the sign extension is cut by the
    mask 0xFF *)
Definition crc_byte (crc b : Z) : Z := Z.lxor (tab crc_o32 (Z.lxor crc b)) (Z.shiftr crc 8).
Definition crc_bytes (crc : Z) (l : list Z) : Z := fold_left crc_byte l crc.

(** crc.c:341-358: eight bytes at once *)
Definition slice8 (crc : Z) (l : list Z) : Z :=
  let crc := Z.lxor crc (le_dec (firstn 4 l)) in
  let p := le_dec (firstn 4 (skipn 4 l)) in
  let term1 := Z.lxor (tab crc_o88 crc) (tab crc_o80 (Z.shiftr crc 8)) in
  let term2 := Z.shiftr crc 16 in
  let crc := Z.lxor (Z.lxor term1 (tab crc_o72 term2)) (tab crc_o64 (Z.shiftr term2 8)) in
  let term1 := Z.lxor (tab crc_o56 p) (tab crc_o48 (Z.shiftr p 8)) in
  let term2 := Z.shiftr p 16 in
  Z.lxor (Z.lxor (Z.lxor crc term1) (tab crc_o40 term2)) (tab crc_o32 (Z.shiftr term2 8)).
Fixpoint slices (n : nat) (crc : Z) (l : list Z) : Z * list Z :=
  match n with
  | O => (crc, l)
  | S n' => slices n' (slice8 crc (firstn 8 l)) (skipn 8 l)
  end.
(** crc.c:326-365 crc32; [addr] is the address of the buffer: the loop first aligns it *)
Definition crc32 (addr : Z) (crc : Z) (buf : list Z) : Z :=
  let initial := Nat.min (length buf) (Z.to_nat (Z.land (4 - addr) 3)) in
  let crc := crc_bytes crc (firstn initial buf) in
  let buf := skipn initial buf in
  let '(crc, rest) := slices (length buf / 8) crc buf in
  crc_bytes crc rest.

(** ** the CRC32 instruction of SSE 4.2
    Intel SDM volume 2A, CRC32: division by the polynomial 0x11EDC6F41 over reflected bits;
    one bit of the division *)
Definition crc_poly : Z := 2197175160. (* 0x82F63B78, 0x1EDC6F41 reflected *)
Definition bit_step (c : Z) : Z := if Z.odd c then Z.lxor (Z.shiftr c 1) crc_poly else Z.shiftr c 1.
Definition bit_steps (n : nat) (c : Z) : Z := Nat.iter n bit_step c.
(** CRC32 r32, r/m8 and CRC32 r64, r/m64 *)
Definition insn_u8 (crc b : Z) : Z := bit_steps 8 (Z.lxor crc b).
Definition insn_u64 (crc q : Z) : Z := bit_steps 64 (Z.lxor crc q).
(** crc.c:405-423 crc32_sse *)
Fixpoint sse_words (n : nat) (crc : Z) (l : list Z) : Z * list Z :=
  match n with
  | O => (crc, l)
  | S n' => sse_words n' (insn_u64 crc (le_dec (firstn 8 l))) (skipn 8 l)
  end.
Definition crc32_sse (crc : Z) (buf : list Z) : Z :=
  let '(crc, rest) := sse_words (length buf / 8) crc buf in
  fold_left insn_u8 rest crc.
