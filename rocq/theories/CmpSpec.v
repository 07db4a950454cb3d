(** Specification of the MessagePack codec: the wire format (the MessagePack format specification), and
    what it means for a writer to emit bytes and for a reader to accept them. *)
From Coq Require Import ZArith List Bool.
From Verif Require Import CBase Buf CmpModel.
Import ListNotations.
Local Open Scope Z_scope.

(** [k] bytes of [v], most significant first. *)
Fixpoint be (k : nat) (v : Z) : list Z :=
  match k with O => [] | S k => (v / 256 ^ Z.of_nat k) mod 256 :: be k v end.

(** All the encodings of an integer. *)
Inductive int_encoding (v : Z) : list Z -> Prop :=
| ie_pos : 0 <= v <= 127 -> int_encoding v [v]
| ie_neg : -32 <= v < 0 -> int_encoding v [256 + v]
| ie_u8 : 0 <= v < 2 ^ 8 -> int_encoding v (0xCC :: be 1 v)
| ie_u16 : 0 <= v < 2 ^ 16 -> int_encoding v (0xCD :: be 2 v)
| ie_u32 : 0 <= v < 2 ^ 32 -> int_encoding v (0xCE :: be 4 v)
| ie_u64 : 0 <= v < 2 ^ 64 -> int_encoding v (0xCF :: be 8 v)
| ie_s8 : - 2 ^ 7 <= v < 2 ^ 7 -> int_encoding v (0xD0 :: be 1 v)
| ie_s16 : - 2 ^ 15 <= v < 2 ^ 15 -> int_encoding v (0xD1 :: be 2 v)
| ie_s32 : - 2 ^ 31 <= v < 2 ^ 31 -> int_encoding v (0xD2 :: be 4 v)
| ie_s64 : - 2 ^ 63 <= v < 2 ^ 63 -> int_encoding v (0xD3 :: be 8 v).

(** Headers of strings, binaries, arrays, maps and extensions of [n] bytes or elements. *)
Inductive str_header (n : Z) : list Z -> Prop :=
| sh_fix : 0 <= n < 32 -> str_header n [0xA0 + n]
| sh_8 : 0 <= n < 2 ^ 8 -> str_header n (0xD9 :: be 1 n)
| sh_16 : 0 <= n < 2 ^ 16 -> str_header n (0xDA :: be 2 n)
| sh_32 : 0 <= n < 2 ^ 32 -> str_header n (0xDB :: be 4 n).
Inductive bin_header (n : Z) : list Z -> Prop :=
| bh_8 : 0 <= n < 2 ^ 8 -> bin_header n (0xC4 :: be 1 n)
| bh_16 : 0 <= n < 2 ^ 16 -> bin_header n (0xC5 :: be 2 n)
| bh_32 : 0 <= n < 2 ^ 32 -> bin_header n (0xC6 :: be 4 n).
Inductive array_header (n : Z) : list Z -> Prop :=
| ah_fix : 0 <= n < 16 -> array_header n [0x90 + n]
| ah_16 : 0 <= n < 2 ^ 16 -> array_header n (0xDC :: be 2 n)
| ah_32 : 0 <= n < 2 ^ 32 -> array_header n (0xDD :: be 4 n).
Inductive map_header (n : Z) : list Z -> Prop :=
| mh_fix : 0 <= n < 16 -> map_header n [0x80 + n]
| mh_16 : 0 <= n < 2 ^ 16 -> map_header n (0xDE :: be 2 n)
| mh_32 : 0 <= n < 2 ^ 32 -> map_header n (0xDF :: be 4 n).
Inductive ext_header (t n : Z) : list Z -> Prop :=
| eh_1 : n = 1 -> ext_header t n (0xD4 :: be 1 t)
| eh_2 : n = 2 -> ext_header t n (0xD5 :: be 1 t)
| eh_4 : n = 4 -> ext_header t n (0xD6 :: be 1 t)
| eh_8 : n = 8 -> ext_header t n (0xD7 :: be 1 t)
| eh_16 : n = 16 -> ext_header t n (0xD8 :: be 1 t)
| eh_x8 : 0 <= n < 2 ^ 8 -> ext_header t n (0xC7 :: be 1 n ++ be 1 t)
| eh_x16 : 0 <= n < 2 ^ 16 -> ext_header t n (0xC8 :: be 2 n ++ be 1 t)
| eh_x32 : 0 <= n < 2 ^ 32 -> ext_header t n (0xC9 :: be 4 n ++ be 1 t).

(** [bs] is the shortest of the encodings [enc]. *)
Definition shortest (enc : list Z -> Prop) (bs : list Z) : Prop :=
  enc bs /\ forall bs', enc bs' -> blen bs <= blen bs'.

(** A writer emits [bs]: in every writable context with enough room left, it succeeds, replaces exactly
    the bytes at the current position by [bs], and moves the position after them. *)
Definition emits (W : M unit) (bs : list Z) : Prop :=
  forall pre old post c,
    mem c = pre ++ old ++ post -> blen old = blen bs -> index c = blen pre ->
    size c = blen (mem c) -> size c < 2 ^ 32 -> ro c = false ->
    W c = Ok tt (mkctx (pre ++ bs ++ post) (size c) (blen pre + blen bs) false (err c)).

(** A reader accepts [bs] as [v]: whatever comes before and after [bs] in the buffer, it returns [v] and
    consumes exactly [bs]. *)
Definition accepts {A} (R : M A) (bs : list Z) (v : A) : Prop :=
  forall pre post c,
    mem c = pre ++ bs ++ post -> index c = blen pre ->
    size c = blen (mem c) -> size c < 2 ^ 32 ->
    R c = Ok v (mkctx (mem c) (size c) (blen pre + blen bs) (ro c) (err c)).

(** [v] written by [W] is read back by [R]. *)
Definition round_trip {A} (W : M unit) (R : M A) (v : A) : Prop :=
  exists bs, bs <> [] /\ emits W bs /\ accepts R bs v.

(** A context as made by the initialisation functions, and any position in it. [room] bounds what a caller
    may ask for so that positions do not wrap around the 32 bits of a size. *)
Definition sane (room : Z) (c : ctx) : Prop :=
  size c = blen (mem c) /\ 0 <= index c <= size c /\ size c + room < 2 ^ 32.

(** An operation stays inside: it never leaves the buffer, the position only moves forward inside it, and
    no byte outside of the span it moved over changes. *)
Definition stays_inside {A} (room : Z) (m : M A) : Prop :=
  forall c, sane room c ->
    let inside c' :=
      size c' = size c /\ ro c' = ro c /\ length (mem c') = length (mem c) /\
      index c <= index c' <= size c' /\
      firstn (Z.to_nat (index c)) (mem c') = firstn (Z.to_nat (index c)) (mem c) /\
      skipn (Z.to_nat (index c')) (mem c') = skipn (Z.to_nat (index c')) (mem c) in
    match m c with UB => False | Fail c' => inside c' | Ok _ c' => inside c' end.

(** Objects: what each type may hold, and its bytes on the wire. *)
Definition obj_ok (o : obj) : Prop :=
  let v := oval o in
  let range lo hi := lo <= v < hi /\ oext o = 0 in
  let ext n := 0 <= v < n /\ - 2 ^ 7 <= oext o < 2 ^ 7 in
  let fixext n := v = n /\ - 2 ^ 7 <= oext o < 2 ^ 7 in
  match oty o with
  | POSITIVE_FIXNUM => range 0 128
  | NEGATIVE_FIXNUM => range (-32) 0
  | FIXMAP | FIXARRAY => range 0 16
  | FIXSTR => range 0 32
  | NIL => range 0 1
  | BOOLEAN => range 0 2
  | BIN8 | STR8 | UINT8 => range 0 (2 ^ 8)
  | BIN16 | STR16 | ARRAY16 | MAP16 | UINT16 => range 0 (2 ^ 16)
  | BIN32 | STR32 | ARRAY32 | MAP32 | UINT32 | FLOAT => range 0 (2 ^ 32)
  | UINT64 | DOUBLE => range 0 (2 ^ 64)
  | SINT8 => range (- 2 ^ 7) (2 ^ 7)
  | SINT16 => range (- 2 ^ 15) (2 ^ 15)
  | SINT32 => range (- 2 ^ 31) (2 ^ 31)
  | SINT64 => range (- 2 ^ 63) (2 ^ 63)
  | EXT8 => ext (2 ^ 8)
  | EXT16 => ext (2 ^ 16)
  | EXT32 => ext (2 ^ 32)
  | FIXEXT1 => fixext 1 | FIXEXT2 => fixext 2 | FIXEXT4 => fixext 4 | FIXEXT8 => fixext 8 | FIXEXT16 => fixext 16
  end.

Definition obj_bytes (o : obj) : list Z :=
  let v := oval o in
  match oty o with
  | POSITIVE_FIXNUM => [v]
  | NEGATIVE_FIXNUM => [256 + v]
  | FIXMAP => [0x80 + v]
  | FIXARRAY => [0x90 + v]
  | FIXSTR => [0xA0 + v]
  | NIL => [0xC0]
  | BOOLEAN => [0xC2 + v]
  | BIN8 => 0xC4 :: be 1 v
  | BIN16 => 0xC5 :: be 2 v
  | BIN32 => 0xC6 :: be 4 v
  | EXT8 => 0xC7 :: be 1 v ++ be 1 (oext o)
  | EXT16 => 0xC8 :: be 2 v ++ be 1 (oext o)
  | EXT32 => 0xC9 :: be 4 v ++ be 1 (oext o)
  | FLOAT => 0xCA :: be 4 v
  | DOUBLE => 0xCB :: be 8 v
  | UINT8 => 0xCC :: be 1 v
  | UINT16 => 0xCD :: be 2 v
  | UINT32 => 0xCE :: be 4 v
  | UINT64 => 0xCF :: be 8 v
  | SINT8 => 0xD0 :: be 1 v
  | SINT16 => 0xD1 :: be 2 v
  | SINT32 => 0xD2 :: be 4 v
  | SINT64 => 0xD3 :: be 8 v
  | FIXEXT1 => 0xD4 :: be 1 (oext o)
  | FIXEXT2 => 0xD5 :: be 1 (oext o)
  | FIXEXT4 => 0xD6 :: be 1 (oext o)
  | FIXEXT8 => 0xD7 :: be 1 (oext o)
  | FIXEXT16 => 0xD8 :: be 1 (oext o)
  | STR8 => 0xD9 :: be 1 v
  | STR16 => 0xDA :: be 2 v
  | STR32 => 0xDB :: be 4 v
  | ARRAY16 => 0xDC :: be 2 v
  | ARRAY32 => 0xDD :: be 4 v
  | MAP16 => 0xDE :: be 2 v
  | MAP32 => 0xDF :: be 4 v
  end.

(** Number of bytes after a marker, from the table of formats of the MessagePack specification. *)
Definition follow (t : Z) : Z :=
  let isin l := existsb (Z.eqb t) l in
  if isin [0xC4; 0xCC; 0xD0; 0xD9; 0xD4; 0xD5; 0xD6; 0xD7; 0xD8] then 1
  else if isin [0xC5; 0xCD; 0xD1; 0xDA; 0xDC; 0xDE; 0xC7] then 2
  else if isin [0xC8] then 3
  else if isin [0xC6; 0xCA; 0xCE; 0xD2; 0xDB; 0xDD; 0xDF] then 4
  else if isin [0xC9] then 5
  else if isin [0xCB; 0xCF; 0xD3] then 8
  else 0.
