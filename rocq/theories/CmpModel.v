(** Model of the MessagePack codec lib/cmp/cmp.c over the memory accessor
    lib/cmp_mem_access/cmp_mem_access.c.

    A call of the codec is a function from the context to an outcome: [Ok v c] when the C function
    returns true (out parameters are [v]), [Fail c] when it returns false (out parameters are then not
    modelled), [UB] when it accesses memory outside of the buffers. [size_t] has 32 bits (ARM
    Cortex-M), integers are little-endian in memory (the targets are; the big-endian branch of [be16]
    and the like, which does nothing, is not modelled). Floats are their bit patterns. *)
From Coq Require Import ZArith List Bool.
From Verif Require Import CBase Buf.
Import ListNotations.
Local Open Scope Z_scope.

(** cmp.h 71-76 (cmp_ctx_t) and cmp_mem_access.h (cmp_mem_access_t). [mem] is the memory block handed
    to the initialisation function, [size] the size announced, [ro] which writer is installed. *)
Record ctx := mkctx { mem : list Z; size : Z; index : Z; ro : bool; err : Z }.

Inductive out (A : Type) : Type :=
| UB
| Fail (c : ctx)
| Ok (a : A) (c : ctx).
Arguments UB {A}.
Arguments Fail {A} c.
Arguments Ok {A} a c.

Definition M (A : Type) := ctx -> out A.
Definition ret {A} (a : A) : M A := fun c => Ok a c.
Definition mbind {A B} (m : M A) (f : A -> M B) : M B :=
  fun c => match m c with UB => UB | Fail c => Fail c | Ok a c => f a c end.
Notation "'let!' x := m 'in' f" := (mbind m (fun x => f)) (at level 200, x name, m at level 100, f at level 200).
Notation "m ;; f" := (mbind m (fun _ => f)) (at level 61, right associativity).

Definition set_err (c : ctx) (e : Z) : ctx := mkctx (mem c) (size c) (index c) (ro c) e.
Definition set_index (c : ctx) (i : Z) : ctx := mkctx (mem c) (size c) i (ro c) (err c).

(** [ctx->error = e; return false;] *)
Definition fail {A} (e : Z) : M A := fun c => Fail (set_err c e).
(** [if (!m) { ctx->error = e; return false; }] *)
Definition or_err {A} (m : M A) (e : Z) : M A :=
  fun c => match m c with Fail c => Fail (set_err c e) | r => r end.
Notation "m '!!' e" := (or_err m e) (at level 60).

(** cmp_mem_access.c 4-14 (cmp_mem_reader): returns the bytes copied to [data]. *)
Definition rd (len : Z) : M (list Z) := fun c =>
  if u32 (index c + len) <=? size c then
    match bslice (mem c) (index c) len with
    | Some l => Ok l (set_index c (u32 (index c + len)))
    | None => UB
    end
  else Fail c.

(** cmp_mem_access.c 16-26 (cmp_mem_writer) and 28-34 (cmp_mem_writer_ro), the result converted to
    bool: a write of no byte returns 0, which is false. *)
Definition wr (l : list Z) : M unit := fun c =>
  if ro c then Fail c
  else if u32 (index c + blen l) <=? size c then
    match bset_all (mem c) (index c) l with
    | Some m => let c := mkctx m (size c) (u32 (index c + blen l)) (ro c) (err c) in
                if blen l =? 0 then Fail c else Ok tt c
    | None => UB
    end
  else Fail c.

(** [ctx->write(ctx, data, n)] where [data] is a buffer of the caller. *)
Definition wr_data (data : list Z) (n : Z) : M unit := fun c =>
  if n <=? blen data then wr (firstn (Z.to_nat n) data) c else UB.

(** [ctx->read(ctx, dst, n)] where [dst] is a buffer of the caller: returns the new buffer. *)
Definition rd_data (dst : list Z) (n : Z) : M (list Z) := fun c =>
  match rd n c with
  | Ok l c => match bset_all dst 0 l with Some d => Ok d c | None => UB end
  | Fail c => Fail c
  | UB => UB
  end.

(** cmp_mem_access.c 36-42 and 44-50. *)
Definition cmp_mem_access_init (buf : list Z) (sz : Z) : ctx := mkctx buf sz 0 false 0.
Definition cmp_mem_access_ro_init (buf : list Z) (sz : Z) : ctx := mkctx buf sz 0 true 0.
(** cmp_mem_access.c 52-55, 57-60, 67-74. *)
Definition cmp_mem_access_get_pos (c : ctx) : Z := index c.
Definition cmp_mem_access_set_pos (c : ctx) (p : Z) : ctx := set_index c p.
Definition cmp_mem_access_pos_is_valid (c : ctx) (p : Z) : bool := if size c <=? p then false else true.

(** Memory image of a [k]-byte integer, least significant byte first, and back. *)
Fixpoint le_bytes (k : nat) (x : Z) : list Z :=
  match k with O => [] | S k => x mod 256 :: le_bytes k (x / 256) end.
Fixpoint le_val (l : list Z) : Z :=
  match l with [] => 0 | b :: l => b + 256 * le_val l end.

(** cmp.c 97-110. *)
Definition be16 (x : Z) : Z :=
  match le_bytes 2 x with [b0; b1] => le_val [b1; b0] | _ => 0 end.
(** cmp.c 112-129 (be32) and 158-175 (befloat, on the bit pattern). *)
Definition be32 (x : Z) : Z :=
  match le_bytes 4 x with [b0; b1; b2; b3] => le_val [b3; b2; b1; b0] | _ => 0 end.
(** cmp.c 131-156 (be64) and 177-202 (bedouble, on the bit pattern). *)
Definition be64 (x : Z) : Z :=
  match le_bytes 8 x with
  | [b0; b1; b2; b3; b4; b5; b6; b7] => le_val [b7; b6; b5; b4; b3; b2; b1; b0] | _ => 0 end.

(** cmp.c 10-47. *)
Definition FIXMAP_MARKER := 0x80.
Definition FIXARRAY_MARKER := 0x90.
Definition FIXSTR_MARKER := 0xA0.
Definition NIL_MARKER := 0xC0.
Definition FALSE_MARKER := 0xC2.
Definition TRUE_MARKER := 0xC3.
Definition BIN8_MARKER := 0xC4.
Definition BIN16_MARKER := 0xC5.
Definition BIN32_MARKER := 0xC6.
Definition EXT8_MARKER := 0xC7.
Definition EXT16_MARKER := 0xC8.
Definition EXT32_MARKER := 0xC9.
Definition FLOAT_MARKER := 0xCA.
Definition DOUBLE_MARKER := 0xCB.
Definition U8_MARKER := 0xCC.
Definition U16_MARKER := 0xCD.
Definition U32_MARKER := 0xCE.
Definition U64_MARKER := 0xCF.
Definition S8_MARKER := 0xD0.
Definition S16_MARKER := 0xD1.
Definition S32_MARKER := 0xD2.
Definition S64_MARKER := 0xD3.
Definition FIXEXT1_MARKER := 0xD4.
Definition FIXEXT2_MARKER := 0xD5.
Definition FIXEXT4_MARKER := 0xD6.
Definition FIXEXT8_MARKER := 0xD7.
Definition FIXEXT16_MARKER := 0xD8.
Definition STR8_MARKER := 0xD9.
Definition STR16_MARKER := 0xDA.
Definition STR32_MARKER := 0xDB.
Definition ARRAY16_MARKER := 0xDC.
Definition ARRAY32_MARKER := 0xDD.
Definition MAP16_MARKER := 0xDE.
Definition MAP32_MARKER := 0xDF.
Definition NEGATIVE_FIXNUM_MARKER := 0xE0.
(** cmp.c 49-53. *)
Definition FIXARRAY_SIZE := 0xF.
Definition FIXMAP_SIZE := 0xF.
Definition FIXSTR_SIZE := 0x1F.
(** cmp.c 55-73. *)
Definition ERROR_NONE := 0.
Definition STR_DATA_LENGTH_TOO_LONG_ERROR := 1.
Definition BIN_DATA_LENGTH_TOO_LONG_ERROR := 2.
Definition ARRAY_LENGTH_TOO_LONG_ERROR := 3.
Definition MAP_LENGTH_TOO_LONG_ERROR := 4.
Definition INPUT_VALUE_TOO_LARGE_ERROR := 5.
Definition FIXED_VALUE_WRITING_ERROR := 6.
Definition TYPE_MARKER_READING_ERROR := 7.
Definition TYPE_MARKER_WRITING_ERROR := 8.
Definition DATA_READING_ERROR := 9.
Definition DATA_WRITING_ERROR := 10.
Definition EXT_TYPE_READING_ERROR := 11.
Definition EXT_TYPE_WRITING_ERROR := 12.
Definition INVALID_TYPE_ERROR := 13.
Definition LENGTH_READING_ERROR := 14.
Definition LENGTH_WRITING_ERROR := 15.

(** cmp.c 204-207 and 214-222. *)
Definition read_byte : M Z := let! l := rd 1 in ret (le_val l).
Definition read_type_marker : M Z := read_byte !! TYPE_MARKER_READING_ERROR.
(** cmp.c 209-212, 224-232, 234-242. *)
Definition write_byte (x : Z) : M unit := wr (le_bytes 1 x).
Definition write_type_marker (x : Z) : M unit := write_byte x !! TYPE_MARKER_WRITING_ERROR.
Definition write_fixed_value (x : Z) : M unit := write_byte x !! FIXED_VALUE_WRITING_ERROR.

(** Writers. The parameters of the C functions are converted at the call, as C does.
    cmp.c 271-279. *)
Definition cmp_write_pfix (c : Z) : M unit :=
  if c <=? 0x7F then write_fixed_value c else fail INPUT_VALUE_TOO_LARGE_ERROR.
(** cmp.c 281-289. *)
Definition cmp_write_nfix (c : Z) : M unit :=
  if (-32 <=? c) && (c <=? -1) then write_fixed_value (u8 c) else fail INPUT_VALUE_TOO_LARGE_ERROR.
(** cmp.c 291-302. *)
Definition cmp_write_sfix (c : Z) : M unit :=
  if 0 <=? c then cmp_write_pfix (u8 c)
  else if (-32 <=? c) && (c <=? -1) then cmp_write_nfix c
  else fail INPUT_VALUE_TOO_LARGE_ERROR.
(** cmp.c 304-311, 313-322, 324-333, 335-344: the failure of the second write leaves the error code. *)
Definition cmp_write_s8 (c : Z) : M unit := write_type_marker S8_MARKER ;; wr (le_bytes 1 c).
Definition cmp_write_s16 (s : Z) : M unit := write_type_marker S16_MARKER ;; wr (le_bytes 2 (be16 (u16 s))).
Definition cmp_write_s32 (i : Z) : M unit := write_type_marker S32_MARKER ;; wr (le_bytes 4 (be32 (u32 i))).
Definition cmp_write_s64 (l : Z) : M unit := write_type_marker S64_MARKER ;; wr (le_bytes 8 (be64 (u64 l))).
(** cmp.c 367-370, 372-379, 381-390, 392-401, 403-412. *)
Definition cmp_write_ufix (c : Z) : M unit := cmp_write_pfix c.
Definition cmp_write_u8 (c : Z) : M unit := write_type_marker U8_MARKER ;; wr (le_bytes 1 c).
Definition cmp_write_u16 (s : Z) : M unit := write_type_marker U16_MARKER ;; wr (le_bytes 2 (be16 s)).
Definition cmp_write_u32 (i : Z) : M unit := write_type_marker U32_MARKER ;; wr (le_bytes 4 (be32 i)).
Definition cmp_write_u64 (l : Z) : M unit := write_type_marker U64_MARKER ;; wr (le_bytes 8 (be64 l)).
(** cmp.c 414-430. *)
Definition cmp_write_uint (u : Z) : M unit :=
  if u <=? 0x7F then cmp_write_pfix (CBase.u8 u)
  else if u <=? 0xFF then cmp_write_u8 (CBase.u8 u)
  else if u <=? 0xFFFF then cmp_write_u16 (CBase.u16 u)
  else if u <=? 0xFFFFFFFF then cmp_write_u32 (CBase.u32 u)
  else cmp_write_u64 u.
(** cmp.c 346-365. *)
Definition cmp_write_sint (d : Z) : M unit :=
  if 0 <=? d then cmp_write_uint (u64 d)
  else if -32 <=? d then cmp_write_nfix (s8 d)
  else if -128 <=? d then cmp_write_s8 (s8 d)
  else if -32768 <=? d then cmp_write_s16 (s16 d)
  else if -2147483647 - 1 <=? d then cmp_write_s32 (s32 d)
  else cmp_write_s64 d.
(** cmp.c 432-441, 443-452, on bit patterns. *)
Definition cmp_write_float (f : Z) : M unit := write_type_marker FLOAT_MARKER ;; wr (le_bytes 4 (be32 f)).
Definition cmp_write_double (d : Z) : M unit := write_type_marker DOUBLE_MARKER ;; wr (le_bytes 8 (be64 d)).
(** cmp.c 454-457, 459-462, 464-467, 469-476, 478-485. *)
Definition cmp_write_nil : M unit := write_type_marker NIL_MARKER.
Definition cmp_write_true : M unit := write_type_marker TRUE_MARKER.
Definition cmp_write_false : M unit := write_type_marker FALSE_MARKER.
Definition cmp_write_bool (b : bool) : M unit := if b then cmp_write_true else cmp_write_false.
Definition cmp_write_u8_as_bool (b : Z) : M unit := if b =? 0 then cmp_write_false else cmp_write_true.

(** [if (size == 0) return true; if (ctx->write(ctx, data, size)) return true;
    ctx->error = DATA_WRITING_ERROR; return false;]
    which ends the string and binary writers (cmp.c 503-512, 535-544, 569-578, 603-612, 665-674, 699-708,
    733-742). *)
Definition write_payload (data : list Z) (n : Z) : M unit :=
  if n =? 0 then ret tt else wr_data data n !! DATA_WRITING_ERROR.

(** cmp.c 487-495, 497-513. *)
Definition cmp_write_fixstr_marker (n : Z) : M unit :=
  if n <=? FIXSTR_SIZE then write_fixed_value (Z.lor FIXSTR_MARKER n) else fail INPUT_VALUE_TOO_LARGE_ERROR.
Definition cmp_write_fixstr (data : list Z) (n : Z) : M unit := cmp_write_fixstr_marker n ;; write_payload data n.
(** cmp.c 515-527, 529-545. *)
Definition cmp_write_str8_marker (n : Z) : M unit :=
  write_type_marker STR8_MARKER ;; wr (le_bytes 1 n) !! LENGTH_WRITING_ERROR.
Definition cmp_write_str8 (data : list Z) (n : Z) : M unit := cmp_write_str8_marker n ;; write_payload data n.
(** cmp.c 547-561, 563-579. *)
Definition cmp_write_str16_marker (n : Z) : M unit :=
  write_type_marker STR16_MARKER ;; wr (le_bytes 2 (be16 n)) !! LENGTH_WRITING_ERROR.
Definition cmp_write_str16 (data : list Z) (n : Z) : M unit := cmp_write_str16_marker n ;; write_payload data n.
(** cmp.c 581-595, 597-613. *)
Definition cmp_write_str32_marker (n : Z) : M unit :=
  write_type_marker STR32_MARKER ;; wr (le_bytes 4 (be32 n)) !! LENGTH_WRITING_ERROR.
Definition cmp_write_str32 (data : list Z) (n : Z) : M unit := cmp_write_str32_marker n ;; write_payload data n.
(** cmp.c 615-628. *)
Definition cmp_write_str_marker (n : Z) : M unit :=
  if n <=? FIXSTR_SIZE then cmp_write_fixstr_marker (u8 n)
  else if n <=? 0xFF then cmp_write_str8_marker (u8 n)
  else if n <=? 0xFFFF then cmp_write_str16_marker (u16 n)
  else cmp_write_str32_marker n.
(** cmp.c 630-643. *)
Definition cmp_write_str (data : list Z) (n : Z) : M unit :=
  if n <=? FIXSTR_SIZE then cmp_write_fixstr data (u8 n)
  else if n <=? 0xFF then cmp_write_str8 data (u8 n)
  else if n <=? 0xFFFF then cmp_write_str16 data (u16 n)
  else cmp_write_str32 data n.

(** cmp.c 645-657, 659-675. *)
Definition cmp_write_bin8_marker (n : Z) : M unit :=
  write_type_marker BIN8_MARKER ;; wr (le_bytes 1 n) !! LENGTH_WRITING_ERROR.
Definition cmp_write_bin8 (data : list Z) (n : Z) : M unit := cmp_write_bin8_marker n ;; write_payload data n.
(** cmp.c 677-691, 693-709. *)
Definition cmp_write_bin16_marker (n : Z) : M unit :=
  write_type_marker BIN16_MARKER ;; wr (le_bytes 2 (be16 n)) !! LENGTH_WRITING_ERROR.
Definition cmp_write_bin16 (data : list Z) (n : Z) : M unit := cmp_write_bin16_marker n ;; write_payload data n.
(** cmp.c 711-725, 727-743. *)
Definition cmp_write_bin32_marker (n : Z) : M unit :=
  write_type_marker BIN32_MARKER ;; wr (le_bytes 4 (be32 n)) !! LENGTH_WRITING_ERROR.
Definition cmp_write_bin32 (data : list Z) (n : Z) : M unit := cmp_write_bin32_marker n ;; write_payload data n.
(** cmp.c 745-755. *)
Definition cmp_write_bin_marker (n : Z) : M unit :=
  if n <=? 0xFF then cmp_write_bin8_marker (u8 n)
  else if n <=? 0xFFFF then cmp_write_bin16_marker (u16 n)
  else cmp_write_bin32_marker n.
(** cmp.c 757-767. *)
Definition cmp_write_bin (data : list Z) (n : Z) : M unit :=
  if n <=? 0xFF then cmp_write_bin8 data (u8 n)
  else if n <=? 0xFFFF then cmp_write_bin16 data (u16 n)
  else cmp_write_bin32 data n.

(** cmp.c 769-777, 779-793, 795-809. *)
Definition cmp_write_fixarray (n : Z) : M unit :=
  if n <=? FIXARRAY_SIZE then write_fixed_value (Z.lor FIXARRAY_MARKER n) else fail INPUT_VALUE_TOO_LARGE_ERROR.
Definition cmp_write_array16 (n : Z) : M unit :=
  write_type_marker ARRAY16_MARKER ;; wr (le_bytes 2 (be16 n)) !! LENGTH_WRITING_ERROR.
Definition cmp_write_array32 (n : Z) : M unit :=
  write_type_marker ARRAY32_MARKER ;; wr (le_bytes 4 (be32 n)) !! LENGTH_WRITING_ERROR.
(** cmp.c 811-821. *)
Definition cmp_write_array (n : Z) : M unit :=
  if n <=? FIXARRAY_SIZE then cmp_write_fixarray (u8 n)
  else if n <=? 0xFFFF then cmp_write_array16 (u16 n)
  else cmp_write_array32 n.

(** cmp.c 823-831, 833-847, 849-863. *)
Definition cmp_write_fixmap (n : Z) : M unit :=
  if n <=? FIXMAP_SIZE then write_fixed_value (Z.lor FIXMAP_MARKER n) else fail INPUT_VALUE_TOO_LARGE_ERROR.
Definition cmp_write_map16 (n : Z) : M unit :=
  write_type_marker MAP16_MARKER ;; wr (le_bytes 2 (be16 n)) !! LENGTH_WRITING_ERROR.
Definition cmp_write_map32 (n : Z) : M unit :=
  write_type_marker MAP32_MARKER ;; wr (le_bytes 4 (be32 n)) !! LENGTH_WRITING_ERROR.
(** cmp.c 865-875. *)
Definition cmp_write_map (n : Z) : M unit :=
  if n <=? FIXMAP_SIZE then cmp_write_fixmap (u8 n)
  else if n <=? 0xFFFF then cmp_write_map16 (u16 n)
  else cmp_write_map32 n.

(** cmp.c 877-889, 891-903. *)
Definition cmp_write_fixext1_marker (tp : Z) : M unit :=
  write_type_marker FIXEXT1_MARKER ;; wr (le_bytes 1 tp) !! EXT_TYPE_WRITING_ERROR.
Definition cmp_write_fixext1 (tp : Z) (data : list Z) : M unit :=
  cmp_write_fixext1_marker tp ;; wr_data data 1 !! DATA_WRITING_ERROR.
(** cmp.c 905-917, 919-931. *)
Definition cmp_write_fixext2_marker (tp : Z) : M unit :=
  write_type_marker FIXEXT2_MARKER ;; wr (le_bytes 1 tp) !! EXT_TYPE_WRITING_ERROR.
Definition cmp_write_fixext2 (tp : Z) (data : list Z) : M unit :=
  cmp_write_fixext2_marker tp ;; wr_data data 2 !! DATA_WRITING_ERROR.
(** cmp.c 933-945, 947-959. *)
Definition cmp_write_fixext4_marker (tp : Z) : M unit :=
  write_type_marker FIXEXT4_MARKER ;; wr (le_bytes 1 tp) !! EXT_TYPE_WRITING_ERROR.
Definition cmp_write_fixext4 (tp : Z) (data : list Z) : M unit :=
  cmp_write_fixext4_marker tp ;; wr_data data 4 !! DATA_WRITING_ERROR.
(** cmp.c 961-973, 975-987. *)
Definition cmp_write_fixext8_marker (tp : Z) : M unit :=
  write_type_marker FIXEXT8_MARKER ;; wr (le_bytes 1 tp) !! EXT_TYPE_WRITING_ERROR.
Definition cmp_write_fixext8 (tp : Z) (data : list Z) : M unit :=
  cmp_write_fixext8_marker tp ;; wr_data data 8 !! DATA_WRITING_ERROR.
(** cmp.c 989-1001, 1003-1015. *)
Definition cmp_write_fixext16_marker (tp : Z) : M unit :=
  write_type_marker FIXEXT16_MARKER ;; wr (le_bytes 1 tp) !! EXT_TYPE_WRITING_ERROR.
Definition cmp_write_fixext16 (tp : Z) (data : list Z) : M unit :=
  cmp_write_fixext16_marker tp ;; wr_data data 16 !! DATA_WRITING_ERROR.
(** cmp.c 1017-1034, 1036-1048: an empty payload fails, the writer returning 0. *)
Definition cmp_write_ext8_marker (tp n : Z) : M unit :=
  write_type_marker EXT8_MARKER ;; wr (le_bytes 1 n) !! LENGTH_WRITING_ERROR ;;
  wr (le_bytes 1 tp) !! EXT_TYPE_WRITING_ERROR.
Definition cmp_write_ext8 (tp n : Z) (data : list Z) : M unit :=
  cmp_write_ext8_marker tp n ;; wr_data data n !! DATA_WRITING_ERROR.
(** cmp.c 1050-1069, 1071-1083: an empty payload fails, the writer returning 0. *)
Definition cmp_write_ext16_marker (tp n : Z) : M unit :=
  write_type_marker EXT16_MARKER ;; wr (le_bytes 2 (be16 n)) !! LENGTH_WRITING_ERROR ;;
  wr (le_bytes 1 tp) !! EXT_TYPE_WRITING_ERROR.
Definition cmp_write_ext16 (tp n : Z) (data : list Z) : M unit :=
  cmp_write_ext16_marker tp n ;; wr_data data n !! DATA_WRITING_ERROR.
(** cmp.c 1085-1104, 1106-1118: an empty payload fails, the writer returning 0. *)
Definition cmp_write_ext32_marker (tp n : Z) : M unit :=
  write_type_marker EXT32_MARKER ;; wr (le_bytes 4 (be32 n)) !! LENGTH_WRITING_ERROR ;;
  wr (le_bytes 1 tp) !! EXT_TYPE_WRITING_ERROR.
Definition cmp_write_ext32 (tp n : Z) (data : list Z) : M unit :=
  cmp_write_ext32_marker tp n ;; wr_data data n !! DATA_WRITING_ERROR.
(** cmp.c 1120-1145. *)
Definition cmp_write_ext_marker (tp n : Z) : M unit :=
  if n =? 1 then cmp_write_fixext1_marker tp
  else if n =? 2 then cmp_write_fixext2_marker tp
  else if n =? 4 then cmp_write_fixext4_marker tp
  else if n =? 8 then cmp_write_fixext8_marker tp
  else if n =? 16 then cmp_write_fixext16_marker tp
  else if n <=? 0xFF then cmp_write_ext8_marker tp (u8 n)
  else if n <=? 0xFFFF then cmp_write_ext16_marker tp (u16 n)
  else cmp_write_ext32_marker tp n.
(** cmp.c 1147-1172. *)
Definition cmp_write_ext (tp n : Z) (data : list Z) : M unit :=
  if n =? 1 then cmp_write_fixext1 tp data
  else if n =? 2 then cmp_write_fixext2 tp data
  else if n =? 4 then cmp_write_fixext4 tp data
  else if n =? 8 then cmp_write_fixext8 tp data
  else if n =? 16 then cmp_write_fixext16 tp data
  else if n <=? 0xFF then cmp_write_ext8 tp (u8 n) data
  else if n <=? 0xFFFF then cmp_write_ext16 tp (u16 n) data
  else cmp_write_ext32 tp n data.

(** Objects. cmp.h 9-45. *)
Inductive otype :=
| POSITIVE_FIXNUM | FIXMAP | FIXARRAY | FIXSTR | NIL | BOOLEAN | BIN8 | BIN16 | BIN32 | EXT8 | EXT16 | EXT32
| FLOAT | DOUBLE | UINT8 | UINT16 | UINT32 | UINT64 | SINT8 | SINT16 | SINT32 | SINT64
| FIXEXT1 | FIXEXT2 | FIXEXT4 | FIXEXT8 | FIXEXT16 | STR8 | STR16 | STR32 | ARRAY16 | ARRAY32 | MAP16 | MAP32
| NEGATIVE_FIXNUM.

(** cmp.h 47-50, 52-69, 78-81. The union is the number last stored in it ([oval]; [ext.size] for an ext),
    reading a member converts it to the type of the member; [oext] is [as.ext.type]. *)
Record obj := mkobj { oty : otype; oval : Z; oext : Z }.
Definition as_u8 (o : obj) := u8 (oval o).
Definition as_u16 (o : obj) := u16 (oval o).
Definition as_u32 (o : obj) := u32 (oval o).
Definition as_u64 (o : obj) := u64 (oval o).
Definition as_s8 (o : obj) := s8 (oval o).
Definition as_s16 (o : obj) := s16 (oval o).
Definition as_s32 (o : obj) := s32 (oval o).
Definition as_s64 (o : obj) := s64 (oval o).
Definition as_bool (o : obj) := negb (oval o =? 0).
Definition ext_type (o : obj) := s8 (oext o).

(** cmp.c 1174-1254. *)
Definition cmp_write_object (o : obj) : M unit :=
  match oty o with
  | POSITIVE_FIXNUM => cmp_write_pfix (as_u8 o)
  | FIXMAP => cmp_write_fixmap (u8 (as_u32 o))
  | FIXARRAY => cmp_write_fixarray (u8 (as_u32 o))
  | FIXSTR => cmp_write_fixstr_marker (u8 (as_u32 o))
  | NIL => cmp_write_nil
  | BOOLEAN => if as_bool o then cmp_write_true else cmp_write_false
  | BIN8 => cmp_write_bin8_marker (u8 (as_u32 o))
  | BIN16 => cmp_write_bin16_marker (u16 (as_u32 o))
  | BIN32 => cmp_write_bin32_marker (as_u32 o)
  | EXT8 => cmp_write_ext8_marker (ext_type o) (u8 (as_u32 o))
  | EXT16 => cmp_write_ext16_marker (ext_type o) (u16 (as_u32 o))
  | EXT32 => cmp_write_ext32_marker (ext_type o) (as_u32 o)
  | FLOAT => cmp_write_float (as_u32 o)
  | DOUBLE => cmp_write_double (as_u64 o)
  | UINT8 => cmp_write_u8 (as_u8 o)
  | UINT16 => cmp_write_u16 (as_u16 o)
  | UINT32 => cmp_write_u32 (as_u32 o)
  | UINT64 => cmp_write_u64 (as_u64 o)
  | SINT8 => cmp_write_s8 (as_s8 o)
  | SINT16 => cmp_write_s16 (as_s16 o)
  | SINT32 => cmp_write_s32 (as_s32 o)
  | SINT64 => cmp_write_s64 (as_s64 o)
  | FIXEXT1 => cmp_write_fixext1_marker (ext_type o)
  | FIXEXT2 => cmp_write_fixext2_marker (ext_type o)
  | FIXEXT4 => cmp_write_fixext4_marker (ext_type o)
  | FIXEXT8 => cmp_write_fixext8_marker (ext_type o)
  | FIXEXT16 => cmp_write_fixext16_marker (ext_type o)
  | STR8 => cmp_write_str8_marker (u8 (as_u32 o))
  | STR16 => cmp_write_str16_marker (u16 (as_u32 o))
  | STR32 => cmp_write_str32_marker (as_u32 o)
  | ARRAY16 => cmp_write_array16 (u16 (as_u32 o))
  | ARRAY32 => cmp_write_array32 (as_u32 o)
  | MAP16 => cmp_write_map16 (u16 (as_u32 o))
  | MAP32 => cmp_write_map32 (as_u32 o)
  | NEGATIVE_FIXNUM => cmp_write_nfix (as_s8 o)
  end.

(** [if (!ctx->read(ctx, &x, sizeof(x))) { ctx->error = e; return false; }] for an integer [x] of [k] bytes
    then the conversion to the host order. *)
Definition rd8 (e : Z) : M Z := let! l := rd 1 !! e in ret (le_val l).
Definition rd16 (e : Z) : M Z := let! l := rd 2 !! e in ret (be16 (le_val l)).
Definition rd32 (e : Z) : M Z := let! l := rd 4 !! e in ret (be32 (le_val l)).
Definition rd64 (e : Z) : M Z := let! l := rd 8 !! e in ret (be64 (le_val l)).

(** cmp.c 2232-2488. *)
Definition cmp_read_object : M obj :=
  let! t := read_type_marker in
  if t <=? 0x7F then ret (mkobj POSITIVE_FIXNUM t 0)
  else if t <=? 0x8F then ret (mkobj FIXMAP (Z.land t FIXMAP_SIZE) 0)
  else if t <=? 0x9F then ret (mkobj FIXARRAY (Z.land t FIXARRAY_SIZE) 0)
  else if t <=? 0xBF then ret (mkobj FIXSTR (Z.land t FIXSTR_SIZE) 0)
  else if t =? NIL_MARKER then ret (mkobj NIL 0 0)
  else if t =? FALSE_MARKER then ret (mkobj BOOLEAN 0 0)
  else if t =? TRUE_MARKER then ret (mkobj BOOLEAN 1 0)
  else if t =? BIN8_MARKER then (let! n := rd8 LENGTH_READING_ERROR in ret (mkobj BIN8 n 0))
  else if t =? BIN16_MARKER then (let! n := rd16 LENGTH_READING_ERROR in ret (mkobj BIN16 n 0))
  else if t =? BIN32_MARKER then (let! n := rd32 LENGTH_READING_ERROR in ret (mkobj BIN32 n 0))
  else if t =? EXT8_MARKER then
    (let! n := rd8 LENGTH_READING_ERROR in let! tp := rd8 EXT_TYPE_READING_ERROR in
     ret (mkobj EXT8 n (s8 tp)))
  else if t =? EXT16_MARKER then
    (let! n := rd16 LENGTH_READING_ERROR in let! tp := rd8 EXT_TYPE_READING_ERROR in
     ret (mkobj EXT16 n (s8 tp)))
  else if t =? EXT32_MARKER then
    (let! n := rd32 LENGTH_READING_ERROR in let! tp := rd8 EXT_TYPE_READING_ERROR in
     ret (mkobj EXT32 n (s8 tp)))
  else if t =? FLOAT_MARKER then (let! x := rd32 DATA_READING_ERROR in ret (mkobj FLOAT x 0))
  else if t =? DOUBLE_MARKER then (let! x := rd64 DATA_READING_ERROR in ret (mkobj DOUBLE x 0))
  else if t =? U8_MARKER then (let! x := rd8 DATA_READING_ERROR in ret (mkobj UINT8 x 0))
  else if t =? U16_MARKER then (let! x := rd16 DATA_READING_ERROR in ret (mkobj UINT16 x 0))
  else if t =? U32_MARKER then (let! x := rd32 DATA_READING_ERROR in ret (mkobj UINT32 x 0))
  else if t =? U64_MARKER then (let! x := rd64 DATA_READING_ERROR in ret (mkobj UINT64 x 0))
  else if t =? S8_MARKER then (let! x := rd8 DATA_READING_ERROR in ret (mkobj SINT8 (s8 x) 0))
  else if t =? S16_MARKER then (let! x := rd16 DATA_READING_ERROR in ret (mkobj SINT16 (s16 x) 0))
  else if t =? S32_MARKER then (let! x := rd32 DATA_READING_ERROR in ret (mkobj SINT32 (s32 x) 0))
  else if t =? S64_MARKER then (let! x := rd64 DATA_READING_ERROR in ret (mkobj SINT64 (s64 x) 0))
  else if t =? FIXEXT1_MARKER then (let! tp := rd8 EXT_TYPE_READING_ERROR in ret (mkobj FIXEXT1 1 (s8 tp)))
  else if t =? FIXEXT2_MARKER then (let! tp := rd8 EXT_TYPE_READING_ERROR in ret (mkobj FIXEXT2 2 (s8 tp)))
  else if t =? FIXEXT4_MARKER then (let! tp := rd8 EXT_TYPE_READING_ERROR in ret (mkobj FIXEXT4 4 (s8 tp)))
  else if t =? FIXEXT8_MARKER then (let! tp := rd8 EXT_TYPE_READING_ERROR in ret (mkobj FIXEXT8 8 (s8 tp)))
  else if t =? FIXEXT16_MARKER then (let! tp := rd8 EXT_TYPE_READING_ERROR in ret (mkobj FIXEXT16 16 (s8 tp)))
  else if t =? STR8_MARKER then (let! n := rd8 DATA_READING_ERROR in ret (mkobj STR8 n 0))
  else if t =? STR16_MARKER then (let! n := rd16 DATA_READING_ERROR in ret (mkobj STR16 n 0))
  else if t =? STR32_MARKER then (let! n := rd32 DATA_READING_ERROR in ret (mkobj STR32 n 0))
  else if t =? ARRAY16_MARKER then (let! n := rd16 DATA_READING_ERROR in ret (mkobj ARRAY16 n 0))
  else if t =? ARRAY32_MARKER then (let! n := rd32 DATA_READING_ERROR in ret (mkobj ARRAY32 n 0))
  else if t =? MAP16_MARKER then (let! n := rd16 DATA_READING_ERROR in ret (mkobj MAP16 n 0))
  else if t =? MAP32_MARKER then (let! n := rd32 DATA_READING_ERROR in ret (mkobj MAP32 n 0))
  else if NEGATIVE_FIXNUM_MARKER <=? t then ret (mkobj NEGATIVE_FIXNUM (s8 t) 0)
  else fail INVALID_TYPE_ERROR.

(** A typed reader reads an object, then converts it or fails with the type error. *)
Definition read_as {A} (f : obj -> option A) : M A :=
  let! o := cmp_read_object in match f o with Some a => ret a | None => fail INVALID_TYPE_ERROR end.

(** cmp.c 1256-1271. *)
Definition cmp_read_pfix : M Z := read_as (fun o => match oty o with POSITIVE_FIXNUM => Some (as_u8 o) | _ => None end).
(** cmp.c 1273-1288. *)
Definition cmp_read_nfix : M Z := read_as (fun o => match oty o with NEGATIVE_FIXNUM => Some (as_s8 o) | _ => None end).
(** cmp.c 1290-1307. *)
Definition cmp_read_sfix : M Z := read_as (fun o => match oty o with POSITIVE_FIXNUM | NEGATIVE_FIXNUM => Some (as_s8 o) | _ => None end).
(** cmp.c 1309-1324. *)
Definition cmp_read_s8 : M Z := read_as (fun o => match oty o with SINT8 => Some (as_s8 o) | _ => None end).
(** cmp.c 1326-1341. *)
Definition cmp_read_s16 : M Z := read_as (fun o => match oty o with SINT16 => Some (as_s16 o) | _ => None end).
(** cmp.c 1343-1358. *)
Definition cmp_read_s32 : M Z := read_as (fun o => match oty o with SINT32 => Some (as_s32 o) | _ => None end).
(** cmp.c 1360-1375. *)
Definition cmp_read_s64 : M Z := read_as (fun o => match oty o with SINT64 => Some (as_s64 o) | _ => None end).
(** cmp.c 1377-1401 and 2703-2720, the same conversion. *)
Definition cmp_object_as_char (o : obj) : option Z :=
  match oty o with
  | POSITIVE_FIXNUM | NEGATIVE_FIXNUM | SINT8 => Some (as_s8 o)
  | UINT8 => if as_u8 o <=? 127 then Some (as_s8 o) else None
  | _ => None
  end.
Definition cmp_read_char : M Z := read_as cmp_object_as_char.
(** cmp.c 1403-1433 and 2722-2745. *)
Definition cmp_object_as_short (o : obj) : option Z :=
  match oty o with
  | POSITIVE_FIXNUM | NEGATIVE_FIXNUM | SINT8 => Some (as_s8 o)
  | UINT8 => Some (as_u8 o)
  | SINT16 => Some (as_s16 o)
  | UINT16 => if as_u16 o <=? 32767 then Some (as_u16 o) else None
  | _ => None
  end.
Definition cmp_read_short : M Z := read_as cmp_object_as_short.
(** cmp.c 1435-1471 and 2747-2776. *)
Definition cmp_object_as_int (o : obj) : option Z :=
  match oty o with
  | POSITIVE_FIXNUM | NEGATIVE_FIXNUM | SINT8 => Some (as_s8 o)
  | UINT8 => Some (as_u8 o)
  | SINT16 => Some (as_s16 o)
  | UINT16 => Some (as_u16 o)
  | SINT32 => Some (as_s32 o)
  | UINT32 => if as_u32 o <=? 2147483647 then Some (as_u32 o) else None
  | _ => None
  end.
Definition cmp_read_int : M Z := read_as cmp_object_as_int.
(** cmp.c 1473-1515 and 2778-2813; 1517-1520. *)
Definition cmp_object_as_long (o : obj) : option Z :=
  match oty o with
  | POSITIVE_FIXNUM | NEGATIVE_FIXNUM | SINT8 => Some (as_s8 o)
  | UINT8 => Some (as_u8 o)
  | SINT16 => Some (as_s16 o)
  | UINT16 => Some (as_u16 o)
  | SINT32 => Some (as_s32 o)
  | UINT32 => Some (as_u32 o)
  | SINT64 => Some (as_s64 o)
  | UINT64 => if as_u64 o <=? 9223372036854775807 then Some (as_u64 o) else None
  | _ => None
  end.
Definition cmp_read_long : M Z := read_as cmp_object_as_long.
Definition cmp_read_sinteger : M Z := cmp_read_long.

(** cmp.c 1522-1537 (it tests the negative fixnum type). *)
Definition cmp_read_ufix : M Z := read_as (fun o => match oty o with NEGATIVE_FIXNUM => Some (as_u8 o) | _ => None end).
(** cmp.c 1539-1554. *)
Definition cmp_read_u8 : M Z := read_as (fun o => match oty o with UINT8 => Some (as_u8 o) | _ => None end).
(** cmp.c 1556-1571. *)
Definition cmp_read_u16 : M Z := read_as (fun o => match oty o with UINT16 => Some (as_u16 o) | _ => None end).
(** cmp.c 1573-1588. *)
Definition cmp_read_u32 : M Z := read_as (fun o => match oty o with UINT32 => Some (as_u32 o) | _ => None end).
(** cmp.c 1590-1605. *)
Definition cmp_read_u64 : M Z := read_as (fun o => match oty o with UINT64 => Some (as_u64 o) | _ => None end).
(** cmp.c 1607-1624 and 2820-2830. *)
Definition cmp_object_as_uchar (o : obj) : option Z :=
  match oty o with POSITIVE_FIXNUM | UINT8 => Some (as_u8 o) | _ => None end.
Definition cmp_read_uchar : M Z := read_as cmp_object_as_uchar.
(** cmp.c 1626-1646 and 2832-2845. *)
Definition cmp_object_as_ushort (o : obj) : option Z :=
  match oty o with POSITIVE_FIXNUM | UINT8 => Some (as_u8 o) | UINT16 => Some (as_u16 o) | _ => None end.
Definition cmp_read_ushort : M Z := read_as cmp_object_as_ushort.
(** cmp.c 1648-1671 and 2847-2863. *)
Definition cmp_object_as_uint (o : obj) : option Z :=
  match oty o with
  | POSITIVE_FIXNUM | UINT8 => Some (as_u8 o) | UINT16 => Some (as_u16 o) | UINT32 => Some (as_u32 o)
  | _ => None
  end.
Definition cmp_read_uint : M Z := read_as cmp_object_as_uint.
(** cmp.c 1673-1699 and 2865-2884; 1701-1704. *)
Definition cmp_object_as_ulong (o : obj) : option Z :=
  match oty o with
  | POSITIVE_FIXNUM | UINT8 => Some (as_u8 o) | UINT16 => Some (as_u16 o) | UINT32 => Some (as_u32 o)
  | UINT64 => Some (as_u64 o)
  | _ => None
  end.
Definition cmp_read_ulong : M Z := read_as cmp_object_as_ulong.
Definition cmp_read_uinteger : M Z := cmp_read_ulong.

Section Floats.
(** The conversions of the floating point unit, on bit patterns; nothing is assumed about them. *)
Variables (double_to_float float_to_double : Z -> Z).
(** cmp.c 1706-1726. *)
Definition cmp_read_float : M Z :=
  read_as (fun o => match oty o with FLOAT => Some (as_u32 o) | DOUBLE => Some (double_to_float (as_u64 o)) | _ => None end).
(** cmp.c 1728-1748. *)
Definition cmp_read_double : M Z :=
  read_as (fun o => match oty o with FLOAT => Some (float_to_double (as_u32 o)) | DOUBLE => Some (as_u64 o) | _ => None end).
End Floats.

(** cmp.c 1750-1764. *)
Definition cmp_read_nil : M unit := read_as (fun o => match oty o with NIL => Some tt | _ => None end).
(** cmp.c 1766-1786 and 2911-2924. *)
Definition cmp_object_as_bool (o : obj) : option bool := match oty o with BOOLEAN => Some (as_bool o) | _ => None end.
Definition cmp_read_bool : M bool := read_as cmp_object_as_bool.
(** cmp.c 1788-1808. *)
Definition cmp_read_bool_as_u8 : M Z :=
  read_as (fun o => match oty o with BOOLEAN => Some (if as_bool o then 1 else 0) | _ => None end).
(** cmp.c 1810-1829 and 2926-2938. *)
Definition cmp_object_as_str (o : obj) : option Z :=
  match oty o with FIXSTR | STR8 | STR16 | STR32 => Some (as_u32 o) | _ => None end.
Definition cmp_read_str_size : M Z := read_as cmp_object_as_str.
(** cmp.c 1831-1854: [dst] is the buffer of the caller, [n] the value of [*size]; returns the buffer and
    the new [*size]. On the failure of line 1840 the out parameter is not modelled. *)
Definition cmp_read_str (dst : list Z) (n : Z) : M (list Z * Z) :=
  let! s := cmp_read_str_size in
  if n <? u32 (s + 1) then fail STR_DATA_LENGTH_TOO_LONG_ERROR
  else let! d := rd_data dst s !! DATA_READING_ERROR in
       fun c => match bset d s 0 with Some d => Ok (d, s) c | None => UB end.
(** cmp.c 1856-1874 and 2940-2951. *)
Definition cmp_object_as_bin (o : obj) : option Z :=
  match oty o with BIN8 | BIN16 | BIN32 => Some (as_u32 o) | _ => None end.
Definition cmp_read_bin_size : M Z := read_as cmp_object_as_bin.
(** cmp.c 1876-1896. *)
Definition cmp_read_bin (dst : list Z) (n : Z) : M (list Z * Z) :=
  let! s := cmp_read_bin_size in
  if n <? s then fail BIN_DATA_LENGTH_TOO_LONG_ERROR
  else let! d := rd_data dst s !! DATA_READING_ERROR in ret (d, s).
(** cmp.c 1898-1916 and 2953-2964. *)
Definition cmp_object_as_array (o : obj) : option Z :=
  match oty o with FIXARRAY | ARRAY16 | ARRAY32 => Some (as_u32 o) | _ => None end.
Definition cmp_read_array : M Z := read_as cmp_object_as_array.
(** cmp.c 1918-1936 and 2966-2977. *)
Definition cmp_object_as_map (o : obj) : option Z :=
  match oty o with FIXMAP | MAP16 | MAP32 => Some (as_u32 o) | _ => None end.
Definition cmp_read_map : M Z := read_as cmp_object_as_map.

(** cmp.c 1938-1953, 1955-1967. *)
Definition cmp_read_fixext1_marker : M Z :=
  read_as (fun o => match oty o with FIXEXT1 => Some (ext_type o) | _ => None end).
Definition cmp_read_fixext1 (dst : list Z) : M (Z * list Z) :=
  let! tp := cmp_read_fixext1_marker in let! d := rd_data dst 1 !! DATA_READING_ERROR in ret (tp, d).
(** cmp.c 1969-1984, 1986-1998. *)
Definition cmp_read_fixext2_marker : M Z :=
  read_as (fun o => match oty o with FIXEXT2 => Some (ext_type o) | _ => None end).
Definition cmp_read_fixext2 (dst : list Z) : M (Z * list Z) :=
  let! tp := cmp_read_fixext2_marker in let! d := rd_data dst 2 !! DATA_READING_ERROR in ret (tp, d).
(** cmp.c 2000-2015, 2017-2029. *)
Definition cmp_read_fixext4_marker : M Z :=
  read_as (fun o => match oty o with FIXEXT4 => Some (ext_type o) | _ => None end).
Definition cmp_read_fixext4 (dst : list Z) : M (Z * list Z) :=
  let! tp := cmp_read_fixext4_marker in let! d := rd_data dst 4 !! DATA_READING_ERROR in ret (tp, d).
(** cmp.c 2031-2046, 2048-2060. *)
Definition cmp_read_fixext8_marker : M Z :=
  read_as (fun o => match oty o with FIXEXT8 => Some (ext_type o) | _ => None end).
Definition cmp_read_fixext8 (dst : list Z) : M (Z * list Z) :=
  let! tp := cmp_read_fixext8_marker in let! d := rd_data dst 8 !! DATA_READING_ERROR in ret (tp, d).
(** cmp.c 2062-2077, 2079-2091. *)
Definition cmp_read_fixext16_marker : M Z :=
  read_as (fun o => match oty o with FIXEXT16 => Some (ext_type o) | _ => None end).
Definition cmp_read_fixext16 (dst : list Z) : M (Z * list Z) :=
  let! tp := cmp_read_fixext16_marker in let! d := rd_data dst 16 !! DATA_READING_ERROR in ret (tp, d).
(** cmp.c 2093-2110, 2112-2124: the size of the buffer of the caller is not known to the function. *)
Definition cmp_read_ext8_marker : M (Z * Z) :=
  read_as (fun o => match oty o with EXT8 => Some (ext_type o, u8 (as_u32 o)) | _ => None end).
Definition cmp_read_ext8 (dst : list Z) : M (Z * Z * list Z) :=
  let! m := cmp_read_ext8_marker in let! d := rd_data dst (snd m) !! DATA_READING_ERROR in ret (m, d).
(** cmp.c 2126-2143, 2145-2157: the size of the buffer of the caller is not known to the function. *)
Definition cmp_read_ext16_marker : M (Z * Z) :=
  read_as (fun o => match oty o with EXT16 => Some (ext_type o, u16 (as_u32 o)) | _ => None end).
Definition cmp_read_ext16 (dst : list Z) : M (Z * Z * list Z) :=
  let! m := cmp_read_ext16_marker in let! d := rd_data dst (snd m) !! DATA_READING_ERROR in ret (m, d).
(** cmp.c 2159-2176, 2178-2190: the size of the buffer of the caller is not known to the function. *)
Definition cmp_read_ext32_marker : M (Z * Z) :=
  read_as (fun o => match oty o with EXT32 => Some (ext_type o, u32 (as_u32 o)) | _ => None end).
Definition cmp_read_ext32 (dst : list Z) : M (Z * Z * list Z) :=
  let! m := cmp_read_ext32_marker in let! d := rd_data dst (snd m) !! DATA_READING_ERROR in ret (m, d).
(** cmp.c 2192-2216 and 2979-2996, 2218-2230. *)
Definition cmp_object_as_ext (o : obj) : option (Z * Z) :=
  match oty o with
  | FIXEXT1 | FIXEXT2 | FIXEXT4 | FIXEXT8 | FIXEXT16 | EXT8 | EXT16 | EXT32 => Some (ext_type o, as_u32 o)
  | _ => None
  end.
Definition cmp_read_ext_marker : M (Z * Z) := read_as cmp_object_as_ext.
Definition cmp_read_ext (dst : list Z) : M (Z * Z * list Z) :=
  let! m := cmp_read_ext_marker in let! d := rd_data dst (snd m) !! DATA_READING_ERROR in ret (m, d).
