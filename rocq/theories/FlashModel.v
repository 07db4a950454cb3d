(** Model of lib/parameter_flash_storage/parameter_flash_storage.c over the flash of the STM32F4
    (flash_f4.c), and of the writes of flash_f3.c.

    The memory is the list of the bytes from the start of the configuration area, [dst], on: an address is
    the offset from there. The area has [dst_len] bytes, what comes after it is also in the list. An access
    outside of the list is a fault. *)
From Coq Require Import ZArith NArith List Bool.
From Verif Require Import CBase Buf CrcModel CmpModel ParamModel PmsgModel.
Import ListNotations.
Local Open Scope Z_scope.

(** A fault, no end within the given fuel, or a result. *)
Inductive fres (A : Type) := FAULT | HANG | DONE (a : A).
Arguments FAULT {A}. Arguments HANG {A}. Arguments DONE {A}.
Definition fbind {A B} (m : fres A) (f : A -> fres B) : fres B :=
  match m with FAULT => FAULT | HANG => HANG | DONE a => f a end.
Notation "'let?' x := m 'in' f" := (fbind m (fun x => f)) (at level 200, x pattern, right associativity).
Definition fsome {A} (o : option A) : fres A := match o with Some a => DONE a | None => FAULT end.

(** include/parameter_flash_storage/parameter_flash_storage.h 10 *)
Definition HEADER_SIZE : Z := 12.
(** parameter_flash_storage.c 12; lib/crc/crc32.c. *)
Definition crc (l : list Z) : Z := Z.of_N (crc32 0xdeadbeef (map Z.to_N l)).
(** The bytes of a uint32_t in memory, and back (the processors are little endian). *)
Definition le32 (x : Z) : list Z := [x mod 256; x / 2 ^ 8 mod 256; x / 2 ^ 16 mod 256; x / 2 ^ 24 mod 256].
Definition val32 (l : list Z) : Z := le_val l.

(** ** The flash *)

(** What the flash controller is told to do, one byte at a time (flash_f4.c 101-105), or to erase the sector
    (flash_f4.c 110-129). *)
Inductive fop := Prog (a b : Z) | Erase.
Section Flash.
(** The size of the sector erased by flash_sector_erase. *)
Variable sector : Z.
(** Programming can only turn ones into zeros. The wait loops always end, errors are not modelled. *)
Definition step (m : list Z) (o : fop) : fres (list Z) :=
  match o with
  | Prog a b => let? x := fsome (bget m a) in fsome (bset m a (Z.land x b))
  | Erase => if sector <=? blen m then DONE (repeat 255 (Z.to_nat sector) ++ skipn (Z.to_nat sector) m) else FAULT
  end.
Fixpoint steps (m : list Z) (l : list fop) : fres (list Z) :=
  match l with [] => DONE m | o :: l => let? m := step m o in steps m l end.
(** flash_f4.c 86-108 *)
Fixpoint flash_write (a : Z) (data : list Z) : list fop :=
  match data with [] => [] | b :: data => Prog a b :: flash_write (a + 1) data end.

(** ** Blocks *)

(** parameter_flash_storage.c 130-159 *)
Definition block_is_valid (m : list Z) (block : Z) : fres bool :=
  let? c := fsome (bslice m block 4) in
  let? length := fsome (bslice m (block + 4) 4) in
  if negb (val32 c =? crc length) then DONE false else
  let? c := fsome (bslice m (block + 8) 4) in
  let? data := fsome (bslice m (block + 12) (val32 length)) in
  DONE (val32 c =? crc data).

(** parameter_flash_storage.c 180-186 *)
Definition block_get_length (m : list Z) (block : Z) : fres Z :=
  let? l := fsome (bslice m (block + 4) 4) in DONE (val32 l).

(** parameter_flash_storage.c 188-200, with at most [fuel] blocks. *)
Fixpoint find_last (fuel : nat) (m : list Z) (block : Z) (last : option Z) : fres (option Z) :=
  match fuel with
  | O => HANG
  | S fuel =>
      let? v := block_is_valid m block in
      if v : bool then let? n := block_get_length m block in find_last fuel m (block + n + HEADER_SIZE) (Some block)
      else DONE last
  end.
Definition block_find_last_used (m : list Z) : fres (option Z) := find_last (S (length m)) m 0 None.

(** parameter_flash_storage.c 202-212 *)
Fixpoint find_free (fuel : nat) (m : list Z) (block : Z) : fres Z :=
  match fuel with
  | O => HANG
  | S fuel =>
      let? v := block_is_valid m block in
      if v : bool then let? n := block_get_length m block in find_free fuel m (block + n + HEADER_SIZE)
      else DONE block
  end.
Definition block_find_first_free (m : list Z) : fres Z := find_free (S (length m)) m 0.

(** parameter_flash_storage.c 161-178, and the memory [m] in which the block is. *)
Definition write_block_header (m : list Z) (dst len : Z) : fres (list fop) :=
  let ops := flash_write dst (le32 (crc (le32 len))) ++ flash_write (dst + 4) (le32 len) in
  let? m := steps m ops in
  let? data := fsome (bslice m (dst + HEADER_SIZE) len) in
  DONE (ops ++ flash_write (dst + 8) (le32 (crc data))).

(** ** Saving and loading *)

(** parameter_flash_storage.c 14-24 and 71-81: the bytes that the writer of the tree puts in an area of
    [size] bytes, and whether no error was reported. Simplification: the bytes are computed with the writer
    of cmp_mem_access in a scratch buffer, and given to the flash afterwards. cmp_flash_writer makes the same
    test and the writer never looks at what it has written, so the flash gets the same bytes in the same
    order. *)
Definition written (h : heap) (ns : nat) (size : Z) : fres (list Z * bool) :=
  match parameter_msgpack_write_cmp h ns (cmp_mem_access_init (repeat 0 (Z.to_nat size)) size) with
  | Some (c, ok) => DONE (firstn (Z.to_nat (cmp_mem_access_get_pos c)) (mem c), ok)
  | None => FAULT
  end.

(** parameter_flash_storage.c 42-103: all that the flash controller is told, in order; [fuel] bounds the
    recursion. size_t has 32 bits. Locking the flash is not modelled. *)
Fixpoint save (fuel : nat) (dst_len : Z) (out : Z -> fres (list Z * bool)) (m : list Z) : fres (list fop) :=
  match fuel with
  | O => HANG
  | S fuel =>
      let? last := block_find_last_used m in
      let ops1 := match last with None => [Erase] | Some _ => [] end in
      let? m1 := steps m ops1 in
      let? dst := block_find_first_free m1 in
      let len := u32 (dst_len - dst) in
      let '(ops2, dst, len) := if len <=? HEADER_SIZE then ([Erase], 0, dst_len) else ([], dst, len) in
      let? m2 := steps m1 ops2 in
      let? (data, success) := out (u32 (len - HEADER_SIZE)) in
      let ops3 := flash_write (dst + HEADER_SIZE) data in
      let? m3 := steps m2 ops3 in
      if negb success then
        let? m4 := step m3 Erase in
        let? ops := save fuel dst_len out m4 in
        DONE (ops1 ++ ops2 ++ ops3 ++ Erase :: ops)
      else
        let len := blen data in
        let '(ops4, len) := if len mod 2 =? 1 then (flash_write (dst + len + HEADER_SIZE + 1) [0], len + 1) else ([], len) in
        let? m4 := steps m3 ops4 in
        let? ops5 := write_block_header m4 dst len in
        DONE (ops1 ++ ops2 ++ ops3 ++ ops4 ++ ops5)
  end.
Definition parameter_flash_storage_save (fuel : nat) (dst_len : Z) (h : heap) (ns : nat) (m : list Z) : fres (list fop) :=
  save fuel dst_len (written h ns) m.

(** parameter_flash_storage.c 110-121: the bytes given to parameter_msgpack_read. *)
Definition stored (m : list Z) : fres (option (list Z)) :=
  let? last := block_find_last_used m in
  match last with
  | None => DONE None
  | Some src =>
      let? src_len := block_get_length m src in
      let? data := fsome (bslice m (src + HEADER_SIZE) src_len) in
      DONE (Some data)
  end.
(** parameter_flash_storage.c 105-128: whether it succeeded, and the parameter tree. Not modelled: a
    successful load for which the error callback was called, for instance for a parameter that the tree does
    not have, is reported as an error. *)
Definition parameter_flash_storage_load (cap : Z) (int_to_float : Z -> Z) (h : heap) (ns : nat) (m : list Z) : fres (bool * heap) :=
  let? s := stored m in
  match s with
  | None => DONE (false, h)
  | Some data =>
      match parameter_msgpack_read cap int_to_float h ns data with
      | RDONE res h _ => DONE (res =? 0, h)
      | RFUEL => HANG
      | _ => FAULT
      end
  end.
(** parameter_flash_storage.c 26-31 *)
Definition parameter_flash_storage_erase (m : list Z) : fres (list Z) := step m Erase.
End Flash.

(** ** The flash of the STM32F3 *)

(** flash_f3.c 25-26: the static variables. *)
Record f3 := mkf3 { f3_mem : list Z; write_last_byte : bool; last_byte : Z }.
(** flash_f3.c 34-43. The controller only programs a half word that is erased, or programs zero; it signals
    an error otherwise, which is not looked at. *)
Definition flash_write_half_word (m : list Z) (a : Z) (lo hi : Z) : fres (list Z) :=
  let? x := fsome (bget m a) in
  let? y := fsome (bget m (a + 1)) in
  if ((x =? 255) && (y =? 255)) || ((lo =? 0) && (hi =? 0))
  then let? m := fsome (bset m a lo) in fsome (bset m (a + 1) hi)
  else DONE m.
(** flash_f3.c 87-99: the loop, and the last byte. *)
Fixpoint f3_words (s : f3) (a : Z) (data : list Z) : fres f3 :=
  match data with
  | [] => DONE s
  | [b] => DONE (mkf3 (f3_mem s) true b)
  | lo :: hi :: data =>
      let? m := flash_write_half_word (f3_mem s) a lo hi in
      f3_words (mkf3 m (write_last_byte s) (last_byte s)) (a + 2) data
  end.
(** flash_f3.c 60-105. The address of the area is even. *)
Definition f3_write (s : f3) (a : Z) (data : list Z) : fres f3 :=
  if Z.odd a then
    match data with
    | [] => FAULT (** reads one byte too many, and the length wraps *)
    | b :: data =>
        let? lo := (if write_last_byte s then DONE (last_byte s) else fsome (bget (f3_mem s) (a - 1))) in
        let? m := flash_write_half_word (f3_mem s) (a - 1) lo b in
        f3_words (mkf3 m false (last_byte s)) (a + 1) data
    end
  else f3_words s a data.
Fixpoint f3_writes (s : f3) (a : Z) (chunks : list (list Z)) : fres f3 :=
  match chunks with
  | [] => DONE s
  | c :: chunks => let? s := f3_write s a c in f3_writes s (a + blen c) chunks
  end.
