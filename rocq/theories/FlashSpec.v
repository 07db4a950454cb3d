(** Specification of the configuration area: a sequence of blocks and erased bytes. *)
From Coq Require Import ZArith List Bool.
From Verif Require Import CBase Buf CmpModel ParamModel FlashModel.
Import ListNotations.
Local Open Scope Z_scope.

(** A block: checksum of the length, length, checksum of the data, data. *)
Definition block (d : list Z) : list Z := le32 (crc (le32 (blen d))) ++ le32 (blen d) ++ le32 (crc d) ++ d.
Definition image (blocks : list (list Z)) : list Z := flat_map block blocks.
(** The area of [dst_len] bytes holds [blocks], is erased after them, and is followed by [beyond]. *)
Definition holds (dst_len : Z) (m : list Z) (blocks : list (list Z)) (beyond : list Z) : Prop :=
  exists k, m = image blocks ++ repeat 255 k ++ beyond /\ blen (image blocks) + Z.of_nat k = dst_len /\
    Forall (fun d => blen d < 2 ^ 32) blocks.
(** The bytes after the area can be read, and do not look like a block, even when the last bytes of the area,
    erased, are taken as the start of its header. *)
Definition quiet (beyond : list Z) : Prop :=
  forall k, (k < 8)%nat -> exists c l r, repeat 255 k ++ beyond = c ++ l ++ r /\ length c = 4%nat /\ length l = 4%nat /\
    le_val c <> crc l.
Fixpoint last_of {A} (l : list A) : option A := match l with [] => None | [x] => Some x | _ :: l => last_of l end.
(** The bytes of the flash that an operation changes are in the area. *)
Definition in_area (dst_len : Z) (o : fop) : Prop := match o with Prog a _ => 0 <= a < dst_len | Erase => True end.

(** An error is reported when there is no room for the document [bs]. *)
Definition reports_overflow (out : Z -> fres (list Z * bool)) (bs : list Z) : Prop :=
  forall size, 0 <= size < blen bs -> exists l, out size = DONE (l, false) /\ blen l <= size /\ bytes_ok l.
(** [bs] is what is written to save a configuration: all of it when there is room, in an area of at most
    [dst_len] bytes, and an error is reported when there is not. *)
Definition saves_as (dst_len : Z) (out : Z -> fres (list Z * bool)) (bs : list Z) : Prop :=
  bytes_ok bs /\
  (forall size, blen bs <= size <= dst_len -> out size = DONE (bs, true)) /\
  reports_overflow out bs.

(** Saves one after the other. *)
Fixpoint save_all (fuel : nat) (dst_len : Z) (outs : list (Z -> fres (list Z * bool))) (m : list Z) : fres (list Z) :=
  match outs with
  | [] => DONE m
  | out :: outs => let? ops := save dst_len fuel dst_len out m in let? m := steps dst_len m ops in save_all fuel dst_len outs m
  end.
