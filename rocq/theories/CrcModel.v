(** Model of lib/crc/crc16.c and lib/crc/crc32.c.

    Machine words are [N]; a byte is an [N] below 256, a message a list of bytes.
    [length] of the C functions is the length of the list. *)
From Coq Require Import NArith List.
Import ListNotations.
Local Open Scope N_scope.

(** lib/crc/crc16.c:5 *)
Definition CRC16_POLYNOMIAL : N := 0xA001.

(** lib/crc/crc32.c:5 *)
Definition CRC32_POLYNOMIAL : N := 0xEDB88320.

(** A counted [for] loop of [n] rounds. *)
Fixpoint repeat_n {A} (n : nat) (f : A -> A) (x : A) : A :=
  match n with O => x | S n => repeat_n n f (f x) end.

(** lib/crc/crc16.c:15-19, one round of the inner loop. *)
Definition crc16_round (crc : N) : N :=
  if N.testbit crc 0
  then N.lxor (N.shiftr crc 1) CRC16_POLYNOMIAL
  else N.shiftr crc 1.

(** lib/crc/crc16.c:11-21, one round of the outer loop ([crc] is 16 bits wide and
    xor/shift never leave the width, so no truncation is written). *)
Definition crc16_byte (crc : N) (b : N) : N :=
  repeat_n 8 crc16_round (N.lxor crc b).

(** lib/crc/crc16.c:7-23 *)
Definition crc16 (init : N) (data : list N) : N :=
  fold_left crc16_byte data init.

(** [~x] on a [uint32_t]. *)
Definition not32 (x : N) : N := N.lxor x 0xFFFFFFFF.

(** lib/crc/crc32.c:15-19, round [bit] of the inner loop for the byte [b]. *)
Definition crc32_round (b : N) (crc : N) (bit : N) : N :=
  if negb (Bool.eqb (N.testbit crc 0) (N.testbit b bit))
  then N.lxor (N.shiftr crc 1) CRC32_POLYNOMIAL
  else N.shiftr crc 1.

(** lib/crc/crc32.c:12-21 *)
Definition crc32_byte (crc : N) (b : N) : N :=
  fold_left (crc32_round b) [0; 1; 2; 3; 4; 5; 6; 7] crc.

(** lib/crc/crc32.c:7-23 *)
Definition crc32 (init : N) (data : list N) : N :=
  not32 (fold_left crc32_byte data (not32 init)).
