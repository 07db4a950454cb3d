(** Property theorems for C01 and C02 (lib/crc). *)
From Coq Require Import NArith List Lia.
From Verif Require Import CrcModel CrcSpec CrcProofs.
Import ListNotations.
Local Open Scope N_scope.

(** C01: incremental computation. *)
Theorem crc16_incremental : forall init a b, crc16 init (a ++ b) = crc16 (crc16 init a) b.
Proof. exact crc16_app_l. Qed.
Print Assumptions crc16_incremental.

Theorem crc32_incremental : forall init a b, crc32 init (a ++ b) = crc32 (crc32 init a) b.
Proof. exact crc32_app_l. Qed.
Print Assumptions crc32_incremental.

(** C01: the result fits the width. *)
Theorem crc16_fits : forall init m, init < 2 ^ 16 -> bytes_ok m -> crc16 init m < 2 ^ 16.
Proof. exact crc16_range_l. Qed.
Print Assumptions crc16_fits.

Theorem crc32_fits : forall init m, init < 2 ^ 32 -> crc32 init m < 2 ^ 32.
Proof. exact crc32_range_l. Qed.
Print Assumptions crc32_fits.

(** C01: affine over GF(2). *)
Theorem crc16_linear : forall i1 i2 m1 m2, bytes_ok m1 -> bytes_ok m2 -> length m1 = length m2 ->
  crc16 (N.lxor i1 i2) (xor_msg m1 m2) = N.lxor (crc16 i1 m1) (crc16 i2 m2).
Proof. exact crc16_xor_l. Qed.
Print Assumptions crc16_linear.

Theorem crc32_affine : forall i1 i2 i3 m1 m2 m3, length m1 = length m2 -> length m2 = length m3 ->
  crc32 (N.lxor i1 (N.lxor i2 i3)) (xor_msg m1 (xor_msg m2 m3))
  = N.lxor (crc32 i1 m1) (N.lxor (crc32 i2 m2) (crc32 i3 m3)).
Proof. exact crc32_affine_l. Qed.
Print Assumptions crc32_affine.

(** C01: the checksum is the remainder of the division of the message (preceded by the
    initial value) by the generator polynomial; the remainder is unique. *)
Theorem crc16_is_remainder : forall init m, init < 2 ^ 16 -> bytes_ok m ->
  is_remainder 16 (N.lxor (N.shiftl (reflect 16 init) (N.of_nat (8 * length m)))
                          (N.shiftl (poly_of_bits (msg_bits m)) 16))
               GEN16 (reflect 16 (crc16 init m)).
Proof. exact crc16_remainder_l. Qed.
Print Assumptions crc16_is_remainder.

Theorem crc32_is_remainder : forall init m, init < 2 ^ 32 ->
  is_remainder 32 (N.lxor (N.shiftl (reflect 32 (not32 init)) (N.of_nat (8 * length m)))
                          (N.shiftl (poly_of_bits (msg_bits m)) 32))
               GEN32 (reflect 32 (not32 (crc32 init m))).
Proof. exact crc32_remainder_l. Qed.
Print Assumptions crc32_is_remainder.

Theorem remainder_unique : forall w a g r1 r2,
  g < 2 ^ N.succ (N.of_nat w) -> N.testbit g (N.of_nat w) = true ->
  is_remainder w a g r1 -> is_remainder w a g r2 -> r1 = r2.
Proof. exact remainder_unique_l. Qed.
Print Assumptions remainder_unique.

(** The standard check values ("123456789"). *)
Example crc_check_values :
  crc16 0 [49;50;51;52;53;54;55;56;57] = 0xBB3D /\
  crc32 0 [49;50;51;52;53;54;55;56;57] = 0xCBF43926 /\
  bytes_ok [49;50;51;52;53;54;55;56;57] /\
  GEN16 < 2 ^ N.succ (N.of_nat 16) /\ N.testbit GEN16 (N.of_nat 16) = true /\
  GEN32 < 2 ^ N.succ (N.of_nat 32) /\ N.testbit GEN32 (N.of_nat 32) = true.
Proof.
  repeat split; try (vm_compute; reflexivity).
  repeat (constructor; [unfold byte_ok; lia|]). constructor.
Qed.

(** C02: error bursts. *)
Theorem crc16_detects_bursts : forall init m1 m2 s w,
  init < 2 ^ 16 -> bytes_ok m1 -> bytes_ok m2 -> (w <= 16)%nat ->
  differ_only_in_burst m1 m2 s w -> m1 <> m2 -> crc16 init m1 <> crc16 init m2.
Proof. exact crc16_burst_l. Qed.
Print Assumptions crc16_detects_bursts.

Theorem crc32_detects_bursts : forall init m1 m2 s w,
  init < 2 ^ 32 -> bytes_ok m1 -> bytes_ok m2 -> (w <= 32)%nat ->
  differ_only_in_burst m1 m2 s w -> m1 <> m2 -> crc32 init m1 <> crc32 init m2.
Proof. exact crc32_burst_l. Qed.
Print Assumptions crc32_detects_bursts.

(** The hypotheses are met by a 16 bit burst straddling two bytes. *)
Example burst_exists : differ_only_in_burst [0x12; 0x34; 0x56] [0xE2; 0xCB; 0x59] 4 16
  /\ [0x12; 0x34; 0x56] <> [0xE2; 0xCB; 0x59].
Proof.
  split; [|discriminate]. split; [reflexivity|]. intros i [H|H].
  - do 4 (destruct i as [|i]; [vm_compute; reflexivity|]). lia.
  - do 24 (destruct i as [|i]; [first [lia | vm_compute; reflexivity]|]).
    unfold msg_bit. rewrite !nth_overflow; [reflexivity| |];
      cbn [length]; apply PeanoNat.Nat.div_le_lower_bound; lia.
Qed.

(** C02: different initial values. *)
Theorem crc16_init_injective : forall i1 i2 m, i1 < 2 ^ 16 -> i2 < 2 ^ 16 -> bytes_ok m ->
  crc16 i1 m = crc16 i2 m -> i1 = i2.
Proof. exact crc16_init_inj_l. Qed.
Print Assumptions crc16_init_injective.

Theorem crc32_init_injective : forall i1 i2 m, i1 < 2 ^ 32 -> i2 < 2 ^ 32 ->
  crc32 i1 m = crc32 i2 m -> i1 = i2.
Proof. exact crc32_init_inj_l. Qed.
Print Assumptions crc32_init_injective.

(** C02, more: any odd number of wrong bits (CRC-16), any two wrong bits not too far apart. *)
Theorem crc16_detects_odd_errors : forall init m1 m2, bytes_ok m1 -> bytes_ok m2 ->
  length m1 = length m2 -> Nat.odd (bit_errors m1 m2) = true -> crc16 init m1 <> crc16 init m2.
Proof. exact crc16_odd_l. Qed.
Print Assumptions crc16_detects_odd_errors.

Theorem crc16_detects_double_errors : forall init m1 m2 i j,
  init < 2 ^ 16 -> bytes_ok m1 -> bytes_ok m2 ->
  differ_in_two m1 m2 i j -> N.of_nat (j - i) <= 32766 -> crc16 init m1 <> crc16 init m2.
Proof. exact crc16_two_l. Qed.
Print Assumptions crc16_detects_double_errors.

Theorem crc32_detects_double_errors : forall init m1 m2 i j,
  init < 2 ^ 32 -> differ_in_two m1 m2 i j -> N.of_nat (j - i) <= 131072 ->
  crc32 init m1 <> crc32 init m2.
Proof. exact crc32_two_l. Qed.
Print Assumptions crc32_detects_double_errors.

Example odd_and_double_exist :
  Nat.odd (bit_errors [1; 2; 3] [0; 2; 0]) = true /\ differ_in_two [1; 2; 3] [0; 2; 2] 0 16.
Proof.
  split; [reflexivity|]. split; [reflexivity|]. split; [cbn; lia|]. intro k.
  do 24 (destruct k as [|k]; [vm_compute; split; [intro; split; congruence | intros [A B]; congruence]|]).
  split; [intros _; lia|]. intros _.
  unfold msg_bit. rewrite !nth_overflow; [reflexivity| |];
      cbn [length]; apply PeanoNat.Nat.div_le_lower_bound; lia.
Qed.
