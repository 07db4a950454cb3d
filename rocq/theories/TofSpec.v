(** What the sensor board should send. *)
From Coq Require Import ZArith List Bool.
From Verif Require Import TofModel.
Import ListNotations.
Local Open Scope Z_scope.

(** The messages of [n] turns: at each turn the next measurement of the distance with its error code, and the next
    reading of the color. *)
Definition expected (meas : nat -> measure) (cols : nat -> color) (use_color : bool) (k c n : nat) : list message :=
  flat_map (fun i =>
    Distance (m_mm (meas (k + i)%nat)) (m_error (meas (k + i)%nat)) ::
    (if use_color then [Color (c_red (cols (c + i)%nat)) (c_green (cols (c + i)%nat)) (c_blue (cols (c + i)%nat)) (c_clear (cols (c + i)%nat))] else []))
    (seq 0 n).

(** Error codes have 4 bits, colors 16. *)
Definition codes (meas : nat -> measure) : Prop := forall k, 0 <= m_error (meas k) < 16.
Definition words (cols : nat -> color) : Prop :=
  forall k, 0 <= c_red (cols k) < 65536 /\ 0 <= c_green (cols k) < 65536 /\ 0 <= c_blue (cols k) < 65536 /\ 0 <= c_clear (cols k) < 65536.
(** The waits are long enough for the [n] measurements from [k]. *)
Definition patient (fuel : nat) (meas : nat -> measure) (k n : nat) : Prop :=
  (1 < fuel)%nat /\ forall i, (i < n)%nat -> (m_delay (meas (k + i)) + 1 < fuel /\ m_recover (meas (k + i)) + 1 < fuel)%nat.

(** The registers that the data sheet of the VL6180X (and AN4545) sets at the start. *)
Definition recommended : list (Z * Z) :=
  [(0x0207, 0x01); (0x0208, 0x01); (0x0096, 0x00); (0x0097, 0xfd); (0x00e3, 0x00); (0x00e4, 0x04); (0x00e5, 0x02); (0x00e6, 0x01);
   (0x00e7, 0x03); (0x00f5, 0x02); (0x00d9, 0x05); (0x00db, 0xce); (0x00dc, 0x03); (0x00dd, 0xf8); (0x009f, 0x00); (0x00a3, 0x3c);
   (0x00b7, 0x00); (0x00bb, 0x3c); (0x00b2, 0x09); (0x00ca, 0x09); (0x0198, 0x01); (0x01b0, 0x17); (0x01ad, 0x00); (0x00ff, 0x05);
   (0x0100, 0x05); (0x0199, 0x05); (0x01a6, 0x1b); (0x01ac, 0x3e); (0x01a7, 0x1f); (0x0030, 0x00);
   (0x0011, 0x10); (0x010a, 0x30); (0x003f, 0x46); (0x0031, 0xff); (0x0040, 0x63); (0x002e, 0x01); (0x0014, 0x24)].
(** The distance sensor after its start: at its own address, ready, no interrupt pending, with the recommended
    registers. *)
Definition configured (d : vl) : Prop :=
  v_addr d = 0x2A /\ md d = Ready /\ intr d = 0 /\ fresh d = 0 /\ forall r v, In (r, v) recommended -> regs d r = v.
(** The color sensor after its start: on, gain 16, 101 ms. *)
Definition color_configured (t : tcs) : Prop :=
  t_regs t 0x00 = 3 /\ t_regs t 0x01 = 0xD5 /\ t_regs t 0x0F = 2 /\ t_regs t 0x03 = 0xFF /\ t_regs t 0x0D = 0.
