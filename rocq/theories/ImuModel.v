(** Model of the inertial sensor of the UWB beacon: uwb-beacon-firmware/src/mpu9250.c, imu_thread.c and the interrupt of exti.c,
    with the registers of mpu9250_registers.h. *)
From Coq Require Import ZArith List Bool.
From Verif Require Import CRes FloatModel PosModel.
Import ListNotations.
Local Open Scope Z_scope.

(** * Reading the registers *)

(** What the chip answers: to the [k]-th transfer since some moment, for a first byte sent. Only the transfers are ordered in time. *)
Definition chip := nat -> Z -> Z.
(** mpu9250.c:184-197 mpu9250_reg_read: one byte is sent and one received. *)
Definition reg_read (c : chip) (k : nat) (reg : Z) : Z := c k (Z.lor reg 128).

Section Code.
Variable m : machine.
Notation flt := (num (F m)).
Notation double := (num (D m)).
(** mpu9250.c:7, 10, 12-13, 15; the doubles 65.5, 9.81, 333.87 and the floats are rounded from their decimal values. *)
Definition GYRO_SENSITIVITY : double := div (D m) (m_pi m) (mul (D m) (dbl m 180) (lit (D m) 131 (-1))).
Definition ACCEL_SENSITIVITY : double := div (D m) (div (D m) (dbl m 981) (dbl m 100)) (dbl m 8192).
Definition TEMP_SENSITIVITY : double := div (D m) (dbl m 1) (div (D m) (dbl m 33387) (dbl m 100)).
Definition TEMP_OFFSET : double := dbl m 21.
Definition MAG_SENSITIVITY : flt := div (F m) (lit (F m) 4912 0) (lit (F m) 32760 0).

(** The 16 bits of the high and low bytes in an int16_t. *)
Definition word (h l : Z) : Z := let v := (h * 256 + l) mod 2 ^ 16 in if v <? 2 ^ 15 then v else v - 2 ^ 16.
(** An axis: mes * sensitivity, converted to float. *)
Definition scale (mes : Z) (sensitivity : double) : flt := narrow m (mul (D m) (dbl m mes) sensitivity).

(** mpu9250.c:107-126, 128-147: the first transfer is number [k]. *)
Definition axes_read (c : chip) (k : nat) (base : Z) (sensitivity : double) : flt * flt * flt :=
  let xh := reg_read c k base in
  let xl := reg_read c (k + 1) (base + 1) in
  let yh := reg_read c (k + 2) (base + 2) in
  let yl := reg_read c (k + 3) (base + 3) in
  let zh := reg_read c (k + 4) (base + 4) in
  let zl := reg_read c (k + 5) (base + 5) in
  (scale (word xh xl) sensitivity, scale (word yh yl) sensitivity, scale (word zh zl) sensitivity).
Definition gyro_read (c : chip) (k : nat) := axes_read c k 67 GYRO_SENSITIVITY.
Definition acc_read (c : chip) (k : nat) := axes_read c k 59 ACCEL_SENSITIVITY.
(** mpu9250.c:149-160 *)
Definition temp_read (c : chip) (k : nat) : flt :=
  let th := reg_read c k 65 in
  let tl := reg_read c (k + 1) 66 in
  narrow m (add (D m) TEMP_OFFSET (mul (D m) (dbl m (word th tl)) TEMP_SENSITIVITY)).
(** mpu9250.c:162-181: low bytes first in the chip, read after the high ones; float arithmetic. *)
Definition mag_read (c : chip) (k : nat) : flt * flt * flt :=
  let xh := reg_read c k 74 in
  let xl := reg_read c (k + 1) 73 in
  let yh := reg_read c (k + 2) 76 in
  let yl := reg_read c (k + 3) 75 in
  let zh := reg_read c (k + 4) 78 in
  let zl := reg_read c (k + 5) 77 in
  let axis h l := mul (F m) (lit (F m) (word h l) 0) MAG_SENSITIVITY in
  (axis xh xl, axis yh yl, axis zh zl).
End Code.

(** * Configuration *)

(** mpu9250.c:31-60, 62-66, 68-99: what is written, and the pauses. The value of USER_CTRL is read first (71). *)
Inductive op := Write (reg val : Z) | Or (reg val : Z) | Sleep.
Definition mpu9250_reset : list op := [Write 107 128].
Definition mpu9250_configure : list op :=
  [Write 26 1; Write 25 3; Write 27 (Z.shiftl 1 3); Write 28 (Z.shiftl 1 3); Write 29 0; Write 55 (Z.shiftl 1 5); Write 56 1;
   Write 106 (Z.lor (Z.shiftl 1 6) (Z.shiftl 1 2))].
Definition mpu9250_enable_magnetometer : list op :=
  [Or 106 (Z.lor (Z.shiftl 1 5) (Z.shiftl 1 4)); Write 36 (Z.lor (Z.shiftl 1 6) (Z.shiftl 1 4));
   Write 37 12; Write 38 11; Write 99 1; Write 39 129; Sleep;
   Write 37 12; Write 38 10; Write 99 22; Write 39 129; Sleep;
   Write 37 (Z.lor 12 (Z.shiftl 1 7)); Write 38 3; Write 39 (Z.shiftl 1 7 + 7)].

(** * The reader thread *)

(** imu_thread.c:80-107. [Waiting]: in chEvtWaitAny; [Reading]: from there to the publication; [Clearing]: before
    mpu9250_interrupt_read_and_clear. *)
Inductive imu_pc := Waiting | Reading | Clearing.
(** The interrupt line of the sensor, the event of the thread, where the thread is, the messages published on /imu and
    /imu/temperature, and temperature_pub_prescaler. *)
Record imu_state := mkImu { line : bool; event : bool; pc : imu_pc; published : nat; temperatures : nat; prescaler : Z }.
(** The state when the thread enters its loop if nothing has happened since mpu9250_reset, which lowers the line. *)
Definition imu_start : imu_state := mkImu false false Waiting 0 0 0.
(** The sensor has a new measurement: the line is latched high (INT_PIN_CFG, mpu9250.c:49-52). Its rising edge (exti.c:43) broadcasts
    the event (exti.c:8-17), which the thread keeps until it waits for it. *)
Definition measurement (s : imu_state) : imu_state :=
  mkImu true (event s || negb (line s)) (pc s) (published s) (temperatures s) (prescaler s).
(** A step of the thread; it does nothing if it waits and no event came. *)
Definition imu_step (s : imu_state) : imu_state :=
  match pc s with
  | Waiting => if event s then mkImu (line s) false Reading (published s) (temperatures s) (prescaler s) else s
  | Reading =>
      if 100 <=? prescaler s
      then mkImu (line s) (event s) Clearing (S (published s)) (S (temperatures s)) 0
      else mkImu (line s) (event s) Clearing (S (published s)) (temperatures s) (prescaler s + 1)
  | Clearing => mkImu false (event s) Waiting (published s) (temperatures s) (prescaler s)
  end.
(** imu_thread.c:90: the time stamp in microseconds, for the system time in ticks of CH_CFG_ST_FREQUENCY. *)
Definition imu_timestamp (ticks freq : Z) : Z := (ticks * (1000000 / freq)) mod 2 ^ 32.
