(** The MPU-9250 and its magnetometer as their data sheets describe them, and the events of the reader thread. *)
From Coq Require Import ZArith Reals List Bool.
From Verif Require Import FloatModel PidSpec ImuModel.
Import ListNotations.

(** * Registers *)
Local Open Scope Z_scope.
(** Registers of the sensor (addresses of 7 bits) and of the magnetometer behind it. *)
Record mpu := mkMpu { regs : Z -> Z; aux : Z -> Z }.
Definition set (f : Z -> Z) (r v : Z) : Z -> Z := fun x => if x =? r then v else f x.
(** AK8963: bit 0 of CNTL2 (register 11) resets the device: its mode (CNTL1, register 10) is power-down. *)
Definition mag_write (a : Z -> Z) (r v : Z) : Z -> Z := if (r =? 11) && Z.odd v then (fun _ => 0) else set a r v.
(** The sensor exchanges data with slave 0 by itself, when I2C_MST_EN (register 106, bit 5) and I2C_SLV0_EN (register 39, bit 7) are set.
    Register 37 is the address of the slave, with bit 7 for a reading; 38 its register; 99 the data to write; the lower bits of 39 the number
    of bytes to read, which go to the registers from 73 on. The magnetometer answers to the address 12. *)
Definition exchange (m : mpu) : mpu :=
  if Z.testbit (regs m 106) 5 && Z.testbit (regs m 39) 7 then
    if regs m 37 =? 12 then mkMpu (regs m) (mag_write (aux m) (regs m 38) (regs m 99))
    else if regs m 37 =? 12 + 128 then
      mkMpu (fun r => if (73 <=? r) && (r <? 73 + regs m 39 mod 16) then aux m (regs m 38 + (r - 73)) else regs m r) (aux m)
    else m
  else m.
Fixpoint exchanges (n : nat) (m : mpu) : mpu := match n with O => m | S n => exchanges n (exchange m) end.
(** The driver's operations, with any number of exchanges after each, and at least one during a pause (100 ms at 250 Hz). *)
Fixpoint executes (l : list op) (m m' : mpu) : Prop :=
  match l with
  | [] => m' = m
  | Write r v :: l => exists n, executes l (exchanges n (mkMpu (set (regs m) r v) (aux m))) m'
  | Or r v :: l => exists n, executes l (exchanges n (mkMpu (set (regs m) r (Z.lor (regs m r) v)) (aux m))) m'
  | Sleep :: l => exists n, executes l (exchanges (S n) m) m'
  end.

(** Meaning of the registers: counts per degree per second, counts per g, measurements per second. *)
Definition gyro_lsb (m : mpu) : R := (131 / 2 ^ Z.to_nat (Z.shiftr (regs m 27) 3 mod 4))%R.
Definition accel_lsb (m : mpu) : R := (16384 / 2 ^ Z.to_nat (Z.shiftr (regs m 28) 3 mod 4))%R.
Definition sample_rate (m : mpu) : R := (1000 / (1 + IZR (regs m 25)))%R.
(** The interrupt line is active high, latched until the status register is read, and rises for new data only. *)
Definition interrupt_latched (m : mpu) : Prop := Z.testbit (regs m 55) 7 = false /\ Z.testbit (regs m 55) 5 = true /\ Z.testbit (regs m 55) 4 = false.
Definition interrupt_on_data (m : mpu) : Prop := regs m 56 = 1.
(** The magnetometer measures continuously, 100 times per second, on 16 bits. *)
Definition mag_continuous (m : mpu) : Prop := aux m 10 mod 16 = 6 /\ Z.testbit (aux m 10) 4 = true.

(** * Values *)
(** The signed number in two registers. *)
Definition signed (h l : Z) : Z := let v := 256 * h + l in if v <? 32768 then v else v - 65536.
Definition byte (b : Z) : Prop := 0 <= b < 256.
(** During [n] transfers from number [k] on, the registers that are read keep their values. *)
Definition stable (c : chip) (k n : nat) (rg : Z -> Z) : Prop :=
  forall i r, (k <= i < k + n)%nat -> 0 <= r < 128 -> c i (128 + r) = rg r.
Definition bytes (rg : Z -> Z) : Prop := forall r, byte (rg r).

(** * Histories of the thread *)
Inductive imu_event := Measurement | Step.
Definition imu_do (s : imu_state) (e : imu_event) : imu_state := match e with Measurement => measurement s | Step => imu_step s end.
Definition imu_run (l : list imu_event) : imu_state := fold_left imu_do l imu_start.
Definition measurements (l : list imu_event) : nat := length (filter (fun e => match e with Measurement => true | Step => false end) l).
