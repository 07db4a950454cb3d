(** Model of lib/softspi and of the pressure sensor driver of actuator-firmware. *)
From Coq Require Import ZArith QArith List Bool Arith.
From Verif Require Import CBase CRes.
Import ListNotations.
Local Open Scope Z_scope.

(** What happens on the pins: the levels written to MOSI and SCK, the level read from MISO, the chip select of a sensor, the reset line of the
    sensors and the pauses in ms (actuator-firmware/src/pressure_sensor_interface.c:16-51, uavcan/feedback_publisher.cpp:15-30). *)
Inductive event := Mosi (b : bool) | Sck (b : bool) | Miso (b : bool) | Cs (sensor : nat) (b : bool) | Rst (b : bool) | Sleep (ms : Z).
(** What was done so far, latest first; what MISO reads is any function of it. *)
Definition history := list event.
Definition world := history -> bool.

(** lib/softspi/softspi.c:13-40, the body of the loop. The two pauses are left out. [rx] is not the buffer of [tx]. *)
Definition send_bit (w : world) (tx : list Z) (hr : history * list Z) (i : nat) : history * list Z :=
  let '(h, rx) := hr in
  let curbyte := nth (i / 8) tx 0 in
  let curbitpos := Z.of_nat (7 - i mod 8) in
  let curbit := negb (Z.land curbyte (Z.shiftl 1 curbitpos) =? 0) in
  let h := Sck true :: Mosi curbit :: h in
  let curbit := w h in
  let h := Miso curbit :: h in
  let rx := upd rx (i / 8) (u8 (Z.lor (nth (i / 8) rx 0) (Z.shiftl (Z.b2z curbit) curbitpos))) in
  (Sck false :: h, rx).
(** softspi.c:4-41. [size] is the length of [tx]; 8 * size does not wrap. *)
Definition softspi_send (w : world) (h : history) (tx : list Z) : history * list Z :=
  fold_left (send_bit w tx) (seq 0 (8 * length tx)) (h, repeat 0 (length tx)).
(** softspi.c:43-46. *)
Definition softspi_init (h : history) : history := Sck false :: h.

(** ** Driver: actuator-firmware/src/pressure_sensor.c with the functions of pressure_sensor_interface.c:34-67 *)
(** pressure_sensor_interface.c:34-51: 0 is the first sensor, anything else the second; the chip select is active low. *)
Definition mpr_select (s : nat) (h : history) : history := Cs (if Nat.eqb s 0 then 0 else 1) false :: h.
Definition mpr_unselect (s : nat) (h : history) : history := Cs (if Nat.eqb s 0 then 0 else 1) true :: h.
Definition mpr_exchange (w : world) (s : nat) (cmd : list Z) (h : history) : history * list Z :=
  let h := mpr_select s h in
  let '(h, rx) := softspi_send w h cmd in
  (mpr_unselect s h, rx).
(** pressure_sensor.c:3-11. *)
Definition mpr_start_measurement (w : world) (s : nat) (h : history) : history := fst (mpr_exchange w s [170; 0; 0] h).
(** pressure_sensor.c:13-23. *)
Definition mpr_read_status (w : world) (s : nat) (h : history) : history * Z :=
  let '(h, rx) := mpr_exchange w s [240] h in (h, nth 0 rx 0).
(** pressure_sensor.c:25-40. *)
Definition mpr_read_data (w : world) (s : nat) (h : history) : history * Z :=
  let '(h, output) := mpr_exchange w s [240; 0; 0; 0] h in
  let result := 0 in
  let result := Z.lor result (Z.shiftl (nth 3 output 0) 0) in
  let result := Z.lor result (Z.shiftl (nth 2 output 0) 8) in
  let result := Z.lor result (Z.shiftl (nth 1 output 0) 16) in
  (h, u32 result).
(** pressure_sensor.c:42-65. *)
Definition mpr_status_is_error (status : Z) : bool :=
  if Z.land status (Z.shiftl 1 6) =? 0 then true
  else if negb (Z.land status (Z.shiftl 1 2) =? 0) then true
  else if negb (Z.land status (Z.shiftl 1 0) =? 0) then true
  else negb (Z.land status 152 =? 0).
(** pressure_sensor.c:67-75. *)
Definition mpr_status_is_busy (status : Z) : bool := negb (Z.land status (Z.shiftl 1 5) =? 0).
Definition mpr_status_is_powered (status : Z) : bool := negb (Z.land status (Z.shiftl 1 6) =? 0).

(** ** Conversion: [rnd] rounds to a float. *)
Section Conversion.
Variable rnd : Q -> Q.
(** pressure_sensor.c:77-84. The operands are whole numbers below 2^24: they and their differences are exact. *)
Definition mpr_pressure_raw_to_pascal (raw : Z) : Q :=
  let p_max := inject_Z 103422 in
  let out_max := inject_Z 15099494 in let out_min := inject_Z 1677722 in
  rnd (rnd (rnd (inject_Z raw - out_min) / rnd (out_max - out_min)) * p_max)%Q.
(** Conversion of a float to uint32_t: the fraction is dropped; no result when it does not fit (undefined behaviour). *)
Definition to_uint32 (q : Q) : res Z :=
  let z := Z.quot (Qnum q) (Zpos (Qden q)) in if (0 <=? z) && (z <? 2 ^ 32) then OK z else BAD.
(** feedback_publisher.cpp:11-33. *)
Definition read_pressure (w : world) (s : nat) (h : history) : history * res Z :=
  let h := Sleep 3 :: Rst true :: Sleep 3 :: Rst false :: h in
  let h := mpr_start_measurement w s h in
  let h := Sleep 5 :: h in
  let '(h, status) := mpr_read_status w s h in
  if mpr_status_is_error status || mpr_status_is_busy status then (h, OK 0)
  else
    let h := Sleep 1 :: h in
    let '(h, raw) := mpr_read_data w s h in
    (h, to_uint32 (mpr_pressure_raw_to_pascal raw)).
End Conversion.
