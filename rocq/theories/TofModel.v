(** Model of the sensor board, sensor-firmware/src: vl6180x/vl6180x.c and vl6180x_chibios.c (distance), TCS3472.c (color), the
    start of main.c and the loop of uavcan/node.cpp, uavcan/DistanceVL6180X_pub.cpp and uavcan/ColorRGBC_pub.cpp, on an
    I2C bus with the two sensors.

    The sensors are part of the model, as their data sheets describe what the code uses. Time passes for the distance
    sensor with each transfer on the bus; how long it takes to measure and to recover is given by the environment. Loops
    that wait for the sensor have fuel; None is a wait that did not end. *)
From Coq Require Import ZArith List Bool.
Import ListNotations.
Local Open Scope Z_scope.

(** What the sensors see: for each measurement of the distance, the number of transfers before the sample and before the
    sensor is ready again, the range in mm and the error code; for each reading of the color, clear, red, green, blue. *)
Record measure := mkmeasure { m_delay : nat; m_recover : nat; m_mm : Z; m_error : Z }.
Record color := mkcolor { c_clear : Z; c_red : Z; c_green : Z; c_blue : Z }.

(** ** The sensors *)
Inductive mode := Ready | Measuring (n : nat) | Recover (n : nat).
(** VL6180X: address on the bus, SYSTEM__FRESH_OUT_OF_RESET, configuration registers, RESULT__INTERRUPT_STATUS_GPIO,
    RESULT__RANGE_VAL, error code of RESULT__RANGE_STATUS, number of measurements started. *)
Record vl := mkvl { v_addr : Z; fresh : Z; regs : Z -> Z; md : mode; intr : Z; rval : Z; err : Z; starts : nat }.
(** TCS3472: registers written, number of readings of the color. *)
Record tcs := mktcs { t_regs : Z -> Z; reads : nat }.

Definition put (f : Z -> Z) (a v : Z) : Z -> Z := fun a' => if a' =? a then v else f a'.

(** vl6180x_registers.h *)
Definition IDENTIFICATION__MODEL_ID := 0x000.
Definition SYSTEM__MODE_GPIO1 := 0x011.
Definition SYSTEM__INTERRUPT_CONFIG_GPIO := 0x014.
Definition SYSTEM__INTERRUPT_CLEAR := 0x015.
Definition SYSTEM__FRESH_OUT_OF_RESET := 0x016.
Definition SYSRANGE__START := 0x018.
Definition SYSRANGE__VHV_RECALIBRATE := 0x02E.
Definition SYSRANGE__VHV_REPEAT_RATE := 0x031.
Definition SYSALS__ANALOGUE_GAIN := 0x03F.
Definition SYSALS__INTEGRATION_PERIOD := 0x040.
Definition RESULT__RANGE_STATUS := 0x04D.
Definition RESULT__INTERRUPT_STATUS_GPIO := 0x04F.
Definition RESULT__RANGE_VAL := 0x062.
Definition READOUT__AVERAGING_SAMPLE_PERIOD := 0x10A.
Definition I2C_SLAVE__DEVICE_ADDRESS := 0x212.

Section Env.
Variables (meas : nat -> measure) (cols : nat -> color).

(** The sensor after a reset: default address, fresh out of reset, ready. *)
Definition vl_reset (starts : nat) : vl := mkvl 0x29 1 (fun _ => 0) Ready 0 0 0 starts.
(** A sample raises the interrupt if SYSTEM__INTERRUPT_CONFIG_GPIO asks for it (new sample ready, 4). *)
Definition tick (d : vl) : vl :=
  match md d with
  | Ready => d
  | Recover O => mkvl (v_addr d) (fresh d) (regs d) Ready (intr d) (rval d) (err d) (starts d)
  | Recover (S n) => mkvl (v_addr d) (fresh d) (regs d) (Recover n) (intr d) (rval d) (err d) (starts d)
  | Measuring (S n) => mkvl (v_addr d) (fresh d) (regs d) (Measuring n) (intr d) (rval d) (err d) (starts d)
  | Measuring O =>
      let m := meas (Nat.pred (starts d)) in
      mkvl (v_addr d) (fresh d) (regs d) (Recover (m_recover m))
        (if Z.land (regs d SYSTEM__INTERRUPT_CONFIG_GPIO) 7 =? 4 then 4 else intr d) (m_mm m) (m_error m) (starts d)
  end.
Definition vl_read (d : vl) (r : Z) : Z :=
  if r =? IDENTIFICATION__MODEL_ID then 0xB4
  else if r =? SYSTEM__FRESH_OUT_OF_RESET then fresh d
  else if r =? RESULT__RANGE_STATUS then err d * 16 + match md d with Ready => 1 | _ => 0 end
  else if r =? RESULT__INTERRUPT_STATUS_GPIO then intr d
  else if r =? RESULT__RANGE_VAL then rval d
  else regs d r.
(** A start while the sensor is not ready is ignored. *)
Definition vl_write (d : vl) (r v : Z) : vl :=
  if r =? SYSTEM__FRESH_OUT_OF_RESET then mkvl (v_addr d) v (regs d) (md d) (intr d) (rval d) (err d) (starts d)
  else if r =? I2C_SLAVE__DEVICE_ADDRESS then mkvl v (fresh d) (regs d) (md d) (intr d) (rval d) (err d) (starts d)
  else if r =? SYSTEM__INTERRUPT_CLEAR then mkvl (v_addr d) (fresh d) (regs d) (md d) (if Z.testbit v 0 then 0 else intr d) (rval d) (err d) (starts d)
  else if r =? SYSRANGE__START then
    match md d with
    | Ready => if Z.testbit v 0 then mkvl (v_addr d) (fresh d) (regs d) (Measuring (m_delay (meas (starts d)))) (intr d) (rval d) (err d) (S (starts d)) else d
    | _ => d
    end
  else mkvl (v_addr d) (fresh d) (put (regs d) r v) (md d) (intr d) (rval d) (err d) (starts d).

Definition low (x : Z) : Z := x mod 256.
Definition high (x : Z) : Z := x / 256.
(** The registers of data (0x14 to 0x1B), the identifier (0x12) and the others. *)
Definition tcs_byte (t : tcs) (r : Z) : Z :=
  let c := cols (reads t) in
  if r =? 0x12 then 0x44
  else if r =? 0x14 then low (c_clear c) else if r =? 0x15 then high (c_clear c)
  else if r =? 0x16 then low (c_red c) else if r =? 0x17 then high (c_red c)
  else if r =? 0x18 then low (c_green c) else if r =? 0x19 then high (c_green c)
  else if r =? 0x1A then low (c_blue c) else if r =? 0x1B then high (c_blue c)
  else t_regs t r.
Fixpoint tcs_bytes (t : tcs) (r : Z) (n : nat) : list Z := match n with O => [] | S n => tcs_byte t r :: tcs_bytes t (r + 1) n end.
(** A transfer: the first byte is a command if its bit 7 is set (bits 0-4: the register; bits 5-6: 01 for increments);
    otherwise the sensor ignores it and drives nothing (0xFF). *)
Definition tcs_transfer (t : tcs) (tx : list Z) (n : nat) : tcs * list Z :=
  match tx with
  | c :: vs =>
      if Z.testbit c 7 then
        let r := Z.land c 31 in
        let t := match vs with [v] => mktcs (put (t_regs t) r v) (reads t) | _ => t end in
        (if (1 <? Z.of_nat n) then mktcs (t_regs t) (S (reads t)) else t, tcs_bytes t r n)
      else (t, repeat 255 n)
  | [] => (t, repeat 255 n)
  end.
Definition vl_transfer (d : vl) (tx : list Z) (n : nat) : vl * list Z :=
  match tx with
  | [h; l; v] => (vl_write d (h * 256 + l) v, repeat 255 n)
  | [h; l] => (d, match n with O => [] | S m => vl_read d (h * 256 + l) :: repeat 255 m end)
  | _ => (d, repeat 255 n)
  end.

(** ** The bus. [faults]: whether the next transfers fail; [junk]: what a buffer that was not written contains. *)
Record world := mkw { dev : vl; col : option tcs; faults : list bool; junk : nat -> Z }.
(** i2cMasterTransmitTimeout: the answer, None if nobody answers or the transfer fails. Lines of sensors that answer at
    the same address are wired together. *)
Definition transfer (w : world) (addr : Z) (tx : list Z) (n : nat) : world * option (list Z) :=
  let d := tick (dev w) in
  match faults w with
  | true :: fs => (mkw d (col w) fs (junk w), None)
  | fs0 =>
      let fs := tl fs0 in
      let to_vl := v_addr d =? addr in
      match col w with
      | Some t =>
          let to_tcs := 0x29 =? addr in
          if to_vl then
            let (d, a) := vl_transfer d tx n in
            if to_tcs then
              let (t, b) := tcs_transfer t tx n in
              (mkw d (Some t) fs (junk w), Some (map (fun p => Z.land (fst p) (snd p)) (combine a b)))
            else (mkw d (Some t) fs (junk w), Some a)
          else if to_tcs then
            let (t, b) := tcs_transfer t tx n in (mkw d (Some t) fs (junk w), Some b)
          else (mkw d (Some t) fs (junk w), None)
      | None =>
          if to_vl then let (d, a) := vl_transfer d tx n in (mkw d None fs (junk w), Some a)
          else (mkw d None fs (junk w), None)
      end
  end.

(** vl6180x_chibios.c 6-10 ([addr]: dev->address) *)
Definition vl6180x_write_register (w : world) (addr reg val : Z) : world :=
  fst (transfer w addr [reg / 256; Z.land reg 0xff; val] 0).
(** vl6180x_chibios.c 12-18. The variable is not written when the transfer fails. *)
Definition vl6180x_read_register (w : world) (addr reg : Z) : world * Z :=
  match transfer w addr [reg / 256; Z.land reg 0xff] 1 with
  | (w, Some (b :: _)) => (w, b)
  | (w, _) => (w, junk w 0)
  end.

(** vl6180x.c 6-14 *)
Definition vl6180x_ping (w : world) (addr : Z) : world * bool :=
  let (w, id) := vl6180x_read_register w addr IDENTIFICATION__MODEL_ID in (w, 0xB4 =? id).

(** vl6180x.c 27-29, 35-37, 47-49: read again until a bit is set. *)
Fixpoint wait_bit (fuel : nat) (w : world) (addr reg bit : Z) : option (world * Z) :=
  match fuel with
  | O => None
  | S fuel =>
      let (w, status) := vl6180x_read_register w addr reg in
      if Z.land status (Z.shiftl 1 bit) =? 0 then wait_bit fuel w addr reg bit else Some (w, status)
  end.

(** vl6180x.c 22-53: the error code and the distance. *)
Definition vl6180x_measure_distance (fuel : nat) (w : world) (addr : Z) : option (world * Z * Z) :=
  match wait_bit fuel w addr RESULT__RANGE_STATUS 0 with
  | None => None
  | Some (w, _) =>
      let w := vl6180x_write_register w addr SYSRANGE__START 0x01 in
      match wait_bit fuel w addr RESULT__INTERRUPT_STATUS_GPIO 2 with
      | None => None
      | Some (w, _) =>
          let (w, mm) := vl6180x_read_register w addr RESULT__RANGE_VAL in
          let w := vl6180x_write_register w addr SYSTEM__INTERRUPT_CLEAR 0x07 in
          match wait_bit fuel w addr RESULT__RANGE_STATUS 0 with
          | None => None
          | Some (w, status) => Some (w, Z.shiftr status 4, mm)
          end
      end
  end.

(** vl6180x.c 55-59: the new dev->address. *)
Definition vl6180x_change_i2c_address (w : world) (addr address : Z) : world * Z :=
  (vl6180x_write_register w addr I2C_SLAVE__DEVICE_ADDRESS address, address).

(** vl6180x.c 69-121 *)
Definition init_tab : list (Z * Z) :=
  [(0x0207, 0x01); (0x0208, 0x01); (0x0096, 0x00); (0x0097, 0xfd); (0x00e3, 0x00); (0x00e4, 0x04); (0x00e5, 0x02); (0x00e6, 0x01);
   (0x00e7, 0x03); (0x00f5, 0x02); (0x00d9, 0x05); (0x00db, 0xce); (0x00dc, 0x03); (0x00dd, 0xf8); (0x009f, 0x00); (0x00a3, 0x3c);
   (0x00b7, 0x00); (0x00bb, 0x3c); (0x00b2, 0x09); (0x00ca, 0x09); (0x0198, 0x01); (0x01b0, 0x17); (0x01ad, 0x00); (0x00ff, 0x05);
   (0x0100, 0x05); (0x0199, 0x05); (0x01a6, 0x1b); (0x01ac, 0x3e); (0x01a7, 0x1f); (0x0030, 0x00);
   (SYSTEM__MODE_GPIO1, 0x10); (READOUT__AVERAGING_SAMPLE_PERIOD, 0x30); (SYSALS__ANALOGUE_GAIN, 0x46); (SYSRANGE__VHV_REPEAT_RATE, 0xFF);
   (SYSALS__INTEGRATION_PERIOD, 0x63); (SYSRANGE__VHV_RECALIBRATE, 0x01); (SYSTEM__INTERRUPT_CONFIG_GPIO, 0x24)].
(** vl6180x.c 64-65 *)
Fixpoint wait_fresh (fuel : nat) (w : world) (addr : Z) : option world :=
  match fuel with
  | O => None
  | S fuel => let (w, v) := vl6180x_read_register w addr 0x16 in if v =? 0x01 then Some w else wait_fresh fuel w addr
  end.
(** vl6180x.c 62-128 *)
Definition vl6180x_configure (fuel : nat) (w : world) (addr : Z) : option world :=
  match wait_fresh fuel w addr with
  | None => None
  | Some w =>
      let w := vl6180x_write_register w addr 0x016 0x00 in
      Some (fold_left (fun w e => vl6180x_write_register w addr (fst e) (snd e)) init_tab w)
  end.

(** main.c 30-31 *)
Definition VL6180X_ADDRESS_0 := 0x29.
Definition VL6180X_ADDRESS_MOD := 0x2A.
(** main.c 38-67: the world, vl6180x_dev.address and the answer to the ping (logged). The reset by the pin of the sensor
    (lines 47-50) is that of the sensor. *)
Definition tof_distance_init (fuel : nat) (w : world) : option (world * Z * bool) :=
  let w := mkw (vl_reset (starts (dev w))) (col w) (faults w) (junk w) in
  let addr := VL6180X_ADDRESS_0 in
  let (w, addr) := vl6180x_change_i2c_address w addr VL6180X_ADDRESS_MOD in
  let (w, ok) := vl6180x_ping w addr in
  match vl6180x_configure fuel w addr with
  | None => None
  | Some w => Some (w, addr, ok)
  end.

(** TCS3472.c 4-32: TCS3472_CMD_AUTO_INC is (1 << 5) | (1 << 7). *)
Definition TCS3472X_I2C_ADDR := 0x29.
Definition TCS3472_CMD_AUTO_INC := 0xA0.
(** TCS3472.c 36-42 *)
Definition TCS3472_write_reg (w : world) (reg val : Z) : world :=
  fst (transfer w TCS3472X_I2C_ADDR [Z.lor reg TCS3472_CMD_AUTO_INC; val] 0).
(** TCS3472.c 44-50 *)
Definition TCS3472_read_reg (w : world) (reg : Z) : world * Z :=
  match transfer w TCS3472X_I2C_ADDR [Z.lor reg TCS3472_CMD_AUTO_INC] 1 with
  | (w, Some (b :: _)) => (w, b)
  | (w, _) => (w, junk w 0)
  end.
(** TCS3472.c 57-64 *)
Definition TCS3472_configure (w : world) (gain integration_time : Z) : world :=
  let w := TCS3472_write_reg w 0x00 (Z.lor 0x01 0x02) in
  let w := TCS3472_write_reg w 0x01 integration_time in
  let w := TCS3472_write_reg w 0x0F gain in
  let w := TCS3472_write_reg w 0x03 0xFF in
  TCS3472_write_reg w 0x0D 0x00.
(** TCS3472.c 66-74 *)
Definition TCS3472_ping (w : world) : world * bool := let (w, id) := TCS3472_read_reg w 0x12 in (w, id =? 0x44).
(** TCS3472.c 76-92: red, green, blue, clear; None: false is returned and nothing is written. *)
Definition TCS3472_read_color (w : world) : world * option (list Z) :=
  match transfer w TCS3472X_I2C_ADDR [Z.lor 0x14 TCS3472_CMD_AUTO_INC] 8 with
  | (w, Some [b0; b1; b2; b3; b4; b5; b6; b7]) =>
      (w, Some [Z.lor b2 (Z.shiftl b3 8); Z.lor b4 (Z.shiftl b5 8); Z.lor b6 (Z.shiftl b7 8); Z.lor b0 (Z.shiftl b1 8)])
  | (w, _) => (w, None)
  end.
(** main.c 71-85: gain of 16, 101 ms. *)
Definition color_sensor_init (w : world) : world * bool :=
  let (w, ok) := TCS3472_ping w in (TCS3472_configure w 0x02 0xD5, ok).

(** cvra.sensor.DistanceVL6180X (status: uint4), cvra.sensor.ColorRGBC. *)
Inductive message := Distance (mm status : Z) | Color (red green blue clear : Z).
(** DistanceVL6180X_pub.cpp 7-20 *)
Definition distance_publish (fuel : nat) (w : world) (addr : Z) : option (world * message) :=
  match vl6180x_measure_distance fuel w addr with
  | None => None
  | Some (w, status, mm) => Some (w, Distance mm (status mod 16))
  end.
(** ColorRGBC_pub.cpp 7-22: the result of TCS3472_read_color is not looked at. *)
Definition color_publish (w : world) : world * message :=
  let (w, r) := TCS3472_read_color w in
  let rgbc := match r with Some l => fun i => nth i l 0 | None => junk w end in
  (w, Color (rgbc 0%nat) (rgbc 1%nat) (rgbc 2%nat) (rgbc 3%nat)).

(** node.cpp 74-80, [turns] times; [use_color] is USE_COLOR_SENSOR. node.spin does nothing here. *)
Fixpoint loop (fuel : nat) (use_color : bool) (turns : nat) (w : world) (addr : Z) : option (world * list message) :=
  match turns with
  | O => Some (w, [])
  | S turns =>
      match distance_publish fuel w addr with
      | None => None
      | Some (w, m) =>
          let (w, ms) := if use_color then let (w, c) := color_publish w in (w, [m; c]) else (w, [m]) in
          match loop fuel use_color turns w addr with
          | None => None
          | Some (w, l) => Some (w, ms ++ l)
          end
      end
  end.
(** main.c 129-137 *)
Definition main (fuel : nat) (use_color : bool) (turns : nat) (w : world) : option (world * list message) :=
  match tof_distance_init fuel w with
  | None => None
  | Some (w, addr, _) => loop fuel use_color turns (if use_color then fst (color_sensor_init w) else w) addr
  end.
End Env.
