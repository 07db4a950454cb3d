(** Model of the actuator board (actuator-firmware/src): orders, safety timer, servomotors and pumps; and of the servo outputs of the IO board (can-io-firmware/src). *)
From Coq Require Import ZArith Reals List Bool.
From Flocq Require Import Core.
From Verif Require Import CBase CRes QuadModel.
Import ListNotations.
Local Open Scope Z_scope.

(** A float as received from the bus. *)
Inductive float := NaN | Inf (negative : bool) | Fin (x : R).
(** IEEE comparisons with a whole number: false for NaN. *)
Definition flt (f : float) (c : Z) : bool := match f with NaN => false | Inf n => n | Fin x => ltb x (IZR c) end.
Definition fgt (f : float) (c : Z) : bool := match f with NaN => false | Inf n => negb n | Fin x => ltb (IZR c) x end.

Section Act.
(** Rounding of a real to a float. *)
Variable rnd : R -> R.

(** float times an integer constant, converted to uint32_t: the fraction is dropped; undefined for NaN and for what does not fit. *)
Definition scale_u32 (f : float) (c : Z) : res Z :=
  match f with
  | Fin x => let z := Ztrunc (rnd (x * IZR c)%R) in if (0 <=? z) && (z <? 2 ^ 32) then OK z else BAD
  | _ => BAD
  end.

(** servo.c:9-12, servo.h (SERVO_COUNT 2), servo.c:20. *)
Definition SERVO_PWM_PERIOD : Z := 20000.
Definition SERVO_PWM_RAMP_SCALE : Z := 10000.
Definition pwm_channels : list nat := [1; 2]%nat.
(** servo.c:27-35. *)
Definition duty_cycle (pos : float) : res Z :=
  let pos := if fgt pos 1 then Fin 1 else if flt pos 0 then Fin 0 else pos in scale_u32 pos SERVO_PWM_PERIOD.
(** servo.c:14-17. *)
Record servo_state := mkServo { setpoint : float; filter : quadramp }.
(** servo.c:37-41. Simplified: velocities and accelerations are finite. *)
Definition set_quadramp_coefficients (q : quadramp) (vel acc : R) : quadramp :=
  let q := quadramp_set_1st_order_vars q (rnd (vel * IZR SERVO_PWM_RAMP_SCALE)) (rnd (vel * IZR SERVO_PWM_RAMP_SCALE)) in
  quadramp_set_2nd_order_vars q (rnd (acc * IZR SERVO_PWM_RAMP_SCALE)) (rnd (acc * IZR SERVO_PWM_RAMP_SCALE)).

(** pump.c:6-8. *)
Definition PWM_PERIOD : Z := 500.
(** safety.c:5 with chconf.h:64 (10 kHz). *)
Definition SAFETY_TIMEOUT : Z := 5000.

(** The board: the variables of the program, and the outputs (compare registers CCR[0..3] of the timers 1, 16 and 17, power and solenoid pins). *)
Record board := mkB {
  servos : list servo_state;
  tim1 : list Z; tim16 : list Z; tim17 : list Z;
  power : bool; solenoid0 : bool; solenoid1 : bool;
  is_allowed_to_move : bool;
  safety_timer : option Z;      (* ticks left *)
  pulsewidth : Z                  (* local variable of servo_thd *)
}.
Definition set_servos b x := mkB x (tim1 b) (tim16 b) (tim17 b) (power b) (solenoid0 b) (solenoid1 b) (is_allowed_to_move b) (safety_timer b) (pulsewidth b).
Definition set_tim1 b x := mkB (servos b) x (tim16 b) (tim17 b) (power b) (solenoid0 b) (solenoid1 b) (is_allowed_to_move b) (safety_timer b) (pulsewidth b).
Definition set_tim16 b x := mkB (servos b) (tim1 b) x (tim17 b) (power b) (solenoid0 b) (solenoid1 b) (is_allowed_to_move b) (safety_timer b) (pulsewidth b).
Definition set_tim17 b x := mkB (servos b) (tim1 b) (tim16 b) x (power b) (solenoid0 b) (solenoid1 b) (is_allowed_to_move b) (safety_timer b) (pulsewidth b).
Definition set_power b x := mkB (servos b) (tim1 b) (tim16 b) (tim17 b) x (solenoid0 b) (solenoid1 b) (is_allowed_to_move b) (safety_timer b) (pulsewidth b).
Definition set_solenoid0 b x := mkB (servos b) (tim1 b) (tim16 b) (tim17 b) (power b) x (solenoid1 b) (is_allowed_to_move b) (safety_timer b) (pulsewidth b).
Definition set_solenoid1 b x := mkB (servos b) (tim1 b) (tim16 b) (tim17 b) (power b) (solenoid0 b) x (is_allowed_to_move b) (safety_timer b) (pulsewidth b).
Definition set_allowed b x := mkB (servos b) (tim1 b) (tim16 b) (tim17 b) (power b) (solenoid0 b) (solenoid1 b) x (safety_timer b) (pulsewidth b).
Definition set_timer b x := mkB (servos b) (tim1 b) (tim16 b) (tim17 b) (power b) (solenoid0 b) (solenoid1 b) (is_allowed_to_move b) x (pulsewidth b).
Definition set_pulse b x := mkB (servos b) (tim1 b) (tim16 b) (tim17 b) (power b) (solenoid0 b) (solenoid1 b) (is_allowed_to_move b) (safety_timer b) x.

(** pwm.c:54-57. *)
Definition pwm_set_pulsewidth (ccr : list Z) (channel : nat) (width : Z) : res (list Z) := put ccr channel width.

(** servo.c:43-59. *)
Definition servo_set (index : nat) (pos : float) (vel acc : R) (b : board) : res board :=
  let pos := if flt pos 0 then Fin 0 else pos in
  let pos := if fgt pos 1 then Fin 1 else pos in
  try s := get (servos b) index in
  try l := put (servos b) index (mkServo pos (set_quadramp_coefficients (filter s) vel acc)) in OK (set_servos b l).
(** pump.c:32-53. *)
Definition pump_set_pwm (index : nat) (duty : float) (b : board) : res board :=
  let duty := if flt duty 0 then Fin 0 else duty in
  let duty := if fgt duty 1 then Fin 1 else duty in
  try width := scale_u32 duty PWM_PERIOD in
  match index with
  | 0%nat => try l := pwm_set_pulsewidth (tim16 b) 0 width in OK (set_tim16 b l)
  | 1%nat => try l := pwm_set_pulsewidth (tim17 b) 0 width in OK (set_tim17 b l)
  | _ => OK b
  end.
(** pump.c:55-67. *)
Definition pump_set_solenoid (index : nat) (on : bool) (b : board) : board :=
  match index with 0%nat => set_solenoid0 b on | 1%nat => set_solenoid1 b on | _ => b end.

(** uavcan_data_types/cvra/actuator/20151.Command.uavcan. *)
Record command := mkCmd { node_id : Z; pump0 : float; pump1 : float; sol0 : bool; sol1 : bool; traj0 : float * R * R; traj1 : float * R * R }.

(** The statements of the handler of orders. The timer interrupt and the servo thread may run between any two of them. *)
Inductive statement :=
| ServoSet (i : nat) (pos : float) (vel acc : R)
| PumpSet (i : nat) (d : float)
| SolenoidSet (i : nat) (on : bool)
| PowerEnable                       (* safety.c:22 *)
| Allow                             (* safety.c:23 *)
| TimerSet.                         (* safety.c:24 *)
(** safety.c:20-25. *)
Definition safety_timer_restart : list statement := [PowerEnable; Allow; TimerSet].
(** Command_handler.cpp:17-45. Simplified: the messages of the log are left out. *)
Definition handler (me : Z) (c : command) : list statement :=
  if negb (node_id c =? me) then []
  else
    let '(p0, v0, a0) := traj0 c in let '(p1, v1, a1) := traj1 c in
    [ServoSet 0 p0 v0 a0; ServoSet 1 p1 v1 a1; PumpSet 0 (pump0 c); PumpSet 1 (pump1 c); SolenoidSet 0 (sol0 c); SolenoidSet 1 (sol1 c)]
      ++ safety_timer_restart.
Definition exec (o : statement) (b : board) : res board :=
  match o with
  | ServoSet i p v a => servo_set i p v a b
  | PumpSet i d => pump_set_pwm i d b
  | SolenoidSet i on => OK (pump_set_solenoid i on b)
  | PowerEnable => OK (set_power b true)
  | Allow => OK (set_allowed b true)
  | TimerSet => OK (set_timer b (Some SAFETY_TIMEOUT))
  end.
(** safety.c:10-18. *)
Definition safety_timer_cb (b : board) : board := set_allowed (set_power b false) false.
(** One tick of the system: a virtual timer set to n calls back at the n-th tick. *)
Definition tick (b : board) : board :=
  match safety_timer b with
  | None => b
  | Some n => if n <=? 1 then safety_timer_cb (set_timer b None) else set_timer b (Some (n - 1))
  end.
(** servo.c:95-103, the three steps of one servomotor: the filter, the safety, the write. [pc] counts them: 3 * i + step. *)
Definition servo_step (pc : nat) (b : board) : res board :=
  let i := Nat.div pc 3 in
  match Nat.modulo pc 3 with
  | 0%nat =>
      try s := get (servos b) i in
      try d := duty_cycle (setpoint s) in
      try (q, o) := quadramp_do_filter (filter s) (s32 d) in
      try l := put (servos b) i (mkServo (setpoint s) q) in OK (set_pulse (set_servos b l) (u32 o))
  | 1%nat => OK (if negb (is_allowed_to_move b) then set_pulse b 0 else b)
  | _ =>
      try ch := get pwm_channels i in
      try l := pwm_set_pulsewidth (tim1 b) ch (pulsewidth b) in OK (set_tim1 b l)
  end.

(** The whole: the board, what the handler has still to do, and where the servo thread is (it has the mutex unless at 0). *)
Record system := mkSys { brd : board; todo : list statement; pc : nat }.
(** What may happen: an order arrives, the thread of the handler does one statement, the servo thread does one step, the clock ticks. An event
    which cannot happen (order while another one is handled: it waits; servo_set while the servo thread has the mutex) changes nothing. *)
Inductive event := Order (c : command) | Handle | Servo | Tick.
Definition takes_mutex (o : statement) : bool := match o with ServoSet _ _ _ _ => true | _ => false end.
Definition step (me : Z) (s : system) (e : event) : res system :=
  match e with
  | Order c => match todo s with [] => OK (mkSys (brd s) (handler me c) (pc s)) | _ => OK s end
  | Handle =>
      match todo s with
      | [] => OK s
      | o :: r => if takes_mutex o && negb (Nat.eqb (pc s) 0) then OK s else try b := exec o (brd s) in OK (mkSys b r (pc s))
      end
  | Servo => try b := servo_step (pc s) (brd s) in OK (mkSys b (todo s) (Nat.modulo (S (pc s)) 6))
  | Tick => OK (mkSys (tick (brd s)) (todo s) (pc s))
  end.
Fixpoint run (me : Z) (s : system) (l : list event) : res system :=
  match l with [] => OK s | e :: l => try s := step me s e in run me s l end.

(** servo.c:73-83, pump.c:10-30, pwm.c:5-52 (compare registers at 0), board.h:187 (power pin low at reset), safety.c:8. *)
Definition boot : system :=
  let sv := mkServo (Fin 0) (set_quadramp_coefficients quadramp_init 1 1) in
  mkSys (mkB [sv; sv] [0; 0; 0; 0] [0; 0; 0; 0] [0; 0; 0; 0] false false false false None 0) [] 0.

(** can-io-firmware/src/servo.c:20-29: scaled by the frequency of the timer, not by its period. *)
Definition SERVO_PWM_TIMER_FREQ : Z := 1000000.
Definition canio_duty_cycle (pos : float) : res Z :=
  let pos := if fgt pos 1 then Fin 1 else if flt pos 0 then Fin 0 else pos in scale_u32 pos SERVO_PWM_TIMER_FREQ.
End Act.

(** pwm.h:12. *)
Definition PWM_CHANNEL (x : Z) : Z := Z.shiftl 1 (x - 1).
(** pwm.c:27-42 of the actuator board and pwm.c:29-44 of the IO board: the output enable bits CC1E, CC2E, CC3E, CC4E (bits 0, 4, 8, 12) of register CCER. *)
Definition ccer (mask : Z) : Z :=
  let c := 0 in
  let c := if negb (Z.land mask (Z.shiftl 1 0) =? 0) then Z.lor c 1 else c in
  let c := if negb (Z.land mask (Z.shiftl 1 1) =? 0) then Z.lor c 16 else c in
  let c := if negb (Z.land mask (Z.shiftl 1 2) =? 0) then Z.lor c 256 else c in
  if negb (Z.land mask (Z.shiftl 1 3) =? 0) then Z.lor c 4096 else c.
(** servo.c:66-67 (actuator board) and can-io-firmware/src/pwm.c:81-82 (logical or). *)
Definition actuator_servo_mask : Z := Z.lor (PWM_CHANNEL 2) (PWM_CHANNEL 3).
Definition canio_servo_mask : Z := Z.b2z (negb (PWM_CHANNEL 2 =? 0) || negb (PWM_CHANNEL 3 =? 0)).
