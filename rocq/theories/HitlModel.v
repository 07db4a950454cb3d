(** Model of the hardware-in-the-loop simulator: hitl/main.cpp, PhysicsRobot.cpp, the emulated boards and ProximityBeaconEmulator.cpp, with the odometry
    of the master (EncModel) and its beacon handler (OppModel) on the other end of the bus.

    Simplified: float and double are real numbers, atan2f is the function it approximates. Box2D is not modelled: the motion of the robot is given, period by
    period. A mutex protects the data of each emulated board, whose functions are therefore atomic. *)
From Coq Require Import ZArith QArith Reals List Bool.
From Flocq Require Import Core.
From Verif Require Import CRes QuadModel EncModel TrajModel OppModel.
Import ListNotations.
Local Open Scope R_scope.

(** * Forces *)

(** main.cpp:34-43 *)
Definition clamp (min val max : R) : R := if ltb max val then val else if ltb val min then min else val.
(** main.cpp:249-252: the forces on the left and right wheels, for the voltages of the two emulated motor boards. *)
Definition wheel_forces (left right : R) : R * R :=
  let f_max := 8 in (clamp (- f_max) (- left) f_max, clamp (- f_max) right f_max).

(** * Emulated boards. [own] is the node number of the board. *)

(** motor_board_emulator.cpp:22-34 *)
Definition motor_command (own : Z) (voltage : R) (msg : Z * R) : R := if (fst msg =? own)%Z then snd msg else voltage.
(** motor_board_emulator.cpp:4-6: the voltage is zero at first; get_voltage (43-47) reads it. *)
Definition motor_voltage (own : Z) (msgs : list (Z * R)) : R := fold_left (motor_command own) msgs 0.

(** servo_board_emulator.cpp:9-12 and 31-44: four positions. *)
Definition quad := (R * R * R * R)%type.
Definition servo_command (own : Z) (pos : quad) (msg : Z * quad) : quad := if (fst msg =? own)%Z then snd msg else pos.
Definition servo_positions (own : Z) (msgs : list (Z * quad)) : quad := fold_left (servo_command own) msgs (0, 0, 0, 0).

(** actuator_board_emulator.h:24-31. The constructor (actuator_board_emulator.cpp:5-10) sets the pressures and the digital input only: [None] is an
    indeterminate value. Of each array the first element and the second are kept. *)
Record outputs := mkOutputs { pump : R * R; solenoid : bool * bool; servo : R * R }.
Record actuator := mkActuator { pressure_pa : Z * Z; digital_input : bool; outs : option outputs }.
Definition actuator_init : actuator := mkActuator (0, 0)%Z false None.
(** actuator_board_emulator.cpp:43-57 *)
Definition actuator_command (own : Z) (a : actuator) (msg : Z * outputs) : actuator :=
  if (fst msg =? own)%Z then mkActuator (pressure_pa a) (digital_input a) (Some (snd msg)) else a.
(** actuator_board_emulator.h:36-46 *)
Definition set_pressure (a : actuator) (p : R * R) : res actuator :=
  try p0 := to_int32 (fst p) in try p1 := to_int32 (snd p) in OK (mkActuator (p0, p1) (digital_input a) (outs a)).
Definition set_digital_input (a : actuator) (b : bool) : actuator := mkActuator (pressure_pa a) b (outs a).
(** main.cpp:278-282: the dummy simulation, with get_servo_pos, get_pwm and get_solenoid (actuator_board_emulator.h:48-64). [BAD]: an indeterminate
    value is read, or a pressure does not fit in an int. *)
Definition dummy_simulation (a : actuator) : res actuator :=
  match outs a with
  | None => BAD
  | Some o =>
      try a := set_pressure a (fst (servo o) * 1000 * 50e3, fst (pump o) * 50e3) in
      OK (set_digital_input a (fst (solenoid o)))
  end.
(** actuator_board_emulator.cpp:27-39: what the timer publishes. *)
Definition actuator_feedback (a : actuator) : (Z * Z) * bool := (pressure_pa a, digital_input a).
(** The life of the emulated board: commands from the bus and periods of main.cpp:244-284 in any order. *)
Inductive board_event := Command (msg : Z * outputs) | Period.
Definition board_step (own : Z) (a : actuator) (e : board_event) : res actuator :=
  match e with Command msg => OK (actuator_command own a msg) | Period => dummy_simulation a end.
Fixpoint board_run (own : Z) (a : actuator) (es : list board_event) : res actuator :=
  match es with [] => OK a | e :: es => try a := board_step own a e in board_run own a es end.

(** * Wheel encoders *)

(** What Box2D says of the robot after a step: linear velocity (m/s, of the table), direction and angular velocity. *)
Record motion := mkMotion { vel_x : R; vel_y : R; direction : R; spin : R }.
(** PhysicsRobot.cpp:41-52; the local vector is the world vector turned back by the direction. *)
Definition accumulate (size_y dt : R) (w : R * R) (m : motion) : R * R :=
  let local_x := cos (direction m) * vel_x m + sin (direction m) * vel_y m in
  let left := fst w + local_x * dt in
  let right := snd w + local_x * dt in
  (left - 0.5 * size_y * spin m * dt, right + 0.5 * size_y * spin m * dt).
(** PhysicsRobot.cpp:54-58 *)
Definition get_wheel_encoders (pulse_per_mm : R) (w : R * R) : res (Z * Z) :=
  try l := to_int32 (1000 * pulse_per_mm * fst w) in try r := to_int32 (1000 * pulse_per_mm * snd w) in OK (l, r).
(** main.cpp:261-264 and set_encoders (wheel_encoders_emulator.cpp:44-49): what the emulated board publishes from then on. *)
Definition publish_encoders (pulse_per_mm : R) (w : R * R) : res (Z * Z) :=
  try lr := get_wheel_encoders pulse_per_mm w in try nl := int (- fst lr) in OK (nl, snd lr).

(** main.cpp:207-215: the robot of the simulation, and the period of its loop (245). *)
Definition size : R := 0.212.
Definition pulse_per_mm : R := 162.
Definition dt : R := 0.01.
(** config_simulation.yaml:10-16: the configuration of the master in the simulation. The factors -1 and 1 of the wheels are exact products. *)
Definition external_track_mm : R := 174.
Definition external_encoder_ticks_per_mm : R := 162.
Definition int32_of (z : Z) : option Z := if ((- 2 ^ 31 <=? z) && (z <? 2 ^ 31))%Z then Some z else None.
Definition left_wheel_correction_factor : scaling := fun z => int32_of (- z).
Definition right_wheel_correction_factor : scaling := fun z => int32_of z.

(** The simulator and the master: in a period the wheels turn and the encoders are stored; the master updates its robot system from the latest message. *)
Record world := mkWorld { wheels_m : R * R; published : Z * Z; master : robot_system }.
Definition world_init : world := mkWorld (0, 0) (0, 0)%Z (rs_init left_wheel_correction_factor right_wheel_correction_factor).
Inductive world_event := Move (m : motion) | Update.
Definition world_step (w : world) (e : world_event) : res world :=
  match e with
  | Move m => let p := accumulate size dt (wheels_m w) m in try enc := publish_encoders pulse_per_mm p in OK (mkWorld p enc (master w))
  | Update => try rs := rs_update (master w) (fst (published w)) (snd (published w)) in OK (mkWorld (wheels_m w) (published w) rs)
  end.
Fixpoint world_run (w : world) (es : list world_event) : res world :=
  match es with [] => OK w | e :: es => try w := world_step w e in world_run w es end.

(** * Proximity beacon *)

(** ProximityBeaconEmulator.cpp:4-7 *)
Definition reflector_diameter : R := 0.08.
Definition min_detection_distance : R := 1.5.
(** ProximityBeaconEmulator.cpp:26-45: the message of a period, if there is one. Positions are in m; [BAD]: division by a distance of zero. *)
Definition beacon_message (robot : R * R) (heading : R) (opponent : R * R) : res (option can_signal) :=
  let dx := fst opponent - fst robot in
  let dy := snd opponent - snd robot in
  let distance := sqrt (dx * dx + dy * dy) in
  let start := atan2 dy dx - heading in
  if ltb distance min_detection_distance then
    if neq0 distance then OK (Some (mkCan start (reflector_diameter / distance))) else BAD
  else OK None.
(** config_simulation.yaml:15-16 *)
Definition reflector_radius : R := 0.04.
Definition angular_offset : R := 0.
(** Where the master at that pose (m) puts the opponent, in mm: beacon_signal_handler.cpp and map_server.cpp. *)
Definition seen_at (robot : R * R) (heading : R) (opp : R * R) : res (option (R * R)) :=
  try m := beacon_message robot heading opp in
  let p := mkPose (1000 * fst robot) (1000 * snd robot) heading in
  OK (match m with
      | None => None
      | Some m => match beacon_cb (Some reflector_radius) (Some angular_offset) p m with Some s => Some (OppModel.opponent p s) | None => None end
      end).

(** * The table *)
Local Open Scope Q_scope.
Inductive color := GREEN | RED.
Record cup := mkCup { cup_color : color; cup_x : Q; cup_y : Q }.
(** main.cpp:149-164 *)
Definition half_cups : list cup :=
  [mkCup GREEN 0.3 0.4; mkCup RED 0.3 1.2; mkCup RED 0.45 0.51; mkCup GREEN 0.45 1.08; mkCup GREEN 0.67 0.1; mkCup RED 0.95 0.4;
   mkCup GREEN 1.1 0.8; mkCup RED 1.27 1.2; mkCup RED 1.065 1.65; mkCup GREEN 1.335 1.65; mkCup GREEN 1.005 1.955; mkCup RED 1.395 1.955].
(** main.cpp:166-182 *)
Definition symmetry (c : cup) : cup := mkCup (match cup_color c with RED => GREEN | GREEN => RED end) (3 - cup_x c) (cup_y c).
Definition create_cups (half : list cup) : list cup := half ++ map symmetry half.
(** main.cpp:99-141: centres of the three short borders inside the table. *)
Definition inner_borders : list (Q * Q) := [(0.9, 1.925); (2.1, 1.925); (1.5, 1850)].
