(** Model of the motor controller: motor-control-firmware/src/setpoint.c, pid_cascade.c,
    motor_protection.c, motor_pwm.c, analog.c and the loop of control.c, over the floating-point machines
    of FloatModel.v. *)
From Coq Require Import ZArith List Bool.
From Verif Require Import CBase CRes FloatModel PidModel TimestampModel.
Import ListNotations.
Local Open Scope Z_scope.

Section Code.
Variable M : machine.
Notation flt := (num (F M)).
Notation fadd := (add (F M)).
Notation fsub := (sub (F M)).
Notation fmul := (mul (F M)).
Notation fdiv := (div (F M)).
Notation fneg := (neg (F M)).
Notation int_ := (of_int M).

(** C's implicit conversions in [x op y] with a double operand. *)
Notation wide := (widen M).

(** * pid_cascade.c *)

(** pid_cascade.c:5-15: fmodf takes the float nearest to 2*M_PI; the comparisons and the subtraction are
    in double. *)
Definition two_pi : num (D M) := mul (D M) (lit (D M) 2 0) (m_pi M).
Definition periodic_error (err : flt) : flt :=
  let err := fmod (F M) err (narrow M two_pi) in
  if lt (D M) (m_pi M) (wide err) then narrow M (sub (D M) (wide err) two_pi)
  else if lt (D M) (wide err) (neg (D M) (m_pi M)) then narrow M (add (D M) (wide err) two_pi)
  else err.

(** * setpoint.c *)

(** setpoint.c:6-9 *)
Definition pos_setpt_interpolation (pos vel acc dt : flt) : flt :=
  fadd (fadd pos (fmul vel dt)) (fmul (fmul (fdiv acc (int_ 2)) dt) dt).

(** setpoint.c:11-14 *)
Definition vel_setpt_interpolation (vel acc dt : flt) : flt := fadd vel (fmul acc dt).

(** copysignf(1.0, x) *)
Definition sign_of (x : flt) : flt := if signbit (F M) x then int_ (-1) else int_ 1.

(** setpoint.c:17-45. Comparing two floats after promotion to double is comparing them. *)
Definition vel_ramp (pos vel target_pos dt max_vel max_acc : flt) (periodic : bool) : flt :=
  let breaking_dist := fdiv (fdiv (fmul vel vel) (int_ 2)) max_acc in
  let error := fsub pos target_pos in
  let error := if periodic then periodic_error error else error in
  let error_sign := sign_of error in
  let close := le (F M) (fabs (F M) error) (fdiv (fmul (fmul max_acc dt) dt) (int_ 2)) in
  let break_ := fneg (filter_limit_sym M (fdiv vel dt) max_acc) in
  if negb (eq (F M) error_sign (sign_of vel)) then
    if le (F M) (fabs (F M) error) breaking_dist || close then break_
    else if le (F M) max_vel (fabs (F M) vel) then int_ 0
    else fmul (fneg error_sign) max_acc
  else
    if close then break_ else fmul (fneg error_sign) max_acc.

(** setpoint.h: SETPT_MODE_* *)
Inductive setpt_mode := MPos | MVel | MTorque | MTraj | MVolt.

(** setpoint.h: setpoint_interpolator_t *)
Record interpolator := {
  mode : setpt_mode;
  target_pos : flt;
  target_vel : flt;
  setpt_voltage : flt;
  setpt_torque : flt;
  setpt_pos : flt;
  setpt_vel : flt;
  traj_acc : flt;
  setpt_ts : Z;
  acc_limit : flt;
  vel_limit : flt;
  ip_periodic : bool }.

(** setpoint.c:47-53: the structure is static, hence zero before. *)
Definition setpoint_init : interpolator :=
  {| mode := MTorque; target_pos := int_ 0; target_vel := int_ 0; setpt_voltage := int_ 0;
     setpt_torque := int_ 0; setpt_pos := int_ 0; setpt_vel := int_ 0; traj_acc := int_ 0; setpt_ts := 0;
     acc_limit := int_ 0; vel_limit := int_ 0; ip_periodic := false |}.

(** setpoint.c:55-59 *)
Definition setpoint_set_acceleration_limit (ip : interpolator) (l : flt) : interpolator :=
  {| mode := mode ip; target_pos := target_pos ip; target_vel := target_vel ip;
     setpt_voltage := setpt_voltage ip; setpt_torque := setpt_torque ip; setpt_pos := setpt_pos ip;
     setpt_vel := setpt_vel ip; traj_acc := traj_acc ip; setpt_ts := setpt_ts ip; acc_limit := l;
     vel_limit := vel_limit ip; ip_periodic := ip_periodic ip |}.

(** setpoint.c:61-64 *)
Definition setpoint_set_velocity_limit (ip : interpolator) (l : flt) : interpolator :=
  {| mode := mode ip; target_pos := target_pos ip; target_vel := target_vel ip;
     setpt_voltage := setpt_voltage ip; setpt_torque := setpt_torque ip; setpt_pos := setpt_pos ip;
     setpt_vel := setpt_vel ip; traj_acc := traj_acc ip; setpt_ts := setpt_ts ip;
     acc_limit := acc_limit ip; vel_limit := l; ip_periodic := ip_periodic ip |}.

(** setpoint.c:66-82 *)
Definition setpoint_update_position (ip : interpolator) (pos current_pos current_vel : flt)
           (periodic : bool) : interpolator :=
  {| mode := MPos; target_pos := pos; target_vel := target_vel ip;
     setpt_voltage := setpt_voltage ip; setpt_torque := setpt_torque ip;
     setpt_pos := match mode ip with MTorque | MVel => current_pos | _ => setpt_pos ip end;
     setpt_vel := match mode ip with MTorque => current_vel | _ => setpt_vel ip end;
     traj_acc := traj_acc ip; setpt_ts := setpt_ts ip; acc_limit := acc_limit ip;
     vel_limit := vel_limit ip; ip_periodic := periodic |}.

(** setpoint.c:84-93 *)
Definition setpoint_update_velocity (ip : interpolator) (vel current_vel : flt) : interpolator :=
  {| mode := MVel; target_pos := target_pos ip; target_vel := vel;
     setpt_voltage := setpt_voltage ip; setpt_torque := setpt_torque ip; setpt_pos := setpt_pos ip;
     setpt_vel := match mode ip with MTorque => current_vel | _ => setpt_vel ip end;
     traj_acc := traj_acc ip; setpt_ts := setpt_ts ip; acc_limit := acc_limit ip;
     vel_limit := vel_limit ip; ip_periodic := ip_periodic ip |}.

(** setpoint.c:95-99 *)
Definition setpoint_update_torque (ip : interpolator) (torque : flt) : interpolator :=
  {| mode := MTorque; target_pos := target_pos ip; target_vel := target_vel ip;
     setpt_voltage := setpt_voltage ip; setpt_torque := torque; setpt_pos := setpt_pos ip;
     setpt_vel := setpt_vel ip; traj_acc := traj_acc ip; setpt_ts := setpt_ts ip;
     acc_limit := acc_limit ip; vel_limit := vel_limit ip; ip_periodic := ip_periodic ip |}.

(** setpoint.c:101-114 *)
Definition setpoint_update_trajectory (ip : interpolator) (pos vel acc torque : flt) (ts : Z) : interpolator :=
  {| mode := MTraj; target_pos := target_pos ip; target_vel := target_vel ip;
     setpt_voltage := setpt_voltage ip; setpt_torque := torque; setpt_pos := pos; setpt_vel := vel;
     traj_acc := acc; setpt_ts := ts; acc_limit := acc_limit ip; vel_limit := vel_limit ip;
     ip_periodic := ip_periodic ip |}.

(** setpoint.c:116-120 *)
Definition setpoint_update_voltage (ip : interpolator) (voltage : flt) : interpolator :=
  {| mode := MVolt; target_pos := target_pos ip; target_vel := target_vel ip;
     setpt_voltage := voltage; setpt_torque := setpt_torque ip; setpt_pos := setpt_pos ip;
     setpt_vel := setpt_vel ip; traj_acc := traj_acc ip; setpt_ts := setpt_ts ip;
     acc_limit := acc_limit ip; vel_limit := vel_limit ip; ip_periodic := ip_periodic ip |}.

(** setpoint.c:171-172 and 150: new position and velocity setpoints. *)
Definition ip_moved (ip : interpolator) (pos vel : flt) : interpolator :=
  {| mode := mode ip; target_pos := target_pos ip; target_vel := target_vel ip;
     setpt_voltage := setpt_voltage ip; setpt_torque := setpt_torque ip; setpt_pos := pos;
     setpt_vel := vel; traj_acc := traj_acc ip; setpt_ts := setpt_ts ip; acc_limit := acc_limit ip;
     vel_limit := vel_limit ip; ip_periodic := ip_periodic ip |}.

(** setpoint.h: struct setpoint_s *)
Record setpoints := {
  position_control_enabled : bool;
  velocity_control_enabled : bool;
  position_setpt : flt;
  velocity_setpt : flt;
  feedforward_torque : flt }.

(** timestamp.c:8-11 *)
Definition timestamp_duration_s (t1 t2 : Z) : flt :=
  fdiv (int_ (timestamp_duration_us t1 t2)) (int_ 1000000).

(** setpoint.c:122-177; [now] is the value of timestamp_get(). *)
Definition setpoint_compute (ip : interpolator) (s : setpoints) (dt : flt) (now : Z)
  : interpolator * setpoints :=
  match mode ip with
  | MTraj =>
      let d := timestamp_duration_s (setpt_ts ip) now in
      (ip, {| position_control_enabled := true; velocity_control_enabled := true;
              position_setpt := pos_setpt_interpolation (setpt_pos ip) (setpt_vel ip) (traj_acc ip) d;
              velocity_setpt := vel_setpt_interpolation (setpt_vel ip) (traj_acc ip) d;
              feedforward_torque := setpt_torque ip |})
  | MTorque =>
      (ip, {| position_control_enabled := false; velocity_control_enabled := false;
              position_setpt := position_setpt s; velocity_setpt := velocity_setpt s;
              feedforward_torque := setpt_torque ip |})
  | MVel =>
      let delta_vel := fsub (target_vel ip) (setpt_vel ip) in
      let v := fadd (setpt_vel ip) (filter_limit_sym M delta_vel (fmul dt (acc_limit ip))) in
      (ip_moved ip (setpt_pos ip) v,
       {| position_control_enabled := false; velocity_control_enabled := true;
          position_setpt := position_setpt s; velocity_setpt := v; feedforward_torque := int_ 0 |})
  | MPos =>
      let acc := vel_ramp (setpt_pos ip) (setpt_vel ip) (target_pos ip) dt (vel_limit ip) (acc_limit ip)
                   (ip_periodic ip) in
      let pos := pos_setpt_interpolation (setpt_pos ip) (setpt_vel ip) acc dt in
      let vel := vel_setpt_interpolation (setpt_vel ip) acc dt in
      (ip_moved ip pos vel,
       {| position_control_enabled := true; velocity_control_enabled := true;
          position_setpt := pos; velocity_setpt := vel; feedforward_torque := int_ 0 |})
  | MVolt => (ip, s)
  end.

(** pid_cascade.h: struct pid_cascade_s, without the members that are only written for display
    (position_error, the *_ctrl_out, torque) and motor_current_offset. *)
Record cascade := {
  current_pid : pid M;
  velocity_pid : pid M;
  position_pid : pid M;
  motor_current_constant : flt;
  velocity_limit : flt;
  torque_limit : flt;
  current_limit : flt;
  setpts : setpoints;
  periodic_actuator : bool;
  position : flt;
  velocity : flt;
  current : flt;
  motor_voltage : flt;
  velocity_setpoint : flt;
  velocity_error : flt;
  current_setpoint : flt;
  current_error : flt }.

(** pid_cascade.c:17-57 *)
Definition pid_cascade_control (c : cascade) : cascade :=
  let s := setpts c in
  let '(ppid, pos_ctrl_vel) :=
    if position_control_enabled s then
      let e := fsub (position c) (position_setpt s) in
      let e := if periodic_actuator c then periodic_error e else e in
      pid_process M (position_pid c) e
    else (pid_reset_integral M (position_pid c), int_ 0) in
  let '(vpid, vset, verr, vel_ctrl_torque) :=
    if velocity_control_enabled s then
      let v := filter_limit_sym M (fadd (velocity_setpt s) pos_ctrl_vel) (velocity_limit c) in
      let e := fsub (velocity c) v in
      let r := pid_process M (velocity_pid c) e in
      (fst r, v, e, snd r)
    else (pid_reset_integral M (velocity_pid c), velocity_setpoint c, velocity_error c, int_ 0) in
  let torque := filter_limit_sym M (fadd vel_ctrl_torque (feedforward_torque s)) (torque_limit c) in
  let i := filter_limit_sym M (fmul torque (motor_current_constant c)) (current_limit c) in
  let e := fsub (current c) i in
  let r := pid_process M (current_pid c) e in
  {| current_pid := fst r; velocity_pid := vpid; position_pid := ppid;
     motor_current_constant := motor_current_constant c; velocity_limit := velocity_limit c;
     torque_limit := torque_limit c; current_limit := current_limit c; setpts := s;
     periodic_actuator := periodic_actuator c; position := position c; velocity := velocity c;
     current := current c; motor_voltage := snd r; velocity_setpoint := vset; velocity_error := verr;
     current_setpoint := i; current_error := e |}.

(** * motor_protection.c *)

Record protection := {
  temp : flt; t_max : flt; t_ambient : flt; r_th : flt; c_th : flt; current_gain : flt }.

(** motor_protection.c:6-14 *)
Definition motor_protection_init (t_max r_th c_th current_gain : flt) : protection :=
  {| temp := int_ 25; t_max := t_max; t_ambient := int_ 25; r_th := r_th; c_th := c_th;
     current_gain := current_gain |}.

(** motor_protection.c:16-27 *)
Definition motor_protection_update (p : protection) (current dt : flt) : protection * flt :=
  let P_in := fmul current (current_gain p) in
  let P_out := fdiv (fsub (temp p) (t_ambient p)) (r_th p) in
  let t := fadd (temp p) (fdiv (fmul (fsub P_in P_out) dt) (c_th p)) in
  let equilibrium_current := fdiv P_out (current_gain p) in
  ({| temp := t; t_max := t_max p; t_ambient := t_ambient p; r_th := r_th p; c_th := c_th p;
      current_gain := current_gain p |},
   if le (F M) (t_max p) t then equilibrium_current else inf (F M)).

(** * motor_pwm.c *)

(** motor_pwm.c:6 *)
Definition PWM_PERIOD : Z := 2880.

(** motor_pwm.c:88-97. 0.95 is a double; the assignment rounds it to float, and so is the product.
    The conversion to int32_t of a value that does not fit, or NaN, is undefined: [BAD]. *)
Definition lit_095 : num (D M) := lit (D M) 8556839292003942 (-53).
Definition motor_pwm_set (dc : flt) : res Z :=
  let dc := if lt (D M) lit_095 (wide dc) then narrow M lit_095
            else if lt (D M) (wide dc) (neg (D M) lit_095) then narrow M (neg (D M) lit_095)
            else dc in
  try p := some (trunc (F M) (fmul dc (int_ PWM_PERIOD))) in
  int p.

(** * control.c *)

(** analog.c:7-8: the nearest floats to 0.001611328125 and 0.005281575521. *)
Definition ADC_TO_AMPS : flt := lit (F M) 13841203 (-33).
Definition ADC_TO_VOLTS : flt := lit (F M) 11342097 (-31).

(** analog.c:23-26 *)
Definition battery_volts (raw : Z) : flt := fmul (int_ raw) ADC_TO_VOLTS.

(** analog.c:28-35; ADC_MAX / 2 = 2048. *)
Definition motor_current (accu nb : Z) : flt :=
  fmul (fneg (fsub (fdiv (int_ accu) (int_ nb)) (int_ 2048))) ADC_TO_AMPS.

(** The state of control.c: the static variables of lines 29-95. *)
Record control := {
  ip : interpolator;
  ctrl : cascade;
  last_setpoint_update : Z;
  low_batt_th : flt;
  current_offset : flt;
  power_pwm : Z }.

(** control.c:20: DEFAULT_CTRL_TIMEOUT 0.3f *)
Definition ctrl_timeout : flt := lit (F M) 10066330 (-25).

(** control.c:414: 1 / (float)ANALOG_CONVERSION_FREQUENCY, which is 2002 (analog.h:13). *)
Definition delta_t : flt := fdiv (int_ 1) (int_ 2002).

(** What the loop reads in one round: the feedback (feedback.c, not modelled here), the motor current and
    battery samples and the clock. *)
Record inputs := {
  in_periodic : bool;
  in_position : flt;
  in_velocity : flt;
  in_accu : Z; in_nb : Z;
  in_battery : Z;
  in_now : Z }.

Definition set_ip (c : control) (i : interpolator) (now : Z) : control :=
  {| ip := i; ctrl := ctrl c; last_setpoint_update := now; low_batt_th := low_batt_th c;
     current_offset := current_offset c; power_pwm := power_pwm c |}.

(** control.c:426-430. The velocity filter is computed in double: 0.9 and 0.1. *)
Definition measured (c : control) (i : inputs) : cascade :=
  let k := ctrl c in
  {| current_pid := current_pid k; velocity_pid := velocity_pid k; position_pid := position_pid k;
     motor_current_constant := motor_current_constant k; velocity_limit := velocity_limit k;
     torque_limit := torque_limit k; current_limit := current_limit k; setpts := setpts k;
     periodic_actuator := in_periodic i; position := in_position i;
     velocity := narrow M (add (D M) (mul (D M) (wide (velocity k)) (lit (D M) 8106479329266893 (-53)))
                                     (mul (D M) (wide (in_velocity i)) (lit (D M) 7205759403792794 (-56))));
     current := fsub (motor_current (in_accu i) (in_nb i)) (current_offset c);
     motor_voltage := motor_voltage k; velocity_setpoint := velocity_setpoint k;
     velocity_error := velocity_error k; current_setpoint := current_setpoint k;
     current_error := current_error k |}.

Definition with_setpts (k : cascade) (s : setpoints) : cascade :=
  {| current_pid := current_pid k; velocity_pid := velocity_pid k; position_pid := position_pid k;
     motor_current_constant := motor_current_constant k; velocity_limit := velocity_limit k;
     torque_limit := torque_limit k; current_limit := current_limit k; setpts := s;
     periodic_actuator := periodic_actuator k; position := position k; velocity := velocity k;
     current := current k; motor_voltage := motor_voltage k; velocity_setpoint := velocity_setpoint k;
     velocity_error := velocity_error k; current_setpoint := current_setpoint k;
     current_error := current_error k |}.

(** control.c:436-438 *)
Definition reset_pids (k : cascade) : cascade :=
  {| current_pid := pid_reset_integral M (current_pid k);
     velocity_pid := pid_reset_integral M (velocity_pid k);
     position_pid := pid_reset_integral M (position_pid k);
     motor_current_constant := motor_current_constant k; velocity_limit := velocity_limit k;
     torque_limit := torque_limit k; current_limit := current_limit k; setpts := setpts k;
     periodic_actuator := periodic_actuator k; position := position k; velocity := velocity k;
     current := current k; motor_voltage := motor_voltage k; velocity_setpoint := velocity_setpoint k;
     velocity_error := velocity_error k; current_setpoint := current_setpoint k;
     current_error := current_error k |}.

(** control.c:218-222 *)
Definition set_motor_voltage (u : flt) (battery : Z) : res Z :=
  motor_pwm_set (fdiv u (battery_volts battery)).

(** control.c:415-458: one round of the loop, after update_parameters. *)
Definition control_round (c : control) (i : inputs) : res control :=
  let k := measured c i in
  if lt (F M) (battery_volts (in_battery i)) (low_batt_th c)
     || lt (F M) ctrl_timeout (timestamp_duration_s (last_setpoint_update c) (in_now i)) then
    try p := set_motor_voltage (int_ 0) (in_battery i) in
    OK {| ip := ip c; ctrl := reset_pids k; last_setpoint_update := last_setpoint_update c;
          low_batt_th := low_batt_th c; current_offset := current_offset c; power_pwm := p |}
  else
    let '(ip', s) := setpoint_compute (ip c) (setpts k) delta_t (in_now i) in
    let k := pid_cascade_control (with_setpts k s) in
    try p := set_motor_voltage (match mode ip' with MVolt => setpt_voltage ip' | _ => motor_voltage k end)
               (in_battery i) in
    OK {| ip := ip'; ctrl := k; last_setpoint_update := last_setpoint_update c;
          low_batt_th := low_batt_th c; current_offset := current_offset c; power_pwm := p |}.

(** The setpoint functions of control.c:100-151, called from the CAN thread. Each is one atomic step:
    the semaphore protects the interpolator, and a round of the loop between the update and the
    new time stamp would only see the old time stamp. *)
Inductive request :=
| ReqPosition (pos : flt)
| ReqVelocity (vel : flt)
| ReqTorque (torque : flt)
| ReqTrajectory (pos vel acc torque : flt) (ts : Z)
| ReqVoltage (voltage : flt).

Definition control_request (c : control) (r : request) (now : Z) : control :=
  let k := ctrl c in
  match r with
  | ReqPosition p => set_ip c (setpoint_update_position (ip c) p (position k) (velocity k) (periodic_actuator k)) now
  | ReqVelocity v => set_ip c (setpoint_update_velocity (ip c) v (velocity k)) now
  | ReqTorque t => set_ip c (setpoint_update_torque (ip c) t) now
  | ReqTrajectory p v a t ts => set_ip c (setpoint_update_trajectory (ip c) p v a t ts) now
  | ReqVoltage u => set_ip c (setpoint_update_voltage (ip c) u) now
  end.

(** update_parameters, control.c:335-397: the new values of the parameters that changed. *)
Inductive which := Position | Velocity | Current.
Inductive parameter :=
| PGains (w : which) (kp ki kd : flt)
| PILimit (w : which) (l : flt)
| PLowBatt (v : flt)
| PVelLimit (v : flt)
| PTorqueLimit (v torque_cst : flt)
| PAccLimit (v : flt)
| PCurrentConstant (v : flt)
| PCurrentOffset (v : flt).

Definition with_pids (k : cascade) (pc pv pp : pid M) : cascade :=
  {| current_pid := pc; velocity_pid := pv; position_pid := pp;
     motor_current_constant := motor_current_constant k; velocity_limit := velocity_limit k;
     torque_limit := torque_limit k; current_limit := current_limit k; setpts := setpts k;
     periodic_actuator := periodic_actuator k; position := position k; velocity := velocity k;
     current := current k; motor_voltage := motor_voltage k; velocity_setpoint := velocity_setpoint k;
     velocity_error := velocity_error k; current_setpoint := current_setpoint k;
     current_error := current_error k |}.

Definition with_limits (k : cascade) (constant vl tl cl : flt) : cascade :=
  {| current_pid := current_pid k; velocity_pid := velocity_pid k; position_pid := position_pid k;
     motor_current_constant := constant; velocity_limit := vl;
     torque_limit := tl; current_limit := cl; setpts := setpts k;
     periodic_actuator := periodic_actuator k; position := position k; velocity := velocity k;
     current := current k; motor_voltage := motor_voltage k; velocity_setpoint := velocity_setpoint k;
     velocity_error := velocity_error k; current_setpoint := current_setpoint k;
     current_error := current_error k |}.

Definition set_ctrl (c : control) (k : cascade) : control :=
  {| ip := ip c; ctrl := k; last_setpoint_update := last_setpoint_update c;
     low_batt_th := low_batt_th c; current_offset := current_offset c; power_pwm := power_pwm c |}.

Definition on_pid (k : cascade) (w : which) (f : pid M -> pid M) : cascade :=
  match w with
  | Current => with_pids k (f (current_pid k)) (velocity_pid k) (position_pid k)
  | Velocity => with_pids k (current_pid k) (f (velocity_pid k)) (position_pid k)
  | Position => with_pids k (current_pid k) (velocity_pid k) (f (position_pid k))
  end.

Definition control_parameter (c : control) (p : parameter) : control :=
  let k := ctrl c in
  match p with
  | PGains w a b d => set_ctrl c (on_pid k w (fun q => pid_reset_integral M (pid_set_gains M q a b d)))
  | PILimit w l => set_ctrl c (on_pid k w (fun q => pid_set_integral_limit M q l))
  | PLowBatt v =>
      {| ip := ip c; ctrl := k; last_setpoint_update := last_setpoint_update c; low_batt_th := v;
         current_offset := current_offset c; power_pwm := power_pwm c |}
  | PVelLimit v =>
      {| ip := setpoint_set_velocity_limit (ip c) v;
         ctrl := with_limits k (motor_current_constant k) v (torque_limit k) (current_limit k);
         last_setpoint_update := last_setpoint_update c; low_batt_th := low_batt_th c;
         current_offset := current_offset c; power_pwm := power_pwm c |}
  | PTorqueLimit v cst =>
      set_ctrl c (with_limits k (motor_current_constant k) (velocity_limit k) v (fdiv v cst))
  | PAccLimit v =>
      {| ip := setpoint_set_acceleration_limit (ip c) v; ctrl := k;
         last_setpoint_update := last_setpoint_update c; low_batt_th := low_batt_th c;
         current_offset := current_offset c; power_pwm := power_pwm c |}
  | PCurrentConstant v =>
      set_ctrl c (with_limits k v (velocity_limit k) (torque_limit k) (current_limit k))
  | PCurrentOffset v =>
      {| ip := ip c; ctrl := k; last_setpoint_update := last_setpoint_update c;
         low_batt_th := low_batt_th c; current_offset := v; power_pwm := power_pwm c |}
  end.

(** control.c:300-333 with the default parameters of lines 245-296: torque constant 1, no limits. *)
Definition control_init (now : Z) : control :=
  let p := pid_set_frequency M (pid_init M) (int_ 2002) in
  {| ip := setpoint_init;
     ctrl := {| current_pid := p; velocity_pid := p; position_pid := p;
                motor_current_constant := int_ 1; velocity_limit := inf (F M); torque_limit := inf (F M);
                current_limit := inf (F M);
                setpts := {| position_control_enabled := false; velocity_control_enabled := false;
                             position_setpt := int_ 0; velocity_setpt := int_ 0;
                             feedforward_torque := int_ 0 |};
                periodic_actuator := false; position := int_ 0; velocity := int_ 0; current := int_ 0;
                motor_voltage := int_ 0; velocity_setpoint := int_ 0; velocity_error := int_ 0;
                current_setpoint := int_ 0; current_error := int_ 0 |};
     last_setpoint_update := now; low_batt_th := int_ 5; current_offset := int_ 0; power_pwm := 0 |}.

Inductive event :=
| Request (r : request) (now : Z)
| SetParam (p : parameter)
| Round (i : inputs).

Definition control_step (c : control) (e : event) : res control :=
  match e with
  | Request r now => OK (control_request c r now)
  | SetParam p => OK (control_parameter c p)
  | Round i => control_round c i
  end.

Fixpoint control_run (c : control) (es : list event) : res control :=
  match es with
  | [] => OK c
  | e :: es => try c := control_step c e in control_run c es
  end.

End Code.

(** * The PWM timer, motor_pwm.c:33-67 and 112-118

    The two compare registers of the H-bridge and the flags shared by the interrupts. [notify] is the
    periodic notification of the timer. *)
Record bridge := {
  ccr_direction : Z;
  ccr_power : Z;
  recharge_flag : bool;
  notify : bool }.

Inductive bridge_event :=
| Trigger (recharge : bool)   (* motor_pwm_trigger_update_from_isr *)
| Period (power_pwm : Z).     (* the timer wraps: pwm_counter_reset, if enabled *)

(** motor_pwm.c:12-13: 0.75 * PWM_PERIOD and its complement. *)
Definition DIRECTION_DC_RECHARGE : Z := 2160.
Definition RECHARGE_CORRECTION : Z := 720.

(** motor_pwm.c:33-67 *)
Definition pwm_counter_reset (b : bridge) (power_pwm : Z) : bridge :=
  if 0 <=? power_pwm then
    {| ccr_direction := 0; ccr_power := power_pwm; recharge_flag := false; notify := false |}
  else
    let rev := PWM_PERIOD + power_pwm in
    if recharge_flag b then
      let rev := rev - RECHARGE_CORRECTION in
      {| ccr_direction := DIRECTION_DC_RECHARGE; ccr_power := if rev <? 0 then 0 else rev;
         recharge_flag := false; notify := notify b |}
    else
      {| ccr_direction := PWM_PERIOD; ccr_power := rev; recharge_flag := false; notify := false |}.

Definition bridge_step (b : bridge) (e : bridge_event) : bridge :=
  match e with
  | Trigger r => {| ccr_direction := ccr_direction b; ccr_power := ccr_power b; recharge_flag := r;
                    notify := true |}
  | Period p => if notify b then pwm_counter_reset b p else b
  end.

Definition bridge_run (b : bridge) (es : list bridge_event) : bridge := fold_left bridge_step es b.

(** The registers are zero after reset. *)
Definition bridge_init : bridge :=
  {| ccr_direction := 0; ccr_power := 0; recharge_flag := false; notify := false |}.

(** * analog.c:42-85: the conversion callback

    [samples] are the four interleaved channels of [n] conversions; reading outside is [BAD]. *)
Record adc := {
  countdown : Z;
  accumulator : Z; nb_samples : Z;
  battery : Z; aux : Z }.

(** analog.c:49 in the first call: the counters of lines 18-21 and 46. *)
Definition adc_init : adc := {| countdown := 0; accumulator := 0; nb_samples := 1; battery := 0; aux := 0 |}.

Fixpoint adc_sum (samples : list Z) (i k : nat) (acc : Z) : res Z :=
  match k with
  | O => OK acc
  | S k => try x := get samples (4 * i + 1) in adc_sum samples (S i) k (u32 (acc + x))
  end.

(** Returns the new state and the [recharge] argument of motor_pwm_trigger_update_from_isr. *)
Definition adc_callback (a : adc) (samples : list Z) (n : nat) : res (adc * bool) :=
  let recharge := countdown a =? 0 in
  let c := if recharge then 4 else countdown a in
  let first := if c =? 3 then 111%nat else 0%nat in
  try acc := adc_sum samples first (n - first) 0 in
  try b := get samples 3 in
  try x := get samples 0 in
  try y := get samples 2 in
  OK ({| countdown := c - 1; accumulator := s32 acc; nb_samples := Z.of_nat n - Z.of_nat first;
         battery := b; aux := x + y |}, recharge).
