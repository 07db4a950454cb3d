(** Model of the trajectory manager and of the control loops of the robot's base: lib/aversive/trajectory_manager,
    lib/aversive/control_system_manager, master-firmware/src/base/{base_controller.cpp, cs_port.c} and
    master-firmware/src/robot_helpers/trajectory_helpers.cpp.

    Simplified: double, and the float members of the target, are real numbers (exact arithmetic), except in the PID
    controllers, which are those of PidModel.v over IEEE floats. Circles, lines and clitoids: CurvModel.v. The
    threads of the base controller and trajectory_has_ended hold robot.lock, the commands hold the lock of the trajectory:
    each event of this model is one of these actions, taken as atomic. Simplified: a command given without robot.lock, as
    the strategy does, is not in fact atomic for the control loop, which reads the control systems without the lock of
    the trajectory; these interleavings (data races, undefined in C++) are not modelled. *)
From Coq Require Import ZArith Reals List Bool.
From Flocq Require Import Core.
From Verif Require Import CBase CRes FloatModel PidModel QuadModel EncModel.
Import ListNotations.
Local Open Scope R_scope.

(** * Angles *)

(** atan2 of the C library. *)
Definition atan2 (y x : R) : R :=
  if ltb 0 x then atan (y / x)
  else if ltb x 0 then (if ltb y 0 then atan (y / x) - PI else atan (y / x) + PI)
  else if ltb 0 y then PI / 2 else if ltb y 0 then - (PI / 2) else 0.
(** trajectory_manager_utils.h:32 RAD *)
Definition RAD (x : R) : R := x * (PI / 180).
(** trajectory_manager_utils.cpp:93-101 (see PosModel.v for the same function over doubles). *)
Definition simple_modulo_2pi (a : R) : R :=
  if ltb a (- PI) then a + 2 * PI else if ltb PI a then a - 2 * PI else a.
(** trajectory_manager_utils.cpp:104-108 *)
Definition modulo_2pi (a : R) : res R :=
  try k := to_int32 (a / (2 * PI)) in
  OK (simple_modulo_2pi (a - IZR k * (2 * PI))).

(** * Control systems *)

(** cs_port.h cs_pid_t *)
Record cs_pid := mkCsPid { c_pid : pid ieee; divider : num (F ieee) }.
(** cs_port.c:9-14: the result of the float product is converted to int32_t. *)
Definition cs_pid_process (p : cs_pid) (error : Z) : res (cs_pid * Z) :=
  let '(q, cmd) := pid_process ieee (c_pid p) (div (F ieee) (of_int ieee error) (divider p)) in
  match trunc (F ieee) (mul (F ieee) cmd (divider p)) with
  | Some z => try z := int z in OK (mkCsPid q (divider p), z)
  | None => BAD
  end.

(** control_system_manager.h struct cs, with its filter (a quadramp) and its controller, as base_controller.cpp:62-84
    connects them: no feedback nor output filter, always enabled. *)
Record cs := mkCs { consign_value : Z; filtered_consign_value : Z; error_value : Z; out_value : Z;
                    consign_filter : quadramp; correct_filter : cs_pid }.
(** control_system_manager.c:176-179 cs_set_consign *)
Definition cs_set_consign (c : cs) (v : Z) : cs :=
  mkCs v (filtered_consign_value c) (error_value c) (out_value c) (consign_filter c) (correct_filter c).
Definition cs_set_filter (c : cs) (q : quadramp) : cs :=
  mkCs (consign_value c) (filtered_consign_value c) (error_value c) (out_value c) q (correct_filter c).
Definition cs_set_pid (c : cs) (p : cs_pid) : cs :=
  mkCs (consign_value c) (filtered_consign_value c) (error_value c) (out_value c) (consign_filter c) p.
(** control_system_manager.c:109-146 cs_do_process and cs_manage up to the call of process_in, which the caller does
    with [out_value]. [feedback] is the value of process_out. *)
Definition cs_manage (c : cs) (feedback : Z) : res cs :=
  try (q, f) := quadramp_do_filter (consign_filter c) (consign_value c) in
  try e := int (f - feedback) in
  try (p, o) := cs_pid_process (correct_filter c) e in
  OK (mkCs (consign_value c) f e o q p).

(** * State *)

(** base_controller.h:31-38 *)
Inductive board_mode := ANGLE_DISTANCE | ANGLE_ONLY | DISTANCE_ONLY | INDEPENDENT | FREE | SET_PWM.
(** trajectory_manager.h:51-80 without circles, lines and clitoids: the nine states of a movement to a point are given
    by the direction of the movement and its phase. *)
Inductive direction := AUTO | FORWARD | BACKWARD.
Inductive phase := START | ANGLE | ANGLE_OK.
Inductive trajectory_state := READY | RUNNING_A | RUNNING_D | RUNNING_AD | RUNNING_XY (d : direction) (p : phase).
(** trajectory_manager.h:115-120: a union. [Pol]: the members of the polar target that were written since the union last
    held a point. *)
Inductive target := NoTarget | Cart (x y : R) | Pol (distance angle : option Z).
Definition write_distance (t : target) (d : Z) : target :=
  match t with Pol _ a => Pol (Some d) a | _ => Pol (Some d) None end.
Definition write_angle (t : target) (a : Z) : target :=
  match t with Pol d _ => Pol d (Some a) | _ => Pol None (Some a) end.
(** Reading a member that does not hold a value is undefined. *)
Definition read_distance (t : target) : res Z := match t with Pol (Some d) _ => OK d | _ => BAD end.
Definition read_angle (t : target) : res Z := match t with Pol _ (Some a) => OK a | _ => BAD end.
Definition read_cart (t : target) : res (R * R) := match t with Cart x y => OK (x, y) | _ => BAD end.

(** The speeds and accelerations of trajectory_manager.h:127-131. *)
Record speeds := mkSpeeds { d_speed : R; a_speed : R; d_acc : R; a_acc : R }.
(** trajectory_manager.h:122-125 *)
Record windows := mkWin { d_win : R; a_win_rad : R; a_start_rad : R }.

(** base_controller.h struct _robot with struct trajectory (trajectory_manager.h:109-139), the pose and the physical
    parameters of the odometry (position_manager.h), and the game timer (trajectory_helpers.cpp:271-272, nanoseconds).
    [motors]: the last commands sent to the wheels. *)
Record robot := mkRobot {
  mode : board_mode;
  rs : robot_system;
  motors : wheels;
  angle_cs : cs;
  distance_cs : cs;
  angle_bd : bd;
  distance_bd : bd;
  scheduled : bool;
  state : trajectory_state;
  tgt : target;
  win : windows;
  spd : speeds;
  pos_x : R; pos_y : R; pos_a : R;
  distance_imp_per_mm : R;
  track_mm : R;
  game_start : option Z;
  now : Z }.

Definition set_mode (r : robot) m := mkRobot m (rs r) (motors r) (angle_cs r) (distance_cs r) (angle_bd r) (distance_bd r)
  (scheduled r) (state r) (tgt r) (win r) (spd r) (pos_x r) (pos_y r) (pos_a r) (distance_imp_per_mm r) (track_mm r) (game_start r) (now r).
Definition set_rs (r : robot) s m := mkRobot (mode r) s m (angle_cs r) (distance_cs r) (angle_bd r) (distance_bd r)
  (scheduled r) (state r) (tgt r) (win r) (spd r) (pos_x r) (pos_y r) (pos_a r) (distance_imp_per_mm r) (track_mm r) (game_start r) (now r).
Definition set_cs (r : robot) a d := mkRobot (mode r) (rs r) (motors r) a d (angle_bd r) (distance_bd r)
  (scheduled r) (state r) (tgt r) (win r) (spd r) (pos_x r) (pos_y r) (pos_a r) (distance_imp_per_mm r) (track_mm r) (game_start r) (now r).
Definition set_bd (r : robot) a d := mkRobot (mode r) (rs r) (motors r) (angle_cs r) (distance_cs r) a d
  (scheduled r) (state r) (tgt r) (win r) (spd r) (pos_x r) (pos_y r) (pos_a r) (distance_imp_per_mm r) (track_mm r) (game_start r) (now r).
Definition set_traj (r : robot) b s t := mkRobot (mode r) (rs r) (motors r) (angle_cs r) (distance_cs r) (angle_bd r) (distance_bd r)
  b s t (win r) (spd r) (pos_x r) (pos_y r) (pos_a r) (distance_imp_per_mm r) (track_mm r) (game_start r) (now r).
Definition set_speeds (r : robot) s := mkRobot (mode r) (rs r) (motors r) (angle_cs r) (distance_cs r) (angle_bd r) (distance_bd r)
  (scheduled r) (state r) (tgt r) (win r) s (pos_x r) (pos_y r) (pos_a r) (distance_imp_per_mm r) (track_mm r) (game_start r) (now r).
Definition set_windows (r : robot) w := mkRobot (mode r) (rs r) (motors r) (angle_cs r) (distance_cs r) (angle_bd r) (distance_bd r)
  (scheduled r) (state r) (tgt r) w (spd r) (pos_x r) (pos_y r) (pos_a r) (distance_imp_per_mm r) (track_mm r) (game_start r) (now r).
Definition set_pose (r : robot) x y a := mkRobot (mode r) (rs r) (motors r) (angle_cs r) (distance_cs r) (angle_bd r) (distance_bd r)
  (scheduled r) (state r) (tgt r) (win r) (spd r) x y a (distance_imp_per_mm r) (track_mm r) (game_start r) (now r).
Definition set_phys (r : robot) i t := mkRobot (mode r) (rs r) (motors r) (angle_cs r) (distance_cs r) (angle_bd r) (distance_bd r)
  (scheduled r) (state r) (tgt r) (win r) (spd r) (pos_x r) (pos_y r) (pos_a r) i t (game_start r) (now r).
Definition set_time (r : robot) s n := mkRobot (mode r) (rs r) (motors r) (angle_cs r) (distance_cs r) (angle_bd r) (distance_bd r)
  (scheduled r) (state r) (tgt r) (win r) (spd r) (pos_x r) (pos_y r) (pos_a r) (distance_imp_per_mm r) (track_mm r) s n.

(** base_controller.cpp:27-123 robot_init: what the later functions use. The gains of the encoders, the parameters of the
    controllers, the windows and the speeds come from the configuration. *)
Definition pid0 : cs_pid := mkCsPid (pid_init ieee) (of_int ieee 100).
Definition cs_init : cs := mkCs 0 0 0 0 quadramp_init pid0.
Definition robot_init (gl gr : scaling) (w : windows) (s : speeds) (imp track : R) (n : Z) : robot :=
  mkRobot ANGLE_DISTANCE (rs_init gl gr) (mkWheels 0 0) cs_init cs_init
          (bd_set_thresholds bd_init 15000 1) (bd_set_thresholds bd_init 15000 1)
          false READY NoTarget w s 200 1000 0 imp track None n.

(** * Trajectory manager *)

(** trajectory_manager_utils.cpp:43-51 set_quadramp_speed *)
Definition set_quadramp_speed (r : robot) (ds as_ : R) : robot :=
  set_cs r (cs_set_filter (angle_cs r) (quadramp_set_1st_order_vars (consign_filter (angle_cs r)) (Rabs as_) (Rabs as_)))
           (cs_set_filter (distance_cs r) (quadramp_set_1st_order_vars (consign_filter (distance_cs r)) (Rabs ds) (Rabs ds))).
(** trajectory_manager_utils.cpp:70-77 set_quadramp_acc *)
Definition set_quadramp_acc (r : robot) (da aa : R) : robot :=
  set_cs r (cs_set_filter (angle_cs r) (quadramp_set_2nd_order_vars (consign_filter (angle_cs r)) (Rabs aa) (Rabs aa)))
           (cs_set_filter (distance_cs r) (quadramp_set_2nd_order_vars (consign_filter (distance_cs r)) (Rabs da) (Rabs da))).
(** trajectory_manager_utils.cpp:80-85 delete_event *)
Definition delete_event (r : robot) : robot :=
  let r := set_quadramp_speed r (d_speed (spd r)) (a_speed (spd r)) in
  let r := set_quadramp_acc r (d_acc (spd r)) (a_acc (spd r)) in
  set_traj r false (state r) (tgt r).

(** trajectory_manager_core.cpp:71-99 __trajectory_goto_d_a_rel. Each axis is left alone ([None]), reset ([Some None]) or
    moved ([Some (Some _)]). *)
Definition set_angle_target (r : robot) (a : Z) : robot :=
  let r := set_traj r (scheduled r) (state r) (write_angle (tgt r) a) in
  set_cs r (cs_set_consign (angle_cs r) a) (distance_cs r).
Definition set_distance_target (r : robot) (d : Z) : robot :=
  let r := set_traj r (scheduled r) (state r) (write_distance (tgt r) d) in
  set_cs r (angle_cs r) (cs_set_consign (distance_cs r) d).
Definition goto_d_a_rel (r : robot) (st : trajectory_state) (d_mm a_rad : option (option R)) : res robot :=
  let r := delete_event r in
  let r := set_traj r (scheduled r) st (tgt r) in
  try r := match a_rad with
           | None => OK r
           | Some a =>
               try c := match a with None => OK 0%Z | Some a => to_int32 (a * distance_imp_per_mm r * track_mm r / 2) end in
               try c := int (c + rs_get_angle (rs r)) in
               OK (set_angle_target r c)
           end in
  match d_mm with
  | None => OK r
  | Some d =>
      try c := match d with None => OK 0%Z | Some d => to_int32 (d * distance_imp_per_mm r) end in
      try c := int (c + rs_get_distance (rs r)) in
      OK (set_distance_target r c)
  end.

(** trajectory_manager_core.cpp:101-107, 109-114 *)
Definition trajectory_d_rel r (d_mm : R) := goto_d_a_rel r RUNNING_D (Some (Some d_mm)) (Some None).
Definition trajectory_only_d_rel r (d_mm : R) := goto_d_a_rel r RUNNING_D (Some (Some d_mm)) None.
(** 116-122 *)
Definition trajectory_a_rel r (a_deg : R) := goto_d_a_rel r RUNNING_A (Some None) (Some (Some (RAD a_deg))).
(** 124-135 *)
Definition trajectory_a_abs r (a_deg : R) :=
  try a := modulo_2pi (RAD a_deg - pos_a r) in goto_d_a_rel r RUNNING_A (Some None) (Some (Some a)).
(** 137-150 *)
Definition trajectory_turnto_xy r (x y : R) :=
  goto_d_a_rel r RUNNING_A (Some None) (Some (Some (simple_modulo_2pi (atan2 (y - pos_y r) (x - pos_x r) - pos_a r)))).
(** 152-165 *)
Definition trajectory_turnto_xy_behind r (x y : R) :=
  try a := modulo_2pi (atan2 (y - pos_y r) (x - pos_x r) - pos_a r + PI) in
  goto_d_a_rel r RUNNING_A (Some None) (Some (Some a)).
(** 167-173, 175-185 *)
Definition trajectory_only_a_rel r (a_deg : R) := goto_d_a_rel r RUNNING_A None (Some (Some (RAD a_deg))).
Definition trajectory_only_a_abs r (a_deg : R) :=
  try a := modulo_2pi (RAD a_deg - pos_a r) in goto_d_a_rel r RUNNING_A None (Some (Some a)).
(** 187-193 *)
Definition trajectory_d_a_rel r (d_mm a_deg : R) := goto_d_a_rel r RUNNING_AD (Some (Some d_mm)) (Some (Some (RAD a_deg))).
(** 195-202 *)
Definition trajectory_stop r := goto_d_a_rel r READY (Some None) (Some None).
(** 204-222 (the ramps keep their last input, quadramp_set_position is the same assignment). *)
Definition trajectory_hardstop r :=
  try r := trajectory_stop r in
  OK (set_cs r (cs_set_filter (angle_cs r) (quadramp_set_position (consign_filter (angle_cs r)) (rs_get_angle (rs r))))
               (cs_set_filter (distance_cs r) (quadramp_set_position (consign_filter (distance_cs r)) (rs_get_distance (rs r))))).
(** 224-256: to a point, forward or backward as is best, or forward, or backward. *)
Definition trajectory_goto_xy (dir : direction) r (x y : R) : robot :=
  set_traj (delete_event r) true (RUNNING_XY dir START) (Cart x y).
(** 258-278; vect2_pol2cart gives (r cos theta, r sin theta). *)
Definition trajectory_goto_d_a_rel r (d a : R) : robot :=
  let theta := RAD a + pos_a r in
  trajectory_goto_xy AUTO r (d * cos theta + pos_x r) (d * sin theta + pos_y r).
(** 280-304 *)
Definition trajectory_goto_xy_rel r (x_rel y_rel : R) : robot :=
  let n := sqrt (x_rel * x_rel + y_rel * y_rel) in
  let theta := atan2 y_rel x_rel + pos_a r in
  trajectory_goto_xy AUTO r (n * cos theta + pos_x r) (n * sin theta + pos_y r).

(** 306-328 trajectory_angle_finished, trajectory_distance_finished and trajectory_finished. *)
Definition trajectory_finished (r : robot) : bool :=
  ((consign_value (distance_cs r) =? filtered_consign_value (distance_cs r)) &&
   (consign_value (angle_cs r) =? filtered_consign_value (angle_cs r)))%Z.
(** trajectory_manager_utils.cpp:111-117, 120-127, 132-142. The subtractions of the target and of the encoder are on
    int32_t. *)
Definition is_robot_in_dist_window (r : robot) (w : R) : res bool :=
  try t := read_distance (tgt r) in
  try d := int (t - rs_get_distance (rs r)) in
  OK (ltb (Rabs (IZR d) / distance_imp_per_mm r) w).
Definition is_robot_in_xy_window (r : robot) (w : R) : res bool :=
  try (x1, y1) := read_cart (tgt r) in
  OK (ltb (sqrt ((pos_x r - x1) * (pos_x r - x1) + (pos_y r - y1) * (pos_y r - y1))) w).
Definition is_robot_in_angle_window (r : robot) (w : R) : res bool :=
  try t := read_angle (tgt r) in
  try a := int (t - rs_get_angle (rs r)) in
  OK (ltb (Rabs (IZR a / distance_imp_per_mm r / track_mm r * 2)) w).
(** trajectory_manager_core.cpp:331-334 and 337-361 trajectory_nearly_finished and trajectory_in_window. *)
Definition trajectory_nearly_finished (r : robot) : res bool :=
  match state r with
  | RUNNING_XY _ ANGLE_OK => is_robot_in_xy_window r (d_win (win r))
  | RUNNING_A => is_robot_in_angle_window r (a_win_rad (win r))
  | RUNNING_D => is_robot_in_dist_window r (d_win (win r))
  | RUNNING_AD =>
      try b := is_robot_in_dist_window r (d_win (win r)) in
      if b then is_robot_in_angle_window r (a_win_rad (win r)) else OK false
  | _ => OK false
  end.

(** trajectory_manager_core.cpp:388-414: distance and heading from the robot to the target. vect2_cart2pol (vect2.c:18-26)
    gives (sqrt (x^2 + y^2), atan2 y x). *)
Definition target_vector (dir : direction) (x y a tx ty : R) : R * R :=
  let r := sqrt ((tx - x) * (tx - x) + (ty - y) * (ty - y)) in
  let theta := simple_modulo_2pi (atan2 (ty - y) (tx - x) - a) in
  let '(r, theta) := match dir with BACKWARD => (- r, simple_modulo_2pi (theta + PI)) | _ => (r, theta) end in
  match dir with
  | AUTO => if ltb (52 / 100 * PI) theta || ltb theta (- (52 / 100 * PI)) then (- r, simple_modulo_2pi (theta + PI)) else (r, theta)
  | _ => (r, theta)
  end.
(** 416-424: the speed of the distance ramp. *)
Definition limited_speed (r : robot) (theta : R) : R :=
  if ltb (a_start_rad (win r)) (Rabs theta) then 0
  else d_speed (spd r) * ((a_start_rad (win r) - Rabs theta) / a_start_rad (win r)).
(** 366-491 trajectory_manager_xy_event, in a state [RUNNING_XY dir ph] *)
Definition trajectory_manager_xy_event (r : robot) (dir : direction) (ph : phase) : res robot :=
  try (tx, ty) := read_cart (tgt r) in
  let '(dist, theta) := target_vector dir (pos_x r) (pos_y r) (pos_a r) tx ty in
  let r := set_quadramp_speed r (limited_speed r theta) (a_speed (spd r)) in
  try d := to_int32 (dist * distance_imp_per_mm r) in
  try d_consign := int (d + rs_get_distance (rs r)) in
  try a := to_int32 (theta * distance_imp_per_mm r * track_mm r / (22 / 10)) in
  try a_consign := int (a + rs_get_angle (rs r)) in
  try r := match ph with
           | START => OK (set_traj r (scheduled r) (RUNNING_XY dir ANGLE) (tgt r))
           | ANGLE =>
               if neq0 (var_1st_ord_pos (consign_filter (distance_cs r))) then
                 try b := is_robot_in_xy_window r (d_win (win r)) in
                 let r := if b then delete_event r else r in
                 OK (set_traj r (scheduled r) (RUNNING_XY dir ANGLE_OK) (tgt r))
               else OK r
           | ANGLE_OK =>
               try b := is_robot_in_xy_window r (d_win (win r)) in
               OK (if b then delete_event r else r)
           end in
  OK (set_cs r (cs_set_consign (angle_cs r) a_consign) (cs_set_consign (distance_cs r) d_consign)).
(** 652-683 trajectory_manager_manage *)
Definition trajectory_manager_manage (r : robot) : res robot :=
  if scheduled r then match state r with RUNNING_XY dir ph => trajectory_manager_xy_event r dir ph | _ => OK r end
  else OK r.

(** * Base controller *)

(** base_controller.cpp:131-150: one period of the control loop; [left] and [right] are read from the encoders. *)
Definition control_axes (r : robot) : res robot :=
  let angle := match mode r with ANGLE_DISTANCE | ANGLE_ONLY => true | _ => false end in
  let distance := match mode r with ANGLE_DISTANCE | DISTANCE_ONLY => true | _ => false end in
  try r := (if angle then
              try c := cs_manage (angle_cs r) (p_angle (pext_prev (rs r))) in
              try (s, w) := rs_set_angle (rs r) (out_value c) in
              OK (set_rs (set_cs r c (distance_cs r)) s w)
            else try (s, w) := rs_set_angle (rs r) 0 in OK (set_rs r s w)) in
  if distance then
    try c := cs_manage (distance_cs r) (p_distance (pext_prev (rs r))) in
    try (s, w) := rs_set_distance (rs r) (out_value c) in
    OK (set_rs (set_cs r (angle_cs r) c) s w)
  else try (s, w) := rs_set_distance (rs r) 0 in OK (set_rs r s w).
(** base_controller.cpp:153-154 *)
Definition control_blocking (r : robot) : res robot :=
  try ea := int (Z.abs (error_value (angle_cs r))) in
  try ed := int (Z.abs (error_value (distance_cs r))) in
  OK (set_bd r (bd_manage (angle_bd r) ea) (bd_manage (distance_bd r) ed)).
(** base_controller.cpp:129-217. [s]: the speeds that the configuration gives to the current base speed. The changes of
    the other parameters are the separate events below. *)
Definition base_ctrl (r : robot) (left right : Z) (s : speeds) : res robot :=
  try sys := rs_update (rs r) left right in
  let r := set_rs r sys (motors r) in
  try r := match mode r with SET_PWM => OK r | _ => control_axes r end in
  try r := control_blocking r in
  OK (set_speeds r s).

(** * End of a trajectory *)

(** trajectory_helpers.cpp:280-290 trajectory_get_time: whole seconds, converted to int. *)
Definition trajectory_get_time (r : robot) : Z :=
  match game_start r with None => 0%Z | Some s => s32 (Z.quot (now r - s) 1000000000) end.
(** trajectory_helpers.cpp:302-305 *)
Definition trajectory_game_has_ended (r : robot) : bool := (100 <=? trajectory_get_time r)%Z.
(** trajectory_helpers.h:22-27 *)
Definition TRAJ_END_GOAL_REACHED : Z := 1.
Definition TRAJ_END_COLLISION : Z := 2.
Definition TRAJ_END_OPPONENT_NEAR : Z := 4.
Definition TRAJ_END_TIMER : Z := 8.
Definition TRAJ_END_ALLY_NEAR : Z := 16.
Definition TRAJ_END_NEAR_GOAL : Z := 32.
Definition has_flag (w f : Z) : bool := negb (Z.land w f =? 0)%Z.
(** trajectory_helpers.cpp:64-126 trajectory_has_ended. The opponent and the ally are not looked at (USE_MAP is 0). *)
Definition trajectory_has_ended (r : robot) (w : Z) : res (robot * Z) :=
  if has_flag w TRAJ_END_GOAL_REACHED && trajectory_finished r then OK (r, TRAJ_END_GOAL_REACHED)
  else
    try near := if has_flag w TRAJ_END_NEAR_GOAL then trajectory_nearly_finished r else OK false in
    if near then OK (r, TRAJ_END_NEAR_GOAL)
    else if has_flag w TRAJ_END_COLLISION && (bd_get (angle_bd r) || bd_get (distance_bd r)) then
      try r := trajectory_hardstop r in
      OK (set_bd r (bd_reset (angle_bd r)) (bd_reset (distance_bd r)), TRAJ_END_COLLISION)
    else if has_flag w TRAJ_END_TIMER && trajectory_game_has_ended r then
      try r := trajectory_hardstop r in OK (r, TRAJ_END_TIMER)
    else OK (r, 0%Z).

(** * Executions *)

Inductive command :=
| D_rel (d_mm : R) | Only_d_rel (d_mm : R) | A_rel (a_deg : R) | A_abs (a_deg : R) | Turnto (x y : R) | Turnto_behind (x y : R)
| Only_a_rel (a_deg : R) | Only_a_abs (a_deg : R) | D_a_rel (d_mm a_deg : R) | Stop | Hardstop
| Goto_xy (dir : direction) (x y : R) | Goto_d_a_rel (d a : R) | Goto_xy_rel (x y : R).
Definition do_command (r : robot) (c : command) : res robot :=
  match c with
  | D_rel d => trajectory_d_rel r d
  | Only_d_rel d => trajectory_only_d_rel r d
  | A_rel a => trajectory_a_rel r a
  | A_abs a => trajectory_a_abs r a
  | Turnto x y => trajectory_turnto_xy r x y
  | Turnto_behind x y => trajectory_turnto_xy_behind r x y
  | Only_a_rel a => trajectory_only_a_rel r a
  | Only_a_abs a => trajectory_only_a_abs r a
  | D_a_rel d a => trajectory_d_a_rel r d a
  | Stop => trajectory_stop r
  | Hardstop => trajectory_hardstop r
  | Goto_xy dir x y => OK (trajectory_goto_xy dir r x y)
  | Goto_d_a_rel d a => OK (trajectory_goto_d_a_rel r d a)
  | Goto_xy_rel x y => OK (trajectory_goto_xy_rel r x y)
  end.

(** What the threads of the robot and its users do, in any order. *)
Inductive event :=
| Command (c : command)
| Set_mode (m : board_mode)
| Control (l_enc r_enc : Z) (s : speeds)      (* base_ctrl_thd, base_controller.cpp:125-217 *)
| Odometry (x y a : R)                       (* position_manager_thd: the pose that the odometry computed *)
| Manage                                     (* trajectory_manager_thd, base_controller.cpp:246-255 *)
| Poll (w : Z)                               (* trajectory_has_ended *)
| Thresholds (angle distance : Z * Z)        (* bd_set_thresholds on both *)
| Bd_reset                                   (* bd_reset on both *)
| Windows (w : windows)                      (* trajectory_set_windows *)
| Physical (imp track : R)                   (* base_controller.cpp:180-183 *)
| Gains (angle distance : cs_pid)            (* base_controller.cpp:156-174 *)
| Game_start                                 (* trajectory_helpers.cpp:274-278 trajectory_game_timer_reset *)
| Time (n : Z).                              (* the clock *)
Definition step (r : robot) (e : event) : res robot :=
  match e with
  | Command c => do_command r c
  | Set_mode m => OK (set_mode r m)
  | Control l_enc r_enc s => base_ctrl r l_enc r_enc s
  | Odometry x y a => OK (set_pose r x y a)
  | Manage => trajectory_manager_manage r
  | Poll w => try (r, _) := trajectory_has_ended r w in OK r
  | Thresholds a d => OK (set_bd r (bd_set_thresholds (angle_bd r) (fst a) (snd a)) (bd_set_thresholds (distance_bd r) (fst d) (snd d)))
  | Bd_reset => OK (set_bd r (bd_reset (angle_bd r)) (bd_reset (distance_bd r)))
  | Windows w => OK (set_windows r w)
  | Physical imp track => OK (set_phys r imp track)
  | Gains a d => OK (set_cs r (cs_set_pid (angle_cs r) a) (cs_set_pid (distance_cs r) d))
  | Game_start => OK (set_time r (Some (now r)) (now r))
  | Time n => OK (set_time r (game_start r) n)
  end.
Fixpoint run (r : robot) (es : list event) : res robot :=
  match es with [] => OK r | e :: es => try r := step r e in run r es end.

(** trajectory_helpers.cpp:40-62 trajectory_wait_for_end: [envs] is what happens in the sleep of 100 ms, then in the sleeps of 1 ms.
    [None]: it is still waiting. *)
Fixpoint trajectory_wait_for_end (r : robot) (w : Z) (envs : list (list event)) : res (robot * option Z) :=
  match envs with
  | [] => OK (r, None)
  | es :: envs =>
      try r := run r es in
      try (r, reason) := trajectory_has_ended r w in
      if (reason =? 0)%Z then trajectory_wait_for_end r w envs else OK (r, Some reason)
  end.
(** trajectory_helpers.cpp:128-144 trajectory_align_with_wall, [direction] is 1 or -1. [None]: still waiting. *)
Definition trajectory_align_with_wall (r : robot) (dir : Z) (envs : list (list event)) : res (option robot) :=
  let r := set_mode r DISTANCE_ONLY in
  try r := trajectory_d_rel r (IZR dir * 2000) in
  try (r, reason) := trajectory_wait_for_end r TRAJ_END_COLLISION envs in
  match reason with
  | None => OK None
  | Some _ =>
      try r := trajectory_hardstop r in
      let r := set_bd r (bd_reset (angle_bd r)) (bd_reset (distance_bd r)) in
      OK (Some (set_mode r ANGLE_DISTANCE))
  end.
