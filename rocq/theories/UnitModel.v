(** Model of the units of the trajectory manager and of the modes of the robot's base:
    lib/aversive/trajectory_manager/trajectory_manager_utils.cpp:171-245, trajectory_set_speed and trajectory_set_acc
    (trajectory_manager.cpp:63-75), trajectory_set_mode_aligning and trajectory_set_mode_game
    (master-firmware/src/robot_helpers/trajectory_helpers.cpp:226-269) and the choice of the speeds by the control loop
    (master-firmware/src/base/base_controller.cpp:177-210), on the robot of TrajModel.v: double is the real numbers. *)
From Coq Require Import ZArith Reals List Bool.
From Verif Require Import CRes QuadModel EncModel TrajModel.
Local Open Scope R_scope.

(** base_controller.h:17 and base_controller.cpp:86: traj->cs_hz. *)
Definition cs_hz : R := 100.

Section Units.
Variable r : robot.
Notation imp := (distance_imp_per_mm r).
Notation track := (track_mm r).
(** trajectory_manager_utils.cpp:173-177, 179-183 *)
Definition pos_mm2imp (pos : R) : R := pos * imp.
Definition pos_imp2mm (pos : R) : R := pos / imp.
(** 185-189, 191-195 *)
Definition speed_mm2imp (speed : R) : R := speed * imp / cs_hz.
Definition speed_imp2mm (speed : R) : R := speed * cs_hz / imp.
(** 197-201, 203-207 *)
Definition acc_mm2imp (acc : R) : R := acc * imp / (cs_hz * cs_hz).
Definition acc_imp2mm (acc : R) : R := acc * cs_hz * cs_hz / imp.
(** 211-215, 217-221 *)
Definition pos_rd2imp (pos : R) : R := pos * (imp * track / 2).
Definition pos_imp2rd (pos : R) : R := pos / (imp * track / 2).
(** 223-227, 229-233 *)
Definition speed_rd2imp (speed : R) : R := speed * (imp * track / (2 * cs_hz)).
Definition speed_imp2rd (speed : R) : R := speed / (imp * track / (2 * cs_hz)).
(** 235-239, 241-245 *)
Definition acc_rd2imp (acc : R) : R := acc * (imp * track / (2 * cs_hz * cs_hz)).
Definition acc_imp2rd (acc : R) : R := acc / (imp * track / (2 * cs_hz * cs_hz)).
End Units.

(** trajectory_manager.cpp:63-68 and 70-75 *)
Definition trajectory_set_speed (r : robot) (d a : R) : robot := set_speeds r (mkSpeeds d a (d_acc (spd r)) (a_acc (spd r))).
Definition trajectory_set_acc (r : robot) (d a : R) : robot := set_speeds r (mkSpeeds (d_speed (spd r)) (a_speed (spd r)) d a).

(** trajectory_helpers.cpp:226-247 *)
Definition trajectory_set_mode_aligning (r : robot) : robot :=
  let r := set_mode r DISTANCE_ONLY in
  let r := set_bd r (angle_bd r) (bd_set_thresholds (distance_bd r) 7000 2) in
  let r := trajectory_set_speed r (speed_mm2imp r 30) (speed_rd2imp r 0.75) in
  trajectory_set_acc r (acc_mm2imp r 30) (acc_rd2imp r 1.57).
(** trajectory_helpers.cpp:249-269 *)
Definition trajectory_set_mode_game (r : robot) : robot :=
  let r := set_mode r ANGLE_DISTANCE in
  let r := set_bd r (bd_set_thresholds (angle_bd r) 12500 1) (distance_bd r) in
  let r := set_bd r (angle_bd r) (bd_set_thresholds (distance_bd r) 15000 1) in
  let r := trajectory_set_speed r (speed_mm2imp r 300) (speed_rd2imp r 3) in
  trajectory_set_acc r (acc_mm2imp r 600) (acc_rd2imp r 6).

(** base_controller.h:45-49 *)
Inductive base_speed := BASE_SPEED_INIT | BASE_SPEED_SLOW | BASE_SPEED_FAST.
(** master/aversive/trajectories/{distance,angle}/{speed,acceleration}/{init,slow,fast}: m/s, rad/s and per second. *)
Record speed_config := mkCfg { c_d_speed : base_speed -> R; c_a_speed : base_speed -> R; c_d_acc : base_speed -> R; c_a_acc : base_speed -> R }.
(** base_controller.cpp:177-206: the speeds which the control loop sets at each period. *)
Definition base_speeds (r : robot) (c : speed_config) (b : base_speed) : speeds :=
  mkSpeeds (1000 * speed_mm2imp r (c_d_speed c b)) (speed_rd2imp r (c_a_speed c b))
           (1000 * acc_mm2imp r (c_d_acc c b)) (acc_rd2imp r (c_a_acc c b)).
(** base_controller.cpp:127-217: a period of the control loop, for a base speed. *)
Definition control_period (r : robot) (c : speed_config) (b : base_speed) (left right : Z) : res robot :=
  base_ctrl r left right (base_speeds r c b).
