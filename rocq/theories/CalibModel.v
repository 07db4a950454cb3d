(** Model of the calibration of the odometry by the shell of the master board: the commands wheel_calib and track_calib
    (master-firmware/src/commands.cpp:653-778), over the floating-point machines of FloatModel.v. The movements are the
    list of what the commands ask for, in their order; what the robot then does is a relation (CalibSpec.v). The answers
    of the user and the texts are left out. commands.cpp is in the repository but no build compiles it. *)
From Coq Require Import ZArith List Bool.
From Verif Require Import CRes FloatModel PosModel.
Import ListNotations.
Local Open Scope Z_scope.

(** trajectory_align_with_wall (robot_helpers/trajectory_helpers.cpp:128-144), trajectory_d_rel with its millimetres and
    trajectory_a_rel with its degrees, each followed by trajectory_wait_for_end(TRAJ_END_GOAL_REACHED). *)
Inductive move := Align | D_rel (mm : Z) | A_rel (deg : Z).

(** commands.cpp:677-687: a round of the loop. [dir] is robot.calibration_direction, 1 or -1. *)
Definition wheel_round (dir : Z) : list move := [D_rel (- dir * 800); A_rel 180; D_rel (- dir * 800); A_rel (- 180)].
(** commands.cpp:673-694: the movements between the two readings. The loop "while (count--)" of a negative count ends
    by the overflow of count. *)
Definition wheel_moves (dir count : Z) : res (list move) :=
  if count <? 0 then BAD else OK (D_rel (- dir * 100) :: concat (repeat (wheel_round dir) (Z.to_nat count)) ++ [Align]).
(** commands.cpp:743-756; "for (i = 0; i < count; i++)" does nothing for a negative count. *)
Definition track_moves (dir count : Z) : list move :=
  D_rel (- dir * 200) :: repeat (A_rel 360) (Z.to_nat count) ++ [D_rel (dir * 180); Align].

Section Code.
Variable m : machine.
Notation double := (num (D m)).
Notation flt := (num (F m)).

(** The readings of the odometry which wheel_calib compares: rs_get_angle and rs_get_distance, in impulses. *)
Record reading := mkReading { r_angle : Z; r_distance : Z }.
(** commands.cpp:697-702: the gains of the left and right wheels. *)
Definition wheel_gains (start end_ : reading) (left_ext_gain right_ext_gain : double) : res (flt * flt) :=
  try delta_angle := int (r_angle start - r_angle end_) in
  try delta_distance := int (r_distance start - r_distance end_) in
  let factor := div (F m) (lit (F m) delta_angle 0) (lit (F m) delta_distance 0) in
  let left := narrow m (mul (D m) (add (D m) (dbl m 1) (widen m factor)) left_ext_gain) in
  let right := narrow m (mul (D m) (sub (D m) (dbl m 1) (widen m factor)) right_ext_gain) in
  OK (left, right).

(** commands.cpp:740 and 757: an angle of the odometry in radians, pos_imp2rd of trajectory_manager_utils.cpp:217-221. *)
Definition angle_rd (imp track : double) (angle : double) : flt :=
  narrow m (div (D m) angle (div (D m) (mul (D m) imp track) (dbl m 2))).
(** commands.cpp:760-761 *)
Definition track_calibrated (start_angle end_angle : flt) (track_mm : double) (count : Z) : flt :=
  let delta_angle := angle_delta m (lit (F m) 0 0) (sub (F m) end_angle start_angle) in
  let turns := mul (D m) (mul (D m) (dbl m 2) (m_pi m)) (widen m (lit (F m) count 0)) in
  narrow m (mul (D m) (widen m (narrow m track_mm)) (add (D m) (dbl m 1) (div (D m) (widen m delta_angle) turns))).
End Code.
