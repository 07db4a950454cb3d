(** Model of the master's use of the proximity beacon and of the collision test of a movement:
    master-firmware/src/can/beacon_signal_handler.cpp, master-firmware/src/robot_helpers/beacon_helpers.cpp, the part of
    master-firmware/src/base/map_server.cpp which places the opponent, and trajectory_is_cartesian and
    trajectory_crosses_obstacle of master-firmware/src/robot_helpers/trajectory_helpers.cpp.

    Simplified: float and double are real numbers (exact arithmetic), tanf, cosf and sinf are the functions they
    approximate. Each function sees one pose of the robot, its three coordinates are in fact read one after the other. *)
From Coq Require Import ZArith Reals List Bool.
From Flocq Require Import Core.
From Verif Require Import CRes FloatModel PidSpec GeoModel QuadModel EncModel TrajModel.
Import ListNotations.
Local Open Scope R_scope.

(** The pose of the robot: mm, mm, radians (position_manager.h). *)
Record pose := mkPose { px : R; py : R; pa : R }.

(** beacon_helpers.cpp:5-16 *)
Definition beacon_get_angle (start_angle signal_length : R) : R :=
  let angle := start_angle + signal_length / 2 in
  if ltb PI angle then angle - PI * 2 else if ltb angle (- PI) then angle + PI * 2 else angle.

(** beacon_helpers.cpp:18-26 *)
Definition beacon_cartesian_convert (p : pose) (distance angle : R) : R * R :=
  (distance * cos (pa p + angle) + px p, distance * sin (pa p + angle) + py p).

(** The message of the beacon (cvra/proximity_beacon/Signal) and what is published on /proximity_beacon (beacons.proto). *)
Record can_signal := mkCan { start_angle : R; length : R }.
Record signal := mkSignal { sdistance : R; sangle : R; sx : R; sy : R }.

(** beacon_signal_handler.cpp:14-47 beacon_cb: the parameters are [None] if they are not in the tree. The time stamp is
    left out. *)
Definition beacon_cb (reflector_radius angular_offset : option R) (p : pose) (msg : can_signal) : option signal :=
  match reflector_radius, angular_offset with
  | Some radius, Some offset =>
      let distance := radius / tan (length msg / 2) in
      let angle := beacon_get_angle (start_angle msg + offset) (length msg) in
      let '(x, y) := beacon_cartesian_convert p distance angle in
      Some (mkSignal distance angle x y)
  | _, _ => None
  end.

(** map_server.cpp:74-78 and trajectory_helpers.cpp:93-98: where a recent signal puts the opponent. *)
Definition opponent (p : pose) (s : signal) : R * R := beacon_cartesian_convert p (1000 * sdistance s) (sangle s).

(** * Collision of a movement with an obstacle *)

(** trajectory_helpers.cpp:155-174 *)
Definition trajectory_is_cartesian (s : trajectory_state) : bool :=
  match s with RUNNING_XY _ _ => true | _ => false end.

(** position_manager.c:212-221: the integer coordinates, in mm and in degrees; the conversion of a value which does not
    fit in 16 bits is undefined. *)
Definition to_s16 (x : R) : res Z :=
  let z := Ztrunc x in if ((- 2 ^ 15 <=? z) && (z <? 2 ^ 15))%Z then OK z else BAD.

(** trajectory_helpers.cpp:183-200: where the movement ends. [pol.distance] and [pol.angle] are numbers of steps of the
    encoders; vect2_pol2cart (vect2.c) takes mm and radians. *)
Definition movement_end (r : robot) : res (R * R) :=
  if trajectory_is_cartesian (state r) then read_cart (tgt r) else
  try d := read_distance (tgt r) in
  try a := read_angle (tgt r) in
  try heading := to_s16 (pos_a r * (360 / (PI * 2))) in
  let dr := IZR d - IZR (rs_get_distance (rs r)) in
  let dtheta := IZR a - IZR (rs_get_angle (rs r)) + IZR heading in
  OK (pos_x r + dr * cos dtheta, pos_y r + dr * sin dtheta).

(** math_helpers.c:19-24 *)
Definition math_point_is_in_square (square : list (R * R)) (x y : Z) : bool :=
  (is_in_poly exact_fmt (real (IZR x), real (IZR y)) (map (fun q => (real (fst q), real (snd q))) square) =? 1)%Z.

(** trajectory_helpers.cpp:176-207. The intersection is left out. *)
Definition trajectory_crosses_obstacle (r : robot) (obstacle : list (R * R)) : res bool :=
  try (tx, ty) := movement_end r in
  let crossing := fst (is_crossing_poly exact_fmt (real (pos_x r), real (pos_y r)) (real tx, real ty)
                         (map (fun q => (real (fst q), real (snd q))) obstacle)) in
  try x := to_s16 (pos_x r) in
  try y := to_s16 (pos_y r) in
  OK ((crossing =? 1)%Z || math_point_is_in_square obstacle x y).
