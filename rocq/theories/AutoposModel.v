(** Model of the automatic positioning, master-firmware/src/robot_helpers/autoposition.cpp, over the reals, with the
    physical robot beside the pose that it believes to have.

    Simplifications. A trajectory which is waited for until its goal is reached is executed exactly, by the robot and by
    the odometry (TrajProps.command_reached proves that the set points are reached; that the wheels do not slip is an
    assumption). Pushing against a wall squares the robot: see [align]. The changes of speeds and of thresholds
    (trajectory_set_mode_aligning, trajectory_set_speed, trajectory_set_mode_game) do not move the robot and are left out,
    as are the locks and the copies of the pose as integers. Angles are not reduced modulo one turn. *)
From Coq Require Import Reals.
Local Open Scope R_scope.

Record pose := mkPose { X : R; Y : R; A : R }.
(** Where the robot is, and where robot.pos says that it is. *)
Record world := mkWorld { phys : pose; odo : pose }.

(** strategy/color.h:10-18, enum strat_color_t *)
Inductive color := YELLOW | BLUE.
Definition MIRROR_X (c : color) (x : R) : R := match c with YELLOW => x | BLUE => 3000 - x end.
Definition MIRROR_A (c : color) (a : R) : R := match c with YELLOW => a | BLUE => 180 - a end.
(** trajectory_manager_utils.h:32 *)
Definition RAD (x : R) : R := x * (PI / 180).

(** trajectory_manager_core.cpp:101-107 trajectory_d_rel, up to its end *)
Definition advance (p : pose) (d : R) : pose := mkPose (X p + d * cos (A p)) (Y p + d * sin (A p)) (A p).
Definition d_rel (w : world) (d : R) : world := mkWorld (advance (phys w) d) (advance (odo w) d).
(** trajectory_manager_core.cpp:124-134 trajectory_a_abs and 175-184 trajectory_only_a_abs, up to their end: the robot turns
    by the difference with the direction that it believes to have. *)
Definition a_abs (w : world) (a_deg : R) : world :=
  let delta := RAD a_deg - A (odo w) in
  mkWorld (mkPose (X (phys w)) (Y (phys w)) (A (phys w) + delta)) (mkPose (X (odo w)) (Y (odo w)) (A (odo w) + delta)).
(** position_manager.cpp:48-58 position_set, whose coordinates are int16_t in the code. *)
Definition position_set (w : world) (x y a_deg : R) : world := mkWorld (phys w) (mkPose x y (RAD a_deg)).
(** autoposition.cpp:41-45 *)
Definition position_set_y (w : world) (y : R) : world := mkWorld (phys w) (mkPose (X (odo w)) y (A (odo w))).

(** The walls of the table, 3000 mm by 2000 mm, with the direction which leads straight to them. *)
Inductive wall := Left | Right | Bottom | Top.
Definition towards (b : wall) : R * R := match b with Left => (-1, 0) | Right => (1, 0) | Bottom => (0, -1) | Top => (0, 1) end.
Definition wall_distance (b : wall) (p : pose) : R :=
  match b with Left => X p | Right => 3000 - X p | Bottom => Y p | Top => 2000 - Y p end.
(** enum direction_t: 1 forward, -1 backward. How directly a robot moving that way moves to the wall (cosine). *)
Definition approach (dir : R) (p : pose) (b : wall) : R := dir * cos (A p) * fst (towards b) + dir * sin (A p) * snd (towards b).
(** trajectory_helpers.cpp:128-144 trajectory_align_with_wall: the robot ends against the wall that it moves to the most
    directly, squared against it, its side at [len] (alignement_length) from its centre. If it was square already it
    only advanced, and so does the pose that it believes to have, though by another distance (the wheels slip);
    otherwise that pose may be anything. *)
Definition align (len dir : R) (w w' : world) : Prop :=
  exists b, (forall b', b' <> b -> approach dir (phys w) b' < approach dir (phys w) b) /\
    approach dir (phys w') b = 1 /\ wall_distance b (phys w') = len /\
    (approach dir (phys w) b = 1 -> (exists d, phys w' = advance (phys w) d) /\ (exists d, odo w' = advance (odo w) d)).

(** autoposition.cpp:9-59 strategy_auto_position, with robot.alignement_length [len] and robot.calibration_direction
    [dir]. *)
Definition auto_position (len dir : R) (x y heading : R) (c : color) (w w' : world) : Prop :=
  exists w1 w2, align len dir w w1 /\
    let w1 := if Rlt_dec dir 0 then position_set w1 (MIRROR_X c len) 0 (MIRROR_A c 0) else position_set w1 (MIRROR_X c len) 0 (MIRROR_A c 180) in
    let w1 := d_rel w1 (- dir * (MIRROR_X c x - len)) in
    let w1 := a_abs w1 (MIRROR_A c (-90)) in
    align len dir w1 w2 /\
    let w2 := position_set_y w2 len in
    let w2 := d_rel w2 (- dir * (y - len)) in
    w' = a_abs w2 heading.
(** autoposition.cpp:61-79 strategy_align_y *)
Definition align_y (len dir : R) (y : R) (w w' : world) : Prop :=
  exists w1, align len dir w w1 /\ w' = d_rel (position_set_y w1 len) (- dir * (y - len)).
