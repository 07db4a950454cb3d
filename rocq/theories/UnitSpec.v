(** The limits of the ramps of a robot in physical units. The control loop runs 100 times a second; the distance of the robot is the
    mean of the ways of its two wheels, its angle is their difference over the track, both counted in steps of the encoders (the
    angle as half of the difference). *)
From Coq Require Import Reals.
From Verif Require Import QuadModel TrajModel.
Local Open Scope R_scope.

(** The distance ramp goes at most at [v] mm/s both ways and accelerates by at most [acc] mm/s^2; the angle ramp goes at most at
    [w] rad/s and accelerates by at most [wacc] rad/s^2. *)
Definition limits (r : robot) (v w acc wacc : R) : Prop :=
  let d := consign_filter (distance_cs r) in
  let a := consign_filter (angle_cs r) in
  let mm steps := steps / distance_imp_per_mm r in
  let rad steps := steps / (distance_imp_per_mm r * (track_mm r / 2)) in
  (mm (var_1st_ord_pos d) * 100 = v /\ mm (var_1st_ord_neg d) * 100 = v) /\
  (rad (var_1st_ord_pos a) * 100 = w /\ rad (var_1st_ord_neg a) * 100 = w) /\
  (mm (var_2nd_ord_pos d) * 100 * 100 = acc /\ mm (var_2nd_ord_neg d) * 100 * 100 = acc) /\
  (rad (var_2nd_ord_pos a) * 100 * 100 = wacc /\ rad (var_2nd_ord_neg a) * 100 * 100 = wacc).
