(** A robot on two encoder wheels in front of a wall. *)
From Coq Require Import ZArith Reals List.
From Verif Require Import FloatModel PidSpec LieSpec CalibModel.
Import ListNotations.
Local Open Scope R_scope.

(** The robot as it is: millimetres per count of each encoder and distance between the wheels. *)
Record plant := mkPlant { k_left : R; k_right : R; p_track : R }.
(** The robot as it is configured: gain of each encoder, impulses per millimetre and distance between the wheels. *)
Record config := mkConfig { g_left : R; g_right : R; c_imp : R; c_track : R }.
(** Counts of the encoders. *)
Record counts := mkCounts { n_left : R; n_right : R }.

(** Its heading since the counts were 0, in radians. *)
Definition heading (p : plant) (w : counts) : R := (k_right p * n_right w - k_left p * n_left w) / p_track p.
(** What its odometry says, in impulses. *)
Definition odo_angle (c : config) (w : counts) : R := (g_right c * n_right w - g_left c * n_left w) / 2.
Definition odo_distance (c : config) (w : counts) : R := (g_right c * n_right w + g_left c * n_left w) / 2.

(** A movement which the base reports as done: the odometry has changed by what was asked, within [ta] and [td] impulses.
    Against the wall, the robot takes the direction [wall] again, turning less than half a turn, whatever its wheels do. *)
Definition done (p : plant) (c : config) (wall ta td : R) (mv : move) (w w' : counts) : Prop :=
  match mv with
  | Align => same_angle (heading p w') wall /\ Rabs (heading p w' - heading p w) < PI
  | D_rel mm => Rabs (odo_angle c w' - odo_angle c w) <= ta /\
                Rabs (odo_distance c w' - odo_distance c w - IZR mm * c_imp c) <= td
  | A_rel deg => Rabs (odo_angle c w' - odo_angle c w - IZR deg * PI / 180 * (c_imp c * c_track c / 2)) <= ta /\
                 Rabs (odo_distance c w' - odo_distance c w) <= td
  end.
Fixpoint all_done (p : plant) (c : config) (wall ta td : R) (l : list move) (w w' : counts) : Prop :=
  match l with
  | [] => w' = w
  | mv :: l => exists u, done p c wall ta td mv w u /\ all_done p c wall ta td l u w'
  end.

(** The angle of the odometry follows the heading: one is always the same positive multiple of the other. *)
Definition follows_heading (p : plant) (c : config) : Prop :=
  exists a, 0 < a /\ forall w, odo_angle c w = a * heading p w.

(** A reading of the odometry in whole impulses, within [e] impulses. *)
Definition reads (c : config) (w : counts) (e : R) (r : reading) : Prop :=
  Rabs (IZR (r_angle r) - odo_angle c w) <= e /\ Rabs (IZR (r_distance r) - odo_distance c w) <= e.
(** The robot and its configuration make sense. *)
Definition sensible (p : plant) (c : config) : Prop :=
  0 < k_left p /\ 0 < k_right p /\ 0 < p_track p /\ 0 < g_left c /\ 0 < g_right c /\ 0 < c_imp c /\ 0 < c_track c.
(** The robot does not drift by half a turn during the movements of wheel_calib: [n] rounds of 1600 mm. *)
Definition small_drift (p : plant) (c : config) (ta td n : R) : Prop :=
  ((100 + 1600 * n) * c_imp c + (1 + 4 * n) * td) * Rabs (k_right p / g_right c - k_left p / g_left c) +
  (1 + 4 * n) * ta * (k_right p / g_right c + k_left p / g_left c) < PI * p_track p.
