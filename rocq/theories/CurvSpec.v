(** What lines, circles and clothoids should be, in plane geometry. *)
From Coq Require Import ZArith Reals List Bool.
From Flocq Require Import Core.
From Verif Require Import CRes TrajModel CurvModel.
Import ListNotations.
Local Open Scope R_scope.

Definition dist (p q : point) : R := sqrt ((fst p - fst q) * (fst p - fst q) + (snd p - snd q) * (snd p - snd q)).
Definition dot (v w : point) : R := fst v * fst w + snd v * snd w.
Definition sub (p q : point) : point := (fst p - fst q, snd p - snd q).
(** The point at [d] from [p] in the direction [a]. *)
Definition along (p : point) (a d : R) : point := (fst p + d * cos a, snd p + d * sin a).
(** The point at [d] to the left of someone at [p] who looks in the direction [a]. *)
Definition leftof (p : point) (a d : R) : point := (fst p - d * sin a, snd p + d * cos a).

(** [f] is the foot of the perpendicular from [p] to the line through [p1] and [p2]. *)
Definition foot (p1 p2 p f : point) : Prop :=
  (exists t, f = (fst p1 + t * (fst p2 - fst p1), snd p1 + t * (snd p2 - snd p1))) /\ dot (sub p f) (sub p2 p1) = 0.
(** [q] is [d] further than [f] on the way from [p1] to [p2]. *)
Definition further (p1 p2 f q : point) (d : R) : Prop :=
  q = (fst f + d * ((fst p2 - fst p1) / dist p2 p1), snd f + d * ((snd p2 - snd p1) / dist p2 p1)).

Definition here (r : robot) : point := (px r, py r).
(** Turning by [theta] then moving forward by [d] leads the robot to [q]. *)
Definition leads (r : robot) (theta d : R) (q : point) : Prop := Rabs theta <= PI /\ 0 <= d /\ q = along (here r) (pa r + theta) d.
Definition heading_ok (r : robot) : Prop := Rabs (pa r) <= PI.
(** Steps of the encoders for a distance in mm and for an angle in rad. *)
Definition steps_mm (r : robot) (d : R) : R := d * imp_per_mm r.
Definition steps_rad (r : robot) (a : R) : R := a * imp_per_mm r * track r / 2.
(** The radius of the circle of a robot that moves at [d] and turns at [a], both in steps per period. *)
Definition radius_of (r : robot) (d a rad : R) : Prop := d = 2 * rad / track r * a.

(** A clothoid (its angle grows as the square of the length) of length [delta * R] that ends with radius [R]: its end,
    by the first four terms of the series of the Fresnel integrals. *)
Definition fresnel_x (Rd delta : R) : R := Rd * (delta - delta ^ 3 / 40 + delta ^ 5 / 3456 - delta ^ 7 / 599040).
Definition fresnel_y (Rd delta : R) : R := Rd * (delta ^ 2 / 6 - delta ^ 4 / 336 + delta ^ 6 / 42240 - delta ^ 8 / 9676800).
(** [1] to turn left, [-1] to turn right. *)
Definition side (alpha : R) : R := if Rle_dec 0 alpha then 1 else -1.
(** The end of a clothoid that leaves at [s] a line of direction [a]; the start of one that reaches at [s] such a line. *)
Definition after_clothoid (s : point) (a e Rd delta : R) : point := leftof (along s a (fresnel_x Rd delta)) a (e * fresnel_y Rd delta).
Definition before_clothoid (s : point) (a e Rd delta : R) : point := leftof (along s a (- fresnel_x Rd delta)) a (e * fresnel_y Rd delta).
(** How long before the crossing of the lines a turn by [alpha] (absolute value) begins. *)
Definition turn_length (Rd delta alpha : R) : R :=
  (fresnel_y Rd delta + Rd * cos (delta / 2)) * tan (alpha / 2) - Rd * sin (delta / 2) + fresnel_x Rd delta.
(** The speed in angle on the circle, and the acceleration that reaches it at the end of the clothoid. *)
Definition turn_speed (r : robot) (Rd : R) : R := d_speed (spd r) * track r / (2 * Rd).
Definition turn_acc (r : robot) (Rd delta : R) : R := turn_speed r Rd * d_speed (spd r) / steps_mm r (Rd * delta).
(** The speed of a robot that has to turn by [theta]: full when aligned, zero from the angle [a_start] on; and the orders that
    make a robot turn by [theta] (the angle is divided by 1.1) and advance by [d], with nothing else changed. *)
Definition slowed (r : robot) (theta : R) : R := if Rlt_dec (a_start r) (Rabs theta) then 0 else d_speed (spd r) * ((a_start r - Rabs theta) / a_start r).
Definition followed (r : robot) (theta d : R) (r' : robot) : Prop :=
  d_consign r' = (rs_distance r + Ztrunc (steps_mm r d))%Z /\
  a_consign r' = (rs_angle r + Ztrunc (steps_rad r theta / (11 / 10)))%Z /\
  ramp_d r' = Rabs (slowed r theta) /\ ramp_a r' = Rabs (a_speed (spd r)) /\
  scheduled r' = scheduled r /\ state r' = state r /\ tgt r' = tgt r /\ spd r' = spd r /\ a_start r' = a_start r.
(** The orders of a turn: the angle, a distance long enough, the speed and acceleration in angle. *)
Definition turning (r : robot) (t : turn) (r' : robot) : Prop :=
  state r' = RUNNING_CLITOID_CURVE /\ scheduled r' = false /\
  a_consign r' = (rs_angle r + Ztrunc (steps_rad r (talpha t)))%Z /\
  d_consign r' = (rs_distance r + Ztrunc (steps_mm r (3 * Rabs (tR t * talpha t))))%Z /\
  ramp_d r' = Rabs (d_speed (spd r)) /\ ramp_a r' = Rabs (tVa t) /\ racc_d r' = Rabs (d_acc (spd r)) /\ racc_a r' = Rabs (tAa t).
