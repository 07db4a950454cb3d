(** Angles and plane motions. *)
From Coq Require Import ZArith Reals List.
From Flocq Require Import IEEE754.BinarySingleNaN.
From Verif Require Import FloatModel FloatSpec PidSpec LieSpec PosModel.
Import ListNotations.
Local Open Scope R_scope.

(** The value of the double M_PI. *)
Definition pi64 : R := B2R (m_pi ieee).

(** From the pose (x0, y0, a0), the robot moves along a curve of length [d], turning by [th] at a constant rate, and ends at (x1, y1)
    with the direction a1. [fx] and [fy] are its coordinates when it has done the part [s] of the motion. *)
Definition arc_motion (d th x0 y0 a0 x1 y1 a1 : R) : Prop :=
  exists fx fy : R -> R,
    fx 0 = x0 /\ fy 0 = y0 /\ fx 1 = x1 /\ fy 1 = y1 /\ same_angle a1 (a0 + th) /\
    forall s, derivable_pt_lim fx s (d * cos (a0 + th * s)) /\ derivable_pt_lim fy s (d * sin (a0 + th * s)).

(** The library functions without rounding. *)
Definition rcos (x : num (D exact)) : num (D exact) := match x with Some (Real a) => real (cos a) | _ => None end.
Definition rsin (x : num (D exact)) : num (D exact) := match x with Some (Real a) => real (sin a) | _ => None end.

(** A pose of the odometry, as real numbers. *)
Definition pose (p : position exact) (x y a : R) : Prop := px _ p = real x /\ py _ p = real y /\ pa _ p = real a.
Definition phys (p : position exact) (track imp : R) : Prop := track_mm _ p = real track /\ distance_imp_per_mm _ p = real imp.

(** A call which turns the robot by at most a whole turn, or sets an angle between -180 and 180 degrees. *)
Definition whole_turn (cosd sind : num (D ieee) -> num (D ieee)) (p : position ieee) (c : call ieee) : Prop :=
  match c with
  | Set_ _ _ _ a => exists r, value a = Some (Real r) /\ Rabs r <= 180
  | Manage _ ext mot =>
      let enc := if use_ext _ p then ext else mot in
      exists r, value (div (D ieee) (mul (D ieee) (dbl ieee 2) (dbl ieee (snd enc - prev_angle _ p)))
                           (mul (D ieee) (track_mm _ p) (distance_imp_per_mm _ p))) = Some (Real r) /\ Rabs r <= 2 * pi64
  | _ => True
  end.
