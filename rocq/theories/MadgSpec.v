(** What an attitude filter should do, over the reals. *)
From Coq Require Import Reals List.
From Flocq Require Import IEEE754.BinarySingleNaN.
From Verif Require Import FloatModel MadgModel.
Local Open Scope R_scope.

Record quaternion := mkQ { re : R; im1 : R; im2 : R; im3 : R }.
Record vector := mkV { v1 : R; v2 : R; v3 : R }.

(** Hamilton's product, conjugate, norm. *)
Definition hamilton (p r : quaternion) : quaternion :=
  mkQ (re p * re r - im1 p * im1 r - im2 p * im2 r - im3 p * im3 r)
      (re p * im1 r + im1 p * re r + im2 p * im3 r - im3 p * im2 r)
      (re p * im2 r - im1 p * im3 r + im2 p * re r + im3 p * im1 r)
      (re p * im3 r + im1 p * im2 r - im2 p * im1 r + im3 p * re r).
Definition conj (p : quaternion) : quaternion := mkQ (re p) (- im1 p) (- im2 p) (- im3 p).
Definition pure (v : vector) : quaternion := mkQ 0 (v1 v) (v2 v) (v3 v).
Definition dot (p r : quaternion) : R := re p * re r + im1 p * im1 r + im2 p * im2 r + im3 p * im3 r.
Definition norm (p : quaternion) : R := sqrt (dot p p).
Definition scale (k : R) (p : quaternion) : quaternion := mkQ (k * re p) (k * im1 p) (k * im2 p) (k * im3 p).
Definition plus (p r : quaternion) : quaternion := mkQ (re p + re r) (im1 p + im1 r) (im2 p + im2 r) (im3 p + im3 r).
Definition unit_quaternion (p : quaternion) : quaternion := scale (/ norm p) p.
Definition null : quaternion := mkQ 0 0 0 0.
Definition vdot (a b : vector) : R := v1 a * v1 b + v2 a * v2 b + v3 a * v3 b.
Definition vminus (a b : vector) : vector := mkV (v1 a - v1 b) (v2 a - v2 b) (v3 a - v3 b).
Definition vscale (k : R) (a : vector) : vector := mkV (k * v1 a) (k * v2 a) (k * v3 a).
Definition vnorm (a : vector) : R := sqrt (vdot a a).
Definition unit_vector (a : vector) : vector := vscale (/ vnorm a) a.
Definition vnull : vector := mkV 0 0 0.

(** The vector [b] of the earth, seen from a body of attitude [p]: the matrix of the rotation. [seen_is_rotation] in MadgProps: it is
    the vector part of conj p * b * p when [p] has norm 1. *)
Definition seen (p : quaternion) (b : vector) : vector :=
  let '(mkQ w x y z) := p in let '(mkV bx by_ bz) := b in
  mkV (bx * (1 - 2 * y * y - 2 * z * z) + by_ * 2 * (x * y + w * z) + bz * 2 * (x * z - w * y))
      (bx * 2 * (x * y - w * z) + by_ * (1 - 2 * x * x - 2 * z * z) + bz * 2 * (y * z + w * x))
      (bx * 2 * (x * z + w * y) + by_ * 2 * (y * z - w * x) + bz * (1 - 2 * x * x - 2 * y * y)).
Definition up : vector := mkV 0 0 1.

(** Half the squared distance between what a body of attitude [p] should measure and the measurement [a] of the vertical. *)
Definition square (a : vector) : R := vdot a a.
Definition tilt_error (a : vector) (p : quaternion) : R := / 2 * square (vminus (seen p up) a).
(** The same with the measurement [m] of the magnetic field, whose direction in the earth is assumed to be [b]. The code compares the
    measurement, of length 1, with half the expected one. *)
Definition attitude_error (a m b : vector) (p : quaternion) : R :=
  tilt_error a p + / 2 * square (vminus (vscale (/ 2) (seen p b)) m).
(** The field measured by a body of attitude [p], turned to the earth; its direction with the horizontal part turned to the first axis. *)
Definition field (p : quaternion) (m : vector) : vector :=
  let h := hamilton (hamilton p (pure m)) (conj p) in mkV (sqrt (im1 h * im1 h + im2 h * im2 h)) 0 (im3 h).

(** [g] is the gradient of [f] at [p]. *)
Definition gradient (f : quaternion -> R) (p g : quaternion) : Prop :=
  forall v, derivable_pt_lim (fun t => f (plus p (scale t v))) 0 (dot g v).

(** The derivative of the attitude of a body turning at the rate [g] (in its own axes). *)
Definition turning (p : quaternion) (g : vector) : quaternion := scale (/ 2) (hamilton p (pure g)).

(** One step of integration: turn at the measured rate, and descend the direction of [s] at the speed [b]. *)
Definition next (p : quaternion) (g : vector) (b freq : R) (s : quaternion) : quaternion :=
  plus p (scale (/ freq) (plus (turning p g) (scale (- b) (unit_quaternion s)))).

(** The states of the model in which all the floats are real numbers, or none. *)
Definition num_of (r : R) : num (F exact) := Some (Real r).
Definition quat_of (p : quaternion) : quat exact := Q (num_of (re p)) (num_of (im1 p)) (num_of (im2 p)) (num_of (im3 p)).
Definition vec_of (a : vector) : vec exact := V (num_of (v1 a)) (num_of (v2 a)) (num_of (v3 a)).
Definition filter_of (p : quaternion) (b freq : R) : filter exact := mkFilter (quat_of p) (num_of b) (num_of freq).
Definition nan_filter (b freq : R) : filter exact := @mkFilter exact (@Q exact None None None None) (num_of b) (num_of freq).
(** IEEE: no component is a number. *)
Definition all_nan (p : quat ieee) : Prop := is_nan (qw p) = true /\ is_nan (qx p) = true /\ is_nan (qy p) = true /\ is_nan (qz p) = true.
