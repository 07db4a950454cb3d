(** Model of lib/aversive/math/geometry/circles.c (circle_intersect), of the norms of vect_base.c and of
    lib/aversive/math/vect2/vect2.c, over the floating-point formats of FloatModel.v. pt_is_inside_circle is in
    GeoModel.v. *)
From Coq Require Import ZArith Reals List Bool.
From Verif Require Import FloatModel GeoModel.
From Verif Require TrajModel.
Import ListNotations.
Local Open Scope Z_scope.

Section Code.
Variable f : fmt.
(** sqrtf of the C library. *)
Variable sqrtf : num f -> num f.
Notation flt := (num f).
Notation "x + y" := (add f x y).
Notation "x - y" := (sub f x y).
Notation "x * y" := (mul f x y).
Notation "x / y" := (div f x y).
Notation "- x" := (neg f x).
Notation int_ := (of_int f).
Notation point := (point f).

(** circles.h: circle_t *)
Record circle := { cx : flt; cy : flt; cr : flt }.

(** circles.c:28-31 *)
Definition sq (x : flt) : flt := x * x.

(** 0.0001f *)
Definition lit_1e4 : flt := lit f 13743895 (-37).

(** circles.c:82-133: the part after the exchange of the axes. [None] when p1 and p2 are not written. *)
Definition circle_core (c1 c2 : circle) : Z * option (point * point) :=
  let bx := cx c2 - cx c1 in
  let by_ := cy c2 - cy c1 in
  let ra := cr c1 in
  let rb := cr c2 in
  let a := int_ 2 * bx in
  let b := int_ 2 * by_ in
  let c := ((sq bx + sq by_) - sq rb) + sq ra in
  let d := sq ((int_ 2 * a) * c) - ((int_ 4 * (sq a + sq b)) * (sq c - sq b * sq ra)) in
  if lt f d (int_ 0) then (0, None) else
  if lt f (fabs f b) lit_1e4 then
    let e := sq rb - sq ((int_ 2 * c - sq a) / (int_ 2 * a)) in
    if lt f e (int_ 0) then (0, None) else
    let x := (((int_ 2 * a) * c) - sqrtf d) / (int_ 2 * (sq a + sq b)) in
    let y := sqrtf e in
    (1, Some ((x + cx c1, y + cy c1), (x + cx c1, y + cy c1)))
  else
    let x1 := (((int_ 2 * a) * c) - sqrtf d) / (int_ 2 * (sq a + sq b)) in
    let y1 := (c - a * x1) / b in
    let x2 := (((int_ 2 * a) * c) + sqrtf d) / (int_ 2 * (sq a + sq b)) in
    let y2 := (c - a * x2) / b in
    (2, Some ((x1 + cx c1, y1 + cy c1), (x2 + cx c1, y2 + cy c1))).

Definition swap_axes (c : circle) : circle := {| cx := cy c; cy := cx c; cr := cr c |}.
Definition swap (p : point) : point := (snd p, fst p).

(** circles.c:54-80. The function calls itself with the axes exchanged; the test of that call is the reverse
    of the one that holds, so that it goes on with the rest. If the call writes no point, the garbage of [pa] and [pb]
    is copied, which is [None] here. *)
Definition circle_intersect (c1 c2 : circle) : Z * option (point * point) :=
  if lt f (fabs f (cy c1 - cy c2)) (fabs f (cx c1 - cx c2)) then
    let '(ret, p) := circle_core (swap_axes c1) (swap_axes c2) in
    (ret, option_map (fun ab => (swap (fst ab), swap (snd ab))) p)
  else circle_core c1 c2.

(** vect_base.c:63-68 *)
Definition xy_norm (x1 y1 x2 y2 : flt) : flt :=
  let x := x2 - x1 in let y := y2 - y1 in sqrtf (x * x + y * y).
(** vect_base.c:70-75 *)
Definition pt_norm (p1 p2 : point) : flt :=
  let x := fst p2 - fst p1 in let y := snd p2 - snd p1 in sqrtf (x * x + y * y).
(** vect_base.c:78-81 *)
Definition vect_norm (v : point) : flt := sqrtf (fst v * fst v + snd v * snd v).
(** vect_base.c:112-118 *)
Definition vect_resize (v : point) (l : flt) : point :=
  let old_l := vect_norm v in ((fst v * l) / old_l, (snd v * l) / old_l).

(** vect2.c:109-114: the argument given to acosf by vect2_angle_2vec_rad_cart, with the float arithmetic; the two norms
    (vect2.c:88-91) are computed as in [vect_norm]. *)
Definition angle_argument (a b : point) : flt :=
  (fst a * fst b + snd a * snd b) / (vect_norm a * vect_norm b).

End Code.

(** * vect2.c, over the reals

    The conversions use the double functions cos, sin, sqrt and atan2, and round the results to float: modelled
    without rounding. The pointers are not NULL. *)
Local Open Scope R_scope.

(** vect2.h:45-57 *)
Record cart := { vx : R; vy : R }.
Record pol := { vr : R; vtheta : R }.

(** atan2 of the C library. *)
Notation atan2 := TrajModel.atan2.

(** vect2.c:7-15 *)
Definition vect2_pol2cart (p : pol) : cart := {| vx := vr p * cos (vtheta p); vy := vr p * sin (vtheta p) |}.
(** vect2.c:18-26 *)
Definition vect2_cart2pol (c : cart) : pol :=
  {| vr := sqrt (vx c * vx c + vy c * vy c); vtheta := atan2 (vy c) (vx c) |}.
(** vect2.c:45-49 *)
Definition vect2_add_cart (a b : cart) : cart := {| vx := vx a + vx b; vy := vy a + vy b |}.
(** vect2.c:68-72 *)
Definition vect2_sub_cart (a b : cart) : cart := {| vx := vx a - vx b; vy := vy a - vy b |}.
(** vect2.c:29-42 *)
Definition vect2_add_pol (a b : pol) : pol := vect2_cart2pol (vect2_add_cart (vect2_pol2cart a) (vect2_pol2cart b)).
(** vect2.c:52-65 *)
Definition vect2_sub_pol (a b : pol) : pol := vect2_cart2pol (vect2_sub_cart (vect2_pol2cart a) (vect2_pol2cart b)).
(** vect2.c:75-79 *)
Definition vect2_scale_cart (a : cart) (alpha : R) : cart := {| vx := alpha * vx a; vy := alpha * vy a |}.
(** vect2.c:82-85: the angle of the result is left as it was. *)
Definition vect2_scale_pol (a : pol) (alpha : R) (result : pol) : pol := {| vr := alpha * vr a; vtheta := vtheta result |}.
(** vect2.c:88-91 *)
Definition vect2_norm_cart (a : cart) : R := sqrt (vx a * vx a + vy a * vy a).
(** vect2.c:94-100 *)
Definition vect2_dist_cart (a b : cart) : R := vect2_norm_cart (vect2_sub_cart a b).
(** vect2.c:103-106 *)
Definition vect2_dot_product_cart (a b : cart) : R := vx a * vx b + vy a * vy b.
(** vect2.c:109-115 *)
Definition vect2_angle_2vec_rad_cart (a b : cart) : R :=
  acos (vect2_dot_product_cart a b / (vect2_norm_cart a * vect2_norm_cart b)).
(** vect2.c:118-121 *)
Definition vect2_angle_vec_x_rad_cart (a : cart) : R := atan2 (vy a) (vx a).
