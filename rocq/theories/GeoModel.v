(** Model of lib/aversive/math/geometry: vect_base.c, lines.c and the tests of polygon.c, over the
    floating-point formats of FloatModel.v. The rays of polygon.c are in OaModel.v. *)
From Coq Require Import ZArith List Bool.
From Verif Require Import FloatModel.
Import ListNotations.
Local Open Scope Z_scope.

Section Code.
Variable f : fmt.
Notation flt := (num f).
Notation "x + y" := (add f x y).
Notation "x - y" := (sub f x y).
Notation "x * y" := (mul f x y).
Notation "x / y" := (div f x y).
Notation "- x" := (neg f x).
Notation "x == y" := (eq f x y) (at level 70).

(** The conversion of an int to float. *)
Definition of_int (n : Z) : flt := lit f n 0.
Notation zero := (of_int 0).

(** vect_base.h:39-48: vect_t and point_t. *)
Definition point : Type := flt * flt.
Notation X := (fst : point -> flt).
Notation Y := (snd : point -> flt).

(** The vector from [b] to [a], which the callers write component by component. *)
Definition diff (a b : point) : point := (X a - X b, Y a - Y b).

(** vect_base.c:28-31 *)
Definition vect_pscal (v w : point) : flt := X v * X w + Y v * Y w.
(** vect_base.c:34-37 *)
Definition vect_pvect (v w : point) : flt := X v * Y w - Y v * X w.
(** vect_base.c:40-49 and 52-61: the sign of a float, -1 for NaN. *)
Definition sign (z : flt) : Z := if z == zero then 0 else if lt f zero z then 1 else -1.
Definition vect_pscal_sign (v w : point) : Z := sign (vect_pscal v w).
Definition vect_pvect_sign (v w : point) : Z := sign (vect_pvect v w).
(** vect_base.c:83-90 and 92-99 *)
Definition vect_rot_trigo (v : point) : point := (- Y v, X v).
Definition vect_rot_retro (v : point) : point := (Y v, - X v).

(** Equality of the two coordinates (polygon.c:77, lines.c:199-214). *)
Definition same (a b : point) : bool := (X a == X b) && (Y a == Y b).

(** * lines.c *)

(** lines.h:42-46: a*x + b*y + c = 0. *)
Record line := { la : flt; lb : flt; lc : flt }.

(** lines.c:47-112. The point is [None] if it is not written. *)
Definition intersect_line (l1 l2 : line) : Z * option point :=
  if ((la l1 == zero) && (lb l1 == zero)) || ((la l2 == zero) && (lb l2 == zero)) then (0, None) else
  if la l1 == zero then
    if la l2 == zero then
      if lb l1 * lc l2 == lb l2 * lc l1 then (2, None) else (0, None)
    else
      let y := (- lc l1) / lb l1 in
      let x := (- (lb l2 * (- lc l1) + lc l2 * lb l1)) / (la l2 * lb l1) in
      (1, Some (x, y))
  else if lb l1 == zero then
    if lb l2 == zero then
      if la l1 * lc l2 == la l2 * lc l1 then (2, None) else (0, None)
    else
      let x := (- lc l1) / la l1 in
      let y := (- (la l2 * (- lc l1) + lc l2 * la l1)) / (lb l2 * la l1) in
      (1, Some (x, y))
  else if la l2 * lb l1 - la l1 * lb l2 == zero then
    if la l1 * lc l2 == la l2 * lc l1 then (2, None) else (0, None)
  else
    let tmp1 := la l1 * lc l2 - lc l1 * la l2 in
    let tmp2 := la l2 * lb l1 - la l1 * lb l2 in
    let y := tmp1 / tmp2 in
    let x := (- (lb l1 * tmp1 + lc l1 * tmp2)) / (la l1 * tmp2) in
    (1, Some (x, y)).

(** lines.c:114-129 *)
Definition pts2line (p1 p2 : point) : line :=
  let a := - (Y p2 - Y p1) in
  let b := X p2 - X p1 in
  {| la := a; lb := b; lc := - (a * X p1 + b * Y p1) |}.

(** lines.c:131-141 *)
Definition proj_pt_line (p : point) (l : line) : point :=
  let ta := lb l in
  let tb := - la l in
  let tc := (- ta) * X p - tb * Y p in
  let y := (ta * lc l - la l * tc) / (la l * tb - ta * lb l) in
  let x := (lb l * tc - tb * lc l) / (la l * tb - ta * lb l) in
  (x, y).

(** lines.c:219: fabs is the one of double and the constant an integer; widening a float is exact. *)
Definition too_far (x : flt) : bool := lt f (of_int 32768) (fabs f x).

(** lines.c:152-247. The value of the parameter [p] is given after the call, [None] if nothing was written. *)
Definition intersect_segment (s1 s2 t1 t2 : point) : Z * option point :=
  match intersect_line (pts2line s1 s2) (pts2line t1 t2) with
  | (1, Some p) =>
      if same s1 t1 then (2, Some s1) else
      if same s1 t2 then (2, Some s1) else
      if same s2 t1 then (2, Some s2) else
      if same s2 t2 then (2, Some s2) else
      if too_far (X p) || too_far (Y p) then (0, Some p) else
      let u1 := vect_pscal_sign (diff p s1) (diff p s2) in
      let u2 := vect_pscal_sign (diff p t1) (diff p t2) in
      if (0 <? u1) || (0 <? u2) then (0, Some p) else
      if (u1 =? 0) || (u2 =? 0) then (2, Some p) else
      (1, Some p)
  | (2, _) =>
      if vect_pscal_sign (diff t1 s1) (diff t1 s2) <=? 0 then (3, Some t1) else
      if vect_pscal_sign (diff t2 s1) (diff t2 s2) <=? 0 then (3, Some t2) else
      (0, Some t2)
  | (_, p) => (0, p)
  end.

(** lines.c:248-251 *)
Definition line_translate (l : line) (v : point) : line :=
  {| la := la l; lb := lb l; lc := lc l - (la l * X v + lb l * Y v) |}.

(** * polygon.c *)

(** polygon.h:42-45: the vertices. *)
Definition poly : Type := list point.

(** The sides (pts[i], pts[(i + 1) % l]) in the order of the loops on [i]. *)
Definition sides (pol : poly) : list (point * point) :=
  match pol with [] => [] | a :: t => combine pol (t ++ [a]) end.

(** polygon.c:54-60, with the bounding box as an argument. *)
Definition is_in_boundingbox (x1 y1 x2 y2 : Z) (p : point) : bool :=
  le f (of_int x1) (X p) && le f (X p) (of_int x2) && le f (of_int y1) (Y p) && le f (Y p) (of_int y2).

(** polygon.c:82-95 *)
Fixpoint in_poly_loop (p : point) (s : list (point * point)) (ret : Z) : Z :=
  match s with
  | [] => ret
  | (a, b) :: s =>
      let z := vect_pvect_sign (diff b p) (diff a p) in
      if 0 <? z then 0 else in_poly_loop p s (if z =? 0 then 2 else ret)
  end.
(** polygon.c:67-98 *)
Definition is_in_poly (p : point) (pol : poly) : Z :=
  if existsb (same p) pol then 2 else in_poly_loop p (sides pol) 1.

(** polygon.c:131-165, with the counter and the last intersection point written. The result is the value
    returned, or the counter if the loop ends. *)
Fixpoint crossing_loop (p1 p2 : point) (s : list (point * point)) (cpt : Z) (ip : option point) :
  (Z + Z) * option point :=
  match s with
  | [] => (inr cpt, ip)
  | (a, b) :: s =>
      match intersect_segment p1 p2 a b with
      | (1, p) => (inl 1, p)
      | (2, p) => crossing_loop p1 p2 s (cpt + 1)%Z p
      | (3, p) => (inl 2, p)
      | _ => crossing_loop p1 p2 s cpt ip
      end
  end.
(** polygon.c:116-202, with the point written in [intersect_pt] if any. *)
Definition is_crossing_poly (p1 p2 : point) (pol : poly) : Z * option point :=
  match crossing_loop p1 p2 (sides pol) 0 None with
  | (inl r, ip) => (r, ip)
  | (inr cpt, ip) =>
      if (cpt =? 3) || (cpt =? 4) then (1, ip) else
      let ret1 := is_in_poly p1 pol in
      let ret2 := is_in_poly p2 pol in
      if cpt =? 0 then (if (ret1 =? 1) || (ret2 =? 1) then 1 else 0, ip) else
      if cpt =? 1 then (if (ret1 =? 1) || (ret2 =? 1) then 1 else 3, ip) else
      if cpt =? 2 then
        (if (ret1 =? 1) || (ret2 =? 1) then 1 else if (ret1 =? 0) || (ret2 =? 0) then 3 else 1, ip)
      else (1, ip)
  end.

(** The points of the planner, set from two int32 (obstacle_avoidance.c:94-95, 107-108, 186-187). *)
Definition int_point (x y : Z) : point := (of_int x, of_int y).
(** The test of the planner on a segment and an obstacle (polygon.c:256-258, 294-297): only the answer 1 blocks it. *)
Definition crosses (p1 p2 : point) (pol : poly) : bool := fst (is_crossing_poly p1 p2 pol) =? 1.

(** obstacle_avoidance.c:163-173, for the polygons of the structure. *)
Definition oa_segment_intersect_obstacle (polys : list poly) (p1 p2 : point) : bool :=
  existsb (fun pol => negb (fst (is_crossing_poly p1 p2 pol) =? 0)) polys.

(** circles.c:33-42 *)
Definition pt_is_inside_circle (p : point) (cx cy r : flt) : bool :=
  let v := diff p (cx, cy) in lt f (X v * X v + Y v * Y v) (r * r).
End Code.
