(** Model of master-firmware/src/math/lie_groups.c. Floats are real numbers, and cosf and sinf the
    cosine and sine: rounding is not modelled. *)
From Coq Require Import Reals.
Local Open Scope R_scope.

(** vect_base.h:39-48: vect_t and point_t. *)
Definition point : Type := R * R.
Notation X := (fst : point -> R).
Notation Y := (snd : point -> R).
(** lie_groups.h:12-14 *)
Record so2 := { angle : R }.
(** lie_groups.h:25-28 *)
Record se2 := { rotation : so2; translation : point }.

(** lie_groups.c:5-9 *)
Definition so2_create (a : R) : so2 := {| angle := a |}.
(** lie_groups.c:11-22 *)
Definition so2_rotate (r : so2) (p : point) : point :=
  let cos_a := cos (angle r) in
  let sin_a := sin (angle r) in
  (cos_a * X p - sin_a * Y p, sin_a * X p + cos_a * Y p).
(** lie_groups.c:24-27 *)
Definition so2_inverse_rotate (r : so2) (p : point) : point := so2_rotate (so2_create (- angle r)) p.
(** lie_groups.c:29-33 *)
Definition translation_2d (x y : R) : point := (x, y).
(** lie_groups.c:35-39 *)
Definition se2_create (a : R) (t : point) : se2 := {| rotation := so2_create a; translation := t |}.
(** lie_groups.c:41-44 *)
Definition se2_create_xya (x y a : R) : se2 := se2_create a (translation_2d x y).
(** lie_groups.c:46-54 *)
Definition se2_transform (t : se2) (p : point) : point :=
  let p := so2_rotate (rotation t) p in
  (X p + X (translation t), Y p + Y (translation t)).
(** lie_groups.c:56-64 *)
Definition se2_inverse_transform (t : se2) (p : point) : point :=
  let p := (X p - X (translation t), Y p - Y (translation t)) in
  so2_inverse_rotate (rotation t) p.
(** lie_groups.c:66-77 *)
Definition se2_chain (lhs rhs : se2) : se2 :=
  let t2 := (X (translation rhs), Y (translation rhs)) in
  let tr := se2_transform lhs t2 in
  {| rotation := {| angle := angle (rotation lhs) + angle (rotation rhs) |}; translation := (X tr, Y tr) |}.
(** lie_groups.c:79-90 *)
Definition se2_inverse (t : se2) : se2 :=
  let tr := (X (translation t), Y (translation t)) in
  let tr := so2_inverse_rotate (rotation t) tr in
  {| rotation := {| angle := - angle (rotation t) |}; translation := (- X tr, - Y tr) |}.
