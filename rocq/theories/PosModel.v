(** Model of lib/aversive/position_manager/position_manager.cpp, of the angle functions of
    lib/aversive/trajectory_manager/trajectory_manager_utils.cpp and of
    master-firmware/src/robot_helpers/math_helpers.c, over the floating-point machines of FloatModel.v. The mutex of the
    odometry is held for the whole of each of its functions, which are therefore atomic. *)
From Coq Require Import ZArith List Bool.
From Verif Require Import CRes FloatModel.
Import ListNotations.
Local Open Scope Z_scope.

Section Code.
Variable m : machine.
Notation double := (num (D m)).
Notation flt := (num (F m)).
Notation "x + y" := (add (D m) x y).
Notation "x - y" := (sub (D m) x y).
Notation "x * y" := (mul (D m) x y).
Notation "x / y" := (div (D m) x y).
Notation "- x" := (neg (D m) x).
Notation "x < y" := (lt (D m) x y).
Notation M_PI := (m_pi m).
(** The conversion of an int to double. *)
Definition dbl (n : Z) : double := lit (D m) n 0.
(** The conversion of a double to a signed integer of [n] bits: undefined out of its range. *)
Definition cast (n : Z) (x : double) : res Z :=
  match trunc (D m) x with
  | Some z => if ((- 2 ^ (n - 1) <=? z) && (z <? 2 ^ (n - 1)))%Z then OK z else BAD
  | None => BAD
  end.

(** * Angles *)

(** trajectory_manager_utils.h:29 *)
Definition M_2PI : double := dbl 2 * M_PI.
(** trajectory_manager_utils.cpp:93-101 *)
Definition simple_modulo_2pi (a : double) : double :=
  if a < - M_PI then a + M_2PI else if M_PI < a then a - M_2PI else a.
(** trajectory_manager_utils.cpp:104-108 *)
Definition modulo_2pi (a : double) : res double :=
  try k := cast 32 (a / M_2PI) in
  OK (simple_modulo_2pi (a - dbl k * M_2PI)).

(** math_helpers.c:7-17. The operands of fmodf and the results are converted to float. *)
Definition angle_delta (start end_ : flt) : flt :=
  let res := narrow m (widen m (fmod (F m) (narrow m (widen m (sub (F m) end_ start) + M_PI)) (narrow m (dbl 2 * M_PI))) - M_PI) in
  let res_conj := narrow m (dbl 2 * M_PI - widen m res) in
  if lt (F m) (fabs (F m) res) (fabs (F m) res_conj) then res else res_conj.

(** math_helpers.c:26-35 *)
Definition math_clamp_value (value min max : Z) : Z :=
  if (value <? min)%Z then min else if (max <? value)%Z then max else value.

(** math_helpers.c:41-46, from the index [i] on. *)
Fixpoint argmin_loop (values : list flt) (i min_index : Z) (min_value : flt) : Z :=
  match values with
  | [] => min_index
  | v :: values =>
      if lt (F m) v min_value then argmin_loop values (i + 1)%Z i v else argmin_loop values (i + 1)%Z min_index min_value
  end.
(** math_helpers.c:37-48 *)
Definition argmin (values : list flt) : Z := argmin_loop values 0 0 (inf (F m)).

(** * Odometry *)

(** cos and sin of the C library. *)
Variables cosd sind : double -> double.

(** position_manager.h:98-140. The pointer [rs] is set or not, and the values of its encoders are given with the calls. *)
Record position := {
  use_ext : bool;
  track_mm : double;
  distance_imp_per_mm : double;
  px : double; py : double; pa : double;      (* pos_d *)
  sx : Z; sy : Z; sa : Z;                     (* pos_s16 *)
  prev_distance : Z; prev_angle : Z;          (* prev_encoders *)
  rs_set : bool;
  centrifugal_coef : double }.

(** position_manager.cpp:34-48 *)
Definition position_init : position :=
  {| use_ext := false; track_mm := dbl 0; distance_imp_per_mm := dbl 0; px := dbl 0; py := dbl 0; pa := dbl 0;
     sx := 0; sy := 0; sa := 0; prev_distance := 0; prev_angle := 0; rs_set := false; centrifugal_coef := dbl 0 |}.

Definition with_pose (p : position) (x y a : double) (x' y' a' : Z) (d an : Z) : position :=
  {| use_ext := use_ext p; track_mm := track_mm p; distance_imp_per_mm := distance_imp_per_mm p; px := x; py := y; pa := a;
     sx := x'; sy := y'; sa := a'; prev_distance := d; prev_angle := an; rs_set := rs_set p;
     centrifugal_coef := centrifugal_coef p |}.

(** position_manager.cpp:51-60; [x] and [y] are int16_t. *)
Definition position_set (p : position) (x y : Z) (a_deg : double) : res position :=
  try a' := cast 16 a_deg in
  OK (with_pose p (dbl x) (dbl y) (a_deg * M_PI / dbl 180) x y a' (prev_distance p) (prev_angle p)).

(** position_manager.cpp:63-67 *)
Definition position_set_centrifugal_coef (p : position) (coef : double) : position :=
  {| use_ext := use_ext p; track_mm := track_mm p; distance_imp_per_mm := distance_imp_per_mm p; px := px p; py := py p; pa := pa p;
     sx := sx p; sy := sy p; sa := sa p; prev_distance := prev_distance p; prev_angle := prev_angle p; rs_set := rs_set p;
     centrifugal_coef := coef |}.
(** position_manager.cpp:75-79 *)
Definition position_set_related_robot_system (p : position) : position :=
  {| use_ext := use_ext p; track_mm := track_mm p; distance_imp_per_mm := distance_imp_per_mm p; px := px p; py := py p; pa := pa p;
     sx := sx p; sy := sy p; sa := sa p; prev_distance := prev_distance p; prev_angle := prev_angle p; rs_set := true;
     centrifugal_coef := centrifugal_coef p |}.
(** position_manager.cpp:86-91 *)
Definition position_set_physical_params (p : position) (track imp : double) : position :=
  {| use_ext := use_ext p; track_mm := track; distance_imp_per_mm := imp; px := px p; py := py p; pa := pa p;
     sx := sx p; sy := sy p; sa := sa p; prev_distance := prev_distance p; prev_angle := prev_angle p; rs_set := rs_set p;
     centrifugal_coef := centrifugal_coef p |}.
(** position_manager.cpp:93-102 and 105-114. [enc] is what the robot system returns: null is dereferenced if it is not set. *)
Definition position_use (p : position) (ext : bool) (enc : Z * Z) : res position :=
  if rs_set p then
    OK {| use_ext := ext; track_mm := track_mm p; distance_imp_per_mm := distance_imp_per_mm p; px := px p; py := py p; pa := pa p;
          sx := sx p; sy := sy p; sa := sa p; prev_distance := fst enc; prev_angle := snd enc; rs_set := rs_set p;
          centrifugal_coef := centrifugal_coef p |}
  else BAD.

(** position_manager.cpp:157-211: the new pose, for the differences of the encoders. *)
Definition displace (p : position) (dd da : Z) : double * double * double :=
  let a := pa p in let x := px p in let y := py p in
  if (da =? 0)%Z then
    let dx := cosd a * (dbl dd / distance_imp_per_mm p) in
    let dy := sind a * (dbl dd / distance_imp_per_mm p) in
    (x + dx, y + dy, a)
  else
    let r := dbl dd * track_mm p / (dbl da * dbl 2) in
    let arc_angle := dbl 2 * dbl da / (track_mm p * distance_imp_per_mm p) in
    let dx := r * (- sind a + sind (a + arc_angle)) in
    let dy := r * (cosd a - cosd (a + arc_angle)) in
    let x := x + dx in
    let y := y + dy in
    let a := a + arc_angle in
    let a := if a < - M_PI then a + M_PI * dbl 2 else if M_PI < a then a - M_PI * dbl 2 else a in
    if negb (eq (D m) (centrifugal_coef p) (dbl 0)) && negb (eq (D m) r (dbl 0)) then
      let k := dbl dd in
      let k := k * k in
      let k := k / r in
      let k := k * centrifugal_coef p in
      (x + k * sind a, y - k * cosd a, a)
    else (x, y, a).

(** position_manager.cpp:122-226, for the values [ext] and [mot] of the encoders (distance, angle). *)
Definition position_manage (p : position) (ext mot : Z * Z) : res position :=
  if negb (rs_set p) then OK p else
  let enc := if use_ext p then ext else mot in
  try dd := int (fst enc - prev_distance p)%Z in
  try da := int (snd enc - prev_angle p)%Z in
  let '(x, y, a) := displace p dd da in
  try x' := cast 16 x in
  try y' := cast 16 y in
  try a' := cast 16 (a * (dbl 360 / (M_PI * dbl 2))) in
  OK (with_pose p x y a x' y' a' (fst enc) (snd enc)).

(** The calls, and a history of them. *)
Inductive call :=
| Set_ (x y : Z) (a_deg : double)
| SetCoef (c : double)
| SetSystem
| SetParams (track imp : double)
| Use (ext : bool) (enc : Z * Z)
| Manage (ext mot : Z * Z).
Definition step (p : position) (c : call) : res position :=
  match c with
  | Set_ x y a => position_set p x y a
  | SetCoef c => OK (position_set_centrifugal_coef p c)
  | SetSystem => OK (position_set_related_robot_system p)
  | SetParams t i => OK (position_set_physical_params p t i)
  | Use e enc => position_use p e enc
  | Manage ext mot => position_manage p ext mot
  end.
Fixpoint run (p : position) (cs : list call) : res position :=
  match cs with [] => OK p | c :: cs => try p := step p c in run p cs end.
End Code.
