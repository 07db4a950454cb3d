(** Model of the lines, circles and clothoids of the trajectory manager: lib/aversive/trajectory_manager/
    trajectory_manager_core.cpp 496-588, 590-650 and 686-1042, with the functions of lib/aversive/math that they call.

    Simplified as in TrajModel.v: double and float are real numbers; a division by zero whose result is used is BAD, as
    its conversion to int32_t would be undefined. Each event is one step. The speeds and accelerations of the two ramps
    are what set_quadramp_speed and set_quadramp_acc give them (TrajModel.v). In line events pos_mm2imp and pos_rd2imp
    take the lock of the position once more, which the caller holds: this is not modelled. *)
From Coq Require Import ZArith Reals List Bool.
From Flocq Require Import Core.
From Verif Require Import CBase CRes QuadModel TrajModel.
Import ListNotations.
Local Open Scope R_scope.

(** ** Geometry *)

(** vect_base.h:39-48 *)
Definition point : Type := R * R.
(** lines.h:42-46: a*x + b*y + c = 0 *)
Record line := mkline { la : R; lb : R; lc : R }.
Definition eqb0 (x : R) : bool := if Req_EM_T x 0 then true else false.
(** vect_base.c:63-75 xy_norm, pt_norm *)
Definition pt_norm (p q : point) : R := sqrt ((fst q - fst p) * (fst q - fst p) + (snd q - snd p) * (snd q - snd p)).
(** vect_base.c:83-99 *)
Definition vect_rot_trigo (v : point) : point := (- snd v, fst v).
Definition vect_rot_retro (v : point) : point := (snd v, - fst v).
(** vect_base.c:112-118; callers give a vector that is not null. *)
Definition vect_resize (v : point) (l : R) : point :=
  let old_l := sqrt (fst v * fst v + snd v * snd v) in (fst v * l / old_l, snd v * l / old_l).
(** lines.c:114-129 *)
Definition pts2line (p1 p2 : point) : line :=
  let a := - (snd p2 - snd p1) in let b := fst p2 - fst p1 in mkline a b (- (a * fst p1 + b * snd p1)).
(** lines.c:131-141 *)
Definition proj_pt_line (p : point) (l : line) : res point :=
  let ta := lb l in
  let tb := - la l in
  let tc := - ta * fst p - tb * snd p in
  let d := la l * tb - ta * lb l in
  if eqb0 d then BAD else OK ((lb l * tc - tb * lc l) / d, (ta * lc l - la l * tc) / d).
(** lines.c:47-112: the crossing point, if there is exactly one. *)
Definition intersect_line (l1 l2 : line) : option point :=
  if (eqb0 (la l1) && eqb0 (lb l1)) || (eqb0 (la l2) && eqb0 (lb l2)) then None else
  if eqb0 (la l1) then
    if eqb0 (la l2) then None
    else Some (- (lb l2 * (- lc l1) + lc l2 * lb l1) / (la l2 * lb l1), - lc l1 / lb l1)
  else if eqb0 (lb l1) then
    if eqb0 (lb l2) then None
    else Some (- lc l1 / la l1, - (la l2 * (- lc l1) + lc l2 * la l1) / (lb l2 * la l1))
  else if eqb0 (la l2 * lb l1 - la l1 * lb l2) then None
  else
    let tmp1 := la l1 * lc l2 - lc l1 * la l2 in
    let tmp2 := la l2 * lb l1 - la l1 * lb l2 in
    Some (- (lb l1 * tmp1 + lc l1 * tmp2) / (la l1 * tmp2), tmp1 / tmp2).
(** lines.c:237-240 *)
Definition line_translate (l : line) (v : point) : line := mkline (la l) (lb l) (lc l - (la l * fst v + lb l * snd v)).

(** ** State *)

(** trajectory_manager.h:47-79: the states of these trajectories; READY stands for the others. *)
Inductive cstate := READY | RUNNING_CIRCLE | RUNNING_LINE | RUNNING_CLITOID_LINE | RUNNING_CLITOID_CURVE.
(** trajectory_manager.h:96-106: the part for clitoids of struct line_target. *)
Record turn := mkturn { turn_pt : point; tAa : R; tVa : R; talpha : R; tR : R }.
(** trajectory_manager.h:82-106 and __trajectory_goto_d_a_rel (targets in steps). *)
Inductive ctarget :=
| NoTarget
| Circle (center : point) (radius : R) (flags : Z) (dest_angle dest_distance : Z)
| Line (l : line) (angle advance : R) (t : option turn)
| Pol (distance angle : Z).
(** The robot: pose, encoders in distance and angle, physical parameters, configured speeds and window; then the
    speeds and accelerations of the ramps, the consigns, and the trajectory. *)
Record robot := mkrobot {
  px : R; py : R; pa : R;
  rs_distance : Z; rs_angle : Z;
  imp_per_mm : R; track : R; cs_hz : R;
  spd : speeds; a_start : R;
  ramp_d : R; ramp_a : R; racc_d : R; racc_a : R;
  d_consign : Z; a_consign : Z;
  scheduled : bool; state : cstate; tgt : ctarget }.
Definition set_ramp (r : robot) d a := mkrobot (px r) (py r) (pa r) (rs_distance r) (rs_angle r) (imp_per_mm r) (track r) (cs_hz r)
  (spd r) (a_start r) d a (racc_d r) (racc_a r) (d_consign r) (a_consign r) (scheduled r) (state r) (tgt r).
Definition set_acc (r : robot) d a := mkrobot (px r) (py r) (pa r) (rs_distance r) (rs_angle r) (imp_per_mm r) (track r) (cs_hz r)
  (spd r) (a_start r) (ramp_d r) (ramp_a r) d a (d_consign r) (a_consign r) (scheduled r) (state r) (tgt r).
Definition set_consign (r : robot) d a := mkrobot (px r) (py r) (pa r) (rs_distance r) (rs_angle r) (imp_per_mm r) (track r) (cs_hz r)
  (spd r) (a_start r) (ramp_d r) (ramp_a r) (racc_d r) (racc_a r) d a (scheduled r) (state r) (tgt r).
Definition set_traj (r : robot) b s t := mkrobot (px r) (py r) (pa r) (rs_distance r) (rs_angle r) (imp_per_mm r) (track r) (cs_hz r)
  (spd r) (a_start r) (ramp_d r) (ramp_a r) (racc_d r) (racc_a r) (d_consign r) (a_consign r) b s t.
(** Between events the odometry moves the robot. *)
Definition set_pose (r : robot) x y a d an := mkrobot x y a d an (imp_per_mm r) (track r) (cs_hz r)
  (spd r) (a_start r) (ramp_d r) (ramp_a r) (racc_d r) (racc_a r) (d_consign r) (a_consign r) (scheduled r) (state r) (tgt r).

(** trajectory_manager_utils.cpp:43-51 *)
Definition set_quadramp_speed (r : robot) (d a : R) : robot := set_ramp r (Rabs d) (Rabs a).
(** 70-77 *)
Definition set_quadramp_acc (r : robot) (d a : R) : robot := set_acc r (Rabs d) (Rabs a).
(** 80-85 *)
Definition delete_event (r : robot) : robot :=
  let r := set_quadramp_speed r (d_speed (spd r)) (a_speed (spd r)) in
  let r := set_quadramp_acc r (d_acc (spd r)) (a_acc (spd r)) in
  set_traj r false (state r) (tgt r).
(** 87-90 *)
Definition schedule_event (r : robot) : robot := set_traj r true (state r) (tgt r).
(** 185-235: units *)
Definition pos_mm2imp (r : robot) (p : R) : R := p * imp_per_mm r.
Definition pos_rd2imp (r : robot) (p : R) : R := p * (imp_per_mm r * track r / 2).
Definition speed_imp2mm (r : robot) (s : R) : R := s * cs_hz r / imp_per_mm r.
Definition speed_rd2imp (r : robot) (s : R) : R := s * (imp_per_mm r * track r / (2 * cs_hz r)).
Definition acc_rd2imp (r : robot) (s : R) : R := s * (imp_per_mm r * track r / (2 * cs_hz r * cs_hz r)).

(** The vector to a point, seen from the robot (vect2.c:18-26 vect2_cart2pol, and 546, 620). *)
Definition seen (r : robot) (p : point) : R * R :=
  (sqrt ((fst p - px r) * (fst p - px r) + (snd p - py r) * (snd p - py r)),
   simple_modulo_2pi (atan2 (snd p - py r) (fst p - px r) - pa r)).

(** ** Circles *)

(** 499-520 circle_get_speed_from_radius: speeds in distance and in angle. [None]: infinite radius, which the call
    at 566 gives when the robot is on the center. *)
Definition circle_get_speed_from_radius (r : robot) (radius_mm : option R) : R * R :=
  match radius_mm with
  | None => (d_speed (spd r), 0)
  | Some radius =>
      let coef := 2 * radius / track r in
      let speed_d2 := a_speed (spd r) * coef in
      if ltb speed_d2 (d_speed (spd r)) then (speed_d2, a_speed (spd r))
      else (d_speed (spd r), d_speed (spd r) / coef)
  end.
(** 552-564: the correction of the radius. *)
Definition coef_d (theta : R) : R :=
  let a := simple_modulo_2pi (theta - PI / 2) in
  let a := if ltb (1 / 2) a then 1 / 2 else a in
  let a := if ltb a (- (1 / 2)) then - (1 / 2) else a in
  exp (5 * a).
(** 523-588 trajectory_manager_circle_event. A radius of zero divides by zero. *)
Definition trajectory_manager_circle_event (r : robot) : res robot :=
  match tgt r with
  | Circle center radius _ dest_angle dest_distance =>
      if eqb0 radius then BAD else
      let '(dist, theta) := seen r center in
      let coef_p := dist / radius in
      let corrected := if eqb0 dist then None else Some (radius / (coef_p * coef_d theta)) in
      let '(d, a) := circle_get_speed_from_radius r corrected in
      let r := set_quadramp_speed r d a in
      try remaining := int (dest_angle - rs_angle r) in
      let a := IZR remaining / imp_per_mm r / track r * 2 in
      let r := if ltb (Rabs a) (RAD 2) then delete_event r else r in
      OK (set_consign r dest_distance dest_angle)
  | _ => BAD
  end.
(** 691-728 trajectory_circle_rel *)
Definition trajectory_circle_rel (r : robot) (center : point) (radius_mm rel_a_deg : R) (flags : Z) : res robot :=
  let r := delete_event r in
  let dst_angle := RAD rel_a_deg * imp_per_mm r * track r / 2 in
  let dst_distance := RAD rel_a_deg * imp_per_mm r * radius_mm in
  try a := to_int32 (IZR (rs_angle r) + dst_angle) in
  try d := to_int32 (IZR (rs_distance r) + dst_distance) in
  OK (schedule_event (set_traj r (scheduled r) RUNNING_CIRCLE (Circle center radius_mm flags a d))).

(** ** Lines *)

(** 741-763 __trajectory_line_abs *)
Definition line_target (p1 p2 : point) (advance : R) (t : option turn) : ctarget :=
  Line (pts2line p1 p2) (atan2 (snd p2 - snd p1) (fst p2 - fst p1)) advance t.
(** 766-778 trajectory_line_abs *)
Definition trajectory_line_abs (r : robot) (p1 p2 : point) (advance : R) : robot :=
  let r := delete_event r in schedule_event (set_traj r (scheduled r) RUNNING_LINE (line_target p1 p2 advance None)).
(** 606-614: the projection of the robot on the line and the point to aim at. *)
Definition aim (r : robot) (l : line) (angle advance : R) : res (point * point) :=
  try proj := proj_pt_line (px r, py r) l in
  let dist_to_line := pt_norm (px r, py r) proj in
  let adv := if ltb advance dist_to_line then 0 else advance - dist_to_line in
  OK (proj, (fst proj + adv * cos angle, snd proj + adv * sin angle)).
(** 71-99 __trajectory_goto_d_a_rel with UPDATE_A | UPDATE_D (see TrajModel.v) and 963-983 start_clitoid. *)
Definition start_clitoid (r : robot) (t : turn) : res robot :=
  let r := delete_event r in
  let d := Rabs (tR t * talpha t) * 3 in
  let r := delete_event r in
  try a := to_int32 (talpha t * imp_per_mm r * track r / 2) in
  try a_consign := int (a + rs_angle r) in
  try d := to_int32 (d * imp_per_mm r) in
  try d_consign := int (d + rs_distance r) in
  let r := set_traj r (scheduled r) RUNNING_CLITOID_CURVE (Pol d_consign a_consign) in
  let r := set_consign r d_consign a_consign in
  let r := set_quadramp_acc r (d_acc (spd r)) (tAa t) in
  OK (set_quadramp_speed r (d_speed (spd r)) (tVa t)).
(** 590-650 trajectory_manager_line_event *)
Definition trajectory_manager_line_event (r : robot) : res robot :=
  match tgt r with
  | Line l angle advance t =>
      try (proj, target_pt) := aim r l angle advance in
      let '(dist, theta) := seen r target_pt in
      if negb (ltb (a_start r) (Rabs theta)) && eqb0 (a_start r) then BAD else
      let speed := if ltb (a_start r) (Rabs theta) then 0
                   else d_speed (spd r) * ((a_start r - Rabs theta) / a_start r) in
      let r := set_quadramp_speed r speed (a_speed (spd r)) in
      try d := to_int32 (pos_mm2imp r dist) in
      try d := int (d + rs_distance r) in
      try a := to_int32 (pos_rd2imp r theta / (11 / 10)) in
      try a := int (a + rs_angle r) in
      let r := set_consign r d a in
      match state r, t with
      | RUNNING_CLITOID_LINE, Some t =>
          if ltb (pt_norm proj (turn_pt t)) (pt_norm (fst proj + cos angle, snd proj + sin angle) (turn_pt t))
          then start_clitoid r t else OK r
      | RUNNING_CLITOID_LINE, None => BAD
      | _, _ => OK r
      end
  | _ => BAD
  end.

(** ** Clitoids *)

(** 845-861: the end of the first clothoid, from its start. *)
Definition clothoid_x (L A : R) : R := L - L ^ 5 / (40 * A ^ 4) + L ^ 9 / (3456 * A ^ 8) - L ^ 13 / (599040 * A ^ 12).
Definition clothoid_y (L A : R) : R := L ^ 3 / (6 * A ^ 2) - L ^ 7 / (336 * A ^ 6) + L ^ 11 / (42240 * A ^ 10) - L ^ 15 / (9676800 * A ^ 14).
(** 865-906: the center of the circle. [u] is the start, [intersect] the crossing of the two lines, [pt2] a point further
    on the second one. *)
Definition circle_center (u intersect pt2 : point) (alpha_rad d_mm : R) : option point :=
  let line1 := pts2line u intersect in
  let line2 := pts2line intersect pt2 in
  let v := (fst intersect - fst u, snd intersect - snd u) in
  let v := if ltb 0 alpha_rad then vect_rot_trigo v else vect_rot_retro v in
  let line1_int := line_translate line1 (vect_resize v d_mm) in
  let v := (fst intersect - fst pt2, snd intersect - snd pt2) in
  let v := if ltb alpha_rad 0 then vect_rot_trigo v else vect_rot_retro v in
  let line2_int := line_translate line2 (vect_resize v d_mm) in
  intersect_line line1_int line2_int.
(** 798-942 calc_clitoid: angular acceleration, angular speed and remaining distance. [BAD]: a division by zero (R, the
    speed, or both lines the same point). [None]: -1 is returned. *)
Definition calc_clitoid (r : robot) (x y a_rad alpha_deg beta_deg R_mm Vd Amax d_inter_mm : R) : res (option (R * R * R)) :=
  if negb (ltb (Rabs beta_deg) (Rabs alpha_deg)) then OK None else
  let Vd_mm_s := speed_imp2mm r Vd in
  if eqb0 R_mm || eqb0 Vd_mm_s then BAD else
  let Va_rd_s := Vd_mm_s / R_mm in
  let Va := speed_rd2imp r Va_rd_s in
  let alpha_rad := RAD alpha_deg in
  let beta_rad := RAD beta_deg in
  let t := Rabs ((alpha_rad - beta_rad) * R_mm / Vd_mm_s) in
  let Aa := acc_rd2imp r (Va_rd_s / t) in
  if ltb Amax Aa then OK None else
  let intersect := (x + cos a_rad * d_inter_mm, y + sin a_rad * d_inter_mm) in
  let pt2 := (fst intersect + cos (a_rad + alpha_rad), snd intersect + sin (a_rad + alpha_rad)) in
  let L := Vd_mm_s * t in
  let A := R_mm * sqrt (Rabs (alpha_rad - beta_rad)) in
  let xm := clothoid_x L A in
  let ym := clothoid_y L A in
  let tau := (alpha_rad - beta_rad) / 2 in
  let d_mm := ym + R_mm * cos tau in
  if eqb0 d_inter_mm then BAD else
  match circle_center (x, y) intersect pt2 alpha_rad d_mm with
  | None => OK None
  | Some center =>
      let M := if ltb alpha_rad 0
               then (fst center + cos (a_rad + PI / 2 + tau) * R_mm, snd center + sin (a_rad + PI / 2 + tau) * R_mm)
               else (fst center + cos (a_rad - PI / 2 + tau) * R_mm, snd center + sin (a_rad - PI / 2 + tau) * R_mm) in
      try proj := proj_pt_line M (pts2line (x, y) intersect) in
      let remain := d_inter_mm - (pt_norm proj intersect + xm) in
      if ltb remain 0 then OK None else OK (Some (Aa, Va, remain))
  end.
(** 1004-1042 trajectory_clitoid: the robot and whether 0 is returned. *)
Definition trajectory_clitoid (r : robot) (x y a_deg advance alpha_deg beta_deg R_mm d_inter_mm : R) : res (robot * bool) :=
  let a_rad := RAD a_deg in
  try o := calc_clitoid r x y a_rad alpha_deg beta_deg R_mm (d_speed (spd r)) (a_acc (spd r)) d_inter_mm in
  match o with
  | None => OK (r, false)
  | Some (Aa, Va, remain) =>
      let r := delete_event r in
      let turn_pt := (x + cos a_rad * remain, y + sin a_rad * remain) in
      let t := mkturn turn_pt Aa Va (RAD alpha_deg) R_mm in
      OK (schedule_event (set_traj r (scheduled r) RUNNING_CLITOID_LINE (line_target (x, y) turn_pt advance (Some t))), true)
  end.

(** 652-683 trajectory_manager_manage *)
Definition trajectory_manager_manage (r : robot) : res robot :=
  if scheduled r then
    match state r with
    | RUNNING_CIRCLE => trajectory_manager_circle_event r
    | RUNNING_LINE | RUNNING_CLITOID_LINE => trajectory_manager_line_event r
    | _ => OK r
    end
  else OK r.
(** The manager runs periodically while the robot moves: each element is where the robot is at a period. *)
Fixpoint periods (r : robot) (moves : list (R * R * R * Z * Z)) : res robot :=
  match moves with
  | [] => OK r
  | (x, y, a, d, an) :: moves =>
      try r := trajectory_manager_manage (set_pose r x y a d an) in periods r moves
  end.
