(** Model of uwb-beacon-firmware/src/MadgwickAHRS.c (attitude filter) and of the loop of ahrs_thread.c. *)
From Coq Require Import ZArith List Reals Bool.
From Flocq Require Import Core IEEE754.BinarySingleNaN.
From Verif Require Import FloatModel.
Import ListNotations.
Local Open Scope Z_scope.

Declare Scope flt_scope.
Delimit Scope flt_scope with flt.

Section Filter.
Variable M : machine.
(** sqrtf and sqrt. *)
Variable sqrtf : num (F M) -> num (F M).
Variable sqrt_ : num (D M) -> num (D M).
Notation flt := (num (F M)).
Local Notation "a + b" := (add (F M) a b) : flt_scope.
Local Notation "a - b" := (sub (F M) a b) : flt_scope.
Local Notation "a * b" := (mul (F M) a b) : flt_scope.
Local Notation "a / b" := (div (F M) a b) : flt_scope.
Local Notation "- a" := (neg (F M) a) : flt_scope.
Definition zero : flt := lit (F M) 0 0.
Definition one : flt := lit (F M) 1 0.
Definition two : flt := lit (F M) 2 0.
Definition four : flt := lit (F M) 4 0.
Definition eight : flt := lit (F M) 8 0.
Definition half : flt := lit (F M) 1 (-1).

(** The four floats of [f->q]; also used for their derivatives qDot1..4 and for the step s0..3. *)
Record quat := Q { qw : flt; qx : flt; qy : flt; qz : flt }.
Record vec := V { vx : flt; vy : flt; vz : flt }.
(** MadgwickAHRS.h:19-23 *)
Record filter := mkFilter { q : quat; beta : flt; sample_frequency : flt }.

(** MadgwickAHRS.c:31-34 and 36-39 *)
Definition madgwick_filter_set_gain (f : filter) (b : flt) : filter := mkFilter (q f) b (sample_frequency f).
Definition madgwick_filter_set_sample_frequency (f : filter) (freq : flt) : filter := mkFilter (q f) (beta f) freq.
(** MadgwickAHRS.c:18-27; the gain is the double 0.1 converted to float. *)
Definition madgwick_filter_init : filter :=
  mkFilter (Q one zero zero zero) (narrow M (lit (D M) 7205759403792794 (-56))) (lit (F M) 250 0).

(** MadgwickAHRS.c:226-243, the compiled branch. *)
Definition invSqrt (x : flt) : flt := (one / sqrtf x)%flt.

(** MadgwickAHRS.c:66-69, the same text at 162-165 *)
Definition gyro_rate (p : quat) (g : vec) : quat :=
  let '(Q q0 q1 q2 q3) := p in let '(V gx gy gz) := g in
  (Q (half * (-q1 * gx - q2 * gy - q3 * gz))
     (half * (q0 * gx + q2 * gz - q3 * gy))
     (half * (q0 * gy - q1 * gz + q3 * gx))
     (half * (q0 * gz + q1 * gy - q2 * gx)))%flt.

(** x == 0.0f && y == 0.0f && z == 0.0f, MadgwickAHRS.c:60, 72, 168 *)
Definition is_zero (v : vec) : bool := eq (F M) (vx v) zero && eq (F M) (vy v) zero && eq (F M) (vz v) zero.

(** MadgwickAHRS.c:74-77, 80-83, 170-173 *)
Definition normalise (v : vec) : vec :=
  let '(V x y z) := v in
  let recipNorm := (invSqrt (x * x + y * y + z * z))%flt in
  (V (x * recipNorm) (y * recipNorm) (z * recipNorm))%flt.

(** MadgwickAHRS.c:120-124, 137-145, 195-199, 212-220 *)
Definition normalise_quat (p : quat) : quat :=
  let '(Q s0 s1 s2 s3) := p in
  let recipNorm := (invSqrt (s0 * s0 + s1 * s1 + s2 * s2 + s3 * s3))%flt in
  (Q (s0 * recipNorm) (s1 * recipNorm) (s2 * recipNorm) (s3 * recipNorm))%flt.

(** MadgwickAHRS.c:176-194; [a] is normalised. *)
Definition imu_step (p : quat) (a : vec) : quat :=
  let '(Q q0 q1 q2 q3) := p in let '(V ax ay az) := a in
  (let _2q0 := two * q0 in
  let _2q1 := two * q1 in
  let _2q2 := two * q2 in
  let _2q3 := two * q3 in
  let _4q0 := four * q0 in
  let _4q1 := four * q1 in
  let _4q2 := four * q2 in
  let _8q1 := eight * q1 in
  let _8q2 := eight * q2 in
  let q0q0 := q0 * q0 in
  let q1q1 := q1 * q1 in
  let q2q2 := q2 * q2 in
  let q3q3 := q3 * q3 in
  let s0 := _4q0 * q2q2 + _2q2 * ax + _4q0 * q1q1 - _2q1 * ay in
  let s1 := _4q1 * q3q3 - _2q3 * ax + four * q0q0 * q1 - _2q0 * ay - _4q1 + _8q1 * q1q1 + _8q1 * q2q2 + _4q1 * az in
  let s2 := four * q0q0 * q2 + _2q0 * ax + _4q2 * q3q3 - _2q3 * ay - _4q2 + _8q2 * q1q1 + _8q2 * q2q2 + _4q2 * az in
  let s3 := four * q1q1 * q3 - _2q1 * ax + four * q2q2 * q3 - _2q2 * ay in
  Q s0 s1 s2 s3)%flt.

(** MadgwickAHRS.c:86-119; [a] and [m] are normalised. *)
Definition mag_step (p : quat) (a m : vec) : quat :=
  let '(Q q0 q1 q2 q3) := p in let '(V ax ay az) := a in let '(V mx my mz) := m in
  (let _2q0mx := two * q0 * mx in
  let _2q0my := two * q0 * my in
  let _2q0mz := two * q0 * mz in
  let _2q1mx := two * q1 * mx in
  let _2q0 := two * q0 in
  let _2q1 := two * q1 in
  let _2q2 := two * q2 in
  let _2q3 := two * q3 in
  let _2q0q2 := two * q0 * q2 in
  let _2q2q3 := two * q2 * q3 in
  let q0q0 := q0 * q0 in
  let q0q1 := q0 * q1 in
  let q0q2 := q0 * q2 in
  let q0q3 := q0 * q3 in
  let q1q1 := q1 * q1 in
  let q1q2 := q1 * q2 in
  let q1q3 := q1 * q3 in
  let q2q2 := q2 * q2 in
  let q2q3 := q2 * q3 in
  let q3q3 := q3 * q3 in
  let hx := mx * q0q0 - _2q0my * q3 + _2q0mz * q2 + mx * q1q1 + _2q1 * my * q2 + _2q1 * mz * q3 - mx * q2q2 - mx * q3q3 in
  let hy := _2q0mx * q3 + my * q0q0 - _2q0mz * q1 + _2q1mx * q2 - my * q1q1 + my * q2q2 + _2q2 * mz * q3 - my * q3q3 in
  let _2bx := narrow M (sqrt_ (widen M (hx * hx + hy * hy))) in
  let _2bz := -_2q0mx * q2 + _2q0my * q1 + mz * q0q0 + _2q1mx * q3 - mz * q1q1 + _2q2 * my * q3 - mz * q2q2 + mz * q3q3 in
  let _4bx := two * _2bx in
  let _4bz := two * _2bz in
  let s0 := -_2q2 * (two * q1q3 - _2q0q2 - ax) + _2q1 * (two * q0q1 + _2q2q3 - ay) - _2bz * q2 * (_2bx * (half - q2q2 - q3q3) + _2bz * (q1q3 - q0q2) - mx) + (-_2bx * q3 + _2bz * q1) * (_2bx * (q1q2 - q0q3) + _2bz * (q0q1 + q2q3) - my) + _2bx * q2 * (_2bx * (q0q2 + q1q3) + _2bz * (half - q1q1 - q2q2) - mz) in
  let s1 := _2q3 * (two * q1q3 - _2q0q2 - ax) + _2q0 * (two * q0q1 + _2q2q3 - ay) - four * q1 * (one - two * q1q1 - two * q2q2 - az) + _2bz * q3 * (_2bx * (half - q2q2 - q3q3) + _2bz * (q1q3 - q0q2) - mx) + (_2bx * q2 + _2bz * q0) * (_2bx * (q1q2 - q0q3) + _2bz * (q0q1 + q2q3) - my) + (_2bx * q3 - _4bz * q1) * (_2bx * (q0q2 + q1q3) + _2bz * (half - q1q1 - q2q2) - mz) in
  let s2 := -_2q0 * (two * q1q3 - _2q0q2 - ax) + _2q3 * (two * q0q1 + _2q2q3 - ay) - four * q2 * (one - two * q1q1 - two * q2q2 - az) + (-_4bx * q2 - _2bz * q0) * (_2bx * (half - q2q2 - q3q3) + _2bz * (q1q3 - q0q2) - mx) + (_2bx * q1 + _2bz * q3) * (_2bx * (q1q2 - q0q3) + _2bz * (q0q1 + q2q3) - my) + (_2bx * q0 - _4bz * q2) * (_2bx * (q0q2 + q1q3) + _2bz * (half - q1q1 - q2q2) - mz) in
  let s3 := _2q1 * (two * q1q3 - _2q0q2 - ax) + _2q2 * (two * q0q1 + _2q2q3 - ay) + (-_4bx * q3 + _2bz * q1) * (_2bx * (half - q2q2 - q3q3) + _2bz * (q1q3 - q0q2) - mx) + (-_2bx * q0 + _2bz * q2) * (_2bx * (q1q2 - q0q3) + _2bz * (q0q1 + q2q3) - my) + _2bx * q1 * (_2bx * (q0q2 + q1q3) + _2bz * (half - q1q1 - q2q2) - mz) in
  Q s0 s1 s2 s3)%flt.

(** MadgwickAHRS.c:127-130, 202-205 *)
Definition feedback (b : flt) (qDot s : quat) : quat :=
  let '(Q d1 d2 d3 d4) := qDot in let '(Q s0 s1 s2 s3) := s in
  (Q (d1 - b * s0) (d2 - b * s1) (d3 - b * s2) (d4 - b * s3))%flt.

(** MadgwickAHRS.c:134-145, 209-220 *)
Definition integrate (f : filter) (qDot : quat) : filter :=
  let '(Q q0 q1 q2 q3) := q f in let '(Q d1 d2 d3 d4) := qDot in
  let dt := (one / sample_frequency f)%flt in
  mkFilter (normalise_quat (Q (q0 + d1 * dt) (q1 + d2 * dt) (q2 + d3 * dt) (q3 + d4 * dt))%flt) (beta f) (sample_frequency f).

(** MadgwickAHRS.c:148-221 *)
Definition madgwick_filter_updateIMU (f : filter) (g a : vec) : filter :=
  let qDot := gyro_rate (q f) g in
  integrate f (if negb (is_zero a) then feedback (beta f) qDot (normalise_quat (imu_step (q f) (normalise a))) else qDot).

(** MadgwickAHRS.c:41-146 *)
Definition madgwick_filter_update (f : filter) (g a m : vec) : filter :=
  if is_zero m then madgwick_filter_updateIMU f g a
  else
    let qDot := gyro_rate (q f) g in
    integrate f (if negb (is_zero a) then feedback (beta f) qDot (normalise_quat (mag_step (q f) (normalise a) (normalise m))) else qDot).

(** One measurement of topic /imu (imu_thread.h) and one message of topic /attitude (ahrs_thread.h). *)
Record imu_msg := mkImu { gyro : vec; acc : vec; mag : vec; imu_time : Z }.
Record attitude_msg := mkAtt { att : quat; att_time : Z }.
(** ahrs_thread.c:44-63: one turn of the loop. [b]: the new value of the parameter beta, if it changed. *)
Definition ahrs_turn (f : filter) (b : option flt) (i : imu_msg) : filter * attitude_msg :=
  let f := match b with Some b => madgwick_filter_set_gain f b | None => f end in
  (f, mkAtt (q f) (imu_time i)).
(** ahrs_thread.c:36-64; [b0] is the value of the parameter at the start. *)
Definition ahrs_start (b0 : flt) : filter :=
  madgwick_filter_set_sample_frequency (madgwick_filter_set_gain madgwick_filter_init b0) (lit (F M) 250 0).
Fixpoint ahrs_run (f : filter) (ins : list (option flt * imu_msg)) : list attitude_msg :=
  match ins with
  | [] => []
  | (b, i) :: ins => let '(f, o) := ahrs_turn f b i in o :: ahrs_run f ins
  end.
End Filter.
Arguments Q {M}. Arguments V {M}. Arguments mkFilter {M}. Arguments q {M}. Arguments beta {M}. Arguments sample_frequency {M}.
Arguments vx {M}. Arguments vy {M}. Arguments vz {M}. Arguments qw {M}. Arguments qx {M}. Arguments qy {M}. Arguments qz {M}.
Arguments mkImu {M}. Arguments gyro {M}. Arguments acc {M}. Arguments mag {M}. Arguments imu_time {M}. Arguments mkAtt {M}. Arguments att {M}. Arguments att_time {M}.

(** The firmware's square roots: correctly rounded (sqrtf is an instruction of the Cortex-M4F; sqrt is newlib's). *)
Definition ieee_sqrtf : num (F ieee) -> num (F ieee) := @Bsqrt 24 128 prec24 emax24 mode_NE.
Definition ieee_sqrt : num (D ieee) -> num (D ieee) := @Bsqrt 53 1024 prec53 emax53 mode_NE.
(** Without rounding. *)
Definition exact_sqrt (x : xnum) : xnum :=
  match x with Some (Real r) => if rlt r 0 then None else Some (Real (sqrt r)) | Some PInf => Some PInf | _ => None end.
