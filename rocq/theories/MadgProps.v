(** The attitude filter: the theorems. *)
From Coq Require Import Reals ZArith List Lra Bool.
From Flocq Require Import Core IEEE754.BinarySingleNaN.
From Verif Require Import FloatModel MadgModel MadgSpec MadgProofs.
Import ListNotations.
Local Open Scope R_scope.

(** The matrix of the specification is the rotation by the quaternion. *)
Theorem seen_is_rotation p b : norm p = 1 -> pure (seen p b) = hamilton (hamilton (conj p) (pure b)) p.
Proof.
  intro H. pose proof (norm_sq p) as N. rewrite H in N. destruct p as [w x y z], b as [b1 b2 b3].
  unfold dot in N. cbn [re im1 im2 im3] in N. unfold pure, seen, hamilton, conj. cbn [re im1 im2 im3 v1 v2 v3].
  assert (W : 1 = w * w + x * x + y * y + z * z) by lra. rewrite W. f_equal; ring.
Qed.

(** C73: without a magnetometer. The filter turns at the measured rate and descends the gradient of the error between the measured and
    the expected vertical; the result has norm 1. Otherwise (no gradient: the attitude already explains the measurement) it is NaN. *)
Theorem imu_update p g a b freq : freq <> 0 -> a <> vnull ->
  exists s, gradient (tilt_error (unit_vector a)) p s /\
  let f := madgwick_filter_updateIMU exact exact_sqrt (filter_of p b freq) (vec_of g) (vec_of a) in
  (s <> null -> next p g b freq s <> null -> f = filter_of (unit_quaternion (next p g b freq s)) b freq) /\
  (s = null \/ next p g b freq s = null -> f = nan_filter b freq).
Proof.
  intros H A. exists (tilt_grad p (unit_vector a)). split; [apply tilt_gradient|].
  unfold madgwick_filter_updateIMU. cbn [q beta filter_of]. destruct (is_zero exact (vec_of a)) eqn:Z; [apply is_zero_exact in Z; contradiction|]. cbn [negb].
  rewrite normalise_exact, imu_exact by auto. rewrite corrected by auto.
  destruct (null_dec (tilt_grad _ _)); [|destruct (null_dec (next _ _ _ _ _))]; split; tauto.
Qed.
(** C73: with a magnetometer, the same with the error on both measurements; [field]: the magnetic field of the earth as the present attitude
    makes it. *)
Theorem mag_update p g a m b freq : freq <> 0 -> a <> vnull -> m <> vnull ->
  exists s, gradient (attitude_error (unit_vector a) (unit_vector m) (field p (unit_vector m))) p s /\
  let f := madgwick_filter_update exact exact_sqrt exact_sqrt (filter_of p b freq) (vec_of g) (vec_of a) (vec_of m) in
  (s <> null -> next p g b freq s <> null -> f = filter_of (unit_quaternion (next p g b freq s)) b freq) /\
  (s = null \/ next p g b freq s = null -> f = nan_filter b freq).
Proof.
  intros H A N. exists (mag_grad p (unit_vector a) (unit_vector m) (field p (unit_vector m))). split; [apply mag_gradient; reflexivity|].
  unfold madgwick_filter_update. destruct (is_zero exact (vec_of m)) eqn:Zm; [apply is_zero_exact in Zm; contradiction|]. cbv zeta.
  cbn [q beta filter_of]. destruct (is_zero exact (vec_of a)) eqn:Z; [apply is_zero_exact in Z; contradiction|]. cbn [negb].
  rewrite !normalise_exact, mag_exact by auto. rewrite corrected by auto.
  destruct (null_dec (mag_grad _ _ _ _)); [|destruct (null_dec (next _ _ _ _ _))]; split; tauto.
Qed.
(** C73: measurements which are all zeros are not used: without the accelerometer the filter only turns at the measured rate, and this
    always gives a quaternion of norm 1. *)
Theorem no_acceleration_update p g m b freq : freq <> 0 -> p <> null ->
  let r := plus p (scale (/ freq) (turning p g)) in
  r <> null /\ madgwick_filter_update exact exact_sqrt exact_sqrt (filter_of p b freq) (vec_of g) (vec_of vnull) (vec_of m) = filter_of (unit_quaternion r) b freq.
Proof.
  intros H N r. split; [now apply gyro_not_null|]. assert (Z : is_zero exact (vec_of vnull) = true) by now apply is_zero_exact.
  unfold madgwick_filter_update, madgwick_filter_updateIMU. rewrite Z. cbn [negb q filter_of]. cbv zeta.
  destruct (is_zero exact (vec_of m)); now apply gyro_only.
Qed.
Theorem no_field_update p g a b freq :
  madgwick_filter_update exact exact_sqrt exact_sqrt (filter_of p b freq) (vec_of g) (vec_of a) (vec_of vnull) =
  madgwick_filter_updateIMU exact exact_sqrt (filter_of p b freq) (vec_of g) (vec_of a).
Proof. unfold madgwick_filter_update. now replace (is_zero exact (vec_of vnull)) with true by (symmetry; now apply is_zero_exact). Qed.

(** C73: whatever the measurements, the attitude is of norm 1 or not a number. *)
Theorem filter_unit_partial p g a m b freq : freq <> 0 -> p <> null ->
  let f := madgwick_filter_update exact exact_sqrt exact_sqrt (filter_of p b freq) (vec_of g) (vec_of a) (vec_of m) in
  f = nan_filter b freq \/ exists r, norm r = 1 /\ f = filter_of r b freq.
Proof.
  intros H N f. subst f. destruct (vnull_dec a) as [->|A].
  { destruct (no_acceleration_update p g m b freq H N) as [R E]. rewrite E. right. eexists. split; [|reflexivity]. now apply unit_norm. }
  destruct (vnull_dec m) as [->|Hm].
  - rewrite no_field_update. destruct (imu_update p g a b freq H A) as (s & _ & E1 & E2).
    destruct (null_dec s); [left; auto|]. destruct (null_dec (next p g b freq s)); [left; auto|]. right. rewrite E1 by auto. eexists. split; [|reflexivity]. now apply unit_norm.
  - destruct (mag_update p g a m b freq H A Hm) as (s & _ & E1 & E2).
    destruct (null_dec s); [left; auto|]. destruct (null_dec (next p g b freq s)); [left; auto|]. right. rewrite E1 by auto. eexists. split; [|reflexivity]. now apply unit_norm.
Qed.
(** C73: the correction decreases the error: its derivative in the direction of the correction is minus the gain times the norm of the gradient. *)
Theorem correction_descends err p s b : gradient err p s -> s <> null ->
  derivable_pt_lim (fun t => err (plus p (scale t (scale (- b) (unit_quaternion s))))) 0 (- b * norm s).
Proof.
  intros G N. specialize (G (scale (- b) (unit_quaternion s))). replace (- b * norm s) with (dot s (scale (- b) (unit_quaternion s))); [exact G|].
  pose proof (norm_pos s N) as P. replace (dot s (scale (- b) (unit_quaternion s))) with (- b * (/ norm s * dot s s)) by (unfold dot, scale, unit_quaternion; cbn; ring).
  rewrite <- norm_sq. field. lra.
Qed.

(** C73 fails: a filter which starts level, on a level board without magnetometer, is NaN after the first update, whatever the rates ... *)
Theorem level_board_refuted g : all_nan (q (madgwick_filter_update ieee ieee_sqrtf ieee_sqrt (madgwick_filter_init ieee) g
  (V (lit (F ieee) 0 0) (lit (F ieee) 0 0) (lit (F ieee) 1 0)) (V (lit (F ieee) 0 0) (lit (F ieee) 0 0) (lit (F ieee) 0 0)))).
Proof.
  unfold madgwick_filter_update. match goal with |- context [is_zero ieee ?m] => replace (is_zero ieee m) with true by (vm_compute; reflexivity) end.
  unfold madgwick_filter_updateIMU. match goal with |- context [is_zero ieee ?m] => replace (is_zero ieee m) with false by (vm_compute; reflexivity) end. cbn [negb].
  apply integrate_nan_rate, feedback_nan_step. unfold all_nan. repeat split; vm_compute; reflexivity.
Qed.
(** ... and stays so for ever, whatever is measured. *)
Theorem nan_for_ever_refuted f ins : all_nan (q f) ->
  all_nan (q (fold_left (fun f i => madgwick_filter_update ieee ieee_sqrtf ieee_sqrt f (gyro i) (acc i) (mag i)) ins f)).
Proof.
  revert f. induction ins as [|i ins IH]; intros f H; [exact H|]. cbn [fold_left]. apply IH.
  unfold madgwick_filter_update, madgwick_filter_updateIMU. destruct (is_zero _ _); cbv zeta; now apply integrate_nan_state.
Qed.
(** C73 fails for the thread: whatever is measured, every attitude published is the initial one. *)
Theorem attitude_never_changes_refuted b0 ins :
  ahrs_run ieee (ahrs_start ieee b0) ins = map (fun bi => mkAtt (q (madgwick_filter_init ieee)) (imu_time (snd bi))) ins.
Proof.
  assert (G : forall ins f, q f = q (madgwick_filter_init ieee) -> ahrs_run ieee f ins = map (fun bi => mkAtt (q (madgwick_filter_init ieee)) (imu_time (snd bi))) ins).
  { clear. induction ins as [|[b i] ins IH]; intros f H; [reflexivity|]. cbn [ahrs_run ahrs_turn map snd]. f_equal.
    - f_equal. destruct b; exact H.
    - apply IH. destruct b; exact H. }
  now apply G.
Qed.

(** The unit test of the repository (tests/madgwick.cpp, SimpleData): ten updates. *)
Definition test_filter : filter ieee :=
  Nat.iter 10 (fun f => madgwick_filter_update ieee ieee_sqrtf ieee_sqrt f (V (lit (F ieee) 0 0) (lit (F ieee) 0 0) (lit (F ieee) 0 0))
      (V (lit (F ieee) 0 0) (lit (F ieee) 0 0) (narrow ieee (lit (D ieee) (-5522539043063071) (-49)))) (V (lit (F ieee) 10 0) (lit (F ieee) 10 0) (lit (F ieee) 0 0)))
    (madgwick_filter_set_gain ieee (madgwick_filter_init ieee) (lit (F ieee) 1 0)).
Definition millionths (x : num (F ieee)) : option Z := trunc (F ieee) (mul (F ieee) x (lit (F ieee) 1000000 0)).
Example ex_simple_data : let p := q test_filter in
  (millionths (qw p), millionths (qx p), millionths (qy p), millionths (qz p)) = (Some 999201, Some 0, Some 0, Some (-39946))%Z.
Proof. vm_compute. reflexivity. Qed.
(** Without a gyroscope, a board on its side is turned upright. *)
Example ex_imu : let p := mkQ 1 0 0 0 in let a := mkV 0 1 0 in
  exists s, gradient (tilt_error (unit_vector a)) p s /\ s = mkQ 0 (-2) 0 0 /\ next p vnull 1 250 s = mkQ 1 (/ 250) 0 0.
Proof.
  cbv zeta. exists (tilt_grad (mkQ 1 0 0 0) (unit_vector (mkV 0 1 0))). split; [apply tilt_gradient|].
  assert (U : unit_vector (mkV 0 1 0) = mkV 0 1 0).
  { unfold unit_vector, vnorm, vdot, vscale. cbn [v1 v2 v3]. replace (0 * 0 + 1 * 1 + 0 * 0) with 1 by ring. rewrite sqrt_1. f_equal; field. }
  rewrite U. assert (S : tilt_grad (mkQ 1 0 0 0) (mkV 0 1 0) = mkQ 0 (-2) 0 0) by (unfold tilt_grad; cbn [v1 v2 v3]; f_equal; ring).
  rewrite S. split; [reflexivity|]. unfold next, turning, unit_quaternion, norm, dot, plus, scale, hamilton, pure, vnull. cbn [re im1 im2 im3 v1 v2 v3].
  replace (0 * 0 + -2 * -2 + 0 * 0 + 0 * 0) with (2 * 2) by ring. rewrite sqrt_square by lra. f_equal; field.
Qed.

Print Assumptions imu_update.
Print Assumptions mag_update.
Print Assumptions filter_unit_partial.
Print Assumptions level_board_refuted.
Print Assumptions nan_for_ever_refuted.
Print Assumptions attitude_never_changes_refuted.
