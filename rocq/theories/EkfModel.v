(** Model of the position estimator of the UWB tags: uwb-beacon-firmware/src/ekf.hpp, state_estimation.cpp and the loop of
    state_estimation_thread.cpp.

    Simplified: floats are real numbers. Matrices are functions of their indices, of which those below the dimension
    [n] count. The measurements have dimension 1 (M = 1 in all the instances of Corrector in the firmware). [None] stands
    for a division by zero, after which the floats of the estimator are not numbers. *)
From Coq Require Import Reals List Bool Arith ZArith.
Import ListNotations.
Local Open Scope R_scope.

Definition vec := nat -> R.
Definition mat := nat -> nat -> R.
(** Sum of the first [n] values; the products of Eigen. *)
Fixpoint sum (n : nat) (f : nat -> R) : R := match n with O => 0 | S k => sum k f + f k end.
Definition mat_vec (n : nat) (m : mat) (v : vec) : vec := fun i => sum n (fun j => m i j * v j).
Definition vec_mat (n : nat) (v : vec) (m : mat) : vec := fun j => sum n (fun i => v i * m i j).
Definition mat_mat (n : nat) (a b : mat) : mat := fun i j => sum n (fun k => a i k * b k j).
Definition dot (n : nat) (a b : vec) : R := sum n (fun i => a i * b i).
(** Covariance::Identity(), Jacobian::Identity() *)
Definition identity : mat := fun i j => if Nat.eqb i j then 1 else 0.
(** transpose() of a square matrix *)
Definition transpose (m : mat) : mat := fun i j => m j i.

(** ekf.hpp:46-53 Predictor::predict, for any [g] and [G]; [r] is the process covariance. [G] is taken at the new state,
    as in the code. *)
Definition predict (n : nat) (g : vec -> vec) (G : vec -> mat) (r : mat) (mu : vec) (sigma : mat) : vec * mat :=
  let mu := g mu in
  let Gn := G mu in
  (mu, fun i j => mat_mat n (mat_mat n Gn sigma) (transpose Gn) i j + r i j).
(** ekf.hpp:31-44 the default [g] and [G] *)
Definition g_default (mu : vec) : vec := mu.
Definition G_default (mu : vec) : mat := identity.

(** ekf.hpp:80-88 Corrector::correct; [h] and [H] are the measurement function and its Jacobian, both [None] on a division by
    zero, [q] the variance of the measurement, [z] the measurement. *)
Definition correct (n : nat) (h : vec -> R) (H : vec -> option vec) (q : R) (mu : vec) (sigma : mat) (z : R) : option (vec * mat) :=
  match H mu with
  | None => None
  | Some Hm =>
      let s := dot n (vec_mat n Hm sigma) Hm + q in
      if Req_EM_T s 0 then None else
      let K i := mat_vec n sigma Hm i * (1 / s) in
      Some (fun i => mu i + K i * (z - h mu),
            mat_mat n (fun i k => identity i k - K i * Hm k) sigma)
  end.

(** state_estimation.cpp:12-16 UWBOnlyModel::h *)
Definition uwb_h (n : nat) (anchor mu : vec) : R := sqrt (sum n (fun i => (mu i - anchor i) * (mu i - anchor i))).
(** state_estimation.cpp:18-22 UWBOnlyModel::H *)
Definition uwb_H (n : nat) (anchor mu : vec) : option vec :=
  let dst := uwb_h n anchor mu in
  if Req_EM_T dst 0 then None else Some (fun i => (mu i - anchor i) * 1 / dst).

(** state_estimation.hpp:4-10 RadioPositionEstimator *)
Record estimator := mkEst { state : vec; covariance : mat; measurement_variance : R; process_variance : R }.
Definition vec3 (x y z : R) : vec := fun i => match i with 0%nat => x | 1%nat => y | 2%nat => z | _ => 0 end.
(** state_estimation.cpp:32-38 RadioPositionEstimator::RadioPositionEstimator *)
Definition estimator_init : estimator := mkEst (vec3 1 1 (-0.5)) identity (0.05 * 0.05) 0.001.
(** state_estimation.cpp:40-45 setPosition *)
Definition set_position (e : estimator) (x y z : R) : estimator :=
  mkEst (vec3 x y z) (covariance e) (measurement_variance e) (process_variance e).
(** state_estimation.cpp:52-59 processDistanceMeasurement *)
Definition process_distance (e : estimator) (anchor : vec) (distance : R) : option estimator :=
  match correct 3 (uwb_h 3 anchor) (uwb_H 3 anchor) (measurement_variance e) (state e) (covariance e) distance with
  | None => None
  | Some (s, c) => Some (mkEst s c (measurement_variance e) (process_variance e))
  end.
(** state_estimation.cpp:61-67 predict; the process covariance is that of IdentityPredictor, 25-30. *)
Definition predict_position (e : estimator) : estimator :=
  let '(s, c) := predict 3 g_default G_default (fun i j => process_variance e * identity i j) (state e) (covariance e) in
  mkEst s c (measurement_variance e) (process_variance e).

(** state_estimation_thread.h position_estimation_msg_t *)
Record message := mkMessage { timestamp : Z; m_position : vec; variance_x : R; variance_y : R; variance_z : R }.
(** What wakes up the thread, with the value of the parameter it reads and, for a range, the answer of
    anchor_position_cache_get for the anchor that was measured. *)
Inductive event :=
| Range (range range_variance : R) (anchor : option (R * R * R))
| Imu (time : Z) (process_variance : R).
(** state_estimation_thread.cpp:63-109: one turn of the loop; the messages published. *)
Definition turn (e : estimator) (ev : event) : option (estimator * list message) :=
  match ev with
  | Range range v anchor =>
      if Rlt_dec 1000 range then Some (e, []) else
      let e := mkEst (state e) (covariance e) v (process_variance e) in
      match anchor with
      | None => Some (e, [])
      | Some (x, y, z) => match process_distance e (vec3 x y z) range with None => None | Some e => Some (e, []) end
      end
  | Imu t v =>
      let e := predict_position (mkEst (state e) (covariance e) (measurement_variance e) v) in
      Some (e, [mkMessage t (state e) (covariance e 0%nat 0%nat) (covariance e 1%nat 1%nat) (covariance e 2%nat 2%nat)])
  end.
Fixpoint run (e : estimator) (evs : list event) : option (estimator * list message) :=
  match evs with
  | [] => Some (e, [])
  | ev :: evs =>
      match turn e ev with
      | None => None
      | Some (e, ms) => match run e evs with None => None | Some (e, ms') => Some (e, ms ++ ms') end
      end
  end.
