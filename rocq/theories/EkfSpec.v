(** What a Kalman filter is for. *)
From Coq Require Import Reals List ZArith.
From Verif Require Import EkfModel.
Import ListNotations.
Local Open Scope R_scope.

(** The variance in direction [x] of an error of covariance [p]. *)
Definition variance (n : nat) (p : mat) (x : vec) : R := sum n (fun i => sum n (fun j => x i * p i j * x j)).
Definition symmetric (n : nat) (p : mat) : Prop := forall i j, (i < n)%nat -> (j < n)%nat -> p i j = p j i.
Definition positive (n : nat) (p : mat) : Prop := forall x, (exists i, (i < n)%nat /\ x i <> 0) -> 0 < variance n p x.

(** The estimate is corrected by [K] times the difference between the measurement and the expected one. If the error before has covariance
    [p], the measurement depends on the state by [H] and has a noise of variance [q] independent of the error, then the
    error after is (1 - K H) times the error before, minus [K] times the noise. Its variance in direction [x]: *)
Definition variance_after (n : nat) (p : mat) (H : vec) (q : R) (K : vec) (x : vec) : R :=
  let k := sum n (fun i => x i * K i) in
  variance n p (fun j => x j - k * H j) + k * k * q.

(** Distance between two points. *)
Definition distance (n : nat) (a b : vec) : R := sqrt (sum n (fun i => (a i - b i) * (a i - b i))).
(** [H] is the gradient at [p] of the function [f]. *)
Definition gradient (n : nat) (f : vec -> R) (p H : vec) : Prop :=
  forall v, derivable_pt_lim (fun t => f (fun i => p i + t * v i)) 0 (sum n (fun i => H i * v i)).

(** Parameters with a meaning. *)
Definition event_ok (ev : event) : Prop := match ev with Range _ v _ => 0 < v | Imu _ v => 0 <= v end.
Definition imu_times (evs : list event) : list Z := flat_map (fun ev => match ev with Imu t _ => [t] | _ => [] end) evs.
