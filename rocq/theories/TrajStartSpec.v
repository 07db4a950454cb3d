(** What may happen to a base which was given no order and whose wheels do not turn. *)
From Coq Require Import ZArith Reals List Bool.
From Flocq Require Import Core IEEE754.BinarySingleNaN.
From Verif Require Import CRes FloatModel PidModel QuadModel EncModel TrajModel.

Definition is_zero (x : float 24 128) : Prop := match x with B754_zero _ => True | _ => False end.
Definition is_nonzero_finite (x : float 24 128) : Prop := match x with B754_finite _ _ _ _ => True | _ => False end.
Definition is_finite_float (x : float 24 128) : Prop := match x with B754_zero _ | B754_finite _ _ _ _ => True | _ => False end.
(** Neither NaN nor below zero. *)
Definition is_limit (x : float 24 128) : Prop := match x with B754_zero _ | B754_infinity false | B754_finite false _ _ _ => True | _ => False end.
(** A controller that has seen no error: its gains are finite and its memory is empty. *)
Definition calm (c : cs_pid) : Prop :=
  let p := c_pid c in
  is_finite_float (kp _ p) /\ is_finite_float (ki _ p) /\ is_finite_float (kd _ p) /\ is_zero (integrator _ p) /\ is_limit (integrator_limit _ p) /\
  is_zero (previous_error _ p) /\ is_nonzero_finite (frequency _ p) /\ is_nonzero_finite (divider c).

(** No order is given, the encoders are read where they were at power-up, and the controllers are given finite gains. *)
Definition idle (e : event) : Prop :=
  match e with
  | Command _ | Thresholds _ _ => False
  | Control l r _ => l = 0%Z /\ r = 0%Z
  | Gains a d => calm a /\ calm d
  | _ => True
  end.
