(** What is expected of the PID controller and of the filters. *)
From Coq Require Import ZArith Reals List.
From Verif Require Import FloatModel FloatSpec PidModel.
Import ListNotations.
Local Open Scope R_scope.

(** A call that an application may make: errors are real numbers and limits are not negative (a limit
    may be infinite). *)
Definition sane (o : pid_op ieee) : Prop :=
  match o with
  | Process _ e => exists r, value e = Some (Real r)
  | SetLimit _ l => exists v, value l = Some v /\ ele (Real 0) v
  | _ => True
  end.

(** The same with finite limits, but errors may be infinite. *)
Definition sane_finite_limit (o : pid_op ieee) : Prop :=
  match o with
  | Process _ e => value e <> None
  | SetLimit _ l => exists r, value l = Some (Real r) /\ 0 <= r
  | _ => True
  end.

(** A controller whose integrator is finite and whose limit is finite and not negative. *)
Definition finite_state (p : pid ieee) : Prop :=
  (exists i, value (integrator ieee p) = Some (Real i)) /\
  exists l, value (integrator_limit ieee p) = Some (Real l) /\ 0 <= l.

(** Real numbers as values of the machine without rounding. *)
Definition real (r : R) : num (F exact) := Some (Real r).

Definition sum (l : list R) : R := fold_right Rplus 0 l.

(** The textbook discrete PID law with integral state [i] and previous error [p]:
    proportional, integral (sum / f) and derivative (difference * f) terms, negated because the error
    is measured minus desired. *)
Definition pid_law (kp ki kd f i p e : R) : R := - (kp * e + ki * i / f + kd * (e - p) * f).

(** Sum of products of two lists, index by index, as far as both go. *)
Fixpoint dot (c v : list R) : R :=
  match c, v with
  | x :: c, y :: v => x * y + dot c v
  | _, _ => 0
  end.

(** The difference equation of the filter documented in iir.c:23-30: with the input history [x :: xs] and
    the output history [y :: ys], newest first,
    y = b0*x[k] + b1*x[k-1] + ... - a1*y[k-1] - a2*y[k-2] - ... *)
Fixpoint difference_equation (b a : list R) (xs ys : list R) : Prop :=
  match xs, ys with
  | [], [] => True
  | x :: xs', y :: ys' => y = dot b (x :: xs') - dot a ys' /\ difference_equation b a xs' ys'
  | _, _ => False
  end.

(** int16_t *)
Definition is_int16 (x : Z) : Prop := (- 32768 <= x <= 32767)%Z.
Definition zsum (l : list Z) : Z := fold_right Z.add 0%Z l.
