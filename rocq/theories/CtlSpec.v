(** What is expected of the motor controller. *)
From Coq Require Import ZArith Reals List.
From Flocq Require Import Core.
From Verif Require Import FloatModel FloatSpec PidModel PidSpec CtlModel.
Import ListNotations.

(** [x] is NaN or lies within [-l, l]. *)
Definition limited (x : num (F ieee)) (l : ereal) : Prop :=
  forall v, value x = Some v -> bounded_by l v.

(** [l] is a limit: a number that is not negative. *)
Definition is_limit (x : num (F ieee)) (l : ereal) : Prop := value x = Some l /\ ele (Real 0) l.

(** The limits last configured in a history: velocity, torque and current (= torque / torque constant).
    They are infinite at first. *)
Record limits := { lim_velocity : num (F ieee); lim_torque : num (F ieee); lim_current : num (F ieee) }.
Fixpoint configured (es : list (event ieee)) : limits :=   (* newest event first *)
  match es with
  | [] => {| lim_velocity := inf (F ieee); lim_torque := inf (F ieee); lim_current := inf (F ieee) |}
  | SetParam _ (PVelLimit _ v) :: es =>
      {| lim_velocity := v; lim_torque := lim_torque (configured es); lim_current := lim_current (configured es) |}
  | SetParam _ (PTorqueLimit _ v cst) :: es =>
      {| lim_velocity := lim_velocity (configured es); lim_torque := v; lim_current := div (F ieee) v cst |}
  | _ :: es => configured es
  end.

(** The limits the controller works with. *)
Definition limits_of (c : control ieee) : limits :=
  {| lim_velocity := velocity_limit _ (ctrl _ c); lim_torque := torque_limit _ (ctrl _ c);
     lim_current := current_limit _ (ctrl _ c) |}.

(** A duty cycle of at most 95 percent of the period, in timer counts. *)
Definition duty_ok (p : Z) : Prop := (20 * Z.abs p <= 19 * 2880)%Z.

(** The battery reading of a converter of 12 bits, not zero. *)
Definition battery_connected (raw : Z) : Prop := (0 < raw < 4096)%Z.

(** Microseconds from [t1] to [t2] on the 32-bit clock. *)
Definition microseconds (t1 t2 : Z) : Z := ((t2 - t1) mod 2 ^ 32)%Z.

Definition bridge_event_ok (e : bridge_event) : Prop :=
  match e with Trigger _ => True | Period p => duty_ok p end.

(** Channel 1 of the conversions [first .. n-1] (four interleaved channels). *)
Definition channel1 (samples : list Z) (first n : nat) : list Z :=
  map (fun i => nth (4 * i + 1) samples 0%Z) (seq first (n - first)).

Local Open Scope R_scope.

(** [n] steps of the velocity interpolation. *)
Fixpoint velocity_steps (n : nat) (ip : interpolator exact) (s : setpoints exact) (dt : num (F exact)) :
  interpolator exact :=
  match n with
  | O => ip
  | S n => velocity_steps n (fst (setpoint_compute exact ip s dt 0)) s dt
  end.

(** A history of the thermal model: the currents measured at each step of duration [dt]. *)
Definition heat (p : protection exact) (dt : R) (currents : list R) : protection exact :=
  fold_left (fun p i => fst (motor_protection_update exact p (real i) (real dt))) currents p.

(** A thermal model with real parameters. *)
Definition thermal (p : protection exact) (t tmax r c g : R) : Prop :=
  temp _ p = real t /\ t_max _ p = real tmax /\ t_ambient _ p = real 25 /\
  r_th _ p = real r /\ c_th _ p = real c /\ current_gain _ p = real g.
