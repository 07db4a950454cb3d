(** The control laws of the motor board, over real numbers. *)
From Coq Require Import ZArith Reals List Bool.
From Flocq Require Import Core.
From Verif Require Import FloatModel FloatSpec PidModel PidSpec CtlModel.
Import ListNotations.
Local Open Scope R_scope.

(** [x] limited to [-l, l]; [l] is not negative, and may be infinite. *)
Definition limit_to (l : ereal) (x : R) : R :=
  match l with Real l => Rmax (- l) (Rmin l x) | _ => x end.

(** A PID stage: gains, rate of the loop, accumulated error with its limit, and the last error. *)
Record stage := { g_p : R; g_i : R; g_d : R; rate : R; acc : R; acc_max : ereal; before : R }.

(** What it answers to the error [e] (measured minus wanted), and its state afterwards. *)
Definition accumulated (q : stage) (e : R) : R := limit_to (acc_max q) (acc q + e).
Definition respond (q : stage) (e : R) : R :=
  pid_law (g_p q) (g_i q) (g_d q) (rate q) (accumulated q e) (before q) e.
Definition after (q : stage) (e : R) : stage :=
  {| g_p := g_p q; g_i := g_i q; g_d := g_d q; rate := rate q; acc := accumulated q e;
     acc_max := acc_max q; before := e |}.
(** A stage that is not in use forgets the accumulated error. *)
Definition cleared (q : stage) : stage :=
  {| g_p := g_p q; g_i := g_i q; g_d := g_d q; rate := rate q; acc := 0; acc_max := acc_max q;
     before := before q |}.

(** The stage is what the PID structure holds; its rate is positive and its limit not negative. *)
Definition is_stage (p : pid exact) (q : stage) : Prop :=
  kp _ p = real (g_p q) /\ ki _ p = real (g_i q) /\ kd _ p = real (g_d q) /\
  frequency _ p = real (rate q) /\ integrator _ p = real (acc q) /\
  integrator_limit _ p = Some (acc_max q) /\ previous_error _ p = real (before q) /\
  0 < rate q /\ ele (Real 0) (acc_max q).

(** An angle error and its shortest representation. *)
Definition shortest (e r : R) : Prop := Rabs r <= PI /\ exists k, e = r + IZR k * (2 * PI).

(** Everything the cascade works with. *)
Record loop := {
  position_stage : stage; velocity_stage : stage; current_stage : stage;
  amps_per_torque : R; max_velocity : ereal; max_torque : ereal; max_current : ereal;
  circular : bool }.

Definition is_loop (k : cascade exact) (L : loop) : Prop :=
  is_stage (position_pid _ k) (position_stage L) /\ is_stage (velocity_pid _ k) (velocity_stage L) /\
  is_stage (current_pid _ k) (current_stage L) /\
  motor_current_constant _ k = real (amps_per_torque L) /\
  (velocity_limit _ k = Some (max_velocity L) /\ ele (Real 0) (max_velocity L)) /\
  (torque_limit _ k = Some (max_torque L) /\ ele (Real 0) (max_torque L)) /\
  (current_limit _ k = Some (max_current L) /\ ele (Real 0) (max_current L)) /\
  periodic_actuator _ k = circular L.

(** What is asked from the cascade: a position and a velocity to follow, a velocity, or only a torque. *)
Inductive demand :=
| FollowPosition (x v torque : R)
| FollowVelocity (v torque : R)
| OnlyTorque (torque : R).

Definition is_demand (s : setpoints exact) (d : demand) : Prop :=
  match d with
  | FollowPosition x v t =>
      position_control_enabled _ s = true /\ velocity_control_enabled _ s = true /\
      position_setpt _ s = real x /\ velocity_setpt _ s = real v /\ feedforward_torque _ s = real t
  | FollowVelocity v t =>
      position_control_enabled _ s = false /\ velocity_control_enabled _ s = true /\
      velocity_setpt _ s = real v /\ feedforward_torque _ s = real t
  | OnlyTorque t =>
      position_control_enabled _ s = false /\ velocity_control_enabled _ s = false /\
      feedforward_torque _ s = real t
  end.

(** The cascade: with the measured position [x], velocity [v] and current [i], the loop [L] answers the
    demand with the voltage [u], and becomes [L']. *)
Definition torque_to_current (L : loop) (torque : R) : R :=
  limit_to (max_current L) (limit_to (max_torque L) torque * amps_per_torque L).

Definition next_loop (L : loop) (p v c : stage) : loop :=
  {| position_stage := p; velocity_stage := v; current_stage := c;
     amps_per_torque := amps_per_torque L; max_velocity := max_velocity L; max_torque := max_torque L;
     max_current := max_current L; circular := circular L |}.

Definition cascade_answer (L : loop) (x v i : R) (d : demand) (u : R) (L' : loop) : Prop :=
  match d with
  | FollowPosition xd vd t => exists e,
      (if circular L then shortest (x - xd) e else e = x - xd) /\
      let vset := limit_to (max_velocity L) (vd + respond (position_stage L) e) in
      let iset := torque_to_current L (respond (velocity_stage L) (v - vset) + t) in
      u = respond (current_stage L) (i - iset) /\
      L' = next_loop L (after (position_stage L) e) (after (velocity_stage L) (v - vset))
             (after (current_stage L) (i - iset))
  | FollowVelocity vd t =>
      let vset := limit_to (max_velocity L) vd in
      let iset := torque_to_current L (respond (velocity_stage L) (v - vset) + t) in
      u = respond (current_stage L) (i - iset) /\
      L' = next_loop L (cleared (position_stage L)) (after (velocity_stage L) (v - vset))
             (after (current_stage L) (i - iset))
  | OnlyTorque t =>
      let iset := torque_to_current L t in
      u = respond (current_stage L) (i - iset) /\
      L' = next_loop L (cleared (position_stage L)) (cleared (velocity_stage L))
             (after (current_stage L) (i - iset))
  end.

(** The constants of the analog inputs and of the filter, as the comments of the code give them. *)
Definition near (x y : R) : Prop := Rabs (x - y) <= / 1000000000.

(** The measured current: 3.3 V over 4096 steps around the middle of the range, 0.01 ohm, gain 50. *)
Definition amps_from (mean k : R) : R := - (mean - 2048) * k.
Definition amps_per_step (k : R) : Prop := near k (3.3 / 4096 / (0.01 * 50)).
(** The battery: 3.3 V over 4096 steps behind a divider of 18 k and 100 k. *)
Definition volts_per_step (k : R) : Prop := near k (3.3 / 4096 / (18 / (100 + 18))).

(** The filter of the velocity: nine tenths of the old value and one tenth of the new one. *)
Definition is_tenth (a b : R) : Prop := near a 0.9 /\ near b 0.1.

(** The duty cycle, in steps of the timer of 2880. *)
Definition duty (m x : R) : Z := Ztrunc (limit_to (Real m) x * 2880).

(** A history in which nothing has been asked from the controller yet. *)
Definition no_request (e : event ieee) : Prop := match e with Request _ _ _ => False | _ => True end.

(** The velocities measured in a history. *)
Fixpoint smoothed (a b : R) (vs : list R) : R :=   (* newest first *)
  match vs with [] => 0 | v :: vs => a * smoothed a b vs + b * v end.

(** The loop for an actuator that is circular or not. *)
Definition set_circular (L : loop) (b : bool) : loop :=
  {| position_stage := position_stage L; velocity_stage := velocity_stage L; current_stage := current_stage L;
     amps_per_torque := amps_per_torque L; max_velocity := max_velocity L; max_torque := max_torque L;
     max_current := max_current L; circular := b |}.

(** Seconds from [t1] to [t2] on the 32-bit microsecond clock, negative if [t2] is the earlier. *)
Definition seconds (t1 t2 : Z) : R := IZR (CBase.s32 (t2 - t1)) / 1000000.

(** What the controller holds: its loop, filtered velocity, current offset and battery threshold. *)
Definition holds (c : control exact) (L : loop) (v offset threshold : R) : Prop :=
  is_loop (ctrl _ c) L /\ velocity _ (ctrl _ c) = real v /\ current_offset _ c = real offset /\
  low_batt_th _ c = real threshold.

(** What a round reads: position, velocity; the mean of the current samples; the battery. *)
Definition reads (i : inputs exact) (x w mean raw : R) : Prop :=
  in_position _ i = real x /\ in_velocity _ i = real w /\ in_nb _ i <> 0%Z /\
  mean = IZR (in_accu _ i) / IZR (in_nb _ i) /\ raw = IZR (in_battery _ i).

(** How a position is approached: with the error [e] (setpoint minus target), the velocity [v] and the
    period [h], within the acceleration [a] and the velocity [V]. *)
Inductive approach (e v a V h : R) : R -> Prop :=
| Brake :
    Rabs e <= a * h * h / 2 \/ (e * v <= 0 /\ Rabs e <= v * v / 2 / a) ->
    approach e v a V h (- limit_to (Real a) (v / h))
| Cruise :
    a * h * h / 2 < Rabs e -> v * v / 2 / a < Rabs e -> e * v <= 0 -> V <= Rabs v ->
    approach e v a V h 0
| Push acc :
    a * h * h / 2 < Rabs e ->
    (0 <= e * v \/ (v * v / 2 / a < Rabs e /\ Rabs v < V)) ->
    (0 <= e -> acc = - a) -> (e < 0 -> acc = a) ->
    approach e v a V h acc.

(** Where the next interpolation starts when a setpoint of another kind arrives: without a velocity
    (or position) setpoint in use, at the measured one. *)
Definition start_velocity (c : control exact) : num (F exact) :=
  match mode _ (ip _ c) with MTorque => velocity _ (ctrl _ c) | _ => setpt_vel _ (ip _ c) end.
Definition start_position (c : control exact) : num (F exact) :=
  match mode _ (ip _ c) with
  | MTorque | MVel => position _ (ctrl _ c)
  | _ => setpt_pos _ (ip _ c)
  end.

(** The answer to the next demand of an interpolator. *)
Definition demands (i : interpolator exact) (h : R) (now : Z) (d : demand) : Prop :=
  forall s, is_demand (snd (setpoint_compute exact i s (real h) now)) d.

(** The velocities read by the rounds of a history, newest first. *)
Fixpoint velocity_readings (es : list (event exact)) : list (num (F exact)) :=
  match es with
  | [] => []
  | Round _ i :: es => in_velocity _ i :: velocity_readings es
  | _ :: es => velocity_readings es
  end.

(** What the bridge applies, in steps of the timer: positive one way, negative the other. *)
Definition applied (b : bridge) : Z := (ccr_power b - ccr_direction b)%Z.
