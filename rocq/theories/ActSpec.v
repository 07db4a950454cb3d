(** What is expected of the actuator board. *)
From Coq Require Import ZArith Reals List Bool.
From Verif Require Import CRes QuadModel ActModel.
Import ListNotations.
Local Open Scope Z_scope.

(** Rounding to a float: never swaps two numbers and keeps the whole numbers of up to 24 bits (true of binary32). *)
Definition rounding (rnd : R -> R) : Prop :=
  (forall a b, (a <= b)%R -> (rnd a <= rnd b)%R) /\ (forall n, Z.abs n <= 2 ^ 24 -> rnd (IZR n) = IZR n).

(** Time: the number of ticks in a sequence of events. *)
Definition ticks (l : list event) : Z := Z.of_nat (length (List.filter (fun e => match e with Tick => true | _ => false end) l)).
(** The steps of the servo thread in a sequence of events; six make one round over the two servomotors. *)
Definition servo_steps (l : list event) : nat := length (List.filter (fun e => match e with Servo => true | _ => false end) l).
(** No order for this board. *)
Definition no_order (me : Z) (l : list event) : Prop := forall c, In (Order c) l -> node_id c <> me.
(** An order for this board is being carried out. *)
Definition busy (s : system) : Prop := todo s <> [].
(** The pulse applied to each servomotor (timer 1, channels 2 and 3) and pump (timers 16 and 17, channel 1). *)
Definition servo_pulse (s : system) (i : nat) : Z := nth (S i) (tim1 (brd s)) 0.
Definition pump_pulse (s : system) (i : nat) : Z := nth 0 (match i with 0%nat => tim16 (brd s) | _ => tim17 (brd s) end) 0.

(** A number asked for, limited to 0 .. 1. *)
Definition clamp (f : float) : R := match f with NaN => 0 | Inf true => 0 | Inf false => 1 | Fin x => Rmax 0 (Rmin 1 x) end.
(** An order made of numbers. *)
Definition proper (c : command) : Prop := pump0 c <> NaN /\ pump1 c <> NaN /\ fst (fst (traj0 c)) <> NaN /\ fst (fst (traj1 c)) <> NaN.
(** The servomotor after it was given a trajectory. *)
Definition retarget (rnd : R -> R) (t : float * R * R) (sv : servo_state) : servo_state :=
  let '(p, v, a) := t in mkServo (Fin (clamp p)) (set_quadramp_coefficients rnd (filter sv) v a).
