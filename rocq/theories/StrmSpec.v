(** Specification of the feedback streams: which messages each spin must send, from the events alone. *)
From Coq Require Import ZArith List Bool Arith QArith.
From Verif Require Import CBase ParamModel EncSpec StrmModel.
Import ListNotations.
Local Open Scope Z_scope.

(** The streams, by the order of their parameters. *)
Definition message_of (k : nat) (i : inputs) : message :=
  match k with
  | 0%nat => CurrentPID (current i) (current_setpoint i) (voltage i)
  | 1%nat => VelocityPID (velocity i) (velocity_setpoint i)
  | 2%nat => PositionPID (position i) (position_setpoint i)
  | 3%nat => Index (index_position i) (index_count i)
  | 4%nat => MotorEncoderPosition (encoder i)
  | 5%nat => MotorPosition (position i) (velocity i)
  | _ => MotorTorque (torque i) (position i)
  end.

(** The frequency of stream [k] after a history, [v0] before. *)
Fixpoint frequency (v0 : Z) (k : nat) (evs : list event) : Z :=
  match evs with
  | [] => v0
  | Write k' v :: evs => frequency (if (k' =? k)%nat then v else v0) k evs
  | _ :: evs => frequency v0 k evs
  end.

(** The number of spins since a frequency (of any stream) was last written, counting the coming one. At the start the
    frequencies are just written. [written]: since the last spin. *)
Fixpoint age (written : bool) (j : Z) (evs : list event) : Z :=
  match evs with
  | [] => if written then 1 else j + 1
  | Write _ _ :: evs => age true j evs
  | Other _ :: evs => age written j evs
  | Spin _ :: evs => age false (if written then 1 else j + 1) evs
  end.

(** [due num v j]: a stream of frequency [v] (in Hz; updates are at 100 Hz) sends at the [j]-th spin: one spin out of
    the nearest integer to 100 / v. *)
Definition due (num : Z -> Q) (v j : Z) : Prop :=
  (0 < num v)%Q /\ exists n q, nearest n (100 / num v) /\ 0 < n /\ j = n * q.

(** Frequencies that can be used: not positive, or a divider of 1 to 65535. *)
Definition usable (num : Z -> Q) (v : Z) : Prop :=
  (num v <= 0)%Q \/ ((0 < num v)%Q /\ exists n, nearest n (100 / num v) /\ 0 < n < 65536).

(** Events of a board whose parameters of the streams are [p] to [p] + 6: anybody can write frequencies, and read or
    write other parameters. *)
Definition admissible (num : Z -> Q) (p : nat) (e : event) : Prop :=
  match e with
  | Write k v => (k < 7)%nat /\ usable num v
  | Other (OSet q _) | Other (OGet q _) => (q < p \/ p + 7 <= q)%nat
  | Other (ORead _ _) => True
  | Other _ => False
  | Spin _ => True
  end.
