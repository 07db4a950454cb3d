(** Specification of the motor drivers and their manager. *)
From Coq Require Import ZArith List Bool Arith.
From Verif Require Import EnumModel EnumSpec MotorModel.
Import ListNotations.
Local Open Scope Z_scope.

(** * One driver's streams: a history of writes and reads of streams, oldest first. *)
Inductive sop := Write (stream v : Z) | Read (stream : Z).
Definition srun (d : driver) (h : list sop) : driver :=
  fold_left (fun d o => match o with Write s v => set_stream_value d s v
                                | Read s => fst (get_and_clear_stream_value d s) end) h d.

(** The last value written to [s], if any. *)
Definition last_write (h : list sop) (s : Z) : option Z :=
  fold_left (fun r o => match o with Write s' v => if s' =? s then Some v else r | _ => r end) h None.
(** Has [s] been written since it was last read? *)
Definition fresh (h : list sop) (s : Z) : bool :=
  fold_left (fun r o => match o with Write s' _ => if s' =? s then true else r
                                   | Read s' => if s' =? s then false else r end) h false.

(** * The manager: the motors in creation order with the setpoints given to each (newest first), and
      what the enumerator was told. *)
Record motor := { m_name : name; m_sets : list setpoint }.
Record spec := { motors : list motor; log : list event }.

Definition spec_step (max : nat) (st : spec) (o : mop) : spec :=
  match o with
  | Create s =>
      if in_dec name_dec s (map m_name (motors st)) then st
      else if Nat.ltb (length (motors st)) max
           then {| motors := motors st ++ [{| m_name := s; m_sets := [] |}];
                   log := log st ++ [Add s (Z.of_nat (length (motors st)))] |}
           else st
  | Set_ s sp =>
      {| motors := map (fun m => if name_dec (m_name m) s then {| m_name := m_name m; m_sets := sp :: m_sets m |} else m)
                       (motors st);
         log := log st |}
  | Board s c => {| motors := motors st; log := log st ++ [Announce s c] |}
  | Feedback _ _ => st
  end.
Definition spec_run (max : nat) (h : list mop) : spec := fold_left (spec_step max) h {| motors := []; log := [] |}.

(** Control mode and setpoint resulting from setpoints, newest first. *)
Definition mode_of (l : list setpoint) : Z :=
  match l with
  | [] => MODE_DISABLED | Disable :: _ => MODE_DISABLED
  | Position _ :: _ => MODE_POSITION | Velocity _ :: _ => MODE_VELOCITY
  | Torque _ :: _ => MODE_TORQUE | Voltage _ :: _ => MODE_VOLTAGE
  end.
Fixpoint value_of (l : list setpoint) : Z :=
  match l with
  | [] => 0
  | Disable :: l => value_of l
  | Position v :: _ | Velocity v :: _ | Torque v :: _ | Voltage v :: _ => v
  end.

(** Requirements on the callers: ids fit, boards have legal CAN node ids. *)
Definition op_ok (o : mop) : Prop :=
  match o with
  | Create s => (length s <= MOTOR_ID_MAX_LEN)%nat
  | Board _ c => c <= 127
  | _ => True
  end.

(** The quantities a motor board reports, with the numbers under which they are read (motor_driver.h:17-26). *)
Inductive quantity := Q_current | Q_current_setpoint | Q_voltage | Q_velocity | Q_velocity_setpoint | Q_position | Q_position_setpoint | Q_index | Q_encoder | Q_torque.
Definition number (q : quantity) : Z :=
  match q with
  | Q_current => 0 | Q_current_setpoint => 1 | Q_voltage => 2 | Q_velocity => 3 | Q_velocity_setpoint => 4
  | Q_position => 5 | Q_position_setpoint => 6 | Q_index => 7 | Q_encoder => 8 | Q_torque => 9
  end.
(** What a message says about a quantity. *)
Definition measured (f : feedback) (q : quantity) : option Z :=
  match f, q with
  | CurrentPID current _ _, Q_current => Some current
  | CurrentPID _ setpoint _, Q_current_setpoint => Some setpoint
  | CurrentPID _ _ voltage, Q_voltage => Some voltage
  | VelocityPID velocity _, Q_velocity => Some velocity
  | VelocityPID _ setpoint, Q_velocity_setpoint => Some setpoint
  | PositionPID position _, Q_position => Some position
  | PositionPID _ setpoint, Q_position_setpoint => Some setpoint
  | Index position, Q_index => Some position
  | MotorPosition position _, Q_position => Some position
  | MotorPosition _ velocity, Q_velocity => Some velocity
  | MotorTorque torque _, Q_torque => Some torque
  | MotorTorque _ position, Q_position => Some position
  | _, _ => None
  end.
(** Driver [d'] is [d] after it received [f]. *)
Definition has_received (d : driver) (f : feedback) (d' : driver) : Prop :=
  d_id d' = d_id d /\ control_mode d' = control_mode d /\ setpt d' = setpt d /\
  forall q, match measured f q with
            | Some v => snd (get_and_clear_stream_value d' (number q)) = v /\ Z.testbit (get_stream_change_status d') (number q) = true
            | None => snd (get_and_clear_stream_value d' (number q)) = snd (get_and_clear_stream_value d (number q)) /\
                      Z.testbit (get_stream_change_status d') (number q) = Z.testbit (get_stream_change_status d) (number q)
            end.
