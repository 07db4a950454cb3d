(** Model of master-firmware/src/can/motor_driver.c, motor_manager.c, motor_feedback_streams_handler.cpp
    and actuator_driver.c.

    Critical sections under the driver's lock are atomic. Floats are opaque bit patterns. Drivers are
    designated by their index in the manager's buffer. The parameter namespace created per driver, and
    the registration of other boards in the same enumerator, are left out. *)
From Coq Require Import ZArith List Bool Arith.
From Verif Require Import CBase EnumModel.
Import ListNotations.
Local Open Scope Z_scope.

(** motor_driver.h:7,10-16 *)
Definition MOTOR_ID_MAX_LEN : nat := 24.
Definition MODE_DISABLED := 0.
Definition MODE_POSITION := 1.
Definition MODE_VELOCITY := 2.
Definition MODE_TORQUE := 3.
Definition MODE_VOLTAGE := 4.
Definition STREAMS_NB_VALUES := 10.

(** motor_driver.h:36-91 (members used here). *)
Record driver := { d_id : name; control_mode : Z; setpt : Z; change_status : Z; values : Z -> Z }.

(** motor_driver.c:17-64 on the zeroed memory of motor_manager.c:12. *)
Definition driver_init (actuator_id : name) : driver :=
  {| d_id := firstn MOTOR_ID_MAX_LEN actuator_id; control_mode := MODE_DISABLED; setpt := 0;
     change_status := 0; values := fun _ => 0 |}.

(** motor_driver.c:71-108 *)
Inductive setpoint := Position (v : Z) | Velocity (v : Z) | Torque (v : Z) | Voltage (v : Z) | Disable.
Definition driver_set (d : driver) (s : setpoint) : driver :=
  let with_ m v := {| d_id := d_id d; control_mode := m; setpt := v;
                      change_status := change_status d; values := values d |} in
  match s with
  | Position v => with_ MODE_POSITION v
  | Velocity v => with_ MODE_VELOCITY v
  | Torque v => with_ MODE_TORQUE v
  | Voltage v => with_ MODE_VOLTAGE v
  | Disable => with_ MODE_DISABLED (setpt d)
  end.

(** motor_driver.c:167-177; [1 << stream] with [stream] below 10. *)
Definition set_stream_value (d : driver) (stream v : Z) : driver :=
  if stream <? STREAMS_NB_VALUES then
    {| d_id := d_id d; control_mode := control_mode d; setpt := setpt d;
       change_status := Z.lor (change_status d) (Z.shiftl 1 stream);
       values := fun i => if i =? stream then v else values d i |}
  else d.

(** motor_driver.c:179-182 *)
Definition get_stream_change_status (d : driver) : Z := change_status d.

(** motor_driver.c:184-200 *)
Definition get_and_clear_stream_value (d : driver) (stream : Z) : driver * Z :=
  if stream <? STREAMS_NB_VALUES then
    ({| d_id := d_id d; control_mode := control_mode d; setpt := setpt d;
        change_status := Z.land (change_status d) (u32 (Z.lnot (Z.shiftl 1 stream)));
        values := values d |}, values d stream)
  else (d, 0).

(** * The manager: motor_manager.h:24-29 *)
Record manager := { drivers : list driver; max_drivers : nat; enum : enumerator }.

(** motor_manager.c:7-20 and the enumerator it uses *)
Definition manager_init (max enum_cap : nat) : manager :=
  {| drivers := []; max_drivers := max; enum := enumerator_init enum_cap |}.

(** motor_manager.c:22-46. Returns the driver's index or NULL. *)
Definition create_driver (m : manager) (actuator_id : name) : option (manager * option nat) :=
  match get_can_id (enum m) actuator_id with
  | None => None
  | Some c =>
      if negb (c =? STRING_ID_NOT_FOUND) then Some (m, None)
      else if Nat.ltb (length (drivers m)) (max_drivers m) then
        let d := driver_init actuator_id in
        match add_node (enum m) (d_id d) (Z.of_nat (length (drivers m))) with
        | None => None
        | Some en => Some ({| drivers := drivers m ++ [d]; max_drivers := max_drivers m; enum := en |},
                           Some (length (drivers m)))
        end
      else Some (m, None)
  end.

Fixpoint update_driver (l : list driver) (i : nat) (f : driver -> driver) : list driver :=
  match l, i with
  | [], _ => []
  | d :: l, O => f d :: l
  | d :: l, S i => d :: update_driver l i f
  end.
Definition with_driver (m : manager) (i : Z) (f : driver -> driver) : manager :=
  {| drivers := update_driver (drivers m) (Z.to_nat i) f; max_drivers := max_drivers m; enum := enum m |}.

(** motor_manager.c:48-51, 59-113 *)
Definition manager_set (m : manager) (actuator_id : name) (s : setpoint) : option manager :=
  match get_driver (enum m) actuator_id with
  | None => None
  | Some None => Some m
  | Some (Some i) => Some (with_driver m i (fun d => driver_set d s))
  end.

(** motor_feedback_streams_handler.cpp:16-86: a message of node [can_id] updates some streams. *)
Inductive feedback :=
| CurrentPID (current setpoint voltage : Z)
| VelocityPID (velocity setpoint : Z)
| PositionPID (position setpoint : Z)
| Index (position : Z)
| MotorPosition (position velocity : Z)
| MotorTorque (torque position : Z).
Definition stream_updates (f : feedback) : list (Z * Z) :=
  match f with
  | CurrentPID c s v => [(0, c); (1, s); (2, v)]
  | VelocityPID v s => [(3, v); (4, s)]
  | PositionPID p s => [(5, p); (6, s)]
  | Index p => [(7, p)]
  | MotorPosition p v => [(5, p); (3, v)]
  | MotorTorque t p => [(9, t); (5, p)]
  end.
Definition on_feedback (m : manager) (can_id : Z) (f : feedback) : option manager :=
  match get_driver_by_can_id (enum m) can_id with
  | None => None
  | Some None => Some m
  | Some (Some i) =>
      Some (with_driver m i (fun d => fold_left (fun d sv => set_stream_value d (fst sv) (snd sv)) (stream_updates f) d))
  end.

(** A board announcing itself on the bus. *)
Definition on_announce (m : manager) (s : name) (c : Z) : option manager :=
  match update_node_info (enum m) s c with
  | None => None
  | Some en => Some {| drivers := drivers m; max_drivers := max_drivers m; enum := en |}
  end.

Inductive mop := Create (s : name) | Set_ (s : name) (sp : setpoint) | Board (s : name) (c : Z) | Feedback (c : Z) (f : feedback).

(** The results of the creations, newest first. *)
Definition mstep (st : manager * list (name * option nat)) (o : mop) : option (manager * list (name * option nat)) :=
  let (m, res) := st in
  match o with
  | Create s => match create_driver m s with None => None | Some (m, r) => Some (m, (s, r) :: res) end
  | Set_ s sp => match manager_set m s sp with None => None | Some m => Some (m, res) end
  | Board s c => match on_announce m s c with None => None | Some m => Some (m, res) end
  | Feedback c f => match on_feedback m c f with None => None | Some m => Some (m, res) end
  end.
Fixpoint mrun (st : manager * list (name * option nat)) (h : list mop) : option (manager * list (name * option nat)) :=
  match h with
  | [] => Some st
  | o :: h => match mstep st o with Some st => mrun st h | None => None end
  end.

(** * Actuator boards: actuator_driver.h:7,31-44 *)
Definition ACTUATOR_NAME_MAX_LENGTH : nat := 32.
Inductive arm_position := TABLE_PICKUP | REEF_PICKUP | POSITION_HIGH.
Record actuator := { can_name : name; a_position : arm_position; pump0 : bool; pump1 : bool }.

(** actuator_driver.c:4-23 *)
Definition actuator_init (en : enumerator) (s : name) (drv : Z) : option (enumerator * actuator) :=
  match add_node en s drv with
  | None => None
  | Some en => Some (en, {| can_name := firstn ACTUATOR_NAME_MAX_LENGTH s; a_position := POSITION_HIGH;
                            pump0 := false; pump1 := false |})
  end.

(** The message: node, pumps, solenoids, servo. Parameters are given as arguments. *)
Record command := { c_node : Z; c_pump0 : Z; c_pump1 : Z; c_solenoid0 : bool; c_solenoid1 : bool; c_servo : Z }.

(** actuator_driver.c:35-71; multiplying a float by a bool. Inner [None]: nothing to send. *)
Definition prepare_uavcan_msg (a : actuator) (en : enumerator) (table reef high duty : Z) : option (option command) :=
  match get_can_id en (can_name a) with
  | None => None
  | Some c =>
      if 127 <? c then Some None
      else Some (Some {| c_node := c;
                         c_pump0 := if pump0 a then duty else 0; c_pump1 := if pump1 a then duty else 0;
                         c_solenoid0 := pump0 a; c_solenoid1 := pump1 a;
                         c_servo := match a_position a with
                                    | POSITION_HIGH => high | REEF_PICKUP => reef | TABLE_PICKUP => table end |})
  end.
