(** Model of the master's CAN node: master-firmware/src/can/motor_driver_uavcan.cpp, uavcan_node.cpp, emergency_stop_handler.cpp,
    and of the handlers of a motor board: motor-control-firmware/src/uavcan/{Position,Velocity,Torque,Voltage,EmergencyStop}_handler.cpp
    and the status loop of its uavcan_node.cpp.

    Floats are opaque bit patterns, as in MotorModel. libuavcan is not modelled: a broadcast is an output, a received message an
    event. Other threads may create motors and give setpoints between any two motors which the timer callback visits; the critical
    sections of a driver and the operations on the enumerator are atomic. Bad executions (undefined behaviour) are [None]. *)
From Coq Require Import ZArith List Bool Arith.
From Verif Require Import CBase EnumModel MotorModel.
Import ListNotations.
Local Open Scope Z_scope.

Local Notation "'do' x <- e ; f" := (match e with Some x => f | None => None end) (at level 60, x pattern, e at level 60, f at level 60, right associativity).

(** motor_driver.h:114 *)
Definition DRIVER_CAN_ID_NOT_SET := 0xFFFF.

(** uavcan_data_types/cvra/motor/control: a node id and a value. *)
Inductive message := MsgPosition (node v : Z) | MsgVelocity (node v : Z) | MsgTorque (node v : Z) | MsgVoltage (node v : Z).
(** The field node_id has 7 bits; libuavcan saturates. *)
Definition uint7 (x : Z) : Z := Z.max 0 (Z.min 127 x).

(** Where the timer callback is: not running, in the first loop (motor_driver_uavcan.cpp:54-59), in the second (:61-63); [i] is
    the index, [n] is drv_list_len. *)
Inductive phase := Idle | Config (i n : nat) | Send (i n : nat).
(** The manager, the member can_id of each driver, the callback. *)
Record sys := { mgr : manager; ids : list Z; ph : phase }.
Definition sys_init (max cap : nat) : sys := {| mgr := manager_init max cap; ids := []; ph := Idle |}.
Definition set_ph (s : sys) (p : phase) : sys := {| mgr := mgr s; ids := ids s; ph := p |}.
Fixpoint upd {A} (l : list A) (i : nat) (x : A) : list A :=
  match l, i with [], _ => [] | _ :: l, O => x :: l | y :: l, S i => y :: upd l i x end.

(** motor_driver_uavcan.cpp:74-84; returns the driver's can_id too. *)
Definition update_motor_can_id (s : sys) (i : nat) : option (sys * Z) :=
  do d <- nth_error (drivers (mgr s)) i;
  do node_id <- nth_error (ids s) i;
  if node_id =? DRIVER_CAN_ID_NOT_SET then
    do c <- get_can_id (enum (mgr s)) (d_id d);
    if negb (c =? CAN_ID_NOT_SET) && negb (c =? STRING_ID_NOT_FOUND)
    then Some ({| mgr := mgr s; ids := upd (ids s) i c; ph := ph s |}, c)
    else Some (s, node_id)
  else Some (s, node_id).

(** motor_driver_uavcan.cpp:86-95 *)
Definition update_config (s : sys) (i : nat) : option (sys * bool) :=
  do (s, node_id) <- update_motor_can_id s i;
  Some (s, negb (node_id =? DRIVER_CAN_ID_NOT_SET)).

(** motor_driver_uavcan.cpp:97-145. An unknown control mode only logs an error. *)
Definition send_setpoint (s : sys) (i : nat) : option (sys * option message) :=
  do (s, node_id) <- update_motor_can_id s i;
  if node_id =? DRIVER_CAN_ID_NOT_SET then Some (s, None)
  else
    do d <- nth_error (drivers (mgr s)) i;
    Some (s, if control_mode d =? MODE_VELOCITY then Some (MsgVelocity (uint7 node_id) (setpt d))
             else if control_mode d =? MODE_POSITION then Some (MsgPosition (uint7 node_id) (setpt d))
             else if control_mode d =? MODE_TORQUE then Some (MsgTorque (uint7 node_id) (setpt d))
             else if control_mode d =? MODE_VOLTAGE then Some (MsgVoltage (uint7 node_id) (setpt d))
             else None).

(** The next step of the callback, motor_driver_uavcan.cpp:46-64; the motor visited by the second loop, and what is sent. *)
Definition can_step (s : sys) : option (sys * list (nat * option message)) :=
  match ph s with
  | Idle => Some (set_ph s (Config 0 (length (drivers (mgr s)))), [])
  | Config i n =>
      if Nat.ltb i n then
        do (s, r) <- update_config s i;
        Some (set_ph s (if r then Send 0 n else Config (S i) n), [])
      else Some (set_ph s (Send 0 n), [])
  | Send i n =>
      if Nat.ltb i n then
        do (s, m) <- send_setpoint s i;
        Some (set_ph s (Send (S i) n), [(i, m)])
      else Some (set_ph s Idle, [])
  end.

(** uavcan_node.cpp:43-50 (the LED is below): the name of the node [c] was retrieved. *)
Definition node_info (m : manager) (s : name) (c : Z) : option manager :=
  do known <- get_str_id (enum m) c;
  match known with
  | Some _ => Some m
  | None => on_announce m s c
  end.

(** What can happen: a thread creates a motor or gives a setpoint, the name of a board is retrieved, feedback of a board arrives,
    a step of the timer callback. *)
Inductive event := Creation (s : name) | Setpoint (s : name) (sp : setpoint) | NodeInfo (s : name) (c : Z) | Received (c : Z) (f : feedback) | Can.

Definition with_mgr (s : sys) (m : manager) : sys := {| mgr := m; ids := ids s; ph := ph s |}.
(** motor_manager.c:22-113 on the side of the callers; motor_driver.c:28 for the new driver. *)
Definition step (s : sys) (e : event) : option (sys * list (nat * option message)) :=
  match e with
  | Creation n =>
      do (m, r) <- create_driver (mgr s) n;
      Some ({| mgr := m; ids := ids s ++ match r with Some _ => [DRIVER_CAN_ID_NOT_SET] | None => [] end; ph := ph s |}, [])
  | Setpoint n sp => do m <- manager_set (mgr s) n sp; Some (with_mgr s m, [])
  | NodeInfo n c => do m <- node_info (mgr s) n c; Some (with_mgr s m, [])
  | Received c f => do m <- on_feedback (mgr s) c f; Some (with_mgr s m, [])
  | Can => can_step s
  end.
Fixpoint run (s : sys) (h : list event) : option (sys * list (nat * option message)) :=
  match h with
  | [] => Some (s, [])
  | e :: h => do (s, o) <- step s e; do (s, o') <- run s h; Some (s, o ++ o')
  end.

(** * The motor board with node id [own]: Position_handler.cpp:12-17 and the three others. The setpoints it takes. *)
Definition board_handler (own : Z) (m : message) : list setpoint :=
  match m with
  | MsgPosition node v => if node =? own then [Position v] else []
  | MsgVelocity node v => if node =? own then [Velocity v] else []
  | MsgTorque node v => if node =? own then [Torque v] else []
  | MsgVoltage node v => if node =? own then [Voltage v] else []
  end.

(** * The ready LED: uavcan_node.cpp:43-58, with the enumerator of all boards. *)
Definition on_node_info (st : enumerator * bool) (s : name) (c : Z) : option (enumerator * bool) :=
  let (en, ready) := st in
  do known <- get_str_id en c;
  match known with
  | Some _ => Some (en, ready)
  | None =>
      do en <- update_node_info en s c;
      Some (en, if Nat.eqb (discovered_nodes_count en) (total_nodes_count en) then true else ready)
  end.
Fixpoint info_run (st : enumerator * bool) (h : list (name * Z)) : option (enumerator * bool) :=
  match h with
  | [] => Some st
  | (s, c) :: h => do st <- on_node_info st s c; info_run st h
  end.
(** main.cpp:130-143: the boards are registered before the node starts. *)
Fixpoint register (en : enumerator) (l : list name) : option enumerator :=
  match l with
  | [] => Some en
  | s :: l => do en <- add_node en s 0; register en l
  end.

(** * The power LED. NodeStatus: health 0 is OK, 1 is WARNING. *)
Definition NO_POWER := 4.
Record status := { health : Z; code : Z }.
(** uavcan_node.cpp:196: the last status of each node. *)
Definition on_status (m : list (Z * status)) (src : Z) (st : status) : list (Z * status) :=
  (src, st) :: filter (fun e => negb (fst e =? src)) m.
(** uavcan_node.cpp:184-190: one round of the main loop. *)
Definition power_led (m : list (Z * status)) : bool :=
  existsb (fun e => negb (health (snd e) =? 0) && negb (Z.land (code (snd e)) NO_POWER =? 0)) m.
(** motor-control-firmware/src/uavcan/uavcan_node.cpp:110-118: the status of a motor board after a round of its loop; [low] is
    analog_get_battery_voltage() < 12.f, [ready] is node_init_complete. *)
Definition board_status (st : status) (ready low : bool) : status :=
  if ready then if low then {| health := 1; code := NO_POWER |} else {| health := 0; code := code st |}
  else st.

(** * Subscriptions. A uavcan::Subscriber receives messages from start() until its destructor runs: at the end of the program if
      it is static, when the function returns if it is automatic. *)
Inductive storage := Static | Automatic.
Inductive topic :=
| T_NodeStatus | T_WheelEncoder | T_CurrentPID | T_VelocityPID | T_PositionPID | T_Index | T_MotorPosition | T_MotorTorque
| T_Signal | T_DigitalInput | T_Distance | T_ActuatorFeedback | T_EmergencyStop.
(** A function which starts subscribers and returns, and what remains of them. *)
Definition after_return (subs : list (storage * topic)) : list topic :=
  flat_map (fun s => match fst s with Static => [snd s] | Automatic => [] end) subs.
(** wheel_encoders_handler.cpp:32, motor_feedback_streams_handler.cpp:94-129, beacon_signal_handler.cpp:53, can_io_driver.cpp:22,
    sensor_handler.cpp:39-46 and actuator_handler.cpp:43-50 (objects held by static pointers), emergency_stop_handler.cpp:14. *)
Definition wheel_encoder_handler_init := [(Static, T_WheelEncoder)].
Definition motor_feedback_stream_handler_init :=
  [(Static, T_CurrentPID); (Static, T_VelocityPID); (Static, T_PositionPID); (Static, T_Index); (Static, T_MotorPosition); (Static, T_MotorTorque)].
Definition beacon_signal_handler_init := [(Static, T_Signal)].
Definition can_io_init := [(Static, T_DigitalInput)].
Definition sensor_handler_init := [(Static, T_Distance)].
Definition actuator_handler_init := [(Static, T_ActuatorFeedback)].
Definition emergency_stop_init := [(Automatic, T_EmergencyStop)].
(** uavcan_node.cpp:107-157: ns_sub is an automatic variable of the function which never returns. *)
Definition subscriptions : list topic :=
  T_NodeStatus :: flat_map after_return
    [wheel_encoder_handler_init; motor_feedback_stream_handler_init; beacon_signal_handler_init; can_io_init; sensor_handler_init;
     actuator_handler_init; emergency_stop_init].
Definition topic_eqb (a b : topic) : bool :=
  match a, b with
  | T_NodeStatus, T_NodeStatus | T_WheelEncoder, T_WheelEncoder | T_CurrentPID, T_CurrentPID | T_VelocityPID, T_VelocityPID
  | T_PositionPID, T_PositionPID | T_Index, T_Index | T_MotorPosition, T_MotorPosition | T_MotorTorque, T_MotorTorque
  | T_Signal, T_Signal | T_DigitalInput, T_DigitalInput | T_Distance, T_Distance | T_ActuatorFeedback, T_ActuatorFeedback
  | T_EmergencyStop, T_EmergencyStop => true
  | _, _ => false
  end.
(** A message arrives. emergency_stop_handler.cpp:5-10 exits; the other handlers do not. [true]: the program has ended. *)
Definition on_message (subs : list topic) (ended : bool) (t : topic) : bool :=
  ended || (existsb (topic_eqb t) subs && match t with T_EmergencyStop => true | _ => false end).
(** The same for a motor board, whose subscribers are static: EmergencyStop_handler.cpp:8-14 reboots. *)
Definition board_subscriptions : list topic := after_return [(Static, T_EmergencyStop)].
