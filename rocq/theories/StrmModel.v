(** Model of the feedback streams of the motor boards, motor-control-firmware/src/uavcan/uavcan_streams.cpp, over the
    parameter tree (ParamModel) and the stream divider (stream.c, EncModel).

    The publishers of UAVCAN are not modelled: a broadcast appends its message to the output. Floats of the
    messages are given by their bits. *)
From Coq Require Import ZArith List Bool Arith QArith.
From Verif Require Import CBase ParamModel.
From Verif Require CRes EncModel.
Import ListNotations.
Local Open Scope Z_scope.

(** What the other modules return at one spin: control_get_*, encoder_get_secondary, index_get_position. *)
Record inputs := mkin {
  current : Z; current_setpoint : Z; voltage : Z; velocity : Z; velocity_setpoint : Z; position : Z;
  position_setpoint : Z; torque : Z; encoder : Z; index_position : Z; index_count : Z }.

(** The messages of cvra.motor.feedback, fields in the order of uavcan_streams.cpp 125-175. *)
Inductive message :=
| CurrentPID (current setpoint voltage : Z)
| VelocityPID (velocity setpoint : Z)
| PositionPID (position setpoint : Z)
| MotorEncoderPosition (raw : Z)
| Index (position count : Z)
| MotorPosition (position velocity : Z)
| MotorTorque (torque position : Z).

(** uavcan_streams.cpp 18-24. *)
Record streams := mkstreams {
  s_current : EncModel.stream_config; s_velocity : EncModel.stream_config; s_position : EncModel.stream_config;
  s_index : EncModel.stream_config; s_enc_pos : EncModel.stream_config; s_motor_pos : EncModel.stream_config;
  s_motor_torque : EncModel.stream_config }.
Definition off : EncModel.stream_config := EncModel.mkStream false 0 0.
Definition streams0 : streams := mkstreams off off off off off off off.

(** The names of uavcan_streams.cpp 56-63. *)
Definition n_streams : str := [115; 116; 114; 101; 97; 109; 115].
Definition n_current : str := [99; 117; 114; 114; 101; 110; 116].
Definition n_velocity : str := [118; 101; 108; 111; 99; 105; 116; 121].
Definition n_position : str := [112; 111; 115; 105; 116; 105; 111; 110].
Definition n_index : str := [105; 110; 100; 101; 120].
Definition n_enc_pos : str := [101; 110; 99; 95; 112; 111; 115].
Definition n_motor_pos : str := [109; 111; 116; 111; 114; 95; 112; 111; 115].
Definition n_motor_torque : str := [109; 111; 116; 111; 114; 95; 116; 111; 114; 113; 117; 101].

(** uavcan_streams.cpp 56-63: the declarations made by uavcan_streams_start in the tree with root [r]; [n] is the
    number the new namespace gets. The publishers (65-107) are not modelled. *)
Definition start_ops (r n : nat) : list op :=
  [ODeclNs (Some r) n_streams;
   ODecl n n_current (DScalar (Some 0)); ODecl n n_velocity (DScalar (Some 0)); ODecl n n_position (DScalar (Some 0));
   ODecl n n_index (DScalar (Some 0)); ODecl n n_enc_pos (DScalar (Some 0)); ODecl n n_motor_pos (DScalar (Some 0));
   ODecl n n_motor_torque (DScalar (Some 0))].

Section Float.
(** The number given by the bits of a float; nothing is assumed about it. (A NaN, for which the comparison of line
    44 is false, is as 0; an infinity as any large number.) *)
Variable num : Z -> Q.

Definition lift {A} (r : CRes.res A) : res A := match r with CRes.OK a => OK a | _ => BAD end.

(** uavcan_node.h 10 *)
Definition UAVCAN_SPIN_FREQUENCY : Q := 100.

(** uavcan_streams.cpp 40-50 *)
Definition stream_update_from_parameters (h : heap) (conf : EncModel.stream_config) (p : nat) : res (heap * EncModel.stream_config) :=
  try (h, g) := parameter_get h p KScalar in
  match g with
  | GScalar f =>
      if negb (Qle_bool (num f) 0)
      then try conf := lift (EncModel.stream_set_prescaler conf (num f) UAVCAN_SPIN_FREQUENCY) in
           OK (h, EncModel.stream_enable conf true)
      else OK (h, EncModel.stream_enable conf false)
  | _ => BAD
  end.

(** uavcan_streams.cpp 114-122; [n] is the namespace and [p] the first of the parameters. *)
Definition update_all (h : heap) (n p : nat) (s : streams) : res (heap * streams) :=
  try b := namespace_contains_changed h n in
  if b : bool then
    try (h, c1) := stream_update_from_parameters h (s_current s) p in
    try (h, c2) := stream_update_from_parameters h (s_velocity s) (p + 1) in
    try (h, c3) := stream_update_from_parameters h (s_position s) (p + 2) in
    try (h, c4) := stream_update_from_parameters h (s_index s) (p + 3) in
    try (h, c5) := stream_update_from_parameters h (s_enc_pos s) (p + 4) in
    try (h, c6) := stream_update_from_parameters h (s_motor_pos s) (p + 5) in
    try (h, c7) := stream_update_from_parameters h (s_motor_torque s) (p + 6) in
    OK (h, mkstreams c1 c2 c3 c4 c5 c6 c7)
  else OK (h, s).

(** One block of uavcan_streams.cpp 125-175. *)
Definition send (c : EncModel.stream_config) (m : message) : EncModel.stream_config * list message :=
  let (c, b) := EncModel.stream_should_send c in (c, if b then [m] else []).

(** uavcan_streams.cpp 110-176 *)
Definition uavcan_streams_spin (h : heap) (n p : nat) (s : streams) (i : inputs) : res (heap * streams * list message) :=
  try (h, s) := update_all h n p s in
  let (c1, m1) := send (s_current s) (CurrentPID (current i) (current_setpoint i) (voltage i)) in
  let (c2, m2) := send (s_velocity s) (VelocityPID (velocity i) (velocity_setpoint i)) in
  let (c3, m3) := send (s_position s) (PositionPID (position i) (position_setpoint i)) in
  let (c5, m5) := send (s_enc_pos s) (MotorEncoderPosition (encoder i)) in
  let (c4, m4) := send (s_index s) (Index (index_position i) (index_count i)) in
  let (c6, m6) := send (s_motor_pos s) (MotorPosition (position i) (velocity i)) in
  let (c7, m7) := send (s_motor_torque s) (MotorTorque (torque i) (position i)) in
  OK (h, mkstreams c1 c2 c3 c4 c5 c6 c7, m1 ++ m2 ++ m3 ++ m5 ++ m4 ++ m6 ++ m7).

(** What happens to the board: a frequency is written, the tree is used otherwise (by the other modules, the
    parameter server), or a spin. *)
Inductive event := Write (k : nat) (v : Z) | Other (o : op) | Spin (i : inputs).
Definition step (n p : nat) (st : heap * streams) (e : event) : res (heap * streams * list (list message)) :=
  let (h, s) := st in
  match e with
  | Write k v => try h := parameter_set h (p + k) (AScalar v) in OK (h, s, [])
  | Other o => try h := run_op h o in OK (h, s, [])
  | Spin i => try (h, s, m) := uavcan_streams_spin h n p s i in OK (h, s, [m])
  end.
(** The messages of each spin, in order. *)
Fixpoint exec (n p : nat) (st : heap * streams) (evs : list event) : res (heap * streams * list (list message)) :=
  match evs with
  | [] => OK (st, [])
  | e :: evs =>
      try (st, a) := step n p st e in
      try (st, b) := exec n p st evs in
      OK (st, a ++ b)
  end.
End Float.
