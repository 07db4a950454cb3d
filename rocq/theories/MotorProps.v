(** Property theorems for C12, C13 and C58 (master-firmware/src/can: motor manager, motor drivers,
    feedback streams, actuator boards). *)
From Coq Require Import ZArith List Bool Arith Lia.
From Verif Require Import CBase EnumModel EnumSpec MotorModel MotorSpec MotorProofs.
Import ListNotations.
Local Open Scope Z_scope.

(** C12: creation, after any history of calls, bus announcements and feedback messages. NULL if the id
    is known or the manager full, and then no driver changes; otherwise a new driver is appended. *)
Theorem motor_create : forall max cap h s, (max <= cap)%nat -> Forall op_ok h -> (length s <= MOTOR_ID_MAX_LEN)%nat ->
  exists m res m' r, mrun (manager_init max cap, []) h = Some (m, res) /\ create_driver m s = Some (m', r) /\
  let known := map m_name (motors (spec_run max h)) in
  length (drivers m) = length known /\ (length known <= max)%nat /\
  (In s known \/ length known = max -> r = None /\ drivers m' = drivers m) /\
  (~ In s known -> (length known < max)%nat ->
     r = Some (length known) /\ exists d, drivers m' = drivers m ++ [d] /\ d_id d = s /\ control_mode d = MODE_DISABLED /\ change_status d = 0).
Proof. exact create_l. Qed.
Print Assumptions motor_create.

(** C12, C13: every driver's mode and setpoint are those of the last setpoint given to its exact id. *)
Theorem motor_setpoints : forall max cap h, (max <= cap)%nat -> Forall op_ok h ->
  exists m res, mrun (manager_init max cap, []) h = Some (m, res) /\
  length (drivers m) = length (motors (spec_run max h)) /\
  forall i d mo, nth_error (drivers m) i = Some d -> nth_error (motors (spec_run max h)) i = Some mo ->
    d_id d = m_name mo /\ control_mode d = mode_of (m_sets mo) /\ setpt d = value_of (m_sets mo).
Proof. exact setpoints_l. Qed.
Print Assumptions motor_setpoints.

(** C12: feedback of a board only reaches the streams of the motor which announced that CAN id, each value the stream of
    its quantity. *)
Theorem motor_feedback_dispatch : forall max cap h c f, (max <= cap)%nat -> Forall op_ok h ->
  exists m res m', mrun (manager_init max cap, []) h = Some (m, res) /\ on_feedback m c f = Some m' /\
  let st := spec_run max h in
  ((exists i mo, nth_error (motors st) i = Some mo /\ announced (log st) (m_name mo) = Some c /\
     forall j d, nth_error (drivers m) j = Some d -> exists d', nth_error (drivers m') j = Some d' /\ (j <> i -> d' = d) /\ (j = i -> has_received d f d')) \/
   ((forall mo, In mo (motors st) -> announced (log st) (m_name mo) <> Some c) /\ m' = m)).
Proof. exact feedback_l. Qed.
Print Assumptions motor_feedback_dispatch.

(** C13: a stream is flagged iff it was written after its last read, its value is the last written. *)
Theorem motor_stream_fresh : forall h s, 0 <= s < STREAMS_NB_VALUES ->
  let d := srun (driver_init []) h in
  Z.testbit (get_stream_change_status d) s = fresh h s /\
  snd (get_and_clear_stream_value d s) = match last_write h s with Some v => v | None => 0 end.
Proof.
  intros h s Hs d. destruct (stream_inv h s Hs) as [A B]. split; [exact A|].
  unfold get_and_clear_stream_value. destruct (Z.ltb_spec s STREAMS_NB_VALUES); [exact B|lia].
Qed.
Print Assumptions motor_stream_fresh.

(** C13: no other flag is ever raised; streams and setpoints do not interfere. *)
Theorem motor_stream_no_other_flags : forall h s, STREAMS_NB_VALUES <= s ->
  Z.testbit (get_stream_change_status (srun (driver_init []) h)) s = false.
Proof. exact change_status_bits. Qed.
Print Assumptions motor_stream_no_other_flags.
Theorem motor_stream_keeps_setpoint : forall h d, control_mode (srun d h) = control_mode d /\ setpt (srun d h) = setpt d.
Proof. exact srun_setpt. Qed.
Print Assumptions motor_stream_keeps_setpoint.
Theorem motor_setpoint_keeps_streams : forall d sp,
  change_status (driver_set d sp) = change_status d /\ values (driver_set d sp) = values d.
Proof. intros d sp. destruct sp; split; reflexivity. Qed.
Print Assumptions motor_setpoint_keeps_streams.

Example motor_stream_example : let h := [Write 3 7; Write 5 8; Read 3; Write 5 9] in
  fresh h 3 = false /\ fresh h 5 = true /\ last_write h 5 = Some 9 /\ change_status (srun (driver_init []) h) = 32.
Proof. repeat split. Qed.

Definition ex_ops : list mop :=
  [Create [97]; Create [98]; Board [98] 12; Set_ [98] (Torque 5); Create [97]; Feedback 12 (Index 77); Set_ [97] (Position 3); Set_ [99] Disable; Create [99]].
Example motor_ops_ok : Forall op_ok ex_ops.
Proof. repeat constructor; cbn; unfold MOTOR_ID_MAX_LEN; lia. Qed.
Example motor_example : option_map (fun r => (map (fun d => (control_mode d, setpt d, change_status d)) (drivers (fst r)), snd r))
    (mrun (manager_init 2 3, []) ex_ops)
  = Some ([(MODE_POSITION, 3, 0); (MODE_TORQUE, 5, 128)], [([99], None); ([97], None); ([98], Some 1%nat); ([97], Some 0%nat)]).
Proof. reflexivity. Qed.

(** C12 fails for ids longer than 24 characters: they are stored truncated, so that the same id can be
    created twice, and setpoints for it are lost. *)
Theorem motor_long_id_refuted : exists s m r1 r2 m' res, 
  mrun (manager_init 5 5, []) [Create s; Create s; Set_ s (Position 1)] = Some (m, [(s, Some r2); (s, Some r1)]) /\
  mrun (manager_init 5 5, []) [Create s; Create s] = Some (m', res) /\ drivers m = drivers m' /\ r1 <> r2.
Proof.
  exists (repeat 97 25). do 5 eexists. split; [reflexivity|]. split; [reflexivity|]. split; [reflexivity|]. discriminate.
Qed.
Print Assumptions motor_long_id_refuted.

(** C58: commands for an actuator board are sent only once its CAN id is known and legal, go to that id,
    switch each solenoid with its pump and give the servo position selected. *)
Theorem actuator_command : forall cap h s drv, names_distinct h -> ids_ok h -> (length s <= ACTUATOR_NAME_MAX_LENGTH)%nat ->
  In (s, drv) (accepted cap h) ->
  exists en, erun (enumerator_init cap) h = Some en /\
  forall a table reef high duty, can_name a = firstn ACTUATOR_NAME_MAX_LENGTH s ->
   match announced h s with
   | Some c => if 127 <? c then prepare_uavcan_msg a en table reef high duty = Some None
               else exists cmd, prepare_uavcan_msg a en table reef high duty = Some (Some cmd) /\ c_node cmd = c /\
                 c_solenoid0 cmd = pump0 a /\ c_solenoid1 cmd = pump1 a /\
                 c_pump0 cmd = (if pump0 a then duty else 0) /\ c_pump1 cmd = (if pump1 a then duty else 0) /\
                 c_servo cmd = match a_position a with TABLE_PICKUP => table | REEF_PICKUP => reef | POSITION_HIGH => high end
   | None => prepare_uavcan_msg a en table reef high duty = Some None
   end.
Proof. exact actuator_l. Qed.
Print Assumptions actuator_command.

Example actuator_example : exists en a en', actuator_init (enumerator_init 2) [102; 108] 5 = Some (en, a) /\
  update_node_info en [102; 108] 31 = Some en' /\
  prepare_uavcan_msg {| can_name := can_name a; a_position := REEF_PICKUP; pump0 := true; pump1 := false |} en' 1 2 3 9
  = Some (Some {| c_node := 31; c_pump0 := 9; c_pump1 := 0; c_solenoid0 := true; c_solenoid1 := false; c_servo := 2 |}).
Proof. do 3 eexists. split; [reflexivity|]. split; reflexivity. Qed.

(** C58 fails for names longer than 32 characters: registered in full, looked up truncated. *)
Theorem actuator_long_name_refuted : exists s en a en', actuator_init (enumerator_init 2) s 5 = Some (en, a) /\
  update_node_info en s 31 = Some en' /\ get_can_id en' s = Some 31 /\
  forall t r hi du, prepare_uavcan_msg a en' t r hi du = Some None.
Proof.
  exists (repeat 97 33). do 3 eexists. split; [reflexivity|]. split; [reflexivity|]. split; reflexivity.
Qed.
Print Assumptions actuator_long_name_refuted.
