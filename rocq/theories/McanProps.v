(** The CAN node of the master: setpoints on the bus, LEDs, emergency stop (C77-C80). *)
From Coq Require Import ZArith List Bool Arith Lia.
From Verif Require Import CBase EnumModel EnumSpec MotorModel MotorSpec McanModel McanSpec McanProofs McanProofs2.
Import ListNotations.
Local Open Scope Z_scope.

(** C77. Every history is defined. Whatever comes next, at most one motor is served, only by the CAN thread, and it is sent
    nothing or its last setpoint, under the id of the board which bears its name. *)
Theorem mcan_sends : forall max cap h, (max <= cap)%nat -> Forall event_ok h ->
  exists s o, run (sys_init max cap) h = Some (s, o) /\
  forall e, event_ok e -> exists s' o', step s e = Some (s', o') /\
    (o' = [] \/ e = Can /\ exists i, (i < length (motors (world max h)))%nat /\ o' = [(i, wanted (world max h) i)]).
Proof.
  intros max cap h HM F. destruct (run_l max cap h HM _ _ (winv_init max cap) F) as (s & o & E & I & _). exists s, o. split; [exact E|].
  intros e He. destruct (step_l _ _ _ _ _ HM I He) as (s' & o' & E' & _ & R). exists s', o'. split; [exact E'|].
  destruct e; cbn [is_can] in R; try (left; apply R). pose proof (w_ph _ _ _ _ I) as P. unfold can_result in R.
  destruct (ph s) as [|i n|i n]; try (left; apply R). destruct (Nat.ltb_spec i n) as [Hlt|]; [|left; apply R]. right. split; [reflexivity|].
  exists i. cbn [phase_ok] in P. split; [|apply R]. change (world max h) with (from max {| motors := []; log := [] |} h). lia.
Qed.
Print Assumptions mcan_sends.

(** C77. The drivers of two motors never use the same board. *)
Theorem mcan_ids_distinct : forall max cap h s o i j c, (max <= cap)%nat -> Forall event_ok h -> run (sys_init max cap) h = Some (s, o) ->
  nth_error (ids s) i = Some c -> nth_error (ids s) j = Some c -> c <> DRIVER_CAN_ID_NOT_SET -> i = j.
Proof.
  intros max cap h s o i j c HM F E. destruct (run_l max cap h HM _ _ (winv_init max cap) F) as (s0 & o0 & E0 & I & _).
  rewrite E in E0. injection E0 as <- <-. now apply distinct_l with (1 := I).
Qed.
Print Assumptions mcan_ids_distinct.

(** C77. Once the timer has fired, under every interleaving with the other threads, the callback ends within 2n+3 steps of the
    CAN thread and has served each of the n motors exactly once, in the order of their creation. *)
Theorem mcan_cycle : forall max cap h h' s o, (max <= cap)%nat -> Forall event_ok (h ++ Can :: h') ->
  run (sys_init max cap) h = Some (s, o) -> ph s = Idle ->
  let n := length (motors (world max h)) in
  (2 * n + 3 <= can_steps (Can :: h'))%nat ->
  exists h1 h2 s1 o1, Can :: h' = h1 ++ h2 /\ (1 <= can_steps h1 <= 2 * n + 3)%nat /\ run s h1 = Some (s1, o1) /\ ph s1 = Idle /\
    map fst o1 = seq 0 n.
Proof. intros max cap h h' s o HM F E P n L. exact (cycle_l max cap h (Can :: h') s o HM F E P L Logic.I). Qed.
Print Assumptions mcan_cycle.

(** C78. In such a period, the board of each motor takes exactly the last setpoint of that motor, once - nothing if the motor was
    never commanded or is disabled - provided the motor is not commanded during the period. *)
Theorem mcan_delivered : forall max cap h h' s o, (max <= cap)%nat -> Forall event_ok (h ++ Can :: h') ->
  run (sys_init max cap) h = Some (s, o) -> ph s = Idle ->
  let w := world max h in
  (2 * length (motors w) + 3 <= can_steps (Can :: h'))%nat ->
  exists h1 h2 s1 o1, Can :: h' = h1 ++ h2 /\ run s h1 = Some (s1, o1) /\ ph s1 = Idle /\
    forall i mo c, nth_error (motors w) i = Some mo -> announced (log w) (m_name mo) = Some c ->
      (forall sp, ~ In (Setpoint (m_name mo) sp) h1) ->
      flat_map (board_handler c) (sent o1) = match m_sets mo with [] | Disable :: _ => [] | sp :: _ => [sp] end.
Proof.
  intros max cap h h' s o HM F E P w L.
  destruct (cycle_l max cap h (Can :: h') s o HM F E P L Logic.I) as (h1 & h2 & s1 & o1 & EH & _ & E1 & P1 & S1).
  exists h1, h2, s1, o1. split; [exact EH|]. split; [exact E1|]. split; [exact P1|]. intros i mo c Hi A NS.
  rewrite EH in F. rewrite app_assoc in F. apply Forall_app in F as [F _].
  rewrite (delivered_l max cap h h1 s o s1 o1 i (m_name mo) c (m_sets mo) HM F E E1).
  - destruct (m_sets mo) as [|[]]; reflexivity.
  - rewrite S1. apply seq_NoDup.
  - rewrite S1. apply in_seq. split; [lia|]. cbn. apply nth_error_Some. fold w. congruence.
  - split; [|exact A]. destruct mo. exact Hi.
  - exact NS.
Qed.
Print Assumptions mcan_delivered.

(** C78. A board which bears the name of no motor is never commanded. *)
Theorem mcan_foreign : forall max cap h s o c, (max <= cap)%nat -> Forall event_ok h -> run (sys_init max cap) h = Some (s, o) ->
  (forall mo, In mo (motors (world max h)) -> announced (log (world max h)) (m_name mo) <> Some c) ->
  flat_map (board_handler c) (sent o) = [].
Proof.
  intros max cap h s o c HM F E N. eapply foreign_l; eauto. apply not_true_is_false. intro T. unfold taken in T.
  apply existsb_exists in T as (mo & IN & T). apply (N mo IN). destruct (announced _ _) as [c'|]; [|discriminate]. apply Z.eqb_eq in T. now subst.
Qed.
Print Assumptions mcan_foreign.

(** Two motors "a" and "b", boards 5 and 9; "a" is moved, "b" is disabled, while "c" is created during the period. *)
Definition demo_h : list event :=
  [Creation [97]; Creation [98]; NodeInfo [98] 9; Setpoint [97] (Velocity 1); NodeInfo [97] 5; NodeInfo [120] 6; Setpoint [97] (Position 7);
   Setpoint [98] (Torque 3); Setpoint [98] Disable].
Definition demo_h' : list event := [Can; Creation [99]; Can; Setpoint [98] (Voltage 4); Can; Can; NodeInfo [99] 7; Can; Can].
Example mcan_demo :
  match run (sys_init 3 3) demo_h with
  | Some (s, o) => o = [] /\ ph s = Idle /\
      match run s demo_h' with
      | Some (s1, o1) => o1 = [(0%nat, Some (MsgPosition 5 7)); (1%nat, Some (MsgVoltage 9 4))]
      | None => False
      end
  | None => False
  end /\ announced (log (world 3 demo_h)) [97] = Some 5.
Proof. vm_compute. auto. Qed.
Example mcan_demo_ok : Forall event_ok (demo_h ++ demo_h').
Proof.
  unfold demo_h, demo_h'. cbn [app].
  repeat match goal with |- Forall _ (_ :: _) => apply Forall_cons; [unfold event_ok, MOTOR_ID_MAX_LEN; cbn; first [exact Logic.I | lia]|] end.
  constructor.
Qed.

(** C79. With distinct registered names, the ready LED is on exactly when each of them has been heard under an id of its own. *)
Theorem mcan_ready_led : forall cap regs h, NoDup regs -> (length regs <= cap)%nat -> regs <> [] -> Forall (fun i => 1 <= snd i <= 127) h ->
  exists en st, register (enumerator_init cap) regs = Some en /\ info_run (en, false) h = Some st /\
    (snd st = true <-> forall s, In s regs -> exists c, id_of (heard regs h) s = Some c).
Proof.
  intros cap regs h ND LC NE F. destruct (led_l cap regs h ND LC NE F) as (en & st & E & E' & R). exists en, st.
  split; [exact E|]. split; [exact E'|]. rewrite R. unfold all_known. rewrite forallb_forall. split.
  - intros H s Hs. specialize (H s Hs). destruct (id_of _ s); [eauto|discriminate].
  - intros H s Hs. destruct (H s Hs) as [c ->]. reflexivity.
Qed.
Print Assumptions mcan_ready_led.
Example mcan_ready_demo :
  (forall s, In s [[97]; [98]] -> exists c, id_of (heard [[97]; [98]] [([98], 9); ([97], 9); ([120], 4); ([97], 5)]) s = Some c) /\
  id_of (heard [[97]; [98]] [([98], 9); ([97], 9)]) [97] = None.
Proof. split; [|reflexivity]. intros s [<-|[<-|[]]]; eexists; reflexivity. Qed.

(** C79. After every history of statuses the power LED is on exactly when the last status of some node is not OK and reports a
    missing supply. *)
Theorem mcan_power_led : forall h,
  power_led (fold_left (fun m e => on_status m (fst e) (snd e)) h []) = true <->
  exists src st, last_status h src = Some st /\ health st <> 0 /\ Z.land (code st) 4 <> 0.
Proof.
  intro h. change (fold_left _ h []) with (store h). unfold power_led. rewrite existsb_exists. split.
  - intros ([src st] & IN & H). apply andb_true_iff in H as [H1 H2]. apply store_in in IN. exists src, st. cbn [snd] in *.
    split; [exact IN|]. split; apply Z.eqb_neq; now apply negb_true_iff.
  - intros (src & st & L & H1 & H2). exists (src, st). split; [now apply store_in|]. cbn [snd]. apply andb_true_iff.
    split; apply negb_true_iff; now apply Z.eqb_neq.
Qed.
Print Assumptions mcan_power_led.
(** C79. A motor board whose supply is low lights it as soon as its status arrives. *)
Theorem mcan_board_power : forall h src st, power_led (fold_left (fun m e => on_status m (fst e) (snd e)) (h ++ [(src, board_status st true true)]) []) = true.
Proof.
  intros h src st. apply mcan_power_led. exists src, (board_status st true true). split; [|split; discriminate].
  unfold last_status. rewrite fold_left_app. cbn [fold_left fst snd]. now rewrite Z.eqb_refl.
Qed.
Print Assumptions mcan_board_power.
(** C79. It goes off again only when that board's supply is back and no other board misses its own. *)
Theorem mcan_power_back : forall h src st, 
  power_led (fold_left (fun m e => on_status m (fst e) (snd e)) (h ++ [(src, board_status st true false)]) []) = true <->
  exists src' st', src' <> src /\ last_status h src' = Some st' /\ health st' <> 0 /\ Z.land (code st') 4 <> 0.
Proof.
  intros h src st. rewrite mcan_power_led. unfold last_status. setoid_rewrite fold_left_app. cbn [fold_left fst snd board_status]. split.
  - intros (src' & st' & L & H1 & H2). destruct (Z.eqb_spec src src') as [->|N].
    + injection L as <-. cbn in H1. congruence.
    + exists src', st'. auto.
  - intros (src' & st' & N & L & H). exists src', st'. split; [|exact H]. replace (src =? src') with false; [exact L|]. symmetry. apply Z.eqb_neq. congruence.
Qed.
Print Assumptions mcan_power_back.

(** C80. The master should end when an EmergencyStop message arrives. It never does: the subscriber is destroyed when
    emergency_stop_init returns. *)
Theorem mcan_estop_refuted : forall h, fold_left (on_message subscriptions) (h ++ [T_EmergencyStop]) false = false.
Proof. intro h. apply never_ends. Qed.
Print Assumptions mcan_estop_refuted.
(** With a static subscriber it would, after every history. *)
Theorem mcan_estop_static : forall h,
  fold_left (on_message (subscriptions ++ after_return [(Static, T_EmergencyStop)])) (h ++ [T_EmergencyStop]) false = true.
Proof. intro h. rewrite fold_left_app. cbn [fold_left]. unfold on_message. rewrite existsb_app. cbn. rewrite ?orb_true_r. reflexivity. Qed.
Print Assumptions mcan_estop_static.
(** A motor board reboots exactly on the first such message. *)
Theorem mcan_board_estop : forall h, fold_left (on_message board_subscriptions) h false = true <-> In T_EmergencyStop h.
Proof.
  intro h. induction h as [|t h IH] using rev_ind; [cbn; intuition discriminate|]. rewrite fold_left_app, in_app_iff. cbn [fold_left].
  unfold on_message at 1. rewrite orb_true_iff, IH. cbn [board_subscriptions after_return flat_map fst snd app existsb].
  destruct t; cbn; intuition discriminate.
Qed.
Print Assumptions mcan_board_estop.
