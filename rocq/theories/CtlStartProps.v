(** The motor board at power-up, and the parts around the control laws: PID and thermal model after
    initialisation, velocity filter over a history, bridge between triggers, analog inputs. *)
From Coq Require Import ZArith Reals List Bool Lia Lra.
From Flocq Require Import Core IEEE754.BinarySingleNaN.
From Verif Require Import CBase CRes FloatModel FloatSpec FloatProofs PidModel PidSpec PidProofs PidProps
  TimestampModel CtlModel CtlSpec CtlProofs CtlProps CtlLawSpec CtlLawProps.
Import ListNotations.
Local Open Scope R_scope.

(** * A new PID controller *)

Lemma pid_init_exact : pid_init exact =
  {| kp := real 1; ki := real 0; kd := real 0; integrator := real 0; integrator_limit := Some PInf;
     previous_error := real 0; frequency := real 1 |}.
Proof. unfold pid_init. rewrite !int_real. reflexivity. Qed.

(** It has accumulated nothing, has no limit and runs at 1 Hz: with gains it follows the textbook law. *)
Theorem pid_new_law gp gi gd es e :
  snd (pid_process exact (pid_run exact (pid_init exact)
    (SetGains exact (real gp) (real gi) (real gd) :: map (fun e => Process exact (real e)) es)) (real e)) =
  real (pid_law gp gi gd 1 (sum es + e) (last es 0) e).
Proof.
  unfold pid_run. cbn [fold_left pid_step]. fold (pid_run exact).
  rewrite pid_init_exact. cbn [pid_set_gains kp ki kd integrator integrator_limit previous_error frequency].
  etransitivity; [apply (pid_output_is_law gp gi gd 1 0 0 es e); lra|]. now rewrite Rplus_0_l.
Qed.

Theorem pid_new_law_rate gp gi gd f es e : f <> 0 ->
  snd (pid_process exact (pid_run exact (pid_init exact)
    (SetGains exact (real gp) (real gi) (real gd) :: SetFrequency exact (real f) ::
     map (fun e => Process exact (real e)) es)) (real e)) =
  real (pid_law gp gi gd f (sum es + e) (last es 0) e).
Proof.
  intro Hf. unfold pid_run. cbn [fold_left pid_step]. fold (pid_run exact).
  rewrite pid_init_exact. cbn [pid_set_gains pid_set_frequency kp ki kd integrator integrator_limit previous_error frequency].
  etransitivity; [apply (pid_output_is_law gp gi gd f 0 0 es e); lra|]. now rewrite Rplus_0_l.
Qed.

(** Before gains are set, it is proportional with gain one, whatever it was given. *)
Theorem pid_new_proportional es e :
  snd (pid_process exact (pid_run exact (pid_init exact) (map (fun e => Process exact (real e)) es)) (real e)) =
  real (- e).
Proof.
  rewrite pid_init_exact. rewrite (pid_output_is_law 1 0 0 1 0 0 es e) by lra.
  f_equal. unfold pid_law. field.
Qed.

(** * The thermal model starts at ambient temperature *)

Theorem thermal_new tmax r c g :
  thermal (motor_protection_init exact (real tmax) (real r) (real c) (real g)) 25 tmax r c g.
Proof. unfold motor_protection_init. rewrite !int_real. repeat split. Qed.

Theorem thermal_from_cold currents tmax r c g h imin imax :
  0 < r -> 0 < c -> 0 < g -> 0 <= h <= r * c -> imin <= 0 <= imax ->
  Forall (fun i => imin <= i <= imax) currents ->
  exists t, temp _ (heat (motor_protection_init exact (real tmax) (real r) (real c) (real g)) h currents) = real t /\
    25 + r * g * imin <= t <= 25 + r * g * imax.
Proof.
  intros Pr Pc Pg Hh Hi H. eapply thermal_range; eauto using thermal_new.
  assert (0 < r * g) by nra. nra.
Qed.

(** * The filtered velocity over a history *)

Lemma cascade_keeps_velocity M (k : cascade M) : velocity _ (pid_cascade_control M k) = velocity _ k.
Proof.
  unfold pid_cascade_control.
  set (P := if position_control_enabled _ _ then _ else _). destruct P as [p1 p2].
  set (V := if velocity_control_enabled _ _ then _ else _). destruct V as [[[v1 v2] v3] v4]. reflexivity.
Qed.

Theorem velocity_history : exists a b, is_tenth a b /\
  forall t es c vs, control_run exact (control_init exact t) es = OK c ->
  velocity_readings (rev es) = map real vs ->
  velocity _ (ctrl _ c) = real (smoothed a b vs).
Proof.
  exists tenth9, tenth1. split; [apply near_consts|]. intros t es.
  induction es as [|e es IH] using rev_ind; intros c vs H R.
  - injection H as <-. destruct vs; [|discriminate]. cbn -[of_int]. apply int_real.
  - rewrite control_run_snoc in H. destruct (control_run exact (control_init exact t) es) as [c0|] eqn:E0; [|discriminate].
    cbn [rbind] in H. rewrite rev_unit in R. destruct e as [r now|p|i]; cbn [control_step] in H.
    + injection H as <-. cbn [velocity_readings] in R. rewrite <- (IH c0 vs eq_refl R). destruct r; reflexivity.
    + injection H as <-. cbn [velocity_readings] in R. rewrite <- (IH c0 vs eq_refl R).
      destruct p as [w| w| | | | | | ]; try destruct w; reflexivity.
    + cbn [velocity_readings] in R. destruct vs as [|v vs]; [discriminate|]. injection R as Rv R.
      specialize (IH c0 vs eq_refl R). cbn [smoothed].
      assert (Q : velocity _ (measured exact c0 i) = real (tenth9 * smoothed tenth9 tenth1 vs + tenth1 * v)).
      { unfold measured. cbn [velocity]. rewrite IH, Rv. change (narrow exact) with (fun x : num (F exact) => x).
        change (widen exact) with (fun x : num (F exact) => x). cbv beta. change (D exact) with (F exact).
        rewrite !lit_real, !mul_real, add_real. f_equal. unfold tenth9, tenth1.
        change (Z.pow_pos 2 53) with 9007199254740992%Z. change (Z.pow_pos 2 56) with 72057594037927936%Z. ring. }
      rewrite <- Q. clear - H. unfold control_round in H. destruct (_ || _).
      * destruct (set_motor_voltage _ _ _); [|discriminate]. injection H as <-. reflexivity.
      * destruct (setpoint_compute _ _ _ _ _) as [ip' s]. destruct (set_motor_voltage _ _ _); [|discriminate].
        injection H as <-. cbn [ctrl]. now rewrite cascade_keeps_velocity.
Qed.

(** * Before the first request *)

Lemma idle_state t es c : Forall no_request es -> control_run ieee (control_init ieee t) es = OK c ->
  mode _ (ip _ c) = MTorque /\ setpt_torque _ (ip _ c) = of_int ieee 0.
Proof.
  intro N. revert c. induction es as [|e es IH] using rev_ind; intros c H.
  - injection H as <-. split; reflexivity.
  - apply Forall_app in N as [N Ne]. apply Forall_inv in Ne. rewrite control_run_snoc in H.
    destruct (control_run ieee (control_init ieee t) es) as [c0|] eqn:E0; [|discriminate].
    specialize (IH N c0 eq_refl) as [Im It]. cbn [rbind] in H. destruct e as [r now|p|i]; cbn [control_step] in H.
    + destruct Ne.
    + injection H as <-. destruct p as [w| w| | | | | | ]; try destruct w; split; assumption.
    + unfold control_round in H. destruct (_ || _).
      * destruct (set_motor_voltage _ _ _); [|discriminate]. injection H as <-. split; assumption.
      * unfold setpoint_compute in H. rewrite Im in H.
        destruct (set_motor_voltage _ _ _); [|discriminate]. injection H as <-. split; assumption.
Qed.

(** Until something is requested the motor is asked for no torque: the current setpoint of every round is
    zero, and neither position nor velocity are controlled, whatever is measured or configured. *)
Theorem idle_until_requested t es i c0 c tl cl cst :
  Forall no_request es -> control_run ieee (control_init ieee t) es = OK c0 ->
  control_round ieee c0 i = OK c ->
  battery_connected (in_battery _ i) ->
  lt (F ieee) (battery_volts ieee (in_battery _ i)) (low_batt_th _ c0) = false ->
  (microseconds (last_setpoint_update _ c0) (in_now _ i) <= 300000)%Z ->
  is_limit (lim_torque (configured (rev es))) tl -> is_limit (lim_current (configured (rev es))) cl ->
  value (motor_current_constant _ (ctrl _ c0)) = Some (Real cst) ->
  value (current_setpoint _ (ctrl _ c)) = Some (Real 0) /\
  position_control_enabled _ (setpts _ (ctrl _ c)) = false /\
  velocity_control_enabled _ (setpts _ (ctrl _ c)) = false.
Proof.
  intros N H0 H B Hb Hm Ht Hc Hk. destruct (idle_state t es c0 N H0) as [Im It].
  pose proof (limits_in_force t es c0 H0) as L. rewrite <- L in Ht, Hc. unfold limits_of in Ht, Hc.
  cbn [lim_torque lim_current] in Ht, Hc.
  unfold control_round in H. rewrite Hb in H. rewrite fresh_accepted in H.
  2:{ split; [|exact Hm]. unfold microseconds. apply Z.mod_pos_bound. reflexivity. }
  cbn [orb] in H. unfold setpoint_compute in H. rewrite Im, It in H.
  destruct (set_motor_voltage _ _ _) as [p|]; cbn [rbind] in H; [|discriminate]. injection H as <-.
  cbn [ctrl]. unfold pid_cascade_control.
  cbn [with_setpts setpts position_control_enabled velocity_control_enabled current_setpoint feedforward_torque
       torque_limit current_limit motor_current_constant measured].
  split; [|split; reflexivity].
  set (z := add (F ieee) (of_int ieee 0) (of_int ieee 0)).
  assert (Vz : value z = Some (Real 0)) by (rewrite value_SF; replace (B2SF z) with (SpecFloat.S754_zero false) by (vm_compute; reflexivity); reflexivity).
  assert (Lim : forall x l b, value x = Some (Real 0) -> is_limit l b -> filter_limit_sym ieee x l = x).
  { intros x l b Vx [Vl Pl]. destruct (limit_sym_within x l (Real 0) b Vx Vl Pl) as (r & _ & _ & Q). apply Q.
    destruct b; cbn in Pl |- *; try contradiction; split; cbn; auto; lra. }
  rewrite (Lim z _ tl Vz Ht).
  assert (Vm : value (mul (F ieee) z (motor_current_constant _ (ctrl _ c0))) = Some (Real 0)).
  { change (mul (F ieee)) with (mul binary32). cbn [mul binary32 ieee_fmt].
    assert (B0 : Rabs (0 * cst) <= B2R (of_int ieee 1)).
    { rewrite Rmult_0_l, Rabs_R0, B2R_small by lia. lra. }
    rewrite (mul_value 24 128 _ _ z (motor_current_constant _ (ctrl _ c0)) (of_int ieee 1) 0 cst Vz Hk B0).
    rewrite Rmult_0_l, round_0; [reflexivity|apply valid_rnd_N]. }
  rewrite (Lim _ _ cl Vm Hc). exact Vm.
Qed.

(** The battery threshold at power-up: below 947 steps of the converter (5 V) the motor is not driven; from
    there on it may be. *)
Theorem startup_battery t raw : battery_connected raw ->
  lt (F ieee) (battery_volts ieee raw) (low_batt_th _ (control_init ieee t)) = (raw <? 947)%Z.
Proof.
  intros [H1 H2].
  assert (E : forallb (fun n => Bool.eqb (lt (F ieee) (battery_volts ieee (Z.of_nat n)) (of_int ieee 5)) (Z.of_nat n <? 947)%Z)
    (seq 0 4096) = true) by (vm_compute; reflexivity).
  rewrite forallb_forall in E. specialize (E (Z.to_nat raw)). rewrite Z2Nat.id in E by lia.
  apply eqb_prop, E, in_seq. lia.
Qed.

Theorem startup_low_battery t i : battery_connected (in_battery _ i) -> (in_battery _ i < 947)%Z ->
  exists c, control_round ieee (control_init ieee t) i = OK c /\ power_pwm _ c = 0%Z.
Proof.
  intros B H. apply safe_state_partial; [exact B|]. left. rewrite startup_battery by exact B.
  now apply Z.ltb_lt.
Qed.

(** A request that arrives before the first measurement starts from position and velocity zero, and the
    actuator is not taken as circular. *)
Theorem startup_rest t : start_position (control_init exact t) = real 0 /\
  start_velocity (control_init exact t) = real 0 /\ periodic_actuator _ (ctrl _ (control_init exact t)) = false.
Proof. unfold start_position, start_velocity. repeat split; apply (int_real 0). Qed.

(** * The bridge between triggers *)

Lemma bridge_keeps ps : forall b, notify b = false -> bridge_run b (map Period ps) = b.
Proof.
  induction ps as [|p ps IH]; intros b H; [reflexivity|].
  cbn [map bridge_run fold_left bridge_step]. rewrite H. now apply IH.
Qed.

(** At power-up nothing is applied before the first trigger. *)
Theorem bridge_starts_off ps : applied (bridge_run bridge_init (map Period ps)) = 0%Z.
Proof. rewrite bridge_keeps; reflexivity. Qed.

(** A trigger applies the duty cycle of the next period, and later ones do not change it. *)
Theorem bridge_holds_duty b p ps :
  applied (bridge_run b (Trigger false :: Period p :: map Period ps)) = p.
Proof.
  unfold bridge_run. cbn [fold_left]. fold (bridge_run (bridge_step (bridge_step b (Trigger false)) (Period p)) (map Period ps)).
  rewrite bridge_keeps; cbn [bridge_step notify]; unfold pwm_counter_reset, applied, PWM_PERIOD; cbn [recharge_flag];
    destruct (Z.leb_spec 0 p); cbn [ccr_power ccr_direction notify]; try reflexivity; lia.
Qed.

(** A trigger with a recharge: forwards it is like the other; backwards the second period applies the duty
    cycle, and later ones do not change it. *)
Theorem bridge_recharge_holds_duty b p q ps : (0 <= p -> 
  applied (bridge_run b (Trigger true :: Period p :: map Period ps)) = p)%Z /\
  (p < 0 -> applied (bridge_run b (Trigger true :: Period p :: Period q :: map Period ps)) = q)%Z.
Proof.
  unfold bridge_run. split; intro H; cbn [fold_left].
  - fold (bridge_run (bridge_step (bridge_step b (Trigger true)) (Period p)) (map Period ps)).
    rewrite bridge_keeps; cbn [bridge_step notify]; unfold pwm_counter_reset, applied, PWM_PERIOD; cbn [recharge_flag];
      destruct (Z.leb_spec 0 p); cbn [ccr_power ccr_direction notify]; try reflexivity; lia.
  - fold (bridge_run (bridge_step (bridge_step (bridge_step b (Trigger true)) (Period p)) (Period q)) (map Period ps)).
    assert (E : bridge_step (bridge_step b (Trigger true)) (Period p) =
      {| ccr_direction := DIRECTION_DC_RECHARGE; ccr_power := if (PWM_PERIOD + p - RECHARGE_CORRECTION <? 0)%Z then 0 else PWM_PERIOD + p - RECHARGE_CORRECTION;
         recharge_flag := false; notify := true |}).
    { cbn [bridge_step notify]. unfold pwm_counter_reset. cbn [recharge_flag]. destruct (Z.leb_spec 0 p); [lia|reflexivity]. }
    rewrite E. rewrite bridge_keeps; cbn [bridge_step notify]; unfold pwm_counter_reset, applied, PWM_PERIOD; cbn [recharge_flag];
      destruct (Z.leb_spec 0 q); cbn [ccr_power ccr_direction notify]; try reflexivity; lia.
Qed.

(** * The analog inputs *)

(** The other channels: the battery is the fourth sample and the auxiliary input the sum of the first and
    the third; with two samples of 12 bits, analog_get_auxiliary is between 0 and 1. *)
Theorem adc_inputs a samples n a' r : adc_callback a samples n = OK (a', r) ->
  exists x0 x1 x2 x3 rest, samples = x0 :: x1 :: x2 :: x3 :: rest /\ battery a' = x3 /\ aux a' = (x0 + x2)%Z.
Proof.
  unfold adc_callback. destruct (adc_sum _ _ _ _); [|discriminate]. cbn [rbind].
  destruct samples as [|x0 [|x1 [|x2 [|x3 rest]]]]; try discriminate.
  unfold get. cbn [nth_error some rbind]. intro H. injection H as <- _. repeat eexists.
Qed.

(** The measured current is that of the mean of the samples of its channel. *)
Theorem adc_current : exists k, amps_per_step k /\
  forall n a b k0, (111 < n)%nat -> (Z.of_nat n <= 4096)%Z -> (countdown a = (- Z.of_nat k0) mod 4)%Z ->
  length b = (4 * n)%nat -> Forall (fun x => 0 <= x < 4096)%Z b ->
  let first := if (k0 mod 4 =? 1)%nat then 111%nat else 0%nat in
  exists a', adc_callback a b n = OK (a', (k0 mod 4 =? 0)%nat) /\
    motor_current exact (accumulator a') (nb_samples a') =
    real (amps_from (IZR (zsum (channel1 b first n)) / INR (length (channel1 b first n))) k).
Proof.
  exists kA. split; [apply near_consts|]. intros n a b k0 Hn Hn2 Hc Hl Hb first.
  destruct (adc_measures [b] n a k0 Hn Hn2 Hc (Forall_cons _ (conj Hl Hb) (Forall_nil _)) 0 b eq_refl) as (a' & E & A).
  cbn [firstn fold_left rbind fst] in E. rewrite Nat.add_0_r in E, A. fold first in A. destruct A as [A1 A2].
  exists a'. split.
  - destruct (adc_callback a b n) as [x|]; [|discriminate]. cbn [rbind] in E. exact E.
  - rewrite A1, A2, INR_IZR_INZ. unfold motor_current, ADC_TO_AMPS.
    rewrite !int_real, div_real, sub_real, neg_real, lit_real, mul_real; [reflexivity|].
    apply not_0_IZR. unfold channel1. rewrite map_length, seq_length.
    unfold first. destruct (k0 mod 4 =? 1)%nat; lia.
Qed.

(** * Cases that meet the hypotheses *)

Definition new_stage : stage :=
  {| g_p := 1; g_i := 0; g_d := 0; rate := 2002; acc := 0; acc_max := PInf; before := 0 |}.
Definition new_loop : loop :=
  {| position_stage := new_stage; velocity_stage := new_stage; current_stage := new_stage;
     amps_per_torque := 1; max_velocity := PInf; max_torque := PInf; max_current := PInf; circular := false |}.

Lemma new_stage_ok : is_stage (pid_set_frequency exact (pid_init exact) (of_int exact 2002)) new_stage.
Proof. rewrite pid_init_exact, int_real. unfold is_stage, new_stage. cbn. repeat split; auto; lra. Qed.

(** The controller at power-up, and a round that reads 1000 samples of mean 2100 and a battery of 3000
    steps (15.8 V), for a torque of 3 requested 100 us before. *)
Example power_up_round :
  holds (control_init exact 0) new_loop 0 0 5 /\
  reads {| in_periodic := true; in_position := real 2; in_velocity := real 1; in_accu := 2100000; in_nb := 1000;
           in_battery := 3000; in_now := 100 |} 2 1 2100 3000 /\
  5 <= 3000 * kV /\ seconds 0 100 <= 0.3 /\
  demands (ip _ (control_request exact (control_init exact 0) (ReqTorque _ (real 3)) 0%Z)) (/ 2002) 100 (OnlyTorque 3) /\
  control_run ieee (control_init ieee 0) [] = OK (control_init ieee 0).
Proof.
  split; [|split; [|split; [|split; [|split]]]].
  - split; [|repeat split; apply int_real].
    pose proof new_stage_ok. unfold is_loop. cbn -[of_int pid_init pid_set_frequency is_stage].
    repeat (split; [first [assumption | split; [reflexivity|exact I] | apply int_real]|]). reflexivity.
  - repeat split; cbn; try lia; lra.
  - unfold kV. lra.
  - unfold seconds. replace (s32 (100 - 0)) with 100%Z by reflexivity. lra.
  - apply torque_demand.
  - reflexivity.
Qed.

(** A circular error of 4 radians is -2.28 radians. *)
Example circular_case : shortest 4 (4 - 2 * PI).
Proof.
  pose proof PI_4. pose proof (Rlt_trans _ _ _ Rlt_0_1 (Rlt_plus_1 1)).
  assert (2 < PI) by (pose proof PI2_1; lra).
  split; [apply Rabs_le; lra|]. exists 1%Z. lra.
Qed.

(** Approaching: far and slow pushes, far and fast cruises, near brakes. *)
Example approaches : approach (-100) 1 10 5 (1/10) 10 /\ approach (-100) 5 10 5 (1/10) 0 /\
  approach (-1/100) 0 10 5 (1/10) (- limit_to (Real 10) (0 / (1/10))).
Proof.
  split; [|split].
  - apply Push.
    + rewrite Rabs_left by lra. lra.
    + right. rewrite Rabs_left, Rabs_pos_eq by lra. lra.
    + lra.
    + auto.
  - apply Cruise; rewrite ?Rabs_left, ?Rabs_pos_eq by lra; lra.
  - apply Brake. left. rewrite Rabs_left by lra. lra.
Qed.

Print Assumptions stage_law.
Print Assumptions circular_error_shortest.
Print Assumptions cascade_law.
Print Assumptions round_law.
Print Assumptions voltage_law.
Print Assumptions position_demand.
Print Assumptions velocity_history.
Print Assumptions idle_until_requested.
Print Assumptions startup_battery.
Print Assumptions adc_current.
