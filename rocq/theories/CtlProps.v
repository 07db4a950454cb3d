(** Properties of the motor controller: limits (C34), setpoint interpolation (C35), thermal protection
    (C36) and current measurement (C60). *)
From Coq Require Import ZArith Reals List Bool Lra Lia ZifyNat.
From Flocq Require Import Core IEEE754.BinarySingleNaN.
From Verif Require Import CBase CRes FloatModel FloatSpec FloatProofs PidModel PidSpec PidProofs TimestampModel
  CtlModel CtlSpec CtlProofs.
Import ListNotations.
Local Open Scope R_scope.

(** * C34: limits, in single precision *)

(** Outcomes that can be computed. *)
Definition is_bad {A} (r : res A) : bool := match r with BAD => true | OK _ => false end.
Lemma is_bad_true {A} (r : res A) : is_bad r = true -> r = BAD.
Proof. destruct r; [discriminate|reflexivity]. Qed.
Definition pwm_of (r : res (control ieee)) : option Z :=
  match r with OK c => Some (power_pwm _ c) | BAD => None end.
Lemma pwm_of_some r p : pwm_of r = Some p -> exists c, r = OK c /\ power_pwm _ c = p.
Proof. destruct r as [c|]; [|discriminate]. cbn. intro H. injection H as <-. eauto. Qed.

Lemma control_run_snoc M c es e :
  control_run M c (es ++ [e]) = (try c := control_run M c es in control_step M c e).
Proof.
  revert c. induction es as [|x es IH]; intro c; cbn [app control_run].
  - cbn [rbind]. destruct (control_step M c e); reflexivity.
  - destruct (control_step M c x) as [c'|]; cbn [rbind]; auto.
Qed.


Lemma cascade_keeps_limits k :
  velocity_limit _ (pid_cascade_control ieee k) = velocity_limit _ k /\
  torque_limit _ (pid_cascade_control ieee k) = torque_limit _ k /\
  current_limit _ (pid_cascade_control ieee k) = current_limit _ k.
Proof.
  unfold pid_cascade_control.
  set (P := if position_control_enabled ieee (setpts ieee k) then _ else _). destruct P as [ppid pv].
  set (V := if velocity_control_enabled ieee (setpts ieee k) then _ else _).
  destruct V as [[[vpid vset] verr] vt]. repeat split; reflexivity.
Qed.

Lemma round_limits c i c' : control_round ieee c i = OK c' -> limits_of c' = limits_of c.
Proof.
  unfold control_round. destruct (_ || _).
  - destruct (set_motor_voltage _ _ _); cbn [rbind]; intro H; [|discriminate]. injection H as <-. reflexivity.
  - destruct (setpoint_compute _ _ _ _ _) as [ip' s].
    destruct (set_motor_voltage _ _ _); cbn [rbind]; intro H; [|discriminate]. injection H as <-.
    unfold limits_of. cbn [ctrl].
    destruct (cascade_keeps_limits (with_setpts ieee (measured ieee c i) s)) as (-> & -> & ->). reflexivity.
Qed.

(** The controller works with the limits last configured. *)
Theorem limits_in_force t es c :
  control_run ieee (control_init ieee t) es = OK c -> limits_of c = configured (rev es).
Proof.
  revert c. induction es as [|e es IH] using rev_ind; intros c H.
  - injection H as <-. reflexivity.
  - rewrite control_run_snoc in H. destruct (control_run ieee (control_init ieee t) es) as [c0|] eqn:E0; [|discriminate].
    specialize (IH c0 eq_refl). cbn [rbind] in H. rewrite rev_unit.
    destruct e as [r now|p|i]; cbn [control_step] in H.
    + injection H as <-. cbn [configured]. rewrite <- IH. destruct r; reflexivity.
    + injection H as <-. cbn [configured]. rewrite <- IH. destruct p as [w ? ? ?|w ?|?|?|? ?|?|?|?]; try destruct w; reflexivity.
    + rewrite (round_limits _ _ _ H). exact IH.
Qed.

(** After any history, a round of the control loop that drives the motor computes a velocity setpoint
    within the configured velocity limit (in the modes with velocity control), and a current setpoint
    within the configured current limit which comes from a torque within the configured torque limit.
    A setpoint may also be NaN, see [nan_defeats_limits]. *)
Theorem setpoints_limited t es i c0 c vl tl cl :
  control_run ieee (control_init ieee t) es = OK c0 ->
  control_round ieee c0 i = OK c ->
  battery_connected (in_battery _ i) ->
  lt (F ieee) (battery_volts ieee (in_battery _ i)) (low_batt_th _ c0) = false ->
  (microseconds (last_setpoint_update _ c0) (in_now _ i) <= 300000)%Z ->
  is_limit (lim_velocity (configured (rev es))) vl ->
  is_limit (lim_torque (configured (rev es))) tl ->
  is_limit (lim_current (configured (rev es))) cl ->
  (velocity_control_enabled _ (setpts _ (ctrl _ c)) = true -> limited (velocity_setpoint _ (ctrl _ c)) vl) /\
  limited (current_setpoint _ (ctrl _ c)) cl /\
  exists torque, limited torque tl /\
    current_setpoint _ (ctrl _ c) =
    filter_limit_sym ieee (mul (F ieee) torque (motor_current_constant _ (ctrl _ c))) (lim_current (configured (rev es))).
Proof.
  intros H0 H Hb Hlow Hage Hv Ht Hc.
  rewrite <- (limits_in_force t es c0 H0) in *. cbn [lim_velocity lim_torque lim_current limits_of] in *.
  unfold control_round in H. rewrite Hlow in H.
  rewrite fresh_accepted in H.
  2:{ split; [|exact Hage]. unfold microseconds. apply Z.mod_pos_bound. reflexivity. }
  cbn [orb] in H. destruct (setpoint_compute _ _ _ _ _) as [ip' s] eqn:Es.
  set (k := with_setpts ieee (measured ieee c0 i) s) in *.
  destruct (set_motor_voltage _ _ _) as [p|]; cbn [rbind] in H; [|discriminate]. injection H as <-.
  cbn [ctrl].
  destruct (cascade_control_limits k vl tl cl) as (A & B & tq & C & E); auto.
  assert (S : setpts _ (pid_cascade_control ieee k) = setpts _ k /\
              motor_current_constant _ (pid_cascade_control ieee k) = motor_current_constant _ k).
  { unfold pid_cascade_control.
    set (P := if position_control_enabled ieee (setpts ieee k) then _ else _). destruct P as [ppid pv].
    set (V := if velocity_control_enabled ieee (setpts ieee k) then _ else _).
    destruct V as [[[vpid vset] verr] vt]. split; reflexivity. }
  destruct S as [-> ->]. split; [exact A|]. split; [exact B|]. exists tq. split; [exact C|]. exact E.
Qed.

(** The duty cycle applied to the motor never exceeds 95 percent, after any history that does not run into
    undefined behaviour. *)
Theorem duty_cycle_limited t es c :
  control_run ieee (control_init ieee t) es = OK c -> duty_ok (power_pwm _ c).
Proof.
  revert c. induction es as [|e es IH] using rev_ind; intros c H.
  - injection H as <-. unfold duty_ok. cbn. lia.
  - rewrite control_run_snoc in H. destruct (control_run ieee (control_init ieee t) es) as [c0|] eqn:E0; [|discriminate].
    specialize (IH c0 eq_refl). cbn [rbind] in H. destruct e as [r now|p|i]; cbn [control_step] in H.
    + injection H as <-. destruct r; exact IH.
    + injection H as <-. destruct p as [w ? ? ?|w ?|?|?|? ?|?|?|?]; try destruct w; exact IH.
    + unfold control_round in H. destruct (_ || _).
      * destruct (set_motor_voltage _ _ _) as [p|] eqn:Ep; cbn [rbind] in H; [|discriminate].
        injection H as <-. cbn [power_pwm]. apply pwm_set_ok in Ep. unfold duty_ok. lia.
      * destruct (setpoint_compute _ _ _ _ _) as [ip' s].
        destruct (set_motor_voltage _ _ _) as [p|] eqn:Ep; cbn [rbind] in H; [|discriminate].
        injection H as <-. cbn [power_pwm]. apply pwm_set_ok in Ep. unfold duty_ok. lia.
Qed.

(** Any number given as a duty cycle is applied, limited to 95 percent and with its sign. *)
Theorem pwm_set_limited dc v : value dc = Some v ->
  exists p, motor_pwm_set ieee dc = OK p /\ duty_ok p /\
    (ele (Real 0) v -> (0 <= p)%Z) /\ (ele v (Real 0) -> (p <= 0)%Z).
Proof.
  intro H. destruct (pwm_set_number dc v H) as (p & E & A & S). exists p. split; [exact E|].
  split; [|exact S]. unfold duty_ok. lia.
Qed.

(** A low battery, or a setpoint older than 0.3 s (and less than 35 minutes), gives 0 V: whatever the
    state, the round succeeds and the duty cycle is zero, provided that the battery reading is not zero. *)
Theorem safe_state_partial c i :
  battery_connected (in_battery _ i) ->
  lt (F ieee) (battery_volts ieee (in_battery _ i)) (low_batt_th _ c) = true \/
  (300001 <= microseconds (last_setpoint_update _ c) (in_now _ i) < 2 ^ 31)%Z ->
  exists c', control_round ieee c i = OK c' /\ power_pwm _ c' = 0%Z.
Proof.
  intros Hb H. unfold control_round.
  replace (_ || _) with true.
  - rewrite zero_volts by exact Hb. cbn [rbind]. eexists. split; reflexivity.
  - destruct H as [H|H]; [rewrite H; reflexivity|]. rewrite (stale_detected _ _ H). now rewrite orb_true_r.
Qed.

(** With the battery disconnected, the reading is zero: 0 V is applied as 0/0, which is NaN, and converting
    it to an integer is undefined. *)
Theorem safe_state_refuted_battery : exists i, in_battery ieee i = 0%Z /\
  control_round ieee (control_init ieee 0) i = BAD.
Proof.
  exists {| in_periodic := false; in_position := of_int ieee 0; in_velocity := of_int ieee 0; in_accu := 0;
            in_nb := 1; in_battery := 0; in_now := 0 |}.
  split; [reflexivity|]. apply is_bad_true. vm_compute. reflexivity.
Qed.

(** The age of the setpoint is a signed 32-bit number of microseconds: a setpoint that was not renewed for
    36 minutes is taken for a new one and drives the motor again. *)
Theorem safe_state_refuted_wrap : exists i c,
  in_now ieee i = (2 ^ 31 + 5)%Z /\
  control_run ieee (control_init ieee 0) [Request ieee (ReqVoltage ieee (of_int ieee 12)) 0%Z; Round ieee i] = OK c /\
  (2000 < power_pwm _ c)%Z.
Proof.
  exists {| in_periodic := false; in_position := of_int ieee 0; in_velocity := of_int ieee 0; in_accu := 0;
            in_nb := 1; in_battery := 3000; in_now := 2 ^ 31 + 5 |}.
  match goal with |- exists c, _ /\ ?r = _ /\ _ => assert (P : pwm_of r = Some 2181%Z) by (vm_compute; reflexivity) end.
  apply pwm_of_some in P as (c & E & P). exists c. split; [reflexivity|]. split; [exact E|]. rewrite P. reflexivity.
Qed.

(** NaN defeats the limits: in torque mode with a NaN torque the round is undefined behaviour, although all
    limits are configured. *)
Theorem nan_defeats_limits : exists i,
  control_run ieee (control_init ieee 0)
    [SetParam ieee (PTorqueLimit ieee (of_int ieee 1) (of_int ieee 1));
     Request ieee (ReqTorque ieee (B754_nan : num (F ieee))) 0%Z; Round ieee i] = BAD.
Proof.
  exists {| in_periodic := false; in_position := of_int ieee 0; in_velocity := of_int ieee 0; in_accu := 0;
            in_nb := 1; in_battery := 3000; in_now := 0 |}.
  apply is_bad_true. vm_compute. reflexivity.
Qed.

(** The two sides of the H-bridge: after any sequence of triggers and timer periods, both compare
    registers are within the period and the voltage across the motor, their difference, is at most
    95 percent of the period. *)
Theorem bridge_limited es :
  Forall bridge_event_ok es ->
  let b := bridge_run bridge_init es in
  (0 <= ccr_direction b <= 2880 /\ 0 <= ccr_power b <= 2880)%Z /\ duty_ok (ccr_power b - ccr_direction b).
Proof.
  induction es as [|e es IH] using rev_ind; intro H; [cbn; unfold duty_ok; lia|].
  apply Forall_app in H as [H He]. specialize (IH H). apply Forall_inv in He.
  cbv zeta in *. unfold bridge_run in *. rewrite fold_left_app. cbn [fold_left].
  set (b := fold_left bridge_step es bridge_init) in *.
  destruct e as [r|p]; cbn [bridge_step bridge_event_ok] in *; [exact IH|].
  destruct (notify b); [|exact IH]. unfold pwm_counter_reset, duty_ok, PWM_PERIOD, RECHARGE_CORRECTION, DIRECTION_DC_RECHARGE in *.
  destruct (Z.leb_spec 0 p); cbn [ccr_direction ccr_power]; [lia|].
  destruct (recharge_flag b); cbn [ccr_direction ccr_power]; [|lia].
  destruct (Z.ltb_spec (2880 + p - 720) 0); lia.
Qed.

(** Outside of recharge cycles the bridge applies exactly the requested duty cycle; in a recharge cycle
    the high side is released for a quarter of the period, the duty cycle is still exact down to -75 percent
    and otherwise smaller, and the next period is normal again. *)
Theorem bridge_applies b p :
  let n := bridge_run b [Trigger false; Period p] in
  (ccr_power n - ccr_direction n = p)%Z.
Proof.
  cbv zeta. unfold bridge_run. cbn [fold_left bridge_step notify]. unfold pwm_counter_reset, PWM_PERIOD.
  cbn [recharge_flag]. destruct (Z.leb_spec 0 p); cbn [ccr_direction ccr_power]; lia.
Qed.

Theorem bridge_recharges b p : (duty_ok p -> p < 0 ->
  let r := bridge_run b [Trigger true; Period p] in
  let n := bridge_run b [Trigger true; Period p; Period p] in
  ccr_direction r = 2160 /\ p <= ccr_power r - ccr_direction r <= 0 /\
  (- 2160 <= p -> ccr_power r - ccr_direction r = p) /\
  ccr_power n - ccr_direction n = p)%Z.
Proof.
  unfold duty_ok. intros Hp Hn. cbv zeta. unfold bridge_run. cbn [fold_left bridge_step notify].
  unfold pwm_counter_reset, PWM_PERIOD, RECHARGE_CORRECTION, DIRECTION_DC_RECHARGE. cbn [recharge_flag].
  destruct (Z.leb_spec 0 p); [lia|]. cbn [notify recharge_flag ccr_direction ccr_power].
  destruct (Z.ltb_spec (2880 + p - 720) 0); lia.
Qed.

(** * C35: setpoint interpolation, in exact arithmetic *)

Lemma velocity_step (ip : interpolator exact) s now v t a h :
  mode _ ip = MVel -> setpt_vel _ ip = real v -> target_vel _ ip = real t -> acc_limit _ ip = real a ->
  0 <= a -> 0 <= h ->
  exists w, let ip' := fst (setpoint_compute exact ip s (real h) now) in
    setpt_vel _ ip' = real w /\ mode _ ip' = MVel /\ target_vel _ ip' = real t /\ acc_limit _ ip' = real a /\
    velocity_setpt _ (snd (setpoint_compute exact ip s (real h) now)) = real w /\
    ((Rabs (t - v) <= a * h /\ w = t) \/ (a * h <= t - v /\ w = v + a * h) \/ (a * h <= v - t /\ w = v - a * h)).
Proof.
  intros Hm Hv Ht Ha Pa Ph. unfold setpoint_compute. rewrite Hm. cbn [fst snd ip_moved setpt_vel mode target_vel acc_limit velocity_setpt].
  rewrite Hv, Ht, Ha. assert (P : 0 <= a * h) by nra.
  unfold filter_limit_sym, filter_limit, real. cbn [F exact exact_fmt add sub mul lt neg xadd xneg xmul xlt option_map eneg].
  replace (h * a) with (a * h) by ring.
  destruct (rlt_spec (a * h) (t + - v)).
  - exists (v + a * h). rewrite Hm. repeat (split; [reflexivity|]). right. left. split; [lra|reflexivity].
  - destruct (rlt_spec (t + - v) (- (a * h))).
    + exists (v - a * h). rewrite Hm. repeat (split; [reflexivity|]). right. right. split; [lra|reflexivity].
    + exists t. rewrite Hm. cbn [xadd]. replace (v + (t + - v)) with t by ring.
      repeat (split; [reflexivity|]). left. split; [|reflexivity]. apply Rabs_le. lra.
Qed.

(** In velocity mode one step changes the velocity by at most acc_limit * dt, towards the target and not
    beyond it. *)
Theorem velocity_interpolation ip s now v t a h :
  mode exact ip = MVel -> setpt_vel _ ip = real v -> target_vel _ ip = real t -> acc_limit _ ip = real a ->
  0 <= a -> 0 <= h ->
  exists w, velocity_setpt _ (snd (setpoint_compute exact ip s (real h) now)) = real w /\
    setpt_vel _ (fst (setpoint_compute exact ip s (real h) now)) = real w /\
    Rabs (w - v) <= a * h /\ (v <= t -> v <= w <= t) /\ (t <= v -> t <= w <= v).
Proof.
  intros Hm Hv Ht Ha Pa Ph. assert (P : 0 <= a * h) by nra.
  destruct (velocity_step ip s now v t a h Hm Hv Ht Ha Pa Ph) as (w & E1 & _ & _ & _ & E2 & C).
  exists w. split; [exact E2|]. split; [exact E1|].
  destruct C as [[C ->]|[[C ->]|[C ->]]].
  - apply Rabs_le_inv in C. split; [apply Rabs_le; lra|lra].
  - split; [apply Rabs_le; lra|]. lra.
  - split; [apply Rabs_le; lra|]. lra.
Qed.

(** The target is reached exactly, after at most |target - v| / (acc_limit * dt) steps rounded up. *)
Theorem velocity_reached n : forall ip s v t a h,
  mode exact ip = MVel -> setpt_vel _ ip = real v -> target_vel _ ip = real t -> acc_limit _ ip = real a ->
  0 <= a -> 0 <= h -> Rabs (t - v) <= INR n * (a * h) ->
  setpt_vel _ (velocity_steps n ip s (real h)) = real t.
Proof.
  induction n as [|n IH]; intros ip s v t a h Hm Hv Ht Ha Pa Ph L.
  - cbn in *. rewrite Hv. f_equal. f_equal. rewrite Rmult_0_l in L.
    pose proof (Rabs_pos (t - v)). apply Rabs_le_inv in L. lra.
  - cbn [velocity_steps].
    destruct (velocity_step ip s 0%Z v t a h Hm Hv Ht Ha Pa Ph) as (w & E1 & E2 & E3 & E4 & _ & C).
    apply (IH _ s w t a h E2 E1 E3 E4 Pa Ph). rewrite S_INR in L.
    assert (P : 0 <= a * h) by nra.
    assert (Q : 0 <= INR n * (a * h)) by (pose proof (pos_INR n); nra).
    apply Rabs_le_inv in L. apply Rabs_le. destruct C as [[C ->]|[[C ->]|[C ->]]]; lra.
Qed.

(** What vel_ramp returns: braking, cruising or full acceleration. *)
Lemma vel_ramp_cases x v tg h V a per :
  0 < h -> 0 < a ->
  exists r, vel_ramp exact (real x) (real v) (real tg) (real h) (real V) (real a) per = real r /\
    ((r = - v / h /\ Rabs (v / h) <= a) \/ (r = - a /\ a * h <= v) \/ (r = a /\ v <= - (a * h)) \/ r = 0 \/
     ((r = a \/ r = - a) /\ (Rabs v < V \/ r * v <= 0))).
Proof.
  intros Ph Pa. unfold vel_ramp.
  assert (E : exists e, (if per then periodic_error exact (sub (F exact) (real x) (real tg)) else sub (F exact) (real x) (real tg)) = real e).
  { destruct per; [|eexists; reflexivity]. unfold periodic_error, two_pi. cbn [F D exact exact_fmt sub mul fmod lt add neg m_pi narrow widen lit real xadd xneg xmul xfmod option_map eneg].
    match goal with |- context [req ?z 0] => destruct (req_spec z 0) as [Z|_] end.
    - exfalso. cbn in Z. pose proof PI_RGT_0. lra.
    - cbn [xlt xadd]. rcases; eexists; reflexivity. }
  destruct E as (e & ->).
  assert (B : exists b, neg (F exact) (filter_limit_sym exact (div (F exact) (real v) (real h)) (real a)) = real b /\
     ((b = - v / h /\ Rabs (v / h) <= a) \/ (b = - a /\ a * h <= v) \/ (b = a /\ v <= - (a * h)))).
  { unfold filter_limit_sym, filter_limit, real. cbn [F exact exact_fmt div neg lt xdiv xneg option_map eneg].
    destruct (req_spec h 0); [lra|]. cbn [xlt].
    assert (Hd : v = v / h * h) by (field; lra).
    destruct (rlt_spec a (v / h)).
    - eexists. split; [reflexivity|]. right. left. split; [reflexivity|]. rewrite Hd. nra.
    - destruct (rlt_spec (v / h) (- a)).
      + eexists. split; [reflexivity|]. right. right. split; [lra|]. rewrite Hd. nra.
      + eexists. split; [reflexivity|]. left. split; [cbn; lra|]. apply Rabs_le. lra. }
  destruct B as (b & -> & Hb).
  assert (Ca : exists c, le (F exact) (fabs (F exact) (real e)) (div (F exact) (mul (F exact) (mul (F exact) (real a) (real h)) (real h)) (of_int exact 2)) = c) by (eexists; reflexivity).
  destruct Ca as (close & ->).
  set (near := le (F exact) (fabs (F exact) (real e)) (div (F exact) (div (F exact) (mul (F exact) (real v) (real v)) (of_int exact 2)) (real a))).
  assert (Sg : forall y, exists g, sign_of exact (real y) = real g /\ ((g = 1 /\ 0 <= y) \/ (g = -1 /\ y < 0))).
  { intro y. unfold sign_of, of_int, real. cbn [F exact exact_fmt signbit lit enegative]. destruct (rlt_spec y 0).
    - exists (-1). split; [f_equal; f_equal; cbn; ring|]. right. lra.
    - exists 1. split; [f_equal; f_equal; cbn; ring|]. left. lra. }
  destruct (Sg e) as (ge & Ege & Hge). destruct (Sg v) as (gv & Egv & Hgv). rewrite Ege, Egv.
  assert (Zr : of_int exact 0 = real 0) by (unfold of_int, real; cbn; f_equal; f_equal; ring).
  rewrite Zr.
  assert (Acc : mul (F exact) (neg (F exact) (real ge)) (real a) = real (- ge * a)) by reflexivity. rewrite Acc.
  change (eq (F exact) (real ge) (real gv)) with (req ge gv).
  change (le (F exact) (real V) (fabs (F exact) (real v))) with
    (xlt (Some (Real V)) (fabs exact_fmt (real v)) || xeq (Some (Real V)) (fabs exact_fmt (real v))).
  assert (Fv : fabs exact_fmt (real v) = real (Rabs v)).
  { unfold real. cbn [fabs exact_fmt option_map enegative]. destruct (rlt_spec v 0); cbn [eneg].
    - f_equal. f_equal. rewrite Rabs_left by lra. reflexivity.
    - f_equal. f_equal. rewrite Rabs_pos_eq by lra. reflexivity. }
  rewrite Fv. change (real (Rabs v)) with (Some (Real (Rabs v))). cbn [xlt xeq].
  assert (Hs : - ge * a = a \/ - ge * a = - a) by (destruct Hge as [[-> _]|[-> _]]; lra).
  destruct (req_spec ge gv) as [Eg|Ng]; cbn [negb].
  - destruct close.
    + exists b. split; [reflexivity|]. tauto.
    + exists (- ge * a). split; [reflexivity|]. do 4 right. split; [tauto|]. right.
      destruct Hge as [[-> _]|[-> _]], Hgv as [[-> ?]|[-> ?]]; try lra; nra.
  - destruct (near || close).
    + exists b. split; [reflexivity|]. tauto.
    + destruct (rlt_spec V (Rabs v)); cbn [orb].
      * exists 0. split; [reflexivity|]. tauto.
      * destruct (req_spec V (Rabs v)).
        -- exists 0. split; [reflexivity|]. tauto.
        -- exists (- ge * a). split; [reflexivity|]. do 4 right. split; [tauto|]. left. lra.
Qed.

(** In position mode the planned acceleration is at most acc_limit, and the planned speed stays below
    vel_limit plus one step of acceleration once it is. What is missing: the bound vel_limit itself, which
    is exceeded by up to acc_limit * dt. *)
Theorem position_interpolation_partial ip s now x v tg V a h :
  mode exact ip = MPos -> setpt_pos _ ip = real x -> setpt_vel _ ip = real v -> target_pos _ ip = real tg ->
  acc_limit _ ip = real a -> vel_limit _ ip = real V -> 0 < a -> 0 < h -> 0 <= V ->
  exists w, velocity_setpt _ (snd (setpoint_compute exact ip s (real h) now)) = real w /\
    setpt_vel _ (fst (setpoint_compute exact ip s (real h) now)) = real w /\
    Rabs (w - v) <= a * h /\ (Rabs v <= V + a * h -> Rabs w <= V + a * h) /\
    (V <= Rabs v -> Rabs w <= Rmax (Rabs v) (a * h)).
Proof.
  intros Hm Hx Hv Ht Ha HV Pa Ph PV. unfold setpoint_compute. rewrite Hm.
  cbn [fst snd ip_moved setpt_vel velocity_setpt]. rewrite Hx, Hv, Ht, Ha, HV.
  destruct (vel_ramp_cases x v tg h V a (ip_periodic _ ip) Ph Pa) as (r & -> & C).
  exists (v + r * h). split; [reflexivity|]. split; [reflexivity|].
  assert (P : 0 < a * h) by nra. pose proof (Rmax_l (Rabs v) (a * h)) as M1. pose proof (Rmax_r (Rabs v) (a * h)) as M2.
  replace (v + r * h - v) with (r * h) by ring.
  destruct C as [[-> C]|[[-> C]|[[-> C]|[->|[S C]]]]].
  - replace (- v / h * h) with (- v) by (field; lra). replace (v + - v) with 0 by ring. rewrite Rabs_R0.
    pose proof (Rabs_pos v).
    split; [|split; intros; lra].
    rewrite Rabs_Ropp. replace v with (v / h * h) by (field; lra). rewrite Rabs_mult, (Rabs_pos_eq h) by lra. nra.
  - split; [apply Rabs_le; lra|].
    rewrite (Rabs_pos_eq v) in * by lra. rewrite (Rabs_pos_eq (v + - a * h)) by lra. split; intros; lra.
  - split; [apply Rabs_le; lra|].
    rewrite (Rabs_left1 v) in * by lra. rewrite (Rabs_left1 (v + a * h)) by lra. split; intros; lra.
  - rewrite Rmult_0_l, Rabs_R0, Rplus_0_r. split; [lra|]. split; intros; lra.
  - assert (Hr : Rabs (r * h) <= a * h) by (apply Rabs_le; destruct S as [->| ->]; lra).
    split; [exact Hr|]. apply Rabs_le_inv in Hr.
    destruct C as [C|C].
    + split; intro L; [|lra]. eapply Rle_trans; [apply Rabs_triang|].
      apply Rplus_le_compat; [lra|]. apply Rabs_le. lra.
    + assert (K : Rabs (v + r * h) <= Rmax (Rabs v) (a * h)).
      { destruct S as [->| ->].
        - assert (v <= 0) by nra. rewrite (Rabs_left1 v) in * by lra. apply Rabs_le. lra.
        - assert (0 <= v) by nra. rewrite (Rabs_pos_eq v) in * by lra. apply Rabs_le. lra. }
      split; intro L; [|exact K]. eapply Rle_trans; [exact K|]. apply Rmax_lub; lra.
Qed.

(** The planned speed does exceed vel_limit: from 0.5 with vel_limit = 1, acc_limit = 1 and dt = 1 it
    becomes 1.5 (single precision). *)
Theorem position_interpolation_refuted :
  let ip := {| mode := MPos; target_pos := of_int ieee 100; target_vel := of_int ieee 0;
               setpt_voltage := of_int ieee 0; setpt_torque := of_int ieee 0; setpt_pos := of_int ieee 0;
               setpt_vel := lit binary32 1 (-1); traj_acc := of_int ieee 0; setpt_ts := 0;
               acc_limit := of_int ieee 1; vel_limit := of_int ieee 1; ip_periodic := false |} : interpolator ieee in
  forall s, B2SF (setpt_vel _ (fst (setpoint_compute ieee ip s (of_int ieee 1) 0%Z))) = B2SF (lit binary32 3 (-1)).
Proof. intros ip s. vm_compute. reflexivity. Qed.

(** * C36: thermal protection, in exact arithmetic *)

Lemma thermal_step p t tmax r c g i h :
  thermal p t tmax r c g -> 0 < r -> 0 < c -> g <> 0 ->
  let t' := t + (i * g - (t - 25) / r) * h / c in
  thermal (fst (motor_protection_update exact p (real i) (real h))) t' tmax r c g /\
  snd (motor_protection_update exact p (real i) (real h)) =
    if rle tmax t' then real ((t - 25) / r / g) else Some PInf.
Proof.
  intros (H1 & H2 & H3 & H4 & H5 & H6) Pr Pc Pg t'. unfold motor_protection_update.
  rewrite H1, H2, H3, H4, H5, H6. unfold real.
  cbn [F exact exact_fmt add sub mul div le inf fst snd xadd xneg xmul option_map eneg].
  unfold xdiv. destruct (req_spec r 0); [lra|]. destruct (req_spec c 0); [lra|]. destruct (req_spec g 0); [lra|].
  cbn [xadd xneg xmul option_map eneg xlt xeq].
  assert (E : t + (i * g + - ((t + Ropp 25) / r)) * h / c = t') by (unfold t'; field; lra).
  split.
  - unfold thermal. cbn [temp t_max t_ambient r_th c_th current_gain]. rewrite E. repeat split; auto.
  - rewrite E. unfold Rminus. rcases; cbn [orb]; try reflexivity; exfalso; lra.
Qed.

(** With currents between imin and imax and a step not longer than the thermal time constant, the estimated
    temperature stays between the equilibrium temperatures of imin and imax. *)
Theorem thermal_range currents : forall p t tmax r c g h imin imax,
  thermal p t tmax r c g -> 0 < r -> 0 < c -> 0 < g -> 0 <= h <= r * c ->
  Forall (fun i => imin <= i <= imax) currents ->
  25 + r * g * imin <= t <= 25 + r * g * imax ->
  exists t', temp _ (heat p h currents) = real t' /\ 25 + r * g * imin <= t' <= 25 + r * g * imax.
Proof.
  induction currents as [|i is IH]; intros p t tmax r c g h imin imax Hp Pr Pc Pg Ph Hi Ht.
  - exists t. split; [apply Hp|exact Ht].
  - inversion Hi as [|? ? Hi1 Hi2]; subst. unfold heat. cbn [fold_left].
    destruct (thermal_step p t tmax r c g i h Hp Pr Pc ltac:(lra)) as [Hp' _].
    apply (IH _ _ tmax r c g h imin imax Hp' Pr Pc Pg Ph Hi2).
    set (k := h / (r * c)).
    assert (K : 0 <= k <= 1).
    { unfold k. assert (0 < r * c) by nra. split.
      - apply Rmult_le_pos; [lra|]. left. now apply Rinv_0_lt_compat.
      - apply Rmult_le_reg_r with (r * c); [auto|]. unfold Rdiv. rewrite Rmult_assoc, Rinv_l by lra. lra. }
    replace (t + (i * g - (t - 25) / r) * h / c) with (25 + ((1 - k) * (t - 25) + k * (r * g * i)))
      by (unfold k; field; lra).
    assert (P : 0 < r * g) by nra.
    assert (Q : r * g * imin <= r * g * i <= r * g * imax) by (split; apply Rmult_le_compat_l; lra).
    assert (A1 : (1 - k) * (r * g * imin) <= (1 - k) * (t - 25)) by (apply Rmult_le_compat_l; lra).
    assert (A2 : k * (r * g * imin) <= k * (r * g * i)) by (apply Rmult_le_compat_l; lra).
    assert (A3 : (1 - k) * (t - 25) <= (1 - k) * (r * g * imax)) by (apply Rmult_le_compat_l; lra).
    assert (A4 : k * (r * g * i) <= k * (r * g * imax)) by (apply Rmult_le_compat_l; lra).
    lra.
Qed.

(** Below the threshold the current is not restricted; at or above it, the limit returned is the current
    that would have kept the temperature constant. *)
Theorem thermal_limit p t tmax r c g i h :
  thermal p t tmax r c g -> 0 < r -> 0 < c -> 0 < g ->
  exists t', temp _ (fst (motor_protection_update exact p (real i) (real h))) = real t' /\
    (t' < tmax -> snd (motor_protection_update exact p (real i) (real h)) = Some PInf) /\
    (tmax <= t' -> exists l, snd (motor_protection_update exact p (real i) (real h)) = real l /\
       (* with that current the temperature would not have changed *)
       temp _ (fst (motor_protection_update exact p (real l) (real h))) = real t).
Proof.
  intros Hp Pr Pc Pg. destruct (thermal_step p t tmax r c g i h Hp Pr Pc ltac:(lra)) as [Hp' E].
  eexists. split; [apply Hp'|]. rewrite E. split; intro L.
  - destruct (rle_spec tmax (t + (i * g - (t - 25) / r) * h / c)); [lra|reflexivity].
  - destruct (rle_spec tmax (t + (i * g - (t - 25) / r) * h / c)); [|lra].
    exists ((t - 25) / r / g). split; [reflexivity|].
    destruct (thermal_step p t tmax r c g ((t - 25) / r / g) h Hp Pr Pc ltac:(lra)) as [Hq _].
    destruct Hq as [-> _]. f_equal. f_equal. field. lra.
Qed.

(** If the motor respects the limit returned above the threshold, the temperature does not rise further:
    after a step that returned the limit [l], a step with a current of at most [l] does not exceed the
    higher of the two previous temperatures. *)
Theorem thermal_limit_effective p t tmax r c g i j h :
  thermal p t tmax r c g -> 0 < r -> 0 < c -> 0 < g -> 0 <= h <= r * c ->
  let p1 := fst (motor_protection_update exact p (real i) (real h)) in
  forall l, snd (motor_protection_update exact p (real i) (real h)) = real l -> j <= l ->
  exists t1 t2, temp _ p1 = real t1 /\
    temp _ (fst (motor_protection_update exact p1 (real j) (real h))) = real t2 /\ t2 <= Rmax t t1.
Proof.
  intros Hp Pr Pc Pg Ph p1 l El Hj.
  destruct (thermal_step p t tmax r c g i h Hp Pr Pc ltac:(lra)) as [Hp' E]. fold p1 in Hp'.
  set (t1 := t + (i * g - (t - 25) / r) * h / c) in *.
  destruct (thermal_step p1 t1 tmax r c g j h Hp' Pr Pc ltac:(lra)) as [Hp2 _].
  exists t1. eexists. split; [apply Hp'|]. split; [apply Hp2|].
  rewrite E in El. destruct (rle_spec tmax t1); [|discriminate]. injection El as <-.
  set (k := h / (r * c)).
  assert (K : 0 <= k <= 1).
  { unfold k. assert (0 < r * c) by nra. split.
    - apply Rmult_le_pos; [lra|]. left. now apply Rinv_0_lt_compat.
    - apply Rmult_le_reg_r with (r * c); [auto|]. unfold Rdiv. rewrite Rmult_assoc, Rinv_l by lra. lra. }
  assert (J : r * g * j <= t - 25).
  { apply Rmult_le_compat_l with (r := r * g) in Hj; [|nra].
    replace (r * g * ((t - 25) / r / g)) with (t - 25) in Hj by (field; lra). exact Hj. }
  replace (t1 + (j * g - (t1 - 25) / r) * h / c) with (25 + ((1 - k) * (t1 - 25) + k * (r * g * j)))
    by (unfold k; field; lra).
  pose proof (Rmax_l t t1). pose proof (Rmax_r t t1).
  assert (A3 : (1 - k) * (t1 - 25) <= (1 - k) * (Rmax t t1 - 25)) by (apply Rmult_le_compat_l; lra).
  assert (A4 : k * (r * g * j) <= k * (Rmax t t1 - 25)) by (apply Rmult_le_compat_l; lra).
  lra.
Qed.

(** The heating power is the current times a gain, not its square: braking currents are negative and cool
    the model below the ambient temperature. *)
Theorem thermal_ambient_refuted : exists p t',
  thermal p 25 100 1 1 1 /\ temp _ (heat p 1 [-10]) = real t' /\ t' = 15.
Proof.
  exists {| temp := real 25; t_max := real 100; t_ambient := real 25; r_th := real 1; c_th := real 1;
            current_gain := real 1 |}.
  assert (H : thermal {| temp := real 25; t_max := real 100; t_ambient := real 25; r_th := real 1; c_th := real 1;
            current_gain := real 1 |} 25 100 1 1 1) by (repeat split).
  destruct (thermal_step _ 25 100 1 1 1 (-10) 1 H) as [Hq _]; try lra.
  eexists. split; [exact H|]. split; [apply Hq|]. lra.
Qed.

(** * C60: current measurement *)

Lemma adc_sum_ok samples k : forall i acc, (4 * (i + k) <= length samples)%nat ->
  (Forall (fun x => 0 <= x < 4096) samples -> 0 <= acc -> acc + 4096 * Z.of_nat k < 2 ^ 32 ->
  adc_sum samples i k acc = OK (acc + zsum (map (fun i => nth (4 * i + 1) samples 0) (seq i k))))%Z.
Proof.
  induction k as [|k IH]; intros i acc H Hs Ha Hb.
  - cbn. f_equal. lia.
  - cbn [adc_sum seq map]. unfold get. rewrite (nth_error_nth' samples 0%Z) by lia. cbn [some rbind].
    assert (X : (0 <= nth (4 * i + 1) samples 0 < 4096)%Z).
    { rewrite Forall_forall in Hs. apply Hs, nth_In. lia. }
    unfold u32. rewrite uN_id by lia. rewrite IH by (auto; lia). f_equal.
    change (zsum (?x :: ?l)) with (x + zsum l)%Z.
    set (z := zsum (map (fun i0 => nth (4 * i0 + 1) samples 0%Z) (seq (S i) k))).
    change (zsum (nth (4 * i + 1) samples 0%Z :: map (fun i0 => nth (4 * i0 + 1) samples 0%Z) (seq (S i) k)))
      with (nth (4 * i + 1) samples 0%Z + z)%Z. lia.
Qed.

Ltac Zify.zify_post_hook ::= Z.div_mod_to_equations.

(** The callback number [k] (from 0), with full buffers of 12-bit samples: it reads no sample outside the
    buffer, requests a recharge of the charge pump exactly every fourth time, leaves out the first 111
    conversions exactly after a recharge was requested, and its accumulator and count are the sum and
    number of the current samples used. *)
Theorem adc_measures (buffers : list (list Z)) : forall n a k,
  (111 < n)%nat -> (Z.of_nat n <= 4096)%Z ->
  (countdown a = (- Z.of_nat k) mod 4)%Z ->
  Forall (fun b => length b = (4 * n)%nat /\ Forall (fun x => 0 <= x < 4096)%Z b) buffers ->
  forall j b, nth_error buffers j = Some b ->
  exists a', fold_left (fun r b => try r := r in try r := adc_callback (fst r) b n in OK r) (firstn (S j) buffers)
               (OK (a, false)) = OK (a', ((k + j) mod 4 =? 0)%nat) /\
    let first := if ((k + j) mod 4 =? 1)%nat then 111%nat else 0%nat in
    (accumulator a' = zsum (channel1 b first n) /\ nb_samples a' = Z.of_nat (length (channel1 b first n)))%Z.
Proof.
  intros n a k Hn Hn2 Hc H.
  assert (Step : forall a0 k0 (f0 : bool) b0, (countdown a0 = (- Z.of_nat k0) mod 4)%Z ->
    (length b0 = (4 * n)%nat /\ Forall (fun x => 0 <= x < 4096)%Z b0) ->
    exists a1, adc_callback a0 b0 n = OK (a1, (k0 mod 4 =? 0)%nat) /\ (countdown a1 = (- Z.of_nat (S k0)) mod 4)%Z /\
      let first := if (k0 mod 4 =? 1)%nat then 111%nat else 0%nat in
      (accumulator a1 = zsum (channel1 b0 first n) /\ nb_samples a1 = Z.of_nat (length (channel1 b0 first n)))%Z).
  { intros a0 k0 _ b0 Hk [Hl Hb]. unfold adc_callback.
    assert (Q : (countdown a0 =? 0)%Z = (k0 mod 4 =? 0)%nat).
    { rewrite Hk. destruct (Nat.eqb_spec (k0 mod 4) 0); destruct (Z.eqb_spec ((- Z.of_nat k0) mod 4) 0); auto; exfalso; lia. }
    rewrite Q.
    assert (Q3 : ((if (k0 mod 4 =? 0)%nat then 4 else countdown a0) =? 3)%Z = (k0 mod 4 =? 1)%nat).
    { rewrite Hk. destruct (Nat.eqb_spec (k0 mod 4) 0); destruct (Nat.eqb_spec (k0 mod 4) 1);
        try destruct (Z.eqb_spec ((- Z.of_nat k0) mod 4) 3); auto; exfalso; lia. }
    rewrite Q3.
    set (first := if (k0 mod 4 =? 1)%nat then 111%nat else 0%nat).
    assert (F1 : (first <= 111)%nat) by (unfold first; destruct (k0 mod 4 =? 1)%nat; lia).
    rewrite adc_sum_ok by (auto; lia). cbn [rbind]. rewrite Z.add_0_l.
    unfold get. rewrite !(nth_error_nth' b0 0%Z) by lia. cbn [some rbind].
    eexists. split; [reflexivity|]. cbn [countdown accumulator nb_samples]. split.
    - rewrite Hk. destruct (Nat.eqb_spec (k0 mod 4) 0); lia.
    - unfold channel1. rewrite map_length, seq_length.
      assert (Bd : (Z.of_nat (length (map (fun i => nth (4 * i + 1) b0 0%Z) (seq first (n - first)))) * 0 <=
        zsum (map (fun i => nth (4 * i + 1) b0 0%Z) (seq first (n - first))) <=
        Z.of_nat (length (map (fun i => nth (4 * i + 1) b0 0%Z) (seq first (n - first)))) * 4095)%Z).
      { apply zsum_bounds. apply Forall_forall. intros x Hx. apply in_map_iff in Hx as (i & <- & Hi).
        apply in_seq in Hi. rewrite Forall_forall in Hb. specialize (Hb (nth (4 * i + 1) b0 0%Z)).
        assert (In (nth (4 * i + 1) b0 0%Z) b0) by (apply nth_In; lia). specialize (Hb H0). lia. }
      rewrite map_length, seq_length in Bd.
      unfold s32. rewrite sN_id by lia. split; [reflexivity|]. lia. }
  assert (Gen : forall bs a0 k0 f0, (countdown a0 = (- Z.of_nat k0) mod 4)%Z ->
    Forall (fun b => length b = (4 * n)%nat /\ Forall (fun x => 0 <= x < 4096)%Z b) bs ->
    forall j b, nth_error bs j = Some b ->
    exists a', fold_left (fun r b => try r := r in try r := adc_callback (fst r) b n in OK r) (firstn (S j) bs)
               (OK (a0, f0)) = OK (a', ((k0 + j) mod 4 =? 0)%nat) /\
    let first := if ((k0 + j) mod 4 =? 1)%nat then 111%nat else 0%nat in
    (accumulator a' = zsum (channel1 b first n) /\ nb_samples a' = Z.of_nat (length (channel1 b first n)))%Z).
  { induction bs as [|b0 bs IH]; intros a0 k0 f0 Hk Hbs j b Hj; [destruct j; discriminate|].
    inversion Hbs as [|? ? Hb0 Hbs']; subst.
    destruct (Step a0 k0 f0 b0 Hk Hb0) as (a1 & E1 & Hk1 & R1).
    destruct j as [|j]; cbn [nth_error] in Hj.
    - injection Hj as <-. exists a1. cbn [firstn fold_left rbind fst]. rewrite E1. cbn [rbind].
      rewrite Nat.add_0_r. split; [reflexivity|exact R1].
    - destruct (IH a1 (S k0) (k0 mod 4 =? 0)%nat Hk1 Hbs' j b Hj) as (a' & E & R).
      exists a'. cbn [firstn fold_left rbind fst]. rewrite E1. cbn [rbind].
      replace (k0 + S j)%nat with (S k0 + j)%nat by lia. split; [exact E|exact R]. }
  intros j b Hj. apply (Gen buffers a k false Hc H j b Hj).
Qed.

(** The measured current is the mean of the samples used, hence within their range: accumulator over count
    lies between any bounds of the samples. *)
Theorem adc_mean_in_range b first n lo hi :
  (first < n)%nat -> Forall (fun x => lo <= x <= hi)%Z (channel1 b first n) ->
  (Z.of_nat (length (channel1 b first n)) * lo <= zsum (channel1 b first n) <=
   Z.of_nat (length (channel1 b first n)) * hi)%Z.
Proof. intros _ H. now apply zsum_bounds. Qed.

(** * Cases that meet the hypotheses *)

(** A velocity limit of 2 and a torque limit of 1 with the constant 1, a torque request of 5, a reading of
    3000 (12 V): the round succeeds, drives the motor and the hypotheses of [setpoints_limited] hold. *)
Example limited_round :
  let i := {| in_periodic := false; in_position := of_int ieee 0; in_velocity := of_int ieee 0; in_accu := 0;
              in_nb := 1; in_battery := 3000; in_now := 100 |} : inputs ieee in
  let es := [SetParam ieee (PVelLimit ieee (of_int ieee 2)); SetParam ieee (PTorqueLimit ieee (of_int ieee 1) (of_int ieee 1));
             SetParam ieee (PGains ieee Current (of_int ieee 1) (of_int ieee 0) (of_int ieee 0));
             Request ieee (ReqTorque ieee (of_int ieee 5)) 0%Z] in
  is_bad (control_run ieee (control_init ieee 0) (es ++ [Round ieee i])) = false /\
  match control_run ieee (control_init ieee 0) es with
  | OK c => lt (F ieee) (battery_volts ieee 3000) (low_batt_th _ c) = false /\
            microseconds (last_setpoint_update _ c) 100 = 100%Z
  | BAD => False
  end.
Proof. vm_compute. repeat split. Qed.

Example low_battery_round :
  lt (F ieee) (battery_volts ieee 100) (low_batt_th _ (control_init ieee 0)) = true /\ battery_connected 100.
Proof. split; [vm_compute; reflexivity|split; reflexivity]. Qed.

Example heated_motor : exists p, thermal p 25 80 2 10 (1/2) /\ 0 <= 1/10 <= 2 * 10 /\
  Forall (fun i => -10 <= i <= 60) [60; -10; 30] /\ 25 + 2 * (1/2) * -10 <= 25 <= 25 + 2 * (1/2) * 60.
Proof.
  exists {| temp := real 25; t_max := real 80; t_ambient := real 25; r_th := real 2; c_th := real 10;
            current_gain := real (1/2) |}.
  split; [repeat split|]. split; [lra|]. split; [repeat constructor; lra|lra].
Qed.

Example interpolators : exists vel pos : interpolator exact,
  (mode exact vel = MVel /\ setpt_vel _ vel = real (-3) /\ target_vel _ vel = real 2 /\ acc_limit _ vel = real 10 /\
   Rabs (2 - -3) <= INR 5 * (10 * (1/10))) /\
  mode exact pos = MPos /\ setpt_pos _ pos = real 1 /\ setpt_vel _ pos = real (1/2) /\ target_pos _ pos = real 7 /\
  acc_limit _ pos = real 10 /\ vel_limit _ pos = real 2.
Proof.
  exists {| mode := MVel; target_pos := real 0; target_vel := real 2; setpt_voltage := real 0; setpt_torque := real 0;
            setpt_pos := real 0; setpt_vel := real (-3); traj_acc := real 0; setpt_ts := 0; acc_limit := real 10;
            vel_limit := real 2; ip_periodic := false |}.
  exists {| mode := MPos; target_pos := real 7; target_vel := real 0; setpt_voltage := real 0; setpt_torque := real 0;
            setpt_pos := real 1; setpt_vel := real (1/2); traj_acc := real 0; setpt_ts := 0; acc_limit := real 10;
            vel_limit := real 2; ip_periodic := false |}.
  repeat split. rewrite Rabs_right by lra. cbn. lra.
Qed.

Example adc_buffers :
  let b := concat (repeat [1; 2000; 2; 3000]%Z 200) in
  length b = (4 * 200)%nat /\ forallb (fun x => (0 <=? x)%Z && (x <? 4096)%Z) b = true /\
  countdown adc_init = ((- Z.of_nat 0) mod 4)%Z /\
  match adc_callback adc_init b 200 with
  | OK (a, r) => r = true /\ accumulator a = 400000%Z /\
      match adc_callback a b 200 with
      | OK (a, r) => r = false /\ accumulator a = (89 * 2000)%Z /\ nb_samples a = 89%Z
      | BAD => False
      end
  | BAD => False
  end.
Proof. vm_compute. repeat split. Qed.

Print Assumptions limits_in_force.
Print Assumptions setpoints_limited.
Print Assumptions duty_cycle_limited.
Print Assumptions safe_state_partial.
Print Assumptions bridge_limited.
Print Assumptions velocity_reached.
Print Assumptions position_interpolation_partial.
Print Assumptions thermal_range.
Print Assumptions thermal_limit_effective.
Print Assumptions adc_measures.
