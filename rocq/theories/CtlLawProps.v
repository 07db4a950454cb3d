(** The control laws of the motor board: what the rounds of the loop compute (without rounding), and the
    state at power-up. *)
From Coq Require Import ZArith Reals List Bool Lia Lra.
From Flocq Require Import Core IEEE754.BinarySingleNaN.
From Verif Require Import CBase CRes FloatModel FloatSpec FloatProofs PidModel PidSpec PidProofs PidProps
  TimestampModel CtlModel CtlSpec CtlProofs CtlProps CtlLawSpec.
Import ListNotations.
Local Open Scope R_scope.

Lemma add_real x y : add (F exact) (real x) (real y) = real (x + y).
Proof. reflexivity. Qed.
Lemma sub_real x y : sub (F exact) (real x) (real y) = real (x - y).
Proof. reflexivity. Qed.
Lemma mul_real x y : mul (F exact) (real x) (real y) = real (x * y).
Proof. reflexivity. Qed.
Lemma neg_real x : neg (F exact) (real x) = real (- x).
Proof. reflexivity. Qed.
Lemma div_real x y : y <> 0 -> div (F exact) (real x) (real y) = real (x / y).
Proof. intro H. unfold real. cbn. destruct (req_spec y 0); [contradiction|reflexivity]. Qed.
Lemma int_real n : of_int exact n = real (IZR n).
Proof. unfold of_int, real. cbn. now rewrite Rmult_1_r. Qed.

Lemma limit_real x l : ele (Real 0) l -> filter_limit_sym exact (real x) (Some l) = real (limit_to l x).
Proof.
  intro H. unfold filter_limit_sym, filter_limit, real. destruct l as [|l|]; cbn in *; [contradiction| |reflexivity].
  destruct (rlt_spec l x).
  - f_equal. f_equal. unfold Rmax, Rmin. destruct (Rle_dec l x); destruct (Rle_dec (- l) _); lra.
  - destruct (rlt_spec x (- l)); do 2 f_equal; unfold Rmax, Rmin; destruct (Rle_dec l x);
      destruct (Rle_dec (- l) _); lra.
Qed.

Lemma limit_real' x l : 0 <= l -> filter_limit_sym exact (real x) (real l) = real (limit_to (Real l) x).
Proof. intro H. now apply limit_real. Qed.

(** One step of a PID stage is the textbook law, with the accumulated error limited. *)
Theorem stage_law p q e : is_stage p q ->
  snd (pid_process exact p (real e)) = real (respond q e) /\
  is_stage (fst (pid_process exact p (real e))) (after q e).
Proof.
  intros (H1 & H2 & H3 & H4 & H5 & H6 & H7 & Hr & Hl). unfold pid_process.
  pose proof (limit_real (acc q + e) (acc_max q) Hl) as L. unfold filter_limit_sym, filter_limit in L.
  rewrite H1, H2, H3, H4, H5, H6, H7. cbn [fst snd]. rewrite add_real, L.
  rewrite !neg_real, !mul_real, div_real by lra. rewrite sub_real, !mul_real, !add_real. split.
  - f_equal. unfold respond, pid_law, accumulated. field. lra.
  - repeat split; auto.
Qed.

Lemma stage_cleared p q : is_stage p q -> is_stage (pid_reset_integral exact p) (cleared q).
Proof.
  intros (H1 & H2 & H3 & H4 & H5 & H6 & H7 & Hr & Hl). repeat split; auto.
  change (of_int exact 0 = real 0). now rewrite int_real.
Qed.

(** The error of a circular actuator is brought to the shortest way round. *)
Theorem circular_error_shortest e : exists r, periodic_error exact (real e) = real r /\ shortest e r.
Proof.
  pose proof PI_RGT_0 as P.
  unfold periodic_error, two_pi. cbn [F D exact exact_fmt narrow widen mul lit m_pi fmod lt neg sub add].
  unfold real. cbn [xmul xneg option_map eneg xadd].
  replace (IZR 2 * bpow radix2 0) with 2 by (cbn; ring).
  cbn [xfmod]. destruct (req_spec (2 * PI) 0) as [Z|_]; [lra|].
  set (k := Ztrunc (e / (2 * PI))). set (m := e - IZR k * (2 * PI)).
  assert (B : Rabs m < 2 * PI).
  { unfold m. replace (e - IZR k * (2 * PI)) with ((e / (2 * PI) - IZR k) * (2 * PI)) by (field; lra).
    rewrite Rabs_mult, (Rabs_pos_eq (2 * PI)) by lra.
    apply (Rlt_le_trans _ (1 * (2 * PI))); [|lra]. apply Rmult_lt_compat_r; [lra|].
    unfold k. set (z := e / (2 * PI)).
    destruct (Rle_or_lt 0 z) as [Hz|Hz].
    - rewrite Ztrunc_floor by auto. pose proof (Zfloor_lb z). pose proof (Zfloor_ub z).
      rewrite Rabs_pos_eq by lra. lra.
    - rewrite Ztrunc_ceil by lra. pose proof (Zceil_ub z).
      assert (z > IZR (Zceil z) - 1).
      { unfold Zceil. rewrite opp_IZR. pose proof (Zfloor_ub (- z)). lra. }
      rewrite Rabs_left1 by lra. lra. }
  apply Rabs_def2 in B. cbn [xlt].
  destruct (rlt_spec PI m).
  - exists (m + - (2 * PI)). split; [reflexivity|]. split; [apply Rabs_le; lra|].
    exists (k + 1)%Z. rewrite plus_IZR. unfold m. ring.
  - destruct (rlt_spec m (- PI)).
    + exists (m + 2 * PI). split; [reflexivity|]. split; [apply Rabs_le; lra|].
      exists (k - 1)%Z. rewrite minus_IZR. unfold m. ring.
    + exists m. split; [reflexivity|]. split; [apply Rabs_le; lra|]. exists k. unfold m. ring.
Qed.

(** The cascade of the three stages, for every demand and every measurement. *)
Theorem cascade_law (k : cascade exact) L x v i d :
  is_loop k L -> is_demand (setpts _ k) d ->
  position _ k = real x -> velocity _ k = real v -> current _ k = real i ->
  exists u L', cascade_answer L x v i d u L' /\
    motor_voltage _ (pid_cascade_control exact k) = real u /\ is_loop (pid_cascade_control exact k) L'.
Proof.
  intros (SP & SV & SC & Hk & [Hv Pv] & [Ht Pt] & [Hi Pi] & Hper) D Hx Hvel Hcur.
  unfold pid_cascade_control.
  assert (Tail : forall pp vp vs ve tq sp sv,
    is_stage pp sp -> is_stage vp sv ->
    let torque := filter_limit_sym exact (real tq) (torque_limit _ k) in
    let ii := filter_limit_sym exact (mul (F exact) torque (motor_current_constant _ k)) (current_limit _ k) in
    let e := sub (F exact) (current _ k) ii in
    let r := pid_process exact (current_pid _ k) e in
    let iset := torque_to_current L tq in
    snd r = real (respond (current_stage L) (i - iset)) /\
    is_loop {| current_pid := fst r; velocity_pid := vp; position_pid := pp;
       motor_current_constant := motor_current_constant _ k; velocity_limit := velocity_limit _ k;
       torque_limit := torque_limit _ k; current_limit := current_limit _ k; setpts := setpts _ k;
       periodic_actuator := periodic_actuator _ k; position := position _ k; velocity := velocity _ k;
       current := current _ k; motor_voltage := snd r; velocity_setpoint := vs; velocity_error := ve;
       current_setpoint := ii; current_error := e |} (next_loop L sp sv (after (current_stage L) (i - iset)))).
  { intros pp vp vs ve tq sp sv Hp Hvp torque ii e r iset.
    assert (E : e = real (i - iset)).
    { unfold e, ii, torque, iset. rewrite Ht, limit_real, Hk, mul_real, Hi, limit_real, Hcur by auto. reflexivity. }
    destruct (stage_law _ _ (i - iset) SC) as [O A]. unfold r. rewrite E. split; [exact O|].
    unfold is_loop. cbn. auto 20. }
  destruct d as [xd vd t|vd t|t]; cbn [is_demand] in D.
  - destruct D as (E1 & E2 & E3 & E4 & E5). rewrite E1, E2, E3, E4, E5, Hx, Hvel, sub_real, Hper.
    assert (exists e, (if circular L then periodic_error exact (real (x - xd)) else real (x - xd)) = real e /\
      (if circular L then shortest (x - xd) e else e = x - xd)) as (e & Ee & Q).
    { destruct (circular L); [apply circular_error_shortest|eauto]. }
    rewrite Ee. destruct (stage_law _ _ e SP) as [OP AP].
    destruct (pid_process exact (position_pid exact k) (real e)) as [ppid o] eqn:G. cbn [fst snd] in OP, AP. subst o.
    rewrite add_real, Hv, limit_real, sub_real by auto.
    set (vset := limit_to (max_velocity L) (vd + respond (position_stage L) e)).
    destruct (stage_law _ _ (v - vset) SV) as [OV AV].
    rewrite OV, add_real.
    destruct (Tail ppid (fst (pid_process exact (velocity_pid exact k) (real (v - vset)))) (real vset) (real (v - vset))
       (respond (velocity_stage L) (v - vset) + t) _ _ AP AV) as [A B].
    eexists _, _. split; [|split; [exact A|]].
    + exists e. split; [exact Q|]. split; reflexivity.
    + rewrite <- Hv, <- Hper, <- Hvel, <- Hx. exact B.
  - destruct D as (E1 & E2 & E4 & E5). rewrite E1, E2, E4, E5, Hvel.
    rewrite int_real, add_real, Hv, limit_real, sub_real, Rplus_0_r by auto.
    set (vset := limit_to (max_velocity L) vd).
    destruct (stage_law _ _ (v - vset) SV) as [OV AV].
    rewrite OV, add_real.
    destruct (Tail _ (fst (pid_process exact (velocity_pid exact k) (real (v - vset)))) (real vset) (real (v - vset))
       (respond (velocity_stage L) (v - vset) + t) _ _ (stage_cleared _ _ SP) AV) as [A B].
    eexists _, _. split; [|split; [exact A|]].
    + split; reflexivity.
    + rewrite <- Hv, <- Hvel. exact B.
  - destruct D as (E1 & E2 & E5). rewrite E1, E2, E5, int_real, add_real, Rplus_0_l.
    destruct (Tail _ _ (velocity_setpoint exact k) (velocity_error exact k) t _ _ (stage_cleared _ _ SP) (stage_cleared _ _ SV)) as [A B].
    eexists _, _. split; [|split; [exact A|exact B]]. split; reflexivity.
Qed.

(** * The measurements *)

Lemma bpow_neg n : bpow radix2 (Zneg n) = / IZR (Z.pow_pos 2 n).
Proof. reflexivity. Qed.

Definition tenth9 : R := 8106479329266893 * / 9007199254740992.
Definition tenth1 : R := 7205759403792794 * / 72057594037927936.
Definition kA : R := 13841203 * / 8589934592.
Definition kV : R := 11342097 * / 2147483648.
Definition m95 : R := 8556839292003942 * / 9007199254740992.

Lemma near_consts : is_tenth tenth9 tenth1 /\ amps_per_step kA /\ volts_per_step kV /\ near m95 0.95.
Proof.
  unfold is_tenth, amps_per_step, volts_per_step, near, tenth9, tenth1, kA, kV, m95.
  repeat split; apply Rabs_le; lra.
Qed.

Lemma lit_real m p : lit (F exact) m (Zneg p) = real (IZR m * / IZR (Z.pow_pos 2 p)).
Proof. reflexivity. Qed.

Lemma measured_loop c i L v o th x w mean raw :
  holds c L v o th -> reads i x w mean raw ->
  let k := measured exact c i in
  is_loop k (set_circular L (in_periodic _ i)) /\ position _ k = real x /\
  velocity _ k = real (tenth9 * v + tenth1 * w) /\ current _ k = real (amps_from mean kA - o) /\
  setpts _ k = setpts _ (ctrl _ c).
Proof.
  intros (HL & Hv & Ho & _) (Hx & Hw & Hn & -> & _) k. unfold k, measured.
  cbn [current_pid velocity_pid position_pid motor_current_constant velocity_limit torque_limit current_limit
       setpts periodic_actuator position velocity current].
  destruct HL as (A1 & A2 & A3 & A4 & A5 & A6 & A7 & A8).
  split; [unfold is_loop; cbn; auto 20|]. split; [exact Hx|]. split; [|split; [|reflexivity]].
  - rewrite Hv, Hw. change (narrow exact) with (fun x : num (F exact) => x).
    change (widen exact) with (fun x : num (F exact) => x). cbv beta. change (D exact) with (F exact).
    rewrite !lit_real, !mul_real, add_real. f_equal. unfold tenth9, tenth1.
    change (Z.pow_pos 2 53) with 9007199254740992%Z. change (Z.pow_pos 2 56) with 72057594037927936%Z. ring.
  - unfold motor_current, ADC_TO_AMPS. rewrite !int_real, div_real, sub_real, neg_real, lit_real, mul_real, Ho, sub_real.
    + reflexivity.
    + now apply not_0_IZR.
Qed.

Lemma battery_real raw : battery_volts exact raw = real (IZR raw * kV).
Proof.
  unfold battery_volts, ADC_TO_VOLTS. rewrite int_real, lit_real, mul_real. f_equal.
Qed.

(** The duty cycle is the requested fraction of the period, limited to 95 %. *)
Lemma pwm_real x : motor_pwm_set exact (real x) = OK (duty m95 x).
Proof.
  unfold motor_pwm_set, duty.
  change (narrow exact) with (fun x : num (F exact) => x).
  change (widen exact) with (fun x : num (F exact) => x). cbv beta. change (D exact) with (F exact).
  assert (Hm : lit_095 exact = real m95) by (unfold lit_095; change (D exact) with (F exact); apply lit_real).
  rewrite Hm, neg_real.
  assert (P : 0 <= m95 <= 1) by (unfold m95; lra).
  pose proof (limit_real x (Real m95)) as L. unfold filter_limit_sym, filter_limit in L.
  change (Some (Real m95)) with (real m95) in L. rewrite neg_real in L. rewrite L by (cbn; lra).
  rewrite int_real, mul_real. cbn [trunc F exact exact_fmt real some rbind].
  unfold int. change (IZR PWM_PERIOD) with 2880.
  assert (B : (Z.abs (Ztrunc (limit_to (Real m95) x * 2880)) <= 2880)%Z).
  { apply Ztrunc_abs. rewrite Rabs_mult, (Rabs_pos_eq 2880) by lra.
    assert (Rabs (limit_to (Real m95) x) <= 1); [|lra].
    cbn. unfold Rmax, Rmin. destruct (Rle_dec m95 x), (Rle_dec (- m95) _); apply Rabs_le; lra. }
  destruct (Z.leb_spec (- 2 ^ 31) (Ztrunc (limit_to (Real m95) x * 2880))); [|lia].
  destruct (Z.ltb_spec (Ztrunc (limit_to (Real m95) x * 2880)) (2 ^ 31)); [reflexivity|lia].
Qed.

Lemma seconds_real t1 t2 : timestamp_duration_s exact t1 t2 = real (seconds t1 t2).
Proof.
  unfold timestamp_duration_s, timestamp_duration_us, seconds.
  rewrite !int_real, div_real by (apply not_0_IZR; lia). do 3 f_equal.
  unfold s32, u32, sN, uN. rewrite Zplus_mod_idemp_l. reflexivity.
Qed.

Lemma le_lt_false x y : y <= x -> lt (F exact) (real x) (real y) = false.
Proof. intro H. cbn. destruct (rlt_spec x y); [lra|reflexivity]. Qed.

Lemma timeout_exact : ctrl_timeout exact = real (10066330 * / 33554432).
Proof. reflexivity. Qed.
Lemma delta_exact : delta_t exact = real (/ 2002).
Proof. unfold delta_t. rewrite !int_real, div_real by lra. f_equal. field. Qed.

(** * The rounds *)

(** A round with a charged battery and a setpoint at most 0.3 s old: the velocity is filtered, the current
    measured, the cascade answers what the interpolator asks for, and the bridge is driven with the
    answered voltage as a fraction of the battery voltage. The constants do not depend on the state. *)
Theorem round_law : exists a b ka kv m,
  is_tenth a b /\ amps_per_step ka /\ volts_per_step kv /\ near m 0.95 /\
  forall c i L v o th x w mean raw ip' s d,
  holds c L v o th -> reads i x w mean raw ->
  0 < raw -> th <= raw * kv -> seconds (last_setpoint_update _ c) (in_now _ i) <= 0.3 ->
  setpoint_compute exact (ip _ c) (setpts _ (ctrl _ c)) (real (/ 2002)) (in_now _ i) = (ip', s) ->
  mode _ ip' <> MVolt -> is_demand s d ->
  exists c' u L', control_round exact c i = OK c' /\
    cascade_answer (set_circular L (in_periodic _ i)) x (a * v + b * w) (amps_from mean ka - o) d u L' /\
    holds c' L' (a * v + b * w) o th /\ ip _ c' = ip' /\
    power_pwm _ c' = duty m (u / (raw * kv)).
Proof.
  exists tenth9, tenth1, kA, kV, m95.
  destruct near_consts as (N1 & N2 & N3 & N4). do 4 (split; [assumption|]).
  intros c i L v o th x w mean raw ip' s d Hc Hi Pr Hth Hs Hip Hm Hd.
  pose proof (measured_loop c i L v o th x w mean raw Hc Hi) as ML. cbv zeta in ML.
  destruct ML as (ML & Mx & Mv & Mc & Ms).
  destruct Hc as (HL & Hv & Ho & Ht). destruct Hi as (Hx & Hw & Hn & Em & Er).
  unfold control_round. rewrite Ht, battery_real, <- Er, le_lt_false by lra.
  rewrite seconds_real, timeout_exact, le_lt_false by lra. cbn [orb].
  rewrite Ms, delta_exact, Hip.
  destruct (cascade_law (with_setpts exact (measured exact c i) s) (set_circular L (in_periodic _ i)) x
    (tenth9 * v + tenth1 * w) (amps_from mean kA - o) d) as (u & L' & CA & MV & IL); auto.
  assert (PV : 0 < raw * kV) by (apply Rmult_lt_0_compat; [auto|unfold kV; lra]).
  assert (SV : set_motor_voltage exact (match mode _ ip' with MVolt => setpt_voltage _ ip'
     | _ => motor_voltage _ (pid_cascade_control exact (with_setpts exact (measured exact c i) s)) end) (in_battery _ i)
     = OK (duty m95 (u / (raw * kV)))).
  { replace (match mode _ ip' with MVolt => _ | _ => _ end) with (real u) by (destruct (mode _ ip'); congruence).
    unfold set_motor_voltage. rewrite battery_real, <- Er, div_real by lra. apply pwm_real. }
  rewrite SV. cbn [rbind]. eexists _, u, L'. split; [reflexivity|]. split; [exact CA|].
  split; [|split; reflexivity].
  split; [exact IL|]. cbn [ctrl velocity current_offset low_batt_th]. repeat split; auto.
  replace (velocity _ (pid_cascade_control exact (with_setpts exact (measured exact c i) s)))
    with (velocity _ (measured exact c i)); [exact Mv|].
  unfold pid_cascade_control. 
  set (P := if position_control_enabled _ _ then _ else _). destruct P as [p1 p2].
  set (V := if velocity_control_enabled _ _ then _ else _). destruct V as [[[v1 v2] v3] v4]. reflexivity.
Qed.

(** In voltage mode the bridge gets the requested voltage. *)
Theorem voltage_law : exists kv m, volts_per_step kv /\ near m 0.95 /\
  forall c i x w mean raw th voltage now,
  reads i x w mean raw -> 0 < raw -> low_batt_th _ c = real th -> th <= raw * kv ->
  seconds now (in_now _ i) <= 0.3 ->
  exists c', control_round exact (control_request exact c (ReqVoltage _ (real voltage)) now) i = OK c' /\
    power_pwm _ c' = duty m (voltage / (raw * kv)) /\ mode _ (ip _ c') = MVolt.
Proof.
  exists kV, m95. destruct near_consts as (N1 & N2 & N3 & N4). do 2 (split; [assumption|]).
  intros c i x w mean raw th voltage now (Hx & Hw & Hn & Em & Er) Pr Ht Hth Hs.
  unfold control_round. cbn [control_request set_ip low_batt_th last_setpoint_update ip].
  rewrite Ht, battery_real, <- Er, le_lt_false by lra.
  rewrite seconds_real, timeout_exact, le_lt_false by lra. cbn [orb].
  unfold setpoint_compute. cbn [setpoint_update_voltage mode setpt_voltage].
  assert (PV : 0 < raw * kV) by (apply Rmult_lt_0_compat; [auto|unfold kV; lra]).
  unfold set_motor_voltage. rewrite battery_real, <- Er, div_real, pwm_real by lra. cbn [rbind].
  eexists. split; [reflexivity|]. repeat split; reflexivity.
Qed.

(** * What each request asks from the cascade *)

Theorem torque_demand c t now h n :
  demands (ip _ (control_request exact c (ReqTorque _ (real t)) now)) h n (OnlyTorque t).
Proof. intro s. repeat split. Qed.

Theorem trajectory_demand c p v a t ts now h n :
  demands (ip _ (control_request exact c (ReqTrajectory _ (real p) (real v) (real a) (real t) ts) now)) h n
    (FollowPosition (p + v * seconds ts n + a * (seconds ts n) ^ 2 / 2) (v + a * seconds ts n) t).
Proof.
  intro s. unfold setpoint_compute.
  cbn [control_request set_ip ip setpoint_update_trajectory mode setpt_ts setpt_pos setpt_vel traj_acc setpt_torque snd].
  rewrite seconds_real. unfold pos_setpt_interpolation, vel_setpt_interpolation.
  rewrite int_real, mul_real, div_real, !mul_real, !add_real by lra.
  repeat split. cbn [position_setpt]. f_equal. field.
Qed.

(** The velocity moves from where it is towards the requested one, by at most the acceleration limit. *)
Theorem velocity_demand c t v0 a now h n :
  start_velocity c = real v0 -> acc_limit _ (ip _ c) = real a -> 0 <= a -> 0 <= h ->
  demands (ip _ (control_request exact c (ReqVelocity _ (real t)) now)) h n
    (FollowVelocity (v0 + limit_to (Real (h * a)) (t - v0)) 0).
Proof.
  intros Hv Ha Pa Ph s. unfold setpoint_compute.
  cbn [control_request set_ip ip setpoint_update_velocity mode setpt_vel target_vel acc_limit snd].
  unfold start_velocity in Hv. rewrite Hv, Ha, sub_real, mul_real.
  change (real (h * a)) with (Some (Real (h * a))). rewrite limit_real, add_real by (cbn; nra).
  repeat split. cbn [feedforward_torque]. apply int_real.
Qed.

Lemma sign_real x : sign_of exact (real x) = real (if Rlt_dec x 0 then -1 else 1).
Proof.
  unfold sign_of. cbn [signbit F exact exact_fmt real enegative]. unfold rlt.
  destruct (Rlt_dec x 0); apply int_real.
Qed.
Lemma fabs_real x : fabs (F exact) (real x) = real (Rabs x).
Proof.
  cbn. destruct (rlt_spec x 0); cbn; unfold real; do 2 f_equal; unfold Rabs; destruct (Rcase_abs x); lra.
Qed.
Lemma le_real x y : le (F exact) (real x) (real y) = true <-> x <= y.
Proof. cbn. destruct (rlt_spec x y), (req_spec x y); cbn; split; intro; try reflexivity; try discriminate; lra. Qed.
Lemma le_real_false x y : le (F exact) (real x) (real y) = false <-> y < x.
Proof. cbn. destruct (rlt_spec x y), (req_spec x y); cbn; split; intro; try reflexivity; try discriminate; lra. Qed.
Lemma eq_real x y : eq (F exact) (real x) (real y) = true <-> x = y.
Proof. cbn. destruct (req_spec x y); split; intro; try reflexivity; try discriminate; lra. Qed.

Lemma ramp_real x v tg h V a per : 0 < h -> 0 < a ->
  exists e acc, vel_ramp exact (real x) (real v) (real tg) (real h) (real V) (real a) per = real acc /\
    (if per then shortest (x - tg) e else e = x - tg) /\ approach e v a V h acc.
Proof.
  intros Ph Pa. unfold vel_ramp. rewrite sub_real.
  assert (exists e, (if per then periodic_error exact (real (x - tg)) else real (x - tg)) = real e /\
      (if per then shortest (x - tg) e else e = x - tg)) as (e & Ee & Q).
  { destruct per; [apply circular_error_shortest|eauto]. }
  rewrite Ee. exists e.
  rewrite !int_real, !mul_real, !div_real by lra.
  rewrite !sign_real, !fabs_real.
  rewrite !limit_real' by lra.
  rewrite !neg_real, !mul_real.
  destruct (le (F exact) (real (Rabs e)) (real (a * h * h / 2))) eqn:Lc;
    [apply le_real in Lc | apply le_real_false in Lc].
  - rewrite orb_true_r. exists (- limit_to (Real a) (v / h)).
    split; [destruct (negb _); reflexivity|]. split; [exact Q|]. apply Brake. auto.
  - rewrite orb_false_r.
    assert (P : 0 <= e * v -> approach e v a V h (- (if Rlt_dec e 0 then -1 else 1) * a)).
    { intro Hs. apply Push; auto; intro; destruct (Rlt_dec e 0); lra. }
    destruct (eq (F exact) _ _) eqn:Es; cbn [negb].
    + apply eq_real in Es. eexists. split; [reflexivity|]. split; [exact Q|]. apply P.
      destruct (Rlt_dec e 0), (Rlt_dec v 0); try lra; nra.
    + assert (Hs : e * v <= 0).
      { destruct (Rlt_dec e 0), (Rlt_dec v 0).
        - replace (eq (F exact) (real (-1)) (real (-1))) with true in Es by (symmetry; now apply eq_real). discriminate.
        - nra.
        - nra.
        - replace (eq (F exact) (real 1) (real 1)) with true in Es by (symmetry; now apply eq_real). discriminate. }
      destruct (le (F exact) (real (Rabs e)) (real (v * v / 2 / a))) eqn:Lb;
        [apply le_real in Lb | apply le_real_false in Lb].
      * eexists. split; [reflexivity|]. split; [exact Q|]. apply Brake. auto.
      * destruct (le (F exact) (real V) (real (Rabs v))) eqn:Lv; [apply le_real in Lv | apply le_real_false in Lv].
        -- exists 0. split; [reflexivity|]. split; [exact Q|]. now apply Cruise.
        -- eexists. split; [reflexivity|]. split; [exact Q|].
           apply Push; auto; intro; destruct (Rlt_dec e 0); lra.
Qed.

(** A position is approached with an acceleration chosen as above, and the demanded position and velocity
    are those of the uniformly accelerated motion over the period. *)
Theorem position_demand c t x0 v0 a V now h n :
  start_position c = real x0 -> start_velocity c = real v0 ->
  acc_limit _ (ip _ c) = real a -> vel_limit _ (ip _ c) = real V -> 0 < a -> 0 < h ->
  exists e acc,
    (if periodic_actuator _ (ctrl _ c) then shortest (x0 - t) e else e = x0 - t) /\
    approach e v0 a V h acc /\
    demands (ip _ (control_request exact c (ReqPosition _ (real t)) now)) h n
      (FollowPosition (x0 + v0 * h + acc * h ^ 2 / 2) (v0 + acc * h) 0).
Proof.
  intros Hx Hv Ha HV Pa Ph.
  destruct (ramp_real x0 v0 t h V a (periodic_actuator _ (ctrl _ c)) Ph Pa) as (e & acc & R & Q & A).
  exists e, acc. split; [exact Q|]. split; [exact A|].
  intro s. unfold setpoint_compute.
  cbn [control_request set_ip ip setpoint_update_position mode setpt_pos setpt_vel target_pos vel_limit acc_limit ip_periodic snd].
  unfold start_position in Hx. unfold start_velocity in Hv. rewrite Hx, Hv, Ha, HV, R.
  unfold pos_setpt_interpolation, vel_setpt_interpolation.
  rewrite !int_real, mul_real, div_real, !mul_real, !add_real by lra.
  repeat split. cbn [position_setpt]. f_equal. field.
Qed.

(** The acceleration never exceeds the limit. *)
Theorem approach_limited e v a V h acc : 0 < a -> 0 < h -> approach e v a V h acc -> Rabs acc <= a.
Proof.
  intros Pa Ph [H|H1 H2 H3 H4|acc' H1 H2 H3 H4].
  - rewrite Rabs_Ropp. cbn. unfold Rmax, Rmin. destruct (Rle_dec a (v / h)), (Rle_dec (- a) _); apply Rabs_le; lra.
  - rewrite Rabs_R0. lra.
  - destruct (Rle_or_lt 0 e); [rewrite H3 by auto|rewrite H4 by auto]; apply Rabs_le; lra.
Qed.
