(** Proofs about the motor controller. *)
From Coq Require Import ZArith Reals List Bool Lra Lia.
From Flocq Require Import Core IEEE754.BinarySingleNaN.
From Verif Require Import CBase CRes FloatModel FloatSpec FloatProofs PidModel PidSpec PidProofs TimestampModel CtlModel CtlSpec.
Import ListNotations.
Local Open Scope R_scope.

Lemma limited_sym x l b : is_limit l b -> limited (filter_limit_sym ieee x l) b.
Proof.
  intros [El Hl] v Ev. destruct (value x) as [w|] eqn:Ex.
  - destruct (limit_gen ieee value binary32_ordered x (neg binary32 l) l w (eneg b) b) as (r & Er & Hr & _); auto.
    + destruct binary32_ordered as [_ Hn]. rewrite Hn, El. reflexivity.
    + now apply eneg_nonneg.
    + change (filter_limit_sym ieee x l) with (filter_limit ieee x (neg binary32 l) l) in Ev. rewrite Er in Ev. injection Ev as <-. exact Hr.
  - exfalso. unfold filter_limit_sym, filter_limit in Ev. destruct binary32_ordered as [Hlt _].
    change (F ieee) with binary32 in Ev.
    rewrite !Hlt, Ex in Ev.
    destruct (value l) as [[]|], (value (neg binary32 l)) as [[]|]; cbn in Ev; congruence.
Qed.

Lemma cascade_control_limits (c : cascade ieee) vl tl cl :
  is_limit (velocity_limit _ c) vl -> is_limit (torque_limit _ c) tl -> is_limit (current_limit _ c) cl ->
  let c' := pid_cascade_control ieee c in
  (velocity_control_enabled _ (setpts _ c) = true -> limited (velocity_setpoint _ c') vl) /\
  limited (current_setpoint _ c') cl /\
  exists torque, limited torque tl /\
    current_setpoint _ c' =
    filter_limit_sym ieee (mul (F ieee) torque (motor_current_constant _ c)) (current_limit _ c).
Proof.
  intros Hv Ht Hc c'. unfold c', pid_cascade_control.
  set (P := if position_control_enabled ieee (setpts ieee c) then _ else _). destruct P as [ppid pv].
  set (V := if velocity_control_enabled ieee (setpts ieee c) then _ else _).
  destruct V as [[[vpid vset] verr] vt] eqn:EV.
  cbn [velocity_setpoint current_setpoint]. split; [|split].
  - intro En. unfold V in EV. rewrite En in EV. injection EV as _ <- _ _. now apply limited_sym.
  - now apply limited_sym.
  - eexists. split; [|reflexivity]. now apply limited_sym.
Qed.

(** The constants of motor_pwm_set. *)
Definition R095 : R := 8556839292003942 * / 9007199254740992.

Lemma value_lit095 : value (lit_095 ieee) = Some (Real R095).
Proof.
  rewrite value_SF. replace (B2SF (lit_095 ieee)) with (SpecFloat.S754_finite false 8556839292003942 (-53))
    by (vm_compute; reflexivity).
  cbn. unfold F2R, R095. cbn. do 2 f_equal. 
Qed.

Lemma value_narrow095 : value (narrow ieee (lit_095 ieee)) = Some (Real (15938355 * / 16777216)).
Proof.
  rewrite value_SF. replace (B2SF (narrow ieee (lit_095 ieee))) with (SpecFloat.S754_finite false 15938355 (-24))
    by (vm_compute; reflexivity).
  cbn. unfold F2R. cbn. reflexivity.
Qed.

Lemma value_narrow095n : value (narrow ieee (neg (D ieee) (lit_095 ieee))) = Some (Real (- (15938355 * / 16777216))).
Proof.
  rewrite value_SF. replace (B2SF (narrow ieee (neg (D ieee) (lit_095 ieee)))) with (SpecFloat.S754_finite true 15938355 (-24))
    by (vm_compute; reflexivity).
  cbn. unfold F2R. cbn. do 2 f_equal. lra.
Qed.

Lemma value_2880 : value (of_int ieee 2880) = Some (Real 2880).
Proof.
  rewrite value_SF. replace (B2SF (of_int ieee 2880)) with (SpecFloat.S754_finite false 11796480 (-12))
    by (vm_compute; reflexivity).
  cbn. unfold F2R. cbn. do 2 f_equal. lra.
Qed.

Lemma B2R_2736 : B2R (of_int ieee 2736) = 2736.
Proof.
  assert (V : value (of_int ieee 2736) = Some (Real 2736)).
  { rewrite value_SF. replace (B2SF (of_int ieee 2736)) with (SpecFloat.S754_finite false 11206656 (-12))
      by (vm_compute; reflexivity).
    cbn. unfold F2R. cbn. do 2 f_equal. lra. }
  apply value_Real in V as [_ V]. now symmetry.
Qed.

(** A clamped duty cycle gives a count of at most 2736. *)
Lemma pwm_count (dc : num (F ieee)) r : value dc = Some (Real r) -> Rabs r <= 95 / 100 ->
  exists p, (try p := some (trunc (F ieee) (mul (F ieee) dc (of_int ieee PWM_PERIOD))) in int p) = OK p /\
    (Z.abs p <= 2736)%Z /\ (0 <= r -> (0 <= p)%Z) /\ (r <= 0 -> (p <= 0)%Z).
Proof.
  intros Ev Hr.
  assert (B : Rabs (r * 2880) <= B2R (of_int ieee 2736)).
  { rewrite B2R_2736, Rabs_mult, (Rabs_pos_eq 2880) by lra. lra. }
  pose proof (mul_value 24 128 prec24 emax24 dc (of_int ieee 2880) (of_int ieee 2736) r 2880 Ev value_2880 B) as E.
  destruct (rnd_abs 24 128 prec24 (of_int ieee 2736) _ B) as [L _]. rewrite B2R_2736 in L.
  set (q := round radix2 (SpecFloat.fexp 24 128) (round_mode mode_NE) (r * 2880)) in *.
  change (mul (F ieee) dc (of_int ieee PWM_PERIOD)) with (Bmult mode_NE dc (of_int ieee 2880)).
  change (trunc (F ieee)) with (trunc binary32).
  assert (T : trunc binary32 (Bmult mode_NE dc (of_int ieee 2880)) = Some (Ztrunc q))
    by (apply trunc_value; exact E).
  rewrite T. cbn [some rbind].
  assert (A : (Z.abs (Ztrunc q) <= 2736)%Z) by (apply Ztrunc_abs; exact L).
  exists (Ztrunc q). split; [apply int_ok; lia|]. split; [exact A|].
  assert (Z0 : B2R (B754_zero false : num binary32) = 0) by reflexivity.
  split; intro S.
  - assert (0 <= q).
    { rewrite <- Z0. apply (rnd_ge 24 128 prec24). rewrite Z0. nra. }
    rewrite <- (Ztrunc_IZR 0). apply Ztrunc_le. auto.
  - assert (q <= 0).
    { rewrite <- Z0. apply (rnd_le 24 128 prec24). rewrite Z0. nra. }
    rewrite <- (Ztrunc_IZR 0). apply Ztrunc_le. auto.
Qed.

Lemma pwm_set_number (dc : num (F ieee)) v : value dc = Some v ->
  exists p, motor_pwm_set ieee dc = OK p /\ (Z.abs p <= 2736)%Z /\
    (ele (Real 0) v -> (0 <= p)%Z) /\ (ele v (Real 0) -> (p <= 0)%Z).
Proof.
  intro Ev. unfold motor_pwm_set. destruct binary64_ordered as [Hlt Hn].
  change (lt (D ieee)) with (lt binary64). change (neg (D ieee)) with (neg binary64).
  rewrite !Hlt, Hn, value_widen, Ev, value_lit095. cbn [xneg option_map eneg].
  assert (R1 : 0 <= R095 <= 95 / 100) by (unfold R095; lra).
  destruct (xlt (Some (Real R095)) (Some v)) eqn:L1.
  - destruct (pwm_count (narrow ieee (lit_095 ieee)) _ value_narrow095) as (p & E & A & S1 & S2).
    + apply Rabs_le. lra.
    + exists p. split; [exact E|]. split; [exact A|]. split; intro H.
      * apply S1. lra.
      * exfalso. destruct v as [|r|]; cbn in L1, H; try discriminate; auto. rcases; [lra|discriminate].
  - apply xlt_false in L1. destruct (xlt (Some v) (Some (Real (- R095)))) eqn:L2.
    + destruct (pwm_count (narrow ieee (neg binary64 (lit_095 ieee))) _ value_narrow095n) as (p & E & A & S1 & S2).
      * apply Rabs_le. lra.
      * exists p. split; [exact E|]. split; [exact A|]. split; intro H.
        -- exfalso. destruct v as [|r|]; cbn in L2, H; try discriminate; auto. rcases; [lra|discriminate].
        -- apply S2. lra.
    + apply xlt_false in L2. destruct v as [|r|]; try contradiction. cbn in L1, L2.
      destruct (pwm_count dc r Ev) as (p & E & A & S1 & S2).
      * apply Rabs_le. lra.
      * exists p. split; [exact E|]. split; [exact A|]. cbn. auto.
Qed.

Lemma pwm_set_nan (dc : num (F ieee)) : value dc = None -> motor_pwm_set ieee dc = BAD.
Proof.
  intro Ev. unfold motor_pwm_set. destruct binary64_ordered as [Hlt Hn].
  change (lt (D ieee)) with (lt binary64). change (neg (D ieee)) with (neg binary64).
  rewrite !Hlt, Hn, value_widen, Ev, value_lit095. cbn [xlt xneg option_map eneg].
  apply value_nan in Ev. destruct dc; try discriminate. reflexivity.
Qed.

Lemma pwm_set_ok dc p : motor_pwm_set ieee dc = OK p -> (Z.abs p <= 2736)%Z.
Proof.
  intro H. destruct (value dc) as [v|] eqn:Ev.
  - destruct (pwm_set_number dc v Ev) as (q & E & A & _). rewrite E in H. injection H as <-. exact A.
  - rewrite (pwm_set_nan dc Ev) in H. discriminate.
Qed.

Lemma small_int n : (Z.abs n <= 2 ^ 24)%Z -> value (of_int ieee n) = Some (Real (IZR n)).
Proof.
  intro H.
  assert (G : generic_format radix2 (SpecFloat.fexp 24 128) (IZR n)).
  { destruct (Z.eq_dec (Z.abs n) (2 ^ 24)) as [E|E].
    - assert (K : generic_format radix2 (SpecFloat.fexp 24 128) (bpow radix2 24)).
      { apply generic_format_bpow. unfold SpecFloat.fexp, SpecFloat.emin. lia. }
      change (bpow radix2 24) with 16777216 in K.
      destruct (Z.abs_spec n) as [[_ A]|[_ A]].
      + replace n with (16777216)%Z by lia. exact K.
      + replace n with (- (16777216))%Z by lia. rewrite opp_IZR. now apply generic_format_opp.
    - apply generic_format_FLT. exists (Float radix2 n 0).
      + unfold F2R. cbn. ring.
      + cbn [Fnum]. change (2 ^ 24)%Z with (radix2 ^ 24)%Z in *. lia.
      + unfold SpecFloat.emin. cbn. lia. }
  assert (L : Rabs (IZR n) < bpow radix2 128).
  { rewrite <- abs_IZR. apply Rle_lt_trans with (IZR (2 ^ 24)); [now apply IZR_le|].
    change (2 ^ 24)%Z with (radix2 ^ 24)%Z. rewrite IZR_Zpower by lia. apply bpow_lt. lia. }
  unfold of_int. change (lit (F ieee) n 0) with (ieee_lit 24 128 prec24 emax24 n 0). unfold ieee_lit.
  generalize (binary_normalize_correct 24 128 prec24 emax24 mode_NE n 0 false). cbv zeta.
  replace (F2R {| Fnum := n; Fexp := 0 |}) with (IZR n) by (unfold F2R; cbn; ring).
  rewrite round_generic by (auto; apply valid_rnd_N).
  rewrite Rlt_bool_true by exact L. intros (E & Ff & _). rewrite value_finite by exact Ff. now rewrite E.
Qed.

Lemma B2R_small n : (Z.abs n <= 2 ^ 24)%Z -> B2R (of_int ieee n) = IZR n.
Proof. intro H. apply small_int, value_Real in H as [_ H]. now symmetry. Qed.

Definition RV : R := 11342097 * / 2147483648.
Lemma value_volts : value (ADC_TO_VOLTS ieee) = Some (Real RV).
Proof.
  rewrite value_SF. replace (B2SF (ADC_TO_VOLTS ieee)) with (SpecFloat.S754_finite false 11342097 (-31))
    by (vm_compute; reflexivity).
  cbn. unfold F2R, RV. cbn. reflexivity.
Qed.

Lemma battery_positive raw : battery_connected raw ->
  exists b, value (battery_volts ieee raw) = Some (Real b) /\ RV <= b.
Proof.
  intros [H1 H2]. assert (I1 : 1 <= IZR raw <= 4096) by (split; apply IZR_le; lia).
  assert (HV : 0 < RV < / 100) by (unfold RV; lra).
  assert (E1 : value (of_int ieee raw) = Some (Real (IZR raw))) by (apply small_int; lia).
  assert (B : Rabs (IZR raw * RV) <= B2R (of_int ieee 100)).
  { rewrite B2R_small by lia. rewrite Rabs_pos_eq by nra. nra. }
  eexists. split.
  - apply (mul_value 24 128 prec24 emax24 _ _ _ _ _ E1 value_volts B).
  - pose proof value_volts as V. apply value_Real in V as [_ V]. rewrite V at 1.
    apply (rnd_ge 24 128 prec24). rewrite <- V. nra.
Qed.

Lemma zero_volts raw : battery_connected raw -> set_motor_voltage ieee (of_int ieee 0) raw = OK 0%Z.
Proof.
  intro H. destruct (battery_positive raw H) as (b & Eb & Hb).
  assert (HV : 0 < RV) by (unfold RV; lra).
  assert (E0 : value (of_int ieee 0) = Some (Real 0)) by reflexivity.
  assert (B : Rabs (0 / b) <= B2R (of_int ieee 1)).
  { rewrite B2R_small by lia. unfold Rdiv. rewrite Rmult_0_l, Rabs_R0. lra. }
  assert (Ne : b <> 0) by lra.
  pose proof (div_value 24 128 prec24 emax24 _ _ _ _ _ E0 Eb Ne B) as E.
  unfold Rdiv in E. rewrite Rmult_0_l, round_0 in E by apply valid_rnd_N.
  unfold set_motor_voltage.
  destruct (pwm_set_number (div (F ieee) (of_int ieee 0) (battery_volts ieee raw)) (Real 0) E) as (p & Ep & _ & S1 & S2).
  rewrite Ep. f_equal. cbn in S1, S2. specialize (S1 ltac:(lra)). specialize (S2 ltac:(lra)). lia.
Qed.

Lemma number_volts u raw : battery_connected raw -> value u <> None ->
  exists p, set_motor_voltage ieee u raw = OK p.
Proof.
  intros H Hu. destruct (battery_positive raw H) as (b & Eb & Hb).
  assert (HV : 0 < RV) by (unfold RV; lra).
  unfold set_motor_voltage.
  assert (N : value (div (F ieee) u (battery_volts ieee raw)) <> None).
  { change (div (F ieee)) with (Bdiv mode_NE (prec := 24) (emax := 128) (prec_gt_0_ := prec24) (prec_lt_emax_ := emax24)).
    apply value_Real in Eb as [Fb Eb].
    assert (Nz : B2R (battery_volts ieee raw) <> 0) by lra.
    generalize (Bdiv_correct 24 128 prec24 emax24 mode_NE u (battery_volts ieee raw) Nz).
    case Rlt_bool.
    - intros (_ & Ff & _). destruct (is_finite u) eqn:Fu.
      + rewrite value_finite by (rewrite Ff; reflexivity). discriminate.
      + destruct u as [?|?| |? ? ? ?]; try discriminate; [|now exfalso; apply Hu].
        clear - Fb Nz. destruct (battery_volts ieee raw) as [?|?| |? ? ? ?]; try discriminate.
    - intro E. now apply overflow_not_nan in E. }
  destruct (value (div (F ieee) u (battery_volts ieee raw))) as [v|] eqn:Ev; [|congruence].
  destruct (pwm_set_number _ v Ev) as (p & Ep & _). eauto.
Qed.

(** ** The setpoint timeout *)

Lemma value_timeout : value (ctrl_timeout ieee) = Some (Real (10066330 * / 33554432)).
Proof.
  rewrite value_SF. replace (B2SF (ctrl_timeout ieee)) with (SpecFloat.S754_finite false 10066330 (-25))
    by (vm_compute; reflexivity).
  cbn. unfold F2R. cbn. reflexivity.
Qed.

(** The float nearest to 0.3 and the result of 300001 / 1e6. *)
Lemma value_030 : B2R (div (F ieee) (of_int ieee 300001) (of_int ieee 1000000)) = 10066363 * / 33554432.
Proof.
  assert (V : value (div (F ieee) (of_int ieee 300001) (of_int ieee 1000000)) = Some (Real (10066363 * / 33554432))).
  { rewrite value_SF.
    replace (B2SF (div (F ieee) (of_int ieee 300001) (of_int ieee 1000000)))
      with (SpecFloat.S754_finite false 10066363 (-25)) by (vm_compute; reflexivity).
    cbn. unfold F2R. cbn. reflexivity. }
  apply value_Real in V as [_ V]. now symmetry.
Qed.

Lemma duration_value t1 t2 :
  exists d, value (of_int ieee (timestamp_duration_us t1 t2)) = Some (Real d) /\
    d = round radix2 (SpecFloat.fexp 24 128) (round_mode mode_NE) (IZR (timestamp_duration_us t1 t2)) /\
    value (timestamp_duration_s ieee t1 t2) =
      Some (Real (round radix2 (SpecFloat.fexp 24 128) (round_mode mode_NE) (d / 1000000))).
Proof.
  assert (Hd : (Z.abs (timestamp_duration_us t1 t2) <= 2 ^ 31)%Z).
  { unfold timestamp_duration_us. pose proof (sN_range 32 (u32 (t2 - t1))) as R. unfold s32. cbn in R. lia. }
  assert (Big : B2R (lit (F ieee) 1 31) = 2147483648).
  { assert (V : value (lit (F ieee) 1 31) = Some (Real 2147483648)).
    { rewrite value_SF. replace (B2SF (lit (F ieee) 1 31)) with (SpecFloat.S754_finite false 8388608 8)
        by (vm_compute; reflexivity). cbn. unfold F2R. cbn. do 2 f_equal. lra. }
    apply value_Real in V as [_ V]. now symmetry. }
  assert (B1 : Rabs (IZR (timestamp_duration_us t1 t2) * bpow radix2 0) <= B2R (lit (F ieee) 1 31)).
  { rewrite Big. cbn. rewrite Rmult_1_r, <- abs_IZR. apply IZR_le. exact Hd. }
  pose proof (lit_value 24 128 prec24 emax24 _ _ _ B1) as E1.
  pose proof (rnd_abs 24 128 prec24 _ _ B1) as [B2 _]. rewrite Big in B2.
  cbn [bpow] in E1, B2. rewrite Rmult_1_r in E1, B2.
  eexists. split; [exact E1|]. split; [reflexivity|].
  set (d := round _ _ _ _) in *.
  assert (E2 : value (of_int ieee 1000000) = Some (Real 1000000)) by (apply small_int; lia).
  apply (div_value 24 128 prec24 emax24 _ _ (lit (F ieee) 1 31) _ _ E1 E2); [lra|].
  rewrite Big. unfold Rdiv. rewrite Rabs_mult, (Rabs_pos_eq (/ 1000000)) by lra. pose proof (Rabs_pos d). lra.
Qed.

Lemma stale_detected t1 t2 : (300001 <= microseconds t1 t2 < 2 ^ 31)%Z ->
  lt (F ieee) (ctrl_timeout ieee) (timestamp_duration_s ieee t1 t2) = true.
Proof.
  intro H. unfold microseconds in H.
  assert (Ed : timestamp_duration_us t1 t2 = ((t2 - t1) mod 2 ^ 32)%Z).
  { unfold timestamp_duration_us, u32, s32. rewrite sN_id by (unfold uN; lia). reflexivity. }
  destruct (duration_value t1 t2) as (d & E1 & Ed' & E2).
  change (lt (F ieee)) with (lt binary32). destruct binary32_ordered as [Hlt _]. rewrite Hlt, E2, value_timeout. cbn [xlt].
  assert (D1 : 300001 <= d).
  { rewrite <- (B2R_small 300001) by lia. rewrite Ed'. apply (rnd_ge 24 128 prec24).
    rewrite B2R_small by lia. rewrite Ed. apply IZR_le. lia. }
  pose proof (div_value 24 128 prec24 emax24 (of_int ieee 300001) (of_int ieee 1000000) (of_int ieee 1) 300001 1000000
    (small_int 300001 ltac:(lia)) (small_int 1000000 ltac:(lia)) ltac:(lra)) as V.
  assert (B : Rabs (300001 / 1000000) <= B2R (of_int ieee 1)).
  { rewrite B2R_small by lia. rewrite Rabs_pos_eq; lra. }
  specialize (V B). apply value_Real in V as [_ V].
  change (Bdiv mode_NE (of_int ieee 300001) (of_int ieee 1000000))
    with (div (F ieee) (of_int ieee 300001) (of_int ieee 1000000)) in V. rewrite value_030 in V.
  assert (M : round radix2 (SpecFloat.fexp 24 128) (round_mode mode_NE) (300001 / 1000000) <=
              round radix2 (SpecFloat.fexp 24 128) (round_mode mode_NE) (d / 1000000)).
  { apply round_le; try apply (fexp_correct 24 128 prec24); try apply valid_rnd_N; lra. }
  destruct (rlt_spec (10066330 * / 33554432) (round radix2 (SpecFloat.fexp 24 128) (round_mode mode_NE) (d / 1000000))); [reflexivity|].
  exfalso. lra.
Qed.

Lemma fresh_accepted t1 t2 : (0 <= microseconds t1 t2 <= 300000)%Z ->
  lt (F ieee) (ctrl_timeout ieee) (timestamp_duration_s ieee t1 t2) = false.
Proof.
  intro H. unfold microseconds in H.
  assert (Ed : timestamp_duration_us t1 t2 = ((t2 - t1) mod 2 ^ 32)%Z).
  { unfold timestamp_duration_us, u32, s32. rewrite sN_id by (unfold uN; lia). reflexivity. }
  destruct (duration_value t1 t2) as (d & E1 & Ed' & E2).
  change (lt (F ieee)) with (lt binary32). destruct binary32_ordered as [Hlt _]. rewrite Hlt, E2, value_timeout. cbn [xlt].
  assert (D1 : d <= 300000).
  { rewrite <- (B2R_small 300000) by lia. rewrite Ed'. apply (rnd_le 24 128 prec24).
    rewrite B2R_small by lia. rewrite Ed. apply IZR_le. lia. }
  assert (M : round radix2 (SpecFloat.fexp 24 128) (round_mode mode_NE) (d / 1000000) <= B2R (ctrl_timeout ieee)).
  { apply (rnd_le 24 128 prec24). pose proof value_timeout as V. apply value_Real in V as [_ V]. rewrite <- V. lra. }
  pose proof value_timeout as V. apply value_Real in V as [_ V]. rewrite <- V in M.
  destruct (rlt_spec (10066330 * / 33554432) (round radix2 (SpecFloat.fexp 24 128) (round_mode mode_NE) (d / 1000000))); [|reflexivity].
  exfalso. lra.
Qed.
