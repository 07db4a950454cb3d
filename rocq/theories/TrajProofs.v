From Coq Require Import ZArith Reals List Bool Lia Lra Psatz.
From Flocq Require Import Core.
From Verif Require Import CBase CRes FloatModel PidModel QuadModel QuadProps EncModel LieSpec TrajModel TrajSpec.
Import ListNotations.
Local Open Scope R_scope.

Lemma flag_bit w k : (0 <= k)%Z -> has_flag w (2 ^ k) = Z.testbit w k.
Proof.
  intro Hk. unfold has_flag. destruct (Z.testbit w k) eqn:E.
  - destruct (Z.eqb_spec (Z.land w (2 ^ k)) 0) as [H|H]; auto.
    assert (Z.testbit (Z.land w (2 ^ k)) k = true) by now rewrite Z.land_spec, E, Z.pow2_bits_true.
    rewrite H, Z.bits_0 in H0. discriminate.
  - destruct (Z.eqb_spec (Z.land w (2 ^ k)) 0) as [H|H]; auto. exfalso. apply H. apply Z.bits_inj'. intros j Hj.
    rewrite Z.land_spec, Z.bits_0, Z.pow2_bits_eqb by auto. destruct (Z.eqb_spec k j); subst; rewrite ?E, ?andb_false_r; auto.
Qed.
Lemma has_goal w : has_flag w TRAJ_END_GOAL_REACHED = Z.testbit w 0. Proof. apply (flag_bit w 0). lia. Qed.
Lemma has_near w : has_flag w TRAJ_END_NEAR_GOAL = Z.testbit w 5. Proof. apply (flag_bit w 5). lia. Qed.
Lemma has_coll w : has_flag w TRAJ_END_COLLISION = Z.testbit w 1. Proof. apply (flag_bit w 1). lia. Qed.
Lemma has_timer w : has_flag w TRAJ_END_TIMER = Z.testbit w 3. Proof. apply (flag_bit w 3). lia. Qed.

(** * Angles *)
Lemma cs_period c a (k : Z) : c = a + 2 * IZR k * PI -> same_angle c a.
Proof. intros ->. now exists k. Qed.
Lemma same_cs a b : same_angle a b -> cos a = cos b /\ sin a = sin b.
Proof.
  intros [k ->]. destruct (Z_le_gt_dec 0 k).
  - replace (IZR k) with (INR (Z.to_nat k)) by (rewrite INR_IZR_INZ, Z2Nat.id by lia; auto). rewrite cos_period, sin_period. auto.
  - assert (H : b = (b + 2 * IZR k * PI) + 2 * INR (Z.to_nat (- k)) * PI) by (rewrite INR_IZR_INZ, Z2Nat.id, opp_IZR by lia; ring).
    rewrite H at 2 4. rewrite cos_period, sin_period. auto.
Qed.
Lemma smod_spec a : Rabs a <= 3 * PI -> same_angle (simple_modulo_2pi a) a /\ Rabs (simple_modulo_2pi a) <= PI.
Proof.
  intro H. pose proof PI_RGT_0. unfold simple_modulo_2pi. apply Rabs_le_inv in H.
  destruct (ltb_spec a (- PI)); [split; [apply (cs_period _ _ 1); ring|apply Rabs_le; lra]|].
  destruct (ltb_spec PI a); [split; [apply (cs_period _ _ (-1)); ring|apply Rabs_le; lra]|].
  split; [apply (cs_period _ _ 0); ring|apply Rabs_le; lra].
Qed.
Lemma same_trans a b c : same_angle a b -> same_angle b c -> same_angle a c.
Proof. intros [k ->] [j ->]. exists (k + j)%Z. rewrite plus_IZR. ring. Qed.
Lemma mod_spec a b : modulo_2pi a = OK b -> same_angle b a /\ Rabs b <= PI.
Proof.
  unfold modulo_2pi. intro H. dob H. inversion H; subst b. apply to_int32_inv in E. subst a0. pose proof PI_RGT_0 as HP.
  pose proof (trunc_near (a / (2 * PI))) as T. set (k := Ztrunc (a / (2 * PI))) in *.
  assert (Hk : Rabs (a - IZR k * (2 * PI)) <= 3 * PI).
  { replace (a - IZR k * (2 * PI)) with (- ((IZR k - a / (2 * PI)) * (2 * PI))) by (field; lra).
    rewrite Rabs_Ropp, Rabs_mult, (Rabs_pos_eq (2 * PI)) by lra. nra. }
  destruct (smod_spec _ Hk) as [A B]. split; auto. apply (same_trans _ _ _ A). apply (cs_period _ _ (- k)). rewrite opp_IZR. ring.
Qed.
Lemma same_plus a b c : same_angle a b -> same_angle (c + a) (c + b).
Proof. intros [k ->]. exists k. ring. Qed.

Lemma atan_polar x y : 0 < x -> let r := sqrt (x * x + y * y) in x = r * cos (atan (y / x)) /\ y = r * sin (atan (y / x)).
Proof.
  intros Hx r. set (t := atan (y / x)).
  assert (Ht : tan t = y / x) by apply tan_atan.
  assert (Hb : - PI / 2 < t < PI / 2) by (unfold t; pose proof (atan_bound (y / x)); lra).
  assert (Hc : 0 < cos t) by (apply cos_gt_0; lra).
  assert (Hs : sin t = y / x * cos t) by (rewrite <- Ht; unfold tan; field; lra).
  assert (Hr : r * cos t = x).
  { assert (R1 : r * r = x * x + y * y) by (unfold r; rewrite sqrt_sqrt; nra).
    assert (Rp : 0 <= r) by apply sqrt_pos.
    pose proof (sin2_cos2 t) as SC. unfold Rsqr in SC. rewrite Hs in SC.
    assert (E : (r * cos t) * (r * cos t) = x * x).
    { replace (r * cos t * (r * cos t)) with (r * r * (cos t * cos t)) by ring. rewrite R1.
      assert (H : y / x * cos t * (y / x * cos t) * (x * x) = y * y * (cos t * cos t)) by (field; lra). nra. }
    assert (0 <= r * cos t) by nra. nra. }
  split; [lra|]. rewrite Hs. replace (r * (y / x * cos t)) with (r * cos t * (y / x)) by ring. rewrite Hr. field. lra.
Qed.
Lemma atan2_polar x y : let r := sqrt (x * x + y * y) in x = r * cos (atan2 y x) /\ y = r * sin (atan2 y x).
Proof.
  cbv zeta. unfold atan2. destruct (ltb_spec 0 x) as [H|H].
  - now apply atan_polar.
  - destruct (ltb_spec x 0) as [H0|H0].
    + pose proof (atan_polar (- x) (- y) ltac:(lra)) as [A B]. cbv zeta in A, B.
      replace (- y / - x) with (y / x) in A, B by (field; lra). replace (- x * - x + - y * - y) with (x * x + y * y) in A, B by ring.
      destruct (ltb y 0).
      * unfold Rminus. rewrite cos_plus, sin_plus, cos_neg, sin_neg, cos_PI, sin_PI. lra.
      * rewrite neg_cos, neg_sin. lra.
    + assert (x = 0) by lra. subst x. replace (0 * 0 + y * y) with (Rsqr y) by (unfold Rsqr; ring). rewrite sqrt_Rsqr_abs.
      destruct (ltb_spec 0 y).
      * rewrite cos_PI2, sin_PI2, Rabs_pos_eq by lra. lra.
      * destruct (ltb_spec y 0).
        -- rewrite cos_neg, sin_neg, cos_PI2, sin_PI2, Rabs_left by lra. lra.
        -- assert (y = 0) by lra. subst y. rewrite Rabs_R0. lra.
Qed.
Lemma atan2_range y x : Rabs (atan2 y x) <= PI.
Proof.
  pose proof PI_RGT_0. unfold atan2. pose proof (atan_bound (y / x)). apply Rabs_le.
  destruct (ltb_spec 0 x); [lra|]. destruct (ltb_spec x 0).
  - destruct (ltb_spec y 0).
    + assert (0 < y / x). { replace (y / x) with (- y * / - x) by (field; lra). apply Rmult_lt_0_compat; [lra|]. apply Rinv_0_lt_compat. lra. }
      assert (0 < atan (y / x)) by (rewrite <- atan_0; apply atan_increasing; auto). lra.
    + assert (Hq : y / x <= 0). { replace (y / x) with (- (y * / - x)) by (field; lra). assert (0 <= y * / - x); [|lra]. apply Rmult_le_pos; [lra|]. left. apply Rinv_0_lt_compat. lra. }
      assert (atan (y / x) <= 0). { destruct Hq as [Hq|Hq]; [left; rewrite <- atan_0; now apply atan_increasing|rewrite Hq, atan_0; lra]. } lra.
  - destruct (ltb_spec 0 y); [lra|]. destruct (ltb_spec y 0); lra.
Qed.

(** * Commands that set both consigns at once *)
Definition delta (o : option (option R)) (k : R -> R) (keep here : Z) (z : Z) : Prop :=
  match o with
  | None => z = keep
  | Some None => z = here
  | Some (Some v) => z = (here + Ztrunc (k v))%Z
  end.
Lemma goto_inv r st d a r' : goto_d_a_rel r st d a = OK r' ->
  state r' = st /\ scheduled r' = false /\ rs r' = rs r /\ mode r' = mode r /\ motors r' = motors r /\
  delta a (fun a => a * distance_imp_per_mm r * track_mm r / 2) (consign_value (angle_cs r)) (rs_get_angle (rs r)) (consign_value (angle_cs r')) /\
  delta d (fun d => d * distance_imp_per_mm r) (consign_value (distance_cs r)) (rs_get_distance (rs r)) (consign_value (distance_cs r')) /\
  (a <> None -> read_angle (tgt r') = OK (consign_value (angle_cs r'))) /\ (d <> None -> read_distance (tgt r') = OK (consign_value (distance_cs r'))) /\
  angle_bd r' = angle_bd r /\ distance_bd r' = distance_bd r /\ previous_out (consign_filter (angle_cs r')) = previous_out (consign_filter (angle_cs r)).
Proof.
  unfold goto_d_a_rel. intro H. cbn [set_traj delete_event set_quadramp_acc set_quadramp_speed set_cs rs scheduled tgt state] in H.
  assert (Ha : forall (x : res robot) f, rbind x f = OK r' -> exists y, x = OK y /\ f y = OK r').
  { intros [y|] f E; [exists y; auto|discriminate]. }
  apply Ha in H as (r1 & H1 & H2).
  destruct a as [a|].
  - dob H1. dob H1. inversion H1; subst r1; clear H1. apply int_inv in E0 as [-> _].
    assert (A : delta (Some a) (fun a => a * distance_imp_per_mm r * track_mm r / 2) (consign_value (angle_cs r)) (rs_get_angle (rs r)) (a0 + rs_get_angle (rs r))).
    { destruct a as [a|]; cbn [delta]; [apply to_int32_inv in E; subst a0; cbn; lia|inversion E; lia]. }
    destruct d as [d|].
    + dob H2. dob H2. inversion H2; subst r'; clear H2. apply int_inv in E1 as [-> _].
      assert (D : delta (Some d) (fun d => d * distance_imp_per_mm r) (consign_value (distance_cs r)) (rs_get_distance (rs r)) (a1 + rs_get_distance (rs r))).
      { destruct d as [d|]; cbn [delta]; [apply to_int32_inv in E0; subst a1; cbn; lia|inversion E0; lia]. }
      repeat split; auto; intros _; cbn; destruct (tgt r); reflexivity.
    + inversion H2; subst r'; clear H2. repeat split; auto; try congruence; intros _; cbn; destruct (tgt r); reflexivity.
  - inversion H1; subst r1; clear H1. destruct d as [d|].
    + dob H2. dob H2. inversion H2; subst r'; clear H2. apply int_inv in E0 as [-> _].
      assert (D : delta (Some d) (fun d => d * distance_imp_per_mm r) (consign_value (distance_cs r)) (rs_get_distance (rs r)) (a + rs_get_distance (rs r))).
      { destruct d as [d|]; cbn [delta]; [apply to_int32_inv in E; subst a; cbn; lia|inversion E; lia]. }
      repeat split; auto; try congruence; intros _; cbn; destruct (tgt r); reflexivity.
    + inversion H2; subst r'; clear H2. repeat split; auto; try congruence.
Qed.
Lemma hardstop_inv r r' : trajectory_hardstop r = OK r' -> stopped r r' /\ mode r' = mode r /\ angle_bd r' = angle_bd r /\ distance_bd r' = distance_bd r.
Proof.
  unfold trajectory_hardstop, trajectory_stop. intro H. dob H. inversion H; subst r'; clear H. apply goto_inv in E as (H1 & H2 & H3 & H4 & H5 & H6 & H7 & _ & _ & H8 & H9 & _).
  cbn in H6, H7. unfold stopped, axis_stopped. cbn. rewrite H3. repeat split; auto.
Qed.

(** * The control loop *)
Definition angle_on (m : board_mode) : bool := match m with ANGLE_DISTANCE | ANGLE_ONLY => true | _ => false end.
Definition distance_on (m : board_mode) : bool := match m with ANGLE_DISTANCE | DISTANCE_ONLY => true | _ => false end.
Lemma set_angle_inv s v s' w : rs_set_angle s v = OK (s', w) -> virtual_encoders s' = virtual_encoders s /\ pext_prev s' = pext_prev s /\
  virtual_pwm s' = mkPolar (p_distance (virtual_pwm s)) v /\ w = mkWheels (p_distance (virtual_pwm s) - v) (p_distance (virtual_pwm s) + v).
Proof.
  unfold rs_set_angle, rs_get_wheels_from_polar. cbn [p_distance p_angle]. intro H. dob H. dob E. dob E. inversion E; subst a. inversion H; subst.
  apply int_inv in E0 as [-> _]. apply int_inv in E1 as [-> _]. auto.
Qed.
Lemma set_distance_inv s v s' w : rs_set_distance s v = OK (s', w) -> virtual_encoders s' = virtual_encoders s /\ pext_prev s' = pext_prev s /\
  virtual_pwm s' = mkPolar v (p_angle (virtual_pwm s)) /\ w = mkWheels (v - p_angle (virtual_pwm s)) (v + p_angle (virtual_pwm s)).
Proof.
  unfold rs_set_distance, rs_get_wheels_from_polar. cbn [p_distance p_angle]. intro H. dob H. dob E. dob E. inversion E; subst a. inversion H; subst.
  apply int_inv in E0 as [-> _]. apply int_inv in E1 as [-> _]. auto.
Qed.
Definition frame (r r' : robot) : Prop := scheduled r' = scheduled r /\ state r' = state r /\ tgt r' = tgt r /\ mode r' = mode r /\
  pos_x r' = pos_x r /\ pos_y r' = pos_y r /\ pos_a r' = pos_a r /\ distance_imp_per_mm r' = distance_imp_per_mm r /\ track_mm r' = track_mm r /\
  game_start r' = game_start r /\ now r' = now r /\ win r' = win r.
Definition axis (on : bool) (c c' : cs) (feedback : Z) : Prop := if on then cs_manage c feedback = OK c' else c' = c.
Definition axis_out (on : bool) (c : cs) : Z := if on then out_value c else 0%Z.
Lemma control_axes_inv r r' : control_axes r = OK r' -> frame r r' /\ spd r' = spd r /\ angle_bd r' = angle_bd r /\ distance_bd r' = distance_bd r /\
  virtual_encoders (rs r') = virtual_encoders (rs r) /\ pext_prev (rs r') = pext_prev (rs r) /\
  axis (angle_on (mode r)) (angle_cs r) (angle_cs r') (p_angle (pext_prev (rs r))) /\
  axis (distance_on (mode r)) (distance_cs r) (distance_cs r') (p_distance (pext_prev (rs r))) /\
  motors r' = mkWheels (axis_out (distance_on (mode r)) (distance_cs r') - axis_out (angle_on (mode r)) (angle_cs r'))
                       (axis_out (distance_on (mode r)) (distance_cs r') + axis_out (angle_on (mode r)) (angle_cs r')).
Proof.
  unfold control_axes. fold (angle_on (mode r)). fold (distance_on (mode r)). intro H. dob H.
  set (da := distance_on (mode r)) in *. set (aa := angle_on (mode r)) in *.
  assert (P : frame r a /\ spd a = spd r /\ angle_bd a = angle_bd r /\ distance_bd a = distance_bd r /\ distance_cs a = distance_cs r /\
    virtual_encoders (rs a) = virtual_encoders (rs r) /\ pext_prev (rs a) = pext_prev (rs r) /\
    axis aa (angle_cs r) (angle_cs a) (p_angle (pext_prev (rs r))) /\ p_angle (virtual_pwm (rs a)) = axis_out aa (angle_cs a)).
  { clear H. unfold axis, axis_out. destruct aa.
    - dob E. dob E. destruct a1 as [s w]. cbv beta iota in E. inversion E; subst a; clear E. apply set_angle_inv in E1 as (A1 & A2 & A3 & A4).
      cbn. rewrite A1, A2, A3. repeat split; auto.
    - dob E. destruct a0 as [s w]. cbv beta iota in E. inversion E; subst a; clear E. apply set_angle_inv in E0 as (A1 & A2 & A3 & A4).
      cbn. rewrite A1, A2, A3. repeat split; auto. }
  clear E. destruct P as ((F1 & F2 & F3 & F4 & F5 & F6 & F7 & F8 & F9 & F10 & F11 & F12) & S & B1 & B2 & C & V & X & AX & O).
  rewrite C, X in H. unfold frame. destruct da; cbn [axis axis_out].
  - dob H. dob H. destruct a1 as [s w]. cbv beta iota in H. inversion H; subst r'; clear H. apply set_distance_inv in E0 as (A1 & A2 & A3 & A4).
    cbn [set_rs set_cs angle_cs distance_cs rs motors scheduled state tgt mode pos_x pos_y pos_a distance_imp_per_mm track_mm game_start now spd angle_bd distance_bd].
    rewrite A1, A2, A4, O. cbn. repeat split; auto; congruence.
  - dob H. destruct a0 as [s w]. cbv beta iota in H. inversion H; subst r'; clear H. apply set_distance_inv in E as (A1 & A2 & A3 & A4).
    cbn [set_rs set_cs angle_cs distance_cs rs motors scheduled state tgt mode pos_x pos_y pos_a distance_imp_per_mm track_mm game_start now spd angle_bd distance_bd].
    rewrite A1, A2, A4, O. cbn. repeat split; auto; congruence.
Qed.
Lemma control_inv r l rr s r' : base_ctrl r l rr s = OK r' -> exists sys, rs_update (rs r) l rr = OK sys /\ frame r r' /\
  virtual_encoders (rs r') = virtual_encoders sys /\ pext_prev (rs r') = pext_prev sys /\
  axis (angle_on (mode r)) (angle_cs r) (angle_cs r') (p_angle (pext_prev sys)) /\
  axis (distance_on (mode r)) (distance_cs r) (distance_cs r') (p_distance (pext_prev sys)) /\
  angle_bd r' = bd_manage (angle_bd r) (Z.abs (error_value (angle_cs r'))) /\ distance_bd r' = bd_manage (distance_bd r) (Z.abs (error_value (distance_cs r'))) /\
  (mode r <> SET_PWM -> motors r' = mkWheels (axis_out (distance_on (mode r)) (distance_cs r') - axis_out (angle_on (mode r)) (angle_cs r'))
                       (axis_out (distance_on (mode r)) (distance_cs r') + axis_out (angle_on (mode r)) (angle_cs r'))) /\
  (mode r = SET_PWM -> motors r' = motors r) /\ spd r' = s.
Proof.
  unfold base_ctrl. intro H. dob H. cbn [set_rs mode] in H. dob H. dob H. inversion H; subst r'; clear H.
  unfold control_blocking in E1. dob E1. dob E1. inversion E1; subst a1; clear E1. apply int_inv in E2 as [-> _]. apply int_inv in E3 as [-> _].
  exists a. split; auto.
  assert (P : mode r <> SET_PWM /\ control_axes (set_rs r a (motors r)) = OK a0 \/ mode r = SET_PWM /\ a0 = set_rs r a (motors r)).
  { destruct (mode r); try (left; split; [discriminate|exact E0]). right. inversion E0. auto. }
  clear E0. destruct P as [[M P]|[M ->]].
  - apply control_axes_inv in P as ((F1 & F2 & F3 & F4 & F5 & F6 & F7 & F8 & F9 & F10 & F11 & F12) & S & B1 & B2 & V & X & AX & DX & O).
    cbn in F1, F2, F3, F4, F5, F6, F7, F8, F9, F10, F11, F12, B1, B2, V, X, AX, DX, O. unfold frame. cbn. rewrite V, X, B1, B2.
    repeat split; auto. intro; contradiction.
  - unfold frame. cbn. rewrite M. cbn. repeat split; auto. intro; contradiction.
Qed.
Lemma cs_manage_inv c f c' : cs_manage c f = OK c' -> consign_value c' = consign_value c /\ error_value c' = (filtered_consign_value c' - f)%Z /\
  quadramp_do_filter (consign_filter c) (consign_value c) = OK (consign_filter c', filtered_consign_value c').
Proof.
  unfold cs_manage. intro H. dob H. destruct a as [q g]. cbv beta iota in H. dob H. dob H. destruct a0 as [p o]. inversion H; subst c'. cbn.
  apply int_inv in E0 as [-> _]. auto.
Qed.
Definition settled (c : cs) (here : Z) : Prop := axis_stopped c here.
Lemma cs_manage_settled c f c' here : settled c here -> cs_manage c f = OK c' -> settled c' here /\ filtered_consign_value c' = here.
Proof.
  intros (A & B & C) H. apply cs_manage_inv in H as (H1 & _ & H2). rewrite A in H1, H2.
  destruct (quadramp_arrives (consign_filter c) here) as (q & Q1 & Q2 & Q3 & _). { rewrite B, Rminus_eq_0, Rabs_R0. lra. }
  rewrite Q1 in H2. injection H2 as Eq Ef. unfold settled, axis_stopped. rewrite <- Eq, <- Ef. auto.
Qed.
Lemma axis_consign on c c' f : axis on c c' f -> consign_value c' = consign_value c.
Proof. destruct on; cbn; [intro H; now apply cs_manage_inv in H|now intros ->]. Qed.
Lemma axis_settled on c c' f here : axis on c c' f -> settled c here -> settled c' here.
Proof. destruct on; cbn; [intros H S; now apply (cs_manage_settled c f c')|now intros ->]. Qed.
