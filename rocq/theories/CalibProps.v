(** C93. Calibration of the odometry. *)
From Coq Require Import ZArith Reals Lra Lia List Bool.
From Flocq Require Import Core IEEE754.BinarySingleNaN.
From Verif Require Import CRes FloatModel FloatProofs PidSpec LieSpec PosModel PosProps EncModel CalibModel CalibSpec CalibProofs.
Import ListNotations.
Local Open Scope R_scope.

Lemma lit_exact n : lit (F exact) n 0 = real (IZR n).
Proof. unfold real. cbn. f_equal. f_equal. ring. Qed.
Lemma div_exact a b : b <> 0 -> div (F exact) (real a) (real b) = real (a / b).
Proof. intro H. unfold real. cbn [exact exact_fmt F div xdiv]. destruct (req_spec b 0) as [E|_]; [easy|reflexivity]. Qed.
Lemma heading_odo p c w : sensible p c ->
  heading p w = (odo_distance c w * (k_right p / g_right c - k_left p / g_left c) + odo_angle c w * (k_right p / g_right c + k_left p / g_left c)) / p_track p.
Proof. intros (? & ? & ? & ? & ? & ? & ?). unfold heading, odo_distance, odo_angle. field. lra. Qed.

(** Between its two readings at the wall, wheel_calib turns the robot by nothing, if it drifts by less than half a turn. *)
Lemma wheel_no_turn p c wall ta td dir count l w w' :
  sensible p c -> (dir = 1 \/ dir = -1)%Z -> 0 <= ta -> 0 <= td -> wheel_moves dir count = OK l -> small_drift p c ta td (IZR count) ->
  same_angle (heading p w) wall -> all_done p c wall ta td l w w' -> heading p w' = heading p w.
Proof.
  intros Se Di Ta Td Mv Sm Wa Do. unfold wheel_moves in Mv. destruct (count <? 0)%Z eqn:C; [discriminate|]. apply Z.ltb_ge in C.
  assert (E : forall a b : list move, OK a = OK b -> a = b) by congruence. apply E in Mv. subst l. clear E.
  rewrite app_comm_cons in Do. apply align_last in Do as (u & Do & Al & Ne).
  set (n := Z.to_nat count) in *. assert (Nn : INR n = IZR count) by (unfold n; rewrite INR_IZR_INZ, Z2Nat.id by lia; reflexivity).
  pose proof (fun N => odometry_sum _ _ _ _ _ _ _ _ N Do) as Sum.
  destruct Sum as [Sa Sd]; [intros [H|H]; [discriminate|now apply no_align_rounds in H]|].
  replace (INR (length (D_rel (- dir * 100) :: concat (repeat (wheel_round dir) n)))) with (1 + 4 * IZR count) in Sa, Sd
    by (cbn [length]; rewrite len_rounds, S_INR, mult_INR, Nn; cbn [INR]; lra).
  change (D_rel (- dir * 100) :: concat (repeat (wheel_round dir) n)) with ([D_rel (- dir * 100)] ++ concat (repeat (wheel_round dir) n)) in Sa, Sd.
  rewrite sumR_app in Sa, Sd. destruct (sum_rounds c dir n) as [R1 R2]. rewrite R1 in Sa. rewrite R2 in Sd.
  replace (sumR (turn_of c) [D_rel (- dir * 100)]) with 0 in Sa by (cbn; lra).
  replace (sumR (way_of c) [D_rel (- dir * 100)]) with (- IZR dir * 100 * c_imp c) in Sd by (cbn; rewrite mult_IZR, opp_IZR; lra).
  rewrite Nn in Sd. rewrite !Rplus_0_r, Rminus_0_r in Sa.
  apply same_angle_near; [eapply same_angle_trans; [exact Al|]; destruct Wa as (k & ->); exists (- k)%Z; rewrite opp_IZR; ring|].
  assert (Hu : Rabs (heading p u - heading p w) < PI).
  { rewrite !(heading_odo p c) by exact Se. destruct Se as (K1 & K2 & L & G1 & G2 & I & T).
    set (x := k_right p / g_right c - k_left p / g_left c) in *. set (y := k_right p / g_right c + k_left p / g_left c) in *.
    assert (Y : 0 < y) by (unfold y; apply Rplus_lt_0_compat; now apply Rdiv_lt_0_compat).
    replace ((odo_distance c u * x + odo_angle c u * y) / p_track p - (odo_distance c w * x + odo_angle c w * y) / p_track p)
      with (((odo_distance c u - odo_distance c w) * x + (odo_angle c u - odo_angle c w) * y) / p_track p) by (field; lra).
    unfold Rdiv. rewrite Rabs_mult, (Rabs_right (/ p_track p)) by (apply Rle_ge, Rlt_le, Rinv_0_lt_compat; lra).
    apply (Rmult_lt_reg_r (p_track p)); [exact L|]. rewrite Rmult_assoc, Rinv_l, Rmult_1_r by lra.
    eapply Rle_lt_trans; [|exact Sm]. eapply Rle_trans; [apply Rabs_triang|]. rewrite !Rabs_mult, (Rabs_right y) by lra.
    assert (Dd : Rabs (odo_distance c u - odo_distance c w) <= (100 + 1600 * IZR count) * c_imp c + (1 + 4 * IZR count) * td).
    { assert (Z0 : 0 <= IZR count) by (apply (IZR_le 0); lia).
      set (dd := odo_distance c u - odo_distance c w) in *.
      assert (B : Rabs (- IZR dir * 100 * c_imp c + - IZR dir * 1600 * IZR count * c_imp c) = (100 + 1600 * IZR count) * c_imp c).
      { destruct Di as [-> | ->].
        - match goal with |- Rabs ?x = _ => replace x with (- ((100 + 1600 * IZR count) * c_imp c)) by ring end.
          rewrite Rabs_Ropp. apply Rabs_right. nra.
        - match goal with |- Rabs ?x = _ => replace x with ((100 + 1600 * IZR count) * c_imp c) by ring end.
          apply Rabs_right. nra. }
      set (q := - IZR dir * 100 * c_imp c + - IZR dir * 1600 * IZR count * c_imp c) in *.
      replace dd with ((dd - q) + q) by ring. eapply Rle_trans; [apply Rabs_triang|]. lra. }
    fold x y. apply Rplus_le_compat; apply Rmult_le_compat_r; [apply Rabs_pos|exact Dd|lra|exact Sa]. }
  replace (heading p w' - heading p w) with ((heading p w' - heading p u) + (heading p u - heading p w)) by ring.
  eapply Rle_lt_trans; [apply Rabs_triang|]. lra.
Qed.

(** What wheel_gains computes, without rounding. *)
Lemma wheel_gains_exact s e gl gr : (- 2 ^ 31 <= r_angle s - r_angle e < 2 ^ 31)%Z -> (- 2 ^ 31 <= r_distance s - r_distance e < 2 ^ 31)%Z ->
  r_distance s <> r_distance e ->
  wheel_gains exact s e (real gl) (real gr) =
    OK (real ((1 + IZR (r_angle s - r_angle e) / IZR (r_distance s - r_distance e)) * gl),
        real ((1 - IZR (r_angle s - r_angle e) / IZR (r_distance s - r_distance e)) * gr)).
Proof.
  intros A D N. assert (I : forall z, (- 2 ^ 31 <= z < 2 ^ 31)%Z -> int z = OK z).
  { intros z H. unfold int. replace ((- 2 ^ 31 <=? z) && (z <? 2 ^ 31))%Z with true; [reflexivity|].
    symmetry. apply andb_true_iff. rewrite Z.leb_le, Z.ltb_lt. lia. }
  unfold wheel_gains. rewrite (I _ A). cbn [rbind]. rewrite (I _ D). cbn [rbind]. rewrite !lit_exact, div_exact by (apply not_0_IZR; lia).
  rewrite dbl_exact. reflexivity.
Qed.

(** C93. wheel_calib: at the end, the angle of the odometry follows the heading, and an impulse is as long for one wheel as for the
    other: the harmonic mean of the lengths before. *)
Theorem wheel_calib_balances p c wall ta td dir count l w w' s e :
  sensible p c -> (dir = 1 \/ dir = -1)%Z -> 0 <= ta -> 0 <= td -> wheel_moves dir count = OK l -> small_drift p c ta td (IZR count) ->
  same_angle (heading p w) wall -> all_done p c wall ta td l w w' -> reads c w 0 s -> reads c w' 0 e ->
  (- 2 ^ 31 <= r_angle s - r_angle e < 2 ^ 31)%Z -> (- 2 ^ 31 <= r_distance s - r_distance e < 2 ^ 31)%Z -> r_distance s <> r_distance e ->
  exists gl gr, wheel_gains exact s e (real (g_left c)) (real (g_right c)) = OK (real gl, real gr) /\ 0 < gl /\ 0 < gr /\
    follows_heading p (mkConfig gl gr (c_imp c) (c_track c)) /\
    gl / k_left p = gr / k_right p /\ 2 / (gl / k_left p) = 1 / (g_left c / k_left p) + 1 / (g_right c / k_right p).
Proof.
  intros Se Di Ta Td Mv Sm Wa Do [Rs1 Rs2] [Re1 Re2] Ia Id Nd.
  pose proof (wheel_no_turn _ _ _ _ _ _ _ _ _ _ Se Di Ta Td Mv Sm Wa Do) as He.
  assert (Z0 : forall x y, Rabs (x - y) <= 0 -> x = y) by (intros x y H; apply Rminus_diag_uniq; destruct (Req_dec (x - y) 0) as [E|E]; [exact E|apply Rabs_pos_lt in E; lra]).
  apply Z0 in Rs1, Rs2, Re1, Re2. clear Z0.
  rewrite wheel_gains_exact by assumption. do 2 eexists. split; [reflexivity|].
  assert (Nd' : IZR (r_distance s - r_distance e) <> 0) by (apply not_0_IZR; lia).
  rewrite !minus_IZR, Rs1, Rs2, Re1, Re2 in *. destruct Se as (K1 & K2 & L & G1 & G2 & I & T).
  set (kl := k_left p) in *. set (kr := k_right p) in *. set (gl := g_left c) in *. set (gr := g_right c) in *.
  set (x := (n_left w - n_left w') / kr).
  assert (Xl : n_left w - n_left w' = x * kr) by (unfold x; field; lra).
  assert (Xr : n_right w - n_right w' = x * kl).
  { unfold heading in He. fold kl kr in He. assert (E : kr * n_right w' - kl * n_left w' = kr * n_right w - kl * n_left w).
    { apply (Rmult_eq_reg_r (/ p_track p)); [exact He|apply Rinv_neq_0_compat; lra]. }
    apply (Rmult_eq_reg_l kr); [|lra]. replace (kr * (n_right w - n_right w')) with (kl * (n_left w - n_left w')) by lra. rewrite Xl. ring. }
  assert (Fd : odo_distance c w - odo_distance c w' = x * (gr * kl + gl * kr) / 2).
  { unfold odo_distance. fold gl gr. replace ((gr * n_right w + gl * n_left w) / 2 - (gr * n_right w' + gl * n_left w') / 2)
      with ((gr * (n_right w - n_right w') + gl * (n_left w - n_left w')) / 2) by field. rewrite Xl, Xr. field. }
  assert (Fa : odo_angle c w - odo_angle c w' = x * (gr * kl - gl * kr) / 2).
  { unfold odo_angle. fold gl gr. replace ((gr * n_right w - gl * n_left w) / 2 - (gr * n_right w' - gl * n_left w') / 2)
      with ((gr * (n_right w - n_right w') - gl * (n_left w - n_left w')) / 2) by field. rewrite Xl, Xr. field. }
  rewrite Fd in Nd'. assert (Xn : x <> 0) by (intros E; apply Nd'; rewrite E; field).
  rewrite Fa, Fd. assert (P1 : 0 < gr * kl) by nra. assert (P2 : 0 < gl * kr) by nra.
  replace ((1 + x * (gr * kl - gl * kr) / 2 / (x * (gr * kl + gl * kr) / 2)) * gl) with (2 * gl * gr / (gr * kl + gl * kr) * kl) by (field; lra).
  replace ((1 - x * (gr * kl - gl * kr) / 2 / (x * (gr * kl + gl * kr) / 2)) * gr) with (2 * gl * gr / (gr * kl + gl * kr) * kr) by (field; lra).
  set (h := 2 * gl * gr / (gr * kl + gl * kr)). assert (Hp : 0 < h) by (unfold h; apply Rdiv_lt_0_compat; nra).
  split; [nra|]. split; [nra|]. split; [|split].
  - exists (h * p_track p / 2). split; [apply Rdiv_lt_0_compat; nra|]. intro v. unfold odo_angle, heading. cbn [g_left g_right].
    fold kl kr. field. lra.
  - fold kl kr. field. lra.
  - fold kl kr gl gr. replace (h * kl / kl) with h by (field; lra). unfold h. field. lra.
Qed.

(** With readings in whole impulses, wrong by at most [e0] impulses, the new gains leave a rotation of a few impulses over the whole way. *)
Theorem wheel_calib_residual p c wall ta td dir count l w w' s e e0 :
  sensible p c -> (dir = 1 \/ dir = -1)%Z -> 0 <= ta -> 0 <= td -> wheel_moves dir count = OK l -> small_drift p c ta td (IZR count) ->
  same_angle (heading p w) wall -> all_done p c wall ta td l w w' -> reads c w e0 s -> reads c w' e0 e ->
  (- 2 ^ 31 <= r_angle s - r_angle e < 2 ^ 31)%Z -> (- 2 ^ 31 <= r_distance s - r_distance e < 2 ^ 31)%Z -> r_distance s <> r_distance e ->
  exists gl gr, wheel_gains exact s e (real (g_left c)) (real (g_right c)) = OK (real gl, real gr) /\
    let c' := mkConfig gl gr (c_imp c) (c_track c) in
    Rabs (odo_angle c' w' - odo_angle c' w) <= 4 * e0 * (1 + 2 * e0 / Rabs (IZR (r_distance s - r_distance e))).
Proof.
  intros Se Di Ta Td Mv Sm Wa Do [Rs1 Rs2] [Re1 Re2] Ia Id Nd.
  pose proof (wheel_no_turn _ _ _ _ _ _ _ _ _ _ Se Di Ta Td Mv Sm Wa Do) as He.
  rewrite wheel_gains_exact by assumption. do 2 eexists. split; [reflexivity|]. cbv zeta.
  assert (Nd' : IZR (r_distance s - r_distance e) <> 0) by (apply not_0_IZR; lia).
  rewrite !minus_IZR in *. destruct Se as (K1 & K2 & L & G1 & G2 & I & T).
  set (dd := IZR (r_distance s) - IZR (r_distance e)) in *. set (da := IZR (r_angle s) - IZR (r_angle e)) in *.
  set (kl := k_left p) in *. set (kr := k_right p) in *. set (gl := g_left c) in *. set (gr := g_right c) in *.
  set (x := (n_left w - n_left w') / kr).
  assert (Xl : n_left w - n_left w' = x * kr) by (unfold x; field; lra).
  assert (Xr : n_right w - n_right w' = x * kl).
  { unfold heading in He. fold kl kr in He. assert (E : kr * n_right w' - kl * n_left w' = kr * n_right w - kl * n_left w).
    { apply (Rmult_eq_reg_r (/ p_track p)); [exact He|apply Rinv_neq_0_compat; lra]. }
    apply (Rmult_eq_reg_l kr); [|lra]. replace (kr * (n_right w - n_right w')) with (kl * (n_left w - n_left w')) by lra. rewrite Xl. ring. }
  assert (Fd : odo_distance c w - odo_distance c w' = x * (gr * kl + gl * kr) / 2).
  { unfold odo_distance. fold gl gr. replace ((gr * n_right w + gl * n_left w) / 2 - (gr * n_right w' + gl * n_left w') / 2)
      with ((gr * (n_right w - n_right w') + gl * (n_left w - n_left w')) / 2) by field. rewrite Xl, Xr. field. }
  assert (Fa : odo_angle c w - odo_angle c w' = x * (gr * kl - gl * kr) / 2).
  { unfold odo_angle. fold gl gr. replace ((gr * n_right w - gl * n_left w) / 2 - (gr * n_right w' - gl * n_left w') / 2)
      with ((gr * (n_right w - n_right w') - gl * (n_left w - n_left w')) / 2) by field. rewrite Xl, Xr. field. }
  set (D := x * (gr * kl + gl * kr) / 2) in *. set (A := x * (gr * kl - gl * kr) / 2) in *.
  assert (Ed : Rabs (dd - D) <= 2 * e0).
  { rewrite <- Fd. unfold dd. replace (IZR (r_distance s) - IZR (r_distance e) - (odo_distance c w - odo_distance c w'))
      with ((IZR (r_distance s) - odo_distance c w) - (IZR (r_distance e) - odo_distance c w')) by ring.
    eapply Rle_trans; [apply Rabs_triang|]. rewrite Rabs_Ropp. lra. }
  assert (Ea : Rabs (da - A) <= 2 * e0).
  { rewrite <- Fa. unfold da. replace (IZR (r_angle s) - IZR (r_angle e) - (odo_angle c w - odo_angle c w'))
      with ((IZR (r_angle s) - odo_angle c w) - (IZR (r_angle e) - odo_angle c w')) by ring.
    eapply Rle_trans; [apply Rabs_triang|]. rewrite Rabs_Ropp. lra. }
  assert (P1 : 0 < gr * kl) by nra. assert (P2 : 0 < gl * kr) by nra.
  assert (AD : Rabs A <= Rabs D).
  { unfold A, D, Rdiv. rewrite !Rabs_mult. apply Rmult_le_compat_r; [apply Rabs_pos|]. apply Rmult_le_compat_l; [apply Rabs_pos|].
    rewrite (Rabs_right (gr * kl + gl * kr)) by lra. apply Rabs_le. lra. }
  unfold odo_angle. cbn [g_left g_right].
  replace (((1 - da / dd) * gr * n_right w' - (1 + da / dd) * gl * n_left w') / 2 - ((1 - da / dd) * gr * n_right w - (1 + da / dd) * gl * n_left w) / 2)
    with (- (((1 - da / dd) * gr * (n_right w - n_right w') - (1 + da / dd) * gl * (n_left w - n_left w')) / 2)) by (field; exact Nd').
  rewrite Xl, Xr, Rabs_Ropp.
  replace (((1 - da / dd) * gr * (x * kl) - (1 + da / dd) * gl * (x * kr)) / 2) with (A - da / dd * D) by (unfold A, D; field; exact Nd').
  replace (A - da / dd * D) with (((dd - D) * A - (da - A) * D) / dd) by (field; exact Nd').
  assert (E0 : 0 <= e0) by (pose proof (Rabs_pos (dd - D)); lra).
  unfold Rdiv. rewrite Rabs_mult, (Rabs_inv dd).
  assert (Dp : 0 < Rabs dd) by now apply Rabs_pos_lt.
  apply (Rmult_le_reg_r (Rabs dd)); [exact Dp|]. rewrite Rmult_assoc, Rinv_l, Rmult_1_r by lra.
  replace (4 * e0 * (1 + 2 * e0 * / Rabs dd) * Rabs dd) with (4 * e0 * (Rabs dd + 2 * e0)) by (field; lra).
  assert (DD : Rabs D <= Rabs dd + 2 * e0).
  { replace D with (dd - (dd - D)) at 1 by ring. eapply Rle_trans; [apply Rabs_triang|]. rewrite Rabs_Ropp. lra. }
  eapply Rle_trans; [apply Rabs_triang|]. rewrite Rabs_Ropp, !Rabs_mult.
  pose proof (Rabs_pos A). pose proof (Rabs_pos D). pose proof (Rabs_pos (dd - D)). pose proof (Rabs_pos (da - A)).
  assert (Rabs (dd - D) * Rabs A <= 2 * e0 * Rabs D) by (apply Rmult_le_compat; assumption).
  assert (Rabs (da - A) * Rabs D <= 2 * e0 * Rabs D) by (apply Rmult_le_compat_r; assumption).
  assert (e0 * Rabs D <= e0 * (Rabs dd + 2 * e0)) by (apply Rmult_le_compat_l; assumption). lra.
Qed.

(** A reading of the odometry from the truncated positions of the wheels is within an impulse and a half. *)
Theorem reading_error c w l r pl : Rabs (IZR l - g_left c * n_left w) <= 1 -> Rabs (IZR r - g_right c * n_right w) <= 1 ->
  rs_get_polar_from_wheels (mkWheels l r) = OK pl -> reads c w (3 / 2) (mkReading (p_angle pl) (p_distance pl)).
Proof.
  intros Hl Hr H. unfold rs_get_polar_from_wheels in H. cbn [w_left w_right] in H. unfold int in H.
  destruct ((- 2 ^ 31 <=? r + l) && (r + l <? 2 ^ 31))%Z; [|discriminate]. cbn [rbind] in H.
  destruct ((- 2 ^ 31 <=? r - l) && (r - l <? 2 ^ 31))%Z; [|discriminate]. cbn [rbind] in H.
  assert (E : forall a b : polar, OK a = OK b -> a = b) by congruence. apply E in H. subst pl. cbn [p_angle p_distance].
  assert (Q : forall z, Rabs (IZR (Z.quot z 2) - IZR z / 2) <= 1 / 2).
  { intro z. pose proof (Z.quot_rem' z 2) as Qr. pose proof (Z.rem_bound_abs z 2 ltac:(lia)) as Rb.
    rewrite Qr at 2. rewrite plus_IZR, mult_IZR.
    assert (B : (-1 <= Z.rem z 2 <= 1)%Z) by lia. destruct B as [B1 B2]. apply IZR_le in B1, B2. apply Rabs_le. lra. }
  unfold reads, odo_angle, odo_distance. cbn [r_angle r_distance].
  apply Rabs_le_inv in Hl, Hr. pose proof (Rabs_le_inv _ _ (Q (r + l)%Z)) as Qa. pose proof (Rabs_le_inv _ _ (Q (r - l)%Z)) as Qd.
  rewrite plus_IZR in Qa. rewrite minus_IZR in Qd. split; apply Rabs_le; lra.
Qed.

(** The angle of the odometry in radians. *)
Lemma angle_rd_exact imp track a : 0 < imp -> 0 < track -> angle_rd exact (real imp) (real track) (real a) = real (a / (imp * track / 2)).
Proof.
  intros I T. unfold angle_rd. rewrite dbl_exact.
  change (mul (D exact) (real imp) (real track)) with (real (imp * track)).
  change (div (D exact) (real (imp * track)) (real 2)) with (div (F exact) (real (imp * track)) (real 2)).
  rewrite div_exact by lra. change (div (D exact)) with (div (F exact)). rewrite div_exact; [reflexivity|]. apply Rgt_not_eq. nra.
Qed.
(** What track_calibrated computes, without rounding. *)
Lemma track_calibrated_exact s e track count : count <> 0%Z -> exists d, same_angle d (e - s) /\ - (3 * PI) < d < PI /\ (- PI <= e - s -> - PI <= d) /\
  track_calibrated exact (real s) (real e) (real track) count = real (track * (1 + d / (2 * PI * IZR count))).
Proof.
  intro C. pose proof PI_RGT_0 as Pp. apply not_0_IZR in C. destruct (angle_delta_partial 0 (e - s)) as (d & D1 & D2 & D3 & D4).
  rewrite Rminus_0_r in D2, D4. exists d. split; [exact D2|]. split; [exact D3|]. split; [exact D4|].
  unfold track_calibrated. rewrite !lit_exact, !dbl_exact.
  replace (sub (F exact) (real e) (real s)) with (real (e - s)) by reflexivity. rewrite D1.
  change (mul (D exact) (mul (D exact) (real 2) (m_pi exact)) (widen exact (real (IZR count)))) with (real (2 * PI * IZR count)).
  change (div (D exact) (widen exact (real d)) (real (2 * PI * IZR count))) with (div (F exact) (real d) (real (2 * PI * IZR count))).
  rewrite div_exact by (apply Rmult_integral_contrapositive; split; [lra|exact C]). reflexivity.
Qed.

(** C93. track_calib finds the distance between the wheels, if the gains of the wheels are right and neither the configured distance
    nor the movements are wrong by more than half a turn over all the turns. *)
Theorem track_calib_finds_track_partial p c wall ta td dir count w w' :
  sensible p c -> g_left c = c_imp c * k_left p -> g_right c = c_imp c * k_right p -> (0 < count)%Z ->
  2 * PI * IZR count * Rabs (c_track c / p_track p - 1) + (IZR count + 2) * ta * 2 / (c_imp c * p_track p) < PI ->
  - PI < 2 * PI * IZR count * (p_track p / c_track c - 1) < PI ->
  same_angle (heading p w) wall -> all_done p c wall ta td (track_moves dir count) w w' ->
  track_calibrated exact (angle_rd exact (real (c_imp c)) (real (c_track c)) (real (odo_angle c w)))
    (angle_rd exact (real (c_imp c)) (real (c_track c)) (real (odo_angle c w'))) (real (c_track c)) count = real (p_track p).
Proof.
  intros Se El Er Cp Sm Sn Wa Do. pose proof PI_RGT_0 as Pp. destruct Se as (K1 & K2 & L & G1 & G2 & I & T).
  assert (Cr : 0 < IZR count) by now apply (IZR_lt 0).
  assert (Ho : forall v, odo_angle c v = heading p v * (c_imp c * p_track p / 2)).
  { intro v. unfold odo_angle, heading. rewrite El, Er. field. lra. }
  unfold track_moves in Do. set (n := Z.to_nat count) in *.
  assert (Nn : INR n = IZR count) by (unfold n; rewrite INR_IZR_INZ, Z2Nat.id by lia; reflexivity).
  change (D_rel (- dir * 200) :: repeat (A_rel 360) n ++ [D_rel (dir * 180); Align])
    with (D_rel (- dir * 200) :: repeat (A_rel 360) n ++ ([D_rel (dir * 180)] ++ [Align])) in Do.
  rewrite app_assoc, app_comm_cons in Do. apply align_last in Do as (u & Do & Al & Ne).
  pose proof (fun N => odometry_sum _ _ _ _ _ _ _ _ N Do) as Sum.
  destruct Sum as [Sa _].
  { intros [H|H]; [discriminate|]. apply in_app_or in H as [H|[H|[]]]; [apply repeat_spec in H|]; discriminate. }
  replace (INR (length (D_rel (- dir * 200) :: repeat (A_rel 360) n ++ [D_rel (dir * 180)]))) with (IZR count + 2) in Sa
    by (cbn [length]; rewrite app_length, repeat_length, S_INR, plus_INR, Nn; cbn [length INR]; lra).
  change (D_rel (- dir * 200) :: repeat (A_rel 360) n ++ [D_rel (dir * 180)]) with ([D_rel (- dir * 200)] ++ repeat (A_rel 360) n ++ [D_rel (dir * 180)]) in Sa.
  rewrite !sumR_app, sum_turns, Nn in Sa.
  replace (sumR (turn_of c) [D_rel (- dir * 200)]) with 0 in Sa by (cbn; lra).
  replace (sumR (turn_of c) [D_rel (dir * 180)]) with 0 in Sa by (cbn; lra). rewrite Rplus_0_l, Rplus_0_r, !Ho in Sa.
  assert (Hw : heading p w' = heading p w + 2 * PI * IZR count).
  { apply same_angle_near.
    - eapply same_angle_trans; [exact Al|]. destruct Wa as (k & ->). exists (- k - count)%Z. rewrite minus_IZR, opp_IZR. ring.
    - assert (Q : 0 < c_imp c * p_track p / 2) by nra.
      assert (B : Rabs (heading p u - heading p w - 2 * PI * IZR count * (c_track c / p_track p)) <= (IZR count + 2) * ta * 2 / (c_imp c * p_track p)).
      { apply (Rmult_le_reg_r (c_imp c * p_track p / 2)); [exact Q|].
        rewrite <- (Rabs_right (c_imp c * p_track p / 2)) at 1 by lra. rewrite <- Rabs_mult.
        replace ((IZR count + 2) * ta * 2 / (c_imp c * p_track p) * (c_imp c * p_track p / 2)) with ((IZR count + 2) * ta) by (field; lra).
        eapply Rle_trans; [right|exact Sa]. f_equal. field. lra. }
      set (h := heading p w) in *. set (h' := heading p w') in *. set (hu := heading p u) in *.
      replace (h' - (h + 2 * PI * IZR count)) with ((h' - hu) + ((hu - h - 2 * PI * IZR count * (c_track c / p_track p)) + 2 * PI * IZR count * (c_track c / p_track p - 1))) by ring.
      eapply Rle_lt_trans; [apply Rabs_triang|]. eapply Rle_lt_trans; [apply Rplus_le_compat_l, Rabs_triang|].
      rewrite (Rabs_mult (2 * PI * IZR count)), (Rabs_right (2 * PI * IZR count)) by nra. lra. }
  rewrite !angle_rd_exact by assumption.
  destruct (track_calibrated_exact (odo_angle c w / (c_imp c * c_track c / 2)) (odo_angle c w' / (c_imp c * c_track c / 2)) (c_track c) count ltac:(lia))
    as (d & D1 & D2 & D3 & ->).
  set (t := odo_angle c w' / (c_imp c * c_track c / 2) - odo_angle c w / (c_imp c * c_track c / 2)) in *.
  assert (Et : t = 2 * PI * IZR count * (p_track p / c_track c)) by (unfold t; rewrite !Ho, Hw; field; lra).
  assert (Tp : 0 < t) by (rewrite Et; apply Rmult_lt_0_compat; [nra|now apply Rdiv_lt_0_compat]).
  specialize (D3 ltac:(lra)).
  assert (Ed : d = t - 2 * PI * IZR count).
  { apply same_angle_near; [eapply same_angle_trans; [exact D1|]; exists count; ring|]. rewrite Et. apply Rabs_def1; lra. }
  f_equal. f_equal. rewrite Ed, Et. field. lra.
Qed.

(** With more turns, an error of a tenth is not seen: a robot with 100 mm between its wheels and configured with 90 mm turns nine times
    instead of ten, and track_calib proposes to keep 90 mm. *)
Lemma turns_done p c wall n w0 : g_left c = 1 -> g_right c = 1 -> c_imp c = 1 ->
  all_done p c wall 0 0 (repeat (A_rel 360) n) w0 (mkCounts (n_left w0 - INR n * (PI * c_track c)) (n_right w0 + INR n * (PI * c_track c))).
Proof.
  intros El Er Ei. revert w0. induction n as [|n IH]; intro w0.
  - cbn [repeat all_done INR]. destruct w0 as [a b]. cbn [n_left n_right]. f_equal; ring.
  - cbn [repeat all_done]. exists (mkCounts (n_left w0 - PI * c_track c) (n_right w0 + PI * c_track c)). split.
    + cbn [done]. unfold odo_angle, odo_distance. cbn [n_left n_right]. rewrite El, Er, Ei.
      split; match goal with |- Rabs ?x <= _ => replace x with 0 by field end; rewrite Rabs_R0; lra.
    + specialize (IH (mkCounts (n_left w0 - PI * c_track c) (n_right w0 + PI * c_track c))). cbn [n_left n_right] in IH.
      rewrite S_INR.
      replace (n_left w0 - (INR n + 1) * (PI * c_track c)) with (n_left w0 - PI * c_track c - INR n * (PI * c_track c)) by ring.
      replace (n_right w0 + (INR n + 1) * (PI * c_track c)) with (n_right w0 + PI * c_track c + INR n * (PI * c_track c)) by ring. exact IH.
Qed.
Lemma track_session p c dir count (N : Z) : p = mkPlant 1 1 (p_track p) -> c = mkConfig 1 1 1 (c_track c) -> 0 < p_track p -> (0 <= count)%Z ->
  Rabs (IZR N - IZR count * c_track c / p_track p) < 1 / 2 ->
  all_done p c 0 0 0 (track_moves dir count) (mkCounts 0 0) (mkCounts (- (IZR N * PI * p_track p)) (IZR N * PI * p_track p)).
Proof.
  intros Ep Ec L Cp E. pose proof PI_RGT_0 as Pp. unfold track_moves. cbn [all_done].
  exists (mkCounts (IZR dir * -200) (IZR dir * -200)). split.
  { rewrite Ec. cbn [done c_imp]. unfold odo_angle, odo_distance. cbn [n_left n_right g_left g_right]. rewrite mult_IZR, opp_IZR.
    split; match goal with |- Rabs ?x <= _ => replace x with 0 by field end; rewrite Rabs_R0; lra. }
  apply all_done_app. set (n := Z.to_nat count).
  assert (Nn : INR n = IZR count) by (unfold n; rewrite INR_IZR_INZ, Z2Nat.id by lia; reflexivity).
  eexists. split; [apply turns_done; rewrite Ec; reflexivity|]. rewrite Nn. cbn [n_left n_right all_done].
  set (q := IZR count * (PI * c_track c)) in *.
  exists (mkCounts (IZR dir * -20 - q) (IZR dir * -20 + q)). split.
  { rewrite Ec. cbn [done c_imp]. unfold odo_angle, odo_distance. cbn [n_left n_right g_left g_right]. rewrite mult_IZR.
    split; match goal with |- Rabs ?x <= _ => replace x with 0 by field end; rewrite Rabs_R0; lra. }
  eexists. split; [|reflexivity]. cbn [done]. split.
  - exists N. unfold heading. rewrite Ep. cbn [k_left k_right n_left n_right p_track]. field. lra.
  - unfold heading. rewrite Ep. cbn [k_left k_right n_left n_right p_track].
    match goal with |- Rabs ?x < _ => replace x with ((IZR N - IZR count * c_track c / p_track p) * (2 * PI)) by (unfold q; field; lra) end.
    rewrite Rabs_mult, (Rabs_right (2 * PI)) by lra. nra.
Qed.
Theorem track_calib_finds_track_refuted : exists p c w w', sensible p c /\ g_left c = c_imp c * k_left p /\ g_right c = c_imp c * k_right p /\
  all_done p c 0 0 0 (track_moves 1 10) w w' /\ heading p w = 0 /\ p_track p = 100 /\
  track_calibrated exact (angle_rd exact (real (c_imp c)) (real (c_track c)) (real (odo_angle c w)))
    (angle_rd exact (real (c_imp c)) (real (c_track c)) (real (odo_angle c w'))) (real (c_track c)) 10 = real 90.
Proof.
  pose proof PI_RGT_0 as Pp. set (p := mkPlant 1 1 100). set (c := mkConfig 1 1 1 90).
  exists p, c, (mkCounts 0 0), (mkCounts (- (9 * PI * 100)) (9 * PI * 100)).
  cbv [sensible p c k_left k_right p_track g_left g_right c_imp c_track]. fold p c.
  split; [lra|]. split; [lra|]. split; [lra|].
  split; [apply (track_session p c 1 10 9); try reflexivity; cbv [p c p_track c_track]; [lra|lia|replace (9 - 10 * 90 / 100) with 0 by field; rewrite Rabs_R0; lra]|].
  split; [cbv [heading p k_left k_right n_left n_right p_track]; field|]. split; [reflexivity|].
  rewrite !angle_rd_exact by lra.
  destruct (track_calibrated_exact (odo_angle c (mkCounts 0 0) / (1 * 90 / 2))
    (odo_angle c (mkCounts (- (9 * PI * 100)) (9 * PI * 100)) / (1 * 90 / 2)) 90 10 ltac:(lia)) as (d & D1 & D2 & D3 & ->).
  unfold odo_angle in D1, D3. cbn [c g_left g_right n_left n_right c_imp c_track] in *.
  match type of D1 with same_angle d ?t0 => set (t := t0) in * end. assert (Et : t = 20 * PI) by (unfold t; field).
  specialize (D3 ltac:(lra)). assert (d = 0).
  { apply same_angle_near; [eapply same_angle_trans; [exact D1|]; exists 10%Z; rewrite Et; ring|]. apply Rabs_def1; lra. }
  subst d. f_equal. f_equal. field. lra.
Qed.
(** The hypotheses of the theorem. *)
Example ex_track_hyps : let p := mkPlant 1 1 100 in let c := mkConfig 1 1 1 96 in sensible p c /\
  2 * PI * 3 * Rabs (c_track c / p_track p - 1) + (3 + 2) * 0 * 2 / (c_imp c * p_track p) < PI /\
  - PI < 2 * PI * 3 * (p_track p / c_track c - 1) < PI /\ same_angle (heading p (mkCounts 0 0)) 0 /\
  exists w', all_done p c 0 0 0 (track_moves 1 3) (mkCounts 0 0) w'.
Proof.
  pose proof PI2_3_2 as Pp. pose proof PI_RGT_0. cbv zeta. cbv [sensible k_left k_right p_track g_left g_right c_imp c_track].
  split; [lra|].
  split; [replace (96 / 100 - 1) with (- (4 / 100)) by field; rewrite Rabs_Ropp, Rabs_right by lra; lra|]. split; [lra|].
  split; [exists 0%Z; unfold heading; cbn [n_left n_right]; field; cbn; lra|].
  eexists. apply (track_session (mkPlant 1 1 100) (mkConfig 1 1 1 96) 1 3 3); try reflexivity; cbv [p_track c_track]; [lra|lia|].
  replace (3 - 3 * 96 / 100) with (12 / 100) by field. rewrite Rabs_right; lra.
Qed.
(** wheel_calib with a left wheel which is 1 % smaller than the gains say, without any round: the robot goes back by 100 mm and then
    to the wall again, 200 mm further than it was. *)
Example ex_wheel_hyps : let p := mkPlant 99 100 200 in let c := mkConfig 100 100 100 200 in
  sensible p c /\ small_drift p c 0 0 0 /\ wheel_moves 1 0 = OK [D_rel (- 1 * 100); Align] /\
  all_done p c 0 0 0 [D_rel (- 1 * 100); Align] (mkCounts 0 0) (mkCounts 100 99) /\
  reads c (mkCounts 0 0) 0 (mkReading 0 0) /\ reads c (mkCounts 100 99) 0 (mkReading (- 50) 9950).
Proof.
  pose proof PI2_3_2 as Pp. pose proof PI_RGT_0. cbv zeta. split; [cbv [sensible k_left k_right p_track g_left g_right c_imp c_track]; lra|].
  split. { cbv [small_drift k_left k_right p_track g_left g_right c_imp c_track]. replace (100 / 100 - 99 / 100) with (1 / 100) by field.
    rewrite Rabs_right by lra. lra. }
  split; [reflexivity|]. split.
  { exists (mkCounts (- 100) (- 100)). split.
    - cbv [done odo_angle odo_distance n_left n_right g_left g_right c_imp]. rewrite mult_IZR.
      split; match goal with |- Rabs ?x <= _ => replace x with 0 by field end; rewrite Rabs_R0; lra.
    - exists (mkCounts 100 99). split; [|reflexivity]. split.
      + exists 0%Z. cbv [heading k_left k_right n_left n_right p_track]. lra.
      + cbv [heading k_left k_right n_left n_right p_track]. match goal with |- Rabs ?x < _ => replace x with (1 / 2) by field end. rewrite Rabs_right; lra. }
  cbv [reads odo_angle odo_distance n_left n_right g_left g_right r_angle r_distance].
  split; split; match goal with |- Rabs ?x <= _ => replace x with 0 by field end; rewrite Rabs_R0; lra.
Qed.

(** With no turn, track_calib divides by zero: what it proposes is not a number or is infinite, whatever the robot did. *)
Theorem track_calib_zero_refuted s e track : is_finite (track_calibrated ieee s e track 0) = false.
Proof.
  unfold track_calibrated.
  replace (mul (D ieee) (mul (D ieee) (dbl ieee 2) (m_pi ieee)) (widen ieee (lit (F ieee) 0 0))) with (B754_zero false : num (D ieee)) by reflexivity.
  set (x := widen ieee (angle_delta ieee (lit (F ieee) 0 0) (sub (F ieee) e s))).
  assert (X : is_finite (div (D ieee) x (B754_zero false)) = false) by (destruct x as [[]|[]| |[] mx ex Hx]; reflexivity).
  set (y := div (D ieee) x (B754_zero false)) in *.
  assert (Y : is_finite (add (D ieee) (dbl ieee 1) y) = false) by (destruct y as [[]|[]| |[] mx ex Hx]; try discriminate; reflexivity).
  set (v := add (D ieee) (dbl ieee 1) y) in *.
  assert (W : is_finite (mul (D ieee) (widen ieee (narrow ieee track)) v) = false).
  { destruct v as [[]|[]| |[] mx ex Hx]; try discriminate; destruct (widen ieee (narrow ieee track)) as [[]|[]| |[] mt et Ht]; reflexivity. }
  destruct (mul (D ieee) (widen ieee (narrow ieee track)) v) as [[]|[]| |[] mx ex Hx]; try discriminate; reflexivity.
Qed.
(** wheel_calib divides by zero when the robot comes back to the distance at which it was, which is what no round at all does. *)
Theorem wheel_calib_zero_refuted s e gl gr : r_distance s = r_distance e -> (- 2 ^ 31 <= r_angle s - r_angle e < 2 ^ 31)%Z ->
  exists l r, wheel_gains ieee s e gl gr = OK (l, r) /\ is_finite l = false /\ is_finite r = false.
Proof.
  intros Ed A. assert (I : int (r_angle s - r_angle e) = OK (r_angle s - r_angle e)%Z).
  { unfold int. replace ((- 2 ^ 31 <=? r_angle s - r_angle e) && (r_angle s - r_angle e <? 2 ^ 31))%Z with true; [reflexivity|].
    symmetry. apply andb_true_iff. rewrite Z.leb_le, Z.ltb_lt. lia. }
  unfold wheel_gains. rewrite I, Ed, Z.sub_diag. cbn [rbind]. change (int 0) with (OK 0%Z). cbn [rbind]. do 2 eexists. split; [reflexivity|].
  change (lit (F ieee) 0 0) with (B754_zero false : num (F ieee)). set (x := lit (F ieee) (r_angle s - r_angle e) 0).
  assert (X : is_finite (widen ieee (div (F ieee) x (B754_zero false))) = false) by (destruct x as [[]|[]| |[] mx ex Hx]; reflexivity).
  set (f := widen ieee (div (F ieee) x (B754_zero false))) in *. split.
  - assert (Y : is_finite (add (D ieee) (dbl ieee 1) f) = false) by (destruct f as [[]|[]| |[] mx ex Hx]; try discriminate; reflexivity).
    set (v := add (D ieee) (dbl ieee 1) f) in *.
    assert (W : is_finite (mul (D ieee) v gl) = false) by (destruct v as [[]|[]| |[] mx ex Hx]; try discriminate; destruct gl as [[]|[]| |[] mt et Ht]; reflexivity).
    destruct (mul (D ieee) v gl) as [[]|[]| |[] mx ex Hx]; try discriminate; reflexivity.
  - assert (Y : is_finite (sub (D ieee) (dbl ieee 1) f) = false) by (destruct f as [[]|[]| |[] mx ex Hx]; try discriminate; reflexivity).
    set (v := sub (D ieee) (dbl ieee 1) f) in *.
    assert (W : is_finite (mul (D ieee) v gr) = false) by (destruct v as [[]|[]| |[] mx ex Hx]; try discriminate; destruct gr as [[]|[]| |[] mt et Ht]; reflexivity).
    destruct (mul (D ieee) v gr) as [[]|[]| |[] mx ex Hx]; try discriminate; reflexivity.
Qed.
(** A negative number of rounds does not end. *)
Theorem wheel_calib_negative_refuted dir count : (count < 0)%Z -> wheel_moves dir count = BAD.
Proof. intro H. unfold wheel_moves. now rewrite (proj2 (Z.ltb_lt _ _) H). Qed.

(** Setting the new gains while the robot stands still makes the odometry move by the change of the gain times all the way since
    power-up, as the gains multiply the counts and not their changes. *)
Theorem calib_jump_refuted : exists gl gr gl' gr' rs rs' left right,
  rs_update (rs_init gl gr) left right = OK rs /\ rs_update rs left right = OK rs /\
  rs_update (rs_set_gains rs gl' gr') left right = OK rs' /\ rs_get_angle rs' = (rs_get_angle rs + 1000)%Z.
Proof.
  exists Some, Some, Some, (fun z => Some (Z.quot (z * 102) 100)). do 2 eexists. exists 100000%Z, 100000%Z.
  split; [vm_compute; reflexivity|]. split; [vm_compute; reflexivity|]. split; [vm_compute; reflexivity|]. reflexivity.
Qed.
Print Assumptions wheel_calib_balances.
Print Assumptions wheel_calib_residual.
Print Assumptions reading_error.
Print Assumptions track_calib_finds_track_partial.
Print Assumptions track_calib_finds_track_refuted.
Print Assumptions track_calib_zero_refuted.
Print Assumptions wheel_calib_zero_refuted.
Print Assumptions wheel_calib_negative_refuted.
Print Assumptions calib_jump_refuted.
