From Coq Require Import ZArith Reals List Bool Lra Lia Psatz.
From Flocq Require Import Core.
From Verif Require Import CRes QuadModel LieSpec TrajModel TrajProofs QuadProps CurvModel CurvSpec CurvProofs.
Import ListNotations.
Local Open Scope R_scope.

(** ** Lines: the event is defined *)
Lemma trunc_bound x b : Rabs x <= IZR b -> (- b <= Ztrunc x <= b)%Z.
Proof.
  intro H. apply Rabs_le_inv in H. rewrite <- (Ztrunc_IZR b) at 2. rewrite <- (Ztrunc_IZR (- b)). rewrite <- opp_IZR in H. split; apply Ztrunc_le; lra.
Qed.
Lemma to_int32_ok x : Rabs x <= IZR (2 ^ 30) -> exists z, to_int32 x = OK z /\ (- 2 ^ 30 <= z <= 2 ^ 30)%Z.
Proof.
  intro H. pose proof (trunc_bound _ _ H) as B. exists (Ztrunc x). split; [|exact B]. unfold to_int32.
  replace (- 2 ^ 31 <=? Ztrunc x)%Z with true by (symmetry; apply Z.leb_le; lia). now replace (Ztrunc x <? 2 ^ 31)%Z with true by (symmetry; apply Z.ltb_lt; lia).
Qed.
Lemma line_event_ok r p1 p2 advance t f : heading_ok r -> p1 <> p2 -> 0 < a_start r -> tgt r = line_target p1 p2 advance t -> state r = RUNNING_LINE ->
  0 <= advance -> 0 <= imp_per_mm r -> 0 <= track r -> foot p1 p2 (here r) f ->
  steps_mm r (Rmax advance (dist (here r) f)) <= IZR (2 ^ 30) -> steps_rad r PI <= IZR (2 ^ 30) ->
  (Z.abs (rs_distance r) < 2 ^ 30)%Z -> (Z.abs (rs_angle r) < 2 ^ 30)%Z ->
  exists r', trajectory_manager_line_event r = OK r'.
Proof.
  intros H N A T St Ad Im Tr F B1 B2 B3 B4. unfold trajectory_manager_line_event. rewrite T. unfold line_target.
  destruct (aim_ok r p1 p2 advance N) as (f' & q & E1 & F' & Q). rewrite E1. cbn [rbind].
  assert (f' = f).
  { assert (N' : p2 <> p1) by congruence. pose proof (sumsq_pos _ _ N') as P2. destruct F as [(s & ->) F], F' as [(s' & ->) F']. unfold dot, sub in *. cbn [fst snd] in *.
    assert (s = s'); [|now subst]. apply Rmult_eq_reg_r with ((fst p2 - fst p1) * (fst p2 - fst p1) + (snd p2 - snd p1) * (snd p2 - snd p1)); lra. }
  subst f'. pose proof (seen_leads r q H) as Le. pose proof (aim_near r p1 p2 advance f q N F Q Ad) as Nr.
  destruct (seen r q) as [d theta]. rewrite (eqb0_no (a_start r)), andb_false_r by lra. rewrite (leads_dist _ _ _ _ Le) in Nr. destruct Le as (L1 & L2 & _).
  destruct (to_int32_ok (d * imp_per_mm r)) as (z & Ez & Bz).
  { rewrite Rabs_pos_eq by (apply Rmult_le_pos; auto). eapply Rle_trans; [|exact B1]. unfold steps_mm. apply Rmult_le_compat_r; auto. }
  destruct (to_int32_ok (theta * (imp_per_mm r * track r / 2) / (11 / 10))) as (z' & Ez' & Bz').
  { eapply Rle_trans; [|exact B2]. unfold steps_rad. assert (P : 0 <= imp_per_mm r * track r) by (apply Rmult_le_pos; auto).
    replace (theta * (imp_per_mm r * track r / 2) / (11 / 10)) with (theta * (imp_per_mm r * track r * (5 / 11))) by field.
    rewrite Rabs_mult, (Rabs_pos_eq (imp_per_mm r * track r * (5 / 11))) by lra. replace (PI * imp_per_mm r * track r / 2) with (PI * (imp_per_mm r * track r * (1 / 2))) by field.
    apply Rmult_le_compat; auto using Rabs_pos; lra. }
  cbn -[Rdiv Rmult to_int32 int]. unfold pos_mm2imp, pos_rd2imp. cbn -[Rdiv Rmult to_int32 int]. rewrite Ez. cbn [rbind]. rewrite int_ok by lia. cbn [rbind].
  rewrite Ez'. cbn [rbind]. rewrite int_ok by lia. cbn [rbind]. rewrite St. eexists. reflexivity.
Qed.

(** ** On the line, and beside it *)
Lemma foot_unique p1 p2 p f f' : p1 <> p2 -> foot p1 p2 p f -> foot p1 p2 p f' -> f = f'.
Proof.
  intros N F F'. assert (N' : p2 <> p1) by congruence. pose proof (sumsq_pos _ _ N') as P2. destruct F as [(s & ->) F], F' as [(s' & ->) F']. unfold dot, sub in *. cbn [fst snd] in *.
  assert (s = s'); [|now subst]. apply Rmult_eq_reg_r with ((fst p2 - fst p1) * (fst p2 - fst p1) + (snd p2 - snd p1) * (snd p2 - snd p1)); lra.
Qed.
Lemma beside r p1 p2 f q theta d advance e k : p1 <> p2 -> let a := atan2 (snd p2 - snd p1) (fst p2 - fst p1) in
  pa r = a -> here r = leftof (along p1 a k) a e ->
  foot p1 p2 (here r) f -> further p1 p2 f q (Rmax 0 (advance - dist (here r) f)) -> leads r theta d q ->
  d * cos theta = Rmax 0 (advance - Rabs e) /\ d * sin theta = - e.
Proof.
  intros N a Pa Hr F Q L. destruct (line_angle p1 p2 N) as [Ca Sa]. fold a in Ca, Sa.
  assert (N' : p2 <> p1) by congruence. pose proof (dist_pos _ _ N') as Dp.
  assert (Ff : f = along p1 a k).
  { apply (foot_unique p1 p2 (here r)); auto. split.
    - exists (k / dist p2 p1). unfold along. rewrite Ca, Sa. f_equal; field; lra.
    - rewrite Hr. unfold dot, sub, leftof, along. cbn [fst snd]. rewrite Ca, Sa. field. lra. }
  assert (De : dist (here r) f = Rabs e).
  { rewrite Hr, Ff. unfold dist, leftof. cbn [fst snd]. rewrite <- sqrt_Rsqr_abs. f_equal. unfold Rsqr.
    pose proof (sin2_cos2 a) as SC. unfold Rsqr in SC. replace (_ + _) with (e * e * (sin a * sin a + cos a * cos a)) by ring. rewrite SC. ring. }
  rewrite De in Q. set (v := Rmax 0 (advance - Rabs e)) in *. unfold further in Q. rewrite <- Ca, <- Sa in Q.
  destruct L as (_ & _ & L). rewrite Q in L. unfold along in L. assert (Hx : px r = fst (leftof (along p1 a k) a e)) by now rewrite <- Hr. assert (Hy : py r = snd (leftof (along p1 a k) a e)) by now rewrite <- Hr.
  injection L as L1 L2. rewrite Ff in L1, L2. unfold leftof, along in Hx, Hy, L1, L2. cbn [fst snd] in Hx, Hy, L1, L2.
  rewrite Pa in L1, L2. rewrite cos_plus in L1. rewrite sin_plus in L2. pose proof (sin2_cos2 a) as SC. unfold Rsqr in SC.
  set (c := cos a) in *. set (s := sin a) in *. set (C := cos theta) in *. set (S := sin theta) in *.
  assert (E1 : v * c + e * s = d * (c * C - s * S)) by lra.
  assert (E2 : v * s - e * c = d * (s * C + c * S)) by lra. split.
  - transitivity (d * C * (s * s + c * c)); [rewrite SC; ring|]. transitivity (c * (d * (c * C - s * S)) + s * (d * (s * C + c * S))); [ring|]. rewrite <- E1, <- E2.
    transitivity (v * (s * s + c * c)); [ring|rewrite SC; ring].
  - transitivity (d * S * (s * s + c * c)); [rewrite SC; ring|]. transitivity (c * (d * (s * C + c * S)) - s * (d * (c * C - s * S))); [ring|]. rewrite <- E1, <- E2.
    transitivity (- e * (s * s + c * c)); [ring|rewrite SC; ring].
Qed.
Lemma quarter theta d v e : Rabs theta <= PI -> 0 <= d -> 0 <= v -> d * cos theta = v -> d * sin theta = - e -> 0 < e -> - (PI / 2) <= theta < 0.
Proof.
  intros T D V C S E. apply Rabs_le_inv in T. pose proof PI_RGT_0. assert (D' : 0 < d) by (destruct D as [|<-]; [auto|lra]).
  assert (Sn : sin theta < 0) by nra. assert (Cn : 0 <= cos theta) by nra. split.
  - destruct (Rle_dec (- (PI / 2)) theta); auto. exfalso. assert (cos theta < 0); [|lra]. rewrite <- (cos_neg theta). apply cos_lt_0; lra.
  - destruct (Rlt_dec theta 0); auto. exfalso. pose proof (sin_ge_0 theta). lra.
Qed.

(** ** Circles *)
Lemma circle_speeds r rad : 0 < rad -> 0 < track r -> 0 < d_speed (spd r) -> 0 < a_speed (spd r) ->
  let '(d, a) := circle_get_speed_from_radius r (Some rad) in
  radius_of r d a rad /\ 0 < d <= d_speed (spd r) /\ 0 < a <= a_speed (spd r) /\ (d = d_speed (spd r) \/ a = a_speed (spd r)).
Proof.
  intros H T D A. unfold circle_get_speed_from_radius. set (coef := 2 * rad / track r).
  assert (C : 0 < coef) by (unfold coef; apply Rdiv_lt_0_compat; lra). unfold radius_of. fold coef.
  destruct (cltb_spec (a_speed (spd r) * coef) (d_speed (spd r))).
  - split; [ring|]. split; [|split; [lra|now right]]. split; [nra|lra].
  - split; [field; lra|]. split; [lra|]. split; [|now left]. split; [now apply Rdiv_lt_0_compat|]. apply Rmult_le_reg_r with coef; [auto|]. unfold Rdiv. rewrite Rmult_assoc, Rinv_l by lra. lra.
Qed.
Lemma circle_event_inv r center rad fl da dd r' : tgt r = Circle center rad fl da dd -> trajectory_manager_circle_event r = OK r' ->
  rad <> 0 /\ d_consign r' = dd /\ a_consign r' = da /\ state r' = state r /\ tgt r' = tgt r /\
  let '(dst, theta) := seen r center in
  let sp := circle_get_speed_from_radius r (if eqb0 dst then None else Some (rad / (dst / rad * coef_d theta))) in
  let close := Rabs (IZR (da - rs_angle r) / imp_per_mm r / track r * 2) in
  (close < RAD 2 -> scheduled r' = false /\ ramp_d r' = Rabs (d_speed (spd r)) /\ ramp_a r' = Rabs (a_speed (spd r))) /\
  (RAD 2 <= close -> scheduled r' = scheduled r /\ ramp_d r' = Rabs (fst sp) /\ ramp_a r' = Rabs (snd sp)).
Proof.
  intros T E. unfold trajectory_manager_circle_event in E. rewrite T in E. destruct (ceqb0_spec rad) as [|Rn]; [discriminate|]. destruct (seen r center) as [dst theta].
  destruct (circle_get_speed_from_radius _ _) as [d a] eqn:Sp. dob E. apply int_inv in E0 as [-> _]. cbn [set_quadramp_speed set_ramp rs_angle imp_per_mm track] in E. injection E as <-.
  split; [exact Rn|]. cbn [rs_angle set_quadramp_speed set_ramp] in *. destruct (cltb_spec (Rabs (IZR (da - rs_angle r) / imp_per_mm r / track r * 2)) (RAD 2)); cbn; rewrite T; repeat split; auto; try lra.
Qed.
Lemma coef_d_left : coef_d (PI / 2) = 1.
Proof.
  unfold coef_d. replace (PI / 2 - PI / 2) with 0 by ring. pose proof PI_RGT_0.
  assert (E : simple_modulo_2pi 0 = 0) by (unfold simple_modulo_2pi; rewrite (ltb_no 0 (- PI)), (ltb_no PI 0) by lra; reflexivity). rewrite E.
  rewrite (ltb_no (1 / 2) 0) by lra. rewrite (ltb_no 0 (- (1 / 2))) by lra. rewrite Rmult_0_r. apply exp_0.
Qed.
Lemma coef_d_right : coef_d (- (PI / 2)) = exp (- (5 / 2)).
Proof.
  unfold coef_d. replace (- (PI / 2) - PI / 2) with (- PI) by field. pose proof PI_RGT_0. pose proof PI2_1.
  assert (E : simple_modulo_2pi (- PI) = - PI) by (unfold simple_modulo_2pi; rewrite (ltb_no (- PI) (- PI)), (ltb_no PI (- PI)) by lra; reflexivity). rewrite E.
  rewrite (ltb_no (1 / 2) (- PI)) by lra. rewrite (ltb_yes (- PI) (- (1 / 2))) by lra. f_equal. field.
Qed.
