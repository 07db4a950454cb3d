(** Lines, circles and turns (clothoids) of the trajectory manager. *)
From Coq Require Import ZArith Reals List Bool Lra Lia Psatz.
From Flocq Require Import Core.
From Verif Require Import CRes QuadModel LieSpec TrajModel TrajProofs QuadProps CurvModel CurvSpec CurvProofs CurvProofs2 CurvProofs3.
Import ListNotations.
Local Open Scope R_scope.

(** ** Lines *)

(** At each period the robot is sent towards the point of the line that is ahead of its projection by the advance, less the
    distance to the line: the orders are to turn towards this point and to advance to it. *)
Theorem curv_line : forall r p1 p2 advance t r', heading_ok r -> p1 <> p2 -> 0 < a_start r -> tgt r = line_target p1 p2 advance t -> state r = RUNNING_LINE ->
  trajectory_manager_line_event r = OK r' ->
  exists f q theta d, foot p1 p2 (here r) f /\ further p1 p2 f q (Rmax 0 (advance - dist (here r) f)) /\ leads r theta d q /\ followed r theta d r'.
Proof. exact line_event_inv. Qed.

(** Nothing overflows while the robot is less than 2^30 steps away. *)
Theorem curv_line_safe : forall r p1 p2 advance t f, heading_ok r -> p1 <> p2 -> 0 < a_start r -> tgt r = line_target p1 p2 advance t -> state r = RUNNING_LINE ->
  0 <= advance -> 0 <= imp_per_mm r -> 0 <= track r -> foot p1 p2 (here r) f ->
  steps_mm r (Rmax advance (dist (here r) f)) <= IZR (2 ^ 30) -> steps_rad r PI <= IZR (2 ^ 30) ->
  (Z.abs (rs_distance r) < 2 ^ 30)%Z -> (Z.abs (rs_angle r) < 2 ^ 30)%Z ->
  exists r', trajectory_manager_line_event r = OK r'.
Proof. exact line_event_ok. Qed.

(** The direction of the line. *)
Lemma direction p1 p2 : p1 <> p2 -> forall a, p2 = along p1 a (dist p2 p1) -> Rabs a < PI -> atan2 (snd p2 - snd p1) (fst p2 - fst p1) = a.
Proof.
  intros N a E A. destruct (line_angle p1 p2 N) as [C S]. assert (N' : p2 <> p1) by congruence. pose proof (dist_pos _ _ N') as D.
  set (b := atan2 _ _) in *. set (d := dist p2 p1) in *.
  assert (X : fst p2 - fst p1 = d * cos a) by (rewrite E; cbn [along fst]; ring). assert (Y : snd p2 - snd p1 = d * sin a) by (rewrite E; cbn [along snd]; ring).
  apply same_direction; [rewrite C, X; field; lra|rewrite S, Y; field; lra|].
  pose proof (atan2_range (snd p2 - snd p1) (fst p2 - fst p1)) as R1. fold b in R1. replace (b - a) with (b + - a) by ring. eapply Rle_lt_trans; [apply Rabs_triang|]. rewrite Rabs_Ropp. lra.
Qed.

(** On the line and in its direction: straight ahead, at full speed. *)
Theorem curv_line_straight : forall r p1 p2 advance t r' a k, p1 <> p2 -> 0 < a_start r -> 0 < advance -> 0 <= d_speed (spd r) ->
  tgt r = line_target p1 p2 advance t -> state r = RUNNING_LINE ->
  p2 = along p1 a (dist p2 p1) -> Rabs a < PI -> pa r = a -> here r = along p1 a k ->
  trajectory_manager_line_event r = OK r' ->
  a_consign r' = rs_angle r /\ d_consign r' = (rs_distance r + Ztrunc (steps_mm r advance))%Z /\ ramp_d r' = d_speed (spd r).
Proof.
  intros r p1 p2 advance t r' a k N A Ad V T St E Ha P Hr Ev. assert (Dir := direction p1 p2 N a E Ha).
  assert (Ho : heading_ok r) by (unfold heading_ok; rewrite P; lra).
  destruct (line_event_inv r p1 p2 advance t r' Ho N A T St Ev) as (f & q & th & d & F & Q & L & (C1 & C2 & C3 & _)).
  assert (Hr0 : here r = leftof (along p1 (atan2 (snd p2 - snd p1) (fst p2 - fst p1)) k) (atan2 (snd p2 - snd p1) (fst p2 - fst p1)) 0).
  { rewrite Dir, Hr. unfold leftof, along. cbn [fst snd]. f_equal; ring. }
  assert (Pa : pa r = atan2 (snd p2 - snd p1) (fst p2 - fst p1)) by congruence.
  destruct (beside r p1 p2 f q th d advance 0 k N Pa Hr0 F Q L) as [B1 B2].
  rewrite Rabs_R0, Rminus_0_r, Rmax_right in B1 by lra. destruct L as (L1 & L2 & _). pose proof PI_RGT_0. apply Rabs_le_inv in L1.
  assert (Dp : 0 < d) by (destruct L2 as [|<-]; lra). assert (Sn : sin th = 0) by nra. assert (Cn : 0 < cos th) by nra.
  assert (Z : th = 0).
  { destruct (Rtotal_order th 0) as [Lt|[Eq|Gt]]; auto; exfalso.
    - destruct (Req_dec th (- PI)) as [Ep|Ep]; [rewrite Ep, cos_neg, cos_PI in Cn; lra|]. pose proof (sin_gt_0 (- th)) as Q2. rewrite sin_neg in Q2. lra.
    - destruct (Req_dec th PI) as [Ep|Ep]; [rewrite Ep, cos_PI in Cn; lra|]. pose proof (sin_gt_0 th). lra. }
  subst th. rewrite cos_0, Rmult_1_r in B1. subst d. rewrite C1, C2, C3. unfold slowed, steps_rad. rewrite Rabs_R0.
  replace (0 * imp_per_mm r * track r / 2 / (11 / 10)) with 0 by field. replace (Ztrunc 0) with 0%Z by (symmetry; apply (Ztrunc_IZR 0)).
  split; [lia|]. split; [reflexivity|]. destruct (Rlt_dec (a_start r) 0); [lra|]. rewrite Rabs_pos_eq; [field; lra|]. apply Rmult_le_pos; [lra|]. replace ((a_start r - 0) / a_start r) with 1 by (field; lra). lra.
Qed.

(** Beside the line and parallel to it: the robot turns back to the line, by a quarter turn at most. *)
Theorem curv_line_returns : forall r p1 p2 advance t r' a k e, p1 <> p2 -> 0 < a_start r -> e <> 0 ->
  tgt r = line_target p1 p2 advance t -> state r = RUNNING_LINE ->
  p2 = along p1 a (dist p2 p1) -> Rabs a < PI -> pa r = a -> here r = leftof (along p1 a k) a e ->
  trajectory_manager_line_event r = OK r' ->
  exists theta d, followed r theta d r' /\ 0 < d /\ d * sin theta = - e /\ (0 < e -> - (PI / 2) <= theta < 0) /\ (e < 0 -> 0 < theta <= PI / 2).
Proof.
  intros r p1 p2 advance t r' a k e N A Ne T St E Ha P Hr Ev. assert (Dir := direction p1 p2 N a E Ha).
  assert (Ho : heading_ok r) by (unfold heading_ok; rewrite P; lra).
  destruct (line_event_inv r p1 p2 advance t r' Ho N A T St Ev) as (f & q & th & d & F & Q & L & Fo).
  rewrite <- Dir in Hr. assert (Pa : pa r = atan2 (snd p2 - snd p1) (fst p2 - fst p1)) by congruence.
  destruct (beside r p1 p2 f q th d advance e k N Pa Hr F Q L) as [B1 B2]. destruct L as (L1 & L2 & _).
  pose proof (Rmax_l 0 (advance - Rabs e)) as M. exists th, d. split; [exact Fo|].
  split; [destruct L2 as [|<-]; [auto|exfalso; apply Ne; lra]|]. split; [exact B2|]. split; intro He.
  - exact (quarter th d _ e L1 L2 M B1 B2 He).
  - assert (Q2 := quarter (- th) d (Rmax 0 (advance - Rabs e)) (- e)). rewrite Rabs_Ropp, cos_neg, sin_neg in Q2. specialize (Q2 L1 L2 M B1 ltac:(lra) ltac:(lra)). lra.
Qed.

(** A line is followed for ever: whatever the robot does the manager never ends it. *)
Theorem curv_line_no_end : forall moves r p1 p2 advance t r', tgt r = line_target p1 p2 advance t -> state r = RUNNING_LINE -> scheduled r = true ->
  periods r moves = OK r' -> tgt r' = line_target p1 p2 advance t /\ state r' = RUNNING_LINE /\ scheduled r' = true.
Proof.
  induction moves as [|[[[[u w] a] d] an] moves IH]; intros r p1 p2 advance t r' T St Sc E; cbn [periods] in E; [injection E as <-; auto|].
  unfold trajectory_manager_manage in E. cbn [set_pose scheduled state] in E. rewrite Sc, St in E. dob E. refine (IH _ p1 p2 advance t r' _ _ _ E).
  all: unfold trajectory_manager_line_event in E0; cbn [set_pose tgt state] in E0; rewrite T in E0; unfold line_target in E0; dob E0; match goal with Ha : aim _ _ _ _ = OK ?z |- _ => destruct z as [proj q] end;
    match type of E0 with context [seen ?rr ?qq] => destruct (seen rr qq) as [dd th] end;
    match type of E0 with (if ?b then _ else _) = _ => destruct b; [discriminate|] end; repeat dob E0;
    cbn [set_quadramp_speed set_ramp state set_consign set_pose] in E0; rewrite St in E0; injection E0 as <-; cbn; auto.
Qed.

(** A line through twice the same point: every period converts NaN to an integer. *)
Theorem curv_line_degenerate_refuted : forall r p advance, trajectory_manager_manage (trajectory_line_abs r p p advance) = BAD.
Proof. intros. unfold trajectory_manager_manage, trajectory_line_abs. cbn. unfold trajectory_manager_line_event. cbn. unfold aim. now rewrite proj_degenerate. Qed.

(** ** Circles *)

Theorem curv_circle_speeds : forall r rad, 0 < rad -> 0 < track r -> 0 < d_speed (spd r) -> 0 < a_speed (spd r) ->
  let '(d, a) := circle_get_speed_from_radius r (Some rad) in
  radius_of r d a rad /\ 0 < d <= d_speed (spd r) /\ 0 < a <= a_speed (spd r) /\
  forall d' a', 0 <= d' <= d_speed (spd r) -> 0 <= a' <= a_speed (spd r) -> radius_of r d' a' rad -> d' <= d /\ a' <= a.
Proof.
  intros r rad H T D A. pose proof (circle_speeds r rad H T D A) as C. destruct (circle_get_speed_from_radius r (Some rad)) as [d a]. destruct C as (C1 & C2 & C3 & C4).
  split; [exact C1|]. split; [exact C2|]. split; [exact C3|]. intros d' a' Hd Ha R'. unfold radius_of in *. set (c := 2 * rad / track r) in *.
  assert (Cp : 0 < c) by (unfold c; apply Rdiv_lt_0_compat; lra). destruct C4; subst; nra.
Qed.

(** The center on the left, at the distance [d]: forward and backward, the robot moves on a circle of radius [rad^2/d], the wanted one when [d] is the radius,
    as long as two degrees or more remain. *)
Theorem curv_circle_follow_partial : forall r center rad fl da dd r' d, heading_ok r -> tgt r = Circle center rad fl da dd ->
  0 < rad -> 0 < track r -> 0 < d_speed (spd r) -> 0 < a_speed (spd r) -> 0 < d -> center = leftof (here r) (pa r) d ->
  trajectory_manager_circle_event r = OK r' -> RAD 2 <= Rabs (IZR (da - rs_angle r) / imp_per_mm r / track r * 2) ->
  radius_of r (ramp_d r') (ramp_a r') (rad * rad / d) /\ scheduled r' = scheduled r /\ state r' = state r /\ d_consign r' = dd /\ a_consign r' = da.
Proof.
  intros r center rad fl da dd r' d H T HR Tr D A Hd C Ev Far. destruct (circle_event_inv r center rad fl da dd r' T Ev) as (_ & E1 & E2 & E3 & _ & E4).
  pose proof PI_RGT_0. rewrite (seen_unique r center d (PI / 2) H Hd ltac:(lra)) in E4.
  2:{ rewrite C. unfold leftof, along. cbn [fst snd]. replace (pa r + PI / 2) with (PI / 2 - - pa r) by ring. rewrite cos_shift, sin_shift, cos_neg, sin_neg. f_equal; ring. }
  destruct E4 as [_ E4]. specialize (E4 Far). rewrite (eqb0_no d), coef_d_left in E4 by lra. destruct E4 as (E5 & E6 & E7).
  replace (rad / (d / rad * 1)) with (rad * rad / d) in * by (field; lra).
  assert (P : 0 < rad * rad / d) by (apply Rdiv_lt_0_compat; nra). pose proof (circle_speeds r _ P Tr D A) as Sp.
  destruct (circle_get_speed_from_radius r (Some (rad * rad / d))) as [sd sa]. cbn [fst snd] in *. destruct Sp as (Sp & S2 & S3 & _).
  rewrite E6, E7, (Rabs_pos_eq sd), (Rabs_pos_eq sa) by lra. auto.
Qed.

(** The center seen at the angle [theta]: the circle is smaller when the center is behind the left side, larger when it is before it,
    by at most exp (5/2). *)
Theorem curv_circle_correction : forall r center rad fl da dd r' d theta, heading_ok r -> tgt r = Circle center rad fl da dd ->
  0 < rad -> 0 < track r -> 0 < d_speed (spd r) -> 0 < a_speed (spd r) -> 0 < d -> - (PI / 2) <= theta < PI -> center = along (here r) (pa r + theta) d ->
  trajectory_manager_circle_event r = OK r' -> RAD 2 <= Rabs (IZR (da - rs_angle r) / imp_per_mm r / track r * 2) ->
  exists rho, radius_of r (ramp_d r') (ramp_a r') rho /\ rho = rad * (rad / d) * exp (5 * Rmin (1 / 2) (Rmax (- (1 / 2)) (PI / 2 - theta))).
Proof.
  intros r center rad fl da dd r' d th H T HR Tr D A Hd Th C Ev Far. destruct (circle_event_inv r center rad fl da dd r' T Ev) as (_ & E1 & E2 & E3 & _ & E4).
  pose proof PI_RGT_0. rewrite (seen_unique r center d th H Hd ltac:(lra) C) in E4.
  destruct E4 as [_ E4]. specialize (E4 Far). rewrite (eqb0_no d) in E4 by lra. destruct E4 as (E5 & E6 & E7).
  assert (Cd : coef_d th = exp (- (5 * Rmin (1 / 2) (Rmax (- (1 / 2)) (PI / 2 - th))))).
  { unfold coef_d, simple_modulo_2pi. rewrite (ltb_no (th - PI / 2) (- PI)), (ltb_no PI (th - PI / 2)) by lra.
    destruct (cltb_spec (1 / 2) (th - PI / 2)).
    - rewrite (ltb_no (1 / 2) (- (1 / 2))) by lra. rewrite Rmax_left, Rmin_right by lra. f_equal. lra.
    - destruct (cltb_spec (th - PI / 2) (- (1 / 2))).
      + rewrite (Rmax_right (- (1 / 2))), Rmin_left by lra. f_equal. lra.
      + rewrite (Rmax_right (- (1 / 2))), Rmin_right by lra. f_equal. lra. }
  rewrite Cd in *. set (g := 5 * _) in *. pose proof (exp_pos g) as Xp. rewrite exp_Ropp in E6, E7.
  replace (rad / (d / rad * / exp g)) with (rad * (rad / d) * exp g) in E6, E7 by (field; lra).
  assert (P : 0 < rad * (rad / d) * exp g) by (apply Rmult_lt_0_compat; [apply Rmult_lt_0_compat; [lra|apply Rdiv_lt_0_compat; lra]|lra]). pose proof (circle_speeds r _ P Tr D A) as Sp.
  destruct (circle_get_speed_from_radius r _) as [sd sa]. cbn [fst snd] in *. destruct Sp as (Sp & S2 & S3 & _).
  eexists. split; [|reflexivity]. rewrite E6, E7, (Rabs_pos_eq sd), (Rabs_pos_eq sa) by lra. exact Sp.
Qed.

(** The trajectory ends at the first period with less than two degrees left. *)
Theorem curv_circle_end : forall r center rad fl da dd r', tgt r = Circle center rad fl da dd -> trajectory_manager_circle_event r = OK r' ->
  Rabs (IZR (da - rs_angle r) / imp_per_mm r / track r * 2) < RAD 2 ->
  scheduled r' = false /\ ramp_d r' = Rabs (d_speed (spd r)) /\ ramp_a r' = Rabs (a_speed (spd r)) /\ d_consign r' = dd /\ a_consign r' = da.
Proof.
  intros r center rad fl da dd r' T Ev Close. destruct (circle_event_inv r center rad fl da dd r' T Ev) as (_ & E1 & E2 & _ & _ & E4).
  destruct (seen r center). destruct E4 as [E4 _]. destruct (E4 Close) as (E5 & E6 & E7). auto 10.
Qed.

(** The flags are for going forward or backward and clockwise or not. They are ignored: the two destinations change in the
    same direction, so that a robot that goes forward always turns to the left; and with the center on its right it makes a
    circle of more than seven times the radius. *)
Theorem curv_circle_flags_refuted : forall r center rad rel fl r', 0 < rad -> 0 < imp_per_mm r -> 0 < track r -> 0 < d_speed (spd r) -> 0 < a_speed (spd r) ->
  trajectory_circle_rel r center rad rel fl = OK r' ->
  (exists da dd, tgt r' = Circle center rad fl da dd /\ ((rs_angle r <= da /\ rs_distance r <= dd) \/ (da <= rs_angle r /\ dd <= rs_distance r))%Z) /\
  (forall x y a d an r1 r2, r1 = set_pose r' x y a d an -> Rabs a <= PI -> center = leftof (x, y) a (- rad) ->
     trajectory_manager_manage r1 = OK r2 -> scheduled r2 = true -> exists big, 7 * rad < big /\ radius_of r (ramp_d r2) (ramp_a r2) big).
Proof.
  intros r center rad rel fl r' HR Im Tr D A E. pose proof PI_RGT_0. unfold trajectory_circle_rel in E.
  match type of E with rbind ?m _ = _ => destruct m as [x|] eqn:E0; [cbn [rbind] in E|discriminate E] end.
  match type of E with rbind ?m _ = _ => destruct m as [x0|] eqn:E1; [cbn [rbind] in E|discriminate E] end. injection E as <-. split.
  - do 2 eexists. split; [reflexivity|]. apply to_int32_inv in E0, E1. cbn [delete_event set_quadramp_speed set_quadramp_acc set_ramp set_acc set_traj spd imp_per_mm track rs_angle rs_distance] in *. subst x x0.
    assert (Sg : 0 <= RAD rel \/ RAD rel <= 0) by lra. set (g := RAD rel) in *.
    destruct Sg as [Sg|Sg]; [left|right]; split.
    + rewrite <- (Ztrunc_IZR (rs_angle r)) at 1. apply Ztrunc_le. assert (0 <= g * imp_per_mm r * track r / 2) by (assert (0 <= g * imp_per_mm r) by nra; nra). lra.
    + rewrite <- (Ztrunc_IZR (rs_distance r)) at 1. apply Ztrunc_le. assert (0 <= g * imp_per_mm r * rad) by (assert (0 <= g * imp_per_mm r) by nra; nra). lra.
    + rewrite <- (Ztrunc_IZR (rs_angle r)) at 2. apply Ztrunc_le. assert (g * imp_per_mm r * track r / 2 <= 0) by (assert (g * imp_per_mm r <= 0) by nra; nra). lra.
    + rewrite <- (Ztrunc_IZR (rs_distance r)) at 2. apply Ztrunc_le. assert (g * imp_per_mm r * rad <= 0) by (assert (g * imp_per_mm r <= 0) by nra; nra). lra.
  - intros px0 py0 a d an r1 r2 -> Ha C Ev Sc. unfold trajectory_manager_manage in Ev. cbn [set_pose schedule_event set_traj scheduled state] in Ev.
    match type of Ev with trajectory_manager_circle_event ?q = _ => set (r1 := q) in * end.
    destruct (circle_event_inv r1 center rad fl x x0 r2 eq_refl Ev) as (_ & _ & _ & _ & _ & E4).
    rewrite (seen_unique r1 center rad (- (PI / 2)) Ha HR ltac:(lra)) in E4.
    2:{ rewrite C. change (here r1) with (px0, py0). change (pa r1) with a. unfold leftof, along. cbn [fst snd]. replace (a + - (PI / 2)) with (- (PI / 2 - a)) by ring. rewrite cos_neg, sin_neg, cos_shift, sin_shift. f_equal; ring. }
    destruct E4 as [E4 E5]. destruct (Rlt_dec (Rabs (IZR (x - rs_angle r1) / imp_per_mm r1 / track r1 * 2)) (RAD 2)) as [Z|Z]; [destruct (E4 Z) as [E6 _]; congruence|].
    destruct (E5 ltac:(lra)) as (_ & E6 & E7). rewrite (eqb0_no rad), coef_d_right in E6, E7 by lra.
    pose proof (exp_pos (- (5 / 2))) as Xp. replace (rad / (rad / rad * exp (- (5 / 2)))) with (rad * / exp (- (5 / 2))) in E6, E7 by (field; lra).
    rewrite <- exp_Ropp, Ropp_involutive in E6, E7.
    assert (X7 : 7 < exp (5 / 2)).
    { replace (5 / 2) with (1 / 2 + (1 / 2 + (1 / 2 + (1 / 2 + 1 / 2)))) by field. rewrite !exp_plus.
      assert (h : 3 / 2 <= exp (1 / 2)) by (pose proof (exp_ineq1 (1 / 2)); lra). set (h' := exp (1 / 2)) in *. assert (9 / 4 <= h' * h') by nra. assert (81 / 16 <= h' * h' * (h' * h')) by nra. nra. }
    assert (P : 0 < rad * exp (5 / 2)) by nra. pose proof (circle_speeds r1 _ P Tr D A) as Sp.
    destruct (circle_get_speed_from_radius r1 (Some (rad * exp (5 / 2)))) as [sd sa]. cbn [fst snd] in *. destruct Sp as (Sp & S2 & S3 & _).
    exists (rad * exp (5 / 2)). split; [nra|]. rewrite E6, E7, (Rabs_pos_eq sd), (Rabs_pos_eq sa) by lra. exact Sp.
Qed.

(** ** Turns *)

(** A turn by [al] degrees (the first clothoid, an arc of [be] degrees, the second clothoid) is accepted exactly when its acceleration is
    allowed and it fits before the crossing of the lines; the robot then follows the first line up to where the turn begins. *)
Theorem curv_turn_accepted : forall r x y a advance al be Rm D, 0 < imp_per_mm r -> 0 < cs_hz r -> 0 < d_speed (spd r) -> 0 < Rm -> 0 < D ->
  0 < Rabs (RAD al) < PI -> 0 <= al * be -> Rabs be < Rabs al ->
  let delta := Rabs (RAD al - RAD be) in let len := turn_length Rm delta (Rabs (RAD al)) in
  exists r' ok, trajectory_clitoid r x y a advance al be Rm D = OK (r', ok) /\
  (ok = true <-> turn_acc r Rm delta <= a_acc (spd r) /\ len <= D) /\ (ok = false -> r' = r) /\
  (ok = true -> scheduled r' = true /\ state r' = RUNNING_CLITOID_LINE /\
     let s := along (x, y) (RAD a) (D - len) in
     tgt r' = line_target (x, y) s advance (Some (mkturn s (turn_acc r Rm delta) (turn_speed r Rm) (RAD al) Rm))).
Proof.
  intros r x y a advance al be Rm D H1 H3 H4 H5 H6 H7 H8 H9 delta len. unfold trajectory_clitoid. rewrite (turn_calc r x y (RAD a) al be Rm D H1 H3 H4 H5 H6 H7 H8 H9). cbn [rbind]. fold delta. fold len.
  destruct (Rlt_dec (a_acc (spd r)) (turn_acc r Rm delta)) as [L|L]; [do 2 eexists; split; [reflexivity|]; repeat split; try discriminate; intros []; lra|].
  destruct (Rlt_dec D len) as [L'|L']; [do 2 eexists; split; [reflexivity|]; repeat split; try discriminate; intros []; lra|].
  do 2 eexists. split; [reflexivity|]. repeat split; try discriminate; try lra.
  cbn. unfold along. cbn [fst snd]. rewrite !(Rmult_comm (D - len)). reflexivity.
Qed.
(** An arc longer than the turn is refused. *)
Theorem curv_turn_refused : forall r x y a advance al be Rm D, Rabs al <= Rabs be -> trajectory_clitoid r x y a advance al be Rm D = OK (r, false).
Proof. intros. unfold trajectory_clitoid, calc_clitoid. now rewrite ltb_no by lra. Qed.

(** The path of an accepted turn is continuous and its tangent too: the circle of radius [Rm] tangent to the end of the clothoid that leaves the first
    line at the beginning of the turn is also tangent to the start of the clothoid that reaches the second line, as far after the crossing. *)
Theorem curv_turn_path : forall x y a al be Rm D, 0 < Rm -> 0 < D -> 0 < Rabs (RAD al) < PI -> 0 <= al * be -> Rabs be < Rabs al ->
  let alpha := RAD al in let delta := Rabs (RAD al - RAD be) in let tau := (RAD al - RAD be) / 2 in let len := turn_length Rm delta (Rabs alpha) in let e := side alpha in
  let crossing := along (x, y) a D in
  leftof (after_clothoid (along (x, y) a (D - len)) a e Rm delta) (a + tau) (e * Rm) =
  leftof (before_clothoid (along crossing (a + alpha) len) (a + alpha) e Rm delta) (a + alpha - tau) (e * Rm).
Proof.
  intros x y a al be Rm D HR HD Hal Hsg Hbe alpha delta tau len e crossing.
  assert (Cr : crossing = (x + cos a * D, y + sin a * D)) by (unfold crossing, along; cbn [fst snd]; f_equal; ring).
  destruct (center_some x y a alpha D (fresnel_y Rm delta + Rm * cos tau) HD Hal) as [c Ec].
  destruct (turn_path x y a al be Rm D HD Hal Hsg Hbe c Ec) as [P1 P2]. rewrite Cr. transitivity c; [symmetry; etransitivity; [exact P1|]|exact P2].
  assert (S' : along (x + cos a * D, y + sin a * D) a (- len) = along (x, y) a (D - len)) by (unfold along; cbn [fst snd]; f_equal; ring). now rewrite <- S'.
Qed.

(** The speeds of an accepted turn: on the circle the robot turns with radius [Rm]; accelerating from zero in angle it reaches this speed after
    [n] periods, when it has run the length of the clothoid and turned by half its angle. *)
Theorem curv_turn_speeds : forall r Rm delta, 0 < imp_per_mm r -> 0 < track r -> 0 < d_speed (spd r) -> 0 < Rm -> 0 < delta ->
  radius_of r (d_speed (spd r)) (turn_speed r Rm) Rm /\
  exists n, 0 < n /\ turn_speed r Rm = turn_acc r Rm delta * n /\ d_speed (spd r) * n = steps_mm r (Rm * delta) /\
  turn_acc r Rm delta * n * n / 2 = steps_rad r (delta / 2).
Proof.
  intros r Rm delta H1 H2 H3 H4 H5. unfold radius_of, turn_speed, turn_acc, turn_speed, steps_mm, steps_rad. split; [field; lra|].
  exists (Rm * delta * imp_per_mm r / d_speed (spd r)). split; [apply Rdiv_lt_0_compat; [|lra]; apply Rmult_lt_0_compat; nra|]. repeat split; field; repeat split; lra.
Qed.

(** On the first line the robot is led as on any line, and the turn begins at the first period with less than 0.5 mm left to its projection. *)
Theorem curv_turn_begins : forall r p1 a len advance t r' f s, heading_ok r -> 0 < a_start r -> 0 < len -> Rabs a < PI -> turn_pt t = along p1 a len ->
  tgt r = line_target p1 (turn_pt t) advance (Some t) -> state r = RUNNING_CLITOID_LINE ->
  foot p1 (turn_pt t) (here r) f -> f = along p1 a s ->
  trajectory_manager_line_event r = OK r' ->
  (s <= len - 1 / 2 -> exists q theta d, further p1 (turn_pt t) f q (Rmax 0 (advance - dist (here r) f)) /\ leads r theta d q /\ followed r theta d r') /\
  (len - 1 / 2 < s -> turning r t r').
Proof.
  intros r p1 a len advance t r' f s H A Ln Ha Tp T St F Fs E.
  assert (Dl : dist (turn_pt t) p1 = len).
  { rewrite Tp. unfold dist, along. cbn [fst snd]. replace (_ + _) with (len * len * ((sin a)² + (cos a)²)) by (unfold Rsqr; ring). rewrite sin2_cos2, Rmult_1_r. apply sqrt_square. lra. }
  assert (N : p1 <> turn_pt t). { intro X. rewrite <- X in Dl. unfold dist in Dl. replace (_ + _) with 0 in Dl by ring. rewrite sqrt_0 in Dl. lra. }
  assert (Dir : atan2 (snd (turn_pt t) - snd p1) (fst (turn_pt t) - fst p1) = a) by (apply direction; auto; now rewrite Dl).
  unfold trajectory_manager_line_event in E. rewrite T in E. unfold line_target in E.
  destruct (aim_ok r p1 (turn_pt t) advance N) as (f' & q & E1 & F' & Q). rewrite (foot_unique _ _ _ _ _ N F' F) in *. rewrite E1 in E. cbn [rbind] in E.
  pose proof (seen_leads r q H) as Le. destruct (seen r q) as [d theta]. rewrite (eqb0_no (a_start r)), andb_false_r in E by lra.
  dob E. dob E. dob E. dob E. cbn [set_quadramp_speed set_ramp state set_consign] in E. rewrite St in E. rewrite Dir in E.
  apply to_int32_inv in E0. apply int_inv in E2 as [-> _]. apply to_int32_inv in E3. apply int_inv in E4 as [-> _].
  assert (On : forall u v, pt_norm (along p1 a u) (along p1 a v) = Rabs (v - u)).
  { intros u v. unfold pt_norm, along. cbn [fst snd]. replace (_ + _) with ((v - u) * (v - u) * ((sin a)² + (cos a)²)) by (unfold Rsqr; ring). rewrite sin2_cos2, Rmult_1_r. apply sqrt_Rsqr_abs. }
  assert (Nx : (fst f + cos a, snd f + sin a) = along p1 a (s + 1)) by (rewrite Fs; unfold along; cbn [fst snd]; f_equal; ring).
  rewrite Nx, Fs, Tp, !On in E. split; intro Sl.
  - rewrite ltb_no in E. 2:{ destruct (Rle_dec 0 (len - (s + 1))); [rewrite !Rabs_pos_eq by lra; lra|]. rewrite (Rabs_left (len - (s + 1))), (Rabs_pos_eq (len - s)) by lra. lra. }
    injection E as <-. exists q, theta, d. do 2 (split; [assumption|]). unfold followed. cbn. rewrite T, St. subst.
    repeat split; try reflexivity.
    + unfold pos_mm2imp, steps_mm. cbn. lia.
    + unfold pos_rd2imp, steps_rad. cbn. rewrite Z.add_comm. f_equal. f_equal. field.
    + unfold slowed, ltb. destruct (Rlt_dec (a_start r) (Rabs theta)); reflexivity.
  - rewrite ltb_yes in E. 2:{ rewrite (Rabs_left (len - (s + 1))) by lra. destruct (Rle_dec 0 (len - s)); [rewrite Rabs_pos_eq by lra|rewrite Rabs_left by lra]; lra. }
    clear E0 E3. unfold start_clitoid in E. dob E. dob E. dob E. dob E. injection E as <-.
    apply to_int32_inv in E0, E3. apply int_inv in E2 as [-> _]. apply int_inv in E4 as [-> _]. subst. unfold turning. cbn. repeat split; try reflexivity.
    + rewrite Z.add_comm. reflexivity.
    + rewrite Z.add_comm. do 2 f_equal. unfold steps_mm. ring.
Qed.

(** ** Cases *)

Definition bot (x y : R) : robot := mkrobot x y 0 0 0 1 200 100 (mkSpeeds 10 5 1 1) (1 / 2) 0 0 0 0 0 0 false READY NoTarget.
(** A robot 10 mm on the left of the line from (0, 0) to (100, 0), parallel to it. *)
Definition beside_line : robot := trajectory_line_abs (bot 20 10) (0, 0) (100, 0) 50.
Lemma dist_line : dist (100, 0) (0, 0) = 100.
Proof. unfold dist. cbn [fst snd]. replace (_ + _) with (100 * 100) by ring. apply sqrt_square. lra. Qed.
Lemma dist_foot : dist (20, 10) (20, 0) = 10.
Proof. unfold dist. cbn [fst snd]. replace (_ + _) with (10 * 10) by ring. apply sqrt_square. lra. Qed.
Example curv_line_case : exists r', trajectory_manager_manage beside_line = OK r' /\ a_consign r' <> 0%Z /\ tgt beside_line = line_target (0, 0) (100, 0) 50 None.
Proof.
  pose proof PI_RGT_0. pose proof PI_4. unfold trajectory_manager_manage. cbn [beside_line trajectory_line_abs schedule_event set_traj scheduled state].
  assert (N : (0, 0) <> (100, 0)) by (intros [=]; lra).
  assert (Ok : exists r', trajectory_manager_line_event beside_line = OK r').
  { apply (curv_line_safe beside_line (0, 0) (100, 0) 50 None (20, 0)); try (cbn; lra); try reflexivity; auto.
    - unfold heading_ok. cbn. rewrite Rabs_R0. lra.
    - split; [exists (1 / 5); cbn; f_equal; field|unfold dot, sub; cbn; ring].
    - unfold steps_mm. change (here beside_line) with (20, 10). rewrite dist_foot, Rmax_left by lra. cbn. lra.
    - unfold steps_rad. cbn. lra. }
  destruct Ok as [r' Ok]. exists r'. split; [exact Ok|]. split; [|reflexivity].
  destruct (curv_line_returns beside_line (0, 0) (100, 0) 50 None r' 0 20 10 N) as (th & d & (C & C2 & _) & Dp & Sd & Neg & _); try reflexivity; try (cbn; lra); auto.
  - rewrite dist_line. unfold along. rewrite cos_0, sin_0. cbn. f_equal; ring.
  - rewrite Rabs_R0. lra.
  - unfold leftof, along, here. rewrite cos_0, sin_0. cbn. f_equal; ring.
  - rewrite C2. cbn [rs_angle beside_line trajectory_line_abs schedule_event set_traj delete_event set_quadramp_speed set_ramp set_quadramp_acc set_acc bot]. specialize (Neg ltac:(lra)).
    (* d <= 50, so that |sin theta| >= 1/5 *)
    destruct (curv_line beside_line (0, 0) (100, 0) 50 None r') as (f & q & th' & d' & F & Q & L & Fo); try reflexivity; try (cbn; lra); auto.
    { unfold heading_ok. cbn. rewrite Rabs_R0. lra. }
    assert (F0 : foot (0, 0) (100, 0) (here beside_line) (20, 0)) by (split; [exists (1 / 5); cbn; f_equal; field|unfold dot, sub; cbn; ring]).
    rewrite (foot_unique _ _ _ _ _ N F F0) in Q. change (here beside_line) with (20, 10) in Q. rewrite dist_foot, Rmax_right in Q by lra.
    assert (Qv : q = (60, 0)). { rewrite Q. rewrite dist_line. cbn [fst snd]. f_equal; field. }
    pose proof (leads_dist _ _ _ _ L) as Ld. destruct L as (L1 & L2 & L3). destruct Fo as (D1 & D2 & _). rewrite C2 in D2. cbn in D2. rewrite D2.
    assert (Sd' : d' * sin th' = - 10). { rewrite L3 in Qv. unfold along, here in Qv. cbn [fst snd beside_line trajectory_line_abs schedule_event set_traj delete_event set_quadramp_speed set_ramp set_quadramp_acc set_acc bot px py pa] in Qv. injection Qv as _ Qy. rewrite Rplus_0_l in Qy. lra. }
    assert (Dd : d' <= 50). { rewrite <- Ld, Qv. change (here beside_line) with (20, 10). unfold dist. cbn [fst snd]. replace (_ + _) with 1700 by ring. rewrite <- (sqrt_square 50) by lra. apply sqrt_le_1_alt. lra. }
    assert (Th : th' < - (1 / 5)).
    { destruct (Rlt_dec th' (- (1 / 5))); auto. exfalso. destruct (Rlt_dec (sin th') (- (1 / 5))) as [X|X]; [|apply Rnot_lt_le in X]; [exfalso; destruct (Rle_dec 0 th') as [P|P]; [apply Rabs_le_inv in L1; pose proof (sin_ge_0 th'); lra|]; pose proof (sin_lt_x (- th')) as Y; rewrite sin_neg in Y; lra|].
      assert (Dq : d' * d' = 1700). { rewrite <- Ld, Qv. change (here beside_line) with (20, 10). unfold dist. cbn [fst snd]. rewrite sqrt_sqrt; [ring|]. lra. }
      assert (d' < 50) by nra. nra. }
    unfold steps_rad. cbn.
    assert (B : th' * 1 * 200 / 2 / (11 / 10) <= -1) by lra. apply Ztrunc_le in B. rewrite (Ztrunc_IZR (-1)) in B. lia.
Qed.

(** A robot at (0, 0) on a circle of radius 500 around (0, 500), for half a turn. *)
Example curv_circle_case : exists r r', trajectory_circle_rel (bot 0 0) (0, 500) 500 (180 / PI * 2) 0 = OK r /\ trajectory_manager_manage r = OK r' /\
  (0, 500) = leftof (here r) (pa r) 500 /\ scheduled r' = true /\ d_consign r' = 1000%Z /\ a_consign r' = 200%Z.
Proof.
  pose proof PI_RGT_0. pose proof PI_4. unfold trajectory_circle_rel. cbn [bot delete_event set_quadramp_speed set_ramp set_quadramp_acc set_acc set_traj imp_per_mm track rs_angle rs_distance spd d_speed a_speed d_acc a_acc].
  assert (Ra : RAD (180 / PI * 2) = 2) by (unfold RAD; field; lra). rewrite Ra.
  replace (0 + 2 * 1 * 200 / 2) with (IZR 200) by (cbn; field). replace (0 + 2 * 1 * 500) with (IZR 1000) by (cbn; ring).
  unfold to_int32. rewrite !Ztrunc_IZR. cbn [Z.leb Z.ltb Z.compare Z.opp Z.pow Z.pow_pos Pos.iter Z.mul Pos.mul Pos.compare Pos.compare_cont CompOpp andb rbind].
  match goal with |- exists r r', OK ?X = OK r /\ _ => exists X end. unfold trajectory_manager_manage, trajectory_manager_circle_event. cbn [schedule_event set_traj scheduled state tgt]. rewrite (eqb0_no 500) by lra.
  match goal with |- context [seen ?q ?p] => destruct (seen q p) as [d th] end.
  match goal with |- context [circle_get_speed_from_radius ?q ?p] => destruct (circle_get_speed_from_radius q p) as [u v] end.
  eexists. split; [reflexivity|]. cbn [set_quadramp_speed set_ramp rs_angle imp_per_mm track set_traj schedule_event]. change (int (200 - 0)) with (OK 200%Z). cbn [rbind]. split; [reflexivity|].
  split; [unfold leftof, here; cbn; rewrite sin_0, cos_0; f_equal; ring|].
  rewrite ltb_no; [cbn; auto|]. change (RAD 2 <= Rabs (200 / 1 / 200 * 2)). replace (200 / 1 / 200 * 2) with 2 by field. rewrite Rabs_pos_eq by lra. unfold RAD. lra.
Qed.

(** A turn by a right angle with an arc of 30 degrees, 1 m before the crossing, is accepted. *)
Example curv_turn_case : let r := mkrobot 0 0 0 0 0 1 200 100 (mkSpeeds 10 5 1 100) (1 / 2) 0 0 0 0 0 0 false READY NoTarget in
  exists r', trajectory_clitoid r 0 0 0 50 90 30 100 1000 = OK (r', true) /\ 0 < Rabs (RAD 90) < PI /\ Rabs (RAD 90 - RAD 30) = PI / 3.
Proof.
  intro r. pose proof PI_RGT_0. pose proof PI_4. pose proof PI2_1.
  assert (Al : Rabs (RAD 90) = PI / 2) by (unfold RAD; rewrite Rabs_pos_eq by lra; field). assert (De : Rabs (RAD 90 - RAD 30) = PI / 3) by (unfold RAD; rewrite Rabs_pos_eq by lra; field).
  destruct (curv_turn_accepted r 0 0 0 50 90 30 100 1000) as (r' & ok & E & A & _ & _); try (cbn; lra).
  { rewrite Rabs_pos_eq, Rabs_pos_eq by lra. lra. }
  exists r'. split; [|split; [lra|exact De]]. rewrite E. f_equal. f_equal. apply A. rewrite De, Al. split.
  - unfold turn_acc, turn_speed, steps_mm. cbn. apply Rmult_le_reg_r with (100 * (PI / 3) * 1); [lra|].
    replace (10 * 200 / (2 * 100) * 10 / (100 * (PI / 3) * 1) * (100 * (PI / 3) * 1)) with 100 by (field; lra). lra.
  - unfold turn_length. replace (PI / 2 / 2) with (PI / 4) by field. rewrite tan_PI4, Rmult_1_r. set (h := PI / 3 / 2).
    assert (0 <= sin h) by (apply sin_ge_0; unfold h; lra). pose proof (COS_bound h) as Cb. assert (T : 0 <= PI / 3 <= 4 / 3) by lra. unfold fresnel_x, fresnel_y. set (t := PI / 3) in *.
    assert (T2 : 0 <= t ^ 2 <= 2) by nra. assert (T4 : 0 <= t ^ 4 <= 4) by (replace (t ^ 4) with (t ^ 2 * t ^ 2) by ring; nra).
    assert (T6 : 0 <= t ^ 6 <= 8) by (replace (t ^ 6) with (t ^ 4 * t ^ 2) by ring; nra). assert (T8 : 0 <= t ^ 8) by (replace (t ^ 8) with (t ^ 4 * t ^ 4) by ring; nra).
    assert (T3 : 0 <= t ^ 3) by (replace (t ^ 3) with (t ^ 2 * t) by ring; nra). assert (T5 : 0 <= t ^ 5 <= 8) by (replace (t ^ 5) with (t ^ 4 * t) by ring; nra). assert (T7 : 0 <= t ^ 7) by (replace (t ^ 7) with (t ^ 6 * t) by ring; nra). lra.
Qed.
(** Less than half a millimeter before the beginning of a turn: it begins. *)
Example curv_turn_begins_case : let t := mkturn (along (0, 0) 0 100) 1 2 1 100 in
  let r := set_traj (bot (100 - 1 / 4) 0) true RUNNING_CLITOID_LINE (line_target (0, 0) (turn_pt t) 50 (Some t)) in
  foot (0, 0) (turn_pt t) (here r) (along (0, 0) 0 (100 - 1 / 4)) /\ heading_ok r /\ 0 < a_start r.
Proof.
  cbn. split; [|split; [unfold heading_ok; cbn; rewrite Rabs_R0; pose proof PI_RGT_0; lra|lra]].
  unfold foot, along, dot, sub, here. cbn. rewrite cos_0, sin_0. split; [exists (399 / 400); f_equal; field|field].
Qed.

Print Assumptions curv_line.
Print Assumptions curv_line_safe.
Print Assumptions curv_line_straight.
Print Assumptions curv_line_returns.
Print Assumptions curv_line_no_end.
Print Assumptions curv_line_degenerate_refuted.
Print Assumptions curv_circle_speeds.
Print Assumptions curv_circle_follow_partial.
Print Assumptions curv_circle_correction.
Print Assumptions curv_circle_end.
Print Assumptions curv_circle_flags_refuted.
Print Assumptions curv_turn_accepted.
Print Assumptions curv_turn_refused.
Print Assumptions curv_turn_path.
Print Assumptions curv_turn_speeds.
Print Assumptions curv_turn_begins.
