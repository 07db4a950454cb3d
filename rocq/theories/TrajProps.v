(** Theorems about the trajectory manager and the control loops of the base. *)
From Coq Require Import ZArith Reals List Bool Lia Lra Psatz.
From Flocq Require Import Core.
From Verif Require Import CBase CRes FloatModel PidModel QuadModel QuadProps EncModel LieSpec TrajModel TrajSpec TrajProofs.
Import ListNotations.
Local Open Scope R_scope.

(** * C52: why a trajectory ended *)

Lemma goal_iff r : trajectory_finished r = true <-> holds r Goal.
Proof.
  unfold trajectory_finished. cbn [holds]. unfold ramp_done. rewrite andb_true_iff, !Z.eqb_eq. intuition.
Qed.
Lemma in_distance r b : is_robot_in_dist_window r (d_win (win r)) = OK b -> 0 < distance_imp_per_mm r -> (b = true <-> near_distance r).
Proof.
  unfold is_robot_in_dist_window, near_distance, mm. intros H Hi. dob H. dob H. inversion H; subst b. apply int_inv in E0 as [-> _].
  assert (A : Rabs (IZR (a - rs_get_distance (rs r)) / distance_imp_per_mm r) = Rabs (IZR (a - rs_get_distance (rs r))) / distance_imp_per_mm r).
  { unfold Rdiv. rewrite Rabs_mult, (Rabs_pos_eq (/ _)); auto. left. now apply Rinv_0_lt_compat. }
  destruct (ltb_spec (Rabs (IZR (a - rs_get_distance (rs r))) / distance_imp_per_mm r) (d_win (win r))) as [L|L]; split; try discriminate.
  - intros _. exists a. rewrite A. auto.
  - auto.
  - intros (d & D1 & D2). inversion D1; subst d. rewrite A in D2. contradiction.
Qed.
Lemma in_angle r b : is_robot_in_angle_window r (a_win_rad (win r)) = OK b -> (b = true <-> near_angle r).
Proof.
  unfold is_robot_in_angle_window, near_angle, rad. intros H. dob H. dob H. inversion H; subst b. apply int_inv in E0 as [-> _].
  destruct (ltb_spec (Rabs (IZR (a - rs_get_angle (rs r)) / distance_imp_per_mm r / track_mm r * 2)) (a_win_rad (win r))) as [L|L]; split; try discriminate; auto.
  - intros _. exists a. auto.
  - intros (d & D1 & D2). inversion D1; subst d. contradiction.
Qed.
Lemma near_iff r b : trajectory_nearly_finished r = OK b -> 0 < distance_imp_per_mm r -> (b = true <-> near_target r).
Proof.
  unfold trajectory_nearly_finished, near_target. intros H Hi. destruct (state r) as [| | | |dir []]; try (inversion H; subst b; now split).
  - now apply in_angle.
  - now apply in_distance.
  - dob H. apply in_distance in E; auto. destruct a.
    + apply in_angle in H. intuition.
    + inversion H; subst b. split; [discriminate|]. intros [N _]. now apply E.
  - unfold is_robot_in_xy_window in H. dob H. destruct a as [tx ty]. inversion H; subst b. unfold read_cart in E. destruct (tgt r) as [|x y|]; inversion E; subst.
    fold (distance_to r tx ty). destruct (ltb_spec (distance_to r tx ty) (d_win (win r))); split; try discriminate; auto.
    + intros _. exists tx, ty. auto.
    + intros (x & y & A & B). inversion A; subst. contradiction.
Qed.
Lemma blocked_iff b : bd_get b = true <-> blocked b.
Proof. unfold bd_get, blocked. rewrite andb_true_iff, negb_true_iff, Z.eqb_neq, Z.leb_le. tauto. Qed.
Lemma timer_iff r : timer_fits r -> (trajectory_game_has_ended r = true <-> holds r Timer).
Proof.
  intro F. unfold trajectory_game_has_ended, trajectory_get_time. cbn [holds]. destruct (game_start r) as [s|] eqn:E.
  - specialize (F s E). unfold seconds in *. assert (Q : (0 <= Z.quot (now r - s) 1000000000 < 2 ^ 31)%Z).
    { rewrite Z.quot_div_nonneg by lia. split; [apply Z.div_pos; lia|apply Z.div_lt_upper_bound; lia]. }
    assert (S : s32 (Z.quot (now r - s) 1000000000) = Z.quot (now r - s) 1000000000).
    { apply (sN_id 32); lia. }
    rewrite S, Z.leb_le, Z.quot_div_nonneg by lia. split.
    + intro H. exists s. split; auto. pose proof (Z.mul_div_le (now r - s) 1000000000 ltac:(lia)). lia.
    + intros (s' & A & B). inversion A; subst s'. apply Z.div_le_lower_bound; lia.
  - split; [discriminate|]. intros (s & A & _). discriminate.
Qed.

(** The result is the first reason, in the order goal reached, near the goal, collision, end of the game, that is asked
    for and holds; 0 if there is none. Only the last two change anything: they stop the robot where it is. *)
Theorem has_ended_reason r w r' v : 0 < distance_imp_per_mm r -> timer_fits r -> trajectory_has_ended r w = OK (r', v) ->
  (v = 0%Z /\ r' = r /\ forall n, watched w n -> ~ holds r n) \/
  (exists n, v = code n /\ first_reason w r n /\
     match n with Goal | Near => r' = r | Collision => stopped r r' /\ cpt (angle_bd r') = 0%Z /\ cpt (distance_bd r') = 0%Z | Timer => stopped r r' end).
Proof.
  intros Hi F. unfold trajectory_has_ended. rewrite has_goal, has_near, has_coll, has_timer. intro H.
  destruct (Z.testbit w 0 && trajectory_finished r) eqn:G.
  { inversion H; subst. apply andb_prop in G as [G1 G2]. apply goal_iff in G2. right. exists Goal. repeat split; auto; try apply G2.
    exists [], [Near; Collision; Timer]. repeat split; auto; apply G2. }
  assert (NG : watched w Goal -> ~ holds r Goal).
  { unfold watched. cbn [bit]. intros A B. apply goal_iff in B. rewrite A, B in G. discriminate. }
  clear G. dob H. destruct a.
  { inversion H; subst. right. exists Near. destruct (Z.testbit w 5) eqn:N; [|discriminate]. apply near_iff in E; auto.
    split; [auto|]. split; auto. exists [Goal], [Collision; Timer]. repeat split; auto.
    - now apply E.
    - intros m [<-|[]]. auto. }
  assert (NN : watched w Near -> ~ holds r Near).
  { unfold watched. cbn [bit]. intros A B. rewrite A in E. apply near_iff in E; auto. apply E in B. discriminate. }
  clear E. destruct (Z.testbit w 1 && (bd_get (angle_bd r) || bd_get (distance_bd r))) eqn:C.
  { dob H. inversion H; subst. apply hardstop_inv in E as (S & _ & B1 & B2). apply andb_prop in C as [C1 C2]. right. exists Collision. split; [auto|]. split.
    - exists [Goal; Near], [Timer]. repeat split; auto.
      + cbn [holds]. apply orb_prop in C2 as [C2|C2]; apply blocked_iff in C2; auto.
      + intros m [<-|[<-|[]]]; auto.
    - split; [exact S|]. now split. }
  assert (NC : watched w Collision -> ~ holds r Collision).
  { unfold watched. cbn [bit holds]. intros A [B|B]; apply blocked_iff in B; rewrite A, B, ?orb_true_r in C; discriminate. }
  clear C. destruct (Z.testbit w 3 && trajectory_game_has_ended r) eqn:T.
  { dob H. inversion H; subst. apply hardstop_inv in E as (S & _). apply andb_prop in T as [T1 T2]. right. exists Timer. split; [auto|]. split; auto.
    exists [Goal; Near; Collision], []. repeat split; auto.
    - now apply timer_iff.
    - intros m [<-|[<-|[<-|[]]]]; auto. }
  inversion H; subst. left. repeat split; auto. intros [| | |] A; auto.
  unfold watched in A. cbn [bit] in A. intro B. apply timer_iff in B; auto. rewrite A, B in T. discriminate.
Qed.

Lemma run_app es1 es2 r : run r (es1 ++ es2) = try r := run r es1 in run r es2.
Proof. revert r; induction es1 as [|e es1 IH]; cbn [run app]; intro r; auto. destruct (step r e); cbn [rbind]; auto. Qed.
(** Waiting returns such a reason, whatever the other threads do in the meantime. *)
Theorem wait_for_end_reason w envs : forall r r' v, trajectory_wait_for_end r w envs = OK (r', Some v) ->
  exists n r1, v = code n /\ trajectory_has_ended r1 w = OK (r', v) /\
    (exists es, run r es = OK r1) /\
    (0 < distance_imp_per_mm r1 -> timer_fits r1 -> first_reason w r1 n /\ (n = Collision \/ n = Timer -> stopped r1 r')).
Proof.
  induction envs as [|es envs IH]; cbn [trajectory_wait_for_end]; intros r r' v H; [discriminate|].
  dob H. dob H. destruct a0 as [r2 reason]. cbv beta iota in H. destruct (Z.eqb_spec reason 0) as [Z0|Z0].
  - apply IH in H as (n & r1 & A & B & (es' & C) & D). exists n, r1. repeat split; auto; try (now apply D).
    exists (es ++ Poll w :: es'). rewrite run_app, E. cbn [rbind run step]. rewrite E0. exact C.
  - inversion H; subst r2 reason. clear H. assert (K : exists n, v = code n).
    { unfold trajectory_has_ended in E0. destruct (_ && _); [inversion E0; now exists Goal|]. dob E0. destruct a0; [inversion E0; now exists Near|].
      destruct (_ && _); [dob E0; inversion E0; now exists Collision|]. destruct (_ && _); [dob E0; inversion E0; now exists Timer|]. inversion E0; subst. contradiction. }
    destruct K as [n K]. exists n, a. split; auto. split; auto. split; [now exists es|].
    intros P F. destruct (has_ended_reason a w r' v P F E0) as [(V & _)|(m & V & FR & M)]; [contradiction|].
    assert (m = n). { rewrite K in V. unfold code in V. destruct m, n; cbn in V; auto; lia. } subst m. split; auto. intros [-> | ->]; [apply M|exact M].
Qed.

(** * The robot stays where it was stopped, and goes where it is told *)

Ltac conj6 := split; [|split; [|split; [|split; [|split]]]].
Lemma quiet_step e r r' : quiet e -> scheduled r = false -> step r e = OK r' -> scheduled r' = false /\ state r' = state r /\
  consign_value (angle_cs r') = consign_value (angle_cs r) /\ consign_value (distance_cs r') = consign_value (distance_cs r) /\
  (forall h, settled (angle_cs r) h -> settled (angle_cs r') h) /\ (forall h, settled (distance_cs r) h -> settled (distance_cs r') h).
Proof.
  intros Q S H. destruct e; cbn [quiet step] in *; try contradiction; try (injection H as <-; conj6; auto; fail).
  - apply control_inv in H as (sys & _ & F & _ & _ & A & D & _). destruct F as (F1 & F2 & _).
    rewrite F1, F2, (axis_consign _ _ _ _ A), (axis_consign _ _ _ _ D). conj6; auto; intros; eapply axis_settled; eauto.
  - unfold trajectory_manager_manage in H. rewrite S in H. inversion H; subst. conj6; auto.
  - dob H. destruct a as [r1 v]. inversion H; subst. destruct Q as [Q1 Q2]. unfold watched in Q1, Q2. cbn [bit] in Q1, Q2.
    unfold trajectory_has_ended in E. rewrite has_coll, has_timer in E. apply not_true_is_false in Q1. apply not_true_is_false in Q2. rewrite Q1, Q2 in E. cbn [andb] in E.
    destruct (_ && _); [inversion E; subst; conj6; auto|]. dob E. destruct a; inversion E; subst; conj6; auto.
Qed.
Lemma quiet_run es : forall r r', Forall quiet es -> scheduled r = false -> run r es = OK r' -> scheduled r' = false /\ state r' = state r /\
  consign_value (angle_cs r') = consign_value (angle_cs r) /\ consign_value (distance_cs r') = consign_value (distance_cs r) /\
  (forall h, settled (angle_cs r) h -> settled (angle_cs r') h) /\ (forall h, settled (distance_cs r) h -> settled (distance_cs r') h).
Proof.
  induction es as [|e es IH]; cbn [run]; intros r r' Q S H; [inversion H; subst; conj6; auto|].
  dob H. inversion Q; subst. apply quiet_step in E as (A1 & A2 & A3 & A4 & A5 & A6); auto. apply IH in H as (B1 & B2 & B3 & B4 & B5 & B6); auto.
  rewrite B2, B3, B4, A2, A3, A4. conj6; auto; intros h Hh.
Qed.

(** After a hard stop and until the next order, both axes are told to stay where the encoders were, whatever the control
    loop, the odometry and the other threads do; from the first period with both axes regulated on, the robot is held
    there and the trajectory is finished. *)
Theorem hardstop_holds r r1 es r2 : trajectory_hardstop r = OK r1 -> Forall quiet es -> run r1 es = OK r2 ->
  state r2 = READY /\ scheduled r2 = false /\
  axis_stopped (angle_cs r2) (rs_get_angle (rs r)) /\ axis_stopped (distance_cs r2) (rs_get_distance (rs r)) /\
  forall l rr s r3, mode r2 = ANGLE_DISTANCE -> step r2 (Control l rr s) = OK r3 ->
    filtered_consign_value (angle_cs r3) = rs_get_angle (rs r) /\ filtered_consign_value (distance_cs r3) = rs_get_distance (rs r) /\ holds r3 Goal.
Proof.
  intros H Q R. apply hardstop_inv in H as ((S1 & S2 & S3 & S4 & S5) & _). apply quiet_run in R as (R1 & R2 & R3 & R4 & R5 & R6); auto.
  split; [congruence|]. split; [auto|]. apply R5 in S4. apply R6 in S5. split; [exact S4|]. split; [exact S5|].
  intros l rr s r3 M C. cbn [step] in C. apply control_inv in C as (sys & _ & _ & _ & _ & A & D & _). rewrite M in A, D. cbn [angle_on distance_on axis] in A, D.
  apply (cs_manage_settled _ _ _ _ S4) in A as [A1 A2]. apply (cs_manage_settled _ _ _ _ S5) in D as [D1 D2].
  repeat split; auto; unfold ramp_done; [rewrite A2; symmetry; apply A1|rewrite D2; symmetry; apply D1].
Qed.

Lemma RAD_deg a : RAD a = a * PI / 180. Proof. unfold RAD. field. Qed.
Lemma command_wants c r r1 d : wanted_distance r c = Some d -> (Rabs (pos_a r) <= PI) -> do_command r c = OK r1 ->
  scheduled r1 = false /\ consign_value (distance_cs r1) = d /\ wanted_angle r c (consign_value (angle_cs r1)).
Proof.
  intros W Ha H. destruct c; cbn [wanted_distance] in W; inversion W; subst d; clear W; cbn [do_command] in H; cbn [wanted_angle]; unfold turned, steps_of_rad, steps_of_mm.
  1,2,3,7,9: unfold trajectory_d_rel, trajectory_only_d_rel, trajectory_a_rel, trajectory_only_a_rel, trajectory_d_a_rel in H; apply goto_inv in H as (_ & S & _ & _ & _ & A & D & _); cbn [delta] in A, D; rewrite <- ?RAD_deg; auto.
  - unfold trajectory_a_abs in H. dob H. apply mod_spec in E as [E1 E2]. apply goto_inv in H as (_ & S & _ & _ & _ & A & D & _); cbn [delta] in A, D.
    repeat split; auto. exists a. rewrite <- RAD_deg. repeat split; auto. apply (same_plus _ _ (pos_a r)) in E1. replace (RAD a_deg) with (pos_a r + (RAD a_deg - pos_a r)) by ring. auto.
  - unfold trajectory_turnto_xy in H. apply goto_inv in H as (_ & S & _ & _ & _ & A & D & _); cbn [delta] in A, D. repeat split; auto.
    pose proof (atan2_range (y - pos_y r) (x - pos_x r)) as AR. apply Rabs_le_inv in AR. apply Rabs_le_inv in Ha.
    destruct (smod_spec (atan2 (y - pos_y r) (x - pos_x r) - pos_a r)) as [M1 M2]. { apply Rabs_le. lra. }
    eexists _, _. split; [exact M2|]. split; [apply (sqrt_pos ((x - pos_x r) * (x - pos_x r) + (y - pos_y r) * (y - pos_y r)))|]. split; [|exact A].
    apply (same_plus _ _ (pos_a r)) in M1. replace (pos_a r + (atan2 (y - pos_y r) (x - pos_x r) - pos_a r)) with (atan2 (y - pos_y r) (x - pos_x r)) in M1 by ring.
    apply same_cs in M1 as [M3 M4]. unfold leads_to. rewrite M3, M4. destruct (atan2_polar (x - pos_x r) (y - pos_y r)) as [P1 P2]. lra.
  - unfold trajectory_turnto_xy_behind in H. dob H. apply mod_spec in E as [E1 E2]. apply goto_inv in H as (_ & S & _ & _ & _ & A & D & _); cbn [delta] in A, D. repeat split; auto.
    exists a, (- sqrt ((x - pos_x r) * (x - pos_x r) + (y - pos_y r) * (y - pos_y r))). split; auto.
    split; [pose proof (sqrt_pos ((x - pos_x r) * (x - pos_x r) + (y - pos_y r) * (y - pos_y r))); lra|]. split; [|exact A].
    apply (same_plus _ _ (pos_a r)) in E1. replace (pos_a r + (atan2 (y - pos_y r) (x - pos_x r) - pos_a r + PI)) with (atan2 (y - pos_y r) (x - pos_x r) + PI) in E1 by ring.
    apply same_cs in E1 as [M3 M4]. unfold leads_to. rewrite M3, M4, neg_cos, neg_sin. destruct (atan2_polar (x - pos_x r) (y - pos_y r)) as [P1 P2]. lra.
  - unfold trajectory_only_a_abs in H. dob H. apply mod_spec in E as [E1 E2]. apply goto_inv in H as (_ & S & _ & _ & _ & A & D & _); cbn [delta] in A, D.
    repeat split; auto. exists a. rewrite <- RAD_deg. repeat split; auto. apply (same_plus _ _ (pos_a r)) in E1. replace (RAD a_deg) with (pos_a r + (RAD a_deg - pos_a r)) by ring. auto.
  - unfold trajectory_stop in H. apply goto_inv in H as (_ & S & _ & _ & _ & A & D & _); cbn [delta] in A, D; auto.
  - apply hardstop_inv in H as ((_ & S & _ & (A & _) & (D & _)) & _). auto.
Qed.
(** A relative command, a turn or a stop: when the trajectory is reported finished, the set points of the two control
    loops are those that the command asked for, whatever happened in between except another order. *)
Theorem command_reached r c r1 es r2 d : wanted_distance r c = Some d -> Rabs (pos_a r) <= PI ->
  step r (Command c) = OK r1 -> Forall quiet es -> run r1 es = OK r2 -> trajectory_finished r2 = true ->
  filtered_consign_value (distance_cs r2) = d /\ wanted_angle r c (filtered_consign_value (angle_cs r2)).
Proof.
  intros W Ha H Q R F. cbn [step] in H. apply (command_wants _ _ _ _ W Ha) in H as (S & D & A). apply quiet_run in R as (R1 & R2 & R3 & R4 & _); auto.
  apply goal_iff in F as [F1 F2]. unfold ramp_done in F1, F2. rewrite F1, F2, R3, R4. auto.
Qed.

(** * Movements to a point *)
Lemma target_vector_spec dir x y a tx ty dist theta : Rabs a <= PI -> target_vector dir x y a tx ty = (dist, theta) ->
  tx = x + dist * cos (a + theta) /\ ty = y + dist * sin (a + theta) /\ Rabs theta <= PI /\
  match dir with FORWARD => 0 <= dist | BACKWARD => dist <= 0 | AUTO => Rabs theta <= 52 / 100 * PI end /\
  Rabs dist = sqrt ((tx - x) * (tx - x) + (ty - y) * (ty - y)).
Proof.
  intros Ha H. pose proof PI_RGT_0 as HP. unfold target_vector in H. apply Rabs_le_inv in Ha.
  pose proof (atan2_range (ty - y) (tx - x)) as AR. apply Rabs_le_inv in AR.
  pose proof (sqrt_pos ((tx - x) * (tx - x) + (ty - y) * (ty - y))) as N.
  destruct (atan2_polar (tx - x) (ty - y)) as [P1 P2].
  set (n := sqrt ((tx - x) * (tx - x) + (ty - y) * (ty - y))) in *. set (g := atan2 (ty - y) (tx - x)) in *.
  destruct (smod_spec (g - a)) as [M1 M2]. { apply Rabs_le. lra. }
  set (t := simple_modulo_2pi (g - a)) in *.
  assert (T : cos (a + t) = cos g /\ sin (a + t) = sin g).
  { apply same_cs. apply (same_plus _ _ a) in M1. now replace (a + (g - a)) with g in M1 by ring. }
  assert (B : Rabs (simple_modulo_2pi (t + PI)) <= PI /\ cos (a + simple_modulo_2pi (t + PI)) = - cos g /\ sin (a + simple_modulo_2pi (t + PI)) = - sin g).
  { apply Rabs_le_inv in M2. destruct (smod_spec (t + PI)) as [B1 B2]. { apply Rabs_le. lra. } split; auto.
    apply (same_plus _ _ a) in B1. apply same_cs in B1 as [B3 B4]. rewrite B3, B4. replace (a + (t + PI)) with (a + t + PI) by ring.
    rewrite neg_cos, neg_sin. lra. }
  destruct T as [T1 T2]. destruct B as (B1 & B2 & B3).
  destruct dir.
  - destruct (ltb_spec (52 / 100 * PI) t) as [L|L]; cbn [orb] in H.
    + inversion H; subst. rewrite B2, B3. repeat split; try lra; auto.
      * unfold simple_modulo_2pi. apply Rabs_le_inv in M2. destruct (ltb_spec (t + PI) (- PI)); [lra|]. destruct (ltb_spec PI (t + PI)); [|lra]. apply Rabs_le. lra.
      * rewrite Rabs_Ropp, Rabs_pos_eq; auto.
    + destruct (ltb_spec t (- (52 / 100 * PI))) as [L'|L'].
      * inversion H; subst. rewrite B2, B3. repeat split; try lra; auto.
        -- unfold simple_modulo_2pi. apply Rabs_le_inv in M2. destruct (ltb_spec (t + PI) (- PI)); [lra|]. destruct (ltb_spec PI (t + PI)); [lra|]. apply Rabs_le. lra.
        -- rewrite Rabs_Ropp, Rabs_pos_eq; auto.
      * inversion H; subst. rewrite T1, T2. repeat split; try lra; auto. { apply Rabs_le. lra. } now rewrite Rabs_pos_eq.
  - inversion H; subst. rewrite T1, T2. repeat split; try lra; auto. now rewrite Rabs_pos_eq.
  - inversion H; subst. rewrite B2, B3. repeat split; try lra; auto. rewrite Rabs_Ropp, Rabs_pos_eq; auto.
Qed.

Lemma limited_abs r theta : Rabs (limited_speed r theta) = allowed_speed r theta.
Proof. unfold limited_speed, allowed_speed, ltb. destruct (Rlt_dec _ _); auto. apply Rabs_R0. Qed.
Lemma xy_window r tx ty w b : tgt r = Cart tx ty -> is_robot_in_xy_window r w = OK b -> b = ltb (distance_to r tx ty) w.
Proof. unfold is_robot_in_xy_window. intros -> H. now inversion H. Qed.

(** Each update of a movement to a point sets the two control loops so that turning by [theta] then moving by [dist] leads
    to the point: forward or backward if this was asked for, else with the smaller turn; the distance is measured from
    the encoders, the turn asked for at once is 10/11 of the turn needed, and the speed is 0 until the heading is within the
    start window, then grows as the heading gets better. The updates end only within the window of the point. *)
Theorem goto_xy_aims r dir ph tx ty r' : scheduled r = true -> state r = RUNNING_XY dir ph -> tgt r = Cart tx ty -> Rabs (pos_a r) <= PI ->
  step r Manage = OK r' -> exists dist theta,
  leads_to r theta dist tx ty /\ Rabs theta <= PI /\ Rabs dist = distance_to r tx ty /\
  match dir with FORWARD => 0 <= dist | BACKWARD => dist <= 0 | AUTO => Rabs theta <= 52 / 100 * PI end /\
  consign_value (distance_cs r') = (rs_get_distance (rs r) + steps_of_mm r dist)%Z /\
  consign_value (angle_cs r') = (rs_get_angle (rs r) + Ztrunc (theta * distance_imp_per_mm r * track_mm r / 2.2))%Z /\
  tgt r' = Cart tx ty /\
  state r' = RUNNING_XY dir (match ph with START => ANGLE | ANGLE => if Req_EM_T (allowed_speed r theta) 0 then ANGLE else ANGLE_OK | ANGLE_OK => ANGLE_OK end) /\
  (scheduled r' = true -> var_1st_ord_pos (consign_filter (distance_cs r')) = allowed_speed r theta /\ var_1st_ord_neg (consign_filter (distance_cs r')) = allowed_speed r theta) /\
  (scheduled r' = false -> distance_to r tx ty < d_win (win r) /\ ph <> START) /\
  (scheduled r' = true -> ph = ANGLE_OK -> d_win (win r) <= distance_to r tx ty).
Proof.
  intros S St T Ha H. cbn [step] in H. unfold trajectory_manager_manage in H. rewrite S, St in H. unfold trajectory_manager_xy_event in H.
  rewrite T in H. cbn [read_cart rbind] in H. destruct (target_vector dir (pos_x r) (pos_y r) (pos_a r) tx ty) as [dist theta] eqn:V.
  apply target_vector_spec in V as (V1 & V2 & V3 & V4 & V5); auto.
  assert (V6 : Rabs dist = distance_to r tx ty). { rewrite V5. unfold distance_to. f_equal. ring. }
  dob H. dob H. dob H. dob H. apply to_int32_inv in E. apply int_inv in E0 as [-> _]. apply to_int32_inv in E1. apply int_inv in E2 as [-> _].
  set (q := set_quadramp_speed r (limited_speed r theta) (a_speed (spd r))) in *.
  exists dist, theta. split; [split; auto|]. split; [auto|]. split; [auto|]. split; [auto|].
  assert (D : (a + rs_get_distance (rs q))%Z = (rs_get_distance (rs r) + steps_of_mm r dist)%Z). { unfold steps_of_mm. subst a. cbn. lia. }
  assert (A : (a1 + rs_get_angle (rs q))%Z = (rs_get_angle (rs r) + Ztrunc (theta * distance_imp_per_mm r * track_mm r / 2.2))%Z).
  { subst a1. replace 2.2 with (22 / 10) by lra. cbn. lia. }
  rewrite D, A in H. clear D A E E1 V1 V2 V5.
  assert (Q : var_1st_ord_pos (consign_filter (distance_cs q)) = allowed_speed r theta /\ var_1st_ord_neg (consign_filter (distance_cs q)) = allowed_speed r theta).
  { cbn. rewrite limited_abs. auto. }
  destruct Q as [Q1 Q2]. rewrite Q1 in H.
  dob H. injection H as <-. cbn [set_cs cs_set_consign consign_value distance_cs angle_cs tgt state scheduled consign_filter].
  split; [auto|]. split; [auto|].
  destruct ph.
  - injection E as <-. cbn [set_traj tgt state scheduled distance_cs]. repeat split; auto; try discriminate; cbn in *; congruence.
  - unfold neq0 in E. destruct (Req_EM_T (allowed_speed r theta) 0).
    + injection E as <-. repeat split; auto; try discriminate; try (cbn in *; congruence).
    + dob E. apply (xy_window q tx ty) in E0; [|exact T]. change (a2 = ltb (distance_to r tx ty) (d_win (win r))) in E0. subst a2. destruct (ltb_spec (distance_to r tx ty) (d_win (win r))) as [L|L].
      * injection E as <-. repeat split; auto; try discriminate.
      * injection E as <-. repeat split; auto; try discriminate; try (cbn in *; congruence).
  - dob E. apply (xy_window q tx ty) in E0; [|exact T]. change (a2 = ltb (distance_to r tx ty) (d_win (win r))) in E0. subst a2. destruct (ltb_spec (distance_to r tx ty) (d_win (win r))) as [L|L]; injection E as <-.
    + repeat split; auto; discriminate.
    + repeat split; auto; try discriminate; try (cbn in *; congruence); intros; lra.
Qed.

Lemma Ztrunc_between x : (0 <= x -> 0 <= IZR (Ztrunc x) <= x) /\ (x <= 0 -> x <= IZR (Ztrunc x) <= 0).
Proof.
  split; intro H.
  - rewrite Ztrunc_floor by auto. split; [|apply Zfloor_lb]. apply IZR_le. apply Zfloor_lub. auto.
  - rewrite Ztrunc_ceil by auto. split; [apply Zceil_ub|]. apply IZR_le. apply Zceil_glb. lra.
Qed.
(** The turn asked for is on the side of the point and not more than needed. *)
Theorem goto_xy_never_overturns r theta z : 0 < distance_imp_per_mm r -> 0 < track_mm r ->
  z = (rs_get_angle (rs r) + Ztrunc (theta * distance_imp_per_mm r * track_mm r / 2.2))%Z ->
  (0 <= theta -> 0 <= rad r (z - rs_get_angle (rs r)) <= theta) /\ (theta <= 0 -> theta <= rad r (z - rs_get_angle (rs r)) <= 0).
Proof.
  intros Hi Ht ->. unfold rad. replace (rs_get_angle (rs r) + Ztrunc (theta * distance_imp_per_mm r * track_mm r / 2.2) - rs_get_angle (rs r))%Z
    with (Ztrunc (theta * distance_imp_per_mm r * track_mm r / 2.2)) by lia.
  set (k := distance_imp_per_mm r * track_mm r). assert (Hk : 0 < k) by (now apply Rmult_lt_0_compat).
  set (x := theta * distance_imp_per_mm r * track_mm r / 2.2). assert (X : x = theta * (k / 2.2)) by (unfold x, k; lra).
  replace (IZR (Ztrunc x) / distance_imp_per_mm r / track_mm r * 2) with (IZR (Ztrunc x) * (2 / k)) by (unfold k; field; lra).
  assert (K : 0 < 2 / k) by (apply Rdiv_lt_0_compat; lra).
  assert (T : x * (2 / k) = theta * (2 / 2.2)) by (rewrite X; field; lra).
  destruct (Ztrunc_between x) as [P N]. split; intro S.
  - assert (0 <= x) by (rewrite X; apply Rmult_le_pos; lra). destruct (P H). split; [nra|]. apply Rle_trans with (x * (2 / k)); [nra|]. rewrite T. lra.
  - assert (x <= 0) by (rewrite X; assert (0 <= - theta * (k / 2.2)) by (apply Rmult_le_pos; lra); lra). destruct (N H). split; [|nra].
    apply Rle_trans with (x * (2 / k)); [|nra]. rewrite T. lra.
Qed.

Lemma passive_step e r r' : passive e -> step r e = OK r' ->
  consign_value (angle_cs r') = consign_value (angle_cs r) /\ consign_value (distance_cs r') = consign_value (distance_cs r).
Proof.
  intros [Q M] H. destruct e; cbn [quiet step] in *; try contradiction; try (injection H as <-; split; auto; fail).
  - apply control_inv in H as (sys & _ & F & _ & _ & A & D & _). now rewrite (axis_consign _ _ _ _ A), (axis_consign _ _ _ _ D).
  - dob H. destruct a as [r1 v]. injection H as <-. destruct Q as [Q1 Q2]. unfold watched in Q1, Q2. cbn [bit] in Q1, Q2.
    unfold trajectory_has_ended in E. rewrite has_coll, has_timer in E. apply not_true_is_false in Q1. apply not_true_is_false in Q2. rewrite Q1, Q2 in E. cbn [andb] in E.
    destruct (_ && _); [injection E as <-; auto|]. dob E. destruct a; injection E as <-; auto.
Qed.
Lemma passive_run es : forall r r', Forall passive es -> run r es = OK r' ->
  consign_value (angle_cs r') = consign_value (angle_cs r) /\ consign_value (distance_cs r') = consign_value (distance_cs r).
Proof.
  induction es as [|e es IH]; cbn [run]; intros r r' Q H; [injection H as <-; auto|].
  dob H. inversion Q; subst. apply passive_step in E as [A1 A2]; auto. apply IH in H as [B1 B2]; auto. now rewrite B1, B2, A1, A2.
Qed.
(** A movement to a point that is reported finished after an update: the set points of the two loops are those that lead
    from the pose of this last update to the point. *)
Theorem goto_xy_reached r dir ph tx ty r1 es r2 : scheduled r = true -> state r = RUNNING_XY dir ph -> tgt r = Cart tx ty -> Rabs (pos_a r) <= PI ->
  step r Manage = OK r1 -> Forall passive es -> run r1 es = OK r2 -> trajectory_finished r2 = true -> exists dist theta,
  leads_to r theta dist tx ty /\ filtered_consign_value (distance_cs r2) = (rs_get_distance (rs r) + steps_of_mm r dist)%Z /\
  filtered_consign_value (angle_cs r2) = (rs_get_angle (rs r) + Ztrunc (theta * distance_imp_per_mm r * track_mm r / 2.2))%Z.
Proof.
  intros S St T Ha H Q R F. destruct (goto_xy_aims r dir ph tx ty r1 S St T Ha H) as (dist & theta & A1 & _ & _ & _ & A2 & A3 & _).
  apply passive_run in R as [R1 R2]; auto. apply goal_iff in F as [F1 F2]. unfold ramp_done in *. exists dist, theta. split; auto. split; congruence.
Qed.

(** * Control modes *)
Theorem mode_gating r l rr s r' : step r (Control l rr s) = OK r' ->
  match mode r with
  | FREE | INDEPENDENT => motors r' = mkWheels 0 0
  | DISTANCE_ONLY => w_left (motors r') = w_right (motors r')
  | ANGLE_ONLY => w_left (motors r') = (- w_right (motors r'))%Z
  | SET_PWM => motors r' = motors r
  | ANGLE_DISTANCE => motors r' = mkWheels (out_value (distance_cs r') - out_value (angle_cs r')) (out_value (distance_cs r') + out_value (angle_cs r'))
  end.
Proof.
  cbn [step]. intro H. apply control_inv in H as (sys & _ & _ & _ & _ & _ & _ & _ & _ & M1 & M2 & _).
  destruct (mode r); cbn [angle_on distance_on axis_out] in M1; try (rewrite M1 by discriminate; cbn; lia || reflexivity). auto.
Qed.
(** An axis that is regulated is driven by the difference between its filtered set point and the encoders of this
    period. *)
Theorem regulated_error r l rr s r' : step r (Control l rr s) = OK r' ->
  (mode r = ANGLE_DISTANCE \/ mode r = ANGLE_ONLY -> error_value (angle_cs r') = (filtered_consign_value (angle_cs r') - p_angle (pext_prev (rs r')))%Z) /\
  (mode r = ANGLE_DISTANCE \/ mode r = DISTANCE_ONLY -> error_value (distance_cs r') = (filtered_consign_value (distance_cs r') - p_distance (pext_prev (rs r')))%Z).
Proof.
  cbn [step]. intro H. apply control_inv in H as (sys & _ & _ & _ & P & A & D & _). rewrite P.
  split; intros [M|M]; rewrite M in A, D; cbn [angle_on distance_on axis] in A, D; try (apply cs_manage_inv in A; apply A); apply cs_manage_inv in D; apply D.
Qed.

(** * Invariants of every execution *)
Lemma manage_frame r r' : trajectory_manager_manage r = OK r' -> rs r' = rs r /\ tgt r' = tgt r /\
  match state r with RUNNING_XY dir _ => exists ph, state r' = RUNNING_XY dir ph | st => state r' = st end.
Proof.
  unfold trajectory_manager_manage. intro H. destruct (scheduled r).
  - destruct (state r) as [| | | |dir ph] eqn:S; try (injection H as <-; rewrite S; auto).
    unfold trajectory_manager_xy_event in H. dob H. destruct a as [tx ty]. destruct (target_vector _ _ _ _ _ _) as [dist th]. repeat dob H. injection H as <-. cbn.
    destruct ph.
    + injection E4 as <-. repeat split; auto. now exists ANGLE.
    + destruct (neq0 _); [|injection E4 as <-; repeat split; auto; now exists ANGLE]. dob E4. injection E4 as <-. destruct a4; repeat split; auto; now exists ANGLE_OK.
    + dob E4. injection E4 as <-. destruct a4; repeat split; auto; now exists ANGLE_OK.
  - injection H as <-. destruct (state r); repeat split; auto. now exists p.
Qed.
Lemma ended_frame r w r' v : trajectory_has_ended r w = OK (r', v) -> r' = r \/ stopped r r'.
Proof.
  intro E. unfold trajectory_has_ended in E.
  destruct (_ && _); [injection E as <- _; auto|]. dob E. destruct a; [injection E as <- _; auto|].
  destruct (_ && _); [dob E; injection E as <- _; apply hardstop_inv in E1 as (S & _); right; exact S|].
  destruct (_ && _); [dob E; injection E as <- _; apply hardstop_inv in E1 as (S & _); right; exact S|]. injection E as <- _. auto.
Qed.
Lemma step_rs e r r' : step r e = OK r' -> pext_prev (rs r) = virtual_encoders (rs r) -> pext_prev (rs r') = virtual_encoders (rs r').
Proof.
  assert (G : forall r st d a r', goto_d_a_rel r st d a = OK r' -> rs r' = rs r) by (intros ? ? ? ? ? X; now apply goto_inv in X).
  intros H I. destruct e; cbn [step] in H; try (injection H as <-; exact I).
  - destruct c; cbn [do_command] in H; unfold trajectory_d_rel, trajectory_only_d_rel, trajectory_a_rel, trajectory_a_abs, trajectory_turnto_xy, trajectory_turnto_xy_behind, trajectory_only_a_rel, trajectory_only_a_abs, trajectory_d_a_rel, trajectory_stop in H;
      try (dob H); try (apply G in H; rewrite H; exact I); try (injection H as <-; exact I).
    apply hardstop_inv in H as ((_ & _ & S & _) & _). now rewrite S.
  - apply control_inv in H as (sys & U & _ & V & P & _). rewrite V, P. clear V P. unfold rs_update in U. dob U. dob U. dob U. dob U. dob U. dob U. dob U. injection U as <-.
    cbn. apply int_inv in E2 as [-> _]. apply int_inv in E3 as [-> _]. apply int_inv in E4 as [-> _]. apply int_inv in E5 as [-> _]. rewrite I.
    destruct a1 as [d g]. cbn. f_equal; lia.
  - apply manage_frame in H as [H _]. now rewrite H.
  - dob H. destruct a as [r1 v]. injection H as <-. apply ended_frame in E as [-> |(_ & _ & S & _)]; [exact I|now rewrite S].
Qed.
(** What the control loops measure is what the commands start from: the encoders of the odometry and those of the control
    loops never part. *)
Theorem encoders_agree r : reachable r -> p_distance (pext_prev (rs r)) = rs_get_distance (rs r) /\ p_angle (pext_prev (rs r)) = rs_get_angle (rs r).
Proof.
  intros (r0 & es & (gl & gr & w & s & imp & track & n & ->) & H).
  assert (I : pext_prev (rs (robot_init gl gr w s imp track n)) = virtual_encoders (rs (robot_init gl gr w s imp track n))) by reflexivity.
  revert H I. generalize (robot_init gl gr w s imp track n). induction es as [|e es IH]; cbn [run]; intros r1 H I.
  - injection H as <-. rewrite I. auto.
  - dob H. apply (IH a); auto. now apply (step_rs e r1).
Qed.
Lemma stopped_valid r r' : stopped r r' -> target_valid r'.
Proof. intros (S & _). unfold target_valid. now rewrite S. Qed.
Lemma goto_valid r st d a r' : goto_d_a_rel r st d a = OK r' ->
  match st with READY => True | RUNNING_A => a <> None | RUNNING_D => d <> None | RUNNING_AD => a <> None /\ d <> None | _ => False end -> target_valid r'.
Proof.
  intros H C. apply goto_inv in H as (S & _ & _ & _ & _ & _ & _ & A & D & _). unfold target_valid. rewrite S. destruct st; [exact Logic.I|exact (ex_intro _ _ (A C))|exact (ex_intro _ _ (D C))| |contradiction].
  destruct C as [C1 C2]. split; [exact (ex_intro _ _ (A C1))|exact (ex_intro _ _ (D C2))].
Qed.
Lemma step_valid e r r' : step r e = OK r' -> target_valid r -> target_valid r'.
Proof.
  intros H I. destruct e; cbn [step] in H; try (injection H as <-; exact I).
  - destruct c; cbn [do_command] in H; unfold trajectory_d_rel, trajectory_only_d_rel, trajectory_a_rel, trajectory_a_abs, trajectory_turnto_xy, trajectory_turnto_xy_behind, trajectory_only_a_rel, trajectory_only_a_abs, trajectory_d_a_rel, trajectory_stop in H;
      try (dob H); try (apply goto_valid in H; [exact H|try split; easy]); try (injection H as <-; eexists; eexists; reflexivity).
    now apply hardstop_inv in H as [H%stopped_valid _].
  - apply control_inv in H as (sys & _ & (F1 & F2 & F3 & _) & _). unfold target_valid in *. now rewrite F2, F3.
  - apply manage_frame in H as (_ & T & S). unfold target_valid in *. destruct (state r); try (rewrite S, ?T; exact I). destruct S as [ph ->]. rewrite T. exact I.
  - dob H. destruct a as [r1 v]. injection H as <-. apply ended_frame in E as [-> |E]; [exact I|now apply stopped_valid in E].
Qed.
(** The target is a union: in every execution, the member that the state of the trajectory makes the code read is one that
    was written since another member was. *)
Theorem reachable_target_valid r : reachable r -> target_valid r.
Proof.
  intros (r0 & es & (gl & gr & w & s & imp & track & n & ->) & H).
  assert (I : target_valid (robot_init gl gr w s imp track n)) by exact Logic.I.
  revert H I. generalize (robot_init gl gr w s imp track n). induction es as [|e es IH]; cbn [run]; intros r1 H I.
  - now injection H as <-.
  - dob H. apply (IH a); auto. now apply (step_valid e r1).
Qed.

(** Aligning with a wall ends only on a collision, with the robot stopped where it is and both axes regulated again. *)
Theorem align_with_wall_ends r dir envs r' : trajectory_align_with_wall r dir envs = OK (Some r') ->
  mode r' = ANGLE_DISTANCE /\ stopped r' r' /\ cpt (angle_bd r') = 0%Z /\ cpt (distance_bd r') = 0%Z /\
  exists r1 es, run r (Set_mode DISTANCE_ONLY :: Command (D_rel (IZR dir * 2000)) :: es) = OK r1 /\ holds r1 Collision /\ rs r' = rs r1.
Proof.
  unfold trajectory_align_with_wall. intro H. dob H. dob H. destruct a0 as [r2 [v|]]; [|discriminate]. dob H. injection H as <-.
  apply hardstop_inv in E1 as ((S1 & S2 & S3 & S4 & S5) & _). split; [reflexivity|]. split; [|split; [reflexivity|split; [reflexivity|]]].
  - unfold stopped. cbn. rewrite S3. repeat split; auto; try apply S4; apply S5.
  - apply wait_for_end_reason in E0 as (n & r1 & V & E0 & (es & R) & _). exists r1, es. split; [|split].
    + cbn [run step rbind do_command]. rewrite E. exact R.
    + unfold trajectory_has_ended in E0. rewrite has_goal, has_near, has_coll, has_timer in E0. cbn [Z.testbit TRAJ_END_COLLISION andb rbind Z.odd Pos.testbit] in E0.
      cbn in E0. destruct (bd_get (angle_bd r1) || bd_get (distance_bd r1)) eqn:B.
      * apply orb_prop in B as [B|B]; apply blocked_iff in B; [left|right]; exact B.
      * injection E0 as _ <-. destruct n; discriminate V.
    + cbn. rewrite S3. apply ended_frame in E0 as [-> |(_ & _ & S & _)]; auto.
Qed.

(** * Instances and findings *)
Definition ex_win : windows := mkWin 30 (1 / 10) (1 / 2).
Definition ex_speeds : speeds := mkSpeeds 1000 1000 0 0.
Definition ex_r : robot := robot_init Some Some ex_win ex_speeds 1 100 0.
Lemma ex_reachable : reachable ex_r.
Proof. exists ex_r, []. split; [|reflexivity]. now exists Some, Some, ex_win, ex_speeds, 1, 100, 0%Z. Qed.
Lemma pid_result (e o : Z) : match cs_pid_process pid0 e with OK (_, z) => Z.eqb z o | BAD => false end = true -> exists p, cs_pid_process pid0 e = OK (p, o).
Proof. destruct (cs_pid_process pid0 e) as [[p z]|]; [|discriminate]. intro H. apply Z.eqb_eq in H. subst. eauto. Qed.
Lemma pid_100 : exists p, cs_pid_process pid0 100 = OK (p, (-100)%Z). Proof. apply pid_result. vm_compute. reflexivity. Qed.
Lemma pid_0 : exists p, cs_pid_process pid0 0 = OK (p, 0%Z). Proof. apply pid_result. vm_compute. reflexivity. Qed.
Lemma pid_m20000 : exists p, cs_pid_process pid0 (-20000) = OK (p, 20000%Z). Proof. apply pid_result. vm_compute. reflexivity. Qed.
(** A ramp without limit of acceleration and whose speed allows the whole distance. *)
Lemma quadramp_jump q i : var_2nd_ord_pos q = 0 -> var_2nd_ord_neg q = 0 -> IZR i - previous_out q <= var_1st_ord_pos q -> - var_1st_ord_neg q <= IZR i - previous_out q ->
  Rabs (IZR i - previous_out q) <= IZR (2 ^ 30) -> exists q', quadramp_do_filter q i = OK (q', i).
Proof.
  intros A1 A2 V1 V2 B. unfold quadramp_do_filter. rewrite A1, A2.
  destruct (ltb _ 2); [eexists; reflexivity|].
  destruct (to_int32_def (IZR i - previous_out q) B) as [z ->]. cbn [rbind].
  assert (N : neq0 (- 0) = false) by (unfold neq0; destruct (Req_EM_T (- 0) 0); auto; lra).
  assert (N0 : neq0 0 = false) by (unfold neq0; destruct (Req_EM_T 0 0); auto; lra).
  rewrite N, N0, !andb_false_r. cbn [negb andb].
  assert (P : forall v l, reach_pos v l 0 (- 0) = l). { intros v l. unfold reach_pos. rewrite N, N0. destruct (ltb v l); auto. destruct (ltb l v); auto. }
  assert (Q : forall v l, reach_neg v l 0 (- 0) = l). { intros v l. unfold reach_neg. rewrite N, N0. destruct (ltb l v); auto. destruct (ltb v l); auto. }
  rewrite P, Q. destruct (ltb_spec (var_1st_ord_pos q) (IZR i - previous_out q)); [lra|]. destruct (ltb_spec (IZR i - previous_out q) (- var_1st_ord_neg q)); [lra|].
  eexists; reflexivity.
Qed.
Lemma manage_jump c f p o : correct_filter c = pid0 -> let q := consign_filter c in
  var_2nd_ord_pos q = 0 -> var_2nd_ord_neg q = 0 -> IZR (consign_value c) - previous_out q <= var_1st_ord_pos q -> - var_1st_ord_neg q <= IZR (consign_value c) - previous_out q ->
  Rabs (IZR (consign_value c) - previous_out q) <= IZR (2 ^ 30) -> (- 2 ^ 31 <= consign_value c - f < 2 ^ 31)%Z -> cs_pid_process pid0 (consign_value c - f) = OK (p, o) ->
  exists c', cs_manage c f = OK c' /\ consign_value c' = consign_value c /\ filtered_consign_value c' = consign_value c /\ out_value c' = o /\ error_value c' = (consign_value c - f)%Z.
Proof.
  intros Hp q A1 A2 V1 V2 B I P. destruct (quadramp_jump q (consign_value c) A1 A2 V1 V2 B) as [q' J].
  exists (mkCs (consign_value c) (consign_value c) (consign_value c - f) o q' p). unfold cs_manage. fold q. rewrite J. cbn [rbind]. rewrite int_ok by exact I. cbn [rbind].
  rewrite Hp, P. cbn [rbind]. repeat split; auto.
Qed.

Definition with_pwm (s : robot_system) (p : polar) : robot_system := mkRs p (virtual_encoders s) (pext_prev s) (wext_prev s) (left_ext_gain s) (right_ext_gain s).
Lemma rs_set_angle_ok s v : (Z.abs (p_distance (virtual_pwm s)) < 2 ^ 29)%Z -> (Z.abs v < 2 ^ 29)%Z -> exists w, rs_set_angle s v = OK (with_pwm s (mkPolar (p_distance (virtual_pwm s)) v), w).
Proof. intros A B. unfold rs_set_angle, rs_get_wheels_from_polar. cbn [p_distance p_angle]. rewrite !int_ok by lia. cbn [rbind]. eexists. reflexivity. Qed.
Lemma rs_set_distance_ok s v : (Z.abs (p_angle (virtual_pwm s)) < 2 ^ 29)%Z -> (Z.abs v < 2 ^ 29)%Z -> exists w, rs_set_distance s v = OK (with_pwm s (mkPolar v (p_angle (virtual_pwm s))), w).
Proof. intros A B. unfold rs_set_distance, rs_get_wheels_from_polar. cbn [p_distance p_angle]. rewrite !int_ok by lia. cbn [rbind]. eexists. reflexivity. Qed.
Lemma control_ok r l rr s sys ca cd : mode r <> SET_PWM -> rs_update (rs r) l rr = OK sys ->
  axis (angle_on (mode r)) (angle_cs r) ca (p_angle (pext_prev sys)) -> axis (distance_on (mode r)) (distance_cs r) cd (p_distance (pext_prev sys)) ->
  (Z.abs (axis_out (angle_on (mode r)) ca) < 2 ^ 29)%Z -> (Z.abs (axis_out (distance_on (mode r)) cd) < 2 ^ 29)%Z -> (Z.abs (p_distance (virtual_pwm sys)) < 2 ^ 29)%Z ->
  (Z.abs (error_value ca) < 2 ^ 31)%Z -> (Z.abs (error_value cd) < 2 ^ 31)%Z ->
  exists r', step r (Control l rr s) = OK r' /\ angle_cs r' = ca /\ distance_cs r' = cd /\
    rs r' = with_pwm sys (mkPolar (axis_out (distance_on (mode r)) cd) (axis_out (angle_on (mode r)) ca)).
Proof.
  intros M U A D OA OD V EA ED. cbn [step]. unfold base_ctrl. rewrite U. cbn [rbind set_rs mode].
  assert (X : exists r', control_axes (set_rs r sys (motors r)) = OK r' /\ rs r' = with_pwm sys (mkPolar (axis_out (distance_on (mode r)) cd) (axis_out (angle_on (mode r)) ca)) /\ angle_cs r' = ca /\ distance_cs r' = cd).
  { unfold control_axes. cbn [mode set_rs]. fold (angle_on (mode r)). fold (distance_on (mode r)). cbn [set_rs angle_cs distance_cs rs].
    destruct (angle_on (mode r)); cbn [axis axis_out] in A, OA |- *.
    - rewrite A. cbn [rbind]. destruct (rs_set_angle_ok sys (out_value ca) V OA) as (w1 & S). rewrite S. cbn [rbind]. cbn [set_rs set_cs angle_cs distance_cs rs].
      destruct (distance_on (mode r)); cbn [axis axis_out] in D, OD |- *.
      + change (p_distance (pext_prev (with_pwm sys (mkPolar (p_distance (virtual_pwm sys)) (out_value ca))))) with (p_distance (pext_prev sys)). rewrite D. cbn [rbind]. destruct (rs_set_distance_ok (with_pwm sys (mkPolar (p_distance (virtual_pwm sys)) (out_value ca))) (out_value cd)) as (w2 & S'); [exact OA|exact OD|]. rewrite S'. cbn [rbind]. eexists. repeat split.
      + destruct (rs_set_distance_ok (with_pwm sys (mkPolar (p_distance (virtual_pwm sys)) (out_value ca))) 0) as (w2 & S'); [exact OA|lia|]. rewrite S'. cbn [rbind]. eexists. repeat split. cbn. congruence.
    - destruct (rs_set_angle_ok sys 0 V) as (w1 & S); [lia|]. rewrite S. cbn [rbind]. cbn [set_rs set_cs angle_cs distance_cs rs].
      destruct (distance_on (mode r)); cbn [axis axis_out] in D, OD |- *.
      + change (p_distance (pext_prev (with_pwm sys (mkPolar (p_distance (virtual_pwm sys)) 0)))) with (p_distance (pext_prev sys)). rewrite D. cbn [rbind]. destruct (rs_set_distance_ok (with_pwm sys (mkPolar (p_distance (virtual_pwm sys)) 0)) (out_value cd)) as (w2 & S'); [cbn; lia|exact OD|]. rewrite S'. cbn [rbind]. eexists. repeat split. cbn. congruence.
      + destruct (rs_set_distance_ok (with_pwm sys (mkPolar (p_distance (virtual_pwm sys)) 0)) 0) as (w2 & S'); [cbn; lia|lia|]. rewrite S'. cbn [rbind]. eexists. repeat split; cbn; congruence. }
  destruct X as (r1 & X & X1 & X2 & X3).
  assert (Y : match mode r with SET_PWM => OK (set_rs r sys (motors r)) | _ => control_axes (set_rs r sys (motors r)) end = OK r1) by (destruct (mode r); auto; contradiction).
  rewrite Y. cbn [rbind]. clear Y.
  unfold control_blocking. rewrite X2, X3, !int_ok by lia. cbn [rbind]. eexists. split; [reflexivity|]. repeat split; auto.
Qed.

(** command_reached: the robot advances by 100 mm, in one period. *)
Example ex_command_reached : exists r1 r2, step ex_r (Command (D_rel 100)) = OK r1 /\ run r1 [Control 0 0 ex_speeds] = OK r2 /\ trajectory_finished r2 = true /\
  filtered_consign_value (distance_cs r2) = 100%Z.
Proof.
  assert (T : to_int32 (100 * 1) = OK 100%Z) by (rewrite Rmult_1_r; apply to_int32_IZR; lia).
  assert (S : step ex_r (Command (D_rel 100)) = OK (set_distance_target (set_angle_target (set_traj (delete_event ex_r) false RUNNING_D NoTarget) 0) 100)).
  { cbn [step do_command]. unfold trajectory_d_rel, goto_d_a_rel. cbn [distance_imp_per_mm ex_r robot_init set_traj delete_event set_quadramp_acc set_quadramp_speed set_cs set_angle_target]. cbn [rbind].
    match goal with |- context [int (0 + rs_get_angle ?x)] => change (int (0 + rs_get_angle x)) with (OK 0%Z) end. cbn [rbind].
    match goal with |- context [to_int32 ?x] => change (to_int32 x) with (to_int32 (100 * 1)) end. rewrite T. cbn [rbind].
    match goal with |- context [int (100 + rs_get_distance ?x)] => change (int (100 + rs_get_distance x)) with (OK 100%Z) end. reflexivity. }
  match type of S with _ = OK ?x => set (r1 := x) in * end. exists r1.
  destruct pid_100 as [p P]. destruct pid_0 as [p0 P0].
  assert (R1000 : Rabs 1000 = 1000) by (apply Rabs_pos_eq; lra).
  assert (B30 : 1000 <= IZR (2 ^ 30)) by (apply IZR_le; lia).
  assert (A : exists c', cs_manage (angle_cs r1) 0 = OK c' /\ consign_value c' = 0%Z /\ filtered_consign_value c' = 0%Z /\ out_value c' = 0%Z /\ error_value c' = 0%Z).
  { apply (manage_jump (angle_cs r1) 0 p0 0); cbn [angle_cs r1 set_distance_target set_angle_target set_traj delete_event set_quadramp_acc set_quadramp_speed set_cs cs_set_filter cs_set_consign consign_filter consign_value correct_filter
      quadramp_set_1st_order_vars quadramp_set_2nd_order_vars var_1st_ord_pos var_1st_ord_neg var_2nd_ord_pos var_2nd_ord_neg previous_out ex_r robot_init cs_init quadramp_init spd ex_speeds a_speed d_speed a_acc d_acc distance_cs];
      [reflexivity|apply Rabs_R0|apply Rabs_R0|lra|lra|rewrite Rminus_0_r, Rabs_R0; lra|lia|exact P0]. }
  destruct A as (ca & A1 & A2 & A3 & A4 & A5).
  assert (D : exists c', cs_manage (distance_cs r1) 0 = OK c' /\ consign_value c' = 100%Z /\ filtered_consign_value c' = 100%Z /\ out_value c' = (-100)%Z /\ error_value c' = 100%Z).
  { apply (manage_jump (distance_cs r1) 0 p (-100)); cbn [angle_cs r1 set_distance_target set_angle_target set_traj delete_event set_quadramp_acc set_quadramp_speed set_cs cs_set_filter cs_set_consign consign_filter consign_value correct_filter
      quadramp_set_1st_order_vars quadramp_set_2nd_order_vars var_1st_ord_pos var_1st_ord_neg var_2nd_ord_pos var_2nd_ord_neg previous_out ex_r robot_init cs_init quadramp_init spd ex_speeds a_speed d_speed a_acc d_acc distance_cs];
      [reflexivity|apply Rabs_R0|apply Rabs_R0|lra|lra|rewrite Rminus_0_r, Rabs_pos_eq; lra|lia|exact P]. }
  destruct D as (cd & D1 & D2 & D3 & D4 & D5).
  set (sys := mkRs (mkPolar 0 0) (mkPolar 0 0) (mkPolar 0 0) (mkWheels 0 0) Some Some).
  assert (U : rs_update (rs r1) 0 0 = OK sys) by reflexivity.
  destruct (control_ok r1 0 0 ex_speeds sys ca cd) as (r2 & C1 & C3 & C2 & _); [discriminate|exact U|exact A1|exact D1| | | | | |];
    [change (mode r1) with ANGLE_DISTANCE; cbn [angle_on axis_out]; rewrite A4; lia|change (mode r1) with ANGLE_DISTANCE; cbn [distance_on axis_out]; rewrite D4; lia|cbn; lia|rewrite A5; lia|rewrite D5; lia|].
  exists r2. split; [exact S|]. cbn [run]. rewrite C1. cbn [rbind]. split; [reflexivity|].
  unfold trajectory_finished. rewrite C2, C3, A2, A3, D2, D3. split; reflexivity.
Qed.

Lemma goto_bd r st d a r' : goto_d_a_rel r st d a = OK r' -> angle_bd r' = angle_bd r /\ distance_bd r' = distance_bd r.
Proof.
  unfold goto_d_a_rel. intro H. dob H. assert (P : angle_bd a0 = angle_bd r /\ distance_bd a0 = distance_bd r).
  { destruct a as [a|]; [|injection E as <-; split; reflexivity]. dob E. dob E. injection E as <-. split; reflexivity. }
  destruct P as [<- <-]. destruct d as [d|]; [|injection H as <-; split; reflexivity]. dob H. dob H. injection H as <-. split; reflexivity.
Qed.
Lemma manage_bd r r' : trajectory_manager_manage r = OK r' -> angle_bd r' = angle_bd r /\ distance_bd r' = distance_bd r.
Proof.
  unfold trajectory_manager_manage. intro H. destruct (scheduled r); [|injection H as <-; auto].
  destruct (state r) as [| | | |dir ph]; try (injection H as <-; auto; fail).
  unfold trajectory_manager_xy_event in H. dob H. destruct a as [tx ty]. destruct (target_vector _ _ _ _ _ _) as [dist th]. repeat dob H. injection H as <-. cbn.
  destruct ph.
  - injection E4 as <-. auto.
  - destruct (neq0 _); [|injection E4 as <-; auto]. dob E4. injection E4 as <-. destruct a4; auto.
  - dob E4. injection E4 as <-. destruct a4; auto.
Qed.
Definition counts_kept (b b' : bd) := b' = b \/ b' = bd_reset b.
Lemma ended_bd r w r' v : trajectory_has_ended r w = OK (r', v) -> counts_kept (angle_bd r) (angle_bd r') /\ counts_kept (distance_bd r) (distance_bd r').
Proof.
  intro E. unfold trajectory_has_ended in E. unfold counts_kept.
  destruct (_ && _); [injection E as <- _; auto|]. dob E. destruct a; [injection E as <- _; auto|].
  destruct (_ && _); [dob E; injection E as <- _; apply hardstop_inv in E1 as (_ & _ & A & B); cbn; rewrite A, B; auto|].
  destruct (_ && _); [dob E; injection E as <- _; apply hardstop_inv in E1 as (_ & _ & A & B); rewrite A, B; auto|]. injection E as <- _. auto.
Qed.
(** What every event but the rounds of the control loop does to the detectors. *)
Lemma step_bd e r r' : (forall l rr s, e <> Control l rr s) -> detecting e -> step r e = OK r' ->
  let same b b' := (cpt b' = cpt b \/ cpt b' = 0)%Z /\ (err_thres b <> 0 -> err_thres b' <> 0)%Z /\ (0 <= cpt_thres b -> 0 <= cpt_thres b')%Z in
  same (angle_bd r) (angle_bd r') /\ same (distance_bd r) (distance_bd r').
Proof.
  intros N D H. assert (K : forall b b', counts_kept b b' -> (cpt b' = cpt b \/ cpt b' = 0)%Z /\ (err_thres b <> 0 -> err_thres b' <> 0)%Z /\ (0 <= cpt_thres b -> 0 <= cpt_thres b')%Z).
  { intros b b' [-> | ->]; cbn; auto. }
  cbn zeta. assert (Q : forall r', angle_bd r' = angle_bd r -> distance_bd r' = distance_bd r -> counts_kept (angle_bd r) (angle_bd r') /\ counts_kept (distance_bd r) (distance_bd r')).
  { intros ? -> ->. split; left; reflexivity. }
  destruct e; cbn [step] in H; try (injection H as <-; destruct (Q _ eq_refl eq_refl); split; apply K; assumption).
  - assert (P : angle_bd r' = angle_bd r /\ distance_bd r' = distance_bd r).
    { destruct c; cbn [do_command] in H; unfold trajectory_d_rel, trajectory_only_d_rel, trajectory_a_rel, trajectory_a_abs, trajectory_turnto_xy, trajectory_turnto_xy_behind, trajectory_only_a_rel, trajectory_only_a_abs, trajectory_d_a_rel, trajectory_stop in H;
        try (dob H); try (apply goto_bd in H; exact H); try (injection H as <-; split; reflexivity).
      apply hardstop_inv in H as (_ & _ & H). exact H. }
    destruct P as [P1 P2]. destruct (Q _ P1 P2). split; apply K; assumption.
  - exfalso. eapply N. reflexivity.
  - apply manage_bd in H as [P1 P2]. destruct (Q _ P1 P2). split; apply K; assumption.
  - dob H. destruct a as [r1 v]. injection H as <-. apply ended_bd in E as [P1 P2]. split; apply K; assumption.
  - injection H as <-. cbn in D |- *. destruct D as (D1 & D2 & D3 & D4). repeat split; auto.
  - injection H as <-. cbn. repeat split; auto.
Qed.
Lemma last_round_snoc r0 es e r r' : (forall l rr s, e <> Control l rr s) -> last_round r0 es r r' -> last_round r0 (es ++ [e]) r r'.
Proof.
  intros N (es1 & l & rr & s & es2 & -> & F & R & S). exists es1, l, rr, s, (es2 ++ [e]). rewrite <- app_assoc. repeat split; auto.
  intros l' rr' s' [I|[I|[]]]%in_app_iff; [now apply (F l' rr' s')|now apply (N l' rr' s')].
Qed.
Lemma bd_manage_counts b n : (err_thres b <> 0 -> cpt (bd_manage b n) <> 0 -> err_thres b < n)%Z.
Proof. intros E. unfold bd_manage. rewrite (proj2 (Z.eqb_neq _ _) E). cbn. destruct (Z.ltb_spec (err_thres b) n); auto. easy. Qed.
Lemma bd_manage_fields b n : err_thres (bd_manage b n) = err_thres b /\ cpt_thres (bd_manage b n) = cpt_thres b.
Proof. unfold bd_manage. destruct (_ =? _)%Z; auto. Qed.
(** A collision is reported only if, in the last round of the control loop, the detector of an axis counted; if the axis was
    regulated in this round, its measured position was off its set point by more than the threshold. Missing: an axis which
    is not regulated, see unregulated_axis_blocks. *)
Theorem collision_partial r0 es r : is_init r0 -> run r0 es = OK r -> Forall detecting es -> holds r Collision ->
  exists r1 r2, last_round r0 es r1 r2 /\
  (blocked (angle_bd r) /\ (mode r1 = ANGLE_DISTANCE \/ mode r1 = ANGLE_ONLY -> angle_off r2) \/
   blocked (distance_bd r) /\ (mode r1 = ANGLE_DISTANCE \/ mode r1 = DISTANCE_ONLY -> distance_off r2)).
Proof.
  intros (gl & gr & w & s & imp & track & n & ->) H D C. set (r0 := robot_init gl gr w s imp track n) in *.
  assert (I : (cpt (angle_bd r) <> 0 -> exists r1 r2, last_round r0 es r1 r2 /\ (mode r1 = ANGLE_DISTANCE \/ mode r1 = ANGLE_ONLY -> angle_off r2))%Z /\
              (cpt (distance_bd r) <> 0 -> exists r1 r2, last_round r0 es r1 r2 /\ (mode r1 = ANGLE_DISTANCE \/ mode r1 = DISTANCE_ONLY -> distance_off r2))%Z /\
              ((err_thres (angle_bd r) <> 0 /\ 0 <= cpt_thres (angle_bd r)) /\ (err_thres (distance_bd r) <> 0 /\ 0 <= cpt_thres (distance_bd r)))%Z).
  { clear C. revert r H. induction es as [|e es IH] using rev_ind; intros r H.
    - injection H as <-. cbn. repeat split; try lia; intros []; reflexivity.
    - rewrite run_app in H. dob H. cbn [run] in H. dob H. injection H as <-. apply Forall_app in D as [D1 D2]. apply Forall_inv in D2.
      destruct (IH D1 a eq_refl) as (I1 & I2 & (T1 & U1) & (T2 & U2)). clear IH.
      assert (X : (exists l rr s, e = Control l rr s) \/ forall l rr s, e <> Control l rr s) by (destruct e; try (right; discriminate); left; do 3 eexists; reflexivity).
      destruct X as [(l & rr & s' & ->)|X].
      + assert (L : last_round r0 (es ++ [Control l rr s']) a a0) by (exists es, l, rr, s', []; repeat split; auto).
        pose proof (regulated_error _ _ _ _ _ E0) as [RA RD].
        cbn [step] in E0. apply control_inv in E0 as (sys & _ & _ & _ & _ & _ & _ & B1 & B2 & _).
        pose proof (bd_manage_counts (angle_bd a) (Z.abs (error_value (angle_cs a0))) T1) as K1. pose proof (bd_manage_counts (distance_bd a) (Z.abs (error_value (distance_cs a0))) T2) as K2.
        destruct (bd_manage_fields (angle_bd a) (Z.abs (error_value (angle_cs a0)))) as [F1 F2]. destruct (bd_manage_fields (distance_bd a) (Z.abs (error_value (distance_cs a0)))) as [F3 F4].
        rewrite <- B1 in K1, F1, F2. rewrite <- B2 in K2, F3, F4. rewrite F1, F2, F3, F4. repeat split; auto.
        * intro Q. exists a, a0. split; auto. intro M. unfold angle_off. rewrite <- (RA M), F1. auto.
        * intro Q. exists a, a0. split; auto. intro M. unfold distance_off. rewrite <- (RD M), F3. auto.
      + destruct (step_bd e a a0 X D2 E0) as ((C1 & V1 & W1) & (C2 & V2 & W2)). repeat split; auto.
        * intro Q. destruct C1 as [C1|C1]; [|contradiction]. rewrite C1 in Q. destruct (I1 Q) as (r1 & r2 & L & G). exists r1, r2. split; auto. now apply last_round_snoc.
        * intro Q. destruct C2 as [C2|C2]; [|contradiction]. rewrite C2 in Q. destruct (I2 Q) as (r1 & r2 & L & G). exists r1, r2. split; auto. now apply last_round_snoc. }
  destruct I as (I1 & I2 & (_ & U1) & (_ & U2)).
  destruct C as [C|C]; [destruct I1 as (r1 & r2 & L & G)|destruct I2 as (r1 & r2 & L & G)]; try (destruct C; lia); exists r1, r2; split; auto.
Qed.
(** An axis that is not regulated keeps the error of its last period, which goes on counting as a blocking. *)
Theorem unregulated_axis_blocks r l rr s r' : mode r <> ANGLE_DISTANCE -> mode r <> ANGLE_ONLY -> cpt_thres (angle_bd r) = 1%Z -> (0 <= cpt (angle_bd r) < 65535)%Z ->
  err_thres (angle_bd r) <> 0%Z -> (err_thres (angle_bd r) < Z.abs (error_value (angle_cs r)))%Z -> step r (Control l rr s) = OK r' -> holds r' Collision.
Proof.
  intros M1 M2 T C E1 E2 H. cbn [step] in H. apply control_inv in H as (sys & _ & _ & _ & _ & A & _ & B & _).
  assert (A' : angle_cs r' = angle_cs r) by (destruct (mode r); cbn [angle_on axis] in A; auto; contradiction).
  left. rewrite B, A'. unfold blocked, bd_manage. rewrite (proj2 (Z.eqb_neq _ _) E1), (proj2 (Z.ltb_lt _ _) E2). cbn [cpt_thres cpt]. rewrite T.
  unfold u16. rewrite uN_id by lia. lia.
Qed.
(** A collision is thus reported, again and again, while the robot is exactly where it is told to be: an angle error of
    20000 steps is found, the mode changes to the control of the distance alone, the collision is reported and the robot
    stopped; one period later, without any movement, a collision is reported again. *)
Lemma manage_jump_any c f p o : let q := consign_filter c in
  var_2nd_ord_pos q = 0 -> var_2nd_ord_neg q = 0 -> IZR (consign_value c) - previous_out q <= var_1st_ord_pos q -> - var_1st_ord_neg q <= IZR (consign_value c) - previous_out q ->
  Rabs (IZR (consign_value c) - previous_out q) <= IZR (2 ^ 30) -> (- 2 ^ 31 <= consign_value c - f < 2 ^ 31)%Z -> cs_pid_process (correct_filter c) (consign_value c - f) = OK (p, o) ->
  exists q', cs_manage c f = OK (mkCs (consign_value c) (consign_value c) (consign_value c - f) o q' p).
Proof.
  intros q A1 A2 V1 V2 B I P. destruct (quadramp_jump q (consign_value c) A1 A2 V1 V2 B) as [q' J].
  exists q'. unfold cs_manage. fold q. rewrite J. cbn [rbind]. rewrite int_ok by exact I. cbn [rbind]. rewrite P. reflexivity.
Qed.
Lemma pid_00 : exists p p', cs_pid_process pid0 0 = OK (p, 0%Z) /\ cs_pid_process p 0 = OK (p', 0%Z).
Proof.
  assert (H : match cs_pid_process pid0 0 with OK (p, z) => Z.eqb z 0 && match cs_pid_process p 0 with OK (_, z) => Z.eqb z 0 | BAD => false end | BAD => false end = true) by (vm_compute; reflexivity).
  destruct (cs_pid_process pid0 0) as [[p z]|] eqn:E; [|discriminate]. apply andb_prop in H as [H1 H2]. apply Z.eqb_eq in H1. subst z.
  destruct (cs_pid_process p 0) as [[p' z]|] eqn:E'; [|discriminate]. apply Z.eqb_eq in H2. subst z. eauto.
Qed.
Lemma hardstop_ok r : (- 2 ^ 31 <= rs_get_angle (rs r) < 2 ^ 31)%Z -> (- 2 ^ 31 <= rs_get_distance (rs r) < 2 ^ 31)%Z -> exists r', trajectory_hardstop r = OK r' /\ rs r' = rs r /\ mode r' = mode r /\
  correct_filter (distance_cs r') = correct_filter (distance_cs r) /\ consign_value (distance_cs r') = rs_get_distance (rs r) /\
  previous_out (consign_filter (distance_cs r')) = IZR (rs_get_distance (rs r)) /\
  var_1st_ord_pos (consign_filter (distance_cs r')) = Rabs (d_speed (spd r)) /\ var_1st_ord_neg (consign_filter (distance_cs r')) = Rabs (d_speed (spd r)) /\
  var_2nd_ord_pos (consign_filter (distance_cs r')) = Rabs (d_acc (spd r)) /\ var_2nd_ord_neg (consign_filter (distance_cs r')) = Rabs (d_acc (spd r)) /\
  error_value (angle_cs r') = error_value (angle_cs r) /\ angle_bd r' = angle_bd r /\ distance_bd r' = distance_bd r /\ consign_value (angle_cs r') = rs_get_angle (rs r).
Proof.
  intros A D. unfold trajectory_hardstop, trajectory_stop, goto_d_a_rel.
  cbn [delete_event set_traj set_quadramp_acc set_quadramp_speed set_cs rs rbind]. rewrite Z.add_0_l, int_ok by exact A. cbn [rbind].
  cbn [set_angle_target set_traj set_cs rs]. rewrite Z.add_0_l, int_ok by exact D. cbn [rbind]. eexists. split; [reflexivity|]. repeat split.
Qed.
Theorem collision_again_refuted : exists es r, run ex_r es = OK r /\ rs_get_angle (rs r) = consign_value (angle_cs r) /\ rs_get_distance (rs r) = consign_value (distance_cs r) /\
  exists r', trajectory_has_ended r TRAJ_END_COLLISION = OK (r', TRAJ_END_COLLISION).
Proof.
  set (sys := mkRs (mkPolar 0 0) (mkPolar 0 20000) (mkPolar 0 20000) (mkWheels (-20000) 20000) Some Some).
  assert (U : rs_update (rs ex_r) (-20000) 20000 = OK sys) by reflexivity.
  destruct pid_m20000 as [p P]. destruct pid_00 as (p0 & p1 & P0 & P1).
  assert (B30 : 0 <= IZR (2 ^ 30)) by (apply IZR_le; lia).
  assert (A : exists q', cs_manage (angle_cs ex_r) 20000 = OK (mkCs 0 0 (-20000) 20000 q' p)).
  { apply (manage_jump_any (angle_cs ex_r) 20000 p 20000); cbn [angle_cs ex_r robot_init cs_init quadramp_init consign_filter correct_filter consign_value var_1st_ord_pos var_1st_ord_neg var_2nd_ord_pos var_2nd_ord_neg previous_out];
      [reflexivity|reflexivity|lra|lra|rewrite Rminus_0_r, Rabs_R0; auto|lia|exact P]. }
  destruct A as (qa & A).
  assert (D : exists q', cs_manage (distance_cs ex_r) 0 = OK (mkCs 0 0 0 0 q' p0)).
  { apply (manage_jump_any (distance_cs ex_r) 0 p0 0); cbn [distance_cs ex_r robot_init cs_init quadramp_init consign_filter correct_filter consign_value var_1st_ord_pos var_1st_ord_neg var_2nd_ord_pos var_2nd_ord_neg previous_out];
      [reflexivity|reflexivity|lra|lra|rewrite Rminus_0_r, Rabs_R0; auto|lia|exact P0]. }
  destruct D as (qd & D).
  destruct (control_ok ex_r (-20000) 20000 ex_speeds sys _ _ ltac:(discriminate) U A D) as (r1 & C1 & C2 & C3 & C4); [cbn; lia..|].
  pose proof C1 as C. cbn [step] in C. apply control_inv in C as (sys' & U' & F & V & PX & _ & _ & B1 & B2 & _ & _ & SP). rewrite U in U'. injection U' as <-.
  destruct F as (F1 & F2 & F3 & F4 & _). rewrite C2 in B1. rewrite C3 in B2. cbn [error_value] in B1, B2.
  set (r2 := set_mode r1 DISTANCE_ONLY).
  assert (GA : rs_get_angle (rs r2) = 20000%Z) by (unfold rs_get_angle; cbn [r2 set_mode rs]; now rewrite V).
  assert (GD : rs_get_distance (rs r2) = 0%Z) by (unfold rs_get_distance; cbn [r2 set_mode rs]; now rewrite V).
  destruct (hardstop_ok r2) as (r3 & H3 & R3 & M3 & K1 & K2 & K3 & K4 & K5 & K6 & K7 & K8 & K9 & K10 & K11); [rewrite GA; lia|rewrite GD; lia|].
  rewrite GD in K2, K3. rewrite GA in K11.
  set (r4 := set_bd r3 (bd_reset (angle_bd r3)) (bd_reset (distance_bd r3))).
  assert (BG : bd_get (angle_bd r2) = true) by (cbn [r2 set_mode angle_bd]; rewrite B1; reflexivity).
  assert (E : trajectory_has_ended r2 TRAJ_END_COLLISION = OK (r4, TRAJ_END_COLLISION)).
  { unfold trajectory_has_ended. change (has_flag TRAJ_END_COLLISION TRAJ_END_GOAL_REACHED) with false. change (has_flag TRAJ_END_COLLISION TRAJ_END_NEAR_GOAL) with false.
    change (has_flag TRAJ_END_COLLISION TRAJ_END_COLLISION) with true. cbn [andb rbind]. rewrite BG. cbn [orb]. rewrite H3. reflexivity. }
  assert (U4 : rs_update (rs r4) (-20000) 20000 = OK (rs r1)) by (cbn [r4 set_bd rs]; rewrite R3; cbn [r2 set_mode rs]; rewrite C4; reflexivity).
  assert (M4 : mode r4 = DISTANCE_ONLY) by exact M3.
  assert (D4 : exists q', cs_manage (distance_cs r4) 0 = OK (mkCs 0 0 0 0 q' p1)).
  { destruct (manage_jump_any (distance_cs r4) 0 p1 0) as [q' J]; cbn [r4 set_bd distance_cs]; rewrite ?K1, ?K2, ?K3, ?K4, ?K5, ?K6, ?K7; cbn [r2 set_mode spd distance_cs]; rewrite ?SP, ?C3; cbn [ex_speeds d_speed d_acc correct_filter].
    - apply Rabs_R0.
    - apply Rabs_R0.
    - rewrite Rabs_pos_eq; lra.
    - rewrite Rabs_pos_eq; lra.
    - rewrite Rminus_0_r, Rabs_R0. exact B30.
    - lia.
    - exact P1.
    - exists q'. etransitivity; [exact J|]. cbn [r4 set_bd distance_cs]. rewrite K2. reflexivity. }
  destruct D4 as [q4 D4].
  destruct (control_ok r4 (-20000) 20000 ex_speeds (rs r1) (angle_cs r4) (mkCs 0 0 0 0 q4 p1)) as (r5 & S5 & T1 & T2 & T3); rewrite ?M4; cbn [angle_on distance_on axis axis_out].
  - discriminate.
  - exact U4.
  - reflexivity.
  - rewrite C4. exact D4.
  - lia.
  - cbn; lia.
  - rewrite C4. cbn. lia.
  - cbn [r4 set_bd angle_cs]. rewrite K8. cbn [r2 set_mode angle_cs]. rewrite C2. cbn. lia.
  - cbn; lia.
  - exists [Control (-20000) 20000 ex_speeds; Set_mode DISTANCE_ONLY; Poll TRAJ_END_COLLISION; Control (-20000) 20000 ex_speeds], r5.
    split; [|split; [|split]].
    + cbn [run]. rewrite C1. cbn [rbind]. change (step r1 (Set_mode DISTANCE_ONLY)) with (OK r2). cbn [rbind]. cbn [step]. rewrite E. cbn [rbind].
      cbn [step] in S5. rewrite S5. reflexivity.
    + rewrite T1, T3. cbn [r4 set_bd angle_cs]. rewrite K11. unfold rs_get_angle. cbn [with_pwm virtual_encoders]. now rewrite C4.
    + rewrite T2, T3. unfold rs_get_distance. cbn [with_pwm virtual_encoders]. now rewrite C4.
    + assert (Hc : holds r5 Collision).
      { apply (unregulated_axis_blocks r4 (-20000) 20000 ex_speeds r5); try (rewrite M4; discriminate); auto.
        - cbn [r4 set_bd angle_bd bd_reset cpt_thres]. rewrite K9. cbn [r2 set_mode angle_bd]. rewrite B1. reflexivity.
        - cbn [r4 set_bd angle_bd bd_reset cpt]. lia.
        - cbn [r4 set_bd angle_bd bd_reset err_thres]. rewrite K9. cbn [r2 set_mode angle_bd]. rewrite B1. discriminate.
        - cbn [r4 set_bd angle_bd bd_reset err_thres angle_cs]. rewrite K8, K9. cbn [r2 set_mode angle_bd angle_cs]. rewrite B1, C2. cbn. lia. }
      assert (Hb : bd_get (angle_bd r5) || bd_get (distance_bd r5) = true) by (apply orb_true_iff; destruct Hc as [Hc|Hc]; [left|right]; now apply blocked_iff). unfold trajectory_has_ended. change (has_flag TRAJ_END_COLLISION TRAJ_END_GOAL_REACHED) with false. change (has_flag TRAJ_END_COLLISION TRAJ_END_NEAR_GOAL) with false.
      change (has_flag TRAJ_END_COLLISION TRAJ_END_COLLISION) with true. cbn [andb rbind]. rewrite Hb.
      destruct (hardstop_ok r5) as (r6 & H6 & _); [rewrite T3; unfold rs_get_angle; cbn [with_pwm virtual_encoders]; rewrite C4; cbn; lia|rewrite T3; unfold rs_get_distance; cbn [with_pwm virtual_encoders]; rewrite C4; cbn; lia|].
      rewrite H6. cbn [rbind]. eexists. reflexivity.
Qed.

(** goto_xy_aims and goto_xy_reached: a target one metre ahead. *)
Example ex_goto_xy : let r := trajectory_goto_xy AUTO ex_r 1200 1000 in
  scheduled r = true /\ state r = RUNNING_XY AUTO START /\ tgt r = Cart 1200 1000 /\ distance_to r 1200 1000 = 1000 /\
  exists r', step r Manage = OK r' /\ consign_value (distance_cs r') = 1000%Z /\ consign_value (angle_cs r') = 0%Z.
Proof.
  assert (S1000 : sqrt ((1200 - 200) * (1200 - 200) + (1000 - 1000) * (1000 - 1000)) = 1000).
  { replace ((1200 - 200) * (1200 - 200) + (1000 - 1000) * (1000 - 1000)) with (1000 * 1000) by ring. apply sqrt_square. lra. }
  assert (T : target_vector AUTO 200 1000 0 1200 1000 = (1000, 0)).
  { unfold target_vector. rewrite S1000. unfold atan2. destruct (ltb_spec 0 (1200 - 200)); [|lra].
    replace ((1000 - 1000) / (1200 - 200)) with 0 by lra. rewrite atan_0, Rminus_0_r. pose proof PI_RGT_0.
    assert (M0 : simple_modulo_2pi 0 = 0) by (unfold simple_modulo_2pi; destruct (ltb_spec 0 (- PI)); [lra|]; destruct (ltb_spec PI 0); [lra|]; reflexivity). rewrite M0.
    destruct (ltb_spec (52 / 100 * PI) 0); [lra|]. destruct (ltb_spec 0 (- (52 / 100 * PI))); [lra|]. reflexivity. }
  split; [reflexivity|]. split; [reflexivity|]. split; [reflexivity|]. split.
  { unfold distance_to. cbn [trajectory_goto_xy set_traj delete_event set_quadramp_acc set_quadramp_speed set_cs pos_x pos_y ex_r robot_init].
    replace ((200 - 1200) * (200 - 1200) + (1000 - 1000) * (1000 - 1000)) with (1000 * 1000) by ring. apply sqrt_square. lra. }
  cbn [step]. unfold trajectory_manager_manage, trajectory_goto_xy. cbn [scheduled state set_traj]. unfold trajectory_manager_xy_event. cbn [tgt set_traj read_cart rbind].
  cbn [pos_x pos_y pos_a set_traj delete_event set_quadramp_acc set_quadramp_speed set_cs ex_r robot_init]. rewrite T.
  cbn [distance_imp_per_mm track_mm rs set_traj delete_event set_quadramp_acc set_quadramp_speed set_cs ex_r robot_init].
  replace (1000 * 1) with 1000 by ring. replace (0 * 1 * 100 / (22 / 10)) with 0 by lra. rewrite !to_int32_IZR by lia. cbn [rbind].
  rewrite !int_ok by (cbn; lia). cbn [rbind]. eexists. split; [reflexivity|]. split; reflexivity.
Qed.

(** A movement to a point is reported as having reached its goal when it is asked about before the first period of the
    trajectory manager: the consign is still that of the previous movement. (The callers sleep 100 ms first.) *)
Theorem goto_xy_premature_refuted : exists r', trajectory_wait_for_end (trajectory_goto_xy AUTO ex_r 1200 1000) TRAJ_END_GOAL_REACHED [[]] = OK (r', Some TRAJ_END_GOAL_REACHED) /\
  distance_to r' 1200 1000 = 1000.
Proof.
  exists (trajectory_goto_xy AUTO ex_r 1200 1000). split; [reflexivity|apply ex_goto_xy].
Qed.

(** has_ended_reason: the first poll of collision_again_refuted; hardstop_holds: the clock and the odometry go on. *)
Example ex_hardstop : exists r1 r2, trajectory_hardstop ex_r = OK r1 /\ Forall quiet [Odometry 201 1000 0; Manage; Time 5] /\ run r1 [Odometry 201 1000 0; Manage; Time 5] = OK r2 /\ now r2 = 5%Z.
Proof.
  destruct (hardstop_ok ex_r) as (r1 & H & _); [cbn; lia..|]. exists r1. pose proof H as X. apply hardstop_inv in X as ((_ & S & _) & _).
  assert (M : forall r, scheduled r = false -> step r Manage = OK r) by (intros r Hr; cbn [step]; unfold trajectory_manager_manage; now rewrite Hr).
  cbn [run]. change (step r1 (Odometry 201 1000 0)) with (OK (set_pose r1 201 1000 0)). cbn [rbind]. rewrite M by exact S. cbn [rbind step].
  eexists. split; [exact H|]. split; [repeat constructor|]. split; reflexivity.
Qed.

Print Assumptions has_ended_reason.
Print Assumptions wait_for_end_reason.
Print Assumptions command_reached.
Print Assumptions goto_xy_aims.
Print Assumptions goto_xy_never_overturns.
Print Assumptions goto_xy_reached.
Print Assumptions mode_gating.
Print Assumptions regulated_error.
Print Assumptions hardstop_holds.
Print Assumptions encoders_agree.
Print Assumptions reachable_target_valid.
Print Assumptions align_with_wall_ends.
Print Assumptions collision_partial.
Print Assumptions unregulated_axis_blocks.
Print Assumptions collision_again_refuted.
Print Assumptions goto_xy_premature_refuted.
