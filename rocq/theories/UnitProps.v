(** C90: units, modes and speeds of the base. *)
From Coq Require Import ZArith Reals List Bool Lra Lia.
From Verif Require Import CRes QuadModel EncModel TrajModel TrajProps TrajStartSpec TrajStartProps UnitModel UnitSpec.
Import ListNotations.
Local Open Scope R_scope.

(** C90. The conversions are inverse of each other. *)
Theorem conversions_inverse r x : distance_imp_per_mm r <> 0 -> track_mm r <> 0 ->
  (pos_imp2mm r (pos_mm2imp r x) = x /\ pos_mm2imp r (pos_imp2mm r x) = x) /\
  (speed_imp2mm r (speed_mm2imp r x) = x /\ speed_mm2imp r (speed_imp2mm r x) = x) /\
  (acc_imp2mm r (acc_mm2imp r x) = x /\ acc_mm2imp r (acc_imp2mm r x) = x) /\
  (pos_imp2rd r (pos_rd2imp r x) = x /\ pos_rd2imp r (pos_imp2rd r x) = x) /\
  (speed_imp2rd r (speed_rd2imp r x) = x /\ speed_rd2imp r (speed_imp2rd r x) = x) /\
  (acc_imp2rd r (acc_rd2imp r x) = x /\ acc_rd2imp r (acc_imp2rd r x) = x).
Proof.
  intros I T. unfold pos_imp2mm, pos_mm2imp, speed_imp2mm, speed_mm2imp, acc_imp2mm, acc_mm2imp, pos_imp2rd, pos_rd2imp, speed_imp2rd, speed_rd2imp, acc_imp2rd, acc_rd2imp, cs_hz.
  repeat match goal with |- _ /\ _ => split end; field; auto.
Qed.
(** They agree with the period of the control loop: in one second (100 periods) a speed of [x] covers [x], and an acceleration
    of [x] gives a speed of [x]; one turn of both wheels the same way is a distance, and each wheel covers half of the track times the angle. *)
Theorem conversions_physical r x :
  100 * speed_mm2imp r x = pos_mm2imp r x /\ 100 * acc_mm2imp r x = speed_mm2imp r x /\
  100 * speed_rd2imp r x = pos_rd2imp r x /\ 100 * acc_rd2imp r x = speed_rd2imp r x /\
  pos_rd2imp r x = pos_mm2imp r (x * (track_mm r / 2)).
Proof. unfold speed_mm2imp, pos_mm2imp, acc_mm2imp, speed_rd2imp, pos_rd2imp, acc_rd2imp, cs_hz. repeat match goal with |- _ /\ _ => split end; field. Qed.

Definition ramps (r : robot) (s : speeds) : Prop :=
  (var_1st_ord_pos (consign_filter (distance_cs r)) = Rabs (d_speed s) /\ var_1st_ord_neg (consign_filter (distance_cs r)) = Rabs (d_speed s)) /\
  (var_1st_ord_pos (consign_filter (angle_cs r)) = Rabs (a_speed s) /\ var_1st_ord_neg (consign_filter (angle_cs r)) = Rabs (a_speed s)) /\
  (var_2nd_ord_pos (consign_filter (distance_cs r)) = Rabs (d_acc s) /\ var_2nd_ord_neg (consign_filter (distance_cs r)) = Rabs (d_acc s)) /\
  (var_2nd_ord_pos (consign_filter (angle_cs r)) = Rabs (a_acc s) /\ var_2nd_ord_neg (consign_filter (angle_cs r)) = Rabs (a_acc s)).

Lemma goto_ramps r st d a r' : goto_d_a_rel r st d a = OK r' ->
  ramps r' (spd r) /\ distance_imp_per_mm r' = distance_imp_per_mm r /\ track_mm r' = track_mm r.
Proof.
  unfold goto_d_a_rel. cbv zeta. set (q := set_traj _ _ _ _).
  assert (Q : ramps q (spd r) /\ distance_imp_per_mm q = distance_imp_per_mm r /\ track_mm q = track_mm r) by (unfold ramps; cbn; tauto). clearbody q.
  assert (A : forall p z, ramps p (spd r) /\ distance_imp_per_mm p = distance_imp_per_mm r /\ track_mm p = track_mm r ->
     (ramps (set_angle_target p z) (spd r) /\ distance_imp_per_mm (set_angle_target p z) = distance_imp_per_mm r /\ track_mm (set_angle_target p z) = track_mm r) /\
     (ramps (set_distance_target p z) (spd r) /\ distance_imp_per_mm (set_distance_target p z) = distance_imp_per_mm r /\ track_mm (set_distance_target p z) = track_mm r)).
  { intros p z H. unfold ramps in *. cbn. tauto. }
  intro E. destruct (match a with None => OK q | Some a0 => _ end) as [p|] eqn:P; [|discriminate]. cbn [rbind] in E.
  assert (H : ramps p (spd r) /\ distance_imp_per_mm p = distance_imp_per_mm r /\ track_mm p = track_mm r).
  { destruct a as [a|]; [|assert (q = p) by congruence; now subst p]. destruct (match a with None => _ | Some _ => _ end) as [c|]; [|discriminate]. cbn [rbind] in P.
    destruct (int _) as [c'|]; [|discriminate]. cbn [rbind] in P. assert (p = set_angle_target q c') as -> by congruence. now apply A. }
  destruct d as [d|]; [|assert (p = r') by congruence; now subst p]. destruct (match d with None => _ | Some _ => _ end) as [c|]; [|discriminate]. cbn [rbind] in E.
  destruct (int _) as [c'|]; [|discriminate]. cbn [rbind] in E. assert (r' = set_distance_target p c') as -> by congruence. now apply A.
Qed.

Lemma command_ramps r c r' : do_command r c = OK r' -> ramps r' (spd r) /\ distance_imp_per_mm r' = distance_imp_per_mm r /\ track_mm r' = track_mm r.
Proof.
  destruct c; cbn [do_command]; intro E;
    try (unfold trajectory_d_rel, trajectory_only_d_rel, trajectory_a_rel, trajectory_turnto_xy, trajectory_only_a_rel, trajectory_d_a_rel, trajectory_stop in E;
         apply goto_ramps in E; exact E).
  - unfold trajectory_a_abs in E. destruct (modulo_2pi _); [|discriminate]. cbn [rbind] in E. now apply goto_ramps in E.
  - unfold trajectory_turnto_xy_behind in E. destruct (modulo_2pi _); [|discriminate]. cbn [rbind] in E. now apply goto_ramps in E.
  - unfold trajectory_only_a_abs in E. destruct (modulo_2pi _); [|discriminate]. cbn [rbind] in E. now apply goto_ramps in E.
  - unfold trajectory_hardstop in E. destruct (trajectory_stop r) as [q|] eqn:Q; [|discriminate]. cbn [rbind] in E. unfold trajectory_stop in Q. apply goto_ramps in Q.
    assert (F : forall a b : robot, OK a = OK b -> b = a) by congruence. apply F in E. subst r'. unfold ramps in *. cbn. tauto.
  - assert (F : forall a b : robot, OK a = OK b -> b = a) by congruence. apply F in E. subst r'. unfold ramps. cbn. tauto.
  - assert (F : forall a b : robot, OK a = OK b -> b = a) by congruence. apply F in E. subst r'. unfold ramps. cbn. tauto.
  - assert (F : forall a b : robot, OK a = OK b -> b = a) by congruence. apply F in E. subst r'. unfold ramps. cbn. tauto.
Qed.

Lemma ramps_limits r s v w acc wacc : 0 < distance_imp_per_mm r -> 0 < track_mm r -> ramps r s ->
  d_speed s = speed_mm2imp r v -> a_speed s = speed_rd2imp r w -> d_acc s = acc_mm2imp r acc -> a_acc s = acc_rd2imp r wacc ->
  limits r (Rabs v) (Rabs w) (Rabs acc) (Rabs wacc).
Proof.
  intros I T H E1 E2 E3 E4. unfold ramps in H. rewrite E1, E2, E3, E4 in H. unfold limits. cbv zeta.
  destruct H as ((-> & ->) & (-> & ->) & (-> & ->) & (-> & ->)).
  unfold speed_mm2imp, speed_rd2imp, acc_mm2imp, acc_rd2imp, cs_hz.
  assert (P : 0 < distance_imp_per_mm r * track_mm r) by (apply Rmult_lt_0_compat; assumption).
  replace (v * distance_imp_per_mm r / 100) with (v * (distance_imp_per_mm r / 100)) by (unfold Rdiv; ring).
  replace (acc * distance_imp_per_mm r / (100 * 100)) with (acc * (distance_imp_per_mm r / (100 * 100))) by (unfold Rdiv; ring).
  rewrite !Rabs_mult. rewrite !(Rabs_pos_eq (_ / _)) by lra.
  repeat match goal with |- _ /\ _ => split end; field; lra.
Qed.

(** C90. Any command of a movement given to a robot in aligning mode, at once, has the limits of this mode; the angle is not regulated,
    and a collision is an error of more than 7000 steps for more than 2 periods. The angle keeps its thresholds. *)
Theorem aligning_mode r c r' : 0 < distance_imp_per_mm r -> 0 < track_mm r -> do_command (trajectory_set_mode_aligning r) c = OK r' ->
  limits r' 30 0.75 30 1.57.
Proof.
  intros I T E. apply command_ramps in E as (H & E1 & E2). cbn [distance_imp_per_mm track_mm trajectory_set_mode_aligning trajectory_set_speed trajectory_set_acc set_speeds set_mode set_bd] in E1, E2.
  replace 30 with (Rabs 30) by (apply Rabs_pos_eq; lra). replace 0.75 with (Rabs 0.75) by (apply Rabs_pos_eq; lra). replace 1.57 with (Rabs 1.57) by (apply Rabs_pos_eq; lra).
  eapply ramps_limits; try eassumption; try lra; unfold speed_mm2imp, speed_rd2imp, acc_mm2imp, acc_rd2imp; rewrite ?E1, ?E2; reflexivity.
Qed.
Theorem game_mode r c r' : 0 < distance_imp_per_mm r -> 0 < track_mm r -> do_command (trajectory_set_mode_game r) c = OK r' ->
  limits r' 300 3 600 6.
Proof.
  intros I T E. apply command_ramps in E as (H & E1 & E2). cbn [distance_imp_per_mm track_mm trajectory_set_mode_game trajectory_set_speed trajectory_set_acc set_speeds set_mode set_bd] in E1, E2.
  replace 300 with (Rabs 300) by (apply Rabs_pos_eq; lra). replace 3 with (Rabs 3) by (apply Rabs_pos_eq; lra).
  replace 600 with (Rabs 600) by (apply Rabs_pos_eq; lra). replace 6 with (Rabs 6) by (apply Rabs_pos_eq; lra).
  eapply ramps_limits; try eassumption; try lra; unfold speed_mm2imp, speed_rd2imp, acc_mm2imp, acc_rd2imp; rewrite ?E1, ?E2; reflexivity.
Qed.
(** What the modes change besides the speeds, and what they leave: in particular the ramps of a movement already started. *)
Theorem modes_set r :
  let a := trajectory_set_mode_aligning r in
  let g := trajectory_set_mode_game r in
  (mode a = DISTANCE_ONLY /\ mode g = ANGLE_DISTANCE) /\
  (err_thres (distance_bd a) = 7000%Z /\ cpt_thres (distance_bd a) = 2%Z /\ angle_bd a = angle_bd r) /\
  (err_thres (distance_bd g) = 15000%Z /\ cpt_thres (distance_bd g) = 1%Z /\ err_thres (angle_bd g) = 12500%Z /\ cpt_thres (angle_bd g) = 1%Z) /\
  (cpt (distance_bd a) = cpt (distance_bd r) /\ cpt (distance_bd g) = cpt (distance_bd r) /\ cpt (angle_bd g) = cpt (angle_bd r)) /\
  Forall (fun q => angle_cs q = angle_cs r /\ distance_cs q = distance_cs r /\ rs q = rs r /\ motors q = motors r /\ scheduled q = scheduled r /\
                   state q = state r /\ tgt q = tgt r /\ win q = win r /\ pos_x q = pos_x r /\ pos_y q = pos_y r /\ pos_a q = pos_a r /\
                   distance_imp_per_mm q = distance_imp_per_mm r /\ track_mm q = track_mm r /\ game_start q = game_start r /\ now q = now r) [a; g].
Proof. repeat constructor. Qed.

Lemma control_keeps r l rr s r' : base_ctrl r l rr s = OK r' -> spd r' = s /\ distance_imp_per_mm r' = distance_imp_per_mm r /\ track_mm r' = track_mm r.
Proof.
  unfold base_ctrl, control_blocking, control_axes. intro E.
  assert (F : forall a b : robot, OK a = OK b -> b = a) by congruence.
  destruct (rs_update (rs r) l rr) as [sys|]; [|discriminate]. cbn [rbind] in E. cbv zeta in E.
  set (q := set_rs r sys (motors r)) in *. assert (Q : distance_imp_per_mm q = distance_imp_per_mm r /\ track_mm q = track_mm r) by (split; reflexivity). clearbody q.
  match type of E with rbind ?x _ = _ => destruct x as [p|] eqn:P; [|discriminate] end. cbn [rbind] in E.
  assert (H : distance_imp_per_mm p = distance_imp_per_mm r /\ track_mm p = track_mm r).
  { assert (A : forall x : res robot, x = OK p -> (forall y, x = OK y -> distance_imp_per_mm y = distance_imp_per_mm r /\ track_mm y = track_mm r) -> distance_imp_per_mm p = distance_imp_per_mm r /\ track_mm p = track_mm r) by (intros x X Y; now apply Y).
    assert (D : forall (dd : bool) p0, distance_imp_per_mm p0 = distance_imp_per_mm r /\ track_mm p0 = track_mm r ->
       (if dd then rbind (cs_manage (distance_cs p0) (p_distance (pext_prev (rs p0)))) (fun c => rbind (rs_set_distance (rs p0) (out_value c)) (fun '(s0, w) => OK (set_rs (set_cs p0 (angle_cs p0) c) s0 w)))
        else rbind (rs_set_distance (rs p0) 0) (fun '(s0, w) => OK (set_rs p0 s0 w))) = OK p -> distance_imp_per_mm p = distance_imp_per_mm r /\ track_mm p = track_mm r).
    { clear P E A. intros dd p0 H0 X. destruct dd;
        repeat match type of X with
        | rbind ?x _ = _ => destruct x as [?|]; [|discriminate X]; cbn [rbind] in X
        | (let '(_, _) := ?x in _) = _ => destruct x
        end; apply F in X; subst p; exact H0. }
    destruct (mode q); cbn [rbind] in P; try (assert (q = p) by congruence; now subst p);
    (match type of P with rbind ?x _ = _ => destruct x as [p0|] eqn:P0; [|discriminate P] end); cbn [rbind] in P;
    (assert (H0 : distance_imp_per_mm p0 = distance_imp_per_mm r /\ track_mm p0 = track_mm r);
     [ repeat match type of P0 with
       | rbind ?x _ = _ => destruct x as [?|]; [|discriminate P0]; cbn [rbind] in P0
       | (let '(_, _) := ?x in _) = _ => destruct x
       end; apply F in P0; subst p0; exact Q
     | first [apply (D true p0 H0 P) | apply (D false p0 H0 P)] ]). }
  destruct (int (Z.abs (error_value (angle_cs p)))); [|discriminate]. cbn [rbind] in E. destruct (int (Z.abs (error_value (distance_cs p)))); [|discriminate]. cbn [rbind] in E.
  apply F in E. subst r'. cbn. tauto.
Qed.

(** After a period of the control loop, any command of a movement has the limits of the configuration, given in m and radians. *)
Theorem configured_limits r cfg b l rr r1 c r2 : 0 < distance_imp_per_mm r -> 0 < track_mm r ->
  control_period r cfg b l rr = OK r1 -> do_command r1 c = OK r2 ->
  limits r2 (Rabs (1000 * c_d_speed cfg b)) (Rabs (c_a_speed cfg b)) (Rabs (1000 * c_d_acc cfg b)) (Rabs (c_a_acc cfg b)).
Proof.
  intros I T P E. unfold control_period in P. apply control_keeps in P as (S & P1 & P2). apply command_ramps in E as (H & E1 & E2). rewrite S in H.
  eapply ramps_limits; try eassumption; try (rewrite ?E1, ?E2, ?P1, ?P2; assumption);
    unfold base_speeds, speed_mm2imp, speed_rd2imp, acc_mm2imp, acc_rd2imp; cbn [d_speed a_speed d_acc a_acc]; rewrite ?E1, ?E2, ?P1, ?P2; unfold Rdiv; ring.
Qed.
(** The speeds of the aligning mode do not last: 10 ms later the control loop has replaced them by those of the configuration, and the next
    movements have these. *)
Theorem aligning_speed_refuted r cfg b l rr r1 c r2 : 0 < distance_imp_per_mm r -> 0 < track_mm r -> Rabs (1000 * c_d_speed cfg b) <> 30 ->
  control_period (trajectory_set_mode_aligning r) cfg b l rr = OK r1 -> do_command r1 c = OK r2 -> ~ limits r2 30 0.75 30 1.57.
Proof.
  intros I T N P E L. pose proof (configured_limits (trajectory_set_mode_aligning r) cfg b l rr r1 c r2 I T P E) as M. unfold limits in *. cbv zeta in *.
  destruct L as ((L & _) & _). destruct M as ((M & _) & _). congruence.
Qed.

(** The cases are met: the robot at power-up, put in aligning mode, then the control loop runs, then a movement. *)
Definition cfg_case : speed_config := mkCfg (fun _ => 0.5) (fun _ => 2) (fun _ => 1) (fun _ => 5).
Lemma ex_rest : rest ex_r.
Proof. unfold rest, axis_rest, sys_rest, bd_rest; repeat match goal with |- _ /\ _ => split end; auto; try apply pid0_calm; cbn; lia. Qed.
Lemma aligning_rest : rest (trajectory_set_mode_aligning ex_r).
Proof. destruct ex_rest as (A & B & C & D & E & F & G & H). repeat match goal with |- rest _ => split | |- _ /\ _ => split end; try assumption; cbn; lia. Qed.
Lemma rest_control r s : rest r -> exists r', base_ctrl r 0 0 s = OK r'.
Proof. intro R. destruct (rest_step r (Control 0 0 s) R) as (r2 & C & _); [split; reflexivity|]. exists r2. exact C. Qed.
Lemma aligning_d_rel : exists r1, do_command (trajectory_set_mode_aligning ex_r) (D_rel 100) = OK r1.
Proof.
  assert (T : to_int32 (100 * 1) = OK 100%Z) by (rewrite Rmult_1_r; apply QuadProps.to_int32_IZR; lia).
  cbn [do_command]. unfold trajectory_d_rel, goto_d_a_rel. cbv zeta. cbn [rbind].
  match goal with |- context [int (0 + rs_get_angle ?x)] => change (int (0 + rs_get_angle x)) with (OK 0%Z) end. cbn [rbind].
  match goal with |- context [to_int32 ?x] => change (to_int32 x) with (to_int32 (100 * 1)) end. rewrite T. cbn [rbind].
  match goal with |- context [int (100 + rs_get_distance ?x)] => change (int (100 + rs_get_distance x)) with (OK 100%Z) end. eexists. reflexivity.
Qed.
Example speed_case : exists r1 r2 r3,
  (0 < distance_imp_per_mm ex_r /\ 0 < track_mm ex_r /\ Rabs (1000 * c_d_speed cfg_case BASE_SPEED_INIT) <> 30) /\
  do_command (trajectory_set_mode_aligning ex_r) (D_rel 100) = OK r1 /\
  control_period (trajectory_set_mode_aligning ex_r) cfg_case BASE_SPEED_INIT 0 0 = OK r2 /\ do_command r2 (Goto_xy FORWARD 500 500) = OK r3.
Proof.
  destruct aligning_d_rel as (r1 & T).
  destruct (rest_control _ (base_speeds (trajectory_set_mode_aligning ex_r) cfg_case BASE_SPEED_INIT) aligning_rest) as (r2 & C).
  exists r1, r2, (trajectory_goto_xy FORWARD r2 500 500). split.
  { split; [change (0 < 1); lra|]. split; [change (0 < 100); lra|].
    cbn [c_d_speed cfg_case]. rewrite Rabs_pos_eq; lra. }
  split; [exact T|]. split; [exact C|]. reflexivity.
Qed.
Print Assumptions conversions_inverse.
Print Assumptions conversions_physical.
Print Assumptions aligning_mode.
Print Assumptions game_mode.
Print Assumptions modes_set.
Print Assumptions configured_limits.
Print Assumptions aligning_speed_refuted.
