(** Movements to a point given relative to the robot, and the base after power-up. *)
From Coq Require Import ZArith Reals List Bool Lia Lra.
From Flocq Require Import Core IEEE754.BinarySingleNaN.
From Verif Require Import CBase CRes FloatModel PidModel QuadModel QuadProps EncModel LieSpec TrajModel TrajSpec TrajProofs TrajProps TrajStartSpec.
Import ListNotations.
Local Open Scope R_scope.

(** C87. A movement to a point given in the frame of the robot, [x] mm ahead and [y] mm to its left, is the movement, forward or backward as
    is best, to that point of the table. *)
Theorem goto_xy_rel_target r x y :
  do_command r (Goto_xy_rel x y) =
  do_command r (Goto_xy AUTO (pos_x r + (x * cos (pos_a r) - y * sin (pos_a r))) (pos_y r + (x * sin (pos_a r) + y * cos (pos_a r)))).
Proof.
  cbn [do_command]. unfold trajectory_goto_xy_rel. destruct (atan2_polar x y) as [C S].
  set (n := sqrt _) in *. set (t := atan2 y x) in *. clearbody n t. subst x y. rewrite cos_plus, sin_plus.
  match goal with |- OK (trajectory_goto_xy AUTO r ?a ?b) = OK (trajectory_goto_xy AUTO r ?c ?d) => replace c with a by ring; replace d with b by ring end. reflexivity.
Qed.
(** C87. The same for a distance and a direction, in degrees, counted from the heading of the robot. *)
Theorem goto_d_a_rel_target r d a :
  do_command r (Goto_d_a_rel d a) =
  do_command r (Goto_xy AUTO (pos_x r + d * cos (pos_a r + a * PI / 180)) (pos_y r + d * sin (pos_a r + a * PI / 180))).
Proof.
  cbn [do_command]. unfold trajectory_goto_d_a_rel, RAD. replace (pos_a r + a * PI / 180) with (a * PI / 180 + pos_a r) by ring.
  match goal with |- OK (trajectory_goto_xy AUTO r (_ * cos ?u + _) _) = _ => replace u with (a * PI / 180 + pos_a r) by (try field; lra) end.
  rewrite (Rplus_comm (pos_x r)), (Rplus_comm (pos_y r)). reflexivity.
Qed.

(** * Rest *)
Ltac sp := repeat match goal with |- _ /\ _ => split end.

Notation flt := (float 24 128).
Lemma zero_add x y : is_zero x -> is_zero y -> is_zero (add (F ieee) x y : flt).
Proof. destruct x, y; cbn; try contradiction. intros _ _. destruct (Bool.eqb s s0); exact I. Qed.
Lemma zero_sub x y : is_zero x -> is_zero y -> is_zero (sub (F ieee) x y : flt).
Proof. destruct x, y; cbn; try contradiction. intros _ _. destruct (Bool.eqb s (negb s0)); exact I. Qed.
Lemma zero_mul_l x y : is_zero x -> is_finite_float y -> is_zero (mul (F ieee) x y : flt).
Proof. destruct x, y; cbn; try contradiction; auto. Qed.
Lemma zero_mul_r x y : is_finite_float x -> is_zero y -> is_zero (mul (F ieee) x y : flt).
Proof. destruct x, y; cbn; try contradiction; auto. Qed.
Lemma zero_div x y : is_zero x -> is_nonzero_finite y -> is_zero (div (F ieee) x y : flt).
Proof. destruct x, y; cbn; try contradiction; auto. Qed.
Lemma fin_neg x : is_finite_float x -> is_finite_float (neg (F ieee) x : flt).
Proof. destruct x; cbn; auto. Qed.
Lemma fin_nz x : is_nonzero_finite x -> is_finite_float x.
Proof. destruct x; cbn; auto. Qed.
Lemma lim_lt x y : is_limit x -> is_zero y -> lt (F ieee) (x : flt) y = false /\ lt (F ieee) y (neg (F ieee) x) = false.
Proof. destruct x as [?|[]| |[]], y; cbn; try contradiction; auto. Qed.
Lemma calm_step c : calm c -> exists c', cs_pid_process c 0 = OK (c', 0%Z) /\ calm c'.
Proof.
  destruct c as [p dv]. unfold calm. cbn [c_pid divider]. intros (A & B & C & Z1 & L & Z2 & Fq & Dv). unfold cs_pid_process. cbn [c_pid divider].
  assert (E : is_zero (div (F ieee) (of_int ieee 0) dv : flt)) by (apply zero_div; [exact I|exact Dv]).
  set (e := div (F ieee) (of_int ieee 0) dv) in *. clearbody e.
  unfold pid_process. assert (Zi := zero_add _ _ Z1 E). destruct (lim_lt _ _ L Zi) as [L1 L2].
  rewrite L1, L2. set (i := add (F ieee) (integrator ieee p) e) in *. clearbody i. cbv zeta.
  match goal with |- context [trunc _ ?o] => assert (O : is_zero (o : flt)) end.
  { apply zero_mul_l; [|now apply fin_nz]. apply zero_add.
    - apply zero_add; [apply zero_mul_r; [now apply fin_neg|exact E]|]. apply zero_div; [|exact Fq]. apply zero_mul_r; [now apply fin_neg|exact Zi].
    - apply zero_mul_l; [|now apply fin_nz]. apply zero_mul_r; [now apply fin_neg|now apply zero_sub]. }
  match goal with |- context [trunc _ ?o] => set (o' := o) in * end. clearbody o'. destruct o'; try contradiction. cbn [trunc F ieee binary32 ieee_fmt ieee_trunc].
  rewrite int_ok by lia. cbn [rbind]. eexists. split; [reflexivity|]. cbn [c_pid divider kp ki kd integrator integrator_limit previous_error frequency]. auto 9.
Qed.
Lemma pid0_calm : calm pid0.
Proof.
  unfold calm. repeat split;
  match goal with |- is_finite_float ?x => assert (H : match x with B754_zero _ | B754_finite _ _ _ _ => true | _ => false end = true) by (vm_compute; reflexivity); destruct x; [exact I|discriminate|discriminate|exact I]
  | |- is_nonzero_finite ?x => assert (H : match x with B754_finite _ _ _ _ => true | _ => false end = true) by (vm_compute; reflexivity); destruct x; [discriminate..|exact I]
  | _ => exact I end.
Qed.

Definition axis_rest (c : cs) : Prop :=
  consign_value c = 0%Z /\ filtered_consign_value c = 0%Z /\ error_value c = 0%Z /\ out_value c = 0%Z /\ previous_out (consign_filter c) = 0 /\ calm (correct_filter c).
Lemma rest_manage c : axis_rest c -> exists c', cs_manage c 0 = OK c' /\ axis_rest c'.
Proof.
  intros (A & B & C & O & P & K). unfold cs_manage, quadramp_do_filter. rewrite A, P. replace (ltb (Rabs (0 - 0)) 2) with true.
  2:{ symmetry. destruct (ltb_spec (Rabs (0 - 0)) 2) as [|N]; auto. exfalso. apply N. rewrite Rminus_0_r, Rabs_R0. lra. }
  cbn [rbind]. change (0 - 0)%Z with 0%Z. rewrite int_ok by lia. cbn [rbind]. destruct (calm_step _ K) as (p & -> & Kp). cbn [rbind]. eexists. split; [reflexivity|].
  unfold axis_rest; sp; first [assumption|reflexivity].
Qed.
Lemma rest_filter c q : axis_rest c -> previous_out q = 0 -> axis_rest (cs_set_filter c q).
Proof. intros (A & B & C & O & P & K) Q. unfold axis_rest; sp; first [assumption|reflexivity]. Qed.
Definition sys_rest (s : robot_system) : Prop :=
  virtual_pwm s = mkPolar 0 0 /\ virtual_encoders s = mkPolar 0 0 /\ pext_prev s = mkPolar 0 0 /\ left_ext_gain s 0%Z = Some 0%Z /\ right_ext_gain s 0%Z = Some 0%Z.
Definition bd_rest (b : bd) : Prop := (0 <= err_thres b)%Z /\ cpt b = 0%Z /\ (0 <= cpt_thres b)%Z.
Lemma bd_rest_manage b : bd_rest b -> bd_rest (bd_manage b 0).
Proof. intros (A & B & C). unfold bd_manage. destruct (_ =? 0)%Z; [repeat split; auto|]. repeat split; cbn [err_thres cpt cpt_thres]; auto. destruct (Z.ltb_spec (err_thres b) 0); auto; lia. Qed.
Lemma bd_rest_get b : bd_rest b -> bd_get b = false.
Proof. intros (A & B & C). unfold bd_get. rewrite B. destruct (Z.eqb_spec (cpt_thres b) 0); auto. cbn [negb andb]. apply Z.leb_gt. lia. Qed.
Definition rest (r : robot) : Prop :=
  sys_rest (rs r) /\ motors r = mkWheels 0 0 /\ axis_rest (angle_cs r) /\ axis_rest (distance_cs r) /\ bd_rest (angle_bd r) /\ bd_rest (distance_bd r) /\
  scheduled r = false /\ state r = READY.
Lemma rest_update s : sys_rest s -> exists s', rs_update s 0 0 = OK s' /\ sys_rest s'.
Proof.
  intros (A & B & C & G1 & G2). unfold rs_update. change (s32 (u32 0)) with 0%Z. rewrite G1, G2. cbn [some rbind]. unfold rs_get_polar_from_wheels. cbn [w_left w_right].
  rewrite B, C. cbn [p_angle p_distance]. eexists. split; [reflexivity|]. repeat split; cbn; auto.
Qed.
Lemma rest_set_angle s : sys_rest s -> exists s', rs_set_angle s 0 = OK (s', mkWheels 0 0) /\ sys_rest s'.
Proof. intros (A & B & C & G1 & G2). unfold rs_set_angle. rewrite A. cbn [p_distance]. eexists. split; [reflexivity|]. repeat split; cbn; auto. Qed.
Lemma rest_set_distance s : sys_rest s -> exists s', rs_set_distance s 0 = OK (s', mkWheels 0 0) /\ sys_rest s'.
Proof. intros (A & B & C & G1 & G2). unfold rs_set_distance. rewrite A. cbn [p_angle]. eexists. split; [reflexivity|]. repeat split; cbn; auto. Qed.
Lemma rest_axes r : rest r -> exists r', control_axes r = OK r' /\ rest r'.
Proof.
  intros (S & M & A & D & B1 & B2 & Sc & St). unfold control_axes.
  assert (X : exists r1, (if match mode r with ANGLE_DISTANCE | ANGLE_ONLY => true | _ => false end then
              try c := cs_manage (angle_cs r) (p_angle (pext_prev (rs r))) in
              try (s, w) := rs_set_angle (rs r) (out_value c) in
              OK (set_rs (set_cs r c (distance_cs r)) s w)
            else try (s, w) := rs_set_angle (rs r) 0 in OK (set_rs r s w)) = OK r1 /\ rest r1 /\ mode r1 = mode r).
  { assert (Pz := proj1 (proj2 (proj2 S))). rewrite Pz. cbn [p_angle]. destruct (rest_manage _ A) as (c & Ec & Rc). destruct (rest_set_angle _ S) as (s' & Es & Rs).
    destruct (match mode r with ANGLE_DISTANCE | ANGLE_ONLY => true | _ => false end).
    - rewrite Ec. cbn [rbind]. pose proof Rc as (c1 & c2 & c3 & c4 & c5 & c6). rewrite c4, Es. cbn [rbind]. eexists. split; [reflexivity|]. unfold rest; sp; auto; first [exact Rs|exact Rc|apply Rs|apply D|apply B1|apply B2].
    - rewrite Es. cbn [rbind]. eexists. split; [reflexivity|]. unfold rest; sp; auto; first [exact Rs|apply A|apply D|apply B1|apply B2]. }
  destruct X as (r1 & -> & (S1 & M1 & A1 & D1 & B3 & B4 & Sc1 & St1) & Md). cbn [rbind].
  assert (Pz := proj1 (proj2 (proj2 S1))). rewrite Pz. cbn [p_distance]. destruct (rest_manage _ D1) as (c & Ec & Rc). destruct (rest_set_distance _ S1) as (s' & Es & Rs).
  destruct (match mode r with ANGLE_DISTANCE | DISTANCE_ONLY => true | _ => false end).
  - rewrite Ec. cbn [rbind]. pose proof Rc as (c1 & c2 & c3 & c4 & c5 & c6). rewrite c4, Es. cbn [rbind]. eexists. split; [reflexivity|]. unfold rest; sp; auto; first [exact Rs|exact Rc|apply Rs|apply A1|apply B3|apply B4].
  - rewrite Es. cbn [rbind]. eexists. split; [reflexivity|]. unfold rest; sp; auto; first [exact Rs|exact Rc|apply Rs|apply A1|apply D1|apply B3|apply B4].
Qed.
Lemma rest_hardstop r : rest r -> exists r', trajectory_hardstop r = OK r' /\ rest r'.
Proof.
  intros ((P & V & X & G1 & G2) & M & A & D & B1 & B2 & Sc & St).
  assert (Ga : rs_get_angle (rs r) = 0%Z) by (unfold rs_get_angle; now rewrite V). assert (Gd : rs_get_distance (rs r) = 0%Z) by (unfold rs_get_distance; now rewrite V).
  unfold trajectory_hardstop, trajectory_stop, goto_d_a_rel.
  cbn [delete_event set_traj set_quadramp_acc set_quadramp_speed set_cs rs rbind]. rewrite Ga. cbn [rbind Z.add]. rewrite int_ok by lia. cbn [rbind].
  cbn [set_angle_target set_traj set_cs rs delete_event set_quadramp_acc set_quadramp_speed]. rewrite Gd. cbn [Z.add]. rewrite int_ok by lia. cbn [rbind]. eexists. split; [reflexivity|].
  cbn [set_distance_target set_angle_target set_traj set_cs rs delete_event set_quadramp_acc set_quadramp_speed]. rewrite Ga, Gd.
  unfold rest, axis_rest, sys_rest, bd_rest; sp; auto; cbn; try apply A; try apply D; try apply B1; try apply B2.
Qed.
Lemma rest_step r e : rest r -> idle e -> exists r', step r e = OK r' /\ rest r'.
Proof.
  intros R I. pose proof R as (S & M & A & D & B1 & B2 & Sc & St).
  destruct e as [c|m|l rr s|x y a| |w|a d| |w|imp track|a d| |n]; cbn [step]; try contradiction I.
  - eexists. split; [reflexivity|]. exact R.
  - destruct I as [-> ->]. unfold base_ctrl. destruct (rest_update _ S) as (sys & -> & Rs). cbn [rbind].
    assert (R1 : rest (set_rs r sys (motors r))) by (unfold rest; sp; auto; first [exact Rs|exact Rc|apply Rs|apply A|apply D|apply B1|apply B2]).
    assert (X : exists r2, match mode (set_rs r sys (motors r)) with SET_PWM => OK (set_rs r sys (motors r)) | _ => control_axes (set_rs r sys (motors r)) end = OK r2 /\ rest r2).
    { destruct (rest_axes _ R1) as (r2 & E2 & R2). destruct (mode _); eauto. }
    destruct X as (r2 & -> & (S2 & M2 & A2 & D2 & B3 & B4 & Sc2 & St2)). cbn [rbind]. unfold control_blocking.
    rewrite (proj1 (proj2 (proj2 A2))), (proj1 (proj2 (proj2 D2))). cbn [Z.abs]. rewrite !int_ok by lia. cbn [rbind]. eexists. split; [reflexivity|].
    apply bd_rest_manage in B3, B4. unfold rest; sp; auto; first [apply S2|apply A2|apply D2|apply B3|apply B4].
  - eexists. split; [reflexivity|]. exact R.
  - unfold trajectory_manager_manage. rewrite Sc. eexists. split; [reflexivity|]. exact R.
  - unfold trajectory_has_ended. destruct (has_flag w TRAJ_END_GOAL_REACHED && _); [eexists; split; [reflexivity|exact R]|].
    unfold trajectory_nearly_finished. rewrite St. destruct (has_flag w TRAJ_END_NEAR_GOAL); cbn [rbind].
    all: rewrite (bd_rest_get _ B1), (bd_rest_get _ B2); cbn [orb]; rewrite andb_false_r.
    all: destruct (rest_hardstop _ R) as (r1 & E1 & R1); destruct (has_flag w TRAJ_END_TIMER && _); [rewrite E1; cbn [rbind]; eauto|cbn [rbind]; eauto].
  - eexists. split; [reflexivity|]. unfold rest, bd_rest; cbn [bd_reset cpt err_thres cpt_thres angle_bd distance_bd set_bd]; sp; auto; first [apply S|apply A|apply D|apply B1|apply B2].
  - eexists. split; [reflexivity|]. exact R.
  - eexists. split; [reflexivity|]. exact R.
  - destruct I as [Ia Id]. eexists. split; [reflexivity|]. unfold rest, axis_rest; sp; auto; first [apply S|apply A|apply D|apply B1|apply B2|apply Ia|apply Id].
  - eexists. split; [reflexivity|]. exact R.
  - eexists. split; [reflexivity|]. exact R.
Qed.

(** C87. From power-up, as long as no order is given and the wheels do not turn, whatever the modes, polls, poses and gains: nothing fails,
    the motors get no power, no collision is reported, the goal is reached, and no movement is under way. *)
Theorem stays_at_rest gl gr w s imp track n es : gl 0%Z = Some 0%Z -> gr 0%Z = Some 0%Z -> Forall idle es ->
  exists r, run (robot_init gl gr w s imp track n) es = OK r /\ motors r = mkWheels 0 0 /\ ~ holds r Collision /\ holds r Goal /\
  state r = READY /\ scheduled r = false.
Proof.
  intros G1 G2 H. assert (R : rest (robot_init gl gr w s imp track n)).
  { unfold rest, axis_rest, sys_rest, bd_rest; sp; auto; try apply pid0_calm; cbn; lia. }
  assert (X : exists r, run (robot_init gl gr w s imp track n) es = OK r /\ rest r).
  { revert R. generalize (robot_init gl gr w s imp track n). induction H as [|e es He Hes IH]; intros r R; cbn [run]; [eauto|].
    destruct (rest_step _ _ R He) as (r1 & -> & R1). cbn [rbind]. now apply IH. }
  destruct X as (r & E & (S & M & A & D & (_ & B1 & C1) & (_ & B2 & C2) & Sc & St)). exists r. repeat split; auto.
  - cbn [holds]. unfold blocked. rewrite B1, B2. lia.
  - unfold ramp_done. now rewrite (proj1 A), (proj1 (proj2 A)).
  - unfold ramp_done. now rewrite (proj1 D), (proj1 (proj2 D)).
Qed.

(** The configured gains are met, and all the kinds of events. *)
Definition gains_case : cs_pid := mkCsPid (pid_set_gains ieee (pid_init ieee) (lit binary32 5 (-1)) (of_int ieee 0) (of_int ieee 30)) (of_int ieee 100).
Example rest_case : Forall idle [Set_mode ANGLE_DISTANCE; Gains gains_case gains_case; Control 0 0 ex_speeds; Poll 15; Manage; Odometry 300 400 1; Control 0 0 ex_speeds; Game_start; Time 200000000000; Poll 15].
Proof.
  assert (C : calm gains_case).
  { unfold calm. repeat split;
    match goal with |- is_finite_float ?x => assert (H : match x with B754_zero _ | B754_finite _ _ _ _ => true | _ => false end = true) by (vm_compute; reflexivity); destruct x; [exact I|discriminate|discriminate|exact I]
    | |- is_nonzero_finite ?x => assert (H : match x with B754_finite _ _ _ _ => true | _ => false end = true) by (vm_compute; reflexivity); destruct x; [discriminate..|exact I]
    | _ => exact I end. }
  repeat constructor; apply C.
Qed.
(** One metre ahead and half a metre to the left of a robot which looks along y. *)
Example rel_case : let r := set_pose ex_r 100 200 (PI / 2) in tgt (trajectory_goto_xy_rel r 1000 500) = Cart (-400) 1200.
Proof.
  intro r. pose proof (goto_xy_rel_target r 1000 500) as H. cbn [do_command] in H. assert (E : forall a b : robot, OK a = OK b -> a = b) by congruence. apply E in H. rewrite H. clear H. cbn [tgt trajectory_goto_xy set_traj].
  cbn [r set_pose pos_x pos_y pos_a]. rewrite cos_PI2, sin_PI2. f_equal; lra.
Qed.
Print Assumptions goto_xy_rel_target.
Print Assumptions goto_d_a_rel_target.
Print Assumptions stays_at_rest.
