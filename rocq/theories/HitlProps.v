(** C109, C110 and C111: the simulator and the master. *)
From Coq Require Import ZArith QArith Reals List Bool Lia Lra Psatz.
From Flocq Require Import Core.
From Verif Require Import CRes FloatModel PidSpec LieSpec PosModel PosSpec PosProps.
From Verif Require Import QuadModel QuadProps EncModel TrajModel TrajProofs OppModel OppSpec OppProofs OppProps HitlModel HitlSpec HitlProofs.
Import ListNotations.
Local Open Scope R_scope.

(** * C109 *)

(** An emulated motor board has the voltage of the last message for it, zero before. *)
Theorem hitl_motor own msgs : motor_voltage own msgs = or_else (last_for own msgs) 0.
Proof. apply (fold_last own 0). Qed.
(** An emulated servo board has the positions of the last message for it. *)
Theorem hitl_servo own msgs : servo_positions own msgs = or_else (last_for own msgs) (0, 0, 0, 0).
Proof. apply (fold_last own (0, 0, 0, 0)). Qed.

Lemma commands_app a b : commands (a ++ b) = commands a ++ commands b.
Proof. induction a as [|[m|] a IH]; cbn; [reflexivity|now rewrite IH|exact IH]. Qed.
Lemma board_app own a : forall b x, board_run own x (a ++ b) = try x := board_run own x a in board_run own x b.
Proof. induction a as [|e a IH]; intros b x; cbn [app board_run]; [reflexivity|]. destruct (board_step own x e); cbn [rbind]; [apply IH|reflexivity]. Qed.
Lemma dummy_ok a o : outs a = Some o -> Rabs (fst (servo o)) <= 40 -> Rabs (fst (pump o)) <= 1 ->
  dummy_simulation a = OK (mkActuator (Ztrunc (50e6 * fst (servo o)), Ztrunc (50e3 * fst (pump o))) (fst (solenoid o)) (Some o)).
Proof.
  intros O S P. unfold dummy_simulation, set_pressure. rewrite O. cbn [fst snd]. apply Rabs_le_inv in S, P.
  replace (fst (servo o) * 1000 * 50e3) with (50e6 * fst (servo o)) by lra. replace (fst (pump o) * 50e3) with (50e3 * fst (pump o)) by lra.
  assert (F : forall x, - 2000000000 <= x <= 2000000000 -> to_int32 x = OK (Ztrunc x)).
  { intros x [X1 X2]. unfold to_int32. cbv zeta. assert (T : (- 2000000000 <= Ztrunc x <= 2000000000)%Z).
    { rewrite <- (Ztrunc_IZR 2000000000), <- (Ztrunc_IZR (-2000000000)). split; apply Ztrunc_le; assumption. }
    replace ((- 2 ^ 31 <=? Ztrunc x) && (Ztrunc x <? 2 ^ 31))%Z with true; [reflexivity|]. symmetry. apply andb_true_intro. split; [apply Z.leb_le|apply Z.ltb_lt]; lia. }
  rewrite !F by lra. cbn [rbind]. unfold set_digital_input. cbn [pressure_pa outs]. reflexivity.
Qed.
Lemma board_outs own es : Forall ordinary es -> forall a ms, outs a = last_for own ms -> Forall ordinary (map Command ms) ->
  (last_for own ms <> None \/ commanded_first own es) -> exists a', board_run own a es = OK a' /\ outs a' = last_for own (ms ++ commands es).
Proof.
  induction 1 as [|e es O F IH]; intros a ms Ha Hm H; cbn [board_run commands].
  - exists a. rewrite app_nil_r. auto.
  - destruct e as [m|]; cbn [board_step rbind].
    + destruct (IH (actuator_command own a m) (ms ++ [m])) as (a' & E & Q).
      * rewrite last_snoc. unfold actuator_command. destruct (fst m =? own)%Z; [reflexivity|exact Ha].
      * rewrite map_app. apply Forall_app. split; [exact Hm|constructor; [exact O|constructor]].
      * rewrite last_snoc. destruct (Z.eqb_spec (fst m) own) as [_|N]; [left; discriminate|]. destruct H as [H|H]; [left; exact H|]. cbn [commanded_first] in H. destruct H as [H|H]; [contradiction|right; exact H].
      * exists a'. rewrite <- app_assoc in Q. auto.
    + destruct H as [H|[]]. destruct (last_for own ms) as [o|] eqn:L; [|contradiction].
      assert (B : Rabs (fst (servo o)) <= 40 /\ Rabs (fst (pump o)) <= 1).
      { unfold last_for in L. destruct (filter _ (rev ms)) as [|q l] eqn:Fq; [discriminate|]. injection L as <-.
        assert (I : In q ms). { apply in_rev. apply (proj1 (filter_In (fun m => (fst m =? own)%Z) q (rev ms))). rewrite Fq. now left. }
        rewrite Forall_forall in Hm. exact (Hm (Command q) (in_map Command ms q I)). }
      destruct B as [B1 B2]. rewrite (dummy_ok a o Ha B1 B2). cbn [rbind]. apply IH; [cbn [outs]; now rewrite L|exact Hm|left; rewrite L; discriminate].
Qed.
(** An emulated actuator board that is commanded before the first period holds the last command for it through any life; *)
Theorem hitl_actuator_partial own es : Forall ordinary es -> commanded_first own es ->
  exists a, board_run own actuator_init es = OK a /\ outs a = last_for own (commands es).
Proof. intros O C. destruct (board_outs own es O actuator_init [] eq_refl (Forall_nil _) (or_intror C)) as (a & E & H). exists a. auto. Qed.
(** and after a period it answers with what the last command gives. *)
Theorem hitl_feedback_partial own es o : Forall ordinary es -> commanded_first own es -> last_for own (commands es) = Some o ->
  exists a, board_run own actuator_init (es ++ [Period]) = OK a /\
    actuator_feedback a = (Ztrunc (50e6 * fst (servo o)), Ztrunc (50e3 * fst (pump o)), fst (solenoid o)).
Proof.
  intros O C L. destruct (hitl_actuator_partial own es O C) as (a & E & H). rewrite board_app, E. cbn [rbind board_run board_step]. rewrite L in H.
  assert (B : Rabs (fst (servo o)) <= 40 /\ Rabs (fst (pump o)) <= 1).
  { unfold last_for in L. destruct (filter _ (rev (commands es))) as [|q l] eqn:Fq; [discriminate|]. injection L as <-.
    assert (I : In q (commands es)). { apply in_rev. apply (proj1 (filter_In (fun m => (fst m =? own)%Z) q (rev (commands es)))). rewrite Fq. now left. }
    clear - O I. induction O as [|e es O F IH]; [destruct I|]. destruct e as [m|]; cbn [commands] in I; [destruct I as [<-|I]; [exact O|auto]|auto]. }
  destruct B as [B1 B2]. rewrite (dummy_ok a o H B1 B2). eexists. split; reflexivity.
Qed.
(** A period before any command for the board reads values that were never written. *)
Theorem hitl_actuator_refuted own msgs es : Forall (fun m => fst m <> own) msgs -> board_run own actuator_init (map Command msgs ++ Period :: es) = BAD.
Proof.
  assert (G : forall a, outs a = None -> Forall (fun m => fst m <> own) msgs -> board_run own a (map Command msgs ++ Period :: es) = BAD).
  { induction msgs as [|m msgs IH]; intros a N F; cbn [map app board_run board_step rbind].
    - unfold dummy_simulation. now rewrite N.
    - inversion F as [|? ? F1 F2]; subst. apply IH; [|exact F2]. unfold actuator_command. now rewrite (proj2 (Z.eqb_neq _ _) F1). }
  apply G. reflexivity.
Qed.
(** The force of a wheel is the voltage of its motor (the left one is mounted the other way), limited to -8 N; *)
Theorem hitl_force_partial left right : let '(fl, fr) := wheel_forces left right in
  (Rabs left <= 8 -> fl = - left) /\ (Rabs right <= 8 -> fr = right) /\ (8 < left -> fl = - 8) /\ (right < - 8 -> fr = - 8) /\ - 8 <= fl /\ - 8 <= fr.
Proof.
  unfold wheel_forces, clamp. cbv zeta.
  destruct (ltb_spec 8 (- left)), (ltb_spec 8 right), (ltb_spec (- left) (- (8))), (ltb_spec right (- (8)));
    (split; [intro A; apply Rabs_le_inv in A; lra|]); (split; [intro A; apply Rabs_le_inv in A; lra|]); lra.
Qed.
(** but there is no upper limit. With 12 V on both motors, as the voltage injector sends, the wheels push with 8 N backwards and 12 N forwards. *)
Theorem hitl_force_refuted left right : (8 < right -> snd (wheel_forces left right) = right /\ ~ limited 8 right (snd (wheel_forces left right))) /\
  (left < - 8 -> fst (wheel_forces left right) = - left /\ ~ limited 8 (- left) (fst (wheel_forces left right))) /\ wheel_forces 12 12 = (- 8, 12).
Proof.
  unfold wheel_forces, clamp, limited. cbv zeta. cbn [fst snd]. split; [|split].
  - intro H. destruct (ltb_spec 8 right); [|lra]. split; [reflexivity|]. intros (_ & L & _). specialize (L H). lra.
  - intro H. destruct (ltb_spec 8 (- left)); [|lra]. split; [reflexivity|]. intros (_ & L & _). specialize (L ltac:(lra)). lra.
  - destruct (ltb_spec 8 (- (12))); [lra|]. destruct (ltb_spec (- (12)) (- (8))); [|lra]. destruct (ltb_spec 8 12); [reflexivity|lra].
Qed.

(** * C110 *)

(** When the master has updated, its distance is how far the simulated robot went, and its angle is half the way of one wheel against the other. *)
Theorem hitl_odometry es w : world_run world_init (es ++ [Update]) = OK w ->
  Rabs (IZR (rs_get_distance (master w)) / external_encoder_ticks_per_mm - 1000 * gone dt (moves es)) < 2 / external_encoder_ticks_per_mm /\
  Rabs (IZR (rs_get_angle (master w)) / external_encoder_ticks_per_mm - 1000 * (size / 2) * turned dt (moves es)) < 2 / external_encoder_ticks_per_mm.
Proof.
  intro E. rewrite run_app in E. unfold rbind in E. destruct (world_run world_init es) as [w1|] eqn:E1; [|discriminate].
  pose proof (run_good es [] _ _ good_init E1) as G. cbn [app] in G. cbn [world_run] in E. unfold rbind in E. destruct (world_step w1 Update) as [w2|] eqn:E2; [|discriminate].
  injection E as <-. destruct (step_good _ _ _ _ G E2) as [_ U]. destruct (U eq_refl) as (D & A & _). rewrite D, A.
  destruct G as (_ & (_ & _ & T1 & T2) & _). set (p := published w1) in *. set (ms := moves es) in *.
  pose proof (quot_near (snd p - fst p)) as Q1. pose proof (quot_near (snd p + fst p)) as Q2. rewrite minus_IZR in Q1. rewrite plus_IZR in Q2. rewrite opp_IZR in T1.
  apply Rabs_def2 in T1, T2. apply Rabs_le_inv in Q1, Q2. unfold left_m, right_m, size in *. unfold external_encoder_ticks_per_mm.
  set (g := gone dt ms) in *. set (t := turned dt ms) in *. split; apply Rabs_def1; lra.
Qed.
(** The direction that the odometry of the master (C62: the angle times 2 / (track * ticks)) has turned by is 212/174 of the simulated one. *)
Theorem hitl_heading es w : world_run world_init (es ++ [Update]) = OK w ->
  Rabs (2 * IZR (rs_get_angle (master w)) / (external_track_mm * external_encoder_ticks_per_mm) - 212 / 174 * turned dt (moves es)) < 1 / 5000.
Proof.
  intro E. destruct (hitl_odometry es w E) as [_ A]. unfold external_encoder_ticks_per_mm, external_track_mm, size in *.
  set (a := IZR _) in *. set (t := turned dt (moves es)) in *. apply Rabs_def2 in A. replace (2 * a / (174 * 162)) with (a / 162 * (2 / 174)) by field. apply Rabs_def1; lra.
Qed.
(** With the odometry of C62, which reads the master's distance and angle at any times, the last time after the last update: the direction that it gives. *)
Theorem hitl_direction es w us p p' x y a : world_run world_init (es ++ [Update]) = OK w ->
  PosModel.rs_set _ p = true -> PosSpec.pose p x y a -> PosSpec.phys p external_track_mm external_encoder_ticks_per_mm -> PosModel.centrifugal_coef _ p = PidSpec.real 0 ->
  PosModel.use_ext _ p = true -> PosModel.prev_angle _ p = 0%Z -> Rabs a <= PI ->
  (forall us1 u us2 q, us = us1 ++ u :: us2 ->
     PosModel.run exact PosSpec.rcos PosSpec.rsin p (map (fun e => PosModel.Manage exact e (0, 0)%Z) us1) = OK q ->
     Rabs (2 * IZR (snd u - PosModel.prev_angle _ q) / (external_track_mm * external_encoder_ticks_per_mm)) <= 2 * PI) ->
  last us (0, 0)%Z = (rs_get_distance (master w), rs_get_angle (master w)) -> us <> [] ->
  PosModel.run exact PosSpec.rcos PosSpec.rsin p (map (fun e => PosModel.Manage exact e (0, 0)%Z) us) = OK p' ->
  exists x' y' a' h, PosSpec.pose p' x' y' a' /\ Rabs a' <= PI /\ LieSpec.same_angle a' (a + h) /\ Rabs (h - 212 / 174 * turned dt (moves es)) < 1 / 5000.
Proof.
  intros E Rs Ps Ph Co Ue Pv Ha Hu L N Rn. pose proof (hitl_heading es w E) as H.
  destruct (PosProps.odometry_direction us p p' x y a _ _ Rs Ps Ph Co ltac:(unfold external_track_mm; lra) ltac:(unfold external_encoder_ticks_per_mm; lra) Ue Ha Hu Rn) as (x' & y' & a' & P' & A' & S).
  exists x', y', a', (2 * IZR (rs_get_angle (master w)) / (external_track_mm * external_encoder_ticks_per_mm)). split; [exact P'|]. split; [exact A'|]. split; [|exact H].
  rewrite Pv, Z.sub_0_r in S. replace (last (map snd us) 0%Z) with (rs_get_angle (master w)) in S; [exact S|].
  transitivity (snd (last us (0, 0)%Z)); [now rewrite L|]. clear - N. induction us as [|u us IH]; [contradiction|]. destruct us as [|v us]; [reflexivity|]. apply IH. discriminate.
Qed.
(** So whenever the robot has turned by more than a hundredth, the direction of the master is wrong by more than a sixth of it. *)
Theorem hitl_heading_refuted es w : world_run world_init (es ++ [Update]) = OK w -> 1 / 100 <= Rabs (turned dt (moves es)) ->
  1 / 6 * Rabs (turned dt (moves es)) < Rabs (2 * IZR (rs_get_angle (master w)) / (external_track_mm * external_encoder_ticks_per_mm) - turned dt (moves es)).
Proof.
  intros E T. pose proof (hitl_heading es w E) as H. set (h := 2 * _ / _) in *. set (t := turned dt (moves es)) in *. apply Rabs_def2 in H.
  destruct (Rle_or_lt 0 t).
  - rewrite (Rabs_right t) in * by lra. rewrite Rabs_right by lra. lra.
  - rewrite (Rabs_left t) in * by lra. rewrite Rabs_left by lra. lra.
Qed.
(** As long as the robot stays within 6 km of way, nothing overflows on either side. *)
Theorem hitl_safe es : (forall a b, es = a ++ b -> Rabs (gone dt (moves a)) + Rabs (turned dt (moves a)) <= 6000) -> exists w, world_run world_init es = OK w.
Proof.
  intro H. assert (G : forall es w ms, good ms w -> (- 2 ^ 30 <= - fst (published w) <= 2 ^ 30)%Z -> (- 2 ^ 30 <= snd (published w) <= 2 ^ 30)%Z ->
    (- 2 ^ 30 <= p_distance (pext_prev (master w)) <= 2 ^ 30)%Z -> (- 2 ^ 30 <= p_angle (pext_prev (master w)) <= 2 ^ 30)%Z ->
    (forall a b, es = a ++ b -> Rabs (gone dt (ms ++ moves a)) + Rabs (turned dt (ms ++ moves a)) <= 6000) -> exists w', world_run w es = OK w').
  { clear es H. induction es as [|e es IH]; intros w ms Gd P1 P2 M1 M2 H; cbn [world_run]; [eauto|].
    assert (S : exists w', world_step w e = OK w' /\ (- 2 ^ 30 <= - fst (published w') <= 2 ^ 30)%Z /\ (- 2 ^ 30 <= snd (published w') <= 2 ^ 30)%Z /\
      (- 2 ^ 30 <= p_distance (pext_prev (master w')) <= 2 ^ 30)%Z /\ (- 2 ^ 30 <= p_angle (pext_prev (master w')) <= 2 ^ 30)%Z).
    { destruct e as [m|]; cbn [world_step].
      - destruct Gd as (W & _ & _). rewrite W, accumulate_snoc. pose proof (H [Move m] es eq_refl) as B. cbn [moves] in B.
        set (ms' := ms ++ [m]) in *. pose proof (Rabs_pos (gone dt ms')). pose proof (Rabs_pos (turned dt ms')).
        pose proof (Rle_abs (gone dt ms')). pose proof (Rle_abs (turned dt ms')). pose proof (Rle_abs (- gone dt ms')) as X1. pose proof (Rle_abs (- turned dt ms')) as X2. rewrite Rabs_Ropp in X1, X2.
        destruct (to_int32_ok (1000 * pulse_per_mm * left_m ms')) as (l & L & _ & L2).
        { unfold left_m, pulse_per_mm, size. change (IZR (2 ^ 30)) with 1073741824. apply Rabs_le. lra. }
        destruct (to_int32_ok (1000 * pulse_per_mm * right_m ms')) as (r & R0 & _ & R2).
        { unfold right_m, pulse_per_mm, size. change (IZR (2 ^ 30)) with 1073741824. apply Rabs_le. lra. }
        unfold publish_encoders, get_wheel_encoders. cbn [fst snd]. rewrite L, R0. cbn [rbind fst snd]. rewrite int_ok by lia. cbn [rbind].
        eexists. split; [reflexivity|]. cbn [published master fst snd]. rewrite Z.opp_involutive. auto.
      - destruct Gd as (W & T & V & K1 & K2). unfold rs_update. rewrite K1, K2, !EncProofs.s32_u32, (EncProofs.s32_id (fst (published w))), (EncProofs.s32_id (snd (published w))) by lia.
        unfold left_wheel_correction_factor, right_wheel_correction_factor, int32_of. set (p := published w) in *.
        replace ((- 2 ^ 31 <=? - fst p) && (- fst p <? 2 ^ 31))%Z with true by (symmetry; apply andb_true_intro; split; [apply Z.leb_le|apply Z.ltb_lt]; lia).
        replace ((- 2 ^ 31 <=? snd p) && (snd p <? 2 ^ 31))%Z with true by (symmetry; apply andb_true_intro; split; [apply Z.leb_le|apply Z.ltb_lt]; lia).
        cbn [some rbind]. unfold rs_get_polar_from_wheels. cbn [w_left w_right].
        destruct (Z.eq_dec (snd p + - fst p) (2 ^ 31)) as [Bad|Nb].
        { exfalso. assert (Hd := H [] (Update :: es) eq_refl). cbn [moves] in Hd. rewrite app_nil_r in Hd. destruct T as (_ & _ & T1 & T2). fold p in T1, T2.
          apply Rabs_def2 in T1, T2. unfold left_m, right_m, size in *. assert (Hs : IZR (snd p) + IZR (- fst p) = IZR (2 ^ 31)) by (rewrite <- plus_IZR; now rewrite Bad). change (IZR (2 ^ 31)) with 2147483648 in Hs.
          pose proof (Rle_abs (gone dt ms)). pose proof (Rabs_pos (turned dt ms)). lra. }
        destruct (Z.eq_dec (snd p - - fst p) (2 ^ 31)) as [Bad|Nb'].
        { exfalso. assert (Hd := H [] (Update :: es) eq_refl). cbn [moves] in Hd. rewrite app_nil_r in Hd. destruct T as (_ & _ & T1 & T2). fold p in T1, T2.
          apply Rabs_def2 in T1, T2. unfold left_m, right_m, size in *. assert (Hs : IZR (snd p) - IZR (- fst p) = IZR (2 ^ 31)) by (rewrite <- minus_IZR; now rewrite Bad). change (IZR (2 ^ 31)) with 2147483648 in Hs.
          pose proof (Rle_abs (turned dt ms)). pose proof (Rabs_pos (gone dt ms)). lra. }
        rewrite (int_ok (snd p + - fst p)), (int_ok (snd p - - fst p)) by lia. cbn [rbind p_angle p_distance]. rewrite V.
        set (qa := Z.quot (snd p - - fst p) 2). set (qd := Z.quot (snd p + - fst p) 2).
        assert (Qa : (- 2 ^ 30 <= qa < 2 ^ 30)%Z) by (unfold qa; Z.to_euclidean_division_equations; lia).
        assert (Qd : (- 2 ^ 30 <= qd < 2 ^ 30)%Z) by (unfold qd; Z.to_euclidean_division_equations; lia).
        rewrite (int_ok (qa - _)), (int_ok (qd - _)) by lia. cbn [rbind]. rewrite (int_ok (_ + (qa - _))), (int_ok (_ + (qd - _))) by lia. cbn [rbind].
        eexists. split; [reflexivity|]. cbn [published master pext_prev p_distance p_angle]. fold p. lia. }
    destruct S as (w' & S & B1 & B2 & B3 & B4). rewrite S. cbn [rbind]. destruct (step_good _ _ _ _ Gd S) as [G' _].
    apply (IH w' _ G' B1 B2 B3 B4). intros a b Hab. specialize (H (e :: a) b ltac:(now rewrite Hab)).
    replace (moves (e :: a)) with (moves [e] ++ moves a) in H by (rewrite <- moves_app; reflexivity). rewrite app_assoc in H. exact H. }
  apply (G es world_init [] good_init); cbn -[Z.pow]; try lia. exact H.
Qed.

(** * C111 *)

Lemma squares a b : 0 <= a * a + b * b.
Proof. pose proof (Rle_0_sqr a). pose proof (Rle_0_sqr b). unfold Rsqr in *. lra. Qed.
(** No message when the opponent is 1.5 m away or more. *)
Theorem hitl_beacon_far robot heading opp : 1500 <= gap (1000 * fst robot, 1000 * snd robot) (1000 * fst opp, 1000 * snd opp) -> seen_at robot heading opp = OK None.
Proof.
  intro H. unfold seen_at, beacon_message. cbv zeta. set (d := sqrt _). assert (D : gap (1000 * fst robot, 1000 * snd robot) (1000 * fst opp, 1000 * snd opp) = 1000 * d).
  { apply eq_sq; [apply gap_pos|pose proof (sqrt_pos ((fst opp - fst robot) * (fst opp - fst robot) + (snd opp - snd robot) * (snd opp - snd robot))); unfold d; lra|].
    rewrite gap_sq. cbn [fst snd]. replace (1000 * d * (1000 * d)) with (1000000 * (d * d)) by ring. unfold d. rewrite sqrt_sqrt by apply squares. ring. }
  destruct (ltb_spec d min_detection_distance) as [L|L]; [|reflexivity]. unfold min_detection_distance in L. lra.
Qed.
Lemma small u : 0 < u <= 0.4 -> u - u * u * u / 6 <= sin u <= u /\ 1 - u * u / 2 <= cos u <= 1 - u * u / 2 + u * u * u * u / 24.
Proof.
  intros [U1 U2]. pose proof PI_RGT_0 as P0. pose proof PI2_1 as P1. assert (1 < PI) by lra.
  destruct (sin_bound u 0 ltac:(lra) ltac:(lra)) as [S1 _]. destruct (cos_bound u 0 ltac:(lra) ltac:(lra)) as [C1 C2].
  pose proof (sin_lt_x u U1) as S2. unfold sin_approx, sin_term, cos_approx, cos_term in *. cbn -[pow] in S1, C1, C2. cbn [pow] in S1, C1, C2.
  split; [split; [|lra]|split]; lra.
Qed.
Lemma placed robot heading opp : let d := gap (1000 * fst robot, 1000 * snd robot) (1000 * fst opp, 1000 * snd opp) in let u := 40 / d in
  0 < d < 1500 -> exists e b, seen_at robot heading opp = OK (Some e) /\
    (1000 * fst opp, 1000 * snd opp) = (1000 * fst robot + d * cos b, 1000 * snd robot + d * sin b) /\
    e = (1000 * fst robot + 40 / tan u * cos (b + u), 1000 * snd robot + 40 / tan u * sin (b + u)).
Proof.
  cbv zeta. unfold seen_at, beacon_message. cbv zeta. set (dx := fst opp - fst robot). set (dy := snd opp - snd robot). set (d0 := sqrt (dx * dx + dy * dy)). set (d := gap _ _). intro H.
  assert (D : d = 1000 * d0).
  { apply eq_sq; [apply gap_pos|pose proof (sqrt_pos (dx * dx + dy * dy)); unfold d0; lra|]. unfold d. rewrite gap_sq. cbn [fst snd].
    replace (1000 * d0 * (1000 * d0)) with (1000000 * (d0 * d0)) by ring. unfold d0. rewrite sqrt_sqrt by apply squares. unfold dx, dy. ring. }
  destruct (ltb_spec d0 min_detection_distance) as [L|L]; unfold min_detection_distance in L; [|lra]. destruct (neq0_spec d0) as [N|N]; [|lra].
  unfold beacon_cb. cbn [rbind]. rewrite (surjective_pairing (beacon_cartesian_convert _ _ _)). unfold OppModel.opponent. cbn [sdistance sangle].
  destruct (get_angle_turn (atan2 dy dx - heading + angular_offset) (reflector_diameter / d0)) as (k & K). cbn [length start_angle]. rewrite K.
  eexists. exists (atan2 dy dx). split; [reflexivity|]. destruct (atan2_polar dx dy) as [P1 P2]. cbv zeta in P1, P2. fold d0 in P1, P2. rewrite D. split.
  - f_equal; [transitivity (1000 * fst robot + 1000 * dx); [unfold dx; ring|rewrite P1 at 1; ring]|transitivity (1000 * snd robot + 1000 * dy); [unfold dy; ring|rewrite P2 at 1; ring]].
  - unfold beacon_cartesian_convert. cbn [px py pa]. unfold reflector_diameter, reflector_radius, angular_offset.
    replace (0.08 / d0 / 2) with (40 / (1000 * d0)) by (replace 0.08 with (80 / 1000) by lra; field; lra). set (u := 40 / (1000 * d0)).
    replace (heading + (atan2 dy dx - heading + 0 + u + 2 * IZR k * PI)) with (atan2 dy dx + u + 2 * IZR k * PI) by ring. rewrite cos_period', sin_period'.
    replace (1000 * (0.04 / tan u)) with (40 / tan u) by (unfold Rdiv; lra). f_equal; ring.
Qed.
Lemma placed_gap (X Y d r b u : R) : let g := gap (X + r * cos (b + u), Y + r * sin (b + u)) (X + d * cos b, Y + d * sin b) in g * g = r * r + d * d - 2 * r * d * cos u.
Proof.
  cbv zeta. rewrite gap_sq. cbn [fst snd]. rewrite cos_plus, sin_plus. pose proof (sc b) as A. pose proof (sc u) as B.
  set (cb := cos b) in *. set (sb := sin b) in *. set (cu := cos u) in *. set (su := sin u) in *.
  transitivity (d * d * (sb * sb + cb * cb) - 2 * r * d * cu * (sb * sb + cb * cb) + r * r * ((sb * sb + cb * cb) * (su * su + cu * cu))); [ring|]. rewrite A, B. ring.
Qed.
(** From 10 cm to 1.5 m, the opponent is put within 41 mm of where it is, *)
Theorem hitl_beacon_partial robot heading opp : let c := (1000 * fst opp, 1000 * snd opp) in let d := gap (1000 * fst robot, 1000 * snd robot) c in
  100 <= d < 1500 -> exists e, seen_at robot heading opp = OK (Some e) /\ 38.9 <= gap e c <= 41.
Proof.
  cbv zeta. set (d := gap _ _). intro H. destruct (placed robot heading opp ltac:(fold d; lra)) as (e & b & E & C & Ee). fold d in C, Ee. exists e. split; [exact E|]. clearbody d.
  set (u := 40 / d) in *. set (r := 40 / tan u) in *.
  assert (U : 0 < u <= 0.4). { unfold u. split; [apply Rdiv_lt_0_compat; lra|]. apply (Rmult_le_reg_r d); [lra|]. unfold Rdiv. rewrite Rmult_assoc, Rinv_l by lra. lra. }
  assert (Du : d * u = 40) by (unfold u; field; lra). destruct (small u U) as [[S1 S2] [C1 C2]].
  set (s := sin u) in *. set (k := cos u) in *. assert (Sp : 0 < s) by nra. assert (Kp : 0 < k) by nra.
  assert (R0 : r * s = 40 * k) by (unfold r, tan; fold s k; field; split; lra).
  pose proof (sc u) as SK. fold s k in SK.
  pose proof (placed_gap (1000 * fst robot) (1000 * snd robot) d r b u) as G. cbv zeta in G. rewrite C, Ee. fold k in G.
  match type of G with ?y * _ = _ => change (38.9 <= y <= 41); set (g := y) in * end.
  assert (Gp : 0 <= g) by apply gap_pos.
  assert (Rp : 0 < r) by nra.
  split; apply le_sq; try lra.
  - rewrite G. replace (r * r + d * d - 2 * r * d * k) with ((r - d * k) * (r - d * k) + d * d * (1 - k * k)) by ring. replace (1 - k * k) with (s * s) by lra.
    assert (38.9 <= d * s). { apply (Rmult_le_reg_r u); [lra|]. replace (d * s * u) with (40 * s) by (rewrite <- Du; ring). nra. }
    pose proof (Rle_0_sqr (r - d * k)) as Q. unfold Rsqr in Q. replace (d * d * (s * s)) with ((d * s) * (d * s)) by ring. nra.
  - (* r <= d and d - r is small *)
    assert (Q0 : r <= d). { apply (Rmult_le_reg_r (s * u)); [nra|]. replace (r * (s * u)) with (40 * k * u) by (rewrite <- R0; ring). replace (d * (s * u)) with (40 * s) by (rewrite <- Du; ring).
      assert (k * u <= s). { assert (k * u <= (1 - u * u / 2 + u * u * u * u / 24) * u) by (apply Rmult_le_compat_r; lra). assert (0 <= u * u * u) by (apply Rmult_le_pos; nra). nra. } lra. }
    assert (Q1 : d - r <= 8.5). { apply (Rmult_le_reg_r (s * u)); [nra|]. replace ((d - r) * (s * u)) with (40 * (s - k * u)) by (transitivity (40 * s - 40 * k * u); [ring|rewrite <- R0; rewrite <- Du; ring]).
      assert (A : s - k * u <= u * u * u / 2) by nra. assert (B : u * (1 - u * u / 6) <= s) by nra. assert (B' : 0.97 * u <= s) by nra.
      assert (A' : u * u * u / 2 <= 0.2 * (u * u)) by nra. assert (0.97 * (u * u) <= s * u) by nra. lra. }
    rewrite G. replace (r * r + d * d - 2 * r * d * k) with ((d - r) * (d - r) + 2 * (r * d) * (1 - k)) by ring.
    assert (A : 2 * (r * d) * (1 - k) <= 1600). { assert (r * d <= d * d) by nra. assert (0 <= 1 - k <= u * u / 2) by nra. assert (0 <= r * d) by nra.
      assert (2 * (r * d) * (1 - k) <= 2 * (d * d) * (u * u / 2)) by nra. replace (2 * (d * d) * (u * u / 2)) with ((d * u) * (d * u)) in * by field. rewrite Du in *. lra. }
    nra.
Qed.
(** but never nearer than 38.9 mm: the emulator gives the angle of the middle of the reflector where the master expects the angle of its edge. *)
Theorem hitl_beacon_refuted robot heading opp e : let c := (1000 * fst opp, 1000 * snd opp) in
  100 <= gap (1000 * fst robot, 1000 * snd robot) c -> seen_at robot heading opp = OK (Some e) -> 38.9 <= gap e c.
Proof.
  cbv zeta. intros H E. destruct (Rlt_or_le (gap (1000 * fst robot, 1000 * snd robot) (1000 * fst opp, 1000 * snd opp)) 1500) as [L|L].
  - destruct (hitl_beacon_partial robot heading opp (conj H L)) as (e' & E' & G). rewrite E in E'. injection E' as <-. exact (proj1 G).
  - rewrite (hitl_beacon_far robot heading opp L) in E. discriminate.
Qed.

(** * The table *)

(** The cups of the two halves of the table mirror each other, whatever the half that is given; *)
Theorem hitl_cups_mirrored half c : In c (create_cups half) -> exists d, In d (create_cups half) /\ mirrored c d.
Proof.
  unfold create_cups. intro I. apply in_app_or in I as [I|I].
  - exists (symmetry c). split; [apply in_or_app; right; now apply in_map|]. unfold mirrored, symmetry. cbn [cup_color cup_x cup_y].
    split; [destruct (cup_color c); discriminate|]. split; [ring|reflexivity].
  - apply in_map_iff in I as (d & <- & I). exists d. split; [apply in_or_app; now left|]. unfold mirrored, symmetry. cbn [cup_color cup_x cup_y].
    split; [destruct (cup_color d); discriminate|]. split; [ring|reflexivity].
Qed.
(** all are on the table. *)
Theorem hitl_cups_on_table : Forall (fun c => on_table (cup_x c, cup_y c)) (create_cups half_cups).
Proof. repeat constructor; discriminate. Qed.
(** Of the three borders inside the table, the middle one is at 1850 m. *)
Theorem hitl_borders_refuted : ~ Forall on_table inner_borders.
Proof. intro H. apply Forall_inv_tail, Forall_inv_tail, Forall_inv in H. destruct H as [_ [_ H]]. cbn [snd] in H. exact (H eq_refl). Qed.

(** * The cases are met *)
Example hitl_messages : last_for 43 [(42%Z, 1); (43%Z, 2); (42%Z, 3)] = Some 2 /\ motor_voltage 43 [(42%Z, 1); (43%Z, 2); (42%Z, 3)] = 2.
Proof. split; reflexivity. Qed.
Example hitl_board : let o := mkOutputs (1, 0) (true, false) (0.001, 0) in let es := [Command (45%Z, o); Command (46%Z, o); Period; Period] in
  Forall ordinary es /\ commanded_first 46 es /\ last_for 46 (commands es) = Some o.
Proof.
  cbv zeta. split; [|split; [right; left; reflexivity|reflexivity]].
  do 2 (apply Forall_cons; [cbn [ordinary snd fst servo pump]; split; apply Rabs_le; lra|]). repeat (apply Forall_cons; [exact I|]). apply Forall_nil.
Qed.
(** A turn of one radian in place in one period. *)
Example hitl_turn : exists w, world_run world_init ([Move (mkMotion 0 0 0 100)] ++ [Update]) = OK w /\ turned dt (moves [Move (mkMotion 0 0 0 100)]) = 1.
Proof.
  assert (T : turned dt [mkMotion 0 0 0 100] = 1) by (unfold turned, dt; cbn; lra). assert (G : gone dt [mkMotion 0 0 0 100] = 0) by (unfold gone, forward, dt; cbn; lra).
  destruct (hitl_safe ([Move (mkMotion 0 0 0 100)] ++ [Update])) as (w & E).
  - intros a b Hab. cbn [app] in Hab. assert (N : moves a = [] \/ moves a = [mkMotion 0 0 0 100]).
    { destruct a as [|x a]; [now left|]. injection Hab as <- Hab. destruct a as [|y a]; [now right|]. injection Hab as <- Hab. destruct a; [now right|discriminate]. }
    destruct N as [-> | ->]; [unfold gone, turned; cbn [fold_right]; rewrite Rabs_R0; lra|]. rewrite T, G, Rabs_R0, Rabs_R1. lra.
  - exists w. split; [exact E|exact T].
Qed.
Example hitl_near : let d := gap (1000 * fst (0.2, 1), 1000 * snd (0.2, 1)) (1000 * fst (1.2, 1), 1000 * snd (1.2, 1)) in 100 <= d < 1500.
Proof.
  cbv zeta. replace (gap _ _) with 1000; [lra|]. apply eq_sq; [lra|apply gap_pos|]. rewrite gap_sq. cbn [fst snd]. lra.
Qed.

Print Assumptions hitl_motor.
Print Assumptions hitl_servo.
Print Assumptions hitl_actuator_partial.
Print Assumptions hitl_feedback_partial.
Print Assumptions hitl_actuator_refuted.
Print Assumptions hitl_force_partial.
Print Assumptions hitl_force_refuted.
Print Assumptions hitl_odometry.
Print Assumptions hitl_heading.
Print Assumptions hitl_direction.
Print Assumptions hitl_heading_refuted.
Print Assumptions hitl_safe.
Print Assumptions hitl_beacon_far.
Print Assumptions hitl_beacon_partial.
Print Assumptions hitl_beacon_refuted.
Print Assumptions hitl_cups_mirrored.
Print Assumptions hitl_cups_on_table.
Print Assumptions hitl_borders_refuted.
