(** Theorems on the actuator board. *)
From Coq Require Import ZArith Reals List Bool Lia Lra.
From Flocq Require Import Core.
From Verif Require Import CBase CRes QuadModel QuadProps ActModel ActSpec ActProofs.
Import ListNotations.
Local Open Scope Z_scope.

(** ** The safety timer *)
(** Powered or allowed to move: less than 500 ms ago (5000 ticks) the board was carrying out an order addressed to it. *)
Theorem powered_recent_order rnd me evs s : run rnd me (boot rnd) evs = OK s -> power (brd s) = true \/ is_allowed_to_move (brd s) = true ->
  exists pre post s0, evs = pre ++ post /\ run rnd me (boot rnd) pre = OK s0 /\ busy s0 /\ ticks post < 5000.
Proof.
  intros H P. destruct (inv_all _ _ _ _ H) as (E & T & C). destruct (C P) as [TM|B].
  - destruct (safety_timer (brd s)) as [n|]; [|congruence]. destruct (T n eq_refl) as (L & pre & post & s0 & A1 & A2 & A3 & A4). exists pre, post, s0. repeat split; auto. change SAFETY_TIMEOUT with 5000 in *. lia.
  - exists evs, [], s. rewrite app_nil_r. repeat split; auto.
Qed.
(** ... and it was one addressed to this board: a board is busy only with such an order. *)
Theorem busy_order rnd me : forall evs s, run rnd me (boot rnd) evs = OK s -> busy s -> exists c, In (Order c) evs /\ node_id c = me.
Proof.
  intros evs. induction evs as [|e evs IH] using rev_ind; intros s H B; [cbn in H; injection H as <-; now destruct B|].
  apply run_snoc in H as (s1 & H1 & H2). destruct (todo s1) as [|o r] eqn:TD.
  - destruct e as [c| | |]; cbn [step] in H2; rewrite ?TD in H2; try (injection H2 as <-; unfold busy in B; cbn in B; rewrite ?TD in B; now destruct B).
    + injection H2 as <-. exists c. split; [apply in_or_app; right; now left|]. unfold busy, handler in B. cbn [todo] in B. destruct (Z.eqb_spec (node_id c) me); auto. now destruct B.
    + dob H2. injection H2 as <-. now destruct B.
  - destruct (IH _ H1) as (c & I & N); [unfold busy; rewrite TD; discriminate|]. exists c. split; auto. apply in_or_app. now left.
Qed.
(** 500 ms without an order: unpowered, and not allowed to move. *)
Theorem unpowered_after_timeout rnd me evs s later s' : run rnd me (boot rnd) evs = OK s -> ~ busy s ->
  run rnd me s later = OK s' -> no_order me later -> 5000 <= ticks later -> power (brd s') = false /\ is_allowed_to_move (brd s') = false.
Proof.
  intros H B R N L. destruct (inv_all _ _ _ _ H) as (E & T & C). destruct (idle_run _ _ _ _ _ B N R) as (_ & A1 & A2). destruct (safety_timer (brd s)) as [n|] eqn:TM.
  - destruct (T n eq_refl) as (LN & _). change SAFETY_TIMEOUT with 5000 in *. apply (A2 n); auto; lia.
  - apply A1; [destruct (power (brd s)) eqn:P; auto|destruct (is_allowed_to_move (brd s)) eqn:P; auto]; (destruct C as [X|X]; [auto|now destruct X|now destruct B]).
Qed.
(** Not allowed to move: one round of the servo thread later (and the end of the current one) no pulse is applied. *)
Theorem servos_released rnd me evs s later s' : run rnd me (boot rnd) evs = OK s -> ~ busy s -> is_allowed_to_move (brd s) = false ->
  run rnd me s later = OK s' -> no_order me later -> (7 <= servo_steps later)%nat -> servo_pulse s' 0 = 0 /\ servo_pulse s' 1 = 0.
Proof. intros H B A R N L. eapply released; eauto. split; [|split; auto]. eapply shape_run; eauto. apply shape_boot. Qed.
(** An order carried out between two ticks powers the board for the next 500 ms, whatever happens then. *)
Theorem order_powers rnd me evs s c during s1 later s' : run rnd me (boot rnd) evs = OK s -> ~ busy s -> node_id c = me ->
  run rnd me s (Order c :: during) = OK s1 -> ticks during = 0 -> (forall c', ~ In (Order c') during) -> ~ busy s1 ->
  run rnd me s1 later = OK s' -> ticks later < 5000 -> power (brd s') = true /\ is_allowed_to_move (brd s') = true.
Proof.
  intros H B N R T NO B1 R2 L. cbn [run step] in R. assert (TD : todo s = []) by (unfold busy in B; destruct (todo s); auto; now destruct B). rewrite TD in R. cbn [rbind] in R.
  assert (A : armed SAFETY_TIMEOUT s1).
  { refine (finish rnd me during _ s1 T NO B1 _ R _ _ _); cbn [todo].
    - apply ends_handler.
    - unfold handler. rewrite N, Z.eqb_refl. cbn [negb]. destruct (traj0 c) as ((? & ?) & ?), (traj1 c) as ((? & ?) & ?). discriminate.
    - left. unfold handler. rewrite N, Z.eqb_refl. cbn [negb]. destruct (traj0 c) as ((? & ?) & ?), (traj1 c) as ((? & ?) & ?). cbn; auto 10.
    - left. unfold handler. rewrite N, Z.eqb_refl. cbn [negb]. destruct (traj0 c) as ((? & ?) & ?), (traj1 c) as ((? & ?) & ?). cbn; auto 10. }
  destruct (armed_run rnd me later SAFETY_TIMEOUT s1 s' ltac:(lia) A L R2) as (P & Q & _). auto.
Qed.

(** ** Outputs *)
Lemma rnd_range rnd (f : float) c : rounding rnd -> 0 <= c <= 2 ^ 24 -> f <> NaN -> (let x := clamp f in 0 <= rnd (x * IZR c) <= IZR c)%R.
Proof.
  intros (M & I) C NF. cbn zeta. assert (X : (0 <= clamp f <= 1)%R).
  { destruct f as [|[|]|x]; cbn; try lra; try congruence. split; [apply Rmax_l|]. apply Rmax_lub; [lra|apply Rmin_l]. }
  assert (IC : (0 <= IZR c)%R) by (apply IZR_le; lia). rewrite <- (I 0) at 1 by lia. rewrite <- (I c) at 3 by lia. split; apply M; nra.
Qed.
Lemma fgt_spec x c : fgt (Fin x) c = true <-> (IZR c < x)%R. Proof. cbn. unfold ltb. destruct (Rlt_dec _ _); split; intros; congruence || lra. Qed.
Lemma flt_spec x c : flt (Fin x) c = true <-> (x < IZR c)%R. Proof. cbn. unfold ltb. destruct (Rlt_dec _ _); split; intros; congruence || lra. Qed.
Lemma clamp_code f : f <> NaN -> (let g := if flt f 0 then Fin 0 else f in if fgt g 1 then Fin 1 else g) = Fin (clamp f).
Proof.
  destruct f as [|[|]|x]; cbn [clamp]; intro N; try congruence; cbn zeta.
  - cbn [flt]. destruct (fgt (Fin 0) 1) eqn:E; auto. apply fgt_spec in E. lra.
  - reflexivity.
  - destruct (flt (Fin x) 0) eqn:E1.
    + apply flt_spec in E1. destruct (fgt (Fin 0) 1) eqn:E2; [apply fgt_spec in E2; lra|]. f_equal. rewrite Rmin_right, Rmax_left; lra.
    + assert (0 <= x)%R. { destruct (Rle_lt_dec 0 x); auto. apply (flt_spec x 0) in r. congruence. } destruct (fgt (Fin x) 1) eqn:E2.
      * apply fgt_spec in E2. f_equal. rewrite Rmin_left, Rmax_right; lra.
      * assert (x <= 1)%R. { destruct (Rle_lt_dec x 1); auto. apply (fgt_spec x 1) in r. congruence. } f_equal. rewrite Rmin_right, Rmax_right; lra.
Qed.
Lemma clamp_code' f : f <> NaN -> (if fgt f 1 then Fin 1 else if flt f 0 then Fin 0 else f) = Fin (clamp f).
Proof.
  destruct f as [|[|]|x]; cbn [clamp]; intro N; try congruence; auto.
  destruct (fgt (Fin x) 1) eqn:E2.
  - apply fgt_spec in E2. f_equal. rewrite Rmin_left, Rmax_right; lra.
  - assert (x <= 1)%R. { destruct (Rle_lt_dec x 1); auto. apply (fgt_spec x 1) in r. congruence. } destruct (flt (Fin x) 0) eqn:E1.
    + apply flt_spec in E1. f_equal. rewrite Rmin_right, Rmax_left; lra.
    + assert (0 <= x)%R. { destruct (Rle_lt_dec 0 x); auto. apply (flt_spec x 0) in r. congruence. } f_equal. rewrite Rmin_right, Rmax_right; lra.
Qed.
Lemma scale_ok rnd f c : rounding rnd -> 0 <= c <= 2 ^ 24 -> f <> NaN -> scale_u32 rnd (Fin (clamp f)) c = OK (Ztrunc (rnd (clamp f * IZR c)%R)) /\ 0 <= Ztrunc (rnd (clamp f * IZR c)%R) <= c.
Proof.
  intros R C N. pose proof (rnd_range rnd f c R C N) as (A & B). cbn zeta in *.
  assert (Q : 0 <= Ztrunc (rnd (clamp f * IZR c)%R) <= c).
  { rewrite Ztrunc_floor by auto. split; [apply Zfloor_lub; auto|]. apply le_IZR. eapply Rle_trans; [apply Zfloor_lb|auto]. }
  split; auto. unfold scale_u32. replace (_ && _) with true; auto. symmetry. apply andb_true_iff. split; [apply Z.leb_le|apply Z.ltb_lt]; lia.
Qed.
(** The pulse of a pump is the clamped fraction of the period (500), and the other pump, the servomotors, the solenoids and the power are left alone. *)
Theorem pump_pulse_value rnd me evs s i d : rounding rnd -> run rnd me (boot rnd) evs = OK s -> (i < 2)%nat -> d <> NaN -> exists b', pump_set_pwm rnd i d (brd s) = OK b' /\
  let s' := mkSys b' (todo s) (pc s) in
  pump_pulse s' i = Ztrunc (rnd (clamp d * 500)%R) /\ 0 <= pump_pulse s' i <= 500 /\ pump_pulse s' (1 - i) = pump_pulse s (1 - i) /\ tim1 b' = tim1 (brd s) /\ servos b' = servos (brd s) /\
  solenoid0 b' = solenoid0 (brd s) /\ solenoid1 b' = solenoid1 (brd s) /\ power b' = power (brd s).
Proof.
  intros R RUN I N. destruct (shape_run _ _ _ _ _ (shape_boot rnd) RUN) as (_ & _ & L16 & L17 & _). destruct (scale_ok rnd d PWM_PERIOD R ltac:(unfold PWM_PERIOD; lia) N) as (E & Q). unfold pump_set_pwm. pose proof (clamp_code d N) as CC. cbn zeta in CC |- *. rewrite CC. rewrite E. cbn [rbind].
  destruct (tim16 (brd s)) as [|x16 t16] eqn:T16; [discriminate|]. destruct (tim17 (brd s)) as [|x17 t17] eqn:T17; [discriminate|].
  destruct i as [|[|]]; [| |lia]; eexists; (split; [reflexivity|]); unfold pump_pulse; cbn; rewrite ?T16, ?T17; change (IZR PWM_PERIOD) with 500%R in *; repeat split; auto; apply Q.
Qed.
(** More asked is more given; 0 is off, 1 is the whole period. *)
Theorem pump_monotone rnd d d' : rounding rnd -> (clamp d <= clamp d')%R -> Ztrunc (rnd (clamp d * 500)%R) <= Ztrunc (rnd (clamp d' * 500)%R).
Proof. intros (M & _) L. apply Ztrunc_le, M. lra. Qed.
Theorem pump_extremes rnd : rounding rnd -> Ztrunc (rnd (clamp (Fin 0) * 500)%R) = 0 /\ Ztrunc (rnd (clamp (Fin 1) * 500)%R) = 500.
Proof.
  intros (_ & I). cbn [clamp]. rewrite Rmin_right, Rmax_left, Rmult_0_l by lra. rewrite Rmin_right, Rmax_right by lra. rewrite (I 0), Rmult_1_l, (I 500) by lia. now rewrite !Ztrunc_IZR.
Qed.
(** The position kept for a servomotor is the one asked, clamped; the other one, and every output, is left alone. *)
Theorem servo_set_value rnd i p v a b : length (servos b) = 2%nat -> (i < 2)%nat -> p <> NaN -> exists b', servo_set rnd i p v a b = OK b' /\
  option_map setpoint (nth_error (servos b') i) = Some (Fin (clamp p)) /\ nth_error (servos b') (1 - i) = nth_error (servos b) (1 - i) /\
  tim1 b' = tim1 b /\ tim16 b' = tim16 b /\ tim17 b' = tim17 b /\ power b' = power b /\ is_allowed_to_move b' = is_allowed_to_move b.
Proof.
  intros L I N. unfold servo_set. pose proof (clamp_code p N) as CC. cbn zeta in CC |- *. rewrite CC. destruct (servos b) as [|s0 [|s1 [|]]]; try discriminate.
  destruct i as [|[|]]; [| |lia]; (eexists; split; [reflexivity|]); cbn; auto 10.
Qed.
(** The target given to the ramp lies within the period, grows with the position, and reaches both ends. *)
Theorem servo_target rnd p : rounding rnd -> p <> NaN -> duty_cycle rnd p = OK (Ztrunc (rnd (clamp p * 20000)%R)) /\ 0 <= Ztrunc (rnd (clamp p * 20000)%R) <= 20000.
Proof. intros R N. unfold duty_cycle. rewrite (clamp_code' p N). apply scale_ok; auto. unfold SERVO_PWM_PERIOD; lia. Qed.

(** In every run the pulses of the pumps stay within the period and the positions kept within 0 .. 1 (or not a number). *)
Definition in_range (b : board) : Prop := 0 <= nth 0 (tim16 b) 0 <= 500 /\ 0 <= nth 0 (tim17 b) 0 <= 500 /\
  forall i s, nth_error (servos b) i = Some s -> setpoint s = NaN \/ exists x, setpoint s = Fin x /\ (0 <= x <= 1)%R.
Lemma clamp_range f : (0 <= clamp f <= 1)%R.
Proof. destruct f as [|[|]|x]; cbn; try lra. split; [apply Rmax_l|]. apply Rmax_lub; [lra|apply Rmin_l]. Qed.
Lemma in_range_exec rnd o b b' : rounding rnd -> in_range b -> exec rnd o b = OK b' -> in_range b'.
Proof.
  intros R (A & B & C) H. destruct o; cbn [exec] in H; try (injection H as <-; repeat split; auto; fail).
  - unfold servo_set in H. dob H. destruct (put _ _ _) as [l|] eqn:P; cbn [rbind] in H; [|discriminate]. injection H as <-. split; [exact A|]. split; [exact B|]. cbn. intros j s J.
    unfold put in P. destruct (_ <? _)%nat eqn:LT; [|discriminate]. injection P as <-. rewrite upd_nth, LT in J. destruct (Nat.eqb i j); cbn [andb] in J; [|eauto]. injection J as <-. cbn [setpoint].
    assert (DF : pos = NaN \/ pos <> NaN) by (destruct pos; auto; right; discriminate). destruct DF as [->|NF]; [now left|]. right. exists (clamp pos). split; [|apply clamp_range]. exact (clamp_code pos NF).
  - unfold pump_set_pwm in H. assert (DF : d = NaN \/ d <> NaN) by (destruct d; auto; right; discriminate). destruct DF as [->|NF]; [cbn in H; discriminate|].
    pose proof (clamp_code d NF) as CC. cbn zeta in CC, H. rewrite CC in H. destruct (scale_ok rnd d PWM_PERIOD R ltac:(unfold PWM_PERIOD; lia) NF) as (E & Q). rewrite E in H. cbn [rbind] in H. set (w := Ztrunc _) in *. unfold pwm_set_pulsewidth, PWM_PERIOD in *.
    destruct i as [|[|]].
    + destruct (put _ _ _) as [l|] eqn:P; cbn [rbind] in H; [|discriminate]. injection H as <-. unfold in_range. cbn [tim16 tim17 servos set_tim16]. rewrite (nth_put _ _ _ _ _ P). cbn. auto.
    + destruct (put _ _ _) as [l|] eqn:P; cbn [rbind] in H; [|discriminate]. injection H as <-. unfold in_range. cbn [tim16 tim17 servos set_tim17]. rewrite (nth_put _ _ _ _ _ P). cbn. auto.
    + injection H as <-. repeat split; auto; apply A || apply B.
  - injection H as <-. destruct i as [|[|]]; repeat split; auto; apply A || apply B.
  - injection H as <-. repeat split; auto; apply A || apply B.
  - injection H as <-. repeat split; auto; apply A || apply B.
  - injection H as <-. repeat split; auto; apply A || apply B.
Qed.
Theorem outputs_in_range rnd me evs s : rounding rnd -> run rnd me (boot rnd) evs = OK s -> 0 <= pump_pulse s 0 <= 500 /\ 0 <= pump_pulse s 1 <= 500 /\
  forall i sv, nth_error (servos (brd s)) i = Some sv -> setpoint sv = NaN \/ exists x, setpoint sv = Fin x /\ (0 <= x <= 1)%R.
Proof.
  intros R. change (run rnd me (boot rnd) evs = OK s -> in_range (brd s)). revert s. induction evs as [|e evs IH] using rev_ind; intros s H.
  - cbn in H. injection H as <-. repeat split; cbn; try lia. intros [|[|i]] sv J; cbn in J; try (injection J as <-); try (right; exists 0%R; split; [reflexivity|lra]). destruct i; discriminate.
  - apply run_snoc in H as (s1 & H1 & H2). specialize (IH _ H1). destruct e as [c| | |]; cbn [step] in H2.
    + destruct (todo s1); injection H2 as <-; auto.
    + destruct (todo s1) as [|o r]; [injection H2 as <-; auto|]. destruct (_ && _); [injection H2 as <-; auto|]. destruct (exec rnd o (brd s1)) as [b|] eqn:X; cbn [rbind] in H2; [|discriminate]. injection H2 as <-. eapply in_range_exec; eauto.
    + destruct (servo_step rnd (pc s1) (brd s1)) as [b|] eqn:X; cbn [rbind] in H2; [|discriminate]. injection H2 as <-. cbn [brd]. destruct IH as (A & B & C). pose proof (servo_ctl _ _ _ _ X) as (_ & _ & _ & T1 & T2 & _). unfold in_range. rewrite T1, T2.
      split; [exact A|]. split; [exact B|]. intros i sv J. unfold servo_step in X. destruct (pc s1 mod 3)%nat as [|[|]].
      * destruct (get _ _) as [s0|] eqn:G; cbn [rbind] in X; [|discriminate]. dob X. destruct (quadramp_do_filter _ _) as [[q o]|]; cbn [rbind] in X; [|discriminate]. unfold put in X. destruct (_ <? _)%nat eqn:LT; cbn [rbind] in X; [|discriminate]. injection X as <-. cbn [servos set_pulse set_servos] in J. change (fst (Nat.divmod (pc s1) 2 0 2)) with (pc s1 / 3)%nat in J.
        rewrite upd_nth, LT in J. destruct (Nat.eqb _ i); cbn [andb] in J; [|eauto]. injection J as <-. cbn [setpoint]. unfold get, some in G. destruct (nth_error (servos (brd s1)) (pc s1 / 3)) eqn:NE; [|discriminate]. injection G as <-. eauto.
      * injection X as <-. destruct (negb _); eauto.
      * dob X. dob X. injection X as <-. eauto.
    + injection H2 as <-. cbn [brd]. unfold tick. destruct (safety_timer (brd s1)) as [n|]; auto. destruct (n <=? 1); auto.
Qed.
(** A pump asked for something which is not a number: undefined behaviour; and a servomotor. *)
Theorem nan_refuted rnd : (forall i b, pump_set_pwm rnd i NaN b = BAD) /\ (forall b b' v a, servo_set rnd 0 NaN v a b = OK b' -> servo_step rnd 0 b' = BAD).
Proof.
  split; [reflexivity|]. intros b b' v a H. unfold servo_set in H. cbn [flt fgt] in H. dob H. unfold put in H. destruct (_ <? _)%nat eqn:LT; cbn [rbind] in H; [|discriminate]. injection H as <-.
  unfold servo_step. cbn [Nat.div Nat.modulo Nat.divmod snd fst Nat.sub servos set_servos]. unfold get. rewrite upd_nth, LT. reflexivity.
Qed.

(** ** Channels enabled *)
Theorem ccer_enables mask k : 1 <= k <= 4 -> Z.testbit (ccer mask) (4 * (k - 1)) = Z.testbit mask (k - 1).
Proof.
  intro K. assert (T : forall n, 0 <= n -> (Z.land mask (Z.shiftl 1 n) =? 0) = negb (Z.testbit mask n)).
  { intros n N. rewrite Z.shiftl_1_l. rewrite Z.land_comm. destruct (Z.testbit mask n) eqn:E; cbn [negb].
    - apply Z.eqb_neq. intro Q. assert (X : Z.testbit (Z.land (2 ^ n) mask) n = true) by (rewrite Z.land_spec, E, Z.pow2_bits_true by auto; reflexivity). rewrite Q, Z.bits_0 in X. discriminate.
    - apply Z.eqb_eq, Z.bits_inj'. intros m M. rewrite Z.land_spec, Z.bits_0, Z.pow2_bits_eqb by auto. destruct (Z.eqb_spec n m); [subst; now rewrite E|reflexivity]. }
  unfold ccer. rewrite !T by lia. rewrite !negb_involutive.
  assert (k = 1 \/ k = 2 \/ k = 3 \/ k = 4) as [->|[->|[->| ->]]] by lia; cbn [Z.sub Z.mul Z.add Z.opp Z.pos_sub Pos.pred_double Pos.mul];
    destruct (Z.testbit mask 0), (Z.testbit mask 1), (Z.testbit mask 2), (Z.testbit mask 3); reflexivity.
Qed.
(** The timer of the servomotors of the actuator board drives its channels 2 and 3; the one of the IO board neither of them. *)
Theorem actuator_channels k : 1 <= k <= 4 -> (Z.testbit (ccer actuator_servo_mask) (4 * (k - 1)) = true <-> k = 2 \/ k = 3).
Proof. intro K. rewrite ccer_enables by auto. assert (k = 1 \/ k = 2 \/ k = 3 \/ k = 4) as [->|[->|[->| ->]]] by lia; cbn; split; intros; try discriminate; auto; lia. Qed.
Theorem canio_channels_refuted : Z.testbit (ccer canio_servo_mask) (4 * (2 - 1)) = false /\ Z.testbit (ccer canio_servo_mask) (4 * (3 - 1)) = false.
Proof. split; reflexivity. Qed.
(** The IO board asks its ramp for pulses up to fifty periods. *)
Theorem canio_pulse_refuted rnd : rounding rnd -> ~ (forall p, p <> NaN -> exists w, canio_duty_cycle rnd p = OK w /\ w <= SERVO_PWM_PERIOD).
Proof.
  intros R H. destruct (H (Fin 1)) as (w & E & L); [discriminate|]. unfold canio_duty_cycle in E. rewrite (clamp_code' (Fin 1)) in E by discriminate.
  destruct (scale_ok rnd (Fin 1) SERVO_PWM_TIMER_FREQ R ltac:(unfold SERVO_PWM_TIMER_FREQ; lia) ltac:(discriminate)) as (E' & _). rewrite E' in E. injection E as <-. revert L. cbn [clamp].
  rewrite Rmin_right, Rmax_right, Rmult_1_l by lra. destruct R as (_ & I). rewrite I by (unfold SERVO_PWM_TIMER_FREQ; lia). rewrite Ztrunc_IZR. unfold SERVO_PWM_TIMER_FREQ, SERVO_PWM_PERIOD. lia.
Qed.

(** ** A whole order *)
Lemma pump_exec rnd b i d : rounding rnd -> length (tim16 b) = 4%nat -> length (tim17 b) = 4%nat -> (i < 2)%nat -> d <> NaN -> exists w l, pump_set_pwm rnd i d b = OK (match i with 0%nat => set_tim16 b l | _ => set_tim17 b l end) /\ length l = 4%nat /\
  nth 0 l 0 = w /\ w = Ztrunc (rnd (clamp d * 500)%R).
Proof.
  intros R L16 L17 I N. destruct (scale_ok rnd d PWM_PERIOD R ltac:(unfold PWM_PERIOD; lia) N) as (E & Q). unfold pump_set_pwm. pose proof (clamp_code d N) as CC. cbn zeta in CC |- *. rewrite CC. rewrite E. cbn [rbind].
  destruct (tim16 b) as [|x16 t16] eqn:T16; [discriminate|]. destruct (tim17 b) as [|x17 t17] eqn:T17; [discriminate|].
  destruct i as [|[|]]; [| |lia]; do 2 eexists; (split; [reflexivity|]); cbn in *; auto.
Qed.
Lemma handled6 rnd me s c s0 s1 : rounding rnd -> shape s -> servos (brd s) = [s0; s1] -> todo s = [] -> pc s = 0%nat -> node_id c = me -> proper c -> exists s',
  run rnd me s (Order c :: repeat Handle 6) = OK s' /\ todo s' = safety_timer_restart /\ pc s' = 0%nat /\ shape s' /\
  servos (brd s') = [retarget rnd (traj0 c) s0; retarget rnd (traj1 c) s1] /\ tim1 (brd s') = tim1 (brd s) /\
  pump_pulse s' 0 = Ztrunc (rnd (clamp (pump0 c) * 500)%R) /\ pump_pulse s' 1 = Ztrunc (rnd (clamp (pump1 c) * 500)%R) /\ solenoid0 (brd s') = sol0 c /\ solenoid1 (brd s') = sol1 c /\
  power (brd s') = power (brd s) /\ is_allowed_to_move (brd s') = is_allowed_to_move (brd s) /\ safety_timer (brd s') = safety_timer (brd s).
Proof.
  intros R (_ & L1 & L16 & L17 & _) SV TD PC NI (N0 & N1 & N2 & N3). destruct s as [b t p]. cbn [brd todo pc] in *. subst t p. destruct (traj0 c) as ((p0 & v0) & a0) eqn:T0, (traj1 c) as ((p1 & v1) & a1) eqn:T1. cbn [fst] in *.
  pose proof (clamp_code p0 N2) as C0. pose proof (clamp_code p1 N3) as C1. cbn zeta in C0, C1.
  cbn [repeat run step todo rbind brd pc]. unfold handler. rewrite NI, Z.eqb_refl, T0, T1. cbn [negb app safety_timer_restart run step todo takes_mutex andb Nat.eqb exec brd pc].
  unfold servo_set at 1. cbn zeta. rewrite C0, SV. cbn [get nth_error some rbind put length Nat.ltb Nat.leb upd set_servos run step todo brd pc takes_mutex andb Nat.eqb negb exec].
  unfold servo_set at 1. cbn zeta. rewrite C1. cbn [servos get nth_error some rbind put length Nat.ltb Nat.leb upd set_servos run step todo brd pc takes_mutex andb Nat.eqb negb exec].
  match goal with |- context [pump_set_pwm rnd 0 (pump0 c) ?B] => destruct (pump_exec rnd B 0 (pump0 c) R L16 L17 ltac:(lia) N0) as (w & l & -> & LL & NW & W) end.
  cbn [rbind set_tim16 tim1 tim16 tim17 servos run step todo brd pc takes_mutex andb Nat.eqb negb exec solenoid0 solenoid1 power is_allowed_to_move safety_timer pulsewidth].
  match goal with |- context [pump_set_pwm rnd 1 (pump1 c) ?B] => destruct (pump_exec rnd B 1 (pump1 c) R LL L17 ltac:(lia) N1) as (w' & l' & -> & LL' & NW' & W') end.
  cbn [rbind set_tim17 tim1 tim16 tim17 servos run step todo brd pc takes_mutex andb Nat.eqb negb exec solenoid0 solenoid1 power is_allowed_to_move safety_timer pulsewidth pump_set_solenoid set_solenoid0 set_solenoid1].
  eexists. split; [reflexivity|]. unfold shape, pump_pulse. cbn. repeat split; auto; try congruence. lia.
Qed.
Theorem order_effect rnd me evs s c s0 s1 : rounding rnd -> run rnd me (boot rnd) evs = OK s -> servos (brd s) = [s0; s1] -> ~ busy s -> pc s = 0%nat -> node_id c = me -> proper c -> exists s',
  run rnd me s (Order c :: repeat Handle 9) = OK s' /\ ~ busy s' /\ pc s' = 0%nat /\
  servos (brd s') = [retarget rnd (traj0 c) s0; retarget rnd (traj1 c) s1] /\ tim1 (brd s') = tim1 (brd s) /\
  pump_pulse s' 0 = Ztrunc (rnd (clamp (pump0 c) * 500)%R) /\ pump_pulse s' 1 = Ztrunc (rnd (clamp (pump1 c) * 500)%R) /\ solenoid0 (brd s') = sol0 c /\ solenoid1 (brd s') = sol1 c /\
  power (brd s') = true /\ is_allowed_to_move (brd s') = true.
Proof.
  intros R RUN SV B PC NI P. assert (TD : todo s = []) by (unfold busy in B; destruct (todo s); auto; now destruct B).
  destruct (handled6 rnd me s c s0 s1 R (shape_run _ _ _ _ _ (shape_boot rnd) RUN) SV TD PC NI P) as (s' & A1 & A2 & A3 & A4 & A5 & A6 & A7 & A8 & A9 & A10 & _).
  change (Order c :: repeat Handle 9) with ((Order c :: repeat Handle 6) ++ repeat Handle 3). rewrite run_app, A1. cbn [rbind]. destruct s' as [b t p]. cbn [brd todo pc] in *. subst t p.
  cbn [repeat run step todo safety_timer_restart takes_mutex andb exec rbind set_power set_allowed set_timer brd pc]. eexists. split; [reflexivity|]. unfold busy, pump_pulse in *. cbn in *. repeat split; auto.
Qed.
(** An order may have no effect: when the timer of the previous one fires just before it is restarted. *)
Lemma ticks_only rnd me : forall k s n, safety_timer (brd s) = Some n -> Z.of_nat k < n -> exists s', run rnd me s (repeat Tick k) = OK s' /\ safety_timer (brd s') = Some (n - Z.of_nat k) /\
  todo s' = todo s /\ pc s' = pc s /\ servos (brd s') = servos (brd s).
Proof.
  induction k as [|k IH]; intros s n TM L; [exists s; cbn; rewrite Z.sub_0_r; auto|]. cbn [repeat run step rbind]. unfold tick. rewrite TM. destruct (Z.leb_spec n 1); [lia|].
  destruct (IH (mkSys (set_timer (brd s) (Some (n - 1))) (todo s) (pc s)) (n - 1) eq_refl ltac:(lia)) as (s' & A1 & A2 & A3 & A4 & A5). exists s'. cbn in A3, A4, A5. repeat split; auto. rewrite A2. f_equal. lia.
Qed.
Lemma rounding_id : rounding (fun x => x). Proof. split; auto. Qed.
Definition ex_cmd (p : float) (a : R) : command := mkCmd 42 (Inf false) (Fin 0) true false (p, 1%R, a) (Fin 0, 1%R, 1%R).
Lemma ex_proper p a : p <> NaN -> proper (ex_cmd p a). Proof. repeat split; cbn; congruence. Qed.
Theorem order_race_refuted : ~ (forall rnd me evs s c during s1, rounding rnd -> run rnd me (boot rnd) evs = OK s -> ~ busy s -> node_id c = me ->
  run rnd me s (Order c :: during) = OK s1 -> ticks during <= 1 -> (forall c', ~ In (Order c') during) -> ~ busy s1 -> power (brd s1) = true \/ is_allowed_to_move (brd s1) = true).
Proof.
  intro H. set (rnd := fun x : R => x) in *. set (c := ex_cmd (Fin 0) 1). pose proof (ex_proper (Fin 0) 1 ltac:(discriminate)) as P. fold c in P.
  destruct (handled6 rnd 42 (boot rnd) c _ _ rounding_id (shape_boot rnd) eq_refl eq_refl eq_refl eq_refl P) as ([b t p] & A1 & A2 & A3 & A4 & A5 & _). cbn [brd todo pc] in *. subst t p.
  set (e1 := (Order c :: repeat Handle 6) ++ repeat Handle 3).
  assert (R1 : run rnd 42 (boot rnd) e1 = OK (mkSys (set_timer (set_allowed (set_power b true) true) (Some SAFETY_TIMEOUT)) [] 0)) by (unfold e1; rewrite run_app, A1; reflexivity).
  destruct (ticks_only rnd 42 (Z.to_nat 4999) (mkSys (set_timer (set_allowed (set_power b true) true) (Some SAFETY_TIMEOUT)) [] 0) SAFETY_TIMEOUT eq_refl ltac:(rewrite Z2Nat.id; reflexivity || lia)) as (s2 & R2 & T2 & D2 & P2 & S2).
  rewrite Z2Nat.id in T2 by lia. change (SAFETY_TIMEOUT - 4999) with 1 in T2. cbn [brd todo pc servos set_timer set_allowed set_power] in D2, P2, S2. rewrite A5 in S2.
  assert (RR : run rnd 42 (boot rnd) (e1 ++ repeat Tick (Z.to_nat 4999)) = OK s2) by (rewrite run_app, R1; exact R2).
  destruct (handled6 rnd 42 s2 c _ _ rounding_id (shape_run _ _ _ _ _ (shape_boot rnd) RR) S2 D2 P2 eq_refl P) as ([b3 t3 p3] & B1 & B2 & B3 & _ & _ & _ & _ & _ & _ & _ & _ & _ & B4). cbn [brd todo pc] in *. subst t3 p3. rewrite T2 in B4.
  set (during := repeat Handle 6 ++ [Handle; Handle; Tick; Handle]).
  assert (R3 : exists s4, run rnd 42 s2 (Order c :: during) = OK s4 /\ todo s4 = [] /\ power (brd s4) = false /\ is_allowed_to_move (brd s4) = false).
  { change (Order c :: during) with ((Order c :: repeat Handle 6) ++ [Handle; Handle; Tick; Handle]). rewrite run_app, B1. unfold rbind at 1. cbn [run step todo safety_timer_restart takes_mutex andb exec rbind set_power set_allowed brd pc tick safety_timer]. unfold tick. change (safety_timer (set_allowed (set_power b3 true) true)) with (safety_timer b3). rewrite B4. cbn. eexists. split; [reflexivity|]. cbn. auto. }
  destruct R3 as (s4 & R3 & D4 & P4 & Q4). assert (X : power (brd s4) = true \/ is_allowed_to_move (brd s4) = true).
  { apply (H rnd 42 (e1 ++ repeat Tick (Z.to_nat 4999)) s2 c during s4); auto.
    all: try apply rounding_id; try (unfold busy; rewrite ?D2, ?D4; congruence); try (unfold ticks; cbn; lia).
    intros c' I. cbn in I. intuition discriminate. }
  rewrite P4, Q4 in X. destruct X; discriminate.
Qed.

(** The pulse of a servomotor can leave the period: the ramp overshoots below zero and the result is taken as unsigned. *)
Lemma quad_still a v : quadramp_do_filter (mkQ a a v v 0 0 0) 0 = OK (mkQ a a v v 0 0 0, 0).
Proof. unfold quadramp_do_filter. cbn [previous_out var_2nd_ord_pos var_2nd_ord_neg var_1st_ord_pos var_1st_ord_neg previous_var]. rewrite Rminus_0_r, Rabs_R0. unfold ltb. destruct (Rlt_dec 0 2); [reflexivity|lra]. Qed.
Definition second : servo_state := mkServo (Fin 0) (mkQ 10000 10000 10000 10000 0 0 0).
Definition ex_rnd : R -> R := fun x => x.
Lemma duty_zero : duty_cycle ex_rnd (Fin 0) = OK 0.
Proof. destruct (servo_target ex_rnd (Fin 0) rounding_id ltac:(discriminate)) as (-> & _). unfold ex_rnd. cbn [clamp]. rewrite Rmin_right, Rmax_left, Rmult_0_l by lra. now rewrite (Ztrunc_IZR 0). Qed.
Lemma one_round b p q q' d o x y z w : duty_cycle ex_rnd (Fin p) = OK d -> 0 <= d < 2 ^ 31 -> quadramp_do_filter q d = OK (q', o) -> servos b = [mkServo (Fin p) q; second] -> tim1 b = [x; y; z; w] -> is_allowed_to_move b = true ->
  exists b', run ex_rnd 42 (mkSys b [] 0) (repeat Servo 6) = OK (mkSys b' [] 0) /\ servos b' = [mkServo (Fin p) q'; second] /\ tim1 b' = [x; u32 o; 0; w] /\ is_allowed_to_move b' = true.
Proof.
  intros D DR Q S T A.
  set (b1 := set_pulse (set_servos b [mkServo (Fin p) q'; second]) (u32 o)). set (b2 := set_tim1 b1 [x; u32 o; z; w]). set (b3 := set_pulse (set_servos b2 [mkServo (Fin p) q'; second]) (u32 0)). set (b4 := set_tim1 b3 [x; u32 o; 0; w]).
  assert (E1 : servo_step ex_rnd 0 b = OK b1).
  { unfold servo_step. change (0 / 3)%nat with 0%nat. change (0 mod 3)%nat with 0%nat. cbn iota. rewrite S. cbn [get nth_error some rbind setpoint filter]. rewrite D. cbn [rbind]. unfold s32. rewrite sN_id by (lia || (cbn; lia)). rewrite Q. reflexivity. }
  assert (E2 : servo_step ex_rnd 1 b1 = OK b1) by (unfold servo_step; change (1 mod 3)%nat with 1%nat; cbn iota; change (is_allowed_to_move b1) with (is_allowed_to_move b); rewrite A; reflexivity).
  assert (E3 : servo_step ex_rnd 2 b1 = OK b2).
  { unfold servo_step. change (2 mod 3)%nat with 2%nat. change (2 / 3)%nat with 0%nat. cbn iota. cbn [get pwm_channels nth_error some rbind]. change (tim1 b1) with (tim1 b). rewrite T. reflexivity. }
  assert (E4 : servo_step ex_rnd 3 b2 = OK b3).
  { unfold servo_step. change (3 / 3)%nat with 1%nat. change (3 mod 3)%nat with 0%nat. cbn iota. change (servos b2) with [mkServo (Fin p) q'; second]. cbn [get nth_error some rbind setpoint filter second]. rewrite duty_zero. cbn [rbind]. change (s32 0) with 0. rewrite quad_still. reflexivity. }
  assert (E5 : servo_step ex_rnd 4 b3 = OK b3) by (unfold servo_step; change (4 mod 3)%nat with 1%nat; cbn iota; change (is_allowed_to_move b3) with (is_allowed_to_move b); rewrite A; reflexivity).
  assert (E6 : servo_step ex_rnd 5 b3 = OK b4) by reflexivity.
  assert (RS : forall b b' k l, servo_step ex_rnd k b = OK b' -> run ex_rnd 42 (mkSys b [] k) (Servo :: l) = run ex_rnd 42 (mkSys b' [] (Nat.modulo (Datatypes.S k) 6)) l) by (intros ? ? ? ? E; cbn [run step brd pc todo]; rewrite E; reflexivity).
  exists b4. split; [|auto]. cbn [repeat]. rewrite (RS _ _ _ _ E1). change (1 mod 6)%nat with 1%nat. rewrite (RS _ _ _ _ E2). change (2 mod 6)%nat with 2%nat. rewrite (RS _ _ _ _ E3). change (3 mod 6)%nat with 3%nat.
  rewrite (RS _ _ _ _ E4). change (4 mod 6)%nat with 4%nat. rewrite (RS _ _ _ _ E5). change (5 mod 6)%nat with 5%nat. rewrite (RS _ _ _ _ E6). reflexivity.
Qed.
Lemma duty_120 : duty_cycle ex_rnd (Fin (6 / 1000)) = OK 120.
Proof.
  destruct (servo_target ex_rnd (Fin (6 / 1000)) rounding_id ltac:(discriminate)) as (-> & _). unfold ex_rnd. cbn [clamp]. rewrite Rmin_right, Rmax_right by lra. replace (6 / 1000 * 20000)%R with (IZR 120) by lra. now rewrite Ztrunc_IZR.
Qed.
Lemma go_1 : quadramp_do_filter (mkQ 10000 10000 10000 10000 0 0 0) 120 = OK (mkQ 10000 10000 10000 10000 120 120 120, 120).
Proof.
  unfold quadramp_do_filter; cbn [var_2nd_ord_pos var_2nd_ord_neg var_1st_ord_pos var_1st_ord_neg previous_var previous_out previous_in]. rewrite <- minus_IZR. cbn [Z.sub Z.opp Z.add].
  destruct (ltb_spec (Rabs 120) 2) as [HH|_]; [exfalso; revert HH; rewrite Rabs_right by lra; lra|]. rewrite to_int32_IZR by lia. cbn [rbind Z.ltb Z.compare andb negb].
  destruct (neq0_spec (- (10000))%R); [|lra]. cbn [andb negb].
  match goal with |- context [sqrt ?x] => assert (SB : (5200 <= sqrt x <= 5300)%R) by (apply sqrt_bounds; lra); generalize dependent (sqrt x); intros s SB end.
  unfold reach_pos, reach_neg. decide_cmp. reflexivity.
Qed.
Lemma go_2 : quadramp_do_filter (mkQ 10000 10000 10000 10000 120 120 120) 120 = OK (mkQ 10000 10000 10000 10000 0 120 120, 120).
Proof.
  unfold quadramp_do_filter; cbn [var_2nd_ord_pos var_2nd_ord_neg var_1st_ord_pos var_1st_ord_neg previous_var previous_out previous_in]. replace (120 - 120)%R with 0%R by lra.
  destruct (ltb_spec (Rabs 0) 2) as [HH|HH]; [reflexivity|]. rewrite Rabs_R0 in HH. lra.
Qed.
Lemma retarget_ex p a sv : (0 <= p <= 1)%R -> retarget ex_rnd (Fin p, 1%R, a) sv = mkServo (Fin p) (mkQ (a * 10000) (a * 10000) 10000 10000 (previous_var (filter sv)) (previous_out (filter sv)) (previous_in (filter sv))).
Proof.
  intro P. unfold retarget, set_quadramp_coefficients, quadramp_set_2nd_order_vars, quadramp_set_1st_order_vars, ex_rnd, SERVO_PWM_RAMP_SCALE. cbn. rewrite Rmin_right, Rmax_right by lra. rewrite Rmult_1_l. reflexivity.
Qed.
Theorem servo_pulse_refuted : ~ (forall rnd me evs s i, rounding rnd -> run rnd me (boot rnd) evs = OK s -> (i < 2)%nat -> 0 <= servo_pulse s i <= SERVO_PWM_PERIOD).
Proof.
  intro HYP. set (c1 := ex_cmd (Fin (6 / 1000)) 1). set (c2 := ex_cmd (Fin 0) (1 / 1000)).
  assert (RD : rounding ex_rnd) by apply rounding_id.
  destruct (order_effect ex_rnd 42 [] (boot ex_rnd) c1 _ _ RD eq_refl eq_refl (fun q => q eq_refl) eq_refl eq_refl (ex_proper (Fin _) _ (fun q => eq_ind (Fin _) (fun f => match f with Fin _ => True | _ => False end) I NaN q))) as ([b1 t1 p1] & R1 & D1 & P1 & S1 & T1 & _ & _ & _ & _ & _ & A1).
  assert (t1 = []) by (unfold busy in D1; cbn in D1; clear - D1; destruct t1; [reflexivity|exfalso; apply D1; discriminate]). cbn [brd pc] in *. subst t1 p1. cbn [c1 ex_cmd traj0 traj1] in S1. rewrite !retarget_ex in S1 by lra. cbn [filter previous_var previous_out previous_in set_quadramp_coefficients quadramp_set_2nd_order_vars quadramp_set_1st_order_vars quadramp_init] in S1. rewrite Rmult_1_l in S1.
  destruct (one_round b1 _ _ _ 120 _ _ _ _ _ duty_120 ltac:(lia) go_1 S1 T1 A1) as (b2 & R2 & S2 & T2 & A2).
  destruct (one_round b2 _ _ _ 120 _ _ _ _ _ duty_120 ltac:(lia) go_2 S2 T2 A2) as (b3 & R3 & S3 & T3 & A3).
  set (e3 := (Order c1 :: repeat Handle 9) ++ repeat Servo 6 ++ repeat Servo 6).
  assert (RUN3 : run ex_rnd 42 (boot ex_rnd) e3 = OK (mkSys b3 [] 0)) by (unfold e3; rewrite run_app, R1; cbn [rbind]; rewrite run_app, R2; exact R3).
  destruct (order_effect ex_rnd 42 e3 (mkSys b3 [] 0) c2 _ _ RD RUN3 S3 (fun q => q eq_refl) eq_refl eq_refl (ex_proper (Fin _) _ (fun q => eq_ind (Fin _) (fun f => match f with Fin _ => True | _ => False end) I NaN q))) as ([b4 t4 p4] & R4 & D4 & P4 & S4 & T4 & _ & _ & _ & _ & _ & A4).
  assert (t4 = []) by (unfold busy in D4; cbn in D4; clear - D4; destruct t4; [reflexivity|exfalso; apply D4; discriminate]). cbn [brd pc] in *. subst t4 p4. rewrite T3 in T4. cbn [c2 ex_cmd traj0 traj1] in S4. rewrite !retarget_ex in S4 by lra. cbn [filter second previous_var previous_out previous_in] in S4. rewrite Rmult_1_l in S4. replace (1 / 1000 * 10000)%R with 10%R in S4 by lra.
  destruct (one_round b4 _ _ _ 0 _ _ _ _ _ duty_zero ltac:(lia) ex_1 S4 T4 A4) as (b5 & R5 & S5 & T5 & A5).
  destruct (one_round b5 _ _ _ 0 _ _ _ _ _ duty_zero ltac:(lia) ex_2 S5 T5 A5) as (b6 & R6 & S6 & T6 & A6).
  destruct (one_round b6 _ _ _ 0 _ _ _ _ _ duty_zero ltac:(lia) ex_3 S6 T6 A6) as (b7 & R7 & S7 & T7 & A7).
  destruct (one_round b7 _ _ _ 0 _ _ _ _ _ duty_zero ltac:(lia) ex_4 S7 T7 A7) as (b8 & R8 & S8 & T8 & A8).
  destruct (one_round b8 _ _ _ 0 _ _ _ _ _ duty_zero ltac:(lia) ex_5 S8 T8 A8) as (b9 & R9 & S9 & T9 & A9).
  assert (RUN9 : run ex_rnd 42 (boot ex_rnd) (e3 ++ (Order c2 :: repeat Handle 9) ++ repeat Servo 6 ++ repeat Servo 6 ++ repeat Servo 6 ++ repeat Servo 6 ++ repeat Servo 6) = OK (mkSys b9 [] 0)).
  { rewrite run_app, RUN3. unfold rbind at 1. rewrite run_app, R4. unfold rbind at 1. rewrite run_app, R5. unfold rbind at 1. rewrite run_app, R6. unfold rbind at 1. rewrite run_app, R7. unfold rbind at 1. rewrite run_app, R8. unfold rbind at 1. exact R9. }
  specialize (HYP ex_rnd 42 _ _ 0%nat RD RUN9 ltac:(lia)). unfold servo_pulse in HYP. cbn [brd] in HYP. rewrite T9 in HYP. cbn in HYP. unfold SERVO_PWM_PERIOD in HYP. lia.
Qed.

Print Assumptions powered_recent_order.
Print Assumptions busy_order.
Print Assumptions unpowered_after_timeout.
Print Assumptions servos_released.
Print Assumptions order_powers.
Print Assumptions order_effect.
Print Assumptions order_race_refuted.
Print Assumptions pump_pulse_value.
Print Assumptions pump_monotone.
Print Assumptions pump_extremes.
Print Assumptions servo_set_value.
Print Assumptions servo_target.
Print Assumptions outputs_in_range.
Print Assumptions nan_refuted.
Print Assumptions servo_pulse_refuted.
Print Assumptions ccer_enables.
Print Assumptions actuator_channels.
Print Assumptions canio_channels_refuted.
Print Assumptions canio_pulse_refuted.
