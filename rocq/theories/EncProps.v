(** Theorems about the encoders, the motor feedback, the stream divider, blocking detection and wheel/polar
    conversion (C31, C32, C38, C39, C40). *)
From Coq Require Import ZArith List Bool QArith Lia ZifyBool Qfield.
From Verif Require Import CBase CRes EncModel EncSpec EncProofs.
Import ListNotations.
Local Open Scope Z_scope.
Ltac Zify.zify_post_hook ::= Z.to_euclidean_division_equations.

(** ** C40: wheel counters *)
(** Whatever the path of the wheel, if it moves by less than 2^15 ticks between two readings and stays in the range of
    an int32_t, the value returned is the true displacement since the initialisation, plus the timer's first reading. *)
Theorem wheel_follows x0 xs : xs <> [] -> slow (2 ^ 15) x0 xs ->
  within (- 2 ^ 31 - shows x0) (2 ^ 31 - 1 - shows x0) (map (fun x => x - x0) xs) ->
  exists w, encoder_reads (encoder_init (shows x0)) (map shows xs) 0 = OK (w, shows x0 + (last_pos x0 xs - x0)).
Proof.
  intros N S W. eexists. unfold encoder_init. rewrite encoder_reads_spec; [|exact S|].
  - destruct xs; [contradiction|]. reflexivity.
  - unfold within in *. rewrite Forall_forall in *. intros z H. apply in_map_iff in H as (y & <- & H).
    specialize (W (y - x0) ltac:(apply in_map_iff; eauto)). lia.
Qed.
(** The timer is reset before its first reading (encoder.c:34, 41): then the value is the displacement itself. *)
Theorem wheel_displacement x0 xs : shows x0 = 0 -> xs <> [] -> slow (2 ^ 15) x0 xs ->
  within (- 2 ^ 31) (2 ^ 31 - 1) (map (fun x => x - x0) xs) ->
  exists w, encoder_reads (encoder_init 0) (map shows xs) 0 = OK (w, last_pos x0 xs - x0).
Proof.
  intros Z N S W. destruct (wheel_follows x0 xs N S) as [w H]; [now rewrite Z, !Z.sub_0_r|]. rewrite Z in H. eauto.
Qed.
(** Several wraps in both directions. *)
Example wheel_follows_ex : slow (2 ^ 15) 65000 [90000; 120000; 131072; 100000; 70000; 40000; 10000; -20000] /\
  encoder_reads (encoder_init (shows 65000)) (map shows [90000; 120000; 131072; 100000; 70000; 40000; 10000; -20000]) 0
  = OK (mkWheel (shows (-20000)) (-20000), -20000).
Proof. split; [cbn; lia|]. vm_compute. reflexivity. Qed.
(** The bound is the best one: half a turn of the counter, in either direction, can be seen with the wrong sign. *)
Theorem wheel_half_range_refuted : exists x y, Z.abs (y - x) <= 2 ^ 15 /\ encoder_tick_diff (shows x) (shows y) <> y - x.
Proof. exists 0, 32768. split; vm_compute; congruence. Qed.
(** More than 2^31 ticks overflow a signed integer. *)
Theorem wheel_overflow_refuted : exists w raw, 0 <= raw < 65536 /\ 0 <= w_prev w < 65536 /\ encoder_get w raw = BAD.
Proof. exists (mkWheel 0 (2 ^ 31 - 1)), 1. vm_compute. repeat split; congruence. Qed.

(** ** C31: motor feedback *)
Lemma inject_pos z : 0 < z -> ~ (inject_Z z == 0)%Q.
Proof. unfold Qeq. cbn. lia. Qed.
Definition turns (e : encoder_s) (ticks : Z) : Q :=
  (inject_Z ticks * (inject_Z (transmission_p e) / inject_Z (transmission_q e)) / inject_Z (ticks_per_rev e))%Q.

(** Bounded axis: the accumulator grows by the true displacement and the position by that displacement times the gear
    factor, as long as the encoder moves by less than 2^15 ticks between samples (and the accumulator does not leave the
    range of an int32_t). *)
Theorem feedback_bounded xs : forall x0 f inputs,
  previous (primary f) = shows x0 -> map in_primary inputs = map shows xs -> slow (2 ^ 15) x0 xs ->
  0 < transmission_q (primary f) -> 0 < ticks_per_rev (primary f) ->
  within (- 2 ^ 31) (2 ^ 31 - 1) (map (fun x => accumulator (primary f) + (x - x0)) xs) ->
  exists f', feedback_run PRIMARY_BOUNDED f inputs = OK f' /\
    accumulator (primary f') = accumulator (primary f) + (last_pos x0 xs - x0) /\
    (xs <> [] -> (position (output f') == turns (primary f) (accumulator (primary f)) + turns (primary f) (last_pos x0 xs - x0))%Q) /\
    secondary f' = secondary f.
Proof.
  induction xs as [|y xs IH]; intros x0 f inputs E M S Q T W; destruct inputs as [|i inputs]; try discriminate; cbn [feedback_run last_pos].
  - exists f. repeat split; [lia|congruence].
  - injection M as M1 M2. destruct S as [S1 S2]. inversion W as [|? ? W1 W2]; subst.
    cbn [feedback_compute]. unfold accumulate_bounded, compute_delta_accumulator_bounded.
    rewrite M1, E, s16_diff by exact S1. cbv zeta. rewrite int_ok by lia. cbn [rbind].
    set (f1 := mkFb _ _ _).
    assert (P1 : primary f1 = enc_set (primary f) (accumulator (primary f) + (y - x0)) (shows y)) by reflexivity.
    destruct (IH y f1 inputs) as (f' & R & A & P & SE); rewrite ?P1; auto.
    + unfold within in *. rewrite Forall_forall in *. intros z H. apply W2.
      apply in_map_iff in H as (t & <- & H). apply in_map_iff. exists t. split; auto. cbn. lia.
    + exists f'. split; [exact R|]. split; [rewrite A, P1; cbn; lia|]. split; [|rewrite SE; reflexivity]. intros _.
      assert (IZ : ~ (inject_Z (transmission_q (primary f)) == 0)%Q /\ ~ (inject_Z (ticks_per_rev (primary f)) == 0)%Q).
      { split; now apply inject_pos. }
      destruct xs as [|z xs].
      * destruct inputs; [|discriminate]. injection R as <-. cbn [last_pos output f1 position enc_set ticks_per_rev transmission_p transmission_q accumulator].
        unfold compute_encoder_position_bounded, turns. rewrite inject_Z_plus. field. tauto.
      * rewrite P by discriminate. rewrite P1. unfold turns. cbn [enc_set ticks_per_rev transmission_p transmission_q accumulator].
        replace (last_pos y (z :: xs) - x0) with ((last_pos y (z :: xs) - y) + (y - x0)) by lia.
        rewrite !inject_Z_plus. field. tauto.
Qed.

(** Periodic axis. The accumulator stays in one period, is congruent to the true displacement times p, and the position
    is a fraction of a turn congruent to the displacement times the gear factor. Missing from the property as stated:
    the encoder must not move by more than one period of the axis between two samples (see the refutation), and the
    period must be at most 2^30 for the sum to fit an int32_t. *)
Fixpoint one_period (p period x : Z) (xs : list Z) : Prop :=
  match xs with [] => True | y :: ys => Z.abs (y - x) * p <= period /\ one_period p period y ys end.
Definition period (e : encoder_s) : Z := ticks_per_rev e * transmission_q e.

Lemma periodic_position e acc prev : good (enc_set e acc prev) ->
  (0 <= compute_encoder_position_periodic acc (ticks_per_rev e) (transmission_q e) < 1)%Q /\
  (compute_encoder_position_periodic acc (ticks_per_rev e) (transmission_q e) * inject_Z (period e) == inject_Z acc)%Q.
Proof.
  intros [P Q T PE A]. cbn in *. unfold compute_encoder_position_periodic.
  assert (B : (0 < inject_Z (transmission_q e))%Q /\ (0 < inject_Z (ticks_per_rev e))%Q) by (split; change 0%Q with (inject_Z 0); rewrite <- Zlt_Qlt; lia).
  assert (IZ : ~ (inject_Z (transmission_q e) == 0)%Q /\ ~ (inject_Z (ticks_per_rev e) == 0)%Q) by (split; intro H; rewrite H in B; destruct B as [? ?]; eapply Qlt_irrefl; eauto).
  split; [split|].
  - apply Qle_shift_div_l; [tauto|]. rewrite Qmult_0_l. apply Qle_shift_div_l; [tauto|]. rewrite Qmult_0_l. change 0%Q with (inject_Z 0). rewrite <- Zle_Qle. lia.
  - apply Qlt_shift_div_r; [tauto|]. rewrite Qmult_1_l. apply Qlt_shift_div_r; [tauto|]. rewrite <- inject_Z_mult, <- Zlt_Qlt. lia.
  - unfold period. rewrite inject_Z_mult. field. tauto.
Qed.

Theorem feedback_periodic_partial xs : forall x0 f inputs,
  good (primary f) -> previous (primary f) = shows x0 -> map in_primary inputs = map shows xs ->
  slow (2 ^ 15) x0 xs -> one_period (transmission_p (primary f)) (period (primary f)) x0 xs ->
  exists f' k, feedback_run PRIMARY_PERIODIC f inputs = OK f' /\
    0 <= accumulator (primary f') < period (primary f) /\
    accumulator (primary f') = accumulator (primary f) + transmission_p (primary f) * (last_pos x0 xs - x0) - k * period (primary f) /\
    (xs <> [] -> (0 <= position (output f') < 1)%Q /\
                 (position (output f') * inject_Z (period (primary f)) == inject_Z (accumulator (primary f')))%Q).
Proof.
  induction xs as [|y xs IH]; intros x0 f inputs G E M S F; destruct inputs as [|i inputs]; try discriminate; cbn [feedback_run last_pos].
  - exists f, 0. split; [reflexivity|]. split; [apply G|]. split; [lia|]. congruence.
  - injection M as M1 M2. destruct S as [S1 S2]. destruct F as [F1 F2]. cbn [feedback_compute]. rewrite M1.
    destruct (accumulate_spec _ x0 y G E S1 F1) as (k & -> & R). cbn [rbind]. set (f1 := mkFb _ _ _).
    set (acc := accumulator (primary f) + _ - _) in *.
    assert (P1 : primary f1 = enc_set (primary f) acc (shows y)) by reflexivity.
    pose proof (good_set _ acc (shows y) G R) as G1.
    destruct (IH y f1 inputs) as (f' & k' & RR & A & AE & P); rewrite ?P1; auto.
    exists f', (k + k'). split; [exact RR|]. rewrite P1 in *. split; [exact A|]. split; [rewrite AE; unfold period; cbn [enc_set accumulator ticks_per_rev transmission_q transmission_p]; unfold acc; lia|].
    intros _. destruct xs as [|z xs]; [|apply P; discriminate].
    destruct inputs; [|discriminate]. injection RR as <-. cbn [output position f1 enc_set ticks_per_rev transmission_q accumulator primary].
    apply (periodic_position (primary f) acc (shows y) G1).
Qed.

(** Two encoders: both accumulators follow their own encoder, the position comes from the secondary one. *)
Theorem feedback_two_encoders_partial xs : forall x0 y0 f inputs,
  good (primary f) -> previous (primary f) = shows x0 -> good (secondary f) -> previous (secondary f) = shows y0 ->
  map in_primary inputs = map shows (map fst xs) -> map in_secondary inputs = map shows (map snd xs) ->
  slow (2 ^ 15) x0 (map fst xs) -> one_period (transmission_p (primary f)) (period (primary f)) x0 (map fst xs) ->
  slow (2 ^ 15) y0 (map snd xs) -> one_period (transmission_p (secondary f)) (period (secondary f)) y0 (map snd xs) ->
  exists f' k k', feedback_run TWO_PERIODIC f inputs = OK f' /\
    0 <= accumulator (primary f') < period (primary f) /\
    accumulator (primary f') = accumulator (primary f) + transmission_p (primary f) * (last_pos x0 (map fst xs) - x0) - k * period (primary f) /\
    0 <= accumulator (secondary f') < period (secondary f) /\
    accumulator (secondary f') = accumulator (secondary f) + transmission_p (secondary f) * (last_pos y0 (map snd xs) - y0) - k' * period (secondary f) /\
    (xs <> [] -> (0 <= position (output f') < 1)%Q /\
                 (position (output f') * inject_Z (period (secondary f)) == inject_Z (accumulator (secondary f')))%Q).
Proof.
  induction xs as [|[x y] xs IH]; intros x0 y0 f inputs G E G' E' M M' S F S' F'; destruct inputs as [|i inputs]; try discriminate; cbn [feedback_run last_pos map fst snd] in *.
  - exists f, 0, 0. split; [reflexivity|]. split; [apply G|]. split; [lia|]. split; [apply G'|]. split; [lia|]. congruence.
  - injection M as M1 M2. injection M' as M1' M2'. destruct S as [S1 S2]. destruct F as [F1 F2]. destruct S' as [S1' S2']. destruct F' as [F1' F2'].
    cbn [feedback_compute]. rewrite M1, M1'.
    destruct (accumulate_spec _ x0 x G E S1 F1) as (k & -> & R). cbn [rbind].
    destruct (accumulate_spec _ y0 y G' E' S1' F1') as (k2 & -> & R'). cbn [rbind]. set (f1 := mkFb _ _ _).
    set (acc := accumulator (primary f) + _ - _) in *. set (acc2 := accumulator (secondary f) + _ - _) in *.
    assert (P1 : primary f1 = enc_set (primary f) acc (shows x)) by reflexivity.
    assert (P2 : secondary f1 = enc_set (secondary f) acc2 (shows y)) by reflexivity.
    pose proof (good_set _ acc (shows x) G R) as G1. pose proof (good_set _ acc2 (shows y) G' R') as G2.
    destruct (IH x y f1 inputs) as (f' & k' & k'' & RR & A & AE & A' & AE' & P); rewrite ?P1, ?P2; auto.
    exists f', (k + k'), (k2 + k''). split; [exact RR|]. rewrite P1, P2 in *. split; [exact A|]. split; [rewrite AE; unfold period; cbn [enc_set accumulator ticks_per_rev transmission_q transmission_p]; unfold acc; lia|].
    split; [exact A'|]. split; [rewrite AE'; unfold period; cbn [enc_set accumulator ticks_per_rev transmission_q transmission_p]; unfold acc2; lia|].
    intros _. destruct xs as [|z xs]; [|apply P; discriminate].
    destruct inputs; [|discriminate]. injection RR as <-. cbn [output position f1 enc_set ticks_per_rev transmission_q accumulator secondary].
    apply (periodic_position (secondary f) acc2 (shows y) G2).
Qed.

(** The velocity is the true displacement of the last sample times the gear factor over its duration. *)
Theorem feedback_velocity sel f i f' x y : (sel = PRIMARY_BOUNDED \/ sel = PRIMARY_PERIODIC \/ sel = TWO_PERIODIC) ->
  previous (primary f) = shows x -> in_primary i = shows y -> Z.abs (y - x) < 2 ^ 15 ->
  0 < transmission_q (primary f) -> 0 < ticks_per_rev (primary f) -> ~ (in_delta_t i == 0)%Q ->
  feedback_compute sel f i = OK f' ->
  (velocity (output f') == turns (primary f) (y - x) / in_delta_t i)%Q /\
  previous (primary f') = shows y /\ actuator_is_periodic (output f') = match sel with PRIMARY_BOUNDED => false | _ => true end.
Proof.
  intros SEL E I S Q T D H.
  assert (IZ : ~ (inject_Z (transmission_q (primary f)) == 0)%Q /\ ~ (inject_Z (ticks_per_rev (primary f)) == 0)%Q)
    by (split; now apply inject_pos).
  destruct sel; cbn [feedback_compute] in H.
  - unfold accumulate_periodic, compute_delta_accumulator_periodic in H. rewrite I, E, s16_diff in H by exact S.
    dob H. dob E0. dob E0. dob E0. injection E0 as <-. injection H as <-. apply int_inv in E1 as [-> _].
    cbn. split; [|auto]. unfold compute_encoder_velocity_periodic, turns. rewrite inject_Z_mult. field. tauto.
  - unfold accumulate_bounded, compute_delta_accumulator_bounded in H. rewrite I, E, s16_diff in H by exact S.
    dob H. cbv zeta in E0. dob E0. injection E0 as <-. injection H as <-.
    cbn. split; [|auto]. unfold compute_encoder_velocity_bounded, turns. field. tauto.
  - destruct (accumulate_periodic (primary f) (in_primary i)) as [[e d]|] eqn:E0; [cbn [rbind] in H|discriminate].
    destruct (accumulate_periodic (secondary f) (in_secondary i)) as [[e2 d2]|] eqn:E1; [cbn [rbind] in H|discriminate]. injection H as <-.
    unfold accumulate_periodic, compute_delta_accumulator_periodic in E0. rewrite I, E, s16_diff in E0 by exact S.
    dob E0. dob E0. dob E0. injection E0 as <- <-. apply int_inv in E2 as [-> _].
    cbn. split; [|auto]. unfold compute_encoder_velocity_periodic, turns. rewrite inject_Z_mult. field. tauto.
Qed.

(** A gear of 4096 ticks and factor 2/3: hypotheses met, positions wrap. *)
Definition ex_axis : encoder_s := mkEnc 0 0 2 3 4096.
Definition ex_fb : feedback_s := mkFb (mkOut 0 0 false) ex_axis ex_axis.
Example feedback_periodic_ex : good ex_axis /\
  slow (2 ^ 15) 0 [5000; 9000; 3000; -100] /\ one_period 2 (period ex_axis) 0 [5000; 9000; 3000; -100] /\
  match feedback_run PRIMARY_PERIODIC ex_fb (map (fun x => mkIn (shows x) 0 1) [5000; 9000; 3000; -100]) with
  | OK f => accumulator (primary f) = 12088 | BAD => False end.
Proof. split; [constructor; vm_compute; intuition congruence|]. split; [cbn; lia|]. split; [cbn; lia|]. vm_compute. reflexivity. Qed.
Example feedback_bounded_ex :
  match feedback_run PRIMARY_BOUNDED ex_fb (map (fun x => mkIn (shows x) 0 1) [30000; 60000; 90000; 80000]) with
  | OK f => accumulator (primary f) = 80000 | BAD => False end.
Proof. vm_compute. reflexivity. Qed.

(** The property as stated is false: an axis that moves by more than one period between two samples (but by less than
    2^15 ticks) leaves [0, period), since the code corrects by one period only. *)
Theorem feedback_periodic_refuted : exists f i f' x, good (primary f) /\ previous (primary f) = shows 0 /\
  in_primary i = shows x /\ Z.abs (x - 0) < 2 ^ 15 /\
  feedback_compute PRIMARY_PERIODIC f i = OK f' /\ ~ accumulator (primary f') < period (primary f).
Proof.
  exists (mkFb (mkOut 0 0 false) (mkEnc 0 0 1 1 4096) ex_axis), (mkIn (shows 30000) 0 1). eexists. exists 30000.
  split; [constructor; vm_compute; intuition congruence|]. split; [reflexivity|]. split; [reflexivity|]. split; [vm_compute; reflexivity|].
  split; [vm_compute; reflexivity|]. vm_compute. congruence.
Qed.
(** A bounded axis overflows after 2^31 ticks (undefined behaviour). *)
Theorem feedback_bounded_overflow_refuted : exists f i, feedback_compute PRIMARY_BOUNDED f i = BAD.
Proof. exists (mkFb (mkOut 0 0 false) (mkEnc (2 ^ 31 - 1) 0 1 1 4096) ex_axis), (mkIn 1 0 1). vm_compute. reflexivity. Qed.

(** ** C32: stream divider *)
(** Configured with a prescaler n0 >= 1 and disabled, whatever calls follow (prescalers stay >= 1): the next update sends
    exactly when the stream is enabled and the number of updates while enabled since the last setting of the prescaler,
    this one included, is a multiple of the prescaler. *)
Theorem stream_sends n0 ops evs : 1 <= n0 < 65536 -> Forall2 means ops evs -> Forall usable evs ->
  exists s, stream_ops (mkStream false n0 n0) ops = OK s /\
    (snd (stream_should_send s) = true <-> must_send n0 false evs).
Proof.
  intros N M U. destruct (stream_ops_inv ops evs (mkStream false n0 n0) n0 false 0 M U) as (s & R & I).
  { unfold sinv. cbn [enabled prescaler counter]. rewrite Z.mod_0_l by lia. repeat split; auto; lia. }
  exists s. split; [exact R|]. destruct (should_send_inv _ _ _ _ I) as [_ H]. destruct I as (_ & _ & B & K & _).
  rewrite H. unfold must_send. set (n := prescaler_after n0 evs) in *. set (t := ticks false 0 evs) in *. split.
  - intros [E D]. split; [exact E|]. exists ((t + 1) / n). pose proof (Z.div_mod (t + 1) n ltac:(lia)). split; nia.
  - intros [E (j & J & D)]. split; [exact E|]. rewrite D. apply Z.mod_mul. lia.
Qed.
(** A disabled stream never sends, whatever its state. *)
Theorem stream_disabled s : enabled s = false -> stream_should_send s = (s, false).
Proof. unfold stream_should_send. now intros ->. Qed.
(** The prescaler is the ratio of the frequencies rounded to the nearest integer, and at least 1 unless more than twice
    the frequency of the updates is asked for. *)
Theorem stream_prescaler s f spin s' : stream_set_prescaler s f spin = OK s' ->
  nearest (prescaler s') (spin / f) /\ counter s' = prescaler s' /\ enabled s' = enabled s /\
  ((1 # 2 < spin / f)%Q -> 1 <= prescaler s').
Proof.
  unfold stream_set_prescaler. destruct (Qeq_bool f 0); [discriminate|]. destruct (_ && _) eqn:E; [|discriminate]. intro H. injection H as <-.
  cbn [prescaler counter enabled]. pose proof (nearest_nearbyint (spin / f)) as N. repeat split; auto. intro L.
  destruct (Z.eq_dec (nearbyint (spin / f)) 0) as [Z|Z]; [|lia]. rewrite Z in N. exfalso.
  assert (X : (spin / f - inject_Z 0 == spin / f)%Q) by (change (inject_Z 0) with 0%Q; ring).
  destruct N as [[_ N]|[[N|N] _]]; rewrite X in N.
  - eapply Qlt_irrefl. eapply Qlt_trans; eauto.
  - rewrite N in L. eapply Qlt_irrefl; eauto.
  - rewrite N in L. discriminate.
Qed.
(** One send out of three updates, with a pause and a new setting. *)
Example stream_sends_ex :
  let ops := [OpFrequency 50 150; OpEnable true; OpUpdate; OpUpdate] in
  let evs := [SetPrescaler 3; Enable true; Update; Update] in
  Forall2 means ops evs /\ Forall usable evs /\ must_send 1 false evs /\ ~ must_send 1 false [SetPrescaler 3; Enable true; Update].
Proof.
  cbv zeta. split; [|split; [|split; [split|]]].
  - constructor; [constructor; [discriminate|left; split; reflexivity]|]. repeat constructor.
  - repeat constructor; cbn; lia.
  - reflexivity.
  - exists 1. cbn. lia.
  - intros [_ (j & J & E)]. cbn in E. lia.
Qed.
(** A request for more than twice the frequency of the updates gives a prescaler of 0: the stream then sends once every
    65536 updates instead of at every update. *)
Theorem stream_fast_request_refuted : exists s s', stream_set_prescaler s 1000 100 = OK s' /\ prescaler s' = 0 /\
  let s1 := stream_enable s' true in snd (stream_should_send s1) = false /\
  snd (stream_should_send (Nat.iter (Z.to_nat 65535) (fun s => fst (stream_should_send s)) s1)) = true.
Proof. exists (mkStream false 1 1). eexists. split; [vm_compute; reflexivity|]. split; [reflexivity|]. cbv zeta. split; vm_compute; reflexivity. Qed.

(** ** C38: blocking detection *)
(** Missing from the property as stated: fewer than 65536 consecutive exceeding updates (see the refutation). *)
Theorem bd_blocked_partial h : (forall e c, In (Thresholds e c) h -> 0 <= c < 65536) -> ~ exceeded h (Z.to_nat 65536) ->
  (bd_get (bd_run h) = true <-> blocked h).
Proof.
  intros C L. destruct (runs_ex h) as [r R]. pose proof (exceeded_runs _ _ R) as X. pose proof (bd_cpt _ _ R) as E.
  destruct (bd_thresholds h) as [_ ET].
  assert (RB : Z.of_nat r < 65536). { rewrite X in L. lia. }
  unfold bd_get, blocked. rewrite E, ET, Z.mod_small by lia. cbv zeta. rewrite X.
  assert (CB : 0 <= snd (thresholds (0, 0) h)).
  { clear - C. assert (G : forall t, 0 <= snd t -> 0 <= snd (thresholds t h)); [|apply G; cbn; lia].
    induction h as [|e h IH]; intros t T; cbn [thresholds]; auto.
    assert (C' : forall e0 c, In (Thresholds e0 c) h -> 0 <= c < 65536) by (intros; eapply C; right; eauto).
    destruct e; apply IH; auto. cbn. apply (C err cnt). now left. }
  lia.
Qed.
(** In particular no false alarm, ever. *)
Theorem bd_no_false_alarm h : (forall e c, In (Thresholds e c) h -> 0 <= c < 65536) ->
  bd_get (bd_run h) = true -> blocked h.
Proof.
  intros C. destruct (runs_ex h) as [r R]. pose proof (exceeded_runs _ _ R) as X. pose proof (bd_cpt _ _ R) as E.
  destruct (bd_thresholds h) as [_ ET]. unfold bd_get, blocked. rewrite E, ET. cbv zeta. rewrite X. intro H.
  assert (CB : 0 <= snd (thresholds (0, 0) h)).
  { clear - C. assert (G : forall t, 0 <= snd t -> 0 <= snd (thresholds t h)); [|apply G; cbn; lia].
    induction h as [|e h IH]; intros t T; cbn [thresholds]; auto.
    assert (C' : forall e0 c, In (Thresholds e0 c) h -> 0 <= c < 65536) by (intros; eapply C; right; eauto).
    destruct e; apply IH; auto. cbn. apply (C err cnt). now left. }
  pose proof (Z.mod_le (Z.of_nat r) 65536 ltac:(lia) ltac:(lia)). lia.
Qed.
(** The maximum read is the largest error seen by an enabled detection since the last read. *)
Theorem bd_max_seen h : (forall e, In (Manage e) h -> 0 <= e < 2 ^ 31) ->
  let m := snd (bd_get_max (bd_run h)) in
  (forall e, seen h e -> e <= m) /\ (m = 0 \/ seen h m).
Proof.
  intros C. cbn [bd_get_max snd]. destruct (bd_max h) as (M1 & M2 & M3).
  assert (B : err_max (bd_run h) < 2 ^ 31).
  { destruct M3 as [->|S]; [lia|]. set (m := err_max (bd_run h)) in *. clearbody m. clear - C S.
    assert (G : In (Manage m) h); [|apply C in G; lia]. induction S as [h err T|h e err N S IH]; apply in_app_iff; [right; now left|].
    left. apply IH. intros x X. apply C. apply in_app_iff. now left. }
  rewrite s32_id by lia. auto.
Qed.
Example bd_blocked_ex : let h := [Thresholds 100 2; Manage 200; Manage 50; Manage 150; Manage 101] in
  (forall e c, In (Thresholds e c) h -> 0 <= c < 65536) /\ ~ exceeded h (Z.to_nat 65536) /\ blocked h /\ bd_get (bd_run h) = true.
Proof.
  cbv zeta. split; [|split; [|split]].
  - cbn. intros e c [H|H]; [inversion H; subst; lia|]. intuition discriminate.
  - set (h := [_; _; _; _; _]). destruct (runs_ex h) as [r R]. rewrite (exceeded_runs _ _ R).
    assert (B : forall h r, runs h r -> (r <= length h)%nat).
    { clear. induction 1 as [|h r e R IH]; cbn; [lia|]. rewrite app_length. cbn [length]. destruct e; cbn [run_op]; cbv zeta; try lia.
      destruct (_ =? 0); [lia|]. destruct (_ <? _); lia. }
    apply B in R. cbn [length h] in R. lia.
  - split; [reflexivity|]. change (Z.to_nat _) with 2%nat.
    apply (ex_more [Thresholds 100 2; Manage 200; Manage 50; Manage 150] 101 1%nat); [discriminate|reflexivity|].
    apply (ex_more [Thresholds 100 2; Manage 200; Manage 50] 150 0%nat); [discriminate|reflexivity|constructor].
  - reflexivity.
Qed.
(** The property as stated is false: after 65536 exceeding updates in a row the 16-bit counter is back to zero and the
    blocking is no longer reported. *)
Theorem bd_wrap_refuted : exists h, (forall e c, In (Thresholds e c) h -> 0 <= c < 65536) /\ blocked h /\ bd_get (bd_run h) = false.
Proof.
  exists ([Thresholds 100 1] ++ repeat (Manage 200) (Z.to_nat 65536)). split; [|split].
  - intros e c [H|H]; [inversion H; subst; lia|]. apply repeat_spec in H. discriminate.
  - assert (T : forall n, thresholds (0, 0) ([Thresholds 100 1] ++ repeat (Manage 200) n) = (100, 1)).
    { intro n. cbn [app thresholds]. induction n; [reflexivity|exact IHn]. }
    unfold blocked. rewrite T. cbv zeta. cbn [snd]. split; [lia|].
    replace (Z.to_nat 65536) with (Z.to_nat 65535 + 1)%nat by lia. rewrite repeat_app. cbn [repeat]. rewrite app_assoc.
    change (Z.to_nat 1) with 1%nat. apply ex_more; rewrite ?T; cbn [fst]; try lia. constructor.
  - vm_compute. reflexivity.
Qed.

(** ** C39: wheels and polar coordinates *)
Theorem polar_wheels_polar d a : - 2 ^ 30 <= d < 2 ^ 30 -> - 2 ^ 30 <= a < 2 ^ 30 -> - 2 ^ 31 < d + a ->
  exists w, rs_get_wheels_from_polar (mkPolar d a) = OK w /\ rs_get_polar_from_wheels w = OK (mkPolar d a).
Proof.
  intros D A B. exists (mkWheels (d - a) (d + a)). unfold rs_get_wheels_from_polar, rs_get_polar_from_wheels. cbn [p_distance p_angle w_left w_right].
  rewrite !int_ok by lia. cbn [rbind]. split; [reflexivity|].
  replace (d + a + (d - a)) with (d * 2) by lia. replace (d + a - (d - a)) with (a * 2) by lia. rewrite !Z.quot_mul by lia. reflexivity.
Qed.
(** Wheels with the same parity are found again too; the other ones lose half a tick. *)
Theorem wheels_polar_wheels l r : - 2 ^ 30 < l < 2 ^ 30 -> - 2 ^ 30 < r < 2 ^ 30 -> Z.Even (l + r) ->
  exists p, rs_get_polar_from_wheels (mkWheels l r) = OK p /\ rs_get_wheels_from_polar p = OK (mkWheels l r).
Proof.
  intros L R [k K]. exists (mkPolar k (r - k)). unfold rs_get_wheels_from_polar, rs_get_polar_from_wheels. cbn [w_left w_right].
  rewrite !int_ok by lia. cbn [rbind p_distance p_angle].
  replace (r + l) with (k * 2) by lia. replace (r - l) with ((r - k) * 2) by lia. rewrite !Z.quot_mul by lia. split; [reflexivity|].
  rewrite !int_ok by lia. cbn [rbind]. repeat f_equal; lia.
Qed.
Theorem wheels_polar_wheels_refuted : exists l r p w, rs_get_polar_from_wheels (mkWheels l r) = OK p /\
  rs_get_wheels_from_polar p = OK w /\ w <> mkWheels l r.
Proof. exists 0, 1, (mkPolar 0 0), (mkWheels 0 0). repeat split; vm_compute; congruence. Qed.
(** Commands that do not fit overflow a signed integer. *)
Theorem polar_overflow_refuted : exists d a, - 2 ^ 31 <= d < 2 ^ 31 /\ - 2 ^ 31 <= a < 2 ^ 31 /\ rs_get_wheels_from_polar (mkPolar d a) = BAD.
Proof. exists (2 ^ 31 - 1), 1. vm_compute. repeat split; congruence. Qed.

Inductive rop := RAngle (a : Z) | RDistance (d : Z) | RUpdate (left right : Z) | RGains (gl gr : scaling).
(** The commands sent to the wheels are those of the last call. *)
Definition rs_op (s : robot_system * wheels) (o : rop) : res (robot_system * wheels) :=
  match o with
  | RAngle a => rs_set_angle (fst s) a
  | RDistance d => rs_set_distance (fst s) d
  | RUpdate l r => try rs := rs_update (fst s) l r in OK (rs, snd s)
  | RGains gl gr => OK (rs_set_gains (fst s) gl gr, snd s)
  end.
Fixpoint rs_ops (s : robot_system * wheels) (l : list rop) : res (robot_system * wheels) :=
  match l with [] => OK s | o :: l => try s := rs_op s o in rs_ops s l end.
(** The events of the specification for the calls: readings are scaled by the gains in force. *)
Inductive rmeans : scaling -> scaling -> list rop -> list rsev -> Prop :=
| rm_nil gl gr : rmeans gl gr [] []
| rm_angle gl gr a ops h : rmeans gl gr ops h -> rmeans gl gr (RAngle a :: ops) (SetAngle a :: h)
| rm_distance gl gr d ops h : rmeans gl gr ops h -> rmeans gl gr (RDistance d :: ops) (SetDistance d :: h)
| rm_update gl gr l r l' r' ops h : - 2 ^ 31 <= l < 2 ^ 31 -> - 2 ^ 31 <= r < 2 ^ 31 -> gl l = Some l' -> gr r = Some r' ->
    rmeans gl gr ops h -> rmeans gl gr (RUpdate l r :: ops) (Reading l' r' :: h)
| rm_gains gl gr gl' gr' ops h : rmeans gl' gr' ops h -> rmeans gl gr (RGains gl' gr' :: ops) h.

Definition fits_ev (e : rsev) : Prop :=
  match e with SetAngle a => Z.abs a < 2 ^ 30 | SetDistance d => Z.abs d < 2 ^ 30 | Reading l r => Z.abs l < 2 ^ 30 /\ Z.abs r < 2 ^ 30 end.

Definition rs_inv (s : robot_system * wheels) (d a : Z) (lr : Z * Z) : Prop :=
  virtual_pwm (fst s) = mkPolar d a /\ snd s = mkWheels (d - a) (d + a) /\
  virtual_encoders (fst s) = pext_prev (fst s) /\
  is_polar (fst lr) (snd lr) (rs_get_distance (fst s)) (rs_get_angle (fst s)) /\
  Z.abs d < 2 ^ 30 /\ Z.abs a < 2 ^ 30 /\ Z.abs (fst lr) < 2 ^ 30 /\ Z.abs (snd lr) < 2 ^ 30.

Lemma rs_ops_inv gl gr ops h : rmeans gl gr ops h -> forall s d a lr, Forall fits_ev h ->
  left_ext_gain (fst s) = gl -> right_ext_gain (fst s) = gr -> rs_inv s d a lr ->
  exists s', rs_ops s ops = OK s' /\ rs_inv s' (last_distance d h) (last_angle a h) (last_reading lr h).
Proof.
  induction 1 as [gl gr|gl gr x ops h M IH|gl gr x ops h M IH|gl gr l r l' r' ops h BL BR GL GR M IH|gl gr gl' gr' ops h M IH];
    intros [rs w] d a lr F EL ER (I1 & I2 & I3 & I4 & B1 & B2 & B3 & B4); cbn [fst snd rs_ops last_distance last_angle last_reading] in *.
  - exists (rs, w). split; [reflexivity|]. repeat split; auto; apply I4.
  - inversion F as [|? ? F1 F2]; subst. cbn [fits_ev] in F1. cbn [rs_op fst]. unfold rs_set_angle, rs_get_wheels_from_polar. rewrite I1. cbn [p_distance p_angle].
    rewrite !int_ok by lia. cbn [rbind]. apply IH; auto. repeat split; cbn; auto; apply I4.
  - inversion F as [|? ? F1 F2]; subst. cbn [fits_ev] in F1. cbn [rs_op fst]. unfold rs_set_distance, rs_get_wheels_from_polar. rewrite I1. cbn [p_distance p_angle].
    rewrite !int_ok by lia. cbn [rbind]. apply IH; auto. repeat split; cbn; auto; apply I4.
  - inversion F as [|? ? F0 F2]; subst. destruct F0 as [F1 F1']. cbn [rs_op fst]. unfold rs_update. rewrite !s32_u32, (s32_id l), (s32_id r) by lia. rewrite GL, GR.
    cbn [some rbind]. unfold rs_get_polar_from_wheels. cbn [w_left w_right]. rewrite !int_ok by lia. cbn [rbind].
    rewrite <- I3. unfold rs_get_distance, rs_get_angle, is_polar in I4. destruct I4 as [I4 I5]. cbn [p_distance p_angle]. rewrite I4, I5.
    rewrite int_ok by lia. cbn [rbind]. rewrite int_ok by lia. cbn [rbind]. rewrite int_ok by lia. cbn [rbind]. rewrite int_ok by lia. cbn [rbind snd].
    apply IH; auto. repeat split; cbn [fst snd virtual_pwm virtual_encoders pext_prev rs_get_distance rs_get_angle p_distance p_angle]; auto; try lia.
    f_equal; lia.
  - cbn [rs_op fst snd rbind]. apply IH; auto. repeat split; cbn; auto; apply I4.
Qed.

(** From the initialisation on, for any calls: the wheels are commanded distance - angle and distance + angle of the last
    commands, and the virtual encoders are the polar coordinates of the last (scaled) readings. *)
Theorem rs_follows gl gr ops h : rmeans gl gr ops h -> Forall fits_ev h ->
  exists rs w, rs_ops (rs_init gl gr, mkWheels 0 0) ops = OK (rs, w) /\
    w = mkWheels (last_distance 0 h - last_angle 0 h) (last_distance 0 h + last_angle 0 h) /\
    is_polar (fst (last_reading (0, 0) h)) (snd (last_reading (0, 0) h)) (rs_get_distance rs) (rs_get_angle rs).
Proof.
  intros M F. destruct (rs_ops_inv gl gr ops h M (rs_init gl gr, mkWheels 0 0) 0 0 (0, 0) F) as ([rs w] & R & I); try reflexivity.
  { repeat split; cbn; lia. }
  exists rs, w. destruct I as (_ & W & _ & P & _). auto.
Qed.

(** The whole chain, from the true positions of the wheels to the virtual encoders, with unit gains: the firmware of
    the wheel encoders and the robot system together measure the displacement since the start. *)
Theorem odometry_displacement xl xr ls rs : shows xl = 0 -> shows xr = 0 -> ls <> [] -> rs <> [] ->
  slow (2 ^ 15) xl ls -> slow (2 ^ 15) xr rs ->
  within (- 2 ^ 30 + 1) (2 ^ 30 - 1) (map (fun x => x - xl) ls) -> within (- 2 ^ 30 + 1) (2 ^ 30 - 1) (map (fun x => x - xr) rs) ->
  exists wl vl wr vr s, encoder_reads (encoder_init 0) (map shows ls) 0 = OK (wl, vl) /\
    encoder_reads (encoder_init 0) (map shows rs) 0 = OK (wr, vr) /\
    rs_update (rs_init Some Some) vl vr = OK s /\
    is_polar (last_pos xl ls - xl) (last_pos xr rs - xr) (rs_get_distance s) (rs_get_angle s).
Proof.
  intros ZL ZR NL NR SL SR WL WR.
  assert (WK : forall l x, within (- 2 ^ 30 + 1) (2 ^ 30 - 1) (map (fun y => y - x) l) -> within (- 2 ^ 31) (2 ^ 31 - 1) (map (fun y => y - x) l)).
  { intros l x W. unfold within in *. eapply Forall_impl; [|exact W]. cbn beta. intros. lia. }
  assert (LP : forall l x x', l <> [] -> within (- 2 ^ 30 + 1) (2 ^ 30 - 1) (map (fun y => y - x) l) -> - 2 ^ 30 + 1 <= last_pos x' l - x <= 2 ^ 30 - 1).
  { induction l as [|y l IH]; intros x x' N W; [congruence|]. cbn [last_pos]. inversion W; subst. destruct l as [|z l]; [exact H1|]. now apply IH. }
  destruct (wheel_displacement xl ls ZL NL SL (WK _ _ WL)) as [wl HL]. destruct (wheel_displacement xr rs ZR NR SR (WK _ _ WR)) as [wr HR].
  pose proof (LP ls xl xl NL WL) as BL. pose proof (LP rs xr xr NR WR) as BR.
  set (vl := last_pos xl ls - xl) in *. set (vr := last_pos xr rs - xr) in *.
  destruct (rs_ops_inv Some Some [RUpdate vl vr] [Reading vl vr]) with (s := (rs_init Some Some, mkWheels 0 0)) (d := 0) (a := 0) (lr := (0, 0)) as ([s w] & R & I); try reflexivity.
  - apply rm_update; try lia; try reflexivity. constructor.
  - constructor; [|constructor]. cbn [fits_ev]. lia.
  - repeat split; cbn; lia.
  - exists wl, vl, wr, vr, s. split; [exact HL|]. split; [exact HR|]. cbn [rs_ops rs_op fst snd] in R.
    destruct (rs_update (rs_init Some Some) vl vr) as [s'|]; [|discriminate]. injection R as -> _. split; [reflexivity|]. apply I.
Qed.
Example rs_follows_ex : exists rs w, rs_ops (rs_init Some Some, mkWheels 0 0) [RUpdate 100 140; RDistance 50; RAngle (-20); RUpdate 300 303] = OK (rs, w) /\
  w = mkWheels 70 30 /\ rs_get_distance rs = 301 /\ rs_get_angle rs = 1.
Proof. eexists. eexists. split; [vm_compute; reflexivity|]. vm_compute. auto. Qed.
Example rs_follows_hyps : rmeans Some Some [RUpdate 100 140; RDistance 50; RAngle (-20); RUpdate 300 303] [Reading 100 140; SetDistance 50; SetAngle (-20); Reading 300 303]
  /\ Forall fits_ev [Reading 100 140; SetDistance 50; SetAngle (-20); Reading 300 303].
Proof.
  split; [repeat (first [apply rm_nil | apply rm_update; [lia|lia|reflexivity|reflexivity|] | apply rm_distance | apply rm_angle])|].
  repeat apply Forall_cons; cbn [fits_ev]; try lia. constructor.
Qed.
(** With a gain, the encoders follow the scaled position and not the sum of scaled displacements: a change of the gain
    moves the virtual encoders although the wheels did not move. *)
Theorem gain_change_refuted : exists s s', rs_ops (rs_init Some Some, mkWheels 0 0) [RUpdate 1000 1000] = OK s /\
  rs_ops s [RGains (fun x => Some (2 * x)) (fun x => Some (2 * x)); RUpdate 1000 1000] = OK s' /\
  rs_get_distance (fst s') <> rs_get_distance (fst s).
Proof. eexists. eexists. split; [reflexivity|]. split; [reflexivity|]. vm_compute. congruence. Qed.

Print Assumptions wheel_follows.
Print Assumptions feedback_bounded.
Print Assumptions feedback_periodic_partial.
Print Assumptions stream_sends.
Print Assumptions bd_blocked_partial.
Print Assumptions rs_follows.
Print Assumptions odometry_displacement.
