(** C55 and C64: the beacon's signals and the rotation measured from barrier crossings. *)
From Coq Require Import ZArith Reals List Bool Lia Lra Permutation.
From Flocq Require Import Core IEEE754.BinarySingleNaN.
From Verif Require Import CBase CRes FloatModel FloatSpec FloatProofs PidModel PidSpec CtlModel CtlProofs TimestampModel TimestampProps PosModel PosSpec PosProofs BeaconModel BeaconSpec BeaconProofs.
Import ListNotations.

(** C55. Every execution is defined, and at its end every buffer is in exactly one place. *)
Theorem buffers_conserved m es : exists s out, run m (init m) es = OK (s, out) /\
  Permutation (free m s ++ held m s ++ mbox m s) (seq 0 14).
Proof. destruct (run_ok m es _ (init_inv m)) as (s & out & E & I & _). exists s, out. split; [exact E|apply I]. Qed.

(** C55. The signals broadcast, then the one the reader has in hand, then those in the queue, are the signals accepted, in order and
    unaltered. *)
Theorem signals_in_order m es s out : run m (init m) es = OK (s, out) ->
  map Some out ++ contents m s (in_hand m s) ++ contents m s (mbox m s) = map Some (accepted m (init m) es).
Proof.
  intro E. destruct (run_ok m es _ (init_inv m)) as (s' & out' & E' & _ & Q). rewrite E in E'. injection E' as <- <-.
  rewrite (contents_app m s) in Q. symmetry. exact Q.
Qed.

(** C55. No signal is lost unless all the buffers are in use when it ends. *)
Lemma accepted_all m es : forall s, inv m s ->
  (forall es1 es2 s1 out1, es = es1 ++ es2 -> run m s es1 = OK (s1, out1) -> in_use m s1 < 14) -> accepted m s es = measured m (sens m s) es.
Proof.
  induction es as [|e es IH]; intros s I H; [reflexivity|]. cbn [accepted measured].
  assert (U : in_use m s < 14) by (apply (H [] (e :: es) s []); reflexivity).
  replace (in_use m s <? 14) with true by (symmetry; apply Nat.ltb_lt; exact U).
  destruct (step_ok m s e I) as (s1 & o & E & I1 & Se & _). rewrite E. rewrite <- Se. f_equal. apply IH; [exact I1|].
  intros es1 es2 s2 out -> R. apply (H (e :: es1) es2 s2 (match o with Some g => g :: out | None => out end)); [reflexivity|].
  cbn [run]. rewrite E. cbn [rbind]. rewrite R. reflexivity.
Qed.
Theorem none_lost m es s out : run m (init m) es = OK (s, out) ->
  (forall es1 es2 s1 out1, es = es1 ++ es2 -> run m (init m) es1 = OK (s1, out1) -> in_use m s1 < 14) ->
  map Some out ++ contents m s (in_hand m s) ++ contents m s (mbox m s) = map Some (measured m (sensor_init m) es).
Proof. intros E H. rewrite (signals_in_order m es s out E). f_equal. apply (accepted_all m es _ (init_inv m) H). Qed.

(** C55. A reader which is left to run broadcasts everything and gives all the buffers back. *)
Definition debt m (s : state m) : nat :=
  5 * length (mbox m s) + match rdr m s with Idle _ => 0 | Got _ _ => 4 | Read1 _ _ _ => 3 | Read2 _ _ _ _ => 2 | Sent _ _ => 1 end.
Lemma reader_progress m s : inv m s -> exists s' o, step m s Reader = OK (s', o) /\ inv m s' /\ debt m s' = debt m s - 1.
Proof.
  intro I. destruct (step_ok m s Reader I) as (s' & o & E & I' & _). exists s', o. split; [exact E|]. split; [exact I'|].
  cbn [step] in E. unfold reader_step in E. unfold debt. destruct (rdr m s) as [|sp|sp a|sp a l|sp] eqn:R.
  - destruct (mbox m s) as [|sp mb] eqn:B; injection E as <- <-; cbn [with_rdr mbox rdr]; rewrite ?R, ?B; cbn [length]; lia.
  - dob E. injection E as <- <-. cbn [with_rdr mbox rdr]. lia.
  - dob E. injection E as <- <-. cbn [with_rdr mbox rdr]. lia.
  - injection E as <- <-. cbn [with_rdr mbox rdr]. lia.
  - dob E. injection E as <- <-. cbn [mbox rdr]. lia.
Qed.
Lemma drain_inv m n : forall s, inv m s -> debt m s <= n -> exists s' out, run m s (repeat Reader n) = OK (s', out) /\ inv m s' /\ debt m s' = 0.
Proof.
  induction n as [|n IH]; intros s I H.
  - exists s, []. split; [reflexivity|]. split; [exact I|lia].
  - destruct (reader_progress m s I) as (s1 & o & E & I1 & D). destruct (IH s1 I1 ltac:(lia)) as (s2 & out & E2 & I2 & D2).
    cbn [repeat run]. rewrite E. cbn [rbind]. rewrite E2. cbn [rbind]. eexists _, _. split; [reflexivity|]. auto.
Qed.
Lemma run_app m es1 : forall es2 s s1 o1, run m s es1 = OK (s1, o1) ->
  run m s (es1 ++ es2) = try (s2, o2) := run m s1 es2 in OK (s2, o1 ++ o2).
Proof.
  induction es1 as [|e es1 IH]; intros es2 s s1 o1 E.
  - injection E as <- <-. cbn [app]. destruct (run m s es2) as [[s2 o2]|]; reflexivity.
  - cbn [app run] in *. destruct (step m s e) as [[s' o]|]; [cbn [rbind] in *|discriminate].
    destruct (run m s' es1) as [[s'' o']|] eqn:R; [cbn [rbind] in E|discriminate]. injection E as <- <-.
    rewrite (IH es2 _ _ _ R). destruct (run m s'' es2) as [[s2 o2]|]; [cbn [rbind]|reflexivity]. destruct o; reflexivity.
Qed.
Lemma accepted_idle m n : forall s, inv m s -> accepted m s (repeat Reader n) = [].
Proof.
  induction n as [|n IH]; intros s I; [reflexivity|]. cbn [repeat accepted sense snd app].
  destruct (step_ok m s Reader I) as (s1 & o & -> & I1 & _). now apply IH.
Qed.
Lemma accepted_app m es1 : forall es2 s s1 o1, run m s es1 = OK (s1, o1) -> accepted m s (es1 ++ es2) = accepted m s es1 ++ accepted m s1 es2.
Proof.
  induction es1 as [|e es1 IH]; intros es2 s s1 o1 E.
  - injection E as <- <-. reflexivity.
  - cbn [app run accepted] in *. destruct (step m s e) as [[s' o]|]; [cbn [rbind] in *|discriminate].
    destruct (run m s' es1) as [[s'' o']|] eqn:R; [cbn [rbind] in E|discriminate]. injection E as <- <-.
    rewrite (IH es2 _ _ _ R). now rewrite app_assoc.
Qed.
Theorem reader_drains m es : exists n s out, run m (init m) (es ++ repeat Reader n) = OK (s, out) /\
  out = accepted m (init m) es /\ Permutation (free m s) (seq 0 14).
Proof.
  destruct (run_ok m es _ (init_inv m)) as (s1 & o1 & E1 & I1 & _).
  destruct (drain_inv m (debt m s1) s1 I1 (le_n _)) as (s2 & o2 & E2 & I2 & D).
  exists (debt m s1), s2, (o1 ++ o2). rewrite (run_app m es _ _ _ _ E1), E2. split; [reflexivity|].
  assert (Z : mbox m s2 = [] /\ rdr m s2 = Idle m).
  { unfold debt in D. destruct (mbox m s2); [|cbn in D; lia]. destruct (rdr m s2); auto; cbn in D; lia. }
  destruct Z as [Zm Zr]. split.
  - pose proof (run_app m es (repeat Reader (debt m s1)) _ _ _ E1) as E. rewrite E2 in E. cbn [rbind] in E.
    pose proof (signals_in_order m _ _ _ E) as Q. unfold in_hand in Q. rewrite Zm, Zr in Q. cbn in Q. rewrite app_nil_r in Q.
    rewrite (accepted_app m es _ _ _ _ E1), (accepted_idle m _ s1 I1), app_nil_r in Q.
    clear -Q. revert Q. generalize (o1 ++ o2) (accepted m (init m) es). intros a b. revert b.
    induction a as [|x a IH]; intros [|y b] Q; cbn in Q; try discriminate; [reflexivity|]. injection Q as -> Q. f_equal. now apply IH.
  - pose proof (i_perm m s2 I2) as P. unfold held in P. rewrite Zm, Zr in P. cbn [app] in P. now rewrite app_nil_r in P.
Qed.

(** * Angles *)
Local Open Scope R_scope.
Lemma ex_int n : of_int exact n = real (IZR n).
Proof. unfold of_int, real. cbn. f_equal. f_equal. ring. Qed.
Lemma ex_div x y : y <> 0 -> div (F exact) (real x) (real y) = real (x / y).
Proof. intro H. unfold real. cbn. destruct (req_spec y 0); [contradiction|reflexivity]. Qed.
Lemma ex_lt x y : lt (F exact) (real x) (real y) = rlt x y. Proof. reflexivity. Qed.
Lemma duration_exact a b : (Z.abs (b - a) < 2 ^ 31)%Z -> timestamp_duration_s exact (stamp a) (stamp b) = real (IZR (b - a) / 1000000).
Proof.
  intro H. unfold timestamp_duration_s. change (stamp a) with (a mod 2 ^ 32)%Z. change (stamp b) with (b mod 2 ^ 32)%Z.
  rewrite timestamp_duration_exact by lia. rewrite !ex_int, ex_div by lra. reflexivity.
Qed.
Lemma ex_turn d T : 0 < IZR T -> turn exact (real (IZR d / 1000000)) (real (IZR T / 1000000)) = real (2 * PI * (IZR d / IZR T)).
Proof.
  intro H. unfold turn. rewrite ex_div by lra. rewrite ex_int. unfold real. cbn. f_equal. f_equal. field. lra.
Qed.
Lemma ex_position d T : (0 < T)%Z -> position_of exact (real (IZR d / 1000000)) (real (IZR T / 1000000)) =
  real (if (d <? T)%Z then 2 * PI * (IZR d / IZR T) else 0).
Proof.
  intro H. apply IZR_lt in H. unfold position_of. rewrite ex_lt, ex_int, ex_turn by exact H.
  destruct (Z.ltb_spec d T) as [L|L]; [apply IZR_lt in L|apply IZR_le in L]; destruct (rlt_spec (IZR d / 1000000) (IZR T / 1000000)); try reflexivity; exfalso; lra.
Qed.

(** C55. At constant speed, one turn in [T] microseconds, with the last barrier crossing at [c]: a light seen from [t1] to [t2], for less
    than one turn, is reported with the angle turned from the crossing to [t1] and the angle turned from [t1] to [t2], also if the
    barrier is crossed meanwhile and the timestamps wrap. *)
Theorem signal_angles x c T t1 t2 : (0 < T < 2 ^ 30)%Z -> (c <= t1 < c + T)%Z -> (t1 <= t2 < t1 + T)%Z ->
  cross exact x = {| last_last := stamp (c - T); last := stamp c |} ->
  measured exact x (Light (stamp t1) false :: (if (c + T <=? t2)%Z then [Hall (stamp (c + T))] else []) ++ [Light (stamp t2) true]) =
  [{| start_angle := real (turned T c t1) : num (F exact); length_ := real (turned T t1 t2) : num (F exact) |}].
Proof.
  intros HT H1 H2 Cr. assert (HR : 0 < IZR T) by (apply IZR_lt; lia).
  assert (P1 : position_of exact (timestamp_duration_s exact (stamp c) (stamp t1)) (timestamp_duration_s exact (stamp (c - T)) (stamp c)) = real (turned T c t1)).
  { rewrite !duration_exact by lia. replace (c - (c - T))%Z with T by lia. rewrite ex_position by lia.
    replace (t1 - c <? T)%Z with true by (symmetry; apply Z.ltb_lt; lia). reflexivity. }
  pose proof PI_RGT_0 as Pp.
  cbn [measured sense light negb snd fst app]. unfold get_period. rewrite Cr. cbn [last last_last]. rewrite P1.
  destruct (Z.leb_spec (c + T) t2) as [L|L]; cbn [measured sense light negb snd fst app cross active start crossing last last_last get_period].
  - unfold get_period. cbn [crossing last last_last]. rewrite !duration_exact by lia.
    replace (c + T - c)%Z with T by lia. rewrite ex_position by lia.
    replace (t2 - (c + T) <? T)%Z with true by (symmetry; apply Z.ltb_lt; lia). cbv zeta.
    f_equal. f_equal. rewrite ex_int.
    set (u := 2 * PI * (IZR (t2 - (c + T)) / IZR T)). change (sub (F exact) (real u) (real (turned T c t1))) with (real (u - turned T c t1)).
    rewrite ex_lt. unfold turned, u.
    assert (E : 2 * PI * (IZR (t2 - (c + T)) / IZR T) - 2 * PI * (IZR (t1 - c) / IZR T) = 2 * PI * (IZR (t2 - t1) / IZR T) - 2 * PI).
    { rewrite !minus_IZR, plus_IZR. field. lra. }
    rewrite E. assert (Q : IZR (t2 - t1) / IZR T < 1).
    { apply (Rmult_lt_reg_r (IZR T)); [exact HR|]. unfold Rdiv. rewrite Rmult_assoc, Rinv_l, Rmult_1_r, Rmult_1_l by lra. apply IZR_lt. lia. }
    destruct (rlt_spec (2 * PI * (IZR (t2 - t1) / IZR T) - 2 * PI) (IZR 0)) as [_|N]; [|exfalso; apply N; nra].
    unfold real. cbn. f_equal. f_equal. ring.
  - unfold get_period. cbn [last last_last].
    rewrite !duration_exact by lia. replace (c - (c - T))%Z with T by lia. rewrite ex_position by lia.
    replace (t2 - c <? T)%Z with true by (symmetry; apply Z.ltb_lt; lia). cbv zeta.
    f_equal. f_equal. rewrite ex_int. set (u := 2 * PI * (IZR (t2 - c) / IZR T)). change (sub (F exact) (real u) (real (turned T c t1))) with (real (u - turned T c t1)).
    rewrite ex_lt. unfold turned, u.
    assert (E : 2 * PI * (IZR (t2 - c) / IZR T) - 2 * PI * (IZR (t1 - c) / IZR T) = 2 * PI * (IZR (t2 - t1) / IZR T)).
    { rewrite !minus_IZR. field. lra. }
    rewrite E. assert (Q : 0 <= IZR (t2 - t1) / IZR T).
    { unfold Rdiv. apply Rmult_le_pos; [apply IZR_le; lia|apply Rlt_le, Rinv_0_lt_compat; lra]. }
    destruct (rlt_spec (2 * PI * (IZR (t2 - t1) / IZR T)) (IZR 0)) as [N|_]; [exfalso; nra|]. reflexivity.
Qed.

(** C64. With barrier crossings at [t0] and [t1], the velocity at [t] is one turn per the longer of the last period and the time since
    the last crossing, and the position is the angle turned since then at that speed, or 0 if the period is over. *)
Theorem rpm_rotation t0 t1 t : (t0 < t1 <= t)%Z -> (t1 - t0 < 2 ^ 31)%Z -> (t - t1 < 2 ^ 31)%Z ->
  let c := {| last_last := stamp t0; last := stamp t1 |} in
  let v := 2 * PI / (IZR (Z.max (t1 - t0) (t - t1)) / 1000000) in
  let p := if (t - t1 <? t1 - t0)%Z then turned (t1 - t0) t1 t else 0 in
  rpm_get_velocity_and_position exact c (stamp t) = (real v, real p) /\ 0 <= p < 2 * PI /\
  rpm_get_velocity exact c (stamp t) = real v /\ rpm_get_position exact c (stamp t) = real p.
Proof.
  intros H H1 H2 c v p. pose proof PI_RGT_0 as Pp.
  assert (HT : 0 < IZR (t1 - t0)) by (apply IZR_lt; lia).
  assert (Sp : forall d, 0 < IZR d -> speed exact (real (IZR d / 1000000)) = real (2 * PI / (IZR d / 1000000))).
  { intros d Hd. unfold speed. rewrite !ex_int, ex_div by lra. unfold real. cbn. f_equal. f_equal. field. lra. }
  assert (Hd : timestamp_duration_s exact (stamp t1) (stamp t) = real (IZR (t - t1) / 1000000)) by (apply duration_exact; lia).
  assert (Hp : get_period exact c = real (IZR (t1 - t0) / 1000000)) by (apply duration_exact; lia).
  assert (B : 0 <= p < 2 * PI).
  { unfold p, turned. destruct (Z.ltb_spec (t - t1) (t1 - t0)) as [L|L]; [|lra].
    assert (0 <= IZR (t - t1) / IZR (t1 - t0)) by (unfold Rdiv; apply Rmult_le_pos; [apply IZR_le; lia|apply Rlt_le, Rinv_0_lt_compat; lra]).
    assert (IZR (t - t1) / IZR (t1 - t0) < 1).
    { apply (Rmult_lt_reg_r (IZR (t1 - t0))); [exact HT|]. unfold Rdiv. rewrite Rmult_assoc, Rinv_l, Rmult_1_r, Rmult_1_l by lra. apply IZR_lt. lia. }
    nra. }
  unfold rpm_get_velocity_and_position, rpm_get_velocity, rpm_get_position, position_of. rewrite Hp.
  replace (timestamp_duration_s exact (last c) (stamp t)) with (real (IZR (t - t1) / 1000000)) by (symmetry; exact Hd).
  cbv zeta. rewrite ex_lt. unfold v, p, turned.
  destruct (Z.ltb_spec (t - t1) (t1 - t0)) as [L|L].
  - rewrite Z.max_l by lia. apply IZR_lt in L. destruct (rlt_spec (IZR (t - t1) / 1000000) (IZR (t1 - t0) / 1000000)); [|exfalso; lra].
    rewrite Sp, ex_turn by exact HT. repeat split; apply B.
  - rewrite Z.max_r by lia. apply IZR_le in L. destruct (rlt_spec (IZR (t - t1) / 1000000) (IZR (t1 - t0) / 1000000)); [exfalso; lra|].
    rewrite Sp, ex_int by lra. repeat split; lra.
Qed.

(** * In single precision *)
Notation rnd24 := (round radix2 (SpecFloat.fexp 24 128) (round_mode mode_NE)).
Notation rnd53 := (round radix2 (SpecFloat.fexp 53 1024) (round_mode mode_NE)).
Lemma narrow_value (x : num binary64) (b : binary_float 24 128) r : value x = Some (Real r) -> Rabs r <= B2R b ->
  value (narrow ieee x) = Some (Real (rnd24 r)).
Proof.
  intros H Hb. destruct x as [s|[|]| |s mm e Hm]; try discriminate.
  - cbn in H. injection H as <-. cbn. f_equal. f_equal. symmetry. apply round_0, valid_rnd_N.
  - apply value_Real in H as [_ ->]. destruct (rnd_abs 24 128 prec24 b _ Hb) as [_ L]. cbn [narrow ieee convert].
    generalize (binary_normalize_correct 24 128 prec24 emax24 mode_NE (cond_Zopp s (Z.pos mm)) e s). cbv zeta.
    change (F2R {| Fnum := cond_Zopp s (Z.pos mm); Fexp := e |}) with (B2R (B754_finite s mm e Hm : binary_float 53 1024)).
    rewrite Rlt_bool_true by exact L. intros (E & Ff & _). rewrite value_finite by exact Ff. now rewrite E.
Qed.
Definition turn32 : binary_float 24 128 := narrow ieee (M_2PI ieee).
Lemma turn32_val : B2R turn32 = 13176795 * bpow radix2 (-21) /\ 2 * pi64 <= B2R turn32.
Proof.
  assert (E : B2R turn32 = 13176795 * bpow radix2 (-21)).
  { rewrite <- SF2R_B2SF. replace (B2SF turn32) with (SpecFloat.S754_finite false 13176795 (-21)) by (vm_compute; reflexivity). reflexivity. }
  split; [exact E|]. rewrite E, (proj1 pi64_val). unfold PosProofs.c. change (bpow radix2 (-21)) with (bpow radix2 (30 + -51)). rewrite bpow_plus.
  pose proof (bpow_gt_0 radix2 (-51)). cbn [bpow radix2 radix_val Z.pow_pos Pos.iter Z.mul Pos.mul]. cbn. nra.
Qed.
(** C64, C55. The position of the firmware, in float and double, is a number between 0 and the float nearest to 2 pi if the time since the last
    crossing is not negative. *)
Theorem rpm_position_partial c t : (0 <= timestamp_duration_us (last c) t)%Z ->
  exists r, value (rpm_get_position ieee c t) = Some (Real r) /\ 0 <= r <= 13176795 / 2097152.
Proof.
  intro H. destruct turn32_val as [TV TB]. pose proof pi64_pos as Pp.
  assert (TE : 13176795 / 2097152 = B2R turn32) by (rewrite TV; cbn; lra). rewrite TE.
  assert (T0 : 0 <= B2R turn32) by lra.
  destruct (duration_value (last c) t) as (d & _ & Ed & Vd). destruct (duration_value (last_last c) (last c)) as (e & _ & _ & Ve).
  set (x := rnd24 (d / 1000000)) in *. set (y := rnd24 (e / 1000000)) in *.
  assert (Z0 : B2R (of_int ieee 0) = 0) by (apply B2R_small; lia).
  assert (X0 : 0 <= x).
  { unfold x. rewrite <- Z0. apply (rnd_ge 24 128 prec24). rewrite Z0.
    assert (0 <= d). { rewrite Ed, <- Z0. apply (rnd_ge 24 128 prec24). rewrite Z0. apply IZR_le. exact H. } lra. }
  unfold rpm_get_position, position_of, get_period. change (lt (F ieee)) with (@Bltb 24 128). rewrite ieee_lt, Vd, Ve. cbn [xlt].
  destruct (rlt_spec x y) as [L|L].
  2: { exists 0. split; [apply small_int; lia|lra]. }
  unfold turn. set (fx := timestamp_duration_s ieee (last c) t) in *. set (fy := timestamp_duration_s ieee (last_last c) (last c)) in *.
  assert (O1 : B2R (of_int ieee 1) = 1) by (apply B2R_small; lia).
  assert (O2 : B2R (of_int ieee 2) = 2) by (apply B2R_small; lia).
  assert (Q : 0 <= x / y <= 1).
  { split; [apply Rmult_le_pos; [exact X0|apply Rlt_le, Rinv_0_lt_compat; lra]|].
    apply (Rmult_le_reg_r y); [lra|]. unfold Rdiv. rewrite Rmult_assoc, Rinv_l by lra. lra. }
  assert (B1 : Rabs (x / y) <= B2R (of_int ieee 1)) by (rewrite O1, Rabs_right; lra).
  pose proof (div_value 24 128 prec24 emax24 fx fy (of_int ieee 1) x y Vd Ve ltac:(lra) B1) as Vq.
  set (q := rnd24 (x / y)) in *.
  assert (Hq : 0 <= q <= 1).
  { unfold q. split; [rewrite <- Z0; apply (rnd_ge 24 128 prec24); rewrite Z0; lra|rewrite <- O1; apply (rnd_le 24 128 prec24); rewrite O1; lra]. }
  assert (B2 : Rabs (q * 2) <= B2R (of_int ieee 2)) by (rewrite O2, Rabs_right; lra).
  pose proof (mul_value 24 128 prec24 emax24 _ (of_int ieee 2) (of_int ieee 2) q 2 Vq (small_int 2 ltac:(lia)) B2) as Vw.
  set (w := rnd24 (q * 2)) in *.
  assert (Hw : 0 <= w <= 2).
  { unfold w. split; [rewrite <- Z0; apply (rnd_ge 24 128 prec24); rewrite Z0; lra|rewrite <- O2; apply (rnd_le 24 128 prec24); rewrite O2; lra]. }
  pose proof (value_widen (mul (F ieee) (div (F ieee) fx fy) (of_int ieee 2))) as Ww.
  change (mul (F ieee) (div (F ieee) fx fy) (of_int ieee 2)) with (@Bmult 24 128 prec24 emax24 mode_NE (Bdiv mode_NE fx fy) (of_int ieee 2)) in *.
  rewrite Vw in Ww.
  pose proof (value_Real 53 1024 _ _ m_2pi_value) as V2.
  assert (B3 : Rabs (w * pi64) <= B2R (M_2PI ieee : binary_float 53 1024)) by (rewrite <- (proj2 V2), Rabs_right; nra).
  pose proof (mul_value 53 1024 prec53 emax53 _ (m_pi ieee) (M_2PI ieee) w pi64 Ww m_pi_value B3) as Vz.
  set (z := rnd53 (w * pi64)) in *.
  assert (Z64 : B2R (ieee_lit 53 1024 _ _ 0 0) = 0) by reflexivity.
  assert (Hz : 0 <= z <= 2 * pi64).
  { unfold z. split; [rewrite <- Z64; apply (rnd_ge 53 1024 prec53); rewrite Z64; nra|].
    rewrite (proj2 V2). apply (rnd_le 53 1024 prec53). rewrite <- (proj2 V2). nra. }
  assert (B4 : Rabs z <= B2R turn32) by (rewrite Rabs_right; lra).
  pose proof (narrow_value _ turn32 z Vz B4) as Vr. exists (rnd24 z). split; [exact Vr|]. split.
  - rewrite <- Z0. apply (rnd_ge 24 128 prec24). rewrite Z0. lra.
  - apply (rnd_le 24 128 prec24). lra.
Qed.
(** The hypothesis is needed: rpm.c takes the time before it takes the lock. If the barrier is crossed between the two, the time since the last
    crossing is negative and the position is below 0. *)
Theorem rpm_position_race_refuted : exists c t ts p, timestamp_duration_us t ts = 1%Z /\
  rpm_get_position ieee (crossing c ts) t = p /\ lt (F ieee) p (of_int ieee 0) = true.
Proof. exists {| last_last := 0; last := 100000 |}, 199999%Z, 200000%Z. eexists. split; [reflexivity|]. split; [reflexivity|]. vm_compute. reflexivity. Qed.

(** * The cases are met *)
Local Close Scope R_scope.
(** Two lights are seen in one turn of 100 ms; the reader starts between them. *)
Definition case_events : list event :=
  [Hall 100000; Hall 200000; Light 210000 false; Light 220000 true; Reader; Reader; Light 290000 false; Hall 300000; Reader; Light 310000 true; Reader].
Example beacon_case : exists s o, run ieee (init ieee) case_events = OK (s, [o]) /\ held ieee s = [13] /\ mbox ieee s = [12] /\ length (free ieee s) = 12 /\
  length (measured ieee (sensor_init ieee) case_events) = 2 /\ length (accepted ieee (init ieee) case_events) = 2.
Proof.
  destruct (buffers_conserved ieee case_events) as (s & out & E & _).
  assert (H : match run ieee (init ieee) case_events with OK (s, o) => (length o, held ieee s, mbox ieee s, length (free ieee s)) | BAD => (0, [], [], 0) end = (1, [13], [12], 12)).
  { vm_compute. reflexivity. }
  rewrite E in H. destruct out as [|o [|? ?]]; cbn in H; try discriminate. injection H as H1 H2 H3.
  exists s, o. rewrite H1, H2, H3. repeat split; try exact E; vm_compute; reflexivity.
Qed.
(** Fifteen lights without a reader: the last one is lost. *)
Definition many : list event := flat_map (fun _ => [Light 5 false; Light 6 true]) (seq 0 15).
Example beacon_full : length (measured ieee (sensor_init ieee) many) = 15 /\ length (accepted ieee (init ieee) many) = 14.
Proof. split; vm_compute; reflexivity. Qed.
(** 4294967296 microseconds is when the clock wraps. *)
Example angles_case : exists x, cross exact x = {| last_last := stamp (4294900000 - 100000); last := stamp 4294900000 |} /\
  (4294900000 + 100000 <=? 4295010000)%Z = true /\ (stamp 4295010000 < stamp 4294950000)%Z.
Proof. exists {| active := false; start := real 0; cross := {| last_last := 4294800000; last := 4294900000 |} |}. repeat split. Qed.
Example rpm_case : (0 <= timestamp_duration_us (last {| last_last := 100; last := 4294967290 |}) 5)%Z.
Proof. vm_compute. discriminate. Qed.

Print Assumptions buffers_conserved.
Print Assumptions signals_in_order.
Print Assumptions none_lost.
Print Assumptions reader_drains.
Print Assumptions signal_angles.
Print Assumptions rpm_rotation.
Print Assumptions rpm_position_partial.
Print Assumptions rpm_position_race_refuted.
