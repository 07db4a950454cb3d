(** C86: the odometry from power-up, its integer pose and the correction of slips. *)
From Coq Require Import ZArith Reals List Bool Lra Lia Psatz.
From Flocq Require Import Core IEEE754.BinarySingleNaN.
From Verif Require Import CRes FloatModel FloatSpec FloatProofs PidSpec LieSpec PosModel PosSpec PosProofs PosProps.
Import ListNotations.
Local Open Scope R_scope.

(** Before a robot system is given, updates do nothing and the pose is the origin; choosing the encoders is not allowed. *)
Theorem odometry_unlinked es enc b :
  run exact rcos rsin (position_init exact) (map (fun e => Manage exact (fst e) (snd e)) es) = OK (position_init exact) /\
  pose (position_init exact) 0 0 0 /\
  (sx _ (position_init exact), sy _ (position_init exact), sa _ (position_init exact)) = (0, 0, 0)%Z /\
  run exact rcos rsin (position_init exact) [Use exact b enc] = BAD.
Proof.
  split; [|split; [|split; reflexivity]].
  - induction es as [|e es IH]; [reflexivity|exact IH].
  - unfold pose, position_init. cbn [px py pa]. rewrite dbl_exact. repeat split.
Qed.

(** The sequence of the robot at power-up: link, physical parameters, external encoders, pose. Updates then start from that
    pose and those counts, without correction of slips. *)
Theorem odometry_start track imp enc (x y : Z) (deg : R) : -32769 < deg < 32768 ->
  exists p, run exact rcos rsin (position_init exact)
    [SetSystem exact; SetParams exact (real track) (real imp); Use exact true enc; Set_ exact x y (real deg)] = OK p /\
  rs_set _ p = true /\ pose p (IZR x) (IZR y) (deg * PI / 180) /\ phys p track imp /\ centrifugal_coef _ p = real 0 /\
  use_ext _ p = true /\ (prev_distance _ p, prev_angle _ p) = enc /\ (sx _ p, sy _ p, sa _ p) = (x, y, Ztrunc deg).
Proof.
  intros H. cbn [run step rbind]. unfold position_use. cbn [rs_set position_set_physical_params position_set_related_robot_system position_init rbind].
  unfold position_set.
  assert (T : cast exact 16 (real deg) = OK (Ztrunc deg)).
  { unfold cast, real. cbn. replace (_ && _) with true; [reflexivity|]. symmetry. apply andb_true_iff.
    rewrite Z.leb_le, Z.ltb_lt. split.
    - destruct (Rle_dec 0 deg).
      + rewrite Ztrunc_floor by lra. apply Z.le_trans with 0%Z; [lia|]. apply Zfloor_lub. lra.
      + rewrite Ztrunc_ceil by lra. apply Z.lt_succ_r. apply lt_IZR. pose proof (Zceil_ub deg). rewrite succ_IZR. cbn. lra.
    - destruct (Rle_dec 0 deg).
      + rewrite Ztrunc_floor by lra. apply lt_IZR. pose proof (Zfloor_lb deg). cbn. lra.
      + rewrite Ztrunc_ceil by lra. apply Z.le_lt_trans with 0%Z; [|lia]. apply Zceil_glb. lra. }
  rewrite T. cbn [rbind]. eexists. split; [reflexivity|].
  unfold pose, phys. cbn [with_pose rs_set px py pa track_mm distance_imp_per_mm centrifugal_coef use_ext prev_distance prev_angle sx sy sa
    position_set_physical_params position_set_related_robot_system position_init fst snd].
  split; [reflexivity|]. split.
  - rewrite !dbl_exact. split; [reflexivity|]. split; [reflexivity|].
    change (m_pi exact) with (real PI). rewrite rmul, rdiv by lra. reflexivity.
  - split; [split; reflexivity|]. split; [apply dbl_exact|]. split; [reflexivity|]. split; [now destruct enc|reflexivity].
Qed.

Lemma cast_real n x z : cast exact n (real x) = OK z -> z = Ztrunc x.
Proof. unfold cast, real. cbn. destruct (_ && _); congruence. Qed.

(** The integer pose is the pose, in mm and degrees, rounded towards zero. *)
Theorem odometry_integer_pose p ext mot p' x' y' a' : rs_set _ p = true ->
  position_manage exact rcos rsin p ext mot = OK p' -> pose p' x' y' a' ->
  (sx _ p', sy _ p', sa _ p') = (Ztrunc x', Ztrunc y', Ztrunc (a' * 180 / PI)).
Proof.
  intros Rs E (Px & Py & Pa). unfold position_manage in E. rewrite Rs in E. cbn [negb] in E.
  dob E. dob E. destruct (displace _ _ _ _ _ _) as [[nx ny] na]. dob E. dob E. dob E. injection E as <-.
  cbn [with_pose px py pa sx sy sa] in *. subst nx ny na. apply cast_real in E2, E3. subst.
  revert E4. change (m_pi exact) with (real PI). pose proof PI_RGT_0. ex. rewrite rdiv by lra. ex. intro E4. apply cast_real in E4. subst.
  do 2 f_equal. field. lra.
Qed.

(** With a coefficient c for the slip, an update moves the pose of the update without it to the side, by
    2 c dd da / track for counts dd and da: to the right (outwards) in a turn to the left. *)
Theorem odometry_centrifugal p ext mot p' p0 c track imp x0 y0 a0 x y a : rs_set _ p = true ->
  pose p x y a -> phys p track imp -> 0 < track -> 0 < imp -> centrifugal_coef _ p = real c ->
  position_manage exact rcos rsin p ext mot = OK p' ->
  position_manage exact rcos rsin (position_set_centrifugal_coef exact p (real 0)) ext mot = OK p0 -> pose p0 x0 y0 a0 ->
  let enc := if use_ext _ p then ext else mot in
  let k := 2 * c * IZR (fst enc - prev_distance _ p) * IZR (snd enc - prev_angle _ p) / track in
  pose p' (x0 + k * sin a0) (y0 - k * cos a0) a0.
Proof.
  intros Rs (Px & Py & Pa) (Tr & Im) Ht Hi Co E E' (P0x & P0y & P0a) enc k. unfold position_manage in E, E'.
  cbn [position_set_centrifugal_coef rs_set use_ext prev_distance prev_angle] in E'. rewrite Rs in E, E'. cbn [negb] in E, E'. fold enc in E, E'.
  dob E. dob E. cbn [rbind] in E'. apply int_inv in E0 as [-> _]. apply int_inv in E1 as [-> _].
  set (dd := (fst enc - prev_distance exact p)%Z) in *. set (da := (snd enc - prev_angle exact p)%Z) in *.
  destruct (displace _ _ _ p dd da) as [[nx ny] na] eqn:D1.
  destruct (displace _ _ _ (position_set_centrifugal_coef exact p (real 0)) dd da) as [[mx my] ma] eqn:D0.
  dob E. dob E. dob E. dob E'. dob E'. dob E'. injection E as <-. injection E' as <-. clear - Px Py Pa Tr Im Ht Hi Co P0x P0y P0a D0 D1 k.
  unfold pose. cbn [with_pose px py pa] in *. subst mx my ma. revert D0 D1. unfold displace.
  cbn [position_set_centrifugal_coef pa px py track_mm distance_imp_per_mm centrifugal_coef]. rewrite Px, Py, Pa, Tr, Im, Co.
  destruct (Z.eqb_spec da 0) as [Z|Z].
  - assert (K : k = 0) by (unfold k; rewrite Z; unfold Rdiv; ring). rewrite K.
    replace (x0 + 0 * sin a0) with x0 by ring. replace (y0 - 0 * cos a0) with y0 by ring. intros -> D1. injection D1 as <- <- <-. auto.
  - assert (Hda : IZR da <> 0) by (apply not_0_IZR; exact Z).
    assert (Hti : track * imp <> 0) by (apply Rmult_integral_contrapositive_currified; lra).
    cbv zeta. ex. rewrite !rdiv by (try assumption; lra). ex.
    set (r := IZR dd * track / (IZR da * 2)). set (th := 2 * IZR da / (track * imp)).
    set (nx' := add (D exact) (real x) _). set (ny' := add (D exact) (real y) _). set (na' := if lt (D exact) _ _ then _ else _).
    clearbody nx' ny' na'. rewrite !req0. destruct (req_spec 0 0) as [_|N]; [|exfalso; now apply N]. cbn [negb andb].
    intros D0. assert (nx' = real x0 /\ ny' = real y0 /\ na' = real a0) as (-> & -> & ->) by (split; [|split]; congruence). clear D0.
    destruct (req_spec c 0) as [C|C]; cbn [negb andb].
    { assert (K : k = 0) by (unfold k; rewrite C; unfold Rdiv; ring). rewrite K.
      replace (x0 + 0 * sin a0) with x0 by ring. replace (y0 - 0 * cos a0) with y0 by ring. intros D1. injection D1 as <- <- <-. auto. }
    destruct (req_spec r 0) as [Hr|Hr]; cbn [negb].
    { assert (Q : IZR dd = 0). { unfold r in Hr. apply Rmult_eq_reg_r with (track / (IZR da * 2)); [unfold Rdiv in *; lra|].
        apply Rmult_integral_contrapositive_currified; [lra|]. apply Rinv_neq_0_compat. lra. }
      assert (K : k = 0) by (unfold k; rewrite Q; unfold Rdiv; ring). rewrite K.
      replace (x0 + 0 * sin a0) with x0 by ring. replace (y0 - 0 * cos a0) with y0 by ring. intros D1. injection D1 as <- <- <-. auto. }
    change (rsin (real a0)) with (real (sin a0)). change (rcos (real a0)) with (real (cos a0)).
    ex. rewrite rdiv by exact Hr. ex. intros D1. injection D1 as <- <- <-.
    assert (K : IZR dd * IZR dd / r * c = k).
    { unfold k, r. fold dd da. field. repeat split; try assumption; try lra. intro Q. apply Hr. unfold r. rewrite Q. unfold Rdiv. ring. }
    rewrite K. auto.
Qed.

Example start_case : exists p, run exact rcos rsin (position_init exact)
    [SetSystem exact; SetParams exact (real 200) (real 10); Use exact true (5, 7)%Z; Set_ exact 200 1000 (real 0)] = OK p /\
  pose p 200 1000 0 /\ exists q, position_manage exact rcos rsin p (5, 7)%Z (0, 0)%Z = OK q.
Proof.
  destruct (odometry_start 200 10 (5, 7)%Z 200 1000 0 ltac:(lra)) as (p & E & Rs & P & (_ & Im) & _ & Ue & En & _).
  exists p. replace (0 * PI / 180) with 0 in P by field. split; [exact E|]. split; [exact P|].
  unfold position_manage. rewrite Rs, Ue. cbn [negb fst snd]. injection En as -> ->. cbn [rbind int Z.sub].
  change (int (5 - 5)) with (@OK Z 0%Z). change (int (7 - 7)) with (@OK Z 0%Z). cbn [rbind]. unfold displace. cbn [Z.eqb].
  destruct P as (-> & -> & ->). rewrite Im. change (rcos (real 0)) with (real (cos 0)). change (rsin (real 0)) with (real (sin 0)). pose proof PI_RGT_0.
  change (m_pi exact) with (real PI). ex. rewrite !rdiv by lra. ex.
  assert (C : forall x z, Ztrunc x = z -> (-32768 <= z < 32768)%Z -> cast exact 16 (real x) = OK z).
  { intros x z <- Hz. unfold cast, real. cbn. replace (_ && _) with true; [reflexivity|]. symmetry. apply andb_true_iff. rewrite Z.leb_le, Z.ltb_lt. lia. }
  rewrite cos_0, sin_0. replace (200 + 1 * (0 / 10)) with 200 by field. replace (1000 + 0 * (0 / 10)) with 1000 by field.
  replace (0 * (360 / (PI * 2))) with 0 by (field; lra).
  rewrite (C _ _ (Ztrunc_IZR 200) ltac:(lia)), (C _ _ (Ztrunc_IZR 1000) ltac:(lia)), (C _ _ (Ztrunc_IZR 0) ltac:(lia)).
  eexists. reflexivity.
Qed.

Print Assumptions odometry_start.
Print Assumptions odometry_integer_pose.
Print Assumptions odometry_centrifugal.
