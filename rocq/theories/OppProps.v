(** C88 and C89: where the master puts the opponent, and whether a movement runs into an obstacle. *)
From Coq Require Import ZArith Reals List Bool Lra Lia.
From Flocq Require Import Core.
From Verif Require Import CRes FloatModel PidSpec GeoModel GeoSpec GeoProofs GeoProps QuadModel QuadProps EncModel TrajModel TrajProofs TrajProps.
From Verif Require Import OppModel OppSpec OppProofs.
Import ListNotations.
Local Open Scope R_scope.

Lemma get_angle_turn s l : exists k : Z, beacon_get_angle s l = s + l / 2 + 2 * IZR k * PI.
Proof.
  unfold beacon_get_angle. cbv zeta. destruct (ltb PI _); [exists (-1)%Z; cbn; ring|]. destruct (ltb _ (- PI)); [exists 1%Z; cbn; ring|exists 0%Z; cbn; ring].
Qed.

(** The centre is seen under the angle [half]. *)
Lemma scan_shape p off c rad msg b : 0 < rad < gap (px p, py p) c ->
  c = (px p + gap (px p, py p) c * cos b, py p + gap (px p, py p) c * sin b) -> scan p off c rad msg ->
  (exists k : Z, start_angle msg + pa p + off - b = - half (gap (px p, py p) c) rad + 2 * IZR k * PI) /\
  length msg = 2 * half (gap (px p, py p) c) rad.
Proof.
  intros Hr Hc (Hl & Hs). set (D := gap _ _) in *. destruct (half_facts D rad Hr) as (W & _ & CW).
  apply interval; [exact W|exact Hl|]. intros u U. rewrite CW.
  specialize (Hs (u - pa p - off + b)). replace (u - pa p - off + b <= start_angle msg + length msg) with (u - pa p - off + b <= start_angle msg + length msg) in Hs by reflexivity.
  unfold sees in Hs. rewrite Hc in Hs.
  pose proof (meets_iff (px p, py p) D b rad (pa p + off + (u - pa p - off + b)) Hr) as M. cbn [fst snd] in M. rewrite M in Hs.
  replace (pa p + off + (u - pa p - off + b) - b) with u in Hs by ring. rewrite Hs by lra. lra.
Qed.

(** C88. The reflector is a disc of radius [radius] (m) at the centre of the opponent [c] (mm), the robot is outside of
    it, and the message of the beacon is what a whole turn gives. Then the published direction is that of the opponent,
    the published distance (m) is the length of the tangent to the reflector, and the point where the map server puts the
    opponent is between the robot and the opponent, nearer than the opponent by less than the square of the radius
    over the distance. *)
Theorem opponent_located radius off p c msg :
  let D := gap (px p, py p) c in
  0 < radius -> 1000 * radius < D -> scan p off c (1000 * radius) msg ->
  exists s b, beacon_cb (Some radius) (Some off) p msg = Some s /\
    c = (px p + D * cos b, py p + D * sin b) /\ same_direction (pa p + sangle s) b /\
    1000 * sdistance s = sqrt (D * D - 1000 * radius * (1000 * radius)) /\
    gap (opponent p s) c = D - 1000 * sdistance s /\ 0 < D - 1000 * sdistance s < 1000 * radius * (1000 * radius) / D.
Proof.
  intros D Hr HD Hs. destruct (direction (px p, py p) c) as (b & Hb). cbn [fst snd] in Hb. fold D in Hb.
  assert (Hr' : 0 < 1000 * radius < D) by lra.
  destruct (scan_shape p off c (1000 * radius) msg b Hr' Hb Hs) as ((k & K) & Ln). fold D in K, Ln. set (rad := 1000 * radius) in *.
  destruct (half_facts D rad Hr') as (W & TW & _). set (w := half D rad) in *. set (L := sqrt (D * D - rad * rad)) in *.
  assert (LL : L * L = D * D - rad * rad) by (apply sqrt_def; nra).
  assert (L0 : 0 < L) by (apply sqrt_lt_R0; nra).
  unfold beacon_cb. cbn [beacon_cartesian_convert]. destruct (get_angle_turn (start_angle msg + off) (length msg)) as (j & J).
  set (ang := beacon_get_angle _ _) in *. set (dist := radius / tan (length msg / 2)) in *.
  assert (Dist : 1000 * dist = L).
  { unfold dist. rewrite Ln. replace (2 * w / 2) with w by field. rewrite TW. unfold rad. field. unfold rad in *. split; lra. }
  assert (Ang : pa p + ang = b + 2 * IZR (k + j) * PI). { rewrite J, plus_IZR, Ln. lra. }
  eexists _, b. split; [reflexivity|]. cbn [sangle sdistance]. unfold rad in *.
  split; [exact Hb|]. split; [now exists (k + j)%Z|]. split; [exact Dist|].
  assert (LD : L < D) by nra.
  split.
  - rewrite Dist. unfold opponent, beacon_cartesian_convert. cbn [sdistance sangle]. rewrite Dist, Ang, cos_period', sin_period'.
    apply eq_sq; [apply gap_pos|lra|]. rewrite gap_sq, Hb. cbn [fst snd]. pose proof (sc b) as S.
    replace ((px p + D * cos b - (L * cos b + px p)) * (px p + D * cos b - (L * cos b + px p)) + (py p + D * sin b - (L * sin b + py p)) * (py p + D * sin b - (L * sin b + py p)))
      with ((D - L) * (D - L) * (sin b * sin b + cos b * cos b)) by ring. rewrite S. ring.
  - rewrite Dist. split; [lra|]. apply (Rmult_lt_reg_r D); [lra|]. unfold Rdiv. rewrite Rmult_assoc, Rinv_l by lra. nra.
Qed.

(** Every opponent outside of the beacon gives such a message. *)
Theorem opponent_scanned rad off p c : 0 < rad < gap (px p, py p) c -> exists msg, scan p off c rad msg.
Proof.
  intro Hr. set (D := gap _ _) in *. destruct (direction (px p, py p) c) as (b & Hb). cbn [fst snd] in Hb. fold D in Hb.
  destruct (half_facts D rad Hr) as (W & _ & CW). set (w := half D rad) in *. pose proof PI_RGT_0 as P0.
  exists (mkCan (b - w - pa p - off) (2 * w)). split; cbn [start_angle length]; [lra|]. intros th T.
  unfold sees. rewrite Hb. pose proof (meets_iff (px p, py p) D b rad (pa p + off + th) Hr) as M. cbn [fst snd] in M. rewrite M, <- CW.
  set (u := pa p + off + th - b). destruct (Rle_dec u PI) as [U|U].
  - unfold u in *. rewrite cos_ge_iff by lra. lra.
  - rewrite <- (cos_period' u (-1)). rewrite cos_ge_iff; [|exact W|unfold u in *; cbn; lra]. unfold u in *. cbn. lra.
Qed.

(** Without one of the two parameters nothing is published. *)
Theorem beacon_needs_parameters radius off p msg : radius = None \/ off = None -> beacon_cb radius off p msg = None.
Proof. intros [-> | ->]; [reflexivity|now destruct radius]. Qed.

(** The published angle is between -PI and PI, if the middle of the signal is at most one turn away. *)
Theorem beacon_angle_range radius off p msg s : beacon_cb (Some radius) (Some off) p msg = Some s ->
  - (3 * PI) <= start_angle msg + off + length msg / 2 <= 3 * PI -> - PI <= sangle s <= PI.
Proof.
  unfold beacon_cb, beacon_cartesian_convert. intros [= <-] H. cbn [sangle]. unfold beacon_get_angle. cbv zeta.
  set (a := start_angle msg + off + length msg / 2) in *. destruct (ltb_spec PI a); [lra|]. destruct (ltb_spec a (- PI)); lra.
Qed.

(** The position published with the signal is not that of the opponent: the distance in metres is added to the coordinates
    of the robot in millimetres, the published point is always nearer to the robot than the opponent by more than
    99.9 percent of its distance. *)
Theorem published_position_refuted radius off p c msg s :
  let D := gap (px p, py p) c in
  0 < radius -> 1000 * radius < D -> scan p off c (1000 * radius) msg -> beacon_cb (Some radius) (Some off) p msg = Some s ->
  gap (sx s, sy s) c > 999 / 1000 * D.
Proof.
  intros D Hr HD Hs Hm. destruct (opponent_located radius off p c msg Hr HD Hs) as (s' & b & E & Hb & (k & K) & Ds & _ & Lt). fold D in Hb, Ds, Lt.
  rewrite E in Hm. assert (s' = s) as -> by congruence.
  unfold beacon_cb, beacon_cartesian_convert in E. assert (E1 : s = mkSignal (sdistance s) (sangle s) (sdistance s * cos (pa p + sangle s) + px p) (sdistance s * sin (pa p + sangle s) + py p)) by (assert (F : forall a b : signal, Some a = Some b -> b = a) by congruence; apply F in E; now rewrite E at 1 2 3 4 5; rewrite E).
  rewrite E1. cbn [sx sy]. clear E1 E Hm. set (d := sdistance s) in *. rewrite K, cos_period', sin_period'.
  assert (d0 : 0 <= 1000 * d) by (rewrite Ds; apply sqrt_pos).
  replace (gap _ c) with (D - d); [lra|]. symmetry. apply eq_sq; [apply gap_pos|lra|]. rewrite gap_sq, Hb. cbn [fst snd]. pose proof (sc b) as S.
  replace ((px p + D * cos b - (d * cos b + px p)) * (px p + D * cos b - (d * cos b + px p)) + (py p + D * sin b - (d * sin b + py p)) * (py p + D * sin b - (d * sin b + py p)))
      with ((D - d) * (D - d) * (sin b * sin b + cos b * cos b)) by ring. rewrite S. ring.
Qed.

(** The map server places the opponent with the pose of the robot at the time it looks at the signal, not at the time of the
    signal: after a turn of [t] on the spot, the opponent is displaced by twice the distance times the sine of half the turn. *)
Theorem opponent_displaced p t s :
  gap (opponent p s) (opponent (mkPose (px p) (py p) (pa p + t)) s) = 2 * Rabs (1000 * sdistance s) * Rabs (sin (t / 2)).
Proof.
  apply eq_sq; [apply gap_pos|pose proof (Rabs_pos (1000 * sdistance s)); pose proof (Rabs_pos (sin (t / 2))); apply Rmult_le_pos; lra|].
  rewrite gap_sq. unfold opponent, beacon_cartesian_convert. cbn [fst snd px py pa]. set (d := 1000 * sdistance s). set (a := pa p + sangle s).
  replace (pa p + t + sangle s) with (a + t) by (unfold a; ring).
  replace (2 * Rabs d * Rabs (sin (t / 2)) * (2 * Rabs d * Rabs (sin (t / 2)))) with (4 * (Rabs d * Rabs d) * (Rabs (sin (t / 2)) * Rabs (sin (t / 2)))) by ring.
  rewrite <- !Rabs_mult, !(Rabs_pos_eq (_ * _)) by apply Rle_0_sqr.
  rewrite cos_plus, sin_plus. pose proof (sc a) as Sa. pose proof (sc t) as St.
  assert (H2 : cos t = 1 - 2 * sin (t / 2) * sin (t / 2)) by (rewrite <- cos_2a_sin; f_equal; field).
  set (u := sin (t / 2)) in *.
  replace ((d * (cos a * cos t - sin a * sin t) + px p - (d * cos a + px p)) * (d * (cos a * cos t - sin a * sin t) + px p - (d * cos a + px p)) +
           (d * (sin a * cos t + cos a * sin t) + py p - (d * sin a + py p)) * (d * (sin a * cos t + cos a * sin t) + py p - (d * sin a + py p)))
    with (d * d * ((sin a * sin a + cos a * cos a) * (sin t * sin t + cos t * cos t + 1 - 2 * cos t))) by ring.
  rewrite Sa, St, H2. ring.
Qed.

(** * C89 *)

Lemma to_s16_ok x : Rabs x < 32768 -> to_s16 x = OK (Ztrunc x).
Proof.
  intro H. unfold to_s16. apply Rabs_def2 in H. replace ((- 2 ^ 15 <=? Ztrunc x) && (Ztrunc x <? 2 ^ 15))%Z with true; [reflexivity|]. symmetry. apply andb_true_iff.
  assert (A : (-32768 <= Ztrunc x)%Z). { rewrite <- (Ztrunc_IZR (-32768)). apply Ztrunc_le. cbn. lra. }
  assert (B : (Ztrunc x < 32768)%Z).
  { destruct (Rle_dec 0 x) as [P|P].
    - rewrite Ztrunc_floor by lra. apply lt_IZR. eapply Rle_lt_trans; [apply Zfloor_lb|]. cbn. lra.
    - assert (Ztrunc x <= 0)%Z; [|lia]. rewrite <- (Ztrunc_IZR 0). apply Ztrunc_le. cbn. lra. }
  split; [apply Z.leb_le|apply Z.ltb_lt]; lia.
Qed.

(** C89. While the robot moves to a point, the answer is yes exactly if the straight way to this point goes through the
    inside of the obstacle, or the position of the robot rounded to millimetres is inside of it. *)
Theorem crosses_to_point r obstacle d ph tx ty :
  state r = RUNNING_XY d ph -> tgt r = Cart tx ty -> convex_ccw obstacle ->
  Rabs (pos_x r) < 32768 -> Rabs (pos_y r) < 32768 -> near (tx, ty) ->
  exists b, trajectory_crosses_obstacle r obstacle = OK b /\
    (b = true <-> enters obstacle (pos_x r, pos_y r) (tx, ty) \/
                  strictly_inside obstacle (IZR (Ztrunc (pos_x r)), IZR (Ztrunc (pos_y r)))).
Proof.
  intros Hs Ht Hc Hx Hy Hn. unfold trajectory_crosses_obstacle, movement_end. rewrite Hs, Ht. cbn [trajectory_is_cartesian read_cart rbind].
  rewrite (to_s16_ok _ Hx), (to_s16_ok _ Hy). cbn [rbind]. eexists. split; [reflexivity|].
  rewrite orb_true_iff. unfold math_point_is_in_square. rewrite !Z.eqb_eq.
  pose proof (crossing_correct_partial obstacle (pos_x r, pos_y r) (tx, ty) Hc) as C. unfold pt in C at 1 2. cbn [fst snd] in C.
  rewrite <- C by (exact Hn || (split; cbn [fst snd]; lra)).
  pose proof (in_poly_correct obstacle (IZR (Ztrunc (pos_x r)), IZR (Ztrunc (pos_y r))) Hc) as I. cbv zeta in I. destruct I as (I & _). unfold pt in I at 1. cbn [fst snd] in I.
  rewrite <- I. reflexivity.
Qed.

(** The obstacle of the counter-example, 200 mm in front of the robot. *)
Definition ahead : list (R * R) := [(1300, 900); (1300, 1100); (1200, 1100); (1200, 900)].
Lemma ahead_convex : convex_ccw ahead.
Proof.
  split; [cbn; lia|]. intros i j Hi Hj N1 N2. cbn in Hi, Hj.
  assert (i = 0 \/ i = 1 \/ i = 2 \/ i = 3)%nat as [-> |[-> |[-> | ->]]] by lia;
  assert (j = 0 \/ j = 1 \/ j = 2 \/ j = 3)%nat as [-> |[-> |[-> | ->]]] by lia;
    try (exfalso; now apply N1); try (exfalso; now apply N2); unfold orient, vertex, next; cbn; lra.
Qed.
Lemma ahead_inside p : strictly_inside ahead p <-> 1200 < fst p < 1300 /\ 900 < snd p < 1100.
Proof.
  rewrite inside_iff by exact ahead_convex. split.
  - intro H. pose proof (H 0%nat) as H0. pose proof (H 1%nat) as H1. pose proof (H 2%nat) as H2. pose proof (H 3%nat) as H3.
    unfold o, V, orient, vertex, next in *. cbn in *. specialize (H0 ltac:(lia)). specialize (H1 ltac:(lia)). specialize (H2 ltac:(lia)). specialize (H3 ltac:(lia)). lra.
  - intros [A B] i Hi. cbn in Hi. unfold o, V, orient, vertex, next.
    assert (i = 0 \/ i = 1 \/ i = 2 \/ i = 3)%nat as [-> |[-> |[-> | ->]]] by lia; cbn; lra.
Qed.

(** The robot of the counter-example: at (1000, 1000), turned by 3 degrees, with 8 steps of the encoders per mm. *)
Definition witness : robot := set_phys (set_pose ex_r 1000 1000 (RAD 3)) 8 200.

Lemma three_degrees : 0 < RAD 3 < 1 / 14 /\ 99 / 100 < cos (RAD 3) /\ 0 < sin (RAD 3) < 1 / 14.
Proof.
  pose proof PI_RGT_0. pose proof PI_4.
  assert (A : 0 < RAD 3 < 1 / 14) by (unfold RAD; lra). split; [exact A|].
  assert (S : 0 < sin (RAD 3) < 1 / 14). { pose proof PI2_3_2. split; [apply sin_gt_0; lra|]. pose proof (sin_lt_x (RAD 3) (proj1 A)). lra. }
  split; [|exact S]. pose proof PI2_3_2. assert (0 < cos (RAD 3)) by (apply cos_gt_0; lra). pose proof (sc (RAD 3)). nra.
Qed.

(** For a movement given as a distance the answer may be wrong: here the robot is told to advance by 500 mm, an obstacle is
    200 mm ahead, and the answer is no. (The distance is taken in steps of the encoders for a distance in mm, and the heading in
    degrees for an angle in radians.) *)
Theorem crosses_polar_refuted : exists r,
  trajectory_d_rel witness 500 = OK r /\
  enters ahead (pos_x r, pos_y r) (pos_x r + 500 * cos (pos_a r), pos_y r + 500 * sin (pos_a r)) /\
  trajectory_crosses_obstacle r ahead = OK false.
Proof.
  destruct three_degrees as (A & C & S).
  assert (T : to_int32 (500 * 8) = OK 4000%Z) by (replace (500 * 8) with (IZR 4000) by lra; apply to_int32_IZR; lia).
  exists (set_distance_target (set_angle_target (set_traj (delete_event witness) false RUNNING_D NoTarget) 0) 4000). split; [|split].
  - unfold trajectory_d_rel, goto_d_a_rel. cbn [distance_imp_per_mm witness ex_r robot_init set_pose set_phys set_traj delete_event set_quadramp_acc set_quadramp_speed set_cs set_angle_target]. cbn [rbind].
    match goal with |- context [int (0 + rs_get_angle ?x)] => change (int (0 + rs_get_angle x)) with (OK 0%Z) end. cbn [rbind].
    match goal with |- context [to_int32 ?x] => change (to_int32 x) with (to_int32 (500 * 8)) end. rewrite T. cbn [rbind].
    match goal with |- context [int (4000 + rs_get_distance ?x)] => change (int (4000 + rs_get_distance x)) with (OK 4000%Z) end. reflexivity.
  - change (enters ahead (1000, 1000) (1000 + 500 * cos (RAD 3), 1000 + 500 * sin (RAD 3))).
    exists (between (1000, 1000) (1000 + 500 * cos (RAD 3), 1000 + 500 * sin (RAD 3)) (1 / 2)). split; [exists (1 / 2); split; [lra|reflexivity]|].
    apply ahead_inside. unfold between. cbn [fst snd]. pose proof (COS_bound (RAD 3)). split; lra.
  - unfold trajectory_crosses_obstacle.
    assert (E : movement_end (set_distance_target (set_angle_target (set_traj (delete_event witness) false RUNNING_D NoTarget) 0) 4000)
                = OK (1000 + (4000 - 0) * cos (0 - 0 + 3), 1000 + (4000 - 0) * sin (0 - 0 + 3))).
    { assert (H : to_s16 (RAD 3 * (360 / (PI * 2))) = OK 3%Z).
      { pose proof PI_RGT_0. replace (RAD 3 * (360 / (PI * 2))) with (IZR 3) by (unfold RAD; field; lra). rewrite to_s16_ok by (rewrite Rabs_pos_eq; lra). now rewrite Ztrunc_IZR. }
      unfold movement_end. change (state _) with RUNNING_D. cbn [trajectory_is_cartesian].
      change (tgt _) with (Pol (Some 4000%Z) (Some 0%Z)). cbn [read_distance read_angle rbind]. change (pos_a _) with (RAD 3). rewrite H. cbn [rbind]. reflexivity. }
    rewrite E. cbn [rbind]. change (pos_x _) with 1000. change (pos_y _) with 1000. rewrite !to_s16_ok by (rewrite Rabs_pos_eq; lra). cbn [rbind].
    replace 1000 with (IZR 1000) by reflexivity. rewrite Ztrunc_IZR. f_equal. apply orb_false_iff.
    assert (C3 : cos (0 - 0 + 3) < 0). { replace (0 - 0 + 3) with 3 by ring. pose proof PI_4. pose proof PI2_3_2. apply cos_lt_0; lra. }
    set (tx := IZR 1000 + (4000 - 0) * cos (0 - 0 + 3)). set (ty := IZR 1000 + (4000 - 0) * sin (0 - 0 + 3)).
    assert (TX : tx <= 1000) by (unfold tx; lra).
    split; apply Z.eqb_neq; intro Q.
    + pose proof (crossing_correct_partial ahead (1000, 1000) (tx, ty) ahead_convex) as K. unfold pt in K at 1 2. cbn [fst snd] in K. apply K in Q.
      * destruct Q as (x & (t & Ht & ->) & I). apply ahead_inside in I. unfold between in I. cbn [fst snd] in I. nra.
      * split; cbn [fst snd]; rewrite Rabs_pos_eq; lra.
      * split; cbn [fst snd]; unfold tx, ty; pose proof (COS_bound (0 - 0 + 3)); pose proof (SIN_bound (0 - 0 + 3)); apply Rabs_le; lra.
    + pose proof (in_poly_correct ahead (1000, 1000) ahead_convex) as K. cbv zeta in K. destruct K as (K & _). unfold pt in K at 1. cbn [fst snd] in K. apply K in Q.
      apply ahead_inside in Q. cbn [fst snd] in Q. lra.
Qed.

(** The cases are met: an opponent at 1 m with a reflector of 4 cm, and a movement to a point through an obstacle. *)
Example located_case : exists msg, 0 < 4 / 100 /\ 1000 * (4 / 100) < gap (200, 1000) (1000, 400) /\ scan (mkPose 200 1000 1) (157 / 100) (1000, 400) (1000 * (4 / 100)) msg.
Proof.
  assert (G : gap (200, 1000) (1000, 400) = 1000).
  { unfold gap. cbn [fst snd]. replace ((1000 - 200) * (1000 - 200) + (400 - 1000) * (400 - 1000)) with (1000 * 1000) by ring. apply sqrt_square. lra. }
  destruct (opponent_scanned (1000 * (4 / 100)) (157 / 100) (mkPose 200 1000 1) (1000, 400)) as (msg & H); [cbn [px py]; rewrite G; lra|].
  exists msg. split; [lra|]. split; [rewrite G; lra|exact H].
Qed.
Example angle_range_case : - (3 * PI) <= 3 + 157 / 100 + (8 / 100) / 2 <= 3 * PI /\ PI < 3 + 157 / 100 + (8 / 100) / 2.
Proof. pose proof PI_4. pose proof PI2_3_2. lra. Qed.
Example to_point_case : let r := trajectory_goto_xy AUTO witness 1500 1000 in
  state r = RUNNING_XY AUTO START /\ tgt r = Cart 1500 1000 /\ convex_ccw ahead /\ Rabs (pos_x r) < 32768 /\ Rabs (pos_y r) < 32768 /\
  near (1500, 1000) /\ enters ahead (pos_x r, pos_y r) (1500, 1000).
Proof.
  cbv zeta. split; [reflexivity|]. split; [reflexivity|]. split; [exact ahead_convex|]. change (pos_x _) with 1000. change (pos_y _) with 1000.
  split; [rewrite Rabs_pos_eq; lra|]. split; [rewrite Rabs_pos_eq; lra|]. split; [split; cbn [fst snd]; rewrite Rabs_pos_eq; lra|].
  exists (between (1000, 1000) (1500, 1000) (1 / 2)). split; [exists (1 / 2); split; [lra|reflexivity]|]. apply ahead_inside. unfold between. cbn [fst snd]. lra.
Qed.

Print Assumptions opponent_located.
Print Assumptions opponent_scanned.
Print Assumptions beacon_needs_parameters.
Print Assumptions beacon_angle_range.
Print Assumptions published_position_refuted.
Print Assumptions opponent_displaced.
Print Assumptions crosses_to_point.
Print Assumptions crosses_polar_refuted.
