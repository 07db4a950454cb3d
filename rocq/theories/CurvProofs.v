From Coq Require Import ZArith Reals List Bool Lra Lia Psatz.
From Flocq Require Import Core.
From Verif Require Import CRes QuadModel LieSpec TrajModel TrajProofs QuadProps CurvModel CurvSpec.
Import ListNotations.
Local Open Scope R_scope.

Lemma cltb_spec a b : reflect (a < b) (ltb a b).
Proof. unfold ltb. destruct (Rlt_dec a b); now constructor. Qed.
Lemma ceqb0_spec a : reflect (a = 0) (eqb0 a).
Proof. unfold eqb0. destruct (Req_EM_T a 0); now constructor. Qed.
Lemma ltb_yes a b : a < b -> ltb a b = true.
Proof. intro. destruct (cltb_spec a b); auto; lra. Qed.
Lemma ltb_no a b : b <= a -> ltb a b = false.
Proof. intro. destruct (cltb_spec a b); auto; lra. Qed.
Lemma eqb0_no a : a <> 0 -> eqb0 a = false.
Proof. intro. destruct (ceqb0_spec a); auto; contradiction. Qed.

(** ** Angles *)
Lemma same_direction x y : cos x = cos y -> sin x = sin y -> Rabs (x - y) < 2 * PI -> x = y.
Proof.
  intros C S' H. apply Rabs_def2 in H. pose proof PI_RGT_0.
  assert (E : cos (x - y) = 1). { rewrite cos_minus, C, S'. pose proof (sin2_cos2 y). unfold Rsqr in *. lra. }
  replace (x - y) with (2 * ((x - y) / 2)) in E by field. rewrite cos_2a_sin in E.
  assert (Z : sin ((x - y) / 2) = 0) by nra.
  destruct (Rtotal_order x y) as [L|[L|L]]; auto; exfalso.
  - assert (sin ((x - y) / 2) < 0); [|lra]. replace ((x - y) / 2) with (- ((y - x) / 2)) by field. rewrite sin_neg.
    pose proof (sin_gt_0 ((y - x) / 2)). lra.
  - pose proof (sin_gt_0 ((x - y) / 2)). lra.
Qed.
Lemma seen_leads r q : heading_ok r -> let '(d, theta) := seen r q in leads r theta d q.
Proof.
  intro H. unfold seen. cbv beta iota. unfold heading_ok in H. pose proof (atan2_range (snd q - py r) (fst q - px r)) as A. pose proof PI_RGT_0.
  assert (B : Rabs (atan2 (snd q - py r) (fst q - px r) - pa r) <= 3 * PI).
  { set (b := atan2 _ _) in *. replace (b - pa r) with (b + - pa r) by ring. eapply Rle_trans; [apply Rabs_triang|]. rewrite Rabs_Ropp. lra. }
  destruct (smod_spec _ B) as [S1 S2]. split; [exact S2|]. split; [apply sqrt_pos|].
  unfold along, here. cbn [fst snd].
  destruct (same_cs (pa r + simple_modulo_2pi (atan2 (snd q - py r) (fst q - px r) - pa r)) (atan2 (snd q - py r) (fst q - px r))) as [E1 E2].
  { apply same_plus with (c := pa r) in S1. replace (pa r + (atan2 (snd q - py r) (fst q - px r) - pa r)) with (atan2 (snd q - py r) (fst q - px r)) in S1 by ring. exact S1. }
  rewrite E1, E2. destruct (atan2_polar (fst q - px r) (snd q - py r)) as [P1 P2]. cbv zeta in P1, P2. rewrite <- P1, <- P2. destruct q. cbn. f_equal; ring.
Qed.
Lemma seen_unique r q d phi : heading_ok r -> 0 < d -> - PI < phi < PI -> q = along (here r) (pa r + phi) d -> seen r q = (d, phi).
Proof.
  intros H D P Q. pose proof (seen_leads r q H) as L. unfold seen in *. set (dd := sqrt _) in *. set (th := simple_modulo_2pi _) in *.
  destruct L as (L1 & L2 & L3).
  assert (Dd : dd = d).
  { unfold dd. rewrite Q. unfold along, here. cbn [fst snd].
    replace ((px r + d * cos (pa r + phi) - px r) * (px r + d * cos (pa r + phi) - px r) + (py r + d * sin (pa r + phi) - py r) * (py r + d * sin (pa r + phi) - py r))
      with (d * d * ((sin (pa r + phi))² + (cos (pa r + phi))²)) by (unfold Rsqr; ring). rewrite sin2_cos2, Rmult_1_r. apply sqrt_square. lra. }
  rewrite Dd in *. f_equal. rewrite Q in L3. unfold along, here in L3. cbn [fst snd] in L3. injection L3 as X Y.
  assert (C1 : cos (pa r + th) = cos (pa r + phi)) by (apply Rmult_eq_reg_l with d; lra).
  assert (C2 : sin (pa r + th) = sin (pa r + phi)) by (apply Rmult_eq_reg_l with d; lra).
  apply Rabs_le_inv in L1. assert (pa r + th = pa r + phi); [|lra]. apply same_direction; auto. apply Rabs_def1; lra.
Qed.

(** ** Lines *)
Lemma sumsq_pos p q : p <> q -> 0 < (fst p - fst q) * (fst p - fst q) + (snd p - snd q) * (snd p - snd q).
Proof.
  destruct p as [a b], q as [c d]. cbn [fst snd]. intro N. pose proof (Rle_0_sqr (a - c)). pose proof (Rle_0_sqr (b - d)). unfold Rsqr in *.
  destruct (Req_dec a c) as [->|E]; [|pose proof (Rsqr_pos_lt (a - c)); unfold Rsqr in *; lra].
  destruct (Req_dec b d) as [->|E]; [now elim N|pose proof (Rsqr_pos_lt (b - d)); unfold Rsqr in *; lra].
Qed.
Lemma dist_pos p q : p <> q -> 0 < dist p q.
Proof. intro N. apply sqrt_lt_R0. now apply sumsq_pos. Qed.
Lemma line_angle p1 p2 : p1 <> p2 -> let a := atan2 (snd p2 - snd p1) (fst p2 - fst p1) in
  cos a = (fst p2 - fst p1) / dist p2 p1 /\ sin a = (snd p2 - snd p1) / dist p2 p1.
Proof.
  intros N a. destruct (atan2_polar (fst p2 - fst p1) (snd p2 - snd p1)) as [P1 P2]. fold a in P1, P2.
  fold (dist p2 p1) in P1, P2. assert (D : 0 < dist p2 p1) by (apply dist_pos; congruence).
  split; [rewrite P1|rewrite P2]; field; lra.
Qed.
Lemma proj_foot p1 p2 p : p1 <> p2 -> exists f, proj_pt_line p (pts2line p1 p2) = OK f /\ foot p1 p2 p f.
Proof.
  intro N. assert (N' : p2 <> p1) by congruence. pose proof (sumsq_pos _ _ N') as S'. destruct p1 as [x1 y1], p2 as [x2 y2], p as [x y]. unfold proj_pt_line, pts2line. cbn [la lb lc fst snd] in *.
  set (D := - (y2 - y1) * - - (y2 - y1) - (x2 - x1) * (x2 - x1)).
  assert (E : D = - ((x2 - x1) * (x2 - x1) + (y2 - y1) * (y2 - y1))) by (unfold D; ring). rewrite eqb0_no by lra. eexists. split; [reflexivity|]. rewrite E. split.
  - exists (((x - x1) * (x2 - x1) + (y - y1) * (y2 - y1)) / ((x2 - x1) * (x2 - x1) + (y2 - y1) * (y2 - y1))). cbn [fst snd]. f_equal; field; lra.
  - unfold dot, sub. cbn [fst snd]. field. lra.
Qed.
Lemma proj_degenerate p q : proj_pt_line q (pts2line p p) = BAD.
Proof. unfold proj_pt_line, pts2line. cbn [la lb lc]. replace (_ - _) with 0 at 1 by ring. unfold eqb0. destruct (Req_EM_T _ 0); [reflexivity|]. exfalso. apply n. ring. Qed.
Lemma pt_norm_dist p q : pt_norm p q = dist p q.
Proof. unfold pt_norm, dist. f_equal. ring. Qed.
Lemma aim_ok r p1 p2 advance : p1 <> p2 -> exists f q,
  aim r (pts2line p1 p2) (atan2 (snd p2 - snd p1) (fst p2 - fst p1)) advance = OK (f, q) /\
  foot p1 p2 (here r) f /\ further p1 p2 f q (Rmax 0 (advance - dist (here r) f)).
Proof.
  intro N. destruct (proj_foot p1 p2 (here r) N) as (f & E & F). unfold aim. fold (here r). rewrite E. cbn [rbind]. do 2 eexists. split; [reflexivity|]. split; [exact F|].
  destruct (line_angle p1 p2 N) as [-> ->]. rewrite pt_norm_dist. unfold further.
  replace (if ltb advance (dist (here r) f) then 0 else advance - dist (here r) f) with (Rmax 0 (advance - dist (here r) f)); [reflexivity|].
  destruct (cltb_spec advance (dist (here r) f)); [rewrite Rmax_left|rewrite Rmax_right]; lra.
Qed.
(** The point aimed at is no further than the larger of the distance to the line and the advance. *)
Lemma aim_near r p1 p2 advance f q : p1 <> p2 -> foot p1 p2 (here r) f -> further p1 p2 f q (Rmax 0 (advance - dist (here r) f)) -> 0 <= advance ->
  dist q (here r) <= Rmax advance (dist (here r) f).
Proof.
  intros N F Q A. set (e := dist (here r) f) in *. set (v := Rmax 0 (advance - e)) in *.
  assert (N' : p2 <> p1) by congruence. pose proof (dist_pos _ _ N') as Dp.
  assert (E0 : 0 <= e) by apply sqrt_pos.
  assert (Hv : 0 <= v /\ v + e <= Rmax advance e).
  { unfold v. destruct (Rle_dec advance e); [rewrite (Rmax_left 0), Rmax_right|rewrite (Rmax_right 0), Rmax_left]; lra. }
  assert (S2 : dist q (here r) = sqrt (v * v + e * e)).
  { unfold dist. f_equal. unfold further in Q. rewrite Q. cbn [fst snd].
    assert (Ee : e * e = (px r - fst f) * (px r - fst f) + (py r - snd f) * (py r - snd f)).
    { unfold e, dist. rewrite sqrt_sqrt; [reflexivity|]. apply Rplus_le_le_0_compat; apply Rle_0_sqr. }
    rewrite Ee. destruct F as [_ F]. unfold dot, sub, here in F. cbn [fst snd] in F. unfold here. cbn [fst snd].
    assert (U : ((fst p2 - fst p1) / dist p2 p1) * ((fst p2 - fst p1) / dist p2 p1) + ((snd p2 - snd p1) / dist p2 p1) * ((snd p2 - snd p1) / dist p2 p1) = 1).
    { assert (D2 : dist p2 p1 * dist p2 p1 = (fst p2 - fst p1) * (fst p2 - fst p1) + (snd p2 - snd p1) * (snd p2 - snd p1)) by (unfold dist; apply sqrt_sqrt; left; now apply sumsq_pos).
      replace (_ + _) with (((fst p2 - fst p1) * (fst p2 - fst p1) + (snd p2 - snd p1) * (snd p2 - snd p1)) / (dist p2 p1 * dist p2 p1)) by (field; lra). rewrite <- D2. field. lra. }
    assert (O : (px r - fst f) * ((fst p2 - fst p1) / dist p2 p1) + (py r - snd f) * ((snd p2 - snd p1) / dist p2 p1) = 0).
    { replace (_ + _) with (((px r - fst f) * (fst p2 - fst p1) + (py r - snd f) * (snd p2 - snd p1)) / dist p2 p1) by (field; lra). rewrite F. unfold Rdiv. ring. }
    set (ux := (fst p2 - fst p1) / dist p2 p1) in *. set (uy := (snd p2 - snd p1) / dist p2 p1) in *.
    transitivity (v * v * (ux * ux + uy * uy) - 2 * v * ((px r - fst f) * ux + (py r - snd f) * uy) + ((px r - fst f) * (px r - fst f) + (py r - snd f) * (py r - snd f))); [ring|].
    rewrite U, O. ring. }
  rewrite S2. apply Rle_trans with (v + e); [|apply Hv]. rewrite <- (sqrt_square (v + e)) by lra. apply sqrt_le_1_alt. nra.
Qed.
Lemma leads_dist r theta d q : leads r theta d q -> dist q (here r) = d.
Proof.
  intros (_ & D & ->). unfold dist, along, here. cbn [fst snd].
  replace (_ + _) with (d * d * ((sin (pa r + theta))² + (cos (pa r + theta))²)) by (unfold Rsqr; ring). rewrite sin2_cos2, Rmult_1_r. now apply sqrt_square.
Qed.

Lemma line_event_inv r p1 p2 advance t r' : heading_ok r -> p1 <> p2 -> 0 < a_start r -> tgt r = line_target p1 p2 advance t -> state r = RUNNING_LINE ->
  trajectory_manager_line_event r = OK r' ->
  exists f q theta d, foot p1 p2 (here r) f /\ further p1 p2 f q (Rmax 0 (advance - dist (here r) f)) /\ leads r theta d q /\ followed r theta d r'.
Proof.
  intros H N A T St E. unfold trajectory_manager_line_event in E. rewrite T in E. unfold line_target in E.
  destruct (aim_ok r p1 p2 advance N) as (f & q & E1 & F & Q). rewrite E1 in E. cbn [rbind] in E.
  pose proof (seen_leads r q H) as Le. destruct (seen r q) as [d theta]. rewrite (eqb0_no (a_start r)), andb_false_r in E by lra.
  dob E. dob E. dob E. dob E. cbn [set_quadramp_speed set_ramp state set_consign] in E. rewrite St in E. injection E as <-.
  exists f, q, theta, d. do 3 (split; [assumption|]). unfold followed. cbn. rewrite T, St.
  apply to_int32_inv in E0. apply int_inv in E2 as [-> _]. apply to_int32_inv in E3. apply int_inv in E4 as [-> _]. subst.
  repeat split; try reflexivity.
  - cbn. unfold pos_mm2imp, steps_mm. cbn. lia.
  - cbn. unfold pos_rd2imp, steps_rad. cbn. rewrite Z.add_comm. f_equal. f_equal. field.
  - unfold slowed, ltb. destruct (Rlt_dec (a_start r) (Rabs theta)); reflexivity.
Qed.
