From Coq Require Import ZArith Reals List Bool Lra Lia Psatz.
From Flocq Require Import Core.
From Verif Require Import CRes QuadModel LieSpec TrajModel TrajProofs QuadProps CurvModel CurvSpec CurvProofs CurvProofs2.
Import ListNotations.
Local Open Scope R_scope.

(** ** Clitoids *)
Lemma intersect_on l1 l2 p : intersect_line l1 l2 = Some p ->
  la l1 * fst p + lb l1 * snd p + lc l1 = 0 /\ la l2 * fst p + lb l2 * snd p + lc l2 = 0.
Proof.
  destruct l1 as [a1 b1 c1], l2 as [a2 b2 c2]. unfold intersect_line. cbn [la lb lc].
  destruct (ceqb0_spec a1) as [A1|A1], (ceqb0_spec b1) as [B1|B1], (ceqb0_spec a2) as [A2|A2], (ceqb0_spec b2) as [B2|B2]; cbn [andb orb]; try discriminate;
    try (intros [= <-]; cbn [fst snd]; subst; split; field; auto; fail);
    try (destruct (ceqb0_spec (a2 * b1 - a1 * b2)) as [Dz|Dz]; [discriminate|]; intros [= <-]; cbn [fst snd]; subst; split; field; auto; fail).
Qed.

Lemma fresnel_x_eq Rd delta : 0 < Rd -> 0 < delta -> clothoid_x (Rd * delta) (Rd * sqrt delta) = fresnel_x Rd delta.
Proof.
  intros HR Hd. unfold clothoid_x, fresnel_x. assert (B : (Rd * sqrt delta) ^ 2 = Rd * Rd * delta).
  { transitivity (Rd * Rd * (sqrt delta * sqrt delta)); [ring|]. rewrite sqrt_sqrt by lra. reflexivity. }
  replace ((Rd * sqrt delta) ^ 4) with (((Rd * sqrt delta) ^ 2) ^ 2) by ring.
  replace ((Rd * sqrt delta) ^ 8) with (((Rd * sqrt delta) ^ 2) ^ 4) by ring.
  replace ((Rd * sqrt delta) ^ 12) with (((Rd * sqrt delta) ^ 2) ^ 6) by ring. rewrite B. field. lra.
Qed.
Lemma fresnel_y_eq Rd delta : 0 < Rd -> 0 < delta -> clothoid_y (Rd * delta) (Rd * sqrt delta) = fresnel_y Rd delta.
Proof.
  intros HR Hd. unfold clothoid_y, fresnel_y. assert (B : (Rd * sqrt delta) ^ 2 = Rd * Rd * delta).
  { transitivity (Rd * Rd * (sqrt delta * sqrt delta)); [ring|]. rewrite sqrt_sqrt by lra. reflexivity. }
  replace ((Rd * sqrt delta) ^ 6) with (((Rd * sqrt delta) ^ 2) ^ 3) by ring.
  replace ((Rd * sqrt delta) ^ 10) with (((Rd * sqrt delta) ^ 2) ^ 5) by ring.
  replace ((Rd * sqrt delta) ^ 14) with (((Rd * sqrt delta) ^ 2) ^ 7) by ring. rewrite B. field. lra.
Qed.
Lemma fresnel_y_pos Rd delta : 0 < Rd -> 0 < delta <= 4 -> 0 <= fresnel_y Rd delta.
Proof.
  intros HR Hd. unfold fresnel_y. apply Rmult_le_pos; [lra|].
  assert (Z : exists z, z = delta ^ 2 /\ 0 <= z <= 16) by (exists (delta ^ 2); split; [reflexivity|nra]). destruct Z as (z & Ez & Z).
  replace (delta ^ 2 / 6 - delta ^ 4 / 336 + delta ^ 6 / 42240 - delta ^ 8 / 9676800) with (z * (1 / 6 - z / 336 + z ^ 2 / 42240 - z ^ 3 / 9676800)) by (rewrite Ez; field).
  apply Rmult_le_pos; [lra|]. assert (0 <= z ^ 2 / 42240) by nra. assert (z ^ 3 <= 16 * 16 * 16).
  { assert (z ^ 2 <= 16 * 16) by nra. replace (z ^ 3) with (z ^ 2 * z) by ring. assert (0 <= z ^ 2) by nra. nra. }
  lra.
Qed.
Lemma resize_unit c s k d : c * c + s * s = 1 -> 0 < k -> vect_resize (k * c, k * s) d = (d * c, d * s).
Proof.
  intros U K. unfold vect_resize. cbn [fst snd]. replace (k * c * (k * c) + k * s * (k * s)) with (k * k * (c * c + s * s)) by ring. rewrite U, Rmult_1_r, sqrt_square by lra.
  f_equal; field; lra.
Qed.

Section Frame.
Variables (x y a alpha D d : R).
Hypothesis HD : 0 < D.
Hypothesis Ha : alpha <> 0.
Let I : point := (x + cos a * D, y + sin a * D).
Let pt2 : point := (fst I + cos (a + alpha), snd I + sin (a + alpha)).
Let e := side alpha.

Lemma center_on c : circle_center (x, y) I pt2 alpha d = Some c ->
  (fst c - fst I) * - sin a + (snd c - snd I) * cos a = e * d /\
  (fst c - fst I) * - sin (a + alpha) + (snd c - snd I) * cos (a + alpha) = e * d.
Proof.
  intro E. unfold circle_center in E. apply intersect_on in E. destruct E as [E1 E2].
  pose proof (sin2_cos2 a) as U1. pose proof (sin2_cos2 (a + alpha)) as U2. unfold Rsqr in U1, U2.
  unfold e, side. destruct (Rle_dec 0 alpha) as [P|P].
  - rewrite (ltb_yes 0 alpha) in E1 by lra. rewrite (ltb_no alpha 0) in E2 by lra.
    unfold vect_rot_trigo, vect_rot_retro, pt2, I, pts2line, line_translate in *. cbn [fst snd la lb lc] in *.
    replace (- (y + sin a * D - y)) with (D * - sin a) in E1 by ring. replace (x + cos a * D - x) with (D * cos a) in E1 by ring.
    rewrite (resize_unit (- sin a) (cos a) D d) in E1 by (auto; lra). cbn [fst snd] in E1.
    replace (y + sin a * D - (y + sin a * D + sin (a + alpha)), - (x + cos a * D - (x + cos a * D + cos (a + alpha)))) with (1 * - sin (a + alpha), 1 * cos (a + alpha)) in E2 by (f_equal; ring).
    rewrite (resize_unit (- sin (a + alpha)) (cos (a + alpha)) 1 d) in E2 by (try lra). cbn [fst snd] in E2. split.
    + apply Rmult_eq_reg_l with D; [|lra]. transitivity (D * (d * (sin a * sin a + cos a * cos a))); [|rewrite U1; ring]. lra.
    + transitivity (d * (sin (a + alpha) * sin (a + alpha) + cos (a + alpha) * cos (a + alpha))); [|rewrite U2; ring]. lra.
  - rewrite (ltb_no 0 alpha) in E1 by lra. rewrite (ltb_yes alpha 0) in E2 by lra.
    unfold vect_rot_trigo, vect_rot_retro, pt2, I, pts2line, line_translate in *. cbn [fst snd la lb lc] in *.
    replace (y + sin a * D - y) with (D * sin a) in E1 by ring. replace (- (x + cos a * D - x)) with (D * - cos a) in E1 by ring.
    rewrite (resize_unit (sin a) (- cos a) D d) in E1 by (auto; lra). cbn [fst snd] in E1.
    replace (- (y + sin a * D - (y + sin a * D + sin (a + alpha))), x + cos a * D - (x + cos a * D + cos (a + alpha))) with (1 * sin (a + alpha), 1 * - cos (a + alpha)) in E2 by (f_equal; ring).
    rewrite (resize_unit (sin (a + alpha)) (- cos (a + alpha)) 1 d) in E2 by (try lra). cbn [fst snd] in E2. split.
    + apply Rmult_eq_reg_l with D; [|lra]. transitivity (- (D * (d * (sin a * sin a + cos a * cos a)))); [|rewrite U1; ring]. lra.
    + transitivity (- (d * (sin (a + alpha) * sin (a + alpha) + cos (a + alpha) * cos (a + alpha)))); [|rewrite U2; ring]. lra.
Qed.

(** The center is as far before the crossing on the first line as after it on the second one. *)
Lemma center_symmetric c : Rabs alpha < PI -> circle_center (x, y) I pt2 alpha d = Some c ->
  exists k, k * cos (Rabs alpha / 2) = d * sin (Rabs alpha / 2) /\
  c = leftof (along I a (- k)) a (e * d) /\ c = leftof (along I (a + alpha) k) (a + alpha) (e * d).
Proof.
  intros B E. pose proof PI_RGT_0. destruct (center_on c E) as [E1 E2]. set (h := Rabs alpha / 2).
  assert (Hh : 0 < h < PI / 2) by (unfold h; pose proof (Rabs_pos_lt alpha Ha); lra).
  assert (Ch : 0 < cos h) by (apply cos_gt_0; lra). assert (Sh : 0 < sin h) by (apply sin_gt_0; lra).
  exists (d * sin h / cos h). set (k := d * sin h / cos h). assert (K : k * cos h = d * sin h) by (unfold k; field; lra). split; [exact K|].
  assert (Sa : sin alpha = e * (2 * sin h * cos h) /\ cos alpha = 1 - 2 * sin h * sin h).
  { unfold e, side, h. destruct (Rle_dec 0 alpha).
    - rewrite Rabs_pos_eq by lra. assert (X : alpha = 2 * (alpha / 2)) by field. split; rewrite X at 1; [rewrite sin_2a|rewrite cos_2a_sin]; ring.
    - rewrite Rabs_left by lra. assert (X : alpha = 2 * - (- alpha / 2)) by field. split; rewrite X at 1; [rewrite sin_2a|rewrite cos_2a_sin]; rewrite ?sin_neg, ?cos_neg; ring. }
  destruct Sa as [Sa Ca]. pose proof (sin2_cos2 a) as U. unfold Rsqr in U. pose proof (sin2_cos2 h) as Uh. unfold Rsqr in Uh.
  assert (Ee : e * e = 1) by (unfold e, side; destruct (Rle_dec 0 alpha); ring).
  rewrite sin_plus, cos_plus in E2. set (s := (fst c - fst I) * cos a + (snd c - snd I) * sin a).
  assert (X : fst c - fst I = s * cos a - e * d * sin a).
  { rewrite <- E1. unfold s. transitivity ((fst c - fst I) * (sin a * sin a + cos a * cos a)); [rewrite U; ring|ring]. }
  assert (Y : snd c - snd I = s * sin a + e * d * cos a).
  { rewrite <- E1. unfold s. transitivity ((snd c - snd I) * (sin a * sin a + cos a * cos a)); [rewrite U; ring|ring]. }
  assert (Q : - s * sin alpha + e * d * cos alpha = e * d).
  { rewrite <- E2 at 2. rewrite X, Y.
    transitivity ((- s * sin alpha + e * d * cos alpha) * (sin a * sin a + cos a * cos a)); [rewrite U; ring|ring]. }
  assert (Sk : s = - k).
  { rewrite Sa, Ca in Q. assert (Q2 : 2 * sin h * e * (s * cos h + d * sin h) = 0) by nra.
    assert (En : e <> 0) by (intro Z; rewrite Z in Ee; lra).
    apply Rmult_integral in Q2 as [Q2|Q2]; [apply Rmult_integral in Q2 as [Q2|Q2]; [lra|contradiction]|].
    apply Rmult_eq_reg_r with (cos h); lra. }
  assert (Cx : c = (fst I + (- k * cos a - e * d * sin a), snd I + (- k * sin a + e * d * cos a))).
  { rewrite Sk in X, Y. destruct c. cbn [fst snd] in *. f_equal; lra. }
  split; rewrite Cx; unfold leftof, along; cbn [fst snd]; [f_equal; ring|].
  assert (G1 : k * cos alpha - e * d * sin alpha = - k).
  { rewrite Sa, Ca. replace (e * d * (e * (2 * sin h * cos h))) with (e * e * (2 * cos h * (d * sin h))) by ring. rewrite Ee, <- K.
    replace 1 with (sin h * sin h + cos h * cos h) at 1 by exact Uh. transitivity (- k * (sin h * sin h + cos h * cos h)); [ring|rewrite Uh; ring]. }
  assert (G2 : k * sin alpha + e * d * cos alpha = e * d).
  { rewrite Sa, Ca. replace (k * (e * (2 * sin h * cos h))) with (e * 2 * sin h * (k * cos h)) by ring. rewrite K. ring. }
  rewrite cos_plus, sin_plus. f_equal.
  - transitivity (fst I + ((k * cos alpha - e * d * sin alpha) * cos a - (k * sin alpha + e * d * cos alpha) * sin a)); [rewrite G1, G2; ring|ring].
  - transitivity (snd I + ((k * cos alpha - e * d * sin alpha) * sin a + (k * sin alpha + e * d * cos alpha) * cos a)); [rewrite G1, G2; ring|ring].
Qed.
End Frame.

Lemma intersect_some l1 l2 : la l2 * lb l1 - la l1 * lb l2 <> 0 -> exists p, intersect_line l1 l2 = Some p.
Proof.
  destruct l1 as [a1 b1 c1], l2 as [a2 b2 c2]. cbn [la lb]. intro N. unfold intersect_line. cbn [la lb lc].
  destruct (ceqb0_spec a1) as [A1|A1], (ceqb0_spec b1) as [B1|B1], (ceqb0_spec a2) as [A2|A2], (ceqb0_spec b2) as [B2|B2]; cbn [andb orb]; subst; eauto; try (exfalso; apply N; ring); rewrite (eqb0_no _ N); eauto.
Qed.
Lemma center_some x y a alpha D d : 0 < D -> 0 < Rabs alpha < PI ->
  exists c, circle_center (x, y) (x + cos a * D, y + sin a * D) (x + cos a * D + cos (a + alpha), y + sin a * D + sin (a + alpha)) alpha d = Some c.
Proof.
  intros HD B. unfold circle_center. apply intersect_some. unfold line_translate, pts2line. cbn [la lb fst snd].
  replace (_ - _) with (- (D * sin alpha)).
  - assert (sin alpha <> 0); [|nra]. destruct (Rle_dec 0 alpha).
    + rewrite Rabs_pos_eq in B by lra. pose proof (sin_gt_0 alpha). lra.
    + rewrite Rabs_left in B by lra. pose proof (sin_gt_0 (- alpha)) as Q. rewrite sin_neg in Q. lra.
  - pose proof (sin2_cos2 a) as U. unfold Rsqr in U. rewrite sin_plus, cos_plus. transitivity (- (D * (sin alpha * (sin a * sin a + cos a * cos a)))); [rewrite U; ring|ring].
Qed.

Section Turn.
Variables (r : robot) (x y a al be Rm D : R).
Let alpha := RAD al.
Let beta := RAD be.
Let delta := Rabs (alpha - beta).
Let e := side alpha.
Let tau := (alpha - beta) / 2.
Hypothesis Him : 0 < imp_per_mm r.
Hypothesis Htr : 0 < track r.
Hypothesis Hhz : 0 < cs_hz r.
Hypothesis Hv : 0 < d_speed (spd r).
Hypothesis HR : 0 < Rm.
Hypothesis HD : 0 < D.
Hypothesis Hal : 0 < Rabs alpha < PI.
Hypothesis Hsg : 0 <= al * be.
Hypothesis Hbe : Rabs be < Rabs al.

Lemma rad_scale z : RAD z = z * (PI / 180).
Proof. unfold RAD. field. Qed.
Lemma turn_facts : (e = 1 /\ 0 < alpha < PI /\ 0 <= beta < alpha /\ delta = alpha - beta) \/ (e = -1 /\ - PI < alpha < 0 /\ alpha < beta <= 0 /\ delta = beta - alpha).
Proof.
  pose proof PI_RGT_0. unfold delta, e, side, alpha, beta in *. rewrite !rad_scale in *. set (u := PI / 180) in *. assert (U : 0 < u) by (unfold u; lra).
  assert (Al : al <> 0). { intros ->. rewrite Rmult_0_l, Rabs_R0 in Hal. lra. }
  destruct (Rle_dec 0 al) as [P|P].
  - left. assert (0 < al) by lra. assert (0 <= be) by (destruct (Rle_dec 0 be); [auto|nra]).
    rewrite (Rabs_pos_eq al), (Rabs_pos_eq be) in Hbe by lra. rewrite Rabs_pos_eq in Hal by nra. destruct (Rle_dec 0 (al * u)) as [|Q]; [|elim Q; nra].
    rewrite Rabs_pos_eq by nra. repeat split; try lra; nra.
  - right. assert (al < 0) by lra. assert (be <= 0) by (destruct (Rle_dec be 0); [auto|nra]).
    rewrite (Rabs_left al), (Rabs_left1 be) in Hbe by lra. rewrite Rabs_left in Hal by nra. destruct (Rle_dec 0 (al * u)) as [Q|_]; [nra|].
    rewrite Rabs_left by nra. repeat split; try lra; nra.
Qed.
Lemma delta_range : 0 < delta <= Rabs alpha.
Proof. destruct turn_facts as [(_ & A & B & ->)|(_ & A & B & ->)]; [rewrite Rabs_pos_eq by lra|rewrite Rabs_left by lra]; lra. Qed.
Lemma tau_abs : e * sin tau = sin (delta / 2) /\ cos tau = cos (delta / 2).
Proof.
  unfold tau. destruct turn_facts as [(-> & A & B & ->)|(-> & A & B & ->)]; [split; ring|].
  replace ((alpha - beta) / 2) with (- ((beta - alpha) / 2)) by field. rewrite sin_neg, cos_neg. split; ring.
Qed.

Let I : point := (x + cos a * D, y + sin a * D).
Let dm := fresnel_y Rm delta + Rm * cos tau.
Let xm := fresnel_x Rm delta.
(** How far before the crossing the first clothoid ends, on the line. *)
Let before := dm * tan (Rabs alpha / 2) - Rm * sin (delta / 2).
Lemma before_pos : 0 <= before.
Proof.
  pose proof PI_RGT_0. pose proof delta_range as Hd. destruct tau_abs as [_ Ct]. pose proof PI_4.
  assert (Ym : 0 <= fresnel_y Rm delta) by (apply fresnel_y_pos; lra).
  unfold before, dm. rewrite Ct. set (h := Rabs alpha / 2) in *. assert (Hh : 0 < h < PI / 2) by (unfold h; lra).
  assert (Ch : 0 < cos h) by (apply cos_gt_0; lra). assert (Sh : 0 < sin h) by (apply sin_gt_0; lra).
  unfold tan. assert (0 <= sin (h - delta / 2)) by (apply sin_ge_0; unfold h in *; lra). rewrite sin_minus in *.
  replace ((fresnel_y Rm delta + Rm * cos (delta / 2)) * (sin h / cos h) - Rm * sin (delta / 2)) with ((fresnel_y Rm delta * sin h + Rm * (sin h * cos (delta / 2) - cos h * sin (delta / 2))) / cos h) by (field; lra).
  apply Rmult_le_pos; [|left; apply Rinv_0_lt_compat; lra]. nra.
Qed.

Lemma turn_remain c : circle_center (x, y) I (fst I + cos (a + alpha), snd I + sin (a + alpha)) alpha dm = Some c ->
  let M := if ltb alpha 0 then (fst c + cos (a + PI / 2 + tau) * Rm, snd c + sin (a + PI / 2 + tau) * Rm)
           else (fst c + cos (a - PI / 2 + tau) * Rm, snd c + sin (a - PI / 2 + tau) * Rm) in
  exists p, proj_pt_line M (pts2line (x, y) I) = OK p /\ pt_norm p I = before.
Proof.
  intros E M. assert (An : alpha <> 0) by (intro Z; rewrite Z, Rabs_R0 in Hal; lra).
  destruct (center_symmetric x y a alpha D dm HD An c (proj2 Hal) E) as (k & K & C1 & _). fold I in C1. fold e in C1.
  assert (Me : M = (fst c + e * Rm * sin (a + tau), snd c - e * Rm * cos (a + tau))).
  { unfold M. destruct turn_facts as [(-> & A & _)|(-> & A & _)].
    - rewrite (ltb_no alpha 0) by lra. replace (a - PI / 2 + tau) with (- (PI / 2 - (a + tau))) by ring. rewrite cos_neg, sin_neg, cos_shift, sin_shift. f_equal; ring.
    - rewrite (ltb_yes alpha 0) by lra. replace (a + PI / 2 + tau) with (PI / 2 + (a + tau)) by ring. rewrite <- sin_cos, <- cos_sin || idtac.
      replace (PI / 2 + (a + tau)) with (PI / 2 - - (a + tau)) by ring. rewrite cos_shift, sin_shift, cos_neg, sin_neg. f_equal; ring. }
  pose proof (sin2_cos2 a) as U. unfold Rsqr in U. destruct tau_abs as [St Ct].
  assert (Ch : 0 < cos (Rabs alpha / 2)) by (pose proof PI_RGT_0; apply cos_gt_0; lra).
  assert (Kb : k = dm * tan (Rabs alpha / 2)) by (unfold tan; apply Rmult_eq_reg_r with (cos (Rabs alpha / 2)); [rewrite K; field; lra|lra]).
  assert (N : (x, y) <> I). { unfold I. intros [= X Y]. assert (cos a * D = 0) by lra. assert (sin a * D = 0) by lra. nra. }
  destruct (proj_foot (x, y) I M N) as (p & Ep & F). exists p. split; [exact Ep|].
  assert (P : p = along I a (- before)).
  { eapply foot_unique; [exact N|exact F|]. split.
    - exists ((D - before) / D). unfold along, I. cbn [fst snd]. f_equal; field; lra.
    - rewrite Me, C1. unfold dot, sub, along, leftof, I. cbn [fst snd]. rewrite sin_plus, cos_plus. unfold before. rewrite <- Kb, <- St.
      transitivity (D * (0 * (sin a * sin a + cos a * cos a))); [|ring].
      ring_simplify. nra. }
  rewrite P, pt_norm_dist. unfold dist, along. cbn [fst snd].
  replace (_ + _) with (before * before * (sin a * sin a + cos a * cos a)) by ring. rewrite U, Rmult_1_r. apply sqrt_square, before_pos.
Qed.

Lemma turn_calc Amax : calc_clitoid r x y a al be Rm (d_speed (spd r)) Amax D =
  OK (if Rlt_dec Amax (turn_acc r Rm delta) then None else if Rlt_dec D (turn_length Rm delta (Rabs alpha)) then None
      else Some (turn_acc r Rm delta, turn_speed r Rm, D - turn_length Rm delta (Rabs alpha))).
Proof.
  unfold calc_clitoid. rewrite (ltb_yes _ _ Hbe). cbn [negb]. pose proof delta_range as Hd.
  assert (Vm : 0 < speed_imp2mm r (d_speed (spd r))) by (unfold speed_imp2mm; apply Rdiv_lt_0_compat; nra).
  rewrite (eqb0_no Rm), (eqb0_no (speed_imp2mm _ _)), (eqb0_no D) by lra. cbn [orb]. fold alpha beta.
  replace (Rabs ((alpha - beta) * Rm / speed_imp2mm r (d_speed (spd r)))) with (delta * Rm / speed_imp2mm r (d_speed (spd r))).
  2:{ unfold Rdiv. rewrite !Rabs_mult, (Rabs_pos_eq Rm), (Rabs_pos_eq (/ _)) by (try lra; left; apply Rinv_0_lt_compat; lra). reflexivity. }
  replace (acc_rd2imp r _) with (turn_acc r Rm delta).
  2:{ unfold turn_acc, turn_speed, acc_rd2imp, speed_imp2mm, steps_mm. field. repeat split; lra. }
  replace (speed_rd2imp r _) with (turn_speed r Rm).
  2:{ unfold turn_speed, speed_rd2imp, speed_imp2mm. field. repeat split; lra. }
  replace (speed_imp2mm r (d_speed (spd r)) * (delta * Rm / speed_imp2mm r (d_speed (spd r)))) with (Rm * delta) by (field; lra).
  fold delta. rewrite fresnel_x_eq, fresnel_y_eq by lra. fold tau. fold dm. fold xm. fold I.
  destruct (cltb_spec Amax (turn_acc r Rm delta)); destruct (Rlt_dec Amax (turn_acc r Rm delta)); try contradiction; [reflexivity|].
  destruct (center_some x y a alpha D dm HD Hal) as [c Ec]. fold I in Ec. change (x + cos a * D) with (fst I) in Ec. change (y + sin a * D) with (snd I) in Ec. rewrite Ec.
  destruct (turn_remain c Ec) as (p & Ep & Np). cbv zeta in Ep. rewrite Ep. cbn [rbind]. rewrite Np.
  assert (Tl : before + xm = turn_length Rm delta (Rabs alpha)). { unfold before, xm, turn_length, dm. destruct tau_abs as [_ ->]. reflexivity. }
  rewrite Tl. set (tl := turn_length _ _ _). destruct (cltb_spec (D - tl) 0), (Rlt_dec D tl); try lra; reflexivity.
Qed.

Lemma turn_path c : circle_center (x, y) I (fst I + cos (a + alpha), snd I + sin (a + alpha)) alpha dm = Some c ->
  let tl := turn_length Rm delta (Rabs alpha) in
  c = leftof (after_clothoid (along I a (- tl)) a e Rm delta) (a + tau) (e * Rm) /\
  c = leftof (before_clothoid (along I (a + alpha) tl) (a + alpha) e Rm delta) (a + alpha - tau) (e * Rm).
Proof.
  intros E tl. assert (An : alpha <> 0) by (intro Z; rewrite Z, Rabs_R0 in Hal; lra).
  destruct (center_symmetric x y a alpha D dm HD An c (proj2 Hal) E) as (k & K & C1 & C2). fold I in C1, C2. fold e in C1, C2.
  assert (Ch : 0 < cos (Rabs alpha / 2)) by (pose proof PI_RGT_0; apply cos_gt_0; lra).
  assert (Kb : k = dm * tan (Rabs alpha / 2)) by (unfold tan; apply Rmult_eq_reg_r with (cos (Rabs alpha / 2)); [rewrite K; field; lra|lra]).
  destruct tau_abs as [St Ct].
  assert (Tl : tl = k - Rm * (e * sin tau) + xm). { unfold tl, turn_length. rewrite Kb, St. unfold dm, xm. rewrite Ct. reflexivity. }
  unfold after_clothoid, before_clothoid. fold xm. rewrite Tl. unfold dm in C1, C2. set (ym := fresnel_y Rm delta) in *. split; [rewrite C1|rewrite C2]; unfold leftof, along; cbn [fst snd].
  - rewrite !sin_plus, !cos_plus. f_equal; ring.
  - rewrite (sin_minus (a + alpha) tau), (cos_minus (a + alpha) tau). f_equal; ring.
Qed.
End Turn.
