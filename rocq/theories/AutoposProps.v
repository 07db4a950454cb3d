(** Theorems about the automatic positioning. *)
From Coq Require Import Reals Lra Psatz.
From Verif Require Import AutoposModel AutoposSpec.
Local Open Scope R_scope.

Lemma unit_angle a c s : c * c + s * s = 1 -> cos a * c + sin a * s = 1 -> cos a = c /\ sin a = s.
Proof.
  intros U H. pose proof (sin2_cos2 a) as T. unfold Rsqr in T.
  assert (Z : (cos a - c) * (cos a - c) + (sin a - s) * (sin a - s) = 0) by nra.
  apply Rplus_sqr_eq_0 in Z. lra.
Qed.
Lemma align_to len dir w w' b : dir = 1 \/ dir = -1 -> align len dir w w' -> (forall b', b' <> b -> approach dir (phys w) b' < approach dir (phys w) b) ->
  cos (A (phys w')) = dir * fst (towards b) /\ sin (A (phys w')) = dir * snd (towards b) /\ wall_distance b (phys w') = len /\
  (approach dir (phys w) b = 1 -> (exists d, phys w' = advance (phys w) d) /\ (exists d, odo w' = advance (odo w) d)).
Proof.
  intros D (b0 & B1 & B2 & B3 & B4) B. assert (b0 = b).
  { destruct b0, b; auto; exfalso;
      match goal with |- _ => idtac end;
      match type of B with (forall b', b' <> ?y -> _) => match type of B1 with (forall b', b' <> ?x -> _) => specialize (B x ltac:(discriminate)); specialize (B1 y ltac:(discriminate)); lra end end. }
  subst b0. unfold approach in B2.
  assert (E : dir * dir = 1) by (destruct D as [-> | ->]; ring).
  destruct (unit_angle (A (phys w')) (dir * fst (towards b)) (dir * snd (towards b))) as [C S].
  - destruct b; cbn; nra.
  - rewrite <- B2. ring.
  - repeat split; auto; apply B4; auto.
Qed.
Lemma RAD_0 : RAD 0 = 0. Proof. unfold RAD. lra. Qed.
Lemma RAD_180 : RAD 180 = PI. Proof. unfold RAD. field. Qed.
Lemma RAD_m90 : RAD (-90) = - (PI / 2). Proof. unfold RAD. field. Qed.
Lemma RAD_270 : RAD (180 - -90) = PI + PI / 2. Proof. unfold RAD. field. Qed.
Lemma cos_270 : cos (RAD (180 - -90)) = 0. Proof. rewrite RAD_270, cos_plus, cos_PI2, sin_PI. ring. Qed.
Lemma sin_270 : sin (RAD (180 - -90)) = -1. Proof. rewrite RAD_270, sin_plus, cos_PI2, sin_PI2, sin_PI, cos_PI. ring. Qed.
Lemma cos_m90 : cos (RAD (-90)) = 0. Proof. rewrite RAD_m90, cos_neg. apply cos_PI2. Qed.
Lemma sin_m90 : sin (RAD (-90)) = -1. Proof. rewrite RAD_m90, sin_neg, sin_PI2. ring. Qed.
Lemma turned a b t : cos a = cos b -> sin a = sin b -> cos (a + (t - b)) = cos t /\ sin (a + (t - b)) = sin t.
Proof.
  intros C S. replace (a + (t - b)) with (t + (a - b)) by ring. rewrite cos_plus, sin_plus, cos_minus, sin_minus, C, S. pose proof (sin2_cos2 b) as T. unfold Rsqr in T.
  split; [replace (cos b * cos b + sin b * sin b) with 1 by lra; ring|replace (cos b * cos b + sin b * sin b) with 1 by lra; ring].
Qed.

(** The state before the second alignment: the robot is at the abscissa asked for and turns its front to the bottom wall,
    and knows it. *)
Lemma first_half len dir x c w w1 : dir = 1 \/ dir = -1 -> set_down dir c w -> align len dir w w1 ->
  let w1 := if Rlt_dec dir 0 then position_set w1 (MIRROR_X c len) 0 (MIRROR_A c 0) else position_set w1 (MIRROR_X c len) 0 (MIRROR_A c 180) in
  let w1 := d_rel w1 (- dir * (MIRROR_X c x - len)) in
  let w1 := a_abs w1 (MIRROR_A c (-90)) in
  X (phys w1) = x /\ X (odo w1) = x /\ cos (A (phys w1)) = 0 /\ sin (A (phys w1)) = -1 /\ cos (A (odo w1)) = 0 /\ sin (A (odo w1)) = -1.
Proof.
  intros D H0 Al. apply (align_to _ _ _ _ (home c) D Al) in H0 as (C & S & W & _).
  assert (Kc : cos (RAD (MIRROR_A c (-90))) = 0) by (destruct c; [apply cos_m90|apply cos_270]).
  assert (Ks : sin (RAD (MIRROR_A c (-90))) = -1) by (destruct c; [apply sin_m90|apply sin_270]).
  assert (O : forall p, cos (A (phys w1)) = cos p -> sin (A (phys w1)) = sin p ->
    let w2 := mkWorld (phys w1) (mkPose (MIRROR_X c len) 0 p) in
    let w1 := a_abs (d_rel w2 (- dir * (MIRROR_X c x - len))) (MIRROR_A c (-90)) in
    X (phys w1) = x /\ X (odo w1) = x /\ cos (A (phys w1)) = 0 /\ sin (A (phys w1)) = -1 /\ cos (A (odo w1)) = 0 /\ sin (A (odo w1)) = -1).
  { intros p Cp Sp. cbn [a_abs d_rel advance phys odo X Y A].
    destruct (turned _ _ (RAD (MIRROR_A c (-90))) Cp Sp) as [T1 T2]. destruct (turned p p (RAD (MIRROR_A c (-90))) eq_refl eq_refl) as [T3 T4].
    rewrite T1, T2, T3, T4, Kc, Ks, <- Cp, C.
    assert (E : dir * dir = 1) by (destruct D as [-> | ->]; ring).
    destruct c; cbn [home towards fst snd wall_distance MIRROR_X] in *; repeat split; try reflexivity; nra. }
  cbv zeta. destruct (Rlt_dec dir 0) as [L|L].
  - assert (dir = -1) by lra. subst dir. destruct c; cbn [home towards fst snd] in C, S; cbn [MIRROR_A]; unfold position_set; apply O; unfold MIRROR_A.
    + rewrite C, RAD_0, cos_0. ring.
    + rewrite S, RAD_0, sin_0. ring.
    + rewrite C. replace (180 - 0) with 180 by ring. rewrite RAD_180, cos_PI. ring.
    + rewrite S. replace (180 - 0) with 180 by ring. rewrite RAD_180, sin_PI. ring.
  - assert (dir = 1) by lra. subst dir. destruct c; cbn [home towards fst snd] in C, S; cbn [MIRROR_A]; unfold position_set; apply O; unfold MIRROR_A.
    + rewrite C, RAD_180, cos_PI. ring.
    + rewrite S, RAD_180, sin_PI. ring.
    + rewrite C. replace (180 - 180) with 0 by ring. rewrite RAD_0, cos_0. ring.
    + rewrite S. replace (180 - 180) with 0 by ring. rewrite RAD_0, sin_0. ring.
Qed.
(** Facing the bottom wall exactly, a robot which moves forward goes to it, and one which moves backward to the top one. *)
Lemma facing dir w b : dir = 1 /\ b = Bottom \/ dir = -1 /\ b = Top -> cos (A (phys w)) = 0 -> sin (A (phys w)) = -1 ->
  (forall b', b' <> b -> approach dir (phys w) b' < approach dir (phys w) b) /\ approach dir (phys w) b = 1.
Proof.
  intros H C S. unfold approach. rewrite C, S. split; [intros b' N|]; destruct H as [[-> ->]|[-> ->]]; try destruct b'; cbn; try congruence; lra.
Qed.

(** With a robot which is calibrated forward: whatever it believed, and for both colours, the robot is where it was asked
    to be, and knows it. *)
Theorem auto_position_partial len x y heading c w w' : set_down 1 c w -> auto_position len 1 x y heading c w w' ->
  at_pose (phys w') x y heading /\ at_pose (odo w') x y heading.
Proof.
  intros H0 (w1 & w2 & A1 & H). cbv zeta in H. destruct H as [A2 ->].
  destruct (first_half len 1 x c w w1 ltac:(now left) H0 A1) as (X1 & X2 & C1 & S1 & C2 & S2).
  set (v := a_abs _ _) in *.
  destruct (facing 1 v Bottom ltac:(left; auto) C1 S1) as [F1 F2].
  apply (align_to _ _ _ _ Bottom ltac:(now left) A2) in F1 as (C & S & W & Sq). destruct (Sq F2) as [[d P] [d' O]].
  cbn [towards fst snd wall_distance] in *. unfold at_pose. cbn [a_abs d_rel position_set_y advance phys odo X Y A].
  assert (PX : X (phys w2) = x) by (rewrite P; cbn [advance X]; rewrite X1, C1; ring).
  assert (OX : X (odo w2) = x) by (rewrite O; cbn [advance X]; rewrite X2, C2; ring).
  assert (OA : A (odo w2) = A (odo v)) by (rewrite O; reflexivity).
  rewrite OA, C, S, C2, S2, PX, OX, W.
  destruct (turned (A (phys w2)) (A (odo v)) (RAD heading)) as [T1 T2]; [rewrite C, C2; ring|rewrite S, S2; ring|].
  destruct (turned (A (odo v)) (A (odo v)) (RAD heading) eq_refl eq_refl) as [T3 T4].
  rewrite T1, T2, T3, T4. repeat split; lra.
Qed.
(** With one which is calibrated backward it fails: the robot turns its front to the bottom wall but then moves backward,
    to the top wall. It ends at the mirrored ordinate and believes to be at yet another. *)
Theorem auto_position_backward len x y heading c w w' : set_down (-1) c w -> auto_position len (-1) x y heading c w w' ->
  at_pose (phys w') x (2000 - y) heading /\ at_pose (odo w') x (2 * len - y) heading.
Proof.
  intros H0 (w1 & w2 & A1 & H). cbv zeta in H. destruct H as [A2 ->].
  destruct (first_half len (-1) x c w w1 ltac:(now right) H0 A1) as (X1 & X2 & C1 & S1 & C2 & S2).
  set (v := a_abs _ _) in *.
  destruct (facing (-1) v Top ltac:(right; auto) C1 S1) as [F1 F2].
  apply (align_to _ _ _ _ Top ltac:(now right) A2) in F1 as (C & S & W & Sq). destruct (Sq F2) as [[d P] [d' O]].
  cbn [towards fst snd wall_distance] in *. unfold at_pose. cbn [a_abs d_rel position_set_y advance phys odo X Y A].
  assert (PX : X (phys w2) = x) by (rewrite P; cbn [advance X]; rewrite X1, C1; ring).
  assert (OX : X (odo w2) = x) by (rewrite O; cbn [advance X]; rewrite X2, C2; ring).
  assert (OA : A (odo w2) = A (odo v)) by (rewrite O; reflexivity).
  rewrite OA, C, S, C2, S2, PX, OX.
  destruct (turned (A (phys w2)) (A (odo v)) (RAD heading)) as [T1 T2]; [rewrite C, C2; ring|rewrite S, S2; ring|].
  destruct (turned (A (odo v)) (A (odo v)) (RAD heading) eq_refl eq_refl) as [T3 T4].
  rewrite T1, T2, T3, T4. repeat split; lra.
Qed.

(** Realignment of the ordinate alone, facing the bottom wall. *)
Theorem align_y_forward len y w w' : cos (A (phys w)) = 0 -> sin (A (phys w)) = -1 -> cos (A (odo w)) = 0 -> sin (A (odo w)) = -1 -> align_y len 1 y w w' ->
  Y (phys w') = y /\ Y (odo w') = y /\ X (phys w') = X (phys w) /\ X (odo w') = X (odo w) /\ A (phys w') = A (phys w) /\ A (odo w') = A (odo w).
Proof.
  intros C S C' S' (w1 & Al & ->). destruct (facing 1 w Bottom ltac:(left; auto) C S) as [F1 F2].
  apply (align_to _ _ _ _ Bottom ltac:(now left) Al) in F1 as (C1 & S1 & W & Sq). destruct (Sq F2) as [[d P] [d' O]].
  cbn [towards fst snd wall_distance] in *. cbn [d_rel position_set_y advance phys odo X Y A]. rewrite C1, S1.
  assert (OA : A (odo w1) = A (odo w)) by (rewrite O; reflexivity). assert (PA : A (phys w1) = A (phys w)) by (rewrite P; reflexivity).
  assert (PX : X (phys w1) = X (phys w)) by (rewrite P; cbn [advance X]; rewrite C; ring).
  assert (OX : X (odo w1) = X (odo w)) by (rewrite O; cbn [advance X]; rewrite C'; ring).
  rewrite OA, C', S', PX, OX, PA, W. repeat split; lra.
Qed.

(** There are such positionings, as at the start of a match (strategy.cpp:145), from a robot set down askew in the blue
    area. *)
Example ex_auto_position : exists w w', set_down 1 BLUE w /\ A (phys w) = PI / 6 /\ auto_position 100 1 (3000 - 250) 450 (180 - -90) BLUE w w'.
Proof.
  set (w := mkWorld (mkPose 2700 500 (PI / 6)) (mkPose 0 0 0)). exists w.
  assert (Ap : forall b, approach 1 (phys w) b = match b with Left => - (sqrt 3 / 2) | Right => sqrt 3 / 2 | Bottom => - (1 / 2) | Top => 1 / 2 end).
  { intro b. unfold approach. cbn [w phys A]. rewrite cos_PI6, sin_PI6. destruct b; cbn; lra. }
  assert (S3 : 1 < sqrt 3) by (rewrite <- sqrt_1; apply sqrt_lt_1; lra).
  set (w1 := mkWorld (mkPose 2900 480 0) (mkPose 7 7 7)).
  set (v := a_abs (d_rel (position_set w1 (3000 - 100) 0 (180 - 180)) (- (1) * (3000 - (3000 - 250) - 100))) (180 - -90)).
  assert (V : A (phys v) = RAD (180 - -90) /\ A (odo v) = RAD (180 - -90) /\ Y (phys v) = 480).
  { cbn [v a_abs d_rel advance position_set w1 phys odo A X Y]. replace (RAD (180 - 180)) with 0 by (unfold RAD; lra). rewrite sin_0. repeat split; lra. }
  destruct V as (V1 & V2 & V3).
  eexists. split; [|split].
  - intros b N. rewrite !Ap. destruct b; cbn in *; try congruence; lra.
  - reflexivity.
  - exists w1, (mkWorld (advance (phys v) 380) (advance (odo v) 400)). split; [|cbv zeta; split].
    + exists Right. split; [|split; [|split]].
      * intros b N. rewrite !Ap. destruct b; cbn in *; try congruence; lra.
      * unfold approach. cbn. rewrite cos_0, sin_0. lra.
      * cbn. lra.
      * rewrite Ap. intro E. exfalso. assert (sqrt 3 = 2) by lra. assert (sqrt 3 * sqrt 3 = 3) by (apply sqrt_sqrt; lra). nra.
    + destruct (Rlt_dec 1 0); [lra|]. cbn [MIRROR_X MIRROR_A]. fold v.
      assert (Av : forall p b, A p = RAD (180 - -90) -> approach 1 p b = match b with Bottom => 1 | Top => -1 | _ => 0 end).
      { intros p b E. unfold approach. rewrite E, cos_270, sin_270. destruct b; cbn; lra. }
      exists Bottom. split; [|split; [|split]].
      * intros b N. rewrite !Av by exact V1. destruct b; cbn in *; try congruence; lra.
      * apply Av. exact V1.
      * cbn [phys advance wall_distance Y]. rewrite V1, V3, sin_270. lra.
      * intros _. split; eexists; reflexivity.
    + reflexivity.
Qed.

Print Assumptions auto_position_partial.
Print Assumptions auto_position_backward.
Print Assumptions align_y_forward.
