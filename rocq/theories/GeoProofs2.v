From Coq Require Import ZArith Reals List Bool Lra Lia Psatz.
From Flocq Require Import Core.
From Verif Require Import FloatModel FloatSpec FloatProofs PidSpec GeoModel GeoSpec GeoProofs.
Import ListNotations.
Local Open Scope R_scope.

(** * Lines *)

Lemma intersect_line_exact a1 b1 c1 a2 b2 c2 :
  let r := intersect_line exact_fmt {| la := real a1; lb := real b1; lc := real c1 |}
                                    {| la := real a2; lb := real b2; lc := real c2 |} in
  (((a1 = 0 /\ b1 = 0) \/ (a2 = 0 /\ b2 = 0)) /\ r = (0%Z, None)) \/
  (~ (a1 = 0 /\ b1 = 0) /\ ~ (a2 = 0 /\ b2 = 0) /\ a2 * b1 - a1 * b2 = 0 /\
     ((a1 * c2 = a2 * c1 /\ b1 * c2 = b2 * c1 /\ r = (2%Z, None)) \/
      (~ (a1 * c2 = a2 * c1 /\ b1 * c2 = b2 * c1) /\ r = (0%Z, None)))) \/
  (a2 * b1 - a1 * b2 <> 0 /\ exists x y, r = (1%Z, Some (real x, real y)) /\
     a1 * x + b1 * y + c1 = 0 /\ a2 * x + b2 * y + c2 = 0).
Proof.
  cbv zeta. unfold intersect_line. cbn [la lb lc]. exs.
  destruct (req_spec a1 0) as [A1|A1]; destruct (req_spec b1 0) as [B1|B1]; cbn [andb orb].
  { left. auto. }
  all: destruct (req_spec a2 0) as [A2|A2]; destruct (req_spec b2 0) as [B2|B2]; cbn [andb orb];
    try (left; split; [right; auto|reflexivity]).
  - (* both horizontal *)
    right. left. split; [tauto|]. split; [tauto|]. split; [rewrite A1, A2; ring|].
    destruct (req_spec (b1 * c2) (b2 * c1)) as [E|E]; [left|right].
    + split; [rewrite A1, A2; ring|]. auto.
    + split; [tauto|reflexivity].
  - right. right. split; [rewrite A1, B2; intro E; apply (Rmult_integral_contrapositive_currified _ _ A2 B1); lra|].
    rewrite !div_exact by auto using Rmult_integral_contrapositive_currified.
    do 2 eexists. split; [reflexivity|]. rewrite A1, B2. split; field; auto.
  - right. right. split; [rewrite A1; intro E; apply (Rmult_integral_contrapositive_currified _ _ A2 B1); lra|].
    rewrite !div_exact by auto using Rmult_integral_contrapositive_currified.
    do 2 eexists. split; [reflexivity|]. rewrite A1. split; field; auto.
  - (* l1 vertical, l2 horizontal *)
    right. right. split; [rewrite B1, A2; intro E; apply (Rmult_integral_contrapositive_currified _ _ A1 B2); lra|].
    rewrite !div_exact by auto using Rmult_integral_contrapositive_currified.
    do 2 eexists. split; [reflexivity|]. rewrite A2, B1. split; field; auto.
  - right. left. split; [tauto|]. split; [tauto|]. split; [rewrite B1, B2; ring|].
    destruct (req_spec (a1 * c2) (a2 * c1)) as [E|E]; [left|right].
    + split; [auto|]. split; [rewrite B1, B2; ring|auto].
    + split; [tauto|reflexivity].
  - right. right. split; [rewrite B1; intro E; apply (Rmult_integral_contrapositive_currified _ _ A1 B2); lra|].
    rewrite !div_exact by auto using Rmult_integral_contrapositive_currified.
    do 2 eexists. split; [reflexivity|]. rewrite B1. split; field; auto.
  - right. destruct (req_spec (a2 * b1 - a1 * b2) 0) as [D|D].
    { exfalso. rewrite A2 in D. apply (Rmult_integral_contrapositive_currified _ _ A1 B2). lra. }
    right. split; [exact D|].
    rewrite !div_exact by auto using Rmult_integral_contrapositive_currified.
    do 2 eexists. split; [reflexivity|]. split; field; auto.
  - right. destruct (req_spec (a2 * b1 - a1 * b2) 0) as [D|D].
    { exfalso. rewrite B2 in D. apply (Rmult_integral_contrapositive_currified _ _ A2 B1). lra. }
    right. split; [exact D|].
    rewrite !div_exact by auto using Rmult_integral_contrapositive_currified.
    do 2 eexists. split; [reflexivity|]. split; field; auto.
  - right. destruct (req_spec (a2 * b1 - a1 * b2) 0) as [D|D].
    + left. split; [tauto|]. split; [tauto|]. split; [exact D|].
      assert (I : a1 * c2 = a2 * c1 -> b1 * c2 = b2 * c1).
      { intro E. apply Rmult_eq_reg_l with a1; [|exact A1].
        transitivity (b1 * (a1 * c2)); [ring|]. rewrite E. transitivity ((a2 * b1) * c1); [ring|].
        replace (a2 * b1) with (a1 * b2) by lra. ring. }
      destruct (req_spec (a1 * c2) (a2 * c1)) as [E|E]; [left|right]; [auto|]. split; [tauto|reflexivity].
    + right. split; [exact D|].
      rewrite !div_exact by auto using Rmult_integral_contrapositive_currified.
      do 2 eexists. split; [reflexivity|]. split; field; auto.
Qed.

(** * Segments *)

Lemma orient_between a b p q t : orient a b (between p q t) = orient a b p + t * (orient a b q - orient a b p).
Proof. unfold orient, between. cbn [fst snd]. ring. Qed.
Lemma orient_swap a b p q : orient p q b - orient p q a = - (orient a b q - orient a b p).
Proof. unfold orient. ring. Qed.

Lemma between_near p q t : near p -> near q -> 0 <= t <= 1 -> near (between p q t).
Proof.
  assert (G : forall x y, Rabs x <= 32768 -> Rabs y <= 32768 -> 0 <= t <= 1 -> Rabs (x + t * (y - x)) <= 32768).
  { intros x y Hx Hy Ht. apply Rabs_le_inv in Hx. apply Rabs_le_inv in Hy. apply Rabs_le. nra. }
  intros [P1 P2] [Q1 Q2] Ht. split; cbn [between fst snd]; apply G; auto.
Qed.

Lemma rdot_between p q t : rdot (between p q t) p q =
  t * (t - 1) * ((fst q - fst p) * (fst q - fst p) + (snd q - snd p) * (snd q - snd p)).
Proof. unfold rdot, between. cbn [fst snd]. ring. Qed.

Lemma square_pos (a b : rpoint) : a <> b ->
  0 < (fst b - fst a) * (fst b - fst a) + (snd b - snd a) * (snd b - snd a).
Proof.
  intro N. pose proof (Rle_0_sqr (fst b - fst a)). pose proof (Rle_0_sqr (snd b - snd a)). unfold Rsqr in *.
  destruct (Req_dec (fst b - fst a) 0) as [Z1|Z1]; [|pose proof (Rsqr_pos_lt _ Z1); unfold Rsqr in *; lra].
  destruct (Req_dec (snd b - snd a) 0) as [Z2|Z2]; [|pose proof (Rsqr_pos_lt _ Z2); unfold Rsqr in *; lra].
  exfalso. apply N. destruct a, b. cbn in *. f_equal; lra.
Qed.

Lemma rdot_sign p q t : p <> q ->
  (rlt 0 (rdot (between p q t) p q) = true <-> ~ (0 <= t <= 1)) /\
  (req (rdot (between p q t) p q) 0 = true <-> t = 0 \/ t = 1).
Proof.
  intro N. rewrite rdot_between. pose proof (square_pos p q N) as S.
  set (k := (fst q - fst p) * (fst q - fst p) + (snd q - snd p) * (snd q - snd p)) in *.
  split.
  - destruct (rlt_spec 0 (t * (t - 1) * k)) as [L|L]; split; intro H; auto; try discriminate.
    + intro T. assert (t * (t - 1) <= 0) by nra. nra.
    + exfalso. apply H. assert (t * (t - 1) <= 0) by nra. split; nra.
  - destruct (req_spec (t * (t - 1) * k) 0) as [L|L]; split; intro H; auto; try discriminate.
    + apply Rmult_integral in L as [L|L]; [|lra]. apply Rmult_integral in L as [L|L]; [left|right]; lra.
    + exfalso. apply L. destruct H as [-> | ->]; ring.
Qed.

(** The code returned for a segment [p, q] and a side [a, b]. *)
Definition code (p q a b : rpoint) : Z := fst (intersect_segment exact_fmt (pt p) (pt q) (pt a) (pt b)).

Lemma pts2line_exact p q : pts2line exact_fmt (pt p) (pt q) =
  {| la := real (- (snd q - snd p)); lb := real (fst q - fst p);
     lc := real (- (- (snd q - snd p) * fst p + (fst q - fst p) * snd p)) |}.
Proof. reflexivity. Qed.

Lemma code_cases p q a b : near p -> near q -> a <> b ->
  (p = q /\ code p q a b = 0%Z) \/
  (p <> q /\ orient a b p = orient a b q /\
     ((code p q a b = 3%Z /\ orient a b p = 0) \/
      (code p q a b = 0%Z /\ (orient a b p = 0 -> ~ on_segment p q a /\ ~ on_segment p q b)))) \/
  (p <> q /\ orient a b p <> orient a b q /\ exists t u, between p q t = between a b u /\
     ((code p q a b = 1%Z /\ 0 < t < 1 /\ 0 < u < 1) \/
      (code p q a b = 2%Z /\ 0 <= t <= 1 /\ 0 <= u <= 1 /\ (t = 0 \/ t = 1 \/ u = 0 \/ u = 1)) \/
      (code p q a b = 0%Z /\ ~ (0 <= t <= 1 /\ 0 <= u <= 1)))).
Proof.
  intros Np Nq Nab. unfold code, intersect_segment. rewrite !pts2line_exact.
  set (a1 := - (snd q - snd p)). set (b1 := fst q - fst p). set (c1 := - (a1 * fst p + b1 * snd p)).
  set (a2 := - (snd b - snd a)). set (b2 := fst b - fst a). set (c2 := - (a2 * fst a + b2 * snd a)).
  assert (D : a2 * b1 - a1 * b2 = orient a b q - orient a b p)
    by (unfold orient, a1, b1, a2, b2; ring).
  assert (Z1 : (a1 = 0 /\ b1 = 0) <-> p = q).
  { unfold a1, b1. destruct p as [px py], q as [qx qy]. cbn [fst snd]. split.
    - intros [? ?]. f_equal; lra.
    - intro E. injection E as -> ->. lra. }
  assert (Z2 : ~ (a2 = 0 /\ b2 = 0)).
  { unfold a2, b2. destruct a as [px py], b as [qx qy]. cbn [fst snd]. intros [? ?]. apply Nab. f_equal; lra. }
  destruct (intersect_line_exact a1 b1 c1 a2 b2 c2) as [[Dg ->]|[(G1 & _ & Dz & Cs)|(Dn & x & y & -> & E1 & E2)]].
  - left. split; [apply Z1; tauto|reflexivity].
  - right. left. rewrite Z1 in G1. split; [exact G1|]. split; [lra|].
    assert (O1 : orient a b p = a2 * fst p + b2 * snd p + c2) by (unfold c2, a2, b2, orient; ring).
    destruct Cs as [(Ca & Cb & ->)|[Nc ->]].
    + assert (O : orient a b p = 0).
      { rewrite O1. destruct (Req_dec a1 0) as [A1|A1].
        - assert (B1 : b1 <> 0) by (intro B1; apply G1, Z1; auto).
          apply Rmult_eq_reg_l with b1; [|exact B1]. rewrite Rmult_0_r.
          replace (b1 * (a2 * fst p + b2 * snd p + c2)) with ((a2 * b1 - a1 * b2) * fst p + b2 * (a1 * fst p + b1 * snd p) + b1 * c2) by ring.
          rewrite Dz, Cb. unfold c1. ring.
        - apply Rmult_eq_reg_l with a1; [|exact A1]. rewrite Rmult_0_r.
          replace (a1 * (a2 * fst p + b2 * snd p + c2)) with (- (a2 * b1 - a1 * b2) * snd p + a2 * (a1 * fst p + b1 * snd p) + a1 * c2) by ring.
          rewrite Dz, Ca. unfold c1. ring. }
      rewrite !pscal_exact, !sgn_le.
      assert (Seg : forall v, rle (rdot v p q) 0 = false -> ~ on_segment p q v).
      { intros v H (t & Ht & ->). destruct (rle_spec (rdot (between p q t) p q) 0) as [|L]; [discriminate|].
        rewrite rdot_between in L. pose proof (square_pos p q G1). apply L.
        assert (t * (t - 1) <= 0) by nra. nra. }
      destruct (rle (rdot a p q) 0) eqn:R1; [left; auto|].
      destruct (rle (rdot b p q) 0) eqn:R2; [left; auto|].
      right. split; [reflexivity|]. intros _. auto.
    + right. split; [reflexivity|]. intro O. exfalso. apply Nc.
      rewrite O1 in O.
      assert (Q : a2 * fst q + b2 * snd q + c2 = 0) by (unfold orient, c2, a2, b2 in *; lra).
      assert (P : c2 = - (a2 * fst p + b2 * snd p)) by lra.
      rewrite P. unfold c1. split.
      * replace (a1 * - (a2 * fst p + b2 * snd p)) with (a2 * - (a1 * fst p + b1 * snd p) + (a2 * b1 - a1 * b2) * snd p) by ring.
        rewrite Dz. ring.
      * replace (b1 * - (a2 * fst p + b2 * snd p)) with (b2 * - (a1 * fst p + b1 * snd p) - (a2 * b1 - a1 * b2) * fst p) by ring.
        rewrite Dz. ring.
  - right. right.
    assert (Npq : p <> q). { intros ->. apply Dn. rewrite D. ring. }
    split; [exact Npq|]. split; [lra|].
    set (g := orient a b q - orient a b p) in *.
    set (t := - orient a b p / g). set (u := orient p q a / g).
    assert (Gn : g <> 0) by lra.
    (* the intersection of the lines is at t on the segment and at u on the side *)
    assert (U : forall x' y', a1 * x' + b1 * y' + c1 = 0 -> a2 * x' + b2 * y' + c2 = 0 -> x' = x /\ y' = y).
    { intros x' y' F1 F2. assert (H1 : a1 * (x' - x) + b1 * (y' - y) = 0) by lra.
      assert (H2 : a2 * (x' - x) + b2 * (y' - y) = 0) by lra.
      split; apply Rminus_diag_uniq; apply Rmult_eq_reg_l with (a2 * b1 - a1 * b2); try exact Dn; rewrite Rmult_0_r.
      - replace ((a2 * b1 - a1 * b2) * (x' - x)) with (b1 * (a2 * (x' - x) + b2 * (y' - y)) - b2 * (a1 * (x' - x) + b1 * (y' - y))) by ring.
        rewrite H1, H2. ring.
      - replace ((a2 * b1 - a1 * b2) * (y' - y)) with (a2 * (a1 * (x' - x) + b1 * (y' - y)) - a1 * (a2 * (x' - x) + b2 * (y' - y))) by ring.
        rewrite H1, H2. ring. }
    assert (L1 : forall s, a1 * fst (between p q s) + b1 * snd (between p q s) + c1 = 0)
      by (intro s; unfold c1, a1, b1, between; cbn [fst snd]; ring).
    assert (L2 : forall s, a2 * fst (between a b s) + b2 * snd (between a b s) + c2 = 0)
      by (intro s; unfold c2, a2, b2, between; cbn [fst snd]; ring).
    assert (Xt : between p q t = (x, y)).
    { destruct (U (fst (between p q t)) (snd (between p q t)) (L1 t)) as [F1 F2].
      - replace (a2 * fst (between p q t) + b2 * snd (between p q t) + c2) with (orient a b (between p q t))
          by (unfold orient, c2, a2, b2; ring).
        rewrite orient_between. fold g. unfold t. field. exact Gn.
      - rewrite <- F1, <- F2. now destruct (between p q t). }
    assert (Xu : between a b u = (x, y)).
    { destruct (U (fst (between a b u)) (snd (between a b u))) as [F1 F2]; [|apply L2|].
      - replace (a1 * fst (between a b u) + b1 * snd (between a b u) + c1) with (orient p q (between a b u))
          by (unfold orient, c1, a1, b1; ring).
        rewrite orient_between, orient_swap. fold g. unfold u. field. exact Gn.
      - rewrite <- F1, <- F2. now destruct (between a b u). }
    exists t, u. split; [congruence|].
    assert (T0 : orient a b p = 0 -> t = 0) by (intro E; unfold t; rewrite E; field; exact Gn).
    assert (T1 : orient a b q = 0 -> t = 1) by (intro E; unfold t; apply Rmult_eq_reg_r with g; [|exact Gn]; unfold Rdiv; rewrite Rmult_assoc, Rinv_l by exact Gn; unfold g; lra).
    assert (U0 : orient p q a = 0 -> u = 0) by (intro E; unfold u; rewrite E; field; exact Gn).
    assert (U1 : orient p q b = 0 -> u = 1).
    { intro E. pose proof (orient_swap a b p q) as S. fold g in S. unfold u. apply Rmult_eq_reg_r with g; [|exact Gn].
      unfold Rdiv. rewrite Rmult_assoc, Rinv_l by exact Gn. lra. }
    destruct (same exact_fmt (pt p) (pt a)) eqn:S1.
    { apply same_exact in S1. subst a. right. left. rewrite T0 by apply orient_start. rewrite U0 by apply orient_start.
      split; [reflexivity|]. lra. }
    destruct (same exact_fmt (pt p) (pt b)) eqn:S2.
    { apply same_exact in S2. subst b. right. left. rewrite T0 by apply orient_end. rewrite U1 by apply orient_start.
      split; [reflexivity|]. lra. }
    destruct (same exact_fmt (pt q) (pt a)) eqn:S3.
    { apply same_exact in S3. subst a. right. left. rewrite T1 by apply orient_start. rewrite U0 by apply orient_end.
      split; [reflexivity|]. lra. }
    destruct (same exact_fmt (pt q) (pt b)) eqn:S4.
    { apply same_exact in S4. subst b. right. left. rewrite T1 by apply orient_end. rewrite U1 by apply orient_end.
      split; [reflexivity|]. lra. }
    cbn [fst snd]. rewrite !too_far_exact.
    destruct (rlt 32768 (Rabs x) || rlt 32768 (Rabs y)) eqn:Far.
    { right. right. split; [reflexivity|]. intros [Ht _].
      pose proof (between_near p q t Np Nq Ht) as [F1 F2]. rewrite Xt in F1, F2. cbn [fst snd] in F1, F2.
      apply orb_true_iff in Far as [Far|Far]; [destruct (rlt_spec 32768 (Rabs x))|destruct (rlt_spec 32768 (Rabs y))]; try discriminate; lra. }
    change (real x, real y) with (pt (x, y)). rewrite !pscal_exact, !sgn_pos, !sgn_zero.
    destruct (rdot_sign p q t Npq) as [Rt1 Rt2]. destruct (rdot_sign a b u Nab) as [Ru1 Ru2].
    rewrite Xt in Rt1, Rt2. rewrite Xu in Ru1, Ru2.
    destruct (rlt 0 (rdot (x, y) p q)); cbn [orb].
    { right. right. split; [reflexivity|]. tauto. }
    destruct (rlt 0 (rdot (x, y) a b)); cbn [orb].
    { right. right. split; [reflexivity|]. tauto. }
    assert (Ht : 0 <= t <= 1). { destruct (Rle_dec 0 t), (Rle_dec t 1); try lra; exfalso; assert (false = true) by (apply Rt1; lra); discriminate. }
    assert (Hu : 0 <= u <= 1). { destruct (Rle_dec 0 u), (Rle_dec u 1); try lra; exfalso; assert (false = true) by (apply Ru1; lra); discriminate. }
    destruct (req (rdot (x, y) p q) 0); cbn [orb].
    { right. left. split; [reflexivity|]. split; [exact Ht|]. split; [exact Hu|]. tauto. }
    destruct (req (rdot (x, y) a b) 0); cbn [orb].
    { right. left. split; [reflexivity|]. split; [exact Ht|]. split; [exact Hu|]. tauto. }
    left. split; [reflexivity|].
    assert (t <> 0 /\ t <> 1) by (split; intro E; assert (false = true) by (apply Rt2; auto); discriminate).
    assert (u <> 0 /\ u <> 1) by (split; intro E; assert (false = true) by (apply Ru2; auto); discriminate).
    lra.
Qed.
