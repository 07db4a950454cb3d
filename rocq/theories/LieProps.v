(** C43: the SO(2) and SE(2) helpers. *)
From Coq Require Import Reals ZArith Lra Lia Psatz.
From Verif Require Import LieModel LieSpec.
Local Open Scope R_scope.

Ltac norm := unfold se2_chain, se2_inverse, se2_inverse_transform, se2_transform, so2_inverse_rotate, so2_rotate, so2_create,
  translation_2d in *; cbn [fst snd angle rotation translation] in *; rewrite ?cos_plus, ?sin_plus, ?cos_neg, ?sin_neg.
Lemma cs a : cos a * cos a = 1 - sin a * sin a.
Proof. pose proof (sin2_cos2 a). unfold Rsqr in *. lra. Qed.

Lemma pair_eq (a b c d : R) : a = c -> b = d -> (a, b) = (c, d). Proof. now intros -> ->. Qed.
Ltac unit a z := transitivity ((cos a * cos a + sin a * sin a) * z); [ring|rewrite (cs a); ring].

(** A rotation turns the direction [b] into the direction [b] plus its angle, and keeps the origin. *)
Theorem rotate_direction a b : so2_rotate (so2_create a) (direction b) = direction (a + b) /\ so2_rotate (so2_create a) (0, 0) = (0, 0).
Proof. unfold direction. norm. split; f_equal; ring. Qed.
Theorem rotate_compose a b p : so2_rotate (so2_create a) (so2_rotate (so2_create b) p) = so2_rotate (so2_create (a + b)) p.
Proof. destruct p. norm. f_equal; ring. Qed.
Theorem rotate_inverse r p : so2_inverse_rotate r (so2_rotate r p) = p /\ so2_rotate r (so2_inverse_rotate r p) = p.
Proof. destruct p as [x y]. norm. split; apply pair_eq; (unit (angle r) x || unit (angle r) y). Qed.

(** Rotations and transforms keep distances and orientation. *)
Theorem rotate_rigid r : rigid (so2_rotate r).
Proof.
  pose proof (cs (angle r)) as E. split.
  - intros [x y] [u v]. unfold dist2, Rsqr. f_equal. norm.
    replace ((_ - _) * (_ - _) + (_ - _) * (_ - _)) with
      ((cos (angle r) * cos (angle r) + sin (angle r) * sin (angle r)) * ((x - u) * (x - u) + (y - v) * (y - v))) by ring.
    rewrite E. ring.
  - intros [x y] [u v] [s t]. unfold area2. norm.
    replace ((_ - _) * (_ - _) - (_ - _) * (_ - _)) with
      ((cos (angle r) * cos (angle r) + sin (angle r) * sin (angle r)) * ((u - x) * (t - y) - (v - y) * (s - x))) by ring.
    rewrite E. ring.
Qed.
Theorem transform_rigid t : rigid (se2_transform t).
Proof.
  destruct (rotate_rigid (rotation t)) as [D A]. unfold se2_transform. split.
  - intros p q. rewrite <- (D p q). unfold dist2. cbn [fst snd]. f_equal. f_equal; f_equal; ring.
  - intros a b c. rewrite <- (A a b c). unfold area2. cbn [fst snd]. ring.
Qed.
(** Every rigid motion of the plane is the transform of some rotation and translation. *)
Lemma dist2_sq p q u v : dist2 p q = dist2 u v -> Rsqr (fst p - fst q) + Rsqr (snd p - snd q) = Rsqr (fst u - fst v) + Rsqr (snd u - snd v).
Proof. unfold dist2. intro H. apply sqrt_inj in H; [exact H| |]; apply Rplus_le_le_0_compat; apply Rle_0_sqr. Qed.
Lemma angle_of c s : c * c + s * s = 1 -> exists a, cos a = c /\ sin a = s.
Proof.
  intro H. assert (B : -1 <= c <= 1) by nra.
  destruct (Rle_dec 0 s) as [P|P].
  - exists (acos c). split; [now apply cos_acos|]. rewrite sin_acos by exact B. unfold Rsqr.
    replace (1 - c * c) with (s * s) by lra. now apply sqrt_square.
  - exists (- acos c). rewrite cos_neg, sin_neg. split; [now apply cos_acos|]. rewrite sin_acos by exact B. unfold Rsqr.
    replace (1 - c * c) with ((- s) * (- s)) by lra. rewrite sqrt_square by lra. ring.
Qed.
Theorem rigid_is_transform f : rigid f -> exists t, forall p, f p = se2_transform t p.
Proof.
  intros [D A]. set (o := f (0, 0)). set (e := f (1, 0)).
  pose proof (dist2_sq _ _ _ _ (D (1, 0) (0, 0))) as U. fold o e in U. cbn [fst snd] in U. unfold Rsqr in U.
  destruct (angle_of (fst e - fst o) (snd e - snd o)) as (a & C & S); [lra|].
  exists (se2_create a o). intros [x y].
  pose proof (dist2_sq _ _ _ _ (D (x, y) (0, 0))) as D0. pose proof (dist2_sq _ _ _ _ (D (x, y) (1, 0))) as D1.
  pose proof (A (0, 0) (1, 0) (x, y)) as A0. fold o in D0, A0. fold e in D1, A0. unfold area2 in A0. cbn [fst snd] in *. unfold Rsqr in *.
  unfold se2_create. norm. rewrite C, S.
  destruct (f (x, y)) as [u v]. destruct o as [ox oy]. destruct e as [ex ey]. cbn [fst snd] in *.
  set (c := ex - ox) in *. set (s := ey - oy) in *.
  (* the scalar product with the first axis and the area determine the point *)
  assert (P1 : c * (u - ox) + s * (v - oy) = x).
  { replace (u - ex) with (u - ox - c) in D1 by (unfold c; ring). replace (v - ey) with (v - oy - s) in D1 by (unfold s; ring). lra. }
  assert (P2 : c * (v - oy) - s * (u - ox) = y) by lra.
  assert (N : c * c + s * s = 1) by lra.
  assert (u - ox = c * x - s * y) by (rewrite <- P1, <- P2; transitivity ((c * c + s * s) * (u - ox)); [rewrite N; ring|ring]).
  assert (v - oy = s * x + c * y) by (rewrite <- P1, <- P2; transitivity ((c * c + s * s) * (v - oy)); [rewrite N; ring|ring]).
  f_equal; lra.
Qed.

(** The chain of two transforms acts as the second followed by the first, the inverse undoes the transform, and the inverse
    transform is the transform by the inverse. *)
Theorem chain_acts l r p : se2_transform (se2_chain l r) p = se2_transform l (se2_transform r p).
Proof. destruct p. norm. f_equal; ring. Qed.
Theorem inverse_undoes t p : se2_inverse_transform t (se2_transform t p) = p /\ se2_transform t (se2_inverse_transform t p) = p.
Proof. destruct p as [x y]. norm. split; apply pair_eq; (unit (angle (rotation t)) x || unit (angle (rotation t)) y ||
    (transitivity ((cos (angle (rotation t)) * cos (angle (rotation t)) + sin (angle (rotation t)) * sin (angle (rotation t))) * (x - fst (translation t)) + fst (translation t)); [ring|rewrite (cs (angle (rotation t))); ring]) ||
    (transitivity ((cos (angle (rotation t)) * cos (angle (rotation t)) + sin (angle (rotation t)) * sin (angle (rotation t))) * (y - snd (translation t)) + snd (translation t)); [ring|rewrite (cs (angle (rotation t))); ring])). Qed.
Theorem inverse_acts t p : se2_transform (se2_inverse t) p = se2_inverse_transform t p.
Proof. destruct p. norm. f_equal; ring. Qed.

(** The group laws, on the values themselves. *)
Notation identity := (se2_create_xya 0 0 0).
Lemma identity_acts p : se2_transform identity p = p.
Proof. destruct p. unfold se2_create_xya, se2_create. norm. rewrite cos_0, sin_0. f_equal; ring. Qed.
Lemma se2_eq a b : angle (rotation a) = angle (rotation b) -> translation a = translation b -> a = b.
Proof. destruct a as [[a] t], b as [[b] u]. cbn. now intros -> ->. Qed.
Theorem chain_assoc a b c : se2_chain (se2_chain a b) c = se2_chain a (se2_chain b c).
Proof. apply se2_eq; norm; [ring|]. f_equal; ring. Qed.
Theorem chain_identity t : se2_chain identity t = t /\ se2_chain t identity = t.
Proof.
  split; apply se2_eq; unfold se2_create_xya, se2_create; norm; rewrite ?cos_0, ?sin_0; try ring;
    destruct t as [r [x y]]; cbn; f_equal; ring.
Qed.
Theorem chain_inverse t : se2_chain t (se2_inverse t) = identity /\ se2_chain (se2_inverse t) t = identity.
Proof.
  destruct t as [[a] [x y]]. pose proof (cs a) as E.
  split; apply se2_eq; unfold se2_create_xya, se2_create; norm; try ring; apply pair_eq; try ring;
    (transitivity ((1 - (cos a * cos a + sin a * sin a)) * x); [ring|rewrite E; ring]) ||
    (transitivity ((1 - (cos a * cos a + sin a * sin a)) * y); [ring|rewrite E; ring]).
Qed.
(** Two transforms act in the same way exactly if they have the same translation and the same angle up to whole turns. *)
Theorem transform_determines a b :
  (forall p, se2_transform a p = se2_transform b p) <->
  (translation a = translation b /\ same_angle (angle (rotation a)) (angle (rotation b))).
Proof.
  split.
  - intro H. pose proof (H (0, 0)) as H0. pose proof (H (1, 0)) as H1. norm. injection H0 as A B. injection H1 as C D.
    assert (Tx : fst (translation a) = fst (translation b)) by lra. assert (Ty : snd (translation a) = snd (translation b)) by lra.
    split; [destruct (translation a), (translation b); cbn in *; congruence|].
    set (u := angle (rotation a)) in *. set (v := angle (rotation b)) in *.
    assert (Ec : cos u = cos v) by lra. assert (Es : sin u = sin v) by lra.
    assert (Z : sin (u - v) = 0) by (rewrite sin_minus, Ec, Es; ring).
    assert (O : cos (u - v) = 1) by (rewrite cos_minus, Ec, Es; pose proof (sin2_cos2 v); unfold Rsqr in *; lra).
    destruct (sin_eq_0_0 _ Z) as (k & K).
    assert (Ev : Z.Even k).
    { destruct (Z.Even_or_Odd k) as [|(m & M)]; [assumption|]. exfalso. rewrite K, M in O.
      rewrite plus_IZR, mult_IZR in O. replace ((2 * IZR m + 1) * PI) with (PI + 2 * IZR m * PI) in O by ring.
      destruct (Z.le_gt_cases 0 m) as [P|P].
      - rewrite <- (Z2Nat.id m P), <- INR_IZR_INZ, cos_period, cos_PI in O. lra.
      - replace m with (- Z.of_nat (Z.to_nat (- m)))%Z in O by (rewrite Z2Nat.id; lia).
        rewrite opp_IZR, <- INR_IZR_INZ in O.
        rewrite <- (cos_period _ (Z.to_nat (- m))) in O.
        replace (PI + 2 * - INR (Z.to_nat (- m)) * PI + 2 * INR (Z.to_nat (- m)) * PI) with PI in O by ring. rewrite cos_PI in O. lra. }
    destruct Ev as (m & M). exists m. rewrite M, mult_IZR in K. lra.
  - intros [T (k & K)] p.
    assert (P : forall f : R -> R, (forall x n, f (x + 2 * INR n * PI) = f x) -> f (angle (rotation a)) = f (angle (rotation b))).
    { intros f Hf. rewrite K. destruct (Z.le_gt_cases 0 k) as [P|P].
      - rewrite <- (Z2Nat.id k P), <- INR_IZR_INZ. apply Hf.
      - replace k with (- Z.of_nat (Z.to_nat (- k)))%Z by (rewrite Z2Nat.id; lia). rewrite opp_IZR, <- INR_IZR_INZ.
        rewrite <- (Hf _ (Z.to_nat (- k))). f_equal. ring. }
    unfold se2_transform, so2_rotate. rewrite (P cos cos_period), (P sin sin_period), T. reflexivity.
Qed.

(** A quarter turn and a translation. *)
Example transform_case : se2_transform (se2_create_xya 10 20 (PI / 2)) (3, 4) = (6, 23) /\
  se2_chain (se2_create_xya 10 20 (PI / 2)) (se2_create_xya 3 4 0) = se2_create_xya 6 23 (PI / 2) /\ rigid (fun p => p).
Proof.
  split; [|split].
  - unfold se2_create_xya, se2_create. norm. rewrite cos_PI2, sin_PI2. f_equal; ring.
  - apply se2_eq; unfold se2_create_xya, se2_create; norm; [ring|]. rewrite cos_PI2, sin_PI2. f_equal; ring.
  - split; reflexivity.
Qed.

Print Assumptions rotate_direction.
Print Assumptions rotate_compose.
Print Assumptions rotate_inverse.
Print Assumptions rotate_rigid.
Print Assumptions transform_rigid.
Print Assumptions rigid_is_transform.
Print Assumptions chain_acts.
Print Assumptions inverse_undoes.
Print Assumptions inverse_acts.
Print Assumptions chain_assoc.
Print Assumptions chain_identity.
Print Assumptions chain_inverse.
Print Assumptions transform_determines.
