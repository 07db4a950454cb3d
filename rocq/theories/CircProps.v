(** Proofs about circles.c, the norms of vect_base.c and vect2.c. *)
From Coq Require Import ZArith Reals List Bool Lia Lra.
From Flocq Require Import Core.
From Verif Require Import FloatModel FloatSpec FloatProofs PidSpec MadgModel GeoModel GeoSpec GeoProofs GeoLineSpec CircModel CircSpec.
From Verif Require TrajModel TrajProofs.
Local Open Scope R_scope.

Lemma sqrt_exact x : 0 <= x -> exact_sqrt (real x) = real (sqrt x).
Proof. intros H. unfold exact_sqrt, real. destruct (rlt_spec x 0); [lra|reflexivity]. Qed.

Definition tau : R := IZR 13743895 * bpow radix2 (-37).
Lemma tau_small : tau <= 0.00012.
Proof. unfold tau. cbn. lra. Qed.
Lemma lit_1e4_exact : lit_1e4 exact_fmt = real tau.
Proof. reflexivity. Qed.

(** * Two circles *)

Section Core.
Variables X Y r R' : R.
Let a := 2 * X.
Let b := 2 * Y.
Let c := X * X + Y * Y - R' * R' + r * r.
Let N := a * a + b * b.
Let d := (2 * a * c) * (2 * a * c) - 4 * N * (c * c - b * b * (r * r)).

Lemma N_pos : Y <> 0 -> 0 < N.
Proof. intros H. unfold N, a, b. assert (0 < Y * Y) by nra. nra. Qed.

Lemma on_both_line u v : (u ^ 2 + v ^ 2 = r ^ 2 /\ (u - X) ^ 2 + (v - Y) ^ 2 = R' ^ 2) <->
  (u ^ 2 + v ^ 2 = r ^ 2 /\ a * u + b * v = c).
Proof. unfold a, b, c. split; intros [H1 H2]; (split; [exact H1|]); nra. Qed.

Lemma line_square u v : Y <> 0 ->
  (u ^ 2 + v ^ 2 = r ^ 2 /\ a * u + b * v = c) <->
  ((2 * N * u - 2 * a * c) ^ 2 = d /\ v = (c - a * u) / b).
Proof.
  intros H. assert (B : b <> 0) by (unfold b; lra). pose proof (N_pos H) as P. split.
  - intros [H1 H2]. assert (V : v = (c - a * u) / b) by (field_simplify_eq; lra). split; [|exact V].
    assert (E : (b * v) ^ 2 = (c - a * u) ^ 2) by (f_equal; lra).
    assert (Z : N * u ^ 2 - 2 * a * c * u + c ^ 2 - b ^ 2 * r ^ 2 = 0) by (rewrite <- H1; unfold N; nra).
    unfold d. apply Rminus_diag_uniq.
    transitivity (4 * N * (N * u ^ 2 - 2 * a * c * u + c ^ 2 - b ^ 2 * r ^ 2)); [ring|rewrite Z; ring].
  - intros [H1 H2]. assert (L : a * u + b * v = c) by (rewrite H2; field; exact B). split; [|exact L].
    assert (Z : 4 * N * (N * u ^ 2 - 2 * a * c * u + c ^ 2 - b ^ 2 * r ^ 2) = 0).
    { apply Rminus_diag_eq in H1. rewrite <- H1. unfold d. ring. }
    assert (Z' : N * u ^ 2 - 2 * a * c * u + c ^ 2 - b ^ 2 * r ^ 2 = 0) by (apply Rmult_eq_reg_l with (4 * N); lra).
    assert (E : (b * v) ^ 2 = (c - a * u) ^ 2) by (f_equal; lra).
    apply Rmult_eq_reg_l with (b ^ 2); [|nra]. unfold N in Z'. nra.
Qed.

(** The points of both circles, around the centre of the first. *)
Lemma common_points u v : Y <> 0 ->
  (u ^ 2 + v ^ 2 = r ^ 2 /\ (u - X) ^ 2 + (v - Y) ^ 2 = R' ^ 2) <->
  (0 <= d /\ (u = (2 * a * c - sqrt d) / (2 * N) \/ u = (2 * a * c + sqrt d) / (2 * N)) /\ v = (c - a * u) / b).
Proof.
  intros H. rewrite on_both_line, line_square by exact H. pose proof (N_pos H) as P. split.
  - intros [H1 H2]. assert (D : 0 <= d) by (rewrite <- H1; apply pow2_ge_0). split; [exact D|]. split; [|exact H2].
    assert (Q : (2 * N * u - 2 * a * c - sqrt d) * (2 * N * u - 2 * a * c + sqrt d) = 0).
    { pose proof (sqrt_def d D). nra. }
    apply Rmult_integral in Q. destruct Q; [right|left]; field_simplify_eq; lra.
  - intros (D & [U | U] & V); split; try exact V.
    + replace (2 * N * u - 2 * a * c) with (- sqrt d) by (rewrite U; field; lra). pose proof (sqrt_def d D). nra.
    + replace (2 * N * u - 2 * a * c) with (sqrt d) by (rewrite U; field; lra). pose proof (sqrt_def d D). nra.
Qed.
End Core.

Lemma core_correct c1 r1 c2 r2 : 0.00006 <= Rabs (snd c1 - snd c2) ->
  match circle_core exact_fmt exact_sqrt (circ c1 r1) (circ c2 r2) with
  | (0%Z, None) => forall q, ~ on_both c1 r1 c2 r2 q
  | (2%Z, Some (p1, p2)) => exists a b, p1 = pt a /\ p2 = pt b /\ forall q, on_both c1 r1 c2 r2 q <-> q = a \/ q = b
  | _ => False
  end.
Proof.
  intros H. set (X := fst c2 - fst c1). set (Y := snd c2 - snd c1).
  assert (HY : Y <> 0). { unfold Y. intro E. replace (snd c1 - snd c2) with 0 in H by lra. rewrite Rabs_R0 in H. lra. }
  assert (T : forall q, on_both c1 r1 c2 r2 q <->
    ((fst q - fst c1) ^ 2 + (snd q - snd c1) ^ 2 = r1 ^ 2 /\ (fst q - fst c1 - X) ^ 2 + (snd q - snd c1 - Y) ^ 2 = r2 ^ 2)).
  { intros q. unfold on_both, on_circle, dist2, X, Y.
    replace (fst q - fst c1 - (fst c2 - fst c1)) with (fst q - fst c2) by ring.
    replace (snd q - snd c1 - (snd c2 - snd c1)) with (snd q - snd c2) by ring. tauto. }
  pose proof (common_points X Y r1 r2) as C. pose proof (N_pos X Y HY) as P. cbv zeta in C.
  unfold circle_core. cbn [cx cy cr circ]. unfold sq. rewrite !of_int_exact, !sub_exact. fold X. fold Y.
  repeat rewrite ?mul_exact, ?add_exact, ?sub_exact. rewrite lt_exact.
  set (a := 2 * X) in *. set (b := 2 * Y) in *. set (c := X * X + Y * Y - r2 * r2 + r1 * r1) in *. set (N := a * a + b * b) in *.
  set (d := 2 * a * c * (2 * a * c) - 4 * N * (c * c - b * b * (r1 * r1))) in *.
  destruct (rlt_spec d 0) as [Hd|Hd].
  { intros q Q. apply T, C in Q; [|exact HY]. lra. }
  rewrite fabs_exact, lit_1e4_exact, lt_exact. pose proof tau_small.
  assert (B : 0.00012 <= Rabs b).
  { unfold b. rewrite Rabs_mult, (Rabs_right 2) by lra. unfold Y. rewrite Rabs_minus_sym. lra. }
  destruct (rlt_spec (Rabs b) tau) as [|_]; [lra|].
  assert (B0 : b <> 0) by (unfold b; lra).
  rewrite sqrt_exact by lra. repeat rewrite ?mul_exact, ?add_exact, ?sub_exact, ?div_exact by lra.
  set (u1 := (2 * a * c - sqrt d) / (2 * N)) in *. set (u2 := (2 * a * c + sqrt d) / (2 * N)) in *.
  exists (u1 + fst c1, (c - a * u1) / b + snd c1), (u2 + fst c1, (c - a * u2) / b + snd c1).
  split; [reflexivity|]. split; [reflexivity|]. intros [x y]. rewrite T, C by exact HY. cbn [fst snd]. split.
  - intros (_ & [U|U] & V); [left|right]; rewrite <- U, <- V; f_equal; ring.
  - intros [E|E]; injection E as -> ->; (split; [lra|]); rewrite !Rplus_minus_r || idtac.
    + replace (u1 + fst c1 - fst c1) with u1 by ring. split; [left; reflexivity|ring].
    + replace (u2 + fst c1 - fst c1) with u2 by ring. split; [right; reflexivity|ring].
Qed.

Definition flip (p : rpoint) : rpoint := (snd p, fst p).
Lemma flip_flip p : flip (flip p) = p. Proof. destruct p; reflexivity. Qed.
Lemma flip_both c1 r1 c2 r2 q : on_both (flip c1) r1 (flip c2) r2 (flip q) <-> on_both c1 r1 c2 r2 q.
Proof. unfold on_both, on_circle, dist2, flip. cbn [fst snd]. rewrite (Rplus_comm ((snd q - snd c1) ^ 2)), (Rplus_comm ((snd q - snd c2) ^ 2)). tauto. Qed.

(** Unless the centres are (nearly) the same: 0 means that the circles have no point in common; otherwise the two
    points returned are the points of both, and there are no others. *)
Theorem circle_intersect_correct_partial c1 r1 c2 r2 : apart c1 c2 ->
  match circle_intersect exact_fmt exact_sqrt (circ c1 r1) (circ c2 r2) with
  | (0%Z, None) => forall q, ~ on_both c1 r1 c2 r2 q
  | (2%Z, Some (p1, p2)) => exists a b, p1 = pt a /\ p2 = pt b /\ forall q, on_both c1 r1 c2 r2 q <-> q = a \/ q = b
  | _ => False
  end.
Proof.
  unfold apart. intros H. unfold circle_intersect. cbn [cx cy circ]. rewrite !sub_exact, !fabs_exact, lt_exact.
  destruct (rlt_spec (Rabs (snd c1 - snd c2)) (Rabs (fst c1 - fst c2))) as [L|L].
  - rewrite Rmax_left in H by lra.
    change (swap_axes exact_fmt (circ c1 r1)) with (circ (flip c1) r1). change (swap_axes exact_fmt (circ c2 r2)) with (circ (flip c2) r2).
    pose proof (core_correct (flip c1) r1 (flip c2) r2 H) as K.
    destruct (circle_core _ _ _ _) as [k o].
    assert (k = 0%Z \/ k = 2%Z) as [-> | ->] by (destruct k as [|[k|[k|k|]|]|]; tauto).
    + destruct o as [o|]; [contradiction|]. intros q Q. apply (K (flip q)). now apply flip_both.
    + destruct o as [[p1 p2]|]; [|contradiction]. destruct K as (a & b & -> & -> & K).
      exists (flip a), (flip b). split; [reflexivity|]. split; [reflexivity|]. intros q.
      rewrite <- flip_both, K. split; (intros [E|E]; [left|right]); [rewrite <- E|rewrite <- E|rewrite E|rewrite E]; try apply flip_flip; symmetry; apply flip_flip.
  - rewrite Rmax_right in H by lra. now apply core_correct.
Qed.

(** The answer 1 of the comment is not given to circles that touch in one point: it is 2. *)
Theorem circle_intersect_one_refuted : exists c1 r1 c2 r2 z,
  apart c1 c2 /\ (forall q, on_both c1 r1 c2 r2 q <-> q = z) /\
  circle_intersect exact_fmt exact_sqrt (circ c1 r1) (circ c2 r2) = (2%Z, Some (pt z, pt z)).
Proof.
  exists (0, 0), 1, (2, 0), 1, (1, 0).
  assert (A : apart (0, 0) (2, 0)).
  { unfold apart. cbn [fst snd]. rewrite Rmax_left; rewrite !Rminus_0_l || idtac.
    - rewrite Rabs_Ropp, Rabs_right; lra.
    - rewrite Ropp_0, Rabs_R0. apply Rabs_pos. }
  assert (O : forall q, on_both (0, 0) 1 (2, 0) 1 q <-> q = (1, 0)).
  { intros [x y]. unfold on_both, on_circle, dist2. cbn [fst snd]. split.
    - intros [H1 H2]. assert (x = 1) as -> by lra. assert (y = 0) as -> by nra. reflexivity.
    - intros E. injection E as -> ->. split; ring. }
  split; [exact A|]. split; [exact O|].
  pose proof (circle_intersect_correct_partial (0, 0) 1 (2, 0) 1 A) as K.
  destruct (circle_intersect _ _ _ _) as [k o].
  assert (k = 0%Z \/ k = 2%Z) as [-> | ->] by (destruct k as [|[k|[k|k|]|]|]; tauto).
  - destruct o; [contradiction|]. exfalso. apply (K (1, 0)), O. reflexivity.
  - destruct o as [[p1 p2]|]; [|contradiction]. destruct K as (a & b & -> & -> & K).
    assert (a = (1, 0)) as -> by (apply O, K; auto). assert (b = (1, 0)) as -> by (apply O, K; auto). reflexivity.
Qed.

Lemma div_zero x : div exact_fmt (real x) (real 0) = if req x 0 then None else Some (einf (rlt x 0)).
Proof. cbn. unfold real. destruct (req_spec 0 0); [reflexivity|contradiction]. Qed.

(** Circles around the same centre. *)
Theorem circle_intersect_same_centre c r1 r2 :
  circle_intersect exact_fmt exact_sqrt (circ c r1) (circ c r2) =
  if req (r1 ^ 2) (r2 ^ 2) then (1%Z, Some ((None, None), (None, None))) else (0%Z, None).
Proof.
  unfold circle_intersect. cbn [cx cy circ]. rewrite !sub_exact, !fabs_exact, lt_exact.
  replace (snd c - snd c) with 0 by ring. replace (fst c - fst c) with 0 by ring.
  destruct (rlt_spec (Rabs 0) (Rabs 0)) as [L|_]; [lra|].
  unfold circle_core. cbn [cx cy cr circ]. unfold sq. rewrite !of_int_exact, !sub_exact.
  replace (snd c - snd c) with 0 by ring. replace (fst c - fst c) with 0 by ring.
  repeat rewrite ?mul_exact, ?add_exact, ?sub_exact. rewrite lt_exact.
  replace (2 * 0) with 0 by ring. set (k := 0 * 0 + 0 * 0 - r2 * r2 + r1 * r1).
  match goal with |- context [rlt ?d 0] => replace d with 0 by ring end.
  destruct (rlt_spec 0 0) as [|_]; [lra|]. rewrite fabs_exact, lit_1e4_exact, lt_exact, Rabs_R0.
  destruct (rlt_spec 0 tau) as [_|K]; [|exfalso; unfold tau in K; cbn in K; lra].
  replace (2 * (0 * 0 + 0 * 0)) with 0 by ring. replace (2 * 0 * k) with 0 by ring. replace (2 * 0) with 0 by ring.
  rewrite sqrt_exact, sqrt_0, sub_exact by lra. replace (2 * k - 0 * 0) with (2 * k) by ring. replace (0 - 0) with 0 by ring. rewrite !div_zero.
  destruct (req_spec 0 0) as [_|Q]; [|contradiction].
  destruct (req_spec (r1 ^ 2) (r2 ^ 2)) as [E|E].
  - destruct (req_spec (2 * k) 0) as [_|Q]; [reflexivity|]. exfalso. apply Q. unfold k. lra.
  - destruct (req_spec (2 * k) 0) as [Q|_]; [exfalso; apply E; unfold k in Q; lra|].
    destruct (rlt (2 * k) 0); reflexivity.
Qed.

(** The same circle twice is answered with one point, which is not a number. *)
Theorem circle_intersect_same_refuted c r :
  circle_intersect exact_fmt exact_sqrt (circ c r) (circ c r) = (1%Z, Some ((None, None), (None, None))).
Proof. rewrite circle_intersect_same_centre. now destruct (req_spec (r ^ 2) (r ^ 2)). Qed.

(** Circles whose centres are close on both axes can be answered with 0 although they cross. *)
Theorem circle_intersect_close_refuted : exists c1 r1 c2 r2 q,
  c1 <> c2 /\ on_both c1 r1 c2 r2 q /\ circle_intersect exact_fmt exact_sqrt (circ c1 r1) (circ c2 r2) = (0%Z, None).
Proof.
  exists (0, 0), (5 / 100000), (0, 4 / 100000), (3 / 100000), (3 / 100000, 4 / 100000).
  split; [intro E; injection E; lra|]. split; [unfold on_both, on_circle, dist2; cbn [fst snd]; split; lra|].
  unfold circle_intersect. cbn [cx cy circ fst snd]. rewrite !sub_exact, !fabs_exact, lt_exact.
  destruct (rlt_spec (Rabs (0 - 4 / 100000)) (Rabs (0 - 0))) as [L|_].
  { exfalso. replace (0 - 0) with 0 in L by ring. rewrite Rabs_R0 in L. pose proof (Rabs_pos (0 - 4 / 100000)). lra. }
  unfold circle_core. cbn [cx cy cr circ fst snd]. unfold sq. rewrite !of_int_exact, !sub_exact.
  repeat rewrite ?mul_exact, ?add_exact, ?sub_exact. rewrite lt_exact.
  match goal with |- context [rlt ?d 0] => destruct (rlt_spec d 0) as [_|_]; [reflexivity|] end. rewrite fabs_exact, lit_1e4_exact, lt_exact.
  match goal with |- context [rlt ?d tau] => destruct (rlt_spec d tau) as [_|K] end.
  - replace (2 * (2 * (0 - 0))) with 0 by ring. rewrite div_zero.
    match goal with |- context [req ?d 0] => destruct (req_spec d 0) as [Q|_]; [exfalso; lra|] end.
    destruct (rlt _ 0); reflexivity.
  - exfalso. apply K. rewrite Rabs_right by lra. unfold tau. cbn. lra.
Qed.

(** * Norms *)

Lemma sum_sq (x y : R) : 0 <= x * x + y * y. Proof. nra. Qed.

Theorem norms_correct (p q : rpoint) :
  pt_norm exact_fmt exact_sqrt (pt p) (pt q) = real (sqrt (dist2 p q)) /\
  xy_norm exact_fmt exact_sqrt (real (fst p)) (real (snd p)) (real (fst q)) (real (snd q)) = real (sqrt (dist2 p q)) /\
  vect_norm exact_fmt exact_sqrt (pt p) = real (len p).
Proof.
  unfold pt_norm, xy_norm, vect_norm, pt, dist2, len. cbn [fst snd]. rewrite !sub_exact, !mul_exact, !add_exact, !sqrt_exact by apply sum_sq.
  split; [|split]; do 2 f_equal; ring.
Qed.

(** A vector that is not zero is resized to the length asked for, in its own direction. *)
Theorem vect_resize_correct (v : rpoint) l : v <> (0, 0) -> exists w k,
  vect_resize exact_fmt exact_sqrt (pt v) (real l) = pt w /\ w = (k * fst v, k * snd v) /\
  len w = Rabs l /\ (0 < l -> 0 < k) /\ 0 < len v.
Proof.
  intros H. assert (S : 0 < fst v ^ 2 + snd v ^ 2).
  { destruct v as [x y]. cbn [fst snd]. destruct (Req_dec x 0) as [-> |N].
    - assert (y <> 0) by (intros ->; now apply H). nra.
    - nra. }
  assert (P : 0 < len v) by (unfold len; now apply sqrt_lt_R0).
  exists (fst v * l / len v, snd v * l / len v), (l / len v).
  unfold vect_resize. rewrite (proj2 (proj2 (norms_correct v v))). unfold pt. cbn [fst snd].
  rewrite !mul_exact, !div_exact by lra. split; [reflexivity|]. split; [f_equal; field; lra|]. split; [|split; [|exact P]].
  - unfold len at 1. cbn [fst snd]. replace (_ + _) with (Rsqr l).
    + apply sqrt_Rsqr_abs.
    + assert (Q : len v * len v = fst v ^ 2 + snd v ^ 2) by (unfold len; apply sqrt_sqrt; lra).
      unfold Rsqr. apply Rmult_eq_reg_r with (len v * len v); [|nra]. rewrite Q at 1. field. lra.
  - intros L. now apply Rdiv_lt_0_compat.
Qed.

(** The zero vector gives no vector. *)
Theorem vect_resize_zero l : vect_resize exact_fmt exact_sqrt (pt (0, 0)) (real l) = (None, None).
Proof.
  unfold vect_resize. rewrite (proj2 (proj2 (norms_correct (0, 0) (0, 0)))). unfold pt, len. cbn [fst snd].
  replace (0 ^ 2 + 0 ^ 2) with 0 by ring. rewrite sqrt_0, mul_exact, Rmult_0_l, div_zero. now destruct (req_spec 0 0).
Qed.

(** * vect2.c *)

Lemma cart2pol_correct c : pv (vect2_cart2pol c) = cv c /\ normal_pol (vect2_cart2pol c).
Proof.
  unfold pv, cv, normal_pol, arrow, vect2_cart2pol. cbn [vr vtheta].
  destruct (TrajProofs.atan2_polar (vx c) (vy c)) as [H1 H2]. split.
  - f_equal; symmetry; assumption.
  - split; [apply sqrt_pos|apply TrajProofs.atan2_range].
Qed.

(** The conversions, sums and differences give the vectors they are named after, in both forms; those in polar form
    have no negative length and an angle of at most half a turn. *)
Theorem vect2_conversions_correct c p :
  cv (vect2_pol2cart p) = pv p /\ pv (vect2_cart2pol c) = cv c /\ normal_pol (vect2_cart2pol c) /\
  vect2_pol2cart (vect2_cart2pol c) = c.
Proof.
  destruct (cart2pol_correct c) as [H1 H2]. split; [reflexivity|]. do 2 (split; [assumption|]).
  unfold pv, cv, arrow in H1. injection H1 as E1 E2. unfold vect2_pol2cart. destruct c as [x y]. cbn [vx vy vr vtheta vect2_cart2pol] in *. now rewrite E1, E2.
Qed.

Theorem vect2_sums_correct (a b : cart) (p q : pol) :
  cv (vect2_add_cart a b) = vplus (cv a) (cv b) /\ cv (vect2_sub_cart a b) = vminus (cv a) (cv b) /\
  pv (vect2_add_pol p q) = vplus (pv p) (pv q) /\ pv (vect2_sub_pol p q) = vminus (pv p) (pv q) /\
  normal_pol (vect2_add_pol p q) /\ normal_pol (vect2_sub_pol p q).
Proof.
  unfold vect2_add_pol, vect2_sub_pol.
  destruct (cart2pol_correct (vect2_add_cart (vect2_pol2cart p) (vect2_pol2cart q))) as [A1 A2].
  destruct (cart2pol_correct (vect2_sub_cart (vect2_pol2cart p) (vect2_pol2cart q))) as [S1 S2].
  split; [reflexivity|]. split; [reflexivity|]. split; [rewrite A1; reflexivity|]. split; [rewrite S1; reflexivity|]. now split.
Qed.

Theorem vect2_lengths_correct (a b : cart) alpha :
  vect2_norm_cart a = len (cv a) /\ vect2_dist_cart a b = sqrt (dist2 (cv a) (cv b)) /\
  vect2_dot_product_cart a b = inner (cv a) (cv b) /\
  cv (vect2_scale_cart a alpha) = (alpha * fst (cv a), alpha * snd (cv a)) /\
  cv a = arrow (len (cv a)) (vect2_angle_vec_x_rad_cart a) /\ Rabs (vect2_angle_vec_x_rad_cart a) <= PI.
Proof.
  assert (Q : forall x y, x ^ 2 + y ^ 2 = x * x + y * y) by (intros; ring).
  unfold vect2_dist_cart, vect2_norm_cart, len, dist2, cv, inner. cbn [fst snd vect2_sub_cart vx vy]. rewrite !Q.
  split; [reflexivity|]. split; [reflexivity|]. split; [reflexivity|]. split; [reflexivity|]. split.
  - unfold vect2_angle_vec_x_rad_cart, arrow. destruct (TrajProofs.atan2_polar (vx a) (vy a)) as [H1 H2]. f_equal; assumption.
  - apply TrajProofs.atan2_range.
Qed.

(** The angle between two vectors: the one of [0, pi] whose cosine is the inner product over the lengths; it is the
    difference of their directions, up to the sense and to whole turns. *)
Theorem vect2_angle_correct r s alpha beta : 0 < r -> 0 < s -> Rabs (alpha - beta) <= PI ->
  vect2_angle_2vec_rad_cart {| vx := r * cos alpha; vy := r * sin alpha |} {| vx := s * cos beta; vy := s * sin beta |}
  = Rabs (alpha - beta).
Proof.
  intros Hr Hs H. unfold vect2_angle_2vec_rad_cart, vect2_dot_product_cart, vect2_norm_cart. cbn [vx vy].
  assert (L : forall x t, 0 < x -> sqrt (x * cos t * (x * cos t) + x * sin t * (x * sin t)) = x).
  { intros x t Hx. replace (_ + _) with (Rsqr x * (Rsqr (sin t) + Rsqr (cos t))) by (unfold Rsqr; ring).
    rewrite sin2_cos2, Rmult_1_r. apply sqrt_Rsqr. lra. }
  rewrite !L by assumption.
  replace (_ / _) with (cos (Rabs (alpha - beta))).
  - apply acos_cos. split; [apply Rabs_pos|exact H].
  - assert (C : cos (Rabs (alpha - beta)) = cos (alpha - beta)).
    { unfold Rabs. destruct (Rcase_abs _); [apply cos_neg|reflexivity]. }
    rewrite C, cos_minus. field. lra.
Qed.

(** With the float arithmetic the argument of acosf can be above 1, for a vector and itself: the angle is then not a
    number. *)
Theorem vect2_angle_refuted : exists v : point (F ieee),
  lt (F ieee) (of_int (F ieee) 1) (angle_argument (F ieee) ieee_sqrtf v v) = true.
Proof. exists (of_int (F ieee) 1, of_int (F ieee) 1). vm_compute. reflexivity. Qed.

(** The product of a polar vector by a number is not one: the angle of the result is not written. *)
Theorem vect2_scale_pol_refuted : exists p alpha result,
  normal_pol p /\ normal_pol result /\ 0 < alpha /\ pv (vect2_scale_pol p alpha result) <> (alpha * fst (pv p), alpha * snd (pv p)).
Proof.
  exists {| vr := 1; vtheta := PI |}, 1, {| vr := 0; vtheta := 0 |}. pose proof PI_RGT_0.
  unfold normal_pol, pv, arrow. cbn [vr vtheta vect2_scale_pol fst snd].
  split; [rewrite Rabs_right by lra; lra|]. split; [rewrite Rabs_R0; lra|]. split; [lra|].
  rewrite cos_0, cos_PI. intro E. injection E as E _. lra.
Qed.
(** If the result is the vector itself, it is. *)
Theorem vect2_scale_pol_in_place p alpha : pv (vect2_scale_pol p alpha p) = (alpha * fst (pv p), alpha * snd (pv p)).
Proof. unfold pv, arrow. cbn [vr vtheta vect2_scale_pol fst snd]. f_equal; ring. Qed.

(** * Cases *)

(** Circles of radius 5 around (0, 0) and (6, 0) cross in (3, 4) and (3, -4). *)
Example two_circles : apart (0, 0) (6, 0) /\ on_both (0, 0) 5 (6, 0) 5 (3, 4) /\ on_both (0, 0) 5 (6, 0) 5 (3, -4) /\
  fst (circle_intersect exact_fmt exact_sqrt (circ (0, 0) 5) (circ (6, 0) 5)) = 2%Z.
Proof.
  assert (A : apart (0, 0) (6, 0)).
  { unfold apart. cbn [fst snd]. apply Rle_trans with (2 := Rmax_l _ _). rewrite Rminus_0_l, Rabs_Ropp, Rabs_right; lra. }
  assert (O : on_both (0, 0) 5 (6, 0) 5 (3, 4)) by (unfold on_both, on_circle, dist2; cbn [fst snd]; split; lra).
  split; [exact A|]. split; [exact O|]. split; [unfold on_both, on_circle, dist2; cbn [fst snd]; split; lra|].
  pose proof (circle_intersect_correct_partial (0, 0) 5 (6, 0) 5 A) as K.
  destruct (circle_intersect _ _ _ _) as [k o].
  assert (k = 0%Z \/ k = 2%Z) as [-> | ->] by (destruct k as [|[k|[k|k|]|]|]; tauto); [|reflexivity].
  destruct o; [contradiction|]. exfalso. exact (K _ O).
Qed.

Print Assumptions circle_intersect_correct_partial.
Print Assumptions vect_resize_correct.
Print Assumptions vect2_angle_correct.
Print Assumptions vect2_angle_refuted.
