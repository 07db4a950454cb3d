From Coq Require Import Reals ZArith List Lra Bool.
From Flocq Require Import Core IEEE754.BinarySingleNaN.
From Verif Require Import FloatModel FloatProofs MadgModel MadgSpec.
Local Open Scope R_scope.

Lemma half_lit : IZR 1 * bpow radix2 (-1) = / 2.
Proof. cbn. lra. Qed.
Lemma lit0 m : IZR m * bpow radix2 0 = IZR m.
Proof. cbn. ring. Qed.

Ltac ex := cbn [F D exact exact_fmt add sub mul div neg eq lit narrow widen xadd xneg xmul option_map eneg zero one two four eight half];
  rewrite ?lit0, ?half_lit.
Lemma quat_eq a b c d a' b' c' d' : a = a' -> b = b' -> c = c' -> d = d' -> quat_of (mkQ a b c d) = quat_of (mkQ a' b' c' d').
Proof. now intros -> -> -> ->. Qed.
Lemma gyro_exact p g : gyro_rate exact (quat_of p) (vec_of g) = quat_of (turning p g).
Proof.
  destruct p as [w x y z], g as [a b c]. unfold gyro_rate, quat_of, vec_of, num_of, turning, scale, hamilton, pure, half. ex. cbn [re im1 im2 im3 v1 v2 v3].
  f_equal; f_equal; f_equal; field.
Qed.
Definition tilt_grad (p : quaternion) (a : vector) : quaternion :=
  let '(mkQ q0 q1 q2 q3) := p in
  let f1 := 2 * (q1 * q3 - q0 * q2) - v1 a in let f2 := 2 * (q2 * q3 + q0 * q1) - v2 a in let f3 := 1 - 2 * q1 * q1 - 2 * q2 * q2 - v3 a in
  mkQ (- 2 * q2 * f1 + 2 * q1 * f2) (2 * q3 * f1 + 2 * q0 * f2 - 4 * q1 * f3) (- 2 * q0 * f1 + 2 * q3 * f2 - 4 * q2 * f3) (2 * q1 * f1 + 2 * q2 * f2).
Lemma imu_exact p a : imu_step exact (quat_of p) (vec_of a) = quat_of (tilt_grad p a).
Proof.
  destruct p as [w x y z], a as [a b c]. unfold imu_step, quat_of, vec_of, num_of, tilt_grad, two, four, eight. cbn [v1 v2 v3]. cbv zeta. ex. cbn [re im1 im2 im3].
  f_equal; f_equal; f_equal; ring.
Qed.
Definition mag_grad (p : quaternion) (a m b : vector) : quaternion :=
  let '(mkQ q0 q1 q2 q3) := p in let bx := v1 b in let bz := v3 b in
  let f4 := bx * (/ 2 - q2 * q2 - q3 * q3) + bz * (q1 * q3 - q0 * q2) - v1 m in
  let f5 := bx * (q1 * q2 - q0 * q3) + bz * (q0 * q1 + q2 * q3) - v2 m in
  let f6 := bx * (q0 * q2 + q1 * q3) + bz * (/ 2 - q1 * q1 - q2 * q2) - v3 m in
  plus (tilt_grad p a)
    (mkQ (- bz * q2 * f4 + (- bx * q3 + bz * q1) * f5 + bx * q2 * f6)
         (bz * q3 * f4 + (bx * q2 + bz * q0) * f5 + (bx * q3 - 2 * bz * q1) * f6)
         ((- 2 * bx * q2 - bz * q0) * f4 + (bx * q1 + bz * q3) * f5 + (bx * q0 - 2 * bz * q2) * f6)
         ((- 2 * bx * q3 + bz * q1) * f4 + (- bx * q0 + bz * q2) * f5 + bx * q1 * f6)).
Lemma sqrt_exact r : 0 <= r -> exact_sqrt (Some (Real r)) = Some (Real (sqrt r)).
Proof. intro H. unfold exact_sqrt. destruct (rlt_spec r 0); [lra|reflexivity]. Qed.
Lemma squares_pos a b : 0 <= a * a + b * b.
Proof. pose proof (Rle_0_sqr a). pose proof (Rle_0_sqr b). unfold Rsqr in *. lra. Qed.
Lemma field_parts p m : exists hx hy, v1 (field p m) = sqrt (hx * hx + hy * hy) /\ v2 (field p m) = 0 /\
  hx = v1 m * (re p * re p) - 2 * re p * v2 m * im3 p + 2 * re p * v3 m * im2 p + v1 m * (im1 p * im1 p) + 2 * im1 p * v2 m * im2 p
       + 2 * im1 p * v3 m * im3 p - v1 m * (im2 p * im2 p) - v1 m * (im3 p * im3 p) /\
  hy = 2 * re p * v1 m * im3 p + v2 m * (re p * re p) - 2 * re p * v3 m * im1 p + 2 * im1 p * v1 m * im2 p - v2 m * (im1 p * im1 p)
       + v2 m * (im2 p * im2 p) + 2 * im2 p * v3 m * im3 p - v2 m * (im3 p * im3 p) /\
  v3 (field p m) = - (2 * re p * v1 m) * im2 p + 2 * re p * v2 m * im1 p + v3 m * (re p * re p) + 2 * im1 p * v1 m * im3 p - v3 m * (im1 p * im1 p)
       + 2 * im2 p * v2 m * im3 p - v3 m * (im2 p * im2 p) + v3 m * (im3 p * im3 p).
Proof.
  destruct p as [w x y z], m as [a b c]. unfold field, hamilton, pure, conj. cbn [re im1 im2 im3 v1 v2 v3].
  eexists _, _. split; [reflexivity|]. split; [reflexivity|]. split; [|split]; ring.
Qed.
Lemma mag_exact p a m : mag_step exact exact_sqrt (quat_of p) (vec_of a) (vec_of m) = quat_of (mag_grad p a m (field p m)).
Proof.
  destruct (field_parts p m) as (hx & hy & E1 & E2 & Ex & Ey & E3).
  unfold mag_grad. rewrite E1, E3. destruct p as [w x y z], a as [a1 a2 a3], m as [m1 m2 m3]. cbn [re im1 im2 im3 v1 v2 v3] in *.
  unfold mag_step, quat_of, vec_of, num_of, two, four, half, one. cbn [re im1 im2 im3 v1 v2 v3]. cbv zeta. ex.
  match goal with |- context [exact_sqrt (Some (Real ?r))] => replace r with (hx * hx + hy * hy) by (rewrite Ex, Ey; ring) end.
  rewrite sqrt_exact by apply squares_pos. set (bx := sqrt (hx * hx + hy * hy)). clearbody bx. ex. cbn [tilt_grad plus re im1 im2 im3 v1 v2 v3].
  f_equal; f_equal; f_equal; ring.
Qed.

Lemma residual_lim A B C : derivable_pt_lim (fun t => A + B * t + C * (t * t)) 0 B.
Proof.
  pose proof (derivable_pt_lim_const A 0) as H1.
  pose proof (derivable_pt_lim_scal (fun t => t) B 0 1 (derivable_pt_lim_id 0)) as H2.
  pose proof (derivable_pt_lim_mult (fun t => t) (fun t => t) 0 1 1 (derivable_pt_lim_id 0) (derivable_pt_lim_id 0)) as H3. cbv beta in H3.
  pose proof (derivable_pt_lim_scal _ C _ _ H3) as H4.
  pose proof (derivable_pt_lim_plus _ _ _ _ _ (derivable_pt_lim_plus _ _ _ _ _ H1 H2) H4) as H.
  replace (0 + B * 1 + C * (1 * 0 + 0 * 1)) with B in H by ring. exact H.
Qed.
Lemma half_square_lim A B C : derivable_pt_lim (fun t => / 2 * ((A + B * t + C * (t * t)) * (A + B * t + C * (t * t)))) 0 (A * B).
Proof.
  pose proof (residual_lim A B C) as H. pose proof (derivable_pt_lim_mult _ _ _ _ _ H H) as H2. pose proof (derivable_pt_lim_scal _ (/ 2) _ _ H2) as H3.
  replace (A * B) with (/ 2 * (B * (A + B * 0 + C * (0 * 0)) + (A + B * 0 + C * (0 * 0)) * B)) by field. exact H3.
Qed.
Lemma lim_ext f g x l : (forall t, f t = g t) -> derivable_pt_lim f x l -> derivable_pt_lim g x l.
Proof. intros E H eps He. destruct (H eps He) as (d & Hd). exists d. intros h. rewrite <- !E. apply Hd. Qed.
Lemma three_squares f A1 B1 C1 A2 B2 C2 A3 B3 C3 l :
  (forall t, f t = / 2 * ((A1 + B1 * t + C1 * (t * t)) * (A1 + B1 * t + C1 * (t * t)) + (A2 + B2 * t + C2 * (t * t)) * (A2 + B2 * t + C2 * (t * t))
    + (A3 + B3 * t + C3 * (t * t)) * (A3 + B3 * t + C3 * (t * t)))) ->
  l = A1 * B1 + A2 * B2 + A3 * B3 -> derivable_pt_lim f 0 l.
Proof.
  intros E ->. pose proof (derivable_pt_lim_plus _ _ _ _ _ (derivable_pt_lim_plus _ _ _ _ _ (half_square_lim A1 B1 C1) (half_square_lim A2 B2 C2)) (half_square_lim A3 B3 C3)) as H.
  eapply lim_ext; [|exact H]. intro t. rewrite E. unfold plus_fct. ring.
Qed.
Lemma tilt_gradient a p : gradient (tilt_error a) p (tilt_grad p a).
Proof.
  destruct p as [w x y z], a as [a1 a2 a3]. intros [v0 v1 v2 v3].
  apply (three_squares _ (2 * (x * z - w * y) - a1) (2 * (v1 * z + x * v3 - v0 * y - w * v2)) (2 * (v1 * v3 - v0 * v2))
    (2 * (y * z + w * x) - a2) (2 * (v2 * z + y * v3 + v0 * x + w * v1)) (2 * (v2 * v3 + v0 * v1))
    (1 - 2 * x * x - 2 * y * y - a3) (- 4 * (x * v1 + y * v2)) (- 2 * (v1 * v1 + v2 * v2))).
  - intro t. unfold tilt_error, square, vdot, vminus, seen, up, plus, scale. cbn [re im1 im2 im3 MadgSpec.v1 MadgSpec.v2 MadgSpec.v3]. ring.
  - unfold dot, tilt_grad. cbn [re im1 im2 im3 MadgSpec.v1 MadgSpec.v2 MadgSpec.v3]. ring.
Qed.
Lemma mag_gradient a m b p : v2 b = 0 -> gradient (attitude_error a m b) p (mag_grad p a m b).
Proof.
  intro B0. intro v. unfold mag_grad. destruct p as [w x y z] eqn:Ep.
  match goal with |- derivable_pt_lim _ 0 (dot (plus ?g ?h) v) => replace (dot (plus g h) v) with (dot g v + dot h v) by (unfold dot, plus; cbn; ring) end.
  unfold attitude_error. apply (derivable_pt_lim_plus (fun t => tilt_error a (plus (mkQ w x y z) (scale t v)))
    (fun t => / 2 * square (vminus (vscale (/ 2) (seen (plus (mkQ w x y z) (scale t v)) b)) m))); [apply tilt_gradient|].
  destruct v as [u0 u1 u2 u3], b as [b1 b2 b3], m as [m1 m2 m3]. cbn in B0. subst b2.
  apply (three_squares _ (b1 * (/ 2 - y * y - z * z) + b3 * (x * z - w * y) - m1) (b1 * (- 2 * (y * u2 + z * u3)) + b3 * (u1 * z + x * u3 - u0 * y - w * u2)) (b1 * (- u2 * u2 - u3 * u3) + b3 * (u1 * u3 - u0 * u2))
    (b1 * (x * y - w * z) + b3 * (w * x + y * z) - m2) (b1 * (u1 * y + x * u2 - u0 * z - w * u3) + b3 * (u0 * x + w * u1 + u2 * z + y * u3)) (b1 * (u1 * u2 - u0 * u3) + b3 * (u0 * u1 + u2 * u3))
    (b1 * (w * y + x * z) + b3 * (/ 2 - x * x - y * y) - m3) (b1 * (u0 * y + w * u2 + u1 * z + x * u3) + b3 * (- 2 * (x * u1 + y * u2))) (b1 * (u0 * u2 + u1 * u3) + b3 * (- u1 * u1 - u2 * u2))).
  - intro t. unfold square, vdot, vminus, vscale, seen, plus, scale. cbn [re im1 im2 im3 v1 v2 v3]. field.
  - unfold dot. cbn [re im1 im2 im3 v1 v2 v3]. ring.
Qed.

Lemma dot_pos p : 0 <= dot p p.
Proof. unfold dot. pose proof (squares_pos (re p) (im1 p)). pose proof (squares_pos (im2 p) (im3 p)). lra. Qed.
Lemma sqr_zero x : x * x = 0 -> x = 0.
Proof. intro H. apply Rmult_integral in H. tauto. Qed.
Lemma dot_zero p : dot p p = 0 -> p = null.
Proof.
  destruct p as [w x y z]. unfold dot. cbn [re im1 im2 im3]. intro H.
  pose proof (Rle_0_sqr w). pose proof (Rle_0_sqr x). pose proof (Rle_0_sqr y). pose proof (Rle_0_sqr z). unfold Rsqr in *.
  unfold null. f_equal; apply sqr_zero; lra.
Qed.
Lemma norm_pos p : p <> null -> 0 < norm p.
Proof.
  intro H. apply sqrt_lt_R0. destruct (Rle_lt_or_eq_dec 0 _ (dot_pos p)) as [|E]; auto. symmetry in E. apply dot_zero in E. contradiction.
Qed.
Lemma norm_sq p : norm p * norm p = dot p p.
Proof. apply sqrt_sqrt, dot_pos. Qed.
Lemma unit_norm p : p <> null -> norm (unit_quaternion p) = 1.
Proof.
  intro H. pose proof (norm_pos p H). unfold norm at 1. replace (dot (unit_quaternion p) (unit_quaternion p)) with 1; [apply sqrt_1|].
  unfold unit_quaternion. replace (dot (scale (/ norm p) p) (scale (/ norm p) p)) with (/ norm p * / norm p * dot p p) by (unfold dot, scale; cbn; ring).
  rewrite <- norm_sq. field. lra.
Qed.
Lemma vdot_zero a : vdot a a = 0 -> a = vnull.
Proof.
  destruct a as [x y z]. unfold vdot. cbn [v1 v2 v3]. intro H.
  pose proof (Rle_0_sqr x). pose proof (Rle_0_sqr y). pose proof (Rle_0_sqr z). unfold Rsqr in *. unfold vnull. f_equal; apply sqr_zero; lra.
Qed.
Lemma vdot_pos a : 0 <= vdot a a.
Proof. unfold vdot. pose proof (squares_pos (v1 a) (v2 a)). pose proof (Rle_0_sqr (v3 a)). unfold Rsqr in *. lra. Qed.
Lemma vnorm_pos a : a <> vnull -> 0 < vnorm a.
Proof.
  intro H. apply sqrt_lt_R0. destruct (Rle_lt_or_eq_dec 0 _ (vdot_pos a)) as [|E]; auto. symmetry in E. apply vdot_zero in E. contradiction.
Qed.
Lemma inv_sqrt_exact r : 0 <= r -> sqrt r <> 0 -> invSqrt exact exact_sqrt (Some (Real r)) = Some (Real (/ sqrt r)).
Proof.
  intros H N. unfold invSqrt, one. rewrite sqrt_exact by auto. cbn [F exact exact_fmt div lit xdiv]. destruct (req_spec (sqrt r) 0); [contradiction|].
  rewrite lit0. f_equal. f_equal. field. auto.
Qed.
Lemma inv_sqrt_zero : invSqrt exact exact_sqrt (Some (Real 0)) = Some PInf.
Proof.
  unfold invSqrt, one. rewrite sqrt_exact by lra. rewrite sqrt_0. cbn [F exact exact_fmt div lit xdiv]. rewrite lit0.
  destruct (req_spec 0 0); [|contradiction]. destruct (req_spec 1 0); [lra|]. destruct (rlt_spec 1 0); [lra|reflexivity].
Qed.
Lemma normalise_exact a : a <> vnull -> normalise exact exact_sqrt (vec_of a) = vec_of (unit_vector a).
Proof.
  intro H. pose proof (vnorm_pos a H) as N. unfold vnorm, vdot in N. destruct a as [x y z]. cbn [v1 v2 v3] in N.
  unfold normalise, vec_of, num_of. cbn [v1 v2 v3]. cbv zeta. ex. rewrite inv_sqrt_exact; [|apply (vdot_pos (mkV x y z))|lra]. ex.
  unfold unit_vector, vscale, vnorm, vdot. cbn [v1 v2 v3]. f_equal; f_equal; f_equal; ring.
Qed.
Lemma normalise_quat_exact p : p <> null -> normalise_quat exact exact_sqrt (quat_of p) = quat_of (unit_quaternion p).
Proof.
  intro H. pose proof (norm_pos p H) as N. unfold norm, dot in N. destruct p as [w x y z]. cbn [re im1 im2 im3] in N.
  unfold normalise_quat, quat_of, num_of. cbn [re im1 im2 im3]. cbv zeta. ex. rewrite inv_sqrt_exact; [|apply (dot_pos (mkQ w x y z))|lra]. ex.
  unfold unit_quaternion, scale, norm, dot. cbn [re im1 im2 im3]. f_equal; f_equal; f_equal; ring.
Qed.
Definition nanq : quat exact := @Q exact None None None None.
Lemma normalise_quat_null : normalise_quat exact exact_sqrt (quat_of null) = nanq.
Proof.
  unfold normalise_quat, quat_of, num_of, null. cbn [re im1 im2 im3]. cbv zeta. ex. replace (0 * 0 + 0 * 0 + 0 * 0 + 0 * 0) with 0 by ring.
  rewrite inv_sqrt_zero. cbn [xmul]. destruct (req_spec 0 0); [reflexivity|contradiction].
Qed.
Lemma is_zero_exact a : is_zero exact (vec_of a) = true <-> a = vnull.
Proof.
  destruct a as [x y z]. unfold is_zero, zero, vec_of, num_of, vnull. cbn [v1 v2 v3 vx vy vz]. ex. unfold xeq. rewrite !andb_true_iff.
  destruct (req_spec x 0), (req_spec y 0), (req_spec z 0); subst; split; intro H; try (cbn in H; discriminate); try (now inversion H); auto.
Qed.
Lemma feedback_exact b d s : feedback exact (num_of b) (quat_of d) (quat_of s) = quat_of (plus d (scale (- b) s)).
Proof.
  destruct d as [d1 d2 d3 d4], s as [s0 s1 s2 s3]. unfold feedback, quat_of, num_of, plus, scale. cbn [re im1 im2 im3]. ex. f_equal; f_equal; f_equal; ring.
Qed.
Lemma feedback_nan b d : feedback exact (num_of b) (quat_of d) nanq = nanq.
Proof. destruct d as [d1 d2 d3 d4]. reflexivity. Qed.
Lemma integrate_exact p b freq d : freq <> 0 -> let r := plus p (scale (/ freq) d) in
  integrate exact exact_sqrt (filter_of p b freq) (quat_of d) = mkFilter (normalise_quat exact exact_sqrt (quat_of r)) (num_of b) (num_of freq).
Proof.
  intros H r. unfold r. destruct p as [w x y z], d as [d1 d2 d3 d4]. unfold integrate, filter_of, quat_of, num_of, plus, scale, one. cbn [q beta sample_frequency re im1 im2 im3]. ex.
  cbn [xdiv]. destruct (req_spec freq 0); [contradiction|]. ex. f_equal. f_equal. f_equal; f_equal; f_equal; field; auto.
Qed.
Lemma integrate_nan p b freq : integrate exact exact_sqrt (filter_of p b freq) nanq = nan_filter b freq.
Proof.
  destruct p as [w x y z]. unfold integrate, filter_of, quat_of, num_of, nanq, nan_filter. cbn [q beta sample_frequency re im1 im2 im3].
  cbn [F exact exact_fmt add mul xmul xadd]. reflexivity.
Qed.
Lemma null_dec p : {p = null} + {p <> null}.
Proof. destruct (Req_EM_T (dot p p) 0) as [E|N]; [left; now apply dot_zero|right; intros ->; apply N; unfold dot; cbn; ring]. Qed.
Lemma vnull_dec a : {a = vnull} + {a <> vnull}.
Proof. destruct (Req_EM_T (vdot a a) 0) as [E|N]; [left; now apply vdot_zero|right; intros ->; apply N; unfold vdot; cbn; ring]. Qed.
Lemma corrected p g b freq s : freq <> 0 ->
  integrate exact exact_sqrt (filter_of p b freq) (feedback exact (num_of b) (gyro_rate exact (quat_of p) (vec_of g)) (normalise_quat exact exact_sqrt (quat_of s)))
  = if null_dec s then nan_filter b freq else if null_dec (next p g b freq s) then nan_filter b freq else filter_of (unit_quaternion (next p g b freq s)) b freq.
Proof.
  intro H. rewrite gyro_exact. destruct (null_dec s) as [->|N].
  - rewrite normalise_quat_null, feedback_nan. apply integrate_nan.
  - rewrite normalise_quat_exact by auto. rewrite feedback_exact, integrate_exact by auto. fold (next p g b freq s).
    destruct (null_dec (next p g b freq s)) as [->|N']; [now rewrite normalise_quat_null|now rewrite normalise_quat_exact].
Qed.
Lemma turning_orthogonal p g : dot p (turning p g) = 0.
Proof. destruct p as [w x y z], g as [a b c]. unfold dot, turning, scale, hamilton, pure. cbn. ring. Qed.
Lemma gyro_grows p g k : dot (plus p (scale k (turning p g))) (plus p (scale k (turning p g))) = dot p p + k * k * dot (turning p g) (turning p g).
Proof.
  pose proof (turning_orthogonal p g) as T. revert T. generalize (turning p g). intros d T.
  replace (dot p p + k * k * dot d d) with (dot p p + 2 * k * dot p d + k * k * dot d d) by (rewrite T; ring).
  unfold dot, plus, scale. cbn. ring.
Qed.
Lemma gyro_not_null p g k : p <> null -> plus p (scale k (turning p g)) <> null.
Proof.
  intros H E. pose proof (gyro_grows p g k) as G. rewrite E in G. assert (P : 0 < dot p p) by (pose proof (norm_pos p H); rewrite <- norm_sq; nra).
  pose proof (dot_pos (turning p g)). pose proof (Rle_0_sqr k). unfold Rsqr in *. unfold null, dot at 1 in G. cbn in G. nra.
Qed.
Lemma gyro_only p g b freq : freq <> 0 -> p <> null -> let r := plus p (scale (/ freq) (turning p g)) in
  integrate exact exact_sqrt (filter_of p b freq) (gyro_rate exact (quat_of p) (vec_of g)) = filter_of (unit_quaternion r) b freq.
Proof. intros H N r. rewrite gyro_exact, integrate_exact by auto. fold r. rewrite normalise_quat_exact; [reflexivity|]. now apply gyro_not_null. Qed.

(** * NaN in IEEE arithmetic *)
Section Nan.
Context {prec emax : Z} {Hp : Prec_gt_0 prec} {He : Prec_lt_emax prec emax}.
Notation flt := (binary_float prec emax).
Implicit Types x y : flt.
Lemma nan_add_l x y : is_nan x = true -> is_nan (Bplus mode_NE x y) = true.
Proof. destruct x, y; try discriminate; reflexivity. Qed.
Lemma nan_sub_r x y : is_nan y = true -> is_nan (Bminus mode_NE x y) = true.
Proof. destruct x, y; try discriminate; reflexivity. Qed.
Lemma nan_mul_l x y : is_nan x = true -> is_nan (Bmult mode_NE x y) = true.
Proof. destruct x, y; try discriminate; reflexivity. Qed.
Lemma nan_mul_r x y : is_nan y = true -> is_nan (Bmult mode_NE x y) = true.
Proof. destruct x, y; try discriminate; reflexivity. Qed.
Lemma nan_add_r x y : is_nan y = true -> is_nan (Bplus mode_NE x y) = true.
Proof. destruct x, y; try discriminate; reflexivity. Qed.
End Nan.
Lemma normalise_nan p : all_nan p -> all_nan (normalise_quat ieee ieee_sqrtf p).
Proof.
  destruct p as [a b c d]. unfold all_nan, normalise_quat. cbn [qw qx qy qz]. cbv zeta. intros (A & B & C & E).
  repeat split; apply nan_mul_l; assumption.
Qed.
Lemma integrate_nan_state f d : all_nan (q f) -> all_nan (q (integrate ieee ieee_sqrtf f d)).
Proof.
  destruct f as [[a b c e] bt fr], d as [d1 d2 d3 d4]. cbn [q]. intros (A & B & C & E). unfold integrate. cbn [q beta sample_frequency]. cbv zeta. cbn [q].
  apply normalise_nan. unfold all_nan. cbn [qw qx qy qz] in *. repeat split; apply nan_add_l; assumption.
Qed.
Lemma integrate_nan_rate f d : all_nan d -> all_nan (q (integrate ieee ieee_sqrtf f d)).
Proof.
  destruct f as [[a b c e] bt fr], d as [d1 d2 d3 d4]. intros (A & B & C & E). unfold integrate. cbn [q beta sample_frequency]. cbv zeta. cbn [q].
  apply normalise_nan. unfold all_nan. cbn [qw qx qy qz] in *. repeat split; apply nan_add_r, nan_mul_l; assumption.
Qed.
Lemma feedback_nan_step b d s : all_nan s -> all_nan (feedback ieee b d s).
Proof.
  destruct d as [d1 d2 d3 d4], s as [s0 s1 s2 s3]. unfold all_nan, feedback. cbn [qw qx qy qz]. intros (A & B & C & E).
  repeat split; apply nan_sub_r, nan_mul_r; assumption.
Qed.
