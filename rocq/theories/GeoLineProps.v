(** lines.c and circles.c: the points that the functions return. *)
From Coq Require Import ZArith Reals List Bool Lra Lia Psatz.
From Flocq Require Import Core.
From Verif Require Import FloatModel FloatSpec FloatProofs PidSpec GeoModel GeoSpec GeoProofs GeoProofs2 GeoLineSpec.
Import ListNotations.
Local Open Scope R_scope.

(** The line through two points consists of the points in line with them. *)
Theorem pts2line_correct p q : p <> q -> exists l,
  pts2line exact_fmt (pt p) (pt q) = ln l /\ proper l /\
  forall x, on_line l x <-> exists t, x = between p q t.
Proof.
  intro N. exists {| A := - (snd q - snd p); B := fst q - fst p;
                     C := - (- (snd q - snd p) * fst p + (fst q - fst p) * snd p) |}.
  split; [reflexivity|]. pose proof (square_pos p q N) as S. split.
  - unfold proper. cbn [A B]. destruct (Req_dec (snd q - snd p) 0); [right|left; lra]. intro H0. rewrite H, H0 in S. lra.
  - intro x. unfold on_line. cbn [A B C]. split.
    + intro H. set (n := (fst q - fst p) * (fst q - fst p) + (snd q - snd p) * (snd q - snd p)) in *.
      exists (((fst x - fst p) * (fst q - fst p) + (snd x - snd p) * (snd q - snd p)) / n).
      destruct x as [x y], p as [px py], q as [qx qy]. unfold between. cbn [fst snd] in *.
      assert (D : (qx - px) * (y - py) = (qy - py) * (x - px)) by lra.
      f_equal; apply Rmult_eq_reg_r with n; try lra.
      * transitivity (px * n + ((x - px) * (qx - px) + (y - py) * (qy - py)) * (qx - px)); [|field; lra].
        unfold n. transitivity (px * n + (x - px) * (qx - px) * (qx - px) + ((qy - py) * (x - px)) * (qy - py)); [unfold n; ring|].
        rewrite <- D. unfold n. ring.
      * transitivity (py * n + ((x - px) * (qx - px) + (y - py) * (qy - py)) * (qy - py)); [|field; lra].
        unfold n. transitivity (py * n + (y - py) * (qy - py) * (qy - py) + ((qx - px) * (y - py)) * (qx - px)); [unfold n; ring|].
        rewrite D. unfold n. ring.
    + intros (t & ->). unfold between. cbn [fst snd]. ring.
Qed.

(** The intersection of two lines: none, one point (the one returned) or the same line. *)
Theorem intersect_line_correct l1 l2 : proper l1 -> proper l2 ->
  match intersect_line exact_fmt (ln l1) (ln l2) with
  | (0%Z, _) => forall p, ~ (on_line l1 p /\ on_line l2 p)
  | (1%Z, Some r) => exists p, r = pt p /\ forall q, on_line l1 q /\ on_line l2 q <-> q = p
  | (2%Z, _) => forall p, on_line l1 p <-> on_line l2 p
  | _ => False
  end.
Proof.
  intros P1 P2. destruct l1 as [a1 b1 c1], l2 as [a2 b2 c2]. unfold proper, on_line, ln in *. cbn [A B C] in *.
  destruct (intersect_line_exact a1 b1 c1 a2 b2 c2) as [[Dg ->]|[(G1 & G2 & Dz & Cs)|(Dn & x & y & -> & E1 & E2)]].
  - exfalso. tauto.
  - destruct Cs as [(Ca & Cb & ->)|[Nc ->]].
    + assert (G : forall a b c a' b' c', (a <> 0 \/ b <> 0) -> a' * b - a * b' = 0 -> a * c' = a' * c -> b * c' = b' * c ->
        forall p : rpoint, a * fst p + b * snd p + c = 0 -> a' * fst p + b' * snd p + c' = 0).
      { intros a b c a' b' c' [Ha|Hb] D Ea Eb [x y] H; cbn [fst snd] in *.
        - apply Rmult_eq_reg_l with a; [|exact Ha]. rewrite Rmult_0_r.
          replace (a * (a' * x + b' * y + c')) with (a' * (a * x + b * y + c) - (a' * b - a * b') * y + (a * c' - a' * c)) by ring.
          rewrite H, D, Ea. ring.
        - apply Rmult_eq_reg_l with b; [|exact Hb]. rewrite Rmult_0_r.
          replace (b * (a' * x + b' * y + c')) with (b' * (a * x + b * y + c) + (a' * b - a * b') * x + (b * c' - b' * c)) by ring.
          rewrite H, D, Eb. ring. }
      intro p. split; apply G; auto; lra.
    + intros [x y] [H1 H2]. cbn [fst snd] in *. apply Nc.
      assert (Q1 : c1 = - (a1 * x + b1 * y)) by lra. assert (Q2 : c2 = - (a2 * x + b2 * y)) by lra.
      rewrite Q1, Q2. split.
      * replace (a1 * - (a2 * x + b2 * y)) with (a2 * - (a1 * x + b1 * y) + (a2 * b1 - a1 * b2) * y) by ring. rewrite Dz. ring.
      * replace (b1 * - (a2 * x + b2 * y)) with (b2 * - (a1 * x + b1 * y) - (a2 * b1 - a1 * b2) * x) by ring. rewrite Dz. ring.
  - exists (x, y). split; [reflexivity|]. intros [u v]. cbn [fst snd]. split.
    + intros [H1 H2].
      assert (K1 : a1 * (u - x) + b1 * (v - y) = 0) by lra. assert (K2 : a2 * (u - x) + b2 * (v - y) = 0) by lra.
      f_equal; apply Rminus_diag_uniq; apply Rmult_eq_reg_l with (a2 * b1 - a1 * b2); try exact Dn; rewrite Rmult_0_r.
      * replace ((a2 * b1 - a1 * b2) * (u - x)) with (b1 * (a2 * (u - x) + b2 * (v - y)) - b2 * (a1 * (u - x) + b1 * (v - y))) by ring.
        rewrite K1, K2. ring.
      * replace ((a2 * b1 - a1 * b2) * (v - y)) with (a2 * (a1 * (u - x) + b1 * (v - y)) - a1 * (a2 * (u - x) + b2 * (v - y))) by ring.
        rewrite K1, K2. ring.
    + intro E. injection E as -> ->. auto.
Qed.

Lemma proper_pos l : proper l -> 0 < A l * A l + B l * B l.
Proof.
  pose proof (Rle_0_sqr (A l)). pose proof (Rle_0_sqr (B l)). unfold Rsqr in *.
  intros [H1|H1]; pose proof (Rsqr_pos_lt _ H1); unfold Rsqr in *; lra.
Qed.

(** The projection of a point is the point of the line nearest to it. *)
Theorem proj_pt_line_correct p l : proper l -> exists q,
  proj_pt_line exact_fmt (pt p) (ln l) = pt q /\ on_line l q /\
  forall r, on_line l r -> r <> q -> dist2 p q < dist2 p r.
Proof.
  intro P. apply proper_pos in P. destruct l as [a b c], p as [x y]. cbn [A B] in P.
  set (n := a * a + b * b) in *.
  exists ((b * (b * x - a * y) - a * c) / n, (a * (a * y - b * x) - b * c) / n). split; [|split].
  - unfold proj_pt_line, ln, pt. cbn [la lb lc A B C fst snd]. exs.
    assert (D : a * - a - b * b = - n) by (unfold n; ring). rewrite D.
    rewrite !div_exact by lra. f_equal; f_equal; field; lra.
  - unfold on_line. cbn [A B C fst snd]. unfold n. field. unfold n in P. lra.
  - intros [u v] H. unfold on_line, dist2 in *. cbn [A B C fst snd] in *.
    set (qx := (b * (b * x - a * y) - a * c) / n). set (qy := (a * (a * y - b * x) - b * c) / n). intro Ne.
    assert (Q : a * qx + b * qy + c = 0) by (unfold qx, qy; unfold n in *; field; lra).
    assert (K : a * (u - qx) + b * (v - qy) = 0) by lra.
    assert (Px : x - qx = a * ((a * x + b * y + c) / n)) by (unfold qx; unfold n in *; field; lra).
    assert (Py : y - qy = b * ((a * x + b * y + c) / n)) by (unfold qy; unfold n in *; field; lra).
    set (s := (a * x + b * y + c) / n) in *.
    replace (x - u) with (a * s - (u - qx)) by lra. replace (y - v) with (b * s - (v - qy)) by lra.
    rewrite Px, Py.
    assert (E : (a * s - (u - qx)) ^ 2 + (b * s - (v - qy)) ^ 2 =
      (a * s) ^ 2 + (b * s) ^ 2 - 2 * s * (a * (u - qx) + b * (v - qy)) + ((u - qx) ^ 2 + (v - qy) ^ 2)) by ring.
    rewrite E, K.
    assert (0 < (u - qx) ^ 2 + (v - qy) ^ 2); [|lra].
    pose proof (Rle_0_sqr (u - qx)). pose proof (Rle_0_sqr (v - qy)). unfold Rsqr in *.
    destruct (Req_dec (u - qx) 0) as [Z1|Z1]; [|pose proof (Rsqr_pos_lt _ Z1); unfold Rsqr in *; lra].
    destruct (Req_dec (v - qy) 0) as [Z2|Z2]; [|pose proof (Rsqr_pos_lt _ Z2); unfold Rsqr in *; lra].
    exfalso. apply Ne. f_equal; lra.
Qed.

(** A translated line consists of the translated points. *)
Theorem line_translate_correct l v : exists l',
  line_translate exact_fmt (ln l) (pt v) = ln l' /\ (proper l -> proper l') /\
  forall p, on_line l' (shift p v) <-> on_line l p.
Proof.
  exists {| A := A l; B := B l; C := C l - (A l * fst v + B l * snd v) |}.
  split; [reflexivity|]. split; [auto|]. intro p. unfold on_line, shift. cbn [A B C fst snd]. split; intro; lra.
Qed.

(** The inside of a circle. *)
Theorem inside_circle_correct p c r : 0 <= r ->
  pt_is_inside_circle exact_fmt (pt p) (real (fst c)) (real (snd c)) (real r) = true <-> sqrt (dist2 p c) < r.
Proof.
  intro H. unfold pt_is_inside_circle, diff, pt. cbn [fst snd]. exs.
  replace ((fst p - fst c) * (fst p - fst c) + (snd p - snd c) * (snd p - snd c)) with (dist2 p c) by (unfold dist2; ring).
  assert (P : 0 <= dist2 p c).
  { unfold dist2. pose proof (pow2_ge_0 (fst p - fst c)). pose proof (pow2_ge_0 (snd p - snd c)). lra. }
  destruct (rlt_spec (dist2 p c) (r * r)) as [L|L].
  - split; auto. intros _. rewrite <- (sqrt_square r) by auto. now apply sqrt_lt_1_alt.
  - split; [discriminate|]. intro L2. exfalso. apply L.
    rewrite <- (sqrt_sqrt (dist2 p c)) by auto. pose proof (sqrt_pos (dist2 p c)). nra.
Qed.

(** * Segments *)

Lemma on_between p q x : p <> q -> (exists t, x = between p q t) -> rdot x p q <= 0 -> on_segment p q x.
Proof.
  intros N (t & ->) H. exists t. split; [|reflexivity]. rewrite rdot_between in H.
  pose proof (square_pos p q N) as S. assert (t * (t - 1) <= 0) by nra. split; nra.
Qed.

Lemma between_0 p q : between p q 0 = p.
Proof. unfold between. destruct p. cbn. f_equal; ring. Qed.
Lemma between_1 p q : between p q 1 = q.
Proof. unfold between. destruct p, q. cbn. f_equal; ring. Qed.
Lemma segment_start p q : on_segment p q p.
Proof. exists 0. split; [lra|]. symmetry. apply between_0. Qed.
Lemma segment_end p q : on_segment p q q.
Proof. exists 1. split; [lra|]. symmetry. apply between_1. Qed.

(** A positive answer comes with a point of both segments: 1 if it is inside both, 2 if it is an end of one
    of them, 3 if the segments are in line, and then it is an end of the second. *)
Theorem intersect_segment_sound p q a b : p <> q -> a <> b ->
  match intersect_segment exact_fmt (pt p) (pt q) (pt a) (pt b) with
  | (0%Z, _) => True
  | (1%Z, Some z) => exists x, z = pt x /\ common p q a b x /\ ~ an_end p q a b x
  | (2%Z, Some z) => exists x, z = pt x /\ common p q a b x /\ an_end p q a b x
  | (3%Z, Some z) => exists x, z = pt x /\ common p q a b x /\ (x = a \/ x = b) /\
                       orient p q a = 0 /\ orient p q b = 0
  | _ => False
  end.
Proof.
  intros Npq Nab. unfold intersect_segment.
  destruct (pts2line_correct p q Npq) as (l1 & E1 & P1 & L1).
  destruct (pts2line_correct a b Nab) as (l2 & E2 & P2 & L2).
  pose proof (intersect_line_correct l1 l2 P1 P2) as I. rewrite E1, E2.
  destruct (intersect_line exact_fmt (ln l1) (ln l2)) as [k o].
  assert (Ends : forall x y, same exact_fmt (pt x) (pt y) = true -> x = y) by (intros; now apply same_exact).
  assert (K : k = 0%Z \/ k = 2%Z \/ k = 1%Z) by (destruct k as [|[k|[k|k|]|]|]; tauto).
  destruct K as [-> |[-> | ->]].
  - exact Logic.I.
  - (* the same line *)
    rewrite !pscal_exact, !sgn_le.
    assert (On : forall x, (x = a \/ x = b) -> exists t, x = between p q t).
    { intros x Hx. apply L1, I, L2. destruct Hx as [-> | ->]; [exists 0|exists 1]; symmetry; [apply between_0|apply between_1]. }
    assert (Or : forall x, (x = a \/ x = b) -> orient p q x = 0).
    { intros x Hx. destruct (On x Hx) as (t & ->). unfold orient, between. cbn [fst snd]. ring. }
    destruct (rle_spec (rdot a p q) 0) as [R1|R1].
    { exists a. split; [reflexivity|]. split; [|auto 6]. split; [apply on_between; auto|apply segment_start]. }
    destruct (rle_spec (rdot b p q) 0) as [R2|R2].
    { exists b. split; [reflexivity|]. split; [|auto 6]. split; [apply on_between; auto|apply segment_end]. }
    exact Logic.I.
  - (* one point *)
    destruct o as [z|]; [|contradiction]. destruct I as (x & -> & U).
    destruct (proj2 (U x) eq_refl) as [O1 O2]. apply L1 in O1. apply L2 in O2.
    destruct (same exact_fmt (pt p) (pt a)) eqn:S1; [apply Ends in S1|].
    { exists p. split; [reflexivity|]. split; [|left; reflexivity]. split; [apply segment_start|rewrite S1; apply segment_start]. }
    destruct (same exact_fmt (pt p) (pt b)) eqn:S2; [apply Ends in S2|].
    { exists p. split; [reflexivity|]. split; [|left; reflexivity]. split; [apply segment_start|rewrite S2; apply segment_end]. }
    destruct (same exact_fmt (pt q) (pt a)) eqn:S3; [apply Ends in S3|].
    { exists q. split; [reflexivity|]. split; [|right; left; reflexivity]. split; [apply segment_end|rewrite S3; apply segment_start]. }
    destruct (same exact_fmt (pt q) (pt b)) eqn:S4; [apply Ends in S4|].
    { exists q. split; [reflexivity|]. split; [|right; left; reflexivity]. split; [apply segment_end|rewrite S4; apply segment_end]. }
    destruct (_ || _); [exact Logic.I|].
    rewrite !pscal_exact, !sgn_pos, !sgn_zero.
    destruct (rlt_spec 0 (rdot x p q)) as [|R1]; [exact Logic.I|]. destruct (rlt_spec 0 (rdot x a b)) as [|R2]; [exact Logic.I|].
    cbn [orb].
    assert (Cm : common p q a b x) by (split; apply on_between; auto; lra).
    destruct O1 as (t & Et), O2 as (u & Eu).
    destruct (rdot_sign p q t Npq) as [_ Z1]. destruct (rdot_sign a b u Nab) as [_ Z2]. rewrite <- Et in Z1. rewrite <- Eu in Z2.
    destruct (req (rdot x p q) 0) eqn:Q1; cbn [orb].
    { exists x. split; [reflexivity|]. split; [exact Cm|]. unfold an_end.
      destruct (proj1 Z1 eq_refl) as [-> | ->]; rewrite Et; [rewrite between_0|rewrite between_1]; auto. }
    destruct (req (rdot x a b) 0) eqn:Q2.
    { exists x. split; [reflexivity|]. split; [exact Cm|]. unfold an_end.
      destruct (proj1 Z2 eq_refl) as [-> | ->]; rewrite Eu; [rewrite between_0|rewrite between_1]; auto. }
    exists x. split; [reflexivity|]. split; [exact Cm|]. intros H.
    assert (K : rdot x p q = 0 \/ rdot x a b = 0).
    { destruct H as [-> |[-> |[-> | ->]]]; [left|left|right|right]; unfold rdot; ring. }
    destruct K as [K|K]; rewrite K in *; [destruct (req_spec 0 0) in Q1|destruct (req_spec 0 0) in Q2]; congruence.
Qed.

(** Segments with a common point are recognised, in the range of the code, unless the first lies in line with the
    second, inside of it. *)
Theorem intersect_segment_complete_partial p q a b z : near p -> near q -> p <> q -> a <> b ->
  common p q a b z -> fst (intersect_segment exact_fmt (pt p) (pt q) (pt a) (pt b)) = 0%Z ->
  orient a b p = 0 /\ orient a b q = 0 /\ ~ on_segment p q a /\ ~ on_segment p q b.
Proof.
  intros Np Nq Npq Nab [(t & Ht & Et) (u & Hu & Eu)] H.
  change (fst (intersect_segment exact_fmt (pt p) (pt q) (pt a) (pt b))) with (code p q a b) in H.
  destruct (code_cases p q a b Np Nq Nab) as [[E _]|[(_ & O & K)|(_ & O & t' & u' & X & K)]]; [contradiction| |].
  - assert (Z : orient a b z = 0) by (rewrite Eu; unfold orient, between; cbn [fst snd]; ring).
    assert (Op : orient a b p = 0).
    { rewrite Et, orient_between in Z. rewrite <- O in Z. lra. }
    destruct K as [[K _]|[_ K]]; [rewrite K in H; discriminate|].
    split; [exact Op|]. split; [lra|]. now apply K.
  - exfalso. assert (T : t = t').
    { assert (Z1 : orient a b (between p q t) = 0) by (rewrite <- Et, Eu; unfold orient, between; cbn [fst snd]; ring).
      assert (Z2 : orient a b (between p q t') = 0) by (rewrite X; unfold orient, between; cbn [fst snd]; ring).
      rewrite orient_between in Z1, Z2. apply Rmult_eq_reg_r with (orient a b q - orient a b p); lra. }
    assert (W : u = u').
    { assert (B : between a b u = between a b u') by (rewrite <- Eu, Et, T; exact X).
      unfold between in B. injection B as B1 B2. pose proof (square_pos a b Nab) as S.
      destruct (Req_dec (fst b - fst a) 0) as [Z1|Z1].
      - assert (snd b - snd a <> 0) by (intro Z2; rewrite Z1, Z2 in S; lra). apply Rmult_eq_reg_r with (snd b - snd a); lra.
      - apply Rmult_eq_reg_r with (fst b - fst a); lra. }
    subst t' u'. destruct K as [(K & _)|[(K & _)|(_ & K)]]; [rewrite K in H; discriminate|rewrite K in H; discriminate|tauto].
Qed.

(** That case is answered with 0, although all the points of the first segment are on the second. *)
Theorem intersect_segment_refuted : exists p q a b,
  p <> q /\ a <> b /\ near p /\ near q /\ common p q a b p /\
  fst (intersect_segment exact_fmt (pt p) (pt q) (pt a) (pt b)) = 0%Z.
Proof.
  exists (1, 0), (2, 0), (0, 0), (3, 0). assert (N1 : (1, 0) <> (2, 0) :> rpoint) by (intro E; injection E; lra).
  assert (N2 : (0, 0) <> (3, 0) :> rpoint) by (intro E; injection E; lra).
  assert (Q1 : near (1, 0)) by (split; cbn; apply Rabs_le; lra). assert (Q2 : near (2, 0)) by (split; cbn; apply Rabs_le; lra).
  do 4 (split; [assumption|]). split.
  - split; [apply segment_start|]. exists (/ 3). split; [lra|]. unfold between. cbn. f_equal; lra.
  - change (fst (intersect_segment exact_fmt (pt (1, 0)) (pt (2, 0)) (pt (0, 0)) (pt (3, 0)))) with (code (1, 0) (2, 0) (0, 0) (3, 0)).
    pose proof (intersect_segment_sound (1, 0) (2, 0) (0, 0) (3, 0) N1 N2) as S. unfold code.
    assert (E : forall x : rpoint, on_segment (1, 0) (2, 0) x -> fst x <> 0 /\ fst x <> 3).
    { intros x (t & Ht & ->). cbn. lra. }
    destruct (code_cases (1, 0) (2, 0) (0, 0) (3, 0) Q1 Q2 N2) as [[_ K]|[(_ & _ & [[K _]|[K _]])|(_ & O & _)]]; try exact K.
    + exfalso. unfold code in K. destruct (intersect_segment exact_fmt _ _ _ _) as [c [w|]]; cbn [fst] in K; subst c; [|exact S].
      destruct S as (x & _ & [S1 _] & [-> | ->] & _); destruct (E _ S1); cbn in *; lra.
    + exfalso. apply O. unfold orient. cbn. ring.
Qed.

(** * Cases *)

(** Two segments that cross in the middle, and two lines that do. *)
Example crossing_segments : exists z, intersect_segment exact_fmt (pt (0, 0)) (pt (2, 2)) (pt (0, 2)) (pt (2, 0)) = (1%Z, Some (pt z)) /\
  common (0, 0) (2, 2) (0, 2) (2, 0) z.
Proof.
  assert (N1 : (0, 0) <> (2, 2) :> rpoint) by (intro E; injection E; lra).
  assert (N2 : (0, 2) <> (2, 0) :> rpoint) by (intro E; injection E; lra).
  assert (Q1 : near (0, 0)) by (split; cbn; apply Rabs_le; lra). assert (Q2 : near (2, 2)) by (split; cbn; apply Rabs_le; lra).
  assert (Z : common (0, 0) (2, 2) (0, 2) (2, 0) (1, 1)).
  { split; exists (/ 2); (split; [lra|]); unfold between; cbn; f_equal; lra. }
  pose proof (intersect_segment_sound _ _ _ _ N1 N2) as S.
  pose proof (intersect_segment_complete_partial _ _ _ _ _ Q1 Q2 N1 N2 Z) as T.
  destruct (intersect_segment _ _ _ _ _) as [k o]. cbn [fst] in T.
  assert (k <> 0%Z). { intros ->. destruct (T eq_refl) as (O & _). unfold orient in O. cbn in O. lra. }
  assert (Only : forall x, common (0, 0) (2, 2) (0, 2) (2, 0) x -> x = (1, 1)).
  { intros x [(t & _ & Et) (u & _ & Eu)]. unfold between in Et, Eu. cbn in Et, Eu. rewrite Et in Eu. injection Eu as E1 E2.
    rewrite Et. f_equal; lra. }
  assert (k = 1%Z \/ k = 2%Z \/ k = 3%Z) as [-> |[-> | ->]] by (destruct k as [|[[k|k|]|[k|k|]|]|]; tauto);
    (destruct o as [w|]; [|contradiction]); destruct S as (x & -> & C & K); pose proof (Only x C); subst x.
  - exists (1, 1). now split.
  - exfalso. unfold an_end in K. destruct K as [K|[K|[K|K]]]; injection K; lra.
  - exfalso. destruct K as [[K|K] _]; injection K; lra.
Qed.

Example a_projection : exists q, proj_pt_line exact_fmt (pt (1, 5)) (ln {| A := 0; B := 1; C := 0 |}) = pt q /\
  on_line {| A := 0; B := 1; C := 0 |} q.
Proof.
  destruct (proj_pt_line_correct (1, 5) {| A := 0; B := 1; C := 0 |}) as (q & E & O & _); [right; cbn; lra|]. eauto.
Qed.

Print Assumptions intersect_segment_sound.
Print Assumptions intersect_segment_complete_partial.
Print Assumptions proj_pt_line_correct.
