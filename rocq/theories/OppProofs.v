(** Proofs about what the beam of the beacon sees. *)
From Coq Require Import Reals ZArith Lra Lia.
From Flocq Require Import Core.
From Verif Require Import QuadModel QuadProps TrajModel TrajProofs OppModel OppSpec.
Local Open Scope R_scope.

Lemma gap_pos p q : 0 <= gap p q.
Proof. apply sqrt_pos. Qed.
Lemma gap_sq p q : gap p q * gap p q = (fst q - fst p) * (fst q - fst p) + (snd q - snd p) * (snd q - snd p).
Proof. apply sqrt_def. pose proof (Rle_0_sqr (fst q - fst p)). pose proof (Rle_0_sqr (snd q - snd p)). unfold Rsqr in *. lra. Qed.

Lemma le_sq a b : 0 <= b -> a * a <= b * b -> a <= b.
Proof. intros. nra. Qed.
Lemma eq_sq a b : 0 <= a -> 0 <= b -> a * a = b * b -> a = b.
Proof. intros. nra. Qed.

Lemma sc a : sin a * sin a + cos a * cos a = 1.
Proof. pose proof (sin2_cos2 a) as H. unfold Rsqr in H. exact H. Qed.

(** The beam meets the disc iff the cosine of the angle between the beam and the centre is large enough. *)
Lemma meets_iff p D b rad d : 0 < rad < D ->
  (meets p (fst p + D * cos b, snd p + D * sin b) rad d <-> sqrt (D * D - rad * rad) / D <= cos (d - b)).
Proof.
  intros [Hr HD]. set (L := sqrt (D * D - rad * rad)).
  assert (LL : L * L = D * D - rad * rad) by (apply sqrt_def; nra).
  assert (L0 : 0 < L) by (apply sqrt_lt_R0; nra).
  assert (C : cos (d - b) = cos d * cos b + sin d * sin b) by apply cos_minus.
  pose proof (sc d) as Sd. pose proof (sc b) as Sb.
  assert (G : forall t, gap (fst p + t * cos d, snd p + t * sin d) (fst p + D * cos b, snd p + D * sin b) *
                        gap (fst p + t * cos d, snd p + t * sin d) (fst p + D * cos b, snd p + D * sin b)
                        = t * t - 2 * t * D * cos (d - b) + D * D).
  { intro t. rewrite gap_sq. cbn [fst snd]. rewrite C.
    replace ((fst p + D * cos b - (fst p + t * cos d)) * (fst p + D * cos b - (fst p + t * cos d)) +
      (snd p + D * sin b - (snd p + t * sin d)) * (snd p + D * sin b - (snd p + t * sin d)))
      with (D * D * (sin b * sin b + cos b * cos b) + t * t * (sin d * sin d + cos d * cos d) - 2 * t * D * (cos d * cos b + sin d * sin b)) by ring.
    rewrite Sd, Sb. ring. }
  set (c := cos (d - b)) in *.
  split.
  - intros (t & T0 & Ht). specialize (G t). set (g := gap _ _) in *. assert (0 <= g) by apply gap_pos.
    assert (Q : t * t - 2 * t * D * c + D * D <= rad * rad) by nra.
    assert (Tp : 0 < t) by (destruct (Req_dec t 0); [subst t; nra|lra]).
    assert (c0 : 0 < c). { apply Rnot_le_lt. intro Hc. assert (0 <= 2 * t * D * (- c)) by (apply Rmult_le_pos; nra). nra. }
    apply (Rmult_le_reg_r D); [lra|]. unfold Rdiv. rewrite Rmult_assoc, Rinv_l by lra. rewrite Rmult_1_r.
    apply le_sq; [nra|]. rewrite LL. pose proof (Rle_0_sqr (t - D * c)) as E. unfold Rsqr in E. nra.
  - intro H. assert (H' : L <= c * D). { apply (Rmult_le_compat_r D) in H; [|lra]. unfold Rdiv in H. rewrite Rmult_assoc, Rinv_l in H by lra. lra. }
    exists (D * c). split; [nra|]. apply le_sq; [lra|]. rewrite G. nra.
Qed.

(** Half of the angle under which the disc is seen. *)
Definition half (D rad : R) : R := atan (rad / sqrt (D * D - rad * rad)).
Lemma half_facts D rad : 0 < rad < D ->
  0 < half D rad < PI / 2 /\ tan (half D rad) = rad / sqrt (D * D - rad * rad) /\ cos (half D rad) = sqrt (D * D - rad * rad) / D.
Proof.
  intros [Hr HD]. unfold half. set (L := sqrt (D * D - rad * rad)).
  assert (LL : L * L = D * D - rad * rad) by (apply sqrt_def; nra).
  assert (L0 : 0 < L) by (apply sqrt_lt_R0; nra).
  assert (Q : 0 < rad / L) by (apply Rdiv_lt_0_compat; lra).
  split; [|split].
  - pose proof (atan_bound (rad / L)). rewrite <- atan_0 at 1. split; [now apply atan_increasing|lra].
  - apply tan_atan.
  - rewrite cos_atan. replace (1 + (rad / L)²) with ((D / L) * (D / L)).
    + rewrite sqrt_square by (left; apply Rdiv_lt_0_compat; lra). field. lra.
    + unfold Rsqr. replace (rad / L * (rad / L)) with (rad * rad / (L * L)) by (field; lra). replace (D / L * (D / L)) with (D * D / (L * L)) by (field; lra).
      rewrite LL. field. nra.
Qed.

Lemma cos_period' x (k : Z) : cos (x + 2 * IZR k * PI) = cos x.
Proof.
  destruct (Z_le_gt_dec 0 k) as [H|H].
  - replace (IZR k) with (INR (Z.to_nat k)) by (rewrite INR_IZR_INZ, Z2Nat.id by lia; reflexivity). apply cos_period.
  - replace x with ((x + 2 * IZR k * PI) + 2 * INR (Z.to_nat (- k)) * PI) at 2; [symmetry; apply cos_period|].
    rewrite INR_IZR_INZ, Z2Nat.id by lia. rewrite opp_IZR. ring.
Qed.
Lemma sin_period' x (k : Z) : sin (x + 2 * IZR k * PI) = sin x.
Proof. rewrite <- !cos_shift. replace (PI / 2 - (x + 2 * IZR k * PI)) with (PI / 2 - x + 2 * IZR (- k) * PI) by (rewrite opp_IZR; ring). apply cos_period'. Qed.

Lemma reduce x : exists k : Z, - PI <= x - 2 * IZR k * PI < PI.
Proof.
  pose proof PI_RGT_0. exists (Zfloor ((x + PI) / (2 * PI))).
  pose proof (Zfloor_lb ((x + PI) / (2 * PI))) as A. pose proof (Zfloor_ub ((x + PI) / (2 * PI))) as B.
  set (k := IZR (Zfloor _)) in *. assert (E : (x + PI) / (2 * PI) * (2 * PI) = x + PI) by (field; lra).
  apply (Rmult_le_compat_r (2 * PI)) in A; [|lra]. apply (Rmult_lt_compat_r (2 * PI)) in B; [|lra]. rewrite E in *. split; nra.
Qed.

Lemma cos_ge_iff w u : 0 < w < PI / 2 -> - PI <= u <= PI -> (cos w <= cos u <-> - w <= u <= w).
Proof.
  intros W U. pose proof PI_RGT_0.
  assert (P : forall v, 0 <= v <= PI -> (cos w <= cos v <-> v <= w)).
  { intros v V. split; intro H0.
    - apply Rnot_lt_le. intro C. assert (cos v < cos w) by (apply cos_decreasing_1; lra). lra.
    - destruct (Req_dec v w) as [->|N]; [lra|]. left. apply cos_decreasing_1; lra. }
  destruct (Rle_dec 0 u) as [H0|H0].
  - rewrite P by lra. lra.
  - rewrite <- (cos_neg u). rewrite P by lra. lra.
Qed.

(** The interval over which the disc is seen determines its direction and its width. *)
Lemma interval w s len : 0 < w < PI / 2 -> 0 <= len < 2 * PI ->
  (forall u, s <= u < s + 2 * PI -> (cos w <= cos u <-> u <= s + len)) -> (exists k : Z, s = - w + 2 * IZR k * PI) /\ len = 2 * w.
Proof.
  intros W Ln H. pose proof PI_RGT_0 as P0. destruct (reduce s) as (k & K). set (s' := s - 2 * IZR k * PI) in *.
  assert (H' : forall u, s' <= u < s' + 2 * PI -> (cos w <= cos u <-> u <= s' + len)).
  { intros u U. rewrite <- (cos_period' u k). rewrite H by (unfold s' in *; lra). unfold s'. lra. }
  assert (A : - w <= s' <= w). { apply cos_ge_iff; [exact W|lra|]. apply H'; lra. }
  assert (S : s' = - w).
  { apply Rle_antisym; [|lra]. apply Rnot_lt_le. intro C.
    assert (V : 2 * PI - w <= s' + len).
    { apply H'; [lra|]. replace (2 * PI - w) with (- w + 2 * IZR 1 * PI) by (cbn; ring). rewrite cos_period', cos_neg. lra. }
    assert (cos w <= cos PI) by (apply H'; lra). rewrite cos_PI in *. assert (0 < cos w) by (apply cos_gt_0; lra). lra. }
  split; [exists k; unfold s' in S; lra|].
  apply Rle_antisym.
  - apply Rnot_lt_le. intro C. set (u := Rmin (s' + len) PI).
    assert (U : w < u <= PI /\ u <= s' + len). { unfold u, Rmin. destruct (Rle_dec (s' + len) PI); lra. }
    assert (cos w <= cos u) by (apply H'; lra). apply cos_ge_iff in H0; lra.
  - assert (w <= s' + len) by (apply H'; lra). lra.
Qed.

Lemma direction p c : exists b, c = (fst p + gap p c * cos b, snd p + gap p c * sin b).
Proof.
  exists (atan2 (snd c - snd p) (fst c - fst p)). destruct (atan2_polar (fst c - fst p) (snd c - snd p)) as [A B].
  unfold gap. rewrite <- A, <- B. destruct c as [x y]. cbn [fst snd]. f_equal; ring.
Qed.
