(** C41 and C62: angles and odometry. *)
From Coq Require Import ZArith Reals List Bool Lra Lia Psatz.
From Flocq Require Import Core IEEE754.BinarySingleNaN.
From Verif Require Import CRes FloatModel FloatSpec FloatProofs PidSpec LieSpec PosModel PosSpec PosProofs.
Import ListNotations.
Local Open Scope R_scope.

(** * Without rounding *)
Ltac reals := unfold real, M_2PI, dbl in *; cbn [exact exact_fmt D F add sub mul div neg lt lit xadd xmul xneg option_map eneg xlt m_pi bpow widen narrow fmod fabs trunc] in *.
Lemma dbl_exact n : dbl exact n = real (IZR n).
Proof. unfold dbl, real. cbn. f_equal. f_equal. ring. Qed.
Lemma m2pi_exact : M_2PI exact = real (2 * PI).
Proof. unfold M_2PI. rewrite dbl_exact. reflexivity. Qed.
Lemma same_angle_turn a k : same_angle (a + 2 * IZR k * PI) a.
Proof. now exists k. Qed.
Lemma same_angle_refl a : same_angle a a.
Proof. exists 0%Z. lra. Qed.
Lemma same_angle_trans a b c : same_angle a b -> same_angle b c -> same_angle a c.
Proof. intros (k & ->) (l & ->). exists (k + l)%Z. rewrite plus_IZR. ring. Qed.
Lemma same_angle_plus a b x : same_angle a b -> same_angle (a + x) (b + x).
Proof. intros (k & ->). exists k. ring. Qed.

(** C41. An angle of at most one turn and a half is brought back between -pi and pi. *)
Lemma wrap_exact a t : Rabs a <= 3 * PI -> t = real (2 * PI) -> exists b,
  (if lt (D exact) (real a) (neg (D exact) (m_pi exact)) then add (D exact) (real a) t
   else if lt (D exact) (m_pi exact) (real a) then sub (D exact) (real a) t else real a) = real b /\
  same_angle b a /\ Rabs b <= PI.
Proof.
  intros H ->. pose proof PI_RGT_0. assert (- (3 * PI) <= a <= 3 * PI) by (unfold Rabs in H; destruct (Rcase_abs a); lra).
  reals. rcases; eexists; (split; [reflexivity|]); (split; [|apply Rabs_le; lra]).
  - exists 1%Z. ring.
  - exists (-1)%Z. ring.
  - apply same_angle_refl.
Qed.
Theorem simple_modulo_range a : Rabs a <= 3 * PI -> exists b, simple_modulo_2pi exact (real a) = real b /\ same_angle b a /\ Rabs b <= PI.
Proof. intro H. unfold simple_modulo_2pi. apply wrap_exact; [exact H|apply m2pi_exact]. Qed.
(** C41. Any angle of less than 2^31 turns is. *)
Theorem modulo_range a : Rabs a < 2 ^ 31 * (2 * PI) -> exists b, modulo_2pi exact (real a) = OK (real b) /\ same_angle b a /\ Rabs b <= PI.
Proof.
  intro H. pose proof PI_RGT_0 as Pp.
  set (k := Ztrunc (a / (2 * PI))).
  assert (Q : Rabs (a / (2 * PI)) < 2 ^ 31).
  { unfold Rdiv. rewrite Rabs_mult, (Rabs_right (/ (2 * PI))) by (apply Rle_ge, Rlt_le, Rinv_0_lt_compat; lra).
    apply (Rmult_lt_reg_r (2 * PI)); [lra|]. rewrite Rmult_assoc, Rinv_l by lra. lra. }
  assert (K : IZR (Z.abs k) <= Rabs (a / (2 * PI)) /\ Rabs (a / (2 * PI) - IZR k) < 1).
  { unfold k. destruct (Rle_dec 0 (a / (2 * PI))) as [P|P].
    - rewrite Ztrunc_floor by exact P. pose proof (Zfloor_lb (a / (2 * PI))). pose proof (Zfloor_ub (a / (2 * PI))).
      assert (0 <= Zfloor (a / (2 * PI)))%Z by (apply Zfloor_lub; exact P).
      rewrite Z.abs_eq by assumption. rewrite (Rabs_right (a / (2 * PI))) by lra. split; [lra|]. rewrite Rabs_right; lra.
    - rewrite Ztrunc_ceil by lra. pose proof (Zceil_ub (a / (2 * PI))).
      assert (Zceil (a / (2 * PI)) <= 0)%Z by (apply Zceil_glb; lra).
      assert (IZR (Zceil (a / (2 * PI))) < a / (2 * PI) + 1).
      { unfold Zceil. rewrite opp_IZR. pose proof (Zfloor_ub (- (a / (2 * PI)))). lra. }
      rewrite Z.abs_neq by assumption. rewrite opp_IZR, (Rabs_left (a / (2 * PI))) by lra. split; [lra|].
      apply Rabs_def1; lra. }
  destruct K as [K1 K2].
  assert (Kz : (Z.abs k < 2 ^ 31)%Z).
  { apply lt_IZR. change (IZR (2 ^ 31)) with (IZR 2147483648). lra. }
  assert (C : cast exact 32 (div (D exact) (real a) (M_2PI exact)) = OK k).
  { rewrite m2pi_exact. unfold cast, real. cbn [exact exact_fmt D div xdiv]. destruct (req_spec (2 * PI) 0) as [E|_]; [lra|].
    cbn [trunc exact_fmt]. fold k.
    replace ((- 2 ^ (32 - 1) <=? k) && (k <? 2 ^ (32 - 1)))%Z with true; [reflexivity|].
    symmetry. apply andb_true_iff. rewrite Z.leb_le, Z.ltb_lt. lia. }
  unfold modulo_2pi. rewrite C. cbn [rbind]. rewrite dbl_exact, m2pi_exact.
  change (sub (D exact) (real a) (mul (D exact) (real (IZR k)) (real (2 * PI)))) with (real (a - IZR k * (2 * PI))).
  destruct (simple_modulo_range (a - IZR k * (2 * PI))) as (b & B1 & B2 & B3).
  - replace (a - IZR k * (2 * PI)) with ((a / (2 * PI) - IZR k) * (2 * PI)) by (field; lra).
    rewrite Rabs_mult, (Rabs_right (2 * PI)) by lra. nra.
  - exists b. split; [|split; [|exact B3]].
    + now rewrite B1.
    + eapply same_angle_trans; [exact B2|]. exists (- k)%Z. rewrite opp_IZR. ring.
Qed.

(** C41. The angular distance is the difference of the angles up to whole turns, and is between -pi and pi if the end angle is at least
    the start angle less half a turn. *)
Lemma fmod_case (u : R) : exists k : Z, u - IZR (Ztrunc (u / (2 * PI))) * (2 * PI) = u - 2 * IZR k * PI /\
  (0 <= u -> 0 <= u - 2 * IZR k * PI < 2 * PI) /\ (u < 0 -> - (2 * PI) < u - 2 * IZR k * PI <= 0).
Proof.
  pose proof PI_RGT_0 as Pp. exists (Ztrunc (u / (2 * PI))). split; [ring|].
  assert (E : u = u / (2 * PI) * (2 * PI)) by (field; lra). set (q := u / (2 * PI)) in *. split; intro H.
  - assert (P : 0 <= q) by (unfold q, Rdiv; apply Rmult_le_pos; [exact H|apply Rlt_le, Rinv_0_lt_compat; lra]).
    rewrite Ztrunc_floor by exact P. pose proof (Zfloor_lb q). pose proof (Zfloor_ub q). rewrite E. nra.
  - assert (P : q < 0) by (apply Ropp_lt_cancel; rewrite Ropp_0; replace (- q) with ((- u) * / (2 * PI)) by (unfold q, Rdiv; ring);
      apply Rmult_lt_0_compat; [lra|apply Rinv_0_lt_compat; lra]).
    rewrite Ztrunc_ceil by lra. pose proof (Zceil_ub q).
    assert (IZR (Zceil q) < q + 1) by (unfold Zceil; rewrite opp_IZR; pose proof (Zfloor_ub (- q)); lra). rewrite E. nra.
Qed.
Lemma fabs_exact w : fabs (F exact) (real w) = real (Rabs w).
Proof. unfold real. cbn. f_equal. destruct (rlt_spec w 0); [rewrite Rabs_left by lra|rewrite Rabs_right by lra]; reflexivity. Qed.
Theorem angle_delta_partial s e : exists d, angle_delta exact (real s) (real e) = real d /\ same_angle d (e - s) /\
  - (3 * PI) < d < PI /\ (- PI <= e - s -> - PI <= d).
Proof.
  pose proof PI_RGT_0 as Pp.
  destruct (fmod_case (e - s + PI)) as (k & K & Kp & Kn).
  assert (R0 : fmod (F exact) (narrow exact (add (D exact) (widen exact (sub (F exact) (real e) (real s))) (m_pi exact)))
             (narrow exact (mul (D exact) (dbl exact 2) (m_pi exact))) = real (e - s + PI - 2 * IZR k * PI)).
  { rewrite dbl_exact. reals. unfold xfmod. destruct (req_spec (2 * PI) 0) as [E|_]; [lra|]. f_equal. f_equal.
    rewrite <- K. reflexivity. }
  unfold angle_delta. rewrite R0, dbl_exact. set (u := e - s + PI - 2 * IZR k * PI) in *.
  change (narrow exact (sub (D exact) (widen exact (real u)) (m_pi exact))) with (real (u - PI)).
  change (narrow exact (sub (D exact) (mul (D exact) (real 2) (m_pi exact)) (widen exact (real (u - PI))))) with (real (2 * PI - (u - PI))).
  rewrite !fabs_exact. change (lt (F exact) (real (Rabs (u - PI))) (real (Rabs (2 * PI - (u - PI))))) with (rlt (Rabs (u - PI)) (Rabs (2 * PI - (u - PI)))).
  assert (U : - (2 * PI) < u < 2 * PI).
  { destruct (Rle_dec 0 (e - s + PI)) as [P|P]; [specialize (Kp P)|specialize (Kn ltac:(lra))]; lra. }
  exists (u - PI). destruct (rlt_spec (Rabs (u - PI)) (Rabs (2 * PI - (u - PI)))) as [L|L].
  - split; [reflexivity|]. split; [|split; [lra|]].
    + exists (- k)%Z. rewrite opp_IZR. unfold u. ring.
    + intro P. specialize (Kp ltac:(lra)). lra.
  - exfalso. apply L. rewrite (Rabs_right (2 * PI - (u - PI))) by lra. apply Rabs_def1; lra.
Qed.
(** From 0 to minus three quarters of a turn it says minus three quarters of a turn, instead of a quarter. *)
Theorem angle_delta_refuted : exists s e d, angle_delta exact (real s) (real e) = real d /\ same_angle d (e - s) /\ PI < Rabs d.
Proof.
  pose proof PI_RGT_0 as Pp. exists 0, (- (3 / 2) * PI). exists (- (3 / 2) * PI).
  assert (R0 : fmod (F exact) (narrow exact (add (D exact) (widen exact (sub (F exact) (real (- (3 / 2) * PI)) (real 0))) (m_pi exact)))
             (narrow exact (mul (D exact) (dbl exact 2) (m_pi exact))) = real (- (1 / 2) * PI)).
  { rewrite dbl_exact. reals. unfold xfmod. destruct (req_spec (2 * PI) 0) as [E|_]; [lra|]. f_equal. f_equal.
    replace ((- (3 / 2) * PI + - 0 + PI) / (2 * PI)) with (- (1 / 4)) by (field; lra).
    replace (Ztrunc (- (1 / 4))) with 0%Z; [lra|]. rewrite Ztrunc_ceil by lra. symmetry. apply Zceil_imp. cbn. lra. }
  split; [|split; [exists 0%Z; lra|rewrite Rabs_left; lra]].
  unfold angle_delta. rewrite R0, dbl_exact.
  change (narrow exact (sub (D exact) (widen exact (real (- (1 / 2) * PI))) (m_pi exact))) with (real (- (1 / 2) * PI - PI)).
  change (narrow exact (sub (D exact) (mul (D exact) (real 2) (m_pi exact)) (widen exact (real (- (1 / 2) * PI - PI))))) with (real (2 * PI - (- (1 / 2) * PI - PI))).
  rewrite !fabs_exact. change (lt (F exact) (real (Rabs (- (1 / 2) * PI - PI))) (real (Rabs (2 * PI - (- (1 / 2) * PI - PI)))))
    with (rlt (Rabs (- (1 / 2) * PI - PI)) (Rabs (2 * PI - (- (1 / 2) * PI - PI)))).
  destruct (rlt_spec (Rabs (- (1 / 2) * PI - PI)) (Rabs (2 * PI - (- (1 / 2) * PI - PI)))) as [L|L].
  - f_equal. lra.
  - exfalso. apply L. rewrite Rabs_left, Rabs_right by lra. lra.
Qed.

(** * Odometry *)

(** C41. In double precision, after every history of calls, the angle is a number between -M_PI and M_PI, if no displacement turns the robot
    by more than a whole turn and the angles set are between -180 and 180 degrees. *)
Theorem odometry_angle cosd sind cs : forall p r, value (pa ieee p : float) = Some (Real r) -> Rabs r <= pi64 ->
  (forall cs1 c cs2 p', cs = cs1 ++ c :: cs2 -> run ieee cosd sind p cs1 = OK p' -> whole_turn cosd sind p' c) ->
  forall p', run ieee cosd sind p cs = OK p' -> exists r', value (pa ieee p' : float) = Some (Real r') /\ Rabs r' <= pi64.
Proof.
  induction cs as [|c cs IH]; intros p r Va Hr W p' E; cbn [run] in E; [injection E as <-; eauto|].
  assert (Wc : whole_turn cosd sind p c) by (apply (W [] c cs p); reflexivity).
  destruct (step ieee cosd sind p c) as [p1|] eqn:S; [cbn [rbind] in E|discriminate].
  assert (A : exists r1, value (pa ieee p1 : float) = Some (Real r1) /\ Rabs r1 <= pi64).
  { destruct c as [x y a|k| |t i|e enc|ext mot]; cbn [step] in S.
    - unfold position_set in S. dob S. injection S as <-. cbn [pa with_pose]. destruct Wc as (ra & Ra & Ha). now apply (set_ieee a ra).
    - injection S as <-. eauto.
    - injection S as <-. eauto.
    - injection S as <-. eauto.
    - unfold position_use in S. destruct (rs_set _ p); [|discriminate]. injection S as <-. eauto.
    - unfold position_manage in S. destruct (rs_set _ p); cbn [negb] in S; [|injection S as <-; eauto].
      dob S. dob S. apply int_inv in E0 as [-> _]. apply int_inv in E1 as [-> _].
      cbn [whole_turn] in Wc. destruct Wc as (rs & Vs & Hs).
      destruct (displace_angle cosd sind p (fst (if use_ext ieee p then ext else mot) - prev_distance ieee p)
                  (snd (if use_ext ieee p then ext else mot) - prev_angle ieee p) r rs Va Hr Vs Hs) as (r' & V & H).
      destruct (displace _ _ _ _ _ _) as [[x y] a] eqn:Dp. cbn [snd] in V. dob S. dob S. dob S. injection S as <-. cbn [pa with_pose]. eauto. }
  destruct A as (r1 & V1 & H1). apply (IH p1 r1 V1 H1); [|exact E].
  intros cs1 c' cs2 p2 -> E2. apply (W (c :: cs1) c' cs2 p2); [reflexivity|]. cbn [run]. rewrite S. exact E2.
Qed.

(** C62. Without rounding and without centrifugal correction, an update moves the pose along the arc whose length and turn are those of
    the encoders. *)
Lemma derive_lin u w s : derivable_pt_lim (fun s => u + w * s) s w.
Proof.
  intros eps He. exists (mkposreal 1 Rlt_0_1). intros h Hh _.
  replace ((u + w * (s + h) - (u + w * s)) / h - w) with 0 by (field; exact Hh). now rewrite Rabs_R0.
Qed.
Lemma derive_sin_lin w a th s : derivable_pt_lim (fun s => w * sin (a + th * s)) s (w * (cos (a + th * s) * th)).
Proof.
  pose proof (derive_lin a th s) as L.
  apply (derivable_pt_lim_scal (fun s => sin (a + th * s)) w).
  apply (derivable_pt_lim_comp (fun s => a + th * s) sin); [exact L|apply derivable_pt_lim_sin].
Qed.
Lemma derive_cos_lin w a th s : derivable_pt_lim (fun s => w * cos (a + th * s)) s (w * (- sin (a + th * s) * th)).
Proof.
  pose proof (derive_lin a th s) as L.
  apply (derivable_pt_lim_scal (fun s => cos (a + th * s)) w).
  apply (derivable_pt_lim_comp (fun s => a + th * s) cos); [exact L|apply derivable_pt_lim_cos].
Qed.
Lemma arc_line d x0 y0 a0 : arc_motion d 0 x0 y0 a0 (x0 + cos a0 * d) (y0 + sin a0 * d) a0.
Proof.
  exists (fun s => x0 + (d * cos a0) * s), (fun s => y0 + (d * sin a0) * s).
  split; [ring|]. split; [ring|]. split; [ring|]. split; [ring|]. split; [exists 0%Z; lra|]. intro s.
  replace (a0 + 0 * s) with a0 by ring.
  split; apply derive_lin.
Qed.
Lemma arc_circle d th r x0 y0 a0 a1 : d = r * th -> same_angle a1 (a0 + th) ->
  arc_motion d th x0 y0 a0 (x0 + r * (- sin a0 + sin (a0 + th))) (y0 + r * (cos a0 - cos (a0 + th))) a1.
Proof.
  intros -> Ha. exists (fun s => (x0 - r * sin a0) + r * sin (a0 + th * s)), (fun s => (y0 + r * cos a0) + (- r) * cos (a0 + th * s)).
  replace (a0 + th * 0) with a0 by ring. replace (a0 + th * 1) with (a0 + th) by ring.
  split; [ring|]. split; [ring|]. split; [ring|]. split; [ring|]. split; [exact Ha|]. intro s. split.
  - replace (r * th * cos (a0 + th * s)) with (0 + r * (cos (a0 + th * s) * th)) by ring.
    apply (derivable_pt_lim_plus (fun _ => x0 - r * sin a0) (fun s => r * sin (a0 + th * s))); [apply derivable_pt_lim_const|apply derive_sin_lin].
  - replace (r * th * sin (a0 + th * s)) with (0 + (- r) * (- sin (a0 + th * s) * th)) by ring.
    apply (derivable_pt_lim_plus (fun _ => y0 + r * cos a0) (fun s => (- r) * cos (a0 + th * s))); [apply derivable_pt_lim_const|apply derive_cos_lin].
Qed.
Lemma radd x y : add (D exact) (real x) (real y) = real (x + y). Proof. reflexivity. Qed.
Lemma rsub x y : sub (D exact) (real x) (real y) = real (x - y). Proof. reflexivity. Qed.
Lemma rmul x y : mul (D exact) (real x) (real y) = real (x * y). Proof. reflexivity. Qed.
Lemma rneg x : neg (D exact) (real x) = real (- x). Proof. reflexivity. Qed.
Lemma rdiv x y : y <> 0 -> div (D exact) (real x) (real y) = real (x / y).
Proof. intro H. unfold real. cbn. destruct (req_spec y 0); [contradiction|reflexivity]. Qed.
Lemma req0 x : eq (D exact) (real x) (real 0) = req x 0. Proof. reflexivity. Qed.
Ltac ex := repeat first [rewrite dbl_exact | rewrite radd | rewrite rsub | rewrite rmul | rewrite rneg].

Theorem odometry_update p ext mot p' x y a track imp : rs_set _ p = true -> pose p x y a -> phys p track imp -> centrifugal_coef _ p = real 0 ->
  0 < track -> 0 < imp -> position_manage exact rcos rsin p ext mot = OK p' ->
  let enc := if use_ext _ p then ext else mot in
  let d := IZR (fst enc - prev_distance _ p) / imp in
  let th := 2 * IZR (snd enc - prev_angle _ p) / (track * imp) in
  exists x' y' a', pose p' x' y' a' /\ prev_distance _ p' = fst enc /\ prev_angle _ p' = snd enc /\
    (Rabs (a + th) <= 3 * PI -> arc_motion d th x y a x' y' a') /\
    (sx _ p', sy _ p') = (Ztrunc x', Ztrunc y').
Proof.
  intros Rs (Px & Py & Pa) (Tr & Im) Co Ht Hi E enc d th. unfold position_manage in E. rewrite Rs in E. cbn [negb] in E. fold enc in E.
  dob E. dob E. apply int_inv in E0 as [-> _]. apply int_inv in E1 as [-> _].
  destruct (displace exact rcos rsin p (fst enc - prev_distance exact p) (snd enc - prev_angle exact p)) as [[nx ny] na] eqn:Dp.
  assert (G : exists x' y' a', (nx, ny, na) = (real x', real y', real a') /\ (Rabs (a + th) <= 3 * PI -> arc_motion d th x y a x' y' a')).
  { rewrite <- Dp. unfold displace. rewrite Px, Py, Pa, Tr, Im, Co. destruct (Z.eqb_spec (snd enc - prev_angle exact p) 0) as [Z|Z].
    - exists (x + cos a * d), (y + sin a * d), a. split.
      + unfold rcos, rsin. cbn [real]. fold (real (cos a)) (real (sin a)). ex. rewrite rdiv by lra. ex. reflexivity.
      + intros _. replace th with 0 by (unfold th; rewrite Z; unfold Rdiv; ring). apply arc_line.
    - set (dd := (fst enc - prev_distance exact p)%Z) in *. set (da := (snd enc - prev_angle exact p)%Z) in *.
      assert (Hda : IZR da <> 0) by (apply not_0_IZR; exact Z).
      assert (Hti : track * imp <> 0) by (apply Rmult_integral_contrapositive_currified; lra).
      cbv zeta. ex. rewrite !rdiv by (try assumption; lra). ex. fold th. set (r := IZR dd * track / (IZR da * 2)).
      change (rsin (real a)) with (real (sin a)). change (rcos (real a)) with (real (cos a)).
      change (rsin (real (a + th))) with (real (sin (a + th))). change (rcos (real (a + th))) with (real (cos (a + th))). ex.
      rewrite req0. destruct (req_spec 0 0) as [_|N]; [|exfalso; now apply N]. cbn [negb andb].
      assert (Hd : d = r * th) by (unfold d, r, th; field; repeat split; try assumption; lra).
      exists (x + r * (- sin a + sin (a + th))), (y + r * (cos a - cos (a + th))).
      pose proof (wrap_exact (a + th) (mul (D exact) (m_pi exact) (real 2))) as W.
      set (na' := if lt (D exact) (real (a + th)) (neg (D exact) (m_pi exact)) then _ else _) in *.
      assert (Rn : exists a', na' = real a').
      { unfold na'. destruct (lt _ _ _); [|destruct (lt _ _ _)]; eexists; reflexivity. }
      destruct Rn as (a' & Ra). exists a'. split; [now rewrite Ra|].
      intro H3. destruct W as (b & B1 & B2 & _); [exact H3|unfold real; cbn; f_equal; f_equal; ring|].
      rewrite Ra in B1. injection B1 as ->. apply arc_circle; assumption. }
  destruct G as (x' & y' & a' & G1 & G2). injection G1 as -> -> ->.
  dob E. dob E. dob E. injection E as <-. exists x', y', a'. split; [repeat split|]. split; [reflexivity|]. split; [reflexivity|]. split; [exact G2|].
  cbn [sx sy with_pose]. unfold cast, real in E0, E1. cbn in E0, E1.
  destruct (_ && _) in E0; [|discriminate]. destruct (_ && _) in E1; [|discriminate]. congruence.
Qed.

Lemma last_cons {A} (l : list A) x d : last (x :: l) d = last l x.
Proof. revert x d. induction l as [|y l IH]; intros x d; [reflexivity|]. change (last (x :: y :: l) d) with (last (y :: l) d). rewrite !IH. reflexivity. Qed.
(** C62. Over a history of updates, the direction is the initial one turned by what the angle encoder counted in all, whatever
    the path: no count is lost or used twice. *)
Theorem odometry_direction us : forall p p' x y a track imp, rs_set _ p = true -> pose p x y a -> phys p track imp -> centrifugal_coef _ p = real 0 ->
  0 < track -> 0 < imp -> use_ext _ p = true -> Rabs a <= PI ->
  (forall us1 u us2 q, us = us1 ++ u :: us2 -> run exact rcos rsin p (map (fun e => Manage exact e (0, 0)%Z) us1) = OK q ->
     Rabs (2 * IZR (snd u - prev_angle _ q) / (track * imp)) <= 2 * PI) ->
  run exact rcos rsin p (map (fun e => Manage exact e (0, 0)%Z) us) = OK p' ->
  exists x' y' a', pose p' x' y' a' /\ Rabs a' <= PI /\
    same_angle a' (a + 2 * IZR (last (map snd us) (prev_angle _ p) - prev_angle _ p) / (track * imp)).
Proof.
  induction us as [|u us IH]; intros p p' x y a track imp Rs Ps Ph Co Ht Hi Ue Ha Hu E.
  - cbn in E. injection E as <-. exists x, y, a. split; [exact Ps|]. split; [exact Ha|]. cbn [map last].
    rewrite Z.sub_diag. exists 0%Z. unfold Rdiv. ring.
  - cbn [map run step] in E. destruct (position_manage exact rcos rsin p u (0, 0)%Z) as [p1|] eqn:M; [cbn [rbind] in E|discriminate].
    pose proof (Hu [] u us p eq_refl eq_refl) as H0.
    destruct (odometry_update p u (0, 0)%Z p1 x y a track imp Rs Ps Ph Co Ht Hi M) as (x1 & y1 & a1 & P1 & D1 & A1 & Arc & _).
    rewrite Ue in *. set (th := 2 * IZR (snd u - prev_angle exact p) / (track * imp)) in *.
    assert (B : Rabs (a + th) <= 3 * PI) by (pose proof (Rabs_triang a th); lra).
    destruct (Arc B) as (fx & fy & _ & _ & _ & _ & Sa & _).
    assert (M' := M). unfold position_manage in M'. rewrite Rs, Ue in M'. cbn [negb] in M'. dob M'. dob M'.
    destruct (displace exact rcos rsin p a0 a2) as [[nx ny] na] eqn:Dp. dob M'. dob M'. dob M'. injection M' as <-.
    set (p1 := with_pose exact p nx ny na a3 a4 a5 (fst u) (snd u)) in *.
    assert (Ha1 : Rabs a1 <= PI).
    { apply int_inv in E1 as [-> _]. unfold displace in Dp. destruct Ps as (Px & Py & Pa). destruct Ph as (Tr & Im).
      destruct P1 as (_ & _ & Pa1). cbn [pa with_pose p1] in Pa1. subst na.
      destruct (Z.eqb_spec (snd u - prev_angle exact p) 0) as [Z|Z].
      - injection Dp as _ _ Q. rewrite Pa in Q. injection Q as <-. exact Ha.
      - rewrite Px, Py, Pa, Tr, Im, Co in Dp. revert Dp. cbv zeta. ex. rewrite !rdiv by (try (apply not_0_IZR in Z); try (apply Rmult_integral_contrapositive_currified); lra).
        ex. fold th. change (eq (D exact) (real 0) (real 0)) with (req 0 0). destruct (req_spec 0 0) as [_|N]; [|exfalso; now apply N]. cbn [negb andb].
        intro Q. injection Q as _ _ Q.
        destruct (wrap_exact (a + th) (mul (D exact) (m_pi exact) (real 2)) B) as (b & B1 & _ & B3); [unfold real; cbn; f_equal; f_equal; ring|].
        assert (H : real b = real a1) by (etransitivity; [symmetry; exact B1|exact Q]). injection H as ->. exact B3. }
    destruct (IH p1 p' x1 y1 a1 track imp Rs P1 Ph Co Ht Hi Ue Ha1) as (x' & y' & a' & P' & A' & S'); [|exact E|].
    { intros us1 v us2 q -> Q. apply (Hu (u :: us1) v us2 q); [reflexivity|]. cbn [map run step]. rewrite M. exact Q. }
    exists x', y', a'. split; [exact P'|]. split; [exact A'|]. eapply same_angle_trans; [exact S'|].
    cbn [prev_angle with_pose p1]. cbn [prev_angle with_pose p1] in S'.
    assert (L : last (map snd (u :: us)) (prev_angle exact p) = last (map snd us) (snd u)).
    { cbn [map]. apply last_cons. }
    rewrite L. set (z := last (map snd us) (snd u)).
    replace (a + 2 * IZR (z - prev_angle exact p) / (track * imp)) with (a + th + 2 * IZR (z - snd u) / (track * imp)).
    + apply same_angle_plus. exact Sa.
    + unfold th. rewrite !minus_IZR. unfold Rdiv. ring.
Qed.

(** C41. The index of the smallest value: no number of the array is below the one found, and the ones before it are above. *)
Lemma argmin_loop_spec (vs : list (num binary32)) : forall i mi (mv : num binary32), value mv <> None ->
  let r := argmin_loop ieee vs i mi mv in
  (r = mi /\ Forall (fun v => lt binary32 v mv = false) vs) \/
  (exists j v, r = (i + Z.of_nat j)%Z /\ nth_error vs j = Some v /\ lt binary32 v mv = true /\ Forall (fun w => lt binary32 w v = false) vs /\
     Forall (fun w => value w = None \/ lt binary32 v w = true) (firstn j vs)).
Proof.
  cbn [ieee F]. induction vs as [|v vs IH]; intros i mi mv Nm; [left; split; [reflexivity|constructor]|].
  cbn [argmin_loop]. change (lt (F ieee) v mv) with (lt binary32 v mv). destruct (lt binary32 v mv) eqn:L.
  - right. assert (Nv : value v <> None) by (rewrite (proj1 binary32_ordered) in L; intro Q; rewrite Q in L; discriminate).
    destruct (IH (i + 1)%Z i v Nv) as [[-> A]|(j & w & -> & Nj & Lw & A & B)].
    + exists 0%nat, v. split; [lia|]. split; [reflexivity|]. split; [exact L|]. split; [|constructor].
      constructor; [|exact A]. rewrite (proj1 binary32_ordered). destruct (value v) as [[|x|]|]; cbn; auto. destruct (rlt_spec x x); auto; lra.
    + exists (S j), w. split; [lia|]. split; [exact Nj|].
      rewrite (proj1 binary32_ordered) in *.
      assert (T : forall x y z, xlt x y = true -> xlt y z = true -> xlt x z = true).
      { intros [[|x|]|] [[|y|]|] [[|z|]|]; cbn; auto; try discriminate. destruct (rlt_spec x y), (rlt_spec y z), (rlt_spec x z); auto; try discriminate; lra. }
      assert (As : forall x y, xlt x y = true -> xlt y x = false).
      { intros [[|x|]|] [[|y|]|]; cbn; auto; try discriminate. destruct (rlt_spec x y), (rlt_spec y x); auto; try discriminate; lra. }
      split; [now apply (T _ (value v))|]. split.
      * constructor; [rewrite (proj1 binary32_ordered); now apply As|exact A].
      * cbn [firstn]. constructor; [right; rewrite (proj1 binary32_ordered); exact Lw|exact B].
  - destruct (IH (i + 1)%Z mi mv Nm) as [[-> A]|(j & w & -> & Nj & Lw & A & B)].
    + left. split; [reflexivity|]. now constructor.
    + right. exists (S j), w. split; [lia|]. split; [exact Nj|]. split; [exact Lw|].
      rewrite (proj1 binary32_ordered) in *.
      assert (H : value v = None \/ xlt (value w) (value v) = true /\ xlt (value v) (value w) = false).
      { destruct (value v) as [ev|] eqn:Ev; [|auto]. right. destruct (value mv) as [em|]; [|now exfalso].
        destruct (value w) as [ew|]; [|discriminate]. destruct ev as [|v1|], em as [|m1|], ew as [|w1|]; cbn in *; auto; try discriminate.
        - destruct (rlt_spec v1 m1), (rlt_spec w1 m1), (rlt_spec w1 v1), (rlt_spec v1 w1); auto; try discriminate; lra. }
      split.
      * constructor; [rewrite (proj1 binary32_ordered); destruct H as [->|[_ ->]]; reflexivity|exact A].
      * cbn [firstn]. constructor; [|exact B]. rewrite (proj1 binary32_ordered). tauto.
Qed.
Theorem argmin_minimal (vs : list (num binary32)) : Exists (fun v => lt binary32 v (inf binary32) = true) vs ->
  exists j v, argmin ieee vs = Z.of_nat j /\ nth_error vs j = Some v /\ value v <> None /\ Forall (fun w => lt binary32 w v = false) vs /\
    Forall (fun w => value w = None \/ lt binary32 v w = true) (firstn j vs).
Proof.
  intro H. unfold argmin. destruct vs as [|v vs]; [inversion H|].
  destruct (argmin_loop_spec (v :: vs) 0 0 (inf binary32) ltac:(discriminate)) as [[_ A]|(j & w & E & Nj & L & A & B)].
  - exfalso. rewrite Exists_exists in H. destruct H as (w & I & L). rewrite Forall_forall in A. rewrite (A w I) in L. discriminate.
  - cbn [ieee F inf]. exists j, w. split; [|split; [exact Nj|]].
    + exact E.
    + split; [|auto]. intro Q. rewrite (proj1 binary32_ordered), Q in L. discriminate.
Qed.

(** C41. Clamping. *)
Theorem clamp_value v lo hi : (lo <= hi -> lo <= math_clamp_value v lo hi <= hi /\ (lo <= v <= hi -> math_clamp_value v lo hi = v))%Z.
Proof. unfold math_clamp_value. intro H. destruct (Z.ltb_spec v lo); [lia|]. destruct (Z.ltb_spec hi v); lia. Qed.

(** * The cases are met *)
Example modulo_case : Rabs (7 * PI) < 2 ^ 31 * (2 * PI) /\ (exists b, modulo_2pi exact (real (7 * PI)) = OK (real b) /\ Rabs b <= PI).
Proof.
  pose proof PI_RGT_0. assert (H1 : Rabs (7 * PI) < 2 ^ 31 * (2 * PI)) by (rewrite Rabs_right; lra). split; [exact H1|].
  destruct (modulo_range (7 * PI) H1) as (b & B & _ & C). eauto.
Qed.
(** From (200, 1000) towards the x axis, 100 mm forwards then a turn of 200 counts. *)
Definition case_start : position exact :=
  Build_position exact true (real 200) (real 10) (real 200) (real 1000) (real 0) 200 1000 0 5 7 true (real 0).
Example odometry_case : pose case_start 200 1000 0 /\ phys case_start 200 10 /\
  (exists p, run exact rcos rsin case_start [Manage exact (1005, 7)%Z (0, 0)%Z] = OK p) /\
  arc_motion 100 0 200 1000 0 300 1000 0.
Proof.
  split; [repeat split|]. split; [split; reflexivity|]. split.
  - cbn [run step rbind]. unfold position_manage. cbn [case_start rs_set use_ext negb fst snd prev_distance prev_angle].
    change (int (1005 - 5)) with (@OK Z 1000%Z). change (int (7 - 7)) with (@OK Z 0%Z). cbn [rbind].
    unfold displace. cbn [pa px py distance_imp_per_mm case_start Z.eqb]. change (rcos (real 0)) with (real (cos 0)). change (rsin (real 0)) with (real (sin 0)).
    ex. rewrite rdiv by lra. ex. rewrite cos_0, sin_0.
    assert (C : forall x z, Ztrunc x = z -> (-32768 <= z < 32768)%Z -> cast exact 16 (real x) = OK z).
    { intros x z <- H. unfold cast, real. cbn [exact D exact_fmt trunc]. replace (_ && _) with true; [reflexivity|].
      symmetry. apply andb_true_iff. rewrite Z.leb_le, Z.ltb_lt. change (2 ^ (16 - 1))%Z with 32768%Z. lia. }
    rewrite (C _ 300%Z); [|replace (200 + 1 * (1000 / 10)) with (IZR 300) by lra; apply Ztrunc_IZR|lia]. cbn [rbind].
    rewrite (C _ 1000%Z); [|replace (1000 + 0 * (1000 / 10)) with (IZR 1000) by lra; apply Ztrunc_IZR|lia]. cbn [rbind].
    change (m_pi exact) with (real PI). ex. rewrite rdiv by (pose proof PI_RGT_0; lra). ex.
    rewrite (C _ 0%Z); [|replace (0 * _) with (IZR 0) by ring; apply Ztrunc_IZR|lia]. cbn [rbind]. eauto.
  - pose proof (arc_line 100 200 1000 0) as A. rewrite cos_0, sin_0 in A.
    replace (200 + 1 * 100) with 300 in A by ring. replace (1000 + 0 * 100) with 1000 in A by ring. exact A.
Qed.
Example argmin_case : Exists (fun v => lt binary32 v (inf binary32) = true) [B754_nan; lit binary32 3 0; lit binary32 1 0; lit binary32 1 0] /\
  argmin ieee [B754_nan; lit binary32 3 0; lit binary32 1 0; lit binary32 1 0] = 2%Z.
Proof. split; [apply Exists_cons_tl, Exists_cons_hd; vm_compute; reflexivity|vm_compute; reflexivity]. Qed.

Print Assumptions simple_modulo_range.
Print Assumptions modulo_range.
Print Assumptions angle_delta_partial.
Print Assumptions angle_delta_refuted.
Print Assumptions odometry_angle.
Print Assumptions odometry_update.
Print Assumptions odometry_direction.
Print Assumptions argmin_minimal.
Print Assumptions clamp_value.
