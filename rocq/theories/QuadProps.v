(** Properties of the ramp generator (C54). *)
From Coq Require Import ZArith Reals List Bool Lra Lia Psatz.
From Flocq Require Import Core.
From Verif Require Import CRes QuadModel QuadSpec.
Import ListNotations.
Local Open Scope R_scope.

Lemma ltb_spec a b : Bool.reflect (a < b) (ltb a b).
Proof. unfold ltb. destruct (Rlt_dec a b); constructor; auto. Qed.
Lemma neq0_spec a : Bool.reflect (a <> 0) (neq0 a).
Proof. unfold neq0. destruct (Req_EM_T a 0); constructor; auto. Qed.
Ltac cmp := repeat match goal with
  | |- context [ltb ?a ?b] => destruct (ltb_spec a b)
  | |- context [neq0 ?a] => destruct (neq0_spec a)
  | H : context [ltb ?a ?b] |- _ => destruct (ltb_spec a b)
  | H : context [neq0 ?a] |- _ => destruct (neq0_spec a)
  end; cbn [andb negb] in *.

Lemma reach_pos_accel v l ap an : 0 < ap -> an < 0 -> an <= reach_pos v l ap an - v <= ap.
Proof. intros. unfold reach_pos. cmp; lra. Qed.
Lemma reach_neg_accel v l ap an : 0 < ap -> an < 0 -> an <= reach_neg v l ap an - v <= ap.
Proof. intros. unfold reach_neg. cmp; lra. Qed.
Lemma reach_pos_between v l ap an : 0 <= ap -> an <= 0 -> Rmin v l <= reach_pos v l ap an <= Rmax v l.
Proof. intros. unfold reach_pos, Rmin, Rmax. destruct (Rle_dec v l); cmp; lra. Qed.
Lemma reach_neg_between v l ap an : 0 <= ap -> an <= 0 -> Rmin v l <= reach_neg v l ap an <= Rmax v l.
Proof. intros. unfold reach_neg, Rmin, Rmax. destruct (Rle_dec v l); cmp; lra. Qed.
Lemma ramp_pos_sign d a : 0 <= d -> a <= 0 -> 0 <= sqrt (a * a / 4 - 2 * d * a) + a / 2.
Proof.
  intros D A. assert (E : - a / 2 <= sqrt (a * a / 4 - 2 * d * a)); [|lra].
  rewrite <- (sqrt_Rsqr (- a / 2)) by lra. apply sqrt_le_1_alt. unfold Rsqr. nra.
Qed.
Lemma ramp_neg_sign d a : 0 <= a -> - sqrt (a * a / 4 - 2 * d * a) - a / 2 <= 0.
Proof. intro A. pose proof (sqrt_pos (a * a / 4 - 2 * d * a)). lra. Qed.
Lemma trunc_near x : Rabs (IZR (Ztrunc x) - x) < 1.
Proof.
  destruct (Rle_lt_dec 0 x).
  - rewrite Ztrunc_floor by auto. pose proof (Zfloor_lb x). pose proof (Zfloor_ub x). apply Rabs_def1; lra.
  - rewrite Ztrunc_ceil by lra. pose proof (Zceil_ub x). pose proof (Zceil_lb x). apply Rabs_def1; lra.
Qed.
Lemma to_int32_inv x z : to_int32 x = OK z -> z = Ztrunc x.
Proof. unfold to_int32. destruct (_ && _); [|discriminate]. now intros [= <-]. Qed.

(** One step of the ramp: the speed stored in the filter is the one of the step, and the configuration stays. *)
Lemma step_cases q i q' o : quadramp_do_filter q i = OK (q', o) ->
  (var_2nd_ord_pos q' = var_2nd_ord_pos q /\ var_2nd_ord_neg q' = var_2nd_ord_neg q /\ var_1st_ord_pos q' = var_1st_ord_pos q /\ var_1st_ord_neg q' = var_1st_ord_neg q) /\
  previous_in q' = i /\ previous_out q' = IZR o /\
  let d := IZR i - previous_out q in
  (Rabs d < 2 /\ o = i /\ previous_var q' = 0) \/
  (2 <= Rabs d /\ o = Ztrunc (previous_out q + previous_var q') /\
   exists lp ln, (0 <= lp <= var_1st_ord_pos q \/ lp = var_1st_ord_pos q \/ var_2nd_ord_neg q < 0) /\ (- var_1st_ord_neg q <= ln <= 0 \/ ln = - var_1st_ord_neg q \/ var_2nd_ord_pos q < 0) /\
    let rp := reach_pos (previous_var q) lp (var_2nd_ord_pos q) (- var_2nd_ord_neg q) in
    let rn := reach_neg (previous_var q) ln (var_2nd_ord_pos q) (- var_2nd_ord_neg q) in
    ((previous_var q' = rp /\ rp < d) \/ (previous_var q' = rn /\ d < rn) \/ (previous_var q' = d /\ rn <= d <= rp))).
Proof.
  unfold quadramp_do_filter. set (d := IZR i - previous_out q). destruct (ltb_spec (Rabs d) 2) as [L|L].
  - intros [= <- <-]. cbn. auto 10.
  - destruct (to_int32 d) as [di|] eqn:DI; [|discriminate]. cbn [rbind]. apply to_int32_inv in DI.
    set (lp := if ((0 <? di)%Z && neq0 (- var_2nd_ord_neg q)) then _ else var_1st_ord_pos q).
    set (ln := if (negb ((0 <? di)%Z && neq0 (- var_2nd_ord_neg q)) && ((di <? 0)%Z && neq0 (var_2nd_ord_pos q))) then _ else - var_1st_ord_neg q).
    set (rp := reach_pos _ lp _ _). set (rn := reach_neg _ ln _ _).
    assert (DPOS : (0 < di)%Z -> 0 <= d). { intro H. subst di. destruct (Rle_lt_dec 0 d); auto. rewrite Ztrunc_ceil in H by lra. exfalso.
      assert (Zceil d <= 0)%Z by (apply Zceil_glb; cbn; lra). lia. }
    assert (LP : 0 <= lp <= var_1st_ord_pos q \/ lp = var_1st_ord_pos q \/ var_2nd_ord_neg q < 0).
    { unfold lp. destruct (0 <? di)%Z eqn:DP; cbn [andb]; auto. destruct (neq0 _); auto. destruct (ltb_spec (sqrt (- var_2nd_ord_neg q * - var_2nd_ord_neg q / 4 - 2 * d * - var_2nd_ord_neg q) + - var_2nd_ord_neg q / 2) (var_1st_ord_pos q)); auto.
      destruct (Rle_lt_dec 0 (var_2nd_ord_neg q)); auto. left. split; [|lra]. apply ramp_pos_sign; [|lra]. apply DPOS. lia. }
    assert (LN : - var_1st_ord_neg q <= ln <= 0 \/ ln = - var_1st_ord_neg q \/ var_2nd_ord_pos q < 0).
    { unfold ln. destruct (negb _ && _); auto. destruct (ltb_spec (- var_1st_ord_neg q) (- sqrt (var_2nd_ord_pos q * var_2nd_ord_pos q / 4 - 2 * d * var_2nd_ord_pos q) - var_2nd_ord_pos q / 2)); auto.
      destruct (Rle_lt_dec 0 (var_2nd_ord_pos q)); auto. left. split; [lra|]. apply ramp_neg_sign. lra. }
    cbv zeta. destruct (ltb_spec rp d) as [A|A]; [|destruct (ltb_spec d rn) as [B|B]].
    + destruct (to_int32 (previous_out q + rp)) as [t|] eqn:T; [|discriminate]. cbn [rbind]. apply to_int32_inv in T. intros [= <- <-]. cbn.
      split; [auto|]. split; [auto|]. split; [auto|]. right. split; [lra|]. split; [exact T|]. exists lp, ln. auto 10.
    + destruct (to_int32 (previous_out q + rn)) as [t|] eqn:T; [|discriminate]. cbn [rbind]. apply to_int32_inv in T. intros [= <- <-]. cbn.
      split; [auto|]. split; [auto|]. split; [auto|]. right. split; [lra|]. split; [exact T|]. exists lp, ln. auto 10.
    + intros [= <- <-]. cbn. split; [auto|]. split; [auto|]. split; [auto|]. right. split; [lra|]. split.
      * unfold d. replace (previous_out q + (IZR i - previous_out q)) with (IZR i) by lra. now rewrite Ztrunc_IZR.
      * exists lp, ln. split; [exact LP|]. split; [exact LN|]. right; right. split; [reflexivity|]. fold rp rn. lra.
Qed.

(** Near the target the ramp jumps on it and is finished. *)
Theorem quadramp_arrives q i : Rabs (IZR i - previous_out q) < 2 -> exists q', quadramp_do_filter q i = OK (q', i) /\ previous_var q' = 0 /\ previous_out q' = IZR i /\
  ((- 2 ^ 31 <= i < 2 ^ 31)%Z -> quadramp_is_finished q' = OK true).
Proof.
  intro H. unfold quadramp_do_filter. destruct (ltb_spec (Rabs (IZR i - previous_out q)) 2); [|lra]. eexists. split; [reflexivity|]. cbn. split; [auto|]. split; [auto|].
  intro R. unfold quadramp_is_finished. cbn. unfold to_int32. rewrite Ztrunc_IZR. replace ((- 2 ^ 31 <=? i) && (i <? 2 ^ 31))%Z with true by (symmetry; apply andb_true_iff; split; [apply Z.leb_le|apply Z.ltb_lt]; lia).
  cbn [rbind]. rewrite Z.eqb_refl. unfold neq0. destruct (Req_EM_T 0 0); [reflexivity|lra].
Qed.
(** Acceleration: from one step to the next the speed changes by at most the accelerations set, except when the ramp ends. *)
Theorem quadramp_acceleration q i q' o : 0 < var_2nd_ord_pos q -> 0 < var_2nd_ord_neg q -> quadramp_do_filter q i = OK (q', o) ->
  (o = i /\ previous_var q' = 0) \/ - var_2nd_ord_neg q <= previous_var q' - previous_var q <= var_2nd_ord_pos q.
Proof.
  intros P N E. apply step_cases in E as (_ & _ & _ & [(_ & A & B)|(_ & _ & lp & ln & _ & _ & D)]); [left; auto|right].
  pose proof (reach_pos_accel (previous_var q) lp (var_2nd_ord_pos q) (- var_2nd_ord_neg q)). pose proof (reach_neg_accel (previous_var q) ln (var_2nd_ord_pos q) (- var_2nd_ord_neg q)).
  cbv zeta in D. destruct D as [[-> _]|[[-> _]|[-> D]]]; lra.
Qed.
(** Speed: it stays within the limits set. *)
Theorem quadramp_speed q i q' o : 0 <= var_2nd_ord_pos q -> 0 <= var_2nd_ord_neg q -> 0 <= var_1st_ord_pos q -> 0 <= var_1st_ord_neg q ->
  within_speed q -> quadramp_do_filter q i = OK (q', o) -> within_speed q'.
Proof.
  unfold within_speed. intros P N SP SN W E. apply step_cases in E as ((_ & _ & E1 & E2) & _ & _ & D). rewrite E1, E2. destruct D as [(_ & _ & ->)|(_ & _ & lp & ln & LP & LN & D)]; [lra|].
  pose proof (reach_pos_between (previous_var q) lp (var_2nd_ord_pos q) (- var_2nd_ord_neg q) P ltac:(lra)) as A.
  pose proof (reach_neg_between (previous_var q) ln (var_2nd_ord_pos q) (- var_2nd_ord_neg q) P ltac:(lra)) as B.
  cbv zeta in D. assert (LP' : 0 <= lp <= var_1st_ord_pos q) by (destruct LP as [|[|]]; lra). assert (LN' : - var_1st_ord_neg q <= ln <= 0) by (destruct LN as [|[|]]; lra).
  assert (- var_1st_ord_neg q <= Rmin (previous_var q) lp) by (apply Rmin_glb; lra). assert (Rmax (previous_var q) lp <= var_1st_ord_pos q) by (apply Rmax_lub; lra).
  assert (- var_1st_ord_neg q <= Rmin (previous_var q) ln) by (apply Rmin_glb; lra). assert (Rmax (previous_var q) ln <= var_1st_ord_pos q) by (apply Rmax_lub; lra).
  destruct D as [[-> _]|[[-> _]|[-> D]]]; lra.
Qed.
(** The output moves by the speed, up to the rounding to a whole number. *)
Theorem quadramp_moves q i q' o : quadramp_do_filter q i = OK (q', o) ->
  (o = i /\ Rabs (IZR i - previous_out q) < 2) \/ Rabs (IZR o - previous_out q - previous_var q') < 1.
Proof.
  intro E. apply step_cases in E as (_ & _ & _ & [(A & -> & _)|(_ & -> & _)]); [left; auto|right].
  pose proof (trunc_near (previous_out q + previous_var q')) as T. replace (IZR (Ztrunc (previous_out q + previous_var q')) - previous_out q - previous_var q') with
    (IZR (Ztrunc (previous_out q + previous_var q')) - (previous_out q + previous_var q')) by lra. exact T.
Qed.

(** Within 2^29 nothing overflows. *)
Lemma to_int32_def x : Rabs x <= IZR (2 ^ 30) -> exists z, to_int32 x = OK z.
Proof.
  intro H. unfold to_int32. pose proof (trunc_near x) as T. apply Rabs_def2 in T.
  assert (B : - IZR (2 ^ 30) <= x <= IZR (2 ^ 30)) by (unfold Rabs in H; destruct (Rcase_abs x); lra).
  assert (- 2 ^ 30 - 1 < Ztrunc x)%Z by (apply lt_IZR; rewrite minus_IZR, opp_IZR; lra).
  assert (Ztrunc x < 2 ^ 30 + 1)%Z by (apply lt_IZR; rewrite plus_IZR; lra).
  replace ((- 2 ^ 31 <=? Ztrunc x) && (Ztrunc x <? 2 ^ 31))%Z with true; [eauto|]. symmetry. apply andb_true_iff. split; [apply Z.leb_le|apply Z.ltb_lt]; lia.
Qed.
Theorem quadramp_defined q i : let B := IZR (2 ^ 29) in 0 <= var_2nd_ord_pos q -> 0 <= var_2nd_ord_neg q -> 0 <= var_1st_ord_pos q <= B -> 0 <= var_1st_ord_neg q <= B ->
  within_speed q -> Rabs (previous_out q) <= B -> Rabs (IZR i) <= B -> exists q' o, quadramp_do_filter q i = OK (q', o).
Proof.
  intros B P N SP SN W HO HI. unfold quadramp_do_filter. set (d := IZR i - previous_out q).
  assert (B2 : IZR (2 ^ 30) = 2 * B) by (unfold B; rewrite <- mult_IZR; reflexivity).
  destruct (ltb_spec (Rabs d) 2); [eauto|].
  destruct (to_int32_def d) as (di & DI); [unfold d, Rminus; eapply Rle_trans; [apply Rabs_triang|]; rewrite Rabs_Ropp; lra|]. rewrite DI. cbn [rbind]. apply to_int32_inv in DI.
  set (lp := if ((0 <? di)%Z && neq0 (- var_2nd_ord_neg q)) then _ else var_1st_ord_pos q).
  set (ln := if (negb ((0 <? di)%Z && neq0 (- var_2nd_ord_neg q)) && ((di <? 0)%Z && neq0 (var_2nd_ord_pos q))) then _ else - var_1st_ord_neg q).
  assert (DPOS : (0 < di)%Z -> 0 <= d). { intro H. subst di. destruct (Rle_lt_dec 0 d); auto. rewrite Ztrunc_ceil in H by lra. exfalso.
    assert (Zceil d <= 0)%Z by (apply Zceil_glb; cbn; lra). lia. }
  assert (LP : 0 <= lp <= var_1st_ord_pos q).
  { unfold lp. destruct (0 <? di)%Z eqn:DP; cbn [andb]; [|lra]. destruct (neq0 _); [|lra]. destruct (ltb_spec (sqrt (- var_2nd_ord_neg q * - var_2nd_ord_neg q / 4 - 2 * d * - var_2nd_ord_neg q) + - var_2nd_ord_neg q / 2) (var_1st_ord_pos q)); [|lra].
    split; [|lra]. apply ramp_pos_sign; [|lra]. apply DPOS. apply Z.ltb_lt. exact DP. }
  assert (LN : - var_1st_ord_neg q <= ln <= 0).
  { unfold ln. destruct (negb _ && _); [|lra]. destruct (ltb_spec (- var_1st_ord_neg q) (- sqrt (var_2nd_ord_pos q * var_2nd_ord_pos q / 4 - 2 * d * var_2nd_ord_pos q) - var_2nd_ord_pos q / 2)); [|lra].
    split; [lra|]. apply ramp_neg_sign. lra. }
  clearbody lp ln. unfold within_speed in W.
  pose proof (reach_pos_between (previous_var q) lp (var_2nd_ord_pos q) (- var_2nd_ord_neg q) P ltac:(lra)) as A.
  pose proof (reach_neg_between (previous_var q) ln (var_2nd_ord_pos q) (- var_2nd_ord_neg q) P ltac:(lra)) as A'.
  assert (- B <= Rmin (previous_var q) lp) by (apply Rmin_glb; lra). assert (Rmax (previous_var q) lp <= B) by (apply Rmax_lub; lra).
  assert (- B <= Rmin (previous_var q) ln) by (apply Rmin_glb; lra). assert (Rmax (previous_var q) ln <= B) by (apply Rmax_lub; lra).
  cbv zeta. set (rp := reach_pos _ lp _ _) in *. set (rn := reach_neg _ ln _ _) in *.
  assert (K : forall r, - B <= r <= B -> exists z, to_int32 (previous_out q + r) = OK z).
  { intros r R. apply to_int32_def. eapply Rle_trans; [apply Rabs_triang|]. assert (Rabs r <= B) by (unfold Rabs; destruct (Rcase_abs r); lra). lra. }
  destruct (ltb rp d); [destruct (K rp) as (z & ->); [lra|]; cbn [rbind]; eauto|]. destruct (ltb d rn); [destruct (K rn) as (z & ->); [lra|]; cbn [rbind]; eauto|]. eauto.
Qed.

(** ** Whole runs *)
Theorem quadramp_run q targets l : 0 < var_2nd_ord_pos q -> 0 < var_2nd_ord_neg q -> 0 <= var_1st_ord_pos q -> 0 <= var_1st_ord_neg q -> within_speed q ->
  run q targets = OK l ->
  gentle (var_1st_ord_pos q) (var_1st_ord_neg q) (var_2nd_ord_pos q) (var_2nd_ord_neg q) (previous_out q) (previous_var q) targets l.
Proof.
  revert q l. induction targets as [|t ts IH]; intros q l A B C D W E; cbn [run] in E; [injection E as <-; exact I|].
  destruct (quadramp_do_filter q t) as [[q' o]|] eqn:F; [|discriminate]. cbn [rbind] in E. destruct (run q' ts) as [l'|] eqn:R; [|discriminate]. cbn [rbind] in E. injection E as <-.
  cbn [gentle]. pose proof (step_cases _ _ _ _ F) as ((K1 & K2 & K3 & K4) & _ & K5 & KK). pose proof (quadramp_speed q t q' o ltac:(lra) ltac:(lra) C D W F) as W'.
  split.
  - pose proof (quadramp_acceleration _ _ _ _ A B F) as AC. pose proof (quadramp_moves _ _ _ _ F) as M. unfold within_speed in W'. rewrite K3, K4 in W'.
    destruct KK as [(X & -> & Y)|(X & Y & _)].
    + left. auto.
    + right. split; [exact W'|]. split; [destruct AC as [[-> AC]|AC]; [|exact AC]|].
      * exfalso. destruct M as [[_ M]|M]; [lra|]. rewrite AC in M. replace (IZR t - previous_out q - 0) with (IZR t - previous_out q) in M by lra. lra.
      * destruct M as [[_ M]|M]; [lra|]. replace (IZR o - (previous_out q + previous_var q')) with (IZR o - previous_out q - previous_var q') by lra. exact M.
  - specialize (IH q' l'). rewrite K1, K2, K3, K4, K5 in IH. apply IH; auto.
Qed.

(** ** Limits of the ramp *)
Lemma to_int32_IZR z : (- 2 ^ 31 <= z < 2 ^ 31)%Z -> to_int32 (IZR z) = OK z.
Proof. intro H. unfold to_int32. rewrite Ztrunc_IZR. replace ((- 2 ^ 31 <=? z) && (z <? 2 ^ 31))%Z with true; [reflexivity|]. symmetry. apply andb_true_iff. split; [apply Z.leb_le|apply Z.ltb_lt]; lia. Qed.
Ltac flat x := lazymatch x with context [ltb _ _] => fail | context [neq0 _] => fail | _ => idtac end.
Ltac decide_cmp := repeat (match goal with
  | |- context [ltb ?a ?b] => flat a; flat b; destruct (ltb_spec a b); try (exfalso; lra)
  | |- context [neq0 ?a] => flat a; destruct (neq0_spec a); try (exfalso; lra)
  end; cbn [andb negb]).
(** Going down from 120 to 0 with acceleration 10, the ramp passes the target and gives a negative output. *)
Definition ex_q (v out : R) (inp : Z) : quadramp := mkQ 10 10 10000 10000 v out inp.
Lemma sqrt_bounds x a b : 0 <= a -> 0 <= b -> a * a <= x -> x <= b * b -> a <= sqrt x <= b.
Proof.
  intros A B H1 H2. split.
  - rewrite <- (sqrt_square a) by auto. now apply sqrt_le_1_alt.
  - rewrite <- (sqrt_square b) by auto. apply sqrt_le_1_alt. exact H2.
Qed.
Ltac ramp_step s lo hi :=
  unfold quadramp_do_filter, ex_q; cbn [var_2nd_ord_pos var_2nd_ord_neg var_1st_ord_pos var_1st_ord_neg previous_var previous_out previous_in];
  rewrite <- minus_IZR; cbn [Z.sub Z.opp Z.add];
  match goal with |- context [ltb (Rabs ?z) 2] => destruct (ltb_spec (Rabs z) 2) as [HH|_]; [exfalso; revert HH; rewrite Rabs_left by lra; lra|] end;
  rewrite to_int32_IZR by lia; cbn [rbind Z.ltb Z.compare andb negb];
  destruct (neq0_spec 10); [|lra]; cbn [andb negb];
  match goal with |- context [sqrt ?x] => assert (SB : lo <= sqrt x <= hi) by (apply sqrt_bounds; lra); generalize dependent (sqrt x); intros s SB end.
Lemma ex_1 : quadramp_do_filter (ex_q 0 120 120) 0 = OK (ex_q (-10) 110 0, 110%Z).
Proof.
  ramp_step s 49 50. unfold reach_pos, reach_neg. decide_cmp.
  replace (120 + (0 + - (10))) with (IZR 110) by lra. rewrite to_int32_IZR by lia. cbn [rbind]. unfold ex_q. repeat f_equal; lra.
Qed.
Lemma ex_2 : quadramp_do_filter (ex_q (-10) 110 0) 0 = OK (ex_q (-20) 90 0, 90%Z).
Proof.
  ramp_step s 47 48. unfold reach_pos, reach_neg. decide_cmp.
  replace (110 + (-10 + - (10))) with (IZR 90) by lra. rewrite to_int32_IZR by lia. cbn [rbind]. unfold ex_q. repeat f_equal; lra.
Qed.
Lemma ex_3 : quadramp_do_filter (ex_q (-20) 90 0) 0 = OK (ex_q (-30) 60 0, 60%Z).
Proof.
  ramp_step s 42 43. unfold reach_pos, reach_neg. decide_cmp.
  replace (90 + (-20 + - (10))) with (IZR 60) by lra. rewrite to_int32_IZR by lia. cbn [rbind]. unfold ex_q. repeat f_equal; lra.
Qed.
Lemma ex_4 : quadramp_do_filter (ex_q (-30) 60 0) 0 = OK (ex_q (-40) 20 0, 20%Z).
Proof.
  ramp_step s 35 35. assert (s = 35) by lra. subst s. unfold reach_pos, reach_neg. decide_cmp.
  replace (60 + (- (35) - 10 / 2)) with (IZR 20) by lra. rewrite to_int32_IZR by lia. cbn [rbind]. unfold ex_q. repeat f_equal; lra.
Qed.
Lemma ex_5 : quadramp_do_filter (ex_q (-40) 20 0) 0 = OK (ex_q (-30) (-10) 0, (-10)%Z).
Proof.
  ramp_step s 20 21. unfold reach_pos, reach_neg. decide_cmp.
  replace (20 + (-40 + 10)) with (IZR (-10)) by lra. rewrite to_int32_IZR by lia. cbn [rbind]. unfold ex_q. repeat f_equal; lra.
Qed.
(** The hypotheses of [quadramp_run] and [quadramp_defined] are met by a filter at rest, which then moves. *)
Example quadramp_run_example : within_speed (ex_q 0 120 120) /\ run (ex_q 0 120 120) (repeat 0%Z 4) = OK [(110%Z, -10); (90%Z, -20); (60%Z, -30); (20%Z, -40)] /\
  gentle 10000 10000 10 10 120 0 (repeat 0%Z 4) [(110%Z, -10); (90%Z, -20); (60%Z, -30); (20%Z, -40)].
Proof.
  assert (W : within_speed (ex_q 0 120 120)) by (unfold within_speed; cbn; lra).
  assert (R : run (ex_q 0 120 120) (repeat 0%Z 4) = OK [(110%Z, -10); (90%Z, -20); (60%Z, -30); (20%Z, -40)]).
  { cbn [repeat run]. rewrite ex_1. cbn [rbind]. rewrite ex_2. cbn [rbind]. rewrite ex_3. cbn [rbind]. rewrite ex_4. reflexivity. }
  split; [exact W|]. split; [exact R|]. apply (quadramp_run (ex_q 0 120 120)); cbn; auto; lra.
Qed.
Theorem quadramp_overshoots_refuted :
  ~ forall q targets l lo hi, previous_var q = 0 -> 0 < var_2nd_ord_pos q -> 0 < var_2nd_ord_neg q -> 0 < var_1st_ord_pos q -> 0 < var_1st_ord_neg q ->
      IZR lo <= previous_out q <= IZR hi -> Forall (fun t => (lo <= t <= hi)%Z) targets -> run q targets = OK l -> Forall (fun ov => (lo <= fst ov <= hi)%Z) l.
Proof.
  intro H. specialize (H (ex_q 0 120 120) (repeat 0%Z 5) [(110%Z, -10); (90%Z, -20); (60%Z, -30); (20%Z, -40); ((-10)%Z, -30)] 0%Z 120%Z).
  cbn [ex_q previous_var previous_out var_2nd_ord_pos var_2nd_ord_neg var_1st_ord_pos var_1st_ord_neg] in H.
  assert (X : Forall (fun ov : Z * R => (0 <= fst ov <= 120)%Z) [(110%Z, -10); (90%Z, -20); (60%Z, -30); (20%Z, -40); ((-10)%Z, -30)]).
  { apply H; try lra.
    - repeat constructor; lia.
    - cbn [repeat run]. change (mkQ 10 10 10000 10000 0 120 120) with (ex_q 0 120 120). rewrite ex_1. cbn [rbind]. rewrite ex_2. cbn [rbind]. rewrite ex_3. cbn [rbind]. rewrite ex_4. cbn [rbind]. rewrite ex_5. reflexivity. }
  rewrite Forall_forall in X. specialize (X ((-10)%Z, -30) ltac:(cbn; auto 10)). cbn in X. lia.
Qed.
(** A speed below one unit per step never moves a positive output upwards. *)
Theorem quadramp_stuck_refuted :
  ~ forall q t, previous_var q = 0 -> 0 < var_2nd_ord_pos q -> 0 < var_2nd_ord_neg q -> 0 < var_1st_ord_pos q -> 0 < var_1st_ord_neg q ->
      exists n l, run q (repeat t n) = OK l /\ exists v, In (t, v) l.
Proof.
  intro H. set (q := fun v => mkQ 1 1 (1/2) (1/2) v 10).
  assert (ST : forall v i, v = 0 \/ v = 1/2 -> quadramp_do_filter (q v i) 100 = OK (q (1/2) 100%Z, 10%Z)).
  { intros v i V. unfold quadramp_do_filter, q. cbn [var_2nd_ord_pos var_2nd_ord_neg var_1st_ord_pos var_1st_ord_neg previous_var previous_out previous_in].
    rewrite <- minus_IZR. cbn [Z.sub Z.opp Z.add]. change (Z.pos_sub 100 10) with 90%Z.
    destruct (ltb_spec (Rabs 90) 2) as [HH|_]; [exfalso; revert HH; rewrite Rabs_right by lra; lra|]. rewrite to_int32_IZR by lia. cbn [rbind Z.ltb Z.compare andb negb].
    destruct (neq0_spec (- (1))); [|lra]. cbn [andb negb].
    assert (SB : 13 <= sqrt (- (1) * - (1) / 4 - 2 * 90 * - (1)) <= 14) by (apply sqrt_bounds; lra). generalize dependent (sqrt (- (1) * - (1) / 4 - 2 * 90 * - (1))). intros s SB.
    unfold reach_pos, reach_neg. destruct V as [-> | ->]; decide_cmp.
    all: assert (TR : to_int32 (10 + 1/2) = OK 10%Z) by (unfold to_int32; rewrite Ztrunc_floor by lra; rewrite (Zfloor_imp 10) by (cbn; lra); reflexivity).
    all: rewrite TR; reflexivity. }
  destruct (H (q 0 0%Z) 100%Z) as (n & l & R & v & IN); cbn; try lra.
  assert (ALL : forall n v i l, v = 0 \/ v = 1/2 -> run (q v i) (repeat 100%Z n) = OK l -> forall x, In x l -> fst x = 10%Z).
  { clear - ST. induction n as [|n IH]; intros v i l V E x IN; cbn [repeat run] in E; [injection E as <-; contradiction|].
    rewrite ST in E by auto. cbn [rbind] in E. destruct (run (q (1/2) 100%Z) (repeat 100%Z n)) as [l'|] eqn:R; [|discriminate]. cbn [rbind] in E. injection E as <-.
    destruct IN as [<-|IN]; [reflexivity|]. eapply IH; [|exact R|exact IN]. auto. }
  specialize (ALL n 0 0%Z l (or_introl eq_refl) R (100%Z, v) IN). cbn in ALL. lia.
Qed.

Print Assumptions quadramp_defined.
Print Assumptions quadramp_run.
Print Assumptions quadramp_overshoots_refuted.
