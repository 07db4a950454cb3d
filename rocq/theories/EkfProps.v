(** The position estimator: the theorems. *)
From Coq Require Import Reals List Bool Arith ZArith Lia Lra.
From Verif Require Import EkfModel EkfSpec EkfProofs.
Import ListNotations.
Local Open Scope R_scope.

(** C72: a correction is optimal. Whatever the measurement function, the covariance after it is that of the error of the new
    estimate, it is symmetric and positive, and no other gain would give a smaller variance, in any direction. *)
Theorem correct_optimal n h H q mu sigma z mu' sigma' : symmetric n sigma -> positive n sigma -> 0 < q ->
  correct n h H q mu sigma z = Some (mu', sigma') ->
  symmetric n sigma' /\ positive n sigma' /\
  exists Hm K, H mu = Some Hm /\ (forall i, mu' i = mu i + K i * (z - h mu)) /\
  (forall x, variance n sigma' x = variance_after n sigma Hm q K x) /\
  (forall K' x, variance n sigma' x <= variance_after n sigma Hm q K' x).
Proof.
  intros S P Q E. destruct (correct_inv n h H q mu sigma z mu' sigma' S P Q E) as (Hm & E1 & Sp & M & S' & P' & _ & O & V).
  split; [exact S'|]. split; [exact P'|]. exists Hm, (fun i => mat_vec n sigma Hm i * (1 / (bil n sigma Hm Hm + q))). auto.
Qed.
(** It never makes the estimate less certain. *)
Theorem correct_improves n h H q mu sigma z mu' sigma' x : symmetric n sigma -> positive n sigma -> 0 < q ->
  correct n h H q mu sigma z = Some (mu', sigma') -> variance n sigma' x <= variance n sigma x.
Proof.
  intros S P Q E. destruct (correct_inv n h H q mu sigma z mu' sigma' S P Q E) as (Hm & E1 & Sp & _ & _ & _ & V & _).
  rewrite V, variance_bil. assert (0 <= bil n sigma x Hm * bil n sigma x Hm / (bil n sigma Hm Hm + q)); [|lra].
  apply Rmult_le_pos; [apply Rle_0_sqr|left; now apply Rinv_0_lt_compat].
Qed.
(** It is defined if the Jacobian is. *)
Theorem correct_defined n h H q mu sigma z : symmetric n sigma -> positive n sigma -> 0 < q ->
  (correct n h H q mu sigma z = None <-> H mu = None).
Proof.
  intros S P Q. split; intro E.
  - destruct (H mu) as [Hm|] eqn:EH; auto. exfalso. now apply (correct_some n h H q mu sigma z Hm).
  - unfold correct. now rewrite E.
Qed.

(** C72: the expected range is the distance to the anchor, and the Jacobian used is its gradient, of length 1; it exists
    unless the estimate is exactly at the anchor. *)
Theorem range_model n a mu :
  uwb_h n a mu = distance n mu a /\
  match uwb_H n a mu with
  | Some Hm => gradient n (uwb_h n a) mu Hm /\ sum n (fun i => Hm i * Hm i) = 1
  | None => forall i, (i < n)%nat -> mu i = a i
  end.
Proof.
  split; [reflexivity|]. destruct (uwb_H n a mu) as [Hm|] eqn:E.
  - split; [now apply distance_gradient|now apply (uwb_H_unit n a mu)].
  - unfold uwb_H in E. destruct (Req_EM_T _ _) as [Z|]; [|discriminate]. intros i L. now apply (distance_zero n mu a).
Qed.

(** C72: with a range, the estimate moves so that the expected range goes to the measured one by a fraction between 0 and 1 (to first
    order), and the variance along the line to the anchor becomes less than that of the measurement. *)
Theorem range_correction n a q mu sigma z mu' sigma' Hm : symmetric n sigma -> positive n sigma -> 0 < q ->
  uwb_H n a mu = Some Hm -> correct n (uwb_h n a) (uwb_H n a) q mu sigma z = Some (mu', sigma') ->
  (exists c, 0 < c < 1 /\ sum n (fun i => Hm i * (mu' i - mu i)) = c * (z - distance n mu a)) /\
  variance n sigma' Hm < q /\ variance n sigma' Hm < variance n sigma Hm.
Proof.
  intros S P Q EH E. destruct (correct_inv n _ _ q mu sigma z mu' sigma' S P Q E) as (Hm' & E1 & Sp & M & _ & _ & V & _).
  rewrite EH in E1. injection E1 as <-. set (v := bil n sigma Hm Hm) in *.
  assert (Pv : 0 < v).
  { destruct (zero_or_not n Hm) as [N|Z]; [exact (P Hm N)|]. pose proof (uwb_H_unit n a mu Hm EH) as U.
    rewrite (sum_ext _ _ (fun _ => 0)), sum_zero in U by (intros; rewrite Z by auto; ring). lra. }
  split.
  - exists (v / (v + q)). split.
    + split; [apply Rmult_lt_0_compat; [lra|apply Rinv_0_lt_compat; lra]|]. apply (Rmult_lt_reg_r (v + q)); [lra|]. unfold Rdiv. rewrite Rmult_assoc, Rinv_l; lra.
    + rewrite (sum_ext _ _ (fun i => (Hm i * mat_vec n sigma Hm i) * (1 / (v + q) * (z - distance n mu a)))).
      * rewrite sum_scal_r, <- bil_mat_vec. fold v. unfold Rdiv. ring.
      * intros i Hi. rewrite M. rewrite uwb_h_distance. ring.
  - rewrite V. fold v. rewrite variance_bil. fold v.
    assert (W : v - v * v / (v + q) = v * q / (v + q)) by (field; lra). rewrite W.
    split; apply (Rmult_lt_reg_r (v + q)); try lra; unfold Rdiv; rewrite Rmult_assoc, Rinv_l by lra; nra.
Qed.

(** C72: a prediction propagates the covariance through the linearised model and adds the process noise. *)
Theorem predict_covariance n g G r mu sigma : let '(mu', sigma') := predict n g G r mu sigma in
  mu' = g mu /\ forall x, variance n sigma' x = variance n sigma (fun k => sum n (fun i => x i * G (g mu) i k)) + variance n r x.
Proof. split; [reflexivity|]. intro x. apply predicted_bil. Qed.

Definition good (e : estimator) : Prop := symmetric 3 (covariance e) /\ positive 3 (covariance e).
Lemma init_good : good estimator_init.
Proof.
  split.
  - intros i j _ _. apply identity_sym.
  - intros x (i & L & N). cbn. unfold identity. cbn.
    destruct i as [|[|[|i]]]; [| | |lia]; nra.
Qed.
Lemma predict_good e : good e -> 0 <= process_variance e -> good (predict_position e) /\ state (predict_position e) = state e /\
  forall x, variance 3 (covariance (predict_position e)) x = variance 3 (covariance e) x + process_variance e * sum 3 (fun i => x i * x i).
Proof.
  intros [S P] V. unfold predict_position. destruct (predict 3 _ _ _ _ _) as [s c] eqn:E.
  assert (C : forall i j, (i < 3)%nat -> (j < 3)%nat -> c i j = covariance e i j + process_variance e * identity i j).
  { intros i j A B. pose proof (predicted_entry 3 (fun i j => process_variance e * identity i j) (state e) (covariance e) i j A B) as X. now rewrite E in X. }
  assert (X : s = state e) by now inversion E.
  assert (W : forall x, variance 3 c x = variance 3 (covariance e) x + process_variance e * sum 3 (fun i => x i * x i)).
  { intro x. rewrite !variance_bil. rewrite (bil_ext 3 c (fun i j => covariance e i j + process_variance e * identity i j) x x x x C) by auto.
    unfold bil. cbn. unfold identity. cbn. ring. }
  cbn [covariance state]. split; [|split; auto]. split.
  - intros i j A B. cbn [covariance]. rewrite !C by auto. rewrite (S i j) by auto. now rewrite identity_sym.
  - intros x N. cbn [covariance]. rewrite W. pose proof (P x N). assert (0 <= sum 3 (fun i => x i * x i)) by (apply sum_nonneg; intros; apply Rle_0_sqr). nra.
Qed.
Lemma turn_good e ev : good e -> event_ok ev ->
  match turn e ev with
  | Some (e', ms) => good e' /\ map timestamp ms = imu_times [ev] /\ Forall (fun m => 0 < variance_x m /\ 0 < variance_y m /\ 0 < variance_z m) ms
  | None => exists range v x y z, ev = Range range v (Some (x, y, z)) /\ range <= 1000 /\ state e 0%nat = x /\ state e 1%nat = y /\ state e 2%nat = z
  end.
Proof.
  intros G O. destruct ev as [range v anchor|t v]; cbn [turn event_ok] in *.
  - destruct (Rlt_dec 1000 range) as [|L]; [auto|]. destruct anchor as [[[x y] z]|]; [|auto].
    unfold process_distance. cbn [measurement_variance state covariance process_variance].
    destruct (correct _ _ _ _ _ _ _) as [[s c]|] eqn:E.
    + destruct G as [S P]. destruct (correct_optimal _ _ _ _ _ _ _ _ _ S P O E) as (S' & P' & _). split; [split; assumption|]. split; auto.
    + destruct G as [S P]. apply (correct_defined 3 _ _ _ _ _ _ S P O) in E. pose proof (range_model 3 (vec3 x y z) (state e)) as [_ R]. rewrite E in R.
      exists range, v, x, y, z. split; auto. split; [lra|]. rewrite (R 0%nat), (R 1%nat), (R 2%nat) by lia. auto.
  - destruct (predict_good (mkEst (state e) (covariance e) (measurement_variance e) v) G O) as (G' & _ & _). set (e' := predict_position _) in *.
    split; [exact G'|]. split; [reflexivity|]. constructor; [|constructor]. cbn [variance_x variance_y variance_z]. destruct G' as [_ P].
    assert (D : forall k, (k < 3)%nat -> 0 < covariance e' k k).
    { intros k L. pose proof (P (identity k)) as X. rewrite variance_bil in X. unfold bil in X. rewrite (sum_ext _ _ (fun i => identity k i * covariance e' i k)) in X.
      - rewrite sum_delta in X by auto. apply X. exists k. split; auto. unfold identity. rewrite Nat.eqb_refl. lra.
      - intros i _. rewrite (sum_ext _ _ (fun j => identity k j * (identity k i * covariance e' i j))) by (intros; ring). now rewrite sum_delta. }
    repeat split; apply D; lia.
Qed.
Lemma run_good evs : forall e, good e -> Forall event_ok evs ->
  match run e evs with
  | Some (e', ms) => good e' /\ map timestamp ms = imu_times evs /\ Forall (fun m => 0 < variance_x m /\ 0 < variance_y m /\ 0 < variance_z m) ms
  | None => exists evs1 range v x y z evs2 e1 ms1, evs = evs1 ++ Range range v (Some (x, y, z)) :: evs2 /\ range <= 1000 /\
      run e evs1 = Some (e1, ms1) /\ state e1 0%nat = x /\ state e1 1%nat = y /\ state e1 2%nat = z
  end.
Proof.
  induction evs as [|ev evs IH]; intros e G F; cbn [run].
  - cbn. auto.
  - apply Forall_cons_iff in F as [F1 F2]. pose proof (turn_good e ev G F1) as T. destruct (turn e ev) as [[e1 ms1]|] eqn:ET.
    + destruct T as (G1 & M1 & V1). specialize (IH e1 G1 F2). destruct (run e1 evs) as [[e2 ms2]|] eqn:ER.
      * destruct IH as (G2 & M2 & V2). split; auto. split; [|now apply Forall_app]. rewrite map_app, M1, M2. cbn. now rewrite app_nil_r.
      * destruct IH as (evs1 & range & v & x & y & z & evs2 & e2 & ms2 & -> & L & R & X). exists (ev :: evs1), range, v, x, y, z, evs2, e2, (ms1 ++ ms2).
        split; [reflexivity|]. split; auto. split; [|exact X]. cbn [run]. now rewrite ET, R.
    + destruct T as (range & v & x & y & z & -> & L & X). exists [], range, v, x, y, z, evs, e, []. auto.
Qed.
(** C72: for every history of ranges and inertial measurements, as long as no range is with an anchor which is exactly at the estimated position: the
    covariance is symmetric and positive, each inertial measurement publishes one message with its time, and the
    published variances are positive. *)
Theorem estimator_history evs : Forall event_ok evs ->
  match run estimator_init evs with
  | Some (e, ms) => symmetric 3 (covariance e) /\ positive 3 (covariance e) /\ map timestamp ms = imu_times evs /\
      Forall (fun m => 0 < variance_x m /\ 0 < variance_y m /\ 0 < variance_z m) ms
  | None => exists evs1 range v x y z evs2 e ms, evs = evs1 ++ Range range v (Some (x, y, z)) :: evs2 /\ range <= 1000 /\
      run estimator_init evs1 = Some (e, ms) /\ state e 0%nat = x /\ state e 1%nat = y /\ state e 2%nat = z
  end.
Proof.
  intro F. pose proof (run_good evs estimator_init init_good F) as R. destruct (run estimator_init evs) as [[e ms]|]; [|exact R].
  destruct R as ((S & P) & R). auto.
Qed.
(** Each event does what it should: ranges above one kilometre and ranges with unknown anchors change nothing; an inertial measurement
    leaves the position and adds its variance in every direction; the message is the estimate. *)
Theorem estimator_turn e ev e' ms : symmetric 3 (covariance e) -> positive 3 (covariance e) -> event_ok ev -> turn e ev = Some (e', ms) ->
  match ev with
  | Range range v anchor =>
      ms = [] /\
      match anchor with
      | Some (x, y, z) =>
          if Rlt_dec 1000 range then state e' = state e /\ covariance e' = covariance e
          else exists Hm, uwb_H 3 (vec3 x y z) (state e) = Some Hm /\
               (exists c, 0 < c < 1 /\ sum 3 (fun i => Hm i * (state e' i - state e i)) = c * (range - distance 3 (state e) (vec3 x y z))) /\
               variance 3 (covariance e') Hm < v /\ forall w, variance 3 (covariance e') w <= variance 3 (covariance e) w
      | None => state e' = state e /\ covariance e' = covariance e
      end
  | Imu t v =>
      state e' = state e /\ (forall w, variance 3 (covariance e') w = variance 3 (covariance e) w + v * sum 3 (fun i => w i * w i)) /\
      exists m, ms = [m] /\ timestamp m = t /\ m_position m = state e' /\
        variance_x m = covariance e' 0%nat 0%nat /\ variance_y m = covariance e' 1%nat 1%nat /\ variance_z m = covariance e' 2%nat 2%nat
  end.
Proof.
  intros S P O H. destruct ev as [range v anchor|t v]; cbn [turn event_ok] in *.
  - destruct (Rlt_dec 1000 range) as [L|L]; [injection H as <- <-; destruct anchor as [[[x y] z]|]; auto|].
    destruct anchor as [[[x y] z]|]; [|injection H as <- <-; auto].
    unfold process_distance in H. cbn [measurement_variance state covariance process_variance] in H.
    destruct (correct _ _ _ _ _ _ _) as [[s c]|] eqn:E; [|discriminate]. injection H as <- <-. split; auto. cbn [state covariance].
    destruct (correct_optimal _ _ _ _ _ _ _ _ _ S P O E) as (_ & _ & Hm & K & EH & _). exists Hm. split; auto.
    destruct (range_correction _ _ _ _ _ _ _ _ _ S P O EH E) as (A & B & _). split; [exact A|]. split; [exact B|].
    intro w. now apply (correct_improves _ _ _ _ _ _ _ _ _ w S P O E).
  - injection H as <- <-. destruct (predict_good (mkEst (state e) (covariance e) (measurement_variance e) v) (conj S P) O) as (_ & A & B).
    split; [exact A|]. split; [exact B|]. eexists. repeat split.
Qed.
(** The hypotheses are met: a range from the initial estimate (1, 1, -0.5) to an anchor at (0, 1, -0.5). *)
Example ex_estimator : exists e, run estimator_init [Range 2 0.0009 (Some (0, 1, -0.5))] = Some (e, []) /\
  state e 0%nat > 1.999 /\ state e 1%nat = 1 /\ covariance e 0%nat 0%nat < 0.0009 /\ covariance e 1%nat 1%nat = 1.
Proof.
  assert (D : uwb_h 3 (vec3 0 1 (-0.5)) (vec3 1 1 (-0.5)) = 1).
  { unfold uwb_h. cbn. replace (0 + (1 - 0) * (1 - 0) + (1 - 1) * (1 - 1) + (-0.5 - -0.5) * (-0.5 - -0.5)) with 1 by lra. apply sqrt_1. }
  cbn [run turn]. destruct (Rlt_dec 1000 2); [lra|]. unfold process_distance, correct, uwb_H. cbn [estimator_init state covariance measurement_variance process_variance]. rewrite D.
  destruct (Req_EM_T 1 0) as [|_]; [lra|].
  destruct (Req_EM_T _ 0) as [X|_]; [exfalso; cbn in X; unfold identity in X; cbn in X; lra|].
  eexists. split; [reflexivity|]. cbn [state covariance]. unfold mat_mat, mat_vec, dot, vec_mat, identity. cbn. repeat split; lra.
Qed.
(** C72 fails if an anchor is exactly at the estimated position: the estimate is not a number after the first range. *)
Theorem estimator_at_anchor_refuted : run estimator_init [Range 1 0.0009 (Some (1, 1, -0.5))] = None.
Proof.
  cbn [run turn]. destruct (Rlt_dec 1000 1); [lra|]. unfold process_distance, correct, uwb_H. cbn [estimator_init state covariance measurement_variance process_variance].
  destruct (Req_EM_T _ 0) as [|N]; [reflexivity|]. exfalso. apply N. unfold uwb_h. cbn.
  replace (0 + (1 - 1) * (1 - 1) + (1 - 1) * (1 - 1) + (-0.5 - -0.5) * (-0.5 - -0.5)) with 0 by lra. apply sqrt_0.
Qed.

Print Assumptions correct_optimal.
Print Assumptions correct_improves.
Print Assumptions correct_defined.
Print Assumptions range_model.
Print Assumptions range_correction.
Print Assumptions predict_covariance.
Print Assumptions estimator_history.
Print Assumptions estimator_turn.
Print Assumptions estimator_at_anchor_refuted.
