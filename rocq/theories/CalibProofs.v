(** Proofs about the calibration of the odometry. *)
From Coq Require Import ZArith Reals Lra Lia List Bool.
From Flocq Require Import Core IEEE754.BinarySingleNaN.
From Verif Require Import CRes FloatModel FloatProofs PidSpec LieSpec PosModel PosProps CalibModel CalibSpec.
Import ListNotations.
Local Open Scope R_scope.

Lemma all_done_app p c wall ta td l1 l2 w w' :
  all_done p c wall ta td (l1 ++ l2) w w' <-> exists u, all_done p c wall ta td l1 w u /\ all_done p c wall ta td l2 u w'.
Proof.
  revert w. induction l1 as [|mv l1 IH]; intro w; cbn [app all_done].
  - split; [intro H; exists w; auto|intros (u & -> & H); exact H].
  - split.
    + intros (u & H1 & H2). apply IH in H2 as (v & H2 & H3). exists v. split; [exists u; auto|exact H3].
    + intros (v & (u & H1 & H2) & H3). exists u. split; [exact H1|]. apply IH. eauto.
Qed.
(** What movements ask for. *)
Definition turn_of (c : config) (mv : move) : R :=
  match mv with A_rel deg => IZR deg * PI / 180 * (c_imp c * c_track c / 2) | _ => 0 end.
Definition way_of (c : config) (mv : move) : R := match mv with D_rel mm => IZR mm * c_imp c | _ => 0 end.
Definition sumR (f : move -> R) (l : list move) : R := fold_right (fun mv s => f mv + s) 0 l.
Lemma sumR_app f l1 l2 : sumR f (l1 ++ l2) = sumR f l1 + sumR f l2.
Proof. unfold sumR. induction l1 as [|mv l1 IH]; cbn [app fold_right]; [lra|]. rewrite IH. lra. Qed.
Lemma odometry_sum p c wall ta td l w w' : ~ In Align l -> all_done p c wall ta td l w w' ->
  Rabs (odo_angle c w' - odo_angle c w - sumR (turn_of c) l) <= INR (length l) * ta /\
  Rabs (odo_distance c w' - odo_distance c w - sumR (way_of c) l) <= INR (length l) * td.
Proof.
  revert w. induction l as [|mv l IH]; intros w N H.
  - cbn [all_done] in H. subst w'. cbn [sumR fold_right length INR]. split; match goal with |- Rabs ?x <= _ => replace x with 0 by ring end; rewrite Rabs_R0; lra.
  - destruct H as (u & H & Hl). destruct (IH u ltac:(intro; apply N; now right) Hl) as [I1 I2].
    cbn [length]. rewrite S_INR. cbn [sumR fold_right].
    change (fold_right (fun mv s => turn_of c mv + s) 0 l) with (sumR (turn_of c) l).
    change (fold_right (fun mv s => way_of c mv + s) 0 l) with (sumR (way_of c) l).
    set (N1 := INR (length l)) in *. set (s1 := sumR (turn_of c) l) in *. set (s2 := sumR (way_of c) l) in *.
    destruct mv as [|mm|deg]; [exfalso; apply N; now left| |]; cbn [done turn_of way_of] in *; destruct H as [H1 H2]; split.
    + replace (odo_angle c w' - odo_angle c w - (0 + s1)) with ((odo_angle c w' - odo_angle c u - s1) + (odo_angle c u - odo_angle c w)) by ring.
      eapply Rle_trans; [apply Rabs_triang|]. lra.
    + replace (odo_distance c w' - odo_distance c w - (IZR mm * c_imp c + s2))
        with ((odo_distance c w' - odo_distance c u - s2) + (odo_distance c u - odo_distance c w - IZR mm * c_imp c)) by ring.
      eapply Rle_trans; [apply Rabs_triang|]. lra.
    + set (k := IZR deg * PI / 180 * (c_imp c * c_track c / 2)) in *.
      replace (odo_angle c w' - odo_angle c w - (k + s1)) with ((odo_angle c w' - odo_angle c u - s1) + (odo_angle c u - odo_angle c w - k)) by ring.
      eapply Rle_trans; [apply Rabs_triang|]. lra.
    + replace (odo_distance c w' - odo_distance c w - (0 + s2)) with ((odo_distance c w' - odo_distance c u - s2) + (odo_distance c u - odo_distance c w)) by ring.
      eapply Rle_trans; [apply Rabs_triang|]. lra.
Qed.

(** An angle less than a turn away from another, up to whole turns, is the other. *)
Lemma same_angle_near a b : same_angle a b -> Rabs (a - b) < 2 * PI -> a = b.
Proof.
  intros (k & ->) H. pose proof PI_RGT_0. replace (b + 2 * IZR k * PI - b) with (IZR k * (2 * PI)) in H by ring.
  rewrite Rabs_mult, (Rabs_right (2 * PI)) in H by lra.
  assert (A : Rabs (IZR k) < 1) by nra. rewrite <- abs_IZR in A. apply (lt_IZR _ 1) in A. replace k with 0%Z by lia. ring.
Qed.

Lemma sum_round c dir : sumR (turn_of c) (wheel_round dir) = 0 /\ sumR (way_of c) (wheel_round dir) = - IZR dir * 1600 * c_imp c.
Proof.
  unfold wheel_round, sumR. cbn [fold_right turn_of way_of]. rewrite !mult_IZR, !opp_IZR. split; lra.
Qed.
Lemma sum_rounds c dir n : sumR (turn_of c) (concat (repeat (wheel_round dir) n)) = 0 /\
  sumR (way_of c) (concat (repeat (wheel_round dir) n)) = - IZR dir * 1600 * INR n * c_imp c.
Proof.
  induction n as [|n [I1 I2]]; [cbn; split; lra|]. cbn [repeat concat]. rewrite !sumR_app, I1, I2, S_INR.
  destruct (sum_round c dir) as [-> ->]. split; lra.
Qed.
Lemma len_rounds dir n : length (concat (repeat (wheel_round dir) n)) = (4 * n)%nat.
Proof. induction n as [|n IH]; [reflexivity|]. cbn [repeat concat]. rewrite app_length, IH. cbn [wheel_round length]. lia. Qed.
Lemma sum_turns c n : sumR (turn_of c) (repeat (A_rel 360) n) = INR n * (PI * (c_imp c * c_track c)).
Proof. induction n as [|n IH]; [cbn; lra|]. cbn [repeat sumR fold_right]. fold (sumR (turn_of c) (repeat (A_rel 360) n)). rewrite IH, S_INR. cbn [turn_of]. lra. Qed.
Lemma no_align_rounds dir n : ~ In Align (concat (repeat (wheel_round dir) n)).
Proof.
  induction n as [|n IH]; [easy|]. cbn [repeat concat]. rewrite in_app_iff. intros [H|H]; [|easy].
  cbn in H. intuition discriminate.
Qed.
Lemma align_last p c wall ta td l w w' : all_done p c wall ta td (l ++ [Align]) w w' ->
  exists u, all_done p c wall ta td l w u /\ same_angle (heading p w') wall /\ Rabs (heading p w' - heading p u) < PI.
Proof. intro H. apply all_done_app in H as (u & H1 & (v & H2 & ->)). exists u. split; [exact H1|exact H2]. Qed.
