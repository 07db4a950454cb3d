From Coq Require Import ZArith QArith Reals List Bool Lia Lra Psatz.
From Flocq Require Import Core.
From Verif Require Import CRes QuadModel QuadProps EncModel EncProofs TrajModel TrajProofs OppModel OppSpec OppProofs HitlModel HitlSpec.
Import ListNotations.
Local Open Scope R_scope.

(** * Messages *)
Lemma last_snoc {A} own (msgs : list (Z * A)) m : last_for own (msgs ++ [m]) = if (fst m =? own)%Z then Some (snd m) else last_for own msgs.
Proof. unfold last_for. rewrite rev_app_distr. cbn [rev app filter]. destruct (fst m =? own)%Z; reflexivity. Qed.
Lemma fold_last {A} own (d : A) msgs : fold_left (fun v (m : Z * A) => if (fst m =? own)%Z then snd m else v) msgs d = or_else (last_for own msgs) d.
Proof.
  induction msgs as [|m msgs IH] using rev_ind; [reflexivity|]. rewrite fold_left_app, last_snoc, IH. cbn [fold_left]. now destruct (fst m =? own)%Z.
Qed.

(** * Numbers *)
Lemma to_int32_ok x : Rabs x <= IZR (2 ^ 30) -> exists z, to_int32 x = OK z /\ Rabs (IZR z - x) < 1 /\ (- 2 ^ 30 <= z <= 2 ^ 30)%Z.
Proof.
  intro H. destruct (to_int32_def x H) as (z & E). exists z. split; [exact E|]. apply to_int32_inv in E. subst z. pose proof (trunc_near x) as T. split; [exact T|].
  apply Rabs_le_inv in H. rewrite <- opp_IZR in H. destruct (Rle_or_lt 0 x) as [P|P].
  - rewrite Ztrunc_floor by exact P. split; [|apply le_IZR; pose proof (Zfloor_lb x); lra].
    assert (0 <= Zfloor x)%Z by (apply Zfloor_lub; lra). lia.
  - rewrite Ztrunc_ceil by lra. split; [apply le_IZR; pose proof (Zceil_ub x); lra|].
    assert (Zceil x <= 0)%Z by (apply Zceil_glb; lra). lia.
Qed.
Lemma quot_near a : Rabs (IZR (Z.quot a 2) - IZR a / 2) <= 1 / 2.
Proof.
  pose proof (Z.quot_rem a 2 ltac:(lia)) as Q. pose proof (Z.rem_bound_abs a 2 ltac:(lia)) as B. apply (f_equal IZR) in Q. rewrite plus_IZR, mult_IZR in Q.
  assert (- 1 <= IZR (Z.rem a 2) <= 1) by (split; [apply (IZR_le (-1))|apply (IZR_le _ 1)]; lia). apply Rabs_le. lra.
Qed.

(** * Wheels *)
Definition left_m (ms : list motion) : R := gone dt ms - size / 2 * turned dt ms.
Definition right_m (ms : list motion) : R := gone dt ms + size / 2 * turned dt ms.
Lemma gone_snoc d ms m : gone d (ms ++ [m]) = gone d ms + forward m * d.
Proof. unfold gone. induction ms as [|a ms IH]; cbn [app fold_right]; [ring|]. rewrite IH. ring. Qed.
Lemma turned_snoc d ms m : turned d (ms ++ [m]) = turned d ms + spin m * d.
Proof. unfold turned. induction ms as [|a ms IH]; cbn [app fold_right]; [ring|]. rewrite IH. ring. Qed.
Lemma moves_app a b : moves (a ++ b) = moves a ++ moves b.
Proof. induction a as [|[m|] a IH]; cbn; [reflexivity|now rewrite IH|exact IH]. Qed.
Lemma accumulate_snoc ms m : accumulate size dt (left_m ms, right_m ms) m = (left_m (ms ++ [m]), right_m (ms ++ [m])).
Proof. unfold accumulate, left_m, right_m, forward. rewrite !gone_snoc, !turned_snoc. unfold forward. cbn [fst snd]. replace 0.5 with (/ 2) by lra. f_equal; field. Qed.

(** The published values are those of the wheels, and the master holds the sums of what it was told last. *)
Definition told (ms : list motion) (enc : Z * Z) : Prop :=
  (- 2 ^ 31 < - fst enc < 2 ^ 31)%Z /\ (- 2 ^ 31 <= snd enc < 2 ^ 31)%Z /\
  Rabs (IZR (- fst enc) - 162000 * left_m ms) < 1 /\ Rabs (IZR (snd enc) - 162000 * right_m ms) < 1.
Definition kept (w : world) : Prop := virtual_encoders (master w) = pext_prev (master w) /\
  left_ext_gain (master w) = left_wheel_correction_factor /\ right_ext_gain (master w) = right_wheel_correction_factor.
Definition good (ms : list motion) (w : world) : Prop := wheels_m w = (left_m ms, right_m ms) /\ told ms (published w) /\ kept w.

Lemma to_int32_range x z : to_int32 x = OK z -> (- 2 ^ 31 <= z < 2 ^ 31)%Z.
Proof.
  unfold to_int32. cbv zeta. destruct (_ && _) eqn:C; [|discriminate]. intros [= <-]. apply andb_prop in C as [C1 C2]. apply Z.leb_le in C1. apply Z.ltb_lt in C2. lia.
Qed.
Lemma publish_told ms enc : publish_encoders pulse_per_mm (left_m ms, right_m ms) = OK enc -> told ms enc.
Proof.
  unfold publish_encoders, get_wheel_encoders. cbn [fst snd]. unfold rbind.
  destruct (to_int32 (1000 * pulse_per_mm * left_m ms)) as [l|] eqn:L; [|discriminate].
  destruct (to_int32 (1000 * pulse_per_mm * right_m ms)) as [r|] eqn:R0; [|discriminate]. cbn [fst snd].
  destruct (int (- l)) as [nl|] eqn:N; [|discriminate]. intros [= <-]. apply int_inv in N as [-> N]. pose proof (to_int32_range _ _ L). pose proof (to_int32_range _ _ R0).
  apply to_int32_inv in L, R0. unfold told. cbn [fst snd]. rewrite Z.opp_involutive. split; [lia|]. split; [assumption|].
  unfold pulse_per_mm in *. replace (1000 * 162) with 162000 in * by lra. subst l r. split; apply trunc_near.
Qed.
Lemma update_inv rs enc rs' : virtual_encoders rs = pext_prev rs -> left_ext_gain rs = left_wheel_correction_factor -> right_ext_gain rs = right_wheel_correction_factor ->
  (- 2 ^ 31 < - fst enc < 2 ^ 31)%Z -> (- 2 ^ 31 <= snd enc < 2 ^ 31)%Z -> rs_update rs (fst enc) (snd enc) = OK rs' ->
  virtual_encoders rs' = pext_prev rs' /\ left_ext_gain rs' = left_wheel_correction_factor /\ right_ext_gain rs' = right_wheel_correction_factor /\
  rs_get_distance rs' = Z.quot (snd enc - fst enc) 2 /\ rs_get_angle rs' = Z.quot (snd enc + fst enc) 2.
Proof.
  intros V GL GR BL BR E. unfold rs_update in E. rewrite GL, GR in E. rewrite !s32_u32, (s32_id (fst enc)), (s32_id (snd enc)) in E by lia. unfold left_wheel_correction_factor, right_wheel_correction_factor, int32_of in E.
  replace ((- 2 ^ 31 <=? - fst enc) && (- fst enc <? 2 ^ 31))%Z with true in E by (symmetry; apply andb_true_intro; split; [apply Z.leb_le|apply Z.ltb_lt]; lia).
  replace ((- 2 ^ 31 <=? snd enc) && (snd enc <? 2 ^ 31))%Z with true in E by (symmetry; apply andb_true_intro; split; [apply Z.leb_le|apply Z.ltb_lt]; lia).
  cbn [some rbind] in E. unfold rs_get_polar_from_wheels in E. cbn [w_left w_right] in E. unfold rbind in E.
  destruct (int (snd enc + - fst enc)) as [d|] eqn:E1; [|discriminate]. destruct (int (snd enc - - fst enc)) as [a|] eqn:E2; [|discriminate]. cbn [p_angle p_distance] in E.
  destruct (int (Z.quot a 2 - p_angle (pext_prev rs))) as [da|] eqn:E3; [|discriminate]. destruct (int (Z.quot d 2 - p_distance (pext_prev rs))) as [dd|] eqn:E4; [|discriminate].
  rewrite V in E. destruct (int (p_angle (pext_prev rs) + da)) as [va|] eqn:E5; [|discriminate]. destruct (int (p_distance (pext_prev rs) + dd)) as [vd|] eqn:E6; [|discriminate].
  injection E as <-. apply int_inv in E1 as [-> _], E2 as [-> _], E3 as [-> _], E4 as [-> _], E5 as [-> _], E6 as [-> _].
  unfold rs_get_distance, rs_get_angle. cbn [virtual_encoders pext_prev left_ext_gain right_ext_gain p_distance p_angle].
  rewrite !Zplus_minus. split; [reflexivity|]. split; [first [exact GL|reflexivity]|]. split; [first [exact GR|reflexivity]|].
  split; f_equal; lia.
Qed.
Lemma step_good ms w e w' : good ms w -> world_step w e = OK w' -> good (ms ++ moves [e]) w' /\
  (e = Update -> rs_get_distance (master w') = Z.quot (snd (published w) - fst (published w)) 2 /\ rs_get_angle (master w') = Z.quot (snd (published w) + fst (published w)) 2 /\ published w' = published w).
Proof.
  intros (W & T & K) E. destruct e as [m|]; cbn [world_step moves] in *.
  - rewrite W, accumulate_snoc in E. unfold rbind in E. destruct (publish_encoders _ _) as [enc|] eqn:P; [|discriminate]. injection E as <-.
    split; [|discriminate]. split; [reflexivity|]. split; [apply publish_told; exact P|exact K].
  - rewrite app_nil_r. unfold rbind in E. destruct (rs_update _ _ _) as [rs|] eqn:P; [|discriminate]. injection E as <-. destruct K as (K1 & K2 & K3). destruct T as (T1 & T2 & T3).
    destruct (update_inv _ _ _ K1 K2 K3 T1 T2 P) as (A & B & C & D1 & D2). split; [|auto].
    split; [exact W|]. split; [exact (conj T1 (conj T2 T3))|]. split; [exact A|]. split; assumption.
Qed.
Lemma run_app a : forall b w, world_run w (a ++ b) = try w := world_run w a in world_run w b.
Proof. induction a as [|e a IH]; intros b w; cbn [app world_run]; [reflexivity|]. destruct (world_step w e); cbn [rbind]; [apply IH|reflexivity]. Qed.
Lemma run_good es : forall ms w w', good ms w -> world_run w es = OK w' -> good (ms ++ moves es) w'.
Proof.
  induction es as [|e es IH]; intros ms w w' G E; cbn [world_run] in E.
  - injection E as <-. cbn. rewrite app_nil_r. exact G.
  - unfold rbind in E. destruct (world_step w e) as [w1|] eqn:S; [|discriminate]. destruct (step_good _ _ _ _ G S) as [G1 _].
    replace (ms ++ moves (e :: es)) with ((ms ++ moves [e]) ++ moves es) by (rewrite <- app_assoc, <- moves_app; reflexivity). exact (IH _ _ _ G1 E).
Qed.
Lemma good_init : good [] world_init.
Proof.
  split; [unfold left_m, right_m, gone, turned; cbn; f_equal; ring|]. split; [|split; [reflexivity|split; reflexivity]].
  unfold told, left_m, right_m, gone, turned. cbn -[Z.pow]. split; [lia|]. split; [lia|]. split; apply Rabs_def1; lra.
Qed.
