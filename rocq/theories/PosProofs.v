From Coq Require Import ZArith Reals List Bool Lra Lia Psatz.
From Flocq Require Import Core IEEE754.BinarySingleNaN.
From Verif Require Import CRes FloatModel FloatSpec FloatProofs PidSpec LieSpec PosModel PosSpec.
Import ListNotations.
Local Open Scope R_scope.

(** * Double precision *)
Notation rnd := (round radix2 (SpecFloat.fexp 53 1024) (round_mode mode_NE)).
Notation float := (binary_float 53 1024).
#[local] Instance vexp : Valid_exp (SpecFloat.fexp 53 1024). Proof. apply fexp_correct. reflexivity. Qed.

Lemma add_value (x y b : float) u v : value x = Some (Real u) -> value y = Some (Real v) -> Rabs (u + v) <= B2R b ->
  value (add binary64 x y) = Some (Real (rnd (u + v))).
Proof.
  intros Hx Hy Hb. apply value_Real in Hx as [Fx ->]. apply value_Real in Hy as [Fy ->].
  destruct (rnd_abs 53 1024 prec53 b _ Hb) as [_ L]. cbn [binary64 ieee_fmt add].
  generalize (Bplus_correct 53 1024 _ _ mode_NE x y Fx Fy). rewrite Rlt_bool_true by exact L.
  intros (E & Ff & _). rewrite value_finite by exact Ff. now rewrite E.
Qed.
Lemma sub_value (x y b : float) u v : value x = Some (Real u) -> value y = Some (Real v) -> Rabs (u - v) <= B2R b ->
  value (sub binary64 x y) = Some (Real (rnd (u - v))).
Proof.
  intros Hx Hy Hb. apply value_Real in Hx as [Fx ->]. apply value_Real in Hy as [Fy ->].
  destruct (rnd_abs 53 1024 prec53 b _ Hb) as [_ L]. cbn [binary64 ieee_fmt sub].
  generalize (Bminus_correct 53 1024 _ _ mode_NE x y Fx Fy). rewrite Rlt_bool_true by exact L.
  intros (E & Ff & _). rewrite value_finite by exact Ff. now rewrite E.
Qed.

Lemma B2R_compute (x : float) s mm e : B2SF x = SpecFloat.S754_finite s mm e ->
  is_finite x = true /\ B2R x = IZR (cond_Zopp s (Zpos mm)) * bpow radix2 e.
Proof.
  intro H. split; [rewrite <- is_finite_SF_B2SF, H; reflexivity|]. rewrite <- SF2R_B2SF, H. reflexivity.
Qed.
Definition c : R := bpow radix2 (-51).
Lemma c_pos : 0 < c. Proof. apply bpow_gt_0. Qed.
Lemma pi64_val : pi64 = 7074237752028440 * c /\ is_finite (m_pi ieee : float) = true.
Proof.
  destruct (B2R_compute (m_pi ieee) false 7074237752028440 (-51)) as [A B]; [vm_compute; reflexivity|].
  split; [exact B|exact A].
Qed.
Lemma pi64_pos : 0 < pi64. Proof. rewrite (proj1 pi64_val). pose proof c_pos. lra. Qed.
Lemma m_pi_value : value (m_pi ieee : float) = Some (Real pi64).
Proof. apply value_finite, pi64_val. Qed.
Lemma m_2pi_value : value (M_2PI ieee : float) = Some (Real (2 * pi64)).
Proof.
  destruct (B2R_compute (M_2PI ieee) false 7074237752028440 (-50)) as [A B]; [vm_compute; reflexivity|].
  rewrite value_finite by exact A. rewrite B, (proj1 pi64_val). unfold c. cbn [cond_Zopp].
  change (bpow radix2 (-50)) with (bpow radix2 (1 + -51)). rewrite bpow_plus. cbn [bpow]. f_equal. f_equal. cbn. lra.
Qed.
Lemma m_pi2_value : value (mul (D ieee) (m_pi ieee) (dbl ieee 2) : float) = Some (Real (2 * pi64)).
Proof.
  rewrite <- m_2pi_value. rewrite !value_SF. vm_compute. reflexivity.
Qed.
Definition b3 : float := ieee_lit 53 1024 _ _ 2652839157010665 (-48).
Lemma b3_val : B2R b3 = 3 * pi64.
Proof.
  destruct (B2R_compute b3 false 5305678314021330 (-49)) as [A B]; [vm_compute; reflexivity|].
  rewrite B, (proj1 pi64_val). unfold c. cbn [cond_Zopp].
  change (bpow radix2 (-49)) with (bpow radix2 (2 + -51)). rewrite bpow_plus. cbn [bpow]. cbn. lra.
Qed.
Lemma neg_pi_value : value (neg (D ieee) (m_pi ieee) : float) = Some (Real (- pi64)).
Proof. change (neg (D ieee)) with (@Bopp 53 1024). rewrite ieee_neg, m_pi_value. reflexivity. Qed.

(** One turn back into the range, if it is needed. *)
Lemma wrap_ieee (a t : float) r : value a = Some (Real r) -> Rabs r <= 3 * pi64 -> value t = Some (Real (2 * pi64)) ->
  exists r', value (if lt (D ieee) a (neg (D ieee) (m_pi ieee)) then add (D ieee) a t
                    else if lt (D ieee) (m_pi ieee) a then sub (D ieee) a t else a) = Some (Real r') /\ Rabs r' <= pi64.
Proof.
  intros Va Hr Vt. pose proof pi64_pos as Pp.
  assert (Hr' : - (3 * pi64) <= r <= 3 * pi64) by (unfold Rabs in Hr; destruct (Rcase_abs r); lra).
  change (lt (D ieee)) with (@Bltb 53 1024). rewrite !ieee_lt, Va, neg_pi_value, m_pi_value. cbn [xlt].
  destruct (rlt_spec r (- pi64)) as [L|L].
  - exists (rnd (r + 2 * pi64)). change (add (D ieee)) with (add binary64).
    assert (B : Rabs (r + 2 * pi64) <= B2R (m_pi ieee : float)) by (fold pi64; apply Rabs_le; lra).
    rewrite (add_value a t (m_pi ieee) _ _ Va Vt B). split; [reflexivity|]. apply (rnd_abs 53 1024 prec53 _ _ B).
  - destruct (rlt_spec pi64 r) as [G|G].
    + exists (rnd (r - 2 * pi64)). change (sub (D ieee)) with (sub binary64).
      assert (B : Rabs (r - 2 * pi64) <= B2R (m_pi ieee : float)) by (fold pi64; apply Rabs_le; lra).
      rewrite (sub_value a t (m_pi ieee) _ _ Va Vt B). split; [reflexivity|]. apply (rnd_abs 53 1024 prec53 _ _ B).
    + exists r. split; [exact Va|]. apply Rabs_le. lra.
Qed.

(** Degrees to radians. *)
Definition b180 : float := ieee_lit 53 1024 _ _ 4974073419394997 (-43).
Lemma b180_val : 180 * pi64 <= B2R b180 /\ rnd (B2R b180 / 180) = pi64.
Proof.
  destruct (B2R_compute b180 false 4974073419394997 (-43)) as [A B]; [vm_compute; reflexivity|]. split.
  - rewrite B, (proj1 pi64_val). unfold c. cbn [cond_Zopp].
    change (bpow radix2 (-43)) with (bpow radix2 (8 + -51)). rewrite bpow_plus. cbn [bpow].
    pose proof c_pos. unfold c in *. cbn [bpow] in *. cbn. lra.
  - assert (V8 : value (dbl ieee 180 : float) = Some (Real 180)).
    { destruct (B2R_compute (dbl ieee 180) false 6333186975989760 (-45)) as [A8 B8]; [vm_compute; reflexivity|].
      rewrite value_finite by exact A8. rewrite B8. cbn. f_equal. f_equal. lra. }
    pose proof (value_finite _ _ b180 A) as Vb.
    assert (Bd : Rabs (B2R b180 / 180) <= B2R b180).
    { assert (0 < B2R b180) by (rewrite B; apply Rmult_lt_0_compat; [cbn; lra|apply bpow_gt_0]). apply Rabs_le. lra. }
    pose proof (div_value 53 1024 prec53 emax53 b180 (dbl ieee 180) b180 _ _ Vb V8 ltac:(lra) Bd) as Dv.
    apply value_Real in Dv as [_ ->].
    destruct (B2R_compute (Bdiv mode_NE b180 (dbl ieee 180)) false 7074237752028440 (-51)) as [_ E]; [vm_compute; reflexivity|].
    rewrite E. symmetry. apply pi64_val.
Qed.
Lemma deg_value : value (dbl ieee 180 : float) = Some (Real 180).
Proof.
  destruct (B2R_compute (dbl ieee 180) false 6333186975989760 (-45)) as [A8 B8]; [vm_compute; reflexivity|].
  rewrite value_finite by exact A8. rewrite B8. cbn. f_equal. f_equal. lra.
Qed.
Lemma set_ieee (a : float) r : value a = Some (Real r) -> Rabs r <= 180 ->
  exists r', value (div (D ieee) (mul (D ieee) a (m_pi ieee)) (dbl ieee 180)) = Some (Real r') /\ Rabs r' <= pi64.
Proof.
  intros Va Hr. pose proof pi64_pos as Pp. destruct b180_val as [Lb Eb].
  assert (B : Rabs (r * pi64) <= B2R b180).
  { rewrite Rabs_mult, (Rabs_right pi64) by lra. nra. }
  change (mul (D ieee)) with (@Bmult 53 1024 prec53 emax53 mode_NE). change (div (D ieee)) with (@Bdiv 53 1024 prec53 emax53 mode_NE).
  pose proof (mul_value 53 1024 prec53 emax53 a (m_pi ieee) b180 _ _ Va m_pi_value B) as Vm.
  destruct (rnd_abs 53 1024 prec53 b180 _ B) as [Bm _].
  set (x := rnd (r * pi64)) in *.
  assert (Hx : - B2R b180 <= x <= B2R b180) by (unfold Rabs in Bm; destruct (Rcase_abs x); lra).
  assert (B2 : Rabs (x / 180) <= B2R b180) by (apply Rabs_le; lra).
  exists (rnd (x / 180)). split; [exact (div_value 53 1024 prec53 emax53 _ _ b180 _ _ Vm deg_value ltac:(lra) B2)|].
  apply Rabs_le. split.
  - rewrite <- Eb. rewrite <- round_NE_opp. apply round_le; [apply vexp|apply valid_rnd_N|]. lra.
  - rewrite <- Eb. apply round_le; [apply vexp|apply valid_rnd_N|]. lra.
Qed.

(** The angle of a new pose. *)
Lemma displace_angle cosd sind (p : position ieee) dd da r rs :
  value (pa _ p : float) = Some (Real r) -> Rabs r <= pi64 ->
  value (div (D ieee) (mul (D ieee) (dbl ieee 2) (dbl ieee da)) (mul (D ieee) (track_mm _ p) (distance_imp_per_mm _ p)) : float) = Some (Real rs) ->
  Rabs rs <= 2 * pi64 ->
  exists r', value (snd (displace ieee cosd sind p dd da) : float) = Some (Real r') /\ Rabs r' <= pi64.
Proof.
  intros Va Hr Vs Hs. unfold displace. destruct (da =? 0)%Z; [cbn [snd]; eauto|].
  set (arc := div (D ieee) (mul (D ieee) (dbl ieee 2) (dbl ieee da)) (mul (D ieee) (track_mm ieee p) (distance_imp_per_mm ieee p))) in *.
  assert (B : Rabs (r + rs) <= B2R b3) by (rewrite b3_val; pose proof (Rabs_triang r rs); lra).
  pose proof (add_value (pa ieee p) arc b3 _ _ Va Vs B) as Vn.
  destruct (rnd_abs 53 1024 prec53 b3 _ B) as [Bn _]. rewrite b3_val in Bn.
  destruct (wrap_ieee _ _ _ Vn Bn m_pi2_value) as (r' & V & Hr'). exists r'. split; [|exact Hr'].
  rewrite <- V. destruct (_ && _); reflexivity.
Qed.
