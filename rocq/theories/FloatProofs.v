(** Facts about the floating-point types. *)
From Coq Require Import ZArith Reals Bool Lra Lia.
From Flocq Require Import Core IEEE754.BinarySingleNaN.
From Verif Require Import FloatModel FloatSpec.
Local Open Scope R_scope.

Lemma rlt_spec x y : Bool.reflect (x < y) (rlt x y).
Proof. unfold rlt. destruct (Rlt_dec x y); now constructor. Qed.
Lemma rle_spec x y : Bool.reflect (x <= y) (rle x y).
Proof. unfold rle. destruct (Rle_dec x y); now constructor. Qed.
Lemma req_spec x y : Bool.reflect (x = y) (req x y).
Proof. unfold req. destruct (Req_EM_T x y); now constructor. Qed.

Ltac rcases :=
  repeat match goal with
  | H : context [rlt ?a ?b] |- _ => destruct (rlt_spec a b)
  | H : context [rle ?a ?b] |- _ => destruct (rle_spec a b)
  | H : context [req ?a ?b] |- _ => destruct (req_spec a b)
  | |- context [rlt ?a ?b] => destruct (rlt_spec a b)
  | |- context [rle ?a ?b] => destruct (rle_spec a b)
  | |- context [req ?a ?b] => destruct (req_spec a b)
  end.

Section Ieee.
Variable prec emax : Z.
Context (Hp : Prec_gt_0 prec).
Context (He : Prec_lt_emax prec emax).
Notation float := (binary_float prec emax).

Lemma value_finite (x : float) : is_finite x = true -> value x = Some (Real (B2R x)).
Proof. destruct x as [s|s| |s m e H]; simpl; auto; discriminate. Qed.

Lemma value_Real (x : float) r : value x = Some (Real r) -> is_finite x = true /\ r = B2R x.
Proof.
  destruct x as [s|s| |s m e H]; simpl; intro E; try discriminate.
  - injection E as <-. auto.
  - destruct s; discriminate.
  - injection E as <-. auto.
Qed.

Lemma value_nan (x : float) : value x = None <-> is_nan x = true.
Proof. destruct x as [s|s| |s m e H]; simpl; split; intro E; try discriminate; auto. Qed.

(** The value from the sign, mantissa and exponent: for concrete numbers. *)
Definition sf_value (x : SpecFloat.spec_float) : option ereal :=
  match x with
  | SpecFloat.S754_nan => None
  | SpecFloat.S754_infinity s => Some (if s then MInf else PInf)
  | _ => Some (Real (SF2R radix2 x))
  end.
Lemma value_SF (x : float) : value x = sf_value (B2SF x).
Proof. destruct x; reflexivity. Qed.

Lemma ieee_lt (x y : float) : Bltb x y = xlt (value x) (value y).
Proof.
  destruct (is_finite x) eqn:Fx, (is_finite y) eqn:Fy.
  - rewrite (value_finite x), (value_finite y), Bltb_correct by auto.
    simpl. destruct (rlt_spec (B2R x) (B2R y)); destruct (Rlt_bool_spec (B2R x) (B2R y)); auto; lra.
  - destruct x as [?|?| |? ? ? ?]; try discriminate; destruct y as [?|[|]| |? ? ? ?]; try discriminate; reflexivity || (destruct s; reflexivity).
  - destruct y as [?|?| |? ? ? ?]; try discriminate; destruct x as [?|[|]| |? ? ? ?]; try discriminate; reflexivity || (destruct s; reflexivity).
  - destruct x as [?|[|]| |? ? ? ?]; try discriminate; destruct y as [?|[|]| |? ? ? ?]; try discriminate; reflexivity.
Qed.

Lemma ieee_le (x y : float) : Bleb x y = xlt (value x) (value y) || xeq (value x) (value y).
Proof.
  destruct (is_finite x) eqn:Fx, (is_finite y) eqn:Fy.
  - rewrite (value_finite x), (value_finite y), Bleb_correct by auto.
    simpl. rcases; destruct (Rle_bool_spec (B2R x) (B2R y)); simpl; auto; lra.
  - destruct x as [?|?| |? ? ? ?]; try discriminate; destruct y as [?|[|]| |? ? ? ?]; try discriminate; reflexivity || (destruct s; reflexivity).
  - destruct y as [?|?| |? ? ? ?]; try discriminate; destruct x as [?|[|]| |? ? ? ?]; try discriminate; reflexivity || (destruct s; reflexivity).
  - destruct x as [?|[|]| |? ? ? ?]; try discriminate; destruct y as [?|[|]| |? ? ? ?]; try discriminate; reflexivity.
Qed.

Lemma ieee_neg (x : float) : value (Bopp x) = xneg (value x).
Proof.
  destruct (is_finite x) eqn:Fx.
  - rewrite (value_finite x), (value_finite (Bopp x)) by (rewrite ?is_finite_Bopp; auto).
    simpl. now rewrite B2R_Bopp.
  - destruct x as [?|[|]| |? ? ? ?]; try discriminate; reflexivity.
Qed.

Lemma overflow_not_nan (x : float) s m : B2SF x = binary_overflow prec emax m s -> value x <> None.
Proof.
  intros E N. apply value_nan in N. rewrite <- is_nan_SF_B2SF, E in N.
  now rewrite is_nan_binary_overflow in N.
Qed.

(** The sum of two numbers, the first of which is finite, is a number. *)
Lemma ieee_add_num (x y : float) r : value x = Some (Real r) -> value y <> None ->
  value (Bplus mode_NE x y) <> None.
Proof.
  intros Ex Ny. apply value_Real in Ex as [Fx _].
  destruct (is_finite y) eqn:Fy.
  - generalize (Bplus_correct prec emax _ _ mode_NE x y Fx Fy).
    case Rlt_bool.
    + intros (_ & Ff & _). rewrite value_finite by auto. discriminate.
    + intros (E & _). now apply overflow_not_nan in E.
  - destruct y as [?|[|]| |? ? ? ?]; try discriminate; try (now exfalso; apply Ny);
      destruct x; try discriminate; discriminate.
Qed.

Lemma ieee_add_num_r (x y : float) r : value y = Some (Real r) -> value x <> None ->
  value (Bplus mode_NE x y) <> None.
Proof.
  intros Ey Nx. apply value_Real in Ey as [Fy _].
  destruct (is_finite x) eqn:Fx.
  - generalize (Bplus_correct prec emax _ _ mode_NE x y Fx Fy).
    case Rlt_bool.
    + intros (_ & Ff & _). rewrite value_finite by auto. discriminate.
    + intros (E & _). now apply overflow_not_nan in E.
  - destruct x as [?|[|]| |? ? ? ?]; try discriminate; try (now exfalso; apply Nx);
      destruct y; try discriminate; discriminate.
Qed.

(** NaN propagates. *)
Lemma ieee_add_nan (x y : float) : value x = None -> value (Bplus mode_NE x y) = None.
Proof. destruct x; try discriminate; destruct y; auto. Qed.
Lemma ieee_add_nan_r (x y : float) : value y = None -> value (Bplus mode_NE x y) = None.
Proof. destruct y; try discriminate; destruct x; auto. Qed.
End Ieee.

Lemma binary32_ordered : ordered binary32 value.
Proof. split; [apply ieee_lt | apply ieee_neg]. Qed.
Lemma binary64_ordered : ordered binary64 value.
Proof. split; [apply ieee_lt | apply ieee_neg]. Qed.
Lemma exact_ordered : ordered exact_fmt (fun x => x).
Proof. split; reflexivity. Qed.

Lemma xlt_false a b : xlt (Some a) (Some b) = false <-> ele b a.
Proof.
  destruct a, b; simpl; try (split; intro H; auto; discriminate || contradiction).
  destruct (rlt_spec x x0); split; intro; auto; try lra; discriminate.
Qed.
Lemma xlt_true a b : xlt (Some a) (Some b) = true -> ele a b.
Proof. destruct a, b; simpl; auto; try discriminate. destruct (rlt_spec x x0); intro; [lra|discriminate]. Qed.
Lemma ele_refl a : ele a a.
Proof. destruct a; simpl; auto; lra. Qed.
Lemma ele_trans a b c : ele a b -> ele b c -> ele a c.
Proof. destruct a, b, c; simpl; auto; try contradiction; lra. Qed.
Lemma ele_antisym a b : ele a b -> ele b a -> a = b.
Proof. destruct a, b; simpl; try contradiction; auto. intros. f_equal. lra. Qed.
Lemma eneg_nonneg l : ele (Real 0) l -> ele (eneg l) l.
Proof. destruct l; simpl; auto; lra. Qed.

(** * Rounding *)

Section Rounding.
Variable prec emax : Z.
Context (Hp : Prec_gt_0 prec).
Context (He : Prec_lt_emax prec emax).
Notation float := (binary_float prec emax).
Notation rnd := (round radix2 (SpecFloat.fexp prec emax) (round_mode mode_NE)).

#[local] Instance valid_fexp : Valid_exp (SpecFloat.fexp prec emax).
Proof. apply fexp_correct. auto. Qed.

(** Rounding does not cross a floating-point number. *)
Lemma rnd_le (b : float) x : x <= B2R b -> rnd x <= B2R b.
Proof. intro H. apply round_le_generic; auto; [apply valid_fexp | apply valid_rnd_N | apply generic_format_B2R]. Qed.
Lemma rnd_ge (b : float) x : B2R b <= x -> B2R b <= rnd x.
Proof. intro H. apply round_ge_generic; auto; [apply valid_fexp | apply valid_rnd_N | apply generic_format_B2R]. Qed.
Lemma rnd_id (b : float) : rnd (B2R b) = B2R b.
Proof. apply round_generic; [apply valid_rnd_N | apply generic_format_B2R]. Qed.

Lemma rnd_abs (b : float) x : Rabs x <= B2R b -> Rabs (rnd x) <= B2R b /\ Rabs (rnd x) < bpow radix2 emax.
Proof.
  intro H.
  assert (A : Rabs (rnd x) <= B2R b).
  { apply abs_round_le_generic; auto; [apply valid_fexp | apply valid_rnd_N | apply generic_format_B2R]. }
  split; [exact A|]. eapply Rle_lt_trans; [exact A|].
  eapply Rle_lt_trans; [apply Rle_abs|]. apply abs_B2R_lt_emax.
Qed.

Lemma mul_value (x y b : float) u v :
  value x = Some (Real u) -> value y = Some (Real v) -> Rabs (u * v) <= B2R b ->
  value (Bmult mode_NE x y) = Some (Real (rnd (u * v))).
Proof.
  intros Hx Hy Hb. apply value_Real in Hx as [Fx ->]. apply value_Real in Hy as [Fy ->].
  destruct (rnd_abs b _ Hb) as [_ L].
  generalize (Bmult_correct prec emax _ _ mode_NE x y). rewrite Rlt_bool_true by exact L.
  intros (E & Ff & _). rewrite value_finite by (rewrite Ff, Fx, Fy; reflexivity). now rewrite E.
Qed.

Lemma div_value (x y b : float) u v :
  value x = Some (Real u) -> value y = Some (Real v) -> v <> 0 -> Rabs (u / v) <= B2R b ->
  value (Bdiv mode_NE x y) = Some (Real (rnd (u / v))).
Proof.
  intros Hx Hy Hv Hb. apply value_Real in Hx as [Fx ->]. apply value_Real in Hy as [Fy ->].
  destruct (rnd_abs b _ Hb) as [_ L].
  generalize (Bdiv_correct prec emax _ _ mode_NE x y Hv). rewrite Rlt_bool_true by exact L.
  intros (E & Ff & _). rewrite value_finite by (rewrite Ff, Fx; reflexivity). now rewrite E.
Qed.

Lemma lit_value (m e : Z) (b : float) :
  Rabs (IZR m * bpow radix2 e) <= B2R b ->
  value (ieee_lit prec emax _ _ m e) = Some (Real (rnd (IZR m * bpow radix2 e))).
Proof.
  intro Hb. destruct (rnd_abs b _ Hb) as [_ L]. unfold ieee_lit.
  generalize (binary_normalize_correct prec emax _ _ mode_NE m e false). cbv zeta.
  change (F2R {| Fnum := m; Fexp := e |}) with (IZR m * bpow radix2 e).
  rewrite Rlt_bool_true by exact L. intros (E & Ff & _). rewrite value_finite by exact Ff. now rewrite E.
Qed.
End Rounding.

(** A float converted to double keeps its value. *)
Lemma value_widen (x : num binary32) : value (widen ieee x) = value x.
Proof.
  destruct x as [s|s| |s m e H]; try reflexivity.
  set (y := B754_finite s m e H : binary_float 24 128).
  cbn [widen ieee convert y].
  generalize (binary_normalize_correct 53 1024 prec53 emax53 mode_NE (cond_Zopp s (Z.pos m)) e s). cbv zeta.
  change (F2R {| Fnum := cond_Zopp s (Z.pos m); Fexp := e |}) with (B2R y).
  assert (G : round radix2 (SpecFloat.fexp 53 1024) (round_mode mode_NE) (B2R y) = B2R y).
  { apply round_generic; [apply valid_rnd_N|].
    apply generic_inclusion_mag with (fexp1 := SpecFloat.fexp 24 128).
    - intros _. unfold SpecFloat.fexp, SpecFloat.emin. lia.
    - apply (generic_format_B2R 24 128). }
  rewrite G.
  assert (L : Rabs (B2R y) < bpow radix2 1024).
  { eapply Rlt_trans; [apply (abs_B2R_lt_emax 24 128)|]. apply bpow_lt. lia. }
  rewrite Rlt_bool_true by exact L. intros (E & Ff & _).
  rewrite value_finite by exact Ff. rewrite E. reflexivity.
Qed.

Lemma Ztrunc_abs x n : Rabs x <= IZR n -> (Z.abs (Ztrunc x) <= n)%Z.
Proof.
  intro H. rewrite <- Ztrunc_abs. apply le_IZR.
  rewrite Ztrunc_floor by apply Rabs_pos. eapply Rle_trans; [apply Zfloor_lb|exact H].
Qed.

Lemma trunc_value (x : num binary32) r : value x = Some (Real r) -> trunc binary32 x = Some (Ztrunc r).
Proof.
  intro H. apply value_Real in H as [Fx ->].
  assert (T : Ztrunc (B2R x) = Btrunc x).
  { symmetry. apply eq_IZR. rewrite (Btrunc_correct 24 128 emax24).
    unfold round, F2R, scaled_mantissa, cexp, FIX_exp. cbn. now rewrite !Rmult_1_r. }
  rewrite T. destruct x as [s|s| |s m e H]; try discriminate; reflexivity.
Qed.
