(** Integer coordinates of at most 12 bits: the side test in single precision is exact. *)
From Coq Require Import ZArith Reals List Bool Lra Lia Psatz.
From Flocq Require Import Core IEEE754.BinarySingleNaN.
From Verif Require Import FloatModel FloatSpec FloatProofs PidSpec GeoModel GeoSpec GeoProofs.
Import ListNotations.
Local Open Scope R_scope.

Notation rnd := (round radix2 (SpecFloat.fexp 24 128) (round_mode mode_NE)).
#[local] Instance vexp : Valid_exp (SpecFloat.fexp 24 128). Proof. apply fexp_correct. reflexivity. Qed.

Lemma format_int n : (Z.abs n < 2 ^ 24)%Z -> generic_format radix2 (SpecFloat.fexp 24 128) (IZR n).
Proof.
  intro H. change (SpecFloat.fexp 24 128) with (FLT_exp (-149) 24). apply generic_format_FLT.
  exists (Float radix2 n 0); cbn; [unfold F2R; cbn; ring|exact H|lia].
Qed.
Lemma rnd_int n : (Z.abs n < 2 ^ 24)%Z -> rnd (IZR n) = IZR n.
Proof. intro H. apply round_generic; [apply valid_rnd_N|now apply format_int]. Qed.
Lemma format_2_25 : generic_format radix2 (SpecFloat.fexp 24 128) (IZR (2 ^ 25)).
Proof.
  change (SpecFloat.fexp 24 128) with (FLT_exp (-149) 24). apply generic_format_FLT.
  exists (Float radix2 1 25); cbn; [unfold F2R; cbn; ring|lia|lia].
Qed.
Lemma small_128 n x : (n <= 2 ^ 25)%Z -> Rabs x <= IZR n -> Rabs x < bpow radix2 128.
Proof.
  intros H L. eapply Rle_lt_trans; [exact L|]. apply Rle_lt_trans with (IZR (2 ^ 25)); [now apply IZR_le|].
  change (IZR (2 ^ 25)) with (bpow radix2 25). apply bpow_lt. lia.
Qed.
Lemma abs_int n m : (Z.abs n <= m)%Z -> Rabs (IZR n) <= IZR m.
Proof. intro H. rewrite <- abs_IZR. now apply IZR_le. Qed.

Definition rep (x : num binary32) (n : Z) : Prop := value x = Some (Real (IZR n)).

Lemma rep_lit n : (Z.abs n < 2 ^ 24)%Z -> rep (of_int binary32 n) n.
Proof.
  intro H. unfold rep, of_int. cbn [binary32 ieee_fmt lit]. unfold ieee_lit.
  generalize (binary_normalize_correct 24 128 _ _ mode_NE n 0 false). cbv zeta.
  replace (F2R {| Fnum := n; Fexp := 0 |}) with (IZR n) by (unfold F2R; cbn; ring).
  rewrite rnd_int by exact H. rewrite Rlt_bool_true by (apply (small_128 (2 ^ 24)); [lia|apply abs_int; lia]).
  intros (E & Ff & _). rewrite value_finite by exact Ff. f_equal. f_equal. exact E.
Qed.
Lemma rep_sub x y a b : rep x a -> rep y b -> (Z.abs (a - b) < 2 ^ 24)%Z -> rep (sub binary32 x y) (a - b).
Proof.
  unfold rep. intros Hx Hy H. apply value_Real in Hx as [Fx Ex]. apply value_Real in Hy as [Fy Ey].
  cbn [binary32 ieee_fmt sub]. generalize (Bminus_correct 24 128 _ _ mode_NE x y Fx Fy).
  rewrite <- Ex, <- Ey, <- minus_IZR, rnd_int by exact H.
  rewrite Rlt_bool_true by (apply (small_128 (2 ^ 24)); [lia|apply abs_int; lia]).
  intros (E & Ff & _). rewrite value_finite by exact Ff. f_equal. f_equal. exact E.
Qed.
Lemma rep_mul x y a b : rep x a -> rep y b -> (Z.abs (a * b) < 2 ^ 24)%Z -> rep (mul binary32 x y) (a * b).
Proof.
  unfold rep. intros Hx Hy H. apply value_Real in Hx as [Fx Ex]. apply value_Real in Hy as [Fy Ey].
  cbn [binary32 ieee_fmt mul]. generalize (Bmult_correct 24 128 _ _ mode_NE x y).
  rewrite <- Ex, <- Ey, <- mult_IZR, rnd_int by exact H.
  rewrite Rlt_bool_true by (apply (small_128 (2 ^ 24)); [lia|apply abs_int; lia]).
  intros (E & Ff & _). rewrite value_finite by (rewrite Ff, Fx, Fy; reflexivity). f_equal. f_equal. exact E.
Qed.
Lemma rep_eq x y a b : rep x a -> rep y b -> eq binary32 x y = (a =? b)%Z.
Proof.
  unfold rep. intros Hx Hy. apply value_Real in Hx as [Fx Ex]. apply value_Real in Hy as [Fy Ey].
  cbn [binary32 ieee_fmt eq]. rewrite Beqb_correct by assumption. rewrite <- Ex, <- Ey.
  destruct (Z.eqb_spec a b) as [->|N]; [now apply Req_bool_true|]. apply Req_bool_false. intro E. apply N. now apply eq_IZR.
Qed.
Lemma sign_sub x y a b : rep x a -> rep y b -> (Z.abs (a - b) <= 2 ^ 25)%Z ->
  sign binary32 (sub binary32 x y) = Z.sgn (a - b).
Proof.
  unfold rep. intros Hx Hy H. apply value_Real in Hx as [Fx Ex]. apply value_Real in Hy as [Fy Ey].
  assert (S : exists r, value (sub binary32 x y) = Some (Real r) /\ r = rnd (IZR (a - b))).
  { cbn [binary32 ieee_fmt sub]. generalize (Bminus_correct 24 128 _ _ mode_NE x y Fx Fy).
    rewrite <- Ex, <- Ey, <- minus_IZR.
    assert (L : Rabs (rnd (IZR (a - b))) <= IZR (2 ^ 25)).
    { apply abs_round_le_generic; [apply vexp|apply valid_rnd_N|exact format_2_25|now apply abs_int]. }
    rewrite Rlt_bool_true by (now apply (small_128 (2 ^ 25))).
    intros (E & Ff & _). exists (B2R (Bminus mode_NE x y)). split; [now apply value_finite|exact E]. }
  destruct S as (r & V & Er). apply value_Real in V as [Fz Ez].
  assert (Z0 : value (of_int binary32 0) = Some (Real 0)) by (apply (rep_lit 0); lia).
  unfold sign. set (z := sub binary32 x y) in *. set (o := of_int binary32 0) in *.
  apply value_Real in Z0 as [Fo Eo]. cbn [binary32 ieee_fmt eq lt].
  rewrite Beqb_correct, Bltb_correct by assumption. rewrite <- Ez, <- Eo.
  destruct (Z.lt_trichotomy (a - b) 0) as [L|[L|L]].
  - assert (R1 : r <= -1).
    { rewrite Er. replace (-1) with (IZR (-1)) by reflexivity.
      apply round_le_generic; [apply vexp|apply valid_rnd_N|apply format_int; lia|apply IZR_le; lia]. }
    rewrite Req_bool_false by lra. rewrite Rlt_bool_false by lra. symmetry. now apply Z.sgn_neg.
  - rewrite L in *. rewrite Er, (rnd_int 0) by lia. now rewrite Req_bool_true.
  - assert (R1 : 1 <= r).
    { rewrite Er. apply round_ge_generic; [apply vexp|apply valid_rnd_N|apply (format_int 1); lia|apply (IZR_le 1); lia]. }
    rewrite Req_bool_false by lra. rewrite Rlt_bool_true by lra. symmetry. now apply Z.sgn_pos.
Qed.


Lemma small_diff a b : (0 <= a < 4096 -> 0 <= b < 4096 -> Z.abs (a - b) < 2 ^ 24)%Z.
Proof. lia. Qed.
Lemma small_mul a b : (Z.abs a < 4096 -> Z.abs b < 4096 -> Z.abs (a * b) < 2 ^ 24)%Z.
Proof. intros. rewrite Z.abs_mul. change (2 ^ 24)%Z with (4096 * 4096)%Z. nia. Qed.

Definition zpvect (a b c : Z * Z) : Z :=
  ((fst a - fst c) * (snd b - snd c) - (snd a - snd c) * (fst b - fst c))%Z.
Lemma pvect_int a b c : twelve_bits a -> twelve_bits b -> twelve_bits c ->
  vect_pvect_sign binary32 (diff binary32 (zfloat a) (zfloat c)) (diff binary32 (zfloat b) (zfloat c)) = Z.sgn (zpvect a b c).
Proof.
  intros [A1 A2] [B1 B2] [C1 C2]. unfold vect_pvect_sign, vect_pvect, diff, zfloat. cbn [fst snd].
  apply sign_sub.
  - apply rep_mul; [apply rep_sub; [apply rep_lit; lia..|lia]|apply rep_sub; [apply rep_lit; lia..|lia]|].
    apply small_mul; lia.
  - apply rep_mul; [apply rep_sub; [apply rep_lit; lia..|lia]|apply rep_sub; [apply rep_lit; lia..|lia]|].
    apply small_mul; lia.
  - pose proof (small_mul (fst a - fst c) (snd b - snd c) ltac:(lia) ltac:(lia)).
    pose proof (small_mul (snd a - snd c) (fst b - fst c) ltac:(lia) ltac:(lia)). lia.
Qed.
Lemma sgn_IZR z : sgn (IZR z) = Z.sgn z.
Proof.
  unfold sgn. destruct (req_spec (IZR z) 0) as [E|E].
  - apply eq_IZR in E. now subst.
  - destruct (rlt_spec 0 (IZR z)) as [L|L].
    + apply lt_IZR in L. symmetry. now apply Z.sgn_pos.
    + symmetry. apply Z.sgn_neg. apply lt_IZR. lra.
Qed.
Lemma pvect_int_exact a b c :
  vect_pvect_sign exact_fmt (diff exact_fmt (pt (zpt a)) (pt (zpt c))) (diff exact_fmt (pt (zpt b)) (pt (zpt c))) = Z.sgn (zpvect a b c).
Proof.
  rewrite pvect_exact. rewrite <- sgn_IZR. f_equal. unfold zpvect, orient, zpt. cbn [fst snd].
  rewrite !minus_IZR, !mult_IZR, !minus_IZR. ring.
Qed.
Lemma same_int a b : twelve_bits a -> twelve_bits b -> same binary32 (zfloat a) (zfloat b) = same exact_fmt (pt (zpt a)) (pt (zpt b)).
Proof.
  intros [A1 A2] [B1 B2]. unfold same, zfloat, pt, zpt, real. cbn [fst snd].
  rewrite (rep_eq _ _ (fst a) (fst b)) by (apply rep_lit; lia). rewrite (rep_eq _ _ (snd a) (snd b)) by (apply rep_lit; lia).
  cbn [exact_fmt eq xeq].
  assert (Q : forall u v : Z, (u =? v)%Z = req (IZR u) (IZR v)).
  { intros u v. destruct (Z.eqb_spec u v) as [Euv|N]; destruct (req_spec (IZR u) (IZR v)) as [E|E]; auto.
    - exfalso. subst. auto.
    - exfalso. apply N. now apply eq_IZR. }
  now rewrite !Q.
Qed.

Lemma combine_map {A B} (g : A -> B) l : forall m, combine (map g l) (map g m) = map (fun xy => (g (fst xy), g (snd xy))) (combine l m).
Proof. induction l as [|a l IH]; intros [|b m]; cbn; auto. now rewrite IH. Qed.
Lemma sides_int pol :
  sides binary32 (map zfloat pol) = map (fun xy => (zfloat (fst xy), zfloat (snd xy))) (match pol with [] => [] | a :: t => combine pol (t ++ [a]) end) /\
  sides exact_fmt (map (fun p => pt (zpt p)) pol) =
    map (fun xy => (pt (zpt (fst xy)), pt (zpt (snd xy)))) (match pol with [] => [] | a :: t => combine pol (t ++ [a]) end).
Proof.
  unfold sides. destruct pol as [|a t]; [split; reflexivity|]. cbn [map]. split.
  - rewrite <- (combine_map zfloat (a :: t) (t ++ [a])). cbn [map]. now rewrite map_app.
  - rewrite <- (combine_map (fun p => pt (zpt p)) (a :: t) (t ++ [a])). cbn [map]. now rewrite map_app.
Qed.
Lemma loop_int p : twelve_bits p -> forall l ret, Forall (fun xy => twelve_bits (fst xy) /\ twelve_bits (snd xy)) l ->
  in_poly_loop binary32 (zfloat p) (map (fun xy => (zfloat (fst xy), zfloat (snd xy))) l) ret =
  in_poly_loop exact_fmt (pt (zpt p)) (map (fun xy => (pt (zpt (fst xy)), pt (zpt (snd xy)))) l) ret.
Proof.
  intros Hp l. induction l as [|[a b] l IH]; intros ret Hl; [reflexivity|].
  pose proof (Forall_inv Hl) as [Ha Hb]. apply Forall_inv_tail in Hl. cbn [map in_poly_loop fst snd] in *.
  rewrite pvect_int by assumption. rewrite pvect_int_exact. destruct (0 <? _)%Z; [reflexivity|]. now apply IH.
Qed.
Lemma in_poly_int pol p : Forall twelve_bits pol -> twelve_bits p ->
  is_in_poly binary32 (zfloat p) (map zfloat pol) = is_in_poly exact_fmt (pt (zpt p)) (map pt (map zpt pol)).
Proof.
  intros Hl Hp. unfold is_in_poly. rewrite map_map. destruct (sides_int pol) as [-> ->].
  assert (S : existsb (same binary32 (zfloat p)) (map zfloat pol) = existsb (same exact_fmt (pt (zpt p))) (map (fun x => pt (zpt x)) pol)).
  { clear -Hl Hp. induction Hl as [|a l Ha Hl IH]; [reflexivity|]. cbn [map existsb]. now rewrite same_int, IH. }
  rewrite S. destruct (existsb (same exact_fmt _) _); [reflexivity|]. apply loop_int; [exact Hp|].
  apply Forall_forall. intros [a b] I. destruct pol as [|x t]; [destruct I|]. rewrite Forall_forall in Hl. cbn [fst snd].
  split; apply Hl; [eapply in_combine_l; exact I|]. apply in_combine_r in I. apply in_app_or in I as [I|[->|[]]]; [now right|now left].
Qed.
