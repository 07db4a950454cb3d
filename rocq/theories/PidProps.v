(** Properties of the PID controller (C33) and of the filters (C37). *)
From Coq Require Import ZArith Reals List Bool Lra Lia.
From Flocq Require Import Core IEEE754.BinarySingleNaN.
From Verif Require Import CBase CRes FloatModel FloatSpec FloatProofs PidModel PidSpec PidProofs.
Import ListNotations.
Local Open Scope R_scope.

(** * C33 *)

(** After any history of calls that ends with a control step, the integrator is a number whose absolute
    value is at most the limit in force. Single precision, with rounding and overflow. *)
Theorem pid_integrator_bounded ops e :
  Forall sane (ops ++ [Process ieee e]) ->
  let p := pid_run ieee (pid_init ieee) (ops ++ [Process ieee e]) in
  exists i l, value (integrator ieee p) = Some i /\ value (integrator_limit ieee p) = Some l /\
              bounded_by l i.
Proof.
  intros H p. unfold p. rewrite pid_run_snoc. apply Forall_app in H as [H He].
  assert (I : inv_real (pid_run ieee (pid_init ieee) ops)).
  { apply inv_real_run; auto. split; [discriminate|]. exists PInf. split; reflexivity. }
  destruct I as (Hi & l & El & Hl). apply Forall_inv in He as [r Er].
  destruct (process_bounded (pid_run ieee (pid_init ieee) ops) e l El Hl) as (i & Ei & Hb).
  - apply (ieee_add_num_r 24 128 _ _ _ _ r); auto.
  - exists i, l. auto.
Qed.

(** With a finite limit, even infinite errors leave the integrator finite and within the limit. *)
Theorem pid_integrator_bounded_finite p ops e :
  finite_state p -> Forall sane_finite_limit (ops ++ [Process ieee e]) ->
  let q := pid_run ieee p (ops ++ [Process ieee e]) in
  exists i l, value (integrator ieee q) = Some (Real i) /\ value (integrator_limit ieee q) = Some (Real l) /\
              Rabs i <= l.
Proof.
  intros Hp H q. assert (I : finite_state q) by (now apply inv_fin_run).
  destruct I as ((i & Ei) & l & El & Hl). exists i, l. split; [auto|]. split; [auto|].
  unfold q in Ei, El. rewrite pid_run_snoc in Ei, El. apply Forall_app in H as [H He].
  assert (I : finite_state (pid_run ieee p ops)) by (now apply inv_fin_run).
  destruct I as ((i0 & Ei0) & l0 & El0 & Hl0). apply Forall_inv in He as Ne. cbn in Ne.
  cbn [pid_step] in Ei, El. rewrite limit_step in El. rewrite El in El0. injection El0 as <-.
  destruct (process_bounded (pid_run ieee p ops) e (Real l) El Hl) as (j & Ej & Hj).
  - apply (ieee_add_num 24 128 _ _ _ _ i0); auto.
  - rewrite Ej in Ei. injection Ei as ->. destruct Hj as [A B]. cbn in A, B. apply Rabs_le. lra.
Qed.

(** A NaN error is not stopped by the limit: the integrator is NaN from then on, whatever the later
    errors, until the next reset. *)
Theorem pid_nan_sticks p e es :
  value e = None ->
  value (integrator ieee (pid_run ieee p (map (Process ieee) (e :: es)))) = None.
Proof.
  intro He. cbn [map pid_run fold_left pid_step].
  assert (H : value (integrator ieee (fst (pid_process ieee p e))) = None) by (apply nan_process; auto).
  revert H. generalize (fst (pid_process ieee p e)). induction es as [|a es IH]; intros q Hq; [exact Hq|].
  cbn [map pid_run fold_left pid_step]. apply IH. apply nan_process. auto.
Qed.

(** Two controllers with the same settings that are both reset give the same outputs for the same later
    errors, from the second error on; and from the first one on if they last saw the same error. What is
    missing: the first output also depends on the last error before the reset. *)
Theorem pid_reset_outputs_partial (p q : pid ieee) es :
  kp _ p = kp _ q -> ki _ p = ki _ q -> kd _ p = kd _ q ->
  integrator_limit _ p = integrator_limit _ q -> frequency _ p = frequency _ q ->
  let a := pid_outputs ieee (pid_reset_integral ieee p) es in
  let b := pid_outputs ieee (pid_reset_integral ieee q) es in
  tl a = tl b /\ (previous_error _ p = previous_error _ q -> a = b).
Proof.
  intros H1 H2 H3 H4 H5 a b.
  assert (Hp : previous_error _ p = previous_error _ q ->
               pid_reset_integral ieee p = pid_reset_integral ieee q).
  { intro H6. unfold pid_reset_integral. rewrite H1, H2, H3, H4, H5, H6. reflexivity. }
  split.
  - destruct es as [|e es]; [reflexivity|].
    assert (E : fst (pid_process ieee (pid_reset_integral ieee p) e) =
                fst (pid_process ieee (pid_reset_integral ieee q) e)).
    { unfold pid_process, pid_reset_integral. cbn [fst kp ki kd integrator integrator_limit frequency].
      rewrite H1, H2, H3, H4, H5. reflexivity. }
    unfold a, b. cbn [pid_outputs tl]. now rewrite E.
  - intro H6. unfold a, b. now rewrite Hp.
Qed.

(** The full claim is false: after a reset the first output still depends on the error before it. *)
Theorem pid_reset_refuted : exists ops1 ops2 e,
  let run ops := snd (pid_process ieee (pid_run ieee (pid_init ieee) (ops ++ [Reset ieee])) e) in
  let g := SetGains ieee (of_int ieee 1) (of_int ieee 0) (of_int ieee 1) in
  ops1 = [g; Process ieee (of_int ieee 1)] /\ ops2 = [g; Process ieee (of_int ieee 2)] /\
  value (run ops1) <> value (run ops2).
Proof.
  eexists; eexists; exists (of_int ieee 0). split; [reflexivity|]. split; [reflexivity|].
  rewrite !value_SF.
  match goal with |- sf_value ?a <> sf_value ?b =>
    let x := eval vm_compute in a in let y := eval vm_compute in b in
    replace a with x by (vm_compute; reflexivity); replace b with y by (vm_compute; reflexivity) end.
  cbn. intro H. injection H as H. unfold F2R in H. cbn in H. lra.
Qed.

(** In exact arithmetic and away from saturation, the output is the discrete PID law applied to the sum
    of all errors so far and the last two errors. *)
Theorem pid_output_is_law (gp gi gd f i0 p0 : R) es e :
  f <> 0 ->
  let p := {| kp := real gp; ki := real gi; kd := real gd; integrator := real i0;
              integrator_limit := Some PInf; previous_error := real p0; frequency := real f |}
           : pid exact in
  snd (pid_process exact (pid_run exact p (map (fun e => Process exact (real e)) es)) (real e)) =
  real (pid_law gp gi gd f (i0 + sum es + e) (last es p0) e).
Proof.
  intros Hf. cbv zeta. revert i0 p0. induction es as [|a es IH]; intros i0 p0.
  - cbn [map pid_run fold_left sum fold_right last].
    rewrite (exact_process gp gi gd i0 f p0 e Hf). cbn [snd]. now rewrite Rplus_0_r.
  - cbn [map pid_run fold_left pid_step].
    rewrite (exact_process gp gi gd i0 f p0 a Hf). cbn [fst].
    fold (pid_run exact {| kp := real gp; ki := real gi; kd := real gd; integrator := real (i0 + a);
              integrator_limit := Some PInf; previous_error := real a; frequency := real f |}
            (map (fun e => Process exact (real e)) es)).
    rewrite IH. f_equal.
    replace (last (a :: es) p0) with (last es a).
    + change (sum (a :: es)) with (a + sum es). f_equal; ring.
    + destruct es as [|b es]; [reflexivity|]. cbn [last].
      clear. revert b. induction es as [|c es IH]; intro b; [reflexivity|]. cbn [last]. apply IH.
Qed.

(** In exact arithmetic, errors bounded by E and a finite limit L bound the output. *)
Theorem pid_output_bounded (p : pid exact) gp gi gd f i p0 L E e :
  kp _ p = real gp -> ki _ p = real gi -> kd _ p = real gd -> frequency _ p = real f ->
  integrator _ p = real i -> previous_error _ p = real p0 -> integrator_limit _ p = real L ->
  0 < f -> 0 <= L -> Rabs e <= E -> Rabs p0 <= E ->
  exists o, snd (pid_process exact p (real e)) = real o /\
            Rabs o <= Rabs gp * E + Rabs gi * L / f + Rabs gd * (2 * E) * f.
Proof.
  intros H1 H2 H3 H4 H5 H6 H7 Hf HL He Hp0.
  unfold pid_process. rewrite H1, H2, H3, H4, H5, H6, H7. unfold real. cbn [snd F exact exact_fmt add lt neg mul div sub].
  cbn [xadd xneg option_map eneg xlt].
  assert (K : forall j, Rabs j <= L ->
    Rabs (- gp * e + - gi * j / f + - gd * (e + - p0) * f) <=
    Rabs gp * E + Rabs gi * L / f + Rabs gd * (2 * E) * f).
  { intros j Hj.
  replace (- gp * e + - gi * j / f + - gd * (e + - p0) * f)
    with (- (gp * e) + - (gi * j / f) + - (gd * (e - p0) * f)) by (field; lra).
  eapply Rle_trans; [apply Rabs_triang|]. apply Rplus_le_compat.
  - eapply Rle_trans; [apply Rabs_triang|]. rewrite !Rabs_Ropp. apply Rplus_le_compat.
    + rewrite Rabs_mult. apply Rmult_le_compat_l; auto using Rabs_pos.
    + unfold Rdiv. rewrite !Rabs_mult. rewrite (Rabs_pos_eq (/ f)).
      * apply Rmult_le_compat_r; [left; now apply Rinv_0_lt_compat|].
        apply Rmult_le_compat_l; auto using Rabs_pos.
      * left. now apply Rinv_0_lt_compat.
  - rewrite Rabs_Ropp, !Rabs_mult. rewrite (Rabs_pos_eq f) by lra.
    apply Rmult_le_compat_r; [lra|]. apply Rmult_le_compat_l; auto using Rabs_pos.
    unfold Rminus. eapply Rle_trans; [apply Rabs_triang|]. rewrite Rabs_Ropp. lra.
  }
  destruct (rlt_spec L (i + e)); [|destruct (rlt_spec (i + e) (- L))];
    cbn [xmul xdiv]; (destruct (req_spec f 0); [lra|]); cbn [xadd]; eexists; (split; [reflexivity|]);
    apply K; apply Rabs_le; lra.
Qed.

(** * C37 *)

(** limit() returns a value within [min, max], and returns its argument if that is already there.
    Single precision, infinities included. *)
Theorem limit_within x lo hi v a b :
  value x = Some v -> value lo = Some a -> value hi = Some b -> ele a b ->
  exists r, value (filter_limit ieee x lo hi) = Some r /\ within a r b /\
            (within a v b -> filter_limit ieee x lo hi = x).
Proof. apply (limit_gen ieee value binary32_ordered). Qed.

Theorem limit_sym_within x l v b :
  value x = Some v -> value l = Some b -> ele (Real 0) b ->
  exists r, value (filter_limit_sym ieee x l) = Some r /\ bounded_by b r /\
            (bounded_by b v -> filter_limit_sym ieee x l = x).
Proof.
  intros Hx Hl Hb.
  apply (limit_gen ieee value binary32_ordered x (neg binary32 l) l v (eneg b) b); auto.
  - destruct binary32_ordered as [_ Hn]. rewrite Hn, Hl. reflexivity.
  - now apply eneg_nonneg.
Qed.

(** NaN goes through. *)
Theorem limit_nan x lo hi : value x = None -> filter_limit ieee x lo hi = x.
Proof.
  intro H. unfold filter_limit. destruct binary32_ordered as [Hlt _].
  change (F ieee) with binary32. rewrite !Hlt, H.
  destruct (value lo) as [[]|], (value hi) as [[]|]; reflexivity.
Qed.

(** The mean lies between the bounds of the samples (exact arithmetic), and is the sum over the count. *)
Theorem mean_within (l : list R) lo hi :
  l <> [] -> Forall (fun x => lo <= x <= hi) l ->
  exists m, mean exact (map real l) = real m /\ lo <= m <= hi /\ m * INR (length l) = sum l.
Proof.
  intros Hn H. assert (P : 0 < INR (length l)).
  { apply lt_0_INR. destruct l; [contradiction|]. cbn. lia. }
  exists (sum l / INR (length l)). unfold mean.
  replace (of_int exact 0) with (real 0) by (unfold of_int, real; cbn; f_equal; f_equal; ring).
  rewrite fold_add_real, map_length, Rplus_0_l.
  assert (E : of_int exact (Z.of_nat (length l)) = real (INR (length l))).
  { unfold of_int, real. cbn [lit F exact exact_fmt]. rewrite <- INR_IZR_INZ. cbn. now rewrite Rmult_1_r. }
  rewrite E. split; [|split].
  - unfold real. cbn [div F exact exact_fmt xdiv]. destruct (req_spec (INR (length l)) 0); [lra|]. reflexivity.
  - apply sum_bounds in H. split.
    + apply Rmult_le_reg_r with (INR (length l)); [auto|]. unfold Rdiv. rewrite Rmult_assoc, Rinv_l by lra. lra.
    + apply Rmult_le_reg_r with (INR (length l)); [auto|]. unfold Rdiv. rewrite Rmult_assoc, Rinv_l by lra. lra.
  - field. lra.
Qed.

(** The integer mean: right when the sum is not negative and there are at most 65535 samples. What is
    missing: negative sums. *)
Theorem mean_int16_within_partial (l : list Z) lo hi :
  (l <> [] -> Forall is_int16 l -> Z.of_nat (length l) <= 65535 -> Forall (fun x => lo <= x <= hi) l ->
   0 <= zsum l ->
   exists m, mean_int16 l = OK m /\ lo <= m <= hi /\ m = zsum l / Z.of_nat (length l))%Z.
Proof.
  intros Hn H16 Hl Hb Hs. assert (P : (0 < Z.of_nat (length l))%Z) by (destruct l; [contradiction|]; cbn; lia).
  unfold mean_int16. rewrite fold_int_sum; auto; [|lia]. cbn [rbind]. rewrite Z.add_0_l.
  destruct (Z.eqb_spec (Z.of_nat (length l)) 0); [lia|].
  assert (B : (zsum l < 2 ^ 31)%Z).
  { pose proof (zsum_bounds (-32768) 32767 l H16). lia. }
  pose proof (zsum_bounds lo hi l Hb) as Hz.
  assert (Q : (0 <= zsum l / Z.of_nat (length l) < 2 ^ 31)%Z).
  { split; [apply Z.div_pos; lia|]. apply Z.div_lt_upper_bound; nia. }
  unfold u32. rewrite uN_id by lia. unfold s32. rewrite sN_id by lia.
  eexists. split; [reflexivity|]. split; [|reflexivity]. split.
  - apply Z.div_le_lower_bound; lia.
  - apply Z.div_le_upper_bound; lia.
Qed.

(** Negative sums are divided as unsigned numbers: the mean of -1 and -1 is not -1. *)
Theorem mean_int16_refuted : mean_int16 [-1; -1]%Z = OK 2147483647%Z.
Proof. reflexivity. Qed.

(** The IIR/FIR filter computes the documented difference equation, for every order, coefficients and
    input sequence, without any out-of-bounds access (exact arithmetic). *)
Theorem iir_difference_equation (b : list R) (a : option (list R)) (n : nat) (xs : list R) :
  (0 < n)%nat -> length b = S n -> (forall l, a = Some l -> length l = n) ->
  exists ys, iir_run exact (filter_iir_init exact (map real b) (option_map (map real) a) n) (map real xs)
             = OK (map real ys) /\
    difference_equation b (match a with Some a => a | None => [] end) (rev xs) (rev ys).
Proof.
  intros Hn Hb Ha.
  destruct (iir_run_real b a xs (repeat 0 n) [] []) as (ys & E & Q); rewrite ?repeat_length; auto.
  - intros i Hi. rewrite repeat_length in Hi. rewrite nth_repeat, !dot_nil_r. ring.
  - exact I.
  - exists ys. rewrite !app_nil_r in Q. split; [|exact Q].
    rewrite <- E. unfold filter_iir_init. do 2 f_equal.
    assert (Z0 : of_int exact 0 = real 0) by (unfold of_int, real; cbn; f_equal; f_equal; ring).
    rewrite Z0. clear. induction n as [|n IH]; [reflexivity|]. cbn [repeat map]. f_equal. exact IH.
Qed.

(** * Non-vacuity *)

Example pid_history : Forall sane
  [SetGains ieee (of_int ieee 2) (of_int ieee 1) (of_int ieee 0); SetLimit ieee (of_int ieee 3);
   Process ieee (of_int ieee 2); Process ieee (of_int ieee 2)].
Proof.
  apply Forall_cons; [exact I|]. apply Forall_cons.
  { eexists. split; [reflexivity|]. cbn. unfold F2R. cbn. lra. }
  apply Forall_cons; [eexists; reflexivity|]. apply Forall_cons; [eexists; reflexivity|]. apply Forall_nil.
Qed.
Example pid_history_saturates :
  B2SF (integrator ieee (pid_run ieee (pid_init ieee)
    [SetGains ieee (of_int ieee 2) (of_int ieee 1) (of_int ieee 0); SetLimit ieee (of_int ieee 3);
     Process ieee (of_int ieee 2); Process ieee (of_int ieee 2)])) = B2SF (of_int ieee 3).
Proof. vm_compute. reflexivity. Qed.
Example nan_error : value (B754_nan : num binary32) = None.
Proof. reflexivity. Qed.
Example iir_first_order : iir_run exact
  (filter_iir_init exact (map real [1; 0]) (Some (map real [-1])) 1) (map real [1; 1; 1]) <> BAD.
Proof.
  destruct (iir_difference_equation [1; 0] (Some [-1]) 1 [1; 1; 1]) as (ys & E & _); auto.
  - intros l H. injection H as <-. reflexivity.
  - cbn [option_map] in E. rewrite E. discriminate.
Qed.

Print Assumptions pid_integrator_bounded.
Print Assumptions pid_integrator_bounded_finite.
Print Assumptions pid_nan_sticks.
Print Assumptions pid_reset_outputs_partial.
Print Assumptions pid_reset_refuted.
Print Assumptions pid_output_is_law.
Print Assumptions pid_output_bounded.
Print Assumptions limit_within.
Print Assumptions limit_sym_within.
Print Assumptions limit_nan.
Print Assumptions mean_within.
Print Assumptions mean_int16_within_partial.
Print Assumptions mean_int16_refuted.
Print Assumptions iir_difference_equation.
