From Coq Require Import Reals List Bool Arith ZArith Lia Lra Ranalysis.
From Verif Require Import EkfModel EkfSpec.
Import ListNotations.
Local Open Scope R_scope.

(** * Sums *)
Lemma sum_ext n f g : (forall i, (i < n)%nat -> f i = g i) -> sum n f = sum n g.
Proof. induction n as [|n IH]; cbn; intro H; [reflexivity|]. rewrite IH by (intros; apply H; lia). now rewrite H by lia. Qed.
Lemma sum_plus n f g : sum n (fun i => f i + g i) = sum n f + sum n g.
Proof. induction n as [|n IH]; cbn; [ring|]. rewrite IH. ring. Qed.
Lemma sum_scal n c f : sum n (fun i => c * f i) = c * sum n f.
Proof. induction n as [|n IH]; cbn; [ring|]. rewrite IH. ring. Qed.
Lemma sum_scal_r n c f : sum n (fun i => f i * c) = sum n f * c.
Proof. induction n as [|n IH]; cbn; [ring|]. rewrite IH. ring. Qed.
Lemma sum_zero n : sum n (fun _ => 0) = 0.
Proof. induction n as [|n IH]; cbn; [ring|]. rewrite IH. ring. Qed.
Lemma sum_swap n m f : sum n (fun i => sum m (fun j => f i j)) = sum m (fun j => sum n (fun i => f i j)).
Proof. induction n as [|n IH]; cbn; [now rewrite sum_zero|]. rewrite IH, <- sum_plus. reflexivity. Qed.
Lemma sum_nonneg n f : (forall i, (i < n)%nat -> 0 <= f i) -> 0 <= sum n f.
Proof. induction n as [|n IH]; cbn; intro H; [lra|]. pose proof (H n ltac:(lia)). pose proof (IH ltac:(intros; apply H; lia)). lra. Qed.
Lemma sum_pos n f i : (forall i, (i < n)%nat -> 0 <= f i) -> (i < n)%nat -> 0 < f i -> 0 < sum n f.
Proof.
  induction n as [|n IH]; cbn; intros H L P; [lia|]. pose proof (H n ltac:(lia)).
  destruct (Nat.eq_dec i n) as [->|N].
  - pose proof (sum_nonneg n f ltac:(intros; apply H; lia)). lra.
  - pose proof (IH ltac:(intros; apply H; lia) ltac:(lia) P). lra.
Qed.
Lemma sum_delta n f i : (i < n)%nat -> sum n (fun j => identity i j * f j) = f i.
Proof.
  induction n as [|n IH]; intro L; [lia|]. cbn. unfold identity at 2. destruct (Nat.eqb_spec i n) as [->|N].
  - rewrite (sum_ext _ _ (fun _ => 0)). { rewrite sum_zero. ring. }
    intros j Hj. unfold identity. destruct (Nat.eqb_spec n j); [lia|ring].
  - rewrite IH by lia. ring.
Qed.
Lemma sum_zero_inv n f : (forall i, (i < n)%nat -> 0 <= f i) -> sum n f = 0 -> forall i, (i < n)%nat -> f i = 0.
Proof.
  intros H E i L. destruct (Req_dec (f i) 0); auto. pose proof (H i L). pose proof (sum_pos n f i H L ltac:(lra)). lra.
Qed.

(** * Bilinear forms *)
Definition bil (n : nat) (p : mat) (x y : vec) : R := sum n (fun i => sum n (fun j => x i * p i j * y j)).
Lemma bil_ext n p p' x x' y y' : (forall i j, (i < n)%nat -> (j < n)%nat -> p i j = p' i j) -> (forall i, (i < n)%nat -> x i = x' i) -> (forall i, (i < n)%nat -> y i = y' i) ->
  bil n p x y = bil n p' x' y'.
Proof. intros P X Y. unfold bil. apply sum_ext. intros i Hi. apply sum_ext. intros j Hj. now rewrite P, X, Y. Qed.
Lemma bil_sym n p x y : symmetric n p -> bil n p x y = bil n p y x.
Proof. intro S. unfold bil. rewrite sum_swap. apply sum_ext. intros i Hi. apply sum_ext. intros j Hj. rewrite (S i j) by auto. ring. Qed.
Lemma bil_lin_r n p x a y b z : bil n p x (fun i => a * y i + b * z i) = a * bil n p x y + b * bil n p x z.
Proof.
  unfold bil. rewrite <- !sum_scal, <- sum_plus. apply sum_ext. intros i _. rewrite <- !sum_scal, <- sum_plus. apply sum_ext. intros j _. ring.
Qed.
Lemma bil_lin_l n p x a y b z : bil n p (fun i => a * y i + b * z i) x = a * bil n p y x + b * bil n p z x.
Proof.
  unfold bil. rewrite <- !sum_scal, <- sum_plus. apply sum_ext. intros i _. rewrite <- !sum_scal, <- sum_plus. apply sum_ext. intros j _. ring.
Qed.
Lemma bil_mat_vec n p x y : bil n p x y = sum n (fun i => x i * mat_vec n p y i).
Proof. unfold bil, mat_vec. apply sum_ext. intros i _. rewrite <- sum_scal. apply sum_ext. intros; ring. Qed.
Lemma bil_vec_mat n p x y : bil n p x y = dot n (vec_mat n x p) y.
Proof. unfold bil, vec_mat, dot. rewrite sum_swap. apply sum_ext. intros i _. rewrite <- sum_scal_r. reflexivity. Qed.
Lemma variance_bil n p x : variance n p x = bil n p x x.
Proof. reflexivity. Qed.
Lemma quad_lin n p x y a b : symmetric n p -> bil n p (fun i => a * x i + b * y i) (fun i => a * x i + b * y i) = a * a * bil n p x x + 2 * (a * b) * bil n p x y + b * b * bil n p y y.
Proof. intro S. rewrite bil_lin_l, !bil_lin_r, (bil_sym n p y x S). ring. Qed.
Lemma zero_or_not n (x : vec) : (exists i, (i < n)%nat /\ x i <> 0) \/ (forall i, (i < n)%nat -> x i = 0).
Proof.
  induction n as [|n [ (i & L & H)|H]]; [right; intros; lia|left; exists i; split; auto; lia|].
  destruct (Req_dec (x n) 0) as [E|E]; [right|left; exists n; split; auto; lia].
  intros i L. destruct (Nat.eq_dec i n) as [->|]; auto. apply H. lia.
Qed.
Lemma bil_zero_r n p x y : (forall i, (i < n)%nat -> y i = 0) -> bil n p x y = 0.
Proof. intro Z. rewrite (bil_ext n p p x x y (fun i => 0 * y i + 0 * y i)); auto; [rewrite bil_lin_r; ring|]. intros. rewrite Z by auto. ring. Qed.
Lemma quad_nonneg n p x : positive n p -> 0 <= bil n p x x.
Proof. intro P. destruct (zero_or_not n x) as [N|Z]; [left; now apply P|]. rewrite (bil_zero_r n p x x Z). lra. Qed.
Lemma cauchy n p x y : symmetric n p -> positive n p -> bil n p x y * bil n p x y <= bil n p x x * bil n p y y.
Proof.
  intros S P. destruct (zero_or_not n y) as [N|Z].
  - pose proof (P y N) as Py. rewrite variance_bil in Py. set (a := bil n p y y) in *. set (b := bil n p x y).
    pose proof (quad_nonneg n p (fun i => a * x i + - b * y i) P) as Q. rewrite quad_lin in Q by auto. fold a b in Q.
    assert (E : a * a * bil n p x x + 2 * (a * - b) * b + - b * - b * a = a * (bil n p x x * a - b * b)) by ring. rewrite E in Q.
    apply (Rmult_le_reg_l a); auto. lra.
  - rewrite !(bil_zero_r n p _ y Z). lra.
Qed.

(** * Correction *)
Lemma corrected_entry n (K Hm : vec) (sigma : mat) i j : (i < n)%nat ->
  mat_mat n (fun i k => identity i k - K i * Hm k) sigma i j = sigma i j - K i * vec_mat n Hm sigma j.
Proof.
  intro L. unfold mat_mat, vec_mat. rewrite (sum_ext _ _ (fun k => identity i k * sigma k j + - K i * (Hm k * sigma k j))) by (intros; ring).
  rewrite sum_plus, sum_delta, sum_scal by auto. ring.
Qed.
Lemma vec_mat_sym n p x i : symmetric n p -> (i < n)%nat -> vec_mat n x p i = mat_vec n p x i.
Proof. intros S L. unfold vec_mat, mat_vec. apply sum_ext. intros j Hj. rewrite (S i j) by auto. ring. Qed.
Section Correct.
  Variables (n : nat) (sigma : mat) (Hm : vec) (q : R).
  Hypothesis S : symmetric n sigma.
  Hypothesis P : positive n sigma.
  Hypothesis Q : 0 < q.
  Let s := dot n (vec_mat n Hm sigma) Hm + q.
  Let K := fun i => mat_vec n sigma Hm i * (1 / s).
  Let sigma' := mat_mat n (fun i k => identity i k - K i * Hm k) sigma.
  Lemma s_bil : s = bil n sigma Hm Hm + q.
  Proof. unfold s. now rewrite bil_vec_mat. Qed.
  Lemma s_pos : 0 < s.
  Proof. rewrite s_bil. pose proof (quad_nonneg n sigma Hm P). lra. Qed.
  Lemma sigma'_entry i j : (i < n)%nat -> (j < n)%nat -> sigma' i j = sigma i j - mat_vec n sigma Hm i * mat_vec n sigma Hm j / s.
  Proof. intros A B. unfold sigma'. rewrite corrected_entry by auto. rewrite vec_mat_sym by auto. unfold K. pose proof s_pos. field. lra. Qed.
  Lemma sigma'_sym : symmetric n sigma'.
  Proof. intros i j A B. rewrite !sigma'_entry by auto. rewrite (S i j) by auto. unfold Rdiv. ring. Qed.
  Lemma sigma'_variance x : variance n sigma' x = bil n sigma x x - bil n sigma x Hm * bil n sigma x Hm / s.
  Proof.
    rewrite variance_bil. unfold bil at 1. rewrite (sum_ext _ _ (fun i => sum n (fun j => x i * sigma i j * x j) + (- (/ s) * (x i * mat_vec n sigma Hm i)) * bil n sigma x Hm)).
    - rewrite sum_plus. fold (bil n sigma x x). rewrite sum_scal_r, sum_scal, <- bil_mat_vec. unfold Rdiv. ring.
    - intros i Hi. rewrite (sum_ext _ _ (fun j => x i * sigma i j * x j + (- (/ s) * (x i * mat_vec n sigma Hm i)) * (x j * mat_vec n sigma Hm j))).
      + rewrite sum_plus, sum_scal, <- bil_mat_vec. reflexivity.
      + intros j Hj. rewrite sigma'_entry by auto. unfold Rdiv. ring.
  Qed.
  Lemma sigma'_pos : positive n sigma'.
  Proof.
    intros x N. rewrite sigma'_variance. pose proof (P x N) as Px. rewrite variance_bil in Px. pose proof (cauchy n sigma x Hm S P) as C. pose proof s_pos as Sp.
    apply (Rmult_lt_reg_r s); auto. unfold Rdiv. rewrite Rmult_minus_distr_r, (Rmult_assoc (_ * _) (/ s)), Rinv_l, Rmult_1_r, Rmult_0_l by lra.
    rewrite s_bil. nra.
  Qed.
  Lemma after_bil (K' x : vec) : let k := sum n (fun i => x i * K' i) in
    variance_after n sigma Hm q K' x = bil n sigma x x - 2 * k * bil n sigma x Hm + k * k * s.
  Proof.
    intro k. unfold variance_after. fold k. rewrite variance_bil, (bil_ext n sigma sigma _ (fun i => 1 * x i + (- k) * Hm i) _ (fun i => 1 * x i + (- k) * Hm i)) by (intros; ring || reflexivity).
    rewrite quad_lin by auto. rewrite s_bil. ring.
  Qed.
  Lemma sigma'_optimal (K' x : vec) : variance n sigma' x <= variance_after n sigma Hm q K' x.
  Proof.
    rewrite after_bil, sigma'_variance. set (k := sum n _). set (b := bil n sigma x Hm). pose proof s_pos as Sp.
    assert (E : bil n sigma x x - 2 * k * b + k * k * s - (bil n sigma x x - b * b / s) = (k * s - b) * (k * s - b) / s) by (field; lra).
    assert (0 <= (k * s - b) * (k * s - b) / s) by (apply Rmult_le_pos; [apply Rle_0_sqr|left; now apply Rinv_0_lt_compat]). lra.
  Qed.
  Lemma sigma'_error x : variance n sigma' x = variance_after n sigma Hm q K x.
  Proof.
    rewrite after_bil, sigma'_variance.
    assert (E : sum n (fun i => x i * K i) = bil n sigma x Hm / s). { unfold K. rewrite (sum_ext _ _ (fun i => (x i * mat_vec n sigma Hm i) * (1 / s))) by (intros; ring). rewrite sum_scal_r, <- bil_mat_vec. unfold Rdiv. ring. }
    rewrite E. pose proof s_pos. field. lra.
  Qed.
End Correct.

Lemma correct_inv n h H q mu sigma z mu' sigma' : symmetric n sigma -> positive n sigma -> 0 < q ->
  correct n h H q mu sigma z = Some (mu', sigma') -> exists Hm, H mu = Some Hm /\ let s := bil n sigma Hm Hm + q in 0 < s /\
  (forall i, mu' i = mu i + mat_vec n sigma Hm i * (1 / s) * (z - h mu)) /\ symmetric n sigma' /\ positive n sigma' /\
  (forall x, variance n sigma' x = bil n sigma x x - bil n sigma x Hm * bil n sigma x Hm / s) /\
  (forall K' x, variance n sigma' x <= variance_after n sigma Hm q K' x) /\
  (forall x, variance n sigma' x = variance_after n sigma Hm q (fun i => mat_vec n sigma Hm i * (1 / s)) x).
Proof.
  intros S P Q. unfold correct. destruct (H mu) as [Hm|] eqn:E; [|discriminate].
  destruct (Req_EM_T _ _) as [|_]; [discriminate|]. intro X. injection X as <- <-. exists Hm. split; auto. cbv zeta. rewrite <- (s_bil n sigma Hm q).
  split; [now apply s_pos|]. split; [reflexivity|]. split; [now apply sigma'_sym|]. split; [now apply sigma'_pos|]. split; [intro; now apply sigma'_variance|].
  split; [intros; now apply sigma'_optimal|]. intro. now apply sigma'_error.
Qed.
Lemma correct_some n h H q mu sigma z Hm : positive n sigma -> 0 < q -> H mu = Some Hm -> correct n h H q mu sigma z <> None.
Proof. intros P Q E. unfold correct. rewrite E. destruct (Req_EM_T _ _) as [X|_]; [|discriminate]. pose proof (s_pos n sigma Hm q P Q). lra. Qed.

(** * Prediction *)
Lemma identity_sym i j : identity i j = identity j i.
Proof. unfold identity. now rewrite Nat.eqb_sym. Qed.
Lemma sum_delta_r n f i : (i < n)%nat -> sum n (fun j => f j * identity j i) = f i.
Proof. intro L. rewrite (sum_ext _ _ (fun j => identity i j * f j)) by (intros; rewrite (identity_sym i); ring). now apply sum_delta. Qed.
Lemma predicted_entry n r mu sigma i j : (i < n)%nat -> (j < n)%nat -> snd (predict n g_default G_default r mu sigma) i j = sigma i j + r i j.
Proof.
  intros A B. cbn. unfold G_default, mat_mat, transpose. rewrite (sum_ext _ _ (fun k => sigma i k * identity k j)).
  - now rewrite sum_delta_r.
  - intros k Hk. rewrite sum_delta by auto. now rewrite identity_sym.
Qed.
Lemma predicted_bil n G r sigma x y : bil n (fun i j => mat_mat n (mat_mat n G sigma) (transpose G) i j + r i j) x y =
  bil n sigma (fun k => sum n (fun i => x i * G i k)) (fun k => sum n (fun i => y i * G i k)) + bil n r x y.
Proof.
  unfold bil at 1. rewrite (sum_ext _ _ (fun i => sum n (fun j => x i * mat_mat n (mat_mat n G sigma) (transpose G) i j * y j) + sum n (fun j => x i * r i j * y j)))
    by (intros; rewrite <- sum_plus; apply sum_ext; intros; ring).
  rewrite sum_plus. fold (bil n r x y). f_equal. fold (bil n (mat_mat n (mat_mat n G sigma) (transpose G)) x y).
  rewrite bil_mat_vec.
  assert (A : forall i, mat_vec n (mat_mat n (mat_mat n G sigma) (transpose G)) y i = sum n (fun k => mat_mat n G sigma i k * sum n (fun j => y j * G j k))).
  { intro i. unfold mat_vec. unfold mat_mat at 1. rewrite (sum_ext _ _ (fun j => sum n (fun k => mat_mat n G sigma i k * transpose G k j * y j))) by (intros; now rewrite sum_scal_r).
    rewrite sum_swap. apply sum_ext. intros k _. rewrite <- sum_scal. apply sum_ext. intros j _. unfold transpose. ring. }
  rewrite (sum_ext _ _ (fun i => sum n (fun k => sum n (fun l => (x i * G i l) * sigma l k * sum n (fun j => y j * G j k))))).
  2: { intros i _. rewrite A, <- sum_scal. apply sum_ext. intros k _. unfold mat_mat. rewrite <- sum_scal_r, <- sum_scal. apply sum_ext. intros; ring. }
  rewrite sum_swap. unfold bil. symmetry. rewrite sum_swap. apply sum_ext. intros k _. symmetry. rewrite sum_swap. apply sum_ext. intros l _.
  rewrite <- !sum_scal_r. apply sum_ext. intros; ring.
Qed.

(** * Distances *)
Lemma uwb_h_distance n a mu : uwb_h n a mu = distance n mu a.
Proof. reflexivity. Qed.
Lemma squares_nonneg n a b : 0 <= sum n (fun i => (a i - b i) * (a i - b i)).
Proof. apply sum_nonneg. intros. apply Rle_0_sqr. Qed.
Lemma distance_zero n a b : distance n a b = 0 -> forall i, (i < n)%nat -> a i = b i.
Proof.
  intros D i L. apply sqrt_eq_0 in D; [|apply squares_nonneg].
  pose proof (sum_zero_inv n _ (fun i _ => Rle_0_sqr (a i - b i)) D i L) as E. apply Rsqr_0_uniq in E. lra.
Qed.
Lemma distance_gradient n a mu Hm : uwb_H n a mu = Some Hm -> gradient n (fun p => distance n p a) mu Hm.
Proof.
  unfold uwb_H. destruct (Req_EM_T _ _) as [|N]; [discriminate|]. intro X. injection X as <-. intro v.
  set (A := sum n (fun i => (mu i - a i) * (mu i - a i))) in *. set (B := sum n (fun i => (mu i - a i) * v i)). set (C := sum n (fun i => v i * v i)).
  assert (A0 : 0 < A). { pose proof (squares_nonneg n mu a) as H. fold A in H. destruct H as [H|H]; auto. exfalso. apply N. unfold uwb_h. fold A. rewrite <- H. apply sqrt_0. }
  assert (E : forall t, sum n (fun i => (mu i + t * v i - a i) * (mu i + t * v i - a i)) = A + 2 * B * t + C * (t * t)).
  { intro t. unfold A, B, C. rewrite (sum_ext _ _ (fun i => (mu i - a i) * (mu i - a i) + (2 * t * ((mu i - a i) * v i) + t * t * (v i * v i)))) by (intros; ring).
    rewrite !sum_plus, !sum_scal. ring. }
  assert (F : sum n (fun i => (mu i - a i) * 1 / uwb_h n a mu * v i) = B / uwb_h n a mu).
  { unfold B. unfold Rdiv. rewrite <- sum_scal_r. apply sum_ext. intros; ring. }
  rewrite F. unfold uwb_h. fold A.
  assert (D : derivable_pt_lim (fun t => A + 2 * B * t + C * (t * t)) 0 (2 * B)).
  { assert (D : derivable_pt_lim (fun t => A + 2 * B * t + C * (t * t)) 0 (0 + 2 * B * 1 + C * (1 * 0 + 0 * 1))); [|replace (0 + 2 * B * 1 + C * (1 * 0 + 0 * 1)) with (2 * B) in D by ring; exact D].
    apply (derivable_pt_lim_plus (fun t => A + 2 * B * t) (fun t => C * (t * t))).
    - apply (derivable_pt_lim_plus (fun _ => A) (fun t => 2 * B * t)); [apply derivable_pt_lim_const|]. apply (derivable_pt_lim_scal id (2 * B)). apply derivable_pt_lim_id.
    - apply (derivable_pt_lim_scal (fun t => t * t) C). apply (derivable_pt_lim_mult id id 0 1 1); apply derivable_pt_lim_id. }
  pose proof (derivable_pt_lim_comp (fun t => A + 2 * B * t + C * (t * t)) sqrt 0 (2 * B) (/ (2 * sqrt A)) D) as G.
  cbv beta in G. replace (A + 2 * B * 0 + C * (0 * 0)) with A in G by ring. specialize (G (derivable_pt_lim_sqrt A A0)).
  assert (0 < sqrt A) by (now apply sqrt_lt_R0). replace (B / sqrt A) with (/ (2 * sqrt A) * (2 * B)) by (field; lra).
  intros eps He. destruct (G eps He) as [d Hd]. exists d. intros hh H1 H2. specialize (Hd hh H1 H2). unfold comp in Hd.
  unfold distance. rewrite !E. exact Hd.
Qed.
Lemma uwb_H_unit n a mu Hm : uwb_H n a mu = Some Hm -> sum n (fun i => Hm i * Hm i) = 1.
Proof.
  unfold uwb_H. destruct (Req_EM_T _ _) as [|N]; [discriminate|]. intro X. injection X as <-.
  set (A := sum n (fun i => (mu i - a i) * (mu i - a i))). unfold uwb_h in *. fold A in N |- *.
  rewrite (sum_ext _ _ (fun i => (mu i - a i) * (mu i - a i) * (/ sqrt A * / sqrt A))) by (intros; field; auto). rewrite sum_scal_r. fold A.
  pose proof (squares_nonneg n mu a) as P. fold A in P. rewrite <- (sqrt_sqrt A P) at 1. field. auto.
Qed.
