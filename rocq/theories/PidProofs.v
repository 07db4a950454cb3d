(** Proofs about the PID controller and the filters. *)
From Coq Require Import ZArith Reals List Bool Lra Lia.
From Flocq Require Import Core IEEE754.BinarySingleNaN.
From Verif Require Import CBase CRes FloatModel FloatSpec FloatProofs PidModel PidSpec.
Import ListNotations.
Local Open Scope R_scope.

(** Limiting, for any ordered floating type. *)
Lemma limit_gen (M : machine) (val : num (F M) -> option ereal) : ordered (F M) val ->
  forall x min max v a b, val x = Some v -> val min = Some a -> val max = Some b -> ele a b ->
  exists r, val (filter_limit M x min max) = Some r /\ within a r b /\ (within a v b -> filter_limit M x min max = x).
Proof.
  intros [Hlt Hneg] x min max v a b Ev Ea Eb Hab. unfold filter_limit.
  rewrite !Hlt, Ev, Ea, Eb.
  destruct (xlt (Some b) (Some v)) eqn:L1.
  - exists b. repeat split; auto using ele_refl. intros [_ H].
    apply xlt_false in H. congruence.
  - apply xlt_false in L1. destruct (xlt (Some v) (Some a)) eqn:L2.
    + exists a. repeat split; auto using ele_refl. intros [H _].
      apply xlt_false in H. congruence.
    + apply xlt_false in L2. exists v. repeat split; auto.
Qed.

(** One step of the integrator. *)
Lemma integrator_step (p : pid ieee) e :
  integrator ieee (fst (pid_process ieee p e)) =
  filter_limit_sym ieee (add binary32 (integrator ieee p) e) (integrator_limit ieee p).
Proof. reflexivity. Qed.

Lemma limit_step (p : pid ieee) e :
  integrator_limit ieee (fst (pid_process ieee p e)) = integrator_limit ieee p.
Proof. reflexivity. Qed.

Lemma value_of_zero : value (of_int ieee 0) = Some (Real 0).
Proof. reflexivity. Qed.

Lemma process_bounded (p : pid ieee) e l : value (integrator_limit ieee p) = Some l -> ele (Real 0) l ->
  value (add binary32 (integrator ieee p) e) <> None ->
  exists i, value (integrator ieee (fst (pid_process ieee p e))) = Some i /\ bounded_by l i.
Proof.
  intros El Hl N. rewrite integrator_step.
  destruct (value (add binary32 (integrator ieee p) e)) as [v|] eqn:Ev; [|congruence].
  destruct (limit_gen ieee value binary32_ordered _ (neg binary32 (integrator_limit ieee p))
              (integrator_limit ieee p) v (eneg l) l Ev) as (r & Er & Hr & _); auto.
  - destruct binary32_ordered as [_ Hn]. rewrite Hn, El. reflexivity.
  - now apply eneg_nonneg.
  - exists r. auto.
Qed.

Lemma num_Some (x : num binary32) : value x <> None -> exists v, value x = Some v.
Proof. destruct (value x); [eauto|congruence]. Qed.

(** Invariant with real errors. *)
Definition inv_real (p : pid ieee) : Prop :=
  value (integrator ieee p) <> None /\
  exists l, value (integrator_limit ieee p) = Some l /\ ele (Real 0) l.

Lemma inv_real_step p o : sane o -> inv_real p -> inv_real (pid_step ieee p o).
Proof.
  intros Ho (Hi & l & El & Hl). destruct o as [e|a b c|m|f|]; cbn [pid_step sane] in *.
  - destruct Ho as [r Er].
    assert (N : value (add binary32 (integrator ieee p) e) <> None)
      by (apply (ieee_add_num_r 24 128 _ _ _ _ r); auto).
    destruct (process_bounded p e l El Hl N) as (i & Ei & _).
    split; [rewrite Ei; discriminate|]. exists l. now rewrite limit_step.
  - split; [exact Hi|]. exists l. auto.
  - split; [exact Hi|]. destruct Ho as (v & Ev & Hv). exists v. auto.
  - split; [exact Hi|]. exists l. auto.
  - split; [|exists l; auto]. cbn. discriminate.
Qed.

Lemma inv_real_run ops : forall p, Forall sane ops -> inv_real p -> inv_real (pid_run ieee p ops).
Proof.
  induction ops as [|o ops IH]; intros p H I; [exact I|].
  inversion H; subst. cbn. apply IH; auto. apply inv_real_step; auto.
Qed.

Lemma inv_fin_step p o : sane_finite_limit o -> finite_state p -> finite_state (pid_step ieee p o).
Proof.
  intros Ho ((i & Ei) & l & El & Hl). destruct o as [e|a b c|m|f|]; cbn [pid_step sane_finite_limit] in *.
  - assert (N : value (add binary32 (integrator ieee p) e) <> None)
      by (apply (ieee_add_num 24 128 _ _ _ _ i); auto).
    destruct (process_bounded p e (Real l) El Hl N) as (j & Ej & Hj).
    split.
    + rewrite Ej. destruct j; try (exfalso; destruct Hj; contradiction). eauto.
    + exists l. now rewrite limit_step.
  - split; eauto.
  - split; eauto.
  - split; eauto.
  - split; [|eauto]. exists 0. reflexivity.
Qed.

Lemma inv_fin_run ops : forall p, Forall sane_finite_limit ops -> finite_state p -> finite_state (pid_run ieee p ops).
Proof.
  induction ops as [|o ops IH]; intros p H I; [exact I|].
  inversion H; subst. cbn. apply IH; auto. apply inv_fin_step; auto.
Qed.

Lemma pid_run_snoc M p ops o : pid_run M p (ops ++ [o]) = pid_step M (pid_run M p ops) o.
Proof. unfold pid_run. now rewrite fold_left_app. Qed.

(** NaN in the integrator stays there. *)
Lemma nan_process (p : pid ieee) e : value (integrator ieee p) = None \/ value e = None ->
  value (integrator ieee (fst (pid_process ieee p e))) = None.
Proof.
  intro H. rewrite integrator_step.
  assert (N : value (add binary32 (integrator ieee p) e) = None).
  { destruct H; [now apply ieee_add_nan | now apply ieee_add_nan_r]. }
  unfold filter_limit_sym, filter_limit. destruct binary32_ordered as [Hlt _].
  change (F ieee) with binary32.
  rewrite !Hlt, N.
  replace (xlt (value (integrator_limit ieee p)) None) with false
    by (destruct (value (integrator_limit ieee p)) as [[]|]; reflexivity).
  exact N.
Qed.

(** * The machine without rounding *)

Ltac xreal := cbn [xadd xneg xmul xlt xeq option_map eneg].

Lemma exact_process kp ki kd i f p e :
  f <> 0 ->
  let s := {| PidModel.kp := real kp; PidModel.ki := real ki; PidModel.kd := real kd;
              integrator := real i; integrator_limit := Some PInf;
              previous_error := real p; frequency := real f |} : pid exact in
  pid_process exact s (real e) =
  ({| PidModel.kp := real kp; PidModel.ki := real ki; PidModel.kd := real kd;
      integrator := real (i + e); integrator_limit := Some PInf;
      previous_error := real e; frequency := real f |}, real (pid_law kp ki kd f (i + e) p e)).
Proof.
  intros Hf s. unfold pid_process, s, real. cbn.
  destruct (req_spec f 0); [contradiction|]. cbn.
  f_equal. f_equal. f_equal. unfold pid_law. field. auto.
Qed.

(** * IIR filter *)

Lemma dot_nil_r c : dot c [] = 0.
Proof. destruct c; reflexivity. Qed.

Lemma dot_skip (c : list R) v i x : (i < length c)%nat ->
  dot (skipn i c) (x :: v) = nth i c 0 * x + dot (skipn (S i) c) v.
Proof.
  revert i. induction c as [|y c IH]; intros i Hi; [cbn in Hi; lia|].
  destruct i as [|i]; cbn [skipn].
  - cbn [dot nth]. reflexivity.
  - cbn in Hi. rewrite IH by lia. reflexivity.
Qed.

Lemma dot_beyond (c : list R) v i : (length c <= i)%nat -> dot (skipn i c) v = 0.
Proof. intro H. rewrite skipn_all2 by lia. reflexivity. Qed.

Lemma get_real l i : (i < length l)%nat -> get (map real l) i = OK (real (nth i l 0)).
Proof.
  intro H. unfold get. rewrite nth_error_map.
  rewrite (nth_error_nth' l 0) by auto. reflexivity.
Qed.

Lemma put_real l i x : (i < length l)%nat -> put (map real l) i (real x) = OK (map real (upd l i x)).
Proof.
  intro H. unfold put. rewrite map_length.
  destruct (Nat.ltb_spec i (length l)); [|lia]. f_equal.
  clear H H0. revert i. induction l as [|y l IH]; intros [|i]; cbn; auto. now rewrite IH.
Qed.

Lemma nth_updR (l : list R) i x j : (i < length l)%nat ->
  nth j (upd l i x) 0 = if Nat.eqb j i then x else nth j l 0.
Proof.
  revert i j. induction l as [|y l IH]; intros i j H; [cbn in H; lia|].
  destruct i, j; cbn; auto. cbn in H. apply IH. lia.
Qed.

Definition olist (a : option (list R)) : list R := match a with Some a => a | None => [] end.

Lemma iir_loop_real b a x y k : forall i d,
  (i + k < length d)%nat -> (length d < length b)%nat ->
  (forall l, a = Some l -> length l = length d) ->
  exists d', iir_loop exact (map real b) (option_map (map real) a) (real x) (real y) (map real d) i k
             = OK (map real d') /\ length d' = length d /\
    forall j, nth j d' 0 = if (i <=? j)%nat && (j <? i + k)%nat
                           then nth (S j) b 0 * x - nth j (olist a) 0 * y + nth (S j) d 0
                           else nth j d 0.
Proof.
  induction k as [|k IH]; intros i d Hi Hb Ha.
  - exists d. split; [reflexivity|]. split; [reflexivity|]. intro j.
    destruct (Nat.leb_spec i j), (Nat.ltb_spec j (i + 0)); cbn; auto; lia.
  - set (v := nth (S i) b 0 * x - nth i (olist a) 0 * y + nth (S i) d 0).
    assert (E : iir_loop exact (map real b) (option_map (map real) a) (real x) (real y) (map real d) i (S k)
            = iir_loop exact (map real b) (option_map (map real) a) (real x) (real y) (map real (upd d i v)) (S i) k).
    { cbn [iir_loop]. rewrite (get_real b), (get_real d) by lia. cbn [rbind].
      destruct a as [l|]; cbn [option_map].
      - specialize (Ha l eq_refl). rewrite (get_real l) by lia. cbn [rbind].
        replace (add (F exact) _ _) with (real v).
        + cbn [rbind]. rewrite put_real by lia. reflexivity.
        + unfold v, real, olist. cbn. f_equal.
      - replace (add (F exact) _ _) with (real v).
        + cbn [rbind]. rewrite put_real by lia. reflexivity.
        + unfold v, real, olist. cbn. f_equal. f_equal. destruct i; ring. }
    rewrite E.
    destruct (IH (S i) (upd d i v)) as (d' & E' & L & N).
    + rewrite upd_length. lia.
    + rewrite upd_length. lia.
    + intros l Hl. rewrite upd_length. auto.
    + exists d'. split; [exact E'|]. split; [rewrite L; apply upd_length|].
      intro j. rewrite N. rewrite !nth_updR by lia.
      destruct (Nat.leb_spec (S i) j), (Nat.ltb_spec j (S i + k)); cbn [andb].
      * destruct (Nat.leb_spec i j); [|lia]. destruct (Nat.ltb_spec j (i + S k)); [|lia].
        cbn [andb]. destruct (Nat.eqb_spec (S j) i); [lia|]. reflexivity.
      * destruct (Nat.leb_spec i j); [|lia]. destruct (Nat.ltb_spec j (i + S k)); [lia|].
        cbn [andb]. destruct (Nat.eqb_spec j i); [lia|]. reflexivity.
      * destruct (Nat.eqb_spec j i) as [->|].
        -- destruct (Nat.leb_spec i i); [|lia]. destruct (Nat.ltb_spec i (i + S k)); [|lia]. reflexivity.
        -- destruct (Nat.leb_spec i j); [lia|]. reflexivity.
      * lia.
Qed.

(** The delay line after the inputs [hx] and outputs [hy], newest first. *)
Definition delays (b a hx hy d : list R) : Prop :=
  forall i, (i < length d)%nat -> nth i d 0 = dot (skipn (S i) b) hx - dot (skipn i a) hy.

Lemma dot_skip' (c : list R) v i x :
  dot (skipn i c) (x :: v) = nth i c 0 * x + dot (skipn (S i) c) v.
Proof.
  destruct (Nat.lt_ge_cases i (length c)).
  - now apply dot_skip.
  - rewrite !dot_beyond by lia. rewrite nth_overflow by lia. ring.
Qed.

Lemma iir_apply_real b a d hx hy x :
  (0 < length d)%nat -> length b = S (length d) -> (forall l, a = Some l -> length l = length d) ->
  delays b (olist a) hx hy d ->
  exists d' y, filter_iir_apply exact
      {| ii_b := map real b; ii_a := option_map (map real) a; ii_d := map real d |} (real x)
    = OK ({| ii_b := map real b; ii_a := option_map (map real) a; ii_d := map real d' |}, real y) /\
    length d' = length d /\ y = dot b (x :: hx) - dot (olist a) hy /\
    delays b (olist a) (x :: hx) (y :: hy) d'.
Proof.
  intros Hn Hb Ha Hd.
  set (n := length d) in *.
  set (y := nth 0 b 0 * x + nth 0 d 0).
  destruct (iir_loop_real b a x y (n - 1) 0 d) as (d1 & E1 & L1 & N1); [lia|lia|auto|].
  set (v := nth n b 0 * x - nth (n - 1) (olist a) 0 * y).
  exists (upd d1 (n - 1) v), y.
  split.
  { unfold filter_iir_apply. cbn [ii_b ii_a ii_d]. rewrite map_length. fold n.
    rewrite (get_real b), (get_real d) by lia. cbn [rbind].
    replace (add (F exact) _ _) with (real y) by reflexivity.
    rewrite E1. cbn [rbind]. rewrite (get_real b) by lia. cbn [rbind].
    destruct a as [l|]; cbn [option_map].
    - specialize (Ha l eq_refl). rewrite (get_real l) by lia. cbn [rbind].
      replace (sub (F exact) _ _) with (real v) by reflexivity.
      cbn [rbind]. rewrite put_real by lia. reflexivity.
    - replace (mul (F exact) _ _) with (real v).
      + cbn [rbind]. rewrite put_real by lia. reflexivity.
      + unfold v, real, olist. cbn. f_equal. f_equal. destruct (n - 1)%nat; ring. }
  split; [rewrite upd_length; exact L1|].
  assert (Ey : y = dot b (x :: hx) - dot (olist a) hy).
  { unfold y. rewrite (Hd 0%nat) by lia.
    change (dot b (x :: hx)) with (dot (skipn 0 b) (x :: hx)). rewrite dot_skip'. cbn [skipn]. ring. }
  split; [exact Ey|].
  intros i Hi. rewrite upd_length, L1 in Hi. rewrite nth_updR by lia.
  rewrite !dot_skip'. destruct (Nat.eqb_spec i (n - 1)) as [->|Ne].
  - unfold v. replace (S (n - 1)) with n by lia.
    rewrite (dot_beyond b) by lia.
    rewrite (dot_beyond (olist a)).
    + ring.
    + destruct a as [l|]; cbn; [rewrite (Ha l eq_refl); lia | lia].
  - rewrite N1. destruct (Nat.leb_spec 0 i); [|lia]. destruct (Nat.ltb_spec i (0 + (n - 1))); [|lia].
    cbn [andb]. rewrite (Hd (S i)) by lia. ring.
Qed.

Lemma iir_run_real b a : forall xs d hx hy,
  (0 < length d)%nat -> length b = S (length d) -> (forall l, a = Some l -> length l = length d) ->
  delays b (olist a) hx hy d -> difference_equation b (olist a) hx hy ->
  exists ys, iir_run exact {| ii_b := map real b; ii_a := option_map (map real) a; ii_d := map real d |}
               (map real xs) = OK (map real ys) /\
    difference_equation b (olist a) (rev xs ++ hx) (rev ys ++ hy).
Proof.
  induction xs as [|x xs IH]; intros d hx hy Hn Hb Ha Hd Hq.
  - exists []. split; [reflexivity | exact Hq].
  - destruct (iir_apply_real b a d hx hy x Hn Hb Ha Hd) as (d' & y & E & L & Ey & Hd').
    destruct (IH d' (x :: hx) (y :: hy)) as (ys & Es & Q); try (rewrite L); auto.
    + split; auto.
    + exists (y :: ys). split.
      * cbn [iir_run map]. rewrite E. cbn [rbind fst snd]. rewrite Es. reflexivity.
      * cbn [rev]. rewrite <- !app_assoc. exact Q.
Qed.

(** * Means *)

Lemma fold_add_real l : forall acc,
  fold_left (fun ret x => add (F exact) ret x) (map real l) (real acc) = real (acc + sum l).
Proof.
  induction l as [|x l IH]; intro acc; cbn [map fold_left].
  - unfold sum. cbn [fold_right]. now rewrite Rplus_0_r.
  - change (add (F exact) (real acc) (real x)) with (real (acc + x)). rewrite IH.
    unfold sum. cbn. now rewrite Rplus_assoc.
Qed.

Lemma sum_bounds lo hi l : Forall (fun x => lo <= x <= hi) l ->
  INR (length l) * lo <= sum l <= INR (length l) * hi.
Proof.
  induction 1 as [|x l Hx _ IH].
  - cbn. lra.
  - change (length (x :: l)) with (S (length l)). rewrite S_INR.
    change (sum (x :: l)) with (x + sum l). lra.
Qed.

Lemma fold_int_sum l : forall acc,
  (Forall is_int16 l -> -32768 * (65535 - Z.of_nat (length l)) <= acc <= 32768 * (65535 - Z.of_nat (length l)) ->
   Z.of_nat (length l) <= 65535 ->
   fold_left (fun r x => try r := r in int (r + x)) l (OK acc) = OK (acc + zsum l))%Z.
Proof.
  induction l as [|x l IH]; intros acc H Ha Hl.
  - cbn. f_equal. lia.
  - inversion H as [|? ? Hx Hl']; subst. unfold is_int16 in Hx.
    change (length (x :: l)) with (S (length l)) in Ha, Hl.
    cbn [fold_left rbind]. rewrite int_ok by lia.
    rewrite IH; auto; try lia. f_equal. change (zsum (x :: l)) with (x + zsum l)%Z. lia.
Qed.

Lemma zsum_bounds lo hi l : (Forall (fun x => lo <= x <= hi) l ->
  Z.of_nat (length l) * lo <= zsum l <= Z.of_nat (length l) * hi)%Z.
Proof.
  induction 1 as [|x l Hx _ IH].
  - cbn. lia.
  - change (length (x :: l)) with (S (length l)). change (zsum (x :: l)) with (x + zsum l)%Z. nia.
Qed.
