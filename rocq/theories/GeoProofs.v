From Coq Require Import ZArith Reals List Bool Lra Lia Psatz.
From Flocq Require Import Core.
From Verif Require Import FloatModel FloatSpec FloatProofs PidSpec GeoModel GeoSpec.
Import ListNotations.
Local Open Scope R_scope.

(** * The exact machine on real numbers *)

Lemma of_int_exact n : of_int exact_fmt n = real (IZR n).
Proof. unfold of_int, real. cbn. now rewrite Rmult_1_r. Qed.
Lemma add_exact x y : add exact_fmt (real x) (real y) = real (x + y). Proof. reflexivity. Qed.
Lemma sub_exact x y : sub exact_fmt (real x) (real y) = real (x - y). Proof. reflexivity. Qed.
Lemma mul_exact x y : mul exact_fmt (real x) (real y) = real (x * y). Proof. reflexivity. Qed.
Lemma neg_exact x : neg exact_fmt (real x) = real (- x). Proof. reflexivity. Qed.
Lemma div_exact x y : y <> 0 -> div exact_fmt (real x) (real y) = real (x / y).
Proof. intro H. unfold real. cbn. destruct (req_spec y 0); [contradiction|reflexivity]. Qed.
Lemma eq_exact x y : eq exact_fmt (real x) (real y) = req x y. Proof. reflexivity. Qed.
Lemma lt_exact x y : lt exact_fmt (real x) (real y) = rlt x y. Proof. reflexivity. Qed.
Lemma fabs_exact x : fabs exact_fmt (real x) = real (Rabs x).
Proof.
  unfold real. cbn. f_equal. destruct (rlt_spec x 0); cbn; f_equal.
  - now rewrite Rabs_left.
  - rewrite Rabs_right; [reflexivity|lra].
Qed.

Ltac ex := rewrite ?of_int_exact, ?add_exact, ?sub_exact, ?mul_exact, ?neg_exact, ?fabs_exact, ?eq_exact, ?lt_exact.
Ltac exs := repeat (progress ex).

Definition sgn (z : R) : Z := if req z 0 then 0%Z else if rlt 0 z then 1%Z else (-1)%Z.
Lemma sign_exact z : sign exact_fmt (real z) = sgn z.
Proof. unfold sign. exs. reflexivity. Qed.
Lemma sgn_pos z : (0 <? sgn z)%Z = rlt 0 z.
Proof. unfold sgn. rcases; try reflexivity; exfalso; lra. Qed.
Lemma sgn_zero z : (sgn z =? 0)%Z = req z 0.
Proof. unfold sgn. rcases; try reflexivity; exfalso; lra. Qed.
Lemma sgn_le z : (sgn z <=? 0)%Z = rle z 0.
Proof. unfold sgn. rcases; try reflexivity; exfalso; lra. Qed.

Definition rdot (a b c : rpoint) : R := (fst a - fst b) * (fst a - fst c) + (snd a - snd b) * (snd a - snd c).
Lemma pscal_exact a b c : vect_pscal_sign exact_fmt (diff exact_fmt (pt a) (pt b)) (diff exact_fmt (pt a) (pt c)) = sgn (rdot a b c).
Proof. unfold vect_pscal_sign, vect_pscal, diff, pt. cbn [fst snd]. exs. apply sign_exact. Qed.
Lemma pvect_exact a b p : vect_pvect_sign exact_fmt (diff exact_fmt (pt b) (pt p)) (diff exact_fmt (pt a) (pt p)) = sgn (- orient a b p).
Proof.
  unfold vect_pvect_sign, vect_pvect, diff, pt. cbn [fst snd]. exs. rewrite sign_exact. f_equal. unfold orient. ring.
Qed.
Lemma same_exact (a b : rpoint) : same exact_fmt (pt a) (pt b) = true <-> a = b.
Proof.
  unfold same, pt. cbn [fst snd]. exs. destruct a as [ax ay], b as [bx by_]. cbn [fst snd].
  destruct (req_spec ax bx), (req_spec ay by_); cbn; split; intro H; try discriminate; try congruence.
Qed.
Lemma too_far_exact x : too_far exact_fmt (real x) = rlt 32768 (Rabs x).
Proof. unfold too_far. exs. reflexivity. Qed.

Lemma sides_seq f (pol : poly f) d : sides f pol =
  map (fun i => (nth i pol d, nth ((i + 1) mod length pol) pol d)) (seq 0 (length pol)).
Proof.
  destruct pol as [|a t]; [reflexivity|]. unfold sides.
  set (g := fun i => (nth i (a :: t) d, nth ((i + 1) mod length (a :: t)) (a :: t) d)).
  assert (L : length (combine (a :: t) (t ++ [a])) = length (map g (seq 0 (length (a :: t))))).
  { rewrite combine_length, map_length, seq_length, app_length. cbn [length]. lia. }
  apply (nth_ext _ _ (d, d) (d, d)); [exact L|]. intros i Hi. rewrite L in Hi.
  rewrite map_length, seq_length in Hi.
  rewrite combine_nth by (rewrite app_length; cbn; lia).
  rewrite (nth_indep _ (d, d) (g 0%nat)) by (rewrite map_length, seq_length; exact Hi).
  rewrite map_nth, seq_nth by exact Hi. cbn [plus]. unfold g. f_equal. cbn [length] in *.
  destruct (Nat.eq_dec i (length t)) as [->|N].
  - replace (length t + 1)%nat with (S (length t)) by lia. rewrite Nat.mod_same by lia.
    rewrite app_nth2, Nat.sub_diag by lia. reflexivity.
  - rewrite Nat.mod_small by lia. rewrite app_nth1 by lia. replace (i + 1)%nat with (S i) by lia. reflexivity.
Qed.

(** Sides of a polygon of real points. *)
Notation V := vertex.
Definition o (pol : list rpoint) (i : nat) (p : rpoint) : R := orient (V pol i) (V pol (next pol i)) p.

Lemma pt_origin : pt (0, 0) = (real 0, real 0). Proof. reflexivity. Qed.
Lemma sides_exact pol : sides exact_fmt (map pt pol) =
  map (fun i => (pt (V pol i), pt (V pol (next pol i)))) (seq 0 (length pol)).
Proof.
  rewrite (sides_seq _ _ (pt (0, 0))), map_length. apply map_ext. intro i. unfold vertex, next.
  now rewrite !(map_nth pt).
Qed.

Lemma next_lt pol i : (3 <= length pol)%nat -> (next pol i < length pol)%nat.
Proof. intro H. unfold next. apply Nat.mod_upper_bound. lia. Qed.
Lemma next_cases pol i : (i < length pol)%nat ->
  (S i < length pol /\ next pol i = S i)%nat \/ (S i = length pol /\ next pol i = 0)%nat.
Proof.
  intro H. unfold next. destruct (Nat.eq_dec (S i) (length pol)) as [E|E].
  - right. split; [exact E|]. rewrite Nat.add_1_r, E. apply Nat.mod_same. lia.
  - left. split; [lia|]. rewrite Nat.mod_small; lia.
Qed.
Definition prev (pol : list rpoint) (i : nat) : nat := match i with O => length pol - 1 | S i => i end.
Lemma prev_next pol i : (3 <= length pol)%nat -> (i < length pol)%nat ->
  (prev pol i < length pol)%nat /\ next pol (prev pol i) = i.
Proof.
  intros H Hi. unfold prev. destruct i as [|i].
  - split; [lia|]. destruct (next_cases pol (length pol - 1)) as [[A _]|[_ ->]]; lia.
  - split; [lia|]. destruct (next_cases pol i) as [[_ ->]|[A _]]; lia.
Qed.

(** * Point in polygon *)

Lemma in_poly_loop_exact p l : forall r,
  (1 <= r <= 2)%Z ->
  let L := in_poly_loop exact_fmt (pt p) (map (fun ab : rpoint * rpoint => (pt (fst ab), pt (snd ab))) l) r in
  (L = 0%Z /\ Exists (fun ab => orient (fst ab) (snd ab) p < 0) l) \/
  (Forall (fun ab => 0 <= orient (fst ab) (snd ab) p) l /\ L = r /\ (r = 1%Z -> Forall (fun ab => 0 < orient (fst ab) (snd ab) p) l)) \/
  (Forall (fun ab => 0 <= orient (fst ab) (snd ab) p) l /\ L = 2%Z /\ Exists (fun ab => orient (fst ab) (snd ab) p = 0) l).
Proof.
  induction l as [|[a b] l IH]; intros r Hr; cbn [map in_poly_loop fst snd].
  - right. left. split; [constructor|]. split; [reflexivity|constructor].
  - rewrite pvect_exact, sgn_pos, sgn_zero. destruct (rlt_spec 0 (- orient a b p)) as [N|N].
    + left. split; [reflexivity|]. constructor. cbn. lra.
    + destruct (req_spec (- orient a b p) 0) as [Z|Z].
      * destruct (IH 2%Z ltac:(lia)) as [[E1 E2]|[[E1 [E2 E3]]|[E1 [E2 E3]]]].
        { left. split; [exact E1|]. now apply Exists_cons_tl. }
        { right. right. split; [constructor; [cbn; lra|exact E1]|]. split; [exact E2|]. constructor. cbn. lra. }
        { right. right. split; [constructor; [cbn; lra|exact E1]|]. split; [exact E2|]. constructor. cbn. lra. }
      * destruct (IH r Hr) as [[E1 E2]|[[E1 [E2 E3]]|[E1 [E2 E3]]]].
        { left. split; [exact E1|]. now apply Exists_cons_tl. }
        { right. left. split; [constructor; [cbn; lra|exact E1]|]. split; [exact E2|].
          intro R1. constructor; [cbn; lra|now apply E3]. }
        { right. right. split; [constructor; [cbn; lra|exact E1]|]. split; [exact E2|]. now apply Exists_cons_tl. }
Qed.

(** What the polygon test computes. *)
Definition all_pos (pol : list rpoint) (p : rpoint) := forall i, (i < length pol)%nat -> 0 < o pol i p.
Definition all_nonneg (pol : list rpoint) (p : rpoint) := forall i, (i < length pol)%nat -> 0 <= o pol i p.

Lemma orient_start a b : orient a b a = 0. Proof. unfold orient. ring. Qed.
Lemma orient_end a b : orient a b b = 0. Proof. unfold orient. ring. Qed.

Lemma vertex_nonneg pol j : convex_ccw pol -> (j < length pol)%nat -> all_nonneg pol (V pol j).
Proof.
  intros [L C] Hj i Hi. unfold o. destruct (Nat.eq_dec j i) as [->|N1]; [rewrite orient_start; lra|].
  destruct (Nat.eq_dec j (next pol i)) as [->|N2]; [rewrite orient_end; lra|]. left. now apply C.
Qed.

Lemma is_in_poly_exact pol p : convex_ccw pol ->
  let r := is_in_poly exact_fmt (pt p) (map pt pol) in
  (r = 1%Z /\ all_pos pol p) \/ (r = 2%Z /\ all_nonneg pol p /\ ~ all_pos pol p) \/ (r = 0%Z /\ ~ all_nonneg pol p).
Proof.
  intros Hc r. unfold r, is_in_poly.
  destruct (existsb (same exact_fmt (pt p)) (map pt pol)) eqn:E.
  - right. left. split; [reflexivity|]. apply existsb_exists in E as (x & Hx & Sx).
    apply in_map_iff in Hx as (v & <- & Hv). apply same_exact in Sx. subst v.
    apply (In_nth _ _ (0, 0)) in Hv as (j & Hj & <-). change (nth j pol (0, 0)) with (V pol j).
    split; [now apply vertex_nonneg|]. intro A. specialize (A j Hj). unfold o in A. rewrite orient_start in A. lra.
  - rewrite sides_exact.
    set (l := map (fun i => (V pol i, V pol (next pol i))) (seq 0 (length pol))).
    replace (map _ (seq 0 (length pol))) with (map (fun ab : rpoint * rpoint => (pt (fst ab), pt (snd ab))) l)
      by (unfold l; rewrite map_map; reflexivity).
    assert (FA : forall P : rpoint * rpoint -> Prop,
      Forall P l <-> forall i, (i < length pol)%nat -> P (V pol i, V pol (next pol i))).
    { intro P. unfold l. rewrite Forall_map, Forall_forall. split; intros H i Hi.
      - apply H, in_seq. lia.
      - apply H. apply in_seq in Hi. lia. }
    assert (EX : forall P : rpoint * rpoint -> Prop,
      Exists P l -> exists i, (i < length pol)%nat /\ P (V pol i, V pol (next pol i))).
    { intros P H. apply Exists_exists in H as (x & Hx & Px). unfold l in Hx.
      apply in_map_iff in Hx as (i & <- & Hi). apply in_seq in Hi. exists i. split; [lia|exact Px]. }
    destruct (in_poly_loop_exact p l 1 ltac:(lia)) as [[E1 E2]|[[E1 [E2 E3]]|[E1 [E2 E3]]]].
    + right. right. split; [exact E1|]. apply EX in E2 as (i & Hi & N). intro A. specialize (A i Hi). unfold o in A.
      cbn in N. lra.
    + left. split; [exact E2|]. specialize (E3 eq_refl). rewrite FA in E3. exact E3.
    + right. left. split; [exact E2|]. rewrite FA in E1. split; [exact E1|]. apply EX in E3 as (i & Hi & N).
      intro A. specialize (A i Hi). unfold o in A. cbn in N. lra.
Qed.

(** * Half planes and convex combinations *)

Lemma orient_combination a b vs : forall ws, length ws = length vs ->
  Forall (fun w => 0 <= w) ws -> (forall v, In v vs -> 0 <= orient a b v) ->
  0 <= total ws * orient a b (0, 0) +
       ((fst b - fst a) * snd (combination ws vs) - (snd b - snd a) * fst (combination ws vs)).
Proof.
  induction vs as [|v vs IH]; intros [|w ws] L Hw Hv; try discriminate; cbn [total combination fst snd]; [lra|].
  inversion Hw as [|? ? H1 H2]; subst. specialize (IH ws ltac:(cbn in L; lia) H2 (fun v I => Hv v (or_intror I))).
  specialize (Hv v (or_introl eq_refl)). assert (0 <= w * orient a b v) by (apply Rmult_le_pos; auto).
  unfold orient in *. cbn [fst snd] in *. lra.
Qed.

Lemma hull_nonneg pol p : convex_ccw pol -> in_hull pol p -> all_nonneg pol p.
Proof.
  intros Hc (ws & L & Hw & T & ->) i Hi. unfold o.
  pose proof (orient_combination (V pol i) (V pol (next pol i)) pol ws L Hw) as H.
  rewrite T in H. unfold orient in *. cbn [fst snd] in *.
  assert (Hv : forall v, In v pol -> 0 <= (fst (V pol (next pol i)) - fst (V pol i)) * (snd v - snd (V pol i)) -
     (snd (V pol (next pol i)) - snd (V pol i)) * (fst v - fst (V pol i))).
  { intros v Hin. apply (In_nth _ _ (0, 0)) in Hin as (j & Hj & <-). apply (vertex_nonneg pol j Hc Hj i Hi). }
  specialize (H Hv). lra.
Qed.

Fixpoint ladd (x y : list R) : list R :=
  match x, y with a :: x, b :: y => (a + b) :: ladd x y | _, _ => [] end.
Lemma ladd_length x : forall y, length x = length y -> length (ladd x y) = length x.
Proof. induction x; intros [|b y] H; cbn in *; auto; try discriminate. Qed.
Lemma comb_ladd vs : forall x y, length x = length vs -> length y = length vs ->
  total (ladd x y) = total x + total y /\
  combination (ladd x y) vs = (fst (combination x vs) + fst (combination y vs), snd (combination x vs) + snd (combination y vs)).
Proof.
  induction vs as [|v vs IH]; intros [|a x] [|b y] Hx Hy; try discriminate; cbn [ladd total combination fst snd].
  - split; [ring|]. f_equal; ring.
  - destruct (IH x y) as [A B]; [cbn in *; lia..|]. rewrite A, B. cbn [fst snd]. split; [ring|]. f_equal; ring.
Qed.
Lemma comb_scale k vs : forall x, length x = length vs ->
  total (map (Rmult k) x) = k * total x /\
  combination (map (Rmult k) x) vs = (k * fst (combination x vs), k * snd (combination x vs)).
Proof.
  induction vs as [|v vs IH]; intros [|a x] Hx; try discriminate; cbn [map total combination fst snd].
  - split; [ring|]. f_equal; ring.
  - destruct (IH x) as [A B]; [cbn in *; lia|]. rewrite A, B. cbn [fst snd]. split; [ring|]. f_equal; ring.
Qed.
Lemma hull_vertex pol j : (j < length pol)%nat -> in_hull pol (V pol j).
Proof.
  revert j. induction pol as [|v pol IH]; intros j H; [cbn in H; lia|].
  destruct j as [|j].
  - exists (1 :: repeat 0 (length pol)). assert (Z : forall vs : list rpoint,
      total (repeat 0 (length vs)) = 0 /\ combination (repeat 0 (length vs)) vs = (0, 0)).
    { induction vs as [|u vs [I1 I2]]; cbn [length repeat total combination]; [auto|]. rewrite I1, I2. cbn.
      split; [ring|f_equal; ring]. }
    split; [cbn; now rewrite repeat_length|]. split.
    + constructor; [lra|]. apply Forall_forall. intros x Hx. apply repeat_spec in Hx. lra.
    + cbn [total combination vertex nth]. destruct (Z pol) as [-> ->]. cbn. split; [ring|].
      destruct v. cbn. f_equal; ring.
  - destruct (IH j ltac:(cbn in H; lia)) as (ws & L & F & T & E). exists (0 :: ws). split; [cbn; lia|].
    split; [constructor; [lra|exact F]|]. cbn [total combination]. rewrite T, <- E.
    split; [ring|]. cbn [vertex nth]. unfold vertex. destruct (nth j pol (0, 0)). cbn. f_equal; ring.
Qed.
Lemma hull_three pol a b c x y z : in_hull pol a -> in_hull pol b -> in_hull pol c ->
  0 <= x -> 0 <= y -> 0 <= z -> x + y + z = 1 ->
  in_hull pol (x * fst a + y * fst b + z * fst c, x * snd a + y * snd b + z * snd c).
Proof.
  intros (wa & La & Fa & Ta & ->) (wb & Lb & Fb & Tb & ->) (wc & Lc & Fc & Tc & ->) Hx Hy Hz S.
  set (la := map (Rmult x) wa). set (lb := map (Rmult y) wb). set (lc := map (Rmult z) wc).
  assert (A : length la = length pol) by (unfold la; now rewrite map_length).
  assert (B : length lb = length pol) by (unfold lb; now rewrite map_length).
  assert (C : length lc = length pol) by (unfold lc; now rewrite map_length).
  assert (D : length (ladd la lb) = length pol) by (rewrite ladd_length; congruence).
  exists (ladd (ladd la lb) lc). split; [rewrite ladd_length; congruence|].
  assert (Fs : forall k w, 0 <= k -> Forall (fun w => 0 <= w) w -> Forall (fun w => 0 <= w) (map (Rmult k) w)).
  { intros k w Hk Fw. rewrite Forall_map. eapply Forall_impl; [|exact Fw]. intros u Hu. now apply Rmult_le_pos. }
  assert (Fl : forall u w, Forall (fun w => 0 <= w) u -> Forall (fun w => 0 <= w) w -> Forall (fun w => 0 <= w) (ladd u w)).
  { induction u as [|p u IHu]; intros [|q w] F1 F2; cbn; auto. inversion F1; inversion F2; subst. constructor; [lra|auto]. }
  split; [apply Fl; [apply Fl|]; apply Fs; auto|].
  destruct (comb_ladd pol (ladd la lb) lc D C) as [-> ->]. destruct (comb_ladd pol la lb A B) as [-> ->]. cbn [fst snd].
  destruct (comb_scale x pol wa La) as [E1 E2]. destruct (comb_scale y pol wb Lb) as [E3 E4].
  destruct (comb_scale z pol wc Lc) as [E5 E6]. fold la in E1, E2. fold lb in E3, E4. fold lc in E5, E6.
  rewrite E1, E2, E3, E4, E5, E6, Ta, Tb, Tc. cbn [fst snd]. split; [lra|reflexivity].
Qed.

(** The fan of triangles from the first vertex. *)
Lemma sign_change (s : nat -> R) n : forall a, 0 <= s a -> s (a + n)%nat <= 0 -> (1 <= n)%nat ->
  exists j, (a <= j < a + n)%nat /\ 0 <= s j /\ s (S j) <= 0.
Proof.
  induction n as [|n IH]; intros a Ha Hn L; [lia|].
  destruct (Nat.eq_dec n 0) as [->|N].
  - exists a. rewrite Nat.add_1_r in Hn. split; [lia|]. auto.
  - destruct (Rle_dec 0 (s (S a))) as [P|P].
    + destruct (IH (S a) P) as (j & Hj & A & B); [replace (S a + n)%nat with (a + S n)%nat by lia; auto|lia|].
      exists j. split; [lia|]. auto.
    + exists a. split; [lia|]. split; [exact Ha|lra].
Qed.

Lemma nonneg_hull pol p : convex_ccw pol -> all_nonneg pol p -> in_hull pol p.
Proof.
  intros Hc Hp. destruct Hc as [L C]. set (n := length pol) in *.
  set (s := fun j => orient (V pol 0) (V pol j) p).
  assert (S1 : 0 <= s 1%nat).
  { specialize (Hp 0%nat ltac:(lia)). unfold o in Hp. destruct (next_cases pol 0 ltac:(lia)) as [[_ E]|[E _]]; [|lia].
    rewrite E in Hp. exact Hp. }
  assert (Sn : s (1 + (n - 2))%nat <= 0).
  { specialize (Hp (n - 1)%nat ltac:(lia)). unfold o in Hp.
    destruct (next_cases pol (n - 1) ltac:(fold n; lia)) as [[E _]|[_ E]]; [fold n in E; lia|].
    rewrite E in Hp. replace (1 + (n - 2))%nat with (n - 1)%nat by lia. unfold s. unfold orient in *. lra. }
  destruct (sign_change s (n - 2) 1 S1 Sn ltac:(lia)) as (j & Hj & A & B).
  specialize (Hp j ltac:(lia)). unfold o in Hp.
  destruct (next_cases pol j ltac:(fold n; lia)) as [[_ E]|[E _]]; [|fold n in E; lia].
  assert (D : 0 < orient (V pol j) (V pol (S j)) (V pol 0)).
  { rewrite <- E. apply C; lia. }
  rewrite E in Hp. unfold s in A, B.
  set (v0 := V pol 0) in *. set (v1 := V pol j) in *. set (v2 := V pol (S j)) in *.
  set (K := orient v1 v2 v0) in *.
  pose proof (Rinv_0_lt_compat K D) as IK.
  replace p with (orient v1 v2 p * / K * fst v0 + (- orient v0 v2 p) * / K * fst v1 + orient v0 v1 p * / K * fst v2,
                  orient v1 v2 p * / K * snd v0 + (- orient v0 v2 p) * / K * snd v1 + orient v0 v1 p * / K * snd v2).
  - apply hull_three.
    1-3: apply hull_vertex; fold n; lia.
    1-3: apply Rmult_le_pos; lra.
    rewrite <- !Rmult_plus_distr_r. replace (orient v1 v2 p + - orient v0 v2 p + orient v0 v1 p) with K
      by (unfold K, orient; ring). now apply Rinv_r, Rgt_not_eq.
  - assert (KN : K <> 0) by lra. destruct p as [px py]. f_equal.
    + apply Rmult_eq_reg_l with K; [|exact KN].
      transitivity (orient v1 v2 (px, py) * fst v0 * (K * / K) + - orient v0 v2 (px, py) * fst v1 * (K * / K) + orient v0 v1 (px, py) * fst v2 * (K * / K)); [ring|].
      rewrite Rinv_r by exact KN. unfold K, orient. cbn [fst snd]. ring.
    + apply Rmult_eq_reg_l with K; [|exact KN].
      transitivity (orient v1 v2 (px, py) * snd v0 * (K * / K) + - orient v0 v2 (px, py) * snd v1 * (K * / K) + orient v0 v1 (px, py) * snd v2 * (K * / K)); [ring|].
      rewrite Rinv_r by exact KN. unfold K, orient. cbn [fst snd]. ring.
Qed.

Lemma hull_iff pol p : convex_ccw pol -> (in_hull pol p <-> all_nonneg pol p).
Proof. intro H. split; [now apply hull_nonneg|now apply nonneg_hull]. Qed.

(** A positive side stays positive in a neighbourhood, for all the sides at once. *)
Lemma neighbourhood (n : nat) (g : nat -> rpoint * rpoint) p :
  (forall i, (i < n)%nat -> 0 < orient (fst (g i)) (snd (g i)) p) ->
  exists eps, 0 < eps /\ forall q, Rabs (fst q - fst p) < eps -> Rabs (snd q - snd p) < eps ->
    forall i, (i < n)%nat -> 0 < orient (fst (g i)) (snd (g i)) q.
Proof.
  induction n as [|n IH]; intro H; [exists 1; split; [lra|]; intros; lia|].
  destruct IH as (e1 & P1 & N1); [intros; apply H; lia|].
  set (a := fst (g n)). set (b := snd (g n)). specialize (H n ltac:(lia)). fold a b in H.
  set (M := Rabs (fst b - fst a) + Rabs (snd b - snd a) + 1).
  assert (PM : 0 < M) by (unfold M; pose proof (Rabs_pos (fst b - fst a)); pose proof (Rabs_pos (snd b - snd a)); lra).
  set (e2 := orient a b p / M).
  assert (P2 : 0 < e2) by (unfold e2; apply Rdiv_lt_0_compat; auto).
  exists (Rmin e1 e2). split; [now apply Rmin_pos|]. intros q Hx Hy i Hi.
  pose proof (Rmin_l e1 e2). pose proof (Rmin_r e1 e2).
  destruct (Nat.eq_dec i n) as [->|N]; [|apply N1; solve [lra|lia]].
  fold a b. assert (Q : orient a b q = orient a b p + (fst b - fst a) * (snd q - snd p) - (snd b - snd a) * (fst q - fst p))
    by (unfold orient; ring).
  assert (B1 : Rabs ((fst b - fst a) * (snd q - snd p)) <= Rabs (fst b - fst a) * e2).
  { rewrite Rabs_mult. apply Rmult_le_compat_l; [apply Rabs_pos|lra]. }
  assert (B2 : Rabs ((snd b - snd a) * (fst q - fst p)) <= Rabs (snd b - snd a) * e2).
  { rewrite Rabs_mult. apply Rmult_le_compat_l; [apply Rabs_pos|lra]. }
  apply Rabs_le_inv in B1. apply Rabs_le_inv in B2.
  assert (E : M * e2 = orient a b p) by (unfold e2; field; lra). unfold M in E. nra.
Qed.

Lemma inside_iff pol p : convex_ccw pol -> (strictly_inside pol p <-> all_pos pol p).
Proof.
  intro Hc. split.
  - intros (eps & Pe & H) i Hi.
    destruct (Rlt_dec 0 (o pol i p)) as [|N]; [assumption|exfalso]. unfold o in N.
    set (a := V pol i) in *. set (b := V pol (next pol i)) in *.
    set (M := Rabs (fst b - fst a) + Rabs (snd b - snd a) + 1).
    assert (PM : 0 < M) by (unfold M; pose proof (Rabs_pos (fst b - fst a)); pose proof (Rabs_pos (snd b - snd a)); lra).
    set (k := eps / M). assert (Pk : 0 < k) by (unfold k; now apply Rdiv_lt_0_compat).
    assert (Ek : k * M = eps) by (unfold k; field; lra). unfold M in Ek.
    set (q := (fst p + k * (snd b - snd a), snd p - k * (fst b - fst a))).
    assert (Hq : in_hull pol q).
    { apply H; unfold q; cbn [fst snd].
      - replace (fst p + k * (snd b - snd a) - fst p) with (k * (snd b - snd a)) by ring.
        rewrite Rabs_mult, (Rabs_right k) by lra.
        pose proof (Rabs_pos (fst b - fst a)). assert (0 <= k * Rabs (fst b - fst a)) by (apply Rmult_le_pos; lra). lra.
      - replace (snd p - k * (fst b - fst a) - snd p) with (- (k * (fst b - fst a))) by ring.
        rewrite Rabs_Ropp, Rabs_mult, (Rabs_right k) by lra.
        pose proof (Rabs_pos (snd b - snd a)). assert (0 <= k * Rabs (snd b - snd a)) by (apply Rmult_le_pos; lra). lra. }
    apply (hull_nonneg pol q Hc) in Hq. specialize (Hq i Hi). unfold o in Hq. fold a b in Hq.
    assert (E : orient a b q = orient a b p - k * ((fst b - fst a) * (fst b - fst a) + (snd b - snd a) * (snd b - snd a)))
      by (unfold orient, q; cbn [fst snd]; ring).
    assert (D : 0 < (fst b - fst a) * (fst b - fst a) + (snd b - snd a) * (snd b - snd a)).
    { pose proof (Rle_0_sqr (fst b - fst a)). pose proof (Rle_0_sqr (snd b - snd a)). unfold Rsqr in *.
      destruct (Req_dec (fst b - fst a) 0) as [Z1|Z1]; [|pose proof (Rsqr_pos_lt _ Z1); unfold Rsqr in *; lra].
      destruct (Req_dec (snd b - snd a) 0) as [Z2|Z2]; [|pose proof (Rsqr_pos_lt _ Z2); unfold Rsqr in *; lra]. exfalso.
      destruct Hc as [L C].
      assert (EJ : exists j, (j < length pol)%nat /\ j <> i /\ j <> next pol i).
      { destruct (next_cases pol i Hi) as [[A1 ->]|[A1 ->]].
        - destruct i as [|i]; [exists 2%nat; lia|exists i; lia].
        - exists 1%nat. lia. }
      destruct EJ as (j & Hj & J1 & J2). specialize (C i j Hi Hj J1 J2). fold a b in C. unfold orient in C.
      rewrite Z1, Z2 in C. lra. }
    assert (0 < k * ((fst b - fst a) * (fst b - fst a) + (snd b - snd a) * (snd b - snd a))) by (apply Rmult_lt_0_compat; auto).
    lra.
  - intro H. destruct (neighbourhood (length pol) (fun i => (V pol i, V pol (next pol i))) p H) as (eps & Pe & N).
    exists eps. split; [exact Pe|]. intros q Hx Hy. apply nonneg_hull; [exact Hc|].
    intros i Hi. left. apply (N q Hx Hy i Hi).
Qed.
