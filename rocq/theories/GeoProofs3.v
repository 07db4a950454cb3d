From Coq Require Import ZArith Reals List Bool Lra Lia Psatz.
From Flocq Require Import Core.
From Verif Require Import FloatModel FloatSpec FloatProofs PidSpec GeoModel GeoSpec GeoProofs GeoProofs2.
Import ListNotations.
Local Open Scope R_scope.
Notation V := vertex.

(** * Sides of a convex polygon *)

Lemma side_distinct pol i : convex_ccw pol -> (i < length pol)%nat -> V pol i <> V pol (next pol i).
Proof.
  intros [L C] Hi E.
  assert (EJ : exists j, (j < length pol)%nat /\ j <> i /\ j <> next pol i).
  { destruct (next_cases pol i Hi) as [[A1 ->]|[A1 ->]].
    - destruct i as [|i]; [exists 2%nat; lia|exists i; lia].
    - exists 1%nat. lia. }
  destruct EJ as (j & Hj & J1 & J2). specialize (C i j Hi Hj J1 J2). rewrite <- E in C. unfold orient in C. lra.
Qed.

(** A point of the open side [i] is strictly to the left of the other sides. *)
Lemma open_side pol i j u : convex_ccw pol -> (i < length pol)%nat -> (j < length pol)%nat -> j <> i -> 0 < u < 1 ->
  0 < o pol j (between (V pol i) (V pol (next pol i)) u).
Proof.
  intros Hc Hi Hj N Hu. unfold o. rewrite orient_between.
  pose proof (vertex_nonneg pol i Hc Hi j Hj) as A. unfold o in A.
  pose proof (next_lt pol i (proj1 Hc)) as Hn.
  pose proof (vertex_nonneg pol (next pol i) Hc Hn j Hj) as B. unfold o in B.
  set (x := orient (V pol j) (V pol (next pol j)) (V pol i)) in *.
  set (y := orient (V pol j) (V pol (next pol j)) (V pol (next pol i))) in *.
  assert (P : 0 < x \/ 0 < y).
  { destruct (Nat.eq_dec i (next pol j)) as [E|E].
    - right. destruct Hc as [L C]. apply C; auto.
      + destruct (next_cases pol i Hi) as [[? ?]|[? ?]]; destruct (next_cases pol j Hj) as [[? ?]|[? ?]]; lia.
      + destruct (next_cases pol i Hi) as [[? ?]|[? ?]]; destruct (next_cases pol j Hj) as [[? ?]|[? ?]]; lia.
    - left. destruct Hc as [L C]. apply C; auto. }
  replace (x + u * (y - x)) with ((1 - u) * x + u * y) by ring.
  destruct P as [P|P].
  - assert (0 < (1 - u) * x) by (apply Rmult_lt_0_compat; lra). assert (0 <= u * y) by (apply Rmult_le_pos; lra). lra.
  - assert (0 <= (1 - u) * x) by (apply Rmult_le_pos; lra). assert (0 < u * y) by (apply Rmult_lt_0_compat; lra). lra.
Qed.

(** A vertex is on its two sides only. *)
Lemma vertex_sides pol i m : convex_ccw pol -> (i < length pol)%nat -> (m < length pol)%nat ->
  o pol i (V pol m) = 0 -> i = m \/ i = prev pol m.
Proof.
  intros Hc Hi Hm E. destruct (Nat.eq_dec m i) as [->|N1]; [auto|].
  destruct (Nat.eq_dec m (next pol i)) as [->|N2].
  - right. destruct (next_cases pol i Hi) as [[A ->]|[A ->]]; cbn; lia.
  - exfalso. destruct Hc as [L C]. specialize (C i m Hi Hm N1 N2). unfold o in E. lra.
Qed.

Lemma side_zero pol i u : o pol i (between (V pol i) (V pol (next pol i)) u) = 0.
Proof. unfold o. rewrite orient_between, orient_start, orient_end. ring. Qed.

(** A point of the polygon on the line of a side is on the side. *)
Lemma on_line_on_side pol i x : convex_ccw pol -> (i < length pol)%nat -> all_nonneg pol x -> o pol i x = 0 ->
  exists u, 0 <= u <= 1 /\ x = between (V pol i) (V pol (next pol i)) u.
Proof.
  intros Hc Hi Hx E. pose proof (side_distinct pol i Hc Hi) as D. pose proof (square_pos _ _ D) as S.
  unfold o in E. set (a := V pol i) in *. set (b := V pol (next pol i)) in *.
  set (k := (fst b - fst a) * (fst b - fst a) + (snd b - snd a) * (snd b - snd a)) in *.
  set (u := ((fst x - fst a) * (fst b - fst a) + (snd x - snd a) * (snd b - snd a)) / k).
  assert (X : x = between a b u).
  { assert (K : k * u = (fst x - fst a) * (fst b - fst a) + (snd x - snd a) * (snd b - snd a)) by (unfold u; field; lra).
    destruct x as [x y]. unfold between. cbn [fst snd] in *. unfold orient in E. cbn [fst snd] in E.
    f_equal; apply Rmult_eq_reg_l with k; try lra; rewrite Rmult_plus_distr_l, <- Rmult_assoc, K; unfold k.
    - replace (((fst b - fst a) * (fst b - fst a) + (snd b - snd a) * (snd b - snd a)) * x) with
        (((fst b - fst a) * (fst b - fst a) + (snd b - snd a) * (snd b - snd a)) * fst a +
         ((x - fst a) * (fst b - fst a) + (y - snd a) * (snd b - snd a)) * (fst b - fst a) -
         (snd b - snd a) * ((fst b - fst a) * (y - snd a) - (snd b - snd a) * (x - fst a))) by ring.
      rewrite E. ring.
    - replace (((fst b - fst a) * (fst b - fst a) + (snd b - snd a) * (snd b - snd a)) * y) with
        (((fst b - fst a) * (fst b - fst a) + (snd b - snd a) * (snd b - snd a)) * snd a +
         ((x - fst a) * (fst b - fst a) + (y - snd a) * (snd b - snd a)) * (snd b - snd a) +
         (fst b - fst a) * ((fst b - fst a) * (y - snd a) - (snd b - snd a) * (x - fst a))) by ring.
      rewrite E. ring. }
  exists u. split; [|exact X].
  destruct (prev_next pol i (proj1 Hc) Hi) as [Hp Ep].
  pose proof (next_lt pol i (proj1 Hc)) as Hn.
  split.
  - (* the previous side *)
    pose proof (Hx (prev pol i) Hp) as Q. unfold o in Q. rewrite Ep in Q. fold a in Q. rewrite X, orient_between, orient_end in Q.
    assert (P : 0 < orient (V pol (prev pol i)) a b).
    { pose proof (proj2 Hc (prev pol i) (next pol i) Hp Hn) as C. rewrite Ep in C. apply C.
      - destruct (next_cases pol i Hi) as [[? ->]|[? ->]]; destruct i; cbn in *; destruct Hc as [L _]; lia.
      - destruct (next_cases pol i Hi) as [[? ->]|[? ->]]; destruct Hc as [L _]; lia. }
    nra.
  - pose proof (Hx (next pol i) Hn) as Q. unfold o in Q. fold b in Q. rewrite X, orient_between, orient_start in Q.
    assert (P : 0 < orient b (V pol (next pol (next pol i))) a).
    { apply (proj2 Hc (next pol i) i Hn Hi).
      - destruct (next_cases pol i Hi) as [[? ->]|[? ->]]; destruct Hc as [L _]; lia.
      - destruct (next_cases pol i Hi) as [[? E1]|[? E1]]; destruct (next_cases pol (next pol i) Hn) as [[? ->]|[? ->]];
          destruct Hc as [L _]; lia. }
    nra.
Qed.

(** At most two sides go through a point of the polygon. *)
Lemma two_sides pol x i j k : convex_ccw pol -> all_nonneg pol x ->
  (i < length pol)%nat -> (j < length pol)%nat -> (k < length pol)%nat ->
  o pol i x = 0 -> o pol j x = 0 -> o pol k x = 0 -> i = j \/ i = k \/ j = k.
Proof.
  intros Hc Hx Hi Hj Hk Ei Ej Ek.
  destruct (on_line_on_side pol i x Hc Hi Hx Ei) as (u & Hu & X).
  assert (M : exists m, (m < length pol)%nat /\ x = V pol m \/ i = j).
  { destruct (Nat.eq_dec i j) as [|N]; [exists 0%nat; auto|].
    destruct (Req_dec u 0) as [U0|U0].
    { exists i. left. split; [exact Hi|]. rewrite X, U0. unfold between. destruct (V pol i). cbn. f_equal; ring. }
    destruct (Req_dec u 1) as [U1|U1].
    { exists (next pol i). left. split; [apply next_lt, Hc|]. rewrite X, U1. unfold between.
      destruct (V pol (next pol i)). cbn. f_equal; ring. }
    exfalso. pose proof (open_side pol i j u Hc Hi Hj ltac:(lia) ltac:(lra)) as P. rewrite <- X in P. lra. }
  destruct M as (m & [[Hm Xm]|E]); [|auto].
  rewrite Xm in Ei, Ej, Ek.
  apply (vertex_sides pol i m Hc Hi Hm) in Ei. apply (vertex_sides pol j m Hc Hj Hm) in Ej.
  apply (vertex_sides pol k m Hc Hk Hm) in Ek. lia.
Qed.

(** * Segments and polygons *)

Definition inner (pol : list rpoint) (p q : rpoint) : Prop := exists t, 0 <= t <= 1 /\ all_pos pol (between p q t).
Lemma enters_iff pol p q : convex_ccw pol -> (enters pol p q <-> inner pol p q).
Proof.
  intro Hc. split.
  - intros (x & (t & Ht & ->) & S). exists t. split; [exact Ht|]. now apply inside_iff.
  - intros (t & Ht & S). exists (between p q t). split; [exists t; auto|]. now apply inside_iff.
Qed.

(** Sides which are positive somewhere on a segment stay so around. *)
Lemma stay_positive n (g : nat -> R * R) (ok : nat -> bool) t :
  (forall i, (i < n)%nat -> ok i = true -> 0 < fst (g i) + t * snd (g i)) ->
  exists d, 0 < d /\ forall s, Rabs (s - t) <= d -> forall i, (i < n)%nat -> ok i = true -> 0 < fst (g i) + s * snd (g i).
Proof.
  induction n as [|n IH]; intro H; [exists 1; split; [lra|]; intros; lia|].
  destruct IH as (d1 & P1 & N1); [intros; apply H; auto; lia|].
  destruct (ok n) eqn:En.
  - specialize (H n ltac:(lia) En). set (a := fst (g n)) in *. set (b := snd (g n)) in *.
    set (M := Rabs b + 1). assert (PM : 0 < M) by (unfold M; pose proof (Rabs_pos b); lra).
    set (d2 := (a + t * b) / (2 * M)).
    assert (P2 : 0 < d2) by (apply Rdiv_lt_0_compat; lra).
    exists (Rmin d1 d2). split; [now apply Rmin_pos|]. intros s Hs i Hi Ei.
    pose proof (Rmin_l d1 d2). pose proof (Rmin_r d1 d2).
    destruct (Nat.eq_dec i n) as [->|N]; [|apply N1; auto; [lra|lia]].
    fold a b. assert (E : 2 * (M * d2) = a + t * b) by (unfold d2; field; lra).
    replace (a + s * b) with (a + t * b + (s - t) * b) by ring.
    assert (B : Rabs ((s - t) * b) <= d2 * M).
    { rewrite Rabs_mult. apply Rmult_le_compat; try apply Rabs_pos; [lra|unfold M; lra]. }
    apply Rabs_le_inv in B. lra.
  - exists d1. split; [exact P1|]. intros s Hs i Hi Ei. destruct (Nat.eq_dec i n) as [->|N]; [congruence|].
    apply N1; auto. lia.
Qed.

(** The last point of a segment starting inside which is in the polygon. *)
Lemma exit_time n (g : nat -> R * R) t0 : forall t1,
  (forall i, (i < n)%nat -> 0 < fst (g i) + t0 * snd (g i)) -> t0 <= t1 ->
  (exists i, (i < n)%nat /\ fst (g i) + t1 * snd (g i) <= 0) ->
  exists t i, t0 < t <= t1 /\ (i < n)%nat /\ fst (g i) + t * snd (g i) = 0 /\
    forall j, (j < n)%nat -> 0 <= fst (g j) + t * snd (g j).
Proof.
  induction n as [|n IH]; intros t1 H T (i & Hi & N); [lia|].
  set (a := fst (g n)). set (b := snd (g n)).
  pose proof (H n ltac:(lia)) as Pn. fold a b in Pn.
  assert (H' : forall i, (i < n)%nat -> 0 < fst (g i) + t0 * snd (g i)) by (intros; apply H; lia).
  (* does another side reach zero? *)
  assert (Dec : (exists i, (i < n)%nat /\ fst (g i) + t1 * snd (g i) <= 0) \/
                forall i, (i < n)%nat -> 0 < fst (g i) + t1 * snd (g i)).
  { clear. induction n as [|n IH]; [right; intros; lia|]. destruct IH as [(i & Hi & E)|A]; [left; exists i; split; [lia|auto]|].
    destruct (Rle_dec (fst (g n) + t1 * snd (g n)) 0) as [L|L]; [left; exists n; split; [lia|auto]|].
    right. intros i Hi. destruct (Nat.eq_dec i n) as [->|]; [lra|apply A; lia]. }
  destruct Dec as [Ex|All].
  - destruct (IH t1 H' T Ex) as (t & k & Ht & Hk & Ek & Ak).
    destruct (Rle_dec 0 (a + t * b)) as [L|L].
    + exists t, k. split; [exact Ht|]. split; [lia|]. split; [exact Ek|]. intros j Hj.
      destruct (Nat.eq_dec j n) as [->|]; [exact L|apply Ak; lia].
    + (* the last side is reached before *)
      assert (Bn : b < 0) by nra. set (r := - a / b).
      assert (Er : a + r * b = 0) by (unfold r; field; lra).
      assert (Hr : t0 < r < t) by (split; nra).
      exists r, n. split; [lra|]. split; [lia|]. split; [exact Er|]. intros j Hj.
      destruct (Nat.eq_dec j n) as [->|]; [fold a b; lra|].
      pose proof (H' j ltac:(lia)). pose proof (Ak j ltac:(lia)).
      (* between two nonnegative values *)
      set (x := fst (g j)) in *. set (y := snd (g j)) in *. nra.
  - assert (En : i = n). { destruct (Nat.eq_dec i n) as [|M]; [auto|]. exfalso. specialize (All i ltac:(lia)). lra. }
    subst i. fold a b in N. assert (Bn : b < 0) by nra. set (r := - a / b).
    assert (Er : a + r * b = 0) by (unfold r; field; lra).
    assert (Hr : t0 < r <= t1) by (split; nra).
    exists r, n. split; [exact Hr|]. split; [lia|]. split; [exact Er|]. intros j Hj.
    destruct (Nat.eq_dec j n) as [->|]; [fold a b; lra|].
    pose proof (H' j ltac:(lia)). pose proof (All j ltac:(lia)).
    set (x := fst (g j)) in *. set (y := snd (g j)) in *. nra.
Qed.
