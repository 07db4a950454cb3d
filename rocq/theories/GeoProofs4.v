From Coq Require Import ZArith Reals List Bool Lra Lia Psatz.
From Flocq Require Import Core.
From Verif Require Import FloatModel FloatSpec FloatProofs PidSpec GeoModel GeoSpec GeoProofs GeoProofs2 GeoProofs3.
Import ListNotations.
Local Open Scope R_scope.

Section Crossing.
Variables (pol : list rpoint) (p q : rpoint).
Hypotheses (Hc : convex_ccw pol) (Np : near p) (Nq : near q).
Notation n := (length pol).
Definition cd (i : nat) : Z := code p q (V pol i) (V pol (next pol i)).
Notation at_ t := (between p q t).
Notation side i u := (between (V pol i) (V pol (next pol i)) u).

Lemma o_at i t : o pol i (at_ t) = o pol i p + t * (o pol i q - o pol i p).
Proof. apply orient_between. Qed.

(** What each code says of its side. *)
Lemma cd_cases i : (i < n)%nat ->
  (p = q /\ cd i = 0%Z) \/
  (p <> q /\ o pol i p = o pol i q /\
     ((cd i = 3%Z /\ o pol i p = 0) \/
      (cd i = 0%Z /\ (o pol i p = 0 -> ~ on_segment p q (V pol i) /\ ~ on_segment p q (V pol (next pol i)))))) \/
  (p <> q /\ o pol i p <> o pol i q /\ exists t u, at_ t = side i u /\
     ((cd i = 1%Z /\ 0 < t < 1 /\ 0 < u < 1) \/
      (cd i = 2%Z /\ 0 <= t <= 1 /\ 0 <= u <= 1 /\ (t = 0 \/ t = 1 \/ u = 0 \/ u = 1)) \/
      (cd i = 0%Z /\ ~ (0 <= t <= 1 /\ 0 <= u <= 1)))).
Proof. intro Hi. apply code_cases; auto. now apply side_distinct. Qed.

Lemma cd_range i : (i < n)%nat -> cd i = 0%Z \/ cd i = 1%Z \/ cd i = 2%Z \/ cd i = 3%Z.
Proof. intro Hi. destruct (cd_cases i Hi) as [?|[?|(? & ? & t & u & ?)]]; tauto. Qed.

Lemma side_nonneg i u : (i < n)%nat -> 0 <= u <= 1 -> all_nonneg pol (side i u).
Proof.
  intros Hi Hu j Hj. unfold o. rewrite orient_between.
  pose proof (vertex_nonneg pol i Hc Hi j Hj) as A. unfold o in A.
  pose proof (vertex_nonneg pol (next pol i) Hc (next_lt pol i (proj1 Hc)) j Hj) as B. unfold o in B. nra.
Qed.

Lemma touch i : (i < n)%nat -> cd i = 2%Z ->
  p <> q /\ o pol i p <> o pol i q /\ exists t, 0 <= t <= 1 /\ all_nonneg pol (at_ t) /\ o pol i (at_ t) = 0.
Proof.
  intros Hi E. destruct (cd_cases i Hi) as [?|[?|(N & D & t & u & X & C)]]; [lia|exfalso; lia|].
  split; [exact N|]. split; [exact D|]. destruct C as [?|[(_ & Ht & Hu & _)|?]]; [exfalso; lia| |exfalso; lia].
  exists t. split; [exact Ht|]. rewrite X. split; [now apply side_nonneg|]. apply side_zero.
Qed.

Definition flat (i : nat) : Prop := o pol i p = 0 /\ o pol i q = 0.
(** The segment is on the line of side [i] and another side touches it: code 3. *)
Lemma flat_code i j : (i < n)%nat -> (j < n)%nat -> flat i -> cd j = 2%Z -> cd i = 3%Z.
Proof.
  intros Hi Hj [F1 F2] E. destruct (touch j Hj E) as (N & D & t & Ht & A & Z).
  assert (Oi : o pol i (at_ t) = 0) by (rewrite o_at, F1, F2; ring).
  assert (Nij : j <> i) by (intros ->; apply D; congruence).
  destruct (on_line_on_side pol i (at_ t) Hc Hi A Oi) as (u & Hu & X).
  assert (U : u = 0 \/ u = 1).
  { destruct (Req_dec u 0); [auto|]. destruct (Req_dec u 1); [auto|]. exfalso.
    pose proof (open_side pol i j u Hc Hi Hj Nij ltac:(lra)) as P. rewrite <- X in P. lra. }
  destruct (cd_cases i Hi) as [[? _]|[(_ & _ & [[? _]|[_ S]])|(_ & D2 & _)]]; [contradiction|assumption| |exfalso; apply D2; congruence].
  exfalso. destruct (S F1) as [S1 S2]. destruct U as [-> | ->].
  - apply S1. exists t. split; [exact Ht|]. rewrite X. unfold between. destruct (V pol i). cbn. f_equal; ring.
  - apply S2. exists t. split; [exact Ht|]. rewrite X. unfold between. destruct (V pol (next pol i)). cbn. f_equal; ring.
Qed.

(** Two points of the polygon on a segment which is on the line of no side. *)
Lemma two_points s t : 0 <= s <= 1 -> 0 <= t <= 1 -> s <> t -> all_nonneg pol (at_ s) -> all_nonneg pol (at_ t) ->
  (forall i, (i < n)%nat -> ~ flat i) -> inner pol p q.
Proof.
  intros Hs Ht N As At NF. exists ((s + t) / 2). split; [lra|]. intros i Hi.
  specialize (As i Hi). specialize (At i Hi). specialize (NF i Hi). rewrite o_at in *.
  set (x := o pol i p) in *. set (y := o pol i q) in *.
  destruct (Rle_lt_dec (x + (s + t) / 2 * (y - x)) 0) as [L|]; [|assumption]. exfalso. apply NF.
  assert (E1 : x + s * (y - x) = 0) by lra. assert (E2 : x + t * (y - x) = 0) by lra.
  assert (E3 : (s - t) * (y - x) = 0) by lra. apply Rmult_integral in E3 as [E3|E3]; [lra|].
  unfold flat. fold x y. rewrite E3 in E1. lra.
Qed.

(** The loop on the sides. *)
Definition count (l : list nat) : nat := length (filter (fun i => (cd i =? 2)%Z) l).
Lemma loop_exact l : forall cpt ip, (forall i, In i l -> (i < n)%nat) ->
  let L := crossing_loop exact_fmt (pt p) (pt q) (map (fun i => (pt (V pol i), pt (V pol (next pol i)))) l) cpt ip in
  (fst L = inl 1%Z /\ exists i, In i l /\ cd i = 1%Z) \/
  (fst L = inl 2%Z /\ exists i, In i l /\ cd i = 3%Z) \/
  (fst L = inr (cpt + Z.of_nat (count l))%Z /\ forall i, In i l -> cd i = 0%Z \/ cd i = 2%Z).
Proof.
  induction l as [|i l IH]; intros cpt ip Hl; cbn [map crossing_loop].
  - right. right. cbn. split; [f_equal; lia|]. intros ? [].
  - assert (Hi : (i < n)%nat) by (apply Hl; now left).
    assert (Hl' : forall i, In i l -> (i < n)%nat) by (intros; apply Hl; now right).
    pose proof (cd_range i Hi) as Rg. unfold count. cbn [filter].
    destruct (intersect_segment exact_fmt (pt p) (pt q) (pt (V pol i)) (pt (V pol (next pol i)))) as [c x] eqn:E.
    assert (Ec : cd i = c) by (unfold cd, code; now rewrite E). rewrite Ec in *.
    destruct Rg as [-> |[-> |[-> | ->]]].
    + destruct (IH cpt ip Hl') as [[A (k & I & B)]|[[A (k & I & B)]|[A B]]].
      * left. split; [exact A|]. exists k. split; [now right|exact B].
      * right. left. split; [exact A|]. exists k. split; [now right|exact B].
      * right. right. split; [exact A|]. intros k [-> |I]; [tauto|now apply B].
    + left. split; [reflexivity|]. exists i. split; [now left|exact Ec].
    + destruct (IH (cpt + 1)%Z x Hl') as [[A (k & I & B)]|[[A (k & I & B)]|[A B]]].
      * left. split; [exact A|]. exists k. split; [now right|exact B].
      * right. left. split; [exact A|]. exists k. split; [now right|exact B].
      * right. right. split; [rewrite A; f_equal; cbn [length]; unfold count; change (2 =? 2)%Z with true; cbn iota; cbn [length]; lia|].
        intros k [-> |I]; [tauto|now apply B].
    + right. left. split; [reflexivity|]. exists i. split; [now left|exact Ec].
Qed.

Lemma count_seq i : In i (filter (fun i => (cd i =? 2)%Z) (seq 0 n)) <-> (i < n)%nat /\ cd i = 2%Z.
Proof. rewrite filter_In, in_seq, Z.eqb_eq. intuition lia. Qed.
Lemma count_ge l : NoDup l -> (forall i, In i l -> (i < n)%nat /\ cd i = 2%Z) -> (length l <= count (seq 0 n))%nat.
Proof. intros ND H. apply NoDup_incl_length; [exact ND|]. intros i Hi. now apply count_seq, H. Qed.
Lemma count_three : (3 <= count (seq 0 n))%nat -> exists i j k,
  i <> j /\ i <> k /\ j <> k /\ (i < n)%nat /\ (j < n)%nat /\ (k < n)%nat /\ cd i = 2%Z /\ cd j = 2%Z /\ cd k = 2%Z.
Proof.
  unfold count. intro H. pose proof (NoDup_filter (fun i => (cd i =? 2)%Z) (seq_NoDup n 0)) as ND.
  pose proof count_seq as CS.
  destruct (filter (fun i => (cd i =? 2)%Z) (seq 0 n)) as [|i [|j [|k l]]]; cbn in H; try lia.
  exists i, j, k. inversion ND as [|? ? N1 ND1]; subst. inversion ND1 as [|? ? N2 ND2]; subst. cbn in N1, N2.
  pose proof (proj1 (CS i) ltac:(now left)). pose proof (proj1 (CS j) ltac:(right; now left)).
  pose proof (proj1 (CS k) ltac:(right; right; now left)). intuition congruence.
Qed.
Lemma count_one : (1 <= count (seq 0 n))%nat -> exists i, (i < n)%nat /\ cd i = 2%Z.
Proof.
  unfold count. intro H. pose proof count_seq as CS.
  destruct (filter (fun i => (cd i =? 2)%Z) (seq 0 n)) as [|i l]; cbn in H; [lia|].
  exists i. apply CS. now left.
Qed.

Lemma at_0 : at_ 0 = p. Proof. unfold between. destruct p. cbn. f_equal; ring. Qed.
Lemma at_1 : at_ 1 = q. Proof. unfold between. destruct p, q. cbn. f_equal; ring. Qed.

(** A proper crossing of a side enters the polygon. *)
Lemma cross_inner i : (i < n)%nat -> cd i = 1%Z -> inner pol p q.
Proof.
  intros Hi E. destruct (cd_cases i Hi) as [?|[?|(N & D & t & u & X & C)]]; [lia|exfalso; lia|].
  destruct C as [(_ & Ht & Hu)|[?|?]]; [|exfalso; lia|exfalso; lia].
  assert (Zi : o pol i (at_ t) = 0) by (rewrite X; apply side_zero).
  set (g := fun j => (o pol j p, o pol j q - o pol j p)).
  destruct (stay_positive n g (fun j => negb (j =? i)%nat) t) as (d & Pd & Hd).
  { intros j Hj Nj. cbn [g fst snd]. rewrite <- o_at, X. apply open_side; auto.
    intros ->. rewrite Nat.eqb_refl in Nj. discriminate. }
  set (e := Rmin d (Rmin (t / 2) ((1 - t) / 2))).
  assert (Pe : 0 < e /\ e <= d /\ e <= t / 2 /\ e <= (1 - t) / 2).
  { unfold e. split; [repeat apply Rmin_pos; lra|]. split; [apply Rmin_l|].
    split; (eapply Rle_trans; [apply Rmin_r|]); [apply Rmin_l|apply Rmin_r]. }
  set (s := if Rlt_dec 0 (o pol i q - o pol i p) then t + e else t - e).
  assert (Hs : 0 <= s <= 1 /\ Rabs (s - t) <= d /\ 0 < o pol i (at_ s)).
  { unfold s. destruct (Rlt_dec 0 (o pol i q - o pol i p)) as [P|P].
    - split; [lra|]. split; [rewrite Rabs_right; lra|]. rewrite o_at in *. nra.
    - split; [lra|]. split; [rewrite Rabs_left1; lra|]. rewrite o_at in *. assert (o pol i q - o pol i p < 0) by lra. nra. }
  destruct Hs as (S1 & S2 & S3). exists s. split; [exact S1|]. intros j Hj.
  destruct (Nat.eq_dec j i) as [->|Nj]; [exact S3|]. rewrite o_at.
  apply (Hd s S2 j Hj). apply Nat.eqb_neq in Nj. now rewrite Nj.
Qed.

Lemma three_inner : (forall i, (i < n)%nat -> cd i = 0%Z \/ cd i = 2%Z) -> (3 <= count (seq 0 n))%nat -> inner pol p q.
Proof.
  intros All H. destruct (count_three H) as (i & j & k & N1 & N2 & N3 & Hi & Hj & Hk & Ei & Ej & Ek).
  assert (NF : forall m, (m < n)%nat -> ~ flat m).
  { intros m Hm F. pose proof (flat_code m i Hm Hi F Ei). specialize (All m Hm). lia. }
  destruct (touch i Hi Ei) as (_ & _ & ti & Ti & Ai & Zi). destruct (touch j Hj Ej) as (_ & _ & tj & Tj & Aj & Zj).
  destruct (touch k Hk Ek) as (_ & _ & tk & Tk & Ak & Zk).
  destruct (Req_dec ti tj) as [E1|E1]; [|now apply (two_points ti tj)].
  destruct (Req_dec ti tk) as [E2|E2]; [|now apply (two_points ti tk)].
  exfalso. subst tj tk. destruct (two_sides pol (at_ ti) i j k Hc Ai Hi Hj Hk Zi Zj Zk) as [?|[?|?]]; lia.
Qed.

(** Where the segment leaves the polygon: the side there has code 2, and so has its neighbour unless it is an end of the segment. *)
Lemma exit_side i t : inner pol p q -> (forall j, (j < n)%nat -> cd j <> 1%Z) -> (i < n)%nat -> 0 <= t <= 1 ->
  o pol i (at_ t) = 0 -> all_nonneg pol (at_ t) ->
  cd i = 2%Z /\ (t = 0 \/ t = 1 \/ exists m, (m < n)%nat /\ at_ t = V pol m).
Proof.
  intros (t0 & _ & P0) N1 Hi Ht Z A.
  assert (D : o pol i p <> o pol i q).
  { intro E. specialize (P0 i Hi). rewrite o_at in *. rewrite E in *. replace (o pol i q - o pol i q) with 0 in * by ring. lra. }
  assert (Npq : p <> q) by (intros ->; now apply D).
  destruct (cd_cases i Hi) as [[? _]|[(_ & E & _)|(_ & _ & t' & u & X & C)]]; [contradiction|contradiction|].
  assert (T : t' = t).
  { assert (Z' : o pol i (at_ t') = 0) by (rewrite X; apply side_zero). rewrite o_at in Z, Z'.
    assert (Q : (t' - t) * (o pol i q - o pol i p) = 0) by lra. apply Rmult_integral in Q as [Q|Q]; lra. }
  subst t'. destruct (on_line_on_side pol i (at_ t) Hc Hi A Z) as (u' & Hu & X').
  assert (U : u' = u).
  { rewrite X' in X. pose proof (side_distinct pol i Hc Hi) as Ds.
    destruct (Req_dec u' u) as [|Nu]; [assumption|]. exfalso. apply Ds. unfold between in X.
    injection X as X1 X2. destruct (V pol i) as [ax ay], (V pol (next pol i)) as [bx by_]. cbn [fst snd] in *.
    assert (Q1 : (u' - u) * (bx - ax) = 0) by lra. assert (Q2 : (u' - u) * (by_ - ay) = 0) by lra.
    apply Rmult_integral in Q1 as [Q1|Q1]; [lra|]. apply Rmult_integral in Q2 as [Q2|Q2]; [lra|]. f_equal; lra. }
  subst u'. destruct C as [(E & _)|[(E & _ & _ & K)|(_ & K)]]; [exfalso; now apply (N1 i Hi)| |exfalso; tauto].
  split; [exact E|]. destruct K as [K|[K|[K|K]]]; [auto|auto| |].
  - right. right. exists i. split; [exact Hi|]. rewrite X, K. unfold between. destruct (V pol i). cbn. f_equal; ring.
  - right. right. exists (next pol i). split; [apply next_lt, Hc|]. rewrite X, K. unfold between.
    destruct (V pol (next pol i)). cbn. f_equal; ring.
Qed.

Lemma exit_two i t : inner pol p q -> (forall j, (j < n)%nat -> cd j <> 1%Z) -> (i < n)%nat -> 0 <= t <= 1 ->
  o pol i (at_ t) = 0 -> all_nonneg pol (at_ t) ->
  cd i = 2%Z /\ (t = 0 \/ t = 1 \/ exists j, (j < n)%nat /\ j <> i /\ cd j = 2%Z /\ o pol j (at_ t) = 0).
Proof.
  intros I N1 Hi Ht Z A. destruct (exit_side i t I N1 Hi Ht Z A) as [E [K|[K|(m & Hm & X)]]]; [auto|auto|].
  split; [exact E|]. right. right.
  destruct (prev_next pol m (proj1 Hc) Hm) as [Hp Ep].
  assert (Zm : o pol m (at_ t) = 0) by (rewrite X; unfold o; apply orient_start).
  assert (Zp : o pol (prev pol m) (at_ t) = 0) by (rewrite X; unfold o; rewrite Ep; apply orient_end).
  destruct (Nat.eq_dec i m) as [->|Nm].
  - exists (prev pol m). split; [exact Hp|]. split; [destruct m; cbn; destruct Hc as [L _]; lia|]. split; [|exact Zp].
    now apply (exit_side (prev pol m) t I N1 Hp Ht Zp A).
  - exists m. split; [exact Hm|]. split; [auto|]. split; [|exact Zm].
    now apply (exit_side m t I N1 Hm Ht Zm A).
Qed.

(** Both ends of the part of the segment in the polygon. *)
Lemma both_ends : inner pol p q -> ~ all_pos pol p -> ~ all_pos pol q ->
  exists s t i k, 0 <= s < t /\ t <= 1 /\ (i < n)%nat /\ (k < n)%nat /\
    o pol i (at_ s) = 0 /\ o pol k (at_ t) = 0 /\ all_nonneg pol (at_ s) /\ all_nonneg pol (at_ t).
Proof.
  intros (t0 & T0 & P0) Ap Aq.
  assert (NA : forall x, ~ all_pos pol x -> exists i, (i < n)%nat /\ o pol i x <= 0).
  { intros x H. unfold all_pos in H. assert (G : forall m, (forall i, (i < m)%nat -> 0 < o pol i x) \/ exists i, (i < m)%nat /\ o pol i x <= 0).
    { induction m as [|m [IH|(i & Hi & E)]]; [left; intros; lia| |right; exists i; split; [lia|auto]].
      destruct (Rle_dec (o pol m x) 0) as [L|L]; [right; exists m; split; [lia|auto]|].
      left. intros i Hi. destruct (Nat.eq_dec i m) as [->|]; [lra|apply IH; lia]. }
    destruct (G n); [contradiction|assumption]. }
  destruct (exit_time n (fun j => (o pol j p, o pol j q - o pol j p)) t0 1) as (t & k & Ht & Hk & Ek & Ak); cbn [fst snd] in *.
  - intros j Hj. rewrite <- o_at. now apply P0.
  - lra.
  - destruct (NA q Aq) as (j & Hj & E). exists j. split; [exact Hj|]. rewrite <- o_at, at_1. exact E.
  - destruct (exit_time n (fun j => (o pol j q, o pol j p - o pol j q)) (1 - t0) 1) as (s & i & Hs & Hi & Ei & Ai); cbn [fst snd] in *.
    + intros j Hj. specialize (P0 j Hj). rewrite o_at in P0. lra.
    + lra.
    + destruct (NA p Ap) as (j & Hj & E). exists j. split; [exact Hj|]. lra.
    + exists (1 - s), t, i, k. split; [lra|]. split; [lra|]. split; [exact Hi|]. split; [exact Hk|].
      rewrite !o_at. split; [lra|]. split; [exact Ek|]. split; intros j Hj; rewrite o_at; [specialize (Ai j Hj)|specialize (Ak j Hj)]; lra.
Qed.

Lemma crossing_iff : fst (is_crossing_poly exact_fmt (pt p) (pt q) (map pt pol)) = 1%Z <-> inner pol p q.
Proof.
  unfold is_crossing_poly. rewrite sides_exact.
  destruct (crossing_loop exact_fmt (pt p) (pt q) (map (fun i => (pt (V pol i), pt (V pol (next pol i)))) (seq 0 n)) 0 None) as [L ip] eqn:EL.
  pose proof (loop_exact (seq 0 n) 0 None) as LE. rewrite EL in LE. cbn [fst] in LE.
  destruct LE as [[-> (i & Hi & Ei)]|[[-> (i & Hi & Ei)]|[-> All]]].
  { intros i Hi. apply in_seq in Hi. lia. }
  - cbn [fst]. split; [intros _|reflexivity]. apply in_seq in Hi. apply (cross_inner i); [lia|exact Ei].
  - cbn [fst]. split; [discriminate|]. intros (t & Ht & P). exfalso. apply in_seq in Hi.
    destruct (cd_cases i ltac:(lia)) as [[_ ?]|[(_ & E & [[_ F]|[? _]])|(_ & _ & ? & ? & _ & C)]]; [congruence| |congruence|exfalso; lia].
    specialize (P i ltac:(lia)). rewrite o_at, <- E, F in P. lra.
  - assert (A2 : forall i, (i < n)%nat -> cd i = 0%Z \/ cd i = 2%Z) by (intros; apply All, in_seq; lia).
    assert (N1 : forall i, (i < n)%nat -> cd i <> 1%Z) by (intros i Hi; specialize (A2 i Hi); lia).
    clear All. rewrite Z.add_0_l. set (c := count (seq 0 n)) in *.
    pose proof (is_in_poly_exact pol p Hc) as Rp. pose proof (is_in_poly_exact pol q Hc) as Rq. cbv zeta in Rp, Rq.
    set (r1 := is_in_poly exact_fmt (pt p) (map pt pol)) in *. set (r2 := is_in_poly exact_fmt (pt q) (map pt pol)) in *.
    assert (Three : (3 <= c)%nat -> inner pol p q) by (apply three_inner; exact A2).
    assert (I1 : r1 = 1%Z -> inner pol p q).
    { intro E. exists 0. split; [lra|]. rewrite at_0. destruct Rp as [?|[?|?]]; [tauto|exfalso; lia|exfalso; lia]. }
    assert (I2 : r2 = 1%Z -> inner pol p q).
    { intro E. exists 1. split; [lra|]. rewrite at_1. destruct Rq as [?|[?|?]]; [tauto|exfalso; lia|exfalso; lia]. }
    assert (Two : (c = 2)%nat -> r1 = 2%Z -> r2 = 2%Z -> inner pol p q).
    { intros E R1 R2. destruct (count_one ltac:(fold c; lia)) as (i & Hi & Ei).
      apply (two_points 0 1); try lra.
      - rewrite at_0. destruct Rp as [?|[?|?]]; [exfalso; lia|tauto|exfalso; lia].
      - rewrite at_1. destruct Rq as [?|[?|?]]; [exfalso; lia|tauto|exfalso; lia].
      - intros m Hm F. pose proof (flat_code m i Hm Hi F Ei). specialize (A2 m Hm). lia. }
    (* conversely *)
    assert (Conv : inner pol p q -> r1 = 1%Z \/ r2 = 1%Z \/ (3 <= c)%nat \/ (c = 2%nat /\ r1 = 2%Z /\ r2 = 2%Z)).
    { intro I. destruct (Z.eq_dec r1 1) as [|Q1]; [auto|]. destruct (Z.eq_dec r2 1) as [|Q2]; [auto|]. right. right.
      assert (Ap : ~ all_pos pol p).
      { intro P. destruct Rp as [?|[?|[_ W]]]; [lia|tauto|]. apply W. intros j Hj. left. now apply P. }
      assert (Aq : ~ all_pos pol q).
      { intro P. destruct Rq as [?|[?|[_ W]]]; [lia|tauto|]. apply W. intros j Hj. left. now apply P. }
      destruct (both_ends I Ap Aq) as (s & t & i & k & Hst & Ht & Hi & Hk & Zi & Zk & As & At).
      assert (Diff : forall j, (j < n)%nat -> o pol j (at_ s) = 0 -> o pol j (at_ t) = 0 -> False).
      { intros j Hj E1 E2. destruct I as (t0 & _ & P0). specialize (P0 j Hj). rewrite o_at in *.
        assert (Q : (t - s) * (o pol j q - o pol j p) = 0) by lra. apply Rmult_integral in Q as [Q|Q]; [lra|].
        rewrite Q in *. lra. }
      destruct (exit_two i s I N1 Hi ltac:(lra) Zi As) as [Ci Ki]. destruct (exit_two k t I N1 Hk ltac:(lra) Zk At) as [Ck Kk].
      assert (Nik : i <> k) by (intros ->; now apply (Diff k)).
      destruct Ki as [Ks|[Ks|(j & Hj & Nj & Cj & Zj)]]; [|lra|].
      - destruct Kk as [Kt|[Kt|(j & Hj & Nj & Cj & Zj)]]; [lra| |].
        + (* from one end to the other *)
          subst s t. rewrite at_0 in As. rewrite at_1 in At.
          assert (R1 : r1 = 2%Z) by (destruct Rp as [?|[?|[_ W]]]; [tauto|tauto|contradiction]).
          assert (R2 : r2 = 2%Z) by (destruct Rq as [?|[?|[_ W]]]; [tauto|tauto|contradiction]).
          assert (G : (2 <= c)%nat).
          { apply (count_ge [i; k]); [repeat constructor; cbn; intuition|]. intros m [<- |[<- |[]]]; auto. }
          destruct (Nat.eq_dec c 2); [right; auto|left; lia].
        + left. apply (count_ge [i; k; j]).
          * assert (i <> j) by (intros ->; now apply (Diff j)). repeat constructor; cbn; intuition.
          * intros m [<- |[<- |[<- |[]]]]; auto.
      - left. apply (count_ge [i; k; j]).
        + assert (k <> j) by (intros ->; now apply (Diff j)). repeat constructor; cbn; intuition.
        + intros m [<- |[<- |[<- |[]]]]; auto. }
    destruct (Z.eqb_spec r1 1) as [R1|R1]; destruct (Z.eqb_spec r2 1) as [R2|R2]; cbn [orb];
      destruct (Z.eqb_spec (Z.of_nat c) 3) as [C3|C3]; destruct (Z.eqb_spec (Z.of_nat c) 4) as [C4|C4]; cbn [orb fst];
      try (split; [intros _|reflexivity]; solve [auto|apply Three; lia]);
      destruct (Z.eqb_spec (Z.of_nat c) 0) as [C0|C0]; cbn [fst];
      try (split; [intros _; solve [auto]|reflexivity]);
      try (split; [discriminate|intro I; exfalso; destruct (Conv I) as [?|[?|[?|[? _]]]]; lia]);
      destruct (Z.eqb_spec (Z.of_nat c) 1) as [C1|C1]; cbn [fst];
      try (split; [intros _; solve [auto]|reflexivity]);
      try (split; [discriminate|intro I; exfalso; destruct (Conv I) as [?|[?|[?|[? _]]]]; lia]);
      destruct (Z.eqb_spec (Z.of_nat c) 2) as [C2|C2]; cbn [fst];
      try (split; [intros _; solve [auto]|reflexivity]);
      try (split; [intros _; apply Three; lia|reflexivity]).
    destruct (Z.eqb_spec r1 0) as [Z1|Z1]; destruct (Z.eqb_spec r2 0) as [Z2|Z2]; cbn [orb];
      try (split; [discriminate|intro I; exfalso; destruct (Conv I) as [?|[?|[?|[? [? ?]]]]]; lia]).
    split; [intros _; apply Two; lia|reflexivity].
Qed.
End Crossing.
