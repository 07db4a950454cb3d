(** C42 and C61: points, segments and polygons. *)
From Coq Require Import ZArith Reals List Bool Lra Lia Psatz.
From Flocq Require Import Core IEEE754.BinarySingleNaN.
From Verif Require Import CRes FloatModel FloatSpec FloatProofs PidSpec GeoModel GeoSpec GeoProofs GeoProofs2 GeoProofs3 GeoProofs4 GeoProofs5.
From Verif Require OaModel OaSpec OaProps.
Import ListNotations.
Local Open Scope R_scope.

(** C42. Without rounding, the answer of the point test is the position of the point: 1 strictly inside, 2 on the
    border, 0 outside, for every convex polygon given counter-clockwise and every point. *)
Theorem in_poly_correct pol p : convex_ccw pol ->
  let r := is_in_poly exact_fmt (pt p) (map pt pol) in
  (r = 1%Z <-> strictly_inside pol p) /\ (r = 2%Z <-> on_border pol p) /\ (r = 0%Z <-> ~ in_hull pol p).
Proof.
  intros Hc. cbv zeta. pose proof (is_in_poly_exact pol p Hc) as E. cbv zeta in E.
  unfold on_border. rewrite (hull_iff pol p Hc), (inside_iff pol p Hc).
  assert (A : all_pos pol p -> all_nonneg pol p) by (intros H i Hi; left; now apply H).
  destruct E as [[-> P]|[[-> [N P]]|[-> N]]]; (split; [|split]); split; intro; try discriminate; try tauto; try reflexivity.
Qed.
(** In single precision the answer is the same for all the points with integer coordinates below 4096: the
    robot's table is 3000 mm by 2000 mm. *)
Theorem in_poly_float pol p : convex_ccw (map zpt pol) -> Forall twelve_bits pol -> twelve_bits p ->
  let r := is_in_poly binary32 (zfloat p) (map zfloat pol) in
  (r = 1%Z <-> strictly_inside (map zpt pol) (zpt p)) /\ (r = 2%Z <-> on_border (map zpt pol) (zpt p)) /\
  (r = 0%Z <-> ~ in_hull (map zpt pol) (zpt p)).
Proof. intros Hc Hl Hp. cbv zeta. rewrite in_poly_int by assumption. now apply in_poly_correct. Qed.

(** C61. Without rounding, the segment test answers 1 exactly for the segments which go through the inside of the polygon. *)
Theorem crossing_correct_partial pol p q : convex_ccw pol -> near p -> near q ->
  (fst (is_crossing_poly exact_fmt (pt p) (pt q) (map pt pol)) = 1%Z <-> enters pol p q).
Proof. intros Hc Np Nq. rewrite enters_iff by exact Hc. now apply crossing_iff. Qed.

(** With rounding it does not: this segment goes along the diagonal of the square, and the answer is 3, which
    the planner takes for a free way. *)
Definition square : list (Z * Z) := [(1095, 1220); (1095, 1710); (605, 1710); (605, 1220)]%Z.
Lemma square_convex : convex_ccw (map zpt square).
Proof.
  split; [cbn; lia|]. intros i j Hi Hj N1 N2. cbn in Hi, Hj.
  assert (i = 0 \/ i = 1 \/ i = 2 \/ i = 3)%nat as [-> |[-> |[-> | ->]]] by lia;
  assert (j = 0 \/ j = 1 \/ j = 2 \/ j = 3)%nat as [-> |[-> |[-> | ->]]] by lia;
    try (exfalso; now apply N1); try (exfalso; now apply N2); unfold orient, vertex, next, zpt; cbn; lra.
Qed.
Theorem crossing_rounding_refuted : exists p q,
  twelve_bits p /\ twelve_bits q /\ Forall twelve_bits square /\ enters (map zpt square) (zpt p) (zpt q) /\
  fst (is_crossing_poly binary32 (zfloat p) (zfloat q) (map zfloat square)) = 3%Z.
Proof.
  exists (544, 1159)%Z, (1349, 1964)%Z. split; [unfold twelve_bits; cbn; lia|]. split; [unfold twelve_bits; cbn; lia|].
  split; [repeat constructor; unfold twelve_bits; cbn; lia|]. split; [|vm_compute; reflexivity].
  apply enters_iff; [exact square_convex|]. exists (306 / 805). split; [lra|]. intros i Hi. cbn in Hi.
  unfold o, V. assert (i = 0 \/ i = 1 \/ i = 2 \/ i = 3)%nat as [-> |[-> |[-> | ->]]] by lia;
    unfold orient, between, vertex, next, zpt; cbn; lra.
Qed.

(** The cases are met. *)
Example in_poly_case : convex_ccw (map zpt square) /\ Forall twelve_bits square /\
  map (fun p => is_in_poly binary32 (zfloat p) (map zfloat square)) [(800, 1300); (605, 1500); (604, 1500)]%Z = [1; 2; 0]%Z.
Proof. split; [exact square_convex|]. split; [repeat constructor; unfold twelve_bits; cbn; lia|vm_compute; reflexivity]. Qed.
Example crossing_case : near (zpt (600, 1000)%Z) /\ near (zpt (1000, 1800)%Z) /\ enters (map zpt square) (zpt (600, 1000)%Z) (zpt (1000, 1800)%Z).
Proof.
  unfold near, zpt. cbn [fst snd]. rewrite !Rabs_right by lra. split; [lra|]. split; [lra|].
  apply enters_iff; [exact square_convex|]. exists (1 / 2). split; [lra|]. intros i Hi. cbn in Hi.
  unfold o, V. assert (i = 0 \/ i = 1 \/ i = 2 \/ i = 3)%nat as [-> |[-> |[-> | ->]]] by lia;
    unfold orient, between, vertex, next, zpt; cbn; lra.
Qed.

(** * The planner with this test *)
Section Path.
Variables (Ci Fl : Type) (len1 : point exact_fmt -> point exact_fmt -> Z) (circle_pt : Ci -> Z -> Fl -> nat -> point exact_fmt).
Variables (x1 y1 x2 y2 : Z).
Notation zero := (of_int exact_fmt 0, of_int exact_fmt 0).
Notation ipt := (int_point exact_fmt).
Notation inbox := (is_in_boundingbox exact_fmt x1 y1 x2 y2).
Notation crosses := (crosses exact_fmt).
Notation run := (OaModel.run zero ipt inbox crosses len1 circle_pt).
Notation exec := (OaModel.exec zero ipt inbox crosses len1 circle_pt).
Notation map_of := (OaSpec.map_of zero ipt circle_pt).
Notation rays m := (OaSpec.rays_of inbox crosses m).
Hypothesis Box : (-32768 <= x1 /\ -32768 <= y1 /\ x2 <= 32768 /\ y2 <= 32768)%Z.

Lemma of_int_exact n : of_int exact_fmt n = real (IZR n).
Proof. unfold of_int, real. cbn. f_equal. f_equal. ring. Qed.
Lemma inbox_near a : inbox (pt a) = true -> near a.
Proof.
  unfold is_in_boundingbox, pt. rewrite !andb_true_iff, !of_int_exact. cbn [fst snd exact_fmt le].
  unfold real. cbn [xlt xeq]. intros [[[A B] C] D].
  assert (L : forall u v, (rlt u v || req u v = true -> u <= v)%R).
  { intros u v H. destruct (rlt_spec u v), (req_spec u v); try lra; discriminate. }
  assert (IZR x1 >= -32768 /\ IZR y1 >= -32768 /\ IZR x2 <= 32768 /\ IZR y2 <= 32768).
  { destruct Box as (B1 & B2 & B3 & B4). apply IZR_le in B1, B2, B3, B4. lra. }
  cbn in A, B, C, D.
  apply L in A, B, C, D. split; apply Rabs_le; lra.
Qed.
Lemma enters_sym pol a b : enters pol a b -> enters pol b a.
Proof.
  intros (x & (t & Ht & ->) & S). exists (between a b t). split; [|exact S]. exists (1 - t). split; [lra|].
  unfold between. destruct a, b. cbn. f_equal; ring.
Qed.
Lemma side_enters pol i : convex_ccw pol -> (i < length pol)%nat -> ~ enters pol (vertex pol i) (vertex pol (next pol i)).
Proof.
  intros Hc Hi H. apply enters_iff in H; [|exact Hc]. destruct H as (t & _ & P). specialize (P i Hi).
  pose proof (side_zero pol i t) as Z. unfold V in *. lra.
Qed.

Notation rmap := (list (list rpoint)).
Notation rm_pt rm := (map (map pt) rm).
Lemma at_place_pt (rm : rmap) x : OaSpec.at_place (rm_pt rm) x = option_map pt (OaSpec.at_place rm x).
Proof.
  unfold OaSpec.at_place. change (@nil (num exact_fmt * num exact_fmt)) with (map pt []). rewrite map_nth, nth_error_map. reflexivity.
Qed.

Lemma ray_clear (rm : rmap) x y a b pol : In (x, y) (rays (rm_pt rm)) ->
  OaSpec.at_place rm x = Some a -> OaSpec.at_place rm y = Some b -> In pol (tl rm) -> convex_ccw pol -> ~ enters pol a b.
Proof.
  intros I Ea Eb Ip Hc.
  assert (K : exists k, (1 <= k < length rm)%nat /\ nth k rm [] = pol).
  { destruct rm as [|m0 rm]; [destruct Ip|]. cbn [tl] in Ip. apply (In_nth _ _ []) in Ip as (k & Hk & E).
    exists (S k). cbn [length nth]. split; [lia|exact E]. }
  destruct K as (k & Hk & Ek).
  assert (Nk' : nth k (rm_pt rm) [] = map pt pol).
  { change (@nil (num exact_fmt * num exact_fmt)) with (map pt []). rewrite map_nth. now rewrite Ek. }
  pose proof (Nk' : @nth (list (point exact_fmt)) k (rm_pt rm) (@nil (point exact_fmt)) = map pt pol) as Nk.
  assert (Sees : forall skip, OaSpec.sees inbox crosses (rm_pt rm) skip x y = true -> skip <> Some k -> ~ enters pol a b).
  { intros skip S Ns. unfold OaSpec.sees in S. rewrite !at_place_pt, Ea, Eb in S. cbn [option_map] in S.
    apply andb_true_iff in S as [S C]. apply andb_true_iff in S as [Sa Sb].
    apply inbox_near in Sa. apply inbox_near in Sb. unfold OaSpec.clear in C. rewrite forallb_forall in C.
    specialize (C k). rewrite map_length in C. specialize (C ltac:(apply in_seq; lia)).
    apply orb_true_iff in C as [C|C].
    - exfalso. destruct skip as [s|]; [|discriminate]. apply Nat.eqb_eq in C. subst. now apply Ns.
    - rewrite Nk in C. unfold GeoModel.crosses in C. intro H. apply (crossing_correct_partial pol a b Hc Sa Sb) in H. rewrite H in C. discriminate. }
  unfold OaSpec.rays_of in I. apply in_app_or in I as [I|I]; apply filter_In in I as [I S]; cbn [fst snd] in S.
  - destruct (Nat.eq_dec (fst x) k) as [E|N]; [|apply (Sees _ S); congruence].
    unfold OaSpec.sides in I. apply in_flat_map in I as (i & Hi & I). cbv zeta in I. apply in_map_iff in I as (v & Ev & Hv).
    injection Ev as <- <-. cbn [fst] in E. subst i. rewrite Nk, map_length in Hv. apply in_seq in Hv.
    unfold OaSpec.at_place in Ea, Eb. cbn [fst snd] in Ea, Eb. rewrite Ek in Ea, Eb.
    change (nth_error pol ((v + 1) mod length (@nth (list (point exact_fmt)) k (rm_pt rm) [])) = Some b) in Eb.
    first [rewrite Nk, map_length in Eb|rewrite Nk', map_length in Eb]. fold (next pol v) in Eb.
    apply nth_error_nth with (d := (0, 0)) in Ea. apply nth_error_nth with (d := (0, 0)) in Eb.
    rewrite <- Ea, <- Eb. apply (side_enters pol v Hc). lia.
  - apply (Sees _ S). discriminate.
Qed.

Lemma step_clear (rm : rmap) x y w a b pol : OaSpec.step inbox crosses len1 (rm_pt rm) x y w ->
  OaSpec.at_place rm x = Some a -> OaSpec.at_place rm y = Some b -> In pol (tl rm) -> convex_ccw pol -> ~ enters pol a b.
Proof.
  intros [[I _]|[I _]] Ea Eb Ip Hc.
  - now apply (ray_clear rm x y).
  - intro H. apply enters_sym in H. revert H. now apply (ray_clear rm y x).
Qed.

Lemma ray_ends (rm : rmap) x y : In (x, y) (rays (rm_pt rm)) ->
  exists a b, OaSpec.at_place rm x = Some a /\ OaSpec.at_place rm y = Some b.
Proof.
  intro I. assert (S : exists s, OaSpec.sees inbox crosses (rm_pt rm) s x y = true).
  { unfold OaSpec.rays_of in I. apply in_app_or in I as [I|I]; apply filter_In in I as [_ S]; eauto. }
  destruct S as (s & S). unfold OaSpec.sees in S. rewrite !at_place_pt in S.
  destruct (OaSpec.at_place rm x) as [a|]; [|discriminate]. destruct (OaSpec.at_place rm y) as [b|]; [|discriminate]. eauto.
Qed.

Lemma route_avoids (rm : rmap) x ys c : OaSpec.route (OaSpec.step inbox crosses len1 (rm_pt rm)) x ys c ->
  forall a, OaSpec.at_place rm x = Some a ->
  exists path, map (OaSpec.at_place (rm_pt rm)) ys = map Some (map pt path) /\ avoids (tl rm) a path.
Proof.
  induction 1 as [|x y w ys c S R IH]; intros a Ea; [exists []; split; [reflexivity|exact I]|].
  assert (B : exists b, OaSpec.at_place rm y = Some b).
  { destruct S as [[I _]|[I _]]; apply ray_ends in I as (u & v & ? & ?); eauto. }
  destruct B as (b & Eb). destruct (IH b Eb) as (path & E & A). exists (b :: path).
  split; [cbn [map]; rewrite at_place_pt, Eb; cbn [option_map]; now rewrite E|].
  cbn [avoids]. split; [|exact A]. intros pol Ip Hc. now apply (step_clear rm x y w).
Qed.

(** C61. After any sequence of calls that declare obstacles, a path the search answers stays out of the inside of every
    convex obstacle, from the start to the last point. The bounding box is within 2^15, where the segment
    test works; the rest of the hypotheses are those of C27. *)
Theorem path_avoids_obstacles_partial h o (rm : rmap) a W : OaSpec.calls_ok zero ipt circle_pt (OaSpec.start_map ipt) h -> run h = OK o ->
  map_of h = rm_pt rm -> OaSpec.at_place rm OaSpec.start = Some a ->
  (length (rays (rm_pt rm)) <= 500)%nat ->
  (forall x y, In (x, y) (rays (rm_pt rm)) -> (1 <= OaSpec.cost len1 (rm_pt rm) x y <= W)%Z) ->
  ((Z.of_nat (OaSpec.all_points (rm_pt rm)) + 1) * W < 2 ^ 31)%Z -> (1 <= W)%Z ->
  exists f0, forall fuel, (f0 <= fuel)%nat -> exists o' r, exec o (OaModel.Process fuel) = OK (o', Some r) /\
    ((0 <= r)%Z -> exists path, firstn (Z.to_nat r) (fst (OaModel.oa_get_path o')) = map pt path /\ avoids (tl rm) a path).
Proof.
  intros HC E Em Ea HR HW Hs W1.
  destruct (OaProps.oa_path_partial zero ipt inbox crosses len1 circle_pt h o W HC E) as (f0 & G);
    [rewrite Em; assumption..|exact W1|].
  exists f0. intros fuel Hf. destruct (G fuel Hf) as (o' & r & E1 & E2 & E3). exists o', r. split; [exact E1|].
  intro Hr. destruct E3 as [[-> _]|(ys & c & R & _ & [(L & -> & M)|[_ ->]])]; [lia| |lia].
  rewrite Em in R. destruct (route_avoids rm _ _ _ R a Ea) as (path & P1 & P2). exists path. split; [|exact P2].
  rewrite Nat2Z.id. rewrite Em in M.
  assert (Inj : forall u v : list (point exact_fmt), map Some u = map Some v -> u = v).
  { induction u as [|x u IH]; intros [|y v] Q; try discriminate; auto. cbn in Q. injection Q as -> Q. f_equal. auto. }
  apply Inj. etransitivity; [exact M|exact P1].
Qed.
End Path.

(** A case with an obstacle in the way: the square between (1000, 1000) and (2000, 1100). *)
Definition case_calls : list (@OaModel.op unit unit) :=
  [OaModel.StartEnd 1000 1000 2000 1100; OaModel.NewPoly 4; OaModel.SetPoint 1 1400 900 3; OaModel.SetPoint 1 1400 1300 2;
   OaModel.SetPoint 1 1600 1300 1; OaModel.SetPoint 1 1600 900 0].
Definition case_map : list (list rpoint) :=
  [[zpt (2000, 1100)%Z; zpt (1000, 1000)%Z]; map zpt [(1600, 900); (1600, 1300); (1400, 1300); (1400, 900)]%Z].
Lemma filter_le {A} (f : A -> bool) l : (length (filter f l) <= length l)%nat.
Proof. induction l as [|a l IH]; cbn; [lia|]. destruct (f a); cbn; lia. Qed.
Example path_case :
  let zero := (of_int exact_fmt 0, of_int exact_fmt 0) in
  let cp := fun _ _ _ _ => zero in
  let inbox := is_in_boundingbox exact_fmt 0 0 3000 2000 in
  OaSpec.calls_ok zero (int_point exact_fmt) cp (OaSpec.start_map (int_point exact_fmt)) case_calls /\
  (exists o, OaModel.run zero (int_point exact_fmt) inbox (crosses exact_fmt) (fun _ _ => 1%Z) cp case_calls = OK o) /\
  OaSpec.map_of zero (int_point exact_fmt) cp case_calls = map (map pt) case_map /\
  OaSpec.at_place case_map OaSpec.start = Some (zpt (1000, 1000)%Z) /\
  (length (OaSpec.rays_of inbox (crosses exact_fmt) (map (map pt) case_map)) <= 500)%nat /\
  Forall convex_ccw (tl case_map) /\ enters (nth 1 case_map []) (zpt (1000, 1000)%Z) (zpt (2000, 1100)%Z).
Proof.
  cbv zeta. split; [repeat (split; [first [exact I | split; lazy; congruence | split; split; lazy; congruence]|]); exact I|].
  split.
  { set (r := OaModel.run _ _ _ _ _ _ _). assert (G : match r with OK _ => True | BAD => False end) by (lazy; exact I).
    destruct r as [o|]; [now exists o|destruct G]. }
  split.
  { unfold case_map, zpt, pt, int_point. cbn [fst snd map]. rewrite <- !of_int_exact. reflexivity. }
  split; [reflexivity|]. split.
  { unfold OaSpec.rays_of. rewrite app_length. eapply Nat.le_trans; [apply Nat.add_le_mono; apply filter_le|]. lazy. lia. }
  assert (Hc : convex_ccw (map zpt [(1600, 900); (1600, 1300); (1400, 1300); (1400, 900)]%Z)).
  { split; [cbn; lia|]. intros i j Hi Hj N1 N2. cbn in Hi, Hj.
    assert (i = 0 \/ i = 1 \/ i = 2 \/ i = 3)%nat as [-> |[-> |[-> | ->]]] by lia;
    assert (j = 0 \/ j = 1 \/ j = 2 \/ j = 3)%nat as [-> |[-> |[-> | ->]]] by lia;
      try (exfalso; now apply N1); try (exfalso; now apply N2); unfold orient, vertex, next, zpt; cbn; lra. }
  split; [repeat constructor; apply Hc|]. apply enters_iff; [exact Hc|]. exists (1 / 2). split; [lra|]. intros i Hi. cbn in Hi.
  unfold o. assert (i = 0 \/ i = 1 \/ i = 2 \/ i = 3)%nat as [-> |[-> |[-> | ->]]] by lia;
    unfold orient, between, vertex, next, zpt; cbn; lra.
Qed.

Print Assumptions in_poly_correct.
Print Assumptions in_poly_float.
Print Assumptions crossing_correct_partial.
Print Assumptions crossing_rounding_refuted.
Print Assumptions path_avoids_obstacles_partial.
