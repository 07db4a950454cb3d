From Coq Require Import ZArith List Bool Reals Lra Lia Permutation.
From Verif Require Import CRes OaModel MapModel MapSpec.
Import ListNotations.
Local Open Scope Z_scope.

Lemma nth_upd' {A} (l : list A) i j x d : nth j (upd l i x) d = if Nat.eqb i j && (i <? length l)%nat then x else nth j l d.
Proof.
  revert i j; induction l as [|y l IH]; intros [|i] [|j]; cbn; auto; rewrite ?andb_false_r; auto; rewrite IH; reflexivity.
Qed.

(** The i-th point of the polygon q. *)
Definition at_ (o : oa) (q : Z) (i : nat) : point := nth (Z.to_nat (2 + 4 * (q - 1)) + i) (points o) origin.
Definition verts (o : oa) (q : Z) : list point := [at_ o q 0; at_ o q 1; at_ o q 2; at_ o q 3].

Record wf (o : oa) : Prop := {
  wf_pts : length (points o) = MAX_PTS;
  wf_polys : length (polys o) = MAX_POLY;
  wf_cur : 1 <= cur_poly_idx o <= 20;
  wf_cpt : cur_pt_idx o = 2 + 4 * (cur_poly_idx o - 1);
  wf_poly : forall q, 1 <= q < cur_poly_idx o -> zget (polys o) q = OK (mkpoly true (2 + 4 * (q - 1)) 4) }.

Lemma get_pt_ok q i : 1 <= q < 20 -> (i < 4)%nat ->
  get_pt (mkpoly true (2 + 4 * (q - 1)) 4) (Z.of_nat i) = OK (Z.to_nat (2 + 4 * (q - 1)) + i)%nat.
Proof.
  intros Hq Hi. unfold get_pt. cbn [own pts].
  replace (_ && _ && _) with true.
  - f_equal. lia.
  - symmetry. rewrite !andb_true_iff. cbn [andb]. unfold MAX_PTS. repeat split; [apply Z.leb_le|apply Z.ltb_lt]; lia.
Qed.

Lemma set_vertex_ok o q i v : wf o -> 1 <= q < cur_poly_idx o -> (i < 4)%nat ->
  exists o', set_vertex q (Z.of_nat i) v o = OK o' /\ wf o' /\ cur_poly_idx o' = cur_poly_idx o /\
    at_ o' q i = v /\ forall q' j, 1 <= q' -> (j < 4)%nat -> (q', j) <> (q, i) -> at_ o' q' j = at_ o q' j.
Proof.
  intros W Hq Hi. assert (Hc := wf_cur _ W). unfold set_vertex. rewrite (wf_poly _ W q Hq). cbn [rbind].
  rewrite get_pt_ok by lia. cbn [rbind].
  assert (L : (Z.to_nat (2 + 4 * (q - 1)) + i < length (points o))%nat).
  { rewrite (wf_pts _ W). unfold MAX_PTS. lia. }
  rewrite put_ok by assumption. cbn [rbind]. eexists; split; [reflexivity|].
  split; [|split; [reflexivity|split]].
  - destruct W. constructor; cbn [set_points points polys cur_poly_idx cur_pt_idx]; auto. now rewrite upd_length.
  - unfold at_. cbn [set_points points]. rewrite nth_upd', Nat.eqb_refl. apply Nat.ltb_lt in L. now rewrite L.
  - intros q' j H1 H2 H3. unfold at_. cbn [set_points points]. rewrite nth_upd'.
    replace (Nat.eqb _ _) with false; [reflexivity|]. symmetry. apply Nat.eqb_neq. intro E. apply H3.
    assert (q' = q) by lia. subst. f_equal. lia.
Qed.

Lemma set4_ok o q x0 y0 x1 y1 x2 y2 x3 y3 : wf o -> 1 <= q < cur_poly_idx o ->
  exists o', set4 o q x0 y0 x1 y1 x2 y2 x3 y3 = OK o' /\ wf o' /\ cur_poly_idx o' = cur_poly_idx o /\
    verts o' q = [of_int x0 y0; of_int x1 y1; of_int x2 y2; of_int x3 y3] /\
    forall q', 1 <= q' -> q' <> q -> verts o' q' = verts o q'.
Proof.
  intros W Hq. unfold set4.
  destruct (set_vertex_ok o q 0 (of_int x0 y0) W Hq) as (o1 & E1 & W1 & C1 & A1 & B1); [lia|].
  change (Z.of_nat 0) with 0 in E1. rewrite E1. cbn [rbind]. rewrite <- C1 in Hq.
  destruct (set_vertex_ok o1 q 1 (of_int x1 y1) W1 Hq) as (o2 & E2 & W2 & C2 & A2 & B2); [lia|].
  change (Z.of_nat 1) with 1 in E2. rewrite E2. cbn [rbind]. rewrite <- C2 in Hq.
  destruct (set_vertex_ok o2 q 2 (of_int x2 y2) W2 Hq) as (o3 & E3 & W3 & C3 & A3 & B3); [lia|].
  change (Z.of_nat 2) with 2 in E3. rewrite E3. cbn [rbind]. rewrite <- C3 in Hq.
  destruct (set_vertex_ok o3 q 3 (of_int x3 y3) W3 Hq) as (o4 & E4 & W4 & C4 & A4 & B4); [lia|].
  change (Z.of_nat 3) with 3 in E4. rewrite E4. exists o4.
  split; [reflexivity|]. split; [assumption|]. split; [congruence|]. split.
  - unfold verts. rewrite A4, (B4 q 0%nat), (B4 q 1%nat), (B4 q 2%nat), A3, (B3 q 0%nat), (B3 q 1%nat), A2, (B2 q 0%nat), A1;
    try reflexivity; try lia; intro E; discriminate E.
  - intros q' H1 H2. unfold verts. rewrite !B4, !B3, !B2, !B1; try reflexivity; try lia; intro E; injection E; intros; lia.
Qed.

Lemma new_poly_ok o : wf o -> cur_poly_idx o < 20 ->
  exists o', new_poly o 4 = OK (o', cur_poly_idx o) /\ wf o' /\ cur_poly_idx o' = cur_poly_idx o + 1 /\
    forall q', verts o' q' = verts o q'.
Proof.
  intros W Hc. assert (Hc' := wf_cur _ W). unfold new_poly, oa_new_poly. rewrite (wf_cpt _ W).
  rewrite int_ok by lia. cbn [rbind].
  replace (_ >? Z.of_nat MAX_PTS) with false by (symmetry; rewrite Z.gtb_ltb; apply Z.ltb_ge; unfold MAX_PTS; lia).
  replace (_ >? Z.of_nat MAX_POLY) with false by (symmetry; rewrite Z.gtb_ltb; apply Z.ltb_ge; unfold MAX_POLY; lia).
  replace (_ && _) with true by (symmetry; rewrite andb_true_iff; unfold MAX_PTS; split; apply Z.leb_le; lia).
  unfold zput. replace (_ <? 0) with false by (symmetry; apply Z.ltb_ge; lia).
  rewrite put_ok by (rewrite (wf_polys _ W); unfold MAX_POLY; lia). cbn [rbind].
  eexists; split; [reflexivity|]. split; [|split; [reflexivity|intro; reflexivity]].
  destruct W. constructor; cbn [points polys cur_poly_idx cur_pt_idx]; auto; try lia.
  - now rewrite upd_length.
  - intros q Hq. unfold zget in *. replace (q <? 0) with false by (symmetry; apply Z.ltb_ge; lia).
    destruct (Z.eq_dec q (cur_poly_idx o)) as [->|N].
    + apply get_ok. apply upd_same. rewrite wf_polys0. unfold MAX_POLY. lia.
    + unfold get. rewrite upd_other by lia. specialize (wf_poly0 q). replace (q <? 0) with false in wf_poly0 by (symmetry; apply Z.ltb_ge; lia).
      apply wf_poly0. lia.
Qed.

Lemma clamp_clip v hi : 0 <= hi -> math_clamp_value v 0 hi = clip hi v.
Proof.
  intro H. unfold math_clamp_value, clip. destruct (v <? 0) eqn:E; [apply Z.ltb_lt in E; lia|]. apply Z.ltb_ge in E.
  destruct (v >? hi) eqn:F; [apply Z.gtb_lt in F|rewrite Z.gtb_ltb in F; apply Z.ltb_ge in F]; lia.
Qed.

Lemma rect_ok o q x y sx sy r : wf o -> 1 <= q < cur_poly_idx o -> coord x -> coord y -> size sx -> size sy -> size r ->
  exists o', map_set_rectangular_obstacle o q x y sx sy r = OK o' /\ wf o' /\ cur_poly_idx o' = cur_poly_idx o /\
    verts o' q = rectangle (x - (sx + r) / 2) (y - (sy + r) / 2) (x + (sx + r) / 2) (y + (sy + r) / 2) /\
    forall q', 1 <= q' -> q' <> q -> verts o' q' = verts o q'.
Proof.
  unfold coord, size. intros W Hq Hx Hy Hsx Hsy Hr. unfold map_set_rectangular_obstacle.
  rewrite (int_ok (sx + r)), (int_ok (sy + r)) by lia. cbn [rbind].
  rewrite (Z.quot_div_nonneg (sx + r)), (Z.quot_div_nonneg (sy + r)) by lia.
  pose proof (Z.div_pos (sx + r) 2). pose proof (Z.div_pos (sy + r) 2).
  assert ((sx + r) / 2 <= 2 ^ 30) by (apply Z.div_le_upper_bound; lia). assert ((sy + r) / 2 <= 2 ^ 30) by (apply Z.div_le_upper_bound; lia).
  rewrite !int_ok by lia. cbn [rbind]. unfold TABLE_POINT_X, TABLE_POINT_Y, MAP_SIZE_X_MM, MAP_SIZE_Y_MM. rewrite !clamp_clip by lia.
  apply set4_ok; assumption.
Qed.

Lemma corners_ok o q x1 y1 x2 y2 r : wf o -> 1 <= q < cur_poly_idx o -> coord x1 -> coord y1 -> coord x2 -> coord y2 -> size r ->
  exists o', map_set_rectangular_obstacle_from_corners o q x1 y1 x2 y2 r = OK o' /\ wf o' /\ cur_poly_idx o' = cur_poly_idx o /\
    verts o' q = rectangle (x1 - r / 2) (y1 - r / 2) (x2 + r / 2) (y2 + r / 2) /\
    forall q', 1 <= q' -> q' <> q -> verts o' q' = verts o q'.
Proof.
  unfold coord, size. intros W Hq H1 H2 H3 H4 Hr. unfold map_set_rectangular_obstacle_from_corners.
  rewrite (Z.quot_div_nonneg r) by lia. pose proof (Z.div_pos r 2). assert (r / 2 <= 2 ^ 29) by (apply Z.div_le_upper_bound; lia).
  rewrite !int_ok by lia. cbn [rbind]. unfold TABLE_POINT_X, TABLE_POINT_Y, MAP_SIZE_X_MM, MAP_SIZE_Y_MM. rewrite !clamp_clip by lia.
  apply set4_ok; assumption.
Qed.

Definition circle_pts (x y s : Z) : list point :=
  let r := (1.25 * IZR s / 2)%R in
  [ (IZR x + r, IZR y); (IZR x, IZR y + r); (IZR x - r, IZR y); (IZR x, IZR y - r) ]%R.

Lemma circle_ok o q x y s : wf o -> 1 <= q < cur_poly_idx o ->
  exists o', discretize_circle o q (IZR x) (IZR y) (MAP_ALLY_SIZE_FACTOR * IZR s / 2) MAP_NUM_ALLY_EDGES 0 = OK o' /\ wf o' /\
    cur_poly_idx o' = cur_poly_idx o /\ verts o' q = circle_pts x y s /\
    forall q', 1 <= q' -> q' <> q -> verts o' q' = verts o q'.
Proof.
  intros W Hq. unfold discretize_circle. rewrite (wf_poly _ W q Hq). cbn [rbind l]. unfold MAP_NUM_ALLY_EDGES. cbn [Z.eqb negb Pos.eqb].
  change (seq 0 (Z.to_nat 4)) with [0; 1; 2; 3]%nat. cbn [foldM].
  set (r := (MAP_ALLY_SIZE_FACTOR * IZR s / 2)%R).
  match goal with |- context [set_vertex q (Z.of_nat 0) ?v] => destruct (set_vertex_ok o q 0 v W Hq) as (o1 & E1 & W1 & C1 & A1 & B1); [lia|] end.
  rewrite E1. cbn [rbind]. rewrite <- C1 in Hq.
  match goal with |- context [set_vertex q (Z.of_nat 1) ?v] => destruct (set_vertex_ok o1 q 1 v W1 Hq) as (o2 & E2 & W2 & C2 & A2 & B2); [lia|] end.
  rewrite E2. cbn [rbind]. rewrite <- C2 in Hq.
  match goal with |- context [set_vertex q (Z.of_nat 2) ?v] => destruct (set_vertex_ok o2 q 2 v W2 Hq) as (o3 & E3 & W3 & C3 & A3 & B3); [lia|] end.
  rewrite E3. cbn [rbind]. rewrite <- C3 in Hq.
  match goal with |- context [set_vertex q (Z.of_nat 3) ?v] => destruct (set_vertex_ok o3 q 3 v W3 Hq) as (o4 & E4 & W4 & C4 & A4 & B4); [lia|] end.
  rewrite E4. cbn [rbind]. exists o4.
  split; [reflexivity|]. split; [assumption|]. split; [congruence|]. split.
  - unfold verts. rewrite A4, (B4 q 0%nat), (B4 q 1%nat), (B4 q 2%nat), A3, (B3 q 0%nat), (B3 q 1%nat), A2, (B2 q 0%nat), A1;
    try reflexivity; try lia; try (intro E; discriminate E).
    unfold circle_pts. fold r. change (Z.of_nat 0) with 0. change (Z.of_nat 1) with 1. change (Z.of_nat 2) with 2. change (Z.of_nat 3) with 3.
    change (1.25 * IZR s / 2)%R with r.
    replace (0 * (2 * PI / 4) + 0)%R with 0%R by field.
    replace (1 * (2 * PI / 4) + 0)%R with (PI / 2)%R by field.
    replace (2 * (2 * PI / 4) + 0)%R with PI by field.
    replace (3 * (2 * PI / 4) + 0)%R with (3 * (PI / 2))%R by field.
    rewrite cos_0, sin_0, cos_PI2, sin_PI2, cos_PI, sin_PI, cos_3PI2, sin_3PI2.
    assert (P2 : forall a b c d : R, a = c -> b = d -> (a, b) = (c, d)) by congruence.
    repeat (apply (f_equal2 (@cons point)); [apply P2; ring|]). reflexivity.
  - intros q' H1 H2. unfold verts. rewrite !B4, !B3, !B2, !B1; try reflexivity; try lia; intro E; injection E; intros; lia.
Qed.

Lemma vertices_ok o q : wf o -> 1 <= q < cur_poly_idx o -> vertices o q = OK (verts o q).
Proof.
  intros W Hq. assert (Hc := wf_cur _ W). unfold vertices. rewrite (wf_poly _ W q Hq). cbn [rbind l].
  change (seq 0 (Z.to_nat 4)) with [0; 1; 2; 3]%nat. cbn [foldM].
  assert (V : forall i, (i < 4)%nat -> vertex o q (Z.of_nat i) = OK (at_ o q i)).
  { intros i Hi. unfold vertex. rewrite (wf_poly _ W q Hq). cbn [rbind]. rewrite get_pt_ok by lia. cbn [rbind]. apply get_ok.
    unfold at_. apply nth_error_nth'. rewrite (wf_pts _ W). unfold MAX_PTS. lia. }
  rewrite !V by lia. reflexivity.
Qed.

Lemma foldM_map o qs acc : (forall q, In q qs -> vertices o q = OK (verts o q)) ->
  foldM (fun acc p => try vs := vertices o p in OK (acc ++ [vs])) qs acc = OK (acc ++ map (verts o) qs).
Proof.
  revert acc; induction qs as [|q qs IH]; intros acc H; cbn [foldM map]; [now rewrite app_nil_r|].
  rewrite H by now left. cbn [rbind]. rewrite IH by (intros; apply H; now right). now rewrite <- app_assoc.
Qed.
Lemma obstacles_ok m : wf (moa m) -> obstacles m = OK (map (verts (moa m)) (zseq 1 (cur_poly_idx (moa m)))).
Proof.
  intro W. unfold obstacles. apply foldM_map. intros q Hq. apply vertices_ok; [assumption|].
  unfold zseq in Hq. apply in_map_iff in Hq as (n & <- & Hn). apply in_seq in Hn. lia.
Qed.

(** The map: its polygons are the ally, the two opponents and the fixed ones. *)
Record inv (rs : Z) (wall : bool) (m : map_t) (a o1 o2 : list point) : Prop := {
  i_wf : wf (moa m);
  i_cur : cur_poly_idx (moa m) = if wall then 8 else 7;
  i_ally : ally m = 1;
  i_opp : opponents m = [2; 3];
  i_lock : lock m = false;
  i_last : last_opponent_index m = 0 \/ last_opponent_index m = 1;
  i_a : verts (moa m) 1 = a;
  i_o1 : verts (moa m) 2 = o1;
  i_o2 : verts (moa m) 3 = o2;
  i_fix : map (verts (moa m)) (zseq 4 (if wall then 8 else 7)) = fixed_obstacles rs wall }.

Lemma inv_obstacles rs wall m a o1 o2 : inv rs wall m a o1 o2 -> obstacles m = OK (a :: o1 :: o2 :: fixed_obstacles rs wall).
Proof.
  intros []. rewrite obstacles_ok by assumption. rewrite i_cur0. f_equal. rewrite <- i_fix0, <- i_a0, <- i_o3, <- i_o4.
  destruct wall; reflexivity.
Qed.

Lemma fix_same o o' (P : Z -> Prop) n : (forall q, 4 <= q -> verts o' q = verts o q) -> map (verts o') (zseq 4 n) = map (verts o) (zseq 4 n).
Proof.
  intro H. apply map_ext_in. intros q Hq. unfold zseq in Hq. apply in_map_iff in Hq as (k & <- & Hk). apply in_seq in Hk. apply H. lia.
Qed.

Lemma ally_ok rs wall m a o1 o2 x y s r : inv rs wall m a o1 o2 -> size s -> size r ->
  exists m', map_set_ally_obstacle m x y s r = OK m' /\ inv rs wall m' (circle_pts x y (r + s)) o1 o2 /\
    last_opponent_index m' = last_opponent_index m.
Proof.
  intros I Hs Hr. assert (I' := I). destruct I. unfold map_set_ally_obstacle. unfold size in *. rewrite int_ok by lia. cbn [rbind].
  unfold map_lock. rewrite i_lock0. cbn [rbind set_lock moa ally]. rewrite i_ally0.
  destruct (circle_ok (moa m) 1 x y (r + s) i_wf0) as (o' & E & W & C & A & B); [destruct wall; lia|].
  rewrite E. cbn [rbind]. unfold map_unlock. cbn [set_oa set_lock lock]. eexists. split; [reflexivity|]. split; [|reflexivity].
  constructor; cbn [set_lock set_oa moa ally opponents lock last_opponent_index]; auto; try congruence.
  - rewrite B by lia. assumption.
  - rewrite B by lia. assumption.
  - rewrite <- i_fix0. apply fix_same; [exact (fun _ => True)|]. intros; apply B; lia.
Qed.

Lemma update_ok rs wall m a o1 o2 x y s r : inv rs wall m a o1 o2 -> coord x -> coord y -> size s -> size r ->
  exists m', map_update_opponent_obstacle m x y s r = OK m' /\
    (last_opponent_index m = 0 /\ last_opponent_index m' = 1 /\ inv rs wall m' a (around (det x y s r)) o2 \/
     last_opponent_index m = 1 /\ last_opponent_index m' = 0 /\ inv rs wall m' a o1 (around (det x y s r))).
Proof.
  intros I Hx Hy Hs Hr. destruct I. unfold map_update_opponent_obstacle.
  unfold map_lock. rewrite i_lock0. cbn [rbind set_lock moa opponents last_opponent_index]. rewrite i_opp0.
  destruct i_last0 as [K|K]; rewrite K.
  - change (zget [2; 3] 0) with (OK 2). cbn [rbind].
    destruct (rect_ok (moa m) 2 x y s s r i_wf0) as (o' & E & W & C & A & B); auto; [destruct wall; lia|].
    rewrite E. cbn [rbind set_oa set_lock last_opponent_index]. rewrite K. cbn [Z.add Z.geb Z.compare MAP_NUM_OPPONENT Pos.compare Pos.compare_cont].
    eexists; split; [reflexivity|]. left. split; [reflexivity|]. split; [reflexivity|].
    constructor; cbn [set_lock set_oa set_last moa ally opponents lock last_opponent_index]; auto; try congruence.
    + rewrite B by lia. assumption.
    + rewrite B by lia. assumption.
    + rewrite <- i_fix0. apply fix_same; [exact (fun _ => True)|]. intros; apply B; lia.
  - change (zget [2; 3] 1) with (OK 3). cbn [rbind].
    destruct (rect_ok (moa m) 3 x y s s r i_wf0) as (o' & E & W & C & A & B); auto; [destruct wall; lia|].
    rewrite E. cbn [rbind set_oa set_lock last_opponent_index]. rewrite K. change (1 + 1 >=? MAP_NUM_OPPONENT) with true. cbv iota.
    eexists; split; [reflexivity|]. right. split; [reflexivity|]. split; [reflexivity|].
    constructor; cbn [set_lock set_oa set_last moa ally opponents lock last_opponent_index]; auto; try congruence.
    + rewrite B by lia. assumption.
    + rewrite B by lia. assumption.
    + rewrite <- i_fix0. apply fix_same; [exact (fun _ => True)|]. intros; apply B; lia.
Qed.

Lemma set_ok rs wall m a o1 o2 i x y s r : inv rs wall m a o1 o2 -> 0 <= i < 2 -> coord x -> coord y -> size s -> size r ->
  exists m', map_set_opponent_obstacle m i x y s r = OK m' /\ last_opponent_index m' = last_opponent_index m /\
    (i = 0 /\ inv rs wall m' a (around (det x y s r)) o2 \/ i = 1 /\ inv rs wall m' a o1 (around (det x y s r))).
Proof.
  intros I Hi Hx Hy Hs Hr. destruct I. unfold map_set_opponent_obstacle.
  unfold map_lock. rewrite i_lock0. cbn [rbind set_lock moa opponents last_opponent_index]. rewrite i_opp0.
  assert (i = 0 \/ i = 1) as [-> | ->] by lia.
  - change (zget [2; 3] 0) with (OK 2). cbn [rbind].
    destruct (rect_ok (moa m) 2 x y s s r i_wf0) as (o' & E & W & C & A & B); auto; [destruct wall; lia|].
    rewrite E. cbn [rbind]. eexists; split; [reflexivity|]. split; [reflexivity|]. left. split; [reflexivity|].
    constructor; cbn [set_lock set_oa set_last moa ally opponents lock last_opponent_index]; auto; try congruence.
    + rewrite B by lia. assumption.
    + rewrite B by lia. assumption.
    + rewrite <- i_fix0. apply fix_same; [exact (fun _ => True)|]. intros; apply B; lia.
  - change (zget [2; 3] 1) with (OK 3). cbn [rbind].
    destruct (rect_ok (moa m) 3 x y s s r i_wf0) as (o' & E & W & C & A & B); auto; [destruct wall; lia|].
    rewrite E. cbn [rbind]. eexists; split; [reflexivity|]. split; [reflexivity|]. right. split; [reflexivity|].
    constructor; cbn [set_lock set_oa set_last moa ally opponents lock last_opponent_index]; auto; try congruence.
    + rewrite B by lia. assumption.
    + rewrite B by lia. assumption.
    + rewrite <- i_fix0. apply fix_same; [exact (fun _ => True)|]. intros; apply B; lia.
Qed.

Lemma ends_ok rs wall m a o1 o2 x y z w : inv rs wall m a o1 o2 ->
  inv rs wall (set_oa m (oa_start_end_points of_int (moa m) x y z w)) a o1 o2.
Proof.
  intros []. assert (V : forall q, 1 <= q -> verts (oa_start_end_points of_int (moa m) x y z w) q = verts (moa m) q).
  { intros q Hq. unfold verts, at_. cbn [oa_start_end_points set_wk set_points points]. rewrite !nth_upd'.
    assert (exists n, Z.to_nat (2 + 4 * (q - 1)) = S (S n)) as (n & ->) by (exists (Z.to_nat (2 + 4 * (q - 1)) - 2)%nat; lia).
    cbn [Nat.add Nat.eqb andb]. reflexivity. }
  constructor; cbn [set_lock set_oa set_last moa ally opponents lock last_opponent_index]; auto; rewrite ?V by lia; auto.
  - destruct i_wf0. constructor; auto. cbn [oa_start_end_points set_wk set_points points]. now rewrite !upd_length.
  - rewrite <- i_fix0. apply fix_same; [exact (fun _ => True)|]. intros; apply V; lia.
Qed.

Lemma wf_init : wf (oa_init origin of_int).
Proof.
  constructor; try reflexivity; cbn [oa_init cur_poly_idx]; try lia.
Qed.

Lemma quot_half r : size r -> Z.quot r 2 = r / 2 /\ 0 <= r / 2 <= 2 ^ 28.
Proof.
  unfold size. intro H. rewrite Z.quot_div_nonneg by lia. split; [reflexivity|]. split; [apply Z.div_pos; lia|apply Z.div_le_upper_bound; lia].
Qed.

Local Ltac reds := cbn [rbind]; cbv beta iota delta [set_oa set_lock set_last map_unlock lock the_wall ramp_obstacle distributor_obstacle ally opponents
  last_opponent_index moa enable_opponent box]; cbn [rbind]; cbv beta iota delta [set_oa set_lock set_last map_unlock lock the_wall ramp_obstacle
  distributor_obstacle ally opponents last_opponent_index moa enable_opponent box]; cbn [rbind].
Lemma init_ok rs wall : size rs -> exists m, map_init rs wall = OK m /\
  inv rs wall m (circle_pts 0 0 0) (around nobody) (around nobody) /\ last_opponent_index m = 0 /\
  box m = (rs / 2, rs / 2, 3000 - rs / 2, 2000 - rs / 2).
Proof.
  intro Hr. destruct (quot_half _ Hr) as (Q & Q'). unfold map_init. rewrite Q. unfold MAP_SIZE_X_MM, MAP_SIZE_Y_MM.
  rewrite !int_ok by lia. cbn [rbind].
  assert (S0 : size 0) by (unfold size; lia).
  assert (C0 : coord 0) by (unfold coord; lia).
  destruct (new_poly_ok (oa_init origin of_int) wf_init) as (o1 & E1 & W1 & C1 & V1); [cbn; lia|].
  unfold MAP_NUM_ALLY_EDGES at 1. rewrite E1. cbn [rbind]. change (cur_poly_idx (oa_init origin of_int)) with 1 in *. cbn [Z.add Pos.add] in C1.
  unfold map_set_ally_obstacle. rewrite int_ok by lia. cbn [rbind].
  unfold map_lock at 1. cbn [lock rbind moa ally set_lock].
  destruct (circle_ok o1 1 0 0 (0 + 0) W1) as (o2 & E2 & W2 & C2 & A2 & B2); [lia|]. rewrite E2. reds.
  change (zseq 0 MAP_NUM_OPPONENT) with [0; 1]. cbn [foldM]. cbn [the_wall ramp_obstacle distributor_obstacle ally opponents last_opponent_index lock moa enable_opponent box].
  unfold MAP_NUM_OPPONENT_EDGES.
  destruct (new_poly_ok o2 W2) as (o3 & E3 & W3 & C3 & V3); [lia|]. rewrite E3. cbn [rbind]. rewrite C2, C1 in *. cbn [Z.add Pos.add Pos.add_carry Pos.succ] in C3.
  change (zput [0; 0] 0 2) with (OK [2; 0]). cbn [rbind].
  unfold map_set_opponent_obstacle at 1, map_lock at 1. cbn [lock rbind moa ally set_lock opponents]. change (zget [2; 0] 0) with (OK 2). cbn [rbind].
  destruct (rect_ok o3 2 0 0 0 0 0 W3) as (o4 & E4 & W4 & C4 & A4 & B4); auto; [lia|]. rewrite E4. reds.
  cbn [the_wall ramp_obstacle distributor_obstacle ally opponents last_opponent_index lock moa enable_opponent box].
  destruct (new_poly_ok o4 W4) as (o5 & E5 & W5 & C5 & V5); [lia|]. rewrite E5. cbn [rbind]. rewrite C4, C3 in *. cbn [Z.add Pos.add Pos.add_carry Pos.succ] in C5.
  change (zput [2; 0] 1 3) with (OK [2; 3]). cbn [rbind].
  unfold map_set_opponent_obstacle, map_lock. cbn [lock rbind moa ally set_lock opponents]. change (zget [2; 3] 1) with (OK 3). cbn [rbind].
  destruct (rect_ok o5 3 0 0 0 0 0 W5) as (o6 & E6 & W6 & C6 & A6 & B6); auto; [lia|]. rewrite E6. reds.
  cbn [the_wall ramp_obstacle distributor_obstacle ally opponents last_opponent_index lock moa enable_opponent box].
  rewrite C5 in C6.
  assert (V1' : verts o6 1 = circle_pts 0 0 0). { rewrite B6, V5, B4, V3, A2 by lia. reflexivity. }
  assert (V2' : verts o6 2 = around nobody). { rewrite B6, V5, A4 by lia. reflexivity. }
  assert (V3' : verts o6 3 = around nobody). { rewrite A6. reflexivity. }
  clear E1 W1 C1 V1 E2 W2 C2 A2 B2 E3 W3 C3 V3 E4 W4 C4 A4 B4 E5 W5 C5 V5 E6 A6 B6 o1 o2 o3 o4 o5.
  assert (D : forall o f w, wf o -> (f = 4 \/ f = 5) -> cur_poly_idx o = f -> verts o 1 = circle_pts 0 0 0 -> verts o 2 = around nobody -> verts o 3 = around nobody ->
    exists m,
    (try (o0, d0) := new_poly o 4
     in try (o1, d1) := new_poly o0 4
        in try o2 := map_set_rectangular_obstacle_from_corners o1 d0 450 1543 1050 1578 rs
           in try o3 := map_set_rectangular_obstacle_from_corners o2 d1 1950 1543 2550 1578 rs
              in try (o4, r) := new_poly o3 4
                 in try o5 := map_set_rectangular_obstacle_from_corners o4 r 450 1578 2550 2000 rs
                    in OK (mkmap w r (d0, d1) 1 [2; 3] 0 false o5 true (rs / 2, rs / 2, 3000 - rs / 2, 2000 - rs / 2))) = OK m /\
    box m = (rs / 2, rs / 2, 3000 - rs / 2, 2000 - rs / 2) /\
    ally m = 1 /\ opponents m = [2; 3] /\ lock m = false /\ last_opponent_index m = 0 /\ wf (moa m) /\ cur_poly_idx (moa m) = f + 3 /\
    verts (moa m) 1 = circle_pts 0 0 0 /\ verts (moa m) 2 = around nobody /\ verts (moa m) 3 = around nobody /\
    (forall q, 1 <= q < f -> verts (moa m) q = verts o q) /\
    map (verts (moa m)) [f; f + 1; f + 2] = fixed_obstacles rs false).
  { clear o6 W6 C6 V1' V2' V3'. intros o f w W Hf C V1 V2 V3.
    destruct (new_poly_ok o W) as (o1 & E1 & W1 & C1 & U1); [lia|]. rewrite E1. cbn [rbind].
    destruct (new_poly_ok o1 W1) as (o2 & E2 & W2 & C2 & U2); [lia|]. rewrite E2. cbn [rbind].
    rewrite C in *. rewrite C1 in *.
    destruct (corners_ok o2 f 450 1543 1050 1578 rs W2) as (o3 & E3 & W3 & C3 & A3 & B3); try (unfold coord; lia); auto; []. rewrite E3. cbn [rbind].
    destruct (corners_ok o3 (f + 1) 1950 1543 2550 1578 rs W3) as (o4 & E4 & W4 & C4 & A4 & B4); try (unfold coord; lia); auto; []. rewrite E4. cbn [rbind].
    destruct (new_poly_ok o4 W4) as (o5 & E5 & W5 & C5 & U5); [lia|]. rewrite E5. cbn [rbind].
    rewrite C4, C3, C2 in *.
    destruct (corners_ok o5 (f + 1 + 1) 450 1578 2550 2000 rs W5) as (o6 & E6 & W6 & C6 & A6 & B6); try (unfold coord; lia); auto; []. rewrite E6. cbn [rbind].
    eexists; split; [reflexivity|]. cbn [the_wall ramp_obstacle distributor_obstacle ally opponents last_opponent_index lock moa enable_opponent box].
    do 5 (split; [reflexivity|]). split; [assumption|]. split; [lia|].
    assert (K : forall q, 1 <= q < f -> verts o6 q = verts o q). { intros q Hq. rewrite B6, U5, B4, B3, U2, U1 by lia. reflexivity. }
    split; [rewrite K by lia; assumption|]. split; [rewrite K by lia; assumption|]. split; [rewrite K by lia; assumption|]. split; [exact K|].
    cbn [map]. replace (f + 2) with (f + 1 + 1) by lia. rewrite A6. rewrite !B6, !U5 by lia. rewrite A4, B4, A3 by lia. reflexivity. }
  destruct wall.
  - destruct (new_poly_ok o6 W6) as (o7 & E7 & W7 & C7 & V7); [lia|]. rewrite E7. cbn [rbind]. rewrite C6 in *. cbn [Z.add Pos.add Pos.add_carry Pos.succ] in *.
    destruct (rect_ok o7 4 1500 1450 40 200 rs W7) as (o8 & E8 & W8 & C8 & A8 & B8); try (unfold coord, size; lia); auto; []. rewrite E8. cbn [rbind].
    destruct (D o8 5 (Some 4) W8) as (m & E & Hb & H1 & H2 & H3 & H4 & H5 & H6 & H7 & H8 & H9 & H10 & H11); try (right; reflexivity); try lia; try (rewrite B8, V7 by lia; assumption).
    exists m. split; [exact E|]. split; [|split; assumption].
    constructor; auto.
    change (zseq 4 8) with ([4] ++ [5; 5 + 1; 5 + 2]). rewrite map_app, H11. unfold fixed_obstacles. cbn [map app]. rewrite H10 by lia. rewrite A8. reflexivity.
  - cbn [rbind].
    destruct (D o6 4 None W6) as (m & E & Hb & H1 & H2 & H3 & H4 & H5 & H6 & H7 & H8 & H9 & H10 & H11); try (left; reflexivity); try lia; auto.
    exists m. split; [exact E|]. split; [|split; assumption].
    constructor; auto.
Qed.
