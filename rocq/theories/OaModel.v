(** Model of lib/aversive/obstacle_avoidance/obstacle_avoidance.c and of the ray computation of
    lib/aversive/math/geometry/polygon.c. *)
From Coq Require Import ZArith List Bool Arith.
From Verif Require Import CRes.
Import ListNotations.
Local Open Scope Z_scope.

(** obstacle_avoidance.h 66-69. *)
Definition MAX_POLY : nat := 20.
Definition MAX_PTS : nat := 200.
Definition MAX_RAYS : nat := 1000.
Definition MAX_CHKPOINTS : nat := 100.

(** [for (x in l) a = f(a, x)], where the body may have undefined behaviour. *)
Fixpoint foldM {A B} (f : A -> B -> res A) (l : list B) (a : A) : res A :=
  match l with [] => OK a | b :: l => try a := f a b in foldM f l a end.
(** Array accesses with an int index. *)
Definition zget {A} (l : list A) (i : Z) : res A := if i <? 0 then BAD else get l (Z.to_nat i).
Definition zput {A} (l : list A) (i : Z) (x : A) : res (list A) := if i <? 0 then BAD else put l (Z.to_nat i) x.

(** The points are pairs of floats (vect_base.h 45-48). What is done with the floats is left to these parameters:
    [zero]: the point whose bytes are all 0; [pt x y]: the conversion of two int32 to floats;
    [inbox]: is_in_boundingbox (polygon.c 54-60) for the current bounding box;
    [crosses p q vs]: whether is_crossing_poly (polygon.c 116-202) returns 1 for a polygon with the vertices vs;
    [len1 p q]: vect_norm(p - q) + 1 converted to int (polygon.c 330-332);
    [circle_pt c n o i]: the i-th point sampled on a circle (obstacle_avoidance.c 152-158). *)
Section Geometry.
Variables (P C F : Type) (zero : P) (pt : Z -> Z -> P).
Variables (inbox : P -> bool) (crosses : P -> P -> list P -> bool) (len1 : P -> P -> Z) (circle_pt : C -> Z -> F -> nat -> P).

(** polygon.h 42-45. The pointer pts is an offset in a table of points: the table of the structure the polygon is in
    if [own] is set, that of another structure if not. The null pointers of unused polygons are offset 0. *)
Record poly := mkpoly { own : bool; pts : Z; l : Z }.
(** The arrays of obstacle_avoidance.h 100-103, which the search uses. *)
Record work := mkw { valid : list Z; pweight : list Z; p_of : list Z; pt_of : list Z }.
(** obstacle_avoidance.h 97-113. *)
Record oa := mkoa { polys : list poly; points : list P; wk : work; ray_n : Z; cur_poly_idx : Z; cur_pt_idx : Z;
                    weight : list Z; rays : list Z; res_pts : list P; res_len : Z }.

(** The arrays as memset leaves them (obstacle_avoidance.c 54-57). *)
Definition work0 : work := mkw (repeat 0 MAX_PTS) (repeat 0 MAX_PTS) (repeat 0 MAX_PTS) (repeat 0 MAX_PTS).
(** obstacle_avoidance.c 50-63. *)
Definition oa_reset (o : oa) : oa :=
  mkoa (polys o) (points o) work0 0 (cur_poly_idx o) (cur_pt_idx o) (repeat 0 MAX_RAYS) (repeat 0 (MAX_RAYS * 2)) (repeat zero MAX_CHKPOINTS) 0.

(** obstacle_avoidance.c 36, for the vertex [v] of the polygon [pol], which is read or written at the same time: subtracting
    pointers into different structures is undefined, and so is a vertex outside the table. *)
Definition get_pt (pol : poly) (v : Z) : res nat :=
  let i := pts pol + v in
  if own pol && (0 <=? i) && (i <? Z.of_nat MAX_PTS) then OK (Z.to_nat i) else BAD.
Definition set_points (o : oa) (ps : list P) : oa :=
  mkoa (polys o) ps (wk o) (ray_n o) (cur_poly_idx o) (cur_pt_idx o) (weight o) (rays o) (res_pts o) (res_len o).
Definition set_wk (o : oa) (w : work) : oa :=
  mkoa (polys o) (points o) w (ray_n o) (cur_poly_idx o) (cur_pt_idx o) (weight o) (rays o) (res_pts o) (res_len o).

(** obstacle_avoidance.c 91-111 and 116-120. *)
Definition oa_start_end_points (o : oa) (st_x st_y en_x en_y : Z) : oa :=
  let w := wk o in
  set_wk (set_points o (upd (upd (points o) 0 (pt en_x en_y)) 1 (pt st_x st_y)))
         (mkw (upd (upd (valid w) 0 0) 1 0) (upd (upd (pweight w) 0 1) 1 0) (p_of w) (pt_of w)).
(** obstacle_avoidance.c 68-80. *)
Definition oa_init : oa :=
  let o := mkoa (mkpoly true 0 2 :: repeat (mkpoly true 0 0) (MAX_POLY - 1)) (repeat zero MAX_PTS) work0 0 0 0
                (repeat 0 MAX_RAYS) (repeat 0 (MAX_RAYS * 2)) (repeat zero MAX_CHKPOINTS) 0 in
  let o := oa_start_end_points o 0 0 100 100 in
  mkoa (polys o) (points o) (wk o) (ray_n o) 1 2 (weight o) (rays o) (res_pts o) (res_len o).
(** obstacle_avoidance.c 82-86: the pointers of the copy are those of the original. *)
Definition oa_copy (o : oa) : oa :=
  mkoa (map (fun p => mkpoly false (pts p) (l p)) (polys o)) (points o) (wk o) (ray_n o) (cur_poly_idx o) (cur_pt_idx o)
       (weight o) (rays o) (res_pts o) (res_len o).

(** obstacle_avoidance.c 125-141. The polygon returned is given by its index, None for the null pointer. *)
Definition oa_new_poly (o : oa) (size : Z) : res (oa * option Z) :=
  try n := int (cur_pt_idx o + size) in
  if n >? Z.of_nat MAX_PTS then OK (o, None)
  else if cur_poly_idx o + 1 >? Z.of_nat MAX_POLY then OK (o, None)
  else if (0 <=? cur_pt_idx o) && (cur_pt_idx o <=? Z.of_nat MAX_PTS) then
    try ps := zput (polys o) (cur_poly_idx o) (mkpoly true (cur_pt_idx o) size) in
    OK (mkoa ps (points o) (wk o) (ray_n o) (cur_poly_idx o + 1) n (weight o) (rays o) (res_pts o) (res_len o), Some (cur_poly_idx o))
  else BAD.
(** obstacle_avoidance.c 178-190, [pol] being one of the polygons of the structure. *)
Definition oa_poly_set_point (o : oa) (pol : Z) (x y : Z) (i : Z) : res oa :=
  try p := zget (polys o) pol in
  try k := get_pt p i in
  try ps := put (points o) k (pt x y) in
  let w := wk o in
  try va := put (valid w) k 0 in
  try pw := put (pweight w) k 0 in
  OK (set_wk (set_points o ps) (mkw va pw (p_of w) (pt_of w))).
(** obstacle_avoidance.c 154-158. *)
Definition fill_circle (p : poly) (c : C) (samples : Z) (off : F) (ps : list P) : res (list P) :=
  foldM (fun ps i => try k := get_pt p (Z.of_nat i) in put ps k (circle_pt c samples off i)) (seq 0 (Z.to_nat samples)) ps.
(** obstacle_avoidance.c 143-161. *)
Definition oa_add_poly_obstacle (o : oa) (c : C) (samples : Z) (off : F) : res (oa * option Z) :=
  try (o, r) := oa_new_poly o samples in
  match r with
  | None => OK (o, None)
  | Some i => try p := zget (polys o) i in
              try ps := fill_circle p c samples off (points o) in
              OK (set_points o ps, Some i)
  end.

(** The point polys[p].pts[v]. *)
Definition vertex (o : oa) (p v : Z) : res P := try pol := zget (polys o) p in try k := get_pt pol v in get (points o) k.
(** The vertices of a polygon, which is_crossing_poly reads. *)
Definition vertices (o : oa) (p : Z) : res (list P) :=
  try pol := zget (polys o) p in
  foldM (fun vs v => try x := vertex o p (Z.of_nat v) in OK (vs ++ [x])) (seq 0 (Z.to_nat (l pol))) [].
(** polygon.c 250-263 with [skip] the polygon that is not checked, 293-301 with none. *)
Definition blocked (o : oa) (skip : option Z) (a b : P) : res bool :=
  foldM (fun r index =>
           if (r : bool) then OK true
           else if match skip with Some i => Z.of_nat index =? i | None => false end then OK false
           else try vs := vertices o (Z.of_nat index) in OK (crosses a b vs))
        (seq 1 (Z.to_nat (cur_poly_idx o) - 1)) false.
(** polygon.c 266-269 and 304-307. *)
Definition push (st : list Z * Z) (a b c d : Z) : res (list Z * Z) :=
  let '(r, n) := st in
  try r := zput r n a in try r := zput r (n + 1) b in try r := zput r (n + 2) c in try r := zput r (n + 3) d in OK (r, n + 4).
(** polygon.c 239-270, the body of the loop on [ii]. *)
Definition side_ray (o : oa) (i : Z) (st : list Z * Z) (ii : Z) : res (list Z * Z) :=
  try a := vertex o i ii in
  if inbox a then
    try pol := zget (polys o) i in
    let n := Z.rem (ii + 1) (l pol) in
    try b := vertex o i n in
    if inbox b then try k := blocked o (Some i) a b in if k then OK st else push st i ii i n
    else OK st
  else OK st.
(** polygon.c 287-308, the body of the loop on [pt2]. *)
Definition cross_ray (o : oa) (i pt1 ii : Z) (a : P) (st : list Z * Z) (pt2 : Z) : res (list Z * Z) :=
  try b := vertex o ii pt2 in
  if inbox b then try k := blocked o None a b in if k then OK st else push st i pt1 ii pt2
  else OK st.
Definition zseq (a n : Z) : list Z := map Z.of_nat (seq (Z.to_nat a) (Z.to_nat (n - a))).
(** polygon.c 220-315, writing in the array oa->rays. *)
Definition calc_rays (o : oa) : res (list Z * Z) :=
  let n := cur_poly_idx o in
  try st := foldM (fun st i => try pol := zget (polys o) i in foldM (side_ray o i) (zseq 0 (l pol)) st) (zseq 0 n) (rays o, 0) in
  foldM (fun st i =>
    try pol := zget (polys o) i in
    foldM (fun st pt1 =>
      try a := vertex o i pt1 in
      if inbox a then
        foldM (fun st ii => try pol2 := zget (polys o) ii in foldM (cross_ray o i pt1 ii a) (zseq 0 (l pol2)) st) (zseq (i + 1) n) st
      else OK st) (zseq 0 (l pol)) st) (zseq 0 (n - 1)) st.
(** polygon.c 323-334, for the rays [r], of which there are [n / 4], from the [i]-th on. *)
Definition calc_rays_weight (o : oa) (r : list Z) (n : Z) : res (list Z) :=
  foldM (fun w i =>
    try a := zget r (4 * i) in try b := zget r (4 * i + 1) in try c := zget r (4 * i + 2) in try d := zget r (4 * i + 3) in
    try x := vertex o a b in try y := vertex o c d in
    zput w i (len1 x y)) (zseq 0 ((n + 3) / 4)) (weight o).

(** obstacle_avoidance.c 264-302, for the k-th end of a ray, i = 2k: [add] is 2 if k is even, -2 if not. The boolean is [finish]. *)
Definition relax (o : oa) (start_p start : Z) (st : work * bool) (k : Z) : res (work * bool) :=
  let '(w, finish) := st in
  let i := 2 * k in
  let add := if Z.even k then 2 else -2 in
  try r0 := zget (rays o) i in
  if negb (start_p =? r0) then OK st else
  try r1 := zget (rays o) (i + 1) in
  if negb (start =? r1) then OK st else
  try q := zget (rays o) (i + add) in
  try qt := zget (rays o) (i + add + 1) in
  try qpol := zget (polys o) q in
  try b := get_pt qpol qt in
  try pol := zget (polys o) start_p in
  try a := get_pt pol start in
  try wb := get (pweight w) b in
  try wa := get (pweight w) a in
  try wi := zget (weight o) (Z.quot i 4) in
  try n := (if wb =? 0 then OK 0 else int (wa + wi)) in
  if negb (wb =? 0) && (n >=? wb) then OK st else
  try p' := put (p_of w) b start_p in
  try pt' := put (pt_of w) b start in
  try va := put (valid w) b 2 in
  try wa := get (pweight w) a in
  try n := int (wa + wi) in
  try pw := put (pweight w) b n in
  try va := put va a 1 in
  OK (mkw va pw p' pt', false).
(** obstacle_avoidance.c 254-302: a point is visited if its valid flag is 2. *)
Definition visit (o : oa) (start_p : Z) (st : work * bool) (start : Z) : res (work * bool) :=
  try pol := zget (polys o) start_p in
  try a := get_pt pol start in
  try v := get (valid (fst st)) a in
  if negb (v =? 2) then OK st
  else foldM (relax o start_p start) (zseq 0 ((ray_n o + 1) / 2)) st.
(** obstacle_avoidance.c 252-304. The counter [start] is a uint8_t: the loop does not end for a polygon of more than 255
    vertices, which does not fit in the table. *)
Definition pass (o : oa) (w : work) : res (work * bool) :=
  foldM (fun st start_p => try pol := zget (polys o) start_p in
                           if l pol >? 255 then BAD else foldM (visit o start_p) (zseq 0 (l pol)) st)
        (zseq 0 (Z.of_nat MAX_POLY)) (w, true).
(** obstacle_avoidance.c 249-305. *)
Fixpoint passes (fuel : nat) (o : oa) (w : work) : res work :=
  match fuel with
  | O => BAD
  | S fuel => try (w, finish) := pass o w in if (finish : bool) then OK w else passes fuel o w
  end.
(** obstacle_avoidance.c 237-306. *)
Definition dijkstra (fuel : nat) (o : oa) (start_p start : Z) : res work :=
  try pol := zget (polys o) start_p in
  try a := get_pt pol start in
  let w := wk o in
  try va := put (valid w) a 2 in
  passes fuel o (mkw va (pweight w) (p_of w) (pt_of w)).

(** obstacle_avoidance.c 319-339. The loop ends after MAX_CHKPOINTS turns: [n] is how many are left. *)
Fixpoint get_path (n : nat) (o : oa) (p v : Z) (rs : list P) : res (list P * Z) :=
  if (p =? 0) && (v =? 0) then OK (rs, Z.of_nat (MAX_CHKPOINTS - n)) else
  match n with
  | O => OK (rs, -1)
  | S n' =>
      try pol := zget (polys o) p in
      try a := get_pt pol v in
      try va := get (valid (wk o)) a in
      if va =? 0 then OK (rs, -2) else
      try p1 := get (p_of (wk o)) a in
      try v1 := get (pt_of (wk o)) a in
      try x := vertex o p1 v1 in
      try rs := put rs (MAX_CHKPOINTS - n) x in
      get_path n' o p1 v1 rs
  end.
(** obstacle_avoidance.c 342-384. *)
Definition oa_process (fuel : nat) (o : oa) : res (oa * Z) :=
  let o := oa_reset o in
  try (r, ret) := calc_rays o in
  try w := calc_rays_weight o r ret in
  let o := mkoa (polys o) (points o) (wk o) ret (cur_poly_idx o) (cur_pt_idx o) w r (res_pts o) (res_len o) in
  try w := dijkstra fuel o 0 0 in
  let o := set_wk o w in
  try (rs, n) := get_path MAX_CHKPOINTS o 0 1 (res_pts o) in
  OK (mkoa (polys o) (points o) (wk o) (ray_n o) (cur_poly_idx o) (cur_pt_idx o) (weight o) (rays o) rs n, n).
(** obstacle_avoidance.c 192-196. *)
Definition oa_get_path (o : oa) : list P * Z := (res_pts o, res_len o).

(** The calls of a program that has one structure, after oa_init; a polygon is given by the index oa_new_poly returned for it. *)
Inductive op :=
| Init | StartEnd (st_x st_y en_x en_y : Z) | NewPoly (size : Z) | SetPoint (pol x y i : Z) | Circle (c : C) (samples : Z) (off : F)
| Process (fuel : nat).
(** The structure after a call, and the value returned, if any. *)
Definition exec (o : oa) (c : op) : res (oa * option Z) :=
  match c with
  | Init => OK (oa_init, None)
  | StartEnd a b c d => OK (oa_start_end_points o a b c d, None)
  | NewPoly n => oa_new_poly o n
  | SetPoint k x y i => try o := oa_poly_set_point o k x y i in OK (o, None)
  | Circle c n f => oa_add_poly_obstacle o c n f
  | Process f => try (o, r) := oa_process f o in OK (o, Some r)
  end.
Definition run (h : list op) : res oa := foldM (fun o c => try (o, _) := exec o c in OK o) h oa_init.
End Geometry.
Arguments polys {P}. Arguments points {P}. Arguments wk {P}. Arguments ray_n {P}. Arguments cur_poly_idx {P}. Arguments cur_pt_idx {P}.
Arguments weight {P}. Arguments rays {P}. Arguments res_pts {P}. Arguments res_len {P}. Arguments mkoa {P}.
Arguments Init {C F}. Arguments StartEnd {C F}. Arguments NewPoly {C F}. Arguments SetPoint {C F}. Arguments Circle {C F}. Arguments Process {C F}.
Arguments set_points {P}. Arguments set_wk {P}. Arguments oa_new_poly {P}. Arguments vertex {P}. Arguments vertices {P}. Arguments blocked {P}.
Arguments side_ray {P}. Arguments cross_ray {P}. Arguments calc_rays {P}. Arguments calc_rays_weight {P}. Arguments relax {P}. Arguments visit {P}.
Arguments pass {P}. Arguments passes {P}. Arguments dijkstra {P}. Arguments get_path {P}. Arguments oa_process {P}. Arguments oa_copy {P}.
Arguments oa_reset {P}. Arguments oa_init {P}. Arguments oa_start_end_points {P}. Arguments oa_poly_set_point {P}. Arguments fill_circle {P C F}.
Arguments oa_add_poly_obstacle {P C F}. Arguments exec {P C F}. Arguments run {P C F}. Arguments oa_get_path {P}.
