(** Model of the obstacle map: master-firmware/src/base/map.c, the loop of master-firmware/src/base/map_server.cpp and
    lib/aversive/math/geometry/discrete_circles.c, on top of the model of the path planner (OaModel). *)
From Coq Require Import ZArith List Bool Reals.
From Verif Require Import CRes OaModel.
Import ListNotations.
Local Open Scope Z_scope.

(** vect_base.h 45-48. Simplification: the coordinates are real numbers. The vertices of rectangles are integers between 0 and
    3000, which floats represent exactly; for those of the ally the rounding and the precision of cosf and sinf are left out. *)
Definition point : Type := R * R.
Definition of_int (x y : Z) : point := (IZR x, IZR y).
(** What OaModel calls zero. *)
Definition origin : point := of_int 0 0.
Definition oa := OaModel.oa point.

(** map.h 10-17. *)
Definition MAP_SIZE_X_MM := 3000.
Definition MAP_SIZE_Y_MM := 2000.
Definition MAP_NUM_ALLY_EDGES := 4.
Definition MAP_ALLY_SIZE_FACTOR : R := 1.25%R.
Definition MAP_NUM_OPPONENT := 2.
Definition MAP_NUM_OPPONENT_EDGES := 4.

(** robot_helpers/math_helpers.c 26-35. *)
Definition math_clamp_value (value min max : Z) : Z := if value <? min then min else if value >? max then max else value.
(** map.c 8-9. *)
Definition TABLE_POINT_X (x : Z) : Z := math_clamp_value x 0 MAP_SIZE_X_MM.
Definition TABLE_POINT_Y (y : Z) : Z := math_clamp_value y 0 MAP_SIZE_Y_MM.

(** map.h 19-33. The pointers to polygons are their indices in the structure oa. [box] is the bounding box, static variables of
    polygon.c 41-44; the_wall is None if the robot has no wall. *)
Record map_t := mkmap {
  the_wall : option Z; ramp_obstacle : Z; distributor_obstacle : Z * Z; ally : Z; opponents : list Z; last_opponent_index : Z;
  lock : bool; moa : oa; enable_opponent : bool; box : Z * Z * Z * Z }.
Definition set_oa (m : map_t) (o : oa) : map_t :=
  mkmap (the_wall m) (ramp_obstacle m) (distributor_obstacle m) (ally m) (opponents m) (last_opponent_index m) (lock m) o
        (enable_opponent m) (box m).
Definition set_lock (m : map_t) (b : bool) : map_t :=
  mkmap (the_wall m) (ramp_obstacle m) (distributor_obstacle m) (ally m) (opponents m) (last_opponent_index m) b (moa m)
        (enable_opponent m) (box m).
Definition set_last (m : map_t) (k : Z) : map_t :=
  mkmap (the_wall m) (ramp_obstacle m) (distributor_obstacle m) (ally m) (opponents m) k (lock m) (moa m) (enable_opponent m) (box m).
(** map.c 11-18: a ChibiOS mutex is not recursive, locking it twice blocks for ever; unlocking needs to own it. *)
Definition map_lock (m : map_t) : res map_t := if lock m then BAD else OK (set_lock m true).
Definition map_unlock (m : map_t) : res map_t := if lock m then OK (set_lock m false) else BAD.

(** opponent->pts[i] = v, for a polygon of the structure. *)
Definition set_vertex (pol : Z) (i : Z) (v : point) (o : oa) : res oa :=
  try p := zget (polys o) pol in
  try k := get_pt p i in
  try ps := put (points o) k v in
  OK (set_points o ps).
(** Four vertices, one after the other. *)
Definition set4 (o : oa) (pol : Z) (x0 y0 x1 y1 x2 y2 x3 y3 : Z) : res oa :=
  try o := set_vertex pol 0 (of_int x0 y0) o in
  try o := set_vertex pol 1 (of_int x1 y1) o in
  try o := set_vertex pol 2 (of_int x2 y2) o in
  set_vertex pol 3 (of_int x3 y3) o.

(** map.c 83-96, with the overflow of int as undefined behaviour. The expressions which occur twice are computed once. *)
Definition map_set_rectangular_obstacle (o : oa) (pol : Z) (center_x center_y size_x size_y robot_size : Z) : res oa :=
  try sx := int (size_x + robot_size) in
  try sy := int (size_y + robot_size) in
  try xp := int (center_x + Z.quot sx 2) in
  try xm := int (center_x - Z.quot sx 2) in
  try ym := int (center_y - Z.quot sy 2) in
  try yp := int (center_y + Z.quot sy 2) in
  set4 o pol (TABLE_POINT_X xp) (TABLE_POINT_Y ym)
             (TABLE_POINT_X xp) (TABLE_POINT_Y yp)
             (TABLE_POINT_X xm) (TABLE_POINT_Y yp)
             (TABLE_POINT_X xm) (TABLE_POINT_Y ym).

(** map.c 98-113. *)
Definition map_set_rectangular_obstacle_from_corners (o : oa) (pol : Z) (bottom_left_x bottom_left_y top_right_x top_right_y robot_size : Z)
  : res oa :=
  let inflation_radius := Z.quot robot_size 2 in
  try xp := int (top_right_x + inflation_radius) in
  try xm := int (bottom_left_x - inflation_radius) in
  try ym := int (bottom_left_y - inflation_radius) in
  try yp := int (top_right_y + inflation_radius) in
  set4 o pol (TABLE_POINT_X xp) (TABLE_POINT_Y ym)
             (TABLE_POINT_X xp) (TABLE_POINT_Y yp)
             (TABLE_POINT_X xm) (TABLE_POINT_Y yp)
             (TABLE_POINT_X xm) (TABLE_POINT_Y ym).

(** discrete_circles.c 5-20, with exact real arithmetic. The result of the function, which no caller uses, is left out. *)
Definition discretize_circle (o : oa) (pol : Z) (cx cy r : R) (samples : Z) (angle_offset : R) : res oa :=
  try p := zget (polys o) pol in
  if negb (samples =? l p) then OK o else
  let angle_increment := (2 * PI / IZR samples)%R in
  foldM (fun o i =>
           let angle := (IZR (Z.of_nat i) * angle_increment + angle_offset)%R in
           set_vertex pol (Z.of_nat i) (cx + r * cos angle, cy + r * sin angle)%R o)
        (seq 0 (Z.to_nat samples)) o.

(** map.c 60-69. *)
Definition map_set_ally_obstacle (m : map_t) (x y ally_size robot_size : Z) : res map_t :=
  try s := int (robot_size + ally_size) in
  let r := (MAP_ALLY_SIZE_FACTOR * IZR s / 2)%R in
  try m := map_lock m in
  try o := discretize_circle (moa m) (ally m) (IZR x) (IZR y) r MAP_NUM_ALLY_EDGES 0 in
  map_unlock (set_oa m o).

(** map.c 71-76: the index is an index in an array of 2 pointers. *)
Definition map_set_opponent_obstacle (m : map_t) (index x y opponent_size robot_size : Z) : res map_t :=
  try m := map_lock m in
  try pol := zget (opponents m) index in
  try o := map_set_rectangular_obstacle (moa m) pol x y opponent_size opponent_size robot_size in
  map_unlock (set_oa m o).

(** map.c 115-126. *)
Definition map_update_opponent_obstacle (m : map_t) (x y opponent_size robot_size : Z) : res map_t :=
  try m := map_lock m in
  try pol := zget (opponents m) (last_opponent_index m) in
  try o := map_set_rectangular_obstacle (moa m) pol x y opponent_size opponent_size robot_size in
  let m := set_oa m o in
  let k := last_opponent_index m + 1 in
  let k := if k >=? MAP_NUM_OPPONENT then 0 else k in
  map_unlock (set_last m k).

(** oa_new_poly, whose result is used without a check: a null pointer is undefined behaviour. *)
Definition new_poly (o : oa) (size : Z) : res (oa * Z) :=
  try (o, r) := oa_new_poly o size in
  match r with Some k => OK (o, k) | None => BAD end.

(** map.c 20-58. The fields not yet assigned are 0; no function called before reads them. *)
Definition map_init (robot_size : Z) (enable_wall : bool) : res map_t :=
  let o := oa_init origin of_int in
  let half := Z.quot robot_size 2 in
  try bx := int (MAP_SIZE_X_MM - half) in
  try by' := int (MAP_SIZE_Y_MM - half) in
  try (o, al) := new_poly o MAP_NUM_ALLY_EDGES in
  let m := mkmap None 0 (0, 0) al [0; 0] 0 false o true (half, half, bx, by') in
  try m := map_set_ally_obstacle m 0 0 0 0 in
  try m := foldM (fun m i =>
             try (o, k) := new_poly (moa m) MAP_NUM_OPPONENT_EDGES in
             try op := zput (opponents m) i k in
             let m := mkmap (the_wall m) (ramp_obstacle m) (distributor_obstacle m) (ally m) op (last_opponent_index m) (lock m) o
                            (enable_opponent m) (box m) in
             map_set_opponent_obstacle m i 0 0 0 0) (zseq 0 MAP_NUM_OPPONENT) m in
  let m := set_last m 0 in
  let o := moa m in
  try (o, wall) := (if enable_wall then
                      try (o, w) := new_poly o 4 in
                      try o := map_set_rectangular_obstacle o w 1500 1450 40 200 robot_size in
                      OK (o, Some w)
                    else OK (o, None)) in
  try (o, d0) := new_poly o 4 in
  try (o, d1) := new_poly o 4 in
  try o := map_set_rectangular_obstacle_from_corners o d0 450 1543 1050 1578 robot_size in
  try o := map_set_rectangular_obstacle_from_corners o d1 1950 1543 2550 1578 robot_size in
  try (o, r) := new_poly o 4 in
  try o := map_set_rectangular_obstacle_from_corners o r 450 1578 2550 2000 robot_size in
  OK (mkmap wall r (d0, d1) (ally m) (opponents m) (last_opponent_index m) (lock m) o true (box m)).

(** The uses of the map after its initialization: the functions above, the start and the end of a path
    (strategy_impl/base.cpp 54) and the dangerous mode (map_server.cpp 120-123). *)
Inductive op :=
| SetAlly (x y ally_size robot_size : Z)
| SetOpponent (index x y opponent_size robot_size : Z)
| UpdateOpponent (x y opponent_size robot_size : Z)
| PathEnds (st_x st_y en_x en_y : Z)
| EnableOpponent (b : bool).
Definition exec (m : map_t) (c : op) : res map_t :=
  match c with
  | SetAlly x y a r => map_set_ally_obstacle m x y a r
  | SetOpponent i x y s r => map_set_opponent_obstacle m i x y s r
  | UpdateOpponent x y s r => map_update_opponent_obstacle m x y s r
  | PathEnds a b c d => OK (set_oa m (oa_start_end_points of_int (moa m) a b c d))
  | EnableOpponent b => OK (mkmap (the_wall m) (ramp_obstacle m) (distributor_obstacle m) (ally m) (opponents m) (last_opponent_index m)
                                  (lock m) (moa m) b (box m))
  end.
Definition run (robot_size : Z) (enable_wall : bool) (h : list op) : res map_t :=
  try m := map_init robot_size enable_wall in foldM exec h m.

(** The polygons the path planner avoids, in the order of its table: those after the dummy one (obstacle_avoidance.c 64-67). *)
Definition obstacles (m : map_t) : res (list (list point)) :=
  foldM (fun acc p => try vs := vertices (moa m) p in OK (acc ++ [vs])) (zseq 1 (cur_poly_idx (moa m))) [].

(** The topics the map server reads: the last message of each, if any. Simplifications: the beacon message is the position of the
    opponent in mm (map_server.cpp 74-79 computes it from a distance and an angle) and whether it is recent (73);
    map_server.cpp 97 wakes up on a message on one of three topics. *)
Record topics := mktopics { beacon : option (Z * Z * bool); ally_pos : option (Z * Z) }.
(** map_server.cpp 67-96. [opponent_size * 1.25] is converted to int, towards 0. The lock of the server (67, 96) is the lock of C57
    and is left out. *)
Definition server_iteration (robot_size opponent_size : Z) (m : map_t) (t : topics) : res map_t :=
  try m := match beacon t with
           | Some (x, y, recent) =>
               if recent : bool then map_update_opponent_obstacle m x y (Z.quot (opponent_size * 5) 4) robot_size
               else map_update_opponent_obstacle m 0 0 0 0
           | None => OK m
           end in
  match ally_pos t with
  | Some (x, y) => map_set_ally_obstacle m x y robot_size robot_size
  | None => map_set_ally_obstacle m 0 0 0 0
  end.
(** map_server.cpp 37 and 66-99, with the state of the topics at each wake up. *)
Definition server (robot_size opponent_size : Z) (enable_wall : bool) (ts : list topics) : res map_t :=
  try m := map_init robot_size enable_wall in foldM (server_iteration robot_size opponent_size) ts m.
