(** What C51 says about the obstacle map. *)
From Coq Require Import ZArith List Bool Reals.
From Verif Require Import MapModel.
Import ListNotations.
Local Open Scope Z_scope.

(** The table, 3 m by 2 m. *)
Definition on_table (p : R * R) : Prop := (0 <= fst p <= 3000 /\ 0 <= snd p <= 2000)%R.

(** A polygon covers a point if it is a weighted mean of its vertices. *)
Fixpoint sum (ws : list R) : R := match ws with [] => 0%R | w :: ws => (w + sum ws)%R end.
Fixpoint mean (f : R * R -> R) (ws : list R) (vs : list (R * R)) : R :=
  match ws, vs with w :: ws, v :: vs => (w * f v + mean f ws vs)%R | _, _ => 0%R end.
Definition covers (vs : list (R * R)) (p : R * R) : Prop :=
  exists ws, length ws = length vs /\ Forall (fun w => (0 <= w)%R) ws /\ sum ws = 1%R /\ mean fst ws vs = fst p /\ mean snd ws vs = snd p.

(** The rectangle with two given corners, clipped to the table, in counterclockwise order. *)
Definition clip (hi x : Z) : Z := Z.max 0 (Z.min x hi).
Definition rectangle (x1 y1 x2 y2 : Z) : list (R * R) :=
  [ (IZR (clip 3000 x2), IZR (clip 2000 y1)); (IZR (clip 3000 x2), IZR (clip 2000 y2));
    (IZR (clip 3000 x1), IZR (clip 2000 y2)); (IZR (clip 3000 x1), IZR (clip 2000 y1)) ].

(** An opponent seen at a position, its size and the size of the robot at that time. *)
Record detection := det { dx : Z; dy : Z; dsize : Z; drobot : Z }.
(** The positions of the centre of the robot, a square which touches the opponent, a square too. *)
Definition touches (d : detection) (px py : Z) : Prop :=
  2 * Z.abs (px - dx d) <= dsize d + drobot d /\ 2 * Z.abs (py - dy d) <= dsize d + drobot d.
(** That square, clipped to the table. *)
Definition around (d : detection) : list (R * R) :=
  let half := (dsize d + drobot d) / 2 in rectangle (dx d - half) (dy d - half) (dx d + half) (dy d + half).
(** The polygon which stands for no opponent. *)
Definition nobody : detection := det 0 0 0 0.
(** The opponents seen, the first first. *)
Definition detections (h : list op) : list detection :=
  flat_map (fun c => match c with UpdateOpponent x y s r => [det x y s r] | _ => [] end) h.
(** The last two opponents seen, the last first. *)
Definition last_two (h : list op) : list detection := firstn 2 (rev (detections h) ++ [nobody; nobody]).

(** The last position of the ally, and 1.25 times the half of the sizes. *)
Definition ally_polygon (h : list op) : list (R * R) :=
  let '(x, y, s) := fold_left (fun a c => match c with SetAlly x y a r => (x, y, r + a) | _ => a end) h (0, 0, 0) in
  let r := (1.25 * IZR s / 2)%R in
  [ (IZR x + r, IZR y); (IZR x, IZR y + r); (IZR x - r, IZR y); (IZR x, IZR y - r) ]%R.

(** The obstacles of the table, inflated by half the size of the robot. *)
Definition fixed_obstacles (robot_size : Z) (enable_wall : bool) : list (list (R * R)) :=
  let h := robot_size / 2 in
  (if enable_wall then let kx := (40 + robot_size) / 2 in let ky := (200 + robot_size) / 2 in
                       [rectangle (1500 - kx) (1450 - ky) (1500 + kx) (1450 + ky)]
   else []) ++
  [ rectangle (450 - h) (1543 - h) (1050 + h) (1578 + h);
    rectangle (1950 - h) (1543 - h) (2550 + h) (1578 + h);
    rectangle (450 - h) (1578 - h) (2550 + h) (2000 + h) ].

(** Coordinates and sizes which do not make an int overflow. *)
Definition coord (x : Z) : Prop := Z.abs x <= 2 ^ 29.
Definition size (x : Z) : Prop := 0 <= x <= 2 ^ 29.
Definition sane (c : op) : Prop :=
  match c with
  | SetAlly x y a r => coord x /\ coord y /\ size a /\ size r
  | SetOpponent i x y s r => 0 <= i < 2 /\ coord x /\ coord y /\ size s /\ size r
  | UpdateOpponent x y s r => coord x /\ coord y /\ size s /\ size r
  | _ => True
  end.
(** The program calls map_set_opponent_obstacle only to initialize the map. *)
Definition detects (c : op) : Prop := match c with SetOpponent _ _ _ _ _ => False | _ => True end.

(** What one wake up of the map server writes. *)
Definition server_ops (robot_size opponent_size : Z) (t : topics) : list op :=
  match beacon t with
  | Some (x, y, true) => [UpdateOpponent x y (opponent_size * 5 / 4) robot_size]
  | Some (_, _, false) => [UpdateOpponent 0 0 0 0]
  | None => []
  end ++
  match ally_pos t with Some (x, y) => [SetAlly x y robot_size robot_size] | None => [SetAlly 0 0 0 0] end.
