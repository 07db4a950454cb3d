(** Convex polygons of the real plane. *)
From Coq Require Import ZArith Reals List.
From Verif Require Import FloatModel FloatSpec PidSpec.
Import ListNotations.
Local Open Scope R_scope.

(** A point, and its representation without rounding. *)
Definition rpoint : Type := R * R.
Definition pt (p : rpoint) : num exact_fmt * num exact_fmt := (real (fst p), real (snd p)).

(** Positive if [p] is to the left of the line from [a] to [b], zero if it is on it, negative if it is to the right. *)
Definition orient (a b p : rpoint) : R :=
  (fst b - fst a) * (snd p - snd a) - (snd b - snd a) * (fst p - fst a).

(** Strictly convex and counter-clockwise: at least three vertices, and all the vertices but its two ends
    are to the left of every side. *)
Definition vertex (pol : list rpoint) (i : nat) : rpoint := nth i pol (0, 0).
Definition next (pol : list rpoint) (i : nat) : nat := (i + 1) mod length pol.
Definition convex_ccw (pol : list rpoint) : Prop :=
  (3 <= length pol)%nat /\
  forall i j, (i < length pol)%nat -> (j < length pol)%nat -> j <> i -> j <> next pol i ->
    0 < orient (vertex pol i) (vertex pol (next pol i)) (vertex pol j).

(** The points of the polygon: the convex combinations of its vertices. *)
Fixpoint total (ws : list R) : R := match ws with [] => 0 | w :: ws => w + total ws end.
Fixpoint combination (ws : list R) (vs : list rpoint) : rpoint :=
  match ws, vs with
  | w :: ws, v :: vs => let c := combination ws vs in (w * fst v + fst c, w * snd v + snd c)
  | _, _ => (0, 0)
  end.
Definition in_hull (pol : list rpoint) (p : rpoint) : Prop :=
  exists ws, length ws = length pol /\ Forall (fun w => 0 <= w) ws /\ total ws = 1 /\ p = combination ws pol.
(** A whole neighbourhood of [p] is in the polygon. *)
Definition strictly_inside (pol : list rpoint) (p : rpoint) : Prop :=
  exists eps, 0 < eps /\
    forall q, Rabs (fst q - fst p) < eps -> Rabs (snd q - snd p) < eps -> in_hull pol q.
Definition on_border (pol : list rpoint) (p : rpoint) : Prop := in_hull pol p /\ ~ strictly_inside pol p.

(** The points of a segment. *)
Definition between (p q : rpoint) (t : R) : rpoint :=
  (fst p + t * (fst q - fst p), snd p + t * (snd q - snd p)).
Definition on_segment (p q x : rpoint) : Prop := exists t, 0 <= t <= 1 /\ x = between p q t.
(** The segment goes through the inside of the polygon. *)
Definition enters (pol : list rpoint) (p q : rpoint) : Prop := exists x, on_segment p q x /\ strictly_inside pol x.

(** The points the code deals with: it takes an intersection farther than 2^15 for none. *)
Definition near (p : rpoint) : Prop := Rabs (fst p) <= 32768 /\ Rabs (snd p) <= 32768.

(** A path which goes from [a] through the points of [path] in a straight line, and stays out of the inside
    of the obstacles. *)
Fixpoint avoids (obstacles : list (list rpoint)) (a : rpoint) (path : list rpoint) : Prop :=
  match path with
  | [] => True
  | b :: path => (forall pol, In pol obstacles -> convex_ccw pol -> ~ enters pol a b) /\ avoids obstacles b path
  end.
(** Points whose coordinates are integers of at most 12 bits, and their representations. *)
Definition zpt (p : Z * Z) : rpoint := (IZR (fst p), IZR (snd p)).
Definition zfloat (p : Z * Z) : num binary32 * num binary32 := (lit binary32 (fst p) 0, lit binary32 (snd p) 0).
Definition twelve_bits (p : Z * Z) : Prop := (0 <= fst p < 4096 /\ 0 <= snd p < 4096)%Z.
