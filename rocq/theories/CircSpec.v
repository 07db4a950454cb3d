(** Circles and vectors of the real plane. *)
From Coq Require Import ZArith Reals List.
From Verif Require Import FloatModel FloatSpec PidSpec GeoModel GeoSpec GeoLineSpec CircModel.
Local Open Scope R_scope.

(** The point is at distance r of the centre. *)
Definition on_circle (c : rpoint) (r : R) (p : rpoint) : Prop := dist2 p c = r ^ 2.
Definition on_both (c1 : rpoint) (r1 : R) (c2 : rpoint) (r2 : R) (p : rpoint) : Prop :=
  on_circle c1 r1 p /\ on_circle c2 r2 p.
Definition circ (c : rpoint) (r : R) : circle exact_fmt :=
  {| cx := real (fst c); cy := real (snd c); cr := real r |}.

(** The centres are apart by more than 0.06 mm on one of the axes. *)
Definition apart (c1 c2 : rpoint) : Prop :=
  0.00006 <= Rmax (Rabs (fst c1 - fst c2)) (Rabs (snd c1 - snd c2)).

(** The length of a vector. *)
Definition len (v : rpoint) : R := sqrt (fst v ^ 2 + snd v ^ 2).

(** The vector of a length and an angle, and the sum and difference of vectors. *)
Definition arrow (r theta : R) : rpoint := (r * cos theta, r * sin theta).
Definition vplus (v w : rpoint) : rpoint := (fst v + fst w, snd v + snd w).
Definition vminus (v w : rpoint) : rpoint := (fst v - fst w, snd v - snd w).
Definition inner (v w : rpoint) : R := fst v * fst w + snd v * snd w.
(** The vectors of vect2.c. *)
Definition cv (c : cart) : rpoint := (vx c, vy c).
Definition pv (p : pol) : rpoint := arrow (vr p) (vtheta p).
(** The normal form of a polar vector: no negative length, an angle of one turn. *)
Definition normal_pol (p : pol) : Prop := 0 <= vr p /\ Rabs (vtheta p) <= PI.
