(** Rigid motions of the plane. *)
From Coq Require Import Reals ZArith.
Local Open Scope R_scope.

Definition dist2 (p q : R * R) : R := sqrt (Rsqr (fst p - fst q) + Rsqr (snd p - snd q)).
(** Twice the signed area of a triangle. *)
Definition area2 (a b c : R * R) : R :=
  (fst b - fst a) * (snd c - snd a) - (snd b - snd a) * (fst c - fst a).
(** A map that keeps distances and does not mirror. *)
Definition rigid (f : R * R -> R * R) : Prop :=
  (forall p q, dist2 (f p) (f q) = dist2 p q) /\ (forall a b c, area2 (f a) (f b) (f c) = area2 a b c).
(** Angles of the same direction. *)
Definition same_angle (a b : R) : Prop := exists k : Z, a = b + 2 * IZR k * PI.
(** The unit vector of a direction. *)
Definition direction (a : R) : R * R := (cos a, sin a).
