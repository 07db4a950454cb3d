(** Lines of the real plane. *)
From Coq Require Import ZArith Reals List.
From Verif Require Import FloatModel FloatSpec PidSpec GeoModel GeoSpec.
Local Open Scope R_scope.

(** The line a*x + b*y + c = 0; it is a line if a and b are not both zero. *)
Record rline := { A : R; B : R; C : R }.
Definition on_line (l : rline) (p : rpoint) : Prop := A l * fst p + B l * snd p + C l = 0.
Definition proper (l : rline) : Prop := A l <> 0 \/ B l <> 0.
Definition ln (l : rline) : line exact_fmt := {| la := real (A l); lb := real (B l); lc := real (C l) |}.

Definition shift (p v : rpoint) : rpoint := (fst p + fst v, snd p + snd v).
(** The square of a distance. *)
Definition dist2 (p q : rpoint) : R := (fst p - fst q) ^ 2 + (snd p - snd q) ^ 2.

(** A point of both segments. *)
Definition common (p q a b z : rpoint) : Prop := on_segment p q z /\ on_segment a b z.
Definition an_end (p q a b z : rpoint) : Prop := z = p \/ z = q \/ z = a \/ z = b.
