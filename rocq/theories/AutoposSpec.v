(** Being at a place. *)
From Coq Require Import Reals.
From Verif Require Import AutoposModel.
Local Open Scope R_scope.

(** A pose at a point, in a direction in degrees (the turns do not matter). *)
Definition at_pose (p : pose) (x y a_deg : R) : Prop :=
  X p = x /\ Y p = y /\ cos (A p) = cos (RAD a_deg) /\ sin (A p) = sin (RAD a_deg).
(** The wall on the side of a colour. *)
Definition home (c : color) : wall := match c with YELLOW => Left | BLUE => Right end.
(** The robot moves to the wall of its colour more directly than to any other. *)
Definition set_down (dir : R) (c : color) (w : world) : Prop := forall b, b <> home c -> approach dir (phys w) b < approach dir (phys w) (home c).
