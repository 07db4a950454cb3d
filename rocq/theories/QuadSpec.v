(** What a ramp is. *)
From Coq Require Import ZArith Reals List.
From Verif Require Import CRes QuadModel.
Import ListNotations.
Local Open Scope R_scope.

(** The speed is within the limits set. *)
Definition within_speed (q : quadramp) : Prop := - var_1st_ord_neg q <= previous_var q <= var_1st_ord_pos q.
(** The filter fed with some targets: the outputs and the speeds. *)
Fixpoint run (q : quadramp) (targets : list Z) : res (list (Z * R)) :=
  match targets with
  | [] => OK []
  | t :: ts => try (q', o) := quadramp_do_filter q t in try l := run q' ts in OK ((o, previous_var q') :: l)
  end.
(** Consecutive points of a trajectory that starts at position [x] with speed [v]. *)
Fixpoint gentle (vp vn ap an : R) (x v : R) (targets : list Z) (l : list (Z * R)) : Prop :=
  match targets, l with
  | t :: ts, (o, v') :: l =>
      (Rabs (IZR o - x) < 2 /\ o = t /\ v' = 0 \/
       - vn <= v' <= vp /\ - an <= v' - v <= ap /\ Rabs (IZR o - (x + v')) < 1) /\ gentle vp vn ap an (IZR o) v' ts l
  | [], [] => True
  | _, _ => False
  end.
