(** What a floating-point number means: a real number, one of the infinities, or nothing (NaN). *)
From Coq Require Import ZArith Reals.
From Flocq Require Import Core IEEE754.BinarySingleNaN.
From Verif Require Import FloatModel.
Local Open Scope R_scope.

(** The value of an IEEE number. *)
Definition value {p e : Z} (x : binary_float p e) : option ereal :=
  match x with
  | B754_nan => None
  | B754_infinity s => Some (if s then MInf else PInf)
  | _ => Some (Real (B2R x))
  end.

(** The order of the extended reals. *)
Definition ele (a b : ereal) : Prop :=
  match a, b with
  | MInf, _ | _, PInf => True
  | Real x, Real y => x <= y
  | _, _ => False
  end.

(** [lo <= x <= hi]. *)
Definition within (lo x hi : ereal) : Prop := ele lo x /\ ele x hi.

(** [-l <= x <= l]. *)
Definition bounded_by (l x : ereal) : Prop := within (eneg l) x l.

(** A floating type whose comparisons and negation are those of the values. *)
Definition ordered (f : fmt) (val : num f -> option ereal) : Prop :=
  (forall x y, lt f x y = xlt (val x) (val y)) /\
  (forall x, val (neg f x) = xneg (val x)).
