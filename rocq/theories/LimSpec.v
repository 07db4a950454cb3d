(** Specification of the rate limiter: times and counts only. *)
From Coq Require Import Reals ZArith List Bool.
Import ListNotations.
Local Open Scope R_scope.

(** The times [l] never go back, and start at [t0] or later. *)
Fixpoint clock_from (t0 : R) (l : list R) : Prop :=
  match l with
  | [] => True
  | t :: l => t0 <= t /\ clock_from t l
  end.

(** Successive times of [l] are at least [g] apart; the first may be any time from [t0] on. *)
Fixpoint apart (g : R) (t : R) (l : list R) : Prop :=
  match l with
  | [] => True
  | t' :: l => t + g <= t' /\ apart g t' l
  end.
Definition spaced (g t0 : R) (l : list R) : Prop :=
  match l with [] => True | t :: l => t0 <= t /\ apart g t l end.

(** How many of the times [l] are between [a] and [b]. *)
Fixpoint count_in (a b : R) (l : list R) : nat :=
  match l with
  | [] => 0
  | t :: l => if Rle_dec a t then if Rle_dec t b then S (count_in a b l) else count_in a b l else count_in a b l
  end%nat.
