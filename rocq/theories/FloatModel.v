(** Floating-point arithmetic as the firmware uses it: C [float] is IEEE-754 binary32 and C [double] is
    binary64, round to nearest even, with infinities, signed zeros and one NaN (its payload is never
    looked at). The code is written once, over a [machine]; [ieee] is the machine the firmware runs on
    and [exact] is the same machine without rounding, for the statements which are about the algorithm
    rather than about its rounding errors. Contraction of a*b+c into a fused operation is not modelled. *)
From Coq Require Import ZArith Reals Bool.
From Flocq Require Import Core IEEE754.BinarySingleNaN.
Local Open Scope Z_scope.

(** The operations of one C floating type. *)
Record fmt := {
  num : Type;
  add : num -> num -> num;
  sub : num -> num -> num;
  mul : num -> num -> num;
  div : num -> num -> num;
  neg : num -> num;
  fabs : num -> num;
  lt : num -> num -> bool;           (* C [<]: false if an operand is NaN *)
  le : num -> num -> bool;           (* C [<=] *)
  eq : num -> num -> bool;           (* C [==] *)
  signbit : num -> bool;
  fmod : num -> num -> num;
  lit : Z -> Z -> num;               (* the value m * 2^e, rounded if it does not fit *)
  inf : num;                         (* INFINITY *)
  trunc : num -> option Z            (* integer part, None for NaN and infinities *)
}.

(** [float], [double], the conversions between them and M_PI (a [double]). *)
Record machine := {
  F : fmt;
  D : fmt;
  widen : num F -> num D;
  narrow : num D -> num F;
  m_pi : num D
}.

(** * IEEE-754 *)

Section Ieee.
Variable prec emax : Z.
Context (prec_gt_0_ : Prec_gt_0 prec).
Context (prec_lt_emax_ : Prec_lt_emax prec emax).

Definition float := binary_float prec emax.

(** m * 2^e rounded to nearest. *)
Definition ieee_lit (m e : Z) : float := binary_normalize prec emax _ _ mode_NE m e false.

(** The remainder of the C library's fmod: exact, with the sign of the first operand. *)
Definition ieee_fmod (x y : float) : float :=
  match x, y with
  | B754_nan, _ | _, B754_nan | B754_infinity _, _ | _, B754_zero _ => B754_nan
  | _, B754_infinity _ => x
  | B754_zero _, _ => x
  | B754_finite s mx ex _, B754_finite _ my ey _ =>
      let e := Z.min ex ey in
      let m := (Zpos mx * 2 ^ (ex - e)) mod (Zpos my * 2 ^ (ey - e)) in
      binary_normalize prec emax _ _ mode_NE (if s then - m else m) e s
  end.

Definition ieee_trunc (x : float) : option Z :=
  match x with
  | B754_zero _ => Some 0
  | B754_finite _ _ _ _ => Some (Btrunc x)
  | _ => None
  end.

Definition ieee_fmt : fmt := {|
  num := float;
  add := Bplus mode_NE;
  sub := Bminus mode_NE;
  mul := Bmult mode_NE;
  div := Bdiv mode_NE;
  neg := @Bopp prec emax;
  fabs := @Babs prec emax;
  lt := Bltb;
  le := Bleb;
  eq := Beqb;
  signbit := Bsign;
  fmod := ieee_fmod;
  lit := ieee_lit;
  inf := B754_infinity false;
  trunc := ieee_trunc |}.
End Ieee.

#[global] Instance prec24 : Prec_gt_0 24. Proof. reflexivity. Qed.
#[global] Instance prec53 : Prec_gt_0 53. Proof. reflexivity. Qed.
#[global] Instance emax24 : Prec_lt_emax 24 128. Proof. reflexivity. Qed.
#[global] Instance emax53 : Prec_lt_emax 53 1024. Proof. reflexivity. Qed.

Definition binary32 : fmt := ieee_fmt 24 128 _ _.
Definition binary64 : fmt := ieee_fmt 53 1024 _ _.

(** Conversion between formats: the value is rounded to the target format. *)
Definition convert {p e p' e' : Z} (Hp : Prec_gt_0 p') (He : Prec_lt_emax p' e')
           (x : binary_float p e) : binary_float p' e' :=
  match x with
  | B754_nan => B754_nan
  | B754_infinity s => B754_infinity s
  | B754_zero s => B754_zero s
  | B754_finite s m ex _ => binary_normalize p' e' _ _ mode_NE (cond_Zopp s (Zpos m)) ex s
  end.

(** M_PI = 3.14159265358979323846 is the double 0x1921FB54442D18 * 2^-51. *)
Definition ieee : machine := {|
  F := binary32;
  D := binary64;
  widen := convert prec53 emax53;
  narrow := convert prec24 emax24;
  m_pi := lit binary64 7074237752028440 (-51) |}.

(** * The same machine without rounding

    Values are real numbers and the two infinities; [None] is NaN. There is only one zero. *)

Inductive ereal := MInf | Real (x : R) | PInf.
Definition xnum := option ereal.

Definition rlt (x y : R) : bool := if Rlt_dec x y then true else false.
Definition rle (x y : R) : bool := if Rle_dec x y then true else false.
Definition req (x y : R) : bool := if Req_EM_T x y then true else false.

Definition eneg (x : ereal) : ereal :=
  match x with MInf => PInf | Real r => Real (- r) | PInf => MInf end.
Definition enegative (x : ereal) : bool :=
  match x with MInf => true | Real r => rlt r 0 | PInf => false end.
Definition einf (negative : bool) : ereal := if negative then MInf else PInf.

Definition xadd (x y : xnum) : xnum :=
  match x, y with
  | None, _ | _, None => None
  | Some (Real a), Some (Real b) => Some (Real (a + b))
  | Some (Real _), Some i => Some i
  | Some i, Some (Real _) => Some i
  | Some PInf, Some PInf => Some PInf
  | Some MInf, Some MInf => Some MInf
  | _, _ => None
  end.
Definition xneg (x : xnum) : xnum := option_map eneg x.
Definition xmul (x y : xnum) : xnum :=
  match x, y with
  | None, _ | _, None => None
  | Some (Real a), Some (Real b) => Some (Real (a * b))
  | Some (Real a), Some i | Some i, Some (Real a) =>
      if req a 0 then None else Some (einf (xorb (rlt a 0) (enegative i)))
  | Some i, Some j => Some (einf (xorb (enegative i) (enegative j)))
  end.
Definition xdiv (x y : xnum) : xnum :=
  match x, y with
  | None, _ | _, None => None
  | Some (Real a), Some (Real b) =>
      if req b 0 then if req a 0 then None else Some (einf (rlt a 0)) else Some (Real (a / b))
  | Some (Real a), Some _ => Some (Real 0)
  | Some i, Some (Real b) => Some (einf (xorb (enegative i) (rlt b 0)))
  | _, _ => None
  end.
Definition xlt (x y : xnum) : bool :=
  match x, y with
  | Some (Real a), Some (Real b) => rlt a b
  | Some MInf, Some (Real _) | Some MInf, Some PInf | Some (Real _), Some PInf => true
  | _, _ => false
  end.
Definition xeq (x y : xnum) : bool :=
  match x, y with
  | Some (Real a), Some (Real b) => req a b
  | Some MInf, Some MInf | Some PInf, Some PInf => true
  | _, _ => false
  end.
Definition xfmod (x y : xnum) : xnum :=
  match x, y with
  | Some (Real a), Some (Real b) =>
      if req b 0 then None else Some (Real (a - IZR (Ztrunc (a / b)) * b))
  | Some (Real a), Some _ => Some (Real a)
  | _, _ => None
  end.

Definition exact_fmt : fmt := {|
  num := xnum;
  add := xadd;
  sub := fun x y => xadd x (xneg y);
  mul := xmul;
  div := xdiv;
  neg := xneg;
  fabs := option_map (fun x => if enegative x then eneg x else x);
  lt := xlt;
  le := fun x y => xlt x y || xeq x y;
  eq := xeq;
  signbit := fun x => match x with Some v => enegative v | None => false end;
  fmod := xfmod;
  lit := fun m e => Some (Real (IZR m * bpow radix2 e));
  inf := Some PInf;
  trunc := fun x => match x with Some (Real a) => Some (Ztrunc a) | _ => None end |}.

Definition exact : machine := {|
  F := exact_fmt;
  D := exact_fmt;
  widen := fun x => x;
  narrow := fun x => x;
  m_pi := Some (Real PI) |}.
