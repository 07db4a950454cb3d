(** Model of lib/quadramp. *)
From Coq Require Import ZArith Reals List Bool.
From Flocq Require Import Core.
From Verif Require Import CRes.
Local Open Scope R_scope.

(** quadramp.h:44-53. Simplified: double is R here and in all of this file (exact arithmetic). *)
Record quadramp := mkQ { var_2nd_ord_pos : R; var_2nd_ord_neg : R; var_1st_ord_pos : R; var_1st_ord_neg : R;
                         previous_var : R; previous_out : R; previous_in : Z }.
(** Comparison of doubles. *)
Definition ltb (a b : R) : bool := if Rlt_dec a b then true else false.
Definition neq0 (a : R) : bool := if Req_EM_T a 0 then false else true.
(** Conversion of a double to int32_t: the fraction is dropped; undefined when it does not fit. *)
Definition to_int32 (x : R) : res Z :=
  let z := Ztrunc x in if ((- 2 ^ 31 <=? z) && (z <? 2 ^ 31))%Z then OK z else BAD.

(** quadramp.c:29-32. *)
Definition quadramp_init : quadramp := mkQ 0 0 0 0 0 0 0.
(** quadramp.c:34-39. *)
Definition quadramp_reset (q : quadramp) : quadramp :=
  mkQ (var_2nd_ord_pos q) (var_2nd_ord_neg q) (var_1st_ord_pos q) (var_1st_ord_neg q) 0 0 0.
(** quadramp.c:41-55. *)
Definition quadramp_set_2nd_order_vars (q : quadramp) (pos neg : R) : quadramp :=
  mkQ pos neg (var_1st_ord_pos q) (var_1st_ord_neg q) (previous_var q) (previous_out q) (previous_in q).
Definition quadramp_set_1st_order_vars (q : quadramp) (pos neg : R) : quadramp :=
  mkQ (var_2nd_ord_pos q) (var_2nd_ord_neg q) pos neg (previous_var q) (previous_out q) (previous_in q).
(** quadramp.c:57-61. *)
Definition quadramp_set_position (q : quadramp) (pos : Z) : quadramp :=
  mkQ (var_2nd_ord_pos q) (var_2nd_ord_neg q) (var_1st_ord_pos q) (var_1st_ord_neg q) 0 (IZR pos) (previous_in q).
(** quadramp.c:63-66. *)
Definition quadramp_is_finished (q : quadramp) : res bool :=
  try o := to_int32 (previous_out q) in OK ((o =? previous_in q)%Z && negb (neq0 (previous_var q))).

(** quadramp.c:118-134: the speed nearest to [limit] that the acceleration [ap] and the deceleration [an] (< 0) allow. *)
Definition reach_pos (v limit ap an : R) : R :=
  if ltb v limit then (if neq0 ap && ltb ap (limit - v) then v + ap else limit)
  else if ltb limit v then (if neq0 an && ltb (limit - v) an then v + an else limit)
  else limit.
(** quadramp.c:138-154. *)
Definition reach_neg (v limit ap an : R) : R :=
  if ltb limit v then (if neq0 an && ltb (limit - v) an then v + an else limit)
  else if ltb v limit then (if neq0 ap && ltb ap (limit - v) then v + ap else limit)
  else limit.
(** quadramp.c:68-176. *)
Definition quadramp_do_filter (q : quadramp) (inp : Z) : res (quadramp * Z) :=
  let vp := var_1st_ord_pos q in let vn := - var_1st_ord_neg q in
  let ap := var_2nd_ord_pos q in let an := - var_2nd_ord_neg q in
  let v := previous_var q in let out := previous_out q in
  let d := IZR inp - out in
  let keep v out := mkQ (var_2nd_ord_pos q) (var_2nd_ord_neg q) (var_1st_ord_pos q) (var_1st_ord_neg q) v out inp in
  if ltb (Rabs d) 2 then OK (keep 0 (IZR inp), inp)
  else
    try di := to_int32 d in
    let vp' := if ((0 <? di)%Z && neq0 an) then
                 let ramp_pos := sqrt ((an * an) / 4 - 2 * d * an) + an / 2 in if ltb ramp_pos vp then ramp_pos else vp
               else vp in
    let vn' := if (negb ((0 <? di)%Z && neq0 an) && ((di <? 0)%Z && neq0 ap)) then
                 let ramp_neg := - sqrt ((ap * ap) / 4 - 2 * d * ap) - ap / 2 in if ltb vn ramp_neg then ramp_neg else vn
               else vn in
    let vp' := reach_pos v vp' ap an in
    let vn' := reach_neg v vn' ap an in
    if ltb vp' d then try t := to_int32 (out + vp') in OK (keep vp' (IZR t), t)
    else if ltb d vn' then try t := to_int32 (out + vn') in OK (keep vn' (IZR t), t)
    else OK (keep d (IZR inp), inp).
