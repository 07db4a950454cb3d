(** What the functions for one format write and read. *)
From Coq Require Import ZArith List.
From Verif Require Import CBase Buf CmpModel CmpSpec.
Import ListNotations.
Local Open Scope Z_scope.

(** The writer of a fixed extension writes the header [h], the type and [n] bytes of the payload; its reader gives the type and
    the payload, the rest of the buffer of the caller being what it was. *)
Definition fixext_form (W : M unit) (R : M (Z * list Z)) (h n tp : Z) (d dst : list Z) : Prop :=
  let bs := (h :: be 1 tp) ++ firstn (Z.to_nat n) d in
  emits W bs /\ accepts R bs (tp, firstn (Z.to_nat n) d ++ skipn (Z.to_nat n) dst).
(** The same with a length of [w] bytes before the type. *)
Definition ext_form (W : M unit) (R : M (Z * Z * list Z)) (h : Z) (w : nat) (n tp : Z) (d dst : list Z) : Prop :=
  let bs := (h :: be w n ++ be 1 tp) ++ firstn (Z.to_nat n) d in
  emits W bs /\ accepts R bs (tp, n, firstn (Z.to_nat n) d ++ skipn (Z.to_nat n) dst).

(** The writers of one format of header, and the reader of all of them. *)
Definition header_form {A} (W : M unit) (R : M A) (h : Z) (w : nat) (n : Z) (v : A) : Prop :=
  emits W (h :: be w n) /\ accepts R (h :: be w n) v.
Definition small_form (W : M unit) (R : M Z) (h n : Z) : Prop := emits W [h + n] /\ accepts R [h + n] n.

