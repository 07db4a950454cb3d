(** What a CRC is, independently of the code: remainder of a polynomial division over GF(2).

    A polynomial over GF(2) is an [N] whose bit [i] is the coefficient of x^i; addition is
    [N.lxor], multiplication by x^k is [N.shiftl _ k] and [pmul] is the product. *)
From Coq Require Import NArith List Bool.
Import ListNotations.
Local Open Scope N_scope.

Definition byte_ok (b : N) : Prop := b < 256.
Definition bytes_ok (m : list N) : Prop := Forall byte_ok m.

(** Carry-less product. *)
Fixpoint pmul_pos (q : positive) (g : N) : N :=
  match q with
  | xH => g
  | xO q => N.shiftl (pmul_pos q g) 1
  | xI q => N.lxor (N.shiftl (pmul_pos q g) 1) g
  end.
Definition pmul (q g : N) : N :=
  match q with 0 => 0 | Npos p => pmul_pos p g end.

(** The [i]th transmitted bit of a message: bytes in order, least significant bit first. *)
Definition msg_bit (m : list N) (i : nat) : bool :=
  N.testbit (nth (Nat.div i 8) m 0) (N.of_nat (Nat.modulo i 8)).
Definition msg_bits (m : list N) : list bool :=
  map (msg_bit m) (seq 0 (8 * length m)).

(** Polynomial whose coefficients, highest first, are the given bits. *)
Definition poly_of_bits (l : list bool) : N :=
  fold_left (fun a b => 2 * a + N.b2n b) l 0.

(** The reflected convention: bit 0 of a [w]-bit word is the coefficient of x^(w-1). *)
Definition reflect (w : nat) (c : N) : N :=
  poly_of_bits (map (fun i => N.testbit c (N.of_nat i)) (seq 0 w)).

(** [r] is the remainder of [a] modulo [g], [g] of degree [w]. *)
Definition is_remainder (w : nat) (a g r : N) : Prop :=
  r < 2 ^ N.of_nat w /\ exists q, a = N.lxor (pmul q g) r.

(** x^16+x^15+x^2+1 and the IEEE 802.3 polynomial. *)
Definition GEN16 : N := 0x18005.
Definition GEN32 : N := 0x104C11DB7.

(** Two messages of the same length whose bits agree outside [s, s+w). *)
Definition differ_only_in_burst (m1 m2 : list N) (s w : nat) : Prop :=
  length m1 = length m2 /\
  forall i, (i < s \/ s + w <= i)%nat -> msg_bit m1 i = msg_bit m2 i.

(** Number of transmitted bits in which two messages differ. *)
Definition bit_errors (m1 m2 : list N) : nat :=
  length (filter (fun i => xorb (msg_bit m1 i) (msg_bit m2 i))
                 (seq 0 (8 * length m1))).

(** Bytewise exclusive or of two messages of the same length. *)
Definition xor_msg (m1 m2 : list N) : list N := map (fun p => N.lxor (fst p) (snd p)) (combine m1 m2).

(** Two messages of the same length that differ exactly in the bits [i] and [j]. *)
Definition differ_in_two (m1 m2 : list N) (i j : nat) : Prop :=
  length m1 = length m2 /\ (i < j < 8 * length m1)%nat /\
  forall k, msg_bit m1 k = msg_bit m2 k <-> (k <> i /\ k <> j).
