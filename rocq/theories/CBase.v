(** C integer conversions shared by the models. *)
From Coq Require Import ZArith Lia.
Local Open Scope Z_scope.

(** Conversion to an unsigned type of [k] bits. *)
Definition uN (k x : Z) : Z := x mod 2 ^ k.
(** Conversion to a signed (two's complement) type of [k] bits. *)
Definition sN (k x : Z) : Z := (x + 2 ^ (k - 1)) mod 2 ^ k - 2 ^ (k - 1).

Definition u8 := uN 8.
Definition u16 := uN 16.
Definition u32 := uN 32.
Definition u64 := uN 64.
Definition s8 := sN 8.
Definition s16 := sN 16.
Definition s32 := sN 32.
Definition s64 := sN 64.

Lemma uN_range k x : 0 <= k -> 0 <= uN k x < 2 ^ k.
Proof. intro. unfold uN. apply Z.mod_pos_bound. apply Z.pow_pos_nonneg; lia. Qed.

Lemma uN_id k x : 0 <= x < 2 ^ k -> uN k x = x.
Proof. intro. unfold uN. now apply Z.mod_small. Qed.

Lemma sN_id k x : - 2 ^ (k - 1) <= x < 2 ^ (k - 1) -> 0 < k -> sN k x = x.
Proof.
  intros H K. unfold sN. assert (E : 2 ^ k = 2 * 2 ^ (k - 1)).
  { replace k with (Z.succ (k - 1)) at 1 by lia. rewrite Z.pow_succ_r; lia. }
  rewrite Z.mod_small; lia.
Qed.

Lemma sN_range k x : 0 < k -> - 2 ^ (k - 1) <= sN k x < 2 ^ (k - 1).
Proof.
  intros K. unfold sN. assert (E : 2 ^ k = 2 * 2 ^ (k - 1)).
  { replace k with (Z.succ (k - 1)) at 1 by lia. rewrite Z.pow_succ_r; lia. }
  pose proof (Z.mod_pos_bound (x + 2 ^ (k - 1)) (2 ^ k) ltac:(apply Z.pow_pos_nonneg; lia)). lia.
Qed.

Lemma sN_mod k x y : 0 <= k -> x mod 2 ^ k = y mod 2 ^ k -> sN k x = sN k y.
Proof.
  intros K H. pose proof (Z.pow_pos_nonneg 2 k ltac:(lia) K). unfold sN. f_equal.
  rewrite (Z.add_mod x), (Z.add_mod y), H by lia. reflexivity.
Qed.
