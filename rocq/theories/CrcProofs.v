(** Proofs about the CRC model. *)
From Coq Require Import NArith List Bool Lia PeanoNat.
From Verif Require Import CrcModel CrcSpec.
Import ListNotations.
Local Open Scope N_scope.

(** * A generic reflected LFSR *)

Definition lstep (P : N) (c : N) (b : bool) : N :=
  if xorb (N.testbit c 0) b then N.lxor (N.shiftr c 1) P else N.shiftr c 1.
Definition lfeed (P : N) (c : N) (bits : list bool) : N := fold_left (lstep P) bits c.

Lemma lfeed_app P c l1 l2 : lfeed P c (l1 ++ l2) = lfeed P (lfeed P c l1) l2.
Proof. apply fold_left_app. Qed.

Lemma lstep_linear P c1 c2 b1 b2 :
  lstep P (N.lxor c1 c2) (xorb b1 b2) = N.lxor (lstep P c1 b1) (lstep P c2 b2).
Proof.
  unfold lstep. rewrite N.lxor_spec, N.shiftr_lxor.
  apply N.bits_inj; intro i.
  destruct (N.testbit c1 0), (N.testbit c2 0), b1, b2; cbn [xorb];
    rewrite ?N.lxor_spec; destruct (N.testbit (N.shiftr c1 1) i),
      (N.testbit (N.shiftr c2 1) i), (N.testbit P i); reflexivity.
Qed.

Definition bxor (l1 l2 : list bool) := map (fun p => xorb (fst p) (snd p)) (combine l1 l2).

Lemma lfeed_linear P l1 : forall l2 c1 c2, length l1 = length l2 ->
  lfeed P (N.lxor c1 c2) (bxor l1 l2) = N.lxor (lfeed P c1 l1) (lfeed P c2 l2).
Proof.
  induction l1 as [|b1 l1 IH]; intros [|b2 l2] c1 c2 H; try discriminate.
  - reflexivity.
  - cbn. rewrite lstep_linear. apply IH. now inversion H.
Qed.

Lemma lfeed_zeros_0 P n : lfeed P 0 (repeat false n) = 0.
Proof. induction n; [reflexivity|]. cbn [repeat]. unfold lfeed; cbn [fold_left]. exact IHn. Qed.

Fixpoint num (l : list bool) : N :=
  match l with [] => 0 | b :: l => N.b2n b + 2 * num l end.

Lemma num_bit0 b l : N.testbit (num (b :: l)) 0 = b.
Proof. cbn [num]. rewrite N.add_comm. apply N.testbit_0_r. Qed.
Lemma num_shift b l : N.shiftr (num (b :: l)) 1 = num l.
Proof.
  cbn [num]. apply N.bits_inj; intro i. rewrite N.shiftr_spec' .
  replace (i + 1) with (N.succ i) by lia.
  rewrite (N.add_comm (N.b2n b)). apply N.testbit_succ_r.
Qed.

Lemma lstep_num P c b l :
  lstep P (N.lxor c (num (b :: l))) false = N.lxor (lstep P c b) (num l).
Proof.
  unfold lstep. rewrite N.lxor_spec, N.shiftr_lxor, num_bit0, num_shift, xorb_false_r.
  destruct (xorb (N.testbit c 0) b); [|reflexivity].
  rewrite !N.lxor_assoc. f_equal. apply N.lxor_comm.
Qed.

Lemma lfeed_num P l : forall c,
  lfeed P c l = lfeed P (N.lxor c (num l)) (repeat false (length l)).
Proof.
  induction l as [|b l IH]; intro c; cbn [length repeat].
  - cbn. now rewrite N.lxor_0_r.
  - change (lfeed P (lstep P c b) l =
            lfeed P (lstep P (N.lxor c (num (b :: l))) false) (repeat false (length l))).
    rewrite lstep_num. apply IH.
Qed.

Lemma num_lt l : num l < 2 ^ N.of_nat (length l).
Proof.
  induction l as [|b l IH]; [cbn; lia|].
  cbn [num length]. rewrite Nat2N.inj_succ, N.pow_succ_r'. destruct b; cbn [N.b2n]; lia.
Qed.

Lemma num_zero l : num l = 0 -> l = repeat false (length l).
Proof.
  induction l as [|b l IH]; [reflexivity|]. cbn [num length repeat].
  destruct b; cbn [N.b2n]; intro H; [lia|]. f_equal. apply IH. lia.
Qed.

Lemma num_inj l1 : forall l2, length l1 = length l2 -> num l1 = num l2 -> l1 = l2.
Proof.
  induction l1 as [|b1 l1 IH]; intros [|b2 l2] H E; try discriminate; [reflexivity|].
  cbn [num] in E. inversion H. destruct b1, b2; cbn [N.b2n] in E; try lia; f_equal; apply IH; try lia.
Qed.

Lemma lxor_lt w a b : a < 2 ^ w -> b < 2 ^ w -> N.lxor a b < 2 ^ w.
Proof.
  intros Ha Hb. destruct (N.eq_dec w 0) as [->|W].
  - change (2 ^ 0) with 1 in *. assert (a = 0) as -> by lia. assert (b = 0) as -> by lia. now cbn.
  - destruct (N.eq_dec (N.lxor a b) 0) as [->|NZ].
    + apply N.neq_0_lt_0. apply N.pow_nonzero; lia.
    + apply N.log2_lt_pow2; [lia|].
      eapply N.le_lt_trans; [apply N.log2_lxor|].
      apply N.max_lub_lt.
      * destruct (N.eq_dec a 0) as [->|]; [cbn; lia|]. apply N.log2_lt_pow2; lia.
      * destruct (N.eq_dec b 0) as [->|]; [cbn; lia|]. apply N.log2_lt_pow2; lia.
Qed.

Section Width.
  Variables (P : N) (w : N).
  Hypothesis Pw : P < 2 ^ w.
  Hypothesis w1 : 1 <= w.
  Hypothesis Ptop : N.testbit P (w - 1) = true.

  Lemma shiftr1_lt c : c < 2 ^ w -> N.shiftr c 1 < 2 ^ (w - 1).
  Proof.
    intro H. rewrite N.shiftr_div_pow2. apply N.div_lt_upper_bound; [lia|].
    change (2 ^ 1) with 2. rewrite <- N.pow_succ_r'. replace (N.succ (w - 1)) with w by lia. exact H.
  Qed.

  Lemma pow_w1 : 2 ^ (w - 1) < 2 ^ w.
  Proof. apply N.pow_lt_mono_r; lia. Qed.

  Lemma lstep_lt c b : c < 2 ^ w -> lstep P c b < 2 ^ w.
  Proof.
    intro H. unfold lstep. pose proof (shiftr1_lt c H). pose proof pow_w1.
    destruct (xorb _ _); [apply lxor_lt; [lia|exact Pw] | lia].
  Qed.

  Lemma lfeed_lt l : forall c, c < 2 ^ w -> lfeed P c l < 2 ^ w.
  Proof. induction l as [|b l IH]; intros c H; [exact H|]. cbn. apply IH, lstep_lt, H. Qed.

  Lemma small_no_top c : c < 2 ^ (w - 1) -> N.testbit c (w - 1) = false.
  Proof.
    intro H. destruct (N.eq_dec c 0) as [->|]; [apply N.bits_0|].
    apply N.bits_above_log2. apply N.log2_lt_pow2; lia.
  Qed.

  Lemma lstep_zero c : c < 2 ^ w -> lstep P c false = 0 -> c = 0.
  Proof.
    intros H. unfold lstep. rewrite xorb_false_r.
    destruct (N.testbit c 0) eqn:E; intro Z.
    - apply N.lxor_eq in Z. pose proof (small_no_top _ (shiftr1_lt c H)) as T.
      rewrite Z in T. congruence.
    - apply N.bits_inj; intro i. rewrite N.bits_0.
      destruct (N.zero_or_succ i) as [->|[j ->]]; [exact E|].
      replace (N.succ j) with (j + 1) by lia.
      rewrite <- N.shiftr_spec', Z. apply N.bits_0.
  Qed.

  Lemma lfeed_zeros_nonzero n : forall c, c < 2 ^ w -> c <> 0 -> lfeed P c (repeat false n) <> 0.
  Proof.
    induction n as [|n IH]; intros c H NZ; [exact NZ|].
    cbn [repeat]. unfold lfeed; cbn [fold_left]. apply IH.
    - apply lstep_lt, H.
    - intro Z. apply NZ, lstep_zero; assumption.
  Qed.

  (** Feeding the same bits to different states keeps them different. *)
  Lemma lfeed_inj l c1 c2 : c1 < 2 ^ w -> c2 < 2 ^ w -> lfeed P c1 l = lfeed P c2 l -> c1 = c2.
  Proof.
    intros H1 H2 E. destruct (N.eq_dec (N.lxor c1 c2) 0) as [Z|NZ]; [now apply N.lxor_eq|].
    exfalso.
    assert (L : lfeed P (N.lxor c1 c2) (bxor l l) = 0).
    { rewrite lfeed_linear by reflexivity. rewrite E. apply N.lxor_nilpotent. }
    assert (B : bxor l l = repeat false (length l)).
    { clear. induction l as [|b l IH]; [reflexivity|]. cbn. unfold bxor in IH. rewrite IH.
      now rewrite xorb_nilpotent. }
    rewrite B in L. revert L. apply lfeed_zeros_nonzero; [now apply lxor_lt|exact NZ].
  Qed.

  (** A non-zero block not longer than the register leaves a non-zero register. *)
  Lemma lfeed_burst l : N.of_nat (length l) <= w -> l <> repeat false (length l) -> lfeed P 0 l <> 0.
  Proof.
    intros L NZ. rewrite lfeed_num, N.lxor_0_l. apply lfeed_zeros_nonzero.
    - eapply N.lt_le_trans; [apply num_lt|]. apply N.pow_le_mono_r; lia.
    - intro Z. apply NZ, num_zero, Z.
  Qed.

  (** Two bit strings that differ, only in the middle part, with the middle not longer than the register. *)
  Lemma lfeed_burst_detect c a m1 m2 z :
    c < 2 ^ w -> length m1 = length m2 -> N.of_nat (length m1) <= w -> m1 <> m2 ->
    lfeed P c (a ++ m1 ++ z) <> lfeed P c (a ++ m2 ++ z).
  Proof.
    intros Hc L W D E. rewrite !lfeed_app in E.
    assert (Ha : lfeed P c a < 2 ^ w) by now apply lfeed_lt.
    apply lfeed_inj in E; [|now apply lfeed_lt|now apply lfeed_lt].
    rewrite (lfeed_num P m1), (lfeed_num P m2), L in E.
    assert (B : forall m, N.of_nat (length m) <= w -> N.lxor (lfeed P c a) (num m) < 2 ^ w).
    { intros m Hm. apply lxor_lt; [exact Ha|]. eapply N.lt_le_trans; [apply num_lt|].
      apply N.pow_le_mono_r; lia. }
    apply lfeed_inj in E; [|apply B; lia|apply B; lia].
    apply D, num_inj; [exact L|].
    apply (f_equal (N.lxor (lfeed P c a))) in E.
    now rewrite <- !N.lxor_assoc, N.lxor_nilpotent, !N.lxor_0_l in E.
  Qed.

  (** Two-bit errors: the second bit [k] positions after the first. *)
  Definition lzero (c : N) : N := lstep P c false.

  Lemma lfeed_repeat_iter n : forall c, lfeed P c (repeat false n) = repeat_n n lzero c.
  Proof. induction n as [|n IH]; intro c; [reflexivity|]. cbn. apply IH. Qed.

  Lemma two_bits_detect (n k : nat) (a z : nat) :
    (forall i, (i < n)%nat -> repeat_n i lzero P <> 1) -> (k < n)%nat ->
    lfeed P 0 (repeat false a ++ true :: repeat false k ++ true :: repeat false z) <> 0.
  Proof.
    intros Hn Hk. rewrite lfeed_app, lfeed_zeros_0.
    change (true :: repeat false k ++ true :: repeat false z)
      with ([true] ++ (repeat false k ++ [true] ++ repeat false z)).
    rewrite !lfeed_app.
    assert (L1 : lfeed P 0 [true] = P) by (cbn; now destruct P).
    rewrite L1, (lfeed_repeat_iter k).
    set (x := repeat_n k lzero P).
    assert (Hx : x < 2 ^ w). { unfold x. rewrite <- lfeed_repeat_iter. apply lfeed_lt, Pw. }
    assert (X1 : x <> 1) by (apply Hn, Hk).
    assert (L2 : lfeed P x [true] = lstep P (N.lxor x 1) false).
    { cbn. change 1 with (num [true]). rewrite lstep_num. cbn [num]. now rewrite N.lxor_0_r. }
    rewrite L2. apply lfeed_zeros_nonzero.
    - apply lstep_lt, lxor_lt; [exact Hx|]. apply N.lt_le_trans with (2 ^ 1); [cbn; lia|].
      apply N.pow_le_mono_r; lia.
    - intro Z. apply lstep_zero in Z.
      + apply X1. now apply N.lxor_eq.
      + apply lxor_lt; [exact Hx|]. apply N.lt_le_trans with (2 ^ 1); [cbn; lia|].
        apply N.pow_le_mono_r; lia.
  Qed.
End Width.

Fixpoint never_one (P : N) (n : nat) (x : N) : bool :=
  match n with O => true | S n => if N.eqb x 1 then false else never_one P n (lzero P x) end.
Lemma never_one_spec P n : forall x, never_one P n x = true ->
  forall i, (i < n)%nat -> repeat_n i (lzero P) x <> 1.
Proof.
  induction n as [|n IH]; intros x H i Hi; [lia|].
  cbn [never_one] in H. destruct (N.eqb_spec x 1); [discriminate|].
  destruct i as [|i]; [exact n0|]. cbn [repeat_n]. apply IH; [exact H|lia].
Qed.

(** * Messages as bit strings *)

Definition bits8 (b : N) : list bool := map (fun i => N.testbit b i) [0; 1; 2; 3; 4; 5; 6; 7].
Definition mbits (m : list N) : list bool := flat_map bits8 m.

Lemma mbits_length m : length (mbits m) = (8 * length m)%nat.
Proof. induction m as [|b m IH]; [reflexivity|]. cbn [mbits flat_map]. rewrite app_length.
  fold (mbits m). rewrite IH. cbn. lia. Qed.

Lemma bits8_nth b i : (i < 8)%nat -> nth i (bits8 b) false = N.testbit b (N.of_nat i).
Proof. intro H. do 8 (destruct i as [|i]; [reflexivity|]). lia. Qed.

Lemma mbits_nth m : forall i, (i < 8 * length m)%nat -> nth i (mbits m) false = msg_bit m i.
Proof.
  unfold msg_bit. induction m as [|b m IH]; intros i Hi; [cbn in Hi; lia|].
  cbn [mbits flat_map]. destruct (Nat.lt_ge_cases i 8) as [L|G].
  - rewrite app_nth1 by (cbn; lia). rewrite Nat.div_small, Nat.mod_small by exact L.
    cbn [nth]. now apply bits8_nth.
  - rewrite app_nth2 by (cbn; lia). change (length (bits8 b)) with 8%nat. fold (mbits m).
    rewrite IH by (cbn [length] in Hi; lia).
    replace i with ((i - 8) + 1 * 8)%nat at 3 4 by lia.
    rewrite Nat.div_add, Nat.mod_add by lia.
    replace ((i - 8) / 8 + 1)%nat with (S ((i - 8) / 8)) by lia. reflexivity.
Qed.

Lemma msg_bits_mbits m : msg_bits m = mbits m.
Proof.
  apply nth_ext with false false.
  - unfold msg_bits. rewrite map_length, seq_length, mbits_length. reflexivity.
  - intros i Hi. unfold msg_bits in *. rewrite map_length, seq_length in Hi.
    rewrite mbits_nth by exact Hi.
    rewrite nth_indep with (d' := msg_bit m 0) by (now rewrite map_length, seq_length).
    rewrite map_nth, seq_nth by exact Hi. reflexivity.
Qed.

Lemma num_bits8 b : byte_ok b -> num (bits8 b) = b.
Proof.
  unfold byte_ok. intro H. unfold bits8; cbn [map].
  apply N.bits_inj; intro i.
  assert (S : forall x l j, N.testbit (num (x :: l)) (N.succ j) = N.testbit (num l) j).
  { intros x l j. rewrite <- (num_shift x l), N.shiftr_spec'. f_equal. lia. }
  do 8 (destruct (N.zero_or_succ i) as [->|[j ->]]; [apply num_bit0|]; rewrite S; rename j into i).
  cbn [num]. rewrite N.bits_0. symmetry.
  destruct (N.eq_dec b 0) as [->|]; [apply N.bits_0|].
  apply N.bits_above_log2. apply N.lt_le_trans with 8; [|lia].
  apply N.log2_lt_pow2; [lia|exact H].
Qed.

Lemma mbits_inj m1 m2 : bytes_ok m1 -> bytes_ok m2 -> length m1 = length m2 -> mbits m1 = mbits m2 -> m1 = m2.
Proof.
  revert m2. induction m1 as [|b1 m1 IH]; intros [|b2 m2] H1 H2 L E; try discriminate; [reflexivity|].
  inversion H1; inversion H2; subst. inversion L. cbn [mbits flat_map] in E.
  assert (B : bits8 b1 = bits8 b2 /\ mbits m1 = mbits m2).
  { cbn in E. inversion E. split; [cbn; congruence|assumption]. }
  destruct B as [B1 B2]. f_equal.
  - rewrite <- (num_bits8 b1), <- (num_bits8 b2) by assumption. now rewrite B1.
  - apply IH; assumption.
Qed.

(** * The two checksums as LFSRs *)

Lemma crc16_byte_feed c b : byte_ok b -> crc16_byte c b = lfeed CRC16_POLYNOMIAL c (bits8 b).
Proof.
  intro H. rewrite lfeed_num, num_bits8 by exact H.
  change (length (bits8 b)) with 8%nat.
  assert (Q : forall n x, repeat_n n crc16_round x = lfeed CRC16_POLYNOMIAL x (repeat false n)).
  { induction n as [|n IH]; intro x; [reflexivity|].
    cbn [repeat_n repeat]. unfold lfeed; cbn [fold_left]. rewrite IH. unfold lfeed. f_equal.
    unfold crc16_round, lstep. now rewrite xorb_false_r. }
  apply Q.
Qed.

Lemma crc16_feed m : forall c, bytes_ok m -> crc16 c m = lfeed CRC16_POLYNOMIAL c (mbits m).
Proof.
  induction m as [|b m IH]; intros c H; [reflexivity|]. inversion H; subst.
  cbn [mbits flat_map]. rewrite lfeed_app, <- crc16_byte_feed by assumption.
  change (crc16 c (b :: m)) with (crc16 (crc16_byte c b) m). now apply IH.
Qed.

Lemma crc32_byte_feed c b : crc32_byte c b = lfeed CRC32_POLYNOMIAL c (bits8 b).
Proof.
  unfold crc32_byte, bits8, lfeed.
  assert (Q : forall l c, fold_left (crc32_round b) l c =
     fold_left (lstep CRC32_POLYNOMIAL) (map (fun i => N.testbit b i) l) c).
  { induction l as [|i l IH]; intro x; [reflexivity|]. cbn [fold_left map]. rewrite IH. f_equal.
    unfold crc32_round, lstep. destruct (N.testbit x 0), (N.testbit b i); reflexivity. }
  apply Q.
Qed.

Lemma crc32_feed m : forall c, crc32 c m = not32 (lfeed CRC32_POLYNOMIAL (not32 c) (mbits m)).
Proof.
  intro c. unfold crc32. f_equal. generalize (not32 c); clear c.
  induction m as [|b m IH]; intros c; [reflexivity|].
  cbn [mbits flat_map fold_left]. rewrite lfeed_app, <- crc32_byte_feed. apply IH.
Qed.

Lemma not32_lt c : c < 2 ^ 32 -> not32 c < 2 ^ 32.
Proof. intro H. apply lxor_lt; [exact H|now vm_compute]. Qed.
Lemma not32_not32 c : not32 (not32 c) = c.
Proof. unfold not32. now rewrite N.lxor_assoc, N.lxor_nilpotent, N.lxor_0_r. Qed.
Lemma not32_inj a b : not32 a = not32 b -> a = b.
Proof. intro H. rewrite <- (not32_not32 a), <- (not32_not32 b). now rewrite H. Qed.

Lemma P16 : CRC16_POLYNOMIAL < 2 ^ 16. Proof. now vm_compute. Qed.
Lemma P32 : CRC32_POLYNOMIAL < 2 ^ 32. Proof. now vm_compute. Qed.
Lemma T16 : N.testbit CRC16_POLYNOMIAL (16 - 1) = true. Proof. now vm_compute. Qed.
Lemma T32 : N.testbit CRC32_POLYNOMIAL (32 - 1) = true. Proof. now vm_compute. Qed.
Lemma one16 : 1 <= 16. Proof. lia. Qed.
Lemma one32 : 1 <= 32. Proof. lia. Qed.

(** ** C01 *)
Lemma crc16_app_l init a b : crc16 init (a ++ b) = crc16 (crc16 init a) b.
Proof. apply fold_left_app. Qed.
Lemma crc32_app_l init a b : crc32 init (a ++ b) = crc32 (crc32 init a) b.
Proof. unfold crc32. rewrite fold_left_app, not32_not32. reflexivity. Qed.
Lemma crc16_range_l init m : init < 2 ^ 16 -> bytes_ok m -> crc16 init m < 2 ^ 16.
Proof. intros H B. rewrite crc16_feed by exact B. apply lfeed_lt; [apply P16|lia|exact H]. Qed.
Lemma crc32_range_l init m : init < 2 ^ 32 -> crc32 init m < 2 ^ 32.
Proof. intros H. rewrite crc32_feed. apply not32_lt, lfeed_lt; [apply P32|lia|now apply not32_lt]. Qed.


Lemma mbits_xor m1 : forall m2, length m1 = length m2 ->
  mbits (xor_msg m1 m2) = bxor (mbits m1) (mbits m2).
Proof.
  induction m1 as [|b1 m1 IH]; intros [|b2 m2] L; try discriminate; [reflexivity|].
  inversion L. specialize (IH m2 H0). unfold mbits, xor_msg, bxor in *.
  cbn. rewrite IH. rewrite !N.lxor_spec. reflexivity.
Qed.

Lemma byte_lxor a b : byte_ok a -> byte_ok b -> byte_ok (N.lxor a b).
Proof. intros. unfold byte_ok in *. change 256 with (2 ^ 8) in *. now apply lxor_lt. Qed.
Lemma bytes_xor m1 : forall m2, bytes_ok m1 -> bytes_ok m2 -> bytes_ok (xor_msg m1 m2).
Proof.
  induction m1 as [|b1 m1 IH]; intros [|b2 m2] H1 H2; try constructor.
  - inversion H1; inversion H2; subst. cbn. now apply byte_lxor.
  - inversion H1; inversion H2; subst. now apply IH.
Qed.

Lemma crc16_xor_l i1 i2 m1 m2 : bytes_ok m1 -> bytes_ok m2 -> length m1 = length m2 ->
  crc16 (N.lxor i1 i2) (xor_msg m1 m2) = N.lxor (crc16 i1 m1) (crc16 i2 m2).
Proof.
  intros B1 B2 L. rewrite !crc16_feed by (try apply bytes_xor; assumption).
  rewrite mbits_xor by exact L. apply lfeed_linear. rewrite !mbits_length. now rewrite L.
Qed.

Lemma mbits_xor_assoc_len m1 m2 : length m1 = length m2 -> length (bxor (mbits m1) (mbits m2)) = length (mbits m1).
Proof. intro L. unfold bxor. rewrite map_length, combine_length, !mbits_length, L. lia. Qed.

Lemma xor_msg_length m1 m2 : length m1 = length m2 -> length (xor_msg m1 m2) = length m1.
Proof. intro L. unfold xor_msg. rewrite map_length, combine_length, L. lia. Qed.

(** Affine: xor of three messages. *)
Lemma crc32_affine_l i1 i2 i3 m1 m2 m3 :
  length m1 = length m2 -> length m2 = length m3 ->
  crc32 (N.lxor i1 (N.lxor i2 i3)) (xor_msg m1 (xor_msg m2 m3))
  = N.lxor (crc32 i1 m1) (N.lxor (crc32 i2 m2) (crc32 i3 m3)).
Proof.
  intros L1 L2. rewrite !crc32_feed.
  assert (L23 : length m1 = length (xor_msg m2 m3)) by (rewrite xor_msg_length; congruence).
  rewrite (mbits_xor m1) by exact L23.
  assert (E : not32 (N.lxor i1 (N.lxor i2 i3)) = N.lxor (not32 i1) (N.lxor (not32 i2) (not32 i3))).
  { unfold not32. apply N.bits_inj; intro k. rewrite !N.lxor_spec.
    destruct (N.testbit i1 k), (N.testbit i2 k), (N.testbit i3 k), (N.testbit 0xFFFFFFFF k); reflexivity. }
  rewrite E, lfeed_linear by (rewrite !mbits_length; congruence).
  rewrite (mbits_xor m2) by exact L2.
  rewrite lfeed_linear by (rewrite !mbits_length; congruence).
  unfold not32. apply N.bits_inj; intro k. rewrite !N.lxor_spec.
  repeat match goal with |- context [N.testbit ?a k] => destruct (N.testbit a k) end; reflexivity.
Qed.

(** ** C02 *)
Lemma split_burst {A} (l : list A) s w :
  l = firstn s l ++ firstn w (skipn s l) ++ skipn w (skipn s l).
Proof. now rewrite (firstn_skipn w), firstn_skipn. Qed.

Lemma nth_firstn {A} (l : list A) n i d : (i < n)%nat -> nth i (firstn n l) d = nth i l d.
Proof.
  revert n i. induction l as [|x l IH]; intros [|n] i H; try lia.
  - now rewrite firstn_nil.
  - destruct i as [|i]; [reflexivity|]. cbn. apply IH. lia.
Qed.
Lemma nth_skipn {A} (l : list A) n i d : nth i (skipn n l) d = nth (n + i) l d.
Proof.
  revert n. induction l as [|x l IH]; intros [|n]; try reflexivity.
  - destruct i; reflexivity.
  - cbn. apply IH.
Qed.

Lemma burst_split m1 m2 s w : differ_only_in_burst m1 m2 s w ->
  firstn s (mbits m1) = firstn s (mbits m2) /\
  skipn w (skipn s (mbits m1)) = skipn w (skipn s (mbits m2)).
Proof.
  intros [L D].
  assert (LB : length (mbits m1) = length (mbits m2)) by (rewrite !mbits_length; congruence).
  assert (D' : forall i, (i < s \/ s + w <= i)%nat -> nth i (mbits m1) false = nth i (mbits m2) false).
  { intros i Hi. destruct (Nat.lt_ge_cases i (length (mbits m1))) as [Hl|Hl].
    - rewrite mbits_nth, mbits_nth by (rewrite mbits_length in Hl; lia). now apply D.
    - rewrite !nth_overflow by lia. reflexivity. }
  split; apply nth_ext with false false.
  - rewrite !firstn_length. lia.
  - intros i Hi. rewrite firstn_length in Hi. rewrite !nth_firstn by lia. apply D'. lia.
  - rewrite !skipn_length. lia.
  - intros i Hi. rewrite !nth_skipn. apply D'. lia.
Qed.

Lemma lfeed_burst_msgs P wd c m1 m2 s w :
  P < 2 ^ wd -> 1 <= wd -> N.testbit P (wd - 1) = true -> c < 2 ^ wd ->
  bytes_ok m1 -> bytes_ok m2 -> differ_only_in_burst m1 m2 s w -> N.of_nat w <= wd -> m1 <> m2 ->
  lfeed P c (mbits m1) <> lfeed P c (mbits m2).
Proof.
  intros HP Hw HT Hc B1 B2 D W NE. destruct (burst_split _ _ _ _ D) as [E1 E2].
  destruct D as [L _].
  assert (LB : length (mbits m1) = length (mbits m2)) by (rewrite !mbits_length; congruence).
  rewrite (split_burst (mbits m1) s w), (split_burst (mbits m2) s w), E1, E2.
  apply lfeed_burst_detect with wd; try assumption.
  - rewrite !firstn_length, !skipn_length. lia.
  - rewrite firstn_length. lia.
  - intro E. apply NE, mbits_inj; try assumption.
    rewrite (split_burst (mbits m1) s w), (split_burst (mbits m2) s w), E1, E2, E. reflexivity.
Qed.

Lemma crc16_burst_l init m1 m2 s w :
  init < 2 ^ 16 -> bytes_ok m1 -> bytes_ok m2 -> (w <= 16)%nat ->
  differ_only_in_burst m1 m2 s w -> m1 <> m2 -> crc16 init m1 <> crc16 init m2.
Proof.
  intros Hi B1 B2 W D NE. rewrite !crc16_feed by assumption.
  eapply lfeed_burst_msgs with (wd := 16); eauto using P16, one16, T16. lia.
Qed.

Lemma crc32_burst_l init m1 m2 s w :
  init < 2 ^ 32 -> bytes_ok m1 -> bytes_ok m2 -> (w <= 32)%nat ->
  differ_only_in_burst m1 m2 s w -> m1 <> m2 -> crc32 init m1 <> crc32 init m2.
Proof.
  intros Hi B1 B2 W D NE. rewrite !crc32_feed. intro E. apply not32_inj in E. revert E.
  eapply lfeed_burst_msgs with (wd := 32); eauto using P32, one32, T32, not32_lt. lia.
Qed.

Lemma crc16_init_inj_l i1 i2 m : i1 < 2 ^ 16 -> i2 < 2 ^ 16 -> bytes_ok m ->
  crc16 i1 m = crc16 i2 m -> i1 = i2.
Proof.
  intros H1 H2 B. rewrite !crc16_feed by assumption. apply lfeed_inj with (w := 16); auto using P16, one16, T16.
Qed.
Lemma crc32_init_inj_l i1 i2 m : i1 < 2 ^ 32 -> i2 < 2 ^ 32 ->
  crc32 i1 m = crc32 i2 m -> i1 = i2.
Proof.
  intros H1 H2 E. rewrite !crc32_feed in E. apply not32_inj in E.
  apply lfeed_inj with (w := 32) in E; auto using P32, one32, T32, not32_lt. now apply not32_inj.
Qed.

(** Odd number of bit errors: CRC-16's generator is divisible by x+1. *)
Fixpoint parity_pos (p : positive) : bool :=
  match p with xH => true | xO p => parity_pos p | xI p => negb (parity_pos p) end.
Definition parity (n : N) : bool := match n with 0 => false | Npos p => parity_pos p end.

Lemma parity_double n : parity (N.double n) = parity n.
Proof. now destruct n. Qed.
Lemma parity_succ_double n : parity (N.succ_double n) = negb (parity n).
Proof. now destruct n. Qed.

Lemma parity_lxor_pos p : forall q, parity (Pos.lxor p q) = xorb (parity_pos p) (parity_pos q).
Proof.
  induction p as [p IH|p IH|]; intros [q|q|]; cbn [Pos.lxor parity_pos parity];
   rewrite ?parity_double, ?parity_succ_double, ?IH;
   repeat match goal with |- context [parity_pos ?x] => destruct (parity_pos x) end; reflexivity.
Qed.
Lemma parity_lxor a b : parity (N.lxor a b) = xorb (parity a) (parity b).
Proof.
  destruct a as [|p], b as [|q]; cbn; try reflexivity.
  - now destruct (parity_pos q).
  - now destruct (parity_pos p).
  - apply parity_lxor_pos.
Qed.

Lemma parity_shiftr c : parity (N.shiftr c 1) = xorb (parity c) (N.testbit c 0).
Proof. destruct c as [|[p|p|]]; cbn; try reflexivity; now destruct (parity_pos p). Qed.

Definition lparity (l : list bool) : bool := fold_right xorb false l.

Lemma lfeed_parity P l : parity P = true -> forall c,
  parity (lfeed P c l) = xorb (parity c) (lparity l).
Proof.
  intro HP. induction l as [|b l IH]; intro c; cbn.
  - now destruct (parity c).
  - fold (lfeed P). change (parity (lfeed P (lstep P c b) l) = xorb (parity c) (xorb b (lparity l))).
    rewrite IH. unfold lstep.
    destruct (N.testbit c 0) eqn:E, b; cbn [xorb]; rewrite ?parity_lxor, parity_shiftr, E, ?HP;
     destruct (parity c), (lparity l); reflexivity.
Qed.

Lemma lparity_bxor l1 : forall l2, length l1 = length l2 -> lparity (bxor l1 l2) = xorb (lparity l1) (lparity l2).
Proof.
  induction l1 as [|a l1 IH]; intros [|b l2] L; try discriminate; [reflexivity|].
  inversion L.
  change (xorb (xorb a b) (lparity (bxor l1 l2)) = xorb (xorb a (lparity l1)) (xorb b (lparity l2))).
  rewrite IH by assumption.
  destruct a, b, (lparity l1), (lparity l2); reflexivity.
Qed.

Lemma lparity_filter (f : nat -> bool) l :
  lparity (map f l) = Nat.odd (length (filter f l)).
Proof.
  induction l as [|x l IH]; [reflexivity|]. cbn [map filter].
  change (lparity (f x :: map f l)) with (xorb (f x) (lparity (map f l))). rewrite IH.
  destruct (f x); [|now destruct (Nat.odd _)].
  cbn [length]. rewrite Nat.odd_succ, <- Nat.negb_odd. now destruct (Nat.odd _).
Qed.

Lemma crc16_odd_l init m1 m2 : bytes_ok m1 -> bytes_ok m2 -> length m1 = length m2 ->
  Nat.odd (bit_errors m1 m2) = true -> crc16 init m1 <> crc16 init m2.
Proof.
  intros B1 B2 L O E. rewrite !crc16_feed in E by assumption.
  apply (f_equal parity) in E. rewrite !lfeed_parity in E by reflexivity.
  assert (E' : lparity (mbits m1) = lparity (mbits m2)) by
    (destruct (parity init), (lparity (mbits m1)), (lparity (mbits m2)); cbn in *; congruence).
  unfold bit_errors in O. rewrite <- lparity_filter in O.
  replace (map (fun i => xorb (msg_bit m1 i) (msg_bit m2 i)) (seq 0 (8 * length m1)))
    with (bxor (msg_bits m1) (msg_bits m2)) in O.
  - rewrite !msg_bits_mbits, lparity_bxor in O by (rewrite !mbits_length; congruence).
    rewrite E', xorb_nilpotent in O. discriminate.
  - unfold bxor, msg_bits. rewrite <- L. generalize (seq 0 (8 * length m1)). intro s.
    induction s as [|i s IH]; [reflexivity|]. cbn. now rewrite IH.
Qed.

(** Two-bit errors *)

Lemma bxor_nth l1 : forall l2 k, length l1 = length l2 -> nth k (bxor l1 l2) false = xorb (nth k l1 false) (nth k l2 false).
Proof.
  induction l1 as [|a l1 IH]; intros [|b l2] k L; try discriminate; [now destruct k|].
  inversion L. destruct k as [|k]; [reflexivity|]. unfold bxor in *. cbn. now apply IH.
Qed.

Lemma two_bits_shape m1 m2 i j : differ_in_two m1 m2 i j ->
  bxor (mbits m1) (mbits m2) =
  repeat false i ++ true :: repeat false (j - i - 1) ++ true :: repeat false (8 * length m1 - j - 1).
Proof.
  intros (L & R & D).
  assert (LB : length (mbits m1) = length (mbits m2)) by (rewrite !mbits_length; congruence).
  apply nth_ext with false false.
  - rewrite mbits_xor_assoc_len by exact L. rewrite mbits_length.
    rewrite !app_length; cbn [length]. rewrite !app_length; cbn [length]. rewrite !repeat_length. lia.
  - intros k Hk. rewrite mbits_xor_assoc_len in Hk by exact L. rewrite mbits_length in Hk.
    rewrite bxor_nth by exact LB. rewrite !mbits_nth by lia. specialize (D k).
    assert (NR : forall n q, nth q (repeat false n) false = false).
    { induction n as [|n IHn]; intros [|q]; cbn; auto. }
    destruct (Nat.lt_trichotomy k i) as [C|[->|C]].
    + rewrite app_nth1 by (rewrite repeat_length; lia). rewrite NR.
      replace (msg_bit m1 k) with (msg_bit m2 k) by (symmetry; apply D; lia). apply xorb_nilpotent.
    + rewrite app_nth2, repeat_length by (rewrite repeat_length; lia). rewrite Nat.sub_diag. cbn.
      destruct (msg_bit m1 i), (msg_bit m2 i); try reflexivity; exfalso; destruct D as [D _]; destruct (D eq_refl); congruence.
    + rewrite app_nth2, repeat_length by (rewrite repeat_length; lia).
      destruct (k - i)%nat as [|q] eqn:Eq; [lia|]. cbn [nth].
      destruct (Nat.lt_trichotomy k j) as [C2|[->|C2]].
      * rewrite app_nth1 by (rewrite repeat_length; lia). rewrite NR.
        replace (msg_bit m1 k) with (msg_bit m2 k) by (symmetry; apply D; lia). apply xorb_nilpotent.
      * rewrite app_nth2, repeat_length by (rewrite repeat_length; lia).
        replace (q - (j - i - 1))%nat with 0%nat by lia. cbn.
        destruct (msg_bit m1 j), (msg_bit m2 j); try reflexivity; exfalso; destruct D as [D _]; destruct (D eq_refl); congruence.
      * rewrite app_nth2, repeat_length by (rewrite repeat_length; lia).
        destruct (q - (j - i - 1))%nat as [|r] eqn:Er; [lia|]. cbn [nth]. rewrite NR.
        replace (msg_bit m1 k) with (msg_bit m2 k) by (symmetry; apply D; lia). apply xorb_nilpotent.
Qed.

Definition reach16 : nat := N.to_nat 32766.
Definition reach32 : nat := N.to_nat 131072.
Lemma never16 : never_one CRC16_POLYNOMIAL reach16 CRC16_POLYNOMIAL = true.
Proof. vm_compute. reflexivity. Qed.
Lemma never32 : never_one CRC32_POLYNOMIAL reach32 CRC32_POLYNOMIAL = true.
Proof. vm_compute. reflexivity. Qed.

Lemma lfeed_two P wd c n m1 m2 i j :
  P < 2 ^ wd -> 1 <= wd -> N.testbit P (wd - 1) = true -> c < 2 ^ wd ->
  never_one P n P = true -> differ_in_two m1 m2 i j -> (j - i - 1 < n)%nat ->
  lfeed P c (mbits m1) <> lfeed P c (mbits m2).
Proof.
  intros HP Hw HT Hc Hn D Hk E.
  assert (L : length m1 = length m2) by apply D.
  assert (Z : lfeed P 0 (bxor (mbits m1) (mbits m2)) = 0).
  { rewrite <- (N.lxor_nilpotent c), lfeed_linear by (rewrite !mbits_length; congruence).
    rewrite E, !N.lxor_nilpotent. reflexivity. }
  rewrite (two_bits_shape _ _ _ _ D) in Z. revert Z.
  eapply two_bits_detect with (w := wd) (n := n); eauto. now apply never_one_spec.
Qed.

Lemma crc16_two_l init m1 m2 i j : init < 2 ^ 16 -> bytes_ok m1 -> bytes_ok m2 ->
  differ_in_two m1 m2 i j -> N.of_nat (j - i) <= 32766 -> crc16 init m1 <> crc16 init m2.
Proof.
  intros Hi B1 B2 D K. rewrite !crc16_feed by assumption.
  eapply lfeed_two with (wd := 16) (n := reach16); eauto using P16, one16, T16, never16.
  unfold reach16. destruct D as (_ & R & _). lia.
Qed.
Lemma crc32_two_l init m1 m2 i j : init < 2 ^ 32 ->
  differ_in_two m1 m2 i j -> N.of_nat (j - i) <= 131072 -> crc32 init m1 <> crc32 init m2.
Proof.
  intros Hi D K E. rewrite !crc32_feed in E. apply not32_inj in E. revert E.
  eapply lfeed_two with (wd := 32) (n := reach32); eauto using P32, one32, T32, never32, not32_lt.
  unfold reach32. destruct D as (_ & R & _). lia.
Qed.

(** * The checksum is the remainder of a polynomial division *)

Lemma poly_acc l : forall a, fold_left (fun a b => 2 * a + N.b2n b) l a = N.lxor (N.shiftl a (N.of_nat (length l))) (poly_of_bits l).
Proof.
  unfold poly_of_bits. induction l as [|b l IH] using rev_ind; intro a.
  - cbn. now rewrite N.shiftl_0_r, N.lxor_0_r.
  - rewrite !fold_left_app, app_length. cbn [fold_left length]. rewrite (IH a), (IH 0), N.shiftl_0_l, N.lxor_0_l.
    set (x := fold_left _ l 0). replace (length l + 1)%nat with (S (length l)) by lia.
    rewrite Nat2N.inj_succ.
    apply N.bits_inj; intro i. destruct (N.zero_or_succ i) as [->|[j ->]].
    + rewrite N.lxor_spec, !N.testbit_0_r, (N.shiftl_spec_low a (N.succ (N.of_nat (length l)))) by lia. now rewrite xorb_false_l.
    + rewrite N.lxor_spec, !N.testbit_succ_r, N.lxor_spec. f_equal.
      replace (N.succ (N.of_nat (length l))) with (N.of_nat (length l) + 1) by lia.
      rewrite <- N.shiftl_shiftl, (N.shiftl_spec_high' _ 1 (N.succ j)) by lia. f_equal. lia.
Qed.

Lemma poly_bits_testbit l : forall i, N.testbit (poly_of_bits l) (N.of_nat i) =
  if (i <? length l)%nat then nth (length l - 1 - i) l false else false.
Proof.
  induction l as [|b l IH] using rev_ind; intro i; [reflexivity|].
  unfold poly_of_bits. rewrite fold_left_app, app_length. cbn [fold_left length]. fold (poly_of_bits l).
  destruct i as [|i].
  - rewrite N.testbit_0_r. replace (length l + 1 - 1 - 0)%nat with (length l) by lia.
    rewrite app_nth2, Nat.sub_diag by lia. destruct (Nat.ltb_spec 0 (length l + 1)); [reflexivity|lia].
  - rewrite Nat2N.inj_succ, N.testbit_succ_r, IH.
    destruct (Nat.ltb_spec i (length l)), (Nat.ltb_spec (S i) (length l + 1)); try reflexivity; try lia.
    rewrite app_nth1 by lia. f_equal. lia.
Qed.

Lemma reflect_bit w c i : N.testbit (reflect w c) (N.of_nat i) =
  if (i <? w)%nat then N.testbit c (N.of_nat (w - 1 - i)) else false.
Proof.
  unfold reflect. rewrite poly_bits_testbit, map_length, seq_length.
  destruct (Nat.ltb_spec i w); [|reflexivity].
  rewrite nth_indep with (d' := N.testbit c (N.of_nat 0)) by (rewrite map_length, seq_length; lia).
  rewrite (map_nth (fun i => N.testbit c (N.of_nat i))), seq_nth by lia. reflexivity.
Qed.

Lemma reflect_lt w c : reflect w c < 2 ^ N.of_nat w.
Proof.
  destruct (N.eq_dec (reflect w c) 0) as [->|NZ].
  - apply N.neq_0_lt_0, N.pow_nonzero. lia.
  - apply N.log2_lt_pow2; [lia|].
    destruct (N.lt_ge_cases (N.log2 (reflect w c)) (N.of_nat w)) as [H|H]; [exact H|exfalso].
    pose proof (N.bit_log2 _ NZ) as B.
    rewrite <- (N2Nat.id (N.log2 (reflect w c))), reflect_bit in B. destruct (Nat.ltb_spec (N.to_nat (N.log2 (reflect w c))) w); [lia|discriminate].
Qed.

(** One LFSR step is multiplication by x and reduction. *)
Lemma reflect_step w P G c b :
  (1 <= w)%nat -> c < 2 ^ N.of_nat w -> P < 2 ^ N.of_nat w ->
  G = N.lxor (N.shiftl 1 (N.of_nat w)) (reflect w P) ->
  let f := xorb (N.testbit c 0) b in
  N.lxor (N.shiftl (reflect w c) 1) (N.shiftl (N.b2n b) (N.of_nat w))
  = N.lxor (if f then G else 0) (reflect w (lstep P c b)).
Proof.
  intros W Hc HP -> f.
  apply N.bits_inj; intro i'. rewrite <- (N2Nat.id i'). set (i := N.to_nat i'); clearbody i; clear i'.
  assert (HX : forall (x : bool) a, N.testbit (if x then a else 0) (N.of_nat i) = x && N.testbit a (N.of_nat i)).
  { intros [] a; [reflexivity|apply N.bits_0]. }
  assert (SH : forall a k, N.testbit (N.shiftl a (N.of_nat k)) (N.of_nat i) =
               if (k <=? i)%nat then N.testbit a (N.of_nat (i - k)) else false).
  { intros a k. destruct (Nat.leb_spec k i).
    - rewrite N.shiftl_spec_high' by lia. f_equal. lia.
    - apply N.shiftl_spec_low. lia. }
  assert (B1 : forall (x : bool) k, N.testbit (N.b2n x) (N.of_nat k) = x && (k =? 0)%nat).
  { intros x [|k]; [now destruct x|]. destruct x; cbn; [destruct (Pos.of_succ_nat k)|]; reflexivity. }
  rewrite !N.lxor_spec, HX, N.lxor_spec.
  change (N.shiftl (reflect w c) 1) with (N.shiftl (reflect w c) (N.of_nat 1)).
  change (N.shiftl 1 (N.of_nat w)) with (N.shiftl (N.b2n true) (N.of_nat w)).
  rewrite !SH, !B1, !reflect_bit.
  assert (LS : forall k, N.testbit (lstep P c b) (N.of_nat k) =
            xorb (N.testbit c (N.of_nat (S k))) (f && N.testbit P (N.of_nat k))).
  { intro k. unfold lstep. fold f. rewrite Nat2N.inj_succ, <- N.add_1_r.
    destruct f; rewrite ?N.lxor_spec, N.shiftr_spec'; [reflexivity|].
    cbn. now rewrite xorb_false_r. }
  rewrite LS.
  assert (CH : forall k, (w <= k)%nat -> N.testbit c (N.of_nat k) = false).
  { intros k Hk. destruct (N.eq_dec c 0) as [->|]; [apply N.bits_0|].
    apply N.bits_above_log2. apply N.lt_le_trans with (N.of_nat w); [apply N.log2_lt_pow2; lia|lia]. }
  destruct (Nat.eq_dec i 0) as [->|I0].
  - (* lowest coefficient *)
    replace (1 <=? 0)%nat with false by reflexivity.
    replace (w <=? 0)%nat with false by (symmetry; apply Nat.leb_gt; lia).
    replace (0 <? w)%nat with true by (symmetry; apply Nat.ltb_lt; lia).
    rewrite (CH (S (w - 1 - 0))) by lia. rewrite !xorb_false_l. now rewrite xorb_nilpotent.
  - replace (1 <=? i)%nat with true by (symmetry; apply Nat.leb_le; lia).
    destruct (Nat.lt_trichotomy i w) as [C|[->|C]].
    + replace (i - 1 <? w)%nat with true by (symmetry; apply Nat.ltb_lt; lia).
      replace (w <=? i)%nat with false by (symmetry; apply Nat.leb_gt; lia).
      replace (i <? w)%nat with true by (symmetry; apply Nat.ltb_lt; lia).
      replace (S (w - 1 - i)) with (w - 1 - (i - 1))%nat by lia.
      generalize (N.testbit c (N.of_nat (w - 1 - (i - 1)))), (N.testbit P (N.of_nat (w - 1 - i))).
      intros [] []; destruct f; reflexivity.
    + replace (w - 1 <? w)%nat with true by (symmetry; apply Nat.ltb_lt; lia).
      rewrite Nat.leb_refl, Nat.ltb_irrefl, Nat.sub_diag. cbn [Nat.eqb].
      replace (w - 1 - (w - 1))%nat with 0%nat by lia.
      unfold f. change (N.of_nat 0) with 0. rewrite ?Nat.sub_diag. cbn [Nat.eqb].
      generalize (N.testbit c 0). intros []; destruct b; reflexivity.
    + replace (i - 1 <? w)%nat with false by (symmetry; apply Nat.ltb_ge; lia).
      replace (w <=? i)%nat with true by (symmetry; apply Nat.leb_le; lia).
      replace (i <? w)%nat with false by (symmetry; apply Nat.ltb_ge; lia).
      replace (i - w =? 0)%nat with false by (symmetry; apply Nat.eqb_neq; lia).
      rewrite !andb_false_r. reflexivity.
Qed.

Lemma pmul_step q f g : pmul (2 * q + N.b2n f) g = N.lxor (N.shiftl (pmul q g) 1) (if f then g else 0).
Proof.
  destruct q as [|q], f; cbn [N.mul N.add N.b2n pmul pmul_pos Pos.add Pos.mul]; rewrite ?N.lxor_0_r; try reflexivity.
Qed.

Lemma lfeed_remainder w P G :
  (1 <= w)%nat -> P < 2 ^ N.of_nat w ->
  G = N.lxor (N.shiftl 1 (N.of_nat w)) (reflect w P) ->
  forall l c, c < 2 ^ N.of_nat w ->
  exists q, N.lxor (N.shiftl (reflect w c) (N.of_nat (length l))) (N.shiftl (poly_of_bits l) (N.of_nat w))
    = N.lxor (pmul q G) (reflect w (lfeed P c l)).
Proof.
  intros W HP HG l. induction l as [|b l IH] using rev_ind; intros c Hc.
  - exists 0. change (poly_of_bits []) with 0. change (pmul 0 G) with 0.
    rewrite N.shiftl_0_l, N.lxor_0_l, N.lxor_0_r. now rewrite N.shiftl_0_r.
  - destruct (IH c Hc) as [q Hq].
    set (c' := lfeed P c l) in *.
    assert (Hc' : c' < 2 ^ N.of_nat w). { apply lfeed_lt; [exact HP|lia|exact Hc]. }
    pose proof (reflect_step w P G c' b W Hc' HP HG) as S. cbv zeta in S.
    set (f := xorb (N.testbit c' 0) b) in *.
    exists (2 * q + N.b2n f).
    rewrite lfeed_app. fold c'. change (lfeed P c' [b]) with (lstep P c' b).
    rewrite pmul_step, N.lxor_assoc, <- S, app_length. cbn [length].
    unfold poly_of_bits. rewrite fold_left_app. cbn [fold_left]. fold (poly_of_bits l).
    assert (D : 2 * poly_of_bits l + N.b2n b = N.lxor (N.shiftl (poly_of_bits l) 1) (N.b2n b)).
    { apply N.bits_inj; intro k. rewrite N.lxor_spec. destruct (N.zero_or_succ k) as [->|[j ->]].
      - rewrite N.testbit_0_r, N.shiftl_spec_low by lia. now destruct b.
      - rewrite N.testbit_succ_r, N.shiftl_spec_high' by lia.
        replace (N.succ j - 1) with j by lia. destruct b; cbn [N.b2n].
        + replace (N.testbit 1 (N.succ j)) with false by (destruct j; reflexivity). now rewrite xorb_false_r.
        + now rewrite N.bits_0, xorb_false_r. }
    rewrite D, N.shiftl_lxor, <- N.lxor_assoc, <- N.lxor_assoc. f_equal.
    rewrite <- N.shiftl_lxor, <- Hq, N.shiftl_lxor, !N.shiftl_shiftl.
    f_equal; f_equal; lia.
Qed.

Lemma crc16_remainder_l init m : init < 2 ^ 16 -> bytes_ok m ->
  is_remainder 16 (N.lxor (N.shiftl (reflect 16 init) (N.of_nat (8 * length m)))
                          (N.shiftl (poly_of_bits (msg_bits m)) 16))
               GEN16 (reflect 16 (crc16 init m)).
Proof.
  intros Hi B. split; [apply reflect_lt|].
  rewrite crc16_feed by exact B. rewrite msg_bits_mbits, <- mbits_length.
  apply (lfeed_remainder 16 CRC16_POLYNOMIAL GEN16); [lia|apply P16|vm_compute; reflexivity|exact Hi].
Qed.

Lemma crc32_remainder_l init m : init < 2 ^ 32 ->
  is_remainder 32 (N.lxor (N.shiftl (reflect 32 (not32 init)) (N.of_nat (8 * length m)))
                          (N.shiftl (poly_of_bits (msg_bits m)) 32))
               GEN32 (reflect 32 (not32 (crc32 init m))).
Proof.
  intros Hi. split; [apply reflect_lt|].
  rewrite crc32_feed, not32_not32, msg_bits_mbits, <- mbits_length.
  apply (lfeed_remainder 32 CRC32_POLYNOMIAL GEN32); [lia|apply P32|vm_compute; reflexivity|now apply not32_lt].
Qed.

(** Remainders are unique, so the theorems above determine the checksum. *)
Lemma pmul_top w G : G < 2 ^ N.succ w -> N.testbit G w = true ->
  forall q, N.testbit (pmul_pos q G) (N.log2 (Npos q) + w) = true.
Proof.
  intros HG HT. induction q as [q IH|q IH|]; cbn [pmul_pos].
  - change (Npos q~1) with (2 * Npos q + 1). rewrite N.log2_succ_double by lia.
    rewrite N.lxor_spec, N.shiftl_spec_high' by lia.
    replace (N.succ (N.log2 (N.pos q)) + w - 1) with (N.log2 (Npos q) + w) by lia. rewrite IH.
    rewrite N.bits_above_log2; [reflexivity|]. assert (G <> 0) by (intros ->; now rewrite N.bits_0 in HT).
    apply N.log2_lt_pow2; [lia|]. eapply N.lt_le_trans; [exact HG|]. apply N.pow_le_mono_r; lia.
  - change (Npos q~0) with (2 * Npos q). rewrite N.log2_double by lia.
    rewrite N.shiftl_spec_high' by lia.
    replace (N.succ (N.log2 (N.pos q)) + w - 1) with (N.log2 (Npos q) + w) by lia. exact IH.
  - exact HT.
Qed.

Lemma pmul_xor q1 : forall q2 g, pmul (N.lxor q1 q2) g = N.lxor (pmul q1 g) (pmul q2 g).
Proof.
  assert (X : forall a b c d, N.lxor (2 * a + N.b2n b) (2 * c + N.b2n d) = 2 * N.lxor a c + N.b2n (xorb b d)).
  { intros a b c d. apply N.bits_inj; intro k. rewrite N.lxor_spec.
    destruct (N.zero_or_succ k) as [->|[j ->]].
    - now rewrite !N.testbit_0_r.
    - now rewrite !N.testbit_succ_r, N.lxor_spec. }
  assert (Y : forall q b, (forall q2 g, pmul (N.lxor q q2) g = N.lxor (pmul q g) (pmul q2 g)) ->
    forall q2 g, pmul (N.lxor (2 * q + N.b2n b) q2) g = N.lxor (pmul (2 * q + N.b2n b) g) (pmul q2 g)).
  { intros q b IH q2 g. destruct (N.exists_div2 q2) as (r & d & ->).
    rewrite X, !pmul_step, IH, N.shiftl_lxor. apply N.bits_inj; intro k. rewrite !N.lxor_spec.
    destruct b, d; cbn [xorb]; rewrite ?N.bits_0;
      destruct (N.testbit g k), (N.testbit (N.shiftl (pmul q g) 1) k), (N.testbit (N.shiftl (pmul r g) 1) k); reflexivity. }
  induction q1 as [|q1 IH|q1 IH] using N.binary_ind; intros q2 g.
  - reflexivity.
  - rewrite N.double_spec. replace (2 * q1) with (2 * q1 + N.b2n false) by (cbn; lia). now apply Y.
  - rewrite N.succ_double_spec. now apply (Y q1 true).
Qed.

Lemma remainder_unique_l w a g r1 r2 :
  g < 2 ^ N.succ (N.of_nat w) -> N.testbit g (N.of_nat w) = true ->
  is_remainder w a g r1 -> is_remainder w a g r2 -> r1 = r2.
Proof.
  intros HG HT [R1 [q1 E1]] [R2 [q2 E2]].
  assert (E : pmul (N.lxor q1 q2) g = N.lxor r1 r2).
  { rewrite pmul_xor. apply N.lxor_eq. rewrite E1 in E2.
    rewrite N.lxor_assoc. 
    transitivity (N.lxor (N.lxor (pmul q1 g) r1) (N.lxor (pmul q2 g) r2)).
    - apply N.bits_inj; intro k. rewrite !N.lxor_spec.
      destruct (N.testbit (pmul q1 g) k), (N.testbit (pmul q2 g) k), (N.testbit r1 k), (N.testbit r2 k); reflexivity.
    - rewrite E2. apply N.lxor_nilpotent. }
  assert (B : N.lxor r1 r2 < 2 ^ N.of_nat w) by now apply lxor_lt.
  destruct (N.lxor q1 q2) as [|q] eqn:Q.
  - cbn in E. symmetry in E. now apply N.lxor_eq.
  - exfalso. pose proof (pmul_top _ g HG HT q) as T. cbn [pmul] in E. rewrite E in T.
    rewrite N.bits_above_log2 in T; [discriminate|].
    assert (N.lxor r1 r2 <> 0) by (intros Z; rewrite Z, N.bits_0 in T; discriminate).
    apply N.lt_le_trans with (N.of_nat w); [apply N.log2_lt_pow2; lia|lia].
Qed.
