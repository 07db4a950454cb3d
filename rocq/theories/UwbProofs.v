From Coq Require Import ZArith List Bool Lia ZifyBool.
From Verif Require Import CBase Buf UwbModel UwbSpec.
Import ListNotations.
Local Open Scope Z_scope.

(** * Bits *)

Lemma hi_lo a : Z.lor (Z.shiftl (Z.shiftr a 8) 8) (Z.land a 255) = a.
Proof.
  apply Z.bits_inj'. intros n Hn. rewrite Z.lor_spec, Z.land_spec.
  change 255 with (Z.ones 8). destruct (Z.lt_ge_cases n 8).
  - rewrite Z.shiftl_spec_low by lia. rewrite Z.ones_spec_low by lia. now rewrite andb_true_r.
  - rewrite Z.shiftl_spec by lia. rewrite Z.shiftr_spec by lia. rewrite Z.ones_spec_high by lia.
    rewrite andb_false_r, orb_false_r. f_equal. lia.
Qed.

Lemma lor_shift_add r b : 0 <= b < 256 -> Z.lor (Z.shiftl r 8) b = r * 256 + b.
Proof.
  intro H. assert (L : Z.land (Z.shiftl r 8) b = 0).
  { apply Z.bits_inj'. intros n Hn. rewrite Z.land_spec, Z.bits_0. destruct (Z.lt_ge_cases n 8).
    - now rewrite Z.shiftl_spec_low.
    - rewrite (Z.testbit_eqb b) by lia. rewrite Z.div_small; [now rewrite andb_false_r|].
      split; [lia|]. apply Z.lt_le_trans with (2 ^ 8); [exact (proj2 H)|]. apply Z.pow_le_mono_r; lia. }
  rewrite <- Z.lxor_lor by exact L. rewrite <- Z.add_nocarry_lxor by exact L.
  rewrite Z.shiftl_mul_pow2 by lia. reflexivity.
Qed.

Lemma land255 x : Z.land x 255 = x mod 256.
Proof. change 255 with (Z.ones 8). rewrite Z.land_ones by lia. reflexivity. Qed.

Lemma mod_join x m : 0 < m -> (x / 256) mod m * 256 + x mod 256 = x mod (256 * m).
Proof. intro H. rewrite (Z.rem_mul_r x 256 m) by lia. lia. Qed.

Lemma div256 v k : 0 <= k -> Z.shiftr v (k + 8) = Z.shiftr v k / 256.
Proof. intro. rewrite <- Z.shiftr_shiftr by lia. now rewrite (Z.shiftr_div_pow2 _ 8) by lia. Qed.

Lemma value_bytes_40 v : value_40bit (bytes_40bit v) = v mod 2 ^ 40.
Proof.
  unfold value_40bit, bytes_40bit. cbn [fold_left].
  assert (R : forall x, 0 <= Z.land x 255 < 256) by (intro; rewrite land255; apply Z.mod_pos_bound; lia).
  rewrite Z.shiftl_0_l, Z.lor_0_l.
  rewrite !lor_shift_add by apply R. rewrite !land255. rewrite Z.shiftr_0_r.
  change (Z.shiftr v 32) with (Z.shiftr v (24 + 8)). rewrite div256, mod_join by lia.
  change (Z.shiftr v 24) with (Z.shiftr v (16 + 8)). rewrite div256, mod_join by lia.
  change (Z.shiftr v 16) with (Z.shiftr v (8 + 8)). rewrite div256, mod_join by lia.
  change (Z.shiftr v 8) with (Z.shiftr v (0 + 8)). rewrite div256, Z.shiftr_0_r, mod_join by lia.
  reflexivity.
Qed.

Lemma land_mask x : Z.land x MASK_40BIT = (x / 512) mod 2 ^ 31 * 512.
Proof.
  change MASK_40BIT with (Z.shiftl (Z.ones 31) 9).
  replace (Z.land x (Z.shiftl (Z.ones 31) 9)) with (Z.shiftl (Z.land (Z.shiftr x 9) (Z.ones 31)) 9).
  - rewrite Z.shiftl_mul_pow2, Z.land_ones, Z.shiftr_div_pow2 by lia. reflexivity.
  - apply Z.bits_inj'. intros n Hn. rewrite Z.land_spec. destruct (Z.lt_ge_cases n 9).
    + rewrite !Z.shiftl_spec_low by lia. now rewrite andb_false_r.
    + rewrite !Z.shiftl_spec by lia. rewrite Z.land_spec, Z.shiftr_spec by lia. do 2 f_equal. lia.
Qed.

Lemma mask_val x : 0 <= x -> Z.land x MASK_40BIT = (x - x mod 512) mod 2 ^ 40.
Proof.
  intro H. rewrite land_mask. replace (x - x mod 512) with (x / 512 * 512).
  - change (2 ^ 40) with (2 ^ 31 * 512). now rewrite Z.mul_mod_distr_r.
  - pose proof (Z.div_mod x 512 ltac:(lia)). lia.
Qed.

(** * Encapsulation *)

Lemma blen_header p s d q : blen (mac_header p s d q) = 9. Proof. reflexivity. Qed.

Lemma blen_skipn l n : 0 <= n <= blen l -> blen (skipn (Z.to_nat n) l) = blen l - n.
Proof. intro H. unfold blen in *. rewrite skipn_length. lia. Qed.
Lemma blen_firstn l n : 0 <= n <= blen l -> blen (firstn (Z.to_nat n) l) = n.
Proof. intro H. unfold blen in *. rewrite firstn_length. lia. Qed.
Lemma blen_length (l : list Z) n : blen l = Z.of_nat n -> length l = n.
Proof. unfold blen. lia. Qed.

Lemma encapsulate_spec pan src dst seq p rest : 11 <= blen rest -> blen (p ++ rest) < 2 ^ 32 ->
  encapsulate pan src dst seq (p ++ rest) (blen p)
  = Some (mac_header pan src dst seq ++ p ++ [0; 0] ++ skipn 11 rest, blen p + 11).
Proof.
  intros HR HL. rewrite blen_app in HL. pose proof (blen_nonneg p) as HP.
  destruct (split_at rest 9 ltac:(lia)) as (r1 & r2 & -> & L1).
  rewrite blen_app in HR, HL. destruct (split_at r2 2 ltac:(lia)) as (r3 & r4 & -> & L3).
  rewrite blen_app in HR, HL. pose proof (blen_nonneg r4) as H4.
  unfold encapsulate, bmove. change (p ++ r1 ++ r3 ++ r4) with ([] ++ p ++ (r1 ++ r3 ++ r4)) at 1.
  rewrite bslice_app by reflexivity. rewrite !blen_app. unfold MAC_HDR_LEN, MAC_CRC_LEN.
  replace ((0 <=? 9) && (9 + blen p <=? blen p + (blen r1 + (blen r3 + blen r4))))%bool with true by (symmetry; lia).
  assert (S1 : skipn (Z.to_nat (9 + blen p)) (p ++ r1 ++ r3 ++ r4) = r3 ++ r4).
  { rewrite (app_assoc p r1). replace (9 + blen p) with (blen (p ++ r1)) by (rewrite blen_app; lia). apply skipn_blen_app. }
  rewrite S1. set (o := firstn (Z.to_nat 9) (p ++ r1 ++ r3 ++ r4)).
  assert (LO : blen o = 9) by (apply blen_firstn; rewrite !blen_app; lia).
  change (o ++ p ++ r3 ++ r4) with ([] ++ o ++ (p ++ r3 ++ r4)).
  rewrite bset_all_app; [|reflexivity|now apply blen_length].
  cbn [app]. unfold u32. rewrite uN_id by lia.
  set (h := mac_header pan src dst seq).
  rewrite (app_assoc h p). rewrite bset_all_app; [|rewrite blen_app; unfold h; rewrite blen_header; lia|now apply blen_length].
  rewrite uN_id by lia. do 2 f_equal; [|lia].
  rewrite <- app_assoc. do 3 f_equal.
  rewrite app_assoc. change 11%nat with (Z.to_nat 11). replace 11 with (blen (r1 ++ r3)) by (rewrite blen_app; lia).
  now rewrite skipn_blen_app.
Qed.

Lemma encapsulate_ub pan src dst seq buf n : 0 <= n -> blen buf < n + 11 -> n + 11 < 2 ^ 32 ->
  encapsulate pan src dst seq buf n = None.
Proof.
  intros H0 H1 H2. unfold encapsulate, bmove, bslice, MAC_HDR_LEN, MAC_CRC_LEN.
  destruct ((0 <=? 0) && (0 <=? n) && (0 + n <=? blen buf))%bool eqn:E1; [|reflexivity].
  destruct ((0 <=? 9) && (9 + n <=? blen buf))%bool eqn:E2; [|reflexivity].
  match goal with |- context [bset_all ?b 0 _] => assert (LB : blen b = blen buf) end.
  { rewrite !blen_app. rewrite blen_firstn by lia. change (skipn (Z.to_nat 0) buf) with buf.
    rewrite (blen_firstn buf n) by lia. rewrite blen_skipn by lia. lia. }
  match goal with |- context [bset_all ?b 0 _] => set (B := b) in * end.
  destruct (split_at B 9 ltac:(lia)) as (b1 & b2 & EB & L1). rewrite EB.
  change (b1 ++ b2) with ([] ++ b1 ++ b2). rewrite bset_all_app; [|reflexivity|now apply blen_length].
  cbn [app]. unfold u32. rewrite uN_id by lia. set (C := mac_header pan src dst seq ++ b2).
  assert (LC : blen C = blen buf).
  { unfold C. rewrite blen_app, blen_header. rewrite EB, blen_app in LB. lia. }
  cbn [bset_all]. unfold bset at 1. destruct ((0 <=? n + 9) && (n + 9 <? blen C))%bool eqn:E3; [|reflexivity].
  set (D := firstn _ C ++ _). assert (LD : blen D = blen buf).
  { unfold D. rewrite blen_app, blen_cons, blen_firstn by lia.
    replace (S (Z.to_nat (n + 9))) with (Z.to_nat (n + 10)) by lia. rewrite blen_skipn; lia. }
  unfold bset. replace ((0 <=? n + 9 + 1) && (n + 9 + 1 <? blen D))%bool with false by (symmetry; lia). reflexivity.
Qed.

Lemma decapsulate_spec pan src dst seq p junk : blen (mac_header pan src dst seq ++ p ++ [0; 0] ++ junk) < 2 ^ 32 ->
  exists tail, blen tail = 11 + blen junk /\
  decapsulate (mac_header pan src dst seq ++ p ++ [0; 0] ++ junk) (blen p + 11)
  = Some {| d_pan := pan; d_src := src; d_dst := dst; d_seq := seq;
            d_frame := p ++ tail; d_size := blen p |}.
Proof.
  intro H. rewrite !blen_app, blen_header in H. cbn [blen] in H. change (blen [0; 0]) with 2 in H.
  pose proof (blen_nonneg p) as HP. pose proof (blen_nonneg junk) as HJ.
  set (R := p ++ [0; 0] ++ junk). exists ([0; 0] ++ skipn (Z.to_nat (blen p + 2)) (mac_header pan src dst seq ++ R)).
  split.
  - rewrite blen_app, blen_skipn; unfold R; rewrite !blen_app, blen_header; change (blen [0; 0]) with 2; lia.
  - unfold decapsulate. unfold get16, mac_header. cbn [app].
    change (bget (_ :: _ :: ?x :: _) 2) with (Some x).
    change (bget (_ :: _ :: _ :: ?x :: _) 3) with (Some x).
    change (bget (_ :: _ :: _ :: _ :: ?x :: _) 4) with (Some x).
    change (bget (_ :: _ :: _ :: _ :: _ :: ?x :: _) 5) with (Some x).
    change (bget (_ :: _ :: _ :: _ :: _ :: _ :: ?x :: _) 6) with (Some x).
    change (bget (_ :: _ :: _ :: _ :: _ :: _ :: _ :: ?x :: _) 7) with (Some x).
    change (bget (_ :: _ :: _ :: _ :: _ :: _ :: _ :: _ :: ?x :: _) 8) with (Some x).
    cbv beta iota. rewrite !hi_lo.
    match goal with |- context [bmove ?b _ _ _] => change b with (mac_header pan src dst seq ++ R) end.
    unfold bmove, MAC_HDR_LEN, MAC_CRC_LEN, u32. rewrite !uN_id by lia.
    unfold R at 1. rewrite (app_assoc p). rewrite bslice_app;
      [|reflexivity|rewrite blen_app; change (blen [0; 0]) with 2; lia].
    replace ((0 <=? 0) && (0 + (blen p + 11 - 9) <=? blen (mac_header pan src dst seq ++ R)))%bool with true
      by (symmetry; unfold R; rewrite !blen_app, blen_header; change (blen [0; 0]) with 2; lia).
    cbn [Z.to_nat firstn app]. rewrite <- app_assoc. do 2 f_equal; [|lia].
    replace (0 + (blen p + 11 - 9)) with (blen p + 2) by lia. reflexivity.
Qed.

(** * Reading and writing timestamps *)

Lemma write40 v a o b off : off = blen a -> blen o = 5 ->
  write_40bit_int v (a ++ o ++ b) off = Some (a ++ bytes_40bit v ++ b).
Proof. intros E L. unfold write_40bit_int. apply bset_all_app; [exact E|]. now apply blen_length. Qed.
Lemma read40 v a b off : off = blen a -> read_40bit_int (a ++ bytes_40bit v ++ b) off = Some (v mod 2 ^ 40).
Proof. intro E. unfold read_40bit_int. rewrite bslice_app; [|exact E|reflexivity]. cbn [option_map]. now rewrite value_bytes_40. Qed.

Lemma write_read_40_l v frame off : 0 <= off -> off + 5 <= blen frame ->
  exists frame', write_40bit_int v frame off = Some frame' /\ blen frame' = blen frame /\
    read_40bit_int frame' off = Some (v mod 2 ^ 40) /\
    (forall i, i < off \/ off + 5 <= i -> bget frame' i = bget frame i).
Proof.
  intros H0 H1. destruct (split_at frame off ltac:(lia)) as (a & r & -> & La). rewrite blen_app in H1.
  destruct (split_at r 5 ltac:(lia)) as (o & b & -> & Lo). rewrite blen_app in H1.
  exists (a ++ bytes_40bit v ++ b). rewrite write40 by lia. split; [reflexivity|].
  split; [rewrite !blen_app, Lo; reflexivity|]. split; [apply read40; lia|].
  intros i Hi. unfold bget. destruct (Z.leb_spec 0 i); [|reflexivity].
  destruct Hi as [Hi|Hi].
  - rewrite !nth_error_app1 by (unfold blen in La; lia). reflexivity.
  - rewrite !(nth_error_app2 a) by (unfold blen in La; lia).
    rewrite (nth_error_app2 (bytes_40bit v)), (nth_error_app2 o) by (unfold blen in *; cbn; lia).
    f_equal. cbn [length bytes_40bit]. unfold blen in Lo. lia.
Qed.

Lemma substract_nowrap_l a b : 0 <= b <= a -> a < 2 ^ 40 -> substract_40bit_int a b = a - b.
Proof.
  intros H1 H2. unfold substract_40bit_int. destruct (Z.ltb_spec a b); [lia|]. unfold u64. apply uN_id. lia.
Qed.
Lemma substract_wrap_l a b : 0 <= a < b -> b < 2 ^ 40 -> substract_40bit_int a b = (a - b) mod 2 ^ 40 - 1.
Proof.
  intros H1 H2. unfold substract_40bit_int. destruct (Z.ltb_spec a b); [|lia]. unfold u64, uN.
  rewrite Zplus_mod_idemp_l. replace ((a - b) mod 2 ^ 40) with (a - b + 2 ^ 40).
  - rewrite Z.mod_small; lia.
  - rewrite <- (Z_mod_plus_full (a - b) 1). rewrite Z.mod_small; lia.
Qed.

Lemma sub_clock o t x : 0 <= x < 2 ^ 40 -> exists e,
  substract_40bit_int (clock o (t + x)) (clock o t) = x - e /\ (e = 0 \/ e = 1) /\
  (e = 1 <-> 2 ^ 40 <= clock o t + x).
Proof.
  intro H. unfold clock. replace (t + x + o) with (t + o + x) by lia.
  assert (E : (t + o + x) mod 2 ^ 40 = ((t + o) mod 2 ^ 40 + x) mod 2 ^ 40) by now rewrite Zplus_mod_idemp_l.
  rewrite E. set (c := (t + o) mod 2 ^ 40). assert (C : 0 <= c < 2 ^ 40) by (apply Z.mod_pos_bound; lia).
  clearbody c. destruct (Z.lt_ge_cases (c + x) (2 ^ 40)) as [L|L].
  - exists 0. rewrite Z.mod_small by lia. rewrite substract_nowrap_l by lia. split; [lia|]. split; [auto|lia].
  - exists 1. assert (M : (c + x) mod 2 ^ 40 = c + x - 2 ^ 40).
    { rewrite <- (Z_mod_plus_full (c + x) (-1)). rewrite Z.mod_small; lia. }
    rewrite M. rewrite substract_wrap_l by lia. split; [|split; [auto|lia]].
    replace (c + x - 2 ^ 40 - c) with (x + (-1) * 2 ^ 40) by lia. rewrite Z_mod_plus_full, Z.mod_small; lia.
Qed.

(** * Ranging *)

Lemma reply_time o t : let ts := Z.land (u64 (clock o t + UWB_DELAY)) MASK_40BIT in
  exists w, 0 < w <= UWB_DELAY /\ UWB_DELAY - 512 < w /\ tx_time o t ts = t + w /\ ts = clock o (t + w) /\ 0 <= ts < 2 ^ 40.
Proof.
  intro ts. unfold ts. clear ts. assert (C : 0 <= clock o t < 2 ^ 40) by (apply Z.mod_pos_bound; lia).
  set (c := clock o t) in *. exists (UWB_DELAY - (c + UWB_DELAY) mod 512).
  assert (M : 0 <= (c + UWB_DELAY) mod 512 < 512) by (apply Z.mod_pos_bound; lia).
  unfold u64. rewrite uN_id by (unfold UWB_DELAY; lia). rewrite mask_val by (unfold UWB_DELAY; lia).
  set (r := (c + UWB_DELAY) mod 512) in *. unfold UWB_DELAY in *.
  assert (D : ((c + 800 * 65536 - r) mod 2 ^ 40 - c) mod 2 ^ 40 = 800 * 65536 - r).
  { rewrite Zminus_mod_idemp_l. rewrite Z.mod_small; lia. }
  split; [lia|]. split; [lia|]. split; [|split].
  - unfold tx_time. fold c. rewrite D. reflexivity.
  - unfold clock. unfold c, clock. replace (t + (800 * 65536 - r) + o) with (t + o + (800 * 65536 - r)) by lia.
    rewrite <- (Zplus_mod_idemp_l (t + o)). f_equal. lia.
  - apply Z.mod_pos_bound; lia.
Qed.

Lemma clock_range o t : 0 <= clock o t < 2 ^ 40.
Proof. apply Z.mod_pos_bound; lia. Qed.

(** The formula. [e]s are the off-by-one errors of the differences which wrapped. *)
Lemma formula_l d P0 P1 r0 r1 p0 p1 :
  1 <= d < 2 ^ 30 -> 2 ^ 25 <= P0 <= 2 ^ 26 -> 2 ^ 25 <= P1 <= 2 ^ 26 ->
  (r0 = 0 \/ r0 = 1) -> (r1 = 0 \/ r1 = 1) -> (p0 = 0 \/ p0 = 1) -> (p1 = 0 \/ p1 = 1) ->
  r0 + p1 <= 1 -> r1 + p0 <= 1 ->
  let tr0 := P0 + 2 * d - r0 in let tr1 := P1 + 2 * d - r1 in let tp0 := P0 - p0 in let tp1 := P1 - p1 in
  let num := u64 (u64 (tr0 * tr1) - u64 (tp0 * tp1)) in
  let den := u64 (tr0 + tr1 + tp0 + tp1) in
  den <> 0 /\ d - 1 <= num / den <= d /\ (r0 + r1 + p0 + p1 = 0 -> num / den = d).
Proof.
  intros Hd HP0 HP1 R0 R1 E0 E1 A B tr0 tr1 tp0 tp1 num den.
  assert (F1 : 0 <= tr0 * tr1 < 2 ^ 64) by (split; [apply Z.mul_nonneg_nonneg; unfold tr0, tr1; lia|apply Z.le_lt_trans with ((2 ^ 32 - 1) * (2 ^ 32 - 1)); [apply Z.mul_le_mono_nonneg; unfold tr0, tr1; lia|lia]]).
  assert (F2 : 0 <= tp0 * tp1 < 2 ^ 64) by (split; [apply Z.mul_nonneg_nonneg; unfold tp0, tp1; lia|apply Z.le_lt_trans with ((2 ^ 32 - 1) * (2 ^ 32 - 1)); [apply Z.mul_le_mono_nonneg; unfold tp0, tp1; lia|lia]]).
  assert (F3 : den = tr0 + tr1 + tp0 + tp1) by (unfold den, u64; apply uN_id; unfold tr0, tr1, tp0, tp1; lia).
  assert (F4 : tr0 * tr1 - tp0 * tp1 = d * (2 * P0 + 2 * P1 + 4 * d) - r0 * (P1 + 2 * d) - r1 * (P0 + 2 * d) + r0 * r1
               + p0 * P1 + p1 * P0 - p0 * p1) by (unfold tr0, tr1, tp0, tp1; ring).
  assert (F5 : den = 2 * P0 + 2 * P1 + 4 * d - r0 - r1 - p0 - p1) by (rewrite F3; unfold tr0, tr1, tp0, tp1; lia).
  assert (G : (d - 1) * den <= tr0 * tr1 - tp0 * tp1 < (d + 1) * den).
  { rewrite F4, F5. clear F1 F2 F3 F4 F5. clearbody den.
    destruct R0 as [->| ->], R1 as [->| ->], E0 as [->| ->], E1 as [->| ->]; lia. }
  assert (N : num = tr0 * tr1 - tp0 * tp1).
  { unfold num, u64. rewrite (uN_id 64 (tr0 * tr1)), (uN_id 64 (tp0 * tp1)) by lia. apply uN_id. pose proof (Z.mul_nonneg_nonneg (d - 1) den ltac:(lia) ltac:(lia)). lia. }
  assert (DP : 0 < den) by lia. split; [lia|]. rewrite N. split.
  - split; [apply Z.div_le_lower_bound; lia|].
    assert ((tr0 * tr1 - tp0 * tp1) / den < d + 1) by (apply Z.div_lt_upper_bound; lia). lia.
  - intro Z0. assert (Z1 : r0 = 0 /\ r1 = 0 /\ p0 = 0 /\ p1 = 0) by lia. destruct Z1 as (-> & -> & -> & ->).
    rewrite F4, F5. replace (d * (2 * P0 + 2 * P1 + 4 * d) - 0 * (P1 + 2 * d) - 0 * (P0 + 2 * d) + 0 * 0 + 0 * P1 + 0 * P0 - 0 * 0)
      with (d * (2 * P0 + 2 * P1 + 4 * d)) by ring.
    replace (2 * P0 + 2 * P1 + 4 * d - 0 - 0 - 0 - 0) with (2 * P0 + 2 * P1 + 4 * d) by ring.
    apply Z.div_mul. lia.
Qed.

Lemma formula_zero_wrapless P0 P1 : 2 ^ 25 <= P0 <= 2 ^ 26 -> 2 ^ 25 <= P1 <= 2 ^ 26 ->
  u64 (u64 (P0 * P1) - u64 (P0 * P1)) / u64 (P0 + P1 + P0 + P1) = 0 /\ u64 (P0 + P1 + P0 + P1) <> 0.
Proof.
  intros H0 H1. rewrite Z.sub_diag. unfold u64 at 1. change (uN 64 0) with 0. split; [apply Z.div_0_l|];
  unfold u64; rewrite uN_id; lia.
Qed.

Lemma transmit_spec ts f g n : n = blen f -> transmit ts (f ++ g) n = Some [Transmit ts f].
Proof. intros ->. unfold transmit. change (f ++ g) with ([] ++ f ++ g). now rewrite bslice_app. Qed.

(** Answering a frame with [k] timestamp bytes already in it. *)
Lemma answer_spec h pan src seq p tail rx : blen (p ++ tail) < 2 ^ 31 -> 21 <= blen tail ->
  answer h pan src seq (p ++ tail) (blen p) (blen p) rx =
  let ts := Z.land (u64 (rx + UWB_DELAY)) MASK_40BIT in
  Some [Transmit ts (mac_header pan (address h) src seq ++ (p ++ bytes_40bit rx ++ bytes_40bit ts) ++ [0; 0])].
Proof.
  intros H HT. rewrite blen_app in H. pose proof (blen_nonneg p).
  destruct (split_at tail 5 ltac:(lia)) as (o1 & t1 & -> & L1). rewrite blen_app in H, HT.
  destruct (split_at t1 5 ltac:(lia)) as (o2 & t2 & -> & L2). rewrite blen_app in H, HT.
  unfold answer. rewrite write40 by lia. cbn [bind].
  set (ts := Z.land (u64 (rx + UWB_DELAY)) MASK_40BIT).
  rewrite (app_assoc p). rewrite write40 by (rewrite ?blen_app; change (blen (bytes_40bit rx)) with 5; lia). cbn [bind].
  rewrite <- app_assoc. rewrite (app_assoc (bytes_40bit rx)). rewrite (app_assoc p).
  set (q := p ++ bytes_40bit rx ++ bytes_40bit ts).
  assert (LQ : blen q = blen p + 10) by (unfold q; rewrite !blen_app; reflexivity).
  replace (u32 (blen p + 10)) with (blen q) by (unfold u32; rewrite uN_id; lia).
  rewrite encapsulate_spec by (rewrite ?blen_app; lia). cbn [bind]. cbv zeta.
  set (F := mac_header pan (address h) src seq). rewrite (app_assoc q). rewrite (app_assoc F).
  rewrite transmit_spec; [reflexivity|]. rewrite !blen_app. unfold F. rewrite blen_header. change (blen [0; 0]) with 2. lia.
Qed.

Definition frame_of (pan src dst seq : Z) (p : list Z) : list Z := mac_header pan src dst seq ++ p ++ [0; 0].

Lemma process_spec h pan src dst seq p junk rx now :
  blen (frame_of pan src dst seq p ++ junk) < 2 ^ 31 -> 
  exists tail, blen tail = 11 + blen junk /\
  process_incoming_frame h (frame_of pan src dst seq p ++ junk) (blen (frame_of pan src dst seq p)) rx now =
  (if negb (pan =? pan_id h) then Some []
   else if negb (dst =? address h) && negb (dst =? BROADCAST_ADDR) then Some []
   else if seq =? SEQ_ADVERTISEMENT then
     if negb (is_anchor h) then answer h pan src SEQ_REPLY (p ++ tail) (blen p) 5 rx else Some []
   else if seq =? SEQ_REPLY then answer h pan src SEQ_FINALIZATION (p ++ tail) (blen p) 15 rx
   else if seq =? SEQ_FINALIZATION then finalization h src (p ++ tail) rx
   else if seq =? SEQ_ANCHOR_POSITION then
     do x <- bslice (p ++ tail) 0 4; do y <- bslice (p ++ tail) 4 4; do z <- bslice (p ++ tail) 8 4;
     if has_anchor_cb h then Some [AnchorPosition src x y z] else None
   else if seq =? SEQ_TAG_POSITION then
     do x <- bslice (p ++ tail) 0 4; do y <- bslice (p ++ tail) 4 4;
     if has_tag_cb h then Some [TagPosition src x y] else None
   else if seq =? SEQ_INITIATE_MEASUREMENT then send_advertisement h now (p ++ tail)
   else if seq =? SEQ_USER_DATA then
     if has_data_cb h then Some [UserData (p ++ tail) (blen p) src dst] else Some []
   else Some []).
Proof.
  intro H. unfold frame_of in *. rewrite <- !app_assoc in *.
  destruct (decapsulate_spec pan src dst seq p junk ltac:(lia)) as (tail & LT & E). exists tail. split; [exact LT|].
  assert (LF : blen (mac_header pan src dst seq ++ p ++ [0; 0]) = blen p + 11).
  { rewrite !blen_app, blen_header. change (blen [0; 0]) with 2. lia. }
  rewrite LF. unfold process_incoming_frame. rewrite E. reflexivity.
Qed.

(** ** The complete exchange *)

Lemma advertisement_spec h o t buffer : 16 <= blen buffer -> blen buffer < 2 ^ 31 ->
  let ts := Z.land (u64 (clock o t + UWB_DELAY)) MASK_40BIT in
  send_advertisement h (clock o t) buffer =
  Some [Transmit ts (frame_of (pan_id h) (address h) BROADCAST_ADDR SEQ_ADVERTISEMENT (bytes_40bit ts))].
Proof.
  intros HB HL ts. unfold send_advertisement, prepare_advertisement. fold ts.
  destruct (split_at buffer 5 ltac:(lia)) as (o1 & t1 & -> & L1). rewrite blen_app in HB, HL.
  change (o1 ++ t1) with ([] ++ o1 ++ t1). rewrite write40 by (try reflexivity; lia). cbn [bind app].
  change 5 with (blen (bytes_40bit ts)) at 1.
  rewrite encapsulate_spec by (rewrite ?blen_app; change (blen (bytes_40bit ts)) with 5; lia). cbn [bind].
  unfold frame_of. rewrite (app_assoc (bytes_40bit ts)), (app_assoc (mac_header _ _ _ _)). apply transmit_spec.
  rewrite !blen_app. reflexivity.
Qed.

Lemma clock_mod o t : clock o t mod 2 ^ 40 = clock o t.
Proof. apply Z.mod_small, clock_range. Qed.

Lemma bytes40_app_read a1 a2 a3 a4 a5 tail (L := bytes_40bit a1 ++ bytes_40bit a2 ++ bytes_40bit a3 ++ bytes_40bit a4 ++ bytes_40bit a5 ++ tail) :
  read_40bit_int L 0 = Some (a1 mod 2 ^ 40) /\ read_40bit_int L 5 = Some (a2 mod 2 ^ 40) /\
  read_40bit_int L 10 = Some (a3 mod 2 ^ 40) /\ read_40bit_int L 15 = Some (a4 mod 2 ^ 40) /\
  read_40bit_int L 20 = Some (a5 mod 2 ^ 40).
Proof.
  unfold L. repeat split.
  - change (bytes_40bit a1 ++ ?x) with ([] ++ bytes_40bit a1 ++ x). now apply read40.
  - now apply read40.
  - rewrite (app_assoc (bytes_40bit a1)). now apply read40.
  - rewrite (app_assoc (bytes_40bit a1)), (app_assoc (_ ++ _)). now apply read40.
  - rewrite (app_assoc (bytes_40bit a1)), (app_assoc (_ ++ _)), (app_assoc (_ ++ _)). now apply read40.
Qed.

Lemma ranging_l hA hB oA oB t0 d buffer j1 j2 j3 nB nA nB' :
  pan_id hA = pan_id hB -> is_anchor hA = true -> is_anchor hB = false -> has_ranging_cb hB = true ->
  1 <= d < 2 ^ 30 ->
  16 <= blen buffer < 2 ^ 30 -> 10 <= blen j1 < 2 ^ 30 -> 10 <= blen j2 < 2 ^ 30 -> blen j3 < 2 ^ 30 ->
  exists ts1 f1 ts2 f2 ts3 f3 tof,
    send_advertisement hA (clock oA t0) buffer = Some [Transmit ts1 f1] /\
    let T1 := tx_time oA t0 ts1 in
    process_incoming_frame hB (f1 ++ j1) (blen f1) (clock oB (T1 + d)) nB = Some [Transmit ts2 f2] /\
    let T2 := tx_time oB (T1 + d) ts2 in
    process_incoming_frame hA (f2 ++ j2) (blen f2) (clock oA (T2 + d)) nA = Some [Transmit ts3 f3] /\
    let T3 := tx_time oA (T2 + d) ts3 in
    process_incoming_frame hB (f3 ++ j3) (blen f3) (clock oB (T3 + d)) nB' = Some [RangingFound (address hA) tof] /\
    d - 1 <= tof <= d /\
    (clock oA T1 + (T3 - T1) < 2 ^ 40 -> clock oB (T1 + d) + (T3 - T1) < 2 ^ 40 -> tof = d).
Proof.
  intros EP HA HB HC Hd LB L1 L2 L3.
  destruct (reply_time oA t0) as (w0 & W0 & W0' & X0 & C0 & R0).
  set (ts1 := Z.land (u64 (clock oA t0 + UWB_DELAY)) MASK_40BIT) in *.
  set (T1 := t0 + w0) in *. 
  destruct (reply_time oB (T1 + d)) as (w1 & W1 & W1' & X1 & C1 & R1).
  set (ts2 := Z.land (u64 (clock oB (T1 + d) + UWB_DELAY)) MASK_40BIT) in *.
  set (T2 := T1 + d + w1) in *.
  destruct (reply_time oA (T2 + d)) as (w2 & W2 & W2' & X2 & C2 & R2).
  set (ts3 := Z.land (u64 (clock oA (T2 + d) + UWB_DELAY)) MASK_40BIT) in *.
  set (T3 := T2 + d + w2) in *.
  set (b1 := bytes_40bit ts1). set (f1 := frame_of (pan_id hA) (address hA) BROADCAST_ADDR SEQ_ADVERTISEMENT b1).
  set (b2 := b1 ++ bytes_40bit (clock oB (T1 + d)) ++ bytes_40bit ts2).
  set (f2 := frame_of (pan_id hA) (address hB) (address hA) SEQ_REPLY b2).
  set (b3 := b2 ++ bytes_40bit (clock oA (T2 + d)) ++ bytes_40bit ts3).
  set (f3 := frame_of (pan_id hA) (address hA) (address hB) SEQ_FINALIZATION b3).
  assert (K : exists tof, propagation_time ts1 (clock oB (T1 + d)) ts2 (clock oA (T2 + d)) ts3 (clock oB (T3 + d)) = Some tof /\
     d - 1 <= tof <= d /\ (clock oA T1 + (T3 - T1) < 2 ^ 40 -> clock oB (T1 + d) + (T3 - T1) < 2 ^ 40 -> tof = d)).
  { unfold propagation_time. rewrite C0, C1, C2.
    unfold UWB_DELAY in *.
    destruct (sub_clock oA T1 (w1 + 2 * d) ltac:(lia)) as (r0 & S0 & Er0 & Ir0).
    destruct (sub_clock oB T2 (w2 + 2 * d) ltac:(lia)) as (r1 & S1 & Er1 & Ir1).
    destruct (sub_clock oB (T1 + d) w1 ltac:(lia)) as (p0 & S2 & Ep0 & Ip0).
    destruct (sub_clock oA (T2 + d) w2 ltac:(lia)) as (p1 & S3 & Ep1 & Ip1).
    replace (T1 + (w1 + 2 * d)) with (T2 + d) in S0 by (unfold T2; lia).
    replace (T2 + (w2 + 2 * d)) with (T3 + d) in S1 by (unfold T3; lia).
    change (T1 + d + w1) with T2 in S2. change (T2 + d + w2) with T3 in S3.
    rewrite S0, S1, S2, S3.
    (* the clocks wrap at most once *)
    assert (WA : r0 + p1 <= 1 /\ (clock oA T1 + (T3 - T1) < 2 ^ 40 -> r0 + p1 = 0)).
    { assert (E : clock oA (T2 + d) = clock oA T1 + (w1 + 2 * d) - 2 ^ 40 * r0).
      { destruct Er0 as [->| ->].
        - assert (~ 2 ^ 40 <= clock oA T1 + (w1 + 2 * d)) by (intro X; apply Ir0 in X; lia).
          pose proof (clock_range oA T1). unfold clock in *. replace (T2 + d + oA) with (T1 + oA + (w1 + 2 * d)) by (unfold T2; lia).
          rewrite <- (Zplus_mod_idemp_l (T1 + oA)). rewrite Z.mod_small; lia.
        - pose proof (proj1 Ir0 eq_refl). pose proof (clock_range oA T1). unfold clock in *.
          replace (T2 + d + oA) with (T1 + oA + (w1 + 2 * d)) by (unfold T2; lia).
          rewrite <- (Zplus_mod_idemp_l (T1 + oA)). 
          rewrite <- (Z_mod_plus_full _ (-1)). rewrite Z.mod_small; lia. }
      pose proof (clock_range oA T1). unfold T3, T2 in *. destruct Er0 as [->| ->], Ep1 as [->| ->]; try lia. }
    assert (WB : r1 + p0 <= 1 /\ (clock oB (T1 + d) + (T3 - T1) < 2 ^ 40 -> r1 + p0 = 0)).
    { assert (E : clock oB T2 = clock oB (T1 + d) + w1 - 2 ^ 40 * p0).
      { destruct Ep0 as [->| ->].
        - assert (~ 2 ^ 40 <= clock oB (T1 + d) + w1) by (intro X; apply Ip0 in X; lia).
          pose proof (clock_range oB (T1 + d)). unfold clock in *. replace (T2 + oB) with (T1 + d + oB + w1) by (unfold T2; lia).
          rewrite <- (Zplus_mod_idemp_l (T1 + d + oB)). rewrite Z.mod_small; lia.
        - pose proof (proj1 Ip0 eq_refl). pose proof (clock_range oB (T1 + d)). unfold clock in *.
          replace (T2 + oB) with (T1 + d + oB + w1) by (unfold T2; lia).
          rewrite <- (Zplus_mod_idemp_l (T1 + d + oB)). 
          rewrite <- (Z_mod_plus_full _ (-1)). rewrite Z.mod_small; lia. }
      pose proof (clock_range oB (T1 + d)). unfold T3, T2 in *. destruct Er1 as [->| ->], Ep0 as [->| ->]; try lia. }
    assert (A1 : 2 ^ 25 <= w1 <= 2 ^ 26) by (clear - W1 W1'; lia).
    assert (A2 : 2 ^ 25 <= w2 <= 2 ^ 26) by (clear - W2 W2'; lia).
    destruct (formula_l d w1 w2 r0 r1 p0 p1 Hd A1 A2 Er0 Er1 Ep0 Ep1 (proj1 WA) (proj1 WB)) as (N0 & N1 & N2).
    cbv zeta in *. 
    match goal with |- exists tof, (if ?c then _ else _) = _ /\ _ => destruct c eqn:EZ; [apply Z.eqb_eq in EZ; contradiction|] end.
    eexists. split; [reflexivity|]. split; [exact N1|]. intros Q1 Q2. apply N2. destruct WA as [_ WA], WB as [_ WB]. specialize (WA Q1). specialize (WB Q2). clear - WA WB. lia. }
  destruct K as (tof & KP & KD & KE).
  assert (BL1 : blen f1 = 16) by reflexivity.
  assert (BL2 : blen f2 = 26) by reflexivity.
  assert (BL3 : blen f3 = 36) by reflexivity.
  exists ts1, f1, ts2, f2, ts3, f3, tof. split; [|cbv zeta; rewrite X0; split; [|rewrite X1; split; [|rewrite X2; split; [|split; [exact KD|exact KE]]]]].
  - apply advertisement_spec; lia.
  - destruct (process_spec hB (pan_id hA) (address hA) BROADCAST_ADDR SEQ_ADVERTISEMENT b1 j1 (clock oB (T1 + d)) nB) as (tail & LT & E).
    { fold f1. rewrite blen_app. lia. }
    unfold f1. rewrite E. rewrite EP, Z.eqb_refl. cbn [negb]. rewrite Z.eqb_refl. rewrite andb_false_r.
    rewrite Z.eqb_refl, HB. cbn [negb]. change 5 with (blen b1). rewrite answer_spec.
    + cbv zeta. fold ts2. unfold f2, frame_of. rewrite EP. reflexivity.
    + rewrite blen_app. change (blen b1) with 5. lia.
    + lia.
  - destruct (process_spec hA (pan_id hA) (address hB) (address hA) SEQ_REPLY b2 j2 (clock oA (T2 + d)) nA) as (tail & LT & E).
    { fold f2. rewrite blen_app. lia. }
    unfold f2. rewrite E. rewrite !Z.eqb_refl. cbn [negb andb]. change (SEQ_REPLY =? SEQ_ADVERTISEMENT) with false. cbv iota.
    change 15 with (blen b2). rewrite answer_spec.
    + reflexivity.
    + rewrite blen_app. change (blen b2) with 15. lia.
    + lia.
  - destruct (process_spec hB (pan_id hA) (address hA) (address hB) SEQ_FINALIZATION b3 j3 (clock oB (T3 + d)) nB') as (tail & LT & E).
    { fold f3. rewrite blen_app. lia. }
    unfold f3. rewrite E. rewrite EP, !Z.eqb_refl. cbn [negb andb].
    change (SEQ_FINALIZATION =? SEQ_ADVERTISEMENT) with false. change (SEQ_FINALIZATION =? SEQ_REPLY) with false. cbv iota.
    unfold finalization, b3, b2, b1. rewrite <- !app_assoc.
    destruct (bytes40_app_read ts1 (clock oB (T1 + d)) ts2 (clock oA (T2 + d)) ts3 tail) as (V1 & V2 & V3 & V4 & V5).
    rewrite V1, V2, V3, V4, V5. cbn [bind]. rewrite !clock_mod.
    rewrite (Z.mod_small ts1), (Z.mod_small ts2), (Z.mod_small ts3) by assumption.
    rewrite KP. cbn [bind]. rewrite HC. reflexivity.
Qed.

(** * Filtering *)

Lemma filter_l h pan src dst seq p junk rx now :
  blen (frame_of pan src dst seq p ++ junk) < 2 ^ 31 ->
  pan <> pan_id h \/ (dst <> address h /\ dst <> BROADCAST_ADDR) ->
  process_incoming_frame h (frame_of pan src dst seq p ++ junk) (blen (frame_of pan src dst seq p)) rx now = Some [].
Proof.
  intros H C. destruct (process_spec h pan src dst seq p junk rx now H) as (tail & _ & ->).
  destruct (Z.eqb_spec pan (pan_id h)) as [E|E]; cbn [negb]; [|reflexivity].
  destruct C as [C|[C1 C2]]; [contradiction|].
  apply Z.eqb_neq in C1, C2. now rewrite C1, C2.
Qed.

(** For arbitrary received bytes, using the addresses as decoded. *)
Lemma filter_raw_l h frame n rx now d : decapsulate frame n = Some d ->
  d_pan d <> pan_id h \/ (d_dst d <> address h /\ d_dst d <> BROADCAST_ADDR) ->
  process_incoming_frame h frame n rx now = Some [].
Proof.
  intros E C. unfold process_incoming_frame. rewrite E. cbn [bind].
  destruct (Z.eqb_spec (d_pan d) (pan_id h)) as [EP|EP]; cbn [negb]; [|reflexivity].
  destruct C as [C|[C1 C2]]; [contradiction|].
  apply Z.eqb_neq in C1, C2. now rewrite C1, C2.
Qed.

Lemma anchor_silent_l h frame n rx now d : decapsulate frame n = Some d ->
  is_anchor h = true -> d_seq d = SEQ_ADVERTISEMENT ->
  process_incoming_frame h frame n rx now = Some [].
Proof.
  intros E A S. unfold process_incoming_frame. rewrite E. cbn [bind].
  destruct (negb (d_pan d =? pan_id h)); [reflexivity|].
  destruct (negb (d_dst d =? address h) && negb (d_dst d =? BROADCAST_ADDR))%bool; [reflexivity|].
  rewrite S, Z.eqb_refl, A. reflexivity.
Qed.

(** The header fields of arbitrary received bytes. *)
Lemma decode_fields_l frame n d : bytes_ok frame -> decapsulate frame n = Some d ->
  exists c0 c1 q p0 p1 d0 d1 s0 s1 rest, frame = c0 :: c1 :: q :: p0 :: p1 :: d0 :: d1 :: s0 :: s1 :: rest /\
  d_seq d = q /\ d_pan d = p1 * 256 + p0 /\ d_dst d = d1 * 256 + d0 /\ d_src d = s1 * 256 + s0.
Proof.
  intros B E. unfold decapsulate, get16 in E.
  destruct frame as [|c0 [|c1 [|q [|p0 [|p1 [|d0 [|d1 [|s0 [|s1 rest]]]]]]]]]; try discriminate E.
  exists c0, c1, q, p0, p1, d0, d1, s0, s1, rest. split; [reflexivity|].
  cbv [bget Z.leb Z.compare Z.to_nat Pos.to_nat Pos.iter_op Nat.add nth_error] in E.
  match type of E with context [bmove ?a ?b ?c ?d] => destruct (bmove a b c d) as [f|]; [|discriminate] end.
  match type of E with Some ?x = Some d => assert (ED : d = x) by congruence; subst d; clear E end. cbn [d_seq d_pan d_dst d_src].
  repeat match goal with H : bytes_ok (_ :: _) |- _ => inversion H; clear H; subst end.
  repeat match goal with H : Forall byte_ok (_ :: _) |- _ => inversion H; clear H; subst end.
  unfold byte_ok in *. rewrite !lor_shift_add by assumption. auto.
Qed.

(** * Messages reach the peer's callback *)

Lemma data_delivery_l hA hB dst msg buffer junk rx now :
  pan_id hA = pan_id hB -> has_data_cb hB = true -> dst = address hB \/ dst = BROADCAST_ADDR ->
  blen msg + 11 <= blen buffer -> blen buffer < 2 ^ 30 -> blen junk < 2 ^ 30 ->
  exists f tail, send_data_packet hA dst msg buffer = Some [Transmit TX_IMMEDIATE f] /\ blen f = blen msg + 11 /\
    process_incoming_frame hB (f ++ junk) (blen f) rx now = Some [UserData (msg ++ tail) (blen msg) (address hA) dst].
Proof.
  intros EP HC HD LB LB2 LJ. pose proof (blen_nonneg msg).
  destruct (split_at buffer (blen msg) ltac:(lia)) as (o & r & -> & LO). rewrite blen_app in *.
  set (f := frame_of (pan_id hA) (address hA) dst SEQ_USER_DATA msg).
  assert (LF : blen f = blen msg + 11) by (unfold f, frame_of; rewrite !blen_app, blen_header; change (blen [0; 0]) with 2; lia).
  destruct (process_spec hB (pan_id hA) (address hA) dst SEQ_USER_DATA msg junk rx now) as (tail & LT & E).
  { fold f. rewrite blen_app. lia. }
  exists f, tail. split; [|split; [exact LF|]].
  - unfold send_data_packet. change (o ++ r) with ([] ++ o ++ r). 
    rewrite bset_all_app by (try reflexivity; unfold blen in LO; lia). cbn [bind app].
    rewrite encapsulate_spec by (rewrite ?blen_app; lia). cbn [bind].
    unfold f, frame_of. rewrite (app_assoc msg), (app_assoc (mac_header _ _ _ _)). apply transmit_spec.
    rewrite !blen_app, blen_header. change (blen [0; 0]) with 2. lia.
  - fold f in E. rewrite E. rewrite EP, Z.eqb_refl. cbn [negb].
    replace (negb (dst =? address hB) && negb (dst =? BROADCAST_ADDR)) with false.
    + cbn [Z.eqb SEQ_USER_DATA SEQ_ADVERTISEMENT SEQ_REPLY SEQ_FINALIZATION SEQ_ANCHOR_POSITION SEQ_TAG_POSITION SEQ_INITIATE_MEASUREMENT Pos.eqb]. now rewrite HC.
    + symmetry. destruct HD as [->| ->]; rewrite Z.eqb_refl; cbn; auto using andb_false_r.
Qed.

Lemma anchor_delivery_l hA hB x y z buffer junk rx now :
  pan_id hA = pan_id hB -> has_anchor_cb hB = true ->
  blen x = 4 -> blen y = 4 -> blen z = 4 ->
  23 <= blen buffer -> blen buffer < 2 ^ 30 -> blen junk < 2 ^ 30 ->
  exists f, send_anchor_position hA x y z buffer = Some [Transmit TX_IMMEDIATE f] /\
    process_incoming_frame hB (f ++ junk) (blen f) rx now = Some [AnchorPosition (address hA) x y z].
Proof.
  intros EP HC LX LY LZ LB LB2 LJ.
  destruct (split_at buffer 12 ltac:(lia)) as (o & r & -> & LO). rewrite blen_app in *.
  set (msg := x ++ y ++ z). assert (LM : blen msg = 12) by (unfold msg; rewrite !blen_app; lia).
  set (f := frame_of (pan_id hA) (address hA) BROADCAST_ADDR SEQ_ANCHOR_POSITION msg).
  assert (LF : blen f = 23) by (unfold f, frame_of; rewrite !blen_app, blen_header, LM; reflexivity).
  destruct (process_spec hB (pan_id hA) (address hA) BROADCAST_ADDR SEQ_ANCHOR_POSITION msg junk rx now) as (tail & LT & E).
  { fold f. rewrite blen_app. lia. }
  exists f. split.
  - unfold send_anchor_position. fold msg. change (o ++ r) with ([] ++ o ++ r). 
    rewrite bset_all_app by (try reflexivity; unfold blen in *; lia). cbn [bind app].
    replace 12 with (blen msg). rewrite encapsulate_spec by (rewrite ?blen_app; lia). cbn [bind].
    unfold f, frame_of. rewrite (app_assoc msg), (app_assoc (mac_header _ _ _ _)). apply transmit_spec.
    rewrite !blen_app, blen_header. change (blen [0; 0]) with 2. lia.
  - fold f in E. rewrite E. rewrite EP, !Z.eqb_refl. cbn [negb]. rewrite andb_false_r.
    change (SEQ_ANCHOR_POSITION =? SEQ_ADVERTISEMENT) with false. change (SEQ_ANCHOR_POSITION =? SEQ_REPLY) with false.
    change (SEQ_ANCHOR_POSITION =? SEQ_FINALIZATION) with false. cbv iota.
    unfold msg. rewrite <- !app_assoc. change (x ++ y ++ z ++ tail) with ([] ++ x ++ y ++ z ++ tail) at 1.
    rewrite bslice_app by (try reflexivity; lia). cbn [bind].
    rewrite bslice_app by lia. cbn [bind]. rewrite (app_assoc x y). 
    rewrite bslice_app by (rewrite ?blen_app; lia). cbn [bind]. now rewrite HC.
Qed.

Lemma tag_delivery_l hA hB x y buffer junk rx now :
  pan_id hA = pan_id hB -> has_tag_cb hB = true ->
  blen x = 4 -> blen y = 4 ->
  19 <= blen buffer -> blen buffer < 2 ^ 30 -> blen junk < 2 ^ 30 ->
  exists f, send_tag_position hA x y buffer = Some [Transmit TX_IMMEDIATE f] /\
    process_incoming_frame hB (f ++ junk) (blen f) rx now = Some [TagPosition (address hA) x y].
Proof.
  intros EP HC LX LY LB LB2 LJ.
  destruct (split_at buffer 8 ltac:(lia)) as (o & r & -> & LO). rewrite blen_app in *.
  set (msg := x ++ y). assert (LM : blen msg = 8) by (unfold msg; rewrite !blen_app; lia).
  set (f := frame_of (pan_id hA) (address hA) BROADCAST_ADDR SEQ_TAG_POSITION msg).
  assert (LF : blen f = 19) by (unfold f, frame_of; rewrite !blen_app, blen_header, LM; reflexivity).
  destruct (process_spec hB (pan_id hA) (address hA) BROADCAST_ADDR SEQ_TAG_POSITION msg junk rx now) as (tail & LT & E).
  { fold f. rewrite blen_app. lia. }
  exists f. split.
  - unfold send_tag_position. fold msg. change (o ++ r) with ([] ++ o ++ r). 
    rewrite bset_all_app by (try reflexivity; unfold blen in *; lia). cbn [bind app].
    replace 8 with (blen msg). rewrite encapsulate_spec by (rewrite ?blen_app; lia). cbn [bind].
    unfold f, frame_of. rewrite (app_assoc msg), (app_assoc (mac_header _ _ _ _)). apply transmit_spec.
    rewrite !blen_app, blen_header. change (blen [0; 0]) with 2. lia.
  - fold f in E. rewrite E. rewrite EP, !Z.eqb_refl. cbn [negb]. rewrite andb_false_r.
    change (SEQ_TAG_POSITION =? SEQ_ADVERTISEMENT) with false. change (SEQ_TAG_POSITION =? SEQ_REPLY) with false.
    change (SEQ_TAG_POSITION =? SEQ_FINALIZATION) with false. change (SEQ_TAG_POSITION =? SEQ_ANCHOR_POSITION) with false. cbv iota.
    unfold msg. rewrite <- !app_assoc. change (x ++ y ++ tail) with ([] ++ x ++ y ++ tail) at 1.
    rewrite bslice_app by (try reflexivity; lia). cbn [bind].
    rewrite bslice_app by lia. cbn [bind]. now rewrite HC.
Qed.

(** ** A tag asks for a measurement *)
Lemma initiate_spec h o t dst buffer : 11 <= blen buffer -> blen buffer < 2 ^ 31 ->
  let ts := Z.land (u64 (clock o t + UWB_DELAY)) MASK_40BIT in
  initiate_measurement h (clock o t) buffer dst = Some [Transmit ts (frame_of (pan_id h) (address h) dst SEQ_INITIATE_MEASUREMENT [])].
Proof.
  intros HB HL ts. unfold initiate_measurement. fold ts. change buffer with ([] ++ buffer). change 0 with (blen (@nil Z)).
  rewrite encapsulate_spec by (cbn [app]; lia). cbn [bind]. unfold frame_of. rewrite (app_assoc []), (app_assoc (mac_header _ _ _ _)). apply transmit_spec.
  rewrite !blen_app. reflexivity.
Qed.
Lemma initiate_l hA hB oB t buffer junk rx now : pan_id hA = pan_id hB ->
  11 <= blen buffer < 2 ^ 30 -> blen junk < 2 ^ 30 ->
  exists ts f buffer', initiate_measurement hB (clock oB t) buffer (address hA) = Some [Transmit ts f] /\
    0 <= ts < 2 ^ 40 /\ UWB_DELAY - 512 < tx_time oB t ts - t <= UWB_DELAY /\
    blen buffer' = 11 + blen junk /\
    process_incoming_frame hA (f ++ junk) (blen f) rx now = send_advertisement hA now buffer'.
Proof.
  intros EP HB HJ. destruct (reply_time oB t) as (w & W1 & W2 & W3 & _ & W5). cbv zeta in *. set (ts := Z.land (u64 (clock oB t + UWB_DELAY)) MASK_40BIT) in *.
  destruct (process_spec hA (pan_id hB) (address hB) (address hA) SEQ_INITIATE_MEASUREMENT [] junk rx now) as (tail & LT & E).
  { unfold frame_of. rewrite !blen_app, blen_header. change (blen [0; 0]) with 2. change (blen (@nil Z)) with 0. lia. }
  exists ts, (frame_of (pan_id hB) (address hB) (address hA) SEQ_INITIATE_MEASUREMENT []), tail.
  split; [apply initiate_spec; lia|]. split; [exact W5|]. split; [lia|]. split; [exact LT|].
  rewrite E. rewrite EP, Z.eqb_refl, Z.eqb_refl. cbn [negb andb].
  cbn [Z.eqb SEQ_USER_DATA SEQ_ADVERTISEMENT SEQ_REPLY SEQ_FINALIZATION SEQ_ANCHOR_POSITION SEQ_TAG_POSITION SEQ_INITIATE_MEASUREMENT Pos.eqb]. reflexivity.
Qed.
