(** Properties of the software SPI (C46) and of the pressure sensor driver (C56). *)
From Coq Require Import ZArith QArith List Bool Arith Lia ZifyBool.
From Verif Require Import CBase CRes SpiModel SpiSpec SpiProofs.
Import ListNotations.
Local Open Scope Z_scope.

(** ** C46 *)
(** Whatever the other side does: a transfer is one pulse per bit of the bytes sent, MSB first, and gives the bytes made of the bits read. *)
Theorem spi_transfer w h tx : exists read rx, softspi_send w h tx = (rev (transfer (bits tx) read) ++ h, rx) /\
  bits rx = read /\ Forall byte rx /\ length rx = length tx.
Proof. destruct (send_trace w h tx) as (read & A & B & C & D). exists read, (snd (softspi_send w h tx)). auto. Qed.
(** Bits determine bytes. *)
Theorem bits_injective a b : Forall byte a -> Forall byte b -> bits a = bits b -> a = b.
Proof.
  intros A B E. assert (L : length a = length b) by (apply (f_equal (@length bool)) in E; rewrite !bits_length in E; lia).
  now rewrite <- (chunks_of_bits a A), <- (chunks_of_bits b B), E, L.
Qed.
(** Each bit read is what MISO shows after the clock rose, with the bit to send on MOSI. *)
Theorem spi_sample w : forall pre b post read h h' rx tx, bits tx = pre ++ b :: post -> softspi_send w h tx = (h', rx) -> bits rx = read ->
  nth (length pre) read false = w (Sck true :: Mosi b :: rev (transfer pre (firstn (length pre) read)) ++ h).
Proof.
  intros pre b post read h h' rx tx E S R. rewrite softspi_clock, E, clock_app in S. pose proof (clock_length w (bits tx) h) as L. rewrite E, clock_app in L.
  pose proof (clock_length w pre h) as L1. pose proof (clock_trace w pre h) as T. destruct (clock w h pre) as [h1 r1]. cbn [fst snd clock] in *.
  destruct (clock w _ post) as [h2 r2]. cbn [snd] in L. injection S as S1 S2.
  assert (LB : length (r1 ++ w (Sck true :: Mosi b :: h1) :: r2) = (8 * length tx)%nat) by (rewrite L, <- E; apply bits_length).
  destruct (chunks_bits _ _ LB) as (C & _). rewrite S2 in C. rewrite <- R, C, <- L1.
  rewrite app_nth2, Nat.sub_diag by lia. cbn [nth]. rewrite firstn_app, Nat.sub_diag, firstn_O, app_nil_r, firstn_all. now rewrite T.
Qed.
(** With a device at the other end each side gets the bytes of the other. *)
Theorem spi_exchange me answer w h tx reply : (forall h, sel (dev me answer h) = true -> w h = hd false (shown (dev me answer h))) ->
  sel (dev me answer h) = true -> clk (dev me answer h) = false -> shown (dev me answer h) = bits reply -> Forall byte reply -> length reply = length tx ->
  exists h', softspi_send w h tx = (h', reply) /\ got (dev me answer h') = got (dev me answer h) ++ bits tx.
Proof.
  intros W S C SH F L. rewrite softspi_clock. pose proof (dev_transfer me answer w W (bits tx) h S C) as X. destruct (clock w h (bits tx)) as [h' r].
  destruct X as (_ & _ & G & _ & _ & R). exists h'. split; [|exact G]. f_equal. rewrite SH in R.
  assert (R8 : forall l : list bool, map (fun i => nth i l false) (seq 0 (length l)) = l).
  { clear. induction l as [|x l IH]; auto. cbn [length seq map]. f_equal. rewrite <- seq_shift, map_map. exact IH. }
  assert (LL : length (bits tx) = length (bits reply)) by (rewrite !bits_length; lia). rewrite LL, R8 in R. subst r. rewrite <- L. now apply chunks_of_bits.
Qed.
Example spi_example : softspi_send (bus (fun _ => bits [18; 52]) (fun _ => [])) [Cs 0 false] [165; 1] =
  (rev (transfer (bits [165; 1]) (bits [18; 52])) ++ [Cs 0 false], [18; 52]).
Proof. vm_compute. reflexivity. Qed.

(** ** C56 *)
(** The chip select of the sensor, and no other, is low during each transfer, whatever the sensors do. *)
Theorem mpr_chip_select w s cmd h : (s < 2)%nat -> exists read rx,
  mpr_exchange w s cmd h = (Cs s true :: rev (transfer (bits cmd) read) ++ Cs s false :: h, rx) /\ bits rx = read /\ length rx = length cmd.
Proof.
  intro S. unfold mpr_exchange. set (h1 := mpr_select s h). destruct (spi_transfer w h1 cmd) as (read & rx & E & R & _ & L). exists read, rx. rewrite E.
  unfold h1, mpr_select, mpr_unselect. destruct s as [|[|s]]; [| |lia]; auto.
Qed.
(** A status is good if and only if the device is powered and the memory error, math error and unused bits are zero. *)
Theorem mpr_status st : byte st -> (mpr_status_is_error st = false <->
  Z.testbit st 6 = true /\ Z.testbit st 2 = false /\ Z.testbit st 0 = false /\ Z.testbit st 7 = false /\ Z.testbit st 4 = false /\ Z.testbit st 3 = false) /\
  mpr_status_is_busy st = Z.testbit st 5 /\ mpr_status_is_powered st = Z.testbit st 6.
Proof.
  intro B. split; [|split; apply testbit_land; lia]. rewrite <- (number_bits_of st B).
  unfold bits_of. cbn [map]. destruct (Z.testbit st 7), (Z.testbit st 6), (Z.testbit st 5), (Z.testbit st 4), (Z.testbit st 3), (Z.testbit st 2), (Z.testbit st 1), (Z.testbit st 0);
    vm_compute; split; intuition discriminate.
Qed.
(** Reading from a sensor on the bus: the commands reach that sensor only, and the number is the one the sensor sent, most significant byte first. *)
Theorem mpr_data a0 a1 n h st b1 b2 b3 : (n < 2)%nat -> quiet a0 a1 h -> Forall byte [st; b1; b2; b3] -> ans a0 a1 n (msgs a0 a1 n h) = bits [st; b1; b2; b3] ->
  exists h', mpr_read_data (bus a0 a1) n h = (h', 65536 * b1 + 256 * b2 + b3) /\ quiet a0 a1 h' /\
    msgs a0 a1 n h' = msgs a0 a1 n h ++ [bits [240; 0; 0; 0]] /\ msgs a0 a1 (1 - n) h' = msgs a0 a1 (1 - n) h.
Proof.
  intros N Q F A. destruct (exchange_ok a0 a1 n [240; 0; 0; 0] [st; b1; b2; b3] h N Q A F eq_refl) as (h' & E & Q' & M & M' & _).
  exists h'. unfold mpr_read_data. rewrite E. cbn [nth]. cbv zeta. inversion F as [|? ? F1 F2]; subst. inversion F2 as [|? ? F3 F4]; subst. inversion F4 as [|? ? F5 F6]; subst. inversion F6 as [|? ? F7 F8]; subst.
  rewrite data_number by auto. auto.
Qed.
(** A whole measurement. *)
Theorem mpr_measurement rnd a0 a1 n h junk st st' b1 b2 b3 : rounding rnd -> (n < 2)%nat -> quiet a0 a1 h ->
  let m := msgs a0 a1 n h in let m1 := m ++ [bits [170; 0; 0]] in let m2 := m1 ++ [bits [240]] in
  ans a0 a1 n m = bits junk -> length junk = 3%nat -> ans a0 a1 n m1 = bits [st] -> ans a0 a1 n m2 = bits [st'; b1; b2; b3] ->
  Forall byte (junk ++ [st; st'; b1; b2; b3]) ->
  let raw := 65536 * b1 + 256 * b2 + b3 in
  exists h' r, read_pressure rnd (bus a0 a1) n h = (h', r) /\ quiet a0 a1 h' /\ msgs a0 a1 (1 - n) h' = msgs a0 a1 (1 - n) h /\
    (if mpr_status_is_error st || mpr_status_is_busy st then r = OK 0 /\ msgs a0 a1 n h' = m2
     else r = to_uint32 (mpr_pressure_raw_to_pascal rnd raw) /\ msgs a0 a1 n h' = m2 ++ [bits [240; 0; 0; 0]] /\
          (1677722 <= raw <= 15099494 -> exists z, r = OK z /\ 0 <= z <= 103422)).
Proof.
  intros R N Q m m1 m2 A0 J A1 A2 F raw. apply Forall_app in F as [F0 F].
  inversion F as [|? ? F1 F']; subst. unfold read_pressure.
  set (h0 := Sleep 3 :: Rst true :: Sleep 3 :: Rst false :: h).
  assert (Q0 : quiet a0 a1 h0) by exact Q. assert (M0 : forall k, msgs a0 a1 k h0 = msgs a0 a1 k h) by (intro; reflexivity).
  destruct (exchange_ok a0 a1 n [170; 0; 0] junk h0 N Q0) as (h1 & E1 & Q1 & M1 & M1' & _); auto.
  unfold mpr_start_measurement. rewrite E1. cbn [fst]. rewrite M0 in M1, M1'. fold m in M1. fold m1 in M1.
  set (h2 := Sleep 5 :: h1). assert (Q2 : quiet a0 a1 h2) by exact Q1. assert (M2 : forall k, msgs a0 a1 k h2 = msgs a0 a1 k h1) by (intro; reflexivity).
  destruct (exchange_ok a0 a1 n [240] [st] h2 N Q2) as (h3 & E3 & Q3 & M3 & M3' & _); auto; [now rewrite M2, M1|].
  unfold mpr_read_status. rewrite E3. cbn [nth]. rewrite M2 in M3, M3'. rewrite M1 in M3. fold m2 in M3.
  destruct (mpr_status_is_error st || mpr_status_is_busy st).
  - exists h3, (OK 0). split; [reflexivity|]. split; [exact Q3|]. split; [now rewrite M3', M1'|]. auto.
  - set (h4 := Sleep 1 :: h3). assert (Q4 : quiet a0 a1 h4) by exact Q3. assert (M4 : forall k, msgs a0 a1 k h4 = msgs a0 a1 k h3) by (intro; reflexivity).
    destruct (mpr_data a0 a1 n h4 st' b1 b2 b3 N Q4 F') as (h5 & E5 & Q5 & M5 & M5'); [now rewrite M4, M3|].
    rewrite E5. fold raw. eexists h5, _. split; [reflexivity|]. split; [exact Q5|]. split; [now rewrite M5', M4, M3', M1'|]. split; [reflexivity|]. split; [now rewrite M5, M4, M3|].
    intro RR. destruct (to_uint32_ok _ 103422 (pascal_range rnd raw R RR)) as (z & E & B & _); [lia|]. eauto.
Qed.
(** More pressure never reads as less. *)
Theorem mpr_pascal_monotone rnd a b : rounding rnd -> 0 <= a <= b -> b < 2 ^ 24 -> (mpr_pressure_raw_to_pascal rnd a <= mpr_pressure_raw_to_pascal rnd b)%Q.
Proof. apply pascal_mono. Qed.
Lemma rounding_id : rounding (fun q => q).
Proof. split; auto. intros; reflexivity. Qed.
(** A number below the range of the sensor is a negative pressure, whose conversion to an unsigned integer has no defined result. *)
Theorem mpr_low_pressure_refuted : ~ forall rnd raw, rounding rnd -> 0 <= raw < 2 ^ 24 -> exists z, to_uint32 (mpr_pressure_raw_to_pascal rnd raw) = OK z.
Proof. intro H. destruct (H (fun q => q) 0 rounding_id) as (z & E); [lia|]. vm_compute in E. discriminate. Qed.
(** Non-vacuity: both sensors on the bus, the second one answers. *)
Definition ex_answer (m : list (list bool)) : list bool := match length m with 0%nat => bits [64; 0; 0] | 1%nat => bits [64] | _ => bits [64; 128; 1; 2] end.
Example mpr_measurement_example : quiet ex_answer ex_answer [Sck false] /\ rounding (fun q => q) /\
  snd (read_pressure (fun q => q) (bus ex_answer ex_answer) 1 [Sck false]) = OK 51712.
Proof. split; [repeat split|]. split; [apply rounding_id|]. vm_compute. reflexivity. Qed.

Print Assumptions spi_transfer.
Print Assumptions spi_sample.
Print Assumptions spi_exchange.
Print Assumptions mpr_chip_select.
Print Assumptions mpr_status.
Print Assumptions mpr_measurement.
Print Assumptions mpr_pascal_monotone.
