(** Proofs about the software SPI and the pressure sensor driver. *)
From Coq Require Import ZArith QArith List Bool Arith Lia ZifyBool.
From Verif Require Import CBase CRes SpiModel SpiSpec.
Import ListNotations.
Local Open Scope Z_scope.

(** The transfer of some bits: the history and what was read. *)
Fixpoint clock (w : world) (h : history) (bs : list bool) : history * list bool :=
  match bs with
  | [] => (h, [])
  | b :: bs =>
      let s := w (Sck true :: Mosi b :: h) in
      let '(h', r) := clock w (Sck false :: Miso s :: Sck true :: Mosi b :: h) bs in (h', s :: r)
  end.
Lemma clock_app w : forall a b h, clock w h (a ++ b) = let '(h1, r1) := clock w h a in let '(h2, r2) := clock w h1 b in (h2, r1 ++ r2).
Proof.
  induction a as [|x a IH]; intros b h; cbn [app clock]; [now destruct (clock w h b)|].
  rewrite IH. destruct (clock w _ a) as [h1 r1]. now destruct (clock w h1 b) as [h2 r2].
Qed.
Lemma clock_length w : forall bs h, length (snd (clock w h bs)) = length bs.
Proof. induction bs as [|b bs IH]; intro h; cbn; auto. specialize (IH (Sck false :: Miso (w (Sck true :: Mosi b :: h)) :: Sck true :: Mosi b :: h)). destruct (clock w _ bs). cbn in *. now rewrite IH. Qed.
Lemma clock_trace w : forall bs h, fst (clock w h bs) = rev (transfer bs (snd (clock w h bs))) ++ h.
Proof.
  induction bs as [|b bs IH]; intro h; cbn [clock]; auto.
  specialize (IH (Sck false :: Miso (w (Sck true :: Mosi b :: h)) :: Sck true :: Mosi b :: h)). destruct (clock w _ bs) as [h' r]. cbn [fst snd] in *. rewrite IH.
  unfold transfer. cbn [combine flat_map]. rewrite rev_app_distr, <- app_assoc. reflexivity.
Qed.

Lemma testbit_land x k : 0 <= k -> negb (Z.land x (Z.shiftl 1 k) =? 0) = Z.testbit x k.
Proof.
  intro K. rewrite Z.shiftl_1_l. destruct (Z.testbit x k) eqn:T.
  - apply negb_true_iff, Z.eqb_neq. intro E. assert (X : Z.testbit (Z.land x (2 ^ k)) k = true) by (rewrite Z.land_spec, T, Z.pow2_bits_true by lia; reflexivity).
    rewrite E, Z.bits_0 in X. discriminate.
  - apply negb_false_iff, Z.eqb_eq. apply Z.bits_inj'. intros n N. rewrite Z.land_spec, Z.bits_0. rewrite Z.pow2_bits_eqb by lia.
    destruct (Z.eqb_spec k n) as [->|]; [now rewrite T|now rewrite andb_false_r].
Qed.

Lemma bits_of_number l : length l = 8%nat -> bits_of (number l) = l.
Proof.
  intro L. do 9 (destruct l as [|? l]; try discriminate L). repeat match goal with b : bool |- _ => destruct b end; reflexivity.
Qed.
Lemma number_byte l : length l = 8%nat -> byte (number l).
Proof.
  intro L. do 9 (destruct l as [|? l]; try discriminate L). repeat match goal with b : bool |- _ => destruct b end; unfold byte; cbn; lia.
Qed.
Lemma number_bits_of x : byte x -> number (bits_of x) = x.
Proof.
  intro B. apply Z.bits_inj'. intros n N. unfold byte in B.
  assert (L : length (bits_of x) = 8%nat) by reflexivity.
  assert (E := bits_of_number _ L). unfold bits_of in E at 1. unfold bits_of in E at 2. cbn [map] in E. injection E as E7 E6 E5 E4 E3 E2 E1 E0.
  destruct (Z_lt_le_dec n 8).
  - assert (n = 0 \/ n = 1 \/ n = 2 \/ n = 3 \/ n = 4 \/ n = 5 \/ n = 6 \/ n = 7) as D by (clear - N l; lia). destruct D as [->|[->|[->|[->|[->|[->|[->| ->]]]]]]]; auto.
  - clear E0 E1 E2 E3 E4 E5 E6 E7. pose proof (number_byte _ L) as NB. unfold byte in NB. 
    assert (H : forall y, 0 <= y < 256 -> Z.testbit y n = false).
    { intros y Y. replace y with (y mod 2 ^ 8) by (apply Z.mod_small; lia). apply Z.mod_pow2_bits_high. lia. }
    now rewrite !H.
Qed.

(** One byte. *)
Lemma rx_byte b7 b6 b5 b4 b3 b2 b1 b0 :
  u8 (Z.lor (u8 (Z.lor (u8 (Z.lor (u8 (Z.lor (u8 (Z.lor (u8 (Z.lor (u8 (Z.lor (u8 (Z.lor 0 (Z.shiftl (Z.b2z b7) 7))) (Z.shiftl (Z.b2z b6) 6))) (Z.shiftl (Z.b2z b5) 5)))
    (Z.shiftl (Z.b2z b4) 4))) (Z.shiftl (Z.b2z b3) 3))) (Z.shiftl (Z.b2z b2) 2))) (Z.shiftl (Z.b2z b1) 1))) (Z.shiftl (Z.b2z b0) 0)) = number [b7; b6; b5; b4; b3; b2; b1; b0].
Proof. destruct b7, b6, b5, b4, b3, b2, b1, b0; vm_compute; reflexivity. Qed.
Lemma upd_upd {A} (l : list A) k x y : upd (upd l k x) k y = upd l k y.
Proof. revert k; induction l as [|a l IH]; intros [|k]; cbn; auto. now rewrite IH. Qed.
Lemma nth_upd_same {A} (l : list A) k x d : (k < length l)%nat -> nth k (upd l k x) d = x.
Proof. revert k; induction l as [|a l IH]; intros [|k] L; cbn in *; auto; try lia. apply IH. lia. Qed.

Lemma div8 k j : (j < 8)%nat -> ((8 * k + j) / 8 = k /\ (8 * k + j) mod 8 = j)%nat.
Proof.
  intro J. split.
  - rewrite Nat.mul_comm, Nat.div_add_l by lia. rewrite Nat.div_small by lia. lia.
  - rewrite Nat.mul_comm, Nat.add_comm, Nat.mod_add by lia. apply Nat.mod_small; lia.
Qed.

Definition bitp (x k : Z) : bool := negb (Z.land x (Z.shiftl 1 k) =? 0).
Definition onebit (w : world) (p : Z) (x : Z) (hv : history * Z) : history * Z :=
  let '(h, v) := hv in let s := w (Sck true :: Mosi (bitp x p) :: h) in
  (Sck false :: Miso s :: Sck true :: Mosi (bitp x p) :: h, u8 (Z.lor v (Z.shiftl (Z.b2z s) p))).
Lemma send_bit_at w tx h rx k j v : (j < 8)%nat -> (k < length rx)%nat ->
  send_bit w tx (h, upd rx k v) (8 * k + j) = let '(h', v') := onebit w (Z.of_nat (7 - j)) (nth k tx 0) (h, v) in (h', upd rx k v').
Proof.
  intros J K. destruct (div8 k j J) as [D M]. unfold send_bit, onebit, bitp. rewrite D, M. cbv zeta. rewrite nth_upd_same, upd_upd by auto. reflexivity.
Qed.
Lemma send_byte w tx h rx k : (k < length rx)%nat -> nth k rx 0 = 0 ->
  fold_left (send_bit w tx) (map (fun j => (8 * k + j)%nat) (seq 0 8)) (h, rx) =
  let '(h', r) := clock w h (bits_of (nth k tx 0)) in (h', upd rx k (number r)).
Proof.
  intros K Z0. assert (E : rx = upd rx k 0). { clear - K Z0. revert k K Z0; induction rx as [|a l IH]; intros [|k] K Z0; cbn in *; try lia; [now rewrite Z0|]. rewrite <- IH; auto; lia. }
  rewrite E at 1. cbn [seq map fold_left]. set (x := nth k tx 0).
  assert (B : forall p, 0 <= p -> bitp x p = Z.testbit x p) by (intros p P; apply testbit_land, P).
  assert (L : forall l, length (upd rx k l) = length rx) by (intro; apply upd_length).
  repeat (rewrite send_bit_at by lia; cbv beta iota delta [onebit]; fold x; cbn [Nat.sub Z.of_nat Pos.of_succ_nat Pos.succ]; rewrite B by lia).
  unfold bits_of. cbn [map clock]. cbv zeta.
  set (s7 := w _). set (s6 := w _). set (s5 := w _). set (s4 := w _). set (s3 := w _). set (s2 := w _). set (s1 := w _). set (s0 := w _).
  f_equal. f_equal. apply rx_byte.
Qed.

Lemma seq_bytes n : forall k, seq (8 * k) (8 * n) = flat_map (fun k => map (fun j => (8 * k + j)%nat) (seq 0 8)) (seq k n).
Proof.
  induction n as [|n IH]; intro k; [reflexivity|]. replace (8 * S n)%nat with (8 + 8 * n)%nat by lia. rewrite seq_app. cbn [seq flat_map].
  replace (8 * k + 8)%nat with (8 * S k)%nat by lia. rewrite IH. f_equal. cbn [map]. repeat (f_equal; try lia).
Qed.

Fixpoint chunks (n : nat) (l : list bool) : list Z := match n with O => [] | S n => number (firstn 8 l) :: chunks n (skipn 8 l) end.

Lemma send_bytes w tx : forall n k h done, (k + n = length tx)%nat -> length done = k ->
  fold_left (send_bit w tx) (seq (8 * k) (8 * n)) (h, done ++ repeat 0 n) =
  let '(h', r) := clock w h (bits (skipn k tx)) in (h', done ++ chunks n r).
Proof.
  induction n as [|n IH]; intros k h done K D.
  - cbn [Nat.mul seq fold_left]. rewrite skipn_all2 by lia. reflexivity.
  - rewrite seq_bytes. cbn [seq flat_map]. rewrite fold_left_app.
    assert (NK : nth k (done ++ repeat 0 (S n)) 0 = 0) by (rewrite app_nth2 by lia; replace (k - length done)%nat with 0%nat by lia; reflexivity).
    rewrite send_byte; [|rewrite app_length, repeat_length; lia|exact NK].
    assert (SK : skipn k tx = nth k tx 0 :: skipn (S k) tx). { clear - K. revert k K; induction tx as [|a tx IH]; intros [|k] K; cbn in *; try lia; auto. }
    rewrite SK. unfold bits at 1. cbn [flat_map]. fold (bits (skipn (S k) tx)). rewrite clock_app.
    pose proof (clock_length w (bits_of (nth k tx 0)) h) as L1. destruct (clock w h (bits_of (nth k tx 0))) as [h1 r1]. cbn [snd] in L1.
    assert (U : upd (done ++ repeat 0 (S n)) k (number r1) = (done ++ [number r1]) ++ repeat 0 n).
    { subst k. clear. induction done as [|a done IH]; cbn; auto. f_equal. exact IH. }
    rewrite U, <- seq_bytes, (IH (S k) h1 (done ++ [number r1])) by (rewrite ?app_length; cbn; lia).
    destruct (clock w h1 (bits (skipn (S k) tx))) as [h2 r2]. rewrite <- app_assoc. f_equal. f_equal. cbn [app chunks].
    change (length (bits_of (nth k tx 0))) with 8%nat in L1. rewrite firstn_app, skipn_app, L1. change (8 - 8)%nat with 0%nat. rewrite firstn_all2, (skipn_all2 r1) by lia. rewrite firstn_O. now rewrite app_nil_r.
Qed.

Lemma softspi_clock w h tx : softspi_send w h tx = let '(h', r) := clock w h (bits tx) in (h', chunks (length tx) r).
Proof. unfold softspi_send. exact (send_bytes w tx (length tx) 0 h [] eq_refl eq_refl). Qed.

Lemma bits_length l : length (bits l) = (8 * length l)%nat.
Proof. induction l as [|a l IH]; auto. unfold bits in *. cbn [flat_map]. rewrite app_length, IH. cbn [length]. change (length (bits_of a)) with 8%nat. lia. Qed.
Lemma chunks_bits : forall n l, length l = (8 * n)%nat -> bits (chunks n l) = l /\ Forall byte (chunks n l) /\ length (chunks n l) = n.
Proof.
  induction n as [|n IH]; intros l L; cbn [chunks]; [destruct l; [auto|discriminate]|].
  destruct (IH (skipn 8 l)) as (A & B & C); [rewrite skipn_length; lia|].
  assert (F : length (firstn 8 l) = 8%nat) by (rewrite firstn_length; lia).
  split; [|split].
  - unfold bits. cbn [flat_map]. fold (bits (chunks n (skipn 8 l))). rewrite A, bits_of_number by auto. apply firstn_skipn.
  - constructor; auto using number_byte.
  - cbn [length]. f_equal. exact C.
Qed.
Lemma chunks_of_bits l : Forall byte l -> chunks (length l) (bits l) = l.
Proof.
  induction 1 as [|x l X F IH]; auto. cbn [length chunks]. unfold bits. cbn [flat_map]. fold (bits l).
  rewrite firstn_app, skipn_app. change (length (bits_of x)) with 8%nat. change (8 - 8)%nat with 0%nat. rewrite firstn_all2, (skipn_all2 (bits_of x)) by (cbn; lia). rewrite firstn_O. cbn [app]. rewrite app_nil_r, number_bits_of by auto. f_equal. exact IH.
Qed.

Lemma send_trace w h tx : exists read, softspi_send w h tx = (rev (transfer (bits tx) read) ++ h, snd (softspi_send w h tx)) /\
  bits (snd (softspi_send w h tx)) = read /\ Forall byte (snd (softspi_send w h tx)) /\ length (snd (softspi_send w h tx)) = length tx.
Proof.
  rewrite softspi_clock. exists (snd (clock w h (bits tx))). pose proof (clock_trace w (bits tx) h) as T. pose proof (clock_length w (bits tx) h) as L.
  destruct (clock w h (bits tx)) as [h' r]. cbn [fst snd] in *. rewrite bits_length in L. destruct (chunks_bits _ _ L) as (A & B & C). rewrite T. auto.
Qed.

(** ** A device *)
Section Dev.
Variable me : nat.
Variable answer : list (list bool) -> list bool.
Notation dev := (dev me answer).
Lemma dev_cons e h : dev (e :: h) = dev_step me answer (dev h) e.
Proof. reflexivity. Qed.
(** A selected device with a low clock during a transfer. *)
Lemma dev_transfer w : (forall h, sel (dev h) = true -> w h = hd false (shown (dev h))) ->
  forall bs h, sel (dev h) = true -> clk (dev h) = false ->
  let '(h', r) := clock w h bs in
  sel (dev h') = true /\ clk (dev h') = false /\ got (dev h') = got (dev h) ++ bs /\ messages (dev h') = messages (dev h) /\
  shown (dev h') = skipn (length bs) (shown (dev h)) /\ r = map (fun i => nth i (shown (dev h)) false) (seq 0 (length bs)).
Proof.
  intro W. induction bs as [|b bs IH]; intros h S C; cbn [clock].
  - repeat split; auto. now rewrite app_nil_r.
  - set (h1 := Sck true :: Mosi b :: h). set (s := w h1). set (h2 := Sck false :: Miso s :: h1).
    assert (D1 : dev h1 = mkDev true true b (shown (dev h)) (got (dev h) ++ [b]) (messages (dev h))).
    { unfold h1. rewrite !dev_cons. cbn [dev_step sel clk mosi shown got messages]. rewrite S, C. reflexivity. }
    assert (D2 : dev h2 = mkDev true false b (tl (shown (dev h))) (got (dev h) ++ [b]) (messages (dev h))).
    { unfold h2. rewrite !dev_cons. cbn [dev_step]. rewrite D1. reflexivity. }
    specialize (IH h2). rewrite D2 in IH. cbn [sel clk shown got messages] in IH. specialize (IH eq_refl eq_refl).
    destruct (clock w h2 bs) as [h' r]. destruct IH as (A & B & G & M & SH & R).
    split; [exact A|]. split; [exact B|]. split; [rewrite G, <- app_assoc; reflexivity|]. split; [exact M|]. split.
    + rewrite SH. destruct (shown (dev h)); [now rewrite skipn_nil|reflexivity].
    + cbn [length seq map]. f_equal.
      * unfold s. rewrite W by now rewrite D1. rewrite D1. cbn [shown]. destruct (shown (dev h)); reflexivity.
      * rewrite R, <- seq_shift, map_map. apply map_ext. intro i. destruct (shown (dev h)) as [|? l]; [destruct i; reflexivity|reflexivity].
Qed.
(** A device that is not selected only follows the clock. *)
Lemma dev_transfer_idle w : forall bs h, sel (dev h) = false -> clk (dev h) = false ->
  let '(h', r) := clock w h bs in sel (dev h') = false /\ clk (dev h') = false /\ messages (dev h') = messages (dev h).
Proof.
  induction bs as [|b bs IH]; intros h S C; cbn [clock]; auto.
  set (s := w _). set (h2 := Sck false :: Miso s :: Sck true :: Mosi b :: h).
  assert (D2 : dev h2 = mkDev false false b (shown (dev h)) (got (dev h)) (messages (dev h))).
  { unfold h2. rewrite !dev_cons. cbn [dev_step sel clk mosi shown got messages]. rewrite S. reflexivity. }
  specialize (IH h2). rewrite D2 in IH. specialize (IH eq_refl eq_refl). destruct (clock w h2 bs) as [h' r]. exact IH.
Qed.
End Dev.

Lemma exchange_ok a0 a1 n cmd reply h : (n < 2)%nat -> quiet a0 a1 h ->
  ans a0 a1 n (msgs a0 a1 n h) = bits reply -> Forall byte reply -> length reply = length cmd ->
  exists h', mpr_exchange (bus a0 a1) n cmd h = (h', reply) /\ quiet a0 a1 h' /\ msgs a0 a1 n h' = msgs a0 a1 n h ++ [bits cmd] /\
    msgs a0 a1 (1 - n) h' = msgs a0 a1 (1 - n) h /\ h' = Cs n true :: rev (transfer (bits cmd) (bits reply)) ++ Cs n false :: h.
Proof.
  intros N (S0 & C0 & S1 & C1) A F L. unfold mpr_exchange.
  set (h1 := mpr_select n h). assert (H1 : h1 = Cs n false :: h) by (unfold h1, mpr_select; destruct n as [|[|n]]; try lia; reflexivity).
  rewrite softspi_clock. pose proof (clock_trace (bus a0 a1) (bits cmd) h1) as T.
  assert (R8 : forall l : list bool, length l = length (bits cmd) -> map (fun i => nth i l false) (seq 0 (length (bits cmd))) = l).
  { intros l <-. clear. induction l as [|x l IH]; auto. cbn [length seq map]. f_equal. rewrite <- seq_shift, map_map. exact IH. }
  destruct n as [|[|n]]; [| |lia].
  - unfold ans, msgs in *. cbn [Nat.eqb Nat.sub] in *.
    assert (D0 : dev 0 a0 h1 = mkDev true false (mosi (dev 0 a0 h)) (bits reply) [] (messages (dev 0 a0 h))) by (rewrite H1, dev_cons; cbn [dev_step Nat.eqb negb]; now rewrite C0, A).
    assert (D1 : dev 1 a1 h1 = dev 1 a1 h) by (rewrite H1, dev_cons; reflexivity).
    pose proof (dev_transfer 0 a0 (bus a0 a1)) as X. specialize (X ltac:(intros g G; unfold bus; rewrite G; reflexivity) (bits cmd) h1). rewrite D0 in X. specialize (X eq_refl eq_refl).
    pose proof (dev_transfer_idle 1 a1 (bus a0 a1) (bits cmd) h1) as Y. rewrite D1 in Y. specialize (Y S1 C1).
    destruct (clock (bus a0 a1) h1 (bits cmd)) as [h2 r]. cbn [fst snd shown got messages] in *. destruct X as (X1 & X2 & X3 & X4 & X5 & X6). destruct Y as (Y1 & Y2 & Y3).
    rewrite R8 in X6 by now rewrite !bits_length, L. subst r. rewrite <- L, chunks_of_bits by auto.
    exists (Cs 0 true :: h2). split; [reflexivity|]. unfold quiet. rewrite !dev_cons. cbn [dev_step Nat.eqb negb]. rewrite X1. cbn [sel clk messages].
    split; [now rewrite X2|]. split; [now rewrite X3, X4|]. split; [exact Y3|]. now rewrite T, H1.
  - unfold ans, msgs in *. cbn [Nat.eqb Nat.sub] in *.
    assert (D0 : dev 1 a1 h1 = mkDev true false (mosi (dev 1 a1 h)) (bits reply) [] (messages (dev 1 a1 h))) by (rewrite H1, dev_cons; cbn [dev_step Nat.eqb negb]; now rewrite C1, A).
    assert (D1 : dev 0 a0 h1 = dev 0 a0 h) by (rewrite H1, dev_cons; reflexivity).
    assert (K : let '(h', r) := clock (bus a0 a1) h1 (bits cmd) in sel (dev 1 a1 h') = true /\ clk (dev 1 a1 h') = false /\ got (dev 1 a1 h') = bits cmd /\ messages (dev 1 a1 h') = messages (dev 1 a1 h) /\
      r = bits reply /\ sel (dev 0 a0 h') = false /\ clk (dev 0 a0 h') = false /\ messages (dev 0 a0 h') = messages (dev 0 a0 h)).
    { (* the bus agrees with device 1 as long as device 0 is idle *)
      set (w := bus a0 a1).
      assert (CL : forall bs g, sel (dev 1 a1 g) = true -> clk (dev 1 a1 g) = false -> sel (dev 0 a0 g) = false ->
        clock w g bs = clock (fun g => hd false (shown (dev 1 a1 g))) g bs).
      { induction bs as [|b bs IH]; intros g G1 G2 G3; cbn [clock]; auto.
        assert (W : w (Sck true :: Mosi b :: g) = hd false (shown (dev 1 a1 (Sck true :: Mosi b :: g)))).
        { unfold w, bus. rewrite !dev_cons. cbn [dev_step sel clk]. rewrite G3, G1, G2. cbn [negb andb sel]. reflexivity. }
        rewrite W. set (s := hd false _). rewrite IH; [reflexivity| | |]; rewrite !dev_cons; cbn [dev_step sel clk]; rewrite ?G1, ?G2, ?G3; reflexivity. }
      rewrite CL by (rewrite ?D0, ?D1; auto).
      pose proof (dev_transfer 1 a1 (fun g => hd false (shown (dev 1 a1 g))) (fun g _ => eq_refl) (bits cmd) h1) as X. rewrite D0 in X. specialize (X eq_refl eq_refl).
      pose proof (dev_transfer_idle 0 a0 (fun g => hd false (shown (dev 1 a1 g))) (bits cmd) h1) as Y. rewrite D1 in Y. specialize (Y S0 C0).
      clear T. destruct (clock (fun g : history => hd false (shown (dev 1 a1 g))) h1 (bits cmd)) as [h2 r]. cbn [fst snd shown got messages] in *. destruct X as (X1 & X2 & X3 & X4 & X5 & X6). destruct Y as (Y1 & Y2 & Y3).
      rewrite R8 in X6 by now rewrite !bits_length, L. repeat split; auto. }
    destruct (clock (bus a0 a1) h1 (bits cmd)) as [h2 r]. cbn [fst snd] in *. destruct K as (X1 & X2 & X3 & X4 & -> & Y1 & Y2 & Y3).
    rewrite <- L, chunks_of_bits by auto.
    exists (Cs 1 true :: h2). split; [reflexivity|]. unfold quiet. rewrite !dev_cons. cbn [dev_step Nat.eqb negb]. rewrite X1. cbn [sel clk messages].
    split; [now rewrite X2|]. split; [now rewrite X3, X4|]. split; [exact Y3|]. now rewrite T, H1.
Qed.

Lemma quiet_skip a0 a1 e h : (exists b, e = Rst b) \/ (exists n, e = Sleep n) -> quiet a0 a1 h -> quiet a0 a1 (e :: h) /\ forall n, msgs a0 a1 n (e :: h) = msgs a0 a1 n h.
Proof. intros [(b & ->)|(n & ->)] Q; split; auto. Qed.

(** ** Decoding *)
Lemma data_number b3 b2 b1 : byte b1 -> byte b2 -> byte b3 ->
  u32 (Z.lor (Z.lor (Z.lor 0 (Z.shiftl b3 0)) (Z.shiftl b2 8)) (Z.shiftl b1 16)) = 65536 * b1 + 256 * b2 + b3.
Proof.
  unfold byte. intros A B C. rewrite Z.lor_0_l, Z.shiftl_0_r.
  assert (E1 : Z.lor b3 (Z.shiftl b2 8) = 256 * b2 + b3).
  { rewrite Z.lor_comm. rewrite (Z.shiftl_mul_pow2 b2 8) by lia. change (2 ^ 8) with 256.
    assert (Z0 : Z.land (b2 * 256) b3 = 0). { apply Z.bits_inj'. intros n N. rewrite Z.land_spec, Z.bits_0. change 256 with (2 ^ 8). destruct (Z_lt_le_dec n 8); [now rewrite Z.mul_pow2_bits_low by lia|].
      replace b3 with (b3 mod 2 ^ 8) by (apply Z.mod_small; lia). rewrite Z.mod_pow2_bits_high by lia. now rewrite andb_false_r. }
    rewrite <- Z.lxor_lor, <- Z.add_nocarry_lxor by exact Z0. lia. }
  rewrite E1.
  assert (E2 : Z.lor (256 * b2 + b3) (Z.shiftl b1 16) = 65536 * b1 + 256 * b2 + b3).
  { rewrite Z.lor_comm. rewrite (Z.shiftl_mul_pow2 b1 16) by lia. change (2 ^ 16) with 65536.
    assert (Z0 : Z.land (b1 * 65536) (256 * b2 + b3) = 0). { apply Z.bits_inj'. intros n N. rewrite Z.land_spec, Z.bits_0. change 65536 with (2 ^ 16). destruct (Z_lt_le_dec n 16); [now rewrite Z.mul_pow2_bits_low by lia|].
      replace (256 * b2 + b3) with ((256 * b2 + b3) mod 2 ^ 16) by (apply Z.mod_small; lia). rewrite Z.mod_pow2_bits_high by lia. now rewrite andb_false_r. }
    rewrite <- Z.lxor_lor, <- Z.add_nocarry_lxor by exact Z0. lia. }
  rewrite E2. apply uN_id. lia.
Qed.

(** ** Conversion *)
Lemma pascal_range rnd raw : rounding rnd -> 1677722 <= raw <= 15099494 -> (0 <= mpr_pressure_raw_to_pascal rnd raw <= inject_Z 103422)%Q.
Proof.
  intros [MONO FIX] R. unfold mpr_pressure_raw_to_pascal.
  assert (P : forall a b, (a == b)%Q -> (rnd a == rnd b)%Q) by (intros a b E; apply Qle_antisym; apply MONO; rewrite E; apply Qle_refl).
  assert (E1 : (rnd (inject_Z raw - inject_Z 1677722) == inject_Z (raw - 1677722))%Q).
  { rewrite (P _ (inject_Z (raw - 1677722))); [apply FIX; lia|]. unfold Qminus. now rewrite <- inject_Z_opp, <- inject_Z_plus. }
  assert (E2 : (rnd (inject_Z 15099494 - inject_Z 1677722) == inject_Z 13421772)%Q) by (rewrite (P _ (inject_Z 13421772)); [apply FIX; lia|reflexivity]).
  set (d := (rnd _ / rnd _)%Q).
  assert (D : (d == inject_Z (raw - 1677722) / inject_Z 13421772)%Q) by (unfold d; now rewrite E1, E2).
  assert (D0 : (inject_Z 0 <= d)%Q). { rewrite D. apply Qle_shift_div_l; [reflexivity|]. rewrite Qmult_0_l. change 0%Q with (inject_Z 0). rewrite <- Zle_Qle. lia. }
  assert (D1 : (d <= inject_Z 1)%Q). { rewrite D. apply Qle_shift_div_r; [reflexivity|]. rewrite Qmult_1_l. rewrite <- Zle_Qle. lia. }
  apply MONO in D0, D1. rewrite FIX in D0, D1 by lia.
  split.
  - assert (X : (inject_Z 0 <= rnd d * inject_Z 103422)%Q) by (apply Qmult_le_0_compat; [exact D0|discriminate]). apply MONO in X. rewrite FIX in X by lia. exact X.
  - assert (X : (rnd d * inject_Z 103422 <= inject_Z 103422)%Q). { rewrite <- (Qmult_1_l (inject_Z 103422)) at 2. apply Qmult_le_compat_r; [exact D1|discriminate]. }
    apply MONO in X. rewrite FIX in X by lia. exact X.
Qed.
Lemma pascal_mono rnd a b : rounding rnd -> 0 <= a <= b -> b < 2 ^ 24 -> (mpr_pressure_raw_to_pascal rnd a <= mpr_pressure_raw_to_pascal rnd b)%Q.
Proof.
  intros [MONO FIX] R B. unfold mpr_pressure_raw_to_pascal.
  assert (P : forall a b, (a == b)%Q -> (rnd a == rnd b)%Q) by (intros x y E; apply Qle_antisym; apply MONO; rewrite E; apply Qle_refl).
  assert (E2 : (rnd (inject_Z 15099494 - inject_Z 1677722) == inject_Z 13421772)%Q) by (rewrite (P _ (inject_Z 13421772)); [apply FIX; lia|reflexivity]).
  apply MONO, Qmult_le_compat_r; [|discriminate]. apply MONO. rewrite E2. unfold Qdiv. apply Qmult_le_compat_r; [|discriminate].
  apply MONO. apply Qplus_le_compat; [rewrite <- Zle_Qle; lia|apply Qle_refl].
Qed.
Lemma to_uint32_ok q B : (0 <= q <= inject_Z B)%Q -> B < 2 ^ 32 -> exists z, to_uint32 q = OK z /\ 0 <= z <= B /\ (inject_Z z <= q < inject_Z (z + 1))%Q.
Proof.
  intros [L U] BB. unfold to_uint32. destruct q as [n d]. cbn [Qnum Qden]. unfold Qle in *. cbn in L, U.
  assert (N : 0 <= n) by lia. rewrite Z.quot_div_nonneg by lia.
  pose proof (Z.div_mod n (Zpos d) ltac:(lia)). pose proof (Z.mod_pos_bound n (Zpos d) ltac:(lia)). pose proof (Z.div_pos n (Zpos d) N ltac:(lia)).
  assert (n / Zpos d <= B) by (apply Z.div_le_upper_bound; lia).
  replace ((0 <=? n / Zpos d) && (n / Zpos d <? 2 ^ 32)) with true by lia.
  exists (n / Zpos d). split; [reflexivity|]. split; [lia|]. unfold Qlt. cbn. nia.
Qed.
