From Coq Require Import ZArith List Bool Lia.
From Verif Require Import TofModel TofSpec.
Import ListNotations.
Local Open Scope Z_scope.

Section Env.
Variables (meas : nat -> measure) (cols : nat -> color).
Local Notation tick := (tick meas).
Local Notation rd := (vl6180x_read_register meas cols).
Local Notation wr := (vl6180x_write_register meas cols).

Definition setdev (w : world) (d : vl) : world := mkw d (col w) [] (junk w).

Lemma split_reg r : 0 <= r -> r / 256 * 256 + Z.land r 255 = r.
Proof. intro H. change 255 with (Z.ones 8). rewrite Z.land_ones by lia. change (2 ^ 8) with 256. pose proof (Z.div_mod r 256). lia. Qed.
Lemma tick_addr d : v_addr (tick d) = v_addr d.
Proof. unfold TofModel.tick. destruct (md d) as [|[]|[]]; reflexivity. Qed.

Lemma rd_ok w r : faults w = [] -> v_addr (dev w) = 0x2A -> 0 <= r -> rd w 0x2A r = (setdev w (tick (dev w)), vl_read (tick (dev w)) r).
Proof.
  intros F A R. unfold vl6180x_read_register, transfer. rewrite F, tick_addr, A. cbn [tl Z.eqb Pos.eqb].
  unfold vl_transfer. rewrite split_reg by exact R. unfold setdev. destruct (col w); reflexivity.
Qed.
Lemma wr_ok w r v : faults w = [] -> v_addr (dev w) = 0x2A -> 0 <= r -> wr w 0x2A r v = setdev w (vl_write meas (tick (dev w)) r v).
Proof.
  intros F A R. unfold vl6180x_write_register, transfer. rewrite F, tick_addr, A. cbn [tl Z.eqb Pos.eqb].
  unfold vl_transfer. rewrite split_reg by exact R. unfold setdev. destruct (col w); reflexivity.
Qed.

Definition setmd (d : vl) (m : mode) : vl := mkvl (v_addr d) (fresh d) (regs d) m (intr d) (rval d) (err d) (starts d).
Lemma setmd_id d m : md d = m -> setmd d m = d.
Proof. intros <-. now destruct d. Qed.
Lemma setmd_setmd d m m' : setmd (setmd d m) m' = setmd d m'.
Proof. reflexivity. Qed.
Lemma setdev_setdev w d d' : setdev (setdev w d) d' = setdev w d'.
Proof. reflexivity. Qed.

Definition rest (m : mode) : nat := match m with Ready => 0 | Recover n => S n | Measuring _ => 0 end.
Lemma wait_ready fuel : forall w, faults w = [] -> v_addr (dev w) = 0x2A -> (exists n, md (dev w) = Recover n) \/ md (dev w) = Ready -> 0 <= err (dev w) ->
  (rest (md (dev w)) < fuel + (if match md (dev w) with Ready => true | _ => false end then 0 else 1))%nat -> (0 < fuel)%nat ->
  wait_bit meas cols fuel w 0x2A RESULT__RANGE_STATUS 0 = Some (setdev w (setmd (dev w) Ready), err (dev w) * 16 + 1).
Proof.
  induction fuel as [|fuel IH]; intros w F A M E L P; [lia|]. cbn [wait_bit]. rewrite (rd_ok w _ F A) by (unfold RESULT__RANGE_STATUS; lia).
  assert (O : forall x, 0 <= x -> Z.land (x * 16 + 1) (Z.shiftl 1 0) = 1).
  { intros x H. change (Z.shiftl 1 0) with (Z.ones 1). rewrite Z.land_ones by lia. change (2 ^ 1) with 2. replace (x * 16 + 1) with (1 + x * 8 * 2) by lia. now rewrite Z.mod_add by lia. }
  assert (Ev : forall x, 0 <= x -> Z.land (x * 16 + 0) (Z.shiftl 1 0) = 0).
  { intros x H. change (Z.shiftl 1 0) with (Z.ones 1). rewrite Z.land_ones by lia. change (2 ^ 1) with 2. replace (x * 16 + 0) with (0 + x * 8 * 2) by lia. now rewrite Z.mod_add by lia. }
  destruct M as [[n M]|M].
  - unfold TofModel.tick. rewrite M in *. cbn [rest] in L. destruct n as [|n].
    + unfold vl_read. cbn -[Z.land Z.shiftl Z.mul Z.add setdev]. rewrite O by exact E. cbn -[Z.mul Z.add setdev]. unfold setmd. reflexivity.
    + unfold vl_read. cbn -[Z.land Z.shiftl Z.mul Z.add setdev wait_bit]. rewrite Ev by exact E. cbn -[Z.mul Z.add setdev wait_bit].
      rewrite IH; cbn [setdev faults dev v_addr md rest err]; auto; try lia. left. now exists n.
  - unfold TofModel.tick. rewrite M in *. unfold vl_read. rewrite M. cbn -[Z.land Z.shiftl Z.mul Z.add setdev]. rewrite O by exact E. cbn -[Z.mul Z.add setdev].
    now rewrite setmd_id.
Qed.

(** The state of the sensor when its sample is there. *)
Definition sampled (d : vl) : vl :=
  let m := meas (Nat.pred (starts d)) in mkvl (v_addr d) (fresh d) (regs d) (Recover (m_recover m)) 4 (m_mm m) (m_error m) (starts d).
Lemma wait_sample fuel : forall w n, faults w = [] -> v_addr (dev w) = 0x2A -> md (dev w) = Measuring n -> intr (dev w) = 0 ->
  regs (dev w) SYSTEM__INTERRUPT_CONFIG_GPIO = 0x24 -> (n < fuel)%nat ->
  wait_bit meas cols fuel w 0x2A RESULT__INTERRUPT_STATUS_GPIO 2 = Some (setdev w (sampled (dev w)), 4).
Proof.
  induction fuel as [|fuel IH]; intros w n F A M I R L; [lia|]. cbn [wait_bit]. rewrite (rd_ok w _ F A) by (unfold RESULT__INTERRUPT_STATUS_GPIO; lia).
  unfold TofModel.tick. rewrite M. destruct n as [|n].
  - rewrite R. unfold vl_read. cbn -[setdev]. reflexivity.
  - unfold vl_read. cbn -[setdev wait_bit]. rewrite I. cbn -[setdev wait_bit]. rewrite (IH _ n); cbn [setdev faults dev v_addr md intr regs]; auto; try lia.
Qed.

Definition good (w : world) : Prop :=
  faults w = [] /\ v_addr (dev w) = 0x2A /\ md (dev w) = Ready /\ intr (dev w) = 0 /\ 0 <= err (dev w) /\ regs (dev w) SYSTEM__INTERRUPT_CONFIG_GPIO = 0x24.

Lemma measure_ok fuel w k : good w -> starts (dev w) = k -> 0 <= m_error (meas k) < 16 -> (m_delay (meas k) + 1 < fuel)%nat -> (m_recover (meas k) + 1 < fuel)%nat ->
  exists w', vl6180x_measure_distance meas cols fuel w 0x2A = Some (w', m_error (meas k), m_mm (meas k)) /\ good w' /\ starts (dev w') = S k /\ col w' = col w.
Proof.
  intros (F & A & M & I & E & R) K C L1 L2. unfold vl6180x_measure_distance.
  rewrite (wait_ready fuel w F A (or_intror M) E) by (rewrite ?M; cbn [rest]; lia). rewrite (setmd_id _ _ M).
  rewrite (wr_ok (setdev w (dev w)) _ _ eq_refl A) by (unfold SYSRANGE__START; lia). rewrite setdev_setdev. cbn [dev setdev].
  assert (T : tick (dev w) = dev w) by (unfold TofModel.tick; now rewrite M). rewrite T. unfold vl_write at 1. cbn [Z.eqb Pos.eqb SYSRANGE__START SYSTEM__FRESH_OUT_OF_RESET I2C_SLAVE__DEVICE_ADDRESS SYSTEM__INTERRUPT_CLEAR].
  rewrite M. cbn [Z.testbit Z.odd]. rewrite K.
  erewrite wait_sample; [|reflexivity|exact A|reflexivity|exact I|exact R|lia]. rewrite setdev_setdev. cbn [dev setdev].
  rewrite rd_ok; [|reflexivity|exact A|unfold RESULT__RANGE_VAL; lia]. cbn [dev setdev]. rewrite setdev_setdev.
  rewrite wr_ok; [|reflexivity|cbn [dev setdev]; rewrite ?tick_addr; exact A|unfold SYSTEM__INTERRUPT_CLEAR; lia]. cbn [dev setdev]. rewrite setdev_setdev.
  unfold sampled. cbn [starts Nat.pred v_addr fresh regs].
  set (d0 := mkvl (v_addr (dev w)) (fresh (dev w)) (regs (dev w)) (Recover (m_recover (meas k))) 4 (m_mm (meas k)) (m_error (meas k)) (S k)).
  assert (Rec : forall d n, md d = Recover n -> exists m, tick d = setmd d m /\ (m = Ready \/ exists n', m = Recover n' /\ (n' < n)%nat)).
  { intros d n Hd. unfold TofModel.tick. rewrite Hd. destruct n as [|n]; [exists Ready; split; [reflexivity|now left]|].
    exists (Recover n). split; [reflexivity|]. right. exists n. split; [reflexivity|lia]. }
  assert (T1 : exists m1, tick d0 = setmd d0 m1 /\ (m1 = Ready \/ exists n', m1 = Recover n' /\ (n' <= m_recover (meas k))%nat)).
  { destruct (Rec d0 _ eq_refl) as (m1 & H1 & H2). exists m1. split; [exact H1|]. destruct H2 as [->|(n' & -> & L)]; [now left|]. right. exists n'. split; [reflexivity|lia]. }
  destruct T1 as (m1 & T1 & M1). rewrite T1.
  assert (T2 : exists m2, tick (setmd d0 m1) = setmd d0 m2 /\ (m2 = Ready \/ exists n', m2 = Recover n' /\ (n' <= m_recover (meas k))%nat)).
  { destruct M1 as [->|(n' & -> & Ln)].
    - exists Ready. split; [reflexivity|now left].
    - destruct (Rec (setmd d0 (Recover n')) _ eq_refl) as (m2 & H1 & H2). exists m2. rewrite setmd_setmd in H1. split; [exact H1|].
      destruct H2 as [->|(n2 & -> & L)]; [now left|]. right. exists n2. split; [reflexivity|lia]. }
  destruct T2 as (m2 & T2 & M2). rewrite T2. replace (vl_read (setmd d0 m1) RESULT__RANGE_VAL) with (m_mm (meas k)) by reflexivity.
  unfold vl_write. cbn [Z.eqb Pos.eqb SYSRANGE__START SYSTEM__FRESH_OUT_OF_RESET I2C_SLAVE__DEVICE_ADDRESS SYSTEM__INTERRUPT_CLEAR Z.testbit Z.odd].
  cbn [setmd d0 v_addr fresh regs md intr rval err starts].
  rewrite wait_ready; cbn [setdev dev faults v_addr md err]; auto; try lia.
  - cbn [setdev setmd dev v_addr fresh regs intr rval err starts]. eexists. split.
    + replace (Z.shiftr (m_error (meas k) * 16 + 1) 4) with (m_error (meas k)); [reflexivity|]. rewrite Z.shiftr_div_pow2 by lia. change (2 ^ 4) with 16. apply Z.div_unique with 1; lia.
    + split; [|split; reflexivity]. repeat split; cbn [dev setdev setmd faults v_addr md intr err regs]; auto; try apply C.
  - destruct M2 as [->|(n' & -> & Ln)]; [now right|left; now exists n'].
  - destruct M2 as [->|(n' & -> & Ln)]; cbn [rest]; lia.
Qed.

(** ** The color sensor *)
Lemma lor_word x : 0 <= x < 65536 -> Z.lor (low x) (Z.shiftl (high x) 8) = x.
Proof.
  intro H. unfold low, high. change 256 with (2 ^ 8). rewrite <- Z.land_ones, <- Z.shiftr_div_pow2 by lia. apply Z.bits_inj'. intros n Hn.
  rewrite Z.lor_spec, Z.land_spec. destruct (Z.ltb_spec n 8).
  - rewrite Z.ones_spec_low, Z.shiftl_spec_low by lia. now rewrite andb_true_r, orb_false_r.
  - rewrite Z.ones_spec_high, Z.shiftl_spec_high, Z.shiftr_spec by lia. rewrite andb_false_r. cbn [orb]. f_equal. lia.
Qed.
Lemma color_ok w t : faults w = [] -> v_addr (dev w) = 0x2A -> md (dev w) = Ready -> col w = Some t -> words cols ->
  let c := cols (reads t) in
  color_publish meas cols w = (mkw (dev w) (Some (mktcs (t_regs t) (S (reads t)))) [] (junk w), Color (c_red c) (c_green c) (c_blue c) (c_clear c)).
Proof.
  intros F A M C W c. unfold color_publish, TCS3472_read_color, transfer. assert (T : tick (dev w) = dev w) by (unfold TofModel.tick; now rewrite M).
  rewrite F, T, A, C. change (Z.lor 0x14 TCS3472_CMD_AUTO_INC) with 0xB4. cbn -[Z.lor Z.shiftl low high]. fold c. destruct (W (reads t)) as (W1 & W2 & W3 & W4). fold c in W1, W2, W3, W4. now rewrite !lor_word.
Qed.

(** ** The start *)
Definition quiet (w : world) : Prop := faults w = [] /\ v_addr (dev w) = 0x2A /\ md (dev w) = Ready.
Definition plain (r : Z) : bool := (0 <=? r) && negb ((r =? 0x16) || (r =? 0x212) || (r =? 0x15) || (r =? 0x18)).
Lemma wr_plain w r v : quiet w -> plain r = true ->
  wr w 0x2A r v = setdev w (mkvl (v_addr (dev w)) (fresh (dev w)) (put (regs (dev w)) r v) Ready (intr (dev w)) (rval (dev w)) (err (dev w)) (starts (dev w))).
Proof.
  intros (F & A & M) P. unfold plain in P. apply andb_true_iff in P as [P0 P]. apply negb_true_iff in P. rewrite !orb_false_iff in P. destruct P as [[[P1 P2] P3] P4].
  rewrite wr_ok by (auto; lia). assert (T : tick (dev w) = dev w) by (unfold TofModel.tick; now rewrite M). rewrite T. unfold vl_write.
  unfold SYSTEM__FRESH_OUT_OF_RESET, I2C_SLAVE__DEVICE_ADDRESS, SYSTEM__INTERRUPT_CLEAR, SYSRANGE__START. rewrite P1, P2, P3, P4, M. reflexivity.
Qed.
Lemma tab_ok l : forall w, quiet w -> forallb (fun e => plain (fst e)) l = true ->
  exists f, fold_left (fun w e => wr w 0x2A (fst e) (snd e)) l w =
    setdev w (mkvl (v_addr (dev w)) (fresh (dev w)) f Ready (intr (dev w)) (rval (dev w)) (err (dev w)) (starts (dev w))) /\
    f = fold_left (fun f e => put f (fst e) (snd e)) l (regs (dev w)).
Proof.
  induction l as [|[r v] l IH]; intros w Q P; cbn [fold_left].
  - exists (regs (dev w)). split; [|reflexivity]. destruct Q as (F & _ & M). destruct w as [[] c f j]; cbn in *. subst. reflexivity.
  - cbn [forallb fst] in P. apply andb_true_iff in P as [P1 P2]. cbn [fst snd]. rewrite wr_plain by assumption.
    destruct (IH (setdev w (mkvl (v_addr (dev w)) (fresh (dev w)) (put (regs (dev w)) r v) Ready (intr (dev w)) (rval (dev w)) (err (dev w)) (starts (dev w))))) as (f & E & Ef).
    + destruct Q as (F & A & M). repeat split; assumption.
    + exact P2.
    + exists f. rewrite E. split; [reflexivity|exact Ef].
Qed.

Lemma init_ok fuel w : faults w = [] -> (0 < fuel)%nat ->
  exists w', tof_distance_init meas cols fuel w = Some (w', 0x2A, true) /\ faults w' = [] /\ junk w' = junk w /\ col w' = col w /\ starts (dev w') = starts (dev w) /\
    configured (dev w') /\ 0 <= err (dev w').
Proof.
  intros F Fu. unfold tof_distance_init, vl6180x_change_i2c_address.
  set (w0 := mkw _ _ _ _).
  assert (E0 : wr w0 VL6180X_ADDRESS_0 I2C_SLAVE__DEVICE_ADDRESS VL6180X_ADDRESS_MOD = mkw (mkvl 0x2A 1 (fun _ => 0) Ready 0 0 0 (starts (dev w))) (col w) [] (junk w)).
  { unfold vl6180x_write_register, transfer, w0. cbn [faults dev col]. rewrite F. destruct (col w) as [[]|]; reflexivity. }
  rewrite E0. unfold vl6180x_ping. change VL6180X_ADDRESS_MOD with 0x2A. rewrite rd_ok by (cbn; auto; unfold IDENTIFICATION__MODEL_ID; lia). cbn [dev].
  unfold vl6180x_configure. destruct fuel as [|fuel]; [lia|]. cbn [wait_fresh]. rewrite rd_ok by (cbn; auto; lia).
  cbn [vl_read TofModel.tick md dev setdev fresh Z.eqb Pos.eqb SYSTEM__FRESH_OUT_OF_RESET IDENTIFICATION__MODEL_ID]. rewrite wr_ok by (cbn; auto; lia).
  cbn [vl_write TofModel.tick md dev setdev fresh Z.eqb Pos.eqb SYSTEM__FRESH_OUT_OF_RESET col junk].
  match goal with |- context [fold_left _ init_tab ?w1] => destruct (tab_ok init_tab w1) as (f & E & Ef) end.
  - repeat split.
  - reflexivity.
  - rewrite E. eexists. split; [reflexivity|]. cbn [setdev dev faults junk col starts v_addr]. do 4 (split; [reflexivity|]). split; [|cbn; lia].
    split; [reflexivity|]. split; [reflexivity|]. split; [reflexivity|]. split; [reflexivity|].
    intros r v I. cbn [regs]. rewrite Ef. cbn [regs dev setdev]. unfold recommended in I. cbn [In] in I.
    repeat (destruct I as [I|I]; [injection I as <- <-; vm_compute; reflexivity|]). contradiction.
Qed.

Lemma color_init_ok w t : faults w = [] -> v_addr (dev w) = 0x2A -> md (dev w) = Ready -> col w = Some t ->
  exists t', color_sensor_init meas cols w = (mkw (dev w) (Some t') [] (junk w), true) /\ color_configured t' /\ reads t' = reads t.
Proof.
  intros F A M C. destruct w as [d c fs j]. cbn [faults dev col] in *. subst fs c.
  unfold color_sensor_init, TCS3472_ping, TCS3472_read_reg, TCS3472_configure, TCS3472_write_reg.
  assert (T : tick d = d) by (unfold TofModel.tick; now rewrite M).
  assert (Tr : forall t r v, 0 <= r < 32 -> fst (transfer meas cols (mkw d (Some t) [] j) 0x29 [Z.lor r 0xA0; v] 0) = mkw d (Some (mktcs (put (t_regs t) r v) (reads t))) [] j).
  { intros t0 r v R. unfold transfer. cbn [faults dev col tl]. rewrite T, A. cbn [Z.eqb Pos.eqb]. unfold tcs_transfer.
    assert (Tb : Z.testbit (Z.lor r 0xA0) 7 = true) by (rewrite Z.lor_spec; change (Z.testbit 0xA0 7) with true; apply orb_true_r).
    assert (La : Z.land (Z.lor r 0xA0) 31 = r).
    { rewrite Z.land_lor_distr_l. change (Z.land 0xA0 31) with 0. rewrite Z.lor_0_r. change 31 with (Z.ones 5). rewrite Z.land_ones by lia. change (2 ^ 5) with 32. now apply Z.mod_small. }
    rewrite Tb, La. reflexivity. }
  assert (P : transfer meas cols (mkw d (Some t) [] j) TCS3472X_I2C_ADDR [Z.lor 0x12 TCS3472_CMD_AUTO_INC] 1 = (mkw d (Some t) [] j, Some [0x44])).
  { unfold transfer. cbn [faults dev col tl]. rewrite T, A. cbn. reflexivity. }
  rewrite P. change TCS3472X_I2C_ADDR with 0x29. change TCS3472_CMD_AUTO_INC with 0xA0. rewrite !Tr by lia. eexists. split; [reflexivity|]. split; [|reflexivity].
  repeat split.
Qed.

Definition reading (use_color : bool) (w : world) (c : nat) : Prop := use_color = true -> exists t, col w = Some t /\ reads t = c.
Lemma loop_ok fuel use n : forall w k c, good w -> starts (dev w) = k -> codes meas -> words cols -> patient fuel meas k n -> reading use w c ->
  exists w', loop meas cols fuel use n w 0x2A = Some (w', expected meas cols use k c n).
Proof.
  induction n as [|n IH]; intros w k c G K Co Wo P Rd.
  - exists w. reflexivity.
  - destruct P as [P0 P]. pose proof (P 0%nat ltac:(lia)) as [L1 L2]. rewrite Nat.add_0_r in L1, L2.
    destruct (measure_ok fuel w k G K (Co k) L1 L2) as (w1 & E1 & G1 & K1 & C1). cbn [loop]. unfold distance_publish. rewrite E1.
    assert (P' : patient fuel meas (S k) n).
    { split; [exact P0|]. intros i Hi. specialize (P (S i) ltac:(lia)). replace (S k + i)%nat with (k + S i)%nat by lia. exact P. }
    assert (Ex : expected meas cols use k c (S n) =
      (Distance (m_mm (meas k)) (m_error (meas k)) :: (if use then [Color (c_red (cols c)) (c_green (cols c)) (c_blue (cols c)) (c_clear (cols c))] else []))
      ++ expected meas cols use (S k) (S c) n).
    { unfold expected. cbn [seq flat_map]. rewrite !Nat.add_0_r. f_equal. rewrite <- seq_shift, !flat_map_concat_map, map_map. f_equal. apply map_ext. intro i.
      now rewrite <- !plus_n_Sm. }
    rewrite Ex, Z.mod_small by apply Co. destruct use.
    + destruct (Rd eq_refl) as (t & Ct & Rt). destruct G1 as (F1 & A1 & M1 & I1 & E1' & R1).
      rewrite (color_ok w1 t F1 A1 M1) by (auto; rewrite C1; exact Ct). rewrite Rt.
      destruct (IH (mkw (dev w1) (Some (mktcs (t_regs t) (S c))) [] (junk w1)) (S k) (S c)) as (w' & E'); auto.
      * repeat split; auto.
      * intros _. eexists. split; reflexivity.
      * rewrite E'. exists w'. reflexivity.
    + destruct (IH w1 (S k) (S c)) as (w' & E'); auto.
      * intro H. discriminate.
      * rewrite E'. exists w'. reflexivity.
Qed.
End Env.
