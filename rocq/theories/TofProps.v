(** * C104: the distances and colors broadcast by the sensor board *)
From Coq Require Import ZArith List Bool Lia.
From Verif Require Import TofModel TofSpec TofProofs.
Import ListNotations.
Local Open Scope Z_scope.

(** Both sensors answer at the address 0x29 when they are switched on.  Whatever state they were left in, the start
    moves the distance sensor to 0x2A, sets all its recommended registers, finds it, and changes nothing in the
    color sensor. *)
Theorem tof_start : forall meas cols fuel w, faults w = [] -> (0 < fuel)%nat ->
  exists w', tof_distance_init meas cols fuel w = Some (w', 0x2A, true) /\ configured (dev w') /\ col w' = col w /\ starts (dev w') = starts (dev w).
Proof.
  intros meas cols fuel w F Fu. destruct (init_ok meas cols fuel w F Fu) as (w' & E & _ & _ & C & S' & Cf & _). exists w'. repeat split; auto; apply Cf.
Qed.
(** Then the color sensor is found and set, and nothing changes in the distance sensor. *)
Theorem tof_color_start : forall meas cols w t, faults w = [] -> configured (dev w) -> col w = Some t ->
  exists w' t', color_sensor_init meas cols w = (w', true) /\ dev w' = dev w /\ col w' = Some t' /\ color_configured t' /\ reads t' = reads t.
Proof.
  intros meas cols w t F (A & M & _) C. destruct (color_init_ok meas cols w t F A M C) as (t' & E & Ct & R). rewrite E. do 2 eexists. repeat split; try reflexivity; apply Ct || exact R.
Qed.
(** After the start the board sends, turn after turn, each measurement of the distance sensor once and in order, with
    its own error code, and each reading of the color sensor, every channel in its place, provided that no transfer
    fails and that the sensor answers. *)
Theorem tof_exact_partial : forall meas cols fuel use_color n w c, codes meas -> words cols -> faults w = [] ->
  patient fuel meas (starts (dev w)) n -> (use_color = true -> exists t, col w = Some t /\ reads t = c) ->
  exists w', main meas cols fuel use_color n w = Some (w', expected meas cols use_color (starts (dev w)) c n).
Proof.
  intros meas cols fuel use n w c Co Wo F P Rd. unfold main.
  destruct (init_ok meas cols fuel w F ltac:(destruct P; lia)) as (w1 & E1 & F1 & J1 & C1 & S1 & (A & M & I & Fr & Tab) & Er). rewrite E1.
  assert (R : regs (dev w1) SYSTEM__INTERRUPT_CONFIG_GPIO = 0x24) by (apply Tab; unfold recommended; cbn [In]; tauto).
  destruct use.
  - destruct (Rd eq_refl) as (t & Ct & Rt). rewrite <- C1 in Ct. destruct (color_init_ok meas cols w1 t F1 A M Ct) as (t' & E & _ & R'). rewrite E. cbn [fst].
    apply loop_ok; auto.
    + repeat split; auto.
    + intros _. exists t'. split; [reflexivity|congruence].
  - apply loop_ok; auto.
    + repeat split; auto.
    + discriminate.
Qed.
(** A distance sensor alone needs no color sensor at all. *)
Theorem tof_distance_only : forall meas cols fuel n w, codes meas -> words cols -> faults w = [] -> patient fuel meas (starts (dev w)) n ->
  exists w', main meas cols fuel false n w =
    Some (w', map (fun i => Distance (m_mm (meas (starts (dev w) + i)%nat)) (m_error (meas (starts (dev w) + i)%nat))) (seq 0 n)).
Proof.
  intros meas cols fuel n w Co Wo F P. destruct (tof_exact_partial meas cols fuel false n w 0 Co Wo F P ltac:(discriminate)) as (w' & E). exists w'. rewrite E. do 2 f_equal.
Qed.

(** ** What fails *)
Definition m100 (_ : nat) : measure := mkmeasure 2 1 100 0.
Definition c1234 (_ : nat) : color := mkcolor 1000 2 3 4.
Definition bench (fs : list bool) (j : Z) : world :=
  mkw (mkvl 0x31 0 (fun _ => 7) (Measuring 5) 0 9 3 4) (Some (mktcs (fun _ => 0) 0)) fs (fun _ => j).

Lemma wait_forever meas cols fuel : forall w, faults w = [] -> v_addr (dev w) = 0x2A -> md (dev w) = Ready -> intr (dev w) = 0 ->
  wait_bit meas cols fuel w 0x2A RESULT__INTERRUPT_STATUS_GPIO 2 = None.
Proof.
  induction fuel as [|fuel IH]; intros w F A M I; [reflexivity|]. cbn [wait_bit]. rewrite (rd_ok meas cols w _ F A) by (unfold RESULT__INTERRUPT_STATUS_GPIO; lia).
  assert (T : tick meas (dev w) = dev w) by (unfold tick; now rewrite M). rewrite T.
  replace (vl_read (dev w) RESULT__INTERRUPT_STATUS_GPIO) with 0 by (unfold vl_read; cbn; now rewrite I). cbn [Z.land Z.eqb negb]. now apply IH.
Qed.
Lemma wait_bit_more meas cols fuel k : forall w a reg b x, wait_bit meas cols fuel w a reg b = Some x -> wait_bit meas cols (fuel + k) w a reg b = Some x.
Proof.
  induction fuel as [|fuel IH]; intros w a reg b x; [discriminate|]. cbn [Nat.add wait_bit]. destruct (vl6180x_read_register _ _ _ _ _) as [w' st]. destruct (_ =? 0); auto.
Qed.
Lemma wait_fresh_more meas cols fuel k : forall w a x, wait_fresh meas cols fuel w a = Some x -> wait_fresh meas cols (fuel + k) w a = Some x.
Proof.
  induction fuel as [|fuel IH]; intros w a x; [discriminate|]. cbn [Nat.add wait_fresh]. destruct (vl6180x_read_register _ _ _ _ _) as [w' st]. destruct (_ =? 1); auto.
Qed.
Lemma init_more meas cols fuel k w x : tof_distance_init meas cols fuel w = Some x -> tof_distance_init meas cols (fuel + k) w = Some x.
Proof.
  unfold tof_distance_init. destruct (vl6180x_change_i2c_address _ _ _ _ _) as [w1 a1]. destruct (vl6180x_ping _ _ _ _) as [w2 ok]. unfold vl6180x_configure.
  destruct (wait_fresh meas cols fuel w2 a1) as [w3|] eqn:E; [|discriminate]. now rewrite (wait_fresh_more _ _ _ _ _ _ _ E).
Qed.
(** One lost transfer stops the board for ever: if the order to measure is lost, the wait for the sample has no end,
    however long, and neither distance nor color is sent again. *)
Theorem tof_lost_start_refuted : exists fs, length (filter id fs) = 1%nat /\ forall fuel, main m100 c1234 fuel true 1 (bench fs 0) = None.
Proof.
  exists (repeat false 48 ++ [true]). split; [reflexivity|]. intros [|fuel]; [reflexivity|].
  set (fs := repeat false 48 ++ [true]). unfold main.
  pose (w1 := match tof_distance_init m100 c1234 1 (bench fs 0) with Some (w, _, _) => w | None => bench [] 0 end).
  assert (E1 : tof_distance_init m100 c1234 (S fuel) (bench fs 0) = Some (w1, 0x2A, true)).
  { apply (init_more m100 c1234 1 fuel). vm_compute. reflexivity. }
  rewrite E1. cbn [loop]. unfold distance_publish, vl6180x_measure_distance.
  pose (w2 := fst (color_sensor_init m100 c1234 w1)). fold w2.
  pose (w3 := match wait_bit m100 c1234 1 w2 0x2A RESULT__RANGE_STATUS 0 with Some (w, _) => w | None => w2 end).
  assert (E2 : wait_bit m100 c1234 (S fuel) w2 0x2A RESULT__RANGE_STATUS 0 = Some (w3, 1)).
  { apply (wait_bit_more m100 c1234 1 fuel). vm_compute. reflexivity. }
  rewrite E2, wait_forever; vm_compute; reflexivity.
Qed.
(** A failed read of the distance is not noticed: whatever byte is in the buffer is sent as a valid distance. *)
Theorem tof_garbage_refuted : exists fs, length (filter id fs) = 1%nat /\ forall j, exists w',
  main m100 c1234 10 false 1 (bench fs j) = Some (w', [Distance j 0]).
Proof. exists (repeat false 46 ++ [true]). split; [reflexivity|]. intro j. eexists. vm_compute. reflexivity. Qed.
(** The result of the read of the color is ignored: what was in the variables is sent as a color. *)
Theorem tof_garbage_color_refuted : exists fs, length (filter id fs) = 1%nat /\ forall j, exists w',
  main m100 c1234 10 true 1 (bench fs j) = Some (w', [Distance 100 0; Color j j j j]).
Proof. exists (repeat false 55 ++ [true]). split; [reflexivity|]. intro j. eexists. vm_compute. reflexivity. Qed.
(** A failed read of the status can send the distance of the previous measurement as a new one: the second of the two
    distances is the first one again. *)
Theorem tof_stale_refuted : exists meas fs j, length (filter id fs) = 1%nat /\ m_mm (meas 5%nat) = 200 /\
  option_map snd (main meas c1234 10 false 2 (bench fs j)) = Some [Distance 100 0; Distance 100 0].
Proof.
  exists (fun k => mkmeasure 2 1 (if (k =? 4)%nat then 100 else 200) 0), (repeat false 51 ++ [true]), 5. split; [reflexivity|]. split; [reflexivity|]. vm_compute. reflexivity.
Qed.

(** ** The hypotheses are met *)
Example tof_case : codes m100 /\ words c1234 /\ faults (bench [] 0) = [] /\ patient 5 m100 (starts (dev (bench [] 0))) 3 /\
  option_map snd (main m100 c1234 5 true 2 (bench [] 0)) = Some [Distance 100 0; Color 2 3 4 1000; Distance 100 0; Color 2 3 4 1000].
Proof.
  split; [intro k; cbn; lia|]. split; [intro k; cbn; lia|]. split; [reflexivity|]. split; [|vm_compute; reflexivity].
  split; [lia|]. intros i _. unfold m100. cbn [m_delay m_recover]. lia.
Qed.

Print Assumptions tof_start.
Print Assumptions tof_color_start.
Print Assumptions tof_exact_partial.
Print Assumptions tof_distance_only.
Print Assumptions tof_lost_start_refuted.
Print Assumptions tof_garbage_refuted.
Print Assumptions tof_garbage_color_refuted.
Print Assumptions tof_stale_refuted.
