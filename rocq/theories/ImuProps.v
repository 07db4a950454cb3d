(** C94. The inertial sensor of the UWB beacon. *)
From Coq Require Import ZArith Reals Lra Lia List Bool.
From Verif Require Import CRes FloatModel FloatProofs PidSpec PosModel PosProps ImuModel ImuSpec.
Import ListNotations.

Local Open Scope Z_scope.
Lemma word_signed h l : byte h -> byte l -> word h l = signed h l.
Proof.
  unfold byte, word, signed. intros H L. rewrite Z.mod_small by (change (2 ^ 16) with 65536; lia). change (2 ^ 15) with 32768. change (2 ^ 16) with 65536.
  rewrite (Z.mul_comm h 256). reflexivity.
Qed.
Lemma lor_read r : 0 <= r < 128 -> Z.lor r 128 = 128 + r.
Proof.
  intro H. assert (N : Z.land r 128 = 0).
  { apply Z.bits_inj'; intros n Hn; rewrite Z.land_spec, Z.bits_0. destruct (Z.eq_dec n 7) as [->|Ne].
    - rewrite (proj2 (Z.testbit_false r 7 ltac:(lia))); [reflexivity|].
      change (2 ^ 7) with 128. rewrite Z.div_small by lia. reflexivity.
    - change 128 with (2 ^ 7). rewrite Z.pow2_bits_false by lia. apply andb_false_r. }
  rewrite <- Z.lxor_lor, <- Z.add_nocarry_lxor by exact N. lia.
Qed.
Lemma read_stable c k n rg i r : stable c k n rg -> (k <= i < k + n)%nat -> 0 <= r < 128 -> reg_read c i r = rg r.
Proof. intros S I R. unfold reg_read. rewrite lor_read by exact R. now apply S. Qed.

Local Open Scope R_scope.
Definition PI_sens := PI / (180 * (131 / 2)).
Lemma real_div a b : b <> 0 -> div (D exact) (real a) (real b) = real (a / b).
Proof. intro H. unfold real. cbn [exact exact_fmt D div xdiv]. destruct (req_spec b 0) as [E|_]; [easy|reflexivity]. Qed.
Lemma real_divf a b : b <> 0 -> div (F exact) (real a) (real b) = real (a / b).
Proof. exact (real_div a b). Qed.
Lemma litf_exact n : lit (F exact) n 0 = real (IZR n).
Proof. unfold real. cbn. f_equal. f_equal. ring. Qed.
Lemma gyro_sens_exact : GYRO_SENSITIVITY exact = real (PI / (180 * (131 / 2))).
Proof.
  unfold GYRO_SENSITIVITY. rewrite dbl_exact.
  replace (lit (D exact) 131 (-1)) with (real (131 / 2)) by (unfold real; cbn; f_equal; f_equal; lra).
  change (mul (D exact) (real 180) (real (131 / 2))) with (real (180 * (131 / 2))). change (m_pi exact) with (real PI). rewrite real_div by lra. reflexivity.
Qed.
Lemma acc_sens_exact : ACCEL_SENSITIVITY exact = real (981 / 100 / 8192).
Proof. unfold ACCEL_SENSITIVITY. rewrite !dbl_exact, real_div by lra. rewrite real_div by lra. reflexivity. Qed.

(** Three axes of registers which keep their values during the reading. *)
Lemma axes_value c k rg base s : stable c k 6 rg -> bytes rg -> (0 <= base < 120)%Z ->
  axes_read exact c k base (real s) =
    (real (IZR (signed (rg base) (rg (base + 1)%Z)) * s), real (IZR (signed (rg (base + 2)%Z) (rg (base + 3)%Z)) * s),
     real (IZR (signed (rg (base + 4)%Z) (rg (base + 5)%Z)) * s)).
Proof.
  intros S B H. unfold axes_read. rewrite !(read_stable c k 6 rg) by (first [exact S|lia]). rewrite !word_signed by apply B.
  unfold scale. rewrite !dbl_exact. reflexivity.
Qed.

(** C94. If the registers do not change during its six transfers, a reading is the signed content of the registers in the unit of the
    full scale which the driver has configured: radians per second and metres per second squared. *)
Theorem gyro_value c k rg m : stable c k 6 rg -> bytes rg -> gyro_lsb m = 65.5 ->
  gyro_read exact c k = (real (IZR (signed (rg 67%Z) (rg 68%Z)) / gyro_lsb m * PI / 180), real (IZR (signed (rg 69%Z) (rg 70%Z)) / gyro_lsb m * PI / 180),
                         real (IZR (signed (rg 71%Z) (rg 72%Z)) / gyro_lsb m * PI / 180)).
Proof.
  intros S B ->. unfold gyro_read. rewrite gyro_sens_exact, (axes_value c k rg) by (first [assumption|lia]).
  assert (E : forall z, IZR z * (PI / (180 * (131 / 2))) = IZR z / 65.5 * PI / 180) by (intro; replace 65.5 with (131 / 2) by lra; field). rewrite !E. reflexivity.
Qed.
Theorem acc_value c k rg m : stable c k 6 rg -> bytes rg -> accel_lsb m = 8192 ->
  acc_read exact c k = (real (IZR (signed (rg 59%Z) (rg 60%Z)) / accel_lsb m * 9.81), real (IZR (signed (rg 61%Z) (rg 62%Z)) / accel_lsb m * 9.81),
                        real (IZR (signed (rg 63%Z) (rg 64%Z)) / accel_lsb m * 9.81)).
Proof.
  intros S B ->. unfold acc_read. rewrite acc_sens_exact, (axes_value c k rg) by (first [assumption|lia]).
  assert (E : forall z, IZR z * (981 / 100 / 8192) = IZR z / 8192 * 9.81) by (intro; lra). rewrite !E. reflexivity.
Qed.
(** The temperature in degrees, and the magnetic field in microteslas: the magnetometer gives its low bytes first. *)
Theorem temp_value c k rg : stable c k 2 rg -> bytes rg -> temp_read exact c k = real (21 + IZR (signed (rg 65%Z) (rg 66%Z)) / 333.87).
Proof.
  intros S B. unfold temp_read. rewrite !(read_stable c k 2 rg) by (first [exact S|lia]). rewrite word_signed by apply B.
  unfold TEMP_SENSITIVITY, TEMP_OFFSET. rewrite !dbl_exact, (real_div 33387 100), real_div by lra.
  replace (21 + IZR (signed (rg 65%Z) (rg 66%Z)) / 333.87) with (21 + IZR (signed (rg 65%Z) (rg 66%Z)) * (1 / (33387 / 100))) by lra. reflexivity.
Qed.
Theorem mag_value c k rg : stable c k 6 rg -> bytes rg ->
  mag_read exact c k = (real (IZR (signed (rg 74%Z) (rg 73%Z)) * (4912 / 32760)), real (IZR (signed (rg 76%Z) (rg 75%Z)) * (4912 / 32760)),
                        real (IZR (signed (rg 78%Z) (rg 77%Z)) * (4912 / 32760))).
Proof.
  intros S B. unfold mag_read. rewrite !(read_stable c k 6 rg) by (first [exact S|lia]). rewrite !word_signed by apply B.
  unfold MAG_SENSITIVITY. rewrite !litf_exact, real_divf by lra. reflexivity.
Qed.
(** A measurement which arrives between the transfers of the two bytes of an axis tears the value: the rotation goes from 255 to 256 counts, and
    0 is read. *)
Theorem gyro_torn_refuted : exists (c : chip) rg rg', bytes rg /\ bytes rg' /\ c 0%nat = (fun r => rg (r - 128)%Z) /\
  (forall i, (0 < i)%nat -> c i = (fun r => rg' (r - 128)%Z)) /\ signed (rg 67%Z) (rg 68%Z) = 255%Z /\ signed (rg' 67%Z) (rg' 68%Z) = 256%Z /\
  fst (fst (gyro_read exact c 0)) = real 0.
Proof.
  exists (fun i r => if (i =? 0)%nat then (if (r - 128 =? 68)%Z then 255%Z else 0%Z) else (if (r - 128 =? 67)%Z then 1%Z else 0%Z)),
    (fun r => if (r =? 68)%Z then 255%Z else 0%Z), (fun r => if (r =? 67)%Z then 1%Z else 0%Z).
  split; [intro r; destruct (r =? 68)%Z; split; lia|]. split; [intro r; destruct (r =? 67)%Z; split; lia|].
  split; [reflexivity|]. split; [intros [|i] H; [lia|reflexivity]|]. split; [reflexivity|]. split; [reflexivity|].
  unfold gyro_read. rewrite gyro_sens_exact. unfold axes_read. cbn [fst]. unfold scale.
  replace (word _ _) with 0%Z by reflexivity. rewrite dbl_exact. unfold real. cbn. f_equal. f_equal. lra.
Qed.

(** * Configuration *)
Local Open Scope Z_scope.
Lemma exchange_keep m r : r < 73 \/ 89 <= r -> regs (exchange m) r = regs m r.
Proof.
  intro H. unfold exchange. destruct (_ && _); [|reflexivity]. destruct (_ =? 12); [reflexivity|]. destruct (_ =? 12 + 128); [|reflexivity].
  cbn [regs]. pose proof (Z.mod_pos_bound (regs m 39) 16 ltac:(lia)).
  destruct ((73 <=? r) && (r <? 73 + regs m 39 mod 16)) eqn:E; [|reflexivity]. apply andb_true_iff in E as [E1 E2]. apply Z.leb_le in E1. apply Z.ltb_lt in E2. lia.
Qed.
Lemma keep n m r : r < 73 \/ 89 <= r -> regs (exchanges n m) r = regs m r.
Proof. intro H. revert m. induction n as [|n IH]; intro m; [reflexivity|]. cbn [exchanges]. rewrite IH. now apply exchange_keep. Qed.
Lemma aux_read n m : regs m 37 <> 12 -> aux (exchanges n m) = aux m.
Proof.
  revert m. induction n as [|n IH]; intros m H; [reflexivity|]. cbn [exchanges]. rewrite IH by (rewrite exchange_keep by lia; exact H).
  unfold exchange. destruct (_ && _); [|reflexivity]. rewrite (proj2 (Z.eqb_neq _ _) H). destruct (_ =? 12 + 128); reflexivity.
Qed.
Lemma aux_write n m : Z.testbit (regs m 106) 5 = true -> regs m 39 = 129 -> regs m 37 = 12 -> regs m 38 = 10 -> regs m 99 = 22 ->
  aux (exchanges (S n) m) 10 = 22.
Proof.
  revert m. induction n as [|n IH]; intros m H1 H2 H3 H4 H5.
  - cbn [exchanges]. unfold exchange. rewrite H1, H2, H3, H4, H5. reflexivity.
  - cbn [exchanges]. change (exchanges n (exchange (exchange m))) with (exchanges (S n) (exchange m)).
    apply IH; rewrite exchange_keep by lia; assumption.
Qed.
Definition plain (x : Z) : Prop := x < 73 \/ 89 <= x.
Lemma exec_write r v l m m' : executes (Write r v :: l) m m' -> exists m1,
  (forall x, plain x -> regs m1 x = if x =? r then v else regs m x) /\ ((if 37 =? r then v else regs m 37) <> 12 -> aux m1 = aux m) /\ executes l m1 m'.
Proof.
  intros (n & H). exists (exchanges n (mkMpu (set (regs m) r v) (aux m))). split; [intros x Hx; now rewrite keep|]. split; [|exact H].
  intro N. now rewrite aux_read.
Qed.
Lemma exec_or r v l m m' : executes (Or r v :: l) m m' -> exists m1,
  (forall x, plain x -> regs m1 x = if x =? r then Z.lor (regs m r) v else regs m x) /\ executes l m1 m'.
Proof. intros (n & H). exists (exchanges n (mkMpu (set (regs m) r (Z.lor (regs m r) v)) (aux m))). split; [intros x Hx; now rewrite keep|exact H]. Qed.
Lemma exec_sleep l m m' : executes (Sleep :: l) m m' -> exists m1,
  (forall x, plain x -> regs m1 x = regs m x) /\
  (Z.testbit (regs m 106) 5 = true -> regs m 39 = 129 -> regs m 37 = 12 -> regs m 38 = 10 -> regs m 99 = 22 -> aux m1 10 = 22) /\ executes l m1 m'.
Proof. intros (n & H). exists (exchanges (S n) m). split; [intros x Hx; now rewrite keep|]. split; [apply aux_write|exact H]. Qed.
Ltac look := repeat (match goal with R : forall x, plain x -> regs ?m x = _ |- context [regs ?m ?c] =>
  rewrite (R c) by (unfold plain; lia) end;
  repeat match goal with |- context [?a =? ?b] => let v := eval vm_compute in (a =? b) in change (a =? b) with v; cbv iota end).
(** C94. Whatever the sensor held and whenever it talks to the magnetometer, the configuration sets the full scales, rate and interrupt which the
    readings and the thread rely on, and leaves the magnetometer measuring, with its registers copied to those which are read. *)
Theorem imu_configured m m' : executes (mpu9250_configure ++ mpu9250_enable_magnetometer) m m' ->
  gyro_lsb m' = 65.5%R /\ accel_lsb m' = 8192%R /\ sample_rate m' = 250%R /\ interrupt_latched m' /\ interrupt_on_data m' /\ mag_continuous m' /\
  forall i, 0 <= i < 7 -> regs (exchange m') (73 + i) = aux m' (3 + i).
Proof.
  unfold mpu9250_configure, mpu9250_enable_magnetometer. cbn [app]. intro H.
  do 8 (apply exec_write in H as (? & ? & _ & H)). apply exec_or in H as (? & ? & H). do 5 (apply exec_write in H as (? & ? & _ & H)).
  apply exec_sleep in H as (? & ? & _ & H). do 4 (apply exec_write in H as (? & ? & _ & H)).
  apply exec_sleep in H as (ms & ? & As & H).
  apply exec_write in H as (m1 & ? & A1 & H). apply exec_write in H as (m2 & ? & A2 & H). apply exec_write in H as (m3 & ? & A3 & H).
  cbn [executes] in H. subst m'.
  split; [|split; [|split; [|split; [|split; [|split]]]]].
  - unfold gyro_lsb. look. change (Z.to_nat (Z.shiftr (Z.shiftl 1 3) 3 mod 4)) with 1%nat. lra.
  - unfold accel_lsb. look. change (Z.to_nat (Z.shiftr (Z.shiftl 1 3) 3 mod 4)) with 1%nat. lra.
  - unfold sample_rate. look. lra.
  - unfold interrupt_latched. split; [|split]; look; reflexivity.
  - unfold interrupt_on_data. look. reflexivity.
  - unfold mag_continuous. assert (A : aux m3 10 = 22).
    { rewrite A3, A2, A1; [apply As; look; reflexivity|look; discriminate|look; discriminate|look; discriminate]. }
    rewrite A. split; reflexivity.
  - intros i Hi. assert (E1 : Z.testbit (regs m3 106) 5 = true) by (look; reflexivity). assert (E2 : regs m3 39 = 135) by (look; reflexivity).
    assert (E3 : regs m3 37 = 140) by (look; reflexivity). assert (E4 : regs m3 38 = 3) by (look; reflexivity).
    unfold exchange at 1.
    rewrite E1, E2, E3, E4. change (true && Z.testbit 135 7) with true. cbv iota. change (140 =? 12) with false. change (140 =? 12 + 128) with true. cbv iota.
    cbn [regs aux]. change (135 mod 16) with 7. rewrite (proj2 (Z.leb_le 73 (73 + i)) ltac:(lia)), (proj2 (Z.ltb_lt (73 + i) (73 + 7)) ltac:(lia)).
    cbn [andb]. f_equal. lia.
Qed.
(** The configuration runs on every sensor, here one whose magnetometer is off. *)
Lemma executes_exists l m : exists m', executes l m m'.
Proof. revert m. induction l as [|[r v|r v|] l IH]; intro m; cbn [executes]; [eauto|..].
  - destruct (IH (exchanges 0 (mkMpu (set (regs m) r v) (aux m)))) as (m' & H). exists m', 0%nat. exact H.
  - destruct (IH (exchanges 0 (mkMpu (set (regs m) r (Z.lor (regs m r) v)) (aux m)))) as (m' & H). exists m', 0%nat. exact H.
  - destruct (IH (exchanges 1 m)) as (m' & H). exists m', 0%nat. exact H.
Qed.
Example ex_configured : exists m m', executes (mpu9250_configure ++ mpu9250_enable_magnetometer) m m' /\ aux m 10 = 0.
Proof. exists (mkMpu (fun _ => 0) (fun _ => 0)). destruct (executes_exists (mpu9250_configure ++ mpu9250_enable_magnetometer) (mkMpu (fun _ => 0) (fun _ => 0))) as (m' & H). exists m'. auto. Qed.
(** A sensor which turns at -131 counts, two degrees per second, about its first axis. *)
Example ex_gyro : let rg := fun r => if r =? 67 then 255 else if r =? 68 then 125 else 0 in
  stable (fun _ r => rg (r - 128)) 5 6 rg /\ bytes rg /\ signed (rg 67) (rg 68) = -131.
Proof.
  cbv zeta. split; [|split; [|reflexivity]].
  - intros i r _ Hr. replace (128 + r - 128) with r by lia. reflexivity.
  - intro r. destruct (r =? 67); [split; lia|]. destruct (r =? 68); split; lia.
Qed.

(** * The thread *)
(** What holds of the thread in every history. *)
Definition imu_inv (n : nat) (s : imu_state) : Prop :=
  (line s = true -> event s = true \/ pc s <> Waiting) /\
  (published s + (if event s then 1 else 0) + (match pc s with Reading => 1 | _ => 0 end) <= n)%nat /\
  0 <= prescaler s <= 100 /\ Z.of_nat (published s) = 101 * Z.of_nat (temperatures s) + prescaler s.
Lemma imu_inv_run l : imu_inv (measurements l) (imu_run l).
Proof.
  induction l as [|e l IH] using rev_ind.
  - cbn. repeat match goal with |- _ /\ _ => split end; try lia; try easy.
  - unfold imu_run, measurements in *. rewrite fold_left_app, filter_app, app_length. cbn [fold_left].
    set (s := fold_left imu_do l imu_start) in *. set (n := length (filter _ l)) in *. destruct IH as (I1 & I2 & I3 & I4).
    destruct s as [ln ev p pub tmp pre]. cbn [line event pc published temperatures prescaler] in *.
    destruct e; cbn [imu_do filter length].
    + unfold measurement. cbn [line event pc published temperatures prescaler]. unfold imu_inv. cbn [line event pc published temperatures prescaler]. split; [|split; [|split; [lia|lia]]].
      * intros _. destruct ln; [destruct (I1 eq_refl); [left; subst; reflexivity|right; assumption]|left; destruct ev; reflexivity].
      * destruct ev, ln, p; cbn; lia.
    + unfold imu_step. cbn [line event pc published temperatures prescaler]. rewrite Nat.add_0_r. destruct p.
      * destruct ev; [|exact (conj I1 (conj I2 (conj I3 I4)))].
        unfold imu_inv. cbn [line event pc published temperatures prescaler]. split; [intros; right; discriminate|]. split; [lia|]. split; [lia|lia].
      * destruct (100 <=? pre) eqn:E; [apply Z.leb_le in E|apply Z.leb_gt in E]; unfold imu_inv; cbn [line event pc published temperatures prescaler];
          (split; [intros; right; discriminate|]; split; [lia|]; split; [lia|lia]).
      * unfold imu_inv; cbn [line event pc published temperatures prescaler]. split; [discriminate|]. split; [lia|]. split; [lia|lia].
Qed.

Lemma imu_mono s e : (published s <= published (imu_do s e))%nat.
Proof. destruct e; cbn [imu_do]; unfold measurement, imu_step; [cbn; lia|]. destruct (pc s); [destruct (event s)|destruct (100 <=? prescaler s)|]; cbn; lia. Qed.
Lemma imu_mono_list l s : (published s <= published (fold_left imu_do l s))%nat.
Proof. revert s. induction l as [|e l IH]; intro s; [cbn; lia|]. cbn [fold_left]. eapply Nat.le_trans; [apply imu_mono|apply IH]. Qed.
Lemma publish_one s : pc s = Reading -> published (imu_do s Step) = S (published s).
Proof. intro P. cbn [imu_do]. unfold imu_step. rewrite P. destruct (100 <=? prescaler s); reflexivity. Qed.
Lemma publish_two s : pc s = Waiting -> event s = true -> published (imu_do (imu_do s Step) Step) = S (published s).
Proof.
  intros P E. rewrite publish_one; cbn [imu_do]; unfold imu_step; rewrite P, E; reflexivity.
Qed.
(** C94. Between two measurements the thread reads out everything: whatever happened before, when the thread has run (three steps), a new measurement
    is published as soon as it runs again. The latched line never stays high without the thread knowing. *)
Theorem imu_never_stalls l : let s := imu_run l in
  (line s = true -> event s = true \/ pc s <> Waiting) /\
  (published (imu_run (l ++ [Step; Step; Step; Measurement; Step; Step; Step])) > published s)%nat.
Proof.
  cbv zeta. destruct (imu_inv_run l) as (I1 & _). split; [exact I1|].
  unfold imu_run at 1. rewrite fold_left_app. fold (imu_run l). set (s := imu_run l) in *.
  assert (W : forall t, pc t = Waiting -> event t = true -> forall l', (published (fold_left imu_do (Step :: Step :: l') t) > published t)%nat).
  { intros t P E l'. cbn [fold_left]. eapply Nat.lt_le_trans; [|apply imu_mono_list]. rewrite publish_two by assumption. lia. }
  assert (V : forall t, pc t = Waiting -> event t = false -> line t = false -> forall l', (published (fold_left imu_do (Measurement :: Step :: Step :: l') t) > published t)%nat).
  { intros t P E L l'. change (published t) with (published (measurement t)). apply (W (measurement t)); cbn; [exact P|now rewrite E, L]. }
  assert (I : forall t, pc t = Waiting -> event t = false -> imu_do t Step = t) by (intros t P E; cbn [imu_do]; unfold imu_step; now rewrite P, E).
  destruct (pc s) eqn:P.
  - destruct (event s) eqn:E; [now apply W|].
    assert (L : line s = false) by (destruct (line s); [destruct (I1 eq_refl); congruence|reflexivity]).
    cbn [fold_left]. rewrite !(I s) by assumption. apply (V s P E L [Step]).
  - assert (FC : forall e l', fold_left imu_do (e :: l') s = fold_left imu_do l' (imu_do s e)) by reflexivity. rewrite FC.
    eapply Nat.lt_le_trans; [|apply imu_mono_list]. rewrite publish_one by exact P. lia.
  - assert (C : imu_do s Step = mkImu false (event s) Waiting (published s) (temperatures s) (prescaler s)) by (cbn [imu_do]; unfold imu_step; now rewrite P).
    assert (FC : forall e l', fold_left imu_do (e :: l') s = fold_left imu_do l' (imu_do s e)) by reflexivity. rewrite FC, C. set (t := mkImu _ _ _ _ _ _). change (published s) with (published t). destruct (event s) eqn:E; [now apply W|].
    cbn [fold_left]. rewrite !(I t) by reflexivity. apply (V t eq_refl eq_refl eq_refl [Step]).
Qed.
(** Each message belongs to another measurement. *)
Theorem imu_no_duplicate l : (published (imu_run l) <= measurements l)%nat.
Proof. destruct (imu_inv_run l) as (_ & I & _). destruct (event (imu_run l)), (pc (imu_run l)); lia. Qed.
(** The temperature is published with one message in 101. *)
Theorem temperature_rate l : temperatures (imu_run l) = (published (imu_run l) / 101)%nat.
Proof.
  destruct (imu_inv_run l) as (_ & _ & I1 & I2). apply (Nat.div_unique _ _ _ (Z.to_nat (prescaler (imu_run l)))); lia.
Qed.
(** Time stamps are the microseconds since power-up modulo 2^32, also when the counter of the system (32 bits, 10 kHz) has wrapped. *)
Theorem imu_timestamp_wraps ticks : 0 <= ticks -> imu_timestamp (ticks mod 2 ^ 32) 10000 = (ticks * 100) mod 2 ^ 32.
Proof. intros _. unfold imu_timestamp. change (1000000 / 10000) with 100. now rewrite Zmult_mod_idemp_l. Qed.
(** A measurement during the work of the thread is not published. *)
Theorem imu_loses_refuted : exists l, measurements l = 3%nat /\ pc (imu_run l) = Waiting /\ event (imu_run l) = false /\ published (imu_run l) = 1%nat.
Proof. exists [Measurement; Step; Measurement; Step; Measurement; Step; Step]. vm_compute. auto. Qed.
Print Assumptions gyro_value.
Print Assumptions acc_value.
Print Assumptions temp_value.
Print Assumptions mag_value.
Print Assumptions gyro_torn_refuted.
Print Assumptions imu_configured.
Print Assumptions imu_never_stalls.
Print Assumptions imu_no_duplicate.
Print Assumptions temperature_rate.
Print Assumptions imu_timestamp_wraps.
Print Assumptions imu_loses_refuted.
