(** * Broadcasts of the UWB beacon on the CAN bus

    uwb-beacon-firmware/src/uavcan/topics_publisher.cpp, position_handler.cpp. *)
From Coq Require Import ZArith List Bool Arith Lia.
From Verif Require Import TpubModel TpubSpec TpubProofs TpubProofs2.
Import ListNotations.

(** The board never fails here as long as data packets are shorter than 1024 bytes: no null pointer, no unwritten buffer. *)
Theorem tpub_safe : forall ms, Forall fits ms -> run init ms <> None.
Proof.
  intros ms F. enough (exists x o, run init ms = Some (x, o) /\ forall t m, val x t = Some m -> encode m <> None) as (x & o & -> & _) by discriminate.
  induction ms as [|m ms IH] using rev_ind.
  - exists init, []. split; [reflexivity|]. discriminate.
  - apply Forall_app in F as [F1 F2]. inversion F2 as [|? ? Fm _]; subst. destruct (IH F1) as (x & o & E & En). pose proof (inv_run _ _ _ E) as I.
    rewrite run_app, E, run_one.
    assert (Pub : forall y, encode y <> None -> forall t z, val (publish x y) t = Some z -> encode z <> None).
    { intros y Hy t z. unfold publish. destruct (watched x (topic_of y)); cbn [val]; unfold set; (destruct (topic_eqb (topic_of y) t); [intros [= <-]; exact Hy|apply En]). }
    destruct m as [t|y|t b|ts z vz px py| |]; cbn [step].
    + eexists _, _. split; [reflexivity|exact En].
    + eexists _, _. split; [reflexivity|]. apply Pub. destruct y; cbn [fits] in Fm; try discriminate. unfold encode, DATA_MAX.
      destruct (Nat.leb_spec (length data) 1023); [discriminate|]. lia.
    + eexists _, _. split; [reflexivity|exact En].
    + destruct (adv x TTag); eexists _, _; (split; [reflexivity|]); [apply Pub; discriminate|exact En].
    + eexists _, _. split; [reflexivity|]. unfold watcher. destruct (w x) as [t1| | | | | |]; try exact En. now destruct (adv x t1).
    + unfold spinner. destruct (s x) as [t|t] eqn:St.
      * destruct (sem x t); eexists _, _; (split; [reflexivity|exact En]).
      * destruct (i_s _ _ I t St) as (_ & A & V). rewrite A. destruct (val x t) as [y|] eqn:Vt; [|congruence].
        rewrite (i_type _ _ I _ _ Vt), topic_eqb_refl. destruct (encode y) as [e|] eqn:Ey; [|exfalso; exact (En _ _ Vt Ey)]. eexists _, _. split; [reflexivity|exact En].
Qed.

(** A message carries the last sample of its topic, and is a position or a data packet. *)
Theorem tpub_exact : forall ms x out m x' o e, run init ms = Some (x, out) -> step x m = Some (x', o) -> In e o ->
  (kind e = TTag \/ kind e = TData) /\ exists y, latest (kind e) ms = Some y /\ encode y = Some e.
Proof.
  intros ms x out m x' o e E St Ie. pose proof (inv_run _ _ _ E) as I. destruct m as [t|y|t b|ts z vz px py| |]; cbn [step] in St.
  1,2,3,5: injection St as <- <-; contradiction.
  - destruct (adv x TTag); injection St as <- <-; contradiction.
  - apply spinner_cases in St as [(t1 & St & Sm1 & -> & ->)|[(t1 & St & Sm1 & -> & ->)|(t1 & m & e' & St & Vm & Em & -> & ->)]]; try contradiction.
    destruct Ie as [<-|[]]. rewrite (encode_kind _ _ Em), (i_type _ _ I _ _ Vm). destruct (i_s _ _ I _ St) as (A & _ & _). split; [exact A|].
    exists m. rewrite <- (i_val _ _ I). auto.
Qed.

(** The measures of the IMU, the attitude and the ranges are never broadcast, whatever their parameters. *)
Theorem tpub_others_refuted : forall ms x out, run init ms = Some (x, out) -> forall e, In e out -> kind e <> TImu /\ kind e <> TAtt /\ kind e <> TRange.
Proof.
  induction ms as [|m ms IH] using rev_ind; intros x out E e Ie.
  - injection E as _ <-. contradiction.
  - rewrite run_app in E. destruct (run init ms) as [[x1 o1]|] eqn:E1; [|discriminate]. rewrite run_one in E. destruct (step x1 m) as [[x2 o2]|] eqn:E2; [|discriminate].
    injection E as _ <-. apply in_app_or in Ie as [Ie|Ie]; [eapply IH; eauto|]. destruct (tpub_exact _ _ _ _ _ _ _ E1 E2 Ie) as ([->| ->] & _); repeat split; discriminate.
Qed.

Lemma count_run l t : forall x ms x' o, inv x ms -> run x l = Some (x', o) ->
  (count t o + pending x' t <= pending x t + length (on_topic t (samples (known ms) l)))%nat.
Proof.
  induction l as [|m l IH] using rev_ind; intros x ms x' o I E.
  - injection E as <- <-. cbn [count of_kind filter length]. lia.
  - rewrite run_app in E. destruct (run x l) as [[x1 o1]|] eqn:E1; [|discriminate]. rewrite run_one in E. destruct (step x1 m) as [[x2 o2]|] eqn:E2; [|discriminate].
    injection E as <- <-. pose proof (IH _ _ _ _ I E1) as H1.
    assert (I1 : inv x1 (ms ++ l)).
    { clear -I E1. revert x ms x1 o1 I E1. induction l as [|m l IH]; intros x ms x1 o1 I E1; [injection E1 as <- _; now rewrite app_nil_r|].
      apply run_cons in E1 as (x2 & o2 & o3 & A & B & _). change (m :: l) with ([m] ++ l). rewrite app_assoc. eapply IH; [|exact B]. eapply inv_step; eauto. }
    pose proof (step_count _ _ _ _ _ t I1 E2) as H2. rewrite count_app, samples_snoc. unfold on_topic in *. rewrite filter_app, app_length.
    replace (known ms || known l)%bool with (known (ms ++ l)) by (unfold known; apply existsb_app). lia.
Qed.

(** There are never more messages of a kind than samples published. *)
Theorem tpub_count : forall ms x out t, run init ms = Some (x, out) -> (length (of_kind t out) <= length (on_topic t (samples false ms)))%nat.
Proof. intros ms x out t E. pose proof (count_run ms t init [] x out inv_init E) as H. cbn [known existsb] in H. unfold count in H. change (pending init t) with 0%nat in H. lia. Qed.

(** A parameter that was never on: no message. *)
Theorem tpub_off : forall ms x out t, run init ms = Some (x, out) -> t <> TData -> ~ In (SetParam t true) ms -> of_kind t out = [].
Proof.
  intros ms x out t E Nt No. assert (H : (count t out + signaled x t <= 0)%nat).
  { change 0%nat with (signaled init t). eapply run_off; [exact inv_init|exact E| |exact No]. destruct t; try reflexivity. contradiction. }
  unfold count in H. destruct (of_kind t out); [reflexivity|]. cbn in H. lia.
Qed.
(** A parameter turned off: at most the three messages under way, whatever is published. *)
Theorem tpub_turned_off : forall ms l x out x' out' t, run init ms = Some (x, out) -> param t (topic_eqb t TData) ms = false ->
  run x l = Some (x', out') -> ~ In (SetParam t true) l -> (length (of_kind t out') <= 3)%nat.
Proof.
  intros ms l x out x' out' t E P E' No. pose proof (on_run ms t _ _ _ E) as O. cbn [on init] in O. rewrite P in O.
  pose proof (run_off l t x ms x' out' (inv_run _ _ _ E) E' O No) as H. unfold count, signaled in H.
  assert (B : forall b, (b2n b <= 1)%nat) by (intros []; cbn; lia).
  pose proof (B (match w x with WSignal t' => topic_eqb t' t | _ => false end)). pose proof (B (sem x t)). pose proof (B (in_spinner x t)). lia.
Qed.

(** A sample published when the threads had the time to deal with the ones before, with its parameter on, is broadcast
    once the threads had the time to do it and nothing else was published: 5 steps of the watcher before, then 3 of the
    watcher, then 10 of the loop of UAVCAN. *)
Theorem tpub_delivery : forall ms l0 m e l1 l2 x0 o0 x o, let t := topic_of m in
  In (Advertise TTag) ms -> In (Advertise TData) ms -> silent l0 -> (5 <= watcher_steps l0)%nat ->
  param t (topic_eqb t TData) (ms ++ l0) = true -> t = TTag \/ t = TData -> encode m = Some e ->
  silent l1 -> ~ In (SetParam t false) l1 -> (3 <= watcher_steps l1)%nat -> silent l2 -> (10 <= spinner_steps l2)%nat ->
  run init (ms ++ l0) = Some (x0, o0) -> run x0 ([Publish m] ++ l1 ++ l2) = Some (x, o) -> In e o.
Proof.
  intros ms l0 m e l1 l2 x0 o0 x o t A B S0 N0 P T En S1 Nf N1 S2 N2 E0 E. pose proof (inv_run _ _ _ E0) as I0.
  pose proof (on_run _ t _ _ _ E0) as O0. cbn [on init] in O0. rewrite P in O0.
  rewrite run_app in E0. destruct (run init ms) as [[xa oa]|] eqn:Ea; [|discriminate]. destruct (run xa l0) as [[xb ob]|] eqn:Eb; [|discriminate]. injection E0 as -> _.
  assert (I2 : inv2 init) by exact Logic.I. assert (I2a : inv2 xa) by (eapply inv2_run; [exact I2|exact Ea]).
  assert (Ww : w x0 = WWait).
  { pose proof (settle l0 _ _ _ (advertised _ _ _ _ Ea A) (advertised _ _ _ _ Ea B) I2a S0 Eb) as D.
    assert (wdist (w xa) <= 5)%nat by (destruct (w xa) as [[]|[]| | | | |]; cbn; lia). assert (Z : wdist (w x0) = 0%nat) by lia.
    destruct (w x0) as [[]|[]| | | | |]; cbn in Z; congruence. }
  pose proof (inv2_run _ _ _ _ I2a Eb) as I2b. unfold inv2 in I2b. rewrite Ww in I2b. destruct I2b as [Wt Wd].
  assert (Wx : watched x0 t = true) by (destruct T as [->| ->]; assumption).
  cbn [app] in E. apply run_cons in E as (x1 & o1 & o2 & E1 & E2 & ->). pose proof (inv_step _ _ _ _ _ I0 E1) as I1.
  pose proof (on_step _ _ _ _ t E1) as O1. cbn match in O1. rewrite O0 in O1. injection E1 as E1 <-. unfold publish in E1. fold t in E1. rewrite Wx, Ww in E1.
  rewrite run_app in E2. destruct (run x1 l1) as [[x2 oo1]|] eqn:E3; [|discriminate]. destruct (run x2 l2) as [[x3 oo2]|] eqn:E4; [|discriminate]. injection E2 as -> <-.
  cbn [app]. apply in_or_app.
  destruct (phase_run l1 t m e 0 x1 _ x2 oo1 I1) as [H|[H V2]]; auto.
  - rewrite <- E1. exact Wx.
  - rewrite <- E1. apply set_same.
  - rewrite <- E1. split; reflexivity.
  - right. eapply spin_delivers; [exact E4|exact S2|exact V2|exact En| |].
    + cbn [Nat.add] in H. destruct (watcher_steps l1) as [|[|[|k]]]; [lia..|exact H].
    + assert (sdist (s x2) t <= 10)%nat; [|lia]. destruct (s x2) as [t1|t1], t1, t; cbn; lia.
Qed.

(** ** What does not hold *)
Definition start : list move := [Advertise TTag; Advertise TData; Watcher; Watcher; Watcher; Watcher; Watcher].
Definition ex_pos : sample := SPos 1 2 3 4 5 6 7.
Definition ex_data : sample := SData 8 9 [10; 11; 12]%Z.
(** A data packet published just before a position is lost for ever, with its parameter on (the default): whatever
    happens then, no data packet is broadcast before another one is published. *)
Theorem tpub_lost_refuted : exists x, run init (start ++ [Publish ex_data; Publish ex_pos]) = Some (x, []) /\
  param TData true (start ++ [Publish ex_data; Publish ex_pos]) = true /\
  forall l x' out, run x l = Some (x', out) -> on_topic TData (samples true l) = [] -> of_kind TData out = [].
Proof.
  eexists. split; [vm_compute; reflexivity|]. split; [reflexivity|]. intros l x' out E No.
  match type of E with run ?y _ = _ => assert (R : run init (start ++ [Publish ex_data; Publish ex_pos]) = Some (y, [])) by (vm_compute; reflexivity) end.
  pose proof (count_run l TData _ _ _ _ (inv_run _ _ _ R) E) as H. change (known (start ++ _)) with true in H. rewrite No in H.
  change (pending _ TData) with 0%nat in H at 2. unfold count in H. destruct (of_kind TData out); [reflexivity|]. cbn [length] in H. lia.
Qed.

Definition data (n : Z) : sample := SData 8 9 [n].
(** A packet can be broadcast twice, in place of the one before. *)
Theorem tpub_twice_refuted : exists x,
  run init (start ++ [Publish (data 1); Watcher; Watcher; Watcher; Watcher; Spinner; Spinner; Spinner; Spinner; Spinner;
                      Publish (data 2); Watcher; Watcher; Watcher; Spinner] ++ repeat Spinner 6) = Some (x, [DataPacket 8 9 [2]; DataPacket 8 9 [2]]%Z).
Proof. eexists. vm_compute. reflexivity. Qed.

(** A position received from the bus is broadcast again, with whatever the memory contains as its time. *)
Theorem tpub_echo_refuted : forall ts z vz px py, exists x,
  run init (start ++ [SetParam TTag true; Receive ts z vz px py; Watcher; Watcher; Watcher] ++ repeat Spinner 5) = Some (x, [TagPosition ts px py]).
Proof. intros. eexists. vm_compute. reflexivity. Qed.

(** ** Cases *)
Example ex_delivery : exists x o, run init (start ++ [SetParam TTag true; Watcher; Watcher; Watcher; Watcher; Watcher; Publish ex_pos; Watcher; Watcher; Watcher] ++ repeat Spinner 10) = Some (x, o) /\
  o = [TagPosition 1 2 3]%Z /\ latest TTag (start ++ [Publish ex_pos]) = Some ex_pos.
Proof. eexists _, _. split; [vm_compute; reflexivity|]. split; reflexivity. Qed.
Example ex_data_delivery : exists x, run init (start ++ [Publish ex_data; Watcher; Watcher; Watcher] ++ repeat Spinner 10) = Some (x, [DataPacket 8 9 [10; 11; 12]]%Z).
Proof. eexists. vm_compute. reflexivity. Qed.
(** Three messages after the parameter is off. *)
Example ex_turned_off : exists x x',
  run init (start ++ [Publish (data 1); Watcher; Watcher; Watcher; Watcher; Spinner; Spinner; Spinner; Spinner; Spinner; Publish (data 2); Watcher; Watcher; Watcher; Watcher;
                      Publish (data 3); Watcher; Watcher; SetParam TData false]) = Some (x, []) /\
  run x ([Spinner; Spinner; Spinner; Spinner; Spinner; Spinner; Watcher] ++ repeat Spinner 14) = Some (x', [DataPacket 8 9 [3]; DataPacket 8 9 [3]; DataPacket 8 9 [3]]%Z).
Proof. eexists _, _. split; [vm_compute; reflexivity|]. vm_compute. reflexivity. Qed.

Print Assumptions tpub_safe.
Print Assumptions tpub_exact.
Print Assumptions tpub_others_refuted.
Print Assumptions tpub_count.
Print Assumptions tpub_off.
Print Assumptions tpub_turned_off.
Print Assumptions tpub_delivery.
Print Assumptions tpub_lost_refuted.
Print Assumptions tpub_twice_refuted.
Print Assumptions tpub_echo_refuted.
