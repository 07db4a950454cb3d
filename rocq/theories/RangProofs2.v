(** Proofs about the ranging thread: progress, measurements and positions, reception. *)
From Coq Require Import ZArith List Bool Lia ZifyBool.
From Verif Require Import CBase Buf UwbModel UwbSpec UwbProofs RangModel RangSpec RangProofs.
Import ListNotations.
Local Open Scope Z_scope.

(** ** What one step sends *)
Lemma u16_mod x : u16 x = x mod 2 ^ 16. Proof. reflexivity. Qed.
Lemma position_shape p b l : params_ok p -> blen b = 1024 ->
  send_anchor_position (handler_of p) (p_x p) (p_y p) (p_z p) b = Some l -> exists f, l = [Transmit TX_IMMEDIATE f] /\ nth 2 f 0 = 3 /\ tells_position p f.
Proof.
  intros (X & Y & Z) L H. pose proof H as H'. unfold send_anchor_position in H'. ubind H'. ubind H'. destruct a0 as [f m]. apply bset_all_blen in E.
  destruct (enc_shape _ _ _ _ _ _ _ _ _ _ E0 ltac:(lia) ltac:(lia) H') as (q & ->).
  eexists. split; [reflexivity|]. split; [reflexivity|]. intros h junk rx now EP HC LJ.
  destruct (anchor_delivery_l (handler_of p) h (p_x p) (p_y p) (p_z p) b junk rx now) as (f' & E1 & E2); auto; try lia.
  rewrite H in E1. injection E1 as <-. exact E2.
Qed.

Definition asked (s : sys) (o : list obs) (ix : Z) : Prop :=
  (request_frames o = [] /\ ix = idx s) \/
  (exists f a, request_frames o = [f] /\ bget anchor_macs (idx s) = Some a /\ destination f = a /\ p_anchor (prm s) = false /\
     ix = if idx s + 1 =? 4 then 0 else idx s + 1).
Definition told (s : sys) (o : list obs) : Prop :=
  position_frames o = [] \/ exists f, position_frames o = [f] /\ p_anchor (prm s) = true /\ tells_position (prm s) f.

Lemma macs_byte i a : bget anchor_macs i = Some a -> 0 <= a < 256.
Proof.
  unfold bget. destruct (0 <=? i); [|discriminate]. intro H. apply nth_error_In in H. cbn in H. lia.
Qed.
Lemma dest_frame pan src a q p : 0 <= a < 256 -> destination (frame_of pan src a q p) = a.
Proof.
  intro H. unfold destination. cbn [frame_of mac_header app nth]. change (Z.land a 255) with (Z.land a 255).
  rewrite land255, Z.shiftr_div_pow2 by lia. change (2 ^ 8) with 256. rewrite Z.mod_small, Z.div_small by lia. lia.
Qed.
Lemma low_none o : Forall low_kind o -> request_frames o = [] /\ position_frames o = [].
Proof. intro H. apply low_silent in H. destruct H as (_ & _ & H). split; apply H; lia. Qed.

Lemma step_frames s e s' : env_ok e -> params_ok (prm s) -> step s e = Some s' ->
  exists o, hist s' = hist s ++ o /\ asked s o (idx s') /\ told s o.
Proof.
  assert (NONE : exists o, hist s = hist s ++ o /\ asked s o (idx s) /\ told s o).
  { exists []. rewrite app_nil_r. repeat split; left; auto. }
  intros EO PO H. destruct e; cbn [step] in H; try (injection H as <-).
  - destruct (rt s); try exact NONE. exists []. repeat split; left; auto.
  - exists []. repeat split; left; auto.
  - exact NONE.
  - destruct (ph s i); exact NONE.
  - destruct (ph s i); exact NONE.
  - unfold caller in H. destruct (ph s i); try (injection H as <-; exact NONE).
    + destruct (owner s); [injection H as <-; exact NONE|]. ubind H. injection H as <-. eexists. cbn [hist idx]. split; [reflexivity|]. split; left; auto.
    + destruct (taken s); injection H as <-; exact NONE.
    + injection H as <-. eexists. cbn [hist idx]. split; [reflexivity|]. split; left; auto.
  - destruct EO as (LB & LI). unfold radio in H. destruct (rt s); try (injection H as <-; exact NONE).
    + destruct (wait_one (pend s)) as [k|] eqn:W; [|injection H as <-; exact NONE]. apply wait_one_spec in W. destruct W as (_ & K).
      unfold turn in H. cbv zeta in H.
      assert (D : k = 0 \/ k = 1 \/ k = 2 \/ k = 3 \/ k = 4 \/ k = 5 \/ k = 6 \/ k = 7 \/ k = 8 \/ k = 9 \/ k = 10) by lia.
      repeat (destruct D as [D|D]); subst k; cbn in H; try (injection H as <-; eexists; cbn [hist set_rt idx]; split; [reflexivity|]; split; left; auto).
      * destruct isr as [[[data old] rx]|]; [|injection H as <-; eexists; cbn [hist set_rt idx]; split; [reflexivity|]; split; left; auto].
        ubind H. injection H as <-. apply frame_rx_low in E; [|exact LI]. apply low_none in E. destruct E as (A & B).
        eexists; cbn [hist set_rt idx]; split; [reflexivity|]; split; left; auto.
      * destruct (p_anchor (prm s)) eqn:PA; cbn in H; [injection H as <-; eexists; cbn [hist set_rt idx]; split; [reflexivity|]; split; left; auto|].
        do 2 ubind H. apply initiate_shape in E0; [|lia]. destruct E0 as (ts & p & ->). cbn in H. injection H as <-.
        eexists. cbn [hist set_rt idx]. split; [reflexivity|]. split; [|left; reflexivity]. right.
        eexists _, a. repeat split; eauto. apply dest_frame. eapply macs_byte; eauto.
      * destruct (p_anchor (prm s)) eqn:PA; cbn in H; [|injection H as <-; eexists; cbn [hist set_rt idx]; split; [reflexivity|]; split; left; auto].
        ubind H. apply position_shape in E; [|exact PO|exact LB]. destruct E as (f & -> & K3 & T). cbn in H. injection H as <-.
        eexists. cbn [hist set_rt idx]. split; [reflexivity|]. unfold asked, told, request_frames, position_frames. cbn [frames flat_map]. rewrite K3.
        split; [left; auto|]. right. exists f. auto.
    + do 3 ubind H. injection H as <-. apply data_shape in E0; [|lia]. destruct E0 as (f & -> & K & _). cbn in E1. injection E1 as <-.
      eexists. cbn [hist set_rt idx]. split; [reflexivity|]. unfold asked, told, request_frames, position_frames. cbn [frames flat_map]. rewrite K. split; left; auto.
Qed.

Lemma step_prm s e s' : step s e = Some s' -> prm s' = prm s \/ e = Configure (prm s').
Proof.
  intro H. destruct e; cbn [step] in H; try (injection H as <-).
  - left. now destruct (rt s).
  - now left.
  - now right.
  - left. now destruct (ph s i).
  - left. now destruct (ph s i).
  - left. unfold caller in H. destruct (ph s i); try (injection H as <-; reflexivity).
    + destruct (owner s); [injection H as <-; reflexivity|]. ubind H. injection H as <-. reflexivity.
    + destruct (taken s); injection H as <-; reflexivity.
  - left. unfold radio in H. destruct (rt s); try (injection H as <-; reflexivity).
    + destruct (wait_one (pend s)); [|injection H as <-; reflexivity]. unfold turn in H. cbv zeta in H.
      repeat match type of H with (if ?c then _ else _) = _ => destruct c end; try (repeat ubind H; injection H as <-; reflexivity).
      destruct isr as [[[? ?] ?]|]; [ubind H|]; injection H as <-; reflexivity.
    + do 3 ubind H. injection H as <-. reflexivity.
Qed.

(** ** The anchors are asked in turn *)
Definition rr (s : sys) : Prop :=
  params_ok (prm s) /\ idx s = Z.of_nat (length (request_frames (hist s)) mod 4) /\
  map destination (request_frames (hist s)) = map anchor_in_turn (seq 0 (length (request_frames (hist s)))).
Lemma step_rr s e s' : rr s -> env_ok e -> config_ok e -> step s e = Some s' -> rr s'.
Proof.
  intros (P & I & M) EO CO H. destruct (step_frames _ _ _ EO P H) as (o & Eh & A & _). split.
  { destruct (step_prm _ _ _ H) as [->| ->]; [exact P|]. exact CO. }
  rewrite Eh. unfold request_frames in *. rewrite frames_app. destruct A as [(E & ->)|(f & a & E & B & D & _ & ->)]; unfold request_frames in E; rewrite E.
  - rewrite app_nil_r. auto.
  - rewrite app_length. cbn [length]. rewrite Nat.add_1_r, seq_S, !map_app, M. cbn [map Nat.add].
    set (n := length (frames 5 (hist s))) in *. clearbody n.
    assert (D4 : (S n mod 4 = if Nat.eqb (n mod 4) 3 then 0 else S (n mod 4))%nat).
    { pose proof (Nat.div_mod n 4 ltac:(lia)). pose proof (Nat.mod_upper_bound n 4 ltac:(lia)).
      destruct (Nat.eqb (n mod 4) 3) eqn:E3.
      - apply Nat.eqb_eq in E3. symmetry. apply (Nat.mod_unique (S n) 4 (S (n / 4)) 0); lia.
      - apply Nat.eqb_neq in E3. symmetry. apply (Nat.mod_unique (S n) 4 (n / 4) (S (n mod 4))); lia. }
    rewrite D4. split.
    + rewrite I. destruct (Nat.eqb (n mod 4) 3) eqn:E3.
      * apply Nat.eqb_eq in E3. rewrite E3. reflexivity.
      * apply Nat.eqb_neq in E3. replace (Z.of_nat (n mod 4) + 1 =? 4) with false by lia. lia.
    + f_equal. f_equal. rewrite D. unfold anchor_in_turn. rewrite I in B. unfold bget in B. replace (0 <=? Z.of_nat (n mod 4)) with true in B by lia.
      rewrite Nat2Z.id in B. symmetry. now apply nth_error_nth.
Qed.
Lemma run_rr tr : forall s s', rr s -> Forall env_ok tr -> Forall config_ok tr -> run s tr = Some s' -> rr s'.
Proof.
  induction tr as [|e tr IH]; cbn [run]; intros s s' I F C H; [now injection H as <-|]. ubind H. inversion F; inversion C; subst.
  eapply IH; [|eassumption|eassumption|exact H]. eapply step_rr; eauto.
Qed.

(** ** Roles *)
Definition role (p : params) (s : sys) : Prop :=
  prm s = p /\ (p_anchor p = true -> request_frames (hist s) = []) /\ (p_anchor p = false -> position_frames (hist s) = []) /\
  Forall (tells_position p) (position_frames (hist s)).
Lemma run_role p tr : params_ok p -> forall s s', role p s -> Forall env_ok tr -> Forall no_configure tr -> run s tr = Some s' -> role p s'.
Proof.
  intro PO. induction tr as [|e tr IH]; cbn [run]; intros s s' R F C H; [now injection H as <-|]. ubind H. inversion F; inversion C; subst.
  eapply IH; [|eassumption|eassumption|exact H]. destruct R as (P & A & B & T). subst p. destruct (step_frames _ _ _ H2 PO E) as (o & Eh & As & Td).
  assert (Pm : prm a = prm s) by (destruct (step_prm _ _ _ E) as [?| ->]; [assumption|contradiction]).
  unfold role, request_frames, position_frames in *. rewrite Eh, !frames_app. split; [exact Pm|]. repeat split.
  - intro Q. rewrite (A Q). destruct As as [(W & _)|(f & m & W & _ & _ & W2 & _)]; [exact W|congruence].
  - intro Q. rewrite (B Q). destruct Td as [W|(f & W & W2 & _)]; [exact W|congruence].
  - apply Forall_app. split; [exact T|]. destruct Td as [W|(f & W & _ & W3)]; unfold position_frames in W; rewrite W; repeat constructor. exact W3.
Qed.

(** ** A packet whose turn has come is sent and its call returns *)
Lemma encapsulate_ok pan src dst seq b n : 0 <= n -> n + 11 <= blen b < 2 ^ 31 -> exists f,
  encapsulate pan src dst seq b n = Some (f, n + 11) /\ blen f = blen b.
Proof.
  intros N L. destruct (split_at b n ltac:(lia)) as (p & r & -> & LP). subst n. rewrite blen_app in *.
  rewrite encapsulate_spec by (rewrite ?blen_app; lia). eexists. split; [reflexivity|].
  rewrite !blen_app, blen_header. change 11%nat with (Z.to_nat 11). rewrite blen_skipn by lia. change (blen [0; 0]) with 2. lia.
Qed.
Lemma transmit_ok ts f n : 0 <= n <= blen f -> exists g, transmit ts f n = Some [Transmit ts g].
Proof. intro H. unfold transmit, bslice. replace ((0 <=? 0) && (0 <=? n) && (0 + n <=? blen f)) with true by lia. eexists. reflexivity. Qed.
Lemma bset_all_ok l : forall b i, 0 <= i -> i + blen l <= blen b -> exists b', bset_all b i l = Some b' /\ blen b' = blen b.
Proof.
  induction l as [|v l IH]; intros b i H L; [exists b; split; reflexivity|]. rewrite blen_cons in L. pose proof (blen_nonneg l). cbn [bset_all].
  destruct (bset b i v) as [c|] eqn:E.
  - pose proof (bset_blen _ _ _ _ E) as LC. destruct (IH c (i + 1) ltac:(lia) ltac:(lia)) as (b' & E' & L'). exists b'. split; [exact E'|lia].
  - exfalso. unfold bset in E. replace ((0 <=? i) && (i <? blen b)) with true in E by lia. discriminate.
Qed.
Lemma initiate_ok h now b a : blen b = 1024 -> exists ts f, initiate_measurement h now b a = Some [Transmit ts f].
Proof.
  intro L. unfold initiate_measurement. destruct (encapsulate_ok (pan_id h) (address h) a SEQ_INITIATE_MEASUREMENT b 0 ltac:(lia) ltac:(lia)) as (f & -> & LF).
  cbn [bind]. destruct (transmit_ok (Z.land (u64 (now + UWB_DELAY)) MASK_40BIT) f (0 + 11) ltac:(lia)) as (g & ->). eauto.
Qed.
Lemma anchor_ok h x y z b : blen x = 4 -> blen y = 4 -> blen z = 4 -> blen b = 1024 -> exists ts f, send_anchor_position h x y z b = Some [Transmit ts f].
Proof.
  intros X Y Z L. unfold send_anchor_position. destruct (bset_all_ok (x ++ y ++ z) b 0 ltac:(lia) ltac:(rewrite !blen_app; lia)) as (b' & -> & LB).
  cbn [bind]. destruct (encapsulate_ok (pan_id h) (address h) BROADCAST_ADDR SEQ_ANCHOR_POSITION b' 12 ltac:(lia) ltac:(lia)) as (f & -> & LF).
  cbn [bind]. destruct (transmit_ok TX_IMMEDIATE f (12 + 11) ltac:(lia)) as (g & ->). eauto.
Qed.
Lemma data_ok h dst d b : blen d <= 1013 -> blen b = 1024 -> exists ts f, send_data_packet h dst d b = Some [Transmit ts f].
Proof.
  intros D L. pose proof (blen_nonneg d). unfold send_data_packet. destruct (bset_all_ok d b 0 ltac:(lia) ltac:(lia)) as (b' & -> & LB).
  cbn [bind]. destruct (encapsulate_ok (pan_id h) (address h) dst SEQ_USER_DATA b' (blen d) ltac:(lia) ltac:(lia)) as (f & -> & LF).
  cbn [bind]. destruct (transmit_ok TX_IMMEDIATE f (blen d + 11) ltac:(lia)) as (g & ->). eauto.
Qed.

Definition buf0 : list Z := repeat 0 1024.
Definition calm : event := Turn buf0 0 None.
Lemma buf0_len : blen buf0 = 1024. Proof. reflexivity. Qed.

(** A turn for an event below the data packet. *)
Lemma calm_turn s k : params_ok (prm s) -> (exists a, bget anchor_macs (idx s) = Some a) -> 0 <= k < 4 -> rt s = RWait ->
  wait_one (pend s) = Some k -> exists ix o, step s calm = Some (set_rt s (Z.clearbit (pend s) k) RWait ix o) /\ requests o = [] /\ returned o = [].
Proof.
  intros PO Ha K RT W. assert (H : exists s', step s calm = Some s').
  2: { destruct H as (s' & H). rewrite H. cbn [step calm] in H. unfold radio in H. rewrite RT, W in H.
       apply turn_other in H; [|lia|lia|split; [exact buf0_len|exact I]]. destruct H as (ix & o & -> & A & B & _). eauto. }
  revert PO Ha K RT W.
  intros (X & Y & Z) (a & Ha) K RT W. cbn [step calm]. unfold radio. rewrite RT, W. unfold turn. cbv zeta.
  assert (D : k = 0 \/ k = 1 \/ k = 2 \/ k = 3) by lia. repeat (destruct D as [D|D]); subst k; cbn -[initiate_measurement send_anchor_position buf0].
  - eauto.
  - destruct (p_anchor (prm s)); cbn -[initiate_measurement buf0]; [eauto|]. rewrite Ha. cbn [bind].
    destruct (initiate_ok (handler_of (prm s)) 0 buf0 a buf0_len) as (ts & f & ->). cbn. eauto.
  - destruct (p_anchor (prm s)); cbn -[send_anchor_position buf0]; [|eauto].
    destruct (anchor_ok (handler_of (prm s)) (p_x (prm s)) (p_y (prm s)) (p_z (prm s)) buf0 X Y Z buf0_len) as (ts & f & ->). cbn. eauto.
  - eauto.
Qed.

Lemma run_app a : forall b s, run s (a ++ b) = bind (run s a) (fun s' => run s' b).
Proof. induction a as [|e a IH]; intros b s; cbn [run app bind]; [reflexivity|]. destruct (step s e); cbn [bind]; auto. Qed.

(** The state differs from [s] only by the pending events and what was sent. *)
Definition alike (s s' : sys) : Prop :=
  rt s' = rt s /\ prm s' = prm s /\ d_ptr s' = d_ptr s /\ d_len s' = d_len s /\ d_to s' = d_to s /\ taken s' = taken s /\ owner s' = owner s /\
  ph s' = ph s /\ mem s' = mem s /\ requests (hist s') = requests (hist s) /\ returned (hist s') = returned (hist s).
Definition below (s : sys) (j : Z) : Prop := forall k, 0 <= k < j -> Z.testbit (pend s) k = false.

Lemma wait_first m j : 0 <= j <= 4 -> (forall k, 0 <= k < j -> Z.testbit m k = false) -> Z.testbit m j = true -> wait_one m = Some j.
Proof.
  intros J B T. unfold wait_one. assert (D : j = 0 \/ j = 1 \/ j = 2 \/ j = 3 \/ j = 4) by lia.
  repeat (destruct D as [D|D]); subst j; cbn [find]; rewrite ?(B 0), ?(B 1), ?(B 2), ?(B 3) by lia; now rewrite T.
Qed.

Definition good (s : sys) : Prop := inv false s /\ rr s /\ rt s <> RInit.
Lemma good_step s e s' : good s -> env_ok e -> config_ok e -> step s e = Some s' -> good s'.
Proof.
  intros (I & R & N) EO CO H. split; [eapply step_inv; eauto|]. split; [eapply step_rr; eauto|]. eapply step_started; eauto.
Qed.
Lemma rr_mac s : rr s -> exists a, bget anchor_macs (idx s) = Some a.
Proof.
  intros (_ & I & _). rewrite I. set (n := length _). pose proof (Nat.mod_upper_bound n 4 ltac:(lia)).
  destruct (n mod 4)%nat as [|[|[|[|?]]]]; [eexists; reflexivity..|lia].
Qed.

(** One event lower than the data packet is dealt with if it is pending. *)
Lemma drain_one s j : good s -> 0 <= j < 4 -> rt s = RWait -> bit4 s = true -> below s j ->
  exists tr s', Forall (fun e => e = calm) tr /\ run s tr = Some s' /\ good s' /\ alike s s' /\ bit4 s' = true /\ below s' (j + 1).
Proof.
  intros G J RT B4 Bl. destruct (Z.testbit (pend s) j) eqn:T.
  - destruct G as (GI & GR & GN). assert (W : wait_one (pend s) = Some j) by (apply wait_first; [lia|exact Bl|exact T]).
    destruct (calm_turn s j (proj1 GR) (rr_mac _ GR) ltac:(lia) RT W) as (ix & o & E & NQ & NT).
    exists [calm], (set_rt s (Z.clearbit (pend s) j) RWait ix o). split; [repeat constructor|]. split; [cbn [run]; now rewrite E|]. split.
    { eapply good_step; [|..|exact E]; [repeat split; try assumption; apply GR| |exact I]. split; [exact buf0_len|exact I]. }
    split.
    { repeat split; cbn [set_rt rt hist]; auto; rewrite ?requests_app, ?returned_app, ?NQ, ?NT; apply app_nil_r. }
    unfold bit4, below in *. cbn [pend set_rt]. split; [rewrite Z.clearbit_neq by lia; exact B4|].
    intros k K. destruct (Z.eq_dec k j) as [->|N]; [apply Z.clearbit_eq|]. rewrite Z.clearbit_neq by lia. apply Bl. lia.
  - exists [], s. split; [constructor|]. split; [reflexivity|]. split; [exact G|]. split; [repeat split|]. split; [exact B4|].
    intros k K. destruct (Z.eq_dec k j) as [->|N]; [exact T|]. apply Bl. lia.
Qed.
Lemma alike_trans a b c : alike a b -> alike b c -> alike a c.
Proof. unfold alike. intuition congruence. Qed.
Lemma drain_all s n : good s -> (n <= 4)%nat -> rt s = RWait -> bit4 s = true ->
  exists tr s', Forall (fun e => e = calm) tr /\ run s tr = Some s' /\ good s' /\ alike s s' /\ bit4 s' = true /\ below s' (Z.of_nat n).
Proof.
  induction n as [|n IH]; intros G N RT B4.
  - exists [], s. split; [constructor|]. split; [reflexivity|]. split; [exact G|]. split; [repeat split|]. split; [exact B4|]. intros k K. lia.
  - destruct (IH G ltac:(lia) RT B4) as (tr & s1 & F & R & G1 & A & B & L).
    destruct (drain_one s1 (Z.of_nat n) G1 ltac:(lia) ltac:(destruct A as (-> & _); exact RT) B L) as (tr' & s2 & F' & R' & G2 & A' & B' & L').
    exists (tr ++ tr'), s2. split; [apply Forall_app; auto|]. split; [rewrite run_app, R; exact R'|]. split; [exact G2|].
    split; [eapply alike_trans; eauto|]. split; [exact B'|]. replace (Z.of_nat (S n)) with (Z.of_nat n + 1) by lia. exact L'.
Qed.

(** The packet of the owner, as seen in the history. *)
Definition mine (s : sys) (i : nat) (d : list Z) : Prop :=
  exists R dst, requests (hist s) = R ++ [(i, dst, d)] /\ returned (hist s) = map who R.
Definition finishes (s : sys) (i : nat) : Prop :=
  exists tr s', Forall (fun e => e = calm \/ e = Cpu i) tr /\ run s tr = Some s' /\ good s' /\ returned (hist s') = returned (hist s) ++ [i] /\
    requests (hist s') = requests (hist s).

Lemma finishes_step s e s' i : good s -> e = calm \/ e = Cpu i -> step s e = Some s' -> returned (hist s') = returned (hist s) ->
  requests (hist s') = requests (hist s) -> (good s' -> finishes s' i) -> finishes s i.
Proof.
  intros G EE H T Q F. assert (G' : good s').
  { eapply good_step; [exact G| | |exact H]; destruct EE as [-> | ->]; try exact I. split; [exact buf0_len|exact I]. }
  destruct (F G') as (tr & s2 & A & B & C & D & K). exists (e :: tr), s2. split; [constructor; auto|]. split; [cbn [run]; now rewrite H|].
  split; [exact C|]. rewrite D, K, T, Q. auto.
Qed.

Lemma fin_unlock s i : good s -> ph s i = Unlock -> finishes s i.
Proof.
  intros G P. assert (H : exists s', step s (Cpu i) = Some s' /\ hist s' = hist s ++ [ORet i]).
  { cbn [step]. unfold caller. rewrite P. eexists. split; reflexivity. }
  destruct H as (s' & H & Eh). exists [Cpu i], s'. split; [constructor; [now right|constructor]|]. split; [cbn [run]; now rewrite H|].
  split; [eapply good_step; [exact G| | |exact H]; exact I|]. rewrite Eh, returned_app, requests_app. cbn. now rewrite app_nil_r.
Qed.
Lemma fin_taken s i : good s -> ph s i = Waiting -> taken s = false -> finishes s i.
Proof.
  intros G P T. assert (H : exists s', step s (Cpu i) = Some s' /\ hist s' = hist s /\ ph s' i = Unlock).
  { cbn [step]. unfold caller. rewrite P, T. eexists. split; [reflexivity|]. split; [reflexivity|]. cbn [ph]. apply upd_same. }
  destruct H as (s' & H & Eh & P'). eapply finishes_step; [exact G|right; reflexivity|exact H|now rewrite Eh|now rewrite Eh|].
  intro G'. now apply fin_unlock.
Qed.
Lemma fin_signal s i : good s -> ph s i = Waiting -> rt s = RSignal -> finishes s i.
Proof.
  intros G P T. assert (H : exists s', step s calm = Some s' /\ hist s' = hist s /\ ph s' i = Waiting /\ taken s' = false).
  { cbn [step calm]. unfold radio. rewrite T. eexists. repeat split; auto. }
  destruct H as (s' & H & Eh & P' & T'). eapply finishes_step; [exact G|left; reflexivity|exact H|now rewrite Eh|now rewrite Eh|].
  intro G'. now apply fin_taken.
Qed.
Lemma fin_send s i h d : good s -> ph s i = Waiting -> rt s = RSend h -> bslice (mem s (d_ptr s)) 0 (d_len s) = Some d -> blen d <= 1013 -> finishes s i.
Proof.
  intros G P T B L. destruct (data_ok h (d_to s) d buf0 L buf0_len) as (ts & f & E).
  assert (H : exists s', step s calm = Some s' /\ hist s' = hist s ++ [OTx ts f] /\ ph s' i = Waiting /\ rt s' = RSignal).
  { cbn [step calm]. unfold radio. rewrite T, B. cbn [bind]. rewrite E. cbn [bind callbacks callback]. eexists. repeat split; auto. }
  destruct H as (s' & H & Eh & P' & T').
  eapply finishes_step; [exact G|left; reflexivity|exact H|rewrite Eh, returned_app; apply app_nil_r|rewrite Eh, requests_app; apply app_nil_r|].
  intro G'. now apply fin_signal.
Qed.

Lemma fin_waiting s i dst d : good s -> owner s = Some i -> ph s i = Waiting -> stage false s i dst d false -> blen d <= 1013 -> finishes s i.
Proof.
  intros G O P St L. unfold stage in St. rewrite P in St. destruct St as ((L1 & L2 & L3) & St).
  destruct St as [St|[(B4 & RT & _)|[(_ & (h & RT) & _)|[St|St]]]]; try (intuition discriminate).
  - destruct (drain_all s 4 G ltac:(lia) RT B4) as (tr & s1 & F & R & G1 & A & B & Bl).
    destruct A as (A1 & A2 & A3 & A4 & A5 & A6 & A7 & A8 & A9 & A10 & A11).
    assert (H : finishes s1 i).
    { assert (W : wait_one (pend s1) = Some 4) by (apply wait_first; [lia|exact Bl|exact B]).
      assert (H : step s1 calm = Some (set_rt s1 (Z.clearbit (pend s1) 4) (RSend (handler_of (prm s1))) (idx s1) [])).
      { cbn [step calm]. unfold radio. rewrite A1, RT, W. apply turn_data. }
      eapply finishes_step; [exact G1|left; reflexivity|exact H|cbn [hist set_rt]; now rewrite app_nil_r|cbn [hist set_rt]; now rewrite app_nil_r|].
      intro G2. eapply fin_send with (d := d); [exact G2|cbn [ph set_rt]; now rewrite A8|reflexivity| |exact L].
      cbn [mem d_ptr d_len set_rt]. now rewrite A9, A3, A4, L1. }
    destruct H as (tr2 & s2 & F2 & R2 & G2 & T2 & Q2). exists (tr ++ tr2), s2. split.
    { apply Forall_app. split; [|exact F2]. eapply Forall_impl; [|exact F]. auto. }
    split; [rewrite run_app, R; exact R2|]. split; [exact G2|]. rewrite T2, Q2, A10, A11. auto.
  - eapply fin_send; [exact G|exact P|exact RT| |exact L]. now rewrite L1.
Qed.

(** The four statements before the broadcast. *)
Lemma fin_write s i dst d e : good s -> owner s = Some i -> stage false s i dst d e -> blen d <= 1013 -> finishes s i.
Proof.
  assert (STEP : forall s s', good s -> step s (Cpu i) = Some s' -> hist s' = hist s -> (good s' -> finishes s' i) -> finishes s i).
  { intros s1 s2 G H Eh F. eapply finishes_step; [exact G|right; reflexivity|exact H|now rewrite Eh|now rewrite Eh|exact F]. }
  assert (W : forall s, good s -> owner s = Some i -> ph s i = Waiting -> stage false s i dst d e -> blen d <= 1013 -> finishes s i).
  { intros s1 G O P St L. destruct e.
    - unfold stage in St. rewrite P in St. destruct St as (_ & St).
      destruct St as [St|[St|[St|[(_ & RT & _)|(_ & Tk & _)]]]]; try (intuition discriminate); [now apply fin_signal|now apply fin_taken].
    - eapply fin_waiting; eauto. }
  assert (A : forall s, good s -> owner s = Some i -> ph s i = Announce -> stage false s i dst d e -> blen d <= 1013 -> finishes s i).
  { intros s1 G O P St L. eapply STEP with (s' := _); [exact G|cbn [step]; unfold caller; rewrite P; reflexivity|reflexivity|].
    intro G'. apply W; [exact G'|exact O|cbn [ph]; apply upd_same| |exact L]. unfold stage in *. cbn [ph]. rewrite upd_same. rewrite P in St.
    destruct St as (Ld & (Q1 & Q2) & Tk & Dn). split; [exact Ld|]. right. left. unfold bit4, broadcast in *. cbn [pend rt taken].
    destruct G as (_ & _ & N). destruct (rt s1) eqn:RT; try contradiction; try congruence. rewrite Z.lor_spec, Q1. repeat split; auto. }
  assert (C : forall s x, good s -> owner s = Some i -> ph s i = SetDst x -> stage false s i dst d e -> blen d <= 1013 -> finishes s i).
  { intros s1 x G O P St L. eapply STEP with (s' := _); [exact G|cbn [step]; unfold caller; rewrite P; reflexivity|reflexivity|].
    intro G'. apply A; [exact G'|exact O|cbn [ph]; apply upd_same| |exact L]. unfold stage in *. cbn [ph]. rewrite upd_same. rewrite P in St.
    unfold loaded, quiet, bit4 in *. cbn. intuition. }
  assert (B : forall s n x, good s -> owner s = Some i -> ph s i = SetSize n x -> stage false s i dst d e -> blen d <= 1013 -> finishes s i).
  { intros s1 n x G O P St L. eapply STEP with (s' := _); [exact G|cbn [step]; unfold caller; rewrite P; reflexivity|reflexivity|].
    intro G'. eapply C; [exact G'|exact O|cbn [ph]; apply upd_same| |exact L]. unfold stage in *. cbn [ph]. rewrite upd_same. rewrite P in St.
    unfold quiet, bit4 in *. cbn. intuition. }
  intros G O St L. destruct (ph s i) eqn:P; try (unfold stage in St; rewrite P in St; contradiction).
  - eapply STEP with (s' := _); [exact G|cbn [step]; unfold caller; rewrite P; reflexivity|reflexivity|].
    intro G'. eapply B; [exact G'|exact O|cbn [ph]; apply upd_same| |exact L]. unfold stage in *. cbn [ph]. rewrite upd_same. rewrite P in St.
    unfold quiet, bit4 in *. cbn. intuition.
  - eapply B; eauto.
  - eapply C; eauto.
  - eapply A; eauto.
  - eapply W; eauto.
  - now apply fin_unlock.
Qed.

Lemma start_good p m s : params_ok p -> step (init p m) Start = Some s -> good s.
Proof.
  intros P H. cbn in H. injection H as <-. split; [|split; [|discriminate]].
  - cbn. repeat split; constructor.
  - split; [exact P|]. split; reflexivity.
Qed.
Lemma run_good tr : forall s s', good s -> Forall env_ok tr -> Forall config_ok tr -> run s tr = Some s' -> good s'.
Proof.
  induction tr as [|e tr IH]; cbn [run]; intros s s' I F C H; [now injection H as <-|]. ubind H. inversion F; inversion C; subst.
  eapply IH; [|eassumption|eassumption|exact H]. eapply good_step; eauto.
Qed.

Lemma progress_l p m tr s i dst d R : params_ok p -> Forall env_ok tr -> Forall config_ok tr -> run (init p m) (Start :: tr) = Some s ->
  requests (hist s) = R ++ [(i, dst, d)] -> length (returned (hist s)) = length R -> blen d <= 1013 -> finishes s i.
Proof.
  intros P F C H Q T L. cbn [run] in H. ubind H. pose proof (start_good _ _ _ P E) as G0. pose proof (run_good _ _ _ G0 F C H) as G.
  destruct G as (I & RR & N). pose proof I as I'. unfold inv in I'. destruct (owner s) as [o|] eqn:O.
  - destruct I' as (_ & R' & dst' & d' & dn & Q' & T' & St & _). rewrite Q in Q'. apply app_inj_tail in Q'. destruct Q' as (_ & Q'). injection Q' as -> -> ->.
    eapply fin_write; eauto. repeat split; auto; apply RR.
  - destruct I' as (_ & _ & _ & T' & _). rewrite T', Q, map_app, app_length in T. cbn in T. rewrite map_length in T. lia.
Qed.

(** ** A packet announced before the thread has started *)
Definition stuck (s : sys) : Prop :=
  bit4 s = false /\ resting (rt s) /\ taken s = true /\ owner s = Some O /\ ph s O = Waiting /\ (forall j, j <> O -> outside (ph s j)) /\
  returned (hist s) = [].
Lemma stuck_step s e s' : stuck s -> env_ok e -> step s e = Some s' -> stuck s'.
Proof.
  intros (B & R & T & O & P & Out & Q) EO H. unfold stuck, bit4 in *. destruct e; cbn [step] in H; try (injection H as <-).
  - destruct (rt s) eqn:RT; cbn [set_rt pend rt taken owner ph hist] in *; rewrite ?app_nil_r, ?RT; repeat split; auto.
  - cbn [set_rt pend rt taken owner ph hist]. rewrite app_nil_r. repeat split; auto. unfold broadcast. destruct (rt s); auto; rewrite Z.lor_spec, mask_bit4, B; auto.
  - cbn. repeat split; auto.
  - destruct (ph s i); cbn; repeat split; auto.
  - destruct (ph s i) eqn:Pi; cbn [set_ph pend rt taken owner ph hist]; repeat split; auto.
    + rewrite upd_other; [exact P|]. intros <-. congruence.
    + intros j J. destruct (Nat.eq_dec j i) as [->|D]; [rewrite upd_same; exact I|rewrite upd_other by exact D; auto].
  - unfold caller in H. destruct (Nat.eq_dec i 0%nat) as [->|D].
    + rewrite P, T in H. injection H as <-. repeat split; auto.
    + specialize (Out i D) as Oi. destruct (ph s i) eqn:Pi; try contradiction.
      * injection H as <-. repeat split; auto.
      * rewrite O in H. injection H as <-. repeat split; auto.
  - unfold radio in H. destruct (rt s) eqn:RT; try contradiction.
    + injection H as <-. rewrite RT. repeat split; auto.
    + destruct (wait_one (pend s)) as [k|] eqn:W; [|injection H as <-; rewrite RT; repeat split; auto].
      apply wait_one_spec in W. destruct W as (W & K). destruct (Z.eq_dec k 4) as [->|N]; [congruence|].
      apply turn_other in H; auto. destruct H as (ix & o & -> & A1 & A2 & A3). cbn [set_rt pend rt taken owner ph hist].
      rewrite returned_app, A2, app_nil_r, Z.clearbit_neq by lia. repeat split; auto.
Qed.
Lemma stuck_run tr : forall s s', stuck s -> Forall env_ok tr -> run s tr = Some s' -> stuck s'.
Proof.
  induction tr as [|e tr IH]; cbn [run]; intros s s' I F H; [now injection H as <-|]. ubind H. inversion F; subst.
  eapply IH; [|eassumption|exact H]. eapply stuck_step; eauto.
Qed.

(** ** Reception *)
Lemma bslice_ok b i n : 0 <= i -> 0 <= n -> i + n <= blen b -> exists l, bslice b i n = Some l.
Proof. intros. unfold bslice. replace ((0 <=? i) && (0 <=? n) && (i + n <=? blen b)) with true by lia. eauto. Qed.
Lemma bget_ok b i : 0 <= i < blen b -> exists v, bget b i = Some v.
Proof.
  intro H. unfold bget. replace (0 <=? i) with true by lia. destruct (nth_error b (Z.to_nat i)) eqn:E; [eauto|].
  apply nth_error_None in E. unfold blen in H. lia.
Qed.
Lemma bset_all_prefix l r : bset_all (repeat 0 (length l) ++ r) 0 l = Some (l ++ r).
Proof. change (repeat 0 (length l) ++ r) with ([] ++ repeat 0 (length l) ++ r). rewrite bset_all_app; [reflexivity|reflexivity|apply repeat_length]. Qed.
Lemma bset_all_whole l b : blen l <= blen b -> bset_all b 0 l = Some (l ++ skipn (length l) b).
Proof.
  intro H. pose proof (blen_nonneg l). destruct (split_at b (blen l) ltac:(lia)) as (x & y & -> & L).
  assert (LX : length x = length l) by (unfold blen in L; lia).
  change (x ++ y) with ([] ++ x ++ y) at 1. rewrite bset_all_app; [|reflexivity|exact LX]. cbn [app]. rewrite <- LX, skipn_app, skipn_all, Nat.sub_diag. reflexivity.
Qed.
Lemma answer_ok h pan src seq b n off rx : blen b = 1024 -> 0 <= n <= 1003 -> 0 <= off <= 15 -> exists ts f, answer h pan src seq b n off rx = Some [Transmit ts f].
Proof.
  intros L N F. unfold answer. cbv zeta. set (ts := Z.land _ _). unfold write_40bit_int.
  destruct (bset_all_ok (bytes_40bit rx) b off ltac:(lia) ltac:(change (blen (bytes_40bit rx)) with 5; lia)) as (b1 & -> & L1). cbn [bind].
  destruct (bset_all_ok (bytes_40bit ts) b1 (off + 5) ltac:(lia) ltac:(change (blen (bytes_40bit ts)) with 5; lia)) as (b2 & -> & L2). cbn [bind].
  replace (u32 (n + 10)) with (n + 10) by (unfold u32; rewrite uN_id; lia).
  destruct (encapsulate_ok pan (address h) src seq b2 (n + 10) ltac:(lia) ltac:(lia)) as (f & -> & LF). cbn [bind].
  destruct (transmit_ok ts f (n + 10 + 11) ltac:(lia)) as (g & ->). eauto.
Qed.
Lemma rx_safe_l h data old rx now : has_anchor_cb h = true -> has_tag_cb h = true -> blen old = 1024 -> 11 <= blen data <= 1014 ->
  nth 2 data 0 <> 2 -> exists o, frame_rx h data old rx now = Some o.
Proof.
  intros HA HT LO LD K. unfold frame_rx. rewrite bset_all_whole by lia. cbn [bind]. set (b := data ++ skipn (length data) old).
  assert (LB : blen b = 1024).
  { unfold b. rewrite blen_app. replace (length data) with (Z.to_nat (blen data)) by (unfold blen; lia). rewrite blen_skipn; lia. }
  unfold process_incoming_frame, decapsulate, get16.
  destruct (bget_ok b 2 ltac:(lia)) as (v2 & E2), (bget_ok b 3 ltac:(lia)) as (v3 & E3), (bget_ok b 4 ltac:(lia)) as (v4 & E4), (bget_ok b 5 ltac:(lia)) as (v5 & E5),
    (bget_ok b 6 ltac:(lia)) as (v6 & E6), (bget_ok b 7 ltac:(lia)) as (v7 & E7), (bget_ok b 8 ltac:(lia)) as (v8 & E8).
  rewrite E2, E3, E4, E5, E6, E7, E8.
  assert (V2 : v2 <> 2).
  { unfold bget in E2. cbn [Z.leb Z.compare Z.to_nat Pos.to_nat] in E2. change (Z.to_nat 2) with 2%nat in E2. unfold b in E2.
    rewrite nth_error_app1 in E2 by (unfold blen in LD; lia). apply (nth_error_nth _ _ 0) in E2. change (Pos.to_nat 2) with 2%nat in E2. congruence. }
  unfold MAC_HDR_LEN, MAC_CRC_LEN. replace (u32 (blen data - 9)) with (blen data - 9) by (unfold u32; rewrite uN_id; lia).
  replace (u32 (blen data - 9 - 2)) with (blen data - 11) by (unfold u32; rewrite uN_id; lia).
  destruct (bmove b 0 9 (blen data - 9)) as [f|] eqn:M.
  2: { exfalso. unfold bmove in M. destruct (bslice_ok b 9 (blen data - 9) ltac:(lia) ltac:(lia) ltac:(lia)) as (q & Eq). rewrite Eq in M.
       replace ((0 <=? 0) && (0 + (blen data - 9) <=? blen b)) with true in M by lia. discriminate. }
  apply bmove_blen in M; [|lia]. cbn [bind d_pan d_dst d_seq d_src d_size d_frame].
  repeat match goal with |- exists o, bind (if ?c then _ else _) _ = _ => destruct c eqn:? end; cbn [bind callbacks]; try (eexists; reflexivity).
  - destruct (answer_ok h (Z.lor (Z.shiftl v4 8) v3) (Z.lor (Z.shiftl v8 8) v7) SEQ_REPLY f (blen data - 11) 5 rx ltac:(lia) ltac:(lia) ltac:(lia)) as (ts & g & ->).
    eexists; reflexivity.
  - destruct (answer_ok h (Z.lor (Z.shiftl v4 8) v3) (Z.lor (Z.shiftl v8 8) v7) SEQ_FINALIZATION f (blen data - 11) 15 rx ltac:(lia) ltac:(lia) ltac:(lia)) as (ts & g & ->).
    eexists; reflexivity.
  - unfold SEQ_FINALIZATION in *. lia.
  - destruct (bslice_ok f 0 4 ltac:(lia) ltac:(lia) ltac:(lia)) as (x & ->), (bslice_ok f 4 4 ltac:(lia) ltac:(lia) ltac:(lia)) as (y & ->), (bslice_ok f 8 4 ltac:(lia) ltac:(lia) ltac:(lia)) as (z & ->).
    cbn [bind]. rewrite HA. eexists; reflexivity.
  - destruct (bslice_ok f 0 4 ltac:(lia) ltac:(lia) ltac:(lia)) as (x & ->), (bslice_ok f 4 4 ltac:(lia) ltac:(lia) ltac:(lia)) as (y & ->).
    cbn [bind]. rewrite HT. eexists; reflexivity.
  - unfold send_advertisement, prepare_advertisement, write_40bit_int. set (ts := Z.land _ _).
    destruct (bset_all_ok (bytes_40bit ts) f 0 ltac:(lia) ltac:(change (blen (bytes_40bit ts)) with 5; lia)) as (b1 & -> & L1). cbn [bind].
    destruct (encapsulate_ok (pan_id h) (address h) BROADCAST_ADDR SEQ_ADVERTISEMENT b1 5 ltac:(lia) ltac:(lia)) as (g & -> & LF). cbn [bind].
    destruct (transmit_ok ts g (5 + 11) ltac:(lia)) as (g' & ->). eexists; reflexivity.
  - cbn [callback]. unfold DATA_BUFFER. replace (blen data - 11 <=? 1024) with true by lia.
    destruct (bslice_ok f 0 (blen data - 11) ltac:(lia) ltac:(lia) ltac:(lia)) as (x & ->). eexists; reflexivity.
Qed.

Lemma forall2_weaken {A B} (P Q : A -> B -> Prop) l l' : (forall a b, P a b -> Q a b) -> Forall2 P l l' -> Forall2 Q l l'.
Proof. intros H F. induction F; constructor; auto. Qed.
