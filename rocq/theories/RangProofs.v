(** Proofs about the ranging thread. *)
From Coq Require Import ZArith List Bool Lia ZifyBool.
From Verif Require Import CBase Buf UwbModel UwbSpec UwbProofs RangModel RangSpec.
Import ListNotations.
Local Open Scope Z_scope.

Lemma bind_some {A B} (x : option A) (f : A -> option B) b : bind x f = Some b -> exists a, x = Some a /\ f a = Some b.
Proof. destruct x; cbn; [eauto|discriminate]. Qed.
Ltac ubind H := let a := fresh "a" in let E := fresh "E" in apply bind_some in H; destruct H as (a & E & H).

Lemma bset_blen b i v b' : bset b i v = Some b' -> blen b' = blen b.
Proof.
  unfold bset. destruct ((0 <=? i) && (i <? blen b)) eqn:E; [|discriminate]. intro H. apply (f_equal (fun o => match o with Some x => x | None => b' end)) in H. rewrite <- H.
  rewrite blen_app, blen_cons, blen_firstn by lia. replace (S (Z.to_nat i)) with (Z.to_nat (i + 1)) by lia. rewrite blen_skipn; lia.
Qed.
Lemma bset_all_blen l : forall b i b', bset_all b i l = Some b' -> blen b' = blen b.
Proof.
  induction l as [|v l IH]; cbn [bset_all]; intros b i b' H; [now injection H as <-|].
  destruct (bset b i v) eqn:E; [|discriminate]. rewrite (IH _ _ _ H). eapply bset_blen; eauto.
Qed.
Lemma bmove_blen b i j n b' : bmove b i j n = Some b' -> 0 <= n -> blen b' = blen b.
Proof.
  unfold bmove, bslice. destruct ((0 <=? j) && (0 <=? n) && (j + n <=? blen b)) eqn:E; [|discriminate].
  destruct ((0 <=? i) && (i + n <=? blen b)) eqn:F; [|discriminate]. intros [= <-] _.
  rewrite !blen_app, blen_firstn by lia. rewrite (blen_firstn (skipn _ _)) by (rewrite blen_skipn; lia). rewrite blen_skipn; lia.
Qed.

Lemma some_pair {A B} (a c : A) (b d : B) : Some (a, b) = Some (c, d) -> a = c /\ b = d.
Proof. intros [= -> ->]. auto. Qed.

(** Whatever is transmitted after [encapsulate] is a frame with the given header. *)
Lemma enc_shape pan src dst seq b n f m ts l : encapsulate pan src dst seq b n = Some (f, m) -> 0 <= n -> blen b < 2 ^ 31 ->
  transmit ts f m = Some l -> exists p, l = [Transmit ts (frame_of pan src dst seq p)].
Proof.
  intros H N L T. assert (D : n + 11 <= blen b \/ blen b < n + 11) by lia. destruct D as [D|D].
  - destruct (split_at b n ltac:(pose proof (blen_nonneg b); lia)) as (p & r & -> & LP). rewrite blen_app in D, L. subst n.
    rewrite encapsulate_spec in H by (rewrite ?blen_app; lia). apply some_pair in H. destruct H as (<- & <-). exists p.
    rewrite (app_assoc p), (app_assoc (mac_header _ _ _ _)) in T. rewrite transmit_spec in T; [now injection T as <-|].
    rewrite !blen_app, blen_header. change (blen [0; 0]) with 2. lia.
  - exfalso. assert (M : n + 11 < 2 ^ 32 \/ 2 ^ 31 <= n) by lia. destruct M as [M|M].
    + now rewrite encapsulate_ub in H.
    + unfold encapsulate, bmove, bslice in H. replace ((0 <=? 0) && (0 <=? n) && (0 + n <=? blen b)) with false in H by lia. discriminate.
Qed.
Lemma u32_nonneg x : 0 <= u32 x.
Proof. unfold u32, uN. apply Z.mod_pos_bound. reflexivity. Qed.
Lemma kind_of pan src dst seq p : nth 2 (frame_of pan src dst seq p) 0 = seq. Proof. reflexivity. Qed.

Lemma initiate_shape h now b a l : blen b < 2 ^ 31 -> initiate_measurement h now b a = Some l ->
  exists ts p, l = [Transmit ts (frame_of (pan_id h) (address h) a 5 p)].
Proof.
  intros L H. unfold initiate_measurement in H. ubind H. destruct a0 as [f m].
  destruct (enc_shape _ _ _ _ _ _ _ _ _ _ E ltac:(lia) L H) as (p & ->). eauto.
Qed.
Lemma anchor_shape h x y z b l : blen b < 2 ^ 31 -> send_anchor_position h x y z b = Some l ->
  exists ts p, l = [Transmit ts (frame_of (pan_id h) (address h) 0xffff 3 p)].
Proof.
  intros L H. unfold send_anchor_position in H. ubind H. ubind H. destruct a0 as [f m]. apply bset_all_blen in E.
  destruct (enc_shape _ _ _ _ _ _ _ _ _ _ E0 ltac:(lia) ltac:(lia) H) as (p & ->). eauto.
Qed.
Lemma data_shape h dst d b l : blen b < 2 ^ 30 -> send_data_packet h dst d b = Some l ->
  exists f, l = [Transmit TX_IMMEDIATE f] /\ nth 2 f 0 = 100 /\ carries (pan_id h) (address h) f dst d.
Proof.
  intros L H. assert (D : blen d + 11 <= blen b \/ blen b < blen d + 11) by lia. pose proof (blen_nonneg d) as ND. pose proof H as H'.
  unfold send_data_packet in H'. ubind H'. ubind H'. destruct a0 as [f m]. pose proof (bset_all_blen _ _ _ _ E) as LA.
  destruct (enc_shape _ _ _ _ _ _ _ _ _ _ E0 ND ltac:(lia) H') as (p & ->).
  exists (frame_of (pan_id h) (address h) dst SEQ_USER_DATA p). split; [reflexivity|]. split; [reflexivity|].
  intros hB junk rx now EP HC HD LJ.
  destruct D as [D|D].
  - destruct (data_delivery_l h hB dst d b junk rx now ltac:(congruence) HC HD D L LJ) as (f' & tail & E1 & _ & E2).
    rewrite H in E1. injection E1 as <-. exists tail. exact E2.
  - exfalso. assert (M : blen d + 11 < 2 ^ 32 \/ 2 ^ 31 <= blen d) by lia. destruct M as [M|M].
    + rewrite encapsulate_ub in E0; [discriminate|lia|lia|lia].
    + unfold encapsulate, bmove, bslice in E0. replace ((0 <=? 0) && (0 <=? blen d) && (0 + blen d <=? blen a)) with false in E0 by lia. discriminate.
Qed.

(** The frames sent in answer to a frame are of the kinds 0, 1 and 2. *)
Definition low_kind (o : obs) : Prop :=
  match o with OTx _ f => nth 2 f 0 = 0 \/ nth 2 f 0 = 1 \/ nth 2 f 0 = 2 | OPub _ => True | _ => False end.
Lemma answer_shape h pan src seq b n off rx l : blen b < 2 ^ 31 -> answer h pan src seq b n off rx = Some l ->
  exists ts p, l = [Transmit ts (frame_of pan (address h) src seq p)].
Proof.
  intros L H. unfold answer in H. cbv zeta in H. ubind H. ubind H. ubind H. destruct a1 as [f m].
  apply bset_all_blen in E. apply bset_all_blen in E0.
  destruct (enc_shape _ _ _ _ _ _ _ _ _ _ E1 (u32_nonneg _) ltac:(lia) H) as (p & ->). eauto.
Qed.
Lemma advert_shape h now b l : blen b < 2 ^ 31 -> send_advertisement h now b = Some l ->
  exists ts p, l = [Transmit ts (frame_of (pan_id h) (address h) 0xffff 0 p)].
Proof.
  intros L H. unfold send_advertisement, prepare_advertisement in H. cbv zeta in H. ubind H. destruct a as [f m]. ubind E.
  apply bset_all_blen in E0. destruct (enc_shape _ _ _ _ _ _ _ _ _ _ E ltac:(lia) ltac:(lia) H) as (p & ->). eauto.
Qed.
Definition low_action (a : action) : Prop :=
  match a with Transmit _ f => nth 2 f 0 = 0 \/ nth 2 f 0 = 1 \/ nth 2 f 0 = 2 | _ => True end.
Lemma decap_blen b n d : decapsulate b n = Some d -> blen (d_frame d) = blen b.
Proof.
  unfold decapsulate. destruct (bget b 2), (get16 b 3 4), (get16 b 5 6), (get16 b 7 8); try discriminate.
  destruct (bmove _ _ _ _) eqn:E; [|discriminate]. intros [= <-]. cbn. eapply bmove_blen; eauto. apply u32_nonneg.
Qed.
Lemma process_low h b n rx now l : blen b < 2 ^ 31 -> process_incoming_frame h b n rx now = Some l -> Forall low_action l.
Proof.
  intros L H. unfold process_incoming_frame in H. ubind H. apply decap_blen in E.
  repeat match type of H with (if ?c then _ else _) = _ => destruct c end; try (injection H as <-; repeat constructor).
  all: try (apply answer_shape in H; [|lia]; destruct H as (ts & p & ->); constructor; [cbn; unfold SEQ_REPLY, SEQ_FINALIZATION; lia|constructor]).
  all: try (apply advert_shape in H; [|lia]; destruct H as (ts & p & ->); constructor; [cbn; unfold SEQ_REPLY, SEQ_FINALIZATION; lia|constructor]).
  - unfold finalization in H. do 6 ubind H. destruct (has_ranging_cb h); injection H as <-; repeat constructor.
  - do 3 ubind H. destruct (has_anchor_cb h); [|discriminate]. injection H as <-. repeat constructor.
  - do 2 ubind H. destruct (has_tag_cb h); [|discriminate]. injection H as <-. repeat constructor.
Qed.
Lemma callbacks_low l : forall o, Forall low_action l -> callbacks l = Some o -> Forall low_kind o.
Proof.
  induction l as [|a l IH]; cbn [callbacks]; intros o F H; [injection H as <-; constructor|].
  ubind H. ubind H. injection H as <-. inversion F; subst. constructor; [|eauto].
  destruct a; cbn in E; try (injection E as <-; cbn; auto).
  destruct (size <=? DATA_BUFFER); [|discriminate]. destruct (bslice _ _ _); [|discriminate]. injection E as <-. exact I.
Qed.
Lemma frame_rx_low h data old rx now o : blen old = 1024 -> frame_rx h data old rx now = Some o -> Forall low_kind o.
Proof.
  intros L H. unfold frame_rx in H. ubind H. ubind H. apply bset_all_blen in E. eapply callbacks_low; [|exact H].
  eapply process_low; [|exact E0]. lia.
Qed.

(** ** Histories *)
Lemma requests_app a b : requests (a ++ b) = requests a ++ requests b. Proof. apply flat_map_app. Qed.
Lemma returned_app a b : returned (a ++ b) = returned a ++ returned b. Proof. apply flat_map_app. Qed.
Lemma frames_app k a b : frames k (a ++ b) = frames k a ++ frames k b. Proof. apply flat_map_app. Qed.
Lemma low_silent o : Forall low_kind o -> requests o = [] /\ returned o = [] /\ forall k, 3 <= k -> frames k o = [].
Proof.
  induction 1 as [|a o H _ (A & B & C)]; [repeat split; reflexivity|]. cbn. fold (requests o) (returned o).
  destruct a; cbn in *; try contradiction; rewrite ?A, ?B; repeat split; auto; intros k K; fold (frames k o); rewrite (C k K); auto.
  replace (nth 2 frame 0 =? k) with false by lia. reflexivity.
Qed.

(** ** One turn of the loop *)
Definition E4 := EVENT_DATA_PACKET_READY.
Lemma wait_one_spec m k : wait_one m = Some k -> Z.testbit m k = true /\ 0 <= k <= 10.
Proof. intro H. apply find_some in H. destruct H as (I & T). split; [exact T|]. cbn in I. lia. Qed.

(** A turn for another event than a data packet: it sends at most one frame of another kind. *)
Lemma turn_other s k buf now isr s' : 0 <= k <= 10 -> k <> 4 -> env_ok (Turn buf now isr) -> turn s k buf now isr = Some s' ->
  exists ix o, s' = set_rt s (Z.clearbit (pend s) k) RWait ix o /\ requests o = [] /\ returned o = [] /\ data_frames o = [].
Proof.
  intros K N (LB & LI) H. unfold turn in H. cbv zeta in H.
  assert (D : k = 0 \/ k = 1 \/ k = 2 \/ k = 3 \/ k = 5 \/ k = 6 \/ k = 7 \/ k = 8 \/ k = 9 \/ k = 10) by lia.
  repeat (destruct D as [D|D]); subst k; cbn in H; try (injection H as <-; eexists _, _; repeat split; reflexivity).
  - destruct isr as [[[data old] rx]|]; [|injection H as <-; eexists _, _; repeat split; reflexivity].
    ubind H. injection H as <-. apply frame_rx_low in E; [|exact LI]. apply low_silent in E. destruct E as (A & B & C).
    eexists _, _. repeat split; auto. apply C. lia.
  - destruct (negb (p_anchor (prm s))) eqn:PA; cbn in H; [|injection H as <-; eexists _, _; repeat split; reflexivity].
    do 2 ubind H. apply initiate_shape in E0; [|lia]. destruct E0 as (ts & p & ->). cbn in H. injection H as <-. eexists _, _. repeat split; reflexivity.
  - destruct (negb (p_anchor (prm s))) eqn:PA; cbn in H; [injection H as <-; eexists _, _; repeat split; reflexivity|].
    ubind H. apply anchor_shape in E; [|lia]. destruct E as (ts & p & ->). cbn in H. injection H as <-. eexists _, _. repeat split; reflexivity.
Qed.

(** ** The invariant of the handshake *)
Definition sent_ok (r : nat * Z * list Z) (f : list Z) : Prop :=
  let '(_, dst, d) := r in exists pan src, carries pan src f dst d.
Definition who (r : nat * Z * list Z) : nat := fst (fst r).
Definition outside (p : phase) : Prop := match p with Idle | AtLock _ _ => True | _ => False end.
Definition resting (r : rphase) : Prop := match r with RInit | RWait => True | _ => False end.
Definition bit4 (s : sys) : bool := Z.testbit (pend s) 4.

(** What holds of the packet [(dst, d)] of the thread [i] which has the lock. *)
Definition quiet (s : sys) : Prop := bit4 s = false /\ resting (rt s).
Definition loaded (s : sys) (i : nat) (dst : Z) (d : list Z) : Prop :=
  d_ptr s = i /\ d_to s = dst /\ bslice (mem s i) 0 (d_len s) = Some d.
Definition stage (lost : bool) (s : sys) (i : nat) (dst : Z) (d : list Z) (done : bool) : Prop :=
  match ph s i with
  | SetData n dst' => dst' = dst /\ bslice (mem s i) 0 n = Some d /\ quiet s /\ taken s = true /\ done = false
  | SetSize n dst' => dst' = dst /\ bslice (mem s i) 0 n = Some d /\ d_ptr s = i /\ quiet s /\ taken s = true /\ done = false
  | SetDst dst' => dst' = dst /\ d_ptr s = i /\ bslice (mem s i) 0 (d_len s) = Some d /\ quiet s /\ taken s = true /\ done = false
  | Announce => loaded s i dst d /\ quiet s /\ taken s = true /\ done = false
  | Waiting => loaded s i dst d /\
      (   (quiet s /\ taken s = true /\ done = false /\ lost = true)
       \/ (bit4 s = true /\ rt s = RWait /\ taken s = true /\ done = false)
       \/ (bit4 s = false /\ (exists h, rt s = RSend h) /\ taken s = true /\ done = false)
       \/ (bit4 s = false /\ rt s = RSignal /\ taken s = true /\ done = true)
       \/ (quiet s /\ taken s = false /\ done = true))
  | Unlock => quiet s /\ taken s = true /\ done = true
  | _ => False
  end.
Definition inv (lost : bool) (s : sys) : Prop :=
  match owner s with
  | None => (forall j, outside (ph s j)) /\ quiet s /\ taken s = true /\
      returned (hist s) = map who (requests (hist s)) /\ Forall2 sent_ok (requests (hist s)) (data_frames (hist s))
  | Some i => (forall j, j <> i -> outside (ph s j)) /\ exists R dst d done, requests (hist s) = R ++ [(i, dst, d)] /\
      returned (hist s) = map who R /\ stage lost s i dst d done /\
      Forall2 sent_ok (if done then R ++ [(i, dst, d)] else R) (data_frames (hist s))
  end.

Lemma upd_same {A} (f : nat -> A) i a : upd f i a i = a.
Proof. unfold upd. now rewrite Nat.eqb_refl. Qed.
Lemma upd_other {A} (f : nat -> A) i a j : j <> i -> upd f i a j = f j.
Proof. unfold upd. intro H. apply Nat.eqb_neq in H. now rewrite H. Qed.

Lemma init_inv lost p m : inv lost (init p m).
Proof. cbn. repeat split; constructor. Qed.

(** The invariant only looks at these parts of the state. *)
Lemma inv_ext lost s s' : inv lost s -> bit4 s' = bit4 s -> rt s' = rt s -> d_ptr s' = d_ptr s -> d_len s' = d_len s -> d_to s' = d_to s ->
  taken s' = taken s -> owner s' = owner s ->
  (forall j, ph s' j = ph s j \/ (outside (ph s j) /\ outside (ph s' j))) ->
  (forall j, ~ outside (ph s j) -> mem s' j = mem s j) ->
  requests (hist s') = requests (hist s) -> returned (hist s') = returned (hist s) -> data_frames (hist s') = data_frames (hist s) ->
  inv lost s'.
Proof.
  intros I B R P L T K O PH M HR HT HF. unfold inv in *. rewrite O. destruct (owner s) as [i|].
  - destruct I as (Out & Q & dst & d & done & E1 & E2 & St & F). split.
    { intros j J. specialize (Out j J). destruct (PH j) as [->|[_ ?]]; auto. }
    exists Q, dst, d, done. rewrite HR, HT, HF. repeat split; auto.
    assert (NO : ~ outside (ph s i)) by (unfold stage in St; destruct (ph s i); cbn; tauto).
    assert (PI : ph s' i = ph s i) by (destruct (PH i) as [?|[? _]]; tauto).
    unfold stage in *. rewrite PI. unfold loaded, quiet in *. rewrite (M i NO), B, R, P, L, T, K. exact St.
  - destruct I as (Out & (Q1 & Q2) & Tk & E1 & F). unfold quiet. rewrite B, R, K, HR, HT, HF. repeat split; auto.
    intro j. specialize (Out j). destruct (PH j) as [->|[_ ?]]; auto.
Qed.

Lemma mask_bit4 src : Z.testbit (mask_of src) 4 = false. Proof. destruct src; reflexivity. Qed.

Lemma turn_data s buf now isr : turn s 4 buf now isr = Some (set_rt s (Z.clearbit (pend s) 4) (RSend (handler_of (prm s))) (idx s) []).
Proof. reflexivity. Qed.

Lemma set_ph_outside (s : sys) i n dst : ph s i = Idle -> forall j, upd (ph s) i (AtLock n dst) j = ph s j \/ (outside (ph s j) /\ outside (upd (ph s) i (AtLock n dst) j)).
Proof.
  intros H j. destruct (Nat.eq_dec j i) as [->|N].
  - right. rewrite upd_same, H. split; exact I.
  - left. now apply upd_other.
Qed.

Ltac same_owner s i H :=
  let O := fresh "O" in
  unfold inv in H; destruct (owner s) as [?o|] eqn:O;
  [|exfalso; destruct H as (H & _); specialize (H i)].

(** A thread past the lock is the owner. *)
Lemma inside_owner lost s i : inv lost s -> ~ outside (ph s i) -> owner s = Some i.
Proof.
  intros I N. unfold inv in I. destruct (owner s) as [o|].
  - destruct I as (Out & _). destruct (Nat.eq_dec i o) as [->|D]; [reflexivity|]. now specialize (Out i D).
  - destruct I as (Out & _). now specialize (Out i).
Qed.

Lemma caller_inv lost s i s' : inv lost s -> (lost = true \/ rt s <> RInit) -> caller s i = Some s' -> inv lost s'.
Proof.
  intros I NI H. unfold caller in H.
  assert (NO : ~ outside (ph s i) -> owner s = Some i) by (intro; eapply inside_owner; eauto).
  destruct (ph s i) eqn:P.
  - now injection H as <-.
  - (* AtLock *) destruct (owner s) eqn:O; [now injection H as <-|]. ubind H. injection H as <-.
    unfold inv in *. rewrite O in I. cbn [owner]. destruct I as (Out & Q & Tk & E1 & F). split.
    { intros j J. cbn [ph]. rewrite upd_other by exact J. apply Out. }
    exists (requests (hist s)), dst, a, false. cbn [hist]. rewrite requests_app, returned_app. unfold data_frames in *. rewrite frames_app.
    cbn [requests returned frames flat_map]. rewrite !app_nil_r. repeat split; auto.
    unfold stage. cbn [ph]. rewrite upd_same. cbn [mem taken]. repeat split; auto; apply Q.
  - injection H as <-. specialize (NO ltac:(cbn; auto)). unfold inv in *. rewrite NO in I. cbn [owner]. rewrite NO.
    destruct I as (Out & R & dd & d & done & E1 & E2 & St & F). split; [intros j J; cbn [ph]; rewrite upd_other by exact J; auto|].
    exists R, dd, d, done. cbn [hist]. unfold stage in *. rewrite P in St. cbn [ph]. rewrite upd_same. cbn. intuition.
  - injection H as <-. specialize (NO ltac:(cbn; auto)). unfold inv in *. rewrite NO in I. cbn [owner]. rewrite NO.
    destruct I as (Out & R & dd & d & done & E1 & E2 & St & F). split; [intros j J; cbn [ph]; rewrite upd_other by exact J; auto|].
    exists R, dd, d, done. cbn [hist]. unfold stage in *. rewrite P in St. cbn [ph]. rewrite upd_same. cbn. intuition.
  - injection H as <-. specialize (NO ltac:(cbn; auto)). unfold inv in *. rewrite NO in I. cbn [owner]. rewrite NO.
    destruct I as (Out & R & dd & d & done & E1 & E2 & St & F). split; [intros j J; cbn [ph]; rewrite upd_other by exact J; auto|].
    exists R, dd, d, done. cbn [hist]. unfold stage in *. rewrite P in St. cbn [ph]. rewrite upd_same. unfold loaded, quiet, bit4 in *. cbn. intuition.
  - (* Announce *) injection H as <-. specialize (NO ltac:(cbn; auto)). unfold inv in *. rewrite NO in I. cbn [owner]. rewrite NO.
    destruct I as (Out & R & dd & d & done & E1 & E2 & St & F). split; [intros j J; cbn [ph]; rewrite upd_other by exact J; auto|].
    exists R, dd, d, done. cbn [hist]. unfold stage in *. rewrite P in St. cbn [ph]. rewrite upd_same.
    destruct St as (Ld & (Q1 & Q2) & Tk & Dn). repeat (split; [assumption|]). split; [|exact F]. split; [exact Ld|].
    unfold quiet, bit4, broadcast in *. cbn [pend rt taken]. destruct (rt s) eqn:RT; try contradiction.
    + left. destruct NI as [->|NI]; [|congruence]. repeat split; auto.
    + right. left. rewrite Z.lor_spec, Q1. repeat split; auto.
  - (* Waiting *) destruct (taken s) eqn:Tk; [now injection H as <-|]. injection H as <-. specialize (NO ltac:(cbn; auto)).
    unfold inv in *. rewrite NO in I. cbn [owner]. rewrite NO.
    destruct I as (Out & R & dd & d & done & E1 & E2 & St & F). split; [intros j J; cbn [ph]; rewrite upd_other by exact J; auto|].
    exists R, dd, d, done. cbn [hist]. unfold stage in *. rewrite P in St. cbn [ph]. rewrite upd_same. rewrite Tk in St.
    destruct St as (Ld & St). unfold quiet, bit4 in *. cbn [pend rt taken].
    destruct St as [St|[St|[St|[St|St]]]]; intuition (try discriminate).
  - (* Unlock *) injection H as <-. specialize (NO ltac:(cbn; auto)). unfold inv in *. rewrite NO in I. cbn [owner].
    destruct I as (Out & R & dd & d & done & E1 & E2 & St & F). unfold stage in St. rewrite P in St. destruct St as (Q & Tk & ->). split.
    { intro j. cbn [ph]. destruct (Nat.eq_dec j i) as [->|J]; [rewrite upd_same; exact I|rewrite upd_other by exact J; auto]. }
    cbn [hist]. rewrite requests_app, returned_app. unfold data_frames in *. rewrite frames_app. cbn [requests returned frames flat_map].
    rewrite !app_nil_r. rewrite E1, E2, map_app. cbn [map who fst]. repeat split; auto; try apply Q.
Qed.

Lemma radio_inv lost s buf now isr s' : inv lost s -> env_ok (Turn buf now isr) -> radio s buf now isr = Some s' -> inv lost s'.
Proof.
  intros I EO H. unfold radio in H. destruct (rt s) eqn:RT.
  - now injection H as <-.
  - destruct (wait_one (pend s)) as [k|] eqn:W; [|now injection H as <-].
    apply wait_one_spec in W. destruct W as (WB & WK). destruct (Z.eq_dec k 4) as [->|N].
    + rewrite turn_data in H. injection H as <-. unfold inv in *. cbn [owner set_rt]. destruct (owner s) as [i|].
      * destruct I as (Out & R & dst & d & done & E1 & E2 & St & F). split; [exact Out|]. exists R, dst, d, done. cbn [hist set_rt]. rewrite app_nil_r.
        split; [exact E1|]. split; [exact E2|]. split; [|exact F]. unfold stage in *. cbn [ph set_rt].
        unfold quiet, bit4, loaded in *. cbn [set_rt pend rt taken d_ptr d_to d_len mem].
        assert (CB : Z.testbit (Z.clearbit (pend s) 4) 4 = false) by (now rewrite Z.clearbit_eq).
        destruct (ph s i); try (intuition congruence). destruct St as (Ld & St). split; [exact Ld|].
        right. right. left. destruct St as [St|[St|[St|[St|St]]]]; intuition (try congruence); eauto.
      * destruct I as (_ & (Q1 & _) & _). unfold bit4 in Q1. congruence.
    + apply turn_other in H; auto. destruct H as (ix & o & -> & A & B & C). eapply inv_ext; [exact I|..]; try reflexivity.
      * unfold bit4. cbn [pend set_rt]. apply Z.clearbit_neq. lia.
      * now rewrite RT.
      * intro j. now left.
      * cbn [hist set_rt]. rewrite requests_app, A. apply app_nil_r.
      * cbn [hist set_rt]. rewrite returned_app, B. apply app_nil_r.
      * cbn [hist set_rt]. unfold data_frames in *. rewrite frames_app, C. apply app_nil_r.
  - ubind H. ubind H. ubind H. injection H as <-. destruct EO as (LB & _). apply data_shape in E0; [|lia]. destruct E0 as (f & -> & K & Cy).
    cbn in E1. injection E1 as <-. unfold inv in *. cbn [owner set_rt]. destruct (owner s) as [i|].
    + destruct I as (Out & R & dst & d & done & Q1 & Q2 & St & F). split; [exact Out|].
      unfold stage, quiet in St. rewrite RT in St. destruct (ph s i) eqn:P; try (cbn in St; intuition fail).
      destruct St as ((L1 & L2 & L3) & St). destruct St as [St|[St|[St|[St|St]]]]; try (cbn in St; intuition congruence).
      destruct St as (B4 & _ & Tk & ->). exists R, dst, d, true. cbn [hist set_rt]. rewrite requests_app, returned_app. unfold data_frames in *.
      rewrite frames_app. cbn [requests returned flat_map frames]. rewrite K, Z.eqb_refl, !app_nil_r. split; [exact Q1|]. split; [exact Q2|]. split.
      * unfold stage. cbn [ph set_rt]. rewrite P. split; [repeat split; auto|]. right. right. right. left. repeat split; auto.
      * apply Forall2_app; [exact F|]. constructor; [|constructor]. cbn. rewrite L1 in E. rewrite E in L3. injection L3 as ->. subst dst. eauto.
    + destruct I as (_ & (_ & Q2) & _). rewrite RT in Q2. destruct Q2.
  - injection H as <-. unfold inv in *. cbn [owner]. destruct (owner s) as [i|].
    + destruct I as (Out & R & dst & d & done & Q1 & Q2 & St & F). split; [exact Out|]. exists R, dst, d, done. cbn [hist].
      repeat (split; [assumption|]). split; [|exact F]. unfold stage, quiet, loaded, bit4 in *. cbn [ph pend rt taken d_ptr d_to d_len mem].
      rewrite RT in St. destruct (ph s i); try (cbn in St; intuition fail).
      destruct St as (Ld & St). split; [exact Ld|]. do 4 right. destruct St as [St|[St|[(_ & (h & Hh) & _)|[(B4 & _ & Tk & Dn)|St]]]];
        try discriminate; try (cbn in St; intuition congruence).
      repeat split; auto.
    + destruct I as (_ & (_ & Q2) & _). rewrite RT in Q2. destruct Q2.
Qed.

Lemma step_inv lost s e s' : inv lost s -> (lost = true \/ rt s <> RInit) -> env_ok e -> step s e = Some s' -> inv lost s'.
Proof.
  intros I NI EO H. destruct e; cbn [step] in H.
  - injection H as <-. destruct (rt s) eqn:RT; try exact I.
    unfold inv in *. cbn [owner set_rt hist]. rewrite app_nil_r. destruct (owner s) as [i|].
    + destruct I as (Out & R & dst & d & done & Q1 & Q2 & St & F). split; [exact Out|]. exists R, dst, d, done.
      repeat (split; [assumption|]). split; [|exact F]. unfold stage, quiet, loaded, bit4 in *. cbn [ph set_rt pend rt taken d_ptr d_to d_len mem].
      rewrite RT in St. destruct (ph s i); cbn [resting] in *; try tauto.
      destruct St as (Ld & St). split; [exact Ld|]. destruct St as [St|[St|[(_ & (h & Hh) & _)|[St|St]]]]; [tauto| | | |tauto]; intuition congruence.
    + destruct I as (Out & (Q1 & Q2) & I). split; [exact Out|]. split; [split; [exact Q1|exact Logic.I]|exact I].
  - injection H as <-. eapply inv_ext; [exact I|..]; try reflexivity; try (cbn [hist set_rt]; now rewrite app_nil_r); [|now left].
    unfold bit4, broadcast. cbn [pend set_rt]. destruct (rt s); auto; rewrite Z.lor_spec, mask_bit4; apply orb_false_r.
  - injection H as <-. eapply inv_ext; [exact I|..]; try reflexivity; now left.
  - injection H as <-. destruct (ph s i) eqn:P; try exact I. eapply inv_ext; [exact I|..]; try reflexivity; [now left|].
    intros j J. cbn [mem]. apply upd_other. intros ->. rewrite P in J. apply J. exact Logic.I.
  - injection H as <-. destruct (ph s i) eqn:P; try exact I. eapply inv_ext; [exact I|..]; try reflexivity.
    cbn [ph set_ph]. apply set_ph_outside. exact P.
  - eapply caller_inv; eauto.
  - eapply radio_inv; eauto.
Qed.

(** The thread never goes back to its initialisation. *)
Lemma step_started s e s' : rt s <> RInit -> step s e = Some s' -> rt s' <> RInit.
Proof.
  intros N H. destruct e; cbn [step] in H; try (injection H as <-).
  - destruct (rt s) eqn:RT; cbn; congruence.
  - exact N.
  - exact N.
  - destruct (ph s i); exact N.
  - destruct (ph s i); exact N.
  - unfold caller in H. destruct (ph s i); try (injection H as <-; exact N).
    + destruct (owner s); [injection H as <-; exact N|]. ubind H. injection H as <-. exact N.
    + destruct (taken s); injection H as <-; exact N.
  - unfold radio in H. destruct (rt s) eqn:RT; [congruence| | |injection H as <-; discriminate].
    + destruct (wait_one (pend s)); [|injection H as <-; congruence]. unfold turn in H. cbv zeta in H.
      repeat match type of H with (if ?c then _ else _) = _ => destruct c end; try (injection H as <-; discriminate);
        try (repeat ubind H; injection H as <-; discriminate).
      destruct isr as [[[? ?] ?]|]; [ubind H|]; injection H as <-; discriminate.
    + do 3 ubind H. injection H as <-. discriminate.
Qed.
Lemma run_inv lost tr : forall s s', inv lost s -> (lost = true \/ rt s <> RInit) -> Forall env_ok tr -> run s tr = Some s' -> inv lost s'.
Proof.
  induction tr as [|e tr IH]; cbn [run]; intros s s' I NI F H; [now injection H as <-|]. ubind H. inversion F; subst.
  eapply IH; [| |eassumption|exact H]; [eapply step_inv; eauto|]. destruct NI as [NI|NI]; [now left|]. right. eapply step_started; eauto.
Qed.

(** Summary of the invariant. *)
Lemma inv_summary s : inv true s -> exists k r,
  returned (hist s) = map who (firstn r (requests (hist s))) /\ Forall2 sent_ok (firstn k (requests (hist s))) (data_frames (hist s)) /\
  (r <= k <= length (requests (hist s)))%nat /\ (length (requests (hist s)) <= r + 1)%nat.
Proof.
  unfold inv. destruct (owner s) as [i|].
  - intros (_ & R & dst & d & done & E1 & E2 & _ & F). exists (if done then S (length R) else length R), (length R). rewrite E1, E2.
    rewrite firstn_app, Nat.sub_diag, firstn_all. cbn [firstn]. rewrite app_nil_r. split; [reflexivity|]. rewrite app_length. cbn [length].
    destruct done; split; try lia.
    + rewrite firstn_all2 by (rewrite app_length; cbn; lia). exact F.
    + rewrite firstn_app, Nat.sub_diag, firstn_all. cbn. rewrite app_nil_r. exact F.
  - intros (_ & _ & _ & E & F). exists (length (requests (hist s))), (length (requests (hist s))). rewrite firstn_all. repeat split; auto; lia.
Qed.
