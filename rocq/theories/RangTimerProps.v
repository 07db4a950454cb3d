(** C75: what the ranging thread does when one of its timers runs out. *)
From Coq Require Import ZArith List Bool Lia ZifyBool.
From Verif Require Import CBase Buf UwbModel UwbSpec UwbProofs RangModel RangSpec RangProofs RangProofs2 RangProps.
Import ListNotations.
Local Open Scope Z_scope.

(** After any history, in a thread which sleeps (it waits, and no event is pending): the measurement timer makes a tag send one request to the
    next anchor, and an anchor nothing; the position timer makes an anchor send its position once, and a tag nothing; the temperature timer
    publishes the temperature once. *)
Theorem rang_timers p m tr s buf now : params_ok p -> Forall env_ok tr -> Forall config_ok tr -> run (init p m) (Start :: tr) = Some s ->
  rt s = RWait -> pend s = 0 -> blen buf = 1024 ->
  let out src o := exists s', run s [Raise src; Turn buf now None] = Some s' /\ hist s' = hist s ++ o /\ rt s' = RWait /\ pend s' = 0 in
  (p_anchor (prm s) = false ->
   exists ts f, out SAdvertise [OTx ts f] /\ request_frames [OTx ts f] = [f] /\ destination f = anchor_in_turn (length (request_frames (hist s)))) /\
  (p_anchor (prm s) = true -> out SAdvertise []) /\
  (p_anchor (prm s) = true -> exists ts f, out SAnchor [OTx ts f] /\ position_frames [OTx ts f] = [f] /\ tells_position (prm s) f) /\
  (p_anchor (prm s) = false -> out SAnchor []) /\
  out STemperature [OPub MTemperature] /\ out STag [].
Proof.
  intros P F C H W Z L out. cbn [run] in H. ubind H. apply start_good in E; auto. pose proof (run_good _ _ _ E F C H) as (_ & (Po & Ix & Dm) & _).
  assert (R0 : rr s) by (repeat split; auto; apply Po). destruct (rr_mac _ R0) as (mac & Hm). clear E H.
  assert (Turnd : forall src k, mask_of src = 2 ^ k -> 0 <= k <= 10 -> wait_one (mask_of src) = Some k ->
    forall r, turn (set_rt s (mask_of src) RWait (idx s) []) k buf now None = r -> run s [Raise src; Turn buf now None] = r).
  { intros src k Mk Hk Wo r <-. cbn [run step bind]. unfold broadcast. rewrite W, Z, Z.lor_0_l. cbn [step radio set_rt rt pend]. rewrite Wo. apply match_id || (destruct (turn _ _ _ _ _); reflexivity). }
  split; [|split; [|split; [|split; [|split]]]].
  - intro A. destruct (initiate_ok (handler_of (prm s)) now buf mac L) as (ts & f & Ei). pose proof Ei as Es. apply initiate_shape in Es; [|lia]. destruct Es as (ts' & q & Es). injection Es as -> ->.
    eexists _, _. split.
    + unfold out. eexists. split.
      * eapply (Turnd SAdvertise 1); [reflexivity|lia|reflexivity|]. unfold turn. cbn [pend set_rt prm idx]. change (negb (Z.land (Z.shiftl 1 1) EVENT_ADVERTISE_TIMER =? 0)) with true. cbv iota.
        cbn [handler_of is_anchor]. rewrite A. change (negb false && (0 <? nb_anchor_macs)) with true. cbv iota. rewrite Hm. cbn [bind]. fold (handler_of (prm s)). rewrite Ei. cbn [bind callbacks callback]. reflexivity.
      * cbn [hist set_rt rt pend]. rewrite app_nil_r. repeat split.
    + split; [reflexivity|]. rewrite dest_frame by (eapply macs_byte; eauto). unfold anchor_in_turn. rewrite Ix in Hm. unfold bget in Hm.
      replace (0 <=? Z.of_nat (length (request_frames (hist s)) mod 4)) with true in Hm by lia. rewrite Nat2Z.id in Hm. symmetry. now apply nth_error_nth.
  - intro A. unfold out. eexists. split.
    + eapply (Turnd SAdvertise 1); [reflexivity|lia|reflexivity|]. unfold turn. cbn [pend set_rt prm idx]. change (negb (Z.land (Z.shiftl 1 1) EVENT_ADVERTISE_TIMER =? 0)) with true. cbv iota.
      cbn [handler_of is_anchor]. rewrite A. cbn [negb andb]. reflexivity.
    + cbn [hist set_rt rt pend]. rewrite !app_nil_r. repeat split.
  - intro A. destruct Po as (X & Y & Zz). destruct (anchor_ok (handler_of (prm s)) (p_x (prm s)) (p_y (prm s)) (p_z (prm s)) buf X Y Zz L) as (ts & f & Ei).
    pose proof Ei as Es. apply position_shape in Es; [|repeat split; assumption|exact L]. destruct Es as (f' & Es & K & T). injection Es as -> <-.
    eexists _, _. split.
    + unfold out. eexists. split.
      * eapply (Turnd SAnchor 2); [reflexivity|lia|reflexivity|]. unfold turn. cbn [pend set_rt prm idx]. change (negb (Z.land (Z.shiftl 1 2) EVENT_ADVERTISE_TIMER =? 0)) with false.
        change (negb (Z.land (Z.shiftl 1 2) EVENT_ANCHOR_POSITION_TIMER =? 0)) with true. cbv iota. cbn [handler_of is_anchor]. rewrite A. cbn [negb]. fold (handler_of (prm s)). rewrite Ei. cbn [bind callbacks callback]. reflexivity.
      * cbn [hist set_rt rt pend]. rewrite app_nil_r. repeat split.
    + split; [|exact T]. unfold position_frames, frames. cbn [flat_map]. rewrite K. reflexivity.
  - intro A. unfold out. eexists. split.
    + eapply (Turnd SAnchor 2); [reflexivity|lia|reflexivity|]. unfold turn. cbn [pend set_rt prm idx]. change (negb (Z.land (Z.shiftl 1 2) EVENT_ADVERTISE_TIMER =? 0)) with false.
      change (negb (Z.land (Z.shiftl 1 2) EVENT_ANCHOR_POSITION_TIMER =? 0)) with true. cbv iota. cbn [handler_of is_anchor]. rewrite A. cbn [negb]. reflexivity.
    + cbn [hist set_rt rt pend]. rewrite !app_nil_r. repeat split.
  - unfold out. eexists. split; [eapply (Turnd STemperature 10); [reflexivity|lia|reflexivity|]; unfold turn; reflexivity|]. cbn [hist set_rt rt pend]. rewrite !app_nil_r. repeat split.
  - unfold out. eexists. split; [eapply (Turnd STag 3); [reflexivity|lia|reflexivity|]; unfold turn; reflexivity|]. cbn [hist set_rt rt pend]. rewrite !app_nil_r. repeat split.
Qed.
Print Assumptions rang_timers.
(** A tag which has already asked two anchors and publishes its temperature. *)
Example timers_case : exists s, run (init (ex_params false) ex_mem) (Start :: [Raise SAdvertise; Turn buf0 5 None; Raise STemperature; Turn buf0 6 None; Raise SAdvertise; Turn buf0 9 None]) = Some s /\
  params_ok (ex_params false) /\ rt s = RWait /\ pend s = 0 /\ p_anchor (prm s) = false /\ length (request_frames (hist s)) = 2%nat.
Proof. eexists. split; [vm_compute; reflexivity|]. repeat split. Qed.
