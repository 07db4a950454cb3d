(** Property theorems for C74, C75 and C76 (uwb-beacon-firmware/src/ranging_thread.c). *)
From Coq Require Import ZArith QArith List Bool Lia.
From Verif Require Import CBase Buf UwbModel UwbSpec UwbProofs RangModel RangSpec RangProofs RangProofs2.
Import ListNotations.
Local Open Scope Z_scope.

(** C74: any number of threads send data packets, in any interleaving with timers, interrupts and changes of the parameters. The frames of
    data given to the radio are those of the requests, each once, in the order in which the threads got the lock, each with the content and
    the destination of its request; a call which has returned was served, and at most one request is being served. *)
Theorem rang_packets_sent : forall p m tr s, Forall env_ok tr -> run (init p m) tr = Some s ->
  let asked := requests (hist s) in
  exists k r,
    Forall2 (fun q f => exists pan src, carries pan src f (snd (fst q)) (snd q)) (firstn k asked) (data_frames (hist s)) /\
    returned (hist s) = map (fun q => fst (fst q)) (firstn r asked) /\
    (r <= k <= length asked)%nat /\ (length asked <= r + 1)%nat.
Proof.
  intros p m tr s F H asked. destruct (inv_summary s) as (k & r & A & B & C & D).
  { eapply run_inv; [apply init_inv|now left|exact F|exact H]. }
  exists k, r. split; [|split; [exact A|split; [exact C|exact D]]]. eapply forall2_weaken; [|exact B]. intros [[i dst] d] f X. exact X.
Qed.
Print Assumptions rang_packets_sent.

(** C74: once the thread runs, no request is stuck: whatever happened before, steps of the radio thread and of the caller alone lead to the
    return of the call which has the lock, if its packet fits in a frame. *)
Theorem rang_packet_progress : forall p m tr s i dst d R, params_ok p -> Forall env_ok tr -> Forall config_ok tr ->
  run (init p m) (Start :: tr) = Some s ->
  requests (hist s) = R ++ [(i, dst, d)] -> length (returned (hist s)) = length R -> blen d <= 1013 ->
  exists tr' s', Forall (fun e => e = Cpu i \/ exists buf, e = Turn buf 0 None) tr' /\ run s tr' = Some s' /\
    returned (hist s') = returned (hist s) ++ [i].
Proof.
  intros p m tr s i dst d R P F C H Q T L. destruct (progress_l p m tr s i dst d R P F C H Q T L) as (tr' & s' & A & B & _ & D & _).
  exists tr', s'. repeat split; try assumption. eapply Forall_impl; [|exact A]. cbn. intros e [->| ->]; [right; eexists; reflexivity|now left].
Qed.
Print Assumptions rang_packet_progress.

Definition ex_params (anchor : bool) : params :=
  {| p_anchor := anchor; p_addr := 20; p_pan := 0xcafe; p_x := [1; 2; 3; 4]; p_y := [5; 6; 7; 8]; p_z := [9; 10; 11; 12] |}.
Definition ex_mem (i : nat) : list Z := match i with O => [104; 105] | _ => [1; 2; 3] end.
Definition ex_turn := Turn (repeat 0 1024) 1000 None.
(** Two threads; the advertise timer expires before the packet is taken. *)
Definition ex_trace : list event :=
  [Start; Call 0 2 7; Call 1 3 0xffff; Cpu 1; Cpu 0; Cpu 1; Cpu 1; Cpu 1; Cpu 1; Cpu 0; Raise SAdvertise; ex_turn; ex_turn; Cpu 1; ex_turn; ex_turn;
   Cpu 1; Cpu 1; Cpu 0; Cpu 0; Cpu 0; Cpu 0; Cpu 0; ex_turn; ex_turn].
Example rang_trace_example : exists s, run (init (ex_params false) ex_mem) ex_trace = Some s /\
  requests (hist s) = [(1%nat, 0xffff, [1; 2; 3]); (0%nat, 7, [104; 105])] /\ returned (hist s) = [1%nat] /\
  data_frames (hist s) = [[0x41; 0x88; 100; 0xfe; 0xca; 255; 255; 20; 0; 1; 2; 3; 0; 0]; [0x41; 0x88; 100; 0xfe; 0xca; 7; 0; 20; 0; 104; 105; 0; 0]] /\
  request_frames (hist s) = [[0x41; 0x88; 5; 0xfe; 0xca; 7; 0; 20; 0; 0; 0]].
Proof. eexists. split; [vm_compute; reflexivity|]. repeat split. Qed.
Example rang_trace_ok : Forall env_ok ex_trace /\ Forall config_ok ex_trace /\ params_ok (ex_params false).
Proof. split; [|split]; [repeat constructor..|repeat split]. Qed.

(** C74 fails for a packet sent before the thread has registered for the event: the call never returns, nor does any other call. *)
Theorem rang_early_packet_refuted : exists p m tr s, Forall env_ok tr /\ run (init p m) tr = Some s /\ length (requests (hist s)) = 1%nat /\
  forall tr' s', Forall env_ok tr' -> run s tr' = Some s' -> returned (hist s') = [].
Proof.
  exists (ex_params false), ex_mem, [Call 0 2 7; Cpu 0; Cpu 0; Cpu 0; Cpu 0; Cpu 0; Start].
  eexists. split; [repeat constructor|]. split; [vm_compute; reflexivity|]. split; [reflexivity|].
  intros tr' s' F H. eapply stuck_run in H; [|split; [reflexivity|]; do 4 (split; [first [exact I|reflexivity]|]); split; [|reflexivity]|exact F].
  - apply H.
  - intros [|j] N; [congruence|exact I].
Qed.
Print Assumptions rang_early_packet_refuted.

(** C75: the measurements asked for go to the four anchors in turn, starting with the first, whatever else happens. *)
Theorem rang_round_robin : forall p m tr s, params_ok p -> Forall env_ok tr -> Forall config_ok tr -> run (init p m) tr = Some s ->
  let asked := map destination (request_frames (hist s)) in
  asked = map anchor_in_turn (seq 0 (length asked)).
Proof.
  intros p m tr s P F C H asked. unfold asked. rewrite map_length.
  assert (R : rr (init p m)) by (split; [exact P|split; reflexivity]). apply (run_rr _ _ _ R F C) in H. apply H.
Qed.
Print Assumptions rang_round_robin.

(** C75: a node which is an anchor never asks for a measurement; a node which is not one never sends a position; the position sent by an
    anchor is the one of its parameters. *)
Theorem rang_roles : forall p m tr s, params_ok p -> Forall env_ok tr -> Forall no_configure tr -> run (init p m) tr = Some s ->
  (p_anchor p = true -> request_frames (hist s) = []) /\ (p_anchor p = false -> position_frames (hist s) = []) /\
  Forall (tells_position p) (position_frames (hist s)).
Proof.
  intros p m tr s P F C H. assert (R : role p (init p m)) by (repeat split; constructor).
  destruct (run_role p tr P _ _ R F C H) as (_ & A). exact A.
Qed.
Print Assumptions rang_roles.

Definition ex_loop : list event := Start :: concat (repeat [Raise SAnchor; Raise SAdvertise; ex_turn; ex_turn] 6).
Example rang_tag_example : exists s, run (init (ex_params false) ex_mem) ex_loop = Some s /\
  map destination (request_frames (hist s)) = [7; 10; 11; 14; 7; 10] /\ position_frames (hist s) = [].
Proof. eexists. split; [vm_compute; reflexivity|]. split; reflexivity. Qed.
Example rang_anchor_example : exists s, run (init (ex_params true) ex_mem) ex_loop = Some s /\
  request_frames (hist s) = [] /\ length (position_frames (hist s)) = 6%nat /\
  hd [] (position_frames (hist s)) = [0x41; 0x88; 3; 0xfe; 0xca; 255; 255; 20; 0; 1; 2; 3; 4; 5; 6; 7; 8; 9; 10; 11; 12; 0; 0].
Proof. eexists. split; [vm_compute; reflexivity|]. repeat split. Qed.

(** C76: the data of a packet for this node is published unchanged, with the addresses of the sender and of the receiver. *)
Theorem rang_data_published : forall hA hB dst d buffer old rx now, pan_id hA = pan_id hB -> has_data_cb hB = true ->
  dst = address hB \/ dst = 0xffff -> blen d <= 1013 -> blen buffer = 1024 -> blen old = 1024 ->
  exists f, send_data_packet hA dst d buffer = Some [Transmit TX_IMMEDIATE f] /\
    frame_rx hB f old rx now = Some [OPub (MData (address hA) dst d)].
Proof.
  intros hA hB dst d buffer old rx now EP HC HD L LB LO. pose proof (blen_nonneg d) as N.
  destruct (data_ok hA dst d buffer L LB) as (ts & f & E). pose proof E as E'. apply data_shape in E'; [|lia]. destruct E' as (f' & E1 & _ & Cy).
  injection E1 as -> <-. exists f. split; [exact E|].
  assert (LF : blen f = blen d + 11).
  { destruct (data_delivery_l hA hB dst d buffer [] rx now EP HC HD ltac:(lia) ltac:(lia) ltac:(reflexivity)) as (g & t & E2 & LG & _). congruence. }
  unfold frame_rx. rewrite bset_all_whole by lia. cbn [bind].
  destruct (Cy hB (skipn (length f) old) rx now (eq_sym EP) HC HD) as (tail & E3).
  { replace (length f) with (Z.to_nat (blen f)) by (unfold blen; lia). rewrite blen_skipn; lia. }
  rewrite E3. cbn [bind callbacks callback]. unfold DATA_BUFFER. replace (blen d <=? 1024) with true by (symmetry; apply Z.leb_le; lia).
  change (d ++ tail) with ([] ++ d ++ tail). rewrite bslice_app by reflexivity. reflexivity.
Qed.
Print Assumptions rang_data_published.

(** C76: a measured time of flight of [t] ticks, of 1 / (128 * 499.2 MHz) each, is published as the distance light travels in that time. *)
Theorem rang_range_published : forall h data old rx now b a t, bset_all old 0 data = Some b ->
  process_incoming_frame h b (blen data) rx now = Some [RangingFound a t] ->
  exists r, frame_rx h data old rx now = Some [OPub (MRange a r)] /\
    (r == 299792458 * (inject_Z t / (128 * 499200000)))%Q.
Proof.
  intros h data old rx now b a t E H. unfold frame_rx. rewrite E. cbn [bind]. rewrite H. cbn [bind callbacks callback]. eexists. split; [reflexivity|].
  unfold range_of. field.
Qed.
Print Assumptions rang_range_published.

(** C76: reception stays within its buffers and never stops the node, for any bytes received, if there are at least 11 of them and at most
    1014, and they are not the last message of an exchange. *)
Theorem rang_reception_partial : forall h data old rx now, has_anchor_cb h = true -> has_tag_cb h = true -> blen old = 1024 ->
  11 <= blen data <= 1014 -> nth 2 data 0 <> 2 -> exists o, frame_rx h data old rx now = Some o.
Proof. exact rx_safe_l. Qed.
Print Assumptions rang_reception_partial.

(** C76 fails otherwise: for a frame of data of 9 bytes, which any node in range can send, the size of the data is 2^32 - 2 and the copy to the message
    runs out of its buffer; an answer to a frame of 1023 bytes does not fit in the buffer; a last message with equal times divides by zero. *)
Theorem rang_reception_refuted : exists h old, blen old = 1024 /\ has_anchor_cb h = true /\ has_tag_cb h = true /\
  (exists data, blen data = 9 /\ nth 2 data 0 = 100 /\ frame_rx h data old 0 0 = None) /\
  (exists data, blen data = 1023 /\ nth 2 data 0 = 1 /\ frame_rx h data old 0 0 = None) /\
  (exists data, blen data = 36 /\ nth 2 data 0 = 2 /\ frame_rx h data old 0 0 = None).
Proof.
  exists (handler_of (ex_params false)), (repeat 0 1024). split; [reflexivity|]. split; [reflexivity|]. split; [reflexivity|]. split; [|split].
  - exists [0x41; 0x88; 100; 0xfe; 0xca; 20; 0; 7; 0]. repeat split; vm_compute; reflexivity.
  - exists ([0x41; 0x88; 1; 0xfe; 0xca; 20; 0; 7; 0] ++ repeat 0 1014). repeat split; vm_compute; reflexivity.
  - exists ([0x41; 0x88; 2; 0xfe; 0xca; 20; 0; 7; 0] ++ repeat 0 27). repeat split; vm_compute; reflexivity.
Qed.
Print Assumptions rang_reception_refuted.

Example rang_reception_example :
  frame_rx (handler_of (ex_params false)) [0x41; 0x88; 100; 0xfe; 0xca; 20; 0; 7; 0; 104; 105; 0; 0] (repeat 0 1024) 0 0 = Some [OPub (MData 7 20 [104; 105])].
Proof. vm_compute. reflexivity. Qed.
Example rang_range_example : exists o, 
  frame_rx (handler_of (ex_params true)) ([0x41; 0x88; 2; 0xfe; 0xca; 20; 0; 7; 0] ++ concat (map bytes_40bit [0; 1100; 2100; 3200; 4200]) ++ [0; 0]) (repeat 0 1024) 5300 0
  = Some [OPub (MRange 7 o)] /\ (o == 1100 * (299792458 # 63897600000))%Q.
Proof. eexists. split; [vm_compute; reflexivity|]. reflexivity. Qed.
