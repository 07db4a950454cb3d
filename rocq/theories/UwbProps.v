(** Property theorems for C07 to C10 (uwb-beacon-firmware/src/uwb_protocol.c). *)
From Coq Require Import ZArith List Bool Lia.
From Verif Require Import CBase Buf UwbModel UwbSpec UwbProofs.
Import ListNotations.
Local Open Scope Z_scope.

(** C07: decoding an encoded frame, followed by arbitrary bytes [junk] in the receive buffer, gives
    back all fields and the payload at the start of the buffer. Encoding needs 11 more bytes of buffer
    than the payload, writes exactly these and leaves the bytes after them alone. *)
Theorem uwb_roundtrip : forall pan src dst seq payload rest junk,
  11 <= blen rest -> blen (payload ++ rest) < 2 ^ 31 -> blen junk < 2 ^ 31 - 11 ->
  exists frame, blen frame = blen payload + 11 /\
    encapsulate pan src dst seq (payload ++ rest) (blen payload)
      = Some (frame ++ skipn 11 rest, blen frame) /\
    exists tail, decapsulate (frame ++ junk) (blen frame)
      = Some {| d_pan := pan; d_src := src; d_dst := dst; d_seq := seq;
                d_frame := payload ++ tail; d_size := blen payload |}.
Proof.
  intros pan src dst seq p rest junk HR HL HJ. exists (frame_of pan src dst seq p).
  assert (LF : blen (frame_of pan src dst seq p) = blen p + 11).
  { unfold frame_of. rewrite !blen_app. change (blen [0; 0]) with 2. rewrite blen_header. lia. }
  rewrite LF. split; [reflexivity|]. split.
  - rewrite encapsulate_spec by (rewrite ?blen_app in *; lia). unfold frame_of. now rewrite <- !app_assoc.
  - destruct (decapsulate_spec pan src dst seq p junk) as (tail & _ & E).
    + rewrite blen_app in HL. pose proof (blen_nonneg rest). rewrite !blen_app, blen_header. change (blen [0; 0]) with 2. lia.
    + exists tail. unfold frame_of. rewrite <- !app_assoc. exact E.
Qed.
Print Assumptions uwb_roundtrip.

(** C07: the encoded header bytes fit in bytes. *)
Theorem uwb_header_bytes : forall pan src dst seq,
  addr_ok pan -> addr_ok src -> addr_ok dst -> byte_ok seq -> bytes_ok (mac_header pan src dst seq).
Proof.
  intros pan src dst seq HP HS HD HQ. unfold addr_ok, byte_ok in *.
  assert (L : forall a, 0 <= Z.land a 255 < 256) by (intro; rewrite land255; apply Z.mod_pos_bound; lia).
  assert (H : forall a, 0 <= a < 2 ^ 16 -> 0 <= Z.shiftr a 8 < 256).
  { intros a Ha. rewrite Z.shiftr_div_pow2 by lia. split; [apply Z.div_pos; lia|apply Z.div_lt_upper_bound; lia]. }
  unfold mac_header. repeat constructor; try apply L; try apply H; try assumption; try apply HQ; cbv; intuition discriminate.
Qed.
Print Assumptions uwb_header_bytes.

(** C07: a buffer without room for the 11 extra bytes is overrun (undefined behaviour): the caller
    must provide it. *)
Theorem uwb_encapsulate_needs_room : forall pan src dst seq buf n, 0 <= n -> blen buf < n + 11 -> n + 11 < 2 ^ 32 ->
  encapsulate pan src dst seq buf n = None.
Proof. exact encapsulate_ub. Qed.
Print Assumptions uwb_encapsulate_needs_room.

Example uwb_roundtrip_example :
  encapsulate 0xcafe 0x0102 0x0304 42 ([1; 2; 3] ++ repeat 7 12) 3
  = Some ([0x41; 0x88; 42; 0xfe; 0xca; 4; 3; 2; 1; 1; 2; 3; 0; 0; 7], 14).
Proof. reflexivity. Qed.

(** C07 fails for frames shorter than header and CRC: 9 or 10 received bytes give a payload size
    close to 2^32, which is passed on to the user callback. *)
Theorem uwb_short_frame_refuted : exists h frame rx now msg size src dst, blen frame = 9 /\
  process_incoming_frame h frame 9 rx now = Some [UserData msg size src dst] /\ size = 2 ^ 32 - 2.
Proof.
  exists {| pan_id := 1; address := 2; is_anchor := false; has_ranging_cb := true; has_anchor_cb := true;
            has_tag_cb := true; has_data_cb := true |}, [0x41; 0x88; 100; 1; 0; 2; 0; 3; 0], 0, 0.
  do 4 eexists. repeat split; vm_compute; reflexivity.
Qed.
Print Assumptions uwb_short_frame_refuted.

(** C08: reading back a written timestamp; nothing else in the buffer changes. *)
Theorem uwb_timestamp_roundtrip : forall v frame off, 0 <= off -> off + 5 <= blen frame ->
  exists frame', write_40bit_int v frame off = Some frame' /\ blen frame' = blen frame /\
    read_40bit_int frame' off = Some (v mod 2 ^ 40) /\
    (forall i, i < off \/ off + 5 <= i -> bget frame' i = bget frame i).
Proof. exact write_read_40_l. Qed.
Print Assumptions uwb_timestamp_roundtrip.

(** C08: the difference is exact if the counter did not wrap... *)
Theorem uwb_difference_partial : forall a b, 0 <= b <= a -> a < 2 ^ 40 -> substract_40bit_int a b = a - b.
Proof. exact substract_nowrap_l. Qed.
Print Assumptions uwb_difference_partial.

(** ... and one less than the elapsed ticks whenever it wrapped: C08 fails there. *)
Theorem uwb_difference_wrap_refuted : forall a b, 0 <= a < b -> b < 2 ^ 40 ->
  substract_40bit_int a b = (a - b) mod 2 ^ 40 - 1.
Proof. exact substract_wrap_l. Qed.
Print Assumptions uwb_difference_wrap_refuted.

Example uwb_difference_example : substract_40bit_int 5 (2 ^ 40 - 3) = 7 /\ (5 - (2 ^ 40 - 3)) mod 2 ^ 40 = 8.
Proof. split; reflexivity. Qed.

(** C09: a complete exchange between an anchor [hA] and a tag [hB] with arbitrary clock offsets.
    The anchor advertises at true time [t0]; every frame takes [d] ticks; each node answers as its code
    says. The tag reports the anchor's address and a time of flight of [d] or [d - 1], and exactly [d]
    if neither clock wraps during the exchange. *)
Theorem uwb_ranging_partial : forall hA hB oA oB t0 d buffer j1 j2 j3 nB nA nB',
  pan_id hA = pan_id hB -> is_anchor hA = true -> is_anchor hB = false -> has_ranging_cb hB = true ->
  1 <= d < 2 ^ 30 ->
  16 <= blen buffer < 2 ^ 30 -> 10 <= blen j1 < 2 ^ 30 -> 10 <= blen j2 < 2 ^ 30 -> blen j3 < 2 ^ 30 ->
  exists ts1 f1 ts2 f2 ts3 f3 tof,
    send_advertisement hA (clock oA t0) buffer = Some [Transmit ts1 f1] /\
    let T1 := tx_time oA t0 ts1 in
    process_incoming_frame hB (f1 ++ j1) (blen f1) (clock oB (T1 + d)) nB = Some [Transmit ts2 f2] /\
    let T2 := tx_time oB (T1 + d) ts2 in
    process_incoming_frame hA (f2 ++ j2) (blen f2) (clock oA (T2 + d)) nA = Some [Transmit ts3 f3] /\
    let T3 := tx_time oA (T2 + d) ts3 in
    process_incoming_frame hB (f3 ++ j3) (blen f3) (clock oB (T3 + d)) nB' = Some [RangingFound (address hA) tof] /\
    d - 1 <= tof <= d /\
    (clock oA T1 + (T3 - T1) < 2 ^ 40 -> clock oB (T1 + d) + (T3 - T1) < 2 ^ 40 -> tof = d).
Proof. exact ranging_l. Qed.
Print Assumptions uwb_ranging_partial.

Definition ex_anchor : handler := {| pan_id := 0xcafe; address := 10; is_anchor := true; has_ranging_cb := true;
  has_anchor_cb := true; has_tag_cb := true; has_data_cb := true |}.
Definition ex_tag : handler := {| pan_id := 0xcafe; address := 20; is_anchor := false; has_ranging_cb := true;
  has_anchor_cb := true; has_tag_cb := true; has_data_cb := true |}.

(** The reported value of an exchange, computed. *)
Definition exchange (hA hB : handler) (oA oB t0 d : Z) : option (list action) :=
  do a1 <- send_advertisement hA (clock oA t0) (repeat 0 64);
  match a1 with
  | [Transmit ts1 f1] =>
      let T1 := tx_time oA t0 ts1 in
      do a2 <- process_incoming_frame hB (f1 ++ repeat 9 30) (blen f1) (clock oB (T1 + d)) 0;
      match a2 with
      | [Transmit ts2 f2] =>
          let T2 := tx_time oB (T1 + d) ts2 in
          do a3 <- process_incoming_frame hA (f2 ++ repeat 9 30) (blen f2) (clock oA (T2 + d)) 0;
          match a3 with
          | [Transmit ts3 f3] =>
              let T3 := tx_time oA (T2 + d) ts3 in
              process_incoming_frame hB (f3 ++ repeat 9 30) (blen f3) (clock oB (T3 + d)) 0
          | _ => None end
      | _ => None end
  | _ => None end.

Example uwb_ranging_example : exchange ex_anchor ex_tag 123456789 987654321 1000 321 = Some [RangingFound 10 321].
Proof. vm_compute. reflexivity. Qed.

(** C09 fails when a clock wraps during the exchange: one tick less than the time of flight... *)
Theorem uwb_ranging_exact_refuted : exists oA oB t0 d tof, 0 < d /\
  exchange ex_anchor ex_tag oA oB t0 d = Some [RangingFound 10 tof] /\ tof <> d.
Proof.
  exists (2 ^ 40 - 60000000), 0, 0, 321, 320. split; [lia|]. split; [vm_compute; reflexivity|lia].
Qed.
Print Assumptions uwb_ranging_exact_refuted.

(** ... and nonsense, of about 2^38 ticks, when the two nodes are less than one tick apart. *)
Theorem uwb_ranging_zero_refuted : exists oA oB t0 tof,
  exchange ex_anchor ex_tag oA oB t0 0 = Some [RangingFound 10 tof] /\ 2 ^ 36 < tof.
Proof.
  exists (2 ^ 40 - 60000000), 0, 0. eexists. split; [vm_compute; reflexivity|]. reflexivity.
Qed.
Print Assumptions uwb_ranging_zero_refuted.

(** C10: header fields of arbitrary received bytes... *)
Theorem uwb_decoded_fields : forall frame n d, bytes_ok frame -> decapsulate frame n = Some d ->
  exists c0 c1 q p0 p1 d0 d1 s0 s1 rest, frame = c0 :: c1 :: q :: p0 :: p1 :: d0 :: d1 :: s0 :: s1 :: rest /\
  d_seq d = q /\ d_pan d = p1 * 256 + p0 /\ d_dst d = d1 * 256 + d0 /\ d_src d = s1 * 256 + s0.
Proof. exact decode_fields_l. Qed.
Print Assumptions uwb_decoded_fields.

(** ... and frames of another PAN or for another node have no effect at all. *)
Theorem uwb_ignores_foreign_frames : forall h frame n rx now d, decapsulate frame n = Some d ->
  d_pan d <> pan_id h \/ (d_dst d <> address h /\ d_dst d <> BROADCAST_ADDR) ->
  process_incoming_frame h frame n rx now = Some [].
Proof. exact filter_raw_l. Qed.
Print Assumptions uwb_ignores_foreign_frames.

(** C10: anchors never answer advertisements. *)
Theorem uwb_anchor_ignores_advertisements : forall h frame n rx now d, decapsulate frame n = Some d ->
  is_anchor h = true -> d_seq d = SEQ_ADVERTISEMENT ->
  process_incoming_frame h frame n rx now = Some [].
Proof. exact anchor_silent_l. Qed.
Print Assumptions uwb_anchor_ignores_advertisements.

Example uwb_foreign_example : exists d, 
  decapsulate [0x41; 0x88; 0; 0xfe; 0xca; 99; 0; 10; 0; 1; 2; 3; 4; 5; 0; 0] 16 = Some d /\
  d_dst d = 99 /\ d_src d = 10 /\ d_pan d = 0xcafe /\ d_seq d = 0.
Proof. eexists. repeat split. Qed.

(** C10, conversely: data packets and positions for a node reach its callback unchanged. *)
Theorem uwb_data_delivered : forall hA hB dst msg buffer junk rx now,
  pan_id hA = pan_id hB -> has_data_cb hB = true -> dst = address hB \/ dst = BROADCAST_ADDR ->
  blen msg + 11 <= blen buffer -> blen buffer < 2 ^ 30 -> blen junk < 2 ^ 30 ->
  exists f tail, send_data_packet hA dst msg buffer = Some [Transmit TX_IMMEDIATE f] /\ blen f = blen msg + 11 /\
    process_incoming_frame hB (f ++ junk) (blen f) rx now = Some [UserData (msg ++ tail) (blen msg) (address hA) dst].
Proof. exact data_delivery_l. Qed.
Print Assumptions uwb_data_delivered.

Theorem uwb_anchor_position_delivered : forall hA hB x y z buffer junk rx now,
  pan_id hA = pan_id hB -> has_anchor_cb hB = true ->
  blen x = 4 -> blen y = 4 -> blen z = 4 ->
  23 <= blen buffer -> blen buffer < 2 ^ 30 -> blen junk < 2 ^ 30 ->
  exists f, send_anchor_position hA x y z buffer = Some [Transmit TX_IMMEDIATE f] /\
    process_incoming_frame hB (f ++ junk) (blen f) rx now = Some [AnchorPosition (address hA) x y z].
Proof. exact anchor_delivery_l. Qed.
Print Assumptions uwb_anchor_position_delivered.

Theorem uwb_tag_position_delivered : forall hA hB x y buffer junk rx now,
  pan_id hA = pan_id hB -> has_tag_cb hB = true ->
  blen x = 4 -> blen y = 4 ->
  19 <= blen buffer -> blen buffer < 2 ^ 30 -> blen junk < 2 ^ 30 ->
  exists f, send_tag_position hA x y buffer = Some [Transmit TX_IMMEDIATE f] /\
    process_incoming_frame hB (f ++ junk) (blen f) rx now = Some [TagPosition (address hA) x y].
Proof. exact tag_delivery_l. Qed.
Print Assumptions uwb_tag_position_delivered.

(** C09, C10: a tag [hB] asks the anchor [hA] for a measurement at time [t]. The request leaves 800 * 65536 ticks later (up to 511 less), and
    the anchor answers with the advertisement which starts the exchange of [uwb_ranging_partial], in a buffer which is large enough. A
    scheduled frame is never mistaken for an immediate one. *)
Theorem uwb_initiate_delivered : forall hA hB oB t buffer junk rx now, pan_id hA = pan_id hB ->
  11 <= blen buffer < 2 ^ 30 -> 5 <= blen junk < 2 ^ 30 - 11 ->
  exists ts f buffer', initiate_measurement hB (clock oB t) buffer (address hA) = Some [Transmit ts f] /\
    0 <= ts < 2 ^ 40 /\ ts <> TX_IMMEDIATE /\ 800 * 65536 - 512 < tx_time oB t ts - t <= 800 * 65536 /\
    16 <= blen buffer' < 2 ^ 30 /\
    process_incoming_frame hA (f ++ junk) (blen f) rx now = send_advertisement hA now buffer'.
Proof.
  intros hA hB oB t buffer junk rx now EP HB HJ. destruct (initiate_l hA hB oB t buffer junk rx now EP HB ltac:(lia)) as (ts & f & b & E1 & T & W & L & E2).
  exists ts, f, b. repeat split; auto; try lia; try (unfold UWB_DELAY in W; lia). intros ->. revert T. vm_compute. intuition discriminate.
Qed.
Print Assumptions uwb_initiate_delivered.
Example uwb_initiate_example : exists ts f, initiate_measurement ex_tag 1000 (repeat 0 16) 10 = Some [Transmit ts f] /\ ts = 52429312 /\
  f = [0x41; 0x88; 5; 0xfe; 0xca; 10; 0; 20; 0; 0; 0].
Proof. eexists _, _. split; [vm_compute; reflexivity|]. split; reflexivity. Qed.
