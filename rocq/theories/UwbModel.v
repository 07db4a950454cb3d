(** Model of uwb-beacon-firmware/src/uwb_protocol.c. [size_t] is 32 bits on the target. *)
From Coq Require Import ZArith List Bool.
From Verif Require Import CBase Buf.
Import ListNotations.
Local Open Scope Z_scope.

(** uwb_protocol.c:11-23, uwb_protocol.h:13,17 *)
Definition MAC_HDR_LEN := 9.
Definition MAC_CRC_LEN := 2.
Definition SEQ_ADVERTISEMENT := 0.
Definition SEQ_REPLY := 1.
Definition SEQ_FINALIZATION := 2.
Definition SEQ_ANCHOR_POSITION := 3.
Definition SEQ_TAG_POSITION := 4.
Definition SEQ_INITIATE_MEASUREMENT := 5.
Definition SEQ_USER_DATA := 100.
Definition UWB_DELAY := 800 * 65536.
Definition MASK_40BIT := 0xfffffffe00.
Definition BROADCAST_ADDR := 0xffff.
Definition TX_IMMEDIATE := 2 ^ 64 - 1.

(** uwb_protocol.c:35-39 *)
Definition frame_hdr : Z :=
  Z.lor (Z.lor (Z.lor 1 (Z.shiftl 1 6)) (Z.shiftl 2 14)) (Z.shiftl 2 10).

(** uwb_protocol.c:44-53 *)
Definition mac_header (pan_id src_addr dst_addr seq : Z) : list Z :=
  [Z.land frame_hdr 255; Z.shiftr frame_hdr 8; seq;
   Z.land pan_id 255; Z.shiftr pan_id 8;
   Z.land dst_addr 255; Z.shiftr dst_addr 8;
   Z.land src_addr 255; Z.shiftr src_addr 8].

(** uwb_protocol.c:28-64: the buffer afterwards and the returned size. *)
Definition encapsulate (pan_id src_addr dst_addr seq : Z) (frame : list Z) (frame_size : Z)
  : option (list Z * Z) :=
  match bmove frame MAC_HDR_LEN 0 frame_size with          (* :42 *)
  | None => None
  | Some frame =>
      match bset_all frame 0 (mac_header pan_id src_addr dst_addr seq) with (* :44-53 *)
      | None => None
      | Some frame =>
          let frame_size := u32 (frame_size + MAC_HDR_LEN) in
          match bset_all frame frame_size [0; 0] with       (* :57-59 *)
          | None => None
          | Some frame => Some (frame, u32 (frame_size + MAC_CRC_LEN))
          end
      end
  end.

Record decoded := { d_pan : Z; d_src : Z; d_dst : Z; d_seq : Z; d_frame : list Z; d_size : Z }.

(** A little endian 16-bit field: [(frame[hi] << 8) | frame[lo]]. *)
Definition get16 (frame : list Z) (lo hi : Z) : option Z :=
  match bget frame hi, bget frame lo with
  | Some h, Some l => Some (Z.lor (Z.shiftl h 8) l)
  | _, _ => None
  end.

(** uwb_protocol.c:66-82. *)
Definition decapsulate (frame : list Z) (frame_size : Z) : option decoded :=
  match bget frame 2, get16 frame 3 4, get16 frame 5 6, get16 frame 7 8 with
  | Some seq, Some pan, Some dst, Some src =>
      match bmove frame 0 MAC_HDR_LEN (u32 (frame_size - MAC_HDR_LEN)) with
      | Some f => Some {| d_pan := pan; d_src := src; d_dst := dst; d_seq := seq; d_frame := f;
                          d_size := u32 (frame_size - MAC_HDR_LEN - MAC_CRC_LEN) |}
      | None => None
      end
  | _, _, _, _ => None
  end.

(** uwb_protocol.c:84-91: the bytes written. *)
Definition bytes_40bit (v : Z) : list Z :=
  [Z.land (Z.shiftr v 32) 255; Z.land (Z.shiftr v 24) 255; Z.land (Z.shiftr v 16) 255;
   Z.land (Z.shiftr v 8) 255; Z.land (Z.shiftr v 0) 255].
Definition write_40bit_int (val : Z) (frame : list Z) (off : Z) : option (list Z) :=
  bset_all frame off (bytes_40bit val).
(** uwb_protocol.c:93-100 *)
Definition value_40bit (bytes : list Z) : Z := fold_left (fun res b => Z.lor (Z.shiftl res 8) b) bytes 0.
Definition read_40bit_int (frame : list Z) (off : Z) : option Z :=
  option_map value_40bit (bslice frame off 5).

(** uwb_protocol.c:104-114 *)
Definition substract_40bit_int (a b : Z) : Z :=
  let res := u64 (a - b) in
  if a <? b then u64 (res + (2 ^ 40 - 1)) else res.

(** uwb_protocol.h:20-28. Callbacks are represented by whether they are set. *)
Record handler := {
  pan_id : Z; address : Z; is_anchor : bool;
  has_ranging_cb : bool; has_anchor_cb : bool; has_tag_cb : bool; has_data_cb : bool }.

(** Externally visible effects. Coordinates are the bytes of the float. *)
Inductive action :=
| Transmit (ts : Z) (frame : list Z)
| RangingFound (addr time : Z)
| AnchorPosition (addr : Z) (x y z : list Z)
| TagPosition (addr : Z) (x y : list Z)
| UserData (msg : list Z) (size src dst : Z).

(** [uwb_transmit_frame(ts, frame, size)] reads [size] bytes. *)
Definition transmit (ts : Z) (frame : list Z) (size : Z) : option (list action) :=
  option_map (fun f => [Transmit ts f]) (bslice frame 0 size).

Definition bind {A B} (x : option A) (f : A -> option B) : option B :=
  match x with Some a => f a | None => None end.
Notation "'do' x <- e ; f" := (bind e (fun x => f)) (at level 200, x pattern, e at level 100, f at level 200).

(** uwb_protocol.c:121-135 *)
Definition prepare_advertisement (h : handler) (ts : Z) (frame : list Z) : option (list Z * Z) :=
  do frame <- write_40bit_int ts frame 0;
  encapsulate (pan_id h) (address h) BROADCAST_ADDR SEQ_ADVERTISEMENT frame 5.

(** uwb_protocol.c:137-147; [now] is the result of uwb_timestamp_get. *)
Definition send_advertisement (h : handler) (now : Z) (buffer : list Z) : option (list action) :=
  let ts := Z.land (u64 (now + UWB_DELAY)) MASK_40BIT in
  do (f, n) <- prepare_advertisement h ts buffer;
  transmit ts f n.

(** uwb_protocol.c:149-167 and 202-213; coordinates as 4 bytes each *)
Definition send_anchor_position (h : handler) (x y z : list Z) (frame : list Z) : option (list action) :=
  do frame <- bset_all frame 0 (x ++ y ++ z);
  do (f, n) <- encapsulate (pan_id h) (address h) BROADCAST_ADDR SEQ_ANCHOR_POSITION frame 12;
  transmit TX_IMMEDIATE f n.

(** uwb_protocol.c:169-185 and 215-222 *)
Definition send_tag_position (h : handler) (x y : list Z) (frame : list Z) : option (list action) :=
  do frame <- bset_all frame 0 (x ++ y);
  do (f, n) <- encapsulate (pan_id h) (address h) BROADCAST_ADDR SEQ_TAG_POSITION frame 8;
  transmit TX_IMMEDIATE f n.

(** uwb_protocol.c:187-200 and 224-231 *)
Definition send_data_packet (h : handler) (dst : Z) (msg : list Z) (frame : list Z) : option (list action) :=
  do frame <- bset_all frame 0 msg;
  do (f, n) <- encapsulate (pan_id h) (address h) dst SEQ_USER_DATA frame (blen msg);
  transmit TX_IMMEDIATE f n.

(** uwb_protocol.c:354-370 *)
Definition initiate_measurement (h : handler) (now : Z) (buffer : list Z) (anchor_addr : Z)
  : option (list action) :=
  do (f, n) <- encapsulate (pan_id h) (address h) anchor_addr SEQ_INITIATE_MEASUREMENT buffer 0;
  transmit (Z.land (u64 (now + UWB_DELAY)) MASK_40BIT) f n.

(** uwb_protocol.c:264-287 and 288-310: append two timestamps at [off] and answer. *)
Definition answer (h : handler) (pan src seq : Z) (frame : list Z) (frame_size off rx_ts : Z)
  : option (list action) :=
  let reply_ts := Z.land (u64 (rx_ts + UWB_DELAY)) MASK_40BIT in
  do frame <- write_40bit_int rx_ts frame off;
  do frame <- write_40bit_int reply_ts frame (off + 5);
  do (f, n) <- encapsulate pan (address h) src seq frame (u32 (frame_size + 10));
  transmit reply_ts f n.

(** uwb_protocol.c:324-329. [None] is the division by zero. *)
Definition propagation_time (adv_tx adv_rx rep_tx rep_rx fin_tx fin_rx : Z) : option Z :=
  let tround0 := substract_40bit_int rep_rx adv_tx in
  let tround1 := substract_40bit_int fin_rx rep_tx in
  let treply0 := substract_40bit_int rep_tx adv_rx in
  let treply1 := substract_40bit_int fin_tx rep_rx in
  let num := u64 (u64 (tround0 * tround1) - u64 (treply0 * treply1)) in
  let den := u64 (tround0 + tround1 + treply0 + treply1) in
  if den =? 0 then None else Some (num / den).

(** uwb_protocol.c:312-333 *)
Definition finalization (h : handler) (src : Z) (frame : list Z) (rx_ts : Z) : option (list action) :=
  do adv_tx <- read_40bit_int frame 0;
  do adv_rx <- read_40bit_int frame 5;
  do rep_tx <- read_40bit_int frame 10;
  do rep_rx <- read_40bit_int frame 15;
  do fin_tx <- read_40bit_int frame 20;
  do t <- propagation_time adv_tx adv_rx rep_tx rep_rx fin_tx rx_ts;
  Some (if has_ranging_cb h then [RangingFound src t] else []).

(** uwb_protocol.c:233-352. [now] is the clock read by uwb_send_measurement_advertisement. Calling a
    NULL position callback is undefined behaviour. Tracing (line 260) is left out. *)
Definition process_incoming_frame (h : handler) (frame : list Z) (frame_size rx_ts now : Z)
  : option (list action) :=
  do d <- decapsulate frame frame_size;
  if negb (d_pan d =? pan_id h) then Some []
  else if negb (d_dst d =? address h) && negb (d_dst d =? BROADCAST_ADDR) then Some []
  else if d_seq d =? SEQ_ADVERTISEMENT then
    if negb (is_anchor h) then answer h (d_pan d) (d_src d) SEQ_REPLY (d_frame d) (d_size d) 5 rx_ts
    else Some []
  else if d_seq d =? SEQ_REPLY then
    answer h (d_pan d) (d_src d) SEQ_FINALIZATION (d_frame d) (d_size d) 15 rx_ts
  else if d_seq d =? SEQ_FINALIZATION then finalization h (d_src d) (d_frame d) rx_ts
  else if d_seq d =? SEQ_ANCHOR_POSITION then
    do x <- bslice (d_frame d) 0 4;
    do y <- bslice (d_frame d) 4 4;
    do z <- bslice (d_frame d) 8 4;
    if has_anchor_cb h then Some [AnchorPosition (d_src d) x y z] else None
  else if d_seq d =? SEQ_TAG_POSITION then
    do x <- bslice (d_frame d) 0 4;
    do y <- bslice (d_frame d) 4 4;
    if has_tag_cb h then Some [TagPosition (d_src d) x y] else None
  else if d_seq d =? SEQ_INITIATE_MEASUREMENT then send_advertisement h now (d_frame d)
  else if d_seq d =? SEQ_USER_DATA then
    if has_data_cb h
    then Some [UserData (d_frame d) (d_size d) (d_src d) (d_dst d)] else Some []
  else Some [].
