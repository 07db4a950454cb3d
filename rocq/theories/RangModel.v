(** Model of uwb-beacon-firmware/src/ranging_thread.c: the thread which owns the radio, and the threads which ask it to send data packets.
    The protocol itself is [UwbModel]. *)
From Coq Require Import ZArith QArith List Bool.
From Verif Require Import CBase Buf UwbModel.
Import ListNotations.
Local Open Scope Z_scope.

(** ranging_thread.c:22-27 *)
Definition EVENT_UWB_INT := Z.shiftl 1 0.
Definition EVENT_ADVERTISE_TIMER := Z.shiftl 1 1.
Definition EVENT_ANCHOR_POSITION_TIMER := Z.shiftl 1 2.
Definition EVENT_TAG_POSITION_TIMER := Z.shiftl 1 3.
Definition EVENT_DATA_PACKET_READY := Z.shiftl 1 4.
Definition EVENT_TEMPERATURE_READ_TIMER := Z.shiftl 1 10.

(** ranging_thread.c:160 *)
Definition anchor_macs : list Z := [7; 10; 11; 14].
Definition nb_anchor_macs : Z := blen anchor_macs.

(** ranging_thread.c:157 and 237, ranging_thread.h:34 *)
Definition FRAME_BUFFER := 1024.
Definition DATA_BUFFER := 1024.

(** ranging_thread.c:17 and 303. The rounding of the double and float operations is left out. *)
Definition range_of (time : Z) : Q := (inject_Z time * (299792458 # 63897600000))%Q.

(** The parameters read by the thread (ranging_thread.c:168-170 and 203-205). Coordinates are the bytes of the float. The antenna delay is
    left out. *)
Record params := { p_anchor : bool; p_addr : Z; p_pan : Z; p_x : list Z; p_y : list Z; p_z : list Z }.

(** ranging_thread.c:146-150 and 168-170; conversion to uint16_t. *)
Definition handler_of (p : params) : handler :=
  {| pan_id := u16 (p_pan p); address := u16 (p_addr p); is_anchor := p_anchor p;
     has_ranging_cb := true; has_anchor_cb := true; has_tag_cb := true; has_data_cb := true |}.

(** Messages published on the bus. Timestamps are left out. *)
Inductive message :=
| MRange (addr : Z) (range : Q)
| MAnchor (addr : Z) (x y z : list Z)
| MTag (addr : Z) (x y : list Z)
| MData (src dst : Z) (data : list Z)
| MTemperature.

(** What can be observed: a thread [i] starts its turn at sending a packet (it has the lock), a call returns, the radio is given a frame, a
    message is published. *)
Inductive obs :=
| OLock (i : nat) (dst : Z) (data : list Z)
| ORet (i : nat)
| OTx (ts : Z) (frame : list Z)
| OPub (m : message).

(** ranging_thread.c:264-318: the callbacks. [None]: memcpy outside one of the buffers. *)
Definition callback (a : action) : option obs :=
  match a with
  | Transmit ts f => Some (OTx ts f)
  | RangingFound addr time => Some (OPub (MRange addr (range_of time)))
  | AnchorPosition addr x y z => Some (OPub (MAnchor addr x y z))
  | TagPosition addr x y => Some (OPub (MTag addr x y))
  | UserData msg size src dst =>
      if size <=? DATA_BUFFER then option_map (fun d => OPub (MData src dst d)) (bslice msg 0 size) else None
  end.
Fixpoint callbacks (l : list action) : option (list obs) :=
  match l with
  | [] => Some []
  | a :: l => do o <- callback a; do os <- callbacks l; Some (o :: os)
  end.

(** ranging_thread.c:235-246: [data] are the received bytes, [old] is the content of the buffer, [now] the clock. *)
Definition frame_rx (h : handler) (data old : list Z) (rx_ts now : Z) : option (list obs) :=
  do frame <- bset_all old 0 data;
  do l <- process_incoming_frame h frame (blen data) rx_ts now;
  callbacks l.

(** Where a thread stands in ranging_send_data_packet, ranging_thread.c:491-507; [n] and [dst] are its arguments. *)
Inductive phase :=
| Idle
| AtLock (n dst : Z)      (* :493 *)
| SetData (n dst : Z)     (* :495 *)
| SetSize (n dst : Z)     (* :496 *)
| SetDst (dst : Z)        (* :498 *)
| Announce                (* :501 *)
| Waiting                 (* :504 *)
| Unlock.                 (* :506 *)

(** Where the ranging thread stands: initialising, at :165, before :212 (with the handler as copied at :168-170) and before :214 *)
Inductive rphase := RInit | RWait | RSend (h : handler) | RSignal.

Record sys := {
  pend : Z;                 (* pending events of the ranging thread *)
  rt : rphase;
  prm : params;
  idx : Z;                  (* current_anchor_mac_index *)
  d_ptr : nat;              (* data_packet: the thread whose buffer it points to *)
  d_len : Z; d_to : Z;      (* data_packet_size, data_packet_dst_mac *)
  taken : bool;             (* data_packet_sent *)
  owner : option nat;       (* data_packet_lock *)
  ph : nat -> phase;
  mem : nat -> list Z;      (* the buffer of each thread *)
  hist : list obs }.        (* oldest first *)

(** ranging_thread.c:67-71, 159 *)
Definition init (p : params) (m : nat -> list Z) : sys :=
  {| pend := 0; rt := RInit; prm := p; idx := 0; d_ptr := 0; d_len := 0; d_to := 0; taken := true; owner := None;
     ph := fun _ => Idle; mem := m; hist := [] |}.

Inductive source := SInt | SAdvertise | SAnchor | STag | STemperature.
(** ranging_thread.c:475-488 *)
Definition mask_of (s : source) : Z :=
  match s with
  | SInt => EVENT_UWB_INT
  | SAdvertise => EVENT_ADVERTISE_TIMER
  | SAnchor => EVENT_ANCHOR_POSITION_TIMER
  | STag => EVENT_TAG_POSITION_TIMER
  | STemperature => EVENT_TEMPERATURE_READ_TIMER
  end.

(** What happens outside of the thread, one step of the caller [i] or one step of the ranging thread. [buf] is the content of the static
    buffer of the thread (any 1024 bytes), [now] the clock of the radio, [isr] the frame found by dwt_isr if any: the received bytes, the
    content of the receive buffer and the time of reception. dwt_isr itself is the driver of the radio and is left out. *)
Inductive event :=
| Start
| Raise (s : source)
| Configure (p : params)
| Write (i : nat) (data : list Z)
| Call (i : nat) (n dst : Z)
| Cpu (i : nat)
| Turn (buf : list Z) (now : Z) (isr : option (list Z * list Z * Z)).

Definition upd {A} (f : nat -> A) (i : nat) (a : A) : nat -> A := fun j => if Nat.eqb j i then a else f j.
Definition set_ph (s : sys) (i : nat) (p : phase) : sys :=
  {| pend := pend s; rt := rt s; prm := prm s; idx := idx s; d_ptr := d_ptr s; d_len := d_len s; d_to := d_to s; taken := taken s;
     owner := owner s; ph := upd (ph s) i p; mem := mem s; hist := hist s |}.
Definition set_rt (s : sys) (pe : Z) (r : rphase) (ix : Z) (o : list obs) : sys :=
  {| pend := pe; rt := r; prm := prm s; idx := ix; d_ptr := d_ptr s; d_len := d_len s; d_to := d_to s; taken := taken s;
     owner := owner s; ph := ph s; mem := mem s; hist := hist s ++ o |}.

(** chEvtBroadcast: the listener is registered once the thread has started (ranging_thread.c:450-489, taken as one step). *)
Definition broadcast (s : sys) (m : Z) : Z :=
  match rt s with RInit => pend s | _ => Z.lor (pend s) m end.

(** ranging_thread.c:491-507, one step of the caller [i]. *)
Definition caller (s : sys) (i : nat) : option sys :=
  match ph s i with
  | Idle => Some s
  | AtLock n dst =>
      match owner s with
      | Some _ => Some s
      | None =>
          do d <- bslice (mem s i) 0 n;
          Some {| pend := pend s; rt := rt s; prm := prm s; idx := idx s; d_ptr := d_ptr s; d_len := d_len s; d_to := d_to s;
                  taken := taken s; owner := Some i; ph := upd (ph s) i (SetData n dst); mem := mem s;
                  hist := hist s ++ [OLock i dst d] |}
      end
  | SetData n dst =>
      Some {| pend := pend s; rt := rt s; prm := prm s; idx := idx s; d_ptr := i; d_len := d_len s; d_to := d_to s;
              taken := taken s; owner := owner s; ph := upd (ph s) i (SetSize n dst); mem := mem s; hist := hist s |}
  | SetSize n dst =>
      Some {| pend := pend s; rt := rt s; prm := prm s; idx := idx s; d_ptr := d_ptr s; d_len := n; d_to := d_to s;
              taken := taken s; owner := owner s; ph := upd (ph s) i (SetDst dst); mem := mem s; hist := hist s |}
  | SetDst dst =>
      Some {| pend := pend s; rt := rt s; prm := prm s; idx := idx s; d_ptr := d_ptr s; d_len := d_len s; d_to := dst;
              taken := taken s; owner := owner s; ph := upd (ph s) i Announce; mem := mem s; hist := hist s |}
  | Announce =>
      Some {| pend := broadcast s EVENT_DATA_PACKET_READY; rt := rt s; prm := prm s; idx := idx s; d_ptr := d_ptr s; d_len := d_len s;
              d_to := d_to s; taken := taken s; owner := owner s; ph := upd (ph s) i Waiting; mem := mem s; hist := hist s |}
  | Waiting =>
      if taken s then Some s
      else Some {| pend := pend s; rt := rt s; prm := prm s; idx := idx s; d_ptr := d_ptr s; d_len := d_len s; d_to := d_to s;
                   taken := true; owner := owner s; ph := upd (ph s) i Unlock; mem := mem s; hist := hist s |}
  | Unlock =>
      Some {| pend := pend s; rt := rt s; prm := prm s; idx := idx s; d_ptr := d_ptr s; d_len := d_len s; d_to := d_to s;
              taken := taken s; owner := None; ph := upd (ph s) i Idle; mem := mem s; hist := hist s ++ [ORet i] |}
  end.

(** chEvtWaitOne: the number of the lowest pending event. *)
Definition wait_one (m : Z) : option Z := find (Z.testbit m) [0; 1; 2; 3; 4; 5; 6; 7; 8; 9; 10].

(** One turn of the loop, ranging_thread.c:163-225, for the event [k] which was waited for. Since one event is returned at a time, at most
    one of the branches is taken; the [continue] at :196 skips only branches which are not. *)
Definition turn (s : sys) (k : Z) (buf : list Z) (now : Z) (isr : option (list Z * list Z * Z)) : option sys :=
  let pe := Z.clearbit (pend s) k in
  let flags := Z.shiftl 1 k in
  let h := handler_of (prm s) in
  if negb (Z.land flags EVENT_ADVERTISE_TIMER =? 0) then               (* :176-190 *)
    if negb (is_anchor h) && (0 <? nb_anchor_macs) then
      do mac <- bget anchor_macs (idx s);
      do l <- initiate_measurement h now buf mac;
      do o <- callbacks l;
      let ix := idx s + 1 in
      Some (set_rt s pe RWait (if ix =? nb_anchor_macs then 0 else ix) o)
    else Some (set_rt s pe RWait (idx s) [])
  else if negb (Z.land flags EVENT_ANCHOR_POSITION_TIMER =? 0) then    (* :192-208 *)
    if negb (is_anchor h) then Some (set_rt s pe RWait (idx s) [])
    else
      do l <- send_anchor_position h (p_x (prm s)) (p_y (prm s)) (p_z (prm s)) buf;
      do o <- callbacks l;
      Some (set_rt s pe RWait (idx s) o)
  else if negb (Z.land flags EVENT_DATA_PACKET_READY =? 0) then        (* :210-211 *)
    Some (set_rt s pe (RSend h) (idx s) [])
  else if negb (Z.land flags EVENT_TEMPERATURE_READ_TIMER =? 0) then   (* :217-219 *)
    Some (set_rt s pe RWait (idx s) [OPub MTemperature])
  else if negb (Z.land flags EVENT_UWB_INT =? 0) then                  (* :221-224 *)
    match isr with
    | None => Some (set_rt s pe RWait (idx s) [])
    | Some (data, old, rx_ts) =>
        do o <- frame_rx h data old rx_ts now;
        Some (set_rt s pe RWait (idx s) o)
    end
  else Some (set_rt s pe RWait (idx s) []).

(** A step of the ranging thread; in [RWait] without event it sleeps. *)
Definition radio (s : sys) (buf : list Z) (now : Z) (isr : option (list Z * list Z * Z)) : option sys :=
  match rt s with
  | RInit => Some s
  | RWait => match wait_one (pend s) with None => Some s | Some k => turn s k buf now isr end
  | RSend h =>                                                         (* :212 *)
      do m <- bslice (mem s (d_ptr s)) 0 (d_len s);
      do l <- send_data_packet h (d_to s) m buf;
      do o <- callbacks l;
      Some (set_rt s (pend s) RSignal (idx s) o)
  | RSignal =>                                                         (* :214 *)
      Some {| pend := pend s; rt := RWait; prm := prm s; idx := idx s; d_ptr := d_ptr s; d_len := d_len s; d_to := d_to s;
              taken := false; owner := owner s; ph := ph s; mem := mem s; hist := hist s |}
  end.

(** A thread calls, or changes its buffer, only while it is not in a call. *)
Definition step (s : sys) (e : event) : option sys :=
  match e with
  | Start => Some (match rt s with RInit => set_rt s (pend s) RWait (idx s) [] | _ => s end)
  | Raise src => Some (set_rt s (broadcast s (mask_of src)) (rt s) (idx s) [])
  | Configure p =>
      Some {| pend := pend s; rt := rt s; prm := p; idx := idx s; d_ptr := d_ptr s; d_len := d_len s; d_to := d_to s; taken := taken s;
              owner := owner s; ph := ph s; mem := mem s; hist := hist s |}
  | Write i d =>
      Some (match ph s i with
            | Idle => {| pend := pend s; rt := rt s; prm := prm s; idx := idx s; d_ptr := d_ptr s; d_len := d_len s; d_to := d_to s;
                         taken := taken s; owner := owner s; ph := ph s; mem := upd (mem s) i d; hist := hist s |}
            | _ => s end)
  | Call i n dst => Some (match ph s i with Idle => set_ph s i (AtLock n dst) | _ => s end)
  | Cpu i => caller s i
  | Turn buf now isr => radio s buf now isr
  end.

Fixpoint run (s : sys) (tr : list event) : option sys :=
  match tr with [] => Some s | e :: tr => do s' <- step s e; run s' tr end.
