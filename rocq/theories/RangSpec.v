(** Specification of the ranging thread: what can be seen from outside. *)
From Coq Require Import ZArith List Bool.
From Verif Require Import Buf UwbModel RangModel.
Import ListNotations.
Local Open Scope Z_scope.

(** The packets which threads asked to send, in the order in which they got the lock; the calls which returned. *)
Definition requests (h : list obs) : list (nat * Z * list Z) :=
  flat_map (fun o => match o with OLock i dst d => [(i, dst, d)] | _ => [] end) h.
Definition returned (h : list obs) : list nat :=
  flat_map (fun o => match o with ORet i => [i] | _ => [] end) h.

(** The frames given to the radio, by the kind of frame, which is their third byte. *)
Definition frames (kind : Z) (h : list obs) : list (list Z) :=
  flat_map (fun o => match o with OTx _ f => if nth 2 f 0 =? kind then [f] else [] | _ => [] end) h.
Definition data_frames := frames 100.
Definition position_frames := frames 3.
Definition request_frames := frames 5.

(** The frame [f] carries the data [d] to [dst]: any node of the network with this address (all nodes if [dst] is the broadcast address),
    in a receive buffer with any content, hands exactly [d] to its user. [pan] and [src] are the network and address of the sender. *)
Definition carries (pan src : Z) (f : list Z) (dst : Z) (d : list Z) : Prop :=
  forall h junk rx now, pan_id h = pan -> has_data_cb h = true -> dst = address h \/ dst = 0xffff -> blen junk < 2 ^ 30 ->
  exists tail, process_incoming_frame h (f ++ junk) (blen f) rx now = Some [UserData (d ++ tail) (blen d) src dst].

(** The buffers of the thread have 1024 bytes. *)
Definition env_ok (e : event) : Prop :=
  match e with
  | Turn buf _ isr => blen buf = 1024 /\ match isr with Some (_, old, _) => blen old = 1024 | None => True end
  | _ => True
  end.

(** A float has four bytes. *)
Definition params_ok (p : params) : Prop := blen (p_x p) = 4 /\ blen (p_y p) = 4 /\ blen (p_z p) = 4.
Definition config_ok (e : event) : Prop := match e with Configure p => params_ok p | _ => True end.

Definition no_configure (e : event) : Prop := match e with Configure _ => False | _ => True end.

(** The destination of a frame, from its bytes, and the anchors a tag measures its distance to, in turn. *)
Definition destination (f : list Z) : Z := nth 5 f 0 + 256 * nth 6 f 0.
Definition anchor_in_turn (k : nat) : Z := nth (k mod 4) [7; 10; 11; 14] 0.

(** The frame [f] tells every node of the network the position of the anchor. *)
Definition tells_position (p : params) (f : list Z) : Prop :=
  forall h junk rx now, pan_id h = p_pan p mod 2 ^ 16 -> has_anchor_cb h = true -> blen junk < 2 ^ 30 ->
  process_incoming_frame h (f ++ junk) (blen f) rx now = Some [AnchorPosition (p_addr p mod 2 ^ 16) (p_x p) (p_y p) (p_z p)].
