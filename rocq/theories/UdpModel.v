(** Model of master-firmware/src/udp_topic_broadcaster.c: two threads, one that encodes the topics that are published
    and one that sends the messages, with a pool of 16 messages and a mailbox of 16 places between them.

    A message object is given by its index in msg_buffer (23); its contents are what msg->buf holds up to msg->len.
    One step is what a thread does between two of its calls to the kernel; the steps of the two threads come in any
    order. The pool, the mailbox and the network stack are ChibiOS and lwIP, not in /repo: chPoolAlloc gives NULL
    when the pool is empty, chMBPostTimeout with TIME_IMMEDIATE fails when the mailbox is full, messages are fetched
    in the order of the posts, netbuf_new may fail, and netconn_sendto reads the message before it returns. *)
From Coq Require Import ZArith List Bool Arith.
Import ListNotations.

Definition payload := list Z.

(** Line 16: the size of the pool (119) and that of the mailbox (25). *)
Definition MSG_BUF_SIZE : nat := 16.

(** Where the encoder (37-73) and the sender (75-115) are. *)
Inductive encoder := EWait | EEncode (m : nat) | EPost (m : nat).
Inductive sender := SFetch | SBuf (m : nat) | SSend (m : nat).

(** What happens: recorded to state the properties. [Encoded p]: the encoder produced the message [p]. [Dropped]:
    there was no free message (56-59). [Sent p]: given to the network. [NoBuf p]: no network buffer (98-101). *)
Inductive event := Encoded (p : payload) | Dropped | Sent (p : payload) | NoBuf (p : payload).

Record state := mkstate {
  pool : list nat; mailbox : list nat; contents : nat -> payload; enc : encoder; snd_ : sender; log : list event }.

(** udp_topic_register_callbacks, 119: chPoolLoadArray of the 16 messages (each is freed into the pool in turn, so the
    last one comes out first). *)
Definition init : state :=
  mkstate (rev (seq 0 MSG_BUF_SIZE)) [] (fun _ => []) EWait SFetch [].

Definition upd (c : nat -> payload) (m : nat) (p : payload) : nat -> payload :=
  fun k => if Nat.eqb k m then p else c k.

(** What the environment decides: the next step of the encoder, with what messagebus_encode_topic_message makes of
    the topic ([[]] is a length of 0), or of the sender, with whether netbuf_new gives a buffer. *)
Inductive choice := Encoder (p : payload) | Sender (buffer : bool).

(** The encoder: 52-59, 61-65 with the test of 67 and line 70, 68. *)
Definition step_encoder (s : state) (p : payload) : state :=
  match enc s with
  | EWait =>
    match pool s with
    | [] => mkstate (pool s) (mailbox s) (contents s) EWait (snd_ s) (log s ++ [Dropped])
    | m :: r => mkstate r (mailbox s) (contents s) (EEncode m) (snd_ s) (log s)
    end
  | EEncode m =>
    match p with
    | [] => mkstate (m :: pool s) (mailbox s) (upd (contents s) m []) EWait (snd_ s) (log s)
    | _ => mkstate (pool s) (mailbox s) (upd (contents s) m p) (EPost m) (snd_ s) (log s ++ [Encoded p])
    end
  | EPost m =>
    (* 68: the result of the post is not looked at *)
    if Nat.ltb (length (mailbox s)) MSG_BUF_SIZE
    then mkstate (pool s) (mailbox s ++ [m]) (contents s) EWait (snd_ s) (log s)
    else mkstate (pool s) (mailbox s) (contents s) EWait (snd_ s) (log s)
  end.

(** The sender: 90-94, 96-101, 103-113. *)
Definition step_sender (s : state) (buffer : bool) : state :=
  match snd_ s with
  | SFetch =>
    match mailbox s with
    | [] => s
    | m :: r => mkstate (pool s) r (contents s) (enc s) (SBuf m) (log s)
    end
  | SBuf m =>
    if buffer
    then mkstate (pool s) (mailbox s) (contents s) (enc s) (SSend m) (log s)
    else mkstate (m :: pool s) (mailbox s) (contents s) (enc s) SFetch (log s ++ [NoBuf (contents s m)])
  | SSend m => mkstate (m :: pool s) (mailbox s) (contents s) (enc s) SFetch (log s ++ [Sent (contents s m)])
  end.

Definition step (s : state) (c : choice) : state :=
  match c with Encoder p => step_encoder s p | Sender b => step_sender s b end.
Definition run (l : list choice) : state := fold_left step l init.
