(** Model of the broadcasts of the UWB beacon, uwb-beacon-firmware/src/uavcan/topics_publisher.cpp, of the reception of
    positions (position_handler.cpp) and of the part of the message bus they use (lib/msgbus/messagebus.c, whole in
    BusModel).

    Threads: the watcher (topics_watcher), the loop of UAVCAN (topics_publisher_spin), the publishers, and whoever writes
    the parameters. A publication is one step: from the memcpy to the release of the topic, no reader can see the
    topic, and the watcher sees only the group, which is written under its own mutex. Words and floats are given by
    their bits. *)
From Coq Require Import ZArith List Bool Arith.
Import ListNotations.
Local Open Scope Z_scope.

(** The topics, in the order of topics_publisher.cpp 135-219. *)
Inductive topic := TImu | TAtt | TRange | TTag | TData.
Definition topic_eqb (a b : topic) : bool :=
  match a, b with TImu, TImu | TAtt, TAtt | TRange, TRange | TTag, TTag | TData, TData => true | _, _ => false end.

(** imu_msg_t, attitude_msg_t, range_msg_t, position_estimation_msg_t, data_packet_msg_t ([data]: the first data_size
    bytes; the field mag of imu_msg_t is left out). *)
Inductive sample :=
| SImu (timestamp gx gy gz ax ay az : Z)
| SAtt (timestamp qw qx qy qz : Z)
| SRange (timestamp anchor range : Z)
| SPos (timestamp x y z vx vy vz : Z)
| SData (src dst : Z) (data : list Z).
Definition topic_of (s : sample) : topic :=
  match s with SImu _ _ _ _ _ _ _ => TImu | SAtt _ _ _ _ _ => TAtt | SRange _ _ _ => TRange | SPos _ _ _ _ _ _ _ => TTag | SData _ _ _ => TData end.

(** The messages of UAVCAN, with the fields that are set. *)
Inductive message :=
| RawIMU (timestamp interval : Z) (rate acc : list Z)
| Solution (timestamp : Z) (orientation : list Z)
| RadioRange (timestamp anchor range : Z)
| TagPosition (timestamp x y : Z)
| DataPacket (src dst : Z) (data : list Z).

(** uint8[<1024] data. *)
Definition DATA_MAX : nat := 1023.
(** topics_publisher.cpp 142-153, 164-170, 180-184, 194-198, 208-215. None: push_back in a full array. *)
Definition encode (s : sample) : option message :=
  match s with
  | SImu ts gx gy gz ax ay az => Some (RawIMU ts (-1) [gx; gy; gz] [ax; ay; az])
  | SAtt ts qw qx qy qz => Some (Solution ts [qx; qy; qz; qw])
  | SRange ts a r => Some (RadioRange ts a r)
  | SPos ts x y _ _ _ _ => Some (TagPosition ts x y)
  | SData src dst data => if (length data <=? DATA_MAX)%nat then Some (DataPacket src dst data) else None
  end.

(** Where the watcher is. [WFind t], [WWatch t]: lines 68, 69-71 ([TTag]), 73, 74-76 ([TData]). [WLoop]: before the wait on
    the condition variable; [WWait]: in it; [WWoken]: signaled, without the mutex yet; [WGot t]: messagebus_watchgroup_wait
    has returned [t]; [WSignal t]: before the chBSemSignal of [t]. *)
Inductive wpc := WFind (t : topic) | WWatch (t : topic) | WLoop | WWait | WWoken | WGot (t : option topic) | WSignal (t : topic).
(** Where the loop of UAVCAN is: before the test of the semaphore of [t], or before the read of [t]. *)
Inductive spc := At (t : topic) | Read (t : topic).

(** [adv]: advertised; [val]: content of the topics, None before the first publication; [on]: the parameters publish/...;
    [sem]: the binary semaphores; [watched]: topics whose list of watchers has the group; [last]: published_topic of the
    group; [ptr]: the static pointers of the watcher (line 55), None: NULL. *)
Record sys := mksys {
  adv : topic -> bool; val : topic -> option sample; on : topic -> bool; sem : topic -> bool; watched : topic -> bool;
  last : option topic; ptr : topic -> option topic; w : wpc; s : spc }.

(** topics_publisher.cpp 28-32, 55, 99-104. *)
Definition init : sys :=
  mksys (fun _ => false) (fun _ => None) (fun t => topic_eqb t TData) (fun _ => false) (fun _ => false) None (fun _ => None) (WFind TTag) (At TImu).

Definition set {A} (f : topic -> A) (t : topic) (x : A) : topic -> A := fun t' => if topic_eqb t t' then x else f t'.

(** messagebus.c 85-111. *)
Definition publish (x : sys) (m : sample) : sys :=
  let t := topic_of m in
  let v := set (val x) t (Some m) in
  if watched x t
  then mksys (adv x) v (on x) (sem x) (watched x) (Some t) (ptr x) (match w x with WWait => WWoken | p => p end) (s x)
  else mksys (adv x) v (on x) (sem x) (watched x) (last x) (ptr x) (w x) (s x).

(** Equality of pointers. *)
Definition ptr_eqb (a b : option topic) : bool :=
  match a, b with Some a, Some b => topic_eqb a b | None, None => true | _, _ => false end.
(** topics_publisher.cpp 83-93. *)
Definition decide (x : sys) (t : option topic) : wpc :=
  if ptr_eqb t (ptr x TImu) && on x TImu then WSignal TImu
  else if ptr_eqb t (ptr x TAtt) && on x TAtt then WSignal TAtt
  else if ptr_eqb t (ptr x TRange) && on x TRange then WSignal TRange
  else if ptr_eqb t (ptr x TTag) && on x TTag then WSignal TTag
  else if ptr_eqb t (ptr x TData) && on x TData then WSignal TData
  else WLoop.

Definition set_w (x : sys) (p : wpc) : sys := mksys (adv x) (val x) (on x) (sem x) (watched x) (last x) (ptr x) p (s x).
Definition set_s (x : sys) (p : spc) : sys := mksys (adv x) (val x) (on x) (sem x) (watched x) (last x) (ptr x) (w x) p.
Definition set_sem (x : sys) (t : topic) (b : bool) : sys :=
  mksys (adv x) (val x) (on x) (set (sem x) t b) (watched x) (last x) (ptr x) (w x) (s x).

(** A step of the watcher, topics_publisher.cpp 43-95, messagebus.c 64-81, 141-176. messagebus_find_topic_blocking tries
    again instead of waiting for an advertisement. *)
Definition watcher (x : sys) : sys :=
  match w x with
  | WFind t =>
      if adv x t
      then mksys (adv x) (val x) (on x) (sem x) (watched x) (last x) (set (ptr x) t (Some t)) (WWatch t) (s x)
      else x
  | WWatch t =>
      mksys (adv x) (val x) (on x) (sem x) (set (watched x) t true) (last x) (ptr x)
        (match t with TTag => WFind TData | _ => WLoop end) (s x)
  | WLoop => set_w x WWait
  | WWait => x
  | WWoken => set_w x (WGot (last x))
  | WGot t => set_w x (decide x t)
  | WSignal t => set_w (set_sem x t true) WLoop
  end.

(** The next test of a semaphore; after the last one the loop of uavcan_node.cpp 72-80 starts again. *)
Definition next (t : topic) : spc :=
  match t with TImu => At TAtt | TAtt => At TRange | TRange => At TTag | TTag => At TData | TData => At TImu end.
(** A step of topics_publisher.cpp 131-219 and the message broadcast. None: access through a null pointer (topic that does
    not exist), message made of a buffer that was not written (topic without content), or of another type, or full array. *)
Definition spinner (x : sys) : option (sys * list message) :=
  match s x with
  | At t => if sem x t then Some (set_s (set_sem x t false) (Read t), []) else Some (set_s x (next t), [])
  | Read t =>
      if adv x t then
        match val x t with
        | Some m => if topic_eqb (topic_of m) t then match encode m with Some e => Some (set_s x (next t), [e]) | None => None end else None
        | None => None
        end
      else None
  end.

(** [Receive]: position_handler.cpp 13-29, with what the fields that are not set contain (timestamp, z, variance_z); 0.01
    has bits 1008981770. If the topic does not exist nothing is done. *)
Inductive move := Advertise (t : topic) | Publish (m : sample) | SetParam (t : topic) (b : bool) | Receive (ts z vz x y : Z) | Watcher | Spinner.
Definition float_0_01 : Z := 1008981770.
Definition step (x : sys) (m : move) : option (sys * list message) :=
  match m with
  | Advertise t => Some (mksys (set (adv x) t true) (val x) (on x) (sem x) (watched x) (last x) (ptr x) (w x) (s x), [])
  | Publish m => Some (publish x m, [])
  | SetParam t b => Some (mksys (adv x) (val x) (set (on x) t b) (sem x) (watched x) (last x) (ptr x) (w x) (s x), [])
  | Receive ts z vz px py => if adv x TTag then Some (publish x (SPos ts px py z float_0_01 float_0_01 vz), []) else Some (x, [])
  | Watcher => Some (watcher x, [])
  | Spinner => spinner x
  end.
(** An execution and the messages broadcast. *)
Fixpoint run (x : sys) (ms : list move) : option (sys * list message) :=
  match ms with
  | [] => Some (x, [])
  | m :: ms =>
      match step x m with
      | Some (x, a) => match run x ms with Some (x, b) => Some (x, a ++ b) | None => None end
      | None => None
      end
  end.
