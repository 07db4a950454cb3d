(** Vocabulary of the properties of the broadcasts of the beacon. *)
From Coq Require Import ZArith List Bool Arith.
From Verif Require Import TpubModel.
Import ListNotations.

(** The samples published on the topics during a history, in order: by the publishers, and for the positions received
    from other nodes once the topic exists ([known]). *)
Fixpoint samples (known : bool) (ms : list move) : list sample :=
  match ms with
  | [] => []
  | Advertise TTag :: ms => samples true ms
  | Publish m :: ms => m :: samples known ms
  | Receive ts z vz x y :: ms => if known then SPos ts x y z float_0_01 float_0_01 vz :: samples known ms else samples known ms
  | _ :: ms => samples known ms
  end.
Definition on_topic (t : topic) (l : list sample) : list sample := filter (fun m => topic_eqb (topic_of m) t) l.
(** The last sample of a topic. *)
Definition latest (t : topic) (ms : list move) : option sample := List.last (map Some (on_topic t (samples false ms))) None.

(** The kind of a message. *)
Definition kind (e : message) : topic :=
  match e with RawIMU _ _ _ _ => TImu | Solution _ _ => TAtt | RadioRange _ _ _ => TRange | TagPosition _ _ _ => TTag | DataPacket _ _ _ => TData end.
Definition of_kind (t : topic) (l : list message) : list message := filter (fun e => topic_eqb (kind e) t) l.

(** The parameter of a topic after a history ([b] before). *)
Fixpoint param (t : topic) (b : bool) (ms : list move) : bool :=
  match ms with
  | [] => b
  | SetParam t' b' :: ms => param t (if topic_eqb t' t then b' else b) ms
  | _ :: ms => param t b ms
  end.
(** Nothing is published. *)
Definition silent (ms : list move) : Prop := forall m, In m ms -> match m with Publish _ | Receive _ _ _ _ _ => False | _ => True end.
(** Steps of the watcher, of the loop of UAVCAN. *)
Definition watcher_steps (ms : list move) : nat := length (filter (fun m => match m with Watcher => true | _ => false end) ms).
Definition spinner_steps (ms : list move) : nat := length (filter (fun m => match m with Spinner => true | _ => false end) ms).
(** Data packets fit in a message. *)
Definition fits (m : move) : Prop := match m with Publish (SData _ _ d) => (length d < 1024)%nat | _ => True end.
