(** What the broadcaster owes: every message goes out as it was encoded, once and in order. *)
From Coq Require Import ZArith List.
From Verif Require Import UdpModel.
Import ListNotations.

(** The messages encoded so far, in order, and those the sender is done with. *)
Definition encoded (l : list event) : list payload :=
  flat_map (fun e => match e with Encoded p => [p] | _ => [] end) l.
Definition handled (l : list event) : list payload :=
  flat_map (fun e => match e with Sent p | NoBuf p => [p] | _ => [] end) l.

(** The messages that wait between the two: the one the sender has, those in the mailbox, the one to be posted. *)
Definition waiting (s : state) : list payload :=
  match snd_ s with SFetch => [] | SBuf m | SSend m => [contents s m] end ++
  map (contents s) (mailbox s) ++
  match enc s with EPost m => [contents s m] | _ => [] end.

(** The objects the two threads hold. *)
Definition held (s : state) : list nat :=
  match snd_ s with SFetch => [] | SBuf m | SSend m => [m] end ++
  match enc s with EWait => [] | EEncode m | EPost m => [m] end.
