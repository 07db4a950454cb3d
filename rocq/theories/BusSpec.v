(** Specification of the message bus, in terms of what happened only. *)
From Coq Require Import ZArith List Bool Arith.
From Verif Require Import CBase BusModel.
Import ListNotations.
Local Open Scope Z_scope.

(** Messages published on topic [t], oldest first. *)
Definition pubs (h : list event) (t : nat) : list (list Z) :=
  flat_map (fun e => match e with EPub _ t' m => if (t' =? t)%nat then [m] else [] | _ => [] end) h.
(** What the buffer of a topic must contain: each message replaces as many bytes as it is long. *)
Definition overlay (old m : list Z) : list Z := m ++ skipn (length m) old.
Definition contents (buffers : list (list Z)) (h : list event) (t : nat) : list Z :=
  fold_left overlay (pubs h t) (nth t buffers []).

(** Thread [i] is in call [o], and [c] is what happened since the call was made. *)
Definition since_call (h : list event) (i : nat) (o : op) (c : list event) : Prop :=
  exists a, h = a ++ ECall i o :: c /\ forall o', ~ In (ECall i o') c.

(** The topic found under [name]: the one most recently advertised under that name. *)
Definition lookup (h : list event) (name : str) : option nat :=
  fold_left (fun r e => match e with
                        | EAdv _ t n => if list_eq_dec Z.eq_dec (firstn NAME_MAX n) name then Some t else r
                        | _ => r end) h None.

(** The topic last notified to group [g]. *)
Definition last_notified (h : list event) (g : nat) : option nat :=
  fold_left (fun r e => match e with ENotify g' t => if (g' =? g)%nat then Some t else r | _ => r end) h None.

(** Legal uses: the objects exist, no read is longer than the buffer, no topic is advertised twice. *)
Definition legal_op (buffers : list (list Z)) (ngroups : nat) (o : op) : Prop :=
  match o with
  | OPublish t _ | OAdvertise t _ | OStats t => (t < length buffers)%nat
  | ORead t len | OWait t len => (t < length buffers)%nat /\ (len <= length (nth t buffers []))%nat
  | OWatch g t => (g < ngroups)%nat /\ (t < length buffers)%nat
  | OGroupWait g => (g < ngroups)%nat
  | _ => True
  end.
Definition legal (buffers : list (list Z)) (ngroups : nat) (ms : list move) : Prop :=
  Forall (fun m => match m with Call _ o => legal_op buffers ngroups o | _ => True end) ms /\
  NoDup (flat_map (fun m => match m with Call _ (OAdvertise t _) => [t] | _ => [] end) ms).

(** A thread that is in a call and not waiting for an event. *)
Definition busy (p : pc) : Prop :=
  match p with Idle | WaitBlk _ _ | GwBlk _ | FindBlk _ => False | _ => True end.

(** The publication made by thread [i] in its current call: [c1] happened between the call and the publication,
    [c2] since the publication. *)
Definition published_by (h : list event) (i t : nat) (msg : list Z) (a c1 c2 : list event) : Prop :=
  h = a ++ ECall i (OPublish t msg) :: c1 ++ EPub i t msg :: c2 /\ forall o, ~ In (ECall i o) (c1 ++ c2).
Definition advertised_by (h : list event) (i t : nat) (name : str) (a c1 c2 : list event) : Prop :=
  h = a ++ ECall i (OAdvertise t name) :: c1 ++ EAdv i t name :: c2 /\ forall o, ~ In (ECall i o) (c1 ++ c2).

(** What must be true of an event [e] that comes after the history [h]. *)
Definition event_ok (buffers : list (list Z)) (h : list event) (e : event) : Prop :=
  match e with
  | EPub i t msg => (exists c, since_call h i (OPublish t msg) c) /\ (length msg <= length (nth t buffers []))%nat
  | ERefused i t => exists msg, since_call h i (OPublish t msg) [] /\ (length (nth t buffers []) < length msg)%nat
  | EPubDone i t =>
      exists msg a c1 c2, published_by h i t msg a c1 c2 /\
        forall g, In (EWatch g t) (a ++ c1) -> In (ENotify g t) c2
  | ERead i t len res =>
      (exists c, since_call h i (ORead t len) c) /\
      res = match pubs h t with [] => None | _ => Some (firstn len (contents buffers h t)) end
  | EWait i t len out =>
      (exists c, since_call h i (OWait t len) c /\ pubs c t <> []) /\ out = firstn len (contents buffers h t)
  | EGroup i g res =>
      (exists c, since_call h i (OGroupWait g) c /\ exists t, In (ENotify g t) c) /\ res = last_notified h g
  | EAdv i t name => exists c, since_call h i (OAdvertise t name) c
  | EAdvDone i t =>
      exists name a c1 c2, advertised_by h i t name a c1 c2 /\
        forall c, In (EReg c) (a ++ c1) -> In (ECallback c t) c2
  | EFind i name res =>
      res = lookup h name /\
      ((exists c, since_call h i (OFind name) c) \/ (res <> None /\ exists c, since_call h i (OFindBlocking name) c))
  | EStats i t n => (exists c, since_call h i (OStats t) c) /\ n = s32 (Z.of_nat (length (pubs h t)))
  | _ => True
  end.
