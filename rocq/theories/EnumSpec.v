(** Specification of the bus enumerator, from the history of calls (oldest first) alone. *)
From Coq Require Import ZArith List Bool.
From Verif Require Import EnumModel.
Import ListNotations.
Local Open Scope Z_scope.

Definition name_dec : forall a b : name, {a = b} + {a <> b} := list_eq_dec Z.eq_dec.

(** Registrations in order, and those the table has room for. *)
Definition adds (h : list event) : list (name * Z) :=
  flat_map (fun e => match e with Add s d => [(s, d)] | _ => [] end) h.
Definition accepted (cap : nat) (h : list event) : list (name * Z) := firstn cap (adds h).

(** The first CAN id announced for [s] in [h]. *)
Fixpoint first_announce (h : list event) (s : name) : option Z :=
  match h with
  | [] => None
  | Announce s' c :: h => if name_dec s' s then Some c else first_announce h s
  | _ :: h => first_announce h s
  end.
(** The first CAN id announced for [s] after its registration. *)
Fixpoint announced (h : list event) (s : name) : option Z :=
  match h with
  | [] => None
  | Add s' _ :: h => if name_dec s' s then first_announce h s else announced h s
  | _ :: h => announced h s
  end.

(** Node [s], registered with driver [d], is known to have the CAN id [c]. *)
Definition node_has_id (cap : nat) (h : list event) (s : name) (d c : Z) : Prop :=
  In (s, d) (accepted cap h) /\ announced h s = Some c.

(** Announced CAN ids are real ids. *)
Definition ids_ok (h : list event) : Prop :=
  forall s c, In (Announce s c) h -> c <> CAN_ID_NOT_SET.
(** No name is registered twice. *)
Definition names_distinct (h : list event) : Prop := NoDup (map fst (adds h)).
