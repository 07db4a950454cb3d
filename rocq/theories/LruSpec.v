(** Specification of the LRU cache in terms of the calls made and the entries they returned. *)
From Coq Require Import NArith List.
From Verif Require Import LruModel.
Import ListNotations.

(** The event used (returned) the entry. *)
Definition uses (ev : event) (e : nat) : bool :=
  match ev with
  | EAlloc _ e' => Nat.eqb e' e
  | EGet _ (Some e') => Nat.eqb e' e
  | EGet _ None => false
  end.

(** Number of events since the entry was last used; [None] if it never was. Traces are newest first. *)
Fixpoint age (tr : list event) (e : nat) : option nat :=
  match tr with
  | [] => None
  | ev :: tr => if uses ev e then Some 0 else option_map S (age tr e)
  end.

(** [a] was used more recently than [b]. *)
Definition more_recent (tr : list event) (a b : nat) : Prop :=
  exists i j, age tr a = Some i /\ age tr b = Some j /\ i < j.

(** The key for which the entry was last allocated. *)
Fixpoint current_key (tr : list event) (e : nat) : option N :=
  match tr with
  | [] => None
  | EAlloc k e' :: tr => if Nat.eqb e' e then Some k else current_key tr e
  | EGet _ _ :: tr => current_key tr e
  end.

(** Anchor cache: the last message about an address in a history (newest first). *)
Fixpoint last_msg (h : list aop) (addr : N) : option anchor_msg :=
  match h with
  | [] => None
  | AMsg m :: h => if N.eqb (anchor_addr m) addr then Some m else last_msg h addr
  | ALookup _ :: h => last_msg h addr
  end.

Definition op_addr (o : aop) : N := match o with AMsg m => anchor_addr m | ALookup a => a end.

(** Number of different addresses mentioned (heard or looked up) in a list of operations. *)
Definition distinct_addrs (h : list aop) : nat := length (nodup N.eq_dec (map op_addr h)).
