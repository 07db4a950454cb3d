(** Specification of the timing of raft.hpp and of what a leader knows of its peers, from the history of a node. *)
From Coq Require Import ZArith List Bool Arith Permutation.
From Verif Require Import CBase RaftModel.
Import ListNotations.
Local Open Scope Z_scope.

(** std::rand returns a number which is not negative. *)
Definition rand_ok (i : input) : Prop := match i with ITick r | IMsg r _ _ => 0 <= r | _ => True end.
(** qsort leaves the same peers in some order. *)
Definition keeps_peers (i : input) : Prop := match i with IMsg _ sort _ => forall l, Permutation (sort l) l | _ => True end.
Definition is_tick (i : input) : bool := match i with ITick _ => true | _ => false end.
Definition ticks (is : list input) : nat := length (filter is_tick is).
(** Nobody asks this node to start an election. *)
Definition not_asked (i : input) : Prop := i <> IElect.
(** No message of a leader and no vote arrives. *)
Definition unheard (i : input) : Prop :=
  match i with IMsg _ _ (AppReq _ _ _ _ _ _) | IMsg _ _ (VoteReply _ _ _) => False | _ => True end.
Definition asks_votes (m : message) : Prop := match m with VoteRequest _ _ _ _ => True | _ => False end.

(** How many ticks the node has seen as a leader. *)
Fixpoint leader_ticks (n : node) (is : list input) : nat :=
  match is with
  | [] => 0
  | i :: is => (if is_tick i && is_leader n then 1 else 0) +
               match node_step n i with OK (n', _) => leader_ticks n' is | BAD => 0 end
  end.

(** What the node knows of peer [p]: the number of the next entry to send, and of the last one it has confirmed. A new leader
    starts from the end of its log, with nothing confirmed; a positive answer confirms, a negative one goes back by one. *)
Definition learn (p : Z) (n : node) (i : input) (n' : node) (v : Z * Z) : Z * Z :=
  if is_leader n' && negb (is_leader n) then (last_index (rlog_ n'), 0)
  else match i with
       | IMsg _ _ (AppReply _ f true last) => if f =? p then (last + 1, last) else v
       | IMsg _ _ (AppReply _ f false _) => if f =? p then (fst v - 1, snd v) else v
       | _ => v
       end.
Fixpoint known (p : Z) (n : node) (is : list input) (v : Z * Z) : Z * Z :=
  match is with
  | [] => v
  | i :: is => match node_step n i with OK (n', _) => known p n' is (learn p n i n' v) | BAD => v end
  end.
