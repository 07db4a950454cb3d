(** What a plan is. *)
From Coq Require Import ZArith List Bool Arith.
From Verif Require Import GoapModel.
Import ListNotations.
Local Open Scope Z_scope.

(** Runs the actions of a plan in order; [None] when one of them does not exist or cannot run. *)
Fixpoint runs {S} (P : problem S) (s : S) (l : list nat) : option S :=
  match l with
  | [] => Some s
  | a :: l => if (a <? action_count P)%nat && can_run P a s then runs P (effects P a s) l else None
  end.
Definition solves {S} (P : problem S) (s : S) (l : list nat) : Prop := exists s', runs P s l = Some s' /\ reached P s' = true.
(** operator== is equality; distances, and the pool of [N] nodes, are such that priorities fit in an int. *)
Definition well_formed {S} (P : problem S) (N : nat) (B : Z) : Prop :=
  (forall a b, eqb P a b = true <-> a = b) /\ (forall s, - B <= dist P s <= B) /\
  0 <= B /\ (Z.of_nat N + Z.of_nat (action_count P) + 1) * (B + 1) < 2 ^ 31 - 1.
(** [l] is the list of the nodes met by following the links from [p]. *)
Fixpoint is_list {S} (h : list (vnode S)) (p : option nat) (l : list nat) : Prop :=
  match l with
  | [] => p = None
  | x :: l => p = Some x /\ exists n, nth_error h x = Some n /\ is_list h (next n) l
  end.
(** Each of the nodes of the pool is in exactly one of the three lists. *)
Definition partition {S} (s : pstate S) : Prop := exists F O C,
  is_list (heap s) (free s) F /\ is_list (heap s) (open s) O /\ is_list (heap s) (close s) C /\
  NoDup (F ++ O ++ C) /\ forall i, In i (F ++ O ++ C) <-> (i < length (heap s))%nat.
(** The states of the planner when its loop starts a turn. *)
Inductive reachable {S} (P : problem S) (nodes : list (vnode S)) (s0 : S) (path : option (list (option nat))) (path_len : Z) : pstate S -> Prop :=
| reach_start p : start_plan nodes s0 = CRes.OK p -> reachable P nodes s0 path path_len p
| reach_turn p p' : reachable P nodes s0 path path_len p -> open p <> None -> turn P p path path_len = CRes.OK (Go p') -> reachable P nodes s0 path path_len p'.
