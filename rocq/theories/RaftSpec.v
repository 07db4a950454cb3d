(** Specification for raft.hpp. *)
From Coq Require Import ZArith List Bool Arith Permutation.
From Verif Require Import CBase RaftModel.
Import ListNotations.
Local Open Scope Z_scope.

(** The votes a node was seen to give, as (term, candidate): positive answers to vote requests, and its own
    requests for votes. *)
Definition votes (tr : list (input * list message)) : list (Z * Z) :=
  flat_map (fun '(i, out) =>
    match i, out with
    | IMsg _ _ (VoteRequest t c _ _), [VoteReply _ _ true] => [(t, c)]
    | IMsg _ _ _, _ => []
    | _, out => flat_map (fun m => match m with VoteRequest t c _ _ => [(t, c)] | _ => [] end) out
    end) tr.

(** Node [i] is the leader of term [t]. *)
Definition leads (s : cluster) (i : nat) (t : Z) : Prop :=
  exists n, nth_error (nodes s) i = Some n /\ state n = Leader /\ term n = t.

(** qsort leaves the same peers in some order. *)
Definition sorts (m : move) : Prop :=
  match m with MDeliver _ _ sort => forall l, Permutation (sort l) l | _ => True end.

(** A network that does not duplicate votes and does not deliver a vote after the election it was given for. *)
Definition is_vote (m : message) : bool := match m with VoteRequest _ _ _ _ | VoteReply _ _ _ => true | _ => false end.
Definition vote_safe (s : cluster) (m : move) : Prop :=
  match m with
  | MDup k => forall d x, nth_error (net s) k = Some (d, x) -> is_vote x = false
  | MDeliver k _ _ => forall d t f n, nth_error (net s) k = Some (d, VoteReply t f true) ->
      nth_error (nodes s) (node_of_id d) = Some n -> term n = t
  | _ => True
  end.
(** Operations are given to leaders only. *)
Definition leader_writes (s : cluster) (m : move) : Prop :=
  match m with MRepl i _ => forall n, nth_error (nodes s) i = Some n -> state n = Leader | _ => True end.

(** [P] holds of every move of a run. *)
Fixpoint always (P : cluster -> move -> Prop) (s : cluster) (ms : list move) : Prop :=
  match ms with
  | [] => True
  | m :: ms => P s m /\ match do_move s m with OK s' => always P s' ms | BAD => True end
  end.

(** The entries of a log are numbered 1, 2, 3, ... *)
Definition numbered (l : rlog) : Prop := forall k e, nth_error l k = Some e -> eidx e = Z.of_nat k + 1.
(** The operations with numbers after [a], up to [b]. *)
Definition ops_between (l : rlog) (a b : Z) : list Z := map eop (filter (fun e => (a <? eidx e) && (eidx e <=? b)) l).
