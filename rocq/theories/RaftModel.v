(** Model of lib/raft/raft.hpp: one node, and a cluster of nodes over an unreliable network. *)
From Coq Require Import ZArith List Bool Arith.
From Verif Require Import CBase.
Import ListNotations.
Local Open Scope Z_scope.

(** raft.hpp 9-14. *)
Definition HEARTBEAT_PERIOD : Z := 10.
Definition ELECTION_TIMEOUT_MAX : Z := 500.
Definition ELECTION_TIMEOUT_MIN : Z := 100.
Definition LOG_SIZE : nat := 10.

(** A computation that may hit undefined behaviour: reading a value never written, a log slot that holds no
    live entry, a peer that does not exist, or overflowing an int. *)
Inductive res (A : Type) := OK (a : A) | BAD.
Arguments OK {A}. Arguments BAD {A}.
Definition rbind {A B} (m : res A) (f : A -> res B) : res B := match m with OK a => f a | BAD => BAD end.
Notation "'try' x := m 'in' f" := (rbind m (fun x => f)) (at level 200, x pattern, right associativity).
Definition some {A} (o : option A) : res A := match o with Some a => OK a | None => BAD end.
(** int arithmetic that may overflow: raft.hpp 333, 342, 361, 393. *)
Definition int (x : Z) : res Z := if (- 2 ^ 31 <=? x) && (x <? 2 ^ 31) then OK x else BAD.

(** raft.hpp 20-31. Operations are numbers. *)
Inductive nstate := Follower | Candidate | Leader.
Record entry := mkentry { eop : Z; eterm : Z; eidx : Z }.
(** raft.hpp 33-36: the log, as its live entries (those below m_size). *)
Definition rlog := list entry.

(** raft.hpp 61-72. *)
Definition append (l : rlog) (e : entry) : rlog := if (length l <? LOG_SIZE)%nat then l ++ [e] else l.
(** raft.hpp 79-95. *)
Definition last_index (l : rlog) : Z := match rev l with e :: _ => eidx e | [] => 0 end.
Definition last_term (l : rlog) : Z := match rev l with e :: _ => eterm e | [] => 0 end.
(** raft.hpp 97-106. *)
Definition find_entry (l : rlog) (t i : Z) : bool := existsb (fun e => (eidx e =? i) && (eterm e =? t)) l.
(** raft.hpp 38-48 and 120-123: cuts the log before the first entry that conflicts with a new one. *)
Fixpoint remove_conflicting (l : rlog) (new : list entry) : rlog :=
  match l with
  | [] => []
  | e :: l => if existsb (fun n => (eidx n =? eidx e) && (eterm e <? eterm n)) new then [] else e :: remove_conflicting l new
  end.
(** raft.hpp 108-117. *)
Definition merge (l : rlog) (new : list entry) : rlog :=
  fold_left (fun l e => if last_index l <? eidx e then append l e else l) new (remove_conflicting l new).

(** raft.hpp 126-168. The entries array and its count are one list; the reply's fields that are not set are zero. *)
Inductive message :=
| VoteRequest (t from last_log_index last_log_term : Z)
| VoteReply (t from : Z) (granted : bool)
| AppReq (t from leader_commit prev_term prev_index : Z) (entries : list entry)
| AppReply (t from : Z) (success : bool) (last : Z).
Definition from_id (m : message) : Z :=
  match m with VoteRequest _ f _ _ | VoteReply _ f _ | AppReq _ f _ _ _ _ | AppReply _ f _ _ => f end.

(** raft.hpp 170-186. next_index is not set by the constructor. *)
Record peer := mkpeer { pid : Z; matchi : Z; nexti : option Z }.
(** raft.hpp 188-205. vote_count is not set by the constructor; [applied]: what the state machine was given. *)
Record node := mknode {
  id : Z; peers : list peer; term : Z; vote_count : option Z; voted_for : Z; state : nstate;
  heartbeat : Z; election : Z; rlog_ : rlog; commit : Z; applied : list Z }.
(** raft.hpp 207-223. *)
Definition new_node (i : Z) (ps : list Z) : node :=
  mknode i (map (fun p => mkpeer p 0 None) ps) 0 None 0 Follower 0 ELECTION_TIMEOUT_MAX [] 0 [].

Definition set_vote (n : node) (t : Z) (vc : option Z) (vf : Z) (st : nstate) : node :=
  mknode (id n) (peers n) t vc vf st (heartbeat n) (election n) (rlog_ n) (commit n) (applied n).
Definition set_peers (n : node) (ps : list peer) : node :=
  mknode (id n) ps (term n) (vote_count n) (voted_for n) (state n) (heartbeat n) (election n) (rlog_ n) (commit n) (applied n).
Definition set_timers (n : node) (h e : Z) : node :=
  mknode (id n) (peers n) (term n) (vote_count n) (voted_for n) (state n) h e (rlog_ n) (commit n) (applied n).
Definition set_log (n : node) (l : rlog) : node :=
  mknode (id n) (peers n) (term n) (vote_count n) (voted_for n) (state n) (heartbeat n) (election n) l (commit n) (applied n).
Definition set_commit (n : node) (c : Z) (ap : list Z) : node :=
  mknode (id n) (peers n) (term n) (vote_count n) (voted_for n) (state n) (heartbeat n) (election n) (rlog_ n) c ap.

(** raft.hpp 456-462. [rnd]: what std::rand returned. *)
Definition reset_election_timer (rnd : Z) (n : node) : node :=
  set_timers n (heartbeat n) (ELECTION_TIMEOUT_MIN + Z.rem rnd (ELECTION_TIMEOUT_MAX - ELECTION_TIMEOUT_MIN)).
(** raft.hpp 397-404. *)
Definition become_leader (n : node) : node :=
  set_vote (set_peers n (map (fun p => mkpeer (pid p) 0 (Some (last_index (rlog_ n)))) (peers n)))
           (term n) (vote_count n) (voted_for n) Leader.
(** raft.hpp 508: how many entries come before the first one that is not committed. *)
Fixpoint skip_committed (l : rlog) (c : Z) : nat :=
  match l with e :: l => if eidx e <=? c then S (skip_committed l c) else O | [] => O end.
(** raft.hpp 512-514: [k] more entries to apply, from position [i]. *)
Fixpoint apply_entries (k i : nat) (l : rlog) (ap : list Z) : res (list Z) :=
  match k with
  | O => OK ap
  | S k => try e := some (nth_error l i) in apply_entries k (S i) l (ap ++ [eop e])
  end.
(** raft.hpp 502-515. *)
Definition commit_log_entries (n : node) (old new : Z) : res node :=
  try ap := apply_entries (Z.to_nat (new - old)) (skip_committed (rlog_ n) old) (rlog_ n) (applied n) in
  OK (set_commit n (commit n) ap).
(** raft.hpp 464-500. The comparison function given to qsort takes the array elements (pointers to peers) for peers
    and so compares unrelated memory: [sort] stands for whatever order qsort leaves. *)
Definition find_safe_index (sort : list peer -> list peer) (n : node) : res (node * Z) :=
  let n := set_peers n (sort (peers n)) in
  try p := some (nth_error (peers n) (Nat.max (length (peers n) / 2) 1 - 1)) in
  let N := matchi p in
  OK (n, if existsb (fun e => (eidx e =? N) && (eterm e =? term n)) (rlog_ n) then N else commit n).
(** raft.hpp 330-335 and 340-344. *)
Fixpoint map_peers (f : peer -> res peer) (ps : list peer) : res (list peer) :=
  match ps with [] => OK [] | p :: ps => try p' := f p in try ps' := map_peers f ps in OK (p' :: ps') end.

(** raft.hpp 225-351. Returns the node and the reply, if there is one. *)
Definition process (rnd : Z) (sort : list peer -> list peer) (n : node) (m : message) : res (node * option message) :=
  match m with
  | VoteRequest t f lli llt =>
      let valid := (term n <? t) && (last_index (rlog_ n) <=? lli) && (last_term (rlog_ n) <=? llt) in
      let same := (t =? term n) && (f =? voted_for n) in
      if valid || same then OK (set_vote n t (vote_count n) f Follower, Some (VoteReply t (id n) true))
      else OK (n, Some (VoteReply t (id n) false))
  | VoteReply t f granted =>
      match state n with
      | Candidate =>
          if granted then
            try c := some (vote_count n) in
            let n := set_vote n (term n) (Some (c + 1)) (voted_for n) (state n) in
            OK (if Z.of_nat (length (peers n)) <=? 2 * (c + 1) then become_leader n else n, None)
          else if term n <? t then OK (reset_election_timer rnd (set_vote n t (vote_count n) 0 Follower), None)
          else OK (n, None)
      | _ => OK (n, None)
      end
  | AppReq t f lc pt pi es =>
      let n := reset_election_timer rnd n in
      let n := if term n <? t then set_vote n t (vote_count n) (voted_for n) Follower else n in
      if t <? term n then OK (n, Some (AppReply 0 (id n) false 0))
      else if (0 <? pi) && (0 <? pt) && negb (find_entry (rlog_ n) pt pi) then OK (n, Some (AppReply 0 (id n) false 0))
      else
        let n := set_log n (merge (rlog_ n) es) in
        try n := (if commit n <? lc then
                    let new := Z.min lc (last_index (rlog_ n)) in
                    try n := commit_log_entries n (commit n) new in OK (set_commit n new (applied n))
                  else OK n) in
        OK (n, Some (AppReply 0 (id n) true (last_index (rlog_ n))))
  | AppReply _ f true last =>
      try ps := map_peers (fun p => if pid p =? f then try x := int (last + 1) in OK (mkpeer (pid p) last (Some x)) else OK p) (peers n) in
      try (n, new) := find_safe_index sort (set_peers n ps) in
      try n := commit_log_entries n (commit n) new in
      OK (set_commit n new (applied n), None)
  | AppReply _ f false _ =>
      try ps := map_peers (fun p => if pid p =? f then try x := some (nexti p) in try x := int (x - 1) in OK (mkpeer (pid p) (matchi p) (Some x)) else OK p) (peers n) in
      OK (set_peers n ps, None)
  end.

(** raft.hpp 353-376. Messages to send come with the id of the peer. *)
Definition start_election (n : node) : res (node * list (Z * message)) :=
  match state n with
  | Leader => OK (n, [])
  | _ =>
      try t := int (term n + 1) in
      OK (set_vote n t (Some 0) (id n) Candidate,
          map (fun p => (pid p, VoteRequest t (id n) (last_index (rlog_ n)) (last_term (rlog_ n)))) (peers n))
  end.

(** raft.hpp 426-436: previous term, previous index and entries for a peer whose next index is [nx]. *)
Fixpoint to_send (l : rlog) (nx pt pi : Z) : Z * Z * list entry :=
  match l with
  | [] => (pt, pi, [])
  | e :: r => if nx <=? eidx e then (pt, pi, l) else to_send r nx (eterm e) (eidx e)
  end.
(** raft.hpp 413-439. *)
Fixpoint heartbeats (n : node) (ps : list peer) : res (list (Z * message)) :=
  match ps with
  | [] => OK []
  | p :: ps =>
      try nx := some (nexti p) in
      let '(pt, pi, es) := to_send (rlog_ n) nx 0 0 in
      try rest := heartbeats n ps in
      OK ((pid p, AppReq (term n) (id n) (commit n) pt pi es) :: rest)
  end.
(** raft.hpp 378-385 and 407-454. *)
Definition tick (rnd : Z) (n : node) : res (node * list (Z * message)) :=
  match state n with
  | Leader =>
      if 0 <? heartbeat n then OK (set_timers n (heartbeat n - 1) (election n), [])
      else try out := heartbeats n (peers n) in OK (set_timers n (HEARTBEAT_PERIOD - 1) (election n), out)
  | _ =>
      if 0 <? election n then OK (set_timers n (heartbeat n) (election n - 1), [])
      else try (n, out) := start_election n in OK (reset_election_timer rnd n, out)
  end.
(** raft.hpp 387-395. *)
Definition replicate (n : node) (op : Z) : res node :=
  try i := int (last_index (rlog_ n) + 1) in
  OK (set_log n (append (rlog_ n) (mkentry op (term n) i))).

(** Observations of a run: a node asks for votes in a term (and votes for itself), grants its vote, gets a vote,
    becomes leader, gives an operation to its state machine. *)
Inductive event :=
| EElect (i t : Z)
| EGrant (i t c : Z)
| ECount (i t from : Z)
| ELeader (i t : Z).

(** A cluster: the nodes (node number [i] has id [i]+1), the messages in flight with their destination, what was observed. *)
Record cluster := mkcluster { nodes : list node; net : list (Z * message); log : list event }.

(** The environment: timers, elections asked for, operations to replicate, and a network that delivers in any order,
    duplicates and drops. The reply goes to the sender (demos/leader_election.cpp 66-82). *)
Inductive move :=
| MTick (i : nat) (rnd : Z)
| MElect (i : nat)
| MRepl (i : nat) (op : Z)
| MDeliver (k : nat) (rnd : Z) (sort : list peer -> list peer)
| MDup (k : nat)
| MDrop (k : nat).

Fixpoint upd {A} (l : list A) (i : nat) (x : A) : list A :=
  match l, i with [], _ => [] | _ :: l, O => x :: l | y :: l, S i => y :: upd l i x end.
Fixpoint remove_at {A} (l : list A) (k : nat) : list A :=
  match l, k with [], _ => [] | _ :: l, O => l | x :: l, S k => x :: remove_at l k end.
Definition node_of_id (i : Z) : nat := Z.to_nat (i - 1).

Definition is_leader (n : node) : bool := match state n with Leader => true | _ => false end.
Definition is_candidate (n : node) : bool := match state n with Candidate => true | _ => false end.
(** What a node asks for in [out] and what changed from [n] to [n']. *)
Definition elect_events (n n' : node) : list event :=
  if is_candidate n' && (term n <? term n') then [EElect (id n') (term n')] else [].
Definition deliver_events (n n' : node) (m : message) (r : option message) : list event :=
  match m, r with
  | VoteRequest t f _ _, Some (VoteReply _ _ true) => [EGrant (id n) t f]
  | VoteReply _ f true, _ => if is_candidate n then [ECount (id n) (term n) f] else []
  | _, _ => []
  end ++ (if is_leader n' && negb (is_leader n) then [ELeader (id n') (term n')] else []).

Definition do_move (s : cluster) (m : move) : res cluster :=
  match m with
  | MTick i rnd =>
      match nth_error (nodes s) i with
      | None => OK s
      | Some n => try (n', out) := tick rnd n in OK (mkcluster (upd (nodes s) i n') (net s ++ out) (log s ++ elect_events n n'))
      end
  | MElect i =>
      match nth_error (nodes s) i with
      | None => OK s
      | Some n => try (n', out) := start_election n in OK (mkcluster (upd (nodes s) i n') (net s ++ out) (log s ++ elect_events n n'))
      end
  | MRepl i op =>
      match nth_error (nodes s) i with
      | None => OK s
      | Some n => try n' := replicate n op in OK (mkcluster (upd (nodes s) i n') (net s) (log s))
      end
  | MDeliver k rnd sort =>
      match nth_error (net s) k with
      | None => OK s
      | Some (d, m) =>
          match nth_error (nodes s) (node_of_id d) with
          | None => OK (mkcluster (nodes s) (remove_at (net s) k) (log s))
          | Some n =>
              try (n', r) := process rnd sort n m in
              OK (mkcluster (upd (nodes s) (node_of_id d) n')
                    (remove_at (net s) k ++ match r with Some r => [(from_id m, r)] | None => [] end)
                    (log s ++ deliver_events n n' m r))
          end
      end
  | MDup k => OK (mkcluster (nodes s) (net s ++ match nth_error (net s) k with Some x => [x] | None => [] end) (log s))
  | MDrop k => OK (mkcluster (nodes s) (remove_at (net s) k) (log s))
  end.
Fixpoint run (s : cluster) (ms : list move) : res cluster :=
  match ms with [] => OK s | m :: ms => try s' := do_move s m in run s' ms end.

(** [n] nodes with ids 1 to [n], each one knowing all the others. *)
Definition ids (n : nat) : list Z := map Z.of_nat (seq 1 n).
Definition init (n : nat) : cluster :=
  mkcluster (map (fun i => new_node i (filter (fun j => negb (j =? i)) (ids n))) (ids n)) [] [].

(** One node alone: what can happen to it, from any sender, and what it answers or sends. *)
Inductive input := ITick (rnd : Z) | IElect | IRepl (op : Z) | IMsg (rnd : Z) (sort : list peer -> list peer) (m : message).
Definition node_step (n : node) (i : input) : res (node * list message) :=
  match i with
  | ITick rnd => try (n, out) := tick rnd n in OK (n, map snd out)
  | IElect => try (n, out) := start_election n in OK (n, map snd out)
  | IRepl op => try n := replicate n op in OK (n, [])
  | IMsg rnd sort m => try (n, r) := process rnd sort n m in OK (n, match r with Some r => [r] | None => [] end)
  end.
Fixpoint node_run (n : node) (is : list input) : res (node * list (input * list message)) :=
  match is with
  | [] => OK (n, [])
  | i :: is => try (n', out) := node_step n i in try (n'', tr) := node_run n' is in OK (n'', (i, out) :: tr)
  end.
