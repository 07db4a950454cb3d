(** C24 and C25: the consensus library. *)
From Coq Require Import ZArith List Bool Arith Permutation Lia.
From Verif Require Import CBase RaftModel RaftSpec RaftProofs RaftProofs2 RaftProofs3.
Import ListNotations.
Local Open Scope Z_scope.

(** C24: whatever messages and timeouts a node gets, in any order and from any sender, its term never decreases... *)
Theorem raft_terms_grow is n n' tr : Forall permutes is -> node_run n is = OK (n', tr) -> term n <= term n'.
Proof. apply terms_grow. Qed.
(** ... and it never votes for two candidates in the same term. *)
Theorem raft_one_vote is n n' tr t a b : Forall permutes is -> node_run n is = OK (n', tr) ->
  In (t, a) (votes tr) -> In (t, b) (votes tr) -> a = b.
Proof. apply one_vote. Qed.

Definition ex_inputs : list input :=
  [IMsg 0 (fun l => l) (VoteRequest 3 2 0 0); IMsg 0 (fun l => l) (VoteRequest 3 3 0 0); IMsg 0 (fun l => l) (VoteRequest 3 2 0 0); IElect;
   IMsg 0 (fun l => l) (VoteRequest 4 2 5 5); IMsg 7 (fun l => l) (AppReq 9 2 0 0 0 []); IMsg 0 (fun l => l) (VoteRequest 9 3 0 0)].
Example ex_votes : match node_run (new_node 1 [2; 3]) ex_inputs with
  | OK (n, tr) => votes tr = [(3, 2); (3, 2); (4, 1); (4, 1)] /\ term n = 9 | BAD => False end.
Proof. vm_compute. auto. Qed.
Example ex_permutes : Forall permutes ex_inputs. Proof. repeat constructor; intro; apply Permutation_refl. Qed.

(** C25, election: with votes neither duplicated nor delivered after their election, two leaders of the same term are the same
    node, whenever they lead. (Full property, for a network that duplicates and delays votes: refuted below.) *)
Theorem raft_election_safety_partial N ms ms' s s' i j t : Forall sorts (ms ++ ms') -> always vote_safe (init N) (ms ++ ms') ->
  run (init N) ms = OK s -> run s ms' = OK s' -> leads s i t -> leads s' j t -> i = j.
Proof. apply election_safety. Qed.

(** No schedule (messages lost, duplicated, reordered) of fewer than 2^31 - 1 moves leads to undefined behaviour in the node code,
    when operations are given to leaders only and whatever order the peers are sorted in; every log is numbered 1, 2, 3... *)
Theorem raft_safe N ms : Z.of_nat (length ms) < 2 ^ 31 - 1 -> Forall sorts ms -> always leader_writes (init N) ms ->
  exists s, run (init N) ms = OK s /\ forall i n, nth_error (nodes s) i = Some n -> numbered (rlog_ n) /\ (length (rlog_ n) <= LOG_SIZE)%nat.
Proof.
  intros L F A. destruct (run_ok ms 0 (init N) ltac:(lia) ltac:(lia) (s_init N) F A) as (s & R & I). exists s. split; auto.
  intros i n E. destruct (s_node _ _ I _ _ E) as [[X Y _ _ _ _ _ _ _] _]. split; [now apply numbered_numb|exact Y].
Qed.

(** C25, commit: each move gives to the state machine of each node exactly the operations of its log between the old and
    the new commit index, in order. (That commit indices only grow, that logs agree: refuted below.) *)
Theorem raft_apply_partial N ms s m s' i n : Z.of_nat (length ms) < 2 ^ 31 - 2 -> Forall sorts (ms ++ [m]) -> always leader_writes (init N) (ms ++ [m]) ->
  run (init N) ms = OK s -> do_move s m = OK s' -> nth_error (nodes s) i = Some n ->
  exists n', nth_error (nodes s') i = Some n' /\ applied n' = applied n ++ ops_between (rlog_ n') (commit n) (commit n').
Proof.
  intros L F A R M E. apply Forall_app in F as [F Fm]. inversion Fm; subst.
  assert (AA : always leader_writes (init N) ms /\ leader_writes s m).
  { clear - A R. revert A R. generalize (init N) as c. induction ms as [|x l IH]; intros c A R; cbn in *; [inversion R; subst; tauto|].
    dob R. destruct A as [A1 A2]. rewrite E in *. destruct (IH _ A2 R). tauto. }
  destruct AA as [A1 A2]. destruct (run_ok ms 0 (init N) ltac:(lia) ltac:(lia) (s_init N) F A1) as (s0 & R0 & I). rewrite R in R0. inversion R0; subst s0.
  destruct (move_ok (0 + Z.of_nat (length ms)) s m) as (s1 & M1 & _ & X); auto; try lia. rewrite M in M1. inversion M1; subst s1. now apply X.
Qed.

(** A case: three nodes elect a leader, which replicates and commits an operation, all with a well behaved network. *)
Definition deliver (k : nat) : move := MDeliver k 0 (fun l => l).
Definition heart (i : nat) : list move := repeat (MTick i 0) 10.
Definition ex_moves : list move :=
  [MElect 0; deliver 0; deliver 1; MDup 5; deliver 0; MRepl 0 42] ++ heart 0 ++ repeat (deliver 0) 5 ++ heart 0 ++ repeat (deliver 0) 4.
Example ex_cluster : match run (init 3) ex_moves with
  | OK s => leads s 0 1 /\ map applied (nodes s) = [[42]; [42]; [42]] /\ map commit (nodes s) = [1; 1; 1] | BAD => False end.
Proof. vm_compute. split; [eexists; split; [reflexivity|auto]|auto]. Qed.
Ltac check_votes := vm_compute; repeat (split; [first [exact I
  | intros d x H; inversion H; subst; reflexivity
  | intros d t f n H H'; inversion H; subst; vm_compute in H'; inversion H'; subst; reflexivity]|]); exact I.
Ltac check_writes := vm_compute; repeat (split; [first [exact I|intros n H; inversion H; subst; reflexivity]|]); exact I.
Example ex_fine : Forall sorts ex_moves /\ always vote_safe (init 3) ex_moves /\ always leader_writes (init 3) ex_moves.
Proof. split; [repeat constructor; intro; apply Permutation_refl|]. split; [check_votes|check_writes]. Qed.

(** Refutations of C25. *)
(** A vote counted twice: two leaders in term 1 (five nodes, one vote duplicated). *)
Theorem raft_two_leaders_duplicate_refuted : exists s,
  run (init 5) [MElect 0; MElect 1; deliver 1; MDup 7; deliver 7; deliver 7; deliver 6; deliver 5; deliver 5; deliver 5] = OK s /\ leads s 0 1 /\ leads s 1 1.
Proof. eexists. split; [vm_compute; reflexivity|]. split; vm_compute; eauto. Qed.

(** A vote given in term 1 and counted in term 2: two leaders in term 2 (three nodes, no duplication). *)
Theorem raft_two_leaders_late_vote_refuted : exists s,
  run (init 3) [MElect 1; deliver 1; MElect 1; MElect 0; MElect 0; deliver 7; deliver 7; deliver 1] = OK s /\ leads s 0 2 /\ leads s 1 2.
Proof. eexists. split; [vm_compute; reflexivity|]. split; vm_compute; eauto. Qed.

(** With elections that are all correct and no duplication at all, the state machines still diverge: an entry of an old term that a
    follower holds at the place of one of the leader's is kept when its term is higher. *)
Definition diverge : list move :=
  [MElect 0; deliver 0; deliver 1; MElect 2; MElect 2; deliver 4; deliver 4; MRepl 0 10] ++ repeat (MDrop 0) 4 ++
  heart 2 ++ [deliver 0; MDrop 0; MDrop 0; MRepl 2 20; MElect 0; deliver 0; deliver 1; MDrop 0] ++
  heart 0 ++ [deliver 0; deliver 0; deliver 0; deliver 0; MRepl 0 30] ++ heart 0 ++
  [deliver 0; deliver 0; deliver 0; deliver 0] ++ heart 0 ++ [deliver 0; deliver 0].
Theorem raft_logs_diverge_refuted : always vote_safe (init 3) diverge /\ always leader_writes (init 3) diverge /\
  exists s, run (init 3) diverge = OK s /\ map applied (nodes s) = [[10; 30]; [10; 30]; [20; 30]].
Proof. split; [check_votes|]. split; [check_writes|]. eexists. split; vm_compute; reflexivity. Qed.

(** A duplicated or late answer moves the commit index back: the operation is applied again. *)
Definition reapply : list move :=
  [MElect 0; deliver 0; deliver 1; MDrop 0; MRepl 0 11] ++ heart 0 ++ [MDrop 1; deliver 0; MDup 0; deliver 0; MRepl 0 12] ++ heart 0 ++
  [MDrop 2; deliver 1; deliver 1; deliver 0] ++ heart 0 ++ [deliver 0; deliver 1].
Theorem raft_applied_twice_refuted : exists s n, run (init 3) reapply = OK s /\ nth_error (nodes s) 0 = Some n /\ applied n = [11; 12; 12].
Proof. do 2 eexists. split; [vm_compute; reflexivity|]. split; reflexivity. Qed.

(** The first matching index in the order left by qsort (here: unchanged) is taken for a majority: in a cluster of five, an operation
    that only the leader and one follower hold is committed. *)
Definition minority : list move :=
  [MElect 0; deliver 1; deliver 1; deliver 2; deliver 2; MRepl 0 7] ++ repeat (MDrop 0) 2 ++ heart 0 ++ [deliver 1; deliver 3].
Theorem raft_minority_commit_refuted : exists s,
  run (init 5) minority = OK s /\ map commit (nodes s) = [1; 0; 0; 0; 0] /\ map (fun n => length (rlog_ n)) (nodes s) = [1; 0; 1; 0; 0]%nat.
Proof. eexists. split; [vm_compute; reflexivity|]. vm_compute. auto. Qed.

Print Assumptions raft_terms_grow.
Print Assumptions raft_one_vote.
Print Assumptions raft_election_safety_partial.
Print Assumptions raft_safe.
Print Assumptions raft_apply_partial.
