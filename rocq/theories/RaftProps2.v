(** raft.hpp: elections and heartbeats in time, what a leader sends and commits (C81). *)
From Coq Require Import ZArith List Bool Arith Permutation Lia ZifyBool.
From Verif Require Import CBase RaftModel RaftSpec RaftProofs RaftTimeSpec RaftProofs4.
Import ListNotations.
Local Open Scope Z_scope.

(** After a message of a leader a node lets at least 100 ticks pass before it asks for votes, whatever else it receives. *)
Theorem raft_patience : forall rnd sort n t f lc pt pi es n1 r is n2 tr, 0 <= rnd ->
  process rnd sort n (AppReq t f lc pt pi es) = OK (n1, r) -> Forall rand_ok is -> Forall not_asked is -> (ticks is <= 100)%nat ->
  node_run n1 is = OK (n2, tr) -> forall i out m, In (i, out) tr -> In m out -> ~ asks_votes m.
Proof.
  intros rnd sort n t f lc pt pi es n1 r is n2 tr R H RO NA T RUN. pose proof (after_append _ _ _ _ _ _ _ _ _ _ _ R H) as E.
  eapply (patience_run is 100); eauto; lia.
Qed.
Print Assumptions raft_patience.

(** A node which is not the leader, and hears neither a leader nor votes, asks all its peers for their votes within 501 ticks, as a
    candidate of the next term which has voted for itself. *)
Theorem raft_timeout : forall i ps is n tr is' n' tr', node_run (new_node i ps) is = OK (n, tr) -> Forall rand_ok is ->
  state n <> Leader -> Forall unheard is' -> (501 <= ticks is')%nat -> node_run n is' = OK (n', tr') ->
  exists a rnd b na tra nb, is' = a ++ ITick rnd :: b /\ (ticks a <= 500)%nat /\ node_run n a = OK (na, tra) /\
    node_step na (ITick rnd) = OK (nb, map (fun _ => VoteRequest (term na + 1) (id na) (last_index (rlog_ na)) (last_term (rlog_ na))) (peers na)) /\
    state nb = Candidate /\ term nb = term na + 1 /\ voted_for nb = id na.
Proof.
  intros i ps is n tr is' n' tr' H R S U T H'. pose proof (timer_bounds _ _ _ _ R H) as B. cbn in B. unfold ELECTION_TIMEOUT_MAX in B.
  destruct (timeout_run _ _ _ _ H' S U) as (a & rnd & b & na & tra & nb & out & E & TA & RA & (B1 & B2 & B3 & B4 & ->)); [lia|].
  exists a, rnd, b, na, tra, nb. repeat split; auto. lia.
Qed.
Print Assumptions raft_timeout.

(** A leader writes to each of its peers once, at every tenth tick of its leadership and at no other: the part of its log which the
    peer has to receive, with the number and the term of the entry before it. *)
Theorem raft_heartbeat : forall i ps is n tr rnd n' out, Forall keeps_peers is -> node_run (new_node i ps) is = OK (n, tr) -> state n = Leader ->
  tick rnd n = OK (n', out) ->
  if (leader_ticks (new_node i ps) is mod 10 =? 0)%nat then
    Permutation (map fst out) ps /\
    forall p m, In (p, m) out -> exists before es,
      rlog_ n = before ++ es /\ m = AppReq (term n) i (commit n) (last_term before) (last_index before) es /\
      let next := fst (known p (new_node i ps) is (0, 0)) in
      (forall e, In e before -> eidx e < next) /\ (match es with e :: _ => next <= eidx e | [] => True end)
  else out = [].
Proof.
  intros i ps is n tr rnd n' out P H S T. pose proof (heartbeat_run is (new_node i ps) n tr 0 H eq_refl) as HB. cbn [Nat.add] in HB.
  destruct (ids_run is _ _ _ P H) as [ID PP]. cbn [new_node id] in ID. cbn [new_node peers] in PP. rewrite map_map, map_id in PP.
  pose proof (knows_run is _ _ _ _ P H (knows_new i ps)) as K. unfold tick in T. rewrite S in T.
  set (k := leader_ticks _ _) in *. clearbody k.
  assert (M : (- Z.of_nat k) mod 10 = 0 <-> (k mod 10 = 0)%nat).
  { pose proof (Nat.div_mod k 10 ltac:(lia)) as DM. pose proof (Nat.mod_upper_bound k 10 ltac:(lia)). pose proof (Z.div_mod (- Z.of_nat k) 10 ltac:(lia)).
    pose proof (Z.mod_pos_bound (- Z.of_nat k) 10 ltac:(lia)). split; intro; lia. }
  destruct (k mod 10 =? 0)%nat eqn:Q.
  - replace (0 <? heartbeat n) with false in T by lia. dob T. inversion T; subst. clear T.
    destruct (heartbeats_l n _ K (peers n) out (incl_refl _) E) as [A B]. split; [rewrite A; exact PP|].
    intros p m Hm. destruct (B p m Hm) as (pre & es & B1 & B2 & B3 & B4). exists pre, es. split; [exact B1|]. split; [rewrite B4; reflexivity|]. split; assumption.
  - assert (0 <= (- Z.of_nat k) mod 10) by (apply Z.mod_pos_bound; lia). replace (0 <? heartbeat n) with true in T by lia. now inversion T.
Qed.
Print Assumptions raft_heartbeat.

(** A leader moves its commit index only to an entry of its log and of its term which a peer has confirmed since the node became
    leader. (That more than one peer has, is false: raft_minority_commit_refuted.) *)
Theorem raft_commit_confirmed_partial : forall i ps is n tr rnd sort t f b last n' r, Forall keeps_peers is -> (forall l, Permutation (sort l) l) ->
  node_run (new_node i ps) is = OK (n, tr) -> process rnd sort n (AppReply t f b last) = OK (n', r) ->
  commit n' = commit n \/
  b = true /\ exists p e, In p ps /\ snd (known p (new_node i ps) (is ++ [IMsg rnd sort (AppReply t f b last)]) (0, 0)) = commit n' /\
    In e (rlog_ n) /\ eidx e = commit n' /\ eterm e = term n.
Proof.
  intros i ps is n tr rnd sort t f b last n' r P PS H M. pose proof (knows_run is _ _ _ _ P H (knows_new i ps)) as K.
  destruct (commit_l _ _ _ _ _ _ _ _ _ _ PS K M) as [C|(-> & p & e & IP & L & IE & X)]; [now left|]. right. split; [reflexivity|]. exists p, e.
  destruct (ids_run is _ _ _ P H) as [_ PP]. cbn [new_node peers] in PP. rewrite map_map, map_id in PP.
  split; [now apply (Permutation_in _ PP)|]. split; [|auto]. rewrite <- L.
  assert (G : forall is n0 v tr, node_run n0 is = OK (n, tr) -> known p n0 (is ++ [IMsg rnd sort (AppReply t f true last)]) v = learn p n (IMsg rnd sort (AppReply t f true last)) n' (known p n0 is v)).
  { clear - M. induction is as [|j is IH]; intros n0 v tr H; cbn [node_run app] in H.
    - injection H as -> _. cbn [app known node_step]. rewrite M. reflexivity.
    - dob H. destruct x as [n1 o]. dob H. destruct x as [n2 tr2]. inversion H; subst. cbn [app known]. rewrite E. eapply IH; eauto. }
  now rewrite (G _ _ _ _ H).
Qed.
Print Assumptions raft_commit_confirmed_partial.
(** What is known to be confirmed was confirmed by that peer. *)
Theorem raft_confirmed : forall p is n v, snd (known p n is v) = 0 \/ snd (known p n is v) = snd v \/
  exists rnd sort t, In (IMsg rnd sort (AppReply t p true (snd (known p n is v)))) is.
Proof.
  intros p is. induction is as [|i is IH]; intros n v; cbn [known]; [auto|]. destruct (node_step n i) as [[n' o]|]; [|auto].
  destruct (IH n' (learn p n i n' v)) as [H|[H|(rnd & sort & t & H)]]; [now left| |right; right; exists rnd, sort, t; now right].
  rewrite H. unfold learn. destruct (_ && _); [now left|]. destruct i as [| | |rnd sort [| | |t f [|] l]]; auto.
  - destruct (f =? p) eqn:E; [|auto]. right; right. exists rnd, sort, t. left. cbn. f_equal. f_equal. lia.
  - destruct (f =? p); auto.
Qed.
Print Assumptions raft_confirmed.

(** A follower obeys the leader of its own term only, or so one hopes: messages of a leader of an older term, which it rejects, keep it
    from starting an election for ever. *)
Theorem raft_stale_leader_refuted : forall k n t f lc pt pi es, state n <> Leader -> t < term n ->
  exists n' tr, node_run n (concat (repeat (IMsg 0 (fun l => l) (AppReq t f lc pt pi es) :: repeat (ITick 0) 100) k)) = OK (n', tr) /\
    state n' = state n /\ term n' = term n /\ forall i out m, In (i, out) tr -> In m out -> m = AppReply 0 (id n) false 0.
Proof.
  intros k n t f lc pt pi es S T.
  assert (AP : forall a n0 n1 tr0 b, node_run n0 a = OK (n1, tr0) -> node_run n0 (a ++ b) = match node_run n1 b with OK (x, y) => OK (x, tr0 ++ y) | BAD => BAD end).
  { clear. induction a as [|i a IH]; intros n0 n1 tr0 b H; cbn [node_run app] in *.
    - inversion H; subst. destruct (node_run n1 b) as [[x y]|]; reflexivity.
    - dob H. destruct x as [n2 o]. dob H. destruct x as [n3 tr3]. inversion H; subst. rewrite E. cbn [rbind]. rewrite (IH _ _ _ b E0).
      destruct (node_run n1 b) as [[x y]|]; reflexivity. }
  assert (ST : forall h e, node_step (set_timers n h e) (IMsg 0 (fun l => l) (AppReq t f lc pt pi es)) = OK (set_timers n h 100, [AppReply 0 (id n) false 0])).
  { intros h e. cbn [node_step process]. cbn [reset_election_timer set_timers heartbeat term].
    replace (term n <? t) with false by lia. replace (t <? term _) with true by (cbn; lia). reflexivity. }
  pose proof (fun h => quiet_ticks n h S 100) as QT. change (Z.of_nat 100) with 100 in QT.
  assert (TR : forall i out, In (i, out) (repeat (ITick 0, @nil message) 100) -> out = []) by (intros i out H; apply repeat_spec in H; congruence).
  revert QT TR. generalize (repeat (ITick 0) 100) as blk. generalize (repeat (ITick 0, @nil message) 100) as btr. intros btr blk QT TR.
  assert (G : forall h e, exists e' tr, node_run (set_timers n h e) (concat (repeat (IMsg 0 (fun l => l) (AppReq t f lc pt pi es) :: blk) k)) = OK (set_timers n h e', tr) /\
    forall i out m, In (i, out) tr -> In m out -> m = AppReply 0 (id n) false 0).
  { induction k as [|k IH]; intros h e; [exists e, []; split; [reflexivity|contradiction]|].
    destruct (IH h 0) as (e' & tr & R & Q). exists e', ((IMsg 0 (fun l => l) (AppReq t f lc pt pi es), [AppReply 0 (id n) false 0]) :: btr ++ tr). split.
    - cbn [repeat concat app node_run]. rewrite ST. cbn [rbind]. rewrite (AP _ _ _ _ _ (QT h)), R. reflexivity.
    - intros i out m [[= <- <-]|H] Hm; [destruct Hm as [<-|[]]; reflexivity|]. apply in_app_iff in H as [H|H]; [|eapply Q; eauto].
      rewrite (TR _ _ H) in Hm. destruct Hm. }
  destruct (G (heartbeat n) (election n)) as (e' & tr & R & Q). exists (set_timers n (heartbeat n) e'), tr. destruct n. cbn in *. auto.
Qed.
Print Assumptions raft_stale_leader_refuted.

(** A node becomes a leader, replicates, and its follower answers. *)
Definition ex_lead : list input :=
  repeat (ITick 0) 501 ++ [IMsg 0 (fun l => l) (VoteReply 1 2 true); IRepl 7; ITick 0; IMsg 0 (fun l => l) (AppReply 0 2 true 1)].
Example raft_time_example :
  match node_run (new_node 1 [2; 3]) ex_lead with
  | OK (n, _) => state n = Leader /\ term n = 1 /\ leader_ticks (new_node 1 [2; 3]) ex_lead = 1%nat /\
      known 2 (new_node 1 [2; 3]) ex_lead (0, 0) = (2, 1) /\ known 3 (new_node 1 [2; 3]) ex_lead (0, 0) = (0, 0) /\ commit n = 1 /\
      match node_run n (repeat (ITick 0) 9) with
      | OK (n, tr) => flat_map snd tr = [] /\ match tick 0 n with OK (_, out) => map fst out = [2; 3] | BAD => False end
      | BAD => False
      end
  | BAD => False
  end.
Proof. vm_compute. auto 10. Qed.
Example raft_time_hyps : Forall keeps_peers ex_lead /\ Forall rand_ok ex_lead.
Proof. split; apply Forall_forall; intros i H; apply in_app_iff in H as [H|H]; try (apply repeat_spec in H; subst; cbn; auto; lia);
  destruct H as [<-|[<-|[<-|[<-|[]]]]]; cbn; auto; lia. Qed.
