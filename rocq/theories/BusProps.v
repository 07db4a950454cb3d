(** C23: the message bus. *)
From Coq Require Import ZArith List Bool Arith Lia.
From Verif Require Import CBase BusModel BusSpec BusProofs BusProofs2.
Import ListNotations.
Local Open Scope Z_scope.

Section Props.
(** Any number of threads, topics and groups, any legal calls, any schedule. *)
Variables (n : nat) (buffers : list (list Z)) (ngroups : nat) (ms : list move).
Hypothesis Legal : legal buffers ngroups ms.

(** No schedule of legal calls leads to an access out of bounds or to an endless walk over the topics. *)
Theorem bus_safe : exists s, run (init n buffers ngroups) ms = Next s.
Proof. destruct (run_inv buffers ngroups n ms Legal) as (s & R & _). eauto. Qed.

Variable (s : sys).
Hypothesis Run : run (init n buffers ngroups) ms = Next s.

Lemma bus_inv : BusProofs.Inv buffers ngroups (fun t => count_occ Nat.eq_dec (advs ms) t) s.
Proof. destruct (run_inv buffers ngroups n ms Legal) as (s' & R & I). congruence. Qed.
Lemma bus_bud : forall t, (count_occ Nat.eq_dec (advs ms) t <= 1)%nat.
Proof. apply NoDup_count_occ. apply Legal. Qed.

(** Everything that is observed fits the history before it. *)
Theorem bus_events a e b : log s = a ++ e :: b -> event_ok buffers a e.
Proof. apply (v_log _ _ _ _ bus_inv). Qed.

(** A read gives what was last published, or fails when nothing was published. *)
Theorem bus_read a i t len res b : log s = a ++ ERead i t len res :: b ->
  (pubs a t = [] -> res = None) /\
  (forall older m, pubs a t = older ++ [m] -> exists out, res = Some out /\ (length out = len)%nat /\
     firstn (length m) out = firstn len m).
Proof.
  intro E. destruct (bus_events _ _ _ E) as [(c & S) R]. split; [intro P; now rewrite P in R|].
  intros older m P. rewrite P in R. exists (firstn len (contents buffers a t)). split; [rewrite R; destruct older; reflexivity|].
  assert (EP : event_ok buffers a (ERead i t len res)) by exact (bus_events _ _ _ E).
  assert (C : contents buffers a t = overlay (fold_left overlay older (nth t buffers [])) m) by (unfold contents; rewrite P, fold_left_app; reflexivity).
  assert (LS : forall ps l, (forall m, In m ps -> length m <= length l)%nat -> length (fold_left overlay ps l) = length l).
  { clear. induction ps as [|p ps IH]; intros l H; [reflexivity|]. cbn. rewrite IH; [apply overlay_length, H; now left|].
    intros m M. rewrite overlay_length by (apply H; now left). apply H. now right. }
  assert (PL : forall m, In m (pubs a t) -> (length m <= length (nth t buffers []))%nat).
  { intros m0 M. unfold pubs in M. apply in_flat_map in M as (e & IE & M). destruct e; try contradiction M. destruct (Nat.eqb_spec t0 t); [|contradiction M].
    destruct M as [->|[]]. subst t0. apply in_split in IE as (a1 & a2 & IE). subst a. rewrite <- app_assoc in E. cbn in E.
    apply (bus_events _ _ _ E). }
  assert (LO : legal_op buffers ngroups (ORead t len)).
  { assert (IC : In (ECall i (ORead t len)) (log s)).
    { destruct S as (a0 & -> & _). rewrite E. apply in_app_iff. left. apply in_app_iff. right. now left. }
    clear - IC Legal Run. revert s Run IC. destruct Legal as [F _]. clear Legal. induction ms as [|m l IH] using rev_ind; intros s R IC.
    - inversion R; subst. destruct IC.
    - apply Forall_app in F as [F Fm]. inversion Fm; subst. unfold run in R. rewrite fold_left_app in R. cbn in R. fold (run (init n buffers ngroups) l) in R.
      destruct (run (init n buffers ngroups) l) as [s0| |] eqn:R0; try discriminate.
      assert (IC' : In (ECall i (ORead t len)) (log s0) \/ m = Call i (ORead t len)).
      { clear - R IC. destruct m as [j|j o]; cbn in R.
        - left. unfold step in R. destruct (nth_error (thr s0) j) as [p|]; [|inversion R; subst; auto].
          destruct p; unfold acquire in R; repeat match type of R with
            | context [match ?x with _ => _ end] => destruct x; try discriminate R end; inversion R; subst; cbn in IC;
            try (apply in_app_iff in IC as [IC|[IC|[]]]; [|discriminate IC]); exact IC.
        - unfold call in R. destruct (nth_error (thr s0) j) as [p|]; [|inversion R; subst; auto].
          destruct p; try (inversion R; subst; now left).
          destruct o; repeat match type of R with context [match ?x with _ => _ end] => destruct x; try discriminate R end; inversion R; subst; cbn in IC;
            repeat (apply in_app_iff in IC as [IC|[IC|[]]]); try discriminate IC; try (now left); try (inversion IC; subst; now right). }
      destruct IC' as [IC'| ->]; [now apply (IH F s0)|auto]. }
  cbn in LO. rewrite firstn_length, C.
  rewrite P in PL. assert (PM : (length m <= length (nth t buffers []))%nat) by (apply PL, in_app_iff; right; now left).
  assert (LF : length (fold_left overlay older (nth t buffers [])) = length (nth t buffers [])) by (apply LS; intros x X; apply PL, in_app_iff; now left).
  split; [rewrite overlay_length; lia|]. rewrite firstn_firstn. unfold overlay. rewrite firstn_app.
  destruct (Nat.le_ge_cases (length m) len).
  - rewrite Nat.min_l by lia. rewrite Nat.sub_diag. cbn. rewrite app_nil_r, !firstn_all2; auto; lia.
  - rewrite Nat.min_r by lia. replace (len - length m)%nat with 0%nat by lia. cbn. now rewrite app_nil_r.
Qed.

(** When all messages of a topic have the size of its buffer, a read of that size gives exactly the last one. *)
Theorem bus_read_last a i t len out b m older : log s = a ++ ERead i t len (Some out) :: b ->
  pubs a t = older ++ [m] -> length m = len -> out = m.
Proof.
  intros E P L. destruct (bus_read _ _ _ _ _ _ E) as [_ H]. destruct (H _ _ P) as (o & O & LO & FO). inversion O; subst o.
  rewrite L in FO. rewrite <- LO in FO at 1. rewrite firstn_all in FO. rewrite <- L in FO at 1. now rewrite firstn_all in FO.
Qed.

(** A waiting reader returns only after a publication made during its wait, with the newest contents. *)
Theorem bus_wait a i t len out b : log s = a ++ EWait i t len out :: b ->
  out = firstn len (contents buffers a t) /\ exists c j m, since_call a i (OWait t len) c /\ In (EPub j t m) c.
Proof.
  intro E. destruct (bus_events _ _ _ E) as [(c & S & P) O]. split; [exact O|]. exists c.
  unfold pubs in P. destruct (flat_map _ c) as [|m l] eqn:F; [contradiction P; reflexivity|].
  assert (IM : In m (pubs c t)) by (unfold pubs; rewrite F; now left). unfold pubs in IM. apply in_flat_map in IM as (e & IE & M).
  destruct e; try contradiction M. destruct (Nat.eqb_spec t0 t); [|contradiction M]. subst. exists i0, msg. auto.
Qed.

(** A publish that is too large is refused; then no publication is recorded for the call. A publish that fits is never refused. *)
Theorem bus_refused a i t b : log s = a ++ ERefused i t :: b ->
  exists msg, since_call a i (OPublish t msg) [] /\ (length (nth t buffers []) < length msg)%nat.
Proof. apply bus_events. Qed.
Theorem bus_published a i t m b : log s = a ++ EPub i t m :: b ->
  (exists c, since_call a i (OPublish t m) c) /\ (length m <= length (nth t buffers []))%nat.
Proof. apply bus_events. Qed.

(** When a publish returns, every group watching the topic before the publication has been notified of it. *)
Theorem bus_notified a i t b : log s = a ++ EPubDone i t :: b ->
  exists msg h c1 c2, published_by a i t msg h c1 c2 /\ forall g, In (EWatch g t) (h ++ c1) -> In (ENotify g t) c2.
Proof. apply bus_events. Qed.

(** A group wait returns after a notification made during the wait, and tells the topic of the newest one. *)
Theorem bus_group a i g res b : log s = a ++ EGroup i g res :: b ->
  (exists c t, since_call a i (OGroupWait g) c /\ In (ENotify g t) c) /\ res = last_notified a g.
Proof. intro E. destruct (bus_events _ _ _ E) as [(c & S & t & N) R]. eauto. Qed.

(** Looking up a name gives the topic last advertised under it. *)
Theorem bus_find a i name res b : log s = a ++ EFind i name res :: b -> res = lookup a name.
Proof. intro E. apply (bus_events _ _ _ E). Qed.
Theorem bus_find_blocking a i name res b c : log s = a ++ EFind i name res :: b -> since_call a i (OFindBlocking name) c -> res <> None.
Proof.
  intros E S. destruct (bus_events _ _ _ E) as [_ [(c' & S')|[H _]]]; [|exact H]. exfalso.
  destruct S as (x & Hx & Nx), S' as (y & Hy & Ny). rewrite Hx in Hy. clear - Hy Nx Ny.
  assert (G : forall (x y c d : list event) p q, x ++ p :: c = y ++ q :: d -> p = q \/ In q c \/ In p d).
  { clear. induction x as [|u x IH]; intros [|v y] c d p q H; cbn in H.
    - left. now inversion H.
    - right. left. inversion H. apply in_app_iff. right. now left.
    - right. right. inversion H. apply in_app_iff. right. now left.
    - inversion H. eapply IH; eauto. }
  destruct (G _ _ _ _ _ _ Hy) as [H|[H|H]]; [discriminate|now apply Nx in H|now apply Ny in H].
Qed.

(** When an advertise returns, every callback registered before has been called for the topic. *)
Theorem bus_callbacks a i t b : log s = a ++ EAdvDone i t :: b ->
  exists name h c1 c2, advertised_by a i t name h c1 c2 /\ forall c, In (EReg c) (h ++ c1) -> In (ECallback c t) c2.
Proof. apply bus_events. Qed.

(** The statistics count the publications (in 32 bits). *)
Theorem bus_stats a i t k b : log s = a ++ EStats i t k :: b -> k = s32 (Z.of_nat (length (pubs a t))).
Proof. intro E. apply (bus_events _ _ _ E). Qed.

(** No wake-up is lost: a thread that is still blocked has had nothing to be woken up for since it blocked. *)
Theorem bus_wait_not_lost i t len : nth_error (thr s) i = Some (WaitBlk t len) ->
  exists a b, log s = a ++ EBlock i :: b /\ forall j m, ~ In (EPub j t m) b.
Proof.
  intro N. destruct (v_T _ _ _ _ bus_inv _ _ N) as (_ & a & b & E & H). exists a, b. split; [exact E|].
  intros j m I. apply (H _ I). unfold is_pub. eauto.
Qed.
Theorem bus_group_not_lost i g : nth_error (thr s) i = Some (GwBlk g) ->
  exists a b, log s = a ++ EBlock i :: b /\ forall t, ~ In (ENotify g t) b.
Proof.
  intro N. destruct (v_T _ _ _ _ bus_inv _ _ N) as (_ & a & b & E & H). exists a, b. split; [exact E|].
  intros t I. apply (H _ I). unfold is_note. eauto.
Qed.
Theorem bus_find_not_lost i name t : nth_error (thr s) i = Some (FindBlk name) -> lookup (log s) name = Some t ->
  exists j u cs, nth_error (thr s) j = Some (AdvCb u cs).
Proof. intros N L. destruct (v_find _ _ _ _ bus_inv _ _ N) as [F|F]; [congruence|exact F]. Qed.

(** No deadlock: while a thread is in a call and not waiting for an event, some such thread can do a step. *)
Theorem bus_no_deadlock i p : nth_error (thr s) i = Some p -> busy p ->
  exists j q s', nth_error (thr s) j = Some q /\ busy q /\ step s j = Next s' /\ nth_error (thr s') j <> Some q.
Proof.
  intros N B. destruct (no_deadlock buffers ngroups _ s i p bus_bud bus_inv N B) as (j & q & Nj & Bq & s' & S & D).
  exists j, q, s'. rewrite Nj in D. auto.
Qed.

(** No two threads are inside the same critical section. *)
Theorem bus_exclusion i j p q l : nth_error (thr s) i = Some p -> nth_error (thr s) j = Some q ->
  In l (held p) -> In l (held q) -> i = j.
Proof. intros. eapply (v_excl _ _ _ _ bus_inv); eauto. Qed.
End Props.

(** Publishing on a topic does not touch any other topic: what it must contain depends only on its own publications. *)
Theorem bus_independent buffers h t e : (forall i m, e <> EPub i t m) -> contents buffers (h ++ [e]) t = contents buffers h t.
Proof. intro H. apply contents_not. exact H. Qed.

(** A refused publish changes no topic, no group, no thread and notifies nobody. *)
Theorem bus_refused_changes_nothing s i t msg x : nth_error (thr s) i = Some Idle -> nth_error (topics s) t = Some x ->
  (length (buf x) < length msg)%nat ->
  call s i (OPublish t msg) =
  Next (mksys (topics s) (groups s) (head s) (cbs s) (thr s) (log s ++ [ECall i (OPublish t msg)] ++ [ERefused i t])).
Proof.
  intros N X L. unfold call. rewrite N. cbn [say topics]. rewrite X. apply Nat.ltb_lt in L. rewrite L. unfold say. cbn. now rewrite <- app_assoc.
Qed.

(** Cases. *)
Definition ex_bufs : list (list Z) := [[0;0;0]; [0;0]].
Definition runs (i k : nat) : list move := repeat (Run i) k.
(** Two threads: one advertises and publishes, the other one finds the topic and waits in a group that watches it. *)
Definition ex_ms : list move :=
  [Call 0 (OAdvertise 0 [97;98])] ++ runs 0 5 ++ [Call 1 (OFind [97;98])] ++ runs 1 2 ++ [Call 1 (OWatch 0 0)] ++ runs 1 3 ++
  [Call 1 (OGroupWait 0)] ++ runs 1 2 ++ [Call 0 (OPublish 0 [7;8;9])] ++ runs 0 8 ++ runs 1 3 ++ [Call 1 (ORead 0 3)] ++ runs 1 8 ++
  [Call 0 (OPublish 0 [1;2;3;4])].
Example ex_legal : legal ex_bufs 1 ex_ms.
Proof. split; [repeat constructor|repeat constructor; intros []]. Qed.
Example ex_run : match run (init 2 ex_bufs 1) ex_ms with
  | Next s => In (ERead 1 0 3 (Some [7;8;9])) (log s) /\ In (EGroup 1 0 (Some 0%nat)) (log s) /\ In (EFind 1 [97;98] (Some 0%nat)) (log s) /\
              In (EPubDone 0 0) (log s) /\ In (ERefused 0 0) (log s) /\ In (EAdvDone 0 0) (log s)
  | _ => False end.
Proof. vm_compute. intuition. Qed.

(** Refutations. *)
(** The reader's length is not checked against the buffer: a longer read goes out of bounds. *)
Theorem bus_long_read_refuted :
  run (init 1 ex_bufs 0) ([Call 0 (OPublish 1 [5;6])] ++ runs 0 5 ++ [Call 0 (ORead 1 3)] ++ runs 0 6) = Bad.
Proof. vm_compute. reflexivity. Qed.
(** Advertising a topic twice makes the list of topics cyclic: looking up a name that is not there never ends. *)
Theorem bus_advertise_twice_refuted :
  run (init 1 ex_bufs 0) ([Call 0 (OAdvertise 0 [97])] ++ runs 0 4 ++ [Call 0 (OAdvertise 0 [98])] ++ runs 0 4 ++ [Call 0 (OFind [99])] ++ runs 0 2) = Hang.
Proof. vm_compute. reflexivity. Qed.
(** A notification that comes before the wait on the group is missed: the wait blocks although the topic was published. *)
Theorem bus_early_publish_missed_refuted : exists s,
  run (init 2 ex_bufs 1) ([Call 0 (OWatch 0 0)] ++ runs 0 3 ++ [Call 1 (OPublish 0 [1])] ++ runs 1 5 ++ [Call 0 (OGroupWait 0)] ++ runs 0 9) = Next s /\
  nth_error (thr s) 0 = Some (GwBlk 0).
Proof. eexists. split; vm_compute; reflexivity. Qed.
(** After a shorter message, a full read returns it followed by the rest of the message before. *)
Theorem bus_short_message_tail_refuted : exists s,
  run (init 1 ex_bufs 0) ([Call 0 (OPublish 0 [1;2;3])] ++ runs 0 6 ++ [Call 0 (OPublish 0 [9])] ++ runs 0 4 ++ [Call 0 (ORead 0 3)] ++ runs 0 7) = Next s /\
  In (ERead 0 0 3 (Some [9;2;3])) (log s).
Proof. eexists. split; [vm_compute; reflexivity|]. vm_compute. intuition. Qed.

Print Assumptions bus_safe.
Print Assumptions bus_events.
Print Assumptions bus_read.
Print Assumptions bus_no_deadlock.
Print Assumptions bus_find_blocking.
