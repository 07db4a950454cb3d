(** Proofs for raft.hpp: at most one leader per term when votes are neither duplicated nor delivered late. *)
From Coq Require Import ZArith List Bool Arith Permutation Lia ZifyBool.
From Verif Require Import CBase RaftModel RaftSpec RaftProofs.
Import ListNotations.
Local Open Scope Z_scope.

Lemma upd_length A (l : list A) i x : length (upd l i x) = length l.
Proof. revert i. induction l; intros [|i]; cbn; auto. Qed.
Lemma upd_nth A (l : list A) i j x : nth_error (upd l i x) j = if (i =? j)%nat then match nth_error l i with Some _ => Some x | None => None end else nth_error l j.
Proof. revert i j. induction l as [|y l IH]; intros [|i] [|j]; cbn; auto. now destruct (i =? j)%nat. Qed.

(** Counting. *)
Definition cnt {A} (f : A -> bool) (l : list A) : nat := length (filter f l).
Lemma cnt_app A (f : A -> bool) l l' : cnt f (l ++ l') = (cnt f l + cnt f l')%nat.
Proof. unfold cnt. now rewrite filter_app, app_length. Qed.
Lemma cnt_remove A (f : A -> bool) l k x : nth_error l k = Some x -> (cnt f (remove_at l k) + (if f x then 1 else 0) = cnt f l)%nat.
Proof.
  unfold cnt. revert k. induction l as [|y l IH]; intros [|k] H; cbn in *; try discriminate.
  - inversion H; subst. destruct (f x); cbn; lia.
  - specialize (IH _ H). destruct (f y); cbn; lia.
Qed.
Lemma remove_in A (l : list A) k x : In x (remove_at l k) -> In x l.
Proof. revert k. induction l as [|y l IH]; intros [|k] H; cbn in *; auto. destruct H; auto. right. eauto. Qed.
Lemma cnt_pos A (f : A -> bool) l x : In x l -> f x = true -> (1 <= cnt f l)%nat.
Proof. unfold cnt. intros I F. assert (In x (filter f l)) by (apply filter_In; auto). destruct (filter f l); [contradiction|cbn; lia]. Qed.
Lemma cnt_in A (f : A -> bool) l : (1 <= cnt f l)%nat -> exists x, In x l /\ f x = true.
Proof. unfold cnt. destruct (filter f l) as [|x r] eqn:E; cbn; [lia|]. intros _. exists x. apply filter_In. rewrite E. now left. Qed.

Definition ev_elect (c t : Z) (e : event) := match e with EElect i u => (i =? c) && (u =? t) | _ => false end.
Definition ev_grant (d t c : Z) (e : event) := match e with EGrant i u a => (i =? d) && (u =? t) && (a =? c) | _ => false end.
Definition ev_count (c t d : Z) (e : event) := match e with ECount i u a => (i =? c) && (u =? t) && (a =? d) | _ => false end.
Definition ev_counts (c t : Z) (e : event) := match e with ECount i u _ => (i =? c) && (u =? t) | _ => false end.
Definition m_req (c t d : Z) (x : Z * message) := match x with (e, VoteRequest u f _ _) => (e =? d) && (u =? t) && (f =? c) | _ => false end.
Definition m_rep (d t c : Z) (x : Z * message) := match x with (e, VoteReply u f true) => (e =? c) && (u =? t) && (f =? d) | _ => false end.

Section Elect.
Variable (N : nat).

Record node_ok (h : list event) (i : nat) (n : node) : Prop := {
  o_id : id n = Z.of_nat i + 1;
  o_peers : Permutation (map pid (peers n)) (filter (fun j => negb (j =? id n)) (ids N));
  o_elect : forall t, In (EElect (id n) t) h -> t <= term n /\ (t = term n -> voted_for n = id n);
  o_grant : forall t c, In (EGrant (id n) t c) h -> t <= term n /\ (t = term n -> voted_for n = c);
  o_cand : state n = Candidate -> In (EElect (id n) (term n)) h /\ vote_count n = Some (Z.of_nat (cnt (ev_counts (id n) (term n)) h));
  o_lead : state n = Leader -> In (ELeader (id n) (term n)) h }.

Record EInv (s : cluster) : Prop := {
  e_len : length (nodes s) = N;
  e_node : forall i n, nth_error (nodes s) i = Some n -> node_ok (log s) i n;
  e_once : forall c t, (cnt (ev_elect c t) (log s) <= 1)%nat;
  e_vote1 : forall d t a b, In (EGrant d t a) (log s) -> In (EGrant d t b) (log s) -> a = b;
  e_vote2 : forall d t a, In (EGrant d t a) (log s) -> In (EElect d t) (log s) -> a = d;
  e_req : forall c t d, (cnt (m_req c t d) (net s) + cnt (ev_grant d t c) (log s) <= cnt (ev_elect c t) (log s))%nat;
  e_rep : forall c t d, (cnt (m_rep d t c) (net s) + cnt (ev_count c t d) (log s) <= cnt (ev_grant d t c) (log s))%nat;
  e_dest : forall d t c a b, In (d, VoteRequest t c a b) (net s) -> d <> c /\ In d (ids N);
  e_voter : forall d t c, In (EGrant d t c) (log s) -> d <> c /\ In d (ids N);
  e_cand : forall c t, In (EElect c t) (log s) -> In c (ids N);
  e_leads : forall c t, In (ELeader c t) (log s) -> In (EElect c t) (log s) /\ (N <= 2 * cnt (ev_counts c t) (log s) + 1)%nat }.

Lemma in_ids x : In x (ids N) <-> 1 <= x <= Z.of_nat N.
Proof. unfold ids. rewrite in_map_iff. split; [intros (y & <- & H); apply in_seq in H; lia|]. intro H. exists (Z.to_nat x). rewrite in_seq. lia. Qed.
Lemma nodup_ids : NoDup (ids N).
Proof. unfold ids. apply FinFun.Injective_map_NoDup; [intros a b H; lia|apply seq_NoDup]. Qed.
Lemma peers_len n : In (id n) (ids N) -> Permutation (map pid (peers n)) (filter (fun j => negb (j =? id n)) (ids N)) -> (length (peers n) + 1 = N)%nat.
Proof.
  intros I P. apply Permutation_length in P. rewrite map_length in P. rewrite P.
  assert (E : Permutation (ids N) (id n :: filter (fun j => negb (j =? id n)) (ids N))).
  { apply NoDup_Permutation; [apply nodup_ids| |].
    - constructor; [rewrite filter_In; lia|]. apply NoDup_filter, nodup_ids.
    - intro x. cbn. rewrite filter_In. destruct (Z.eq_dec x (id n)) as [->|D]; intuition lia. }
  apply Permutation_length in E. cbn in E. unfold ids in E at 1. rewrite map_length, seq_length in E. lia.
Qed.
Lemma node_in s i n : EInv s -> nth_error (nodes s) i = Some n -> In (id n) (ids N).
Proof.
  intros I H. rewrite (o_id _ _ _ (e_node _ I _ _ H)). apply in_ids. assert (i < length (nodes s))%nat by (apply nth_error_Some; congruence).
  rewrite (e_len _ I) in H0. lia.
Qed.

(** The events of one move of node [n] are about [n]. *)
Definition about (n : node) (e : event) : Prop :=
  match e with EElect i _ | EGrant i _ _ | ECount i _ _ | ELeader i _ => i = id n end.
Lemma node_frame h i n es : node_ok h i n -> (forall e, In e es -> ~ about n e) -> node_ok (h ++ es) i n.
Proof.
  intros [A B C D E F] H. constructor; auto.
  - intros t I. apply in_app_iff in I as [I|I]; auto. apply H in I. contradiction I. reflexivity.
  - intros t c I. apply in_app_iff in I as [I|I]; auto. apply H in I. contradiction I. reflexivity.
  - intro S. destruct (E S) as [E1 E2]. split; [apply in_app_iff; auto|]. rewrite cnt_app, E2.
    replace (cnt _ es) with 0%nat; [f_equal; lia|]. symmetry. unfold cnt. destruct (filter _ es) as [|x r] eqn:Q; [reflexivity|].
    assert (X : In x (filter (ev_counts (id n) (term n)) es)) by (rewrite Q; now left). apply filter_In in X as [X1 X2]. apply H in X1.
    destruct x; try discriminate. cbn in X2. contradiction X1. cbn. lia.
  - intro S. apply in_app_iff. auto.
Qed.

Lemma nodes_upd s i n n' es : EInv s -> nth_error (nodes s) i = Some n -> id n' = id n -> (forall e, In e es -> about n e) ->
  node_ok (log s ++ es) i n' -> forall j m, nth_error (upd (nodes s) i n') j = Some m -> node_ok (log s ++ es) j m.
Proof.
  intros I H E A O j m. rewrite upd_nth. destruct (Nat.eqb_spec i j).
  - subst. rewrite H. intro Q. inversion Q; subst. exact O.
  - intro Q. apply node_frame; [now apply (e_node _ I)|]. intros e IE AB. apply A in IE.
    pose proof (o_id _ _ _ (e_node _ I _ _ Q)). pose proof (o_id _ _ _ (e_node _ I _ _ H)).
    assert (id m = id n) by (destruct e; cbn in *; congruence). lia.
Qed.

Lemma frame_node h i n n' : node_ok h i n -> same_vote n n' -> Permutation (map pid (peers n')) (map pid (peers n)) -> node_ok h i n'.
Proof.
  intros [A B C D E F] (S1 & S2 & S3 & S4 & S5) P. constructor; rewrite ?S1, ?S2, ?S3, ?S4, ?S5; auto. etransitivity; eauto.
Qed.

(** A move that adds no event, with messages that are not votes. *)
Lemma net_frame s s' i n n' : EInv s -> nth_error (nodes s) i = Some n -> nodes s' = upd (nodes s) i n' -> id n' = id n -> log s' = log s ->
  node_ok (log s) i n' ->
  (forall c t d, (cnt (m_req c t d) (net s') <= cnt (m_req c t d) (net s))%nat) ->
  (forall c t d, (cnt (m_rep d t c) (net s') <= cnt (m_rep d t c) (net s))%nat) ->
  (forall d t c a b, In (d, VoteRequest t c a b) (net s') -> In (d, VoteRequest t c a b) (net s)) -> EInv s'.
Proof.
  intros I H EN EI EL O R1 R2 R3. constructor; rewrite ?EL; try apply I.
  - rewrite EN, upd_length. apply I.
  - rewrite EN. pose proof (nodes_upd s i n n' [] I H EI (fun e F => match F with end)) as U. rewrite app_nil_r in U. auto.
  - intros c t d. specialize (R1 c t d). pose proof (e_req _ I c t d). lia.
  - intros c t d. specialize (R2 c t d). pose proof (e_rep _ I c t d). lia.
  - intros d t c a b X. eapply (e_dest _ I); eauto.
Qed.

Lemma cnt_remove_le A (f : A -> bool) l k : (cnt f (remove_at l k) <= cnt f l)%nat.
Proof.
  destruct (nth_error l k) eqn:E; [pose proof (cnt_remove _ f _ _ _ E); destruct (f a); lia|].
  apply nth_error_None in E. replace (remove_at l k) with l; [lia|]. clear f. revert k E. induction l as [|x l IH]; intros [|k] E; cbn in *; try lia; auto.
  f_equal. apply IH. lia.
Qed.
Lemma cnt_nil A (f : A -> bool) l : (forall x, In x l -> f x = false) -> cnt f l = 0%nat.
Proof. intro H. unfold cnt. destruct (filter f l) as [|x r] eqn:Q; [reflexivity|]. assert (X : In x (filter f l)) by (rewrite Q; now left). apply filter_In in X as [X1 X2]. rewrite H in X2; [discriminate|auto]. Qed.

Lemma in_cnt_elect c t h : (1 <= cnt (ev_elect c t) h)%nat <-> In (EElect c t) h.
Proof.
  split; [|intro; eapply cnt_pos; eauto; cbn; lia]. intro H. apply cnt_in in H as (x & I & F). destruct x; try discriminate. cbn in F.
  replace (EElect c t) with (EElect i t0) by (f_equal; lia). auto.
Qed.
Lemma in_cnt_grant d t c h : (1 <= cnt (ev_grant d t c) h)%nat <-> In (EGrant d t c) h.
Proof.
  split; [|intro; eapply cnt_pos; eauto; cbn; lia]. intro H. apply cnt_in in H as (x & I & F). destruct x; try discriminate. cbn in F.
  replace (EGrant d t c) with (EGrant i t0 c0) by (f_equal; lia). auto.
Qed.

Lemma req_once c t d a b ps : NoDup (map pid ps) -> (cnt (m_req c t d) (map (fun p => (pid p, VoteRequest t c a b)) ps) <= 1)%nat.
Proof.
  unfold cnt. induction ps as [|p l IH]; intro ND; [cbn; lia|]. cbn in ND. inversion ND; subst. specialize (IH H2). cbn. rewrite !Z.eqb_refl, !andb_true_r.
  destruct (pid p =? d) eqn:E; cbn; [|auto].
  replace (length _) with 0%nat; [lia|]. symmetry. apply (cnt_nil _ (m_req c t d)). intros x X. apply in_map_iff in X as (q & <- & Q). cbn.
  assert (pid q <> pid p) by (intro F; apply H1; rewrite <- F; now apply in_map). lia.
Qed.

(** A node starts an election. *)
Lemma start_inv s i n n' : EInv s -> nth_error (nodes s) i = Some n -> id n' = id n -> peers n' = peers n ->
  state n <> Leader -> state n' = Candidate -> term n' = term n + 1 -> voted_for n' = id n -> vote_count n' = Some 0 ->
  EInv (mkcluster (upd (nodes s) i n')
     (net s ++ map (fun p => (pid p, VoteRequest (term n') (id n) (last_index (rlog_ n)) (last_term (rlog_ n)))) (peers n))
     (log s ++ [EElect (id n) (term n')])).
Proof.
  intros I H EI EP NL SC TE VE CE. pose proof (e_node _ I _ _ H) as O. pose proof (node_in _ _ _ I H) as IN.
  set (t' := term n') in *.
  assert (NE : ~ In (EElect (id n) t') (log s)) by (intro X; apply (o_elect _ _ _ O) in X; lia).
  assert (CE0 : cnt (ev_elect (id n) t') (log s) = 0%nat) by (destruct (cnt (ev_elect (id n) t') (log s)) eqn:Q; auto; contradiction NE; apply in_cnt_elect; lia).
  assert (NG : forall d, ~ In (EGrant d t' (id n)) (log s)).
  { intros d X. apply in_cnt_grant in X. pose proof (e_req _ I (id n) t' d). lia. }
  assert (CC : cnt (ev_counts (id n) t') (log s) = 0%nat).
  { apply cnt_nil. intros e IE. destruct e; try reflexivity. cbn. destruct ((i0 =? id n) && (t =? t')) eqn:Q; auto. exfalso.
    assert (i0 = id n /\ t = t') as [-> ->] by lia.
    assert (1 <= cnt (ev_count (id n) t' from) (log s))%nat by (eapply cnt_pos; eauto; cbn; lia).
    pose proof (e_rep _ I (id n) t' from). apply (NG from). apply in_cnt_grant. lia. }
  constructor; cbn [nodes net log].
  - rewrite upd_length. apply I.
  - apply (nodes_upd s i n n' _ I H EI); [intros e [<-|[]]; reflexivity|]. constructor; rewrite ?EI, ?EP; try apply O.
    + intros t X. apply in_app_iff in X as [X|[X|[]]]; [apply (o_elect _ _ _ O) in X; fold t'; lia|]. inversion X; subst t. fold t'. split; [lia|auto].
    + intros t c X. apply in_app_iff in X as [X|[X|[]]]; [apply (o_grant _ _ _ O) in X; fold t'; lia|discriminate].
    + intros _. fold t'. split; [apply in_app_iff; right; now left|]. rewrite cnt_app, CC, CE. reflexivity.
    + congruence.
  - intros c t. rewrite cnt_app. pose proof (e_once _ I c t) as ON. unfold cnt in *. cbn. destruct ((id n =? c) && (t' =? t)) eqn:Q; cbn; [|lia].
    assert (id n = c /\ t' = t) as [<- <-] by lia. lia.
  - intros d t a b X Y. apply in_app_iff in X as [X|[X|[]]]; [|discriminate]. apply in_app_iff in Y as [Y|[Y|[]]]; [|discriminate]. eapply (e_vote1 _ I); eauto.
  - intros d t a X Y. apply in_app_iff in X as [X|[X|[]]]; [|discriminate]. apply in_app_iff in Y as [Y|[Y|[]]]; [eapply (e_vote2 _ I); eauto|].
    inversion Y; subst d t. apply (o_grant _ _ _ O) in X. lia.
  - intros c t d. rewrite !cnt_app. pose proof (e_req _ I c t d) as R.
    replace (cnt (ev_grant d t c) [EElect (id n) t']) with 0%nat by reflexivity.
    assert (PQ : (cnt (m_req c t d) (map (fun p => (pid p, VoteRequest t' (id n) (last_index (rlog_ n)) (last_term (rlog_ n)))) (peers n)) <=
                 cnt (ev_elect c t) [EElect (id n) t'])%nat).
    { unfold cnt at 2. cbn. destruct ((id n =? c) && (t' =? t)) eqn:Q; cbn [length filter].
      - assert (ND : NoDup (map pid (peers n))) by (eapply Permutation_NoDup; [symmetry; apply (o_peers _ _ _ O)|apply NoDup_filter, nodup_ids]).
        assert (id n = c /\ t' = t) as [-> ->] by lia.
        now apply req_once.
      - replace (cnt _ _) with 0%nat; [lia|]. symmetry. apply cnt_nil. intros x IX. apply in_map_iff in IX as (p & <- & _). cbn. lia. }
    lia.
  - intros c t d. rewrite !cnt_app. pose proof (e_rep _ I c t d).
    replace (cnt (m_rep d t c) (map _ _)) with 0%nat; [unfold cnt in *; cbn; lia|]. symmetry. apply cnt_nil. intros x IX. apply in_map_iff in IX as (p & <- & _). reflexivity.
  - intros d t c a b X. apply in_app_iff in X as [X|X]; [eapply (e_dest _ I); eauto|]. apply in_map_iff in X as (p & E & IP). inversion E; subst.
    assert (IQ : In (pid p) (filter (fun j => negb (j =? id n)) (ids N))) by (eapply Permutation_in; [apply (o_peers _ _ _ O)|]; apply in_map; auto).
    apply filter_In in IQ. split; [lia|tauto].
  - intros d t c X. apply in_app_iff in X as [X|[X|[]]]; [|discriminate]. eapply (e_voter _ I); eauto.
  - intros c t X. apply in_app_iff in X as [X|[X|[]]]; [eapply (e_cand _ I); eauto|]. inversion X; subst. auto.
  - intros c t X. apply in_app_iff in X as [X|[X|[]]]; [|discriminate]. destruct (e_leads _ I _ _ X). split; [apply in_app_iff; auto|]. rewrite cnt_app. lia.
Qed.

(** A vote is granted. *)
Lemma grant_inv s k d t f a b n n' : EInv s -> nth_error (net s) k = Some (d, VoteRequest t f a b) -> nth_error (nodes s) (node_of_id d) = Some n ->
  id n' = id n -> peers n' = peers n -> term n < t \/ (t = term n /\ f = voted_for n) -> term n' = t -> voted_for n' = f -> state n' = Follower ->
  EInv (mkcluster (upd (nodes s) (node_of_id d) n') (remove_at (net s) k ++ [(f, VoteReply t (id n) true)]) (log s ++ [EGrant (id n) t f])).
Proof.
  intros I M H EI EP TT TE VE SE. pose proof (e_node _ I _ _ H) as O.
  assert (IM : In (d, VoteRequest t f a b) (net s)) by (eapply nth_error_In; eauto). destruct (e_dest _ I _ _ _ _ _ IM) as [DF DI].
  assert (ED : id n = d) by (rewrite (o_id _ _ _ O); unfold node_of_id; apply in_ids in DI; lia).
  constructor; cbn [nodes net log].
  - rewrite upd_length. apply I.
  - apply (nodes_upd s _ n n' _ I H EI); [intros e [<-|[]]; reflexivity|]. constructor; rewrite ?EI, ?EP; try apply O; try congruence.
    + intros u X. apply in_app_iff in X as [X|[X|[]]]; [|discriminate]. apply (o_elect _ _ _ O) in X as [X1 X2]. split; [lia|]. intros ->.
      destruct TT as [TT|[TT1 TT2]]; [lia|]. rewrite VE, TT2. apply X2. congruence.
    + intros u c X. apply in_app_iff in X as [X|[X|[]]].
      * apply (o_grant _ _ _ O) in X as [X1 X2]. split; [lia|]. intros ->. destruct TT as [TT|[TT1 TT2]]; [lia|]. rewrite VE, TT2. apply X2. congruence.
      * inversion X; subst. split; [lia|auto].
  - intros c u. rewrite cnt_app. pose proof (e_once _ I c u). unfold cnt in *. cbn. lia.
  - assert (W : forall x, In (EGrant d t x) (log s) -> x = f).
    { intros x X. rewrite <- ED in X. apply (o_grant _ _ _ O) in X as [X1 X2]. destruct TT as [TT|[TT1 TT2]]; [lia|]. symmetry. rewrite TT2. auto. }
    intros e u x y X Y. apply in_app_iff in X as [X|[X|[]]]; apply in_app_iff in Y as [Y|[Y|[]]].
    + eapply (e_vote1 _ I); eauto.
    + inversion Y; subst. auto.
    + inversion X; subst. symmetry. auto.
    + congruence.
  - intros e u x X Y. apply in_app_iff in Y as [Y|[Y|[]]]; [|discriminate]. apply in_app_iff in X as [X|[X|[]]]; [eapply (e_vote2 _ I); eauto|].
    inversion X as [[Q1 Q2 Q3]]. rewrite <- Q1, <- Q2 in Y. apply (o_elect _ _ _ O) in Y as [Y1 Y2]. destruct TT as [TT|[TT1 TT2]]; [lia|].
    congruence || (rewrite TT2; auto) || (rewrite <- Q3, TT2; auto).
  - intros c u e. rewrite !cnt_app. pose proof (e_req _ I c u e) as R. pose proof (cnt_remove _ (m_req c u e) _ _ _ M) as C.
    unfold cnt in *. cbn in *. rewrite ED. destruct ((d =? e) && (t =? u) && (f =? c)); cbn in *; lia.
  - intros c u e. rewrite !cnt_app. pose proof (e_rep _ I c u e) as R. pose proof (cnt_remove _ (m_rep e u c) _ _ _ M) as C.
    unfold cnt in *. cbn in *. rewrite ED. destruct ((f =? c) && (t =? u) && (d =? e)) eqn:Q, ((d =? e) && (t =? u) && (f =? c)) eqn:Q2; cbn in *; lia.
  - intros e u c x y X. apply in_app_iff in X as [X|[X|[]]]; [|discriminate]. apply remove_in in X. eapply (e_dest _ I); eauto.
  - intros e u c X. apply in_app_iff in X as [X|[X|[]]]; [eapply (e_voter _ I); eauto|]. inversion X as [[Q1 Q2 Q3]]. rewrite <- Q3, ED. auto.
  - intros c u X. apply in_app_iff in X as [X|[X|[]]]; [|discriminate]. eapply (e_cand _ I); eauto.
  - intros c u X. apply in_app_iff in X as [X|[X|[]]]; [|discriminate]. destruct (e_leads _ I _ _ X). split; [apply in_app_iff; auto|]. rewrite cnt_app. lia.
Qed.

(** A vote is counted. *)
Lemma count_inv s k d t f n n' c : EInv s -> nth_error (net s) k = Some (d, VoteReply t f true) -> nth_error (nodes s) (node_of_id d) = Some n ->
  term n = t -> id n' = id n -> state n = Candidate -> vote_count n = Some c -> term n' = term n -> voted_for n' = voted_for n -> vote_count n' = Some (c + 1) ->
  map pid (peers n') = map pid (peers n) -> state n' = (if Z.of_nat (length (peers n)) <=? 2 * (c + 1) then Leader else Candidate) ->
  EInv (mkcluster (upd (nodes s) (node_of_id d) n') (remove_at (net s) k ++ [])
     (log s ++ [ECount (id n) (term n) f] ++ (if is_leader n' && negb (is_leader n) then [ELeader (id n') (term n')] else []))).
Proof.
  intros I M H TE EI SC VC TE' VE VC' EP SE. pose proof (e_node _ I _ _ H) as O. pose proof (node_in _ _ _ I H) as IN.
  assert (IM : In (d, VoteReply t f true) (net s)) by (eapply nth_error_In; eauto).
  assert (ED : id n = d).
  { assert (P1 : (1 <= cnt (m_rep f t d) (net s))%nat) by (eapply cnt_pos; eauto; cbn; lia). pose proof (e_rep _ I d t f). pose proof (e_req _ I d t f).
    assert (EC : In (EElect d t) (log s)) by (apply in_cnt_elect; lia). apply (e_cand _ I) in EC. apply in_ids in EC. rewrite (o_id _ _ _ O). unfold node_of_id. lia. }
  destruct (o_cand _ _ _ O SC) as [OE OC]. rewrite VC in OC. inversion OC as [OC']. clear OC.
  pose proof (peers_len n IN (o_peers _ _ _ O)) as PL.
  assert (NLn : is_leader n = false) by (unfold is_leader; now rewrite SC). rewrite NLn. cbn [negb]. rewrite andb_true_r.
  set (ls := if is_leader n' then _ else _).
  assert (LS : forall e, In e ls -> e = ELeader (id n) (term n) /\ Z.of_nat (length (peers n)) <= 2 * (c + 1)).
  { unfold ls. intros e IE. destruct (is_leader n') eqn:L; [|contradiction]. destruct IE as [<-|[]]. rewrite EI, TE'. split; [reflexivity|].
    unfold is_leader in L. rewrite SE in L. destruct (_ <=? _) eqn:Q; [lia|discriminate]. }
  assert (CL : forall f, (forall i t, f (ELeader i t) = false) -> cnt f ls = 0%nat).
  { intros g G. apply cnt_nil. intros e IE. apply LS in IE as [-> _]. apply G. }
  assert (CNT : forall g, (forall i t, g (ELeader i t) = false) -> cnt g (log s ++ [ECount (id n) (term n) f] ++ ls) = (cnt g (log s) + if g (ECount (id n) (term n) f) then 1 else 0)%nat).
  { intros g G. rewrite !cnt_app, (CL g G). unfold cnt at 2. cbn. destruct (g _); cbn; lia. }
  assert (INE : forall e, In e (log s ++ [ECount (id n) (term n) f] ++ ls) -> In e (log s) \/ e = ECount (id n) (term n) f \/ (e = ELeader (id n) (term n) /\ Z.of_nat (length (peers n)) <= 2 * (c + 1))).
  { intros e X. rewrite !in_app_iff in X. destruct X as [X|[[X|[]]|X]]; auto. }
  constructor; cbn [nodes net log].
  - rewrite upd_length. apply I.
  - apply (nodes_upd s _ n n' _ I H EI).
    + intros e X. apply in_app_iff in X as [[<-|[]]|X]; [reflexivity|]. apply LS in X as [-> _]. reflexivity.
    + constructor; rewrite ?EI, ?EP, ?TE', ?VE; try apply O.
      * intros u X. apply INE in X as [X|[X|[X _]]]; try discriminate. now apply (o_elect _ _ _ O).
      * intros u x X. apply INE in X as [X|[X|[X _]]]; try discriminate. now apply (o_grant _ _ _ O).
      * intros _. split; [apply in_app_iff; auto|]. rewrite CNT by reflexivity. rewrite VC'. cbn. rewrite !Z.eqb_refl. cbn. f_equal. lia.
      * intros L. apply in_app_iff. right. right. unfold ls, is_leader. rewrite L, EI, TE'. now left.
  - intros x u. rewrite CNT by reflexivity. cbn. pose proof (e_once _ I x u). lia.
  - intros e u x y X Y. apply INE in X as [X|[X|[X _]]]; try discriminate. apply INE in Y as [Y|[Y|[Y _]]]; try discriminate. eapply (e_vote1 _ I); eauto.
  - intros e u x X Y. apply INE in X as [X|[X|[X _]]]; try discriminate. apply INE in Y as [Y|[Y|[Y _]]]; try discriminate. eapply (e_vote2 _ I); eauto.
  - intros x u e. rewrite !CNT by reflexivity. rewrite app_nil_r. pose proof (cnt_remove_le _ (m_req x u e) (net s) k). pose proof (e_req _ I x u e). cbn. lia.
  - intros x u e. rewrite !CNT by reflexivity. rewrite app_nil_r. pose proof (cnt_remove _ (m_rep e u x) _ _ _ M) as C. pose proof (e_rep _ I x u e) as R.
    cbn [ev_count ev_grant m_rep] in *. rewrite ED, TE. destruct ((d =? x) && (t =? u) && (f =? e)); lia.
  - rewrite app_nil_r. intros e u x y z X. apply remove_in in X. eapply (e_dest _ I); eauto.
  - intros e u x X. apply INE in X as [X|[X|[X _]]]; try discriminate. eapply (e_voter _ I); eauto.
  - intros x u X. apply INE in X as [X|[X|[X _]]]; try discriminate. eapply (e_cand _ I); eauto.
  - intros x u X. rewrite CNT by reflexivity. apply INE in X as [X|[X|[X XL]]]; try discriminate.
    + destruct (e_leads _ I _ _ X). split; [apply in_app_iff; auto|]. lia.
    + inversion X; subst x u. split; [apply in_app_iff; auto|]. cbn. rewrite !Z.eqb_refl. cbn. lia.
Qed.

Lemma no_events n n' : same_vote n n' \/ term n' = term n -> elect_events n n' = [].
Proof. intro H. unfold elect_events. replace (term n <? term n') with false; [now rewrite andb_false_r|]. destruct H as [(_ & H & _)|H]; lia. Qed.

Lemma elect_inv s i n n' out : EInv s -> nth_error (nodes s) i = Some n -> id n' = id n -> peers n' = peers n -> elect_step n n' out ->
  EInv (mkcluster (upd (nodes s) i n') (net s ++ out) (log s ++ elect_events n n')).
Proof.
  intros I H EI EP E. inversion E; subst.
  - rewrite no_events by auto. rewrite app_nil_r. eapply (net_frame s); eauto; try reflexivity; cbn [net].
    + eapply frame_node; eauto; [now apply (e_node _ I)|now rewrite EP].
    + intros. rewrite cnt_app. replace (cnt _ out) with 0%nat; [lia|]. symmetry. apply cnt_nil. intros [x m] X. apply H1 in X as (?&?&?&?&?&?&->). reflexivity.
    + intros. rewrite cnt_app. replace (cnt _ out) with 0%nat; [lia|]. symmetry. apply cnt_nil. intros [x m] X. apply H1 in X as (?&?&?&?&?&?&->). reflexivity.
    + intros d t c a b X. apply in_app_iff in X as [X|X]; auto. apply H1 in X as (?&?&?&?&?&?&Q). discriminate.
  - replace (elect_events n n') with [EElect (id n) (term n')]; [apply start_inv; auto|].
    unfold elect_events, is_candidate. rewrite H1, EI. replace (term n <? term n') with true by lia. reflexivity.
Qed.

Theorem move_inv s m s' : EInv s -> sorts m -> vote_safe s m -> do_move s m = OK s' -> EInv s'.
Proof.
  intros I S V H. destruct m as [i rnd|i|i op|k rnd sort|k|k]; cbn [do_move] in H.
  - destruct (nth_error (nodes s) i) as [n|] eqn:E; [|now inversion H; subst]. dob H. destruct x as [n' out]. inversion H; subst.
    apply tick_votes in E0 as (A & B & C). now apply elect_inv.
  - destruct (nth_error (nodes s) i) as [n|] eqn:E; [|now inversion H; subst]. dob H. destruct x as [n' out]. inversion H; subst.
    apply election_votes in E0 as (A & B & C). now apply elect_inv.
  - destruct (nth_error (nodes s) i) as [n|] eqn:E; [|now inversion H; subst]. dob H. inversion H; subst.
    apply replicate_same in E0 as [A B]. apply (net_frame s _ i n x); auto; [apply A|]. eapply frame_node; eauto; [now apply (e_node _ I)|now rewrite B].
  - destruct (nth_error (net s) k) as [[d m]|] eqn:M; [|now inversion H; subst].
    assert (DROP : EInv (mkcluster (nodes s) (remove_at (net s) k) (log s))).
    { constructor; cbn [nodes net log]; try apply I.
      - intros c t e. pose proof (cnt_remove_le _ (m_req c t e) (net s) k). pose proof (e_req _ I c t e). lia.
      - intros c t e. pose proof (cnt_remove_le _ (m_rep e t c) (net s) k). pose proof (e_rep _ I c t e). lia.
      - intros e t c a b X. apply remove_in in X. eapply (e_dest _ I); eauto. }
    destruct (nth_error (nodes s) (node_of_id d)) as [n|] eqn:E; [|now inversion H; subst]. dob H. destruct x as [n' r]. inversion H; subst. clear H.
    pose proof E0 as P0. apply process_votes in E0 as [EI E0]; [|exact S].
    (* moves without events *)
    assert (FR : deliver_events n n' m r = [] -> node_ok (log s) (node_of_id d) n' ->
       (forall x, r = Some x -> (forall a b c e, x <> VoteRequest a b c e) /\ (forall a b, x <> VoteReply a b true)) ->
       EInv (mkcluster (upd (nodes s) (node_of_id d) n') (remove_at (net s) k ++ match r with Some r => [(from_id m, r)] | None => [] end) (log s ++ deliver_events n n' m r))).
    { intros DE O R. rewrite DE, app_nil_r. eapply (net_frame s); eauto; try reflexivity; cbn [net].
      - intros c t e. rewrite cnt_app. pose proof (cnt_remove_le _ (m_req c t e) (net s) k). destruct r as [r|]; [|unfold cnt in *; cbn; lia].
        destruct (R r eq_refl) as [R1 R2]. destruct r; try (unfold cnt in *; cbn; lia). now destruct (R1 t0 from last_log_index last_log_term).
      - intros c t e. rewrite cnt_app. pose proof (cnt_remove_le _ (m_rep e t c) (net s) k). destruct r as [r|]; [|unfold cnt in *; cbn; lia].
        destruct (R r eq_refl) as [R1 R2]. destruct r; try (unfold cnt in *; cbn; lia). destruct granted; [now destruct (R2 t0 from)|unfold cnt in *; cbn; lia].
      - intros e t c a b X. apply in_app_iff in X as [X|X]; [eapply remove_in; eauto|]. destruct r as [r|]; [|contradiction]. destruct X as [X|[]]. inversion X; subst.
        destruct (R _ eq_refl) as [R1 _]. now destruct (R1 t c a b). }
    assert (LN : state n' <> Leader -> (if is_leader n' && negb (is_leader n) then [ELeader (id n') (term n')] else []) = []).
    { intro L. unfold is_leader. destruct (state n'); try reflexivity. congruence. }
    assert (LE : state n' = state n -> (if is_leader n' && negb (is_leader n) then [ELeader (id n') (term n')] else []) = []).
    { intro L. unfold is_leader. rewrite L. destruct (state n); reflexivity. }
    pose proof (e_node _ I _ _ E) as O.
    inversion E0; subst.
    + (* grant *) unfold deliver_events; cbn [from_id]; rewrite LN by congruence. eapply grant_inv; eauto.
    + (* deny *) apply FR; [unfold deliver_events; now apply LE|exact O|]. intros x X. inversion X; subst. split; congruence.
    + (* count *) unfold deliver_events. replace (is_candidate n) with true by (unfold is_candidate; now rewrite H0).
      eapply count_inv; eauto.
    + (* ignored *) apply FR; [|exact O|discriminate]. unfold deliver_events. rewrite LE by auto. destruct g; [|reflexivity]. destruct H0; [|discriminate].
      unfold is_candidate. destruct (state n); try reflexivity. congruence.
    + (* stepping down *) apply FR; [unfold deliver_events; apply LN; congruence| |discriminate]. destruct O. constructor; rewrite ?EI, ?H4; auto; try congruence.
      * intros t X. apply o_elect0 in X. lia.
      * intros t c X. apply o_grant0 in X. lia.
    + (* append *) apply FR.
      * unfold deliver_events. destruct H1 as [(_ & _ & _ & Q & _)|(_ & _ & _ & Q)]; [now apply LE|apply LN; congruence].
      * destruct H1 as [Q|(Q1 & Q2 & Q3 & Q4)]; [eapply frame_node; eauto; now rewrite H2|]. destruct O. constructor; rewrite ?EI, ?H2; auto; try congruence.
        -- intros u X. apply o_elect0 in X. lia.
        -- intros u c X. apply o_grant0 in X. lia.
      * intros x X. inversion X; subst. destruct H0 as (?&?&?&?&->). split; congruence.
    + (* reply *) apply FR; [unfold deliver_events; apply LE; apply H0|eapply frame_node; eauto|discriminate].
  - inversion H; subst. clear H. destruct (nth_error (net s) k) as [[d x]|] eqn:M; [|rewrite app_nil_r; destruct s; exact I].
    pose proof (V _ _ M) as NV. constructor; cbn [nodes net log]; try apply I.
    + intros c t e. rewrite cnt_app. pose proof (e_req _ I c t e). destruct x; try discriminate NV; unfold cnt in *; cbn; lia.
    + intros c t e. rewrite cnt_app. pose proof (e_rep _ I c t e). destruct x; try discriminate NV; unfold cnt in *; cbn; lia.
    + intros e t c a b X. apply in_app_iff in X as [X|[X|[]]]; [eapply (e_dest _ I); eauto|]. inversion X; subst. discriminate.
  - inversion H; subst. constructor; cbn [nodes net log]; try apply I.
    + intros c t e. pose proof (cnt_remove_le _ (m_req c t e) (net s) k). pose proof (e_req _ I c t e). lia.
    + intros c t e. pose proof (cnt_remove_le _ (m_rep e t c) (net s) k). pose proof (e_rep _ I c t e). lia.
    + intros e t c a b X. apply remove_in in X. eapply (e_dest _ I); eauto.
Qed.

Lemma init_nth i n : nth_error (nodes (init N)) i = Some n -> (i < N)%nat /\ n = new_node (Z.of_nat i + 1) (filter (fun j => negb (j =? Z.of_nat i + 1)) (ids N)).
Proof.
  cbn. unfold ids at 2. rewrite map_map, nth_error_map. destruct (nth_error (seq 1 N) i) as [x|] eqn:E; [|discriminate]. cbn. intro H. inversion H; subst.
  assert (i < N)%nat by (rewrite <- (seq_length N 1); apply nth_error_Some; congruence). split; auto.
  assert (X : x = (1 + i)%nat) by (rewrite <- (seq_nth 1 0%nat H0); symmetry; now apply nth_error_nth). subst. replace (Z.of_nat (1 + i)) with (Z.of_nat i + 1) by lia. reflexivity.
Qed.
Lemma init_inv : EInv (init N).
Proof.
  constructor; cbn [net log init]; try (intros; contradiction).
  - cbn. unfold ids. now rewrite !map_length, seq_length.
  - intros i n H. apply init_nth in H as [L ->]. constructor; cbn; try (intros; contradiction); try discriminate; auto.
    rewrite map_map. cbn. now rewrite map_id.
  - intros. cbn. lia.
  - intros. cbn. lia.
  - intros. cbn. lia.
Qed.

Lemma run_inv ms : forall s s', EInv s -> Forall sorts ms -> always vote_safe s ms -> run s ms = OK s' -> EInv s' /\ exists l, log s' = log s ++ l.
Proof.
  induction ms as [|m ms IH]; intros s s' I F A R; cbn in R.
  - inversion R; subst. split; auto. exists []. now rewrite app_nil_r.
  - dob R. inversion F; subst. cbn in A. destruct A as [A1 A2]. rewrite E in A2.
    assert (I' : EInv x) by (eapply move_inv; eauto). destruct (IH _ _ I' H2 A2 R) as [I2 [l L]]. split; auto.
    assert (exists l0, log x = log s ++ l0) as [l0 L0].
    { clear - E. destruct m; cbn in E.
      - destruct (nth_error _ _); [dob E; destruct x0|]; inversion E; subst; cbn; eauto. exists []. now rewrite app_nil_r.
      - destruct (nth_error _ _); [dob E; destruct x0|]; inversion E; subst; cbn; eauto. exists []. now rewrite app_nil_r.
      - destruct (nth_error _ _); [dob E|]; inversion E; subst; exists []; now rewrite app_nil_r.
      - destruct (nth_error (net s) _) as [[d mm]|]; [destruct (nth_error (nodes s) _); [dob E; destruct x0|]|]; inversion E; subst; cbn; eauto; exists []; now rewrite app_nil_r.
      - inversion E; subst. exists []. now rewrite app_nil_r.
      - inversion E; subst. exists []. now rewrite app_nil_r. }
    exists (l0 ++ l). now rewrite L, L0, app_assoc.
Qed.

(** Quorums meet. *)
Definition voters (h : list event) (c t : Z) : list Z :=
  flat_map (fun e => match e with ECount i u d => if (i =? c) && (u =? t) then [d] else [] | _ => [] end) h.
Lemma voters_len h c t : length (voters h c t) = cnt (ev_counts c t) h.
Proof. unfold cnt. induction h as [|e h IH]; [reflexivity|]. cbn. destruct e; cbn; auto. destruct (_ && _); cbn; auto. Qed.
Lemma voters_count h c t d : count_occ Z.eq_dec (voters h c t) d = cnt (ev_count c t d) h.
Proof.
  unfold cnt. induction h as [|e h IH]; [reflexivity|]. cbn. destruct e; cbn; auto. destruct ((i =? c) && (t0 =? t)) eqn:Q; cbn; auto.
  destruct (Z.eq_dec from d), (from =? d) eqn:F; cbn; rewrite ?IH; auto; lia.
Qed.

Lemma quorum s a b t : EInv s -> In (ELeader a t) (log s) -> In (ELeader b t) (log s) -> a = b.
Proof.
  intros I A B. destruct (e_leads _ I _ _ A) as [EA QA]. destruct (e_leads _ I _ _ B) as [EB QB].
  destruct (Z.eq_dec a b) as [|D]; auto. exfalso.
  assert (G : forall c d, In d (voters (log s) c t) -> In (EGrant d t c) (log s)).
  { intros c d V. apply in_cnt_grant. assert (1 <= count_occ Z.eq_dec (voters (log s) c t) d)%nat by (apply (count_occ_In Z.eq_dec) in V; lia).
    rewrite voters_count in H. pose proof (e_rep _ I c t d). lia. }
  assert (ND : forall c, NoDup (voters (log s) c t)).
  { intro c. apply (NoDup_count_occ Z.eq_dec). intro d. rewrite voters_count. pose proof (e_rep _ I c t d). pose proof (e_req _ I c t d). pose proof (e_once _ I c t). lia. }
  assert (ND2 : NoDup ((a :: voters (log s) a t) ++ (b :: voters (log s) b t))).
  { assert (NA : NoDup (a :: voters (log s) a t)) by (constructor; auto; intro X; apply G, (e_voter _ I) in X; tauto).
    assert (NB : NoDup (b :: voters (log s) b t)) by (constructor; auto; intro X; apply G, (e_voter _ I) in X; tauto).
    assert (DJ : forall x, In x (a :: voters (log s) a t) -> ~ In x (b :: voters (log s) b t)).
    { intros x [<-|X] [Y|Y]; [congruence| | |].
      - apply G in Y. apply D. symmetry. eapply (e_vote2 _ I); eauto.
      - subst. apply G in X. apply D. eapply (e_vote2 _ I); eauto.
      - apply D. eapply (e_vote1 _ I); eauto. }
    revert NA DJ. generalize (a :: voters (log s) a t) as l. induction l as [|x l IH]; intros NA DJ; [exact NB|]. cbn. inversion NA; subst. constructor.
    - rewrite in_app_iff. intros [X|X]; [auto|]. apply (DJ x); [now left|auto].
    - apply IH; auto. intros y Y. apply DJ. now right. }
  assert (IC : incl ((a :: voters (log s) a t) ++ (b :: voters (log s) b t)) (ids N)).
  { intros x X. apply in_app_iff in X as [[<-|X]|[<-|X]].
    - eapply (e_cand _ I); eauto.
    - apply G, (e_voter _ I) in X. tauto.
    - eapply (e_cand _ I); eauto.
    - apply G, (e_voter _ I) in X. tauto. }
  pose proof (NoDup_incl_length ND2 IC) as L. rewrite app_length in L. cbn [length] in L. rewrite !voters_len in L. unfold ids in L. rewrite map_length, seq_length in L. lia.
Qed.

Theorem election_safety ms ms' s s' i j t : Forall sorts (ms ++ ms') -> always vote_safe (init N) (ms ++ ms') ->
  run (init N) ms = OK s -> run s ms' = OK s' -> leads s i t -> leads s' j t -> i = j.
Proof.
  intros F A R R' (n & Hn & Ln & Tn) (m & Hm & Lm & Tm).
  apply Forall_app in F as [F F'].
  assert (AA : always vote_safe (init N) ms /\ always vote_safe s ms').
  { clear - A R. revert A R. generalize (init N) as c. induction ms as [|x l IH]; intros c A R; cbn in *; [inversion R; subst; auto|].
    dob R. destruct A as [A1 A2]. rewrite E in *. destruct (IH _ A2 R). tauto. }
  destruct AA as [A1 A2]. destruct (run_inv _ _ _ init_inv F A1 R) as [I _]. destruct (run_inv _ _ _ I F' A2 R') as [I' [l L]].
  pose proof (e_node _ I _ _ Hn) as On. pose proof (e_node _ I' _ _ Hm) as Om.
  pose proof (o_lead _ _ _ On Ln) as E1. pose proof (o_lead _ _ _ Om Lm) as E2. rewrite Tn in E1. rewrite Tm in E2.
  assert (E1' : In (ELeader (id n) t) (log s')) by (rewrite L; apply in_app_iff; auto).
  pose proof (quorum _ _ _ _ I' E1' E2) as Q. rewrite (o_id _ _ _ On), (o_id _ _ _ Om) in Q. lia.
Qed.
End Elect.
