(** Proofs for raft.hpp: terms, votes and elections. *)
From Coq Require Import ZArith List Bool Arith Permutation Lia ZifyBool.
From Verif Require Import CBase RaftModel RaftSpec.
Import ListNotations.
Local Open Scope Z_scope.

Lemma ok_bind A B (m : res A) (f : A -> res B) b : rbind m f = OK b -> exists a, m = OK a /\ f a = OK b.
Proof. destruct m; cbn; [eauto|discriminate]. Qed.
Ltac dob H := let a := fresh "x" in let E := fresh "E" in apply ok_bind in H as (a & E & H).

(** What each operation does to term, vote and state. *)
Definition same_vote (n n' : node) : Prop :=
  id n' = id n /\ term n' = term n /\ voted_for n' = voted_for n /\ state n' = state n /\ vote_count n' = vote_count n.
Lemma commit_same n a b n' : commit_log_entries n a b = OK n' -> same_vote n n' /\ peers n' = peers n.
Proof. unfold commit_log_entries. intro H. dob H. inversion H; subst. repeat split. Qed.

Lemma replicate_same n op n' : replicate n op = OK n' -> same_vote n n' /\ peers n' = peers n.
Proof. unfold replicate. intro H. dob H. inversion H; subst. repeat split. Qed.

Lemma map_peers_pids f ps ps' : (forall p q, f p = OK q -> pid q = pid p) -> map_peers f ps = OK ps' -> map pid ps' = map pid ps.
Proof.
  intro F. revert ps'. induction ps as [|p ps IH]; intros ps' H; cbn in H; [now inversion H|].
  dob H. dob H. inversion H; subst. cbn. rewrite (F _ _ E), (IH _ E0). reflexivity.
Qed.

Inductive vote_step (n : node) (m : message) (n' : node) : option message -> Prop :=
| VS_grant t f lli llt : m = VoteRequest t f lli llt -> term n < t \/ (t = term n /\ f = voted_for n) ->
    term n' = t -> voted_for n' = f -> state n' = Follower -> vote_count n' = vote_count n ->
    peers n' = peers n -> vote_step n m n' (Some (VoteReply t (id n) true))
| VS_deny t f lli llt : m = VoteRequest t f lli llt -> n' = n -> vote_step n m n' (Some (VoteReply t (id n) false))
| VS_count t f c : m = VoteReply t f true -> state n = Candidate -> vote_count n = Some c -> term n' = term n -> voted_for n' = voted_for n ->
    vote_count n' = Some (c + 1) -> map pid (peers n') = map pid (peers n) ->
    state n' = (if Z.of_nat (length (peers n)) <=? 2 * (c + 1) then Leader else Candidate) -> vote_step n m n' None
| VS_late t f g : m = VoteReply t f g -> (state n <> Candidate \/ g = false) -> n' = n -> vote_step n m n' None
| VS_down t f : m = VoteReply t f false -> state n = Candidate -> term n < t -> term n' = t -> state n' = Follower ->
    peers n' = peers n -> vote_step n m n' None
| VS_app t f lc pt pi es r : m = AppReq t f lc pt pi es -> (exists a b c d, r = AppReply a b c d) ->
    (same_vote n n' \/ (term n < t /\ term n' = t /\ voted_for n' = voted_for n /\ state n' = Follower)) -> peers n' = peers n ->
    vote_step n m n' (Some r)
| VS_rep t f b l : m = AppReply t f b l -> same_vote n n' -> Permutation (map pid (peers n')) (map pid (peers n)) -> vote_step n m n' None.

Lemma process_votes rnd sort n m n' r : (forall l, Permutation (sort l) l) -> process rnd sort n m = OK (n', r) ->
  id n' = id n /\ vote_step n m n' r.
Proof.
  intros P H. destruct m as [t f lli llt|t f g|t f lc pt pi es|t f b l]; cbn [process] in H.
  - destruct ((term n <? t) && _ && _ || _) eqn:B; inversion H; subst; (split; [reflexivity|]).
    + eapply VS_grant; try reflexivity. lia.
    + eapply VS_deny; eauto.
  - destruct (state n) eqn:S; try (inversion H; subst; split; [reflexivity|]; eapply VS_late; eauto; left; congruence).
    destruct g.
    + dob H. destruct (vote_count n) as [c|] eqn:C; cbn in E; inversion E; subst x. clear E. inversion H; subst. clear H.
      destruct (_ <=? _) eqn:L; (split; [reflexivity|]); eapply VS_count; eauto; cbn; try rewrite map_map; cbn in L; rewrite ?L; try reflexivity.
    + destruct (term n <? t) eqn:L; inversion H; subst; (split; [reflexivity|]).
      * eapply VS_down; eauto; try reflexivity. lia.
      * eapply VS_late; eauto.
  - cbn [reset_election_timer set_timers term] in H.
    set (n1 := if term n <? t then _ else _) in H.
    assert (F1 : id n1 = id n /\ peers n1 = peers n /\ (same_vote n n1 \/ (term n < t /\ term n1 = t /\ voted_for n1 = voted_for n /\ state n1 = Follower))).
    { unfold n1. destruct (term n <? t) eqn:L; repeat split; [right|left; repeat split]. cbn. repeat split. lia. }
    clearbody n1. destruct F1 as (I1 & P1 & V1).
    destruct (t <? term n1); [inversion H; subst; split; [auto|eapply VS_app; eauto 9]|].
    destruct (_ && _ && _); [inversion H; subst; split; [auto|eapply VS_app; eauto 9]|].
    dob H. inversion H; subst. clear H.
    assert (V2 : same_vote n1 n' /\ peers n' = peers n1).
    { destruct (_ <? _) in E.
      - dob E. inversion E; subst. apply commit_same in E0 as [[A B] C]. cbn in *. split; [split; [tauto|exact B]|auto].
      - inversion E; subst. repeat split. }
    destruct V2 as [(A & B & C & D & F) G]. split; [congruence|]. eapply VS_app; eauto 9.
    + destruct V1 as [(A' & B' & C' & D' & F')|(A' & B' & C' & D')]; [left|right]; repeat split; congruence.
    + congruence.
  - destruct b; dob H.
    + dob H. destruct x0 as [n1 new]. dob H. inversion H; subst. clear H. apply commit_same in E1 as [V1 P1].
      unfold find_safe_index in E0. dob E0. inversion E0; subst. clear E0. destruct V1 as (A & B & C & D & F). cbn in *.
      split; [auto|]. eapply VS_rep; eauto; [repeat split; auto|]. cbn. rewrite P1. cbn.
      etransitivity; [apply Permutation_map, P|]. erewrite map_peers_pids; eauto.
      intros p q. cbn. destruct (pid p =? f); intro Q; [dob Q|]; now inversion Q.
    + inversion H; subst. split; [reflexivity|]. eapply VS_rep; eauto; [repeat split|]. cbn. erewrite map_peers_pids; eauto.
      intros p q. cbn. destruct (pid p =? f); intro Q; [dob Q; dob Q|]; now inversion Q.
Qed.

Inductive elect_step (n n' : node) : list (Z * message) -> Prop :=
| ES_none out : same_vote n n' -> (forall d m, In (d, m) out -> exists t f a b c e, m = AppReq t f a b c e) -> elect_step n n' out
| ES_start : state n <> Leader -> state n' = Candidate -> term n' = term n + 1 -> voted_for n' = id n -> vote_count n' = Some 0 ->
    elect_step n n' (map (fun p => (pid p, VoteRequest (term n') (id n) (last_index (rlog_ n)) (last_term (rlog_ n)))) (peers n)).
Lemma election_votes n n' out : start_election n = OK (n', out) -> id n' = id n /\ peers n' = peers n /\ elect_step n n' out.
Proof.
  unfold start_election. intro H.
  assert (G : state n <> Leader -> (try t := int (term n + 1) in OK (set_vote n t (Some 0) (id n) Candidate,
          map (fun p => (pid p, VoteRequest t (id n) (last_index (rlog_ n)) (last_term (rlog_ n)))) (peers n))) = OK (n', out) -> id n' = id n /\ peers n' = peers n /\ elect_step n n' out).
  { intros S G. dob G. unfold int in E. destruct (_ && _) in E; inversion E; subst. inversion G; subst. repeat split.
    apply (ES_start n (set_vote n (term n + 1) (Some 0) (id n) Candidate)); auto. }
  destruct (state n) eqn:S; [apply G; auto; discriminate|apply G; auto; discriminate|].
  inversion H; subst. repeat split. constructor; [repeat split|intros ? ? []].
Qed.
Lemma tick_votes rnd n n' out : tick rnd n = OK (n', out) -> id n' = id n /\ peers n' = peers n /\ elect_step n n' out.
Proof.
  unfold tick. intro H.
  assert (NL : (if 0 <? election n then OK (set_timers n (heartbeat n) (election n - 1), [])
      else try (n, out) := start_election n in OK (reset_election_timer rnd n, out)) = OK (n', out) -> id n' = id n /\ peers n' = peers n /\ elect_step n n' out).
  { clear H. intro H. destruct (0 <? election n).
    - inversion H; subst. repeat split. constructor; [repeat split|intros ? ? []].
    - dob H. destruct x as [n1 o1]. inversion H; subst. apply election_votes in E as (A & B & C). split; [auto|]. split; [auto|].
      inversion C; subst.
      + apply ES_none; auto.
      + apply (ES_start n (reset_election_timer rnd n1)); auto. }
  destruct (state n) eqn:S; try (now apply NL). destruct (0 <? heartbeat n).
  - inversion H; subst. repeat split. constructor; [repeat split|intros ? ? []].
  - dob H. inversion H; subst. repeat split. constructor; [repeat split|].
    clear - E. revert out E. induction (peers n) as [|p ps IH]; intros out E d m I; cbn in E; [inversion E; subst; destruct I|].
    dob E. destruct (to_send _ _ _ _) as [[pt pi] es]. dob E. inversion E; subst. destruct I as [I|I]; [inversion I; subst; eauto 9|]. eapply IH; eauto.
Qed.

(** C24, for one node whatever it is sent. *)
Record node_inv (n : node) (vs : list (Z * Z)) : Prop := {
  ni_term : forall t c, In (t, c) vs -> t <= term n;
  ni_vote : forall c, In (term n, c) vs -> voted_for n = c;
  ni_one : forall t a b, In (t, a) vs -> In (t, b) vs -> a = b }.

Definition permutes (i : input) : Prop := match i with IMsg _ sort _ => forall l, Permutation (sort l) l | _ => True end.

Lemma inv_same n n' vs : node_inv n vs -> term n <= term n' -> (term n' = term n -> voted_for n' = voted_for n) -> node_inv n' vs.
Proof.
  intros [A B C] T V. constructor; auto.
  - intros t c I. apply A in I. lia.
  - intros c I. pose proof (A _ _ I). assert (E : term n' = term n) by lia. rewrite V by auto. apply B. now rewrite <- E.
Qed.
Lemma inv_new n n' vs c : node_inv n vs -> term n < term n' \/ (term n' = term n /\ c = voted_for n) -> voted_for n' = c ->
  node_inv n' ((term n', c) :: vs).
Proof.
  intros [A B C] T V. constructor.
  - intros t a [I|I]; [inversion I; lia|apply A in I; lia].
  - intros a [I|I]; [inversion I; congruence|]. pose proof (A _ _ I). destruct T as [T|[T ->]]; [lia|]. rewrite V. apply B. congruence.
  - assert (W : forall a, In (term n', a) vs -> c = a).
    { intros a I. pose proof (A _ _ I). destruct T as [T|[T ->]]; [lia|]. apply B. congruence. }
    intros t a b [I|I] [J|J]; [inversion I; inversion J; congruence| | |eapply C; eauto].
    + inversion I; subst. auto.
    + inversion J; subst. symmetry. auto.
Qed.
Lemma inv_dup n c vs : node_inv n ((term n, c) :: vs) -> forall k, node_inv n (repeat (term n, c) k ++ vs).
Proof.
  intros [A B C] k. assert (S : forall x, In x (repeat (term n, c) k ++ vs) -> In x ((term n, c) :: vs)).
  { intros x I. apply in_app_iff in I as [I|I]; [apply repeat_spec in I; subst; now left|now right]. }
  constructor; intros; [eapply A|eapply B|eapply C]; eauto.
Qed.

Lemma node_step_inv n i n' out vs : permutes i -> node_step n i = OK (n', out) -> node_inv n vs ->
  term n <= term n' /\ node_inv n' (votes [(i, out)] ++ vs).
Proof.
  intros P H I.
  assert (EL : forall o, elect_step n n' o -> out = map snd o -> term n <= term n' /\
     node_inv n' (flat_map (fun m => match m with VoteRequest t c _ _ => [(t, c)] | _ => [] end) out ++ vs)).
  { intros o E ->. inversion E; subst.
    - destruct H0 as (_ & T & V & _). split; [lia|]. replace (flat_map _ _) with (@nil (Z * Z)); [apply (inv_same n); auto; lia|].
      clear - H1. induction o as [|[d m] o IH]; [reflexivity|]. cbn. destruct (H1 d m) as (?&?&?&?&?&?&->); [now left|]. apply IH. intros. eapply H1. right. eauto.
    - split; [lia|].
      replace (flat_map _ _) with (repeat (term n', id n) (length (peers n))).
      + apply inv_dup. apply inv_new with (n := n); auto; lia.
      + clear. induction (peers n) as [|p l IH]; [reflexivity|]. cbn. now rewrite <- IH. }
  destruct i; cbn [node_step] in H; dob H; cbn [votes flat_map]; rewrite app_nil_r.
  - destruct x as [n1 o]. inversion H; subst. apply tick_votes in E as (_ & _ & E). now apply (EL o).
  - destruct x as [n1 o]. inversion H; subst. apply election_votes in E as (_ & _ & E). now apply (EL o).
  - inversion H; subst. apply replicate_same in E as [(A & B & C & _) _]. split; [lia|]. cbn. eapply inv_same; eauto; lia.
  - destruct x as [n1 o]. inversion H; subst. clear H EL. apply process_votes in E as [_ E]; [|exact P].
    inversion E; subst.
    + split; [lia|]. cbn. apply inv_new with (n := n); auto; intuition lia.
    + split; [lia|]. cbn. auto.
    + split; [lia|]. cbn. apply (inv_same n); auto; lia.
    + split; [lia|]. cbn. auto.
    + split; [lia|]. cbn. apply (inv_same n); auto; lia.
    + assert (term n <= term n' /\ (term n' = term n -> voted_for n' = voted_for n)) as [T V].
      { destruct H1 as [(A & B & C & _)|(A & B & C & _)]; split; intros; auto; lia. }
      split; [auto|]. cbn. apply (inv_same n); auto.
    + destruct H0 as (A & B & C & _). split; [lia|]. cbn. apply (inv_same n); auto; lia.
Qed.

Lemma node_run_inv is : forall n n' tr vs, Forall permutes is -> node_run n is = OK (n', tr) -> node_inv n vs ->
  term n <= term n' /\ exists vs', node_inv n' vs' /\ forall x, In x (votes tr) \/ In x vs -> In x vs'.
Proof.
  induction is as [|i is IH]; intros n n' tr vs P H I; cbn in H.
  - inversion H; subst. split; [lia|]. exists vs. split; [auto|]. cbn. tauto.
  - inversion P; subst. dob H. destruct x as [n1 o]. dob H. destruct x as [n2 tr2]. inversion H; subst.
    destruct (node_step_inv _ _ _ _ _ H2 E I) as [T I1]. destruct (IH _ _ _ _ H3 E0 I1) as [T2 (vs' & I2 & S)].
    split; [lia|]. exists vs'. split; [auto|]. intros x D. apply S.
    change ((i, o) :: tr2) with ([(i, o)] ++ tr2) in D. unfold votes in *. rewrite flat_map_app in D. rewrite !in_app_iff in *. tauto.
Qed.

Theorem terms_grow is n n' tr : Forall permutes is -> node_run n is = OK (n', tr) -> term n <= term n'.
Proof. intros P H. eapply (node_run_inv is n n' tr []); eauto. constructor; intros; contradiction. Qed.
Theorem one_vote is n n' tr t a b : Forall permutes is -> node_run n is = OK (n', tr) -> In (t, a) (votes tr) -> In (t, b) (votes tr) -> a = b.
Proof.
  intros P H A B. destruct (node_run_inv is n n' tr []) as [_ (vs & I & S)]; eauto; [constructor; intros; contradiction|].
  eapply (ni_one _ _ I); apply S; left; eauto.
Qed.
