(** Proofs for raft.hpp: timers, heartbeats, what a leader knows. *)
From Coq Require Import ZArith List Bool Arith Permutation Lia ZifyBool.
From Verif Require Import CBase RaftModel RaftSpec RaftProofs RaftTimeSpec.
Import ListNotations.
Local Open Scope Z_scope.

Lemma reset_range rnd n : 0 <= rnd -> 100 <= election (reset_election_timer rnd n) < 500.
Proof.
  intro H. unfold reset_election_timer, ELECTION_TIMEOUT_MIN, ELECTION_TIMEOUT_MAX. cbn [election set_timers].
  pose proof (Z.rem_bound_pos rnd (500 - 100)). lia.
Qed.

Lemma commit_timers n a b n' : commit_log_entries n a b = OK n' ->
  heartbeat n' = heartbeat n /\ election n' = election n /\ state n' = state n /\ term n' = term n /\ rlog_ n' = rlog_ n /\ peers n' = peers n /\ commit n' = commit n.
Proof. unfold commit_log_entries. intro H. dob H. inversion H; subst. repeat split. Qed.

Lemma process_time rnd sort n m n' r : process rnd sort n m = OK (n', r) ->
  heartbeat n' = heartbeat n /\
  (election n' = election n \/ (0 <= rnd -> 100 <= election n' < 500)) /\
  (unheard (IMsg rnd sort m) -> election n' = election n /\ (state n <> Leader -> state n' <> Leader)) /\
  (forall x, r = Some x -> ~ asks_votes x).
Proof.
  intro H. destruct m as [t f lli llt|t f g|t f lc pt pi es|t f b l]; cbn [process] in H.
  - destruct ((term n <? t) && _ && _ || _); inversion H; subst; cbn; repeat split; auto; try discriminate;
      intros ? [= <-]; cbn; auto.
  - destruct (state n) eqn:S; try (inversion H; subst; repeat split; auto; cbn; try tauto; discriminate).
    destruct g.
    + dob H. destruct (vote_count n) as [c|] eqn:C; cbn in E; inversion E; subst x. clear E.
      inversion H; subst. cbn [unheard]. destruct (_ <=? _); cbn; repeat split; auto; try tauto; discriminate.
    + destruct (term n <? t); inversion H; subst; cbn [unheard]; split; [reflexivity| |reflexivity|].
      * split; [right; intro; now apply reset_range|]. split; [tauto|discriminate].
      * split; [auto|]. split; [tauto|discriminate].
  - cbn [unheard].
    set (n1 := reset_election_timer rnd n) in H. assert (R : 0 <= rnd -> 100 <= election n1 < 500) by (intro; now apply reset_range).
    assert (HB : heartbeat n1 = heartbeat n) by reflexivity. clearbody n1.
    set (n2 := if term n1 <? t then _ else n1) in H.
    assert (R2 : heartbeat n2 = heartbeat n1 /\ election n2 = election n1) by (unfold n2; destruct (_ <? _); auto).
    clearbody n2. destruct R2 as [H2 E2].
    assert (G : forall n3, heartbeat n3 = heartbeat n2 -> election n3 = election n2 -> 
      heartbeat n3 = heartbeat n /\ (election n3 = election n \/ (0 <= rnd -> 100 <= election n3 < 500)) /\ (False -> election n3 = election n /\ (state n <> Leader -> state n3 <> Leader))).
    { intros n3 A B. rewrite A, B, H2, E2. split; [exact HB|]. split; [now right|tauto]. }
    destruct (t <? term n2); [inversion H; subst; destruct (G n') as (A & B & C); auto; repeat split; auto; try tauto; intros ? [= <-]; auto|].
    destruct (_ && _); [inversion H; subst; destruct (G n') as (A & B & C); auto; repeat split; auto; try tauto; intros ? [= <-]; auto|].
    dob H. inversion H; subst n' r. clear H.
    assert (T : heartbeat x = heartbeat n2 /\ election x = election n2).
    { destruct (_ <? _); [|inversion E; subst; split; reflexivity]. dob E. apply commit_timers in E0 as (A & B & _). inversion E; subst. cbn in *. auto. }
    destruct (G x) as (A & B & C); try tauto. repeat split; auto; try tauto. intros ? [= <-]; auto.
  - destruct b.
    + dob H. dob H. destruct x0 as [n1 new]. dob H. inversion H; subst. apply commit_timers in E1 as (A & B & S & _).
      unfold find_safe_index in E0. dob E0. inversion E0; subst. cbn in *. rewrite A, B, S. repeat split; auto. discriminate.
    + dob H. inversion H; subst. cbn. repeat split; auto. discriminate.
Qed.

Lemma start_time n n' out : start_election n = OK (n', out) -> heartbeat n' = heartbeat n /\ election n' = election n.
Proof. unfold start_election. intro H. destruct (state n); try (inversion H; subst; auto; fail); dob H; inversion H; subst; auto. Qed.

Lemma heartbeats_ask n ps : forall out p m, heartbeats n ps = OK out -> In (p, m) out -> ~ asks_votes m.
Proof.
  induction ps as [|q l IH]; intros o p m E Hm; cbn in E.
  - inversion E; subst. destruct Hm.
  - dob E. destruct (to_send _ _ _ _) as [[pt pi] es]. dob E. inversion E; subst. destruct Hm as [[= <- <-]|Hm]; [cbn; auto|eauto].
Qed.

(** * No early election. *)
Lemma patience_step b n i n' out : rand_ok i -> not_asked i -> b <= 100 -> b <= election n -> (is_tick i = true -> 1 <= b) ->
  node_step n i = OK (n', out) -> (b - if is_tick i then 1 else 0) <= election n' /\ forall m, In m out -> ~ asks_votes m.
Proof.
  intros R A B L T H. destruct i as [rnd| |op|rnd sort m]; cbn [node_step is_tick rand_ok] in *.
  - dob H. destruct x as [n1 o]. inversion H; subst. specialize (T eq_refl). unfold tick in E. destruct (state n).
    1,2: replace (0 <? election n) with true in E by lia; inversion E; subst; cbn; split; [lia|tauto].
    destruct (0 <? heartbeat n); [inversion E; subst; cbn; split; [lia|tauto]|]. dob E. inversion E; subst. cbn. split; [lia|].
    intros m Hm. apply in_map_iff in Hm as ([p m'] & <- & Hm). eapply heartbeats_ask; eauto.
  - congruence.
  - dob H. inversion H; subst. unfold replicate in E. dob E. inversion E; subst. cbn. split; [lia|tauto].
  - dob H. destruct x as [n1 r]. inversion H; subst. apply process_time in E as (_ & [E|E] & _ & N).
    + split; [lia|]. destruct r; [|tauto]. intros ? [<-|[]]. now apply N.
    + specialize (E R). split; [lia|]. destruct r; [|tauto]. intros ? [<-|[]]. now apply N.
Qed.
Lemma patience_run is : forall b n n' tr, Forall rand_ok is -> Forall not_asked is -> b <= 100 -> b <= election n -> Z.of_nat (ticks is) <= b ->
  node_run n is = OK (n', tr) -> forall i out m, In (i, out) tr -> In m out -> ~ asks_votes m.
Proof.
  induction is as [|i is IH]; intros b n n' tr R A B L T H; cbn [node_run] in H.
  - inversion H; subst. contradiction.
  - inversion R; inversion A; subst. dob H. destruct x as [n1 o]. dob H. destruct x as [n2 tr2]. inversion H; subst.
    assert (TK : ticks (i :: is) = ((if is_tick i then 1 else 0) + ticks is)%nat) by (unfold ticks; cbn; destruct (is_tick i); reflexivity).
    rewrite TK in T. destruct (patience_step b n i n1 o) as [P1 P2]; auto.
    { intro X. rewrite X in T. lia. }
    intros i' out m [[= <- <-]|Hin] Hm; [now apply P2|]. eapply (IH (b - if is_tick i then 1 else 0)); eauto; destruct (is_tick i); lia.
Qed.
Lemma after_append rnd sort n t f lc pt pi es n1 r : 0 <= rnd -> process rnd sort n (AppReq t f lc pt pi es) = OK (n1, r) -> 100 <= election n1.
Proof.
  intros R H. cbn [process] in H. set (n0 := reset_election_timer rnd n) in H. pose proof (reset_range rnd n R) as E0. fold n0 in E0. clearbody n0.
  set (n2 := if term n0 <? t then _ else n0) in H. assert (E2 : election n2 = election n0) by (unfold n2; destruct (_ <? _); auto). clearbody n2.
  destruct (t <? term n2); [inversion H; subst; lia|]. destruct (_ && _); [inversion H; subst; lia|]. dob H. inversion H; subst.
  destruct (_ <? _); [|inversion E; subst; cbn; lia]. dob E. apply commit_timers in E1 as (_ & X & _). inversion E; subst. cbn in *. lia.
Qed.

(** * An election in time. *)
Lemma timer_bounds is : forall n n' tr, Forall rand_ok is -> node_run n is = OK (n', tr) -> 0 <= election n <= 500 -> 0 <= election n' <= 500.
Proof.
  induction is as [|i is IH]; intros n n' tr R H B; cbn [node_run] in H.
  - now inversion H; subst.
  - inversion R; subst. dob H. destruct x as [n1 o]. dob H. destruct x as [n2 tr2]. inversion H; subst. eapply IH; eauto.
    destruct i as [rnd| |op|rnd sort m]; cbn [node_step rand_ok] in *.
    + dob E. destruct x as [n3 o3]. inversion E; subst. unfold tick in E1. destruct (state n).
      1,2: destruct (0 <? election n) eqn:P; [inversion E1; subst; cbn; lia|]; dob E1; destruct x as [n4 o4]; inversion E1; subst;
           match goal with |- context [reset_election_timer ?a ?b] => pose proof (reset_range a b H2) end; lia.
      destruct (0 <? heartbeat n); [inversion E1; subst; cbn; lia|]. dob E1. inversion E1; subst. cbn. lia.
    + dob E. destruct x as [n3 o3]. inversion E; subst. apply start_time in E1. lia.
    + dob E. inversion E; subst. unfold replicate in E1. dob E1. inversion E1; subst. cbn. lia.
    + dob E. destruct x as [n3 r]. inversion E; subst. apply process_time in E1 as (_ & [E1|E1] & _); [lia|]. specialize (E1 H2). lia.
Qed.

Definition begins (n : node) (rnd : Z) (n' : node) (out : list message) : Prop :=
  node_step n (ITick rnd) = OK (n', out) /\ state n' = Candidate /\ term n' = term n + 1 /\ voted_for n' = id n /\
  out = map (fun _ => VoteRequest (term n + 1) (id n) (last_index (rlog_ n)) (last_term (rlog_ n))) (peers n).
Lemma timeout_run is : forall n n' tr, node_run n is = OK (n', tr) -> state n <> Leader -> Forall unheard is -> 0 <= election n < Z.of_nat (ticks is) ->
  exists a rnd b na tra nb out, is = a ++ ITick rnd :: b /\ Z.of_nat (ticks a) = election n /\ node_run n a = OK (na, tra) /\ begins na rnd nb out.
Proof.
  induction is as [|i is IH]; intros n n' tr H S U L; cbn [node_run] in H.
  - cbn in L. lia.
  - inversion U; subst. dob H. destruct x as [n1 o]. dob H. destruct x as [n2 tr2]. inversion H; subst.
    assert (TK : forall is, ticks (i :: is) = ((if is_tick i then 1 else 0) + ticks is)%nat) by (intro; unfold ticks; cbn; destruct (is_tick i); reflexivity).
    rewrite TK in L.
    assert (GO : election n1 = election n - (if is_tick i then 1 else 0) -> 0 <= election n1 -> state n1 <> Leader ->
       exists a rnd b na tra nb out, i :: is = a ++ ITick rnd :: b /\ Z.of_nat (ticks a) = election n /\ node_run n a = OK (na, tra) /\ begins na rnd nb out).
    { intros EE E0' SS. destruct (IH _ _ _ E0 SS H3) as (a & rnd & b & na & tra & nb & out & -> & T & RA & BG); [destruct (is_tick i); lia|].
      exists (i :: a), rnd, b, na, ((i, o) :: tra), nb, out. split; [reflexivity|]. split; [rewrite TK; destruct (is_tick i); lia|].
      split; [cbn [node_run]; rewrite E; cbn [rbind]; rewrite RA; reflexivity|exact BG]. }
    destruct i as [rnd| |op|rnd sort m]; cbn [is_tick] in *.
    + destruct (Z.eq_dec (election n) 0) as [Z0|NZ].
      * exists [], rnd, is, n, [], n1, o. split; [reflexivity|]. split; [cbn; lia|]. split; [reflexivity|]. unfold begins. split; [exact E|].
        cbn [node_step] in E. dob E. destruct x as [n3 o3]. inversion E; subst. unfold tick in E1.
        destruct (state n) eqn:SN; [| |congruence]; rewrite Z0 in E1; cbn [Z.ltb Z.compare] in E1; dob E1; destruct x as [n4 o4]; inversion E1; subst;
          unfold start_election in E2; rewrite SN in E2; dob E2; inversion E2; subst; unfold int in E3; destruct (_ && _); inversion E3; subst;
          cbn; repeat split; rewrite map_map; reflexivity.
      * cbn [node_step] in E. dob E. destruct x as [n3 o3]. inversion E; subst. unfold tick in E1.
        destruct (state n) eqn:SN; [| |congruence]; replace (0 <? election n) with true in E1 by lia; inversion E1; subst; apply GO; cbn; try lia; rewrite SN; discriminate.
    + cbn [node_step] in E. dob E. destruct x as [n3 o3]. inversion E; subst. pose proof (start_time _ _ _ E1). apply GO; try lia.
      unfold start_election in E1. destruct (state n); try congruence; dob E1; inversion E1; subst; cbn; discriminate.
    + cbn [node_step] in E. dob E. inversion E; subst. unfold replicate in E1. dob E1. inversion E1; subst. apply GO; cbn; try lia. exact S.
    + cbn [node_step] in E. dob E. destruct x as [n3 r]. inversion E; subst. apply process_time in E1 as (_ & _ & Q & _). destruct (Q H2) as [Q1 Q2]. apply GO; try lia. auto.
Qed.

(** * Heartbeats *)
Lemma heartbeat_run is : forall n n' tr k, node_run n is = OK (n', tr) -> heartbeat n = (- Z.of_nat k) mod 10 ->
  heartbeat n' = (- Z.of_nat (k + leader_ticks n is)) mod 10.
Proof.
  induction is as [|i is IH]; intros n n' tr k H B; cbn [node_run leader_ticks] in *.
  - inversion H; subst. now rewrite Nat.add_0_r.
  - dob H. destruct x as [n1 o]. dob H. destruct x as [n2 tr2]. inversion H; subst. rewrite E. rewrite Nat.add_assoc. eapply IH; [eauto|].
    destruct i as [rnd| |op|rnd sort m]; cbn [node_step is_tick andb] in *; rewrite ?Nat.add_0_r.
    + dob E. destruct x as [n3 o3]. inversion E; subst. unfold tick in E1. unfold is_leader. destruct (state n).
      1,2: rewrite Nat.add_0_r; destruct (0 <? election n); [inversion E1; subst; exact B|]; dob E1; destruct x as [n4 o4]; inversion E1; subst;
           apply start_time in E2 as [E2 _]; cbn; congruence.
      assert (M : (- Z.of_nat (k + 1)) mod 10 = if 0 <? heartbeat n then heartbeat n - 1 else 9).
      { replace (- Z.of_nat (k + 1)) with (- Z.of_nat k - 1) by lia. rewrite B. pose proof (Z.mod_pos_bound (- Z.of_nat k) 10).
        pose proof (Z.div_mod (- Z.of_nat k) 10). destruct (0 <? (- Z.of_nat k) mod 10) eqn:P.
        - symmetry. apply Z.mod_unique with (q := (- Z.of_nat k) / 10); lia.
        - symmetry. apply Z.mod_unique with (q := (- Z.of_nat k) / 10 - 1); lia. }
      rewrite M. destruct (0 <? heartbeat n); [inversion E1; subst; reflexivity|]. dob E1. inversion E1; subst. reflexivity.
    + dob E. destruct x as [n3 o3]. inversion E; subst. apply start_time in E1. lia.
    + dob E. inversion E; subst. unfold replicate in E1. dob E1. inversion E1; subst. exact B.
    + dob E. destruct x as [n3 r]. inversion E; subst. apply process_time in E1 as (Q & _). congruence.
Qed.

Lemma to_send_l nx : forall l pre, 
  exists p2 es, l = p2 ++ es /\ (forall e, In e p2 -> eidx e < nx) /\ (match es with e :: _ => nx <= eidx e | [] => True end) /\
    to_send l nx (last_term pre) (last_index pre) = (last_term (pre ++ p2), last_index (pre ++ p2), es).
Proof.
  induction l as [|e l IH]; intro pre; cbn [to_send].
  - exists [], []. split; [reflexivity|]. split; [intros ? []|]. split; [exact Logic.I|now rewrite app_nil_r].
  - destruct (nx <=? eidx e) eqn:P.
    + exists [], (e :: l). split; [reflexivity|]. split; [intros ? []|]. split; [lia|now rewrite app_nil_r].
    + destruct (IH (pre ++ [e])) as (p2 & es & -> & A & B & C). exists (e :: p2), es. split; [reflexivity|]. split.
      * intros x [<-|Hx]; [lia|auto].
      * split; [exact B|]. replace (pre ++ e :: p2) with ((pre ++ [e]) ++ p2) by (rewrite <- app_assoc; reflexivity). rewrite <- C.
        unfold last_term, last_index. rewrite rev_app_distr. reflexivity.
Qed.

(** * What a leader knows *)
Definition knows (n : node) (v : Z -> Z * Z) : Prop :=
  forall q, In q (peers n) -> matchi q = snd (v (pid q)) /\ (nexti q = None \/ nexti q = Some (fst (v (pid q)))).

Lemma map_peers_in f ps ps' q' : map_peers f ps = OK ps' -> In q' ps' -> exists q, In q ps /\ f q = OK q'.
Proof.
  revert ps'. induction ps as [|p ps IH]; intros ps' H I; cbn in H.
  - inversion H; subst. destruct I.
  - dob H. dob H. inversion H; subst. destruct I as [<-|I]; [exists p; split; [now left|auto]|]. destruct (IH _ E0 I) as (q & A & B). exists q. split; [now right|auto].
Qed.

Definition prot_q (f last : Z) (p : peer) : res peer :=
  if pid p =? f then try x := int (last + 1) in OK (mkpeer (pid p) last (Some x)) else OK p.
Lemma ack_knows f last n ps v : knows n v -> map_peers (prot_q f last) (peers n) = OK ps ->
  forall q, In q ps -> let w := if f =? pid q then (last + 1, last) else v (pid q) in matchi q = snd w /\ (nexti q = None \/ nexti q = Some (fst w)).
Proof.
  intros K H q' I. destruct (map_peers_in _ _ _ _ H I) as (q & A & B). destruct (K q A) as [K1 K2]. unfold prot_q in B.
  destruct (pid q =? f) eqn:P.
  - dob B. inversion B; subst. unfold int in E. destruct (_ && _); inversion E; subst. cbn. apply Z.eqb_eq in P. subst. rewrite Z.eqb_refl. auto.
  - inversion B; subst. rewrite Z.eqb_sym, P. auto.
Qed.

Lemma knows_step n i n' out v : keeps_peers i -> node_step n i = OK (n', out) -> knows n v -> knows n' (fun p => learn p n i n' (v p)).
Proof.
  intros P H K. destruct i as [rnd| |op|rnd sort m]; cbn [node_step keeps_peers] in *.
  - dob H. destruct x as [n1 o]. inversion H; subst. unfold tick in E.
    assert (SM : peers n' = peers n -> is_leader n' && negb (is_leader n) = false -> knows n' (fun p => learn p n (ITick rnd) n' (v p))).
    { intros A B. unfold knows, learn. rewrite A, B. exact K. }
    destruct (state n) eqn:S.
    1,2: destruct (0 <? election n); [inversion E; subst; apply SM; unfold is_leader; cbn; rewrite ?S; reflexivity|];
         dob E; destruct x as [n2 o2]; inversion E; subst; unfold start_election in E0; rewrite S in E0; dob E0; inversion E0; subst; apply SM; reflexivity.
    destruct (0 <? heartbeat n); [inversion E; subst|dob E; inversion E; subst]; apply SM; unfold is_leader; cbn; rewrite ?S; reflexivity.
  - dob H. destruct x as [n1 o]. inversion H; subst. unfold start_election in E. unfold knows, learn.
    destruct (state n) eqn:S; [dob E|dob E|]; inversion E; subst; unfold is_leader; cbn; rewrite ?S; cbn; exact K.
  - dob H. inversion H; subst. unfold replicate in E. dob E. inversion E; subst. unfold knows, learn, is_leader. cbn. destruct (state n); exact K.
  - dob H. destruct x as [n1 r]. inversion H; subst. clear H. destruct m as [t f lli llt|t f g|t f lc pt pi es|t f b l]; cbn [process] in E.
    + destruct ((term n <? t) && _ && _ || _); inversion E; subst; unfold knows, learn, is_leader; cbn; [|destruct (state n')]; exact K.
    + destruct (state n) eqn:S; try (inversion E; subst; unfold knows, learn, is_leader; rewrite S; cbn; exact K).
      destruct g.
      * dob E. destruct (vote_count n) as [c|] eqn:C; cbn in E0; inversion E0; subst x. clear E0.
        inversion E; subst. destruct (_ <=? _); unfold knows, learn, is_leader; cbn; rewrite ?S; cbn; [|exact K].
        intros q Hq. apply in_map_iff in Hq as (q0 & <- & Hq). cbn. auto.
      * destruct (term n <? t); inversion E; subst; unfold knows, learn, is_leader; cbn; rewrite ?S; exact K.
    + assert (SM : peers n' = peers n -> (state n' = state n \/ state n' = Follower) -> knows n' (fun p => learn p n (IMsg rnd sort (AppReq t f lc pt pi es)) n' (v p))).
      { intros A B. unfold knows, learn, is_leader. rewrite A. destruct B as [-> | ->]; [destruct (state n)|]; exact K. }
      set (n2 := if term (reset_election_timer rnd n) <? t then _ else _) in E.
      assert (A2 : peers n2 = peers n /\ (state n2 = state n \/ state n2 = Follower)) by (unfold n2; destruct (_ <? _); cbn; auto).
      clearbody n2. destruct A2 as [A2 B2].
      destruct (t <? term n2); [inversion E; subst; auto|]. destruct (_ && _); [inversion E; subst; auto|]. dob E. inversion E; subst.
      destruct (_ <? _); [|inversion E0; subst; auto]. dob E0. apply commit_timers in E1 as (_ & _ & X1 & _ & _ & X2 & _). inversion E0; subst. cbn in *.
      apply SM; [congruence|]. cbn. rewrite X1. exact B2.
    + destruct b.
      * dob E. dob E. destruct x0 as [n3 new]. dob E. inversion E; subst. unfold find_safe_index in E1. dob E1. inversion E1; subst n3. clear E1.
        apply commit_timers in E2 as (_ & _ & X1 & _ & _ & X2 & _). cbn in *. pose proof (ack_knows f l n x v K E0) as AK.
        unfold knows, learn. cbn. replace (is_leader _ && negb (is_leader n)) with false by (unfold is_leader; cbn; rewrite X1; destruct (state n); reflexivity).
        rewrite X2. intros q Hq. apply (Permutation_in _ (P x)) in Hq. apply AK. exact Hq.
      * dob E. inversion E; subst. unfold knows, learn. replace (is_leader _ && negb (is_leader n)) with false by (unfold is_leader; cbn; destruct (state n); reflexivity).
        cbn [set_peers peers]. intros q' Hq. destruct (map_peers_in _ _ _ _ E0 Hq) as (q & A & B). destruct (K q A) as [K1 K2].
        destruct (pid q =? f) eqn:PF.
        -- dob B. dob B. inversion B; subst. destruct (nexti q) as [nx|] eqn:NX; cbn in E1; inversion E1; subst x0. clear E1.
           unfold int in E2. destruct (_ && _); inversion E2; subst. cbn. apply Z.eqb_eq in PF. subst f. rewrite Z.eqb_refl. cbn. split; [exact K1|].
           right. destruct K2 as [K2|K2]; [discriminate|]. injection K2 as ->. reflexivity.
        -- inversion B; subst. rewrite Z.eqb_sym, PF. auto.
Qed.

Lemma knows_run is : forall n n' tr v, Forall keeps_peers is -> node_run n is = OK (n', tr) -> knows n v -> knows n' (fun p => known p n is (v p)).
Proof.
  induction is as [|i is IH]; intros n n' tr v P H K; cbn [node_run known] in *.
  - inversion H; subst. exact K.
  - inversion P; subst. dob H. destruct x as [n1 o]. dob H. destruct x as [n2 tr2]. inversion H; subst. rewrite E.
    exact (IH _ _ _ _ H3 E0 (knows_step _ _ _ _ _ H2 E K)).
Qed.
Lemma knows_new i ps : knows (new_node i ps) (fun _ => (0, 0)).
Proof. intros q Hq. cbn in Hq. apply in_map_iff in Hq as (p & <- & _). cbn. auto. Qed.

Lemma ids_run is : forall n n' tr, Forall keeps_peers is -> node_run n is = OK (n', tr) -> id n' = id n /\ Permutation (map pid (peers n')) (map pid (peers n)).
Proof.
  induction is as [|i is IH]; intros n n' tr P H; cbn [node_run] in *.
  - inversion H; subst. auto.
  - inversion P; subst. dob H. destruct x as [n1 o]. dob H. destruct x as [n2 tr2]. inversion H; subst.
    destruct (IH _ _ _ H3 E0) as [A B].
    assert (S : id n1 = id n /\ Permutation (map pid (peers n1)) (map pid (peers n))).
    { destruct i as [rnd| |op|rnd sort m]; cbn [node_step keeps_peers] in *.
      - dob E. destruct x as [n3 o3]. inversion E; subst. apply tick_votes in E1 as (X & Y & _). rewrite X, Y. auto.
      - dob E. destruct x as [n3 o3]. inversion E; subst. apply election_votes in E1 as (X & Y & _). rewrite X, Y. auto.
      - dob E. inversion E; subst. apply replicate_same in E1 as [(X & _) Y]. rewrite X, Y. auto.
      - dob E. destruct x as [n3 r]. inversion E; subst. apply process_votes in E1 as [X V]; [|exact H2]. split; [exact X|]. inversion V; subst; auto;
          match goal with Q : peers _ = peers _ |- _ => rewrite Q; auto | Q : map pid _ = map pid _ |- _ => rewrite Q; auto end. }
    destruct S as [S1 S2]. split; [congruence|]. eapply Permutation_trans; eauto.
Qed.

Lemma heartbeats_l n v : knows n v -> forall ps out, incl ps (peers n) -> heartbeats n ps = OK out ->
  map fst out = map pid ps /\
  forall p m, In (p, m) out -> exists pre es, rlog_ n = pre ++ es /\ (forall e, In e pre -> eidx e < fst (v p)) /\
    (match es with e :: _ => fst (v p) <= eidx e | [] => True end) /\ m = AppReq (term n) (id n) (commit n) (last_term pre) (last_index pre) es.
Proof.
  intro K. induction ps as [|q ps IH]; intros out I H; cbn [heartbeats] in H.
  - inversion H; subst. split; [reflexivity|contradiction].
  - dob H. destruct (to_send _ _ _ _) as [[pt pi] es] eqn:TS. dob H. inversion H; subst.
    destruct (IH x0) as [A B]; [intros z Hz; apply I; now right|exact E0|]. split; [cbn; now rewrite A|].
    intros p m [[= <- <-]|Hin]; [|auto]. destruct (K q) as [_ KN]; [apply I; now left|].
    destruct (nexti q) as [nx|]; cbn in E; inversion E; subst x. destruct KN as [KN|KN]; [discriminate|]. injection KN as ->.
    destruct (to_send_l (fst (v (pid q))) (rlog_ n) []) as (pre & es' & L & X & Y & Z0). cbn [last_term last_index rev app] in Z0.
    rewrite TS in Z0. injection Z0 as -> -> ->. exists pre, es'. auto.
Qed.

(** * Commit *)
Lemma commit_l rnd sort n t f b last n' r v : (forall l, Permutation (sort l) l) -> knows n v -> process rnd sort n (AppReply t f b last) = OK (n', r) ->
  commit n' = commit n \/
  b = true /\ exists p e, In p (map pid (peers n)) /\ snd (learn p n (IMsg rnd sort (AppReply t f b last)) n' (v p)) = commit n' /\ In e (rlog_ n) /\ eidx e = commit n' /\ eterm e = term n.
Proof.
  intros P K H. assert (HS := H). cbn [process] in H. destruct b.
  - dob H. dob H. destruct x0 as [n3 new]. dob H. inversion H; subst. unfold find_safe_index in E0. dob E0. injection E0 as <- <-.
    pose proof (commit_timers _ _ _ _ E1) as (_ & _ & X1 & _ & _ & X2 & X3). cbn in X1, X2, X3. cbn [set_commit commit].
    destruct (existsb _ _) eqn:EX; [|left; cbn; reflexivity]. right. split; [reflexivity|]. cbn in EX. apply existsb_exists in EX as (e & IE & EE).
    cbn in E2. destruct (nth_error (sort x) _) as [q|] eqn:NQ; cbn in E2; inversion E2; subst. clear E2. rename x1 into q.
    apply nth_error_In, (Permutation_in _ (P x)) in NQ. pose proof (ack_knows f last n x v K E q NQ) as [AK _].
    exists (pid q), e. split.
    + apply (in_map pid) in NQ. fold (prot_q f last) in E. rewrite (map_peers_pids (prot_q f last) (peers n) x) in NQ; auto.
      intros p1 q1 B. unfold prot_q in B. destruct (pid p1 =? f); [dob B|]; inversion B; subst; reflexivity.
    + split; [|split; [exact IE|lia]].
      unfold learn. replace (is_leader _ && negb (is_leader n)) with false by (unfold is_leader; cbn; rewrite X1; destruct (state n); reflexivity).
      rewrite AK. reflexivity.
  - dob H. inversion H; subst. left. reflexivity.
Qed.

(** * A stale leader *)
Lemma quiet_ticks n h : state n <> Leader -> forall k, node_run (set_timers n h (Z.of_nat k)) (repeat (ITick 0) k) = OK (set_timers n h 0, repeat (ITick 0, []) k).
Proof.
  intros NL k. induction k as [|k IH]; [reflexivity|]. cbn [repeat node_run node_step].
  assert (T : tick 0 (set_timers n h (Z.of_nat (S k))) = OK (set_timers n h (Z.of_nat k), [])).
  { unfold tick. cbn [set_timers state election heartbeat]. replace (0 <? Z.of_nat (S k)) with true by lia.
    replace (Z.of_nat (S k) - 1) with (Z.of_nat k) by lia. destruct (state n); [reflexivity|reflexivity|congruence]. }
  rewrite T. cbn [rbind map]. rewrite IH. reflexivity.
Qed.
