(** Proofs for raft.hpp: no undefined behaviour, logs are numbered, what is applied. *)
From Coq Require Import ZArith List Bool Arith Permutation Lia ZifyBool.
From Verif Require Import CBase RaftModel RaftSpec RaftProofs RaftProofs2.
Import ListNotations.
Local Open Scope Z_scope.

Definition numb (off : Z) (l : rlog) : Prop := forall k e, nth_error l k = Some e -> eidx e = off + Z.of_nat k + 1.
Lemma numb_cons off e l : numb off (e :: l) <-> eidx e = off + 1 /\ numb (off + 1) l.
Proof.
  split.
  - intro H. split; [rewrite (H 0%nat e eq_refl); lia|]. intros k x X. rewrite (H (S k) x X). lia.
  - intros [A B] [|k] x X; cbn in X; [inversion X; subst; lia|]. rewrite (B _ _ X). lia.
Qed.
Lemma numb_app off l l' : numb off (l ++ l') <-> numb off l /\ numb (off + Z.of_nat (length l)) l'.
Proof.
  revert off. induction l as [|e l IH]; intro off.
  - cbn. rewrite Z.add_0_r. split; [intro; split; auto; intros [|k] ? H0; discriminate H0|tauto].
  - cbn [app length]. rewrite !numb_cons, IH. replace (off + Z.of_nat (S (length l))) with (off + 1 + Z.of_nat (length l)) by lia. tauto.
Qed.
Lemma numb_nil off : numb off []. Proof. intros [|k] e H; discriminate. Qed.
Lemma numbered_numb l : numbered l <-> numb 0 l.
Proof. unfold numbered, numb. split; intros H k e E; rewrite (H k e E); lia. Qed.
Lemma numb_in off l e : numb off l -> In e l -> off + 1 <= eidx e <= off + Z.of_nat (length l).
Proof. intros N I. apply In_nth_error in I as [k K]. pose proof (N _ _ K). assert (k < length l)%nat by (apply nth_error_Some; congruence). lia. Qed.
Lemma numb_firstn off l i : numb off l -> numb off (firstn i l).
Proof. intro H. rewrite <- (firstn_skipn i l) in H. apply numb_app in H. tauto. Qed.
Lemma last_numb l : numb 0 l -> last_index l = Z.of_nat (length l).
Proof.
  intro H. unfold last_index. destruct l as [|e l] using rev_ind; [reflexivity|]. rewrite rev_app_distr. cbn.
  apply numb_app in H as [_ H]. apply numb_cons in H as [H _]. rewrite H, app_length. cbn. lia.
Qed.

Lemma rc_firstn l new : exists i, remove_conflicting l new = firstn i l /\
  (i = length l \/ exists e n, nth_error l i = Some e /\ In n new /\ eidx n = eidx e).
Proof.
  induction l as [|e l IH]; [exists 0%nat; auto|]. cbn. destruct (existsb _ new) eqn:E.
  - apply existsb_exists in E as (n & I & B). exists 0%nat. split; [reflexivity|]. right. exists e, n. cbn. repeat split; auto. lia.
  - destruct IH as (i & -> & D). exists (S i). split; [reflexivity|]. destruct D as [->|D]; [now left|now right].
Qed.

Lemma merge_fold es : forall l pi, numb 0 l -> numb pi es -> 0 <= pi -> (length l <= LOG_SIZE)%nat -> (pi <= Z.of_nat (length l) \/ length l = LOG_SIZE) ->
  let r := fold_left (fun l e => if last_index l <? eidx e then append l e else l) es l in numb 0 r /\ (length r <= LOG_SIZE)%nat.
Proof.
  induction es as [|e es IH]; intros l pi NL NE P L D; cbn; [auto|].
  apply numb_cons in NE as [EI NE]. rewrite (last_numb _ NL). unfold append.
  destruct (Z.of_nat (length l) <? eidx e) eqn:B; [destruct (length l <? LOG_SIZE)%nat eqn:F|].
  - apply Nat.ltb_lt in F. assert (pi = Z.of_nat (length l)) by lia. apply (IH _ (pi + 1)); auto; try lia.
    + apply numb_app. split; auto. apply numb_cons. split; [lia|apply numb_nil].
    + rewrite app_length. cbn. lia.
    + rewrite app_length. cbn. lia.
  - apply Nat.ltb_ge in F. apply (IH _ (pi + 1)); auto; lia.
  - apply (IH _ (pi + 1)); auto; lia.
Qed.
Lemma merge_numb l es pi : numb 0 l -> numb pi es -> 0 <= pi <= Z.of_nat (length l) -> (length l <= LOG_SIZE)%nat -> numb 0 (merge l es) /\ (length (merge l es) <= LOG_SIZE)%nat.
Proof.
  intros NL NE P L. unfold merge. destruct (rc_firstn l es) as (i & -> & D).
  assert (LI : (length (firstn i l) <= LOG_SIZE)%nat) by (rewrite firstn_length; lia).
  apply (merge_fold es _ pi); auto; try lia; [now apply numb_firstn|]. left. rewrite firstn_length.
  destruct D as [->|(e & n & E & IN & EQ)]; [lia|]. pose proof (NL _ _ E). pose proof (numb_in _ _ _ NE IN).
  assert (i < length l)%nat by (apply nth_error_Some; congruence). lia.
Qed.
Lemma append_in l e x : In x (append l e) -> In x l \/ x = e.
Proof. unfold append. destruct (_ <? _)%nat; auto. intro I. apply in_app_iff in I as [I|[I|[]]]; auto. Qed.
Lemma merge_in l es x : In x (merge l es) -> In x l \/ In x es.
Proof.
  unfold merge. assert (R : In x (remove_conflicting l es) -> In x l).
  { destruct (rc_firstn l es) as (i & -> & _). intro I. rewrite <- (firstn_skipn i l). apply in_app_iff. auto. }
  assert (G : forall es acc, In x (fold_left (fun l e => if last_index l <? eidx e then append l e else l) es acc) -> In x acc \/ In x es).
  { clear. induction es as [|e es IH]; intros acc H; cbn in H; auto. apply IH in H as [H|H]; [|right; now right].
    destruct (_ <? _); auto. apply append_in in H as [H|H]; auto. right. left. auto. }
  intro H. apply G in H as [H|H]; auto.
Qed.

(** Applying. *)
Lemma apply_ok l : forall k i ap, (i + k <= length l)%nat -> apply_entries k i l ap = OK (ap ++ map eop (firstn k (skipn i l))).
Proof.
  induction k as [|k IH]; intros i ap L; cbn [apply_entries]; [now rewrite app_nil_r|].
  destruct (nth_error l i) as [e|] eqn:E; [|apply nth_error_None in E; lia]. cbn [some rbind]. rewrite IH by lia.
  rewrite <- app_assoc. f_equal. f_equal. destruct (nth_error_split l i E) as (a & b & -> & LA). subst i.
  assert (S1 : forall m (a : list entry) b, skipn (length a + m) (a ++ b) = skipn m b) by (clear; induction a; intros; cbn; auto).
  replace (length a) with (length a + 0)%nat at 2 by lia. replace (S (length a)) with (length a + 1)%nat by lia. rewrite !S1. reflexivity.
Qed.
Lemma skip_numb l : forall off c, numb off l -> 0 <= off -> off <= c -> skip_committed l c = Nat.min (Z.to_nat (c - off)) (length l).
Proof.
  induction l as [|e l IH]; intros off c N O C; cbn; [lia|]. apply numb_cons in N as [E N]. destruct (eidx e <=? c) eqn:B; [|lia].
  rewrite (IH (off + 1)) by (auto; lia). lia.
Qed.
Lemma ops_firstn l : forall off a b, numb off l -> a <= off -> filter (fun e => (a <? eidx e) && (eidx e <=? b)) l = firstn (Z.to_nat (b - off)) l.
Proof.
  induction l as [|e l IH]; intros off a b N A; cbn; [now rewrite firstn_nil|]. apply numb_cons in N as [E N].
  rewrite (IH (off + 1)) by (auto; lia). replace (a <? eidx e) with true by lia. cbn. destruct (eidx e <=? b) eqn:B.
  - replace (Z.to_nat (b - off)) with (S (Z.to_nat (b - (off + 1)))) by lia. reflexivity.
  - replace (Z.to_nat (b - off)) with 0%nat by lia. replace (Z.to_nat (b - (off + 1))) with 0%nat by lia. reflexivity.
Qed.
Lemma ops_slice l : forall off a b, numb off l -> off <= a -> filter (fun e => (a <? eidx e) && (eidx e <=? b)) l = firstn (Z.to_nat (b - a)) (skipn (Z.to_nat (a - off)) l).
Proof.
  induction l as [|e l IH]; intros off a b N A; [now rewrite skipn_nil, firstn_nil|].
  destruct (Z.eq_dec a off) as [->|D]; [rewrite Z.sub_diag; cbn [Z.to_nat skipn]; now apply ops_firstn|].
  pose proof N as N0. apply numb_cons in N as [E N]. cbn [filter]. replace (a <? eidx e) with false by lia. cbn [andb].
  rewrite (IH (off + 1)) by (auto; lia). replace (Z.to_nat (a - off)) with (S (Z.to_nat (a - (off + 1)))) by lia. reflexivity.
Qed.
Lemma commit_ok n old new : numb 0 (rlog_ n) -> 0 <= old -> (new <= old \/ new <= Z.of_nat (length (rlog_ n))) ->
  commit_log_entries n old new = OK (set_commit n (commit n) (applied n ++ ops_between (rlog_ n) old new)).
Proof.
  intros N O B. unfold commit_log_entries. rewrite (skip_numb _ 0) by (auto; lia). rewrite Z.sub_0_r. unfold ops_between. rewrite (ops_slice _ 0) by (auto; lia). rewrite Z.sub_0_r.
  destruct (Z_le_gt_dec new old).
  - replace (Z.to_nat (new - old)) with 0%nat by lia. cbn. now rewrite app_nil_r.
  - rewrite apply_ok by lia. cbn [rbind]. repeat f_equal. lia.
Qed.

(** The invariant. [k] bounds the number of moves made. *)
Definition ready (n : node) : Prop := peers n <> [] /\ forall p, In p (peers n) -> nexti p <> None.
Record NI (k : Z) (n : node) : Prop := {
  n_log : numb 0 (rlog_ n);
  n_len : (length (rlog_ n) <= LOG_SIZE)%nat;
  n_terms : forall e, In e (rlog_ n) -> 1 <= eterm e;
  n_term : 0 <= term n <= k;
  n_commit : 0 <= commit n;
  n_cand : state n <> Follower -> 1 <= term n;
  n_votes : state n = Candidate -> vote_count n <> None;
  n_lead : state n = Leader -> forall p, In p (peers n) -> nexti p <> None;
  n_next : forall p x, In p (peers n) -> nexti p = Some x -> - k <= x <= 11 }.
Definition MI (k : Z) (m : message) : Prop :=
  match m with
  | VoteRequest t _ _ _ | VoteReply t _ _ => 0 <= t <= k
  | AppReq t _ _ pt pi es => 0 <= t <= k /\ 0 <= pi /\ (0 < pi -> 0 < pt) /\ numb pi es /\ forall e, In e es -> 1 <= eterm e
  | AppReply _ _ _ last => 0 <= last <= 10
  end.
Lemma NI_mono k k' n : k <= k' -> NI k n -> NI k' n.
Proof. intros L [A B C D E F G H I]. constructor; auto; try lia. intros p x P X. specialize (I _ _ P X). lia. Qed.
Lemma MI_mono k k' m : k <= k' -> MI k m -> MI k' m.
Proof. intros L. destruct m; cbn; intuition lia. Qed.

Lemma map_peers_ok f ps : (forall p, In p ps -> exists q, f p = OK q) -> exists qs, map_peers f ps = OK qs /\ Forall2 (fun p q => f p = OK q) ps qs.
Proof.
  induction ps as [|p ps IH]; intro H; cbn; [exists []; auto|]. destruct (H p (or_introl eq_refl)) as [q Q].
  destruct IH as (qs & E & F); [intros; apply H; now right|]. exists (q :: qs). rewrite Q, E. cbn. auto.
Qed.
Lemma Forall2_in_r A B (R : A -> B -> Prop) l l' y : Forall2 R l l' -> In y l' -> exists x, In x l /\ R x y.
Proof. induction 1; intros I; [destruct I|]. destruct I as [<-|I]; [exists x; split; [now left|auto]|]. destruct (IHForall2 I) as (z & Z1 & Z2). exists z. split; [now right|auto]. Qed.

Definition exact_apply (n n' : node) : Prop := applied n' = applied n ++ ops_between (rlog_ n') (commit n) (commit n').
Lemma ops_none l c : ops_between l c c = [].
Proof. unfold ops_between. replace (filter _ l) with (@nil entry); [reflexivity|]. symmetry. induction l as [|e l IH]; [reflexivity|]. cbn. replace ((c <? eidx e) && (eidx e <=? c)) with false by lia. auto. Qed.
Lemma exact_same n n' : applied n' = applied n -> commit n' = commit n -> exact_apply n n'.
Proof. intros A C. unfold exact_apply. rewrite A, C, ops_none. now rewrite app_nil_r. Qed.

Lemma process_ok k rnd sort n m : 0 <= k < 2 ^ 31 - 1 -> (forall l, Permutation (sort l) l) -> NI k n -> MI k m ->
  (forall a b c d, m = AppReply a b c d -> ready n) ->
  exists n' r, process rnd sort n m = OK (n', r) /\ NI (k + 1) n' /\ (forall x, r = Some x -> MI (k + 1) x /\ (forall a b c d e f, x <> AppReq a b c d e f)) /\ (ready n -> ready n') /\ exact_apply n n'
    /\ (forall x a b c d, r = Some x -> x = AppReply a b c d -> exists t f lc pt pi es, m = AppReq t f lc pt pi es).
Proof.
  intros K P I M RD. pose proof I as [A B C D E F G H J].
  assert (IK : NI (k + 1) n) by (eapply NI_mono; eauto; lia).
  destruct m as [t f lli llt|t f g|t f lc pt pi es|t f b l]; cbn [process] in *; cbn in M.
  - destruct (_ || _) eqn:V; do 2 eexists; (split; [reflexivity|]); (split; [|split; [intros x X; inversion X; subst; split; [cbn; lia|discriminate]|split; [auto|split; [now apply exact_same|intros; subst; discriminate]]]]).
    + constructor; cbn; auto; try lia; try discriminate; try congruence. intros p x X Y. specialize (J p x X Y). lia.
    + auto.
  - assert (ID : exists n' r, OK (n, None) = OK (n', r) /\ NI (k + 1) n' /\ (forall x : message, r = Some x -> MI (k + 1) x /\ (forall a b c d e f, x <> AppReq a b c d e f)) /\ (ready n -> ready n') /\ exact_apply n n'
        /\ (forall x a b c d, r = Some x -> x = AppReply a b c d -> exists t0 f0 lc pt pi es, VoteReply t f g = AppReq t0 f0 lc pt pi es)).
    { do 2 eexists. split; [reflexivity|]. split; [auto|]. split; [discriminate|]. split; [auto|]. split; [now apply exact_same|discriminate]. }
    destruct (state n) eqn:S; auto. destruct g.
    + destruct (vote_count n) as [c|] eqn:VC; [|now destruct (G eq_refl)]. cbn [some rbind].
      destruct (_ <=? _); do 2 eexists; (split; [reflexivity|]); (split; [|split; [discriminate|split; [|split; [now apply exact_same|discriminate]]]]).
      * constructor; cbn; auto; try lia; try discriminate.
        -- intros _. apply F. congruence.
        -- intros _ p X. apply in_map_iff in X as (q & <- & _). discriminate.
        -- intros p x X Y. apply in_map_iff in X as (q & <- & _). cbn in Y. inversion Y. rewrite (last_numb _ A). unfold LOG_SIZE in B. lia.
      * intros [R1 R2]. split; cbn; [now destruct (peers n)|]. intros p X. apply in_map_iff in X as (q & <- & _). discriminate.
      * constructor; cbn; auto; try lia; try (rewrite ?S; discriminate).
        all: try (intros _; apply F; congruence).
        all: try (intros p x X Y; specialize (J p x X Y); lia).
      * auto.
    + destruct (term n <? t) eqn:L; auto. do 2 eexists. split; [reflexivity|]. split; [|split; [discriminate|split; [auto|split; [now apply exact_same|discriminate]]]].
      constructor; cbn; auto; try lia; try discriminate; try congruence. intros p x X Y. specialize (J p x X Y). lia.
  - destruct M as (M1 & M2 & M3 & M4 & M5).
    cbv zeta. set (n1 := if term (reset_election_timer rnd n) <? t then _ else _).
    assert (N1 : NI (k + 1) n1 /\ rlog_ n1 = rlog_ n /\ commit n1 = commit n /\ applied n1 = applied n /\ peers n1 = peers n /\ t <= term n1).
    { unfold n1. cbn. destruct (term n <? t) eqn:L; (split; [|repeat split; cbn; auto; lia]).
      - constructor; cbn; auto; try lia; try discriminate; try congruence. intros p x X Y. specialize (J p x X Y). lia.
      - destruct IK. constructor; cbn; auto. }
    clearbody n1. destruct N1 as (N1 & L1 & C1 & A1 & P1 & T1).
    assert (FAIL : exists n' r, OK (n1, Some (AppReply 0 (id n1) false 0)) = OK (n', r) /\ NI (k + 1) n' /\ (forall x, r = Some x -> MI (k + 1) x /\ (forall a b c d e f, x <> AppReq a b c d e f)) /\ (ready n -> ready n') /\ exact_apply n n'
        /\ (forall x a b c d, r = Some x -> x = AppReply a b c d -> exists t0 f0 lc0 pt0 pi0 es0, AppReq t f lc pt pi es = AppReq t0 f0 lc0 pt0 pi0 es0)).
    { do 2 eexists. split; [reflexivity|]. split; [auto|]. split; [intros x X; inversion X; subst; split; [cbn; lia|discriminate]|]. split; [unfold ready; now rewrite P1|].
      split; [now apply exact_same|]. intros. eauto 9. }
    destruct (t <? term n1); [exact FAIL|]. destruct ((0 <? pi) && _ && _) eqn:PF; [exact FAIL|]. clear FAIL.
    assert (PL : 0 <= pi <= Z.of_nat (length (rlog_ n))).
    { split; [auto|]. destruct (Z.eq_dec pi 0); [lia|]. assert (FE : find_entry (rlog_ n1) pt pi = true) by lia.
      unfold find_entry in FE. rewrite L1 in FE. apply existsb_exists in FE as (e & IE & Q). pose proof (numb_in _ _ _ A IE). lia. }
    destruct (merge_numb (rlog_ n) es pi A M4 PL B) as [MN ML].
    set (n2 := set_log n1 (merge (rlog_ n1) es)).
    assert (N2 : NI (k + 1) n2).
    { destruct N1. constructor; cbn; auto; rewrite L1; auto. intros e IE. apply merge_in in IE as [IE|IE]; auto. }
    assert (RN : forall n3, NI (k + 1) n3 -> peers n3 = peers n -> exact_apply n n3 ->
      exists n' r, OK (n3, Some (AppReply 0 (id n3) true (last_index (rlog_ n3)))) = OK (n', r) /\ NI (k + 1) n' /\ (forall x, r = Some x -> MI (k + 1) x /\ (forall a b c d e f, x <> AppReq a b c d e f)) /\ (ready n -> ready n') /\ exact_apply n n'
        /\ (forall x a b c d, r = Some x -> x = AppReply a b c d -> exists t0 f0 lc0 pt0 pi0 es0, AppReq t f lc pt pi es = AppReq t0 f0 lc0 pt0 pi0 es0)).
    { intros n3 N3 P3 E3. do 2 eexists. split; [reflexivity|]. split; [auto|]. split.
      - intros x X. inversion X; subst. split; [|discriminate]. cbn. destruct N3. rewrite last_numb by auto. unfold LOG_SIZE in *. lia.
      - split; [unfold ready; now rewrite P3|]. split; [auto|]. intros. eauto 9. }
    destruct (commit n2 <? lc) eqn:CL; cbn [rbind].
    + rewrite commit_ok; [|apply N2|apply N2|right; rewrite last_numb by apply N2; lia]. cbn [rbind].
      apply RN; [|auto|].
      * destruct N2. constructor; cbn in *; auto. rewrite last_numb by auto. rewrite C1 in *. lia.
      * unfold exact_apply. cbn. now rewrite A1, C1.
    + apply RN; auto. now apply exact_same.
  - destruct b.
    + destruct (map_peers_ok (fun p => if pid p =? f then try x := int (l + 1) in OK (mkpeer (pid p) l (Some x)) else OK p) (peers n)) as (qs & -> & FQ).
      { intros p _. destruct (pid p =? f); [|eauto]. unfold int. replace ((_ <=? _) && _) with true by lia. cbn. eauto. }
      cbn [rbind]. unfold find_safe_index. cbn [set_peers peers term rlog_ commit].
      destruct (RD _ _ _ _ eq_refl) as [RD1 RD2].
      assert (LQ : length qs = length (peers n)) by (clear - FQ; induction FQ; cbn; auto).
      assert (LS : length (sort qs) = length (peers n)) by (rewrite <- LQ; apply Permutation_length, P).
      destruct (nth_error (sort qs) (Nat.max (length (sort qs) / 2) 1 - 1)) as [p|] eqn:NP.
      2:{ exfalso. apply nth_error_None in NP. assert (0 < length (sort qs))%nat by (rewrite LS; destruct (peers n); [congruence|cbn; lia]).
          assert (length (sort qs) / 2 <= length (sort qs))%nat by (apply Nat.div_le_upper_bound; lia). lia. }
      cbn [some rbind]. set (new := if existsb _ _ then _ else _).
      assert (NB : (new = commit n \/ 1 <= new <= Z.of_nat (length (rlog_ n)))).
      { unfold new. destruct (existsb _ _) eqn:Q; auto. right. apply existsb_exists in Q as (e & IE & Q). pose proof (numb_in _ _ _ A IE). lia. }
      clearbody new. rewrite commit_ok; cbn [rlog_ set_peers commit]; auto; [|destruct NB; lia].
      assert (PIN : forall q, In q (sort qs) -> (exists x, nexti q = Some x /\ 1 <= x <= 11) \/ In q (peers n)).
      { intros q Q. assert (Q' : In q qs) by (eapply Permutation_in; [apply P|auto]). destruct (Forall2_in_r _ _ _ _ _ _ FQ Q') as (p0 & P0 & R).
        destruct (pid p0 =? f); [left|right; inversion R; subst; auto]. dob R. unfold int in E0. destruct (_ && _) in E0; inversion E0; subst. inversion R; subst. cbn. exists (l + 1). split; auto. lia. }
      cbn [rbind]. do 2 eexists. split; [reflexivity|]. split; [|split; [discriminate|split; [|split; [|discriminate]]]].
      * destruct IK. constructor; cbn; auto; try lia.
        -- intros S p0 Q. destruct (PIN _ Q) as [(x & X & _)|X]; [congruence|auto].
        -- intros p0 x Q X. destruct (PIN _ Q) as [(y & Y & R)|Y]; [rewrite X in Y; inversion Y; subst; lia|]. specialize (J _ _ Y X). lia.
      * intros _. split; cbn; [intro Q; rewrite Q in LS; destruct (peers n); [congruence|discriminate]|].
        intros p0 Q. destruct (PIN _ Q) as [(x & X & _)|X]; [congruence|auto].
      * reflexivity.
    + destruct (RD _ _ _ _ eq_refl) as [RD1 RD2].
      destruct (map_peers_ok (fun p => if pid p =? f then try x := some (nexti p) in try x := int (x - 1) in OK (mkpeer (pid p) (matchi p) (Some x)) else OK p) (peers n)) as (qs & -> & FQ).
      { intros p IP. destruct (pid p =? f); [|eauto]. destruct (nexti p) as [x|] eqn:X; [|now destruct (RD2 _ IP)]. specialize (J _ _ IP X).
        cbn [some rbind]. unfold int. replace ((_ <=? _) && _) with true by lia. cbn. eauto. }
      cbn [rbind].
      assert (PIN : forall q, In q qs -> exists x, nexti q = Some x /\ - (k + 1) <= x <= 11).
      { intros q Q. destruct (Forall2_in_r _ _ _ _ _ _ FQ Q) as (p0 & P0 & R). destruct (nexti p0) as [y|] eqn:Y; [|now destruct (RD2 _ P0)]. specialize (J _ _ P0 Y).
        destruct (pid p0 =? f); [|inversion R; subst; exists y; split; auto; lia]. dob R. dob R. inversion E0; subst. unfold int in E1. destruct (_ && _) in E1; inversion E1; subst. inversion R; subst. cbn. eexists. split; [reflexivity|]. lia. }
      do 2 eexists. split; [reflexivity|]. split; [|split; [discriminate|split; [|split; [now apply exact_same|discriminate]]]].
      * destruct IK. constructor; cbn; auto; try lia.
        -- intros S p0 Q. destruct (PIN _ Q) as (x & X & _). congruence.
        -- intros p0 x Q X. destruct (PIN _ Q) as (y & Y & R). rewrite X in Y. inversion Y; subst. lia.
      * intros _. split; cbn; [intros ->; inversion FQ; congruence|]. intros p0 Q. destruct (PIN _ Q) as (x & X & _). congruence.
Qed.

Lemma to_send_ok l nx : forall pt pi, numb pi l -> 0 <= pi -> (0 < pi -> 0 < pt) -> (forall e, In e l -> 1 <= eterm e) ->
  let '(pt', pi', es) := to_send l nx pt pi in numb pi' es /\ 0 <= pi' /\ (0 < pi' -> 0 < pt') /\ forall e, In e es -> 1 <= eterm e.
Proof.
  induction l as [|e l IH]; intros pt pi N P Q T; cbn; [auto|]. destruct (nx <=? eidx e); [auto|].
  apply numb_cons in N as [E N]. rewrite E. apply IH; auto; try lia. intros _. specialize (T e (or_introl eq_refl)). lia. intros; apply T; now right.
Qed.
Lemma heartbeats_ok k n : NI k n -> forall ps, incl ps (peers n) -> (forall p, In p ps -> nexti p <> None) ->
  exists out, heartbeats n ps = OK out /\ forall d m, In (d, m) out -> MI k m /\ (exists a b c e f g, m = AppReq a b c e f g) /\ from_id m = id n /\ peers n <> [].
Proof.
  intros I. induction ps as [|p ps IH]; intros INC R; [exists []; split; auto; intros ? ? []|]. cbn.
  destruct (nexti p) as [nx|] eqn:X; [|now destruct (R p (or_introl eq_refl))]. cbn [some rbind].
  pose proof (to_send_ok (rlog_ n) nx 0 0 (n_log _ _ I) ltac:(lia) ltac:(lia) (n_terms _ _ I)) as TS.
  destruct (to_send (rlog_ n) nx 0 0) as [[pt pi] es]. destruct IH as (out & -> & O); [intros q Q; apply INC; now right|intros; apply R; now right|]. cbn [rbind].
  eexists. split; [reflexivity|]. intros d m [Q|Q]; [inversion Q; subst|now apply O in Q].
  split; [cbn; pose proof (n_term _ _ I); tauto|]. split; [eauto 9|]. split; [reflexivity|]. specialize (INC p (or_introl eq_refl)). now destruct (peers n).
Qed.
Definition sent_ok (k : Z) (n n' : node) (out : list (Z * message)) : Prop :=
  forall d m, In (d, m) out -> MI k m /\ (forall a b c e, m <> AppReply a b c e) /\ (forall a b c e f g, m = AppReq a b c e f g -> ready n' /\ b = id n).
Lemma start_ok k n : 0 <= k < 2 ^ 31 - 1 -> NI k n -> exists n' out, start_election n = OK (n', out) /\ NI (k + 1) n' /\ sent_ok (k + 1) n n' out /\ (ready n -> ready n') /\ exact_apply n n' /\ id n' = id n.
Proof.
  intros K I. pose proof I as [A B C D E F G H J]. unfold start_election.
  assert (S : exists n' out, (try t := int (term n + 1) in OK (set_vote n t (Some 0) (id n) Candidate,
          map (fun p => (pid p, VoteRequest t (id n) (last_index (rlog_ n)) (last_term (rlog_ n)))) (peers n))) = OK (n', out) /\ NI (k + 1) n' /\ sent_ok (k + 1) n n' out /\ (ready n -> ready n') /\ exact_apply n n' /\ id n' = id n).
  { unfold int. replace ((_ <=? _) && _) with true by lia. cbn [rbind]. do 2 eexists. split; [reflexivity|]. split; [|split; [|split; [auto|split; [now apply exact_same|reflexivity]]]].
    - constructor; cbn; auto; try lia; try discriminate. intros p x X Y. specialize (J p x X Y). lia.
    - intros d m X. apply in_map_iff in X as (p & Q & _). inversion Q; subst. split; [cbn; lia|]. split; discriminate. }
  destruct (state n); auto. do 2 eexists. split; [reflexivity|]. split; [eapply NI_mono; eauto; lia|]. split; [intros ? ? []|]. split; [auto|]. split; [now apply exact_same|reflexivity].
Qed.
Lemma tick_ok k rnd n : 0 <= k < 2 ^ 31 - 1 -> NI k n -> exists n' out, tick rnd n = OK (n', out) /\ NI (k + 1) n' /\ sent_ok (k + 1) n n' out /\ (ready n -> ready n') /\ exact_apply n n' /\ id n' = id n.
Proof.
  intros K I. assert (IK : NI (k + 1) n) by (eapply NI_mono; eauto; lia). unfold tick.
  assert (TM : forall a b, NI (k + 1) (set_timers n a b)) by (intros; destruct IK; constructor; cbn; auto).
  assert (S : exists n' out, (if 0 <? election n then OK (set_timers n (heartbeat n) (election n - 1), [])
      else try (n, out) := start_election n in OK (reset_election_timer rnd n, out)) = OK (n', out) /\ NI (k + 1) n' /\ sent_ok (k + 1) n n' out /\ (ready n -> ready n') /\ exact_apply n n' /\ id n' = id n).
  { destruct (0 <? election n).
    - do 2 eexists. split; [reflexivity|]. split; [auto|]. split; [intros ? ? []|]. split; [auto|]. split; [now apply exact_same|reflexivity].
    - destruct (start_ok k n K I) as (n' & out & -> & A & B & C & D & E). cbn [rbind]. do 2 eexists. split; [reflexivity|]. split; [destruct A; constructor; cbn; auto|]. auto. }
  destruct (state n) eqn:L; auto. clear S. destruct (0 <? heartbeat n).
  - do 2 eexists. split; [reflexivity|]. split; [auto|]. split; [intros ? ? []|]. split; [auto|]. split; [now apply exact_same|reflexivity].
  - destruct (heartbeats_ok (k + 1) n IK (peers n)) as (out & -> & O); [apply incl_refl|apply (n_lead _ _ I L)|]. cbn [rbind].
    do 2 eexists. split; [reflexivity|]. split; [auto|]. split; [|split; [auto|split; [now apply exact_same|reflexivity]]].
    intros d m X. apply O in X as (X1 & (a & b & c & e & f & g & ->) & X3 & X4). split; [auto|]. split; [discriminate|]. intros ? ? ? ? ? ? Q. inversion Q; subst. split; [|exact X3].
    split; [exact X4|]. cbn. apply (n_lead _ _ I L).
Qed.
Lemma replicate_ok k n op : 0 <= k < 2 ^ 31 - 1 -> NI k n -> state n = Leader -> exists n', replicate n op = OK n' /\ NI (k + 1) n' /\ (ready n -> ready n') /\ exact_apply n n' /\ id n' = id n.
Proof.
  intros K I L. assert (IK : NI (k + 1) n) by (eapply NI_mono; eauto; lia). pose proof I as [A B C D E F G H J]. unfold replicate.
  rewrite (last_numb _ A). unfold LOG_SIZE in B. unfold int. replace ((_ <=? _) && _) with true by lia. cbn [rbind].
  eexists. split; [reflexivity|]. split; [|split; [auto|split; [now apply exact_same|reflexivity]]].
  destruct IK. constructor; cbn; auto.
  - unfold append. destruct (_ <? _)%nat; auto. apply numb_app. split; auto. apply numb_cons. cbn. split; [lia|apply numb_nil].
  - unfold append. destruct (_ <? _)%nat eqn:Q; auto. apply Nat.ltb_lt in Q. rewrite app_length. cbn. unfold LOG_SIZE in *. lia.
  - intros e X. apply append_in in X as [X| ->]; auto. cbn. apply F. congruence.
Qed.

Record SInv (k : Z) (s : cluster) : Prop := {
  s_node : forall i n, nth_error (nodes s) i = Some n -> NI k n /\ id n = Z.of_nat i + 1;
  s_net : forall d m, In (d, m) (net s) -> MI k m;
  s_req : forall d t f lc pt pi es, In (d, AppReq t f lc pt pi es) (net s) -> 1 <= f /\ exists n, nth_error (nodes s) (node_of_id f) = Some n /\ ready n;
  s_rep : forall d a b c e, In (d, AppReply a b c e) (net s) -> exists n, nth_error (nodes s) (node_of_id d) = Some n /\ ready n }.

(** Node [i] becomes [n']; messages are added. *)
Lemma s_upd k s s' i n n' out : SInv k s -> 0 <= k -> nth_error (nodes s) i = Some n -> nodes s' = upd (nodes s) i n' ->
  NI (k + 1) n' -> id n' = id n -> (ready n -> ready n') -> (forall x, In x (net s') -> In x (net s) \/ In x out) ->
  (forall d m, In (d, m) out -> MI (k + 1) m /\
     (forall a b c e f g, m = AppReq a b c e f g -> ready n' /\ b = id n) /\
     (forall a b c e, m = AppReply a b c e -> exists x, nth_error (nodes s) (node_of_id d) = Some x /\ ready x)) ->
  SInv (k + 1) s'.
Proof.
  intros I K H EN N' EI R NET O.
  assert (RR : forall j x, nth_error (nodes s) j = Some x -> ready x -> exists y, nth_error (nodes s') j = Some y /\ ready y).
  { intros j x J X. rewrite EN, upd_nth. destruct (Nat.eqb_spec i j); [subst; rewrite J; exists n'; split; auto; apply R; congruence|eauto]. }
  constructor.
  - rewrite EN. intros j x. rewrite upd_nth. destruct (Nat.eqb_spec i j).
    + subst. rewrite H. intro Q. inversion Q; subst. split; [auto|]. rewrite EI. apply (s_node _ _ I _ _ H).
    + intro Q. destruct (s_node _ _ I _ _ Q). split; auto. eapply NI_mono; eauto. lia.
  - intros d m X. apply NET in X as [X|X]; [eapply MI_mono; [|eapply (s_net _ _ I); eauto]; lia|]. now apply O in X.
  - intros d t f lc pt pi es X. apply NET in X as [X|X].
    + apply (s_req _ _ I) in X as (F & x & X1 & X2). split; [auto|]. eapply RR; eauto.
    + apply O in X as (_ & X & _). destruct (X _ _ _ _ _ _ eq_refl) as [X1 X2]. destruct (s_node _ _ I _ _ H) as [_ ID]. subst f. rewrite ID. split; [lia|].
      exists n'. rewrite EN, upd_nth. unfold node_of_id. replace (Z.to_nat _) with i by lia. rewrite Nat.eqb_refl, H. auto.
  - intros d a b c e X. apply NET in X as [X|X].
    + apply (s_rep _ _ I) in X as (x & X1 & X2). eapply RR; eauto.
    + apply O in X as (_ & _ & X). destruct (X _ _ _ _ eq_refl) as (x & X1 & X2). eapply RR; eauto.
Qed.

Definition step_exact (s s' : cluster) : Prop :=
  forall i n, nth_error (nodes s) i = Some n -> exists n', nth_error (nodes s') i = Some n' /\ exact_apply n n'.
Lemma exact_upd s s' i n n' : nth_error (nodes s) i = Some n -> nodes s' = upd (nodes s) i n' -> exact_apply n n' -> step_exact s s'.
Proof.
  intros H E X j m J. rewrite E, upd_nth. destruct (Nat.eqb_spec i j); [subst; rewrite H; exists n'; split; auto; congruence|].
  exists m. split; auto. now apply exact_same.
Qed.

Theorem move_ok k s m : 0 <= k < 2 ^ 31 - 1 -> sorts m -> leader_writes s m -> SInv k s -> exists s', do_move s m = OK s' /\ SInv (k + 1) s' /\ step_exact s s'.
Proof.
  intros K SO LW I.
  assert (ID : forall net', (forall x, In x net' -> In x (net s)) -> forall h, SInv (k + 1) (mkcluster (nodes s) net' h) /\ step_exact s (mkcluster (nodes s) net' h)).
  { intros net' H h. split; [|intros i n E; exists n; split; auto; now apply exact_same]. constructor; cbn.
    - intros i n E. destruct (s_node _ _ I _ _ E). split; auto. eapply NI_mono; eauto. lia.
    - intros d x X. eapply MI_mono; [|eapply (s_net _ _ I); eauto]. lia.
    - intros. eapply (s_req _ _ I); eauto.
    - intros. eapply (s_rep _ _ I); eauto. }
  assert (SAME : exists s', OK s = OK s' /\ SInv (k + 1) s' /\ step_exact s s').
  { exists s. split; auto. destruct s as [a b c]. apply ID. auto. }
  destruct m as [i rnd|i|i op|j rnd sort|j|j]; cbn [do_move].
  - destruct (nth_error (nodes s) i) as [n|] eqn:E; auto. destruct (s_node _ _ I _ _ E) as [NN _].
    destruct (tick_ok k rnd n K NN) as (n' & out & -> & A & B & C & D & F). cbn [rbind]. eexists. split; [reflexivity|].
    split; [|eapply exact_upd; eauto; reflexivity]. eapply (s_upd k s _ i n n' out); eauto; try reflexivity; try lia.
    + intros x X. cbn in X. now apply in_app_iff in X.
    + intros d m X. destruct (B _ _ X) as (B1 & B2 & B3). split; [auto|]. split; [auto|]. intros a b c e Q. now apply B2 in Q.
  - destruct (nth_error (nodes s) i) as [n|] eqn:E; auto. destruct (s_node _ _ I _ _ E) as [NN _].
    destruct (start_ok k n K NN) as (n' & out & -> & A & B & C & D & F). cbn [rbind]. eexists. split; [reflexivity|].
    split; [|eapply exact_upd; eauto; reflexivity]. eapply (s_upd k s _ i n n' out); eauto; try reflexivity; try lia.
    + intros x X. cbn in X. now apply in_app_iff in X.
    + intros d m X. destruct (B _ _ X) as (B1 & B2 & B3). split; [auto|]. split; [auto|]. intros a b c e Q. now apply B2 in Q.
  - destruct (nth_error (nodes s) i) as [n|] eqn:E; auto. destruct (s_node _ _ I _ _ E) as [NN _].
    destruct (replicate_ok k n op K NN (LW _ E)) as (n' & -> & A & C & D & F). cbn [rbind]. eexists. split; [reflexivity|].
    split; [|eapply exact_upd; eauto; reflexivity]. eapply (s_upd k s _ i n n' []); eauto; try reflexivity; try lia. intros ? ? [].
  - destruct (nth_error (net s) j) as [[d m]|] eqn:M; auto. assert (IM : In (d, m) (net s)) by (eapply nth_error_In; eauto).
    destruct (nth_error (nodes s) (node_of_id d)) as [n|] eqn:E; [|eexists; split; [reflexivity|apply ID; intros x X; eapply remove_in; eauto]].
    destruct (s_node _ _ I _ _ E) as [NN _].
    destruct (process_ok k rnd sort n m K SO NN (s_net _ _ I _ _ IM)) as (n' & r & P & A & B & C & D & F).
    { intros a b c e ->. apply (s_rep _ _ I) in IM as (x & X1 & X2). congruence. }
    pose proof P as P0. apply process_votes in P0 as [EI _]; [|exact SO].
    rewrite P. cbn [rbind]. eexists. split; [reflexivity|]. split; [|eapply exact_upd; eauto; reflexivity].
    eapply (s_upd k s _ (node_of_id d) n n' (match r with Some r => [(from_id m, r)] | None => [] end)); eauto; try reflexivity; try lia.
    + intros x X. cbn in X. apply in_app_iff in X as [X|X]; [left; eapply remove_in; eauto|auto].
    + intros e x X. destruct r as [r|]; [|contradiction]. destruct X as [X|[]]. inversion X; subst e x. destruct (B r eq_refl) as [B1 B2]. split; [auto|]. split.
      * intros a b c e f g Q. now apply B2 in Q.
      * intros a b c e Q. destruct (F r a b c e eq_refl Q) as (t & f & lc & pt & pi & es & ->). cbn. apply (s_req _ _ I) in IM. tauto.
  - eexists. split; [reflexivity|]. apply ID. intros x X. apply in_app_iff in X as [X|X]; auto. destruct (nth_error (net s) j) eqn:M; [|contradiction].
    destruct X as [<-|[]]. eapply nth_error_In; eauto.
  - eexists. split; [reflexivity|]. apply ID. intros x X. eapply remove_in; eauto.
Qed.

Lemma s_init N : SInv 0 (init N).
Proof.
  constructor; cbn [net init]; try (intros; contradiction).
  intros i n H. apply init_nth in H as [L ->]. split; [|reflexivity]. constructor; cbn; try (intros; contradiction); try discriminate; try lia.
  - apply numb_nil.
  - intros p x X. apply in_map_iff in X as (q & <- & _). discriminate.
Qed.

Theorem run_ok ms : forall k s, 0 <= k -> k + Z.of_nat (length ms) < 2 ^ 31 - 1 -> SInv k s -> Forall sorts ms -> always leader_writes s ms ->
  exists s', run s ms = OK s' /\ SInv (k + Z.of_nat (length ms)) s'.
Proof.
  induction ms as [|m ms IH]; intros k s K L I F A; cbn [run].
  - exists s. split; auto. cbn. now rewrite Z.add_0_r.
  - cbn [length] in *. inversion F; subst. destruct A as [A1 A2]. destruct (move_ok k s m) as (s' & E & I' & _); auto; try lia. rewrite E in *. cbn [rbind].
    destruct (IH (k + 1) s') as (s2 & R & I2); auto; try lia. exists s2. split; auto. replace (k + Z.of_nat (S (length ms))) with (k + 1 + Z.of_nat (length ms)) by lia. auto.
Qed.
