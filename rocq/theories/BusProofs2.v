(** Proofs for the message bus: every move keeps the invariant. *)
From Coq Require Import ZArith List Bool Arith Lia.
From Verif Require Import CBase BusModel BusSpec BusProofs.
Import ListNotations.
Local Open Scope Z_scope.

Section Run.
Variables (bufs : list (list Z)) (ng : nat).
Notation Inv := (Inv bufs ng).
Notation T := (T bufs ng).

Definition simple_pc (s : sys) (p p' : pc) : Prop :=
  (forall l, In l (held p') -> In l (held p) \/ locked l (thr s) = false) /\
  (forall t, cop p' t = cop p t) /\ (forall t n, naming p' t n -> naming p t n) /\
  (forall n, p' = FindBlk n -> lookup (log s) n = None) /\
  (forall t cs, p = AdvCb t cs -> exists cs', p' = AdvCb t cs').

Lemma simple0 bud s i p p' : Inv bud s -> nth_error (thr s) i = Some p -> simple_pc s p p' -> T (log s) i p' ->
  (forall t, pnd t p' <= pnd t p)%nat -> Inv bud (goto s i p').
Proof.
  intros I N (A & B & C & D & E) HT P. unfold goto, set_thr. rewrite <- (app_nil_r (log s)).
  apply (inv_simple bufs ng bud bud s i p p' None); auto; try discriminate.
  - cbn. now rewrite app_nil_r.
  - intro t. specialize (P t). lia.
Qed.
Lemma simple1 bud bud' s i p p' e : Inv bud s -> nth_error (thr s) i = Some p -> simple_pc s p p' -> T (log s ++ [e]) i p' ->
  (forall t, pnd t p' + bud t <= pnd t p + bud' t)%nat -> neutral e -> event_ok bufs (log s) e -> (forall j o, e = ECall j o -> j = i) ->
  Inv bud' (say (goto s i p') e).
Proof.
  intros I N (A & B & C & D & E) HT P Ne EO EC. unfold say, goto, set_thr. cbn [topics groups head cbs thr log].
  apply (inv_simple bufs ng bud bud' s i p p' (Some e)); auto.
  intros x X. inversion X; subst. auto.
Qed.

Ltac spc := split; [intros l Hl; cbn [held] in *; first [left; exact Hl|destruct Hl as [<-|Hl]; [auto|try contradiction Hl; try (left; exact Hl)]|contradiction Hl|idtac]|
   split; [intro; reflexivity|split; [intros ? ? [X|X]; first [discriminate X|inversion X; subst; left; reflexivity|inversion X; subst; right; reflexivity]|
   split; [intros ? X; first [discriminate X|idtac]|intros ? ? X; first [discriminate X|idtac]]]]].

Lemma spc_acq s p p' l : held p' = held p ++ [l] -> locked l (thr s) = false -> (forall t, cop p' t = cop p t) ->
  (forall t n, naming p' t n -> naming p t n) -> (forall n, p' <> FindBlk n) -> (forall t cs, p <> AdvCb t cs) -> simple_pc s p p'.
Proof.
  intros H L C N F A. split; [|split; [auto|split; [auto|split]]].
  - intros l' Hl. rewrite H in Hl. apply in_app_iff in Hl as [Hl|[<-|[]]]; auto.
  - intros n E. now apply F in E.
  - intros t cs E. now apply A in E.
Qed.
Lemma spc_rel s p p' : incl (held p') (held p) -> (forall t, cop p' t = cop p t) ->
  (forall t n, naming p' t n -> naming p t n) -> (forall n, p' = FindBlk n -> lookup (log s) n = None) -> (forall t cs, p <> AdvCb t cs) -> simple_pc s p p'.
Proof.
  intros H C N F A. split; [|split; [auto|split; [auto|split; [auto|]]]].
  - intros l Hl. left. auto.
  - intros t cs E. now apply A in E.
Qed.

Ltac acq L := apply spc_acq with (l := L); [reflexivity|assumption|reflexivity|let Z := fresh in intros ? ? [Z|Z]; first [discriminate Z|inversion Z; subst; left; reflexivity]|discriminate|discriminate].
Ltac rel := apply spc_rel; [intros ? Hl; cbn in *; tauto|reflexivity|let Z := fresh in intros ? ? [Z|Z]; discriminate Z|discriminate|discriminate].

Lemma acquire_inv bud s i l p p' : Inv bud s -> nth_error (thr s) i = Some p ->
  (locked l (thr s) = false -> Inv bud (goto s i p')) -> exists s', acquire s i l p' = Next s' /\ Inv bud s'.
Proof.
  intros I N H. unfold acquire. destruct (locked l (thr s)); eexists; split; try reflexivity; auto.
Qed.

Lemma inside_lt h i o t : inside bufs ng h i o ->
  match o with OPublish t' _ | OAdvertise t' _ | OStats t' | ORead t' _ | OWait t' _ | OWatch _ t' => t' = t | _ => False end -> (t < length bufs)%nat.
Proof. intros [L _]. destruct o; cbn in L; intro E; subst; try contradiction; lia. Qed.

Theorem step_inv bud s i : (forall t, bud t <= 1)%nat -> Inv bud s -> exists s', step s i = Next s' /\ Inv bud s'.
Proof.
  intros Hb I. unfold step. destruct (nth_error (thr s) i) as [p|] eqn:N; [|eauto].
  pose proof (v_T _ _ _ _ I _ _ N) as HT.
  destruct p; try (eexists; split; [reflexivity|exact I]); cbn [BusProofs.T] in HT.
  - (* PubAcq *) eapply acquire_inv; eauto. intro L. apply step_pubacq; auto.
  - (* PubCopy *) destruct HT as (A & L & K). assert (Lt : (t < length bufs)%nat) by (eapply inside_lt; eauto; reflexivity).
    destruct (topic_get _ _ _ _ _ I Lt) as [x X]. rewrite X. destruct (nth_error msg k) as [b|] eqn:B.
    + assert (KL : (k < length msg)%nat) by (apply nth_error_Some; congruence).
      pose proof (to_len _ _ _ _ (v_topic _ _ _ _ I _ _ X)) as LB. replace (k <? length (buf x))%nat with true by (symmetry; apply Nat.ltb_lt; lia).
      eexists. split; [reflexivity|]. apply step_copy; auto.
    + eexists. split; [reflexivity|]. eapply (step_publish bufs ng bud s i t msg k x); auto.
  - (* PubWatch *) destruct ws as [|g ws].
    + eexists. split; [reflexivity|]. eapply simple1; eauto; try exact Logic.I; [rel| |discriminate].
      cbn [event_ok]. destruct HT as (m & a & c1 & c2 & PB & W). exists m, a, c1, c2. split; [exact PB|]. intros g G. destruct (W g G) as [[]|]; auto.
    + eapply acquire_inv; eauto. intro L. eapply simple0; eauto. acq (LGroup g).
  - (* PubGroup *) eexists. split; [reflexivity|]. apply step_notify; auto.
  - eapply acquire_inv; eauto. intro L. eapply simple0; eauto. acq (LTopic t).
  - (* ReadTest *) assert (Lt : (t < length bufs)%nat) by (eapply inside_lt; eauto; reflexivity).
    destruct (topic_get _ _ _ _ _ I Lt) as [x X]. rewrite X. eexists. split; [reflexivity|].
    pose proof (to_pub _ _ _ _ (v_topic _ _ _ _ I _ _ X)) as P. destruct (published x).
    + eapply simple0; eauto; [rel|]. cbn [BusProofs.T]. split; [exact HT|]. split; [now destruct (pubs (log s) t)|]. split; [cbn; lia|reflexivity].
    + eapply simple0; eauto; [rel|]. cbn [BusProofs.T]. split; [exact HT|]. now destruct (pubs (log s) t).
  - (* ReadCopy *)
    assert (Hc : exists o, inside bufs ng (log s) i o /\ (o = ORead t len \/ o = OWait t len) /\ (length out <= len)%nat /\ out = firstn (length out) (contents bufs (log s) t)).
    { destruct wait; [exists (OWait t len)|exists (ORead t len)]; intuition. }
    destruct Hc as (o & A & OO & LO & CO). assert (Lt : (t < length bufs)%nat) by (eapply inside_lt; [exact A|]; destruct OO; subst; reflexivity).
    assert (LL : (len <= length (nth t bufs []))%nat) by (destruct A as [A _]; destruct OO; subst; cbn in A; lia).
    destruct (topic_get _ _ _ _ _ I Lt) as [x X]. rewrite X. pose proof (v_topic _ _ _ _ I _ _ X) as TO.
    assert (BU : buf x = contents bufs (log s) t).
    { apply (to_buf _ _ _ _ TO). intros j q J. destruct (cop q t) as [m|] eqn:C; [|reflexivity]. pose proof (cop_held _ _ _ C) as HH.
      assert (j = i) by (eapply (v_excl _ _ _ _ I); eauto; left; reflexivity). subst. rewrite N in J. inversion J; subst. discriminate. }
    pose proof (to_len _ _ _ _ TO) as LB.
    destruct (length out <? len)%nat eqn:LT.
    + apply Nat.ltb_lt in LT. destruct (nth_error (buf x) (length out)) as [b|] eqn:B; [|apply nth_error_None in B; lia].
      eexists. split; [reflexivity|]. eapply simple0; eauto; [rel|].
      assert (CO' : out ++ [b] = firstn (length (out ++ [b])) (contents bufs (log s) t)).
      { rewrite app_length. cbn. rewrite Nat.add_1_r. rewrite BU in B. rewrite (firstn_S _ _ _ _ B), <- CO. reflexivity. }
      assert (LO' : (length (out ++ [b]) <= len)%nat) by (rewrite app_length; cbn; lia).
      cbn [BusProofs.T]. destruct wait; intuition.
    + apply Nat.ltb_ge in LT. assert (EL : length out = len) by lia. destruct wait.
      * eexists. split; [reflexivity|]. eapply simple1; eauto; try exact Logic.I; [rel| |discriminate]. cbn [event_ok]. split; [apply HT|]. rewrite CO. now rewrite EL.
      * eexists. split; [reflexivity|]. eapply simple0; eauto; [rel|]. cbn [BusProofs.T]. destruct HT as (IN & P & _). split; [exact IN|].
        rewrite CO at 1. rewrite EL. now destruct (pubs (log s) t).
  - (* ReadRel *) eexists. split; [reflexivity|]. eapply simple1; eauto; try exact Logic.I; [rel| |discriminate]. cbn [event_ok]. destruct HT as [[_ A] B]. auto.
  - eapply acquire_inv; eauto. intro L. eapply simple0; eauto. acq (LTopic t).
  - (* WaitHold *) eexists. split; [reflexivity|]. eapply simple1; eauto; try exact Logic.I; [rel| |discriminate]. cbn [BusProofs.T].
    split; [apply inside_snoc; auto; discriminate|]. exists (log s), []. split; [reflexivity|]. intros e [].
  - (* WaitRe *) eapply acquire_inv; eauto. intro L. eapply simple0; eauto; [acq (LTopic t)|]. cbn [BusProofs.T length]. destruct HT. repeat (split; auto). lia.
  - eapply acquire_inv; eauto. intro L. eapply simple0; eauto. acq (LTopic t).
  - eapply acquire_inv; eauto. intro L. eapply simple0; eauto. acq (LGroup g).
  - (* WatchIn *) assert (Lt : (t < length bufs)%nat) by (eapply inside_lt; eauto; reflexivity).
    destruct (topic_get _ _ _ _ _ I Lt) as [x X]. rewrite X. eexists. split; [reflexivity|]. apply step_watch; auto.
  - eapply acquire_inv; eauto. intro L. eapply simple0; eauto. acq (LGroup g).
  - (* GwHold *) eexists. split; [reflexivity|]. eapply simple1; eauto; try exact Logic.I; [rel| |discriminate]. cbn [BusProofs.T].
    split; [apply inside_snoc; auto; discriminate|]. exists (log s), []. split; [reflexivity|]. intros e [].
  - eapply acquire_inv; eauto. intro L. eapply simple0; eauto. acq (LGroup g).
  - (* GwIn *) destruct HT as [[A A'] B]. cbn in A. destruct (nth_error (groups s) g) as [r|] eqn:G; [|apply nth_error_None in G; rewrite (v_glen _ _ _ _ I) in G; lia].
    eexists. split; [reflexivity|]. eapply simple1; eauto; try exact Logic.I; [rel| |discriminate]. cbn [event_ok]. split; [exact B|]. apply (v_grp _ _ _ _ I _ _ G).
  - (* AdvName *) assert (Lt : (t < length bufs)%nat) by (eapply inside_lt; eauto; reflexivity).
    destruct (topic_get _ _ _ _ _ I Lt) as [x X]. rewrite X. eexists. split; [reflexivity|]. apply step_advname; auto.
  - (* AdvAcq *) eapply acquire_inv; eauto. intro L. eapply simple0; eauto.
    apply spc_acq with (l := LBus); [reflexivity|assumption|reflexivity|intros ? ? [X|X]; inversion X; subst; left; reflexivity|discriminate|discriminate].
  - (* AdvLink *) assert (Lt : (t < length bufs)%nat) by (eapply inside_lt; eauto; reflexivity).
    destruct (topic_get _ _ _ _ _ I Lt) as [x X]. rewrite X. eexists. split; [reflexivity|]. eapply (step_advlink bufs ng bud Hb s i t name x); auto.
  - (* AdvCb *) destruct cs as [|c cs].
    + eexists. split; [reflexivity|]. apply step_advdone; auto.
    + eexists. split; [reflexivity|]. eapply simple1; eauto; try exact Logic.I; try discriminate.
      * split; [intros l Hl; left; exact Hl|]. split; [reflexivity|]. split; [let Z := fresh in intros ? ? [Z|Z]; discriminate Z|]. split; [discriminate|].
        intros t' cs' E. inversion E; subst. eauto.
      * cbn [BusProofs.T]. destruct HT as (nm & a & c1 & c2 & [E NC] & W). exists nm, a, c1, (c2 ++ [ECallback c t]). split; [split|].
        -- rewrite E. now rewrite <- !app_assoc; cbn; rewrite <- app_assoc.
        -- intros o H. rewrite app_assoc in H. apply in_app_iff in H as [H|[H|[]]]; [now apply NC in H|discriminate].
        -- intros g' G. destruct (W g' G) as [[->|H]|H]; auto; right; apply in_app_iff; cbn; auto.
  - eapply acquire_inv; eauto. intro L. eapply simple0; eauto. acq LBus.
  - (* FindIn *) rewrite (find_ok bufs ng bud Hb s name I). destruct blocking.
    + destruct (lookup (log s) name) as [t|] eqn:F.
      * eexists. split; [reflexivity|]. eapply simple1; eauto; try exact Logic.I; [rel| |discriminate]. cbn [event_ok]. split; [auto|]. right. split; [discriminate|apply HT].
      * eexists. split; [reflexivity|]. eapply simple0; eauto. apply spc_rel; [intros ? []|reflexivity|let Z := fresh in intros ? ? [Z|Z]; discriminate Z| |discriminate].
        intros n E. inversion E; subst. auto.
    + eexists. split; [reflexivity|]. eapply simple1; eauto; try exact Logic.I; [rel| |discriminate]. cbn [event_ok]. split; [auto|]. left. apply HT.
  - eapply acquire_inv; eauto. intro L. eapply simple0; eauto. acq LBus.
  - eapply acquire_inv; eauto. intro L. eapply simple0; eauto. acq LBus.
  - (* RegIn *) eexists. split; [reflexivity|]. apply step_reg; auto.
  - eapply acquire_inv; eauto. intro L. eapply simple0; eauto. acq (LTopic t).
  - (* StatIn *) assert (Lt : (t < length bufs)%nat) by (eapply inside_lt; eauto; reflexivity).
    destruct (topic_get _ _ _ _ _ I Lt) as [x X]. rewrite X. eexists. split; [reflexivity|].
    eapply simple1; eauto; try exact Logic.I; [rel| |discriminate]. cbn [event_ok]. destruct HT as [_ A]. split; [exact A|]. apply (to_msg _ _ _ _ (v_topic _ _ _ _ I _ _ X)).
Qed.

Definition adv_of (o : op) : list nat := match o with OAdvertise t _ => [t] | _ => [] end.
Theorem call_inv bud s i o : legal_op bufs ng o -> Inv bud s ->
  exists s', call s i o = Next s' /\ Inv (fun t => (bud t + count_occ Nat.eq_dec (adv_of o) t)%nat) s'.
Proof.
  intros LO I. unfold call.
  assert (MONO : forall s, Inv bud s -> Inv (fun t => (bud t + count_occ Nat.eq_dec (adv_of o) t)%nat) s).
  { intros s0 [? ? ? C ? ? ? ? ? ? ?]. constructor; auto. intro t. specialize (C t). lia. }
  destruct (nth_error (thr s) i) as [p|] eqn:N; [|eauto]. destruct p; try (eexists; split; [reflexivity|auto]).
  assert (SC : since_call (log s ++ [ECall i o]) i o []) by (exists (log s); split; [reflexivity|easy]).
  assert (IN : inside bufs ng (log s ++ [ECall i o]) i o) by (split; eauto).
  assert (EC : forall j o', ECall i o = ECall j o' -> j = i) by (intros j o' E; now inversion E).
  assert (GO : forall p', simple_pc s Idle p' -> T (log s ++ [ECall i o]) i p' ->
    (forall t, pnd t p' <= count_occ Nat.eq_dec (adv_of o) t)%nat -> Inv (fun t => (bud t + count_occ Nat.eq_dec (adv_of o) t)%nat) (goto (say s (ECall i o)) i p')).
  { intros p' SP TP PP. change (goto (say s (ECall i o)) i p') with (say (goto s i p') (ECall i o)).
    eapply simple1; eauto; try exact Logic.I. intro t. specialize (PP t). cbn [pnd]. lia. }
  destruct o; try (eexists; split; [reflexivity|]; apply GO; [rel|try exact IN; try exact Logic.I|intro; cbn; lia]).
  - (* publish *) cbn in LO. destruct (topic_get _ _ _ _ _ I LO) as [x X]. cbn [say topics]. rewrite X. eexists. split; [reflexivity|].
    pose proof (to_len _ _ _ _ (v_topic _ _ _ _ I _ _ X)) as LB. destruct (length (buf x) <? length msg)%nat eqn:LM.
    + apply Nat.ltb_lt in LM.
      assert (I1 : Inv (fun u => (bud u + count_occ Nat.eq_dec (adv_of (OPublish t msg)) u)%nat) (say s (ECall i (OPublish t msg)))).
      { assert (E : say s (ECall i (OPublish t msg)) = goto (say s (ECall i (OPublish t msg))) i Idle).
        { unfold goto, set_thr, say. cbn. f_equal. clear - N. revert i N. induction (thr s) as [|q l IH]; intros [|i] H; cbn in *; try discriminate; [now inversion H|]. f_equal. auto. }
        rewrite E. apply GO; [rel|exact Logic.I|intro; cbn; lia]. }
      assert (E : say (say s (ECall i (OPublish t msg))) (ERefused i t) = say (goto (say s (ECall i (OPublish t msg))) i Idle) (ERefused i t)).
      { unfold goto, set_thr, say. cbn. f_equal. clear - N. revert i N. induction (thr s) as [|q l IH]; intros [|i] H; cbn in *; try discriminate; [now inversion H|]. f_equal. auto. }
      rewrite E. eapply simple1; eauto; try exact Logic.I; [rel| |discriminate]. cbn [event_ok]. exists msg. split; [exact SC|]. lia.
    + apply Nat.ltb_ge in LM. apply GO; [rel| |intro; cbn; lia]. cbn [BusProofs.T]. split; [exact IN|]. lia.
  - (* advertise *) eexists. split; [reflexivity|]. apply GO; [rel|exact IN|]. intro u. cbn. destruct (Nat.eq_dec t u), (Nat.eqb_spec t u); try lia.
Qed.

Lemma init_inv n : Inv (fun _ => O) (init n bufs ng).
Proof.
  assert (TH : forall i p, nth_error (thr (init n bufs ng)) i = Some p -> p = Idle).
  { intros i p H. cbn in H. apply nth_error_In, repeat_spec in H. exact H. }
  assert (TP : forall t x, nth_error (topics (init n bufs ng)) t = Some x -> exists b, nth_error bufs t = Some b /\ x = mktopic b [] false [] None 0).
  { intros t x X. cbn in X. rewrite nth_error_map in X. destruct (nth_error bufs t) eqn:E; inversion X. eauto. }
  constructor.
  - intros i j p q l H _ L. apply TH in H. subst. destruct L.
  - intros i p H. apply TH in H. subst. exact Logic.I.
  - intros a e b H. destruct a; discriminate.
  - intro t. cbn. clear. induction n; cbn; lia.
  - intros i m H. apply TH in H. discriminate.
  - cbn. apply map_length.
  - intros t x X. apply TP in X as (b & B & ->). assert (NB : nth t bufs [] = b) by now apply nth_error_nth.
    constructor; cbn [buf published messages watchers]; auto.
    + now rewrite NB.
    + intros i p m H C. apply TH in H. subst. discriminate.
  - constructor; cbn; auto; try easy.
    + intros t x X _. apply TP in X as (b & _ & ->). reflexivity.
    + intros i p t m x H [K|K]; apply (TH i) in H; subst; discriminate.
  - cbn. apply repeat_length.
  - intros g r G. cbn in G. apply nth_error_In, repeat_spec in G. subst. reflexivity.
  - intros c [].
Qed.

Definition advs (ms : list move) : list nat := flat_map (fun m => match m with Call _ (OAdvertise t _) => [t] | _ => [] end) ms.
Theorem run_inv n ms : legal bufs ng ms -> exists s, run (init n bufs ng) ms = Next s /\ Inv (fun t => count_occ Nat.eq_dec (advs ms) t) s.
Proof.
  induction ms as [|m ms IH] using rev_ind; intros [LO ND].
  - exists (init n bufs ng). split; [reflexivity|]. apply init_inv.
  - assert (AE : advs (ms ++ [m]) = advs ms ++ match m with Call _ o => adv_of o | _ => [] end).
    { unfold advs. rewrite flat_map_app. cbn. rewrite app_nil_r. destruct m as [|? []]; reflexivity. }
    fold (advs (ms ++ [m])) in ND. apply Forall_app in LO as [LO LM]. rewrite AE in ND.
    assert (ND' : NoDup (advs ms)) by (eapply NoDup_app_l || (clear - ND; induction (advs ms); [constructor|]; inversion ND; subst; constructor; auto; intro; apply H1; apply in_app_iff; auto)).
    destruct IH as (s & R & I); [split; auto|]. unfold run. rewrite fold_left_app. cbn [fold_left]. fold (run (init n bufs ng) ms). rewrite R.
    assert (B : forall t, (count_occ Nat.eq_dec (advs ms) t <= 1)%nat) by (apply NoDup_count_occ; auto).
    destruct m as [i|i o]; cbn [do_move].
    + destruct (step_inv _ s i B I) as (s' & E & I'). exists s'. split; [exact E|]. rewrite AE, app_nil_r. exact I'.
    + inversion LM; subst. destruct (call_inv _ s i o H1 I) as (s' & E & I'). exists s'. split; [exact E|].
      destruct I' as [? ? ? C ? ? ? ? ? ? ?]. constructor; auto. intro t. rewrite AE, count_occ_app. apply C.
Qed.

(** Deadlock freedom. *)
Definition moves (s : sys) (i : nat) : Prop :=
  exists s', step s i = Next s' /\ nth_error (thr s') i <> nth_error (thr s) i.
Definition wants (p : pc) : option lock :=
  match p with
  | PubAcq t _ | ReadAcq t _ | WaitAcq t _ | WaitRe t _ | WatchAcq _ t | StatAcq t => Some (LTopic t)
  | PubWatch _ (g :: _) | WatchAcq2 g _ | GwAcq g | GwRe g => Some (LGroup g)
  | AdvAcq _ _ | FindAcq _ _ | FindRe _ | RegAcq _ => Some LBus
  | _ => None
  end.

Lemma goto_moves (l : list pc) i p p' : nth_error l i = Some p -> p' <> p -> nth_error (upd l i p') i <> nth_error l i.
Proof. intros N D. rewrite (upd_same _ _ _ _ _ N), N. congruence. Qed.
Lemma map_moves (l : list pc) i p p' w : nth_error l i = Some p -> p' <> p -> nth_error (upd (map w l) i p') i <> nth_error l i.
Proof. intros N D. rewrite (upd_same _ _ _ _ (w p)), N; [congruence|]. now rewrite nth_error_map, N. Qed.
Lemma list_neq A (a : list A) x : a ++ [x] <> a.
Proof. intro H. apply (f_equal (@length A)) in H. rewrite app_length in H. cbn in H. lia. Qed.
Lemma cons_neq A (a : list A) x : x :: a <> a.
Proof. intro H. apply (f_equal (@length A)) in H. cbn in H. lia. Qed.

Lemma free_moves bud s i p : (forall t, bud t <= 1)%nat -> Inv bud s -> nth_error (thr s) i = Some p -> busy p ->
  (forall l, wants p = Some l -> locked l (thr s) = false) -> moves s i.
Proof.
  intros Hb I N B W. destruct (step_inv bud s i Hb I) as (s' & E & _). exists s'. split; [exact E|].
  unfold step in E. rewrite N in E. unfold acquire in E.
  destruct p; try contradiction B; cbn [wants] in W; repeat rewrite (W _ eq_refl) in E;
    try (destruct ws; [|rewrite (W _ eq_refl) in E]); try (destruct cs);
    try (destruct (nth_error (topics s) _) as [x|]; [|discriminate E]);
    try (destruct (nth_error (groups s) _) as [r|]; [|discriminate E]);
    try (inversion E; subst; clear E; cbn [thr goto set_thr say set_topic set_head set_group set_cbs broadcast];
         first [eapply goto_moves; [exact N|congruence]|eapply map_moves; [exact N|congruence]]).
  - destruct (nth_error msg k).
    + destruct (_ <? _)%nat; inversion E; subst; cbn [thr goto set_thr say set_topic broadcast]. eapply goto_moves; [exact N|]. intro X. inversion X. lia.
    + inversion E; subst; cbn [thr goto set_thr say set_topic broadcast]. eapply map_moves; [exact N|discriminate].
  - inversion E; subst; cbn [thr goto set_thr say set_topic broadcast]. eapply goto_moves; [exact N|]. destruct (published x); discriminate.
  - destruct (_ <? _)%nat.
    + destruct (nth_error (buf x) _); inversion E; subst; cbn [thr goto set_thr say set_topic broadcast]. eapply goto_moves; [exact N|]. intro X. injection X. apply list_neq.
    + destruct wait; inversion E; subst; cbn [thr goto set_thr say set_topic broadcast]; (eapply goto_moves; [exact N|discriminate]).
  - inversion E; subst; cbn [thr goto set_thr say set_topic broadcast]. eapply goto_moves; [exact N|]. intro X. injection X. intro Y. symmetry in Y. now apply cons_neq in Y.
  - destruct (topic_by_name _ _ _ _) as [r|]; [|discriminate].
    destruct blocking, r; inversion E; subst; cbn [thr goto set_thr say set_topic broadcast]; (eapply goto_moves; [exact N|discriminate]).
Qed.

Theorem no_deadlock bud s i p : (forall t, bud t <= 1)%nat -> Inv bud s -> nth_error (thr s) i = Some p -> busy p ->
  exists j q, nth_error (thr s) j = Some q /\ busy q /\ moves s j.
Proof.
  intros Hb I.
  assert (HG : forall g j q, nth_error (thr s) j = Some q -> In (LGroup g) (held q) -> busy q /\ moves s j).
  { intros g j q N H. assert (busy q) by (destruct q; try exact Logic.I; destruct H). split; auto.
    eapply free_moves; eauto. intros l W. destruct q; try discriminate W; cbn in H; try (destruct ws; discriminate W); intuition discriminate. }
  assert (HB : forall j q, nth_error (thr s) j = Some q -> In LBus (held q) -> busy q /\ moves s j).
  { intros j q N H. assert (busy q) by (destruct q; try exact Logic.I; destruct H). split; auto.
    eapply free_moves; eauto. intros l W. destruct q; try discriminate W; cbn in H; intuition discriminate. }
  assert (HT : forall t j q, nth_error (thr s) j = Some q -> In (LTopic t) (held q) -> exists k r, nth_error (thr s) k = Some r /\ busy r /\ moves s k).
  { intros t j q N H. assert (BQ : busy q) by (destruct q; try exact Logic.I; destruct H).
    destruct (wants q) as [l|] eqn:W.
    - destruct (locked l (thr s)) eqn:L.
      + destruct l; try (destruct q; try discriminate W; try (destruct ws; discriminate W); cbn in H; intuition discriminate).
        apply locked_true in L as (k & r & Hk & Hr). exists k, r. split; [exact Hk|]. eapply HG; eauto.
      + exists j, q. split; [exact N|]. split; [exact BQ|]. eapply free_moves; eauto. intros l' E. congruence.
    - exists j, q. split; [exact N|]. split; [exact BQ|]. eapply free_moves; eauto. intros l' E. congruence. }
  intros N B. destruct (wants p) as [l|] eqn:W.
  - destruct (locked l (thr s)) eqn:L.
    + apply locked_true in L as (k & r & Hk & Hr). destruct l; [exists k, r; split; [exact Hk|eapply HB; eauto]|eapply HT; eauto|exists k, r; split; [exact Hk|eapply HG; eauto]].
    + exists i, p. split; [exact N|]. split; [exact B|]. eapply free_moves; eauto. intros l' E. congruence.
  - exists i, p. split; [exact N|]. split; [exact B|]. eapply free_moves; eauto. intros l' E. congruence.
Qed.
End Run.
