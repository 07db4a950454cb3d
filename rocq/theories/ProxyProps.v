(** Theorems on the proxies from UAVCAN to the message bus. *)
From Coq Require Import ZArith List Bool Arith Lia String.
From Verif Require Import EnumModel EnumSpec EnumProps BusModel ProxyModel ProxySpec.
Import ListNotations.
Local Open Scope list_scope.

Section P.
Variable message : Type.
Variable topic_name : name -> name.
Variable translate : message -> option (list Z).
Variable cap : nat.
Notation prun := (prun message topic_name translate). Notation delivers := (delivers message topic_name translate cap). Notation enum_events := (enum_events message).

Lemma erun_app a : forall en b, erun en (a ++ b) = match erun en a with Some en => erun en b | None => None end.
Proof. induction a as [|e a IH]; intros; cbn; auto. destruct (estep en e); auto. Qed.
Lemma enum_app a b : enum_events (a ++ b) = enum_events a ++ enum_events b.
Proof. apply flat_map_app. Qed.
Lemma distinct_app a b : names_distinct (a ++ b) -> names_distinct a.
Proof. unfold names_distinct, adds. rewrite flat_map_app, map_app. generalize (map fst (flat_map (fun e => match e with Add s d => [(s, d)] | _ => [] end) b)). intros l H. induction (map fst _) as [|x m IH]; [constructor|]. cbn in H. inversion_clear H. constructor; [intro I; apply H0; apply in_or_app; now left|auto]. Qed.
Lemma ids_app a b : ids_ok (a ++ b) -> ids_ok a.
Proof. intros H s c I. apply (H s c). apply in_or_app. now left. Qed.

Definition swapped (p : proxy) : list (nat * name) := map (fun x => (snd x, fst x)) (topic_map p).
Definition wf (p : proxy) : Prop := NoDup (map fst (topic_map p)) /\ map snd (topic_map p) = rev (seq 0 (fresh p)).
Lemma find_In m n t : find m n = Some t -> In (n, t) m.
Proof. induction m as [|(n', t') m IH]; cbn; [discriminate|]. destruct (list_eq_dec Z.eq_dec n' n); [intro H; injection H as <-; subst; now left|auto]. Qed.
Lemma find_None m n : find m n = None -> ~ In n (map fst m).
Proof. induction m as [|(n', t') m IH]; cbn; auto. destruct (list_eq_dec Z.eq_dec n' n); [discriminate|]. intros H [->|I]; [congruence|]. now apply IH. Qed.
Lemma lookup_topic (m : list (name * nat)) n t : In (n, t) m -> NoDup (map snd m) -> List.find (fun a => Nat.eqb (fst a) t) (map (fun x : name * nat => (snd x, fst x)) m) = Some (t, n).
Proof.
  induction m as [|(n', t') m IH]; [intros []|]. intros [E|I] ND; cbn in *.
  - injection E as -> ->. now rewrite Nat.eqb_refl.
  - inversion_clear ND as [|? ? NI ND']. destruct (Nat.eqb_spec t' t); [subst; destruct NI; change t with (snd (n, t)); now apply in_map|]. auto.
Qed.
Lemma wf_nodup p : wf p -> NoDup (map snd (topic_map p)).
Proof. intros (_ & E). rewrite E. apply NoDup_rev, seq_NoDup. Qed.

(** Adding more advertisements in front does not matter here: [published] is run from the current ones. *)
Lemma proxy_main : forall h past en p, erun (enumerator_init cap) (enum_events past) = Some en -> wf p -> names_distinct (enum_events (past ++ h)) -> ids_ok (enum_events (past ++ h)) ->
  exists en' p' ops l, prun (en, p) h = Some ((en', p'), ops) /\ wf p' /\ swapped p' = rev (adverts ops) ++ swapped p /\ published (swapped p) ops = Some l /\ delivers past h l /\
  (forall t n, In (t, n) (adverts ops) -> exists h1 src m h2 board, h = h1 ++ Msg src m :: h2 /\ sender message cap (past ++ h1) src board /\ n = topic_name board).
Proof.
  induction h as [|e h IH]; intros past en p E W ND IDS.
  - exists en, p, [], []. cbn. split; auto. split; auto. split; auto. split; auto. split; [constructor|]. intros t n [].
  - assert (EQ : past ++ e :: h = (past ++ [e]) ++ h) by now rewrite <- app_assoc. rewrite EQ in ND, IDS.
    pose proof ND as ND1. rewrite enum_app in ND1. apply distinct_app in ND1. pose proof IDS as ID1. rewrite enum_app in ID1. apply ids_app in ID1.
    destruct e as [ev|src m]; cbn [ProxyModel.prun pstep].
    + destruct (enumerator_counts cap _ ND1 ID1) as (en1 & E1 & _). pose proof E1 as E2. rewrite enum_app, erun_app, E in E2. cbn in E2. cbn [fst snd]. destruct (estep en ev) as [en2|]; [|discriminate]. injection E2 as ->.
      destruct (IH (past ++ [Enum ev]) en1 p E1 W ND IDS) as (en' & p' & ops & l & R & W' & SW & PB & DL & AD). rewrite R. exists en', p', ops, l. repeat split; auto; try apply W'; [now constructor|].
      intros t n I. destruct (AD t n I) as (h1 & src & m & h2 & board & -> & S & N). exists (Enum ev :: h1), src, m, h2, board. rewrite <- app_assoc in S. auto.
    + rewrite enum_app, app_nil_r in ND1. rewrite enum_app, app_nil_r in ID1. destruct (enumerator_lookup_by_can_id cap _ ND1 ID1) as (en1 & E1 & LK). rewrite E in E1. injection E1 as <-.
      assert (E' : erun (enumerator_init cap) (enum_events (past ++ [Msg src m])) = Some en) by (rewrite enum_app, app_nil_r; exact E).
      assert (EXT : forall ops, (forall t n, In (t, n) (adverts ops) -> exists h1 src0 m0 h2 board, h = h1 ++ Msg src0 m0 :: h2 /\ sender message cap ((past ++ [Msg src m]) ++ h1) src0 board /\ n = topic_name board) ->
                forall t n, In (t, n) (adverts ops) -> exists h1 src0 m0 h2 board, Msg src m :: h = h1 ++ Msg src0 m0 :: h2 /\ sender message cap (past ++ h1) src0 board /\ n = topic_name board).
      { intros ops A t n I. destruct (A t n I) as (h1 & src0 & m0 & h2 & board & -> & S & N). exists (Msg src m :: h1), src0, m0, h2, board. rewrite <- app_assoc in S. auto. }
      unfold process. cbn [fst snd]. destruct (LK src) as [(s & d & HAS & G & _)|(NO & G & _)]; rewrite G.
      * unfold find_or_create_topic. destruct (find (topic_map p) (topic_name s)) as [t|] eqn:F.
        -- destruct (IH (past ++ [Msg src m]) en p E' W ND IDS) as (en' & p' & ops & l & R & W' & SW & PB & DL & AD). rewrite R. cbn [app].
           pose proof (lookup_topic _ _ _ (find_In _ _ _ F) (wf_nodup p W)) as LT. fold (swapped p) in LT. destruct (translate m) as [x|] eqn:TR.
           ++ exists en', p', (OPublish t x :: ops), ((topic_name s, x) :: l). repeat split; auto; try apply W'; [cbn; rewrite LT, PB; reflexivity|eapply d_known; eauto; now exists d|]. apply (EXT ops AD).
           ++ exists en', p', ops, l. repeat split; auto; try apply W'; [now apply d_untranslated|]. apply (EXT ops AD).
        -- set (p1 := mkProxy ((topic_name s, fresh p) :: topic_map p) (S (fresh p))).
           assert (W1 : wf p1). { destruct W as (W1 & W2). split; cbn; [constructor; auto; now apply find_None|]. rewrite W2. change (rev (seq 1 (fresh p)) ++ [0]) with (rev (seq 0 (S (fresh p)))). rewrite seq_S, rev_app_distr. reflexivity. }
           destruct (IH (past ++ [Msg src m]) en p1 E' W1 ND IDS) as (en' & p' & ops & l & R & W' & SW & PB & DL & AD). rewrite R.
           assert (S1 : swapped p1 = (fresh p, topic_name s) :: swapped p) by reflexivity. rewrite S1 in SW, PB.
           assert (AD' : forall t n, In (t, n) ((fresh p, topic_name s) :: adverts ops) -> exists h1 src0 m0 h2 board, Msg src m :: h = h1 ++ Msg src0 m0 :: h2 /\ sender message cap (past ++ h1) src0 board /\ n = topic_name board).
           { intros t n [I|I]; [|now apply (EXT ops AD t n)]. injection I as <- <-. exists [], src, m, h, s. rewrite app_nil_r. repeat split; auto. now exists d. }
           destruct (translate m) as [x|] eqn:TR.
           ++ exists en', p', (OAdvertise (fresh p) (topic_name s) :: OPublish (fresh p) x :: ops), ((topic_name s, x) :: l). split; [reflexivity|]. split; [exact W'|]. split; [rewrite SW; cbn; now rewrite <- app_assoc|].
              split; [cbn; rewrite Nat.eqb_refl; cbn iota beta; match goal with |- context [published ?A ops] => change (published A ops) with (published ((fresh p, topic_name s) :: swapped p) ops) end; rewrite PB; reflexivity|]. split; [eapply d_known; eauto; now exists d|]. exact AD'.
           ++ exists en', p', (OAdvertise (fresh p) (topic_name s) :: ops), l. split; [reflexivity|]. split; [exact W'|]. split; [rewrite SW; cbn; now rewrite <- app_assoc|].
              split; [exact PB|]. split; [now apply d_untranslated|]. exact AD'.
      * destruct (IH (past ++ [Msg src m]) en p E' W ND IDS) as (en' & p' & ops & l & R & W' & SW & PB & DL & AD). rewrite R. exists en', p', ops, l. repeat split; auto; try apply W'.
        -- apply d_unknown; auto. intros board (d & HAS). exact (NO _ _ HAS).
        -- apply (EXT ops AD).
Qed.

(** Every message from a known board is published once, in order, on the topic of that board and no other; those of unknown boards are dropped. *)
Theorem proxy_delivers h : names_distinct (enum_events h) -> ids_ok (enum_events h) ->
  exists s ops l, prun (pinit cap) h = Some (s, ops) /\ published [] ops = Some l /\ delivers [] h l.
Proof.
  intros ND IDS. destruct (proxy_main h [] (enumerator_init cap) (mkProxy [] 0) eq_refl) as (en' & p' & ops & l & R & _ & _ & PB & DL & _); auto.
  - split; [constructor|reflexivity].
  - exists (en', p'), ops, l. auto.
Qed.
(** A topic is advertised at most once per name, only for a board that sent something, and different names have different topics. *)
Theorem proxy_topics h s ops : names_distinct (enum_events h) -> ids_ok (enum_events h) -> prun (pinit cap) h = Some (s, ops) ->
  NoDup (map snd (adverts ops)) /\ NoDup (map fst (adverts ops)) /\
  (forall t n, In (t, n) (adverts ops) -> exists h1 src m h2 board, h = h1 ++ Msg src m :: h2 /\ sender message cap h1 src board /\ n = topic_name board).
Proof.
  intros ND IDS RUN. destruct (proxy_main h [] (enumerator_init cap) (mkProxy [] 0) eq_refl) as (en' & p' & ops' & l & R & W & SW & PB & DL & AD); auto.
  - split; [constructor|reflexivity].
  - unfold pinit in RUN. rewrite R in RUN. injection RUN as <- <-. cbn in SW. rewrite app_nil_r in SW.
    pose proof (wf_nodup p' W) as N2. destruct W as (N1 & _).
    assert (A1 : map snd (swapped p') = map fst (topic_map p')) by (unfold swapped; rewrite map_map; reflexivity). assert (A2 : map fst (swapped p') = map snd (topic_map p')) by (unfold swapped; rewrite map_map; reflexivity).
    rewrite <- A1 in N1. rewrite <- A2 in N2. rewrite SW, map_rev in N1, N2. apply NoDup_rev in N1, N2. rewrite rev_involutive in N1, N2. auto.
Qed.
End P.

(** ** The two proxies *)
(** The board "b" is found on "/distance/b", so that different boards have different topics. *)
Theorem distance_names_differ a b : distance_topic_name a = text "/distance/" ++ a /\ (distance_topic_name a = distance_topic_name b -> a = b).
Proof. split; [reflexivity|apply app_inv_head]. Qed.
Lemma strip_None_all p s : (forall a b, s <> a ++ p ++ b) -> p <> [] -> forall k, strip_prefix p (skipn k s) = None.
Proof.
  intros H NE k. assert (S : forall p s r, strip_prefix p s = Some r -> s = p ++ r).
  { clear. induction p as [|x p IH]; intros [|y s] r E; cbn in *; try discriminate; try (injection E as <-; reflexivity). destruct (Z.eqb_spec x y); [|discriminate]. subst. f_equal. auto. }
  destruct (strip_prefix p (skipn k s)) as [r|] eqn:E; auto. apply S in E. exfalso. apply (H (firstn k s) r). rewrite <- E. symmetry. apply firstn_skipn.
Qed.
Lemma replace_none from to : forall s fuel, (forall k, strip_prefix from (skipn k s) = None) -> replace_all fuel from to s = s.
Proof.
  induction s as [|c s IH]; intros [|fuel] H; cbn [replace_all]; auto. pose proof (H O) as H0; cbn [skipn] in H0; rewrite H0. f_equal. apply IH. intro k. apply (H (S k)).
Qed.
(** A board named "actuator-x", where x does not contain "actuator-" again, is found on "/actuator/x"; a board without "actuator-" on its own name. *)
Theorem actuator_names x : (forall a b, x <> a ++ text "actuator-" ++ b) ->
  actuator_topic_name (text "actuator-" ++ x) = text "/actuator/" ++ x /\ actuator_topic_name x = x.
Proof.
  change (text "actuator-") with actuator_dash. change (text "/actuator/") with actuator_slash. intro H. assert (N : forall fuel, replace_all fuel actuator_dash actuator_slash x = x) by (intro fuel; apply replace_none, strip_None_all; [exact H|discriminate]).
  split; [|apply N]. unfold actuator_topic_name. rewrite app_length.
  assert (SP : forall p, strip_prefix p (p ++ x) = Some x) by (induction p as [|c p IH]; cbn; [reflexivity|now rewrite Z.eqb_refl]).
  change (List.length actuator_dash + List.length x) with (S (8 + List.length x)). specialize (SP actuator_dash). specialize (N (8 + List.length x)).
  destruct (actuator_dash ++ x) as [|c r] eqn:E; [discriminate|]. cbn [replace_all]. rewrite SP, N. reflexivity.
Qed.
(** Two boards may share a topic. *)
Theorem actuator_names_differ_refuted : ~ forall a b, actuator_topic_name a = actuator_topic_name b -> a = b.
Proof. intro H. specialize (H (actuator_dash ++ [120%Z]) (actuator_slash ++ [120%Z]) eq_refl). discriminate. Qed.

(** A history with an unknown sender, two boards, a repeated message. *)
Definition ex_hist : list (pevent Z) :=
  [Msg 42 7; Enum (Add [97] 0); Enum (Announce [97] 42); Msg 42 8; Enum (Add [98] 1); Msg 43 9; Enum (Announce [98] 43); Msg 43 10; Msg 42 11]%Z.
Example proxy_example : names_distinct (enum_events Z ex_hist) /\ ids_ok (enum_events Z ex_hist) /\
  exists s ops, prun Z distance_topic_name distance_translate (pinit 10) ex_hist = Some (s, ops) /\
    published [] ops = Some [(text "/distance/a", [8]); (text "/distance/b", [10]); (text "/distance/a", [11])]%Z.
Proof.
  split; [unfold names_distinct; cbn; repeat constructor; cbn; intuition discriminate|]. split; [intros s c H; unfold CAN_ID_NOT_SET; cbn in H; intuition congruence|].
  do 2 eexists. split; reflexivity.
Qed.
Print Assumptions proxy_delivers.
Print Assumptions proxy_topics.
Print Assumptions distance_names_differ.
Print Assumptions actuator_names.
Print Assumptions actuator_names_differ_refuted.
