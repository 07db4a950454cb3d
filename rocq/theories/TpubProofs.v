From Coq Require Import ZArith List Bool Arith Lia.
From Verif Require Import TpubModel TpubSpec.
Import ListNotations.

Lemma topic_eqb_spec a b : reflect (a = b) (topic_eqb a b).
Proof. destruct a, b; constructor; congruence. Qed.
Lemma topic_eqb_refl a : topic_eqb a a = true.
Proof. now destruct a. Qed.
Lemma set_same {A} (f : topic -> A) t x : set f t x t = x.
Proof. unfold set. now rewrite topic_eqb_refl. Qed.
Lemma set_other {A} (f : topic -> A) t x t' : t <> t' -> set f t x t' = f t'.
Proof. unfold set. now destruct (topic_eqb_spec t t'). Qed.

Definition known (ms : list move) : bool := existsb (fun m => match m with Advertise TTag => true | _ => false end) ms.
Definition sample_of (k : bool) (m : move) : list sample :=
  match m with
  | Publish m => [m]
  | Receive ts z vz x y => if k then [SPos ts x y z float_0_01 float_0_01 vz] else []
  | _ => []
  end.
Lemma samples_snoc ms m : forall k, samples k (ms ++ [m]) = samples k ms ++ sample_of (k || known ms) m.
Proof.
  induction ms as [|a ms IH]; intro k; cbn [app samples known existsb].
  - rewrite orb_false_r. destruct m as [[]| | | | |]; cbn; try reflexivity.
  - change (existsb _ ms) with (known ms). destruct a as [[]| | | | |]; cbn [orb]; rewrite ?IH; cbn [orb]; rewrite ?orb_true_r; try reflexivity. now destruct k; rewrite ?IH.
Qed.
Lemma known_snoc ms m : known (ms ++ [m]) = known ms || match m with Advertise TTag => true | _ => false end.
Proof. unfold known. rewrite existsb_app. cbn. now rewrite orb_false_r. Qed.
Lemma latest_snoc t ms m : latest t (ms ++ [m]) =
  match sample_of (known ms) m with [x] => if topic_eqb (topic_of x) t then Some x else latest t ms | _ => latest t ms end.
Proof.
  unfold latest. rewrite samples_snoc. cbn [orb]. unfold on_topic. rewrite filter_app, map_app.
  destruct m as [| |t' b|ts z vz px py| |]; cbn [sample_of filter map]; rewrite ?app_nil_r; try reflexivity.
  - destruct (topic_eqb (topic_of m) t); cbn [map]; [now rewrite last_last|now rewrite app_nil_r].
  - destruct (known ms); cbn [filter map]; rewrite ?app_nil_r; try reflexivity.
    destruct (topic_eqb _ t); cbn [map]; [now rewrite last_last|now rewrite app_nil_r].
Qed.

Definition good (x : sys) (t : topic) : Prop := (t = TTag \/ t = TData) /\ adv x t = true /\ val x t <> None.
Record inv (x : sys) (ms : list move) : Prop := {
  i_known : adv x TTag = known ms;
  i_val : forall t, val x t = latest t ms;
  i_type : forall t m, val x t = Some m -> topic_of m = t;
  i_ptr : forall t t', ptr x t = Some t' -> t' = t /\ (t = TTag \/ t = TData) /\ adv x t = true;
  i_watched : forall t, watched x t = true -> ptr x t = Some t;
  i_sem : forall t, sem x t = true -> good x t;
  i_s : forall t, s x = Read t -> good x t;
  i_last : forall t, last x = Some t -> watched x t = true /\ val x t <> None;
  i_w : match w x with
        | WFind t => t = TTag \/ t = TData
        | WWatch t => ptr x t = Some t
        | WLoop | WWait => True
        | WWoken => last x <> None
        | WGot o => exists t, o = Some t /\ watched x t = true /\ val x t <> None
        | WSignal t => good x t
        end }.

Lemma inv_init : inv init [].
Proof. constructor; cbn; auto; intros; discriminate. Qed.

Lemma inv_publish x ms m y : inv x ms -> step x m = Some (publish x y, []) -> sample_of (known ms) m = [y] -> inv (publish x y) (ms ++ [m]).
Proof.
  intros [K V T P W Se S L Wp] _ E.
  assert (Ng : forall t, good x t -> val (publish x y) t <> None).
  { intros t (_ & _ & H). unfold publish. destruct (watched x (topic_of y)); cbn [val]; unfold set; destruct (topic_eqb (topic_of y) t); congruence. }
  assert (Nv : forall t, val x t <> None -> val (publish x y) t <> None).
  { intros t H. unfold publish. destruct (watched x (topic_of y)); cbn [val]; unfold set; destruct (topic_eqb (topic_of y) t); congruence. }
  assert (Va : val (publish x y) = set (val x) (topic_of y) (Some y)) by (unfold publish; now destruct (watched x (topic_of y))).
  assert (Ad : adv (publish x y) = adv x) by (unfold publish; now destruct (watched x (topic_of y))).
  assert (Pt : ptr (publish x y) = ptr x) by (unfold publish; now destruct (watched x (topic_of y))).
  assert (Wa : watched (publish x y) = watched x) by (unfold publish; now destruct (watched x (topic_of y))).
  assert (Sm : sem (publish x y) = sem x) by (unfold publish; now destruct (watched x (topic_of y))).
  assert (Sp : s (publish x y) = s x) by (unfold publish; now destruct (watched x (topic_of y))).
  assert (Gd : forall t, good x t -> good (publish x y) t) by (intros t G; pose proof (Ng t G); destruct G as (A & B & _); repeat split; auto; now rewrite Ad).
  constructor.
  - rewrite known_snoc, Ad, K. destruct m; try discriminate E; now rewrite orb_false_r.
  - intro t. rewrite latest_snoc, E, Va, <- V. reflexivity.
  - intros t z. rewrite Va. unfold set. destruct (topic_eqb_spec (topic_of y) t) as [<-|]; [congruence|apply T].
  - rewrite Pt, Ad. exact P.
  - rewrite Pt, Wa. exact W.
  - rewrite Sm. auto.
  - rewrite Sp. auto.
  - intros t. rewrite Wa. unfold publish. destruct (watched x (topic_of y)) eqn:Ew; cbn [last val].
    + intros [= <-]. split; [exact Ew|]. rewrite set_same. discriminate.
    + intro H. destruct (L t H) as [A B]. split; [exact A|]. unfold set. destruct (topic_eqb (topic_of y) t); [discriminate|exact B].
  - assert (Wx : w (publish x y) = w x \/ (w (publish x y) = WWoken /\ last (publish x y) = Some (topic_of y))).
    { unfold publish. destruct (watched x (topic_of y)); cbn [w last]; [|auto]. destruct (w x); auto. }
    assert (Lx : last x <> None -> last (publish x y) <> None) by (unfold publish; destruct (watched x (topic_of y)); cbn; congruence).
    destruct Wx as [->|[-> H]]; [|congruence]. rewrite Pt, Wa. destruct (w x); auto. destruct Wp as (t0 & A & B & C). exists t0. auto.
Qed.

Lemma decide_cases x ms t : inv x ms -> watched x t = true -> decide x (Some t) = (if on x t then WSignal t else WLoop).
Proof.
  intros I Wt. pose proof (i_watched _ _ I t Wt) as Pt. destruct (i_ptr _ _ I t t Pt) as (_ & Tt & _).
  assert (Pn : forall t', t' <> TTag -> t' <> TData -> ptr x t' = None).
  { intros t' A B. destruct (ptr x t') as [t''|] eqn:E; [|reflexivity]. destruct (i_ptr _ _ I _ _ E) as (_ & [C|C] & _); contradiction. }
  unfold decide. rewrite (Pn TImu), (Pn TAtt), (Pn TRange) by discriminate. cbn [ptr_eqb andb].
  destruct Tt as [->| ->].
  - rewrite Pt. cbn [ptr_eqb topic_eqb andb]. destruct (on x TTag); [reflexivity|]. destruct (ptr x TData) as [t''|] eqn:E; [|reflexivity].
    destruct (i_ptr _ _ I _ _ E) as (-> & _). reflexivity.
  - destruct (ptr x TTag) as [t''|] eqn:E.
    + destruct (i_ptr _ _ I _ _ E) as (-> & _). cbn [ptr_eqb topic_eqb andb]. rewrite Pt. reflexivity.
    + cbn [ptr_eqb andb]. rewrite Pt. reflexivity.
Qed.

Lemma good_watched x ms t : inv x ms -> watched x t = true -> val x t <> None -> good x t.
Proof. intros I W V. destruct (i_ptr _ _ I t t (i_watched _ _ I t W)) as (_ & A & B). repeat split; auto. Qed.

Lemma spinner_cases x x' o : spinner x = Some (x', o) ->
  (exists t, s x = At t /\ sem x t = true /\ x' = set_s (set_sem x t false) (Read t) /\ o = []) \/
  (exists t, s x = At t /\ sem x t = false /\ x' = set_s x (next t) /\ o = []) \/
  (exists t m e, s x = Read t /\ val x t = Some m /\ encode m = Some e /\ x' = set_s x (next t) /\ o = [e]).
Proof.
  unfold spinner. destruct (s x) as [t|t].
  - destruct (sem x t) eqn:E; intros [= <- <-]; [left|right; left]; eauto 6.
  - destruct (adv x t); [|discriminate]. destruct (val x t) as [m|] eqn:V; [|discriminate]. destruct (topic_eqb (topic_of m) t); [|discriminate].
    destruct (encode m) as [e|] eqn:E; [|discriminate]. intros [= <- <-]. right. right. exists t, m, e. auto.
Qed.

Lemma inv_step x ms m x' o : inv x ms -> step x m = Some (x', o) -> inv x' (ms ++ [m]).
Proof.
  intros I E. assert (La0 : forall m, sample_of (known ms) m = [] -> forall t', latest t' (ms ++ [m]) = latest t' ms) by (intros a Ha t'; now rewrite latest_snoc, Ha).
  destruct m as [t|y|t b|ts z vz px py| |].
  2:{ injection E as <- <-. eapply inv_publish; [exact I| |]; reflexivity. }
  3:{ cbn [step] in E. rewrite (i_known _ _ I) in E. destruct (known ms) eqn:Kn.
      - injection E as <- <-. eapply inv_publish; [exact I| |].
        + cbn [step]. rewrite (i_known _ _ I), Kn. reflexivity.
        + cbn. now rewrite Kn.
      - injection E as <- <-. destruct I as [K V T P W Se S L Wp]. constructor; auto.
        + now rewrite known_snoc, orb_false_r.
        + intro t. rewrite latest_snoc. cbn [sample_of]. rewrite Kn. apply V. }
  - destruct I as [K V T P W Se S L Wp]. injection E as <- <-.
    assert (G : forall t', good x t' -> good (mksys (set (adv x) t true) (val x) (on x) (sem x) (watched x) (last x) (ptr x) (w x) (s x)) t').
    { intros t' (A & B & C). split; [exact A|]. split; [|exact C]. cbn [adv]. unfold set. destruct (topic_eqb t t'); auto. }
    constructor; cbn [adv val on sem watched last ptr w s]; auto.
    + rewrite known_snoc, <- K. unfold set. destruct t; cbn; now rewrite ?orb_false_r, ?orb_true_r.
    + intro t'. rewrite La0 by reflexivity. apply V.
    + intros t' t'' H. destruct (P _ _ H) as (A & B & C). split; [exact A|]. split; [exact B|]. unfold set. destruct (topic_eqb t t'); auto.
    + destruct (w x); auto.
  - destruct I as [K V T P W Se S L Wp]. injection E as <- <-. constructor; cbn [adv val on sem watched last ptr w s]; auto.
    + now rewrite known_snoc, orb_false_r.
    + intro t'. rewrite La0 by reflexivity. apply V.
  - injection E as <- <-. pose proof I as [K V T P W Se S L Wp].
    assert (K' : adv x TTag = known (ms ++ [Watcher])) by now rewrite known_snoc, orb_false_r.
    assert (V' : forall t, val x t = latest t (ms ++ [Watcher])) by (intro; now rewrite La0).
    unfold watcher. destruct (w x) as [t|t| | | |o|t] eqn:Ew.
    + destruct (adv x t) eqn:A.
      * constructor; cbn [adv val on sem watched last ptr w s]; auto.
        -- intros t1 t2. unfold set. destruct (topic_eqb_spec t t1) as [<-|]; [|apply P]. intros [= <-]. auto.
        -- intros t1 H. unfold set. destruct (topic_eqb_spec t t1) as [<-|]; [reflexivity|auto].
        -- apply set_same.
      * constructor; auto. now rewrite Ew.
    + constructor; cbn [adv val on sem watched last ptr w s]; auto.
      * intros t1. unfold set. destruct (topic_eqb_spec t t1) as [<-|]; auto.
      * intros t1 H. destruct (L _ H) as [A B]. split; [|exact B]. unfold set. destruct (topic_eqb t t1); auto.
      * destruct t; auto.
    + constructor; auto; exact Logic.I.
    + constructor; auto. now rewrite Ew.
    + constructor; auto. cbn [w set_w watched val]. destruct (last x) as [t|] eqn:El; [|congruence]. exists t. destruct (L t eq_refl). auto.
    + destruct Wp as (t & -> & Wt & Vt). rewrite (decide_cases _ _ _ I Wt). pose proof (good_watched _ _ _ I Wt Vt).
      constructor; auto. cbn [w set_w]. destruct (on x t); [exact H|exact Logic.I].
    + constructor; auto; [|exact Logic.I]. cbn [sem set_w set_sem]. intros t1. unfold set. destruct (topic_eqb_spec t t1) as [<-|]; [auto|apply Se].
  - pose proof I as [K V T P W Se S L Wp]. cbn [step] in E.
    assert (K' : adv x TTag = known (ms ++ [Spinner])) by now rewrite known_snoc, orb_false_r.
    assert (V' : forall t, val x t = latest t (ms ++ [Spinner])) by (intro; now rewrite La0).
    apply spinner_cases in E as [(t & St & Sm & -> & _)|[(t & St & Sm & -> & _)|(t & m & e & St & Vm & Em & -> & _)]].
    + constructor; auto; cbn [sem s set_s set_sem].
      * intros t1. unfold set. destruct (topic_eqb t t1); [discriminate|apply Se].
      * intros t1 [= <-]. exact (Se t Sm).
    + constructor; auto. cbn [s set_s]. destruct t; discriminate.
    + constructor; auto. cbn [s set_s]. destruct t; discriminate.
Qed.

Lemma run_app a b : forall x, run x (a ++ b) =
  match run x a with Some (x, o) => match run x b with Some (x, o') => Some (x, o ++ o') | None => None end | None => None end.
Proof.
  induction a as [|m a IH]; intro x; cbn [app run].
  - destruct (run x b) as [[]|]; reflexivity.
  - destruct (step x m) as [[x1 o1]|]; [|reflexivity]. rewrite IH. destruct (run x1 a) as [[x2 o2]|]; [|reflexivity].
    destruct (run x2 b) as [[x3 o3]|]; [|reflexivity]. now rewrite app_assoc.
Qed.
Lemma run_one x m : run x [m] = step x m.
Proof. cbn. destruct (step x m) as [[x1 o]|]; [|reflexivity]. now rewrite app_nil_r. Qed.

Lemma inv_run ms x o : run init ms = Some (x, o) -> inv x ms.
Proof.
  revert x o. induction ms as [|m ms IH] using rev_ind; intros x o E.
  - injection E as <- _. exact inv_init.
  - rewrite run_app in E. destruct (run init ms) as [[x1 o1]|]; [|discriminate]. rewrite run_one in E. destruct (step x1 m) as [[x2 o2]|] eqn:E2; [|discriminate].
    injection E as <- _. eapply inv_step; eauto.
Qed.

Lemma encode_kind m e : encode m = Some e -> kind e = topic_of m.
Proof. destruct m; cbn; try (now intros [= <-]). destruct (_ <=? _)%nat; [now intros [= <-]|discriminate]. Qed.

(** ** Counting *)
Definition b2n (b : bool) : nat := if b then 1 else 0.
Definition in_watcher (x : sys) (t : topic) : bool :=
  match w x with WWoken => ptr_eqb (last x) (Some t) | WGot o => ptr_eqb o (Some t) | WSignal t' => topic_eqb t' t | _ => false end.
Definition in_spinner (x : sys) (t : topic) : bool := match s x with Read t' => topic_eqb t' t | _ => false end.
Definition pending (x : sys) (t : topic) : nat := b2n (in_watcher x t) + b2n (sem x t) + b2n (in_spinner x t).
Definition count (t : topic) (o : list message) : nat := length (of_kind t o).

Lemma step_count x ms m x' o t : inv x ms -> step x m = Some (x', o) ->
  (count t o + pending x' t <= pending x t + length (on_topic t (sample_of (known ms) m)))%nat.
Proof.
  intros I E. assert (Pub : forall y, (pending (publish x y) t <= pending x t + length (on_topic t [y]))%nat).
  { intro y. unfold pending, in_watcher, in_spinner, publish, on_topic. cbn [filter].
    destruct (watched x (topic_of y)); cbn [w last sem s]; [|lia]. destruct (w x) as [| | | | |g|g]; cbn [ptr_eqb];
      destruct (topic_eqb (topic_of y) t); cbn [b2n length]; unfold b2n; repeat match goal with |- context [if ?b then _ else _] => destruct b end; lia. }
  destruct m as [t1|y|t1 b|ts z vz px py| |]; cbn [step] in E.
  - injection E as <- <-. unfold pending, in_spinner, in_watcher. cbn [w sem s last count of_kind filter length]. lia.
  - injection E as <- <-. exact (Pub y).
  - injection E as <- <-. unfold pending, in_spinner, in_watcher. cbn [w sem s last count of_kind filter length]. lia.
  - rewrite (i_known _ _ I) in E. cbn [sample_of]. destruct (known ms); injection E as <- <-; [apply Pub|cbn [count of_kind filter length]; lia].
  - injection E as <- <-. cbn [count of_kind filter length on_topic sample_of]. unfold pending, in_spinner, watcher.
    pose proof (i_w _ _ I) as Wp. unfold in_watcher.
    destruct (w x) as [t1|t1| | | |g|t1] eqn:Ew; cbn [w sem s set_w set_sem last b2n ptr_eqb].
    + destruct (adv x t1); cbn [w sem s]; rewrite ?Ew; cbn [b2n]; lia.
    + destruct t1; cbn [b2n]; lia.
    + lia.
    + rewrite Ew. cbn [b2n]. lia.
    + lia.
    + destruct Wp as (t' & -> & Wt & _). rewrite (decide_cases _ _ _ I Wt). destruct (on x t'); cbn [ptr_eqb b2n]; [lia|]. unfold b2n. lia.
    + unfold set. destruct (topic_eqb t1 t); cbn [b2n]; [destruct (sem x t); cbn [b2n]|]; lia.
  - cbn [sample_of on_topic filter length]. apply spinner_cases in E as [(t1 & St & Sm & -> & ->)|[(t1 & St & Sm & -> & ->)|(t1 & m & e & St & Vm & Em & -> & ->)]].
    + unfold pending, in_spinner, in_watcher. cbn [set_s set_sem w sem s last count of_kind filter length]. rewrite St. unfold set.
      destruct (topic_eqb_spec t1 t) as [<-|]; [rewrite Sm|]; cbn [b2n]; lia.
    + unfold pending, in_spinner, in_watcher. cbn [set_s w sem s last count of_kind filter length]. rewrite St. destruct t1; cbn [next b2n]; lia.
    + unfold pending, in_spinner, in_watcher. unfold count, of_kind; cbn [set_s w sem s last filter]. rewrite St.
      rewrite (encode_kind _ _ Em), (i_type _ _ I _ _ Vm). destruct (topic_eqb t1 t); cbn [length b2n]; destruct t1; cbn [next b2n]; lia.
Qed.
