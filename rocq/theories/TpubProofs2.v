From Coq Require Import ZArith List Bool Arith Lia.
From Verif Require Import TpubModel TpubSpec TpubProofs.
Import ListNotations.

Lemma run_cons x m ms x' o : run x (m :: ms) = Some (x', o) -> exists x1 o1 o2, step x m = Some (x1, o1) /\ run x1 ms = Some (x', o2) /\ o = o1 ++ o2.
Proof.
  cbn [run]. destruct (step x m) as [[x1 o1]|]; [|discriminate]. destruct (run x1 ms) as [[x2 o2]|] eqn:E; [|discriminate].
  intros [= <- <-]. eauto 6.
Qed.

(** ** Parameters *)
Lemma on_publish x y : on (publish x y) = on x.
Proof. unfold publish. now destruct (watched x (topic_of y)). Qed.
Lemma on_step x m x' o t : step x m = Some (x', o) -> on x' t = match m with SetParam t' b => if topic_eqb t' t then b else on x t | _ => on x t end.
Proof.
  destruct m; cbn [step]; intro E.
  - now injection E as <- _.
  - injection E as <- _. now rewrite on_publish.
  - injection E as <- _. cbn [on]. reflexivity.
  - destruct (adv x TTag); injection E as <- _; [now rewrite on_publish|reflexivity].
  - injection E as <- _. unfold watcher. destruct (w x) as [t1| | | | | |]; try reflexivity. now destruct (adv x t1).
  - now apply spinner_cases in E as [(t1 & _ & _ & -> & _)|[(t1 & _ & _ & -> & _)|(t1 & y & e & _ & _ & _ & -> & _)]].
Qed.
Lemma on_run ms t : forall x x' o, run x ms = Some (x', o) -> on x' t = param t (on x t) ms.
Proof.
  induction ms as [|m ms IH]; intros x x' o E.
  - now injection E as <- _.
  - apply run_cons in E as (x1 & o1 & o2 & E1 & E2 & _). rewrite (IH _ _ _ E2), (on_step _ _ _ _ t E1). destruct m; reflexivity.
Qed.

(** ** Nothing comes once a parameter is off, but what was on its way *)
Definition signaled (x : sys) (t : topic) : nat :=
  b2n (match w x with WSignal t' => topic_eqb t' t | _ => false end) + b2n (sem x t) + b2n (in_spinner x t).
Lemma step_off x ms m x' o t : inv x ms -> step x m = Some (x', o) -> on x t = false -> (count t o + signaled x' t <= signaled x t)%nat.
Proof.
  intros I E Off.
  assert (Pub : forall y, signaled (publish x y) t = signaled x t).
  { intro y. unfold signaled, in_spinner, publish. destruct (watched x (topic_of y)); cbn [w sem s]; [|reflexivity]. now destruct (w x). }
  destruct m as [t1|y|t1 b|ts z vz px py| |]; cbn [step] in E.
  - injection E as <- <-. unfold signaled, in_spinner. cbn [w sem s count of_kind filter length]. lia.
  - injection E as <- <-. rewrite Pub. cbn [count of_kind filter length]. lia.
  - injection E as <- <-. unfold signaled, in_spinner. cbn [w sem s count of_kind filter length]. lia.
  - destruct (adv x TTag); injection E as <- <-; rewrite ?Pub; cbn [count of_kind filter length]; lia.
  - injection E as <- <-. cbn [count of_kind filter length]. unfold signaled, in_spinner, watcher.
    pose proof (i_w _ _ I) as Wp.
    destruct (w x) as [t1|t1| | | |g|t1] eqn:Ew; cbn [w sem s set_w set_sem last b2n].
    + destruct (adv x t1); cbn [w sem s]; rewrite ?Ew; cbn [b2n]; lia.
    + destruct t1; cbn [b2n]; lia.
    + lia.
    + rewrite Ew. cbn [b2n]. lia.
    + lia.
    + destruct Wp as (t' & -> & Wt & _). rewrite (decide_cases _ _ _ I Wt). destruct (topic_eqb_spec t' t) as [->|Ne].
      * rewrite Off. cbn [b2n]. lia.
      * destruct (on x t'); [|cbn [b2n]; lia]. destruct (topic_eqb_spec t' t); [contradiction|]. cbn [b2n]. lia.
    + unfold set. destruct (topic_eqb t1 t); cbn [b2n]; [destruct (sem x t); cbn [b2n]|]; lia.
  - apply spinner_cases in E as [(t1 & St & Sm & -> & ->)|[(t1 & St & Sm & -> & ->)|(t1 & m & e & St & Vm & Em & -> & ->)]].
    + unfold signaled, in_spinner. cbn [set_s set_sem w sem s last count of_kind filter length]. rewrite St. unfold set.
      destruct (topic_eqb_spec t1 t) as [<-|]; [rewrite Sm|]; cbn [b2n]; lia.
    + unfold signaled, in_spinner. cbn [set_s w sem s last count of_kind filter length]. rewrite St. destruct t1; cbn [next b2n]; lia.
    + unfold signaled, in_spinner, count, of_kind. cbn [set_s w sem s last filter]. rewrite St.
      rewrite (encode_kind _ _ Em), (i_type _ _ I _ _ Vm). destruct (topic_eqb t1 t); cbn [length b2n]; destruct t1; cbn [next b2n]; lia.
Qed.
Lemma count_app t a b : count t (a ++ b) = (count t a + count t b)%nat.
Proof. unfold count, of_kind. now rewrite filter_app, app_length. Qed.
Lemma run_off l t : forall x ms x' o, inv x ms -> run x l = Some (x', o) -> on x t = false -> ~ In (SetParam t true) l ->
  (count t o + signaled x' t <= signaled x t)%nat.
Proof.
  induction l as [|m l IH]; intros x ms x' o I E Off No.
  - injection E as <- <-. cbn [count of_kind filter length]. lia.
  - apply run_cons in E as (x1 & o1 & o2 & E1 & E2 & ->). pose proof (step_off _ _ _ _ _ _ I E1 Off) as H1.
    assert (H2 : (count t o2 + signaled x' t <= signaled x1 t)%nat).
    { apply (IH x1 (ms ++ [m]) x' o2); [eapply inv_step; eauto|exact E2| |intro H; apply No; now right].
      rewrite (on_step _ _ _ _ t E1). destruct m; auto. destruct (topic_eqb_spec t0 t) as [->|]; [|exact Off]. destruct b; [|reflexivity]. exfalso. apply No. now left. }
    rewrite count_app. lia.
Qed.

(** ** Delivery *)
Lemma advertised ms x o t : run init ms = Some (x, o) -> In (Advertise t) ms -> adv x t = true.
Proof.
  assert (P : forall x y, adv (publish x y) = adv x) by (intros; unfold publish; now destruct (watched _ _)).
  assert (St : forall x m x' o t, step x m = Some (x', o) -> adv x t = true \/ m = Advertise t -> adv x' t = true).
  { clear -P. intros x m x' o t E H. destruct m; cbn [step] in E.
    - injection E as <- _. cbn [adv]. unfold set. destruct (topic_eqb_spec t0 t); [reflexivity|]. destruct H; [auto|congruence].
    - injection E as <- _. rewrite P. destruct H; [auto|discriminate].
    - injection E as <- _. destruct H; [auto|discriminate].
    - destruct (adv x TTag); injection E as <- _; rewrite ?P; (destruct H; [auto|discriminate]).
    - injection E as <- _. destruct H; [|discriminate]. unfold watcher. destruct (w x) as [t1| | | | | |]; try exact H. now destruct (adv x t1).
    - destruct H; [|discriminate]. now apply spinner_cases in E as [(t1 & _ & _ & -> & _)|[(t1 & _ & _ & -> & _)|(t1 & y & e & _ & _ & _ & -> & _)]]. }
  revert x o. induction ms as [|m ms IH] using rev_ind; intros x o E I; [contradiction|].
  rewrite run_app in E. destruct (run init ms) as [[x1 o1]|]; [|discriminate]. rewrite run_one in E. destruct (step x1 m) as [[x2 o2]|] eqn:E2; [|discriminate].
  injection E as <- _. eapply St; [exact E2|]. apply in_app_or in I as [I|[I|[]]]; [left; eapply IH; eauto|now right].
Qed.

(** What is watched, by the state of the watcher. *)
Definition inv2 (x : sys) : Prop :=
  match w x with
  | WFind TTag | WWatch TTag => True
  | WFind TData | WWatch TData => watched x TTag = true
  | WFind _ | WWatch _ => False
  | _ => watched x TTag = true /\ watched x TData = true
  end.
Lemma inv2_step x m x' o : inv2 x -> step x m = Some (x', o) -> inv2 x'.
Proof.
  intros I E. assert (P : forall y, inv2 (publish x y)).
  { intro y. unfold inv2, publish in *. destruct (watched x (topic_of y)); cbn [w watched]; destruct (w x); auto. }
  destruct m; cbn [step] in E.
  - now injection E as <- _.
  - injection E as <- _. auto.
  - now injection E as <- _.
  - destruct (adv x TTag); injection E as <- _; auto.
  - injection E as <- _. unfold inv2, watcher in *. destruct (w x) as [t1|t1| | | |g|t1] eqn:Ew; cbn [w watched set_w set_sem]; auto.
    + destruct (adv x t1); cbn [w watched]; [|rewrite Ew]; auto.
    + destruct t1; try contradiction; cbn [w watched]; unfold set; cbn; auto.
    + now rewrite Ew.
    + unfold decide. repeat match goal with |- context [if ?b then _ else _] => destruct b end; auto.
  - now apply spinner_cases in E as [(t1 & _ & _ & -> & _)|[(t1 & _ & _ & -> & _)|(t1 & y & e & _ & _ & _ & -> & _)]].
Qed.
Lemma inv2_run ms : forall x x' o, inv2 x -> run x ms = Some (x', o) -> inv2 x'.
Proof.
  induction ms as [|m ms IH]; intros x x' o I E; [now injection E as <- _|]. apply run_cons in E as (x1 & o1 & o2 & E1 & E2 & _).
  eapply IH; [|exact E2]. eapply inv2_step; eauto.
Qed.

Lemma watcher_steps_cons m l : watcher_steps (m :: l) = ((match m with Watcher => 1 | _ => 0 end) + watcher_steps l)%nat.
Proof. unfold watcher_steps. destruct m; reflexivity. Qed.
Lemma spinner_steps_cons m l : spinner_steps (m :: l) = ((match m with Spinner => 1 | _ => 0 end) + spinner_steps l)%nat.
Proof. unfold spinner_steps. destruct m; reflexivity. Qed.

Definition wdist (p : wpc) : nat :=
  match p with WFind TTag => 5 | WWatch TTag => 4 | WFind _ => 3 | WWatch _ => 2 | WLoop => 1 | WWait => 0 | WWoken => 4 | WGot _ => 3 | WSignal _ => 2 end.
Lemma settle l : forall x x' o, adv x TTag = true -> adv x TData = true -> inv2 x -> silent l -> run x l = Some (x', o) ->
  (wdist (w x') <= wdist (w x) - watcher_steps l)%nat.
Proof.
  induction l as [|m l IH]; intros x x' o A B I2 Si E.
  - injection E as <- _. cbn. lia.
  - apply run_cons in E as (x1 & o1 & o2 & E1 & E2 & _). pose proof (inv2_step _ _ _ _ I2 E1) as I2'.
    assert (Ad : adv x1 TTag = true /\ adv x1 TData = true /\ (wdist (w x1) <= wdist (w x) - match m with Watcher => 1 | _ => 0 end)%nat).
    { pose proof (Si m (or_introl eq_refl)) as Sm. destruct m; cbn [step] in E1; try contradiction.
      - injection E1 as <- _. cbn [adv w]. unfold set. rewrite A, B. destruct t; cbn; auto with arith; repeat split; lia.
      - injection E1 as <- _. cbn [adv w]. repeat split; auto; lia.
      - injection E1 as <- _. unfold watcher. unfold inv2 in I2. destruct (w x) as [t1|t1| | | |g|t1] eqn:Ew.
        + destruct t1; try contradiction; rewrite ?A, ?B; cbn [adv w wdist]; auto.
        + destruct t1; try contradiction; cbn [adv w wdist]; auto.
        + cbn; auto.
        + rewrite Ew; cbn; auto.
        + cbn; auto.
        + split; [exact A|]. split; [exact B|]. cbn [w set_w]. unfold decide. repeat match goal with |- context [if ?b then _ else _] => destruct b end; cbn; lia.
        + cbn; auto.
      - apply spinner_cases in E1 as [(t1 & _ & _ & -> & _)|[(t1 & _ & _ & -> & _)|(t1 & y & e & _ & _ & _ & -> & _)]]; cbn [adv w set_s set_sem]; repeat split; auto; lia. }
    destruct Ad as (A1 & B1 & D). assert (Si' : silent l) by (intros y Hy; apply Si; now right).
    pose proof (IH _ _ _ A1 B1 I2' Si' E2). rewrite watcher_steps_cons. lia.
Qed.

(** How far the notification of [t] is. *)
Definition phase (k : nat) (x : sys) (t : topic) : Prop :=
  match k with
  | 0 => w x = WWoken /\ last x = Some t
  | 1 => w x = WGot (Some t)
  | 2 => w x = WSignal t
  | _ => sem x t = true \/ s x = Read t
  end.
Lemma phase_step k x ms m x' o t y e : inv x ms -> watched x t = true -> step x m = Some (x', o) -> silent [m] -> m <> SetParam t false ->
  val x t = Some y -> encode y = Some e -> on x t = true -> phase k x t ->
  In e o \/ (phase (k + match m with Watcher => 1 | _ => 0 end) x' t /\ val x' t = Some y /\ on x' t = true /\ watched x' t = true).
Proof.
  intros I Wt E Si Nf V En On Ph.
  assert (On' : on x' t = true).
  { rewrite (on_step _ _ _ _ t E). destruct m; auto. destruct (topic_eqb_spec t0 t) as [->|]; [|exact On]. destruct b; congruence. }
  pose proof (Si m (or_introl eq_refl)) as Sm. destruct m; cbn [step] in E; try contradiction.
  - injection E as <- <-. right. rewrite Nat.add_0_r. repeat split; auto.
  - injection E as <- <-. right. rewrite Nat.add_0_r. repeat split; auto.
  - injection E as <- <-. right. destruct k as [|[|[|k]]]; cbn [phase Nat.add] in *.
    + destruct Ph as [Pw Pl]. unfold watcher. rewrite Pw, Pl. repeat split; auto.
    + unfold watcher in *. rewrite Ph in *. rewrite (decide_cases _ _ _ I Wt), On in *. repeat split; auto.
    + unfold watcher. rewrite Ph. split; [left; cbn [sem set_w set_sem]; apply set_same|]. repeat split; auto.
    + unfold watcher in *. destruct (w x) as [t1|t1| | | |g|t1]; try (repeat split; auto; fail).
      * destruct (adv x t1); repeat split; auto.
      * repeat split; auto. cbn [watched]. unfold set. destruct (topic_eqb t1 t); auto.
      * split; [|repeat split; auto]. destruct Ph as [Ph|Ph]; [left|right; exact Ph]. cbn [sem set_w set_sem]. unfold set. destruct (topic_eqb t1 t); auto.
  - rewrite Nat.add_0_r. apply spinner_cases in E as [(t1 & St & Sm1 & -> & ->)|[(t1 & St & Sm1 & -> & ->)|(t1 & m & e' & St & Vm & Em & -> & ->)]].
    + right. split; [|repeat split; auto]. destruct k as [|[|[|k]]]; cbn [phase] in *; auto. cbn [sem s set_s set_sem].
      destruct (topic_eqb_spec t1 t) as [->|Ne]; [now right|]. destruct Ph as [Ph|Ph]; [left|congruence]. now rewrite set_other.
    + right. split; [|repeat split; auto]. destruct k as [|[|[|k]]]; cbn [phase] in *; auto. cbn [sem s set_s]. destruct Ph as [Ph|Ph]; [now left|congruence].
    + destruct k as [|[|[|k]]]; cbn [phase] in *; try (right; repeat split; auto; tauto).
      destruct (topic_eqb_spec t1 t) as [->|Ne]; [left|right].
      * rewrite V in Vm. injection Vm as <-. rewrite En in Em. injection Em as <-. now left.
      * split; [|repeat split; auto]. destruct Ph as [Ph|Ph]; [now left|congruence].
Qed.
Lemma phase_run l t y e : forall k x ms x' o, inv x ms -> watched x t = true -> run x l = Some (x', o) -> silent l -> ~ In (SetParam t false) l ->
  val x t = Some y -> encode y = Some e -> on x t = true -> phase k x t ->
  In e o \/ (phase (k + watcher_steps l) x' t /\ val x' t = Some y).
Proof.
  induction l as [|m l IH]; intros k x ms x' o I Wt E Si Nf V En On Ph.
  - injection E as <- <-. right. cbn. rewrite Nat.add_0_r. auto.
  - apply run_cons in E as (x1 & o1 & o2 & E1 & E2 & ->).
    destruct (phase_step k x ms m x1 o1 t y e I Wt E1) as [H|(P1 & V1 & O1 & W1)]; auto.
    + intros z [<-|[]]. apply Si. now left.
    + intros ->. apply Nf. now left.
    + left. apply in_or_app. now left.
    + destruct (IH _ _ _ _ _ (inv_step _ _ _ _ _ I E1) W1 E2 (fun z Hz => Si z (or_intror Hz)) (fun Hz => Nf (or_intror Hz)) V1 En O1 P1) as [H|H].
      * left. apply in_or_app. now right.
      * right. rewrite watcher_steps_cons, Nat.add_assoc. exact H.
Qed.

Definition idx (t : topic) : nat := match t with TImu => 0 | TAtt => 1 | TRange => 2 | TTag => 3 | TData => 4 end.
Definition sdist (p : spc) (t : topic) : nat :=
  match p with
  | At t' => 2 * ((idx t + 5 - idx t') mod 5) + 2
  | Read t' => if topic_eqb t' t then 1 else 2 * ((idx t + 5 - idx t') mod 5) + 1
  end.
Lemma spin_delivers l t y e : forall x x' o, run x l = Some (x', o) -> silent l -> val x t = Some y -> encode y = Some e -> (sem x t = true \/ s x = Read t) ->
  (sdist (s x) t <= spinner_steps l)%nat -> In e o.
Proof.
  induction l as [|m l IH]; intros x x' o E Si V En Ph D.
  - exfalso. cbn in D. destruct (s x) as [t1|t1]; cbn [sdist] in D; [lia|]. destruct (topic_eqb t1 t); lia.
  - apply run_cons in E as (x1 & o1 & o2 & E1 & E2 & ->). rewrite spinner_steps_cons in D. apply in_or_app.
    pose proof (Si m (or_introl eq_refl)) as Sm. assert (Si' : silent l) by (intros z Hz; apply Si; now right).
    destruct m; try contradiction.
    + right. injection E1 as <- <-. eapply IH; [exact E2|exact Si'|exact V|exact En|exact Ph|]. cbn [s]. lia.
    + right. injection E1 as <- <-. eapply IH; [exact E2|exact Si'|exact V|exact En|exact Ph|]. cbn [s]. lia.
    + right. injection E1 as <- <-. assert (H : val (watcher x) = val x /\ s (watcher x) = s x /\ (sem x t = true -> sem (watcher x) t = true)).
      { unfold watcher. destruct (w x) as [t1|t1| | | |g|t1]; try (split; [reflexivity|split; [reflexivity|tauto]]).
        - destruct (adv x t1); auto.
        - split; [reflexivity|split; [reflexivity|]]. cbn [sem set_w set_sem]. unfold set. now destruct (topic_eqb t1 t). }
      destruct H as (Hv & Hs & Hm). eapply IH; [exact E2|exact Si'|now rewrite Hv|exact En| |].
      * rewrite Hs. destruct Ph; auto.
      * rewrite Hs. lia.
    + cbn [step] in E1. apply spinner_cases in E1 as [(t1 & St & Sm1 & -> & ->)|[(t1 & St & Sm1 & -> & ->)|(t1 & m & e' & St & Vm & Em & -> & ->)]].
      * right. rewrite St in D. eapply IH; [exact E2|exact Si'|exact V|exact En| |].
        -- cbn [sem s set_s set_sem]. destruct (topic_eqb_spec t1 t) as [->|Ne]; [now right|]. left. rewrite set_other by exact Ne. destruct Ph; congruence.
        -- cbn [s set_s]. cbn [sdist] in *. destruct (topic_eqb_spec t1 t) as [->|Ne]; lia.
      * right. rewrite St in D. assert (Ne : t1 <> t) by (intros ->; destruct Ph; congruence). eapply IH; [exact E2|exact Si'|exact V|exact En| |].
        -- left. destruct Ph as [Ph|Ph]; [exact Ph|congruence].
        -- cbn [s set_s]. destruct t1, t; try contradiction; cbn in *; lia.
      * destruct (topic_eqb_spec t1 t) as [->|Ne].
        -- left. rewrite V in Vm. injection Vm as <-. rewrite En in Em. injection Em as <-. now left.
        -- right. rewrite St in D. eapply IH; [exact E2|exact Si'|exact V|exact En| |].
           ++ left. destruct Ph as [Ph|Ph]; [exact Ph|congruence].
           ++ cbn [s set_s]. destruct t1, t; try contradiction; cbn in *; lia.
Qed.
