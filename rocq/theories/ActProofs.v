From Coq Require Import ZArith Reals List Bool Lia Lra.
From Flocq Require Import Core.
From Verif Require Import CBase CRes QuadModel ActModel ActSpec.
Import ListNotations.
Local Open Scope Z_scope.

Lemma ticks_app a b : ticks (a ++ b) = ticks a + ticks b.
Proof. unfold ticks. rewrite filter_app, app_length. lia. Qed.
Lemma ticks_nn l : 0 <= ticks l. Proof. unfold ticks. lia. Qed.

Local Opaque SAFETY_TIMEOUT.
Section P.
Variable rnd : R -> R.
Variable me : Z.
Notation run := (run rnd me). Notation step := (step rnd me). Notation boot := (boot rnd).
Lemma run_app l1 : forall s l2, run s (l1 ++ l2) = rbind (run s l1) (fun s => run s l2).
Proof. induction l1 as [|e l1 IH]; intros; cbn [app ActModel.run]; auto. destruct (step s e); cbn [rbind]; auto. Qed.
Lemma run_snoc s l e s' : run s (l ++ [e]) = OK s' -> exists s1, run s l = OK s1 /\ step s1 e = OK s'.
Proof. rewrite run_app. destruct (run s l) as [s1|]; cbn; [|discriminate]. destruct (step s1 e) eqn:E; cbn; [|discriminate]. intro H. injection H as <-. eauto. Qed.

(** What the handler has to do always ends with the restart of the timer. *)
Definition ends_well (t : list statement) : Prop := t = [] \/ exists u, t = u ++ [TimerSet].
Lemma ends_handler c : ends_well (handler me c).
Proof.
  unfold handler. destruct (negb _); [now left|]. destruct (traj0 c) as ((? & ?) & ?), (traj1 c) as ((? & ?) & ?). right.
  eexists [_; _; _; _; _; _; _; _]. reflexivity.
Qed.
Lemma ends_tl o t : ends_well (o :: t) -> ends_well t /\ (t = [] -> o = TimerSet).
Proof.
  intros [|(u & E)]; [discriminate|]. destruct u as [|x u]; cbn in E; injection E as -> ->; [split; [now left|auto]|]. split; [right; eauto|]. destruct u; discriminate.
Qed.
Lemma exec_ctl o b b' : exec rnd o b = OK b' ->
  power b' = (match o with PowerEnable => true | _ => power b end) /\ is_allowed_to_move b' = (match o with Allow => true | _ => is_allowed_to_move b end) /\
  safety_timer b' = (match o with TimerSet => Some SAFETY_TIMEOUT | _ => safety_timer b end).
Proof.
  destruct o; cbn [exec]; intro H.
  - unfold servo_set in H. dob H. dob H. injection H as <-. auto.
  - unfold pump_set_pwm in H. dob H. destruct i as [|[|]]; try (dob H); injection H as <-; auto.
  - injection H as <-. destruct i as [|[|]]; auto.
  - injection H as <-; auto.
  - injection H as <-; auto.
  - injection H as <-; auto.
Qed.
Lemma servo_ctl pc b b' : servo_step rnd pc b = OK b' ->
  power b' = power b /\ is_allowed_to_move b' = is_allowed_to_move b /\ safety_timer b' = safety_timer b /\ tim16 b' = tim16 b /\ tim17 b' = tim17 b /\
  solenoid0 b' = solenoid0 b /\ solenoid1 b' = solenoid1 b.
Proof.
  unfold servo_step. destruct (pc mod 3)%nat as [|[|]]; intro H.
  - dob H. dob H. destruct (quadramp_do_filter _ _) as [[q o]|]; cbn [rbind] in H; [|discriminate]. dob H. injection H as <-. auto 10.
  - injection H as <-. destruct (negb _); auto 10.
  - dob H. dob H. injection H as <-. auto 10.
Qed.

Definition inv (evs : list event) (s : system) : Prop :=
  ends_well (todo s) /\
  (forall n, safety_timer (brd s) = Some n -> 1 <= n <= SAFETY_TIMEOUT /\
     exists pre post s0, evs = pre ++ post /\ run boot pre = OK s0 /\ busy s0 /\ ticks post = SAFETY_TIMEOUT - n) /\
  (power (brd s) = true \/ is_allowed_to_move (brd s) = true -> safety_timer (brd s) <> None \/ busy s).
Lemma inv_all evs : forall s, run boot evs = OK s -> inv evs s.
Proof.
  induction evs as [|e evs IH] using rev_ind; intros s H.
  - cbn in H. injection H as <-. repeat split; cbn; try (now left); try discriminate; intros [|]; discriminate.
  - apply run_snoc in H as (s1 & H1 & H2). specialize (IH _ H1) as (E & T & C).
    assert (EXT : forall n, (exists pre post s0, evs = pre ++ post /\ run boot pre = OK s0 /\ busy s0 /\ ticks post = SAFETY_TIMEOUT - n) ->
                  exists pre post s0, evs ++ [e] = pre ++ post /\ run boot pre = OK s0 /\ busy s0 /\ ticks post = SAFETY_TIMEOUT - n + (match e with Tick => 1 | _ => 0 end)).
    { intros n (pre & post & s0 & -> & R & B & TT). exists pre, (post ++ [e]), s0. rewrite app_assoc, ticks_app. destruct e; cbn -[SAFETY_TIMEOUT]; auto. all: repeat split; auto; try lia. }
    destruct e as [c| | |]; cbn [ActModel.step] in H2.
    + destruct (todo s1) eqn:TD.
      * injection H2 as <-. split; [apply ends_handler|]. cbn [brd]. split.
        -- intros n HN. destruct (T n HN) as (A & B). split; auto. rewrite <- (Z.add_0_r (_ - n)). now apply EXT.
        -- intro HP. destruct (C HP) as [|B]; [now left|]. unfold busy in B. rewrite TD in B. congruence.
      * injection H2 as <-. split; [rewrite TD; exact E|]. split.
        -- intros n HN. destruct (T n HN) as (A & B). split; auto. rewrite <- (Z.add_0_r (_ - n)). now apply EXT.
        -- auto.
    + destruct (todo s1) as [|o r] eqn:TD.
      { injection H2 as <-. split; [rewrite TD; exact E|]. split; auto. intros n HN. destruct (T n HN) as (A & B). split; auto. rewrite <- (Z.add_0_r (_ - n)). now apply EXT. }
      destruct (takes_mutex o && negb (Nat.eqb (pc s1) 0)).
      { injection H2 as <-. split; [rewrite TD; exact E|]. split; auto. intros n HN. destruct (T n HN) as (A & B). split; auto. rewrite <- (Z.add_0_r (_ - n)). now apply EXT. }
      destruct (exec rnd o (brd s1)) as [b|] eqn:X; cbn [rbind] in H2; [|discriminate]. injection H2 as <-.
      apply exec_ctl in X as (X1 & X2 & X3). destruct (ends_tl _ _ E) as (E1 & E2).
      split; [exact E1|]. unfold busy. cbn [brd todo]. split.
      * intros n HN. rewrite X3 in HN. destruct o; try (destruct (T n HN) as (A & B); split; auto; rewrite <- (Z.add_0_r (_ - n)); now apply EXT).
        injection HN as <-. split; [with_strategy transparent [SAFETY_TIMEOUT] unfold SAFETY_TIMEOUT; lia|]. exists evs, [Handle], s1. unfold busy. rewrite TD. repeat split; auto; try discriminate; try (with_strategy transparent [SAFETY_TIMEOUT] unfold ticks, SAFETY_TIMEOUT; cbn; lia).
      * intros _. destruct r; [|right; discriminate]. rewrite (E2 eq_refl) in X3. rewrite X3. left. discriminate.
    + destruct (servo_step rnd (pc s1) (brd s1)) as [b|] eqn:X; cbn [rbind] in H2; [|discriminate]. injection H2 as <-. apply servo_ctl in X as (X1 & X2 & X3 & _).
      split; [exact E|]. cbn [brd todo]. unfold busy; cbn [todo]. rewrite X1, X2, X3. split; auto. intros n HN. destruct (T n HN) as (A & B). split; auto. rewrite <- (Z.add_0_r (_ - n)). now apply EXT.
    + injection H2 as <-. split; [exact E|]. cbn [brd todo]. unfold busy; cbn [todo]. unfold tick. destruct (safety_timer (brd s1)) as [n|] eqn:TM.
      * destruct (T n eq_refl) as (A & B). destruct (n <=? 1) eqn:LE; cbn; [split; [discriminate|]; intros [|]; discriminate|].
        split; [|intros _; left; discriminate]. intros m HM. injection HM as <-. split; [lia|]. apply EXT in B. replace (SAFETY_TIMEOUT - (n - 1)) with (SAFETY_TIMEOUT - n + 1) by lia. exact B.
      * rewrite TM. split; [discriminate|]. exact C.
Qed.

(** Without orders. *)
Lemma idle_step s e s' : ~ busy s -> (forall c, e = Order c -> node_id c <> me) -> step s e = OK s' -> ~ busy s' /\
  match e with Tick => brd s' = tick (brd s) | Servo => servo_step rnd (pc s) (brd s) = OK (brd s') /\ pc s' = (S (pc s) mod 6)%nat | _ => s' = s end.
Proof.
  unfold busy. intros B N H. assert (TD : todo s = []) by (destruct (todo s); [auto|exfalso; apply B; discriminate]).
  destruct e as [c| | |]; cbn [ActModel.step] in H; rewrite ?TD in H.
  - unfold handler in H. destruct (node_id c =? me) eqn:E; cbn [negb] in H; [apply Z.eqb_eq in E; destruct (N c eq_refl); auto|]. injection H as <-. split; [auto|]. destruct s; cbn in *; congruence.
  - injection H as <-. rewrite TD. auto.
  - destruct (servo_step _ _ _) as [b|] eqn:E; cbn [rbind] in H; [|discriminate]. injection H as <-. cbn; auto.
  - injection H as <-. cbn. auto.
Qed.
Lemma idle_run : forall evs s s', ~ busy s -> no_order me evs -> run s evs = OK s' -> ~ busy s' /\
  (power (brd s) = false -> is_allowed_to_move (brd s) = false -> power (brd s') = false /\ is_allowed_to_move (brd s') = false) /\
  (forall n, safety_timer (brd s) = Some n -> n <= ticks evs -> 1 <= n -> power (brd s') = false /\ is_allowed_to_move (brd s') = false).
Proof.
  induction evs as [|e evs IH]; intros s s' B N H; cbn [ActModel.run] in H.
  - injection H as <-. split; auto. split; auto. intros n _ L1 L2. unfold ticks in L1. cbn in L1. lia.
  - destruct (step s e) as [s1|] eqn:S1; cbn [rbind] in H; [|discriminate].
    assert (N1 : forall c, e = Order c -> node_id c <> me) by (intros c ->; apply N; now left). destruct (idle_step _ _ _ B N1 S1) as (B1 & K). assert (N2 : no_order me evs) by (intros c I; apply N; now right).
    destruct (IH _ _ B1 N2 H) as (B2 & A1 & A2). split; auto. destruct e as [c| | |].
    + subst s1. split; auto.
    + subst s1. split; auto.
    + destruct K as (K & _). apply servo_ctl in K as (K1 & K2 & K3 & _). rewrite K1, K2, K3 in *. split; auto.
    + rewrite K in *. unfold tick in A1, A2. split.
      * intros P1 P2. destruct (safety_timer (brd s)) as [n|]; [|auto]. destruct (n <=? 1); cbn in A1; auto.
      * intros n TM L1 L2. rewrite TM in *. change (ticks (Tick :: evs)) with (ticks ([Tick] ++ evs)) in L1. rewrite ticks_app in L1. change (ticks [Tick]) with 1 in L1.
        destruct (n <=? 1) eqn:LE; cbn in A1; [apply A1; auto|]. apply (A2 (n - 1)); cbn; auto; lia.
Qed.

(** Shape of the state. *)
Definition shape (s : system) : Prop := length (servos (brd s)) = 2%nat /\ length (tim1 (brd s)) = 4%nat /\ length (tim16 (brd s)) = 4%nat /\ length (tim17 (brd s)) = 4%nat /\ (pc s < 6)%nat.
Lemma len_put {A} (l l' : list A) i x : put l i x = OK l' -> length l' = length l.
Proof. unfold put. destruct (_ <? _)%nat; [|discriminate]. intro H. injection H as <-. apply upd_length. Qed.
Lemma exec_shape o b b' : exec rnd o b = OK b' -> length (servos b') = length (servos b) /\ length (tim1 b') = length (tim1 b) /\ length (tim16 b') = length (tim16 b) /\ length (tim17 b') = length (tim17 b).
Proof.
  destruct o; cbn [exec]; intro H.
  - unfold servo_set in H. dob H. destruct (put _ _ _) eqn:P; cbn in H; [|discriminate]. injection H as <-. apply len_put in P. auto.
  - unfold pump_set_pwm in H. dob H. destruct i as [|[|]].
    + unfold pwm_set_pulsewidth in H. destruct (put _ _ _) eqn:P; cbn in H; [|discriminate]. injection H as <-. apply len_put in P. auto.
    + unfold pwm_set_pulsewidth in H. destruct (put _ _ _) eqn:P; cbn in H; [|discriminate]. injection H as <-. apply len_put in P. auto.
    + injection H as <-. auto.
  - injection H as <-. destruct i as [|[|]]; auto.
  - injection H as <-; auto.
  - injection H as <-; auto.
  - injection H as <-; auto.
Qed.
Lemma servo_shape p b b' : servo_step rnd p b = OK b' -> length (servos b') = length (servos b) /\ length (tim1 b') = length (tim1 b).
Proof.
  unfold servo_step. destruct (p mod 3)%nat as [|[|]]; intro H.
  - dob H. dob H. destruct (quadramp_do_filter _ _) as [[q o]|]; cbn [rbind] in H; [|discriminate]. destruct (put _ _ _) eqn:P; cbn in H; [|discriminate]. injection H as <-. apply len_put in P. auto.
  - injection H as <-. destruct (negb _); auto.
  - dob H. unfold pwm_set_pulsewidth in H. destruct (put _ _ _) eqn:P; cbn in H; [|discriminate]. injection H as <-. apply len_put in P. auto.
Qed.
Lemma shape_step s e s' : shape s -> step s e = OK s' -> shape s'.
Proof.
  intros (A & B & C & D & E) H. destruct e as [c| | |]; cbn [ActModel.step] in H.
  - destruct (todo s); injection H as <-; repeat split; auto.
  - destruct (todo s) as [|o r]; [injection H as <-; repeat split; auto|]. destruct (_ && _); [injection H as <-; repeat split; auto|].
    destruct (exec rnd o (brd s)) eqn:X; cbn [rbind] in H; [|discriminate]. injection H as <-. apply exec_shape in X as (? & ? & ? & ?). repeat split; cbn [brd pc]; congruence.
  - destruct (servo_step _ _ _) as [b|] eqn:X; cbn [rbind] in H; [|discriminate]. injection H as <-. pose proof (servo_ctl _ _ _ X) as (_ & _ & _ & ? & ? & _). apply servo_shape in X as (? & ?).
    unfold shape; cbn [brd pc]. pose proof (Nat.mod_upper_bound (S (pc s)) 6 ltac:(lia)). repeat apply conj; try congruence; auto.
  - injection H as <-. unfold shape, tick, brd. fold (brd s). destruct (safety_timer (brd s)) as [n|]; [|repeat split; auto]. destruct (n <=? 1); repeat split; auto.
Qed.
Lemma shape_run : forall evs s s', shape s -> run s evs = OK s' -> shape s'.
Proof.
  induction evs as [|e evs IH]; intros s s' B H; cbn [ActModel.run] in H; [injection H as <-; auto|]. destruct (step s e) as [s1|] eqn:S1; cbn [rbind] in H; [|discriminate]. eauto using shape_step.
Qed.
Lemma shape_boot : shape boot. Proof. repeat split; cbn; auto. lia. Qed.

(** The servo thread while motion is not allowed. *)
Definition z (ch : nat) (s : system) : Prop := nth ch (tim1 (brd s)) 0 = 0.
Definition good (s : system) : Prop := (pc s = 2 \/ pc s = 5)%nat -> pulsewidth (brd s) = 0.
Definition dist (p : nat) (s : system) : nat := S (Nat.modulo (p + 6 - pc s) 6).
Lemma nth_put (l l' : list Z) i x j : put l i x = OK l' -> nth j l' 0 = if Nat.eqb j i then x else nth j l 0.
Proof.
  unfold put. destruct (Nat.ltb_spec i (length l)) as [L|]; [|discriminate]. intro H. injection H as <-. revert i j L. induction l as [|a l IH]; intros [|i] [|j] L; cbn in *; try lia; auto. apply IH. lia.
Qed.
Lemma pc_cases s : shape s -> (pc s = 0 \/ pc s = 1 \/ pc s = 2 \/ pc s = 3 \/ pc s = 4 \/ pc s = 5)%nat.
Proof. intros (_ & _ & _ & _ & H). lia. Qed.
Lemma servo_thread s b' : shape s -> is_allowed_to_move (brd s) = false -> servo_step rnd (pc s) (brd s) = OK b' ->
  let s' := mkSys b' (todo s) (Nat.modulo (S (pc s)) 6) in good s' /\
  (good s -> (forall p ch, (p = 2 /\ ch = 1 \/ p = 5 /\ ch = 2)%nat -> (z ch s -> z ch s') /\ forall k, (dist p s <= S k)%nat -> z ch s' \/ (dist p s' <= k)%nat)).
Proof.
  intros SH AL H. unfold servo_step in H. unfold good, z, dist. cbn [pc brd].
  destruct (pc_cases s SH) as [E|[E|[E|[E|[E|E]]]]]; rewrite E in H |- *; cbn [Nat.div Nat.modulo Nat.divmod fst snd Nat.sub Nat.add] in H |- *.
  - dob H. dob H. destruct (quadramp_do_filter _ _) as [[q o]|]; cbn [rbind] in H; [|discriminate]. dob H. injection H as <-. cbn [pulsewidth set_pulse tim1 set_servos]. split; [lia|].
    intros G p ch [(-> & ->)|(-> & ->)]; cbn; (split; [auto|]); intros k L; right; lia.
  - rewrite AL in H. cbn [negb] in H. injection H as <-. cbn. split; [auto|]. intros G p ch [(-> & ->)|(-> & ->)]; cbn; (split; [auto|]); intros k L; right; lia.
  - cbn [get pwm_channels nth_error some rbind] in H. unfold pwm_set_pulsewidth in H. destruct (put _ _ _) as [l|] eqn:P; cbn [rbind] in H; [|discriminate]. injection H as <-. cbn [pulsewidth set_tim1 tim1]. split; [lia|].
    intros G. specialize (G (or_introl eq_refl)). intros p ch [(-> & ->)|(-> & ->)]; rewrite (nth_put _ _ _ _ _ P), ?G; cbn; (split; [auto|]); intros k L; [left; auto|right; lia].
  - dob H. dob H. destruct (quadramp_do_filter _ _) as [[q o]|]; cbn [rbind] in H; [|discriminate]. dob H. injection H as <-. cbn [pulsewidth set_pulse tim1 set_servos]. split; [lia|].
    intros G p ch [(-> & ->)|(-> & ->)]; cbn; (split; [auto|]); intros k L; right; lia.
  - rewrite AL in H. cbn [negb] in H. injection H as <-. cbn. split; [auto|]. intros G p ch [(-> & ->)|(-> & ->)]; cbn; (split; [auto|]); intros k L; right; lia.
  - cbn [get pwm_channels nth_error some rbind] in H. unfold pwm_set_pulsewidth in H. destruct (put _ _ _) as [l|] eqn:P; cbn [rbind] in H; [|discriminate]. injection H as <-. cbn [pulsewidth set_tim1 tim1]. split; [lia|].
    intros G. specialize (G (or_intror eq_refl)). intros p ch [(-> & ->)|(-> & ->)]; rewrite (nth_put _ _ _ _ _ P), ?G; cbn; (split; [auto|]); intros k L; [right; lia|left; auto].
Qed.
Definition idle (s : system) : Prop := shape s /\ ~ busy s /\ is_allowed_to_move (brd s) = false.
Lemma idle_next s e s' : idle s -> (forall c, e = Order c -> node_id c <> me) -> step s e = OK s' -> idle s' /\
  match e with Servo => exists b', servo_step rnd (pc s) (brd s) = OK b' /\ s' = mkSys b' (todo s) (Nat.modulo (S (pc s)) 6) | _ => tim1 (brd s') = tim1 (brd s) /\ pulsewidth (brd s') = pulsewidth (brd s) /\ pc s' = pc s end.
Proof.
  intros (SH & B & AL) N H. pose proof (shape_step _ _ _ SH H) as SH'. destruct (idle_step _ _ _ B N H) as (B' & K). destruct e as [c| | |].
  - subst s'. split; [exact (conj SH' (conj B' AL))|auto].
  - subst s'. split; [exact (conj SH' (conj B' AL))|auto].
  - cbn [ActModel.step] in H. destruct K as (K & _). rewrite K in H. cbn [rbind] in H. pose proof (servo_ctl _ _ _ K) as (_ & A & _). split; [refine (conj SH' (conj B' _)); congruence|]. exists (brd s'). split; auto. injection H as <-. reflexivity.
  - cbn [ActModel.step] in H. injection H as <-. cbn [brd] in *. split; [split; [auto|]; split; [auto|]|]; unfold tick; cbn [brd pc].
    + destruct (safety_timer (brd s)) as [n|]; [|auto]. destruct (n <=? 1); auto.
    + destruct (safety_timer (brd s)) as [n|]; [|auto]. destruct (n <=? 1); auto.
Qed.
Lemma released_good : forall evs s s' p ch k, (p = 2 /\ ch = 1 \/ p = 5 /\ ch = 2)%nat -> idle s -> good s -> z ch s \/ (dist p s <= k)%nat -> (k <= servo_steps evs)%nat ->
  no_order me evs -> run s evs = OK s' -> z ch s'.
Proof.
  induction evs as [|e evs IH]; intros s s' p ch k PC I G Z L N H; cbn [ActModel.run] in H.
  - injection H as <-. cbn in L. destruct Z as [|Z]; auto. unfold dist in Z. lia.
  - destruct (step s e) as [s1|] eqn:S1; cbn [rbind] in H; [|discriminate].
    assert (N1 : forall c, e = Order c -> node_id c <> me) by (intros c ->; apply N; now left). assert (N2 : no_order me evs) by (intros c J; apply N; now right).
    destruct (idle_next _ _ _ I N1 S1) as (I1 & K).
    assert (SAME : tim1 (brd s1) = tim1 (brd s) /\ pulsewidth (brd s1) = pulsewidth (brd s) /\ pc s1 = pc s -> good s1 /\ (z ch s1 \/ (dist p s1 <= k)%nat)).
    { intros (T1 & T2 & T3). unfold good, z, dist in *. rewrite T1, T2, T3. auto. }
    destruct e as [c| | |].
    + destruct (SAME K) as (G1 & Z1). eapply IH; eauto.
    + destruct (SAME K) as (G1 & Z1). eapply IH; eauto.
    + destruct K as (b' & ST & ->). destruct I as (SH & B & AL). destruct (servo_thread _ _ SH AL ST) as (G1 & Q). destruct (Q G p ch PC) as (Q1 & Q2).
      cbn in L. change (length (List.filter _ evs)) with (servo_steps evs) in L. eapply (IH _ _ p ch (Nat.pred k)); eauto; [|lia]. destruct Z as [Z|Z]; [left; auto|]. destruct k; [unfold dist in Z; lia|]. apply Q2. exact Z.
    + destruct (SAME K) as (G1 & Z1). eapply IH; eauto.
Qed.
Lemma released : forall evs s s', idle s -> (7 <= servo_steps evs)%nat -> no_order me evs -> run s evs = OK s' -> z 1 s' /\ z 2 s'.
Proof.
  induction evs as [|e evs IH]; intros s s' I L N H; cbn [ActModel.run] in H; [cbn in L; lia|].
  destruct (step s e) as [s1|] eqn:S1; cbn [rbind] in H; [|discriminate].
  assert (N1 : forall c, e = Order c -> node_id c <> me) by (intros c ->; apply N; now left). assert (N2 : no_order me evs) by (intros c J; apply N; now right).
  destruct (idle_next _ _ _ I N1 S1) as (I1 & K). destruct e as [c| | |]; try (eapply IH; eauto; fail).
  destruct K as (b' & ST & E). destruct I as (SH & B & AL). destruct (servo_thread _ _ SH AL ST) as (G1 & _). rewrite <- E in G1. cbn in L. change (length (List.filter _ evs)) with (servo_steps evs) in L.
  assert (D : forall p, (p <= 5)%nat -> (dist p s1 <= 6)%nat) by (intros p Hp; unfold dist; pose proof (Nat.mod_upper_bound (p + 6 - pc s1) 6 ltac:(lia)); lia).
  split; [apply (released_good evs s1 s' 2 1 6)|apply (released_good evs s1 s' 5 2 6)]; auto; try lia; try (right; apply D; lia); eauto; apply le_S_n; exact L.
Qed.

(** After an order. *)
Definition armed (n : Z) (s : system) : Prop := power (brd s) = true /\ is_allowed_to_move (brd s) = true /\ exists m, safety_timer (brd s) = Some m /\ n <= m.
Lemma armed_step n s e s' : 1 <= n <= SAFETY_TIMEOUT -> armed n s -> step s e = OK s' -> n - ticks [e] < 1 \/ armed (n - ticks [e]) s'.
Proof.
  intros L (P & A & m & TM & M) H. destruct e as [c| | |]; cbn [ActModel.step] in H; unfold ticks; cbn [List.filter length Z.of_nat].
  - right. rewrite Z.sub_0_r. destruct (todo s); injection H as <-; repeat split; eauto.
  - right. rewrite Z.sub_0_r. destruct (todo s) as [|o r]; [injection H as <-; repeat split; eauto|]. destruct (_ && _); [injection H as <-; repeat split; eauto|].
    destruct (exec rnd o (brd s)) eqn:X; cbn [rbind] in H; [|discriminate]. injection H as <-. apply exec_ctl in X as (X1 & X2 & X3). unfold armed. cbn [brd]. rewrite X1, X2, X3.
    destruct o; repeat split; eauto. exists SAFETY_TIMEOUT. split; auto. lia.
  - right. rewrite Z.sub_0_r. destruct (servo_step _ _ _) as [b|] eqn:X; cbn [rbind] in H; [|discriminate]. injection H as <-. apply servo_ctl in X as (X1 & X2 & X3 & _). unfold armed. cbn [brd]. rewrite X1, X2, X3. eauto.
  - injection H as <-. change (Z.of_nat 1) with 1. destruct (Z.lt_ge_cases (n - 1) 1); [now left|]. right. unfold armed, tick. cbn [brd]. rewrite TM. destruct (Z.leb_spec m 1); [lia|]. cbn. repeat split; auto. eexists. split; [reflexivity|lia].
Qed.
Lemma armed_run : forall evs n s s', n <= SAFETY_TIMEOUT -> armed n s -> ticks evs < n -> run s evs = OK s' -> armed (n - ticks evs) s'.
Proof.
  induction evs as [|e evs IH]; intros n s s' LN A L H; cbn [ActModel.run] in H.
  - injection H as <-. unfold ticks in *. cbn in *. now rewrite Z.sub_0_r.
  - destruct (step s e) as [s1|] eqn:S1; cbn [rbind] in H; [|discriminate]. change (e :: evs) with ([e] ++ evs) in *. rewrite ticks_app in *. pose proof (ticks_nn evs). pose proof (ticks_nn [e]).
    destruct (armed_step n _ _ _ ltac:(lia) A S1) as [|A1]; [lia|]. rewrite Z.sub_add_distr. eapply IH; eauto; lia.
Qed.
(** The handler runs to its end without a tick. *)
Definition has (o : statement) (t : list statement) (b : bool) : Prop := In o t \/ b = true.
Lemma finish : forall evs s s', ticks evs = 0 -> (forall c, ~ In (Order c) evs) -> ~ busy s' -> ends_well (todo s) -> run s evs = OK s' -> todo s <> [] ->
  (In PowerEnable (todo s) \/ power (brd s) = true) -> (In Allow (todo s) \/ is_allowed_to_move (brd s) = true) -> armed SAFETY_TIMEOUT s'.
Proof.
  induction evs as [|e evs IH]; intros s s' T N B E H NE P A; cbn [ActModel.run] in H.
  - injection H as <-. now destruct B.
  - destruct (step s e) as [s1|] eqn:S1; cbn [rbind] in H; [|discriminate]. change (e :: evs) with ([e] ++ evs) in *. rewrite ticks_app in T. pose proof (ticks_nn evs). pose proof (ticks_nn [e]).
    assert (N' : forall c, ~ In (Order c) evs) by (intros c J; apply (N c); now right).
    destruct e as [c| | |]; cbn [ActModel.step] in S1.
    + destruct (N c). now left.
    + destruct (todo s) as [|o r] eqn:TD; [congruence|]. destruct (_ && _); [injection S1 as <-; apply (IH s s'); rewrite ?TD; auto; lia|].
      destruct (exec rnd o (brd s)) as [b|] eqn:X; cbn [rbind] in S1; [|discriminate]. injection S1 as <-. apply exec_ctl in X as (X1 & X2 & X3). destruct (ends_tl _ _ E) as (E1 & E2).
      destruct r as [|o' r].
      * specialize (E2 eq_refl). subst o. assert (AR : armed SAFETY_TIMEOUT (mkSys b [] (pc s))).
        { unfold armed. cbn [brd]. rewrite X1, X2, X3. destruct P as [[|[]]|P]; [discriminate|]. destruct A as [[|[]]|A]; [discriminate|]. repeat split; auto. exists SAFETY_TIMEOUT. split; auto; lia. }
        replace SAFETY_TIMEOUT with (SAFETY_TIMEOUT - ticks evs) by lia. eapply armed_run; eauto; with_strategy transparent [SAFETY_TIMEOUT] unfold SAFETY_TIMEOUT; lia.
      * apply (IH (mkSys b (o' :: r) (pc s)) s'); cbn [todo brd]; auto; [discriminate| |].
        -- rewrite X1. destruct P as [[->|P]|P]; [right; auto|left; auto|right]. destruct o; auto.
        -- rewrite X2. destruct A as [[->|A]|A]; [right; auto|left; auto|right]. destruct o; auto.
    + destruct (servo_step _ _ _) as [b|] eqn:X; cbn [rbind] in S1; [|discriminate]. injection S1 as <-. apply servo_ctl in X as (X1 & X2 & X3 & _).
      apply (IH (mkSys b (todo s) (Nat.modulo (S (pc s)) 6)) s'); cbn [todo brd]; rewrite ?X1, ?X2; auto; lia.
    + change (ticks [Tick]) with 1 in *. lia.
Qed.
End P.
