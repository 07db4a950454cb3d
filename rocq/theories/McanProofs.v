From Coq Require Import ZArith List Bool Arith Lia Permutation.
From Verif Require Import CBase EnumModel EnumSpec EnumProofs MotorModel MotorSpec MotorProofs McanModel McanSpec.
Import ListNotations.
Local Open Scope Z_scope.

Definition phase_ok (p : phase) (len : nat) : Prop :=
  match p with Idle => True | Config i n | Send i n => (i <= n <= len)%nat end.
Record winv (max cap : nat) (st : spec) (s : sys) : Prop := {
  w_mgr : minv max cap st (mgr s);
  w_len : length (ids s) = length (motors st);
  w_ids : forall i mo c, nth_error (motors st) i = Some mo -> nth_error (ids s) i = Some c ->
            c = DRIVER_CAN_ID_NOT_SET \/ announced (log st) (m_name mo) = Some c;
  w_rng : forall x c, In (Announce x c) (log st) -> 1 <= c <= 127;
  w_dist : forall a b c, announced (log st) a = Some c -> announced (log st) b = Some c -> a = b;
  w_ph : phase_ok (ph s) (length (motors st)) }.

Lemma winv_init max cap : winv max cap {| motors := []; log := [] |} (sys_init max cap).
Proof.
  constructor; cbn; auto; try contradiction; try discriminate.
  - apply minv_init.
  - intros [|i]; discriminate.
Qed.

Lemma announced_snoc h e x c : announced h x = Some c -> announced (h ++ [e]) x = Some c.
Proof. intro H. destruct e; [now rewrite announced_add|now rewrite announced_announce, H]. Qed.

Lemma upd_len {A} (l : list A) i x : length (upd l i x) = length l.
Proof. revert i; induction l; destruct i; cbn; auto. Qed.
Lemma upd_same {A} (l : list A) i x : (i < length l)%nat -> nth_error (upd l i x) i = Some x.
Proof. revert i; induction l; destruct i; cbn; intro H; try lia; auto. apply IHl. lia. Qed.
Lemma upd_other {A} (l : list A) i j x : i <> j -> nth_error (upd l i x) j = nth_error l j.
Proof. revert i j; induction l; destruct i, j; cbn; intro H; try congruence; auto. Qed.

Lemma nth_motor st i : (i < length (motors st))%nat -> exists mo, nth_error (motors st) i = Some mo.
Proof. intro H. destruct (nth_error (motors st) i) eqn:E; eauto. apply nth_error_None in E. lia. Qed.

(** The id used for motor [i]. *)
Lemma update_id max cap st s i mo : (max <= cap)%nat -> winv max cap st s -> nth_error (motors st) i = Some mo ->
  exists s' c d, update_motor_can_id s i = Some (s', c) /\ winv max cap st s' /\ mgr s' = mgr s /\ ph s' = ph s /\
    nth_error (drivers (mgr s)) i = Some d /\ matches d mo /\
    match announced (log st) (m_name mo) with Some c' => c = c' /\ 1 <= c <= 127 | None => c = DRIVER_CAN_ID_NOT_SET end.
Proof.
  intros HM I Hi. pose proof (w_mgr _ _ _ _ I) as MI.
  pose proof (proj1 (Forall2_nth _ _ _ _ _) (mi_match _ _ _ _ MI)) as [L Mt].
  assert (Hlt : (i < length (motors st))%nat) by (apply nth_error_Some; congruence).
  destruct (nth_error (drivers (mgr s)) i) as [d|] eqn:Hd; [|apply nth_error_None in Hd; lia].
  destruct (nth_error (ids s) i) as [c|] eqn:Hc; [|apply nth_error_None in Hc; rewrite (w_len _ _ _ _ I) in Hc; lia].
  pose proof (Mt _ _ _ Hd Hi) as Md. unfold update_motor_can_id. rewrite Hd, Hc.
  destruct (Z.eqb_spec c DRIVER_CAN_ID_NOT_SET) as [->|N].
  - replace (d_id d) with (m_name mo) by (symmetry; apply Md). rewrite (get_can_id_unknown _ _ _ _ _ MI HM).
    destruct (in_dec _ _ _) as [_|NI]; [|exfalso; apply NI; apply in_map; eapply nth_error_In; eauto].
    destruct (announced (log st) (m_name mo)) as [c'|] eqn:A.
    + pose proof (w_rng _ _ _ _ I _ _ (announced_in _ _ _ A)) as R.
      replace (c' =? CAN_ID_NOT_SET) with false by (symmetry; apply Z.eqb_neq; unfold CAN_ID_NOT_SET; lia).
      replace (c' =? STRING_ID_NOT_FOUND) with false by (symmetry; apply Z.eqb_neq; unfold STRING_ID_NOT_FOUND; lia).
      cbn [negb andb]. eexists _, c', d. split; [reflexivity|]. cbn [mgr ph]. split; [|auto 10].
      constructor; cbn [mgr ids ph]; try solve [apply I].
      * rewrite upd_len. apply I.
      * intros j mj cj Hj Hcj. destruct (Nat.eq_dec i j) as [->|NE].
        -- rewrite upd_same in Hcj by (rewrite (w_len _ _ _ _ I); lia). right. congruence.
        -- rewrite upd_other in Hcj by exact NE. eapply I; eauto.
    + rewrite Z.eqb_refl. cbn [negb andb]. exists s, DRIVER_CAN_ID_NOT_SET, d. auto 10.
  - destruct (w_ids _ _ _ _ I _ _ _ Hi Hc) as [->|A]; [congruence|]. exists s, c, d. split; [reflexivity|]. rewrite A.
    pose proof (w_rng _ _ _ _ I _ _ (announced_in _ _ _ A)). auto 10.
Qed.

Lemma winv_ph max cap st s p : winv max cap st s -> phase_ok p (length (motors st)) -> winv max cap st (set_ph s p).
Proof. intros I H. constructor; cbn [set_ph mgr ids ph]; auto; apply I. Qed.

Lemma send_l max cap st s i mo : (max <= cap)%nat -> winv max cap st s -> nth_error (motors st) i = Some mo ->
  exists s', send_setpoint s i = Some (s', wanted st i) /\ winv max cap st s' /\ ph s' = ph s.
Proof.
  intros HM I Hi. destruct (update_id _ _ _ _ _ _ HM I Hi) as (s' & c & d & E & I' & Em & Ep & Hd & Md & Hc).
  unfold send_setpoint. rewrite E. unfold wanted. rewrite Hi. destruct (announced (log st) (m_name mo)) as [c'|].
  - destruct Hc as [-> R]. replace (c' =? DRIVER_CAN_ID_NOT_SET) with false by (symmetry; apply Z.eqb_neq; unfold DRIVER_CAN_ID_NOT_SET; lia).
    rewrite Em, Hd. exists s'. split; [|auto]. f_equal. f_equal. destruct Md as (_ & -> & ->).
    assert (U : uint7 c' = c') by (unfold uint7; lia). rewrite U. destruct (m_sets mo) as [|[v|v|v|v|] l]; reflexivity.
  - subst c. rewrite Z.eqb_refl. exists s'. auto.
Qed.

Lemma config_l max cap st s i mo : (max <= cap)%nat -> winv max cap st s -> nth_error (motors st) i = Some mo ->
  exists s' b, update_config s i = Some (s', b) /\ winv max cap st s' /\ ph s' = ph s.
Proof.
  intros HM I Hi. destruct (update_id _ _ _ _ _ _ HM I Hi) as (s' & c & d & E & I' & Em & Ep & _).
  unfold update_config. rewrite E. eauto.
Qed.

Definition can_result (st : spec) (p : phase) (o : list (nat * option message)) (p' : phase) : Prop :=
  match p with
  | Idle => o = [] /\ p' = Config 0 (length (motors st))
  | Config i n => o = [] /\ (p' = Send 0 n \/ (i < n)%nat /\ p' = Config (S i) n)
  | Send i n => if Nat.ltb i n then o = [(i, wanted st i)] /\ p' = Send (S i) n else o = [] /\ p' = Idle
  end.
Lemma can_l max cap st s : (max <= cap)%nat -> winv max cap st s ->
  exists s' o, can_step s = Some (s', o) /\ winv max cap st s' /\ can_result st (ph s) o (ph s').
Proof.
  intros HM I. pose proof (w_ph _ _ _ _ I) as P. unfold can_step, can_result. destruct (ph s) as [|i n|i n] eqn:Ep; cbn [phase_ok] in P.
  - rewrite (minv_len _ _ _ _ (w_mgr _ _ _ _ I)). eexists _, _. split; [reflexivity|]. split; [|auto]. apply winv_ph; [exact I|]. cbn. lia.
  - destruct (Nat.ltb_spec i n) as [Hlt|].
    + destruct (nth_motor st i) as [mo Hmo]; [lia|]. destruct (config_l _ _ _ _ _ _ HM I Hmo) as (s' & b & -> & I' & _).
      eexists _, _. split; [reflexivity|]. split.
      * apply winv_ph; [exact I'|]. destruct b; cbn; lia.
      * split; [reflexivity|]. destruct b; cbn [set_ph ph]; auto.
    + eexists _, _. split; [reflexivity|]. split; [apply winv_ph; [exact I|cbn; lia]|auto].
  - destruct (Nat.ltb_spec i n) as [Hlt|].
    + destruct (nth_motor st i) as [mo Hmo]; [lia|]. destruct (send_l _ _ _ _ _ _ HM I Hmo) as (s' & -> & I' & _).
      eexists _, _. split; [reflexivity|]. split; [apply winv_ph; [exact I'|cbn; lia]|auto].
    + eexists _, _. split; [reflexivity|]. split; [apply winv_ph; [exact I|exact Logic.I]|auto].
Qed.

Lemma phase_mono p a b : phase_ok p a -> (a <= b)%nat -> phase_ok p b.
Proof. destruct p; cbn; lia. Qed.

Lemma taken_l max cap st m c : minv max cap st m -> (max <= cap)%nat ->
  exists k, get_str_id (enum m) c = Some k /\ (match k with Some _ => true | None => false end) = taken st c.
Proof.
  intros I HM. unfold get_str_id.
  destruct (feedback_lookup _ _ _ _ c I HM) as [(i & mo & Hi & A & G)|[NI G]]; unfold get_driver_by_can_id in G;
    destruct (entry_at (can_to_str (enum m)) (index_by_can_id (enum m) c)) as [[e|]|]; try discriminate.
  - eexists. split; [reflexivity|]. cbn. symmetry. unfold taken. apply existsb_exists. exists mo. split; [eapply nth_error_In; eauto|].
    rewrite A. apply Z.eqb_refl.
  - eexists. split; [reflexivity|]. cbn. symmetry. unfold taken. apply not_true_is_false. intro H. apply existsb_exists in H as (mo & Hin & H).
    apply (NI mo Hin). destruct (announced (log st) (m_name mo)); [|discriminate]. apply Z.eqb_eq in H. congruence.
Qed.

Lemma spec_len max st e : (length (motors st) <= length (motors (spec_event max st e)))%nat.
Proof.
  destruct e; cbn [spec_event spec_step]; auto.
  - destruct (in_dec _ _ _); auto. destruct (Nat.ltb _ _); auto. cbn. rewrite app_length. lia.
  - cbn. now rewrite map_length.
  - destruct (taken st c); auto.
Qed.

Lemma step_l max cap st s e : (max <= cap)%nat -> winv max cap st s -> event_ok e ->
  exists s' o, step s e = Some (s', o) /\ winv max cap (spec_event max st e) s' /\
    (if is_can e then can_result st (ph s) o (ph s') else o = [] /\ ph s' = ph s).
Proof.
  intros HM I K. pose proof (w_mgr _ _ _ _ I) as MI. pose proof (spec_len max st e) as SL. destruct e as [x|x sp|x c|c f|]; cbn [is_can step spec_event event_ok] in *.
  - destruct (create_step _ _ _ _ x MI HM K) as (m' & -> & I'). eexists _, _. split; [reflexivity|]. split; [|auto].
    cbn [spec_step] in *. destruct (in_dec _ _ _) as [IN|NIN].
    + constructor; cbn [mgr ids ph]; rewrite ?app_nil_r; auto; apply I.
    + destruct (Nat.ltb _ _) eqn:Hlt.
      * cbn [motors] in SL. assert (AE : forall y, announced (log st ++ [Add x (Z.of_nat (length (motors st)))]) y = announced (log st) y) by (intro; apply announced_add).
        constructor; cbn [mgr ids ph motors log]; auto.
        -- rewrite !app_length. cbn. f_equal. apply I.
        -- intros i mo c Hi Hc. rewrite AE. destruct (Nat.lt_ge_cases i (length (motors st))).
           ++ rewrite nth_error_app1 in Hi by lia. rewrite nth_error_app1 in Hc by (rewrite (w_len _ _ _ _ I); lia). eapply I; eauto.
           ++ rewrite nth_error_app2 in Hc by (rewrite (w_len _ _ _ _ I); lia). rewrite (w_len _ _ _ _ I) in Hc.
              destruct (i - length (motors st))%nat as [|q]; cbn in Hc; [left; congruence|destruct q; discriminate].
        -- intros y c H. apply in_app_iff in H as [H|[H|[]]]; [|discriminate]. eapply I; eauto.
        -- intros a b c. rewrite !AE. apply I.
        -- eapply phase_mono; [apply I|exact SL].
      * constructor; cbn [mgr ids ph]; rewrite ?app_nil_r; auto; apply I.
  - destruct (set_step _ _ _ _ x sp MI HM) as (m' & -> & I'). eexists _, _. split; [reflexivity|]. split; [|auto].
    cbn [spec_step] in *. constructor; cbn [mgr ids ph motors log with_mgr]; auto; try apply I.
    + rewrite map_length. apply I.
    + intros i mo c Hi Hc. rewrite nth_error_map in Hi. destruct (nth_error (motors st) i) as [m0|] eqn:E0; [|discriminate].
      cbn in Hi. injection Hi as <-. pose proof (w_ids _ _ _ _ I _ _ _ E0 Hc). destruct (name_dec (m_name m0) x); auto.
    + rewrite map_length. apply I.
  - unfold node_info. destruct (taken_l _ _ _ _ c MI HM) as (k & -> & T). destruct k as [n|].
    + rewrite <- T. eexists _, _. split; [reflexivity|]. split; [|auto]. constructor; cbn [mgr ids ph with_mgr]; apply I.
    + destruct (board_step _ _ _ _ x c MI) as (m' & -> & I'); [lia|]. rewrite <- T in *. eexists _, _. split; [reflexivity|]. split; [|auto].
      cbn [spec_step] in *.
      assert (FR : forall a, announced (log st) a <> Some c).
      { intros a A. assert (TT : taken st c = true); [|congruence]. unfold taken. apply existsb_exists.
        assert (IN : In a (map m_name (motors st))).
        { rewrite <- (minv_names _ _ _ _ MI). destruct (in_dec name_dec a (map fst (adds (log st)))) as [|NI]; [assumption|].
          rewrite (announced_notin _ _ NI) in A. discriminate. }
        apply in_map_iff in IN as (mo & <- & IN). exists mo. split; [exact IN|]. rewrite A. apply Z.eqb_refl. }
      constructor; cbn [mgr ids ph motors log with_mgr]; auto; try apply I.
      * intros i mo c' Hi Hc'. destruct (w_ids _ _ _ _ I _ _ _ Hi Hc') as [|A]; [auto|]. right. now apply announced_snoc.
      * intros y c' H. apply in_app_iff in H as [H|[H|[]]]; [eapply I; eauto|]. injection H as _ <-. exact K.
      * intros a b c'. rewrite !announced_announce. destruct (announced (log st) a) as [ca|] eqn:Aa, (announced (log st) b) as [cb|] eqn:Ab.
        -- intros [= ->] [= ->]. eapply I; eauto.
        -- intros [= ->]. destruct (in_dec _ _ _); [|discriminate]. destruct (name_dec x b); [|discriminate]. intros [= ->]. exfalso. eapply FR; eauto.
        -- destruct (in_dec _ _ _); [|discriminate]. destruct (name_dec x a); [|discriminate]. intros [= ->] [= ->]. exfalso. eapply FR; eauto.
        -- destruct (in_dec _ _ _); [|discriminate]. destruct (name_dec x a); [|discriminate]. intros _.
           destruct (in_dec _ _ _); [|discriminate]. destruct (name_dec x b); [|discriminate]. congruence.
  - destruct (feedback_step _ _ _ _ c f MI HM) as (m' & -> & I'). eexists _, _. split; [reflexivity|]. split; [|auto].
    constructor; cbn [mgr ids ph with_mgr]; auto; apply I.
  - destruct (can_l _ _ _ _ HM I) as (s' & o & E & I' & R). eauto.
Qed.

Definition from (max : nat) (st : spec) (h : list event) : spec := fold_left (spec_event max) h st.

Lemma run_app s h1 h2 : run s (h1 ++ h2) =
  match run s h1 with
  | Some (s1, o1) => match run s1 h2 with Some (s2, o2) => Some (s2, o1 ++ o2) | None => None end
  | None => None
  end.
Proof.
  revert s. induction h1 as [|e h1 IH]; intro s; cbn [app run].
  - destruct (run s h2) as [[s2 o2]|]; reflexivity.
  - destruct (step s e) as [[s1 o1]|]; [|reflexivity]. rewrite IH. destruct (run s1 h1) as [[s2 o2]|]; [|reflexivity].
    destruct (run s2 h2) as [[s3 o3]|]; [|reflexivity]. now rewrite app_assoc.
Qed.

Lemma run_l max cap h : (max <= cap)%nat -> forall st s, winv max cap st s -> Forall event_ok h ->
  exists s' o, run s h = Some (s', o) /\ winv max cap (from max st h) s' /\
    Forall (fun x => exists a b, h = a ++ Can :: b /\ (fst x < length (motors (from max st a)))%nat /\ snd x = wanted (from max st a) (fst x)) o.
Proof.
  intros HM. induction h as [|e h IH]; intros st s I F.
  - exists s, []. auto.
  - inversion F as [|? ? He Fh]; subst. destruct (step_l _ _ _ _ _ HM I He) as (s1 & o1 & E1 & I1 & R).
    destruct (IH _ _ I1 Fh) as (s2 & o2 & E2 & I2 & W). cbn [run]. rewrite E1, E2. eexists _, _. split; [reflexivity|]. split; [exact I2|].
    apply Forall_app. split.
    + destruct e; cbn [is_can] in R; try (destruct R as [-> _]; constructor).
      pose proof (w_ph _ _ _ _ I) as P. unfold can_result in R. destruct (ph s) as [|i n|i n]; cbn [phase_ok] in P.
      * destruct R as [-> _]. constructor.
      * destruct R as [-> _]. constructor.
      * destruct (Nat.ltb_spec i n) as [Hlt|]; [|destruct R as [-> _]; constructor]. destruct R as [-> _]. constructor; [|constructor]. exists [], h. cbn.
        split; [reflexivity|]. split; [lia|reflexivity].
    + eapply Forall_impl; [|exact W]. intros x (a & b & -> & X). exists (e :: a), b. auto.
Qed.

Definition remaining (p : phase) : nat :=
  match p with Idle => 0 | Config i n => (n - i) + 1 + n + 1 | Send i n => (n - i) + 1 end.
Definition to_serve (p : phase) : list nat :=
  match p with Idle => [] | Config i n => seq 0 n | Send i n => seq i (n - i) end.

Lemma finish max cap h : (max <= cap)%nat -> forall st s, winv max cap st s -> Forall event_ok h -> (remaining (ph s) <= can_steps h)%nat ->
  exists h1 h2 s1 o1, h = h1 ++ h2 /\ run s h1 = Some (s1, o1) /\ ph s1 = Idle /\ map fst o1 = to_serve (ph s) /\ (can_steps h1 <= remaining (ph s))%nat.
Proof.
  intros HM. induction h as [|e h IH]; intros st s I F L.
  - destruct (ph s) eqn:P; cbn in L; try lia. exists [], [], s, []. auto.
  - destruct (ph s) as [|i n|i n] eqn:P.
    { exists [], (e :: h), s, []. auto. }
    all: inversion F as [|? ? He Fh]; subst; destruct (step_l _ _ _ _ _ HM I He) as (s1 & o1 & E1 & I1 & R);
      pose proof (w_ph _ _ _ _ I) as PO; rewrite P in *; cbn [phase_ok] in PO.
    + destruct (is_can e) eqn:C.
      * destruct e; try discriminate. cbn [can_result] in R. destruct R as [-> R].
        assert (CS : can_steps (Can :: h) = S (can_steps h)) by reflexivity. rewrite CS in L.
        assert (RM : (remaining (ph s1) < remaining (Config i n))%nat) by (destruct R as [->|[? ->]]; cbn [remaining]; lia).
        destruct (IH _ _ I1 Fh) as (h1 & h2 & s2 & o2 & -> & E2 & P2 & S2 & C2); [lia|].
        exists (Can :: h1), h2, s2, o2. split; [reflexivity|]. split; [cbn [run]; rewrite E1, E2; reflexivity|]. split; [exact P2|].
        assert (CS1 : can_steps (Can :: h1) = S (can_steps h1)) by reflexivity. rewrite CS1. split; [|lia].
        rewrite S2. destruct R as [->|[? ->]]; cbn [to_serve]; [now rewrite Nat.sub_0_r|reflexivity].
      * destruct R as [-> R]. assert (CS : can_steps (e :: h) = can_steps h) by (unfold can_steps; cbn; now rewrite C). rewrite CS in L.
        destruct (IH _ _ I1 Fh) as (h1 & h2 & s2 & o2 & -> & E2 & P2 & S2 & C2); [rewrite R; exact L|]. rewrite R in *.
        exists (e :: h1), h2, s2, o2. split; [reflexivity|]. split; [cbn [run]; rewrite E1, E2; reflexivity|]. split; [exact P2|].
        split; [exact S2|]. unfold can_steps in *. cbn. now rewrite C.
    + destruct (is_can e) eqn:C.
      * destruct e; try discriminate. cbn [can_result] in R.
        assert (CS : forall h, can_steps (Can :: h) = S (can_steps h)) by reflexivity. rewrite CS in L.
        destruct (Nat.ltb_spec i n) as [Hlt|Hge]; destruct R as [-> R].
        -- destruct (IH _ _ I1 Fh) as (h1 & h2 & s2 & o2 & -> & E2 & P2 & S2 & C2); [rewrite R; cbn [remaining] in *; lia|]. rewrite R in *.
           exists (Can :: h1), h2, s2, ([(i, wanted st i)] ++ o2). split; [reflexivity|]. split; [cbn [run]; rewrite E1, E2; reflexivity|]. split; [exact P2|].
           rewrite CS. cbn [remaining to_serve] in *. split; [|lia]. rewrite map_app, S2. cbn [map fst app]. replace (n - i)%nat with (S (n - S i)) by lia. reflexivity.
        -- exists [Can], h, s1, []. split; [reflexivity|]. split; [cbn [run]; rewrite E1; reflexivity|]. split; [exact R|].
           cbn [to_serve remaining]. replace (n - i)%nat with 0%nat by lia. split; [reflexivity|]. cbn. lia.
      * destruct R as [-> R]. assert (CS : can_steps (e :: h) = can_steps h) by (unfold can_steps; cbn; now rewrite C). rewrite CS in L.
        destruct (IH _ _ I1 Fh) as (h1 & h2 & s2 & o2 & -> & E2 & P2 & S2 & C2); [rewrite R; exact L|]. rewrite R in *.
        exists (e :: h1), h2, s2, o2. split; [reflexivity|]. split; [cbn [run]; rewrite E1, E2; reflexivity|]. split; [exact P2|].
        split; [exact S2|]. unfold can_steps in *. cbn. now rewrite C.
Qed.

(** A period: from the timer to the end of its callback. *)
Lemma cycle_l max cap h h' s o : (max <= cap)%nat -> Forall event_ok (h ++ h') -> run (sys_init max cap) h = Some (s, o) -> ph s = Idle ->
  let n := length (motors (world max h)) in
  (2 * n + 3 <= can_steps h')%nat -> match h' with Can :: _ => True | _ => False end ->
  exists h1 h2 s1 o1, h' = h1 ++ h2 /\ (1 <= can_steps h1 <= 2 * n + 3)%nat /\ run s h1 = Some (s1, o1) /\ ph s1 = Idle /\ map fst o1 = seq 0 n.
Proof.
  intros HM F E P n L. destruct h' as [|[| | | |] h']; try contradiction. intros _. apply Forall_app in F as [F F'].
  destruct (run_l max cap h HM _ _ (winv_init max cap) F) as (s0 & o0 & E0 & I & _). rewrite E in E0. injection E0 as <- <-.
  inversion F' as [|? ? He Fh]; subst. destruct (step_l _ _ _ _ _ HM I He) as (s1 & o1 & E1 & I1 & R).
  rewrite P in R. cbn [is_can can_result] in R. destruct R as [-> R]. cbn [spec_event] in I1.
  assert (CS : forall h, can_steps (Can :: h) = S (can_steps h)) by reflexivity. rewrite CS in L.
  change (length (motors (from max {| motors := []; log := [] |} h))) with n in R.
  destruct (finish max cap h' HM _ _ I1 Fh) as (h1 & h2 & s2 & o2 & -> & E2 & P2 & S2 & C2); [rewrite R; cbn [remaining]; lia|].
  rewrite R in *. cbn [remaining to_serve] in *. exists (Can :: h1), h2, s2, o2. split; [reflexivity|]. rewrite CS. split; [lia|].
  split; [cbn [run]; rewrite E1, E2; reflexivity|]. auto.
Qed.

(** What is known about a motor stays. *)
Definition knows (st : spec) (i : nat) (x : name) (c : Z) (sets : list setpoint) : Prop :=
  nth_error (motors st) i = Some {| m_name := x; m_sets := sets |} /\ announced (log st) x = Some c.
Lemma knows_step max st i x c l e : knows st i x c l -> (forall sp, e <> Setpoint x sp) -> knows (spec_event max st e) i x c l.
Proof.
  intros [H A] N. unfold knows. destruct e as [y|y sp|y c'|c' f|]; cbn [spec_event spec_step]; auto.
  - destruct (in_dec _ _ _); auto. destruct (Nat.ltb _ _); auto. cbn [motors log]. split; [|now apply announced_snoc].
    rewrite nth_error_app1; [exact H|]. apply nth_error_Some. congruence.
  - cbn [motors log]. split; [|exact A]. rewrite nth_error_map, H. cbn [option_map m_name m_sets]. destruct (name_dec x y) as [->|]; [|reflexivity]. exfalso. eapply N; reflexivity.
  - destruct (taken st c'); auto. cbn [motors log]. split; [exact H|now apply announced_snoc].
Qed.
Lemma knows_from max h : forall st i x c l, knows st i x c l -> (forall sp, ~ In (Setpoint x sp) h) -> knows (from max st h) i x c l.
Proof.
  induction h as [|e h IH]; intros st i x c l K N; [exact K|]. cbn [from fold_left]. apply IH.
  - apply knows_step; [exact K|]. intros sp ->. apply (N sp). now left.
  - intros sp H. apply (N sp). now right.
Qed.

Lemma flat_nil {A B} (g : A -> list B) o : (forall x, In x o -> g x = []) -> flat_map g o = [].
Proof. induction o as [|x o IH]; intro H; [reflexivity|]. cbn. rewrite (H x (or_introl eq_refl)), IH; [reflexivity|]. intros y Hy. apply H. now right. Qed.

Lemma one_hit {A B} (g : nat * A -> list B) i r : forall o, NoDup (map fst o) -> In i (map fst o) ->
  (forall x, In x o -> if Nat.eqb (fst x) i then g x = r else g x = []) -> flat_map g o = r.
Proof.
  induction o as [|[j a] o IH]; intros N H G; [destruct H|]. cbn [flat_map map fst] in *. inversion N as [|? ? NI N']; subst.
  pose proof (G (j, a) (or_introl eq_refl)) as G0. cbn [fst] in G0. destruct (Nat.eqb_spec j i) as [->|NE].
  - rewrite G0. assert (Z0 : flat_map g o = []).
    { apply flat_nil. intros x Hx. pose proof (G x (or_intror Hx)) as Gx. destruct (Nat.eqb_spec (fst x) i) as [EE|]; [|exact Gx].
      exfalso. apply NI. rewrite <- EE. now apply in_map. }
    rewrite Z0. apply app_nil_r.
  - rewrite G0. destruct H as [->|H]; [congruence|]. apply IH; auto. intros x Hx. apply G. now right.
Qed.

Definition out_to (c : Z) (x : nat * option message) : list setpoint :=
  match snd x with Some m => board_handler c m | None => [] end.
Lemma sent_out c o : flat_map (board_handler c) (sent o) = flat_map (out_to c) o.
Proof.
  unfold sent. induction o as [|[j [m|]] o IH]; cbn [flat_map snd app]; [reflexivity| |exact IH].
  unfold out_to at 1. cbn [snd]. f_equal. exact IH.
Qed.
Lemma handler_for c c' sp : match message_for c' sp with Some m => board_handler c m | None => [] end =
  if c' =? c then match sp with Disable => [] | _ => [sp] end else [].
Proof. destruct sp; cbn; destruct (c' =? c); reflexivity. Qed.

Lemma wanted_to max cap st s i x c l j : winv max cap st s -> knows st i x c l ->
  out_to c (j, wanted st j) = if Nat.eqb j i then match l with sp :: _ => match sp with Disable => [] | _ => [sp] end | [] => [] end else [].
Proof.
  intros I [H A]. unfold out_to, wanted. cbn [snd]. destruct (Nat.eqb_spec j i) as [->|NE].
  - rewrite H. cbn [m_name m_sets]. rewrite A. destruct l as [|sp l]; [reflexivity|]. rewrite handler_for, Z.eqb_refl. reflexivity.
  - destruct (nth_error (motors st) j) as [mj|] eqn:Hj; [|reflexivity]. destruct (announced (log st) (m_name mj)) as [c'|] eqn:Aj; [|reflexivity].
    destruct (m_sets mj) as [|sp lj]; [reflexivity|]. rewrite handler_for. destruct (Z.eqb_spec c' c) as [->|]; [|reflexivity]. exfalso.
    pose proof (w_dist _ _ _ _ I _ _ _ A Aj) as EN. apply NE.
    pose proof (mi_names _ _ _ _ (w_mgr _ _ _ _ I)) as ND.
    apply (proj1 (NoDup_nth_error (map m_name (motors st))) ND).
    + rewrite map_length. apply nth_error_Some. congruence.
    + rewrite !nth_error_map, H, Hj. cbn. now rewrite EN.
Qed.

Lemma delivered_l max cap h h1 s o s1 o1 i x c l : (max <= cap)%nat -> Forall event_ok (h ++ h1) ->
  run (sys_init max cap) h = Some (s, o) -> run s h1 = Some (s1, o1) -> NoDup (map fst o1) -> In i (map fst o1) ->
  knows (world max h) i x c l -> (forall sp, ~ In (Setpoint x sp) h1) ->
  flat_map (board_handler c) (sent o1) = match l with sp :: _ => match sp with Disable => [] | _ => [sp] end | [] => [] end.
Proof.
  intros HM F E E1 ND IN K NS. apply Forall_app in F as [F F1].
  destruct (run_l max cap h HM _ _ (winv_init max cap) F) as (s0 & o0 & E0 & I & _). rewrite E in E0. injection E0 as <- <-.
  destruct (run_l max cap h1 HM _ _ I F1) as (s0 & o0 & E0 & I1 & W). rewrite E1 in E0. injection E0 as <- <-.
  rewrite sent_out. apply (one_hit _ i); auto. intros [j m] Hj. cbn [fst]. rewrite Forall_forall in W.
  destruct (W _ Hj) as (a & b & -> & _ & Wm). cbn [fst snd] in Wm. subst m. apply Forall_app in F1 as [Fa _].
  destruct (run_l max cap a HM _ _ I Fa) as (sa & oa & _ & Ia & _).
  rewrite (wanted_to _ _ _ _ i x c l j Ia).
  - destruct (Nat.eqb j i); reflexivity.
  - apply knows_from; [exact K|]. intros sp H. apply (NS sp). apply in_app_iff. now left.
Qed.

Lemma taken_step max st e c : taken st c = true -> taken (spec_event max st e) c = true.
Proof.
  unfold taken. intro T. apply existsb_exists in T as (mo & IN & T). destruct (announced (log st) (m_name mo)) as [c'|] eqn:A; [|discriminate].
  apply existsb_exists. destruct e as [y|y sp|y c2|c2 f|]; cbn [spec_event spec_step]; try (exists mo; rewrite A; auto; fail).
  - destruct (in_dec _ _ _); [exists mo; rewrite A; auto|]. destruct (Nat.ltb _ _); [|exists mo; rewrite A; auto]. cbn [motors log].
    exists mo. rewrite (announced_snoc _ _ _ _ A). split; [apply in_app_iff; now left|exact T].
  - cbn [motors log]. exists (if name_dec (m_name mo) y then {| m_name := m_name mo; m_sets := sp :: m_sets mo |} else mo). split.
    + apply in_map_iff. exists mo. auto.
    + destruct (name_dec (m_name mo) y); cbn [m_name]; now rewrite A.
  - destruct (taken st c2); [exists mo; rewrite A; auto|]. cbn [motors log]. exists mo. rewrite (announced_snoc _ _ _ _ A). auto.
Qed.
Lemma taken_from max h : forall st c, taken st c = true -> taken (from max st h) c = true.
Proof. induction h as [|e h IH]; intros st c T; [exact T|]. cbn [from fold_left]. apply IH. now apply taken_step. Qed.

Lemma foreign_l max cap h s o c : (max <= cap)%nat -> Forall event_ok h -> run (sys_init max cap) h = Some (s, o) ->
  taken (world max h) c = false -> flat_map (board_handler c) (sent o) = [].
Proof.
  intros HM F E T. destruct (run_l max cap h HM _ _ (winv_init max cap) F) as (s0 & o0 & E0 & _ & W). rewrite E in E0. injection E0 as <- <-.
  rewrite sent_out. apply flat_nil. intros [j m] Hj. rewrite Forall_forall in W. destruct (W _ Hj) as (a & b & EH & _ & Wm).
  cbn [fst snd] in Wm. unfold out_to. cbn [snd]. subst m. unfold wanted.
  destruct (nth_error (motors _) j) as [mj|] eqn:Hm; [|reflexivity]. destruct (announced (log _) (m_name mj)) as [c'|] eqn:A; [|reflexivity].
  destruct (m_sets mj) as [|sp l]; [reflexivity|]. rewrite handler_for. destruct (Z.eqb_spec c' c) as [->|]; [|reflexivity]. exfalso.
  assert (TT : taken (world max h) c = true); [|congruence]. unfold world. rewrite EH, fold_left_app. apply (taken_from max (Can :: b)).
  unfold taken. apply existsb_exists. exists mj. split; [eapply nth_error_In; exact Hm|]. unfold from in A. rewrite A. apply Z.eqb_refl.
Qed.

Lemma distinct_l max cap st s i j c : winv max cap st s -> nth_error (ids s) i = Some c -> nth_error (ids s) j = Some c ->
  c <> DRIVER_CAN_ID_NOT_SET -> i = j.
Proof.
  intros I Hi Hj N.
  assert (L : forall k, nth_error (ids s) k = Some c -> exists mo, nth_error (motors st) k = Some mo /\ announced (log st) (m_name mo) = Some c).
  { intros k Hk. destruct (nth_motor st k) as [mo Hmo].
    - rewrite <- (w_len _ _ _ _ I). apply nth_error_Some. congruence.
    - exists mo. split; [exact Hmo|]. destruct (w_ids _ _ _ _ I _ _ _ Hmo Hk); [contradiction|assumption]. }
  destruct (L i Hi) as (mi & Mi & Ai), (L j Hj) as (mj & Mj & Aj). pose proof (w_dist _ _ _ _ I _ _ _ Ai Aj) as EN.
  apply (proj1 (NoDup_nth_error (map m_name (motors st))) (mi_names _ _ _ _ (w_mgr _ _ _ _ I))).
  - rewrite map_length. apply nth_error_Some. congruence.
  - rewrite !nth_error_map, Mi, Mj. cbn. now rewrite EN.
Qed.
