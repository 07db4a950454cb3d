(** Proofs about the game loop. *)
From Coq Require Import ZArith List Bool Arith Lia ZifyBool Sorted.
From Verif Require Import CRes GoapModel GoapSpec GoapProps StratModel StratSpec StratProofs.
Import ListNotations.
Local Open Scope Z_scope.

Definition later (new old : state) : Prop := improves old new /\ same_glasses old new.
Lemma later_refl s : later s s.
Proof. split; [apply improves_refl|]. intros c _. reflexivity. Qed.
Lemma later_trans a b c : later a b -> later b c -> later a c.
Proof. intros [A1 A2] [B1 B2]. split; [eapply improves_trans; eauto|]. intros x X. now rewrite (A2 x X), (B2 x X). Qed.

Definition inv (s0 : state) (g : game) : Prop :=
  shape (g_state g) /\ length (g_path g) = MAX_GOAP_PATH_LEN /\ Forall shape (g_published g) /\
  Forall (later (g_state g)) (g_published g ++ [s0]) /\ StronglySorted later (g_published g ++ [s0]).
Definition fine (o : outside) : Prop := forall k, snd (worlds o k) = true /\ forall j, fst (worlds o k) j = TRAJ_END_GOAL_REACHED.

Lemma inv_tick s0 g : inv s0 g -> inv s0 (tick g).
Proof. auto. Qed.
Lemma publish_inv s0 g s c e : inv s0 g -> shape s -> later s (g_state g) -> inv s0 (mkGame s (s :: g_published g) c e (g_path g)).
Proof.
  intros (A & B & P & C & D) S L. repeat split; cbn [g_state g_path g_published app]; auto; try apply S.
  - constructor; [apply later_refl|]. eapply Forall_impl; [|exact C]. intros x X. eapply later_trans; eauto.
  - constructor; auto. eapply Forall_impl; [|exact C]. intros x X. eapply later_trans; eauto.
Qed.
Lemma execute_later a w s b s' : shape s -> act_can_run a s = true -> act_execute a w s = (b, s') -> shape s' /\ later s' s.
Proof.
  intros S C E. apply execute_effects in E as [[_ ->]| ->]; [split; auto using later_refl|].
  split; [now apply effects_shape|]. split; [apply effects_improves|now apply effects_glasses].
Qed.
Lemma execute_fine a w s : snd w = true -> (forall j, fst w j = TRAJ_END_GOAL_REACHED) -> act_execute a w s = (true, act_effects a s).
Proof. intros A B. unfold act_execute, arrived. rewrite A, !B. destruct a; reflexivity. Qed.

Lemma run_path_ok goal o s0 : forall l g i s', inv s0 g -> runs (strat_problem goal) (g_state g) l = Some s' ->
  (forall j a, nth_error l j = Some a -> nth_error (g_path g) (i + j) = Some (Some a)) ->
  exists g', run_path o g i (length l) = OK g' /\ inv s0 g' /\ (g_clock g <= g_clock g' <= g_clock g + length l)%nat /\
    (fine o -> (forall k, (g_clock g <= k < g_clock g + length l)%nat -> ended o k = false) -> g_state g' = s').
Proof.
  induction l as [|a l IH]; intros g i s' I R P; cbn [length run_path].
  - exists g. cbn in R. injection R as <-. repeat split; auto; try apply I; lia.
  - pose proof (P 0%nat a eq_refl) as P0. rewrite Nat.add_0_r in P0. rewrite P0.
    cbn [runs] in R. destruct ((a <? action_count _)%nat && can_run _ a (g_state g)) eqn:C; [|discriminate].
    apply andb_true_iff in C as [C0 C]. cbn [can_run strat_problem] in C. cbn [effects strat_problem] in R.
    unfold do_action. destruct (act_execute (act_nth a) (worlds o (g_exec g)) (g_state g)) as [b s1] eqn:E.
    destruct (execute_later _ _ _ _ _ (proj1 I) C E) as [S1 L1].
    pose proof (publish_inv s0 g s1 (g_clock g) (S (g_exec g)) I S1 L1) as I1.
    destruct b; cbn [negb].
    + apply execute_success in E. rewrite <- E in R. cbn [g_clock].
      destruct (ended o (g_clock g)) eqn:EN.
      * eexists. split; [reflexivity|]. split; [exact I1|]. cbn [g_clock tick]. split; [lia|]. intros _ H. rewrite H in EN by lia. discriminate.
      * destruct (IH (tick (mkGame s1 (s1 :: g_published g) (g_clock g) (S (g_exec g)) (g_path g))) (S i) s' I1 R) as (g' & E' & I' & K & F).
        { intros j x H. cbn [g_path tick]. replace (S i + j)%nat with (i + S j)%nat by lia. now apply P. }
        exists g'. split; [exact E'|]. split; [exact I'|]. cbn [g_clock tick] in *. split; [lia|]. intros F1 F2. apply F; auto. intros k Hk. apply F2. lia.
    + eexists. split; [reflexivity|]. split; [exact I1|]. cbn [g_clock]. split; [lia|]. intros F _.
      rewrite execute_fine in E by apply F. discriminate.
Qed.

Lemma run_path_improves o : forall n g i g', run_path o g i n = OK g' -> improves (g_state g) (g_state g').
Proof.
  induction n as [|n IH]; intros g i g' E; cbn [run_path] in E; [injection E as <-; apply improves_refl|].
  destruct (nth_error (g_path g) i) as [[a|]|]; try discriminate. unfold do_action in E.
  destruct (act_execute (act_nth a) (worlds o (g_exec g)) (g_state g)) as [b s1] eqn:X.
  assert (improves (g_state g) s1) by (apply execute_effects in X as [[_ ->]| ->]; [apply improves_refl|apply effects_improves]).
  destruct b; cbn [negb g_clock] in E; [|injection E as <-; auto]. destruct (ended o _); [injection E as <-; auto|].
  apply IH in E. eapply improves_trans; eauto.
Qed.

Lemma run_goals_ok o nodes s0 : (forall k, length (nodes k) = GOAP_SPACE_SIZE) -> forall gs g, inv s0 g -> (forall goal, In goal gs -> good_goal goal) ->
  exists g' e, run_goals o nodes g gs = OK (g', e) /\ inv s0 g' /\ (g_clock g <= g_clock g' <= g_clock g + 11 * length gs)%nat /\
    (forall goal, good_goal goal -> goal (g_state g) = 0 -> goal (g_state g') = 0) /\
    (fine o -> (forall k, (g_clock g <= k < g_clock g + 11 * length gs)%nat -> ended o k = false) -> forall goal, In goal gs -> goal (g_state g') = 0).
Proof.
  intros NL. assert (KEEP : forall s s', improves s s' -> forall goal, good_goal goal -> goal s = 0 -> goal s' = 0).
  { intros s s' (A & B & _) goal [->| ->]; unfold lighthouse_distance, windsocks_distance, shouldBeTrue.
    - destruct (lighthouse_is_on s); [now rewrite B|discriminate].
    - destruct (sock s 0) eqn:X, (sock s 1) eqn:Y; try discriminate. now rewrite (A _ X), (A _ Y). }
  induction gs as [|goal gs IH]; intros g I G; cbn [run_goals length].
  - exists g, false. split; [reflexivity|]. split; [exact I|]. split; [lia|]. split; [auto|]. intros _ _ goal [].
  - destruct (strat_plan goal (nodes (g_clock g)) (g_state g) (g_path g) (G goal (or_introl eq_refl)) (proj1 I) (NL _) (proj1 (proj2 I))) as (l & path' & E & (s' & R & GO) & LL & LP & N).
    rewrite E. cbn [rbind]. rewrite Nat2Z.id. set (g1 := mkGame _ _ _ _ _).
    assert (I1 : inv s0 g1) by (destruct I as (I1 & _ & I2); split; [exact I1|split; [exact LP|exact I2]]).
    destruct (run_path_ok goal o s0 l g1 0 s' I1 R N) as (g2 & E2 & I2 & K2 & F2). rewrite E2. cbn [rbind].
    assert (L12 : improves (g_state g1) (g_state g2)) by (eapply run_path_improves; eauto).
    cbn [g_clock g1] in K2. unfold MAX_GOAP_PATH_LEN in LL. destruct (ended o (g_clock g2)) eqn:EN.
    + exists (tick g2), true. split; [reflexivity|]. split; [exact I2|]. cbn [tick g_clock g_state]. split; [lia|]. split; [apply KEEP, L12|].
      intros F1 F3. rewrite F3 in EN by lia. discriminate.
    + destruct (IH (tick g2) I2) as (g3 & e & E3 & I3 & K3 & M3 & F3); [intros; apply G; now right|].
      exists g3, e. split; [exact E3|]. split; [exact I3|]. cbn [tick g_clock g_state] in *. split; [lia|]. split.
      { intros goal' H1 H2. apply M3; auto. eapply KEEP; eauto. }
      intros H1 H2 goal' [<-|H3].
      * apply M3; [apply G; now left|]. rewrite F2; auto; [|intros k Hk; apply H2; cbn [g_clock g1] in Hk; lia].
        cbn [reached strat_problem] in GO. lia.
      * apply F3; auto. intros k Hk. apply H2. lia.
Qed.

Lemma run_game_ok o nodes s0 : (forall k, length (nodes k) = GOAP_SPACE_SIZE) -> forall fuel g, inv s0 g ->
  exists r, run_game fuel o nodes g = OK r /\ forall g', r = Some g' -> inv s0 g' /\ flags_deployed (robot (g_state g')) = true /\ g_published g' <> [] /\ hd (g_state g') (g_published g') = g_state g' /\ ((forall goal, In goal goals -> goal (g_state g) = 0) \/
       (fine o /\ forall k, (g_clock g <= k < g_clock g + 23)%nat -> ended o k = false) -> forall goal, In goal goals -> goal (g_state g') = 0).
Proof.
  intros NL. induction fuel as [|fuel IH]; intros g I; cbn [run_game]; [exists None; split; [reflexivity|discriminate]|].
  destruct (ended o (g_clock g)) eqn:EN.
  - eexists. split; [reflexivity|]. intros g' [= <-]. cbn [tick g_state g_published g_clock g_path].
    assert (L : later (set_flags (g_state g)) (g_state g)) by (split; [apply flags_improves|intros c _; reflexivity]).
    split; [apply (publish_inv s0 (tick g)); auto; [apply flags_shape, I]|]. split; [reflexivity|]. split; [discriminate|]. split; [reflexivity|].
    intros [K|[_ K]]; [|rewrite K in EN by lia; discriminate]. intros goal H. specialize (K goal H). cbn in H. destruct H as [<-|[<-|[]]]; exact K.
  - destruct (run_goals_ok o nodes s0 NL goals (tick g) I) as (g1 & e & E1 & I1 & K1 & M1 & F1).
    { intros goal [<-|[<-|[]]]; [left|right]; reflexivity. }
    rewrite E1. cbn [rbind]. destruct (IH g1 I1) as (r & E & P). exists r. split; [exact E|]. intros g' ->. destruct (P g' eq_refl) as (A & B & C & D & F).
    split; [exact A|]. split; [exact B|]. split; [exact C|]. split; [exact D|]. intro H. apply F. left. intros goal HG. destruct H as [H|[H1 H2]].
    + apply M1; [destruct HG as [<-|[<-|[]]]; [left|right]; reflexivity|]. now apply H.
    + apply F1; auto. intros k Hk. apply H2. cbn [tick g_clock length goals] in Hk. lia.
Qed.
