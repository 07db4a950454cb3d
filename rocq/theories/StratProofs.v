(** Proofs about the strategy model. *)
From Coq Require Import ZArith List Bool Arith Lia ZifyBool Reals.
From Verif Require Import CRes GoapModel GoapSpec GoapProps StratModel StratSpec.
Import ListNotations.
Local Open Scope Z_scope.

Ltac lists := repeat match goal with
  | H : length ?l = 0%nat |- _ => destruct l; [clear H|discriminate H]
  | H : length ?l = S _ |- _ => destruct l; [discriminate H|cbn [length] in H; apply Nat.succ_inj in H]
  end.

Lemma port_step_add s i : forall k, port_step s k i = k + port_step s 0 i.
Proof. intro k. unfold port_step. cbv zeta. repeat match goal with |- context [if ?b then _ else _] => destruct b end; lia. Qed.

Lemma score_formula s main : shape s -> compute_score s main = official_score s main.
Proof.
  intros (_ & _ & _ & _ & _ & W & G & R).
  destruct s as [rb od sn sf tg w lh g r]. cbn [windsocks_are_up green_line red_line] in *.
  unfold compute_score, official_score, compute_port, compute_windsocks, compute_lighthouse, compute_flags, sock, port_slots.
  cbn [windsocks_are_up green_line red_line lighthouse_is_on]. rewrite G. lists. cbn [nth combine map sum fst snd].
  cbn [seq fold_left]. repeat rewrite (port_step_add _ _ (_ + _)). rewrite !(port_step_add _ _ (port_step _ _ _)).
  assert (ST : forall rb od sn sf tg w lh g r i k, port_step (mkState rb od sn sf tg w lh g r) k i =
    k + (b2n (is_glass (glass g i)) + b2n (is_glass (glass r i)) + (b2n (glass g i =? GlassColor_GREEN) + b2n (glass r i =? GlassColor_RED))
     + 2 * b2n ((glass g i =? GlassColor_GREEN) && (glass r i =? GlassColor_RED)))).
  { clear. intros. unfold port_step, is_glass, b2n. cbn [green_line red_line]. cbv zeta. rewrite andb_comm.
    destruct (glass g i =? GlassColor_UNKNOWN), (glass r i =? GlassColor_UNKNOWN), (glass g i =? GlassColor_GREEN), (glass r i =? GlassColor_RED); cbn; lia. }
  rewrite !ST. unfold glass. cbn [nth robot].
  assert (W : forall b b' : bool, (if b && b' then 15 else if b || b' then 5 else 0) = match b2n b + b2n b' with 2 => 15 | 1 => 5 | _ => 0 end) by (intros [|] [|]; reflexivity).
  rewrite W. assert (LF : forall lh m f : bool, (if lh then (if m then 0 + 2 else 0) + 13 else if m then 0 + 2 else 0) + (if negb m then 0 else if f then 10 else 0) =
    (if lh then 13 else 0) + (if m then 2 + (if f then 10 else 0) else 0)) by (intros [|] [|] [|]; reflexivity).
  pose proof (LF lh main (flags_deployed rb)) as LF'. clear LF ST W. revert LF'.
  repeat match goal with |- context [b2n ?x] => is_var x; fail 1 || (let v := fresh "v" in generalize (b2n x); intro v) end.
  set (w := match _ with 2 => 15 | 1 => 5 | _ => 0 end). clearbody w.
  set (p := if lh then _ + 13 else _). set (q := if negb main then _ else _). set (p' := if lh then 13 else 0). set (q' := if main then _ else _). clearbody p q p' q'.
  intro LF'. lia.
Qed.

Lemma sum_le l l' : Forall2 Z.le l l' -> sum l <= sum l'.
Proof. induction 1; cbn; lia. Qed.

Lemma slot_points g r g' r' : slot_better g g' -> slot_better r r' ->
  b2n (is_glass g) + b2n (is_glass r) <= b2n (is_glass g') + b2n (is_glass r') /\
  b2n (g =? GlassColor_GREEN) + b2n (r =? GlassColor_RED) <= b2n (g' =? GlassColor_GREEN) + b2n (r' =? GlassColor_RED) /\
  2 * b2n ((g =? GlassColor_GREEN) && (r =? GlassColor_RED)) <= 2 * b2n ((g' =? GlassColor_GREEN) && (r' =? GlassColor_RED)).
Proof.
  unfold slot_better, b2n, is_glass, GlassColor_UNKNOWN, GlassColor_GREEN, GlassColor_RED. intros [->| ->] [->| ->]; try lia; cbn;
    repeat match goal with |- context [?a =? ?b] => destruct (a =? b) end; cbn; lia.
Qed.

Lemma improves_score s s' main : shape s -> shape s' -> improves s s' -> official_score s main <= official_score s' main.
Proof.
  intros S S' (I1 & I2 & I3 & I4 & I5). pose proof (I1 0%nat) as A. pose proof (I1 1%nat) as B. unfold official_score.
  assert (P : Forall2 (fun a b => slot_better (fst a) (fst b) /\ slot_better (snd a) (snd b)) (port_slots s) (port_slots s')).
  { unfold port_slots. revert I5. generalize (red_line s) (red_line s'). clear - I4. induction I4 as [|g g' gl gl' G I4 IH]; intros r r' R; [constructor|].
    inversion R; subst; cbn [combine]; constructor; auto. }
  assert (L : forall f, (forall a b, slot_better (fst a) (fst b) /\ slot_better (snd a) (snd b) -> f a <= f b) -> sum (map f (port_slots s)) <= sum (map f (port_slots s'))).
  { intros f F. apply sum_le. clear - P F. induction P; cbn; constructor; auto. }
  match goal with |- _ + _ + _ + sum (map ?f _) + sum (map ?g _) + sum (map ?h _) <= _ =>
    pose proof (L f) as L1; pose proof (L g) as L2; pose proof (L h) as L3 end.
  cbv beta in L1, L2, L3.
  assert (K1 := L1 (fun a b H => proj1 (slot_points _ _ _ _ (proj1 H) (proj2 H)))).
  assert (K2 := L2 (fun a b H => proj1 (proj2 (slot_points _ _ _ _ (proj1 H) (proj2 H))))).
  assert (K3 := L3 (fun a b H => proj2 (proj2 (slot_points _ _ _ _ (proj1 H) (proj2 H))))).
  clear L1 L2 L3 L P. revert K1 K2 K3. set (x1 := sum _). set (x2 := sum _). set (x3 := sum _). set (x4 := sum _). set (x5 := sum _). set (x6 := sum _). intros.
  assert (W : match b2n (sock s 0) + b2n (sock s 1) with 2 => 15 | 1 => 5 | _ => 0 end <= match b2n (sock s' 0) + b2n (sock s' 1) with 2 => 15 | 1 => 5 | _ => 0 end).
  { destruct (sock s 0); [rewrite (A eq_refl)|]; (destruct (sock s 1); [rewrite (B eq_refl)|]); cbn; destruct (sock s' 0), (sock s' 1); cbn; lia. }
  assert (LH : (if lighthouse_is_on s then 13 else 0) <= (if lighthouse_is_on s' then 13 else 0)) by (destruct (lighthouse_is_on s); [rewrite I2 by auto; lia|destruct (lighthouse_is_on s'); lia]).
  assert (FL : (if main then 2 + (if flags_deployed (robot s) then 10 else 0) else 0) <= (if main then 2 + (if flags_deployed (robot s') then 10 else 0) else 0)).
  { destruct main; [|lia]. destruct (flags_deployed (robot s)); [rewrite I3 by auto; lia|destruct (flags_deployed (robot s')); lia]. }
  lia.
Qed.

(** ** Improvement *)
Lemma slots_refl l : Forall2 slot_better l l.
Proof. induction l; constructor; auto. now left. Qed.
Lemma slots_trans l1 l2 l3 : Forall2 slot_better l1 l2 -> Forall2 slot_better l2 l3 -> Forall2 slot_better l1 l3.
Proof.
  intro H. revert l3. induction H as [|a b l l' A H IH]; intros l3 H2; inversion H2; subst; constructor; auto.
  unfold slot_better in *. destruct A as [->| ->]; auto.
Qed.
Lemma improves_refl s : improves s s.
Proof. repeat split; auto using slots_refl. Qed.
Lemma improves_trans a b c : improves a b -> improves b c -> improves a c.
Proof. intros (A1 & A2 & A3 & A4 & A5) (B1 & B2 & B3 & B4 & B5). repeat split; eauto using slots_trans. Qed.
Lemma nth_upd {A} (l : list A) i j x d : nth j (upd l i x) d = if Nat.eqb i j && (i <? length l)%nat then x else nth j l d.
Proof. revert i j; induction l as [|y l IH]; intros [|i] [|j]; cbn [nth upd Nat.eqb length andb]; auto; [now rewrite andb_false_r|]. rewrite IH. reflexivity. Qed.
Lemma sock_set s i j : sock (set_sock s i) j = if Nat.eqb i j && (i <? length (windsocks_are_up s))%nat then true else sock s j.
Proof. apply nth_upd. Qed.
Lemma effects_improves a s : improves s (act_effects a s).
Proof.
  destruct a as [|i|]; repeat split; cbn [act_effects set_sock set_lighthouse pick_glasses robot lighthouse_is_on flags_deployed green_line red_line]; auto using slots_refl.
  intros j H. cbn [act_effects]. rewrite sock_set. destruct (_ && _); auto.
Qed.
Lemma flags_improves s : improves s (set_flags s).
Proof. repeat split; cbn; auto using slots_refl. Qed.

(** ** Shape *)
Lemma effects_shape a s : shape s -> shape (act_effects a s).
Proof. intros (A & B & C & D & E & F & G & H). destruct a; repeat split; cbn; rewrite ?upd_length; auto. Qed.
Lemma flags_shape s : shape s -> shape (set_flags s).
Proof. intros (A & B & C & D & E & F & G & H). repeat split; cbn; auto. Qed.

(** ** Glasses *)
Lemma effects_glasses a s : shape s -> act_can_run a s = true -> same_glasses s (act_effects a s).
Proof.
  intros S C c NZ. destruct a as [|i|]; try reflexivity. cbn [act_effects].
  destruct S as (_ & B & _). destruct s as [[fr bl bc br fl] od sn sf tg w lh g r]. cbn [our_dispenser] in B.
  unfold places, pick_glasses, act_can_run in *. cbn [robot front back_left_glass back_center_glass back_right_glass our_dispenser shared_near shared_far table_glasses green_line red_line] in *.
  destruct (negb (bc =? _) || negb (bl =? _) || negb (br =? _)) eqn:E; [discriminate|].
  assert (bc = 0 /\ bl = 0 /\ br = 0) as (-> & -> & ->) by (unfold GlassColor_UNKNOWN in E; lia).
  lists. unfold glass. cbn [nth upd]. rewrite !count_occ_app. cbn [count_occ]. unfold GlassColor_UNKNOWN in *.
  destruct (Z.eq_dec 0 c); [congruence|]. repeat match goal with |- context [Z.eq_dec ?a c] => destruct (Z.eq_dec a c) end; lia.
Qed.

(** ** Execution *)
Lemma execute_effects a w s b s' : act_execute a w s = (b, s') -> (b = false /\ s' = s) \/ s' = act_effects a s.
Proof.
  destruct a; cbn; repeat match goal with |- context [if ?b then _ else _] => destruct b end; intro H; inversion H; subst; auto.
Qed.
Lemma execute_success a w s s' : act_execute a w s = (true, s') -> s' = act_effects a s.
Proof. intro H. apply execute_effects in H as [[? _]|H]; congruence. Qed.

(** ** The planner on the strategy *)
Lemma effects_idem_id a s : shape s -> act_effects a s = s \/ (forall s', s' = act_effects a s -> s' <> s).
Proof. intros _. destruct (state_eq_dec (act_effects a s) s); auto. right. congruence. Qed.

Definition good_goal (goal : state -> Z) : Prop := goal = lighthouse_distance \/ goal = windsocks_distance.
Lemma goal_bound goal : good_goal goal -> forall s, 0 <= goal s <= 2.
Proof.
  intros [->| ->] s; unfold lighthouse_distance, windsocks_distance, shouldBeTrue; repeat match goal with |- context [if ?b then _ else _] => destruct b end; lia.
Qed.
Lemma strat_wf goal (nodes : list (vnode state)) : good_goal goal -> length nodes = GOAP_SPACE_SIZE -> well_formed (strat_problem goal) (length nodes) 2.
Proof.
  intros G L. rewrite L. split; [|split; [|split]].
  - intros a b. cbn. destruct (state_eq_dec a b); split; congruence.
  - intro s. cbn [dist strat_problem]. pose proof (goal_bound goal G s). lia.
  - lia.
  - cbn. lia.
Qed.

(** How far a state is: the number of things done. *)
Definition picked (s : state) : bool :=
  (glass (our_dispenser s) 0 =? 0) && (glass (our_dispenser s) 1 =? 0) && (glass (our_dispenser s) 2 =? 0).
Definition done_count (s : state) : Z :=
  b2n (lighthouse_is_on s) + b2n (sock s 0) + b2n (sock s 1) + b2n (picked s).
Lemma done_range s : 0 <= done_count s <= 4.
Proof. unfold done_count, b2n. repeat match goal with |- context [if ?b then _ else _] => destruct b end; lia. Qed.

Lemma set_lighthouse_id s : lighthouse_is_on s = true -> set_lighthouse s = s.
Proof. destruct s; cbn. now intros ->. Qed.

Lemma climb a s : shape s -> (a < 4)%nat -> act_can_run (act_nth a) s = true ->
  act_effects (act_nth a) s = s \/ done_count s < done_count (act_effects (act_nth a) s).
Proof.
  intros (_ & D & _ & _ & _ & W & _) A C.
  destruct a as [|[|[|[|a]]]]; try lia; cbn [act_nth actions nth] in *; cbn [act_effects].
  - destruct (lighthouse_is_on s) eqn:E; [left; now apply set_lighthouse_id|right]. unfold done_count. rewrite E. unfold sock, picked. cbn [set_lighthouse lighthouse_is_on windsocks_are_up our_dispenser b2n]. lia.
  - right. cbn [act_can_run] in C. unfold done_count. rewrite !sock_set, W. cbn [Nat.eqb Nat.ltb Nat.leb andb]. replace (sock s 0) with false by (destruct (sock s 0); [discriminate|reflexivity]).
    unfold picked. cbn [set_sock lighthouse_is_on our_dispenser]. cbn [b2n]. lia.
  - right. cbn [act_can_run] in C. unfold done_count. rewrite !sock_set, W. cbn [Nat.eqb Nat.ltb Nat.leb andb]. replace (sock s 1) with false by (destruct (sock s 1); [discriminate|reflexivity]).
    unfold picked. cbn [set_sock lighthouse_is_on our_dispenser]. cbn [b2n]. lia.
  - right. unfold act_can_run in C. destruct (_ || _ || _); [discriminate|]. destruct (_ && _ && _) eqn:E; [discriminate|].
    assert (PF : picked s = false) by exact E. unfold done_count. rewrite PF.
    assert (PT : picked (pick_glasses s) = true). { unfold picked, pick_glasses, glass. cbn [our_dispenser]. destruct (our_dispenser s) as [|a [|b [|c l]]]; try discriminate. reflexivity. }
    rewrite PT. unfold sock. cbn [pick_glasses lighthouse_is_on windsocks_are_up]. cbn [b2n]. lia.
Qed.

(** All the states that the actions can make of [s]. *)
Definition reach_all (s : state) : list state :=
  let l := [s; pick_glasses s] in
  let l := l ++ map set_lighthouse l in
  let l := l ++ map (fun s => set_sock s 0) l in
  l ++ map (fun s => set_sock s 1) l.

Lemma upd_idem {A} (l : list A) i x : upd (upd l i x) i x = upd l i x.
Proof. revert i; induction l as [|y l IH]; intros [|i]; cbn; auto. now rewrite IH. Qed.
Lemma upd_comm {A} (l : list A) i j x : upd (upd l i x) j x = upd (upd l j x) i x.
Proof. revert i j; induction l as [|y l IH]; intros [|i] [|j]; cbn; auto. now rewrite IH. Qed.
Lemma sock_idem s i : set_sock (set_sock s i) i = set_sock s i.
Proof. unfold set_sock. cbn. now rewrite upd_idem. Qed.
Lemma sock_comm s : set_sock (set_sock s 1) 0 = set_sock (set_sock s 0) 1.
Proof. unfold set_sock. cbn. now rewrite upd_comm. Qed.
Lemma light_idem s : set_lighthouse (set_lighthouse s) = set_lighthouse s.
Proof. reflexivity. Qed.
Lemma light_sock s i : set_lighthouse (set_sock s i) = set_sock (set_lighthouse s) i.
Proof. reflexivity. Qed.
Lemma pick_light s : pick_glasses (set_lighthouse s) = set_lighthouse (pick_glasses s).
Proof. reflexivity. Qed.
Lemma pick_sock s i : pick_glasses (set_sock s i) = set_sock (pick_glasses s) i.
Proof. reflexivity. Qed.

Definition is_picked (s : state) : Prop := glass (our_dispenser s) 0 = 0 /\ glass (our_dispenser s) 1 = 0 /\ glass (our_dispenser s) 2 = 0.
Lemma pick_picked s : shape s -> is_picked (pick_glasses s).
Proof. intros (_ & D & _). unfold is_picked, pick_glasses, glass. cbn [our_dispenser]. destruct (our_dispenser s) as [|a [|b [|c l]]]; try discriminate. auto. Qed.
Lemma picked_cannot s : is_picked s -> act_can_run BackwardReefPickup s = false.
Proof. intros (A & B & C). unfold act_can_run. destruct (_ || _ || _); auto. rewrite A, B, C. reflexivity. Qed.

Lemma reach_shape s v : shape s -> In v (reach_all s) -> shape v.
Proof.
  intros S H. unfold reach_all in H. cbv zeta in H. rewrite ?in_app_iff, ?in_map_iff in H.
  assert (P : shape (pick_glasses s)) by (apply (effects_shape BackwardReefPickup); auto).
  assert (K : forall i v, shape v -> shape (set_sock v i)) by (intros i; apply (effects_shape (RaiseWindsock i))).
  assert (L : forall v, shape v -> shape (set_lighthouse v)) by apply (effects_shape EnableLighthouse).
  cbn [map app In] in H. intuition (subst; auto 6); repeat match goal with H : exists _, _ |- _ => destruct H as (? & <- & ?) end; auto.
  all: rewrite ?in_app_iff, ?in_map_iff in *; cbn [map app In] in *; intuition (subst; auto 6).
Qed.
Lemma reach_closed s v a : shape s -> In v (reach_all s) -> (a < 4)%nat -> act_can_run (act_nth a) v = true -> In (act_effects (act_nth a) v) (reach_all s).
Proof.
  intros S H A C.
  assert (NP : act_can_run BackwardReefPickup (pick_glasses s) = false) by (apply picked_cannot, pick_picked, S).
  assert (NL : forall x, act_can_run BackwardReefPickup x = false -> act_can_run BackwardReefPickup (set_lighthouse x) = false) by (intros x X; exact X).
  assert (NS : forall i x, act_can_run BackwardReefPickup x = false -> act_can_run BackwardReefPickup (set_sock x i) = false) by (intros i x X; exact X).
  unfold reach_all in *. cbv zeta in *. cbn [map app In] in H |- *.
  destruct a as [|[|[|[|a]]]]; try lia; cbn [act_nth actions nth act_effects] in *.
  - clear - H. repeat (destruct H as [<-|H]; [rewrite ?light_sock, ?light_idem; tauto|]). contradiction.
  - clear - H. repeat (destruct H as [<-|H]; [rewrite ?sock_comm, ?sock_idem; tauto|]). contradiction.
  - clear - H. repeat (destruct H as [<-|H]; [rewrite ?sock_idem; tauto|]). contradiction.
  - repeat (destruct H as [<-|H]; [first [exfalso; rewrite ?NS, ?NL in C by auto 8; rewrite ?NP in C; congruence|rewrite ?pick_sock, ?pick_light, ?pick_sock; tauto]|]). contradiction.
Qed.

Local Arguments sock : simpl never.
Local Arguments set_sock : simpl never.
(** Plans that reach the goals. *)
Lemma reach_goal goal s : good_goal goal -> shape s -> exists l, solves (strat_problem goal) s l.
Proof.
  intros G (_ & _ & _ & _ & _ & W & _). destruct G as [->| ->].
  - exists [0%nat]. eexists. split; [reflexivity|]. reflexivity.
  - destruct (sock s 0) eqn:A, (sock s 1) eqn:B.
    + exists []. eexists. split; [reflexivity|]. cbn. unfold windsocks_distance, shouldBeTrue. rewrite A, B. reflexivity.
    + exists [2%nat]. eexists. split; [cbn; rewrite B; reflexivity|]. cbn. unfold windsocks_distance, shouldBeTrue. rewrite !sock_set, W, A. reflexivity.
    + exists [1%nat]. eexists. split; [cbn; rewrite A; reflexivity|]. cbn. unfold windsocks_distance, shouldBeTrue. rewrite !sock_set, W, B. reflexivity.
    + exists [1%nat; 2%nat]. eexists. split; [cbn; rewrite A; cbn; rewrite !sock_set, W, B; reflexivity|].
      cbn. unfold windsocks_distance, shouldBeTrue. rewrite !sock_set. unfold set_sock. cbn [windsocks_are_up]. rewrite !upd_length, W. reflexivity.
Qed.

Lemma strat_plan goal nodes s path : good_goal goal -> shape s -> length nodes = GOAP_SPACE_SIZE -> length path = MAX_GOAP_PATH_LEN ->
  exists l path', plan (strat_problem goal) nodes s (Some path) (Z.of_nat MAX_GOAP_PATH_LEN) = OK (Z.of_nat (length l), Some path') /\
    solves (strat_problem goal) s l /\ (length l <= MAX_GOAP_PATH_LEN)%nat /\ length path' = MAX_GOAP_PATH_LEN /\
    (forall i a, nth_error l i = Some a -> nth_error path' i = Some (Some a)).
Proof.
  intros G S LN LP. pose proof (strat_wf goal nodes G LN) as WF. destruct (reach_goal goal s G S) as (l0 & SO).
  assert (room : forall b, Some path = Some b -> Z.of_nat MAX_GOAP_PATH_LEN <= Z.of_nat (length b)) by (intros b [= <-]; rewrite LP; lia).
  destruct (goap_finds_climbing (strat_problem goal) 2 nodes s (Some path) (Z.of_nat MAX_GOAP_PATH_LEN) (reach_all s) done_count l0) as (r & path' & E & R); auto.
  - cbn. auto.
  - intros v a V A C. apply reach_closed; auto.
  - cbn [reach_all length app map]. rewrite LN. unfold GOAP_SPACE_SIZE. cbn. lia.
  - intros v a V A C. apply climb; auto. eapply reach_shape; eauto.
  - intros v V. pose proof (done_range v). pose proof (done_range s). unfold MAX_GOAP_PATH_LEN. lia.
  - destruct (goap_plan (strat_problem goal) 2 nodes s (Some path) (Z.of_nat MAX_GOAP_PATH_LEN) WF) as (r' & p' & E' & D); auto; [rewrite LN; unfold GOAP_SPACE_SIZE; lia|].
    rewrite E in E'. injection E' as <- <-. destruct D as [[[-> | ->] _]|(l & -> & LE & SO' & ->)]; [lia..|].
    exists l. eexists. split; [exact E|]. split; [auto|]. split; [lia|]. split.
    + rewrite app_length, map_length, skipn_length. lia.
    + intros i a H. rewrite nth_error_app1 by (rewrite map_length; apply nth_error_Some; congruence). now apply map_nth_error.
Qed.
