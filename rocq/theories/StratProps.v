(** Properties of the strategy: score and mirroring (C44), goals, actions and game (C45). *)
From Coq Require Import ZArith List Bool Arith Lia ZifyBool Reals Lra Sorted.
From Verif Require Import CRes GoapModel GoapSpec GoapProps StratModel StratSpec StratProofs StratProofs2.
Import ListNotations.
Local Open Scope Z_scope.

(** A state with glasses everywhere. *)
Definition ex_state : state :=
  mkState (mkRobot [1; 0; 2] 0 0 0 false) [1; 2; 1; 2; 1] [0; 0; 2; 2; 1] [1; 1; 1; 0; 0] [1; 1; 2; 2; 1; 2] [false; true] false [2; 0; 2; 0; 1; 0] [1; 0; 0; 0; 2; 0].

(** ** C44: score *)
Theorem score_is_official s main : shape s -> compute_score s main = official_score s main.
Proof. apply score_formula. Qed.

Lemma slots_bound (l r : list Z) : length l = 6%nat -> length r = 6%nat ->
  0 <= sum (map (fun gr => b2n (is_glass (fst gr)) + b2n (is_glass (snd gr))) (combine l r)) <= 12 /\
  0 <= sum (map (fun gr => b2n (fst gr =? GlassColor_GREEN) + b2n (snd gr =? GlassColor_RED)) (combine l r)) <= 12 /\
  0 <= sum (map (fun gr => 2 * b2n ((fst gr =? GlassColor_GREEN) && (snd gr =? GlassColor_RED))) (combine l r)) <= 12.
Proof.
  intros L R.
  assert (K : forall f : Z * Z -> Z, (forall x, 0 <= f x <= 2) -> 0 <= sum (map f (combine l r)) <= 12).
  { intros f F. lists. cbn [combine map sum]. repeat match goal with |- context [f ?x] => pose proof (F x); generalize dependent (f x); intros end. lia. }
  assert (B : forall b, 0 <= b2n b <= 1) by (intros [|]; cbn; lia).
  split; [|split]; apply K; intros x; [pose proof (B (is_glass (fst x))); pose proof (B (is_glass (snd x)))|
    pose proof (B (fst x =? GlassColor_GREEN)); pose proof (B (snd x =? GlassColor_RED))|pose proof (B ((fst x =? GlassColor_GREEN) && (snd x =? GlassColor_RED)))]; lia.
Qed.
Theorem score_bounds s main : shape s -> 0 <= compute_score s main <= 76.
Proof.
  intros S. rewrite score_formula by auto. unfold official_score, port_slots. destruct S as (_ & _ & _ & _ & _ & _ & G & R).
  destruct (slots_bound _ _ G R) as (A & B & C). revert A B C. generalize (sum (map (fun gr => b2n (is_glass (fst gr)) + b2n (is_glass (snd gr))) (combine (green_line s) (red_line s)))) as x.
  generalize (sum (map (fun gr => b2n (fst gr =? GlassColor_GREEN) + b2n (snd gr =? GlassColor_RED)) (combine (green_line s) (red_line s)))) as y.
  generalize (sum (map (fun gr => 2 * b2n ((fst gr =? GlassColor_GREEN) && (snd gr =? GlassColor_RED))) (combine (green_line s) (red_line s)))) as z. intros.
  destruct (sock s 0), (sock s 1), (lighthouse_is_on s), main, (flags_deployed (robot s)); cbn [b2n]; cbv beta iota;
    change (1 + 1) with 2; change (1 + 0) with 1; change (0 + 1) with 1; change (0 + 0) with 0; cbv beta iota; lia.
Qed.
(** The best score is reached. *)
Example score_best : compute_score (mkState (mkRobot [0;0;0] 0 0 0 true) [0;0;0;0;0] [0;0;0;0;0] [0;0;0;0;0] [0;0;0;0;0;0] [true; true] true [2;2;2;2;2;2] [1;1;1;1;1;1]) true = 76.
Proof. reflexivity. Qed.

(** Progress never lowers the score. *)
Theorem score_monotone s s' main : shape s -> shape s' -> improves s s' -> compute_score s main <= compute_score s' main.
Proof. intros A B I. rewrite !score_formula by auto. now apply improves_score. Qed.

Lemma slot_put l i c : nth i l GlassColor_UNKNOWN = GlassColor_UNKNOWN -> Forall2 slot_better l (upd l i c).
Proof.
  revert i. induction l as [|x l IH]; intros [|i] H; cbn in *; constructor; auto using slots_refl; [now right|now left].
Qed.
(** Putting a glass of any colour into an empty place of the port: at least one more point, and at most five. *)
Definition put_green (s : state) (i : nat) (c : Z) : state :=
  mkState (robot s) (our_dispenser s) (shared_near s) (shared_far s) (table_glasses s) (windsocks_are_up s) (lighthouse_is_on s) (upd (green_line s) i c) (red_line s).
Definition put_red (s : state) (i : nat) (c : Z) : state :=
  mkState (robot s) (our_dispenser s) (shared_near s) (shared_far s) (table_glasses s) (windsocks_are_up s) (lighthouse_is_on s) (green_line s) (upd (red_line s) i c).
Lemma sum_upd (f : Z * Z -> Z) l r i x d : (i < length l)%nat -> length l = length r ->
  sum (map f (combine (upd l i x) r)) = sum (map f (combine l r)) + f (x, nth i r d) - f (nth i l d, nth i r d).
Proof.
  revert r i; induction l as [|y l IH]; intros [|z r] [|i] H L; cbn in *; try lia. rewrite (IH r i) by lia. lia.
Qed.
Lemma sum_upd_r (f : Z * Z -> Z) l r i x d : (i < length l)%nat -> length l = length r ->
  sum (map f (combine l (upd r i x))) = sum (map f (combine l r)) + f (nth i l d, x) - f (nth i l d, nth i r d).
Proof.
  revert r i; induction l as [|y l IH]; intros [|z r] [|i] H L; cbn in *; try lia. rewrite (IH r i) by lia. lia.
Qed.
Theorem score_put_green s i c main : shape s -> (i < 6)%nat -> c <> GlassColor_UNKNOWN -> glass (green_line s) i = GlassColor_UNKNOWN ->
  compute_score (put_green s i c) main = compute_score s main + 1 + (if c =? GlassColor_GREEN then 1 + (if glass (red_line s) i =? GlassColor_RED then 2 else 0) else 0).
Proof.
  intros S I C E. assert (S' : shape (put_green s i c)) by (destruct S as (A1 & A2 & A3 & A4 & A5 & A6 & A7 & A8); repeat split; cbn; rewrite ?upd_length; auto).
  rewrite !score_formula by auto. destruct S as (_ & _ & _ & _ & _ & _ & G & R). unfold official_score, port_slots. cbn [put_green robot windsocks_are_up lighthouse_is_on green_line red_line].
  change (sock (put_green s i c)) with (sock s). rewrite !(sum_upd _ _ _ i c GlassColor_UNKNOWN) by lia. unfold glass in *. rewrite E. cbn [fst snd].
  unfold is_glass. replace (c =? GlassColor_UNKNOWN) with false by lia. rewrite Z.eqb_refl. change (GlassColor_UNKNOWN =? GlassColor_GREEN) with false.
  destruct (c =? GlassColor_GREEN), (nth i (red_line s) GlassColor_UNKNOWN =? GlassColor_RED); cbn [negb andb b2n];
    destruct (negb _); cbn [b2n]; lia.
Qed.
Theorem score_put_red s i c main : shape s -> (i < 6)%nat -> c <> GlassColor_UNKNOWN -> glass (red_line s) i = GlassColor_UNKNOWN ->
  compute_score (put_red s i c) main = compute_score s main + 1 + (if c =? GlassColor_RED then 1 + (if glass (green_line s) i =? GlassColor_GREEN then 2 else 0) else 0).
Proof.
  intros S I C E. assert (S' : shape (put_red s i c)) by (destruct S as (A1 & A2 & A3 & A4 & A5 & A6 & A7 & A8); repeat split; cbn; rewrite ?upd_length; auto).
  rewrite !score_formula by auto. destruct S as (_ & _ & _ & _ & _ & _ & G & R). unfold official_score, port_slots. cbn [put_red robot windsocks_are_up lighthouse_is_on green_line red_line].
  change (sock (put_red s i c)) with (sock s). rewrite !(sum_upd_r _ _ _ i c GlassColor_UNKNOWN) by lia. unfold glass in *. rewrite E. cbn [fst snd].
  unfold is_glass. replace (c =? GlassColor_UNKNOWN) with false by lia. rewrite Z.eqb_refl. change (GlassColor_UNKNOWN =? GlassColor_RED) with false.
  destruct (c =? GlassColor_RED), (nth i (green_line s) GlassColor_UNKNOWN =? GlassColor_GREEN); cbn [negb andb b2n];
    destruct (negb _); cbn [b2n]; lia.
Qed.
Example score_put_example : compute_score ex_state true = 17 /\ compute_score (put_red ex_state 2 1) true = 21 /\ compute_score (put_green ex_state 1 1) true = 18.
Proof. repeat split; reflexivity. Qed.
(** The score depends on the windsocks, the lighthouse, the flags and the port only; for the second robot not on the flags. *)
Theorem score_independent s s' main : shape s -> shape s' -> windsocks_are_up s = windsocks_are_up s' -> lighthouse_is_on s = lighthouse_is_on s' ->
  (main = true -> flags_deployed (robot s) = flags_deployed (robot s')) -> green_line s = green_line s' -> red_line s = red_line s' ->
  compute_score s main = compute_score s' main.
Proof.
  intros A B E1 E2 E3 E4 E5. rewrite !score_formula by auto. unfold official_score, port_slots, sock. rewrite E1, E2, E4, E5. destruct main; [now rewrite E3|reflexivity].
Qed.
(** What each event is worth. *)
Theorem score_events s main : shape s ->
  (lighthouse_is_on s = false -> compute_score (set_lighthouse s) main = compute_score s main + 13) /\
  (forall i, (i < 2)%nat -> sock s i = false -> compute_score (set_sock s i) main = compute_score s main + (if sock s (1 - i) then 10 else 5)) /\
  (flags_deployed (robot s) = false -> compute_score (set_flags s) main = compute_score s main + (if main then 10 else 0)).
Proof.
  intros S. pose proof (effects_shape EnableLighthouse s S) as S1. pose proof (fun i => effects_shape (RaiseWindsock i) s S) as S2. pose proof (flags_shape s S) as S3. cbn [act_effects] in *.
  split; [|split].
  - intro E. rewrite !score_formula by auto. unfold official_score. change (sock (set_lighthouse s)) with (sock s). cbn [set_lighthouse lighthouse_is_on robot]. rewrite E.
    change (port_slots (set_lighthouse s)) with (port_slots s). lia.
  - intros i I E. rewrite !score_formula by auto. unfold official_score. rewrite !sock_set. change (port_slots (set_sock s i)) with (port_slots s). cbn [set_sock lighthouse_is_on robot].
    destruct S as (_ & _ & _ & _ & _ & W & _). rewrite W.
    assert (X : forall p q r t u v, p = q + t -> p + r + u + v = q + r + u + v + t) by (intros; lia).
    destruct i as [|[|i]]; [| |lia]; cbn [Nat.eqb Nat.ltb Nat.leb andb Nat.sub]; rewrite E; [destruct (sock s 1)|destruct (sock s 0)]; cbn [b2n];
    change (1 + 1) with 2; change (1 + 0) with 1; change (0 + 1) with 1; change (0 + 0) with 0; cbv beta iota; lia.
  - intro E. rewrite !score_formula by auto. unfold official_score. change (sock (set_flags s)) with (sock s). change (port_slots (set_flags s)) with (port_slots s).
    cbn [set_flags lighthouse_is_on robot flags_deployed]. rewrite E. destruct main; lia.
Qed.

(** ** C44: mirror *)
Theorem mirror_x_twice c x : MIRROR_X c (MIRROR_X c x) = x.
Proof. destruct c; cbn; lra. Qed.
Theorem mirror_x_table c x : (0 <= x <= 3000)%R -> (0 <= MIRROR_X c x <= 3000)%R.
Proof. destruct c; cbn; lra. Qed.
Theorem mirror_a_twice c a : MIRROR_A c (MIRROR_A c a) = a.
Proof. destruct c; cbn; lra. Qed.
Theorem mirror_twice c v : MIRROR c (MIRROR c v) = v.
Proof. destruct c; cbn; lra. Qed.
(** Mirroring is the symmetry about the line x = 1500: the point reached from (x, y) by going d ahead with heading a is mirrored on the point reached
    from the mirrored point with the mirrored heading; a relative turn is mirrored to its opposite. *)
Definition ahead (x y a d : R) : R * R := ((x + d * cos (a * PI / 180))%R, (y + d * sin (a * PI / 180))%R).
Theorem mirror_heading c x y a d :
  ahead (MIRROR_X c x) y (MIRROR_A c a) d = (MIRROR_X c (fst (ahead x y a d)), snd (ahead x y a d)).
Proof.
  destruct c; cbn; [|reflexivity]. unfold ahead. replace ((180 - a) * PI / 180)%R with (PI - a * PI / 180)%R by lra.
  rewrite cos_minus, sin_minus, cos_PI, sin_PI. f_equal; lra.
Qed.
Theorem mirror_turn c a b : (MIRROR_A c (a + b) = MIRROR_A c a + MIRROR c b)%R.
Proof. destruct c; cbn; lra. Qed.
(** Both sides do not overlap but on the middle line. *)
Theorem mirror_sides x : (x < 1500 -> MIRROR_X BLUE x > 1500)%R /\ (MIRROR_X BLUE x = x <-> x = 1500)%R.
Proof. cbn. split; [lra|split; lra]. Qed.

(** ** C45: goals and actions *)
Theorem goal_zero_iff s :
  (lighthouse_distance s = 0 <-> lighthouse_is_on s = true) /\ (windsocks_distance s = 0 <-> sock s 0 = true /\ sock s 1 = true) /\
  0 <= lighthouse_distance s /\ 0 <= windsocks_distance s.
Proof.
  unfold lighthouse_distance, windsocks_distance, shouldBeTrue. destruct (lighthouse_is_on s), (sock s 0), (sock s 1); repeat split; try lia; try discriminate; intros [A B]; congruence.
Qed.
(** Each action that can run brings its goal one step nearer unless the goal is reached, and takes no goal away. *)
Theorem action_progress s : shape s ->
  (lighthouse_distance s <> 0 -> lighthouse_distance (act_effects EnableLighthouse s) = lighthouse_distance s - 1) /\
  (forall i, (i < 2)%nat -> act_can_run (RaiseWindsock i) s = true -> windsocks_distance (act_effects (RaiseWindsock i) s) = windsocks_distance s - 1) /\
  (windsocks_distance s <> 0 -> exists i, (i < 2)%nat /\ act_can_run (RaiseWindsock i) s = true).
Proof.
  intros (_ & _ & _ & _ & _ & W & _). split; [|split].
  - unfold lighthouse_distance, shouldBeTrue. cbn. destruct (lighthouse_is_on s); lia.
  - intros i I C. cbn [act_can_run act_effects] in *. unfold windsocks_distance, shouldBeTrue. rewrite !sock_set, W.
    destruct i as [|[|i]]; [| |lia]; cbn [Nat.eqb Nat.ltb Nat.leb andb]; [destruct (sock s 0)|destruct (sock s 1)]; cbn in C; try discriminate; lia.
  - unfold windsocks_distance, shouldBeTrue. intro H. destruct (sock s 0) eqn:A; [exists 1%nat|exists 0%nat]; (split; [lia|]); cbn [act_can_run]; [|now rewrite A].
    destruct (sock s 1); [lia|reflexivity].
Qed.
Theorem action_keeps_goals a s : improves s (act_effects a s) /\
  lighthouse_distance (act_effects a s) <= lighthouse_distance s /\ windsocks_distance (act_effects a s) <= windsocks_distance s.
Proof.
  pose proof (effects_improves a s) as I. split; [exact I|]. destruct I as (A & B & _). unfold lighthouse_distance, windsocks_distance, shouldBeTrue. split.
  - destruct (lighthouse_is_on s); [rewrite B by auto; lia|destruct (lighthouse_is_on (act_effects a s)); lia].
  - pose proof (A 0%nat). pose proof (A 1%nat). destruct (sock s 0), (sock s 1), (sock (act_effects a s) 0), (sock (act_effects a s) 1); intuition (try lia; try discriminate).
Qed.
(** Executing: the state changes as the planner expects or not at all, and as expected when the action reports success. *)
Theorem execute_as_planned a w s b s' : act_execute a w s = (b, s') -> ((b = false /\ s' = s) \/ s' = act_effects a s) /\ (b = true -> s' = act_effects a s).
Proof. intro E. split; [now apply execute_effects in E|]. intros ->. now apply execute_success in E. Qed.
(** Success needs every movement to have reached its goal. *)
Theorem execute_needs_arrival a w s : fst (act_execute a w s) = true -> arrived w 0 = true /\ arrived w 1 = true /\ arrived w 2 = true.
Proof. destruct a; cbn; destruct (arrived w 0), (arrived w 1), (arrived w 2); cbn; try discriminate; auto. Qed.
(** The pickup fails its last movement: the glasses are on board and it still reports a failure. *)
Theorem pickup_failure_with_effect_refuted : ~ forall a w s s', act_execute a w s = (false, s') -> s' = s.
Proof.
  intro H. specialize (H BackwardReefPickup (fun k => if Nat.eqb k 3 then 0 else 1, true) ex_state _ eq_refl). discriminate H.
Qed.
(** Picking up glasses loses none and makes none. *)
Theorem pickup_conserves s : shape s -> act_can_run BackwardReefPickup s = true -> same_glasses s (act_effects BackwardReefPickup s).
Proof. apply effects_glasses. Qed.
Theorem pickup_moves s : shape s -> act_can_run BackwardReefPickup s = true -> let s' := act_effects BackwardReefPickup s in
  [back_left_glass (robot s'); back_center_glass (robot s'); back_right_glass (robot s')] = firstn 3 (our_dispenser s) /\
  our_dispenser s' = repeat GlassColor_UNKNOWN 3 ++ skipn 3 (our_dispenser s) /\ act_can_run BackwardReefPickup s' = false.
Proof.
  intros S C s'. split; [|split]; [| |apply picked_cannot, pick_picked, S]; destruct S as (_ & D & _); unfold s'; cbn [act_effects pick_glasses robot back_left_glass back_center_glass back_right_glass our_dispenser];
    destruct (our_dispenser s) as [|x [|y [|z l]]]; try discriminate; reflexivity.
Qed.
(** Without the guard glasses would be lost. *)
Theorem pickup_guard_needed : ~ forall s, shape s -> same_glasses s (act_effects BackwardReefPickup s).
Proof.
  intro H. specialize (H (mkState (mkRobot [0;0;0] 1 0 0 false) [0;0;0;0;0] [0;0;0;0;0] [0;0;0;0;0] [0;0;0;0;0;0] [false; false] false [0;0;0;0;0;0] [0;0;0;0;0;0])).
  assert (X := H ltac:(repeat split) 1 ltac:(discriminate)). discriminate X.
Qed.
Example pickup_example : act_can_run BackwardReefPickup ex_state = true /\ shape ex_state.
Proof. repeat split. Qed.

(** The planner finds, for each goal of the match and every state, a plan that reaches it. *)
Theorem strategy_always_plans goal nodes s path : In goal goals -> shape s -> length nodes = GOAP_SPACE_SIZE -> length path = MAX_GOAP_PATH_LEN ->
  exists l path', plan (strat_problem goal) nodes s (Some path) (Z.of_nat MAX_GOAP_PATH_LEN) = OK (Z.of_nat (length l), Some path') /\
    solves (strat_problem goal) s l /\ (length l <= MAX_GOAP_PATH_LEN)%nat /\
    forall i a, nth_error l i = Some a -> nth_error path' i = Some (Some a).
Proof.
  intros G S N P. destruct (strat_plan goal nodes s path) as (l & path' & A & B & C & _ & D); auto.
  - destruct G as [<-|[<-|[]]]; [left|right]; reflexivity.
  - exists l, path'. auto.
Qed.

(** ** C45: the game *)
Lemma start_inv s : shape s -> inv s (start_game s).
Proof. intro S. repeat split; try apply S; cbn; auto. - constructor; auto using later_refl. - constructor; auto; constructor. Qed.
(** Whatever happens outside, the game never follows a bad pointer; when it ends the flags are up and the state is published, and along the published states
    nothing achieved is undone, no glass is lost or made, and the score never decreases. *)
Theorem game_story fuel o nodes s : shape s -> (forall k, length (nodes k) = GOAP_SPACE_SIZE) ->
  exists r, run_game fuel o nodes (start_game s) = OK r /\ forall g, r = Some g ->
    flags_deployed (robot (g_state g)) = true /\ (exists l, g_published g = g_state g :: l) /\
    StronglySorted (fun new old => improves old new /\ same_glasses old new /\ forall main, compute_score old main <= compute_score new main) (g_published g ++ [s]).
Proof.
  intros S N. destruct (run_game_ok o nodes s N fuel (start_game s) (start_inv s S)) as (r & E & P). exists r. split; [exact E|]. intros g ->.
  destruct (P g eq_refl) as ((_ & _ & SH & _ & ST) & B & C & D & _). split; [exact B|]. split.
  - destruct (g_published g) as [|x l]; [congruence|]. cbn in D. subst x. now exists l.
  - assert (ALL : Forall shape (g_published g ++ [s])) by (apply Forall_app; auto). revert ST ALL. generalize (g_published g ++ [s]). clear.
    induction l as [|x l IH]; intros ST ALL; constructor; inversion ST; subst; inversion ALL; subst; auto.
    rewrite Forall_forall in *. intros y Y. destruct (H2 y Y) as [A B]. repeat split; auto; try apply A. intro main. apply score_monotone; auto.
Qed.
(** If every movement succeeds and the match does not end during the first round, all the goals are reached and the score is known. *)
Theorem game_won fuel o nodes s g : shape s -> (forall k, length (nodes k) = GOAP_SPACE_SIZE) ->
  (forall k, snd (worlds o k) = true /\ forall j, fst (worlds o k) j = TRAJ_END_GOAL_REACHED) -> (forall k, (k < 23)%nat -> ended o k = false) ->
  run_game fuel o nodes (start_game s) = OK (Some g) ->
  lighthouse_is_on (g_state g) = true /\ sock (g_state g) 0 = true /\ sock (g_state g) 1 = true /\ flags_deployed (robot (g_state g)) = true /\
  40 <= compute_score (g_state g) true.
Proof.
  intros S N F K E. destruct (run_game_ok o nodes s N fuel (start_game s) (start_inv s S)) as (r & E' & P). rewrite E in E'. injection E' as <-.
  destruct (P g eq_refl) as (I & B & _ & _ & W).
  assert (R : forall goal, In goal goals -> goal (g_state g) = 0) by (apply W; right; split; [exact F|intros k Hk; apply K; cbn in Hk; lia]).
  pose proof (R _ (or_introl eq_refl)) as R1. pose proof (R _ (or_intror (or_introl eq_refl))) as R2.
  apply (proj1 (goal_zero_iff _)) in R1. apply (proj1 (proj2 (goal_zero_iff _))) in R2. destruct R2 as [R2 R3].
  split; [exact R1|]. split; [exact R2|]. split; [exact R3|]. split; [exact B|].
  rewrite score_formula by apply I. unfold official_score, port_slots. destruct I as ((_ & _ & _ & _ & _ & _ & G & RL) & _).
  destruct (slots_bound _ _ G RL) as (X & Y & Z). rewrite R1, R2, R3, B. cbn [b2n]. change (1 + 1) with 2. cbv beta iota. lia.
Qed.
(** A game. *)
Definition ex_nodes : nat -> list (vnode state) := fun _ => repeat (mkn 0 0 ex_state None None None) GOAP_SPACE_SIZE.
Definition ex_outside : outside := mkOut (fun k => Nat.leb 23 k) (fun _ => (fun _ => 1, true)).
Example game_example : exists g, run_game 30 ex_outside ex_nodes (start_game ex_state) = OK (Some g) /\ length (g_published g) = 3%nat /\ compute_score (g_state g) true = 50.
Proof. eexists. split; [vm_compute; reflexivity|]. split; vm_compute; reflexivity. Qed.

Print Assumptions score_is_official.
Print Assumptions score_bounds.
Print Assumptions score_monotone.
Print Assumptions score_put_green.
Print Assumptions score_put_red.
Print Assumptions score_independent.
Print Assumptions score_events.
Print Assumptions mirror_x_twice.
Print Assumptions mirror_heading.
Print Assumptions action_progress.
Print Assumptions action_keeps_goals.
Print Assumptions execute_as_planned.
Print Assumptions pickup_conserves.
Print Assumptions strategy_always_plans.
Print Assumptions game_story.
Print Assumptions game_won.
