(** Model of master-firmware/src/strategy (score, colour, goals, actions) and of the game loop of master-firmware/src/strategy.cpp. *)
From Coq Require Import ZArith List Bool Arith Reals.
From Verif Require Import CRes GoapModel.
Import ListNotations.
Local Open Scope Z_scope.

(** master-firmware/protobuf/strategy.proto:10-14 GlassColor. *)
Definition GlassColor_UNKNOWN : Z := 0.
Definition GlassColor_RED : Z := 1.
Definition GlassColor_GREEN : Z := 2.
(** master-firmware/protobuf/strategy.proto:16-73: StrategyState and its parts, as C structures (arrays are lists). The has_ members that nanopb
    adds to optional fields are left out. *)
Record robot_state := mkRobot { front : list Z; back_left_glass : Z; back_center_glass : Z; back_right_glass : Z; flags_deployed : bool }.
Record state := mkState { robot : robot_state; our_dispenser : list Z; shared_near : list Z; shared_far : list Z; table_glasses : list Z;
                          windsocks_are_up : list bool; lighthouse_is_on : bool; green_line : list Z; red_line : list Z }.
(** The sizes of the arrays (strategy.proto:27, 53, 60, 68, 70 and 39-41). *)
Definition shape (s : state) : Prop :=
  length (front (robot s)) = 3%nat /\ length (our_dispenser s) = 5%nat /\ length (shared_near s) = 5%nat /\ length (shared_far s) = 5%nat /\
  length (table_glasses s) = 6%nat /\ length (windsocks_are_up s) = 2%nat /\ length (green_line s) = 6%nat /\ length (red_line s) = 6%nat.
Definition glass (l : list Z) (i : nat) : Z := nth i l GlassColor_UNKNOWN.
Definition sock (s : state) (i : nat) : bool := nth i (windsocks_are_up s) false.
Definition set_lighthouse (s : state) : state :=
  mkState (robot s) (our_dispenser s) (shared_near s) (shared_far s) (table_glasses s) (windsocks_are_up s) true (green_line s) (red_line s).
Definition set_sock (s : state) (i : nat) : state :=
  mkState (robot s) (our_dispenser s) (shared_near s) (shared_far s) (table_glasses s) (upd (windsocks_are_up s) i true) (lighthouse_is_on s) (green_line s) (red_line s).
Definition set_flags (s : state) : state :=
  let r := robot s in
  mkState (mkRobot (front r) (back_left_glass r) (back_center_glass r) (back_right_glass r) true) (our_dispenser s) (shared_near s) (shared_far s)
          (table_glasses s) (windsocks_are_up s) (lighthouse_is_on s) (green_line s) (red_line s).

(** master-firmware/src/strategy/state.cpp:12-15: operator== compares the bytes of the packed structures. *)
Definition state_eq_dec (a b : state) : {a = b} + {a <> b}.
Proof.
  decide equality; try apply (list_eq_dec Z.eq_dec); try apply (list_eq_dec Bool.bool_dec); try apply Bool.bool_dec.
  decide equality; try apply Z.eq_dec; try apply Bool.bool_dec. apply (list_eq_dec Z.eq_dec).
Defined.

(** ** Score: master-firmware/src/strategy/score.cpp *)
Definition b2z (b : bool) (n : Z) : Z := if b then n else 0.
(** score.cpp:3-14. *)
Definition compute_windsocks (s : state) : Z :=
  if sock s 0 && sock s 1 then 15 else if sock s 0 || sock s 1 then 5 else 0.
(** score.cpp:16-31. *)
Definition compute_lighthouse (s : state) (is_main_robot : bool) : Z :=
  let score := 0 in
  let score := if is_main_robot then score + 2 else score in
  if lighthouse_is_on s then score + 13 else score.
(** score.cpp:33-44. *)
Definition compute_flags (s : state) (is_main_robot : bool) : Z :=
  if negb is_main_robot then 0 else if flags_deployed (robot s) then 10 else 0.
(** score.cpp:46-78, the body of the loop (52-74). *)
Definition port_step (s : state) (score : Z) (i : nat) : Z :=
  let g := glass (green_line s) i in let r := glass (red_line s) i in
  let score := if negb (g =? GlassColor_UNKNOWN) then score + 1 else score in
  let score := if negb (r =? GlassColor_UNKNOWN) then score + 1 else score in
  let score := if g =? GlassColor_GREEN then score + 1 else score in
  let score := if r =? GlassColor_RED then score + 1 else score in
  if (r =? GlassColor_RED) && (g =? GlassColor_GREEN) then score + 2 else score.
Definition compute_port (s : state) : Z := fold_left (port_step s) (seq 0 (length (green_line s))) 0.
(** score.cpp:80-90. *)
Definition compute_score (s : state) (is_main_robot : bool) : Z :=
  compute_windsocks s + compute_lighthouse s is_main_robot + compute_flags s is_main_robot + compute_port s.

(** ** Colour: master-firmware/src/strategy/color.h *)
(** color.h:10-13. *)
Inductive strat_color := BLUE | YELLOW.
(** color.h:17-19. Simplified: real numbers instead of binary32. *)
Definition MIRROR_X (c : strat_color) (x : R) : R := match c with YELLOW => x | BLUE => (3000 - x)%R end.
Definition MIRROR_A (c : strat_color) (a : R) : R := match c with YELLOW => a | BLUE => (180 - a)%R end.
Definition MIRROR (c : strat_color) (v : R) : R := match c with YELLOW => v | BLUE => (- v)%R end.

(** ** Goals: master-firmware/src/strategy/goals.cpp *)
(** lib/goap/include/goap/goap.hpp:164-190 class Distance. `goap::Distance()` is value-initialised: the distance starts at 0. *)
Definition shouldBeTrue (d : Z) (var : bool) : Z := d + (if var then 0 else 1).
(** goals.cpp:4-7 and 9-14. *)
Definition lighthouse_distance (s : state) : Z := shouldBeTrue 0 (lighthouse_is_on s).
Definition windsocks_distance (s : state) : Z := shouldBeTrue (shouldBeTrue 0 (sock s 0)) (sock s 1).

(** ** Actions: master-firmware/src/strategy/actions_goap.cpp and actions_impl.cpp *)
Inductive action := EnableLighthouse | RaiseWindsock (i : nat) | BackwardReefPickup.
(** actions_goap.cpp:11-15, 27-31 and 38-54. *)
Definition act_can_run (a : action) (s : state) : bool :=
  match a with
  | EnableLighthouse => true
  | RaiseWindsock i => negb (sock s i)
  | BackwardReefPickup =>
      if negb (back_center_glass (robot s) =? GlassColor_UNKNOWN) || negb (back_left_glass (robot s) =? GlassColor_UNKNOWN)
         || negb (back_right_glass (robot s) =? GlassColor_UNKNOWN) then false
      else if (glass (our_dispenser s) 0 =? GlassColor_UNKNOWN) && (glass (our_dispenser s) 1 =? GlassColor_UNKNOWN)
              && (glass (our_dispenser s) 2 =? GlassColor_UNKNOWN) then false
      else true
  end.
(** actions_goap.cpp:56-67 and actions_impl.cpp:139-144: the glasses go from the dispenser to the robot. *)
Definition pick_glasses (s : state) : state :=
  let r := robot s in let d := our_dispenser s in
  mkState (mkRobot (front r) (glass d 0) (glass d 1) (glass d 2) (flags_deployed r))
          (upd (upd (upd d 0 GlassColor_UNKNOWN) 1 GlassColor_UNKNOWN) 2 GlassColor_UNKNOWN)
          (shared_near s) (shared_far s) (table_glasses s) (windsocks_are_up s) (lighthouse_is_on s) (green_line s) (red_line s).
(** actions_goap.cpp:17-20, 33-36 and 56-67. *)
Definition act_effects (a : action) (s : state) : state :=
  match a with EnableLighthouse => set_lighthouse s | RaiseWindsock i => set_sock s i | BackwardReefPickup => pick_glasses s end.
(** actions_impl.cpp:8-153 execute. [wait k] is the result of the k-th trajectory_wait_for_end whose result is used, [y_is_near] is the test of
    line 44. Returns the success and the new state. *)
Definition TRAJ_END_GOAL_REACHED : Z := 1.
Definition world := ((nat -> Z) * bool)%type.
Definition arrived (w : world) (k : nat) : bool := fst w k =? TRAJ_END_GOAL_REACHED.
Definition act_execute (a : action) (w : world) (s : state) : bool * state :=
  match a with
  | EnableLighthouse =>
      if negb (arrived w 0) then (false, s) else if negb (arrived w 1) then (false, s) else if negb (arrived w 2) then (false, s)
      else if negb (snd w) then (false, s) else (true, set_lighthouse s)
  | RaiseWindsock i =>
      if negb (arrived w 0) then (false, s) else if negb (arrived w 1) then (false, s) else if negb (arrived w 2) then (false, s)
      else if negb (arrived w 3) then (false, s) else (true, set_sock s i)
  | BackwardReefPickup =>
      if negb (arrived w 0) then (false, s) else if negb (arrived w 1) then (false, s) else if negb (arrived w 2) then (false, s)
      else let s := pick_glasses s in if negb (arrived w 3) then (false, s) else (true, s)
  end.

(** ** Game loop: master-firmware/src/strategy.cpp *)
(** strategy.cpp:113-129: the goals and the actions. *)
Definition actions : list action := [EnableLighthouse; RaiseWindsock 0; RaiseWindsock 1; BackwardReefPickup].
Definition goals : list (state -> Z) := [lighthouse_distance; windsocks_distance].
Definition act_nth (i : nat) : action := nth i actions EnableLighthouse.
(** goap.hpp:33-47: is_reached is distance_to() == 0. *)
Definition strat_problem (goal : state -> Z) : problem state :=
  mkproblem state (length actions) (fun i s => act_can_run (act_nth i) s) (fun i s => act_effects (act_nth i) s)
    (fun s => goal s =? 0) goal (fun a b => if state_eq_dec a b then true else false).
(** master-firmware/src/strategy/actions.h:11 and strategy.cpp:41. *)
Definition GOAP_SPACE_SIZE : nat := 150.
Definition MAX_GOAP_PATH_LEN : nat := 10.

(** What happens outside: [ended k] is the answer of the k-th call of trajectory_game_has_ended, [worlds k] what the k-th execute meets. *)
Record outside := mkOut { ended : nat -> bool; worlds : nat -> world }.
(** State of the loop: the strategy state, what was published (latest first), the calls made, the array [path]. *)
Record game := mkGame { g_state : state; g_published : list state; g_clock : nat; g_exec : nat; g_path : list (option nat) }.
Definition tick (g : game) : game := mkGame (g_state g) (g_published g) (S (g_clock g)) (g_exec g) (g_path g).
(** strategy.cpp:179-180: executes an action and publishes the state. *)
Definition do_action (o : outside) (g : game) (a : action) : game * bool :=
  let '(success, s) := act_execute a (worlds o (g_exec g)) (g_state g) in
  (mkGame s (s :: g_published g) (g_clock g) (S (g_exec g)) (g_path g), success).
(** strategy.cpp:178-187, from index [i] on with [n] indices left. *)
Fixpoint run_path (o : outside) (g : game) (i n : nat) : res game :=
  match n with
  | O => OK g
  | S n =>
      match nth_error (g_path g) i with
      | Some (Some a) =>
          let '(g, success) := do_action o g (act_nth a) in
          if negb success then OK g
          else let e := ended o (g_clock g) in let g := tick g in if e then OK g else run_path o g (S i) n
      | _ => BAD
      end
  end.
(** strategy.cpp:174-191: the goals in turn; true if the game has ended. *)
Fixpoint run_goals (o : outside) (nodes : nat -> list (vnode state)) (g : game) (gs : list (state -> Z)) : res (game * bool) :=
  match gs with
  | [] => OK (g, false)
  | goal :: gs =>
      try (len, path) := plan (strat_problem goal) (nodes (g_clock g)) (g_state g) (Some (g_path g)) (Z.of_nat MAX_GOAP_PATH_LEN) in
      let g := mkGame (g_state g) (g_published g) (g_clock g) (g_exec g) (match path with Some p => p | None => g_path g end) in
      try g := run_path o g 0 (Z.to_nat len) in
      let e := ended o (g_clock g) in let g := tick g in
      if e then OK (g, true) else run_goals o nodes g gs
  end.
(** strategy.cpp:173-198: the loop and the end of the game; [OK None] when it is still running after [fuel] turns. The planner's nodes hold
    any value when plan starts: [nodes k] when k calls of trajectory_game_has_ended were made (k grows from one plan to the next). *)
Fixpoint run_game (fuel : nat) (o : outside) (nodes : nat -> list (vnode state)) (g : game) : res (option game) :=
  match fuel with
  | O => OK None
  | S fuel =>
      let e := ended o (g_clock g) in let g := tick g in
      if e then
        let s := set_flags (g_state g) in OK (Some (mkGame s (s :: g_published g) (g_clock g) (g_exec g) (g_path g)))
      else
        try (g, _) := run_goals o nodes g goals in run_game fuel o nodes g
  end.
(** strategy.cpp:131-137 and 203-220: the start of the game. *)
Definition start_game (s : state) : game := mkGame s [] 0 0 (repeat None MAX_GOAP_PATH_LEN).
