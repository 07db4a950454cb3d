(** Model of the movements with obstacle avoidance, master-firmware/src/strategy_impl/base.cpp.

    The functions are modelled by the list of what they do to the rest of the robot, in order. What the rest of the robot
    answers (the path, why each movement ended) is arbitrary and given as [env]. Left out: the log messages. *)
From Coq Require Import ZArith List Bool.
From Verif Require Import CBase CRes.
Import ListNotations.
Local Open Scope Z_scope.

(** robot_helpers/trajectory_helpers.h:22-31 *)
Definition TRAJ_END_GOAL_REACHED : Z := 1.
Definition TRAJ_END_COLLISION : Z := 2.
Definition TRAJ_END_OPPONENT_NEAR : Z := 4.
Definition TRAJ_END_TIMER : Z := 8.
Definition TRAJ_END_ALLY_NEAR : Z := 16.
Definition TRAJ_END_NEAR_GOAL : Z := 32.
Definition TRAJ_FLAGS_ALL_IGNORE_OPPONENT : Z :=
  Z.lor (Z.lor (Z.lor TRAJ_END_GOAL_REACHED TRAJ_END_COLLISION) TRAJ_END_TIMER) TRAJ_END_ALLY_NEAR.

(** What the functions do: the calls and assignments of base.cpp:22-143. A point is whatever the path planner gives. *)
Inductive mode := FREE | ANGLE_DISTANCE.
Inductive action (point : Type) :=
| Lock                            (* map_server_map_lock_and_get *)
| Release                         (* map_server_map_release *)
| Opponent (b : bool)             (* map_server_enable_opponent *)
| Plan (x y : Z)                  (* oa_start_end_points from the current position, oa_process, oa_get_path *)
| Goto (p : point)                (* trajectory_goto_xy_abs *)
| Wait_end (flags reason : Z)     (* trajectory_wait_for_end(flags) returned reason *)
| Blocked_end (flags : Z)         (* trajectory_wait_for_end(flags) has not returned *)
| Turn (a : Z)                    (* trajectory_a_abs *)
| Stop | Hardstop                 (* trajectory_stop, trajectory_hardstop *)
| Sleep (ms : Z)                  (* wait_ms *)
| Set_mode (m : mode)             (* robot->mode = ... *)
| Led (on : bool).                (* control_panel_set, control_panel_clear of LED_PC *)
Arguments Lock {point}. Arguments Release {point}. Arguments Opponent {point}. Arguments Plan {point}. Arguments Goto {point}.
Arguments Wait_end {point}. Arguments Blocked_end {point}. Arguments Turn {point}. Arguments Stop {point}. Arguments Hardstop {point}.
Arguments Sleep {point}. Arguments Set_mode {point}. Arguments Led {point}.

Section Goto.
Variable point : Type.

(** The path (empty: oa_get_path returned 0 or an error) and why the movements end; the movement which has no reason in
    the list has not ended. *)
Record env := mkEnv { path : list point; reasons : list Z }.

(** base.cpp:22-29 and 31-38 *)
Definition strategy_stop_robot : list (action point) := [Stop; Sleep 200; Set_mode FREE; Sleep 200; Set_mode ANGLE_DISTANCE].
Definition strategy_hardstop_robot : list (action point) := [Hardstop; Sleep 200; Set_mode FREE; Sleep 200; Set_mode ANGLE_DISTANCE].

(** trajectory_wait_for_end(flags): the reason and those of the next movements. *)
Definition wait_for_end (flags : Z) (rs : list Z) : list (action point) * option (Z * list Z) :=
  match rs with [] => ([Blocked_end flags], None) | r :: rs => ([Wait_end flags r], Some (r, rs)) end.

(** base.cpp:72-88, the loop from the current waypoint on; [end_reason] is the value of the variable. The result is what
    is done and the last reason. *)
Fixpoint follow (pts : list point) (flags end_reason : Z) (rs : list Z) : list (action point) * option (Z * list Z) :=
  match pts with
  | [] => ([], Some (end_reason, rs))
  | p :: pts =>
      let (w, res) := wait_for_end (match pts with [] => flags | _ => Z.lor flags TRAJ_END_NEAR_GOAL end) rs in
      match res with
      | None => (Goto p :: w, None)
      | Some (reason, rs) =>
          if negb (reason =? TRAJ_END_GOAL_REACHED) && negb (reason =? TRAJ_END_NEAR_GOAL) then (Goto p :: w, Some (reason, rs))
          else let (l, res) := follow pts flags reason rs in (Goto p :: w ++ l, res)
      end
  end.

(** base.cpp:40-123 strategy_goto_avoid; [None]: it has not returned. *)
Definition strategy_goto_avoid (x_mm y_mm a_deg flags : Z) (e : env) : list (action point) * option bool :=
  let ignore := flags =? TRAJ_FLAGS_ALL_IGNORE_OPPONENT in
  let planning := Lock :: (if ignore then [Opponent false] else []) ++ [Plan x_mm y_mm] ++ (if ignore then [Opponent true] else []) in
  match path e with
  | [] => (planning ++ strategy_stop_robot ++ [Release], Some false)
  | pts =>
      let (l, res) := follow pts flags 0 (reasons e) in
      match res with
      | None => (planning ++ l, None)
      | Some (end_reason, rs) =>
          if end_reason =? TRAJ_END_GOAL_REACHED then
            let (w, res) := wait_for_end TRAJ_END_GOAL_REACHED rs in
            match res with
            | None => (planning ++ l ++ [Sleep 200; Turn a_deg] ++ w, None)
            | Some _ => (planning ++ l ++ [Sleep 200; Turn a_deg] ++ w ++ [Release], Some true)
            end
          else
            let ending := if end_reason =? TRAJ_END_OPPONENT_NEAR then [Led true] ++ strategy_hardstop_robot ++ [Sleep 100] ++ strategy_hardstop_robot ++ [Led false]
                          else if end_reason =? TRAJ_END_COLLISION then strategy_hardstop_robot
                          else if end_reason =? TRAJ_END_ALLY_NEAR then strategy_hardstop_robot
                          else if end_reason =? TRAJ_END_TIMER then strategy_stop_robot
                          else [] in
            (planning ++ l ++ ending ++ [Release], Some false)
      end
  end.

(** base.cpp:125-143 strategy_goto_avoid_retry, the loop with [counter] attempts done; the [env] are those of the next
    attempts, in order ([None]: there is no next one, the function is still running). [BAD]: counter++ overflows. *)
Fixpoint retry_loop (x_mm y_mm a_deg flags num_retries counter : Z) (es : list env) : res (list (list (action point) * option bool) * option bool) :=
  match es with
  | [] => OK ([], None)
  | e :: es =>
      let attempt := strategy_goto_avoid x_mm y_mm a_deg flags e in
      match snd attempt with
      | None => OK ([attempt], None)
      | Some finished =>
          try counter := int (counter + 1) in
          if (0 <=? num_retries) && (num_retries <? counter) then OK ([attempt], Some finished)
          else if finished then OK ([attempt], Some true)
          else try (l, b) := retry_loop x_mm y_mm a_deg flags num_retries counter es in OK (attempt :: l, b)
      end
  end.
Definition strategy_goto_avoid_retry (x_mm y_mm a_deg flags num_retries : Z) (es : list env) : res (list (list (action point) * option bool) * option bool) :=
  retry_loop x_mm y_mm a_deg flags num_retries 0 es.
End Goto.
