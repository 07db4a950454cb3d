(** What the movements with obstacle avoidance should do, read on the list of their actions. *)
From Coq Require Import ZArith List Bool.
From Verif Require Import GotoModel.
Import ListNotations.
Local Open Scope Z_scope.

Section Spec.
Variable point : Type.

(** The movements: point, what was waited for, and why it ended. *)
Fixpoint moves (l : list (action point)) : list (point * Z * Z) :=
  match l with
  | Goto p :: Wait_end f r :: l => (p, f, r) :: moves l
  | _ :: l => moves l
  | [] => []
  end.
Definition targets (l : list (action point)) : list point := flat_map (fun a => match a with Goto p => [p] | _ => [] end) l.
(** A movement after which the next one is started: goal reached or near. *)
Definition proceeds (reason : Z) : Prop := reason = 1 \/ reason = 32.
(** The movements follow the path from its first point, in order, each until it is near its end but the last point of the
    path, and stop at the first one which ends for another reason. *)
Definition follows (pts : list point) (flags : Z) (ms : list (point * Z * Z)) : Prop :=
  (length ms <= length pts)%nat /\
  (forall i p f r, nth_error ms i = Some (p, f, r) ->
     nth_error pts i = Some p /\ f = (if Nat.eqb (S i) (length pts) then flags else Z.lor flags 32) /\ ((S i < length ms)%nat -> proceeds r)) /\
  ((length ms < length pts)%nat -> exists p f r, nth_error ms (length ms - 1) = Some (p, f, r) /\ ~ proceeds r).
(** Every point of the path, which is not empty, was gone to, and the last one was reached. *)
Definition completes (pts : list point) (ms : list (point * Z * Z)) : Prop :=
  pts <> [] /\ map (fun m => fst (fst m)) ms = pts /\ exists p f, nth_error ms (length ms - 1) = Some (p, f, 1).

(** The robot is stopped, and the control of both axes enabled, after everything which makes it move. *)
Definition moving (a : action point) : bool := match a with Goto _ | Turn _ => true | _ => false end.
Definition last_mode (l : list (action point)) : option mode := fold_left (fun m a => match a with Set_mode m => Some m | _ => m end) l None.
Definition ends_stopped (l : list (action point)) : Prop :=
  exists l1 a l2, l = l1 ++ a :: l2 /\ (a = Stop \/ a = Hardstop) /\ forallb (fun a => negb (moving a)) l2 = true /\ last_mode l2 = Some ANGLE_DISTANCE.

Definition is_lock (a : action point) : bool := match a with Lock => true | _ => false end.
Definition is_release (a : action point) : bool := match a with Release => true | _ => false end.
(** Everything between the only lock and the only release. *)
Definition locked_throughout (l : list (action point)) : Prop :=
  exists m, l = Lock :: m ++ [Release] /\ forallb (fun a => negb (is_lock a || is_release a)) m = true.
Definition locked_still (l : list (action point)) : Prop :=
  exists m, l = Lock :: m /\ forallb (fun a => negb (is_lock a || is_release a)) m = true.
(** Whether the opponent is an obstacle, after the actions. *)
Definition opponent_shown (l : list (action point)) : bool := fold_left (fun b a => match a with Opponent b => b | _ => b end) l true.
End Spec.
Arguments moves {point}. Arguments targets {point}. Arguments follows {point}. Arguments completes {point}. Arguments ends_stopped {point}.
Arguments locked_throughout {point}. Arguments locked_still {point}. Arguments opponent_shown {point}. Arguments moving {point}. Arguments last_mode {point}.
Arguments is_lock {point}. Arguments is_release {point}.
