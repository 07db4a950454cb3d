(** What the score, the actions and the game loop must do. *)
From Coq Require Import ZArith List Bool Arith.
From Verif Require Import StratModel.
Import ListNotations.
Local Open Scope Z_scope.

(** Rules of the game: 15 points for two windsocks, 5 for one; 13 for the lighthouse, 2 for having brought it and 10 for the flags (counted
    by the main robot); in the port 1 per glass, 1 more per glass on the line of its colour and 2 more per pair. *)
Definition b2n (b : bool) : Z := if b then 1 else 0.
Fixpoint sum (l : list Z) : Z := match l with [] => 0 | x :: l => x + sum l end.
Definition port_slots (s : state) : list (Z * Z) := combine (green_line s) (red_line s).
Definition is_glass (c : Z) : bool := negb (c =? GlassColor_UNKNOWN).
Definition official_score (s : state) (main : bool) : Z :=
  match b2n (sock s 0) + b2n (sock s 1) with 2 => 15 | 1 => 5 | _ => 0 end
  + (if lighthouse_is_on s then 13 else 0)
  + (if main then 2 + (if flags_deployed (robot s) then 10 else 0) else 0)
  + sum (map (fun gr => b2n (is_glass (fst gr)) + b2n (is_glass (snd gr))) (port_slots s))
  + sum (map (fun gr => b2n (fst gr =? GlassColor_GREEN) + b2n (snd gr =? GlassColor_RED)) (port_slots s))
  + sum (map (fun gr => 2 * b2n ((fst gr =? GlassColor_GREEN) && (snd gr =? GlassColor_RED))) (port_slots s)).

(** [s'] is [s] after some progress: nothing achieved is undone and no glass is taken out of the port or replaced. *)
Definition slot_better (c c' : Z) : Prop := c' = c \/ c = GlassColor_UNKNOWN.
Definition improves (s s' : state) : Prop :=
  (forall i, sock s i = true -> sock s' i = true) /\ (lighthouse_is_on s = true -> lighthouse_is_on s' = true) /\
  (flags_deployed (robot s) = true -> flags_deployed (robot s') = true) /\
  Forall2 slot_better (green_line s) (green_line s') /\ Forall2 slot_better (red_line s) (red_line s').

(** Every place that may hold a glass. *)
Definition places (s : state) : list Z :=
  front (robot s) ++ [back_left_glass (robot s); back_center_glass (robot s); back_right_glass (robot s)] ++
  our_dispenser s ++ shared_near s ++ shared_far s ++ table_glasses s ++ green_line s ++ red_line s.
(** The same glasses, maybe elsewhere. *)
Definition same_glasses (s s' : state) : Prop :=
  forall c, c <> GlassColor_UNKNOWN -> count_occ Z.eq_dec (places s') c = count_occ Z.eq_dec (places s) c.
