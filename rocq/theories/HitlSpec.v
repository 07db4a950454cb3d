(** What is expected of the simulator. *)
From Coq Require Import ZArith QArith Reals List Bool.
From Verif Require Import HitlModel.
Import ListNotations.
Local Open Scope R_scope.

(** The content of the last message for the node [own]. *)
Definition last_for {A} (own : Z) (msgs : list (Z * A)) : option A :=
  match filter (fun m => (fst m =? own)%Z) (rev msgs) with [] => None | m :: _ => Some (snd m) end.
Definition or_else {A} (o : option A) (d : A) : A := match o with Some a => a | None => d end.

(** A force limited to [f] in both directions. *)
Definition limited (f v r : R) : Prop := (Rabs v <= f -> r = v) /\ (f < v -> r = f) /\ (v < - f -> r = - f).

(** The commands in a life of the board. *)
Fixpoint commands (es : list board_event) : list (Z * outputs) :=
  match es with [] => [] | Command m :: es => m :: commands es | Period :: es => commands es end.
(** No period before the first command for [own]. *)
Fixpoint commanded_first (own : Z) (es : list board_event) : Prop :=
  match es with [] => True | Period :: _ => False | Command m :: es => fst m = own \/ commanded_first own es end.
(** Commands whose pressures are 32-bit numbers: the servo between -40 and 40, the pump between -1 and 1. *)
Definition ordinary (e : board_event) : Prop :=
  match e with Command m => Rabs (fst (servo (snd m))) <= 40 /\ Rabs (fst (pump (snd m))) <= 1 | Period => True end.

(** How far the robot went forward, and by how much it turned, in periods of [dt]. *)
Definition forward (m : motion) : R := vel_x m * cos (direction m) + vel_y m * sin (direction m).
Definition gone (dt : R) (ms : list motion) : R := fold_right (fun m s => forward m * dt + s) 0 ms.
Definition turned (dt : R) (ms : list motion) : R := fold_right (fun m s => spin m * dt + s) 0 ms.
Fixpoint moves (es : list world_event) : list motion :=
  match es with [] => [] | Move m :: es => m :: moves es | Update :: es => moves es end.

Local Open Scope Q_scope.
(** On a table of 3 m by 2 m. *)
Definition on_table (p : Q * Q) : Prop := 0 <= fst p <= 3 /\ 0 <= snd p <= 2.
(** The same cup, seen from the other side of the table. *)
Definition mirrored (c d : cup) : Prop := cup_color c <> cup_color d /\ cup_x c + cup_x d == 3 /\ cup_y c == cup_y d.
