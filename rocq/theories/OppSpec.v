(** What the beam of a rotating beacon sees. *)
From Coq Require Import Reals ZArith.
From Verif Require Import OppModel.
Local Open Scope R_scope.

(** The distance between two points. *)
Definition gap (p q : R * R) : R := sqrt ((fst q - fst p) * (fst q - fst p) + (snd q - snd p) * (snd q - snd p)).

(** A beam from [p] in direction [b] meets the disc of centre [c] and radius [rad]. *)
Definition meets (p c : R * R) (rad b : R) : Prop :=
  exists t, 0 <= t /\ gap (fst p + t * cos b, snd p + t * sin b) c <= rad.

(** The beacon of a robot at [p], mounted with an offset (radians), sees the disc when its own angle is [theta]. *)
Definition sees (p : pose) (offset : R) (c : R * R) (rad theta : R) : Prop :=
  meets (px p, py p) c rad (pa p + offset + theta).

(** The message is what a whole turn gives: over the turn which starts at [start_angle], the disc is seen up to
    [start_angle + length], and not after. *)
Definition scan (p : pose) (offset : R) (c : R * R) (rad : R) (msg : can_signal) : Prop :=
  0 <= length msg < 2 * PI /\
  forall theta, start_angle msg <= theta < start_angle msg + 2 * PI ->
    (sees p offset c rad theta <-> theta <= start_angle msg + length msg).

(** The same direction. *)
Definition same_direction (a b : R) : Prop := exists k : Z, a = b + 2 * IZR k * PI.
