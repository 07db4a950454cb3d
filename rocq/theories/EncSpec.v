(** What the encoder, divider, blocking and wheel/polar code must do, independently of the model. *)
From Coq Require Import ZArith List Bool QArith.
Import ListNotations.
Local Open Scope Z_scope.

(** A counter of 16 bits shows the true position modulo 2^16. *)
Definition shows (x : Z) : Z := x mod 2 ^ 16.
(** A path of true positions (in ticks) from [x]: the last one, and the claim that two successive ones differ by less
    than [bound]. *)
Fixpoint last_pos (x : Z) (xs : list Z) : Z := match xs with [] => x | y :: ys => last_pos y ys end.
Fixpoint slow (bound x : Z) (xs : list Z) : Prop :=
  match xs with [] => True | y :: ys => Z.abs (y - x) < bound /\ slow bound y ys end.
(** All the positions of a path are within [lo, hi]. *)
Definition within (lo hi : Z) (xs : list Z) : Prop := Forall (fun x => lo <= x <= hi) xs.

(** ** Stream divider *)
Inductive sev := SetPrescaler (n : Z) | Enable (b : bool) | Update.
(** Newest event last. [enabled_after b h]: enabled after the history; [ticks h]: number of updates that happened while
    enabled since the last change of the prescaler. *)
Fixpoint enabled_after (b : bool) (h : list sev) : bool :=
  match h with [] => b | Enable b' :: h => enabled_after b' h | _ :: h => enabled_after b h end.
Fixpoint prescaler_after (n : Z) (h : list sev) : Z :=
  match h with [] => n | SetPrescaler n' :: h => prescaler_after n' h | _ :: h => prescaler_after n h end.
Fixpoint ticks (b : bool) (k : Z) (h : list sev) : Z :=
  match h with
  | [] => k
  | SetPrescaler _ :: h => ticks b 0 h
  | Enable b' :: h => ticks b' k h
  | Update :: h => ticks b (if b then k + 1 else k) h
  end.
(** The update that ends the history sends. *)
Definition must_send (n : Z) (b : bool) (h : list sev) : Prop :=
  enabled_after b h = true /\ exists j, 0 < j /\ ticks b 0 h + 1 = j * prescaler_after n h.

(** [n] is the integer nearest to [x], the even one if there are two. *)
Definition nearest (n : Z) (x : Q) : Prop :=
  (-(1#2) < x - inject_Z n < 1#2)%Q \/ ((x - inject_Z n == 1#2 \/ x - inject_Z n == -(1#2))%Q /\ Z.Even n).

(** ** Blocking detection *)
Inductive bev := Thresholds (err cnt : Z) | Manage (err : Z) | Reset | GetMax.
(** The thresholds in force after a history (none at first). *)
Fixpoint thresholds (t : Z * Z) (h : list bev) : Z * Z :=
  match h with [] => t | Thresholds e c :: h => thresholds (e, c) h | _ :: h => thresholds t h end.
(** [exceeded h n]: the last [n] updates of the history, none of them before the last reset, all had an error above the
    threshold in force (a threshold of zero disables the detection: such updates count for nothing). The history
    is a list whose head is the OLDEST event. *)
Inductive exceeded : list bev -> nat -> Prop :=
| ex_none h : exceeded h 0
| ex_more h err n : fst (thresholds (0, 0) h) <> 0 -> fst (thresholds (0, 0) h) < err -> exceeded h n ->
    exceeded (h ++ [Manage err]) (S n)
| ex_off h err n : fst (thresholds (0, 0) h) = 0 -> exceeded h n -> exceeded (h ++ [Manage err]) n
| ex_thresholds h e c n : exceeded h n -> exceeded (h ++ [Thresholds e c]) n
| ex_getmax h n : exceeded h n -> exceeded (h ++ [GetMax]) n.
Definition blocked (h : list bev) : Prop :=
  let c := snd (thresholds (0, 0) h) in 0 < c /\ exceeded h (Z.to_nat c).
(** Errors seen by an enabled detection since the last GetMax. *)
Inductive seen : list bev -> Z -> Prop :=
| seen_now h err : fst (thresholds (0, 0) h) <> 0 -> seen (h ++ [Manage err]) err
| seen_before h e err : e <> GetMax -> seen h err -> seen (h ++ [e]) err.

(** ** Wheels and polar coordinates *)
(** Distance and angle of a pair of wheels: mean and half difference, rounded towards zero. *)
Definition is_polar (left right distance angle : Z) : Prop :=
  distance = Z.quot (left + right) 2 /\ angle = Z.quot (right - left) 2.
(** Commands of the polar set points and readings of the wheels (after their gain), oldest first. *)
Inductive rsev := SetAngle (a : Z) | SetDistance (d : Z) | Reading (left right : Z).
Fixpoint last_angle (a : Z) (h : list rsev) : Z :=
  match h with [] => a | SetAngle a' :: h => last_angle a' h | _ :: h => last_angle a h end.
Fixpoint last_distance (d : Z) (h : list rsev) : Z :=
  match h with [] => d | SetDistance d' :: h => last_distance d' h | _ :: h => last_distance d h end.
Fixpoint last_reading (r : Z * Z) (h : list rsev) : Z * Z :=
  match h with [] => r | Reading l r' :: h => last_reading (l, r') h | _ :: h => last_reading r h end.
