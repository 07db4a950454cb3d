(** The beacon as its user sees it. *)
From Coq Require Import ZArith Reals List.
From Verif Require Import CBase FloatModel PidSpec BeaconModel.
Import ListNotations.

Section Spec.
Variable m : machine.
(** The buffer that the reader holds. *)
Definition held (s : state m) : list nat :=
  match rdr m s with Idle _ => [] | Got _ sp | Read1 _ sp _ | Read2 _ sp _ _ | Sent _ sp => [sp] end.
(** The buffers in use. *)
Definition in_use (s : state m) : nat := length (held s) + length (mbox m s).

(** The signals of an execution that find a buffer: those which end while fewer than 14 buffers are in use. *)
Fixpoint accepted (s : state m) (es : list event) : list (signal m) :=
  match es with
  | [] => []
  | e :: es =>
      match snd (sense m (sens m s) e) with
      | Some g => if in_use s <? 14 then [g] else []
      | None => []
      end ++ match step m s e with CRes.OK (s', _) => accepted s' es | CRes.BAD => [] end
  end.
(** All the signals that end during an execution, as the sensors measure them. *)
Fixpoint measured (x : sensor m) (es : list event) : list (signal m) :=
  match es with
  | [] => []
  | e :: es => match snd (sense m x e) with Some g => [g] | None => [] end ++ measured (fst (sense m x e)) es
  end.
(** What the reader has in hand and has not broadcast yet. *)
Definition in_hand (s : state m) : list nat :=
  match rdr m s with Got _ sp | Read1 _ sp _ | Read2 _ sp _ _ => [sp] | _ => [] end.
Definition contents (s : state m) (l : list nat) : list (option (signal m)) := map (fun sp => nth sp (array m s) None) l.
End Spec.

(** The 32-bit timestamp of the time [t], in microseconds. *)
Definition stamp (t : Z) : Z := u32 t.
(** The part of a turn made between the times t1 and t2 by a rotor which makes one turn in [period]. *)
Definition turned (period t1 t2 : Z) : R := (2 * PI * (IZR (t2 - t1) / IZR period))%R.
