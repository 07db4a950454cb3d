(** Specification of the trace: the list of events recorded so far. *)
From Coq Require Import NArith List Bool PeanoNat.
From Verif Require Import TraceModel.
Import ListNotations.

(** Is tracing on after these calls? ([Print] turns it on in this code.) *)
Fixpoint enabled (past_newest_first : list op) : bool :=
  match past_newest_first with
  | [] => false
  | Init :: _ | Disable :: _ => false
  | Enable :: _ | Print :: _ => true
  | (Clear | Trace _ _ _) :: past => enabled past
  end.

(** All events recorded since the last clear, newest first. *)
Fixpoint recorded (past_newest_first : list op) : list trace_event :=
  match past_newest_first with
  | [] => []
  | (Init | Clear) :: _ => []
  | (Enable | Disable | Print) :: past => recorded past
  | Trace id now d :: past =>
      if enabled past
      then {| event_id := N.modulo id 256; ts22 := N.modulo now (2 ^ 22); data := d |} :: recorded past
      else recorded past
  end.
