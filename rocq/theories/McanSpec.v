(** Specification of the CAN node, from the history of events alone. *)
From Coq Require Import ZArith List Bool Arith.
From Verif Require Import EnumModel EnumSpec MotorModel MotorSpec McanModel.
Import ListNotations.
Local Open Scope Z_scope.

(** A board is believed to be motor [s] if it is the first to bear that name after the creation, and its id is not another motor's. *)
Definition taken (st : spec) (c : Z) : bool :=
  existsb (fun mo => match announced (log st) (m_name mo) with Some c' => c' =? c | None => false end) (motors st).
Definition spec_event (max : nat) (st : spec) (e : event) : spec :=
  match e with
  | Creation s => spec_step max st (Create s)
  | Setpoint s sp => spec_step max st (Set_ s sp)
  | NodeInfo s c => if taken st c then st else spec_step max st (Board s c)
  | Received _ _ | Can => st
  end.
Definition world (max : nat) (h : list event) : spec := fold_left (spec_event max) h {| motors := []; log := [] |}.

(** Requirements on the callers and the bus: ids fit, nodes have legal CAN ids. *)
Definition event_ok (e : event) : Prop :=
  match e with
  | Creation s => (length s <= MOTOR_ID_MAX_LEN)%nat
  | NodeInfo _ c => 1 <= c <= 127
  | _ => True
  end.

(** The message which tells node [c] to take setpoint [sp]. *)
Definition message_for (c : Z) (sp : setpoint) : option message :=
  match sp with
  | Position v => Some (MsgPosition c v)
  | Velocity v => Some (MsgVelocity c v)
  | Torque v => Some (MsgTorque c v)
  | Voltage v => Some (MsgVoltage c v)
  | Disable => None
  end.
(** What motor [i] has to be sent: its last setpoint, if its board is known. *)
Definition wanted (st : spec) (i : nat) : option message :=
  match nth_error (motors st) i with
  | None => None
  | Some mo => match announced (log st) (m_name mo), m_sets mo with
               | Some c, sp :: _ => message_for c sp
               | _, _ => None
               end
  end.

(** The messages among the outputs; the steps of the callback among events. *)
Definition sent (o : list (nat * option message)) : list message :=
  flat_map (fun x => match snd x with Some m => [m] | None => [] end) o.
Definition is_can (e : event) : bool := match e with Can => true | _ => false end.
Definition can_steps (h : list event) : nat := length (filter is_can h).

(** * The ready LED: which names have which ids, after some names were retrieved. *)
Fixpoint id_of (tab : list (name * Z)) (s : name) : option Z :=
  match tab with [] => None | (s', c) :: tab => if name_dec s' s then Some c else id_of tab s end.
Definition hear (regs : list name) (tab : list (name * Z)) (i : name * Z) : list (name * Z) :=
  let (s, c) := i in
  if existsb (fun e => snd e =? c) tab then tab
  else if in_dec name_dec s regs then match id_of tab s with Some _ => tab | None => (s, c) :: tab end
  else tab.
Definition heard (regs : list name) (h : list (name * Z)) : list (name * Z) := fold_left (hear regs) h [].

(** The last status received from [src]. *)
Definition last_status (h : list (Z * status)) (src : Z) : option status :=
  fold_left (fun r e => if fst e =? src then Some (snd e) else r) h None.
