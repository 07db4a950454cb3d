(** Model of master-firmware/src/can/UavcanToMessagebusProxy.hpp and of the two proxies made from it.

    The bus enumerator is the model EnumModel. The effect on the message bus is the list of calls made to it (type [op] of BusModel): topics are
    numbered by the address of their node in the map, which does not move. *)
From Coq Require Import ZArith List Bool Arith.
From Verif Require Import EnumModel BusModel.
Import ListNotations.
Local Open Scope Z_scope.

Section Proxy.
(** UavcanMessage, and the two functions given by the user (lines 58-68). A message of the bus is the bytes of TopicMessage. *)
Variable message : Type.
Variable topic_name : name -> name.
Variable translate : message -> option (list Z).

(** Lines 38-44: the map from names to topics, and the number of the next topic. *)
Record proxy := mkProxy { topic_map : list (name * nat); fresh : nat }.
Fixpoint find (m : list (name * nat)) (n : name) : option nat :=
  match m with [] => None | (n', t) :: m => if list_eq_dec Z.eq_dec n' n then Some t else find m n end.
(** Lines 106-125. *)
Definition find_or_create_topic (p : proxy) (n : name) : proxy * nat * list op :=
  match find (topic_map p) n with
  | Some t => (p, t, [])
  | None => (mkProxy ((n, fresh p) :: topic_map p) (S (fresh p)), fresh p, [OAdvertise (fresh p) n])
  end.
(** Lines 85-104. [None]: undefined behaviour of the enumerator. *)
Definition process (en : enumerator) (p : proxy) (msg : message) (src : Z) : option (proxy * list op) :=
  match get_str_id en src with
  | None => None
  | Some None => Some (p, [])
  | Some (Some board) =>
      let '(p, t, ops) := find_or_create_topic p (topic_name board) in
      Some (p, ops ++ match translate msg with Some m => [OPublish t m] | None => [] end)
  end.

(** Histories: changes of the enumerator, and messages received (lines 75-77). *)
Inductive pevent := Enum (e : EnumModel.event) | Msg (src : Z) (m : message).
Definition pstep (s : enumerator * proxy) (e : pevent) : option (enumerator * proxy * list op) :=
  match e with
  | Enum ev => match estep (fst s) ev with Some en => Some (en, snd s, []) | None => None end
  | Msg src m => match process (fst s) (snd s) m src with Some (p, ops) => Some (fst s, p, ops) | None => None end
  end.
Fixpoint prun (s : enumerator * proxy) (h : list pevent) : option (enumerator * proxy * list op) :=
  match h with
  | [] => Some (s, [])
  | e :: h => match pstep s e with
              | Some (s, ops) => match prun s h with Some (s, ops') => Some (s, ops ++ ops') | None => None end
              | None => None
              end
  end.
Definition pinit (cap : nat) : enumerator * proxy := (enumerator_init cap, mkProxy [] 0).
End Proxy.
Arguments Enum {message}. Arguments Msg {message}.

(** "/distance/" *)
Definition distance_prefix : name := [47; 100; 105; 115; 116; 97; 110; 99; 101; 47].
(** sensor_handler.cpp:23-27. *)
Definition distance_topic_name (board : name) : name := distance_prefix ++ board.
(** sensor_handler.cpp:29-36: the range in metres. Simplified: a fraction of thousandths instead of a float, which is always translated. *)
Definition distance_translate (mm : Z) : option (list Z) := Some [mm].

(** "actuator-" and "/actuator/" *)
Definition actuator_dash : name := [97; 99; 116; 117; 97; 116; 111; 114; 45].
Definition actuator_slash : name := [47; 97; 99; 116; 117; 97; 116; 111; 114; 47].
Fixpoint strip_prefix (p s : name) : option name :=
  match p, s with
  | [], _ => Some s
  | x :: p, y :: s => if x =? y then strip_prefix p s else None
  | _ :: _, [] => None
  end.
(** absl::StrReplaceAll(s, {{from, to}}): replaces all occurrences from left to right ([fuel]: length of s). *)
Fixpoint replace_all (fuel : nat) (from to s : name) : name :=
  match fuel, s with
  | O, _ | _, [] => s
  | S fuel, c :: r => match strip_prefix from s with Some s' => to ++ replace_all fuel from to s' | None => c :: replace_all fuel from to r end
  end.
(** actuator_handler.cpp:25-29. *)
Definition actuator_topic_name (board : name) : name := replace_all (length board) actuator_dash actuator_slash board.
