(** Model of the upload of a configuration to the motor boards, tools/motor_config_loader.py, with the parameter server
    of the boards (motor-control-firmware/src/uavcan/parameter_server.cpp, modelled in ParamModel).

    Simplifications: the keys of the configuration are strings (an integer key raises an exception in the concatenation of
    line 21); a dict is the list of its items in the order of iteration; the boards are found at once or never
    (lines 126-130), have distinct names and do nothing else meanwhile; names of more than 92 characters (the capacity
    in the message) and integers of more than 64 bits are not modelled; a Python float is given by the binary32 pattern it
    is sent as; the root namespace of a board is its namespace 0. *)
From Coq Require Import ZArith List Bool.
From Verif Require Import CBase Buf ParamModel.
Import ListNotations.
Local Open Scope Z_scope.

(** A value of the YAML file that is not a dict. [PyOther]: text, list, date or nothing. *)
Inductive pyval := PyBool (b : bool) | PyInt (i : Z) | PyFloat (bits : Z) | PyOther.

(** yaml.load, motor_config_loader.py:172. *)
Inductive yaml := Leaf (v : pyval) | Dict (items : list (str * yaml)).

(** motor_config_loader.py:16-25: the loop body for a value of name [name]. *)
Fixpoint parameters (name : str) (c : yaml) : list (str * pyval) :=
  match c with
  | Leaf v => [(name, v)]
  | Dict items => flat_map (fun x => match x with (n, c) => parameters (name ++ slash :: n) c end) items
  end.
(** motor_config_loader.py:16-25: parameters_from_config(config). *)
Definition parameters_from_config (config : list (str * yaml)) : list (str * pyval) := parameters [] (Dict config).

(** motor_config_loader.py:70-75: the value in the request; [None]: the assignment to real_value raises an exception. *)
Definition request_value (v : pyval) : option rvalue :=
  match v with
  | PyBool b => Some (RBoolean b)
  | PyInt i => Some (RInteger i)
  | PyFloat x => Some (RReal x)
  | PyOther => None
  end.

(** uavcan::ParamServer (libuavcan, not in the repository): assign, read back, and answer with an empty name if the value
    read back is empty. The flag tells whether the name in the answer is not empty. *)
Definition get_set (h : heap) (name : str) (v : rvalue) : res (heap * bool) :=
  try h := assign_value h 0 name v in
  try r := read_value h 0 name in
  OK (h, match r with REmpty => false | _ => true end).

(** What happens to a request: answered; request lost; answer lost. *)
Inductive fate := Answered | Lost | AnswerLost.

(** How the program ends: it returns from upload_config; an exception in its main thread; it waits for ever, in line 84
    since the exceptions of lines 88 and 91 end the thread that would release the semaphore, or in lines 127-130. *)
Inductive outcome := Finished | Raised | Blocked.

(** The boards, by name. *)
Definition network := list (str * heap).
Definition str_eqb (a b : str) : bool := if list_eq_dec Z.eq_dec a b then true else false.
Fixpoint board (b : str) (net : network) : option heap :=
  match net with
  | [] => None
  | (b', h) :: net => if str_eqb b' b then Some h else board b net
  end.
Fixpoint set_board (b : str) (h : heap) (net : network) : network :=
  match net with
  | [] => []
  | (b', h') :: net => if str_eqb b' b then (b', h) :: net else (b', h') :: set_board b h net
  end.

(** motor_config_loader.py:139-144 with send_parameter (66-84) and _send_parameter_callback (86-93): [fates n] is what
    happens to request [n]. *)
Fixpoint send_all (fates : nat -> fate) (n : nat) (net : network) (reqs : list (str * (str * pyval))) : res (network * outcome) :=
  match reqs with
  | [] => OK (net, Finished)
  | (b, (name, v)) :: reqs =>
      match request_value v, board b net with
      | Some w, Some h =>
          match fates n with
          | Lost => OK (net, Blocked)
          | AnswerLost => try (h, _) := get_set h name w in OK (set_board b h net, Blocked)
          | Answered =>
              try (h, ok) := get_set h name w in
              if ok then send_all fates (S n) (set_board b h net) reqs
              else OK (set_board b h net, Blocked)
          end
      | _, _ => OK (net, Raised)
      end
  end.

(** motor_config_loader.py:139-140: the requests, in order. *)
Definition requests (configs : list (str * list (str * yaml))) : list (str * (str * pyval)) :=
  flat_map (fun x => map (pair (fst x)) (parameters_from_config (snd x))) configs.

(** motor_config_loader.py:149-151 with save_parameters (95-103): a request to each board, without waiting for its
    answer. [saves b] tells whether the request reaches board [b] and its flash memory is written. The result is the
    list of the boards whose parameters are in flash. *)
Definition save_all (saves : str -> bool) (configs : list (str * list (str * yaml))) : list str :=
  filter saves (map fst configs).

(** motor_config_loader.py:118-152: the boards after the upload, how it ends, and which boards have saved their
    parameters. *)
Definition upload_config (fates : nat -> fate) (saves : str -> bool) (net : network)
  (configs : list (str * list (str * yaml))) : res (network * outcome * list str) :=
  if forallb (fun x => if board (fst x) net then true else false) configs then
    try (net, o) := send_all fates 0 net (requests configs) in
    match o with
    | Finished => OK (net, Finished, save_all saves configs)
    | o => OK (net, o, [])
    end
  else OK (net, Blocked, []).
