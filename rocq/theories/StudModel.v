(** Model of the parameter editor of the studio: tools/studio/cvra_studio/network/ParameterTree.py,
    viewers/NestedDict.py (the dictionary) and commands/param_tree.py, with the parameter server of the UWB beacon
    (uwb-beacon-firmware/src/uavcan/parameter_server.cpp, parameter_enumeration.cpp, modelled in ParamModel).

    Simplifications: the widgets are not modelled; names have no limit of length; [int] and [float] of Python on a text are
    arbitrary partial functions; the index in the request has no limit (13 bits in the message); the root namespace is
    namespace 0 of the board. *)
From Coq Require Import ZArith List Bool.
From Verif Require Import CBase Buf ParamModel.
Import ListNotations.
Local Open Scope Z_scope.

(** parameter_server.cpp (uwb) 32-40: getParamNameByIndex; the name stays empty if there is no such parameter. *)
Definition index_name (h : heap) (i : Z) : res str :=
  try r := find_by_index h 0 i in
  match r with
  | None => OK []
  | Some p => full_name h p
  end.

(** uavcan::ParamServer (libuavcan, not in the repository) for a request by index without value: name of the parameter,
    read its value, empty name if the value is empty. *)
Definition get_by_index (h : heap) (i : Z) : res (str * rvalue) :=
  try name := index_name h i in
  try v := read_value h 0 name in
  match v with
  | REmpty => OK ([], REmpty)
  | v => OK (name, v)
  end.

(** ParameterTree.py:90-122: the iteration from [index] on, when the next [answers] requests are answered and the one after
    times out. *)
Fixpoint iterate (h : heap) (index : nat) (answers : nat) : res (list (str * rvalue)) :=
  match answers with
  | O => OK []
  | S answers =>
      try (name, v) := get_by_index h (Z.of_nat index) in
      match name with
      | [] => OK []
      | _ => try l := iterate h (S index) answers in OK ((name, v) :: l)
      end
  end.
Definition fetch (h : heap) (answers : nat) : res (list (str * rvalue)) := iterate h 0 answers.

(** NestedDict.py:10-20: a dictionary of dictionaries; [Entry] is a Parameter. *)
Inductive nested := Entry (v : rvalue) | Level (items : list (str * nested)).

Definition key_eqb (a b : str) : bool := if list_eq_dec Z.eq_dec a b then true else false.
Fixpoint lookup (k : str) (items : list (str * nested)) : option nested :=
  match items with
  | [] => None
  | (k', d) :: items => if key_eqb k' k then Some d else lookup k items
  end.
Fixpoint put (k : str) (d : nested) (items : list (str * nested)) : list (str * nested) :=
  match items with
  | [] => [(k, d)]
  | (k', d') :: items => if key_eqb k' k then (k', d) :: items else (k', d') :: put k d items
  end.

(** NestedDict.py:18-20: set; [None]: a Parameter is indexed by a key (TypeError), or the path is empty (IndexError). The
    missing levels are created by [get]. *)
Fixpoint nested_set (d : nested) (path : list str) (v : rvalue) : option nested :=
  match path, d with
  | [], _ => None
  | _ :: _, Entry _ => None
  | [k], Level items => Some (Level (put k (Entry v) items))
  | k :: path, Level items =>
      let sub := match lookup k items with Some d => d | None => Level [] end in
      match nested_set sub path v with
      | Some sub => Some (Level (put k sub items))
      | None => None
      end
  end.
(** NestedDict.py:15-16: get of an existing path. *)
Fixpoint nested_get (d : nested) (path : list str) : option nested :=
  match path with
  | [] => Some d
  | k :: path =>
      match d with
      | Entry _ => None
      | Level items => match lookup k items with Some d => nested_get d path | None => None end
      end
  end.

(** name.split("/"), param_tree.py:62. *)
Fixpoint split (s : str) : list str :=
  match s with
  | [] => [[]]
  | c :: s =>
      if c =? slash then [] :: split s
      else match split s with
           | [] => [[c]]
           | w :: ws => (c :: w) :: ws
           end
  end.

(** param_tree.py:60-62: the tree shown. *)
Fixpoint fill (d : nested) (l : list (str * rvalue)) : option nested :=
  match l with
  | [] => Some d
  | (name, v) :: l => match nested_set d (split name) v with Some d => fill d l | None => None end
  end.

(** ParameterTree.py:29-42: the type of the value shown. *)
Inductive pytype := TBool | TInt | TFloat | TStr.
Definition type_of (v : rvalue) : option pytype :=
  match v with
  | RBoolean _ => Some TBool
  | RInteger _ => Some TInt
  | RReal _ => Some TFloat
  | RString _ => Some TStr
  | REmpty => None
  end.

(** ParameterTree.py:45-58 with a text as value (param_tree.py:182): [bool] of a text is whether it is not empty. [None]:
    [int] or [float] raises. *)
Definition value_to_uavcan (int_of float_of : str -> option Z) (text : str) (ty : option pytype) : option rvalue :=
  match ty with
  | Some TBool => Some (RBoolean (match text with [] => false | _ => true end))
  | Some TInt => match int_of text with Some i => Some (RInteger i) | None => None end
  | Some TFloat => match float_of text with Some x => Some (RReal x) | None => None end
  | Some TStr => Some (RString text)
  | None => Some REmpty
  end.

(** param_tree.py:177-184 and 82-86 with the server of the board: the text of the shown parameter (name, v) is edited. *)
Definition edit (int_of float_of : str -> option Z) (h : heap) (name : str) (v : rvalue) (text : str) : res heap :=
  match value_to_uavcan int_of float_of text (type_of v) with
  | Some REmpty | None => OK h
  | Some w => assign_value h 0 name w
  end.
