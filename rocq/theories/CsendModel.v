(** Model of tools/config/config_send.py: what the tool that sends the configuration of the robot to the master board asks
    of the board. *)
From Coq Require Import ZArith List String DecimalString Decimal.
Import ListNotations.
Open Scope Z_scope.
Open Scope string_scope.

(** What yaml.load returns (config_send.py:49): dictionaries in the order of the file.  Everything that is not a dictionary
    (numbers, texts, lists) is handed on unchanged by the tool; here it is a number that stands for it. *)
Inductive tree (K : Type) : Type :=
| Val (v : Z)
| Dict (items : list (K * tree K)).
Arguments Val {K}. Arguments Dict {K}.

(** The keys that the parser makes of the file; fractional numbers and dates as keys are left out. *)
Inductive key := KText (s : string) | KInt (z : Z) | KBool (b : bool) | KNull.

(** Python's str() as used at config_send.py:21. *)
Definition str (k : key) : string :=
  match k with
  | KText s => s
  | KInt z => NilZero.string_of_int (Z.to_int z)
  | KBool true => "True"
  | KBool false => "False"
  | KNull => "None"
  end.

(** Setting an entry of a Python dictionary: an entry that exists keeps its place and gets the new value.  Used by the
    dictionary comprehension at config_send.py:21. *)
Fixpoint put {A} (k : string) (a : A) (items : list (string * A)) : list (string * A) :=
  match items with
  | [] => [(k, a)]
  | (k', a') :: items => if string_dec k' k then (k', a) :: items else (k', a') :: put k a items
  end.

(** keys_to_str, config_send.py:13-21. *)
Fixpoint keys_to_str (t : tree key) : tree string :=
  match t with
  | Val v => Val v
  | Dict items => Dict (fold_left (fun d kv => match kv with (k, c) => put (str k) (keys_to_str c) d end) items [])
  end.

(** config["actuator"], config_send.py:38-40. *)
Fixpoint lookup {A} (k : string) (items : list (string * A)) : option A :=
  match items with
  | [] => None
  | (k', a) :: items => if string_dec k' k then Some a else lookup k items
  end.

(** del config["actuator"], config_send.py:41. *)
Fixpoint remove {A} (k : string) (items : list (string * A)) : list (string * A) :=
  match items with
  | [] => []
  | (k', a) :: items => if string_dec k' k then items else (k', a) :: remove k items
  end.

(** config_split, config_send.py:33-44.  The value of each name is taken along with the name instead of being looked up
    again: the names of a dictionary are distinct. *)
Definition config_split (config : list (string * tree string)) : option (list (tree string)) :=
  match lookup "actuator" config with
  | None => Some [Dict config]
  | Some (Val _) => None
  | Some (Dict acts) =>
      Some (map (fun nc => Dict [("actuator", Dict [nc])]) acts ++ [Dict (remove "actuator" config)])%list
  end.

(** The service calls to the master board, config_send.py:24-30 and 57-59. *)
Inductive call := CreateDriver (name : string) | ConfigUpdate (c : tree string).

(** send_config_file, config_send.py:47-61.  None: the tool stops with an exception before the first call (the entry
    "actuator" is no dictionary, so .keys() at line 52 does not exist).  A file that is no dictionary at the top is taken
    to stop the tool as well; answers of the board are only printed, and calls that fail are not modelled. *)
Definition send_config_file (file : tree key) : option (list call) :=
  match keys_to_str file with
  | Val _ => None
  | Dict config =>
      match config_split config with
      | None => None
      | Some chunks =>
          Some (map CreateDriver (match lookup "actuator" config with Some (Dict acts) => map fst acts | _ => [] end)
                ++ map ConfigUpdate chunks)%list
      end
  end.
