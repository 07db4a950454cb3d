(** What it means that a value is in a configuration. *)
From Coq Require Import ZArith List String.
From Verif Require Import CsendModel.
Import ListNotations.

(** The value [v] is found by following the keys [path] from the top. *)
Inductive at_path {K} : tree K -> list K -> Z -> Prop :=
| at_val v : at_path (Val v) [] v
| at_key items k c path v : In (k, c) items -> at_path c path v -> at_path (Dict items) (k :: path) v.

(** No dictionary of the file has two keys that are the same text. *)
Inductive distinct : tree key -> Prop :=
| distinct_val v : distinct (Val v)
| distinct_dict items : NoDup (map (fun kc => str (fst kc)) items) -> (forall k c, In (k, c) items -> distinct c) ->
    distinct (Dict items).
