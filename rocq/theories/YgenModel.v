(** Model of the generator of the configuration tree of the master, tools/config/parser/parser.py and
    tools/config/config_to_c.py, and of the start of the configuration, master-firmware/src/config.c.

    The YAML parser is not modelled: the generator starts from the Python value it returns. The generated C
    code is modelled by the calls it makes, in order; the struct that holds the objects (to_struct) is
    modelled by the fact that the objects are distinct and zeroed. Names that do not make a valid C program
    (a name that is no C identifier, two names that only differ by a dash and an underscore, a parameter
    called [ns]) are rejected by the C compiler, which is not modelled. *)
From Coq Require Import String ZArith List Bool Arith.
From Verif Require Import CBase Buf ParamModel.
Import ListNotations.
Local Open Scope Z_scope.

(** The Python value of a YAML file: dictionaries (in order), booleans, integers, floats (given by the bits of
    the single precision number they are sent as), strings; anything else (lists, None, dates) is [YOther].
    Keys are given after [str(name)] (parser.py 3 and 36). *)
Inductive yaml :=
| YMap (l : list (str * yaml))
| YBool (b : bool)
| YInt (i : Z)
| YFloat (x : Z)
| YStr (s : str)
| YOther.

(** parser.py 104-111; the first case of the inner match is [none_to_level]. *)
Fixpoint depth (y : yaml) (level : nat) : option nat :=
  match y with
  | YMap l =>
      Some (match l with
            | [] => O
            | _ => fold_right Nat.max O
                     (map (fun kv => match depth (snd kv) (S level) with None => level | Some d => d end) l)
            end)
  | _ => None
  end.

(** The classes Parameter and ParameterNamespace (parser.py 1-7 and 34-40). *)
Inductive tree :=
| TParam (name : str) (v : yaml)
| TNs (name : str) (params : option (list tree)).

(** parser.py 114-134, called with a dictionary. *)
Fixpoint parse_tree (name : str) (y : yaml) : tree :=
  match y with
  | YMap l =>
      match depth y 1 with
      | Some O | None => TNs name None
      | Some 1%nat => TNs name (Some (map (fun kv => TParam (fst kv) (snd kv)) l))
      | Some _ =>
          TNs name (Some (map (fun kv => match snd kv with
                                         | YMap _ => parse_tree (fst kv) (snd kv)
                                         | _ => TParam (fst kv) (snd kv)
                                         end) l))
      end
  | _ => TNs name None
  end.

(** parser.py 18-31: which declare function is called; [None] is the TypeError. The buffer of a string has 16
    bytes (parser.py 14). In Python a boolean is an integer too: the order of the tests matters. *)
Definition declare_of (v : yaml) : option decl :=
  match v with
  | YBool _ => Some (DBool None)
  | YInt _ => Some (DInt None)
  | YFloat _ => Some (DScalar None)
  | YStr _ => Some (DStr (repeat 0 16) None)
  | YMap _ | YOther => None
  end.

(** The calls of a list of members, and the number of namespaces declared after them. *)
Definition gather (f : tree -> nat -> option (list op * nat)) : list tree -> nat -> option (list op * nat) :=
  fix gather l n :=
  match l with
  | [] => Some ([], n)
  | t :: l =>
      match f t n with
      | None => None
      | Some (a, n) => match gather l n with None => None | Some (b, n) => Some (a ++ b, n) end
      end
  end.
(** parser.py 76-101. [n] namespaces are declared before; the parent is given by its number instead of its C
    name. The root has no parent and a null name. *)
Fixpoint init_code (parent : option nat) (t : tree) (n : nat) : option (list op * nat) :=
  match t with
  | TParam name v =>
      match parent, declare_of v with
      | Some m, Some d => Some ([ODecl m name d], n)
      | _, _ => None
      end
  | TNs name ps =>
      let call := ODeclNs parent (match parent with None => [] | Some _ => name end) in
      match ps with
      | None => Some ([call], S n)
      | Some l =>
          match gather (init_code (Some n)) l (S n) with
          | None => None
          | Some (a, n) => Some (call :: a, n)
          end
      end
  end.

Definition master : str := [109; 97; 115; 116; 101; 114].
Definition actuator : str := [97; 99; 116; 117; 97; 116; 111; 114].
Definition config_name : str := [99; 111; 110; 102; 105; 103].

Definition key_eqb (a b : str) : bool := if list_eq_dec Z.eq_dec a b then true else false.
Fixpoint lookup (k : str) (l : list (str * yaml)) : option yaml :=
  match l with [] => None | (k', v) :: l => if key_eqb k' k then Some v else lookup k l end.

(** config_to_c.py 46-57, one file: [config["master"]] raises when there is no such key. *)
Definition generate_one (y : yaml) : option (list op) :=
  match y with
  | YMap l =>
      match lookup master l with
      | None => None
      | Some v => option_map fst (init_code None (parse_tree config_name (YMap [(master, v)])) 0)
      end
  | _ => None
  end.

(** Decidable equality of lists of calls (the comparison of two texts in config_to_c.py 61). *)
Definition same_code (a b : list op) : {a = b} + {a <> b}.
Proof.
  apply list_eq_dec. assert (S : forall x y : str, {x = y} + {x <> y}) by (apply list_eq_dec, Z.eq_dec).
  assert (O : forall x y : option Z, {x = y} + {x <> y}) by (decide equality; apply Z.eq_dec).
  assert (N : forall x y : option nat, {x = y} + {x <> y}) by (decide equality; apply Nat.eq_dec).
  assert (B : forall x y : option bool, {x = y} + {x <> y}) by (decide equality; apply bool_dec).
  assert (T : forall x y : option str, {x = y} + {x <> y}) by (decide equality).
  assert (D : forall x y : decl, {x = y} + {x <> y}) by (intros x y; decide equality; apply bool_dec).
  assert (A : forall x y : arg, {x = y} + {x <> y}).
  { intros x y. decide equality; try apply bool_dec; try apply Nat.eq_dec; apply Z.eq_dec. }
  assert (K : forall x y : kind, {x = y} + {x <> y}) by (intros x y; decide equality; apply Nat.eq_dec).
  intros x y. decide equality; apply Nat.eq_dec.
Defined.

(** config_to_c.py 44-64: the code of every file must be that of the first one. The code is compared as the list
    of calls. (The text also has the struct, which depends on the same names and types.) *)
Fixpoint same_as (code : list op) (files : list yaml) : option (list op) :=
  match files with
  | [] => Some code
  | y :: files =>
      match generate_one y with
      | None => None
      | Some c => if same_code c code then same_as code files else None
      end
  end.
Definition generate (files : list yaml) : option (list op) :=
  match files with
  | [] => None
  | y :: files => match generate_one y with None => None | Some code => same_as code files end
  end.

(** ** config.c *)

(** The copy of namespace [n] made by memcpy: a new object. *)
Definition copy_ns (h : heap) (n : nat) : res heap :=
  match nth_error (nss h) n with
  | None => BAD
  | Some x => OK (mkheap (nss h ++ [x]) (pars h))
  end.

(** config.c 13-21: the heap, and the numbers of global_config, master_config and actuator_config. [config.ns]
    is the first namespace declared and [config.master.ns] the second one. *)
Definition config_init (code : list op) : res (heap * (nat * nat * nat)) :=
  try h := run code in
  let g := length (nss h) in
  try h := copy_ns h 0 in
  try h := copy_ns h 1 in
  try h := namespace_declare h (Some g) actuator in
  OK (h, (g, S g, S (S g))).

(** config.c 23-34. An error is fatal: ERROR exits (master-firmware/src/debug/log.c), here [None]. *)
Definition config_get_param (h : heap) (g : nat) (id : str) : res (option nat) := parameter_find h g id.
(** config.c 36-49. *)
Definition config_get (h : heap) (g : nat) (id : str) (k : kind) : res (option (heap * got)) :=
  try r := config_get_param h g id in
  match r with
  | None => OK None
  | Some p => try x := parameter_get h p k in OK (Some x)
  end.
