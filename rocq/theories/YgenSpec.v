(** Specification of the configuration tree: the entries of a YAML file, by their path. *)
From Coq Require Import ZArith List Bool Arith.
From Verif Require Import CBase Buf CmpModel CmpSpec ParamModel ParamSpec YgenModel.
Import ListNotations.
Local Open Scope Z_scope.

Definition is_map (y : yaml) : Prop := match y with YMap _ => True | _ => False end.

(** [entry y path v]: in file [y], the value at [path] is [v], which is not a dictionary. *)
Inductive entry : yaml -> list str -> yaml -> Prop :=
| entry_here l k v : In (k, v) l -> ~ is_map v -> entry (YMap l) [k] v
| entry_in l k y path v : In (k, y) l -> entry y path v -> entry (YMap l) (k :: path) v.

(** Keys usable in paths: not empty, without slash or null byte. *)
Definition good_key (k : str) : Prop := k <> [] /\ ~ In slash k /\ ~ In 0 k.

(** A file made of non-empty dictionaries with distinct good keys and of values of the four types. *)
Inductive good : yaml -> Prop :=
| good_bool b : good (YBool b)
| good_int i : good (YInt i)
| good_float x : good (YFloat x)
| good_str s : good (YStr s)
| good_map l : l <> [] -> NoDup (map fst l) -> Forall (fun kv => good_key (fst kv) /\ good (snd kv)) l -> good (YMap l).

(** The type of the parameter for a value of the file. *)
Definition typed (v : yaml) (d : decl) : Prop :=
  match v, d with
  | YBool _, DBool None | YInt _, DInt None | YFloat _, DScalar None => True
  | YStr _, DStr buf None => length buf = 16%nat
  | _, _ => False
  end.

(** The values that can be sent: integers of 32 bits, floats by their bits, strings of at most 15 bytes. *)
Definition sendable (v : yaml) : Prop :=
  match v with
  | YBool _ => True
  | YInt i => - 2 ^ 31 <= i < 2 ^ 31
  | YFloat x => 0 <= x < 2 ^ 32
  | YStr s => (length s < 16)%nat
  | _ => False
  end.

(** What a read of a parameter must give for a value of the file; strings are read in a buffer of [n] bytes. *)
Definition reads_as (v : yaml) (k : kind) (g : got) : Prop :=
  match v, k with
  | YBool b, KBool => g = GBool b
  | YInt i, KInt => g = GInt i
  | YFloat x, KScalar => g = GScalar x
  | YStr s, KStr n => (length s < n)%nat /\ g = GStr (s ++ [0]) (length s)
  | _, _ => False
  end.

(** [packed y bs]: [bs] is a MessagePack document for [y] (floats in single precision, integers in at most five
    bytes). *)
Inductive packed : yaml -> list Z -> Prop :=
| pk_bool b : packed (YBool b) [if b : bool then 0xC3 else 0xC2]
| pk_int i bs : int_encoding i bs -> (length bs <= 5)%nat -> packed (YInt i) bs
| pk_float x : packed (YFloat x) (0xCA :: be 4 x)
| pk_str s hd : str_header (blen s) hd -> packed (YStr s) (hd ++ s)
| pk_map l hd es : map_header (Z.of_nat (length l)) hd -> packed_entries l es -> packed (YMap l) (hd ++ es)
with packed_entries : list (str * yaml) -> list Z -> Prop :=
| pe_nil : packed_entries [] []
| pe_cons k v l hd vb es : str_header (blen k) hd -> packed v vb -> packed_entries l es ->
    packed_entries ((k, v) :: l) (hd ++ k ++ vb ++ es).

(** The entries of the section [master] of a file. *)
Definition master_entry (y : yaml) (path : list str) (v : yaml) : Prop :=
  entry y path v /\ exists p, path = master :: p.
(** A file: a dictionary, with a good section [master]; the other sections can be anything. *)
Definition file_ok (y : yaml) : Prop :=
  exists l m, y = YMap l /\ NoDup (map fst l) /\ In (master, m) l /\ good m.
(** The document with the section [master] only. *)
Definition master_document (y : yaml) (bs : list Z) : Prop :=
  exists l m, y = YMap l /\ In (master, m) l /\ packed (YMap [(master, m)]) bs.

Definition same_type (v w : yaml) : Prop :=
  match v, w with
  | YBool _, YBool _ | YInt _, YInt _ | YFloat _, YFloat _ | YStr _, YStr _ => True
  | _, _ => False
  end.

(** Uses of the tree: anything but declarations; [run_from h ops] is the state after them. *)
Definition usage (o : op) : Prop := match o with OSet _ _ | OGet _ _ | ORead _ _ => True | _ => False end.
Definition run_from (h : heap) (ops : list op) : res heap :=
  fold_left (fun r o => try h := r in run_op h o) ops (OK h).
(** A file whose section [master] is a dictionary. *)
Definition config_ok (y : yaml) : Prop :=
  exists l lm, y = YMap l /\ NoDup (map fst l) /\ In (master, YMap lm) l /\ good (YMap lm).
