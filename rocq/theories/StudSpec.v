(** Specification of the parameter editor. *)
From Coq Require Import ZArith List Bool.
From Verif Require Import CBase Buf ParamModel ParamSpec StudModel.
Import ListNotations.
Local Open Scope Z_scope.

(** Types that can be sent over the bus. *)
Definition plain (d : decl) : Prop :=
  match d with DScalar _ | DInt _ | DBool _ | DStr _ _ => True | _ => False end.
(** The parameter has a value that can be sent over the bus. *)
Definition visible (hist : list op) (p : nat) : Prop :=
  exists m id d o, nth_error (par_decls hist) p = Some (m, id, d) /\ plain d /\ last_assignment hist p o.

(** [v] is what the firmware reads in parameter [p] (the first three characters of a text). *)
Definition shows (h : heap) (p : nat) (v : rvalue) : Prop :=
  match v with
  | RReal x => parameter_read h p KScalar = OK (GScalar x)
  | RInteger i => parameter_read h p KInt = OK (GInt i)
  | RBoolean b => parameter_read h p KBool = OK (GBool b)
  | RString s => exists o n, parameter_read h p (KStr 4) = OK (GStr o n) /\ s = c_str o
  | REmpty => False
  end.

(** A tree of parameters with usable names, in namespace 0 of a board. *)
Definition is_tree (hist : list op) (h : heap) : Prop :=
  run hist = OK h /\ ids_ok hist /\ ids_distinct hist /\ exists rid, nth_error (ns_decls hist) 0 = Some (None, rid).

(** Entry (name, v) is parameter [p] of the board. *)
Definition entry_of (h : heap) (p : nat) (e : str * rvalue) : Prop :=
  full_name h p = OK (fst e) /\ parameter_find h 0 (fst e) = OK (Some p) /\ shows h p (snd e).

(** One of the paths is the beginning of the other. *)
Definition nested_paths (a b : list str) : Prop := exists c, a = b ++ c \/ b = a ++ c.
