(** Specification of the upload of a configuration: paths in the file and parameters of the boards. *)
From Coq Require Import ZArith List Bool.
From Verif Require Import CBase Buf ParamModel ParamSpec UplModel.
Import ListNotations.
Local Open Scope Z_scope.

(** Following the keys [path] in the file leads to the value [v]. *)
Inductive value_at : yaml -> list str -> pyval -> Prop :=
| at_leaf v : value_at (Leaf v) [] v
| at_key items k c path v : In (k, c) items -> value_at c path v -> value_at (Dict items) (k :: path) v.

(** "/control/position/kp" *)
Definition url (path : list str) : str := concat (map (fun k => slash :: k) path).

(** Usable as part of a path. *)
Definition key_ok (k : str) : Prop := k <> [] /\ ~ In slash k /\ ~ In 0 k.
(** The keys are usable, and different at each place. *)
Inductive tidy : yaml -> Prop :=
| tidy_leaf v : tidy (Leaf v)
| tidy_dict items : NoDup (map fst items) -> (forall k c, In (k, c) items -> key_ok k /\ tidy c) -> tidy (Dict items).

(** [p] is the parameter at [path] of a board. *)
Definition param_at (hist : list op) (path : list str) (p : nat) : Prop :=
  exists comps last, path = comps ++ [last] /\ names hist 0 comps last p.

(** The value of the file has the type of the parameter, and is in its range. *)
Inductive fits : decl -> pyval -> Prop :=
| fits_scalar o x : fits (DScalar o) (PyFloat x)
| fits_int o i : - 2 ^ 31 < i < 2 ^ 31 - 1 -> fits (DInt o) (PyInt i)
| fits_bool o b : fits (DBool o) (PyBool b).

(** What the firmware reads when the parameter has this value. *)
Definition has_value (h : heap) (p : nat) (v : pyval) : Prop :=
  match v with
  | PyBool b => parameter_read h p KBool = OK (GBool b)
  | PyInt i => parameter_read h p KInt = OK (GInt i)
  | PyFloat x => parameter_read h p KScalar = OK (GScalar x)
  | PyOther => False
  end.

(** A board on which the declarations and assignments [hist] were made. *)
Definition is_board (net : network) (b : str) (hist : list op) (h : heap) : Prop :=
  board b net = Some h /\ run hist = OK h /\ ids_ok hist /\ (0 < length (ns_decls hist))%nat.
