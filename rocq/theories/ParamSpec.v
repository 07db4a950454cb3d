(** Specification of the parameter tree, in terms of the history of calls only. *)
From Coq Require Import ZArith List Bool Arith.
From Verif Require Import CBase Buf ParamModel.
Import ListNotations.
Local Open Scope Z_scope.

(** Namespaces and parameters declared, in order. *)
Definition ns_decls (hist : list op) : list (option nat * str) :=
  flat_map (fun o => match o with ODeclNs m id => [(m, id)] | _ => [] end) hist.
Definition par_decls (hist : list op) : list (nat * str * decl) :=
  flat_map (fun o => match o with ODecl m id d => [(m, id, d)] | _ => [] end) hist.

Definition has_default (d : decl) : bool :=
  match d with
  | DScalar o => if o then true else false
  | DInt o => if o then true else false
  | DBool o => if o then true else false
  | DVec _ b => b
  | DVar _ o => if o then true else false
  | DStr _ o => if o then true else false
  end.

(** Call [o], made after [before], gives a value to parameter [p]. *)
Inductive assigns (before : list op) : op -> nat -> Prop :=
| as_set p a : assigns before (OSet p a) p
| as_default m id d : has_default d = true -> assigns before (ODecl m id d) (length (par_decls before)).

(** [p] was given a value since it was last got. *)
Definition unread (hist : list op) (p : nat) : Prop :=
  exists a o b, hist = a ++ o :: b /\ assigns a o p /\ forall k, ~ In (OGet p k) b.

(** [o] is the last call that gave a value to [p]. *)
Definition last_assignment (hist : list op) (p : nat) (o : op) : Prop :=
  exists a b, hist = a ++ o :: b /\ assigns a o p /\
    forall b1 o' b2, b = b1 ++ o' :: b2 -> ~ assigns (a ++ o :: b1) o' p.

(** Namespace [n] is [r] or inside [r], at any depth. *)
Inductive within (l : list (option nat * str)) : nat -> nat -> Prop :=
| within_self n : within l n n
| within_up n m id r : nth_error l n = Some (Some m, id) -> within l m r -> within l n r.

(** Parameter [p] belongs to the subtree of [r]. *)
Definition param_within (hist : list op) (p r : nat) : Prop :=
  exists m id d, nth_error (par_decls hist) p = Some (m, id, d) /\ within (ns_decls hist) m r.

(** Number of elements of a vector parameter. *)
Definition dim_of (hist : list op) (p : nat) : nat :=
  match nth_error (par_decls hist) p with Some (_, _, DVec buf _) => length buf | _ => O end.

(** What a read must return after assignment [o]; [None]: wrong type. [dim] is the dimension for vectors. *)
Definition text_out (s : list Z) (len n : nat) : got :=
  if (len <? n)%nat then GStr (firstn len s ++ [0]) len else GStr (firstn (n - 1) s ++ [0]) len.
Definition expected (dim : nat) (o : op) (k : kind) : option got :=
  match o, k with
  | OSet _ (AScalar x), KScalar | ODecl _ _ (DScalar (Some x)), KScalar => Some (GScalar x)
  | OSet _ (AInt i), KInt | ODecl _ _ (DInt (Some i)), KInt => Some (GInt i)
  | OSet _ (ABool b), KBool | ODecl _ _ (DBool (Some b)), KBool => Some (GBool b)
  | OSet _ (AVec l), KVec => Some (GVec (firstn dim l))
  | ODecl _ _ (DVec l _), KVec => Some (GVec l)
  | OSet _ (AVar l d), KVar | ODecl _ _ (DVar l (Some d)), KVar => Some (GVar (firstn d l))
  | OSet _ (AStr s len), KStr n => Some (text_out s len n)
  | ODecl _ _ (DStr _ (Some s)), KStr n => Some (text_out s (length s) n)
  | _, _ => None
  end.

(** Paths: components joined with slashes. *)
Fixpoint path_of (comps : list str) : str :=
  match comps with
  | [] => []
  | [s] => s
  | s :: comps => s ++ slash :: path_of comps
  end.
Definition components (path : str) (comps : list str) : Prop :=
  path = path_of comps /\ Forall (fun s => ~ In slash s) comps.

(** [i] is the largest (most recently declared) with property [P]. *)
Definition latest (P : nat -> Prop) (i : nat) : Prop := P i /\ forall j, P j -> (j <= i)%nat.

(** From namespace [n], [comps] leads to [m]. Empty components are skipped. *)
Inductive leads (l : list (option nat * str)) : nat -> list str -> nat -> Prop :=
| leads_end n : leads l n [] n
| leads_skip n comps m : leads l n comps m -> leads l n ([] :: comps) m
| leads_down n s c comps m :
    s <> [] -> latest (fun i => nth_error l i = Some (Some n, s)) c -> leads l c comps m -> leads l n (s :: comps) m.

(** [comps] then [last] is the path of [p] from [n]. *)
Definition names (hist : list op) (n : nat) (comps : list str) (last : str) (p : nat) : Prop :=
  last <> [] /\ exists m, leads (ns_decls hist) n comps m /\
    latest (fun i => exists d, nth_error (par_decls hist) i = Some (m, last, d)) p.

(** Identifiers are C strings. *)
Definition ids_ok (hist : list op) : Prop :=
  Forall (fun d => ~ In 0 (snd d)) (ns_decls hist) /\ Forall (fun d => ~ In 0 (snd (fst d))) (par_decls hist).

(** Names usable in paths: not empty, without slash, and different from the other names at the same place. *)
Definition ids_distinct (hist : list op) : Prop :=
  (forall i m id, nth_error (ns_decls hist) i = Some (Some m, id) -> id <> [] /\ ~ In slash id) /\
  (forall i m id d, nth_error (par_decls hist) i = Some (m, id, d) -> id <> [] /\ ~ In slash id) /\
  (forall i j m id, nth_error (ns_decls hist) i = Some (Some m, id) -> nth_error (ns_decls hist) j = Some (Some m, id) -> i = j) /\
  (forall i j m id d d', nth_error (par_decls hist) i = Some (m, id, d) -> nth_error (par_decls hist) j = Some (m, id, d') -> i = j).

(** Number of parameters in the subtree of [r] whose changed flag is set, by their list. *)
Definition flagged (h : heap) (r : nat) (l : list nat) : Prop :=
  NoDup l /\ forall p, In p l <-> exists x, nth_error (pars h) p = Some x /\ pchanged x = true /\
    within (map (fun n => (nparent n, nid n)) (nss h)) (pns x) r.

(** The assignment that a remote write of [v] to a parameter declared by [d] stands for, if the types match. *)
Definition remote_arg (d : decl) (v : rvalue) : option arg :=
  match d, v with
  | DScalar _, RReal b => Some (AScalar b)
  | DInt _, RInteger i => if (- 2 ^ 31 <=? i) && (i <=? 2 ^ 31 - 1) then Some (AInt i) else None
  | DBool _, RBoolean b => Some (ABool b)
  | DStr _ _, RString s => Some (AStr s (length s))
  | _, _ => None
  end.

(** The parameters of the subtree of [r] given a value since they were last got, by their list. *)
Definition changed_params (hist : list op) (r : nat) (l : list nat) : Prop :=
  NoDup l /\ forall p, In p l <-> unread hist p /\ param_within hist p r.

(** The two integers refused by the remote server. *)
Definition extreme (v : rvalue) : Prop := v = RInteger (- 2 ^ 31) \/ v = RInteger (2 ^ 31 - 1).

(** A thread about to make complete calls: none of its remaining steps is the middle of one. *)
Definition calls_only (l : list act) : Prop :=
  Forall (fun a => match a with TInc _ | TDec _ => False | _ => True end) l.

(** An uninterrupted run of the steps of a call is the call. *)
Fixpoint solo (h : heap) (fuel : nat) (l : list act) : res heap :=
  match l, fuel with
  | [], _ => OK h
  | _, O => BAD
  | a :: l, S fuel => try (h, more) := act_step h a in solo h fuel (more ++ l)
  end.
