(** Model of the parameter tree lib/parameter/parameter.c, of the enumeration of parameters
    uwb-beacon-firmware/src/uavcan/parameter_enumeration.cpp and of the remote parameter servers
    {uwb-beacon-firmware,motor-control-firmware}/src/uavcan/parameter_server.cpp.

    Namespaces and parameters are numbered in the order of their declaration: a number stands for the
    address of the C object. Every declaration is of a fresh object (declaring the same object twice is not
    modelled). The linked lists [subspaces] and [parameter_list] are lists of such numbers, head first.
    Identifiers are C strings, given without their terminating null byte. *)
From Coq Require Import ZArith List Bool Arith.
From Verif Require Import CBase Buf.
Import ListNotations.
Local Open Scope Z_scope.

(** Outcome of a call: a result, a failed assertion (parameter_port_assert), or an access outside of an
    object. *)
Inductive res (A : Type) : Type :=
| OK (a : A)
| ASSERT
| BAD.
Arguments OK {A} a.
Arguments ASSERT {A}.
Arguments BAD {A}.
Definition rbind {A B} (r : res A) (f : A -> res B) : res B :=
  match r with OK a => f a | ASSERT => ASSERT | BAD => BAD end.
Notation "'try' x := m 'in' f" := (rbind m (fun x => f)) (at level 200, x pattern, m at level 100, f at level 200).

Definition str := list Z.
Definition slash : Z := 47.

(** parameter.h 38-43 and 53-60: type tag and value. Scalars are float bit patterns. [VVec buf] has
    dimension [length buf]; [VVar buf dim] and [VStr buf len] use the first elements of their buffer. *)
Inductive value :=
| VScalar (x : Z)
| VBool (b : bool)
| VInt (i : Z)
| VStr (buf : list Z) (len : nat)
| VVec (buf : list Z)
| VVar (buf : list Z) (dim : nat).

(** parameter.h 11-18 ([next] is folded into the list of the parent). *)
Record ns := mkns { nid : str; ncnt : Z; nparent : option nat; nsubs : list nat; nparams : list nat }.
(** parameter.h 46-61. *)
Record par := mkpar { pid : str; pns : nat; pchanged : bool; pdefined : bool; pval : value }.
(** All the objects declared so far. *)
Record heap := mkheap { nss : list ns; pars : list par }.

Definition empty : heap := mkheap [] [].

Fixpoint upd {A} (l : list A) (i : nat) (f : A -> A) : list A :=
  match l, i with
  | [], _ => []
  | x :: l, O => f x :: l
  | x :: l, S i => x :: upd l i f
  end.
Definition upd_ns (h : heap) (n : nat) (f : ns -> ns) : heap := mkheap (upd (nss h) n f) (pars h).
Definition upd_par (h : heap) (p : nat) (f : par -> par) : heap := mkheap (nss h) (upd (pars h) p f).

(** ** Declarations *)

(** parameter.c 87-105. *)
Definition namespace_declare (h : heap) (parent : option nat) (id : str) : res heap :=
  let n := length (nss h) in
  let new := mkns id 0 parent [] [] in
  match parent with
  | None => OK (mkheap (nss h ++ [new]) (pars h))
  | Some m =>
      if (m <? n)%nat then
        OK (mkheap (upd (nss h) m (fun x => mkns (nid x) (ncnt x) (nparent x) (n :: nsubs x) (nparams x)) ++ [new]) (pars h))
      else BAD
  end.

(** parameter.c 150-161. [v] is what the caller has put in the value before. *)
Definition declare (h : heap) (m : nat) (id : str) (v : value) : res heap :=
  if (m <? length (nss h))%nat then
    let p := length (pars h) in
    OK (mkheap (upd (nss h) m (fun x => mkns (nid x) (ncnt x) (nparent x) (nsubs x) (p :: nparams x)))
               (pars h ++ [mkpar id m false false v]))
  else BAD.

(** The namespace [n] and its ancestors, following [parent] (the loops of parameter.c 201-207 and
    222-228). A parent is declared before its children, so its number is smaller: [S n] steps are enough. *)
Fixpoint chain_fuel (fuel : nat) (l : list ns) (n : nat) : list nat :=
  match fuel with
  | O => []
  | S fuel =>
      match nth_error l n with
      | Some x => n :: match nparent x with Some m => chain_fuel fuel l m | None => [] end
      | None => []
      end
  end.
Definition chain (h : heap) (n : nat) : list nat := chain_fuel (S n) (nss h) n.

(** parameter.c 203-205 and 224-226. *)
Definition inc (h : heap) (n : nat) : heap :=
  upd_ns h n (fun x => mkns (nid x) (s32 (ncnt x + 1)) (nparent x) (nsubs x) (nparams x)).
Definition dec (h : heap) (n : nat) : heap :=
  upd_ns h n (fun x => mkns (nid x) (s32 (ncnt x - 1)) (nparent x) (nsubs x) (nparams x)).
Definition set_changed (h : heap) (p : nat) (b : bool) : heap :=
  upd_par h p (fun x => mkpar (pid x) (pns x) b (pdefined x) (pval x)).
Definition set_defined (h : heap) (p : nat) : heap :=
  upd_par h p (fun x => mkpar (pid x) (pns x) (pchanged x) true (pval x)).
Definition set_value (h : heap) (p : nat) (v : value) : heap :=
  upd_par h p (fun x => mkpar (pid x) (pns x) (pchanged x) (pdefined x) v).

(** parameter.c 190-209, when no other thread interferes. *)
Definition changed_set (h : heap) (p : nat) : res heap :=
  match nth_error (pars h) p with
  | None => BAD
  | Some x =>
      let h1 := set_changed h p true in
      if pchanged x then OK h1
      else OK (set_defined (fold_left inc (chain h1 (pns x)) h1) p)
  end.

(** parameter.c 211-229, when no other thread interferes. *)
Definition changed_clear (h : heap) (p : nat) : res heap :=
  match nth_error (pars h) p with
  | None => BAD
  | Some x =>
      let h1 := set_changed h p false in
      if pchanged x then OK (fold_left dec (chain h1 (pns x)) h1) else OK h1
  end.

(** parameter.c 163-169: the signed counter is copied to an unsigned variable. *)
Definition namespace_contains_changed (h : heap) (n : nat) : res bool :=
  match nth_error (nss h) n with Some x => OK (0 <? u32 (ncnt x)) | None => BAD end.
(** parameter.c 171-177 and 179-188 (not on a null pointer). *)
Definition parameter_changed (h : heap) (p : nat) : res bool :=
  match nth_error (pars h) p with Some x => OK (pchanged x) | None => BAD end.
Definition parameter_defined (h : heap) (p : nat) : res bool :=
  match nth_error (pars h) p with Some x => OK (pdefined x) | None => BAD end.

(** ** Typed declarations, reads and writes *)

(** Which of the declare functions is called, with which default value if any. *)
Inductive decl :=
| DScalar (d : option Z)
| DInt (d : option Z)
| DBool (d : option bool)
| DVec (buf : list Z) (default : bool)
| DVar (buf : list Z) (init : option nat)
| DStr (buf : list Z) (d : option str).

(** Initial contents: parameter.c 235-250, 281-296, 325-340, 372-388, 430-453, 499-523. Without default the
    value is that of zeroed memory; reads of it are stopped by the assertion on [defined]. The default
    string is cut at the size of the buffer or padded with zeros (strncpy). *)
Definition decl_value (d : decl) : res (value * bool) :=
  match d with
  | DScalar None => OK (VScalar 0, false)
  | DScalar (Some x) => OK (VScalar x, true)
  | DInt None => OK (VInt 0, false)
  | DInt (Some x) => OK (VInt x, true)
  | DBool None => OK (VBool false, false)
  | DBool (Some b) => OK (VBool b, true)
  | DVec buf b => OK (VVec buf, b)
  | DVar buf None => OK (VVar buf 0, false)
  | DVar buf (Some k) => if (k <=? length buf)%nat then OK (VVar buf k, true) else ASSERT
  | DStr buf None => OK (VStr buf 0, false)
  | DStr buf (Some s) =>
      if (length s <=? length buf)%nat
      then OK (VStr (s ++ repeat 0 (length buf - length s)) (length s), true) else ASSERT
  end.

(** The parameter_*_declare and parameter_*_declare_with_default functions. *)
Definition parameter_declare (h : heap) (m : nat) (id : str) (d : decl) : res heap :=
  try (v, dflt) := decl_value d in
  try h := declare h m id v in
  if dflt : bool then changed_set h (length (pars h) - 1) else OK h.

(** Which of the set functions is called, with which arguments. *)
Inductive arg :=
| AScalar (x : Z)
| AInt (i : Z)
| ABool (b : bool)
| AVec (l : list Z)
| AVar (l : list Z) (dim : nat)
| AStr (s : list Z) (len : nat).

(** The critical sections of parameter.c 268-273, 314-319, 342-348, 414-422, 481-491, 559-566. *)
Definition store (v : value) (a : arg) : res value :=
  match v, a with
  | VScalar _, AScalar x => OK (VScalar x)
  | VInt _, AInt i => OK (VInt i)
  | VBool _, ABool b => OK (VBool b)
  | VVec buf, AVec l =>
      if (length buf <=? length l)%nat then OK (VVec (firstn (length buf) l)) else BAD
  | VVar buf _, AVar l k =>
      if negb (k <=? length buf)%nat then ASSERT
      else if (k <=? length l)%nat then OK (VVar (firstn k l ++ skipn k buf) k) else BAD
  | VStr buf _, AStr s k =>
      if negb (k <=? length buf)%nat then ASSERT
      else if (k <=? length s)%nat then OK (VStr (firstn k s ++ skipn k buf) k) else BAD
  | _, _ => ASSERT
  end.

Definition store_at (h : heap) (p : nat) (a : arg) : res heap :=
  match nth_error (pars h) p with
  | None => BAD
  | Some x => try v := store (pval x) a in OK (set_value h p v)
  end.

(** parameter.c 268-275, 314-321, 342-350, 414-424, 481-493, 554-568. *)
Definition parameter_set (h : heap) (p : nat) (a : arg) : res heap :=
  try h := store_at h p a in changed_set h p.

(** Which of the read functions is called; for strings with the size of the output buffer. *)
Inductive kind := KScalar | KInt | KBool | KVec | KVar | KStr (out_size : nat).
(** What it returns: value, elements, or bytes put in the output buffer and length returned. *)
Inductive got :=
| GScalar (x : Z) | GInt (i : Z) | GBool (b : bool) | GVec (l : list Z) | GVar (l : list Z)
| GStr (out : list Z) (len : nat).

(** parameter.c 258-266, 304-312, 358-366, 402-412, 467-479, 537-552. *)
Definition load (x : par) (k : kind) : res got :=
  let guard (r : res got) := if pdefined x then r else ASSERT in
  match pval x, k with
  | VScalar x, KScalar => guard (OK (GScalar x))
  | VInt i, KInt => guard (OK (GInt i))
  | VBool b, KBool => guard (OK (GBool b))
  | VVec buf, KVec => guard (OK (GVec buf))
  | VVar buf dim, KVar => guard (OK (GVar (firstn dim buf)))
  | VStr buf len, KStr n =>
      guard (if (len <? n)%nat then OK (GStr (firstn len buf ++ [0]) len)
             else match n with
                  | O => BAD
                  | S n => OK (GStr (firstn n buf ++ [0]) len)
                  end)
  | _, _ => ASSERT
  end.

Definition parameter_read (h : heap) (p : nat) (k : kind) : res got :=
  match nth_error (pars h) p with None => BAD | Some x => load x k end.
(** parameter.c 252-256, 298-302, 352-356, 396-400, 461-465, 531-535. *)
Definition parameter_get (h : heap) (p : nat) (k : kind) : res (heap * got) :=
  try h := changed_clear h p in
  try g := parameter_read h p k in OK (h, g).

(** ** Histories of calls *)
Inductive op :=
| ODeclNs (parent : option nat) (id : str)
| ODecl (m : nat) (id : str) (d : decl)
| OSet (p : nat) (a : arg)
| OGet (p : nat) (k : kind)
| ORead (p : nat) (k : kind).

Definition run_op (h : heap) (o : op) : res heap :=
  match o with
  | ODeclNs parent id => namespace_declare h parent id
  | ODecl m id d => parameter_declare h m id d
  | OSet p a => parameter_set h p a
  | OGet p k => try (h, _) := parameter_get h p k in OK h
  | ORead p k => try _ := parameter_read h p k in OK h
  end.
Definition run (ops : list op) : res heap :=
  fold_left (fun r o => try h := r in run_op h o) ops (OK empty).

(** ** Lookup by path *)

(** parameter.c 30-39: the part of [id] before the first slash, and what follows that slash. *)
Fixpoint id_split (id : str) : str * option str :=
  match id with
  | [] => ([], None)
  | c :: r => if c =? slash then ([], Some r) else let (a, b) := id_split r in (c :: a, b)
  end.

(** [strncmp(s, id, strlen(s)) == 0 && id[len] == 0] (parameter.c 55 and 77), where [s] is given with an
    explicit length and may contain null bytes, and [id] is a C string of exactly [length id + 1] bytes.
    [BAD]: the byte tested after strncmp is outside of [id]. *)
Fixpoint name_matches (s id : str) : res bool :=
  match s, id with
  | [], [] => OK true
  | [], c :: _ => OK (c =? 0)
  | c :: _, [] => if c =? 0 then BAD else OK false
  | c :: s, d :: id => if c =? d then name_matches s id else OK false
  end.

Fixpoint find_first (names : nat -> option str) (l : list nat) (s : str) : res (option nat) :=
  match l with
  | [] => OK None
  | i :: l =>
      match names i with
      | None => BAD
      | Some id => try b := name_matches s id in if b : bool then OK (Some i) else find_first names l s
      end
  end.

(** parameter.c 44-63. *)
Definition get_subnamespace (h : heap) (n : nat) (s : str) : res (option nat) :=
  match s, nth_error (nss h) n with
  | _, None => BAD
  | [], _ => OK (Some n)
  | _, Some x => find_first (fun i => option_map nid (nth_error (nss h) i)) (nsubs x) s
  end.
(** parameter.c 68-85. *)
Definition get_parameter (h : heap) (n : nat) (s : str) : res (option nat) :=
  match s, nth_error (nss h) n with
  | _, None => BAD
  | [], _ => OK None
  | _, Some x => find_first (fun i => option_map pid (nth_error (pars h) i)) (nparams x) s
  end.

(** parameter.c 107-119; the loop consumes at least one character each time. *)
Fixpoint namespace_find_loop (fuel : nat) (h : heap) (n : nat) (id : str) : res (option nat) :=
  match id with
  | [] => OK (Some n)
  | _ =>
      match fuel with
      | O => BAD
      | S fuel =>
          let (s, rest) := id_split id in
          try r := get_subnamespace h n s in
          match r, rest with
          | None, _ => OK None
          | Some m, None => OK (Some m)
          | Some m, Some rest => namespace_find_loop fuel h m rest
          end
      end
  end.
Definition namespace_find (h : heap) (n : nat) (id : str) : res (option nat) :=
  namespace_find_loop (S (length id)) h n id.

(** parameter.c 127-143 and 145-148. *)
Fixpoint parameter_find_loop (fuel : nat) (h : heap) (n : nat) (id : str) : res (option nat) :=
  match fuel with
  | O => BAD
  | S fuel =>
      let (s, rest) := id_split id in
      match rest with
      | Some rest =>
          try r := get_subnamespace h n s in
          match r with None => OK None | Some m => parameter_find_loop fuel h m rest end
      | None => get_parameter h n s
      end
  end.
Definition parameter_find (h : heap) (n : nat) (id : str) : res (option nat) :=
  parameter_find_loop (S (length id)) h n id.

(** ** Enumeration *)

(** parameter_enumeration.cpp 3-28: the parameter found, or the updated counter. The recursion goes from a
    namespace to its children, which have larger numbers: [length (nss h)] levels are enough. *)
Fixpoint by_index_params (l : list nat) (wanted cur : Z) : nat + Z :=
  match l with
  | [] => inr cur
  | p :: l => if cur =? wanted then inl p else by_index_params l wanted (cur + 1)
  end.
Fixpoint by_index (fuel : nat) (h : heap) (n : nat) (wanted cur : Z) : res (nat + Z) :=
  match fuel with
  | O => BAD
  | S fuel =>
      match nth_error (nss h) n with
      | None => BAD
      | Some x =>
          match by_index_params (nparams x) wanted cur with
          | inl p => OK (inl p)
          | inr cur =>
              (fix subs (l : list nat) (cur : Z) : res (nat + Z) :=
                 match l with
                 | [] => OK (inr cur)
                 | m :: l =>
                     try r := by_index fuel h m wanted cur in
                     match r with inl p => OK (inl p) | inr cur => subs l cur end
                 end) (nsubs x) cur
          end
      end
  end.
(** parameter_enumeration.cpp 30-34. *)
Definition find_by_index (h : heap) (root : nat) (index : Z) : res (option nat) :=
  try r := by_index (S (length (nss h))) h root index 0 in
  match r with inl p => OK (Some p) | inr _ => OK None end.

(** parameter_enumeration.cpp 36-47. *)
Definition tree_height (h : heap) (p : nat) : res Z :=
  match nth_error (pars h) p with
  | None => BAD
  | Some x => OK (Z.of_nat (length (chain h (pns x))))
  end.

(** [k] times [ns = ns->parent]. *)
Fixpoint up (h : heap) (n : nat) (k : nat) : res nat :=
  match k with
  | O => OK n
  | S k => match nth_error (nss h) n with
           | Some x => match nparent x with Some m => up h m k | None => BAD end
           | None => BAD
           end
  end.
(** uwb-beacon-firmware parameter_server.cpp 14-24: the loop over the heights [height], [height - 1], ..., 2. *)
Fixpoint full_name_loop (h : heap) (n : nat) (height : nat) (name : str) : res str :=
  match height with
  | O => OK name
  | S height' =>
      match height' with
      | O => OK name
      | S k =>
          try m := up h n k in
          match nth_error (nss h) m with
          | None => BAD
          | Some x => full_name_loop h n height' (name ++ nid x ++ [slash])
          end
      end
  end.
(** uwb-beacon-firmware parameter_server.cpp 9-27. The capacity of [Name] (92 characters) is not modelled. *)
Definition full_name (h : heap) (p : nat) : res str :=
  match nth_error (pars h) p with
  | None => BAD
  | Some x =>
      try k := tree_height h p in
      try s := full_name_loop h (pns x) (Z.to_nat k) [slash] in
      OK (s ++ pid x)
  end.

(** ** Remote access *)

(** The tagged union uavcan::protocol::param::Value. *)
Inductive rvalue :=
| REmpty | RInteger (i : Z) | RReal (bits : Z) | RBoolean (b : bool) | RString (s : str).

(** parameter_server.cpp (uwb) 45-75, (motor) 72-103. [val->c_str()] of a string ends at its first null
    byte: [s] is given without any. *)
Definition assign_value (h : heap) (root : nat) (name : str) (v : rvalue) : res heap :=
  try r := parameter_find h root name in
  match r with
  | None => OK h
  | Some p =>
      match nth_error (pars h) p with
      | None => BAD
      | Some x =>
          match pval x, v with
          | VScalar _, RReal b => parameter_set h p (AScalar b)
          | VInt _, RInteger i =>
              if (- 2 ^ 31 <? i) && (i <? 2 ^ 31 - 1) then parameter_set h p (AInt i) else OK h
          | VBool _, RBoolean b => parameter_set h p (ABool b)
          | VStr _ _, RString s => parameter_set h p (AStr s (length s))
          | _, _ => OK h
          end
      end
  end.

(** The prefix of a character array up to its first null byte. *)
Fixpoint c_str (l : list Z) : str :=
  match l with [] => [] | c :: l => if c =? 0 then [] else c :: c_str l end.

(** parameter_server.cpp (uwb) 80-104, (motor) 108-132. [sizeof(p)] is the size of a pointer, 4. *)
Definition read_value (h : heap) (root : nat) (name : str) : res rvalue :=
  try r := parameter_find h root name in
  match r with
  | None => OK REmpty
  | Some p =>
      match nth_error (pars h) p with
      | None => BAD
      | Some x =>
          if negb (pdefined x) then OK REmpty
          else match pval x with
               | VScalar _ => try g := parameter_read h p KScalar in match g with GScalar b => OK (RReal b) | _ => BAD end
               | VInt _ => try g := parameter_read h p KInt in match g with GInt i => OK (RInteger i) | _ => BAD end
               | VBool _ => try g := parameter_read h p KBool in match g with GBool b => OK (RBoolean b) | _ => BAD end
               | VStr _ _ => try g := parameter_read h p (KStr 4) in
                             match g with GStr o _ => OK (RString (c_str o)) | _ => BAD end
               | _ => OK REmpty
               end
      end
  end.

(** ** Threads

    One step is one critical section, or one access outside of any. A thread is the list of the steps it
    still has to do. The parent pointers do not change once declared, so the chain of counters to update
    is computed when the flag has been changed. *)
Inductive act :=
| TStore (p : nat) (a : arg)      (* parameter.c 271-273 and the like *)
| TTestSet (p : nat)              (* 192-198 *)
| TInc (n : nat)                  (* 203-205 *)
| TDefined (p : nat)              (* 208 *)
| TTestClear (p : nat)            (* 213-219 *)
| TDec (n : nat)                  (* 224-226 *)
| TLoad (p : nat) (k : kind).     (* 260-265 and the like *)

(** parameter_*_set, parameter_*_get, parameter_*_read. *)
Definition prog_set (p : nat) (a : arg) : list act := [TStore p a; TTestSet p].
Definition prog_get (p : nat) (k : kind) : list act := [TTestClear p; TLoad p k].
Definition prog_read (p : nat) (k : kind) : list act := [TLoad p k].

(** One step: the new heap and the steps to do before the rest of the thread. *)
Definition act_step (h : heap) (a : act) : res (heap * list act) :=
  match a with
  | TStore p x => try h := store_at h p x in OK (h, [])
  | TTestSet p =>
      match nth_error (pars h) p with
      | None => BAD
      | Some x => let h1 := set_changed h p true in
                  OK (h1, if pchanged x then [] else map TInc (chain h1 (pns x)) ++ [TDefined p])
      end
  | TInc n => OK (inc h n, [])
  | TDefined p => OK (set_defined h p, [])
  | TTestClear p =>
      match nth_error (pars h) p with
      | None => BAD
      | Some x => let h1 := set_changed h p false in
                  OK (h1, if pchanged x then map TDec (chain h1 (pns x)) else [])
      end
  | TDec n => OK (dec h n, [])
  | TLoad p k => try _ := parameter_read h p k in OK (h, [])
  end.

Definition sys := (heap * list (list act))%type.
(** The scheduler lets thread [t] do one step (nothing happens if it is done). *)
Definition sys_step (s : sys) (t : nat) : res sys :=
  let (h, ths) := s in
  match nth_error ths t with
  | Some (a :: rest) =>
      try (h', more) := act_step h a in
      OK (h', upd ths t (fun _ => more ++ rest))
  | _ => OK (h, ths)
  end.
Definition sys_run (s : sys) (schedule : list nat) : res sys :=
  fold_left (fun r t => try s := r in sys_step s t) schedule (OK s).
