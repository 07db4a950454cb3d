(** Specification of everything the loader of parameters accepts: the documents of PmsgSpec, and those with
    entries for unknown parameters, numbers of other types, and identifiers that are paths. *)
From Coq Require Import ZArith List Bool Arith.
From Verif Require Import CBase Buf CmpModel CmpSpec ParamModel ParamSpec PmsgSpec.
Import ListNotations.
Local Open Scope Z_scope.

(** One MessagePack value that holds no other: nil, a boolean, a float, a double or an integer. *)
Inductive scalar : list Z -> Prop :=
| sc_nil : scalar [0xC0]
| sc_bool (b : bool) : scalar [if b then 0xC3 else 0xC2]
| sc_float x : 0 <= x < 2 ^ 32 -> scalar (0xCA :: be 4 x)
| sc_double x : 0 <= x < 2 ^ 64 -> scalar (0xCB :: be 8 x)
| sc_int v bs : int_encoding v bs -> scalar bs.

Section Load.
(** The size of the buffer of the port, and the conversion of an integer to a float. *)
Variable cap : Z.
Variable i2f : Z -> Z.

(** A number for a float: a 32 bit float, or an integer of any format that fits in 64 signed bits. *)
Inductive number : Z -> list Z -> Prop :=
| nu_float x : 0 <= x < 2 ^ 32 -> number x (0xCA :: be 4 x)
| nu_int v bs : int_encoding v bs -> - 2 ^ 63 <= v < 2 ^ 63 -> number (i2f v) bs.

(** The value [bs] is an assignment [a] for a parameter declared with [d]. *)
Inductive accepted : decl -> arg -> list Z -> Prop :=
| ac_scalar o x bs : number x bs -> accepted (DScalar o) (AScalar x) bs
| ac_int o i bs : int_encoding i bs -> (length bs <= 5)%nat -> - 2 ^ 31 <= i < 2 ^ 31 -> accepted (DInt o) (AInt i) bs
| ac_bool o b : accepted (DBool o) (ABool b) [if b : bool then 0xC3 else 0xC2]
| ac_str buf o s hd : (length s < length buf)%nat -> str_header (blen s) hd ->
    accepted (DStr buf o) (AStr s (length s)) (hd ++ s)
| ac_vec buf o l hd els : length l = length buf -> array_header (blen l) hd -> Forall2 number l els ->
    accepted (DVec buf o) (AVec l) (hd ++ concat els)
| ac_var buf o l hd els : (length l <= length buf)%nat -> array_header (blen l) hd -> Forall2 number l els ->
    accepted (DVar buf o) (AVar l (length l)) (hd ++ concat els).

Variable hist : list op.
(** The identifier [id], looked up from namespace [n], is the path of parameter [p]. *)
Definition means (n : nat) (id : str) (p : nat) : Prop :=
  exists comps last, components id (comps ++ [last]) /\ names hist n comps last p.

(** [loads nul n k sets bs]: [bs] are [k] entries, which make the assignments [sets] in that order. An entry is
    - the path of a parameter and a value for it,
    - the path of a parameter, and a scalar that is no value for it: skipped,
    - an identifier that is the path of no parameter, and a scalar: skipped,
    - the path of a namespace and a map of entries.
    With [nul], identifiers of skipped entries may hold null characters. *)
Inductive loads (nul : bool) : nat -> nat -> list (nat * arg) -> list Z -> Prop :=
| lo_end n : loads nul n 0 [] []
| lo_set n k id hd p m pid d a vb sets bs :
    str_header (blen id) hd -> blen id < cap -> means n id p -> nth_error (par_decls hist) p = Some (m, pid, d) ->
    accepted d a vb -> loads nul n k sets bs ->
    loads nul n (S k) ((p, a) :: sets) (hd ++ id ++ vb ++ bs)
| lo_misfit n k id hd p m pid d vb sets bs :
    str_header (blen id) hd -> blen id < cap -> means n id p -> nth_error (par_decls hist) p = Some (m, pid, d) ->
    scalar vb -> (forall a, ~ accepted d a vb) -> loads nul n k sets bs ->
    loads nul n (S k) sets (hd ++ id ++ vb ++ bs)
| lo_unknown n k id hd vb sets bs :
    str_header (blen id) hd -> blen id < cap -> (forall p, ~ means n id p) -> (nul = false -> ~ In 0 id) ->
    scalar vb -> loads nul n k sets bs ->
    loads nul n (S k) sets (hd ++ id ++ vb ++ bs)
| lo_child n k id hd comps m k' mb inner bs' sets bs :
    str_header (blen id) hd -> blen id < cap -> components id comps -> leads (ns_decls hist) n comps m ->
    map_header (Z.of_nat k') mb -> loads nul m k' inner bs' -> loads nul n k sets bs ->
    loads nul n (S k) (inner ++ sets) (hd ++ id ++ mb ++ bs' ++ bs).

(** A whole configuration for the tree of [n]. *)
Definition loadable (nul : bool) (n : nat) (sets : list (nat * arg)) (bs : list Z) : Prop :=
  exists k hd es, map_header (Z.of_nat k) hd /\ loads nul n k sets es /\ bs = hd ++ es.
End Load.

(** The buffers of the parameters fit in the buffer of the port. *)
Definition values_fit (cap : Z) (hist : list op) : Prop :=
  Forall (fun x => match snd x with
                   | DVec b _ | DVar b _ => blen b * 4 <= cap /\ blen b * 4 < 2 ^ 32
                   | DStr b _ => blen b <= cap /\ blen b < 2 ^ 32
                   | _ => True
                   end) (par_decls hist).

(** The entry of a defined parameter in a saved tree: its identifier and its value. *)
Definition saved_entry (hist : list op) (p : nat) (a : arg) (bs : list Z) : Prop :=
  exists m id d hd vb, nth_error (par_decls hist) p = Some (m, id, d) /\
    str_header (blen id) hd /\ encodes d a vb /\ bs = hd ++ id ++ vb.

(** The identifiers and the strings are shorter than [room], with their headers. *)
Definition writable (room : Z) (hist : list op) : Prop :=
  8 <= room /\
  Forall (fun x => blen (snd x) + 8 <= room) (ns_decls hist) /\
  Forall (fun x => blen (snd (fst x)) + 8 <= room /\
            match snd x with
            | DStr b _ => blen b + 8 <= room
            | DVec b _ | DVar b _ => blen b < 2 ^ 32
            | _ => True
            end) (par_decls hist).
