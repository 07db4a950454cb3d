(** Specification of the MessagePack documents holding a parameter tree. *)
From Coq Require Import ZArith List Bool Arith.
From Verif Require Import CBase Buf CmpModel CmpSpec ParamModel ParamSpec.
Import ListNotations.
Local Open Scope Z_scope.

(** The bytes [bs] are the MessagePack value for the assignment [a] of a parameter declared with [d]: a 32 bit
    float, an integer of at most 32 bits, a boolean, a string that is shorter than the buffer, an array of
    floats of the right dimension. *)
Inductive encodes : decl -> arg -> list Z -> Prop :=
| en_scalar o x : 0 <= x < 2 ^ 32 -> encodes (DScalar o) (AScalar x) (0xCA :: be 4 x)
| en_int o i bs : int_encoding i bs -> (length bs <= 5)%nat -> - 2 ^ 31 <= i < 2 ^ 31 -> encodes (DInt o) (AInt i) bs
| en_bool o b : encodes (DBool o) (ABool b) [if b : bool then 0xC3 else 0xC2]
| en_str buf o s hd : (length s < length buf)%nat -> str_header (blen s) hd ->
    encodes (DStr buf o) (AStr s (length s)) (hd ++ s)
| en_vec buf o l hd : length l = length buf -> array_header (blen l) hd -> Forall (fun x => 0 <= x < 2 ^ 32) l ->
    encodes (DVec buf o) (AVec l) (hd ++ flat_map (fun x => 0xCA :: be 4 x) l)
| en_var buf o l hd : (length l <= length buf)%nat -> array_header (blen l) hd -> Forall (fun x => 0 <= x < 2 ^ 32) l ->
    encodes (DVar buf o) (AVar l (length l)) (hd ++ flat_map (fun x => 0xCA :: be 4 x) l).

(** [entries nl pl n k sets bs]: in a tree with namespaces [nl] and parameters [pl], [bs] are [k] entries of the
    map of namespace [n], which make the assignments [sets] in that order. An entry is the identifier of a
    parameter and its value, or the identifier of a child namespace and a map of entries. *)
Inductive entries (nl : list (option nat * str)) (pl : list (nat * str * decl)) :
  nat -> nat -> list (nat * arg) -> list Z -> Prop :=
| ent_end n : entries nl pl n 0 [] []
| ent_param n k p id d a hd vb sets bs :
    nth_error pl p = Some (n, id, d) -> str_header (blen id) hd -> encodes d a vb ->
    entries nl pl n k sets bs ->
    entries nl pl n (S k) ((p, a) :: sets) (hd ++ id ++ vb ++ bs)
| ent_child n k m id hd k' mb inner bs' sets bs :
    nth_error nl m = Some (Some n, id) -> str_header (blen id) hd -> map_header (Z.of_nat k') mb ->
    entries nl pl m k' inner bs' -> entries nl pl n k sets bs ->
    entries nl pl n (S k) (inner ++ sets) (hd ++ id ++ mb ++ bs' ++ bs).

(** A document for the tree of [n]. *)
Definition document (nl : list (option nat * str)) (pl : list (nat * str * decl)) (n : nat)
  (sets : list (nat * arg)) (bs : list Z) : Prop :=
  exists k hd es, map_header (Z.of_nat k) hd /\ entries nl pl n k sets es /\ bs = hd ++ es.

(** Same type and same size of buffer. *)
Definition same_kind (d d' : decl) : Prop :=
  match d, d' with
  | DScalar _, DScalar _ | DInt _, DInt _ | DBool _, DBool _ => True
  | DVec b _, DVec b' _ => length b = length b'
  | DVar b _, DVar b' _ => length b = length b'
  | DStr b _, DStr b' _ => length b = length b'
  | _, _ => False
  end.
(** The same namespaces, and the same parameters up to the initial contents. *)
Definition same_shape (hist hist' : list op) : Prop :=
  ns_decls hist' = ns_decls hist /\
  Forall2 (fun x y => fst x = fst y /\ same_kind (snd x) (snd y)) (par_decls hist) (par_decls hist').

(** The identifiers and buffers fit in the buffer given by the port, [cap] bytes, and in 32 bits. *)
Definition fits_port (cap : Z) (hist : list op) : Prop :=
  Forall (fun x => blen (snd x) + 1 <= cap /\ blen (snd x) + 1 < 2 ^ 32) (ns_decls hist) /\
  Forall (fun x => blen (snd (fst x)) + 1 <= cap /\ blen (snd (fst x)) + 1 < 2 ^ 32 /\
            match snd x with
            | DVec b _ | DVar b _ => blen b * 4 <= cap /\ blen b * 4 < 2 ^ 32
            | DStr b _ => blen b <= cap /\ blen b < 2 ^ 32
            | _ => True
            end) (par_decls hist) /\
  Z.of_nat (length (ns_decls hist) + length (par_decls hist)) < 2 ^ 32.

(** The values are those of their C types: bit patterns of 32 bit floats, 32 bit integers. *)
Definition value_typed (v : value) : Prop :=
  match v with
  | VScalar x => 0 <= x < 2 ^ 32
  | VInt i => - 2 ^ 31 <= i < 2 ^ 31
  | VVec l | VVar l _ => Forall (fun x => 0 <= x < 2 ^ 32) l
  | _ => True
  end.
(** The string value leaves at least one byte of its buffer unused. *)
Definition string_short (v : value) : Prop :=
  match v with VStr buf len => (len < length buf)%nat | _ => True end.
