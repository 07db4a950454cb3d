(** Model of lib/parameter/parameter_msgpack.c: saving a parameter tree as MessagePack and loading it.

    The parameter tree is that of ParamModel, the codec that of CmpModel. The error callback is only
    modelled on writing, as a flag telling whether it was called (a null callback, which the writer would
    call, is not modelled); on reading it has no effect on the result. The lock is not modelled: no other
    thread runs. Floating point values are bit patterns. *)
From Coq Require Import ZArith List Bool Arith.
From Verif Require Import CBase Buf CmpModel ParamModel.
Import ListNotations.
Local Open Scope Z_scope.

(** ** Writing *)

(** A step of the writer: the new context and whether it succeeded; [None] is undefined behaviour. *)
Definition W := ctx -> option (ctx * bool).
Definition attempt (m : M unit) : W := fun c =>
  match m c with UB => None | Fail c => Some (c, false) | Ok _ c => Some (c, true) end.
Definition ubw : W := fun _ => None.
Definition donew : W := fun c => Some (c, true).
(** Both steps are made, whatever the result of the first ([success &= ...]). *)
Definition andw (a b : W) : W := fun c =>
  match a c with
  | Some (c, s) => match b c with Some (c, t) => Some (c, s && t) | None => None end
  | None => None
  end.
(** The result of the step is not looked at. *)
Definition ignorew (a : W) : W := fun c => match a c with Some (c, _) => Some (c, true) | None => None end.
Definition seqw (l : list W) : W := fold_right andw donew l.

(** parameter_msgpack.c 446-480, after the identifier. *)
Definition write_value (v : value) : W :=
  match v with
  | VScalar x => attempt (cmp_write_float x)
  | VInt i => attempt (cmp_write_s32 i)
  | VBool b => attempt (cmp_write_bool b)
  | VStr buf len => attempt (cmp_write_str buf (Z.of_nat len))
  | VVec buf => andw (attempt (cmp_write_array (blen buf))) (seqw (map (fun x => attempt (cmp_write_float x)) buf))
  | VVar buf dim =>
      if (dim <=? length buf)%nat
      then andw (attempt (cmp_write_array (Z.of_nat dim))) (seqw (map (fun x => attempt (cmp_write_float x)) (firstn dim buf)))
      else ubw
  end.

(** parameter_msgpack.c 439-485. *)
Definition write_param (h : heap) (p : nat) : W :=
  match nth_error (pars h) p with
  | None => ubw
  | Some x =>
      if pdefined x then andw (attempt (cmp_write_str (pid x) (blen (pid x)))) (write_value (pval x)) else donew
  end.

Definition is_defined (h : heap) (p : nat) : bool :=
  match nth_error (pars h) p with Some x => pdefined x | None => false end.

(** parameter_msgpack.c 408-486. The result is false when the error callback was called. The recursion goes
    to namespaces with larger numbers. *)
Fixpoint write_subtree (fuel : nat) (h : heap) (n : nat) : W :=
  match fuel with
  | O => ubw
  | S fuel =>
      match nth_error (nss h) n with
      | None => ubw
      | Some x =>
          let map_size := u32 (Z.of_nat (length (nsubs x) + length (filter (is_defined h) (nparams x)))) in
          andw (ignorew (attempt (cmp_write_map map_size)))
            (andw (seqw (map (fun m => match nth_error (nss h) m with
                                       | None => ubw
                                       | Some y => andw (ignorew (attempt (cmp_write_str (nid y) (blen (nid y)))))
                                                        (write_subtree fuel h m)
                                       end) (nsubs x)))
                  (seqw (map (write_param h) (nparams x))))
      end
  end.

(** parameter_msgpack.c 488-496 (the fuel is enough, see [write_subtree]). *)
Definition parameter_msgpack_write_cmp (h : heap) (n : nat) : W := write_subtree (S (length (nss h))) h n.
(** parameter_msgpack.c 499-509: the new contents of the buffer, and whether no error was reported. *)
Definition parameter_msgpack_write (h : heap) (n : nat) (buf : list Z) : option (list Z * bool) :=
  match parameter_msgpack_write_cmp h n (cmp_mem_access_init buf (blen buf)) with
  | Some (c, ok) => Some (mem c, ok)
  | None => None
  end.

(** ** Reading *)

(** Undefined behaviour, failed assertion, recursion deeper than the fuel, or a return value with the tree
    and the position reached. *)
Inductive rr := RUB | RASSERT | RFUEL | RDONE (ret : Z) (h : heap) (c : ctx).

(** parameter_msgpack.c 6-35. *)
Definition discard (o : obj) : Z :=
  match oty o with
  | POSITIVE_FIXNUM | NIL | BOOLEAN | FLOAT | DOUBLE | UINT8 | UINT16 | UINT32 | UINT64
  | SINT8 | SINT16 | SINT32 | SINT64 | NEGATIVE_FIXNUM => 0
  | _ => -1
  end.

(** [parameter_*_set(p, ...); return 0;] *)
Definition set_done (h : heap) (p : nat) (a : arg) (c : ctx) : rr :=
  match parameter_set h p a with OK h => RDONE 0 h c | ASSERT => RASSERT | BAD => RUB end.

Section Port.
(** The size of the buffer parameter_port_buffer_alloc can give: 256 on uwb-beacon
    (uwb-beacon-firmware/src/parameter_port.c 24-33), 64 on motor-control
    (motor-control-firmware/src/parameter_port.c 24-28), the heap on master. A larger request fails an
    assertion. Each buffer is freed before the next request, which is not modelled. *)
Variable cap : Z.
(** The conversion of the floating point unit from an int64_t to a float; nothing is assumed about it. *)
Variable int_to_float : Z -> Z.

(** parameter_msgpack.c 37-49; cmp.c 2891-2899 (cmp_object_as_float). *)
Definition get_float (o : obj) : option Z :=
  match oty o with
  | FLOAT => Some (as_u32 o)
  | _ => match cmp_object_as_long o with Some i => Some (int_to_float i) | None => None end
  end.

(** parameter_msgpack.c 67-101: undefined behaviour, a return value that is not 0, or 0 with the elements. *)
Inductive vr := VUB | VRET (ret : Z) (c : ctx) | VOK (l : list Z) (c : ctx).
Fixpoint get_vector (len : nat) (err : bool) (c : ctx) : vr :=
  match len with
  | O => if err then VRET (-1) c else VOK [] c
  | S len =>
      match cmp_read_object c with
      | UB => VUB
      | Fail c => VRET (-1) c
      | Ok o c =>
          match (if err then None else get_float o) with
          | Some v => match get_vector len err c with VOK l c => VOK (v :: l) c | r => r end
          | None => if discard o =? 0 then get_vector len true c else VRET (discard o) c
          end
      end
  end.

(** parameter_msgpack.c 103-120. *)
Definition read_parameter_scalar (h : heap) (p : nat) (o : obj) (c : ctx) : rr :=
  match get_float o with Some v => set_done h p (AScalar v) c | None => RDONE (discard o) h c end.
(** parameter_msgpack.c 122-139. *)
Definition read_parameter_integer (h : heap) (p : nat) (o : obj) (c : ctx) : rr :=
  match cmp_object_as_int o with Some v => set_done h p (AInt v) c | None => RDONE (discard o) h c end.
(** parameter_msgpack.c 141-158: the function returns a bool. *)
Definition read_parameter_boolean (h : heap) (p : nat) (o : obj) (c : ctx) : rr :=
  match cmp_object_as_bool o with
  | Some v => set_done h p (ABool v) c
  | None => RDONE (if discard o =? 0 then 0 else 1) h c
  end.
(** parameter_msgpack.c 175-189 and 215-229. *)
Definition read_elements (h : heap) (p : nat) (n : Z) (c : ctx) (mk : list Z -> arg) : rr :=
  if cap <? u32 (n * 4) then RASSERT
  else match get_vector (Z.to_nat n) false c with
       | VUB => RUB
       | VRET r c => RDONE r h c
       | VOK l c => set_done h p (mk l) c
       end.
(** parameter_msgpack.c 160-198. *)
Definition read_parameter_vector (h : heap) (p : nat) (dim : Z) (o : obj) (c : ctx) : rr :=
  match cmp_object_as_array o with
  | Some n =>
      if negb (n =? dim) && negb (discard o =? 0) then RDONE (discard o) h c
      else read_elements h p n c AVec
  | None => RDONE (discard o) h c
  end.
(** parameter_msgpack.c 200-238. *)
Definition read_parameter_var_vector (h : heap) (p : nat) (buf_dim : Z) (o : obj) (c : ctx) : rr :=
  match cmp_object_as_array o with
  | Some n =>
      if (buf_dim <? n) && negb (discard o =? 0) then RDONE (discard o) h c
      else read_elements h p n c (fun l => AVar l (Z.to_nat n))
  | None => RDONE (discard o) h c
  end.
(** parameter_msgpack.c 240-268. *)
Definition read_parameter_string (h : heap) (p : nat) (buf_len : Z) (o : obj) (c : ctx) : rr :=
  match cmp_object_as_str o with
  | None => RDONE (discard o) h c
  | Some n =>
      if buf_len <=? n then RDONE (discard o) h c
      else if cap <? n then RASSERT
      else match rd n c with
           | UB => RUB
           | Fail c => RDONE (-1) h c
           | Ok s c => set_done h p (AStr s (Z.to_nat n)) c
           end
  end.

(** parameter_msgpack.c 270-299. *)
Definition read_parameter (h : heap) (p : nat) (o : obj) (c : ctx) : rr :=
  match nth_error (pars h) p with
  | None => RUB
  | Some x =>
      match pval x with
      | VScalar _ => read_parameter_scalar h p o c
      | VInt _ => read_parameter_integer h p o c
      | VBool _ => read_parameter_boolean h p o c
      | VVec buf => read_parameter_vector h p (blen buf) o c
      | VVar buf _ => read_parameter_var_vector h p (blen buf) o c
      | VStr buf _ => read_parameter_string h p (blen buf) o c
      end
  end.

(** [if (ret != 0) return ret;] *)
Definition and_then (r : rr) (f : heap -> ctx -> rr) : rr :=
  match r with RDONE r h c => if r =? 0 then f h c else RDONE r h c | r => r end.

(** parameter_msgpack.c 301-371: [map_size] entries are still to be read. *)
Fixpoint read_namespace (fuel : nat) (h : heap) (n : nat) (map_size : Z) (c : ctx) : rr :=
  if map_size <=? 0 then RDONE 0 h c
  else
    match fuel with
    | O => RFUEL
    | S fuel =>
        match cmp_read_str_size c with
        | UB => RUB
        | Fail c => RDONE (-1) h c
        | Ok id_size c =>
            if cap <? u32 (id_size + 1) then RASSERT
            else
              match rd id_size c with
              | UB => RUB
              | Fail c => RDONE (-1) h c
              | Ok id c =>
                  match cmp_read_object c with
                  | UB => RUB
                  | Fail c => RDONE (-1) h c
                  | Ok o c =>
                      let entry :=
                        match cmp_object_as_map o with
                        | Some inner =>
                            match namespace_find h n id with
                            | OK (Some sub) => read_namespace fuel h sub inner c
                            | OK None => RDONE (discard o) h c
                            | ASSERT => RASSERT
                            | BAD => RUB
                            end
                        | None =>
                            match parameter_find h n id with
                            | OK (Some p) => read_parameter h p o c
                            | OK None => RDONE (discard o) h c
                            | ASSERT => RASSERT
                            | BAD => RUB
                            end
                        end in
                      and_then entry (fun h c => read_namespace fuel h n (map_size - 1) c)
                  end
              end
        end
    end.

(** parameter_msgpack.c 380-394. Every entry takes at least one byte: the size of the buffer bounds the
    recursion. *)
Definition parameter_msgpack_read_cmp (h : heap) (n : nat) (c : ctx) : rr :=
  match cmp_read_map c with
  | UB => RUB
  | Fail c => RDONE (-1) h c
  | Ok map_size c => read_namespace (S (Z.to_nat (size c))) h n map_size c
  end.
(** parameter_msgpack.c 396-406. *)
Definition parameter_msgpack_read (h : heap) (n : nat) (buf : list Z) : rr :=
  parameter_msgpack_read_cmp h n (cmp_mem_access_ro_init buf (blen buf)).
End Port.
