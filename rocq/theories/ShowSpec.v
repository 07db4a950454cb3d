(** Specification of the printing and of the shell commands: a reader of the YAML text, written without looking
    at the printer, and what a user expects to read. *)
From Coq Require Import String ZArith List Bool Arith.
From Verif Require Import CBase Buf ParamModel ParamSpec ShowModel.
Import ListNotations.
Local Open Scope Z_scope.

(** ** Reading a number *)
Fixpoint read_digits (acc : Z) (s : str) : option Z :=
  match s with
  | [] => Some acc
  | c :: r => if (48 <=? c) && (c <=? 57) then read_digits (10 * acc + (c - 48)) r else None
  end.
(** A whole text that is a decimal number, with a minus sign or not. *)
Definition read_int (s : str) : option Z :=
  match s with
  | [] => None
  | c :: r => if c =? 45 then match r with [] => None | _ => option_map Z.opp (read_digits 0 r) end else read_digits 0 s
  end.

(** ** Reading YAML: keys by their indentation *)
Fixpoint lines (s : str) : list str :=
  match s with
  | [] => []
  | c :: r => if c =? 10 then [] :: lines r
              else match lines r with [] => [[c]] | l :: ls => (c :: l) :: ls end
  end.
(** The spaces at the start of a line. *)
Fixpoint spaces (s : str) : nat * str :=
  match s with
  | c :: r => if c =? 32 then let (n, t) := spaces r in (S n, t) else (O, s)
  | [] => (O, [])
  end.
(** The text before and after the first colon. *)
Fixpoint colon (s : str) : option (str * str) :=
  match s with
  | [] => None
  | c :: r => if c =? 58 then Some ([], r) else match colon r with Some (k, v) => Some (c :: k, v) | None => None end
  end.
(** Depth (two spaces each), key, and value if there is one. *)
Definition read_line (s : str) : option (nat * str * option str) :=
  let (n, t) := spaces s in
  if Nat.even n then
    match colon t with
    | Some (k, []) => Some (Nat.div2 n, k, None)
    | Some (k, c :: v) => if c =? 32 then Some (Nat.div2 n, k, Some v) else None
    | None => None
    end
  else None.
(** The entries of a text, with their whole path. [open] are the keys above the current line. *)
Fixpoint entries (open : list str) (ls : list str) : option (list (list str * str)) :=
  match ls with
  | [] => Some []
  | l :: ls =>
      match read_line l with
      | None => None
      | Some (d, k, v) =>
          if (d <=? length open)%nat then
            match v with
            | None => entries (firstn d open ++ [k]) ls
            | Some v => option_map (cons (firstn d open ++ [k], v)) (entries (firstn d open) ls)
            end
          else None
      end
  end.
Definition read_yaml (text : str) : option (list (list str * str)) := entries [] (lines text).

(** ** What is expected *)

(** [path] are the keys from namespace [r] down to namespace [n]. *)
Inductive placed (l : list (option nat * str)) (r : nat) : nat -> list str -> Prop :=
| placed_root : placed l r r []
| placed_down n m id path : nth_error l n = Some (Some m, id) -> placed l r m path -> placed l r n (path ++ [id]).
(** [path] are the keys from namespace [r] down to parameter [p]. *)
Definition located (hist : list op) (r p : nat) (path : list str) : Prop :=
  exists m id d above, nth_error (par_decls hist) p = Some (m, id, d) /\ placed (ns_decls hist) r m above /\ path = above ++ [id].

Fixpoint comma_separated (l : list str) : str :=
  match l with
  | [] => []
  | x :: l => x ++ match l with [] => [] | _ => [44; 32] ++ comma_separated l end
  end.
Definition brackets (s : str) : str := [91] ++ s ++ [93].
Definition quoted (s : str) : str := [34] ++ s ++ [34].
Definition not_enough_memory : str := lit " # warning: malloc failed during serialization!".

(** [v] is how the value given by the call [o] is written; [mem] tells whether memory could be had for it. *)
Definition written (ftoa : Z -> str) (mem : bool) (dim : nat) (o : op) (v : str) : Prop :=
  match o with
  | OSet _ (AScalar x) | ODecl _ _ (DScalar (Some x)) => v = ftoa x
  | OSet _ (AInt i) | ODecl _ _ (DInt (Some i)) => read_int v = Some i
  | OSet _ (ABool b) | ODecl _ _ (DBool (Some b)) => v = lit (if b then "true" else "false")
  | OSet _ (AStr s len) => v = if mem then quoted (firstn len s) else quoted [] ++ not_enough_memory
  | ODecl _ _ (DStr _ (Some s)) => v = if mem then quoted s else quoted [] ++ not_enough_memory
  | OSet _ (AVec l) => v = if mem then brackets (comma_separated (map ftoa (firstn dim l))) else brackets [] ++ not_enough_memory
  | ODecl _ _ (DVec l _) => v = if mem then brackets (comma_separated (map ftoa l)) else brackets [] ++ not_enough_memory
  | OSet _ (AVar l n) | ODecl _ _ (DVar l (Some n)) =>
      v = if mem then brackets (comma_separated (map ftoa (firstn n l))) else brackets [] ++ not_enough_memory
  | _ => False
  end.
(** [v] is how the last value given to [p] is written, a tilde if none ever was. *)
Definition shown (ftoa : Z -> str) (mem : bool) (hist : list op) (p : nat) (v : str) : Prop :=
  (exists o, last_assignment hist p o /\ written ftoa mem (dim_of hist p) o v) \/
  ((forall o, ~ last_assignment hist p o) /\ v = [126]).

(** Names and strings that can be written without escapes: names without colon, end of line or space at their
    start, strings without end of line or null byte, and shorter than 65535 bytes. *)
Definition plain_name (s : str) : Prop := ~ In 58 s /\ ~ In 10 s /\ hd 0 s <> 32.
Definition plain_text (s : str) : Prop := ~ In 10 s /\ ~ In 0 s.
Definition plain_op (o : op) : Prop :=
  match o with
  | ODeclNs _ id => plain_name id
  | ODecl _ id d =>
      plain_name id /\
      match d with
      | DStr buf s => Z.of_nat (length buf) < 65535 /\ match s with Some s => plain_text s | None => True end
      | _ => True
      end
  | OSet _ (AStr s len) => plain_text (firstn len s)
  | _ => True
  end.

(** The parameters that the command of the shell can show: not the vectors. *)
Definition showable (hist : list op) (p : nat) : Prop :=
  exists m id d, nth_error (par_decls hist) p = Some (m, id, d) /\
    match d with DVec _ _ | DVar _ _ => False | _ => True end.
Definition is_get (o : op) : Prop := match o with OGet _ _ => True | _ => False end.

(** What the user asks for by [config_set path text] for a parameter declared by [d]: the value to give to the
    parameter, if the text is one. *)
Definition asked (atof : str -> option Z) (d : decl) (text : str) (a : arg) : Prop :=
  match d, a with
  | DInt _, AInt i => read_int text = Some i /\ - 2 ^ 31 <= i < 2 ^ 31
  | DScalar _, AScalar x => atof text = Some x
  | DBool _, ABool true => text = lit "true"
  | DBool _, ABool false => text = lit "false"
  | DStr buf _, AStr s n => s = text /\ n = length text /\ (length text <= length buf)%nat
  | _, _ => False
  end.
(** A text that is no value of the type. *)
Definition senseless (atof : str -> option Z) (d : decl) (text : str) : Prop :=
  match d with
  | DInt _ => forall c r, text = c :: r -> is_space c = false /\ is_digit c = false /\ c <> 45 /\ c <> 43
  | DScalar _ => atof text = None
  | DBool _ => text <> lit "true" /\ text <> lit "false"
  | DStr _ _ => False
  | DVec _ _ | DVar _ _ => True
  end.
