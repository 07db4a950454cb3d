(** Model of the printing of the parameters as YAML, lib/parameter/parameter_print.c, and of the commands of the
    shell of the robot that show and set parameters, master-firmware/src/commands.cpp 208-345
    (a file that is in the sources but not in the list of those of the Linux build).

    The parameters are those of [ParamModel]. What [printf] makes of ["%f"] is given by a function [ftoa] from
    the bits of the number to a text, and what [sscanf] makes of it by a function [atof]: both belong to the C
    library. A call of the print function is its text; the output is the concatenation of those texts. *)
From Coq Require Import String Ascii ZArith List Bool Arith.
From Verif Require Import CBase Buf ParamModel.
Import ListNotations.
Local Open Scope Z_scope.

(** The bytes of a literal of the source. *)
Definition lit (s : string) : str := map (fun c => Z.of_N (N_of_ascii c)) (list_ascii_of_string s).
Definition newline : str := [10].
Definition crlf : str := [13; 10].
Definition quote : str := [34].

(** ["%d"]: the decimal digits, most significant first, after a minus sign for negative numbers. A number of [k]
    bits has less than [k] digits or a single one. *)
Fixpoint digits (fuel : nat) (n : Z) : str :=
  match fuel with
  | O => [48 + n]
  | S fuel => if n <? 10 then [48 + n] else digits fuel (n / 10) ++ [48 + n mod 10]
  end.
Definition itoa (i : Z) : str :=
  if i <? 0 then 45 :: digits (Z.to_nat (Z.log2 (- i))) (- i) else digits (Z.to_nat (Z.log2 i)) i.

(** parameter_print.c 4. *)
Definition malloc_failed_warning : str := lit "# warning: malloc failed during serialization!".

(** parameter_print.c 6-14; commands.cpp 208-214. *)
Definition indent (lvl : nat) : str := concat (repeat (lit "  ") lvl).

Section Print.
Variable ftoa : Z -> str.
(** Whether the memory asked for while printing parameter [p] is given. *)
Variable malloc : nat -> bool.

(** parameter_print.c 21-29. *)
Fixpoint array_items (a : list Z) : str :=
  match a with
  | [] => []
  | [x] => ftoa x
  | x :: a => ftoa x ++ lit ", " ++ array_items a
  end.
(** parameter_print.c 16-31. *)
Definition print_array (a : list Z) : str := lit "[" ++ array_items a ++ lit "]" ++ newline.

(** parameter_print.c 33-97. The length of a string is [uint16_t] (parameter.c 525-529). *)
Definition param_entry_print (h : heap) (p : nat) (lvl : nat) : res (heap * str) :=
  match nth_error (pars h) p with
  | None => BAD
  | Some x =>
      let head := indent lvl ++ pid x ++ lit ": " in
      try d := parameter_defined h p in
      if negb d then OK (h, head ++ lit "~" ++ newline)
      else
        match pval x with
        | VScalar _ =>
            try g := parameter_read h p KScalar in
            match g with GScalar v => OK (h, head ++ ftoa v ++ newline) | _ => BAD end
        | VInt _ =>
            try g := parameter_read h p KInt in
            match g with GInt v => OK (h, head ++ itoa v ++ newline) | _ => BAD end
        | VBool _ =>
            try g := parameter_read h p KBool in
            match g with GBool v => OK (h, head ++ lit (if v then "true" else "false") ++ newline) | _ => BAD end
        | VStr buf _ =>
            let len := Z.to_nat (u16 (Z.of_nat (length buf) + 1)) in
            if malloc p then
              try g := parameter_read h p (KStr len) in
              match g with GStr s _ => OK (h, head ++ quote ++ c_str s ++ quote ++ newline) | _ => BAD end
            else OK (h, head ++ quote ++ quote ++ lit " " ++ malloc_failed_warning ++ newline)
        | VVec _ =>
            if malloc p then
              try g := parameter_read h p KVec in
              match g with GVec v => OK (h, head ++ print_array v) | _ => BAD end
            else OK (h, head ++ lit "[] " ++ malloc_failed_warning ++ newline)
        | VVar _ _ =>
            if malloc p then
              try g := parameter_read h p KVar in
              match g with GVar v => OK (h, head ++ print_array v) | _ => BAD end
            else OK (h, head ++ lit "[] " ++ malloc_failed_warning ++ newline)
        end
  end.

(** A loop over a list, printing one element after the other. *)
Fixpoint print_all (f : heap -> nat -> res (heap * str)) (h : heap) (l : list nat) : res (heap * str) :=
  match l with
  | [] => OK (h, [])
  | i :: l =>
      try (h, a) := f h i in
      try (h, b) := print_all f h l in
      OK (h, a ++ b)
  end.

(** parameter_print.c 99-116. The recursion goes from a namespace to its children, which have larger numbers. *)
Fixpoint param_ns_print (fuel : nat) (h : heap) (n : nat) (lvl : nat) : res (heap * str) :=
  match fuel with
  | O => BAD
  | S fuel =>
      match nth_error (nss h) n with
      | None => BAD
      | Some x =>
          try (h, a) := print_all (fun h p => param_entry_print h p lvl) h (nparams x) in
          try (h, b) := print_all (fun h m =>
            match nth_error (nss h) m with
            | None => BAD
            | Some y =>
                try (h, c) := param_ns_print fuel h m (S lvl) in
                OK (h, indent lvl ++ nid y ++ lit ":" ++ newline ++ c)
            end) h (nsubs x) in
          OK (h, a ++ b)
      end
  end.
(** parameter_print.c 118-123. *)
Definition parameter_print (h : heap) (n : nat) : res (heap * str) := param_ns_print (S (length (nss h))) h n 0.

(** ** The commands of the shell *)

(** commands.cpp 223-253: one parameter, at level [indent + 1]. The static buffer has 50 bytes. Numbers of the
    types: parameter.h 38-43. *)
Definition show_param (h : heap) (p : nat) (lvl : nat) : res (heap * str) :=
  match nth_error (pars h) p with
  | None => BAD
  | Some x =>
      let head := indent lvl ++ pid x ++ lit ": " in
      try d := parameter_defined h p in
      if d : bool then
        match pval x with
        | VScalar _ =>
            try (h, g) := parameter_get h p KScalar in
            match g with GScalar v => OK (h, head ++ ftoa v ++ crlf) | _ => BAD end
        | VStr _ _ =>
            try (h, g) := parameter_get h p (KStr 50) in
            match g with GStr s _ => OK (h, head ++ quote ++ c_str s ++ quote ++ crlf) | _ => BAD end
        | VInt _ =>
            try (h, g) := parameter_get h p KInt in
            match g with GInt v => OK (h, head ++ itoa v ++ crlf) | _ => BAD end
        | VBool _ =>
            try (h, g) := parameter_get h p KBool in
            match g with GBool v => OK (h, head ++ lit (if v then "true" else "false") ++ crlf) | _ => BAD end
        | VVec _ => OK (h, head ++ lit "unknown type " ++ itoa 5 ++ crlf)
        | VVar _ _ => OK (h, head ++ lit "unknown type " ++ itoa 6 ++ crlf)
        end
      else OK (h, head ++ lit "[not set]" ++ crlf)
  end.

(** commands.cpp 216-262, called on the first of the namespaces [l], the others being those it leads to by its
    pointer [next]. *)
Fixpoint show_config_tree (fuel : nat) (h : heap) (l : list nat) (lvl : nat) : res (heap * str) :=
  match fuel with
  | O => BAD
  | S fuel =>
      print_all (fun h n =>
        match nth_error (nss h) n with
        | None => BAD
        | Some x =>
            try (h, a) := print_all (fun h p => show_param h p (S lvl)) h (nparams x) in
            try (h, b) := show_config_tree fuel h (nsubs x) (S lvl) in
            OK (h, indent lvl ++ nid x ++ crlf ++ a ++ b)
        end) h l
  end.

(** commands.cpp 264-285. [root] is the namespace of the whole configuration, which has no sibling. *)
Definition config_tree (h : heap) (root : nat) (args : list str) : res (heap * str) :=
  match args with
  | [path] =>
      try r := namespace_find h root path in
      match r with
      | None => OK (h, lit "Cannot find subtree." ++ crlf)
      | Some n =>
          match nth_error (nss h) n with
          | None => BAD
          | Some x =>
              match nsubs x with
              | [] => OK (h, lit "This tree is empty." ++ crlf)
              | l => show_config_tree (S (S (length (nss h)))) h l 0
              end
          end
      end
  | _ => show_config_tree (S (S (length (nss h)))) h [root] 0
  end.
End Print.

(** ** Setting a parameter *)

(** The white space skipped by [sscanf]. *)
Definition is_space (c : Z) : bool := (c =? 32) || ((9 <=? c) && (c <=? 13)).
Fixpoint skip_space (s : str) : str := match s with c :: r => if is_space c then skip_space r else s | [] => [] end.
Definition is_digit (c : Z) : bool := (48 <=? c) && (c <=? 57).
(** The number written by the digits at the start of [s], if there is one. *)
Fixpoint scan_digits (s : str) (acc : option Z) : option Z :=
  match s with
  | c :: r => if is_digit c then scan_digits r (Some (10 * match acc with Some a => a | None => 0 end + (c - 48))) else acc
  | [] => acc
  end.
(** [sscanf(s, "%d", &i) == 1] and the number read. A number that does not fit in an [int] is not defined. *)
Definition sscanf_d (s : str) : res (option Z) :=
  let s := skip_space s in
  let v := match s with
           | c :: r => if c =? 45 then option_map Z.opp (scan_digits r None)
                       else if c =? 43 then scan_digits r None else scan_digits s None
           | [] => None
           end in
  match v with
  | Some i => if (- 2 ^ 31 <=? i) && (i <? 2 ^ 31) then OK (Some i) else BAD
  | None => OK None
  end.

Section Set_.
(** [sscanf(s, "%f", &f) == 1] and the bits of the number read. *)
Variable atof : str -> option Z.

Definition str_eqb (a b : str) : bool := if list_eq_dec Z.eq_dec a b then true else false.

(** commands.cpp 287-345. The text written back is only told for errors. *)
Definition config_set (h : heap) (root : nat) (args : list str) : res (heap * str) :=
  match args with
  | [path; text] =>
      try r := parameter_find h root path in
      match r with
      | None => OK (h, lit "Could not find parameter " ++ quote ++ path ++ quote ++ crlf)
      | Some p =>
          match nth_error (pars h) p with
          | None => BAD
          | Some x =>
              match pval x with
              | VInt _ =>
                  try v := sscanf_d text in
                  match v with
                  | Some i => try h := parameter_set h p (AInt i) in OK (h, [])
                  | None => OK (h, lit "Invalid value for integer parameter." ++ crlf)
                  end
              | VScalar _ =>
                  match atof text with
                  | Some v => try h := parameter_set h p (AScalar v) in OK (h, [])
                  | None => OK (h, lit "Invalid value for scalar parameter." ++ crlf)
                  end
              | VBool _ =>
                  if str_eqb text (lit "true") then try h := parameter_set h p (ABool true) in OK (h, [])
                  else if str_eqb text (lit "false") then try h := parameter_set h p (ABool false) in OK (h, [])
                  else OK (h, lit "Invalid value for boolean parameter, must be true or false." ++ crlf)
              | VStr _ _ => try h := parameter_set h p (AStr text (length text)) in OK (h, [])
              | VVec _ => OK (h, pid x ++ lit ": unknown type " ++ itoa 5 ++ crlf)
              | VVar _ _ => OK (h, pid x ++ lit ": unknown type " ++ itoa 6 ++ crlf)
              end
          end
      end
  | _ => OK (h, lit "Usage: config_set /parameter/url value." ++ crlf)
  end.
End Set_.
