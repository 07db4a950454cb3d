(** Model of lib/goap/include/goap/goap.hpp and goap_internals.hpp: the action planner. *)
From Coq Require Import ZArith List Bool Arith.
From Verif Require Import CRes.
Import ListNotations.
Local Open Scope Z_scope.

(** goap.hpp 19-47: what the application gives. Actions are the indices of the array [actions] below [action_count];
    [eqb] is the operator== of the state. can_run, plan_effects, is_reached and distance_to are functions of the state. *)
Record problem (S : Type) := mkproblem {
  action_count : nat;
  can_run : nat -> S -> bool;
  effects : nat -> S -> S;
  reached : S -> bool;
  dist : S -> Z;
  eqb : S -> S -> bool }.
Arguments action_count {S}. Arguments can_run {S}. Arguments effects {S}. Arguments reached {S}. Arguments dist {S}. Arguments eqb {S}.

(** goap_internals.hpp 11-23. Pointers to nodes are indices in the pool. *)
Record vnode (S : Type) := mkn { prio : Z; cost : Z; st : S; parent : option nat; act : option nat; next : option nat }.
Arguments mkn {S}. Arguments prio {S}. Arguments cost {S}. Arguments st {S}. Arguments parent {S}. Arguments act {S}. Arguments next {S}.
(** The pool (goap.hpp 51) and the three lists of plan (goap.hpp 62-65). *)
Record pstate (S : Type) := mkp { heap : list (vnode S); free : option nat; open : option nat; close : option nat }.
Arguments mkp {S}. Arguments heap {S}. Arguments free {S}. Arguments open {S}. Arguments close {S}.

Definition same (a b : option nat) : bool :=
  match a, b with Some i, Some j => Nat.eqb i j | None, None => true | _, _ => false end.

(** What a part of plan does: goes on, or returns. *)
Inductive outcome (A : Type) := Go (a : A) | Return (r : Z) (path : option (list (option nat))).
Arguments Go {A}. Arguments Return {A}.

Section Planner.
Context {S : Type} (P : problem S).
Notation hp := (list (vnode S)).

(** goap_internals.hpp 25-32; the nodes from index [i] on. *)
Fixpoint array_to_list (h : hp) (i : nat) : hp :=
  match h with
  | [] => []
  | n :: h => mkn (prio n) (cost n) (st n) (parent n) (act n) (match h with [] => None | _ => Some (Datatypes.S i) end) :: array_to_list h (Datatypes.S i)
  end.
Definition set_next (h : hp) (i : nat) (x : option nat) : res hp :=
  try n := get h i in put h i (mkn (prio n) (cost n) (st n) (parent n) (act n) x).

(** goap_internals.hpp 42-47. *)
Fixpoint find_min (fuel : nat) (h : hp) (p min_elem : option nat) (min_prio : Z) : res (option nat) :=
  match fuel, p with
  | _, None => OK min_elem
  | O, _ => BAD
  | Datatypes.S fuel, Some i =>
      try n := get h i in
      if prio n <? min_prio then find_min fuel h (next n) p (prio n) else find_min fuel h (next n) min_elem min_prio
  end.
(** goap_internals.hpp 53-58. *)
Fixpoint unlink (fuel : nat) (h : hp) (p min_elem : option nat) : res hp :=
  match fuel, p with
  | _, None => OK h
  | O, _ => BAD
  | Datatypes.S fuel, Some i =>
      try n := get h i in
      if same (next n) min_elem then
        try m := some min_elem in
        try nm := get h m in
        try h := set_next h i (next nm) in
        try h := set_next h m None in
        try n := get h i in
        unlink fuel h (next n) min_elem
      else unlink fuel h (next n) min_elem
  end.
(** goap_internals.hpp 34-62. Returns the pool, the new head of the list and the element (never a null pointer: see [some]). *)
Definition pop_min (h : hp) (l : option nat) : res (hp * option nat * nat) :=
  try m := find_min (length h) h l None INT_MAX in
  if same m l then
    try i := some l in
    try n := get h i in
    OK (h, next n, i)
  else
    try h := unlink (length h) h l m in
    try i := some m in
    OK (h, l, i).
(** goap_internals.hpp 64-71. *)
Definition pop_head (h : hp) (l : option nat) : res (hp * option nat * nat) :=
  try i := some l in
  try n := get h i in
  try h := set_next h i None in
  OK (h, next n, i).
(** goap_internals.hpp 73-78. *)
Definition push_head (h : hp) (l : option nat) (i : nat) : res (hp * option nat) :=
  try h := set_next h i l in OK (h, Some i).
(** goap_internals.hpp 80-89. *)
Definition update_queued (h : hp) (i : nat) (c : vnode S) : res hp :=
  try n := get h i in
  if cost c <? cost n then put h i (mkn (prio c) (cost n) (st n) (parent c) (act c) (next n)) else OK h.

(** goap.hpp 79-81. *)
Fixpoint depth (fuel : nat) (h : hp) (p : option nat) (len : Z) : res Z :=
  match fuel, p with
  | _, None => OK len
  | O, _ => BAD
  | Datatypes.S fuel, Some i => try n := get h i in try len := int (len + 1) in depth fuel h (parent n) len
  end.
(** goap.hpp 88-91. *)
Fixpoint write_path (fuel : nat) (h : hp) (p : nat) (i : Z) (path : list (option nat)) : res (list (option nat)) :=
  match fuel with
  | O => BAD
  | Datatypes.S fuel =>
      try n := get h p in
      match parent n with
      | None => OK path
      | Some q =>
          if i <? 0 then BAD else
          try path := put path (Z.to_nat i) (act n) in
          write_path fuel h q (i - 1) path
      end
  end.
(** goap.hpp 105-108. *)
Fixpoint last_of (fuel : nat) (h : hp) (gc gc_prev : option nat) : res (option nat * option nat) :=
  match fuel, gc with
  | _, None => OK (gc, gc_prev)
  | O, _ => BAD
  | Datatypes.S fuel, Some i =>
      try n := get h i in
      match next n with None => OK (gc, gc_prev) | Some _ => last_of fuel h (next n) gc end
  end.
(** goap.hpp 133-138 and 142-147: goes through a list, updates the nodes whose state is that of [i]. *)
Fixpoint update_all (fuel : nat) (h : hp) (p : option nat) (i : nat) (should_insert : bool) : res (hp * bool) :=
  match fuel, p with
  | _, None => OK (h, should_insert)
  | O, _ => BAD
  | Datatypes.S fuel, Some j =>
      try n := get h j in
      try c := get h i in
      if eqb P (st n) (st c) then
        try h := update_queued h j c in
        try n := get h j in
        update_all fuel h (next n) i false
      else update_all fuel h (next n) i should_insert
  end.

(** goap.hpp 102-119. [None]: not enough memory. *)
Definition collect (s : pstate S) : res (option (pstate S)) :=
  match free s with
  | Some _ => OK (Some s)
  | None =>
      try (gc, gc_prev) := last_of (length (heap s)) (heap s) (open s) None in
      match gc with
      | None => OK None
      | Some i =>
          try h := match gc_prev with Some j => set_next (heap s) j None | None => OK (heap s) end in
          OK (Some (mkp h gc (open s) (close s)))
      end
  end.
(** goap.hpp 122-127: node [i] gets the state that action [a] leads to. The fields are written one after the other: the node may be
    the current one. *)
Definition fill (h : hp) (current i a : nat) : res hp :=
  try cur := get h current in
  try n := get h i in
  try h := put h i (mkn (prio n) (cost n) (effects P a (st cur)) (parent n) (act n) (next n)) in
  try cur := get h current in
  try n := get h i in
  try c := int (cost cur + 1) in
  try h := put h i (mkn (prio n) c (st n) (parent n) (act n) (next n)) in
  try cur := get h current in
  try n := get h i in
  try q := int (prio cur + 1) in
  try q := int (q + dist P (st n)) in
  put h i (mkn q (cost n) (st n) (Some current) (Some a) (next n)).
(** goap.hpp 121-153. *)
Definition add_node (s : pstate S) (current a : nat) : res (pstate S) :=
  try (h, fr, i) := pop_head (heap s) (free s) in
  try h := fill h current i a in
  try (h, ins) := update_all (length h) h (open s) i true in
  try (h, ins) := update_all (length h) h (close s) i ins in
  if ins : bool then try (h, op) := push_head h (open s) i in OK (mkp h fr op (close s))
  else try (h, fr) := push_head h fr i in OK (mkp h fr (open s) (close s)).
(** goap.hpp 100-154, for action [a] when it can run. *)
Definition try_action (s : pstate S) (current a : nat) : res (outcome (pstate S)) :=
  try r := collect s in
  match r with
  | None => OK (Return (-2) None)
  | Some s => try s := add_node s current a in OK (Go s)
  end.
(** goap.hpp 97-155, [k] actions being left. *)
Fixpoint expand (k : nat) (s : pstate S) (current : nat) : res (outcome (pstate S)) :=
  match k with
  | O => OK (Go s)
  | Datatypes.S k =>
      try cur := get (heap s) current in
      let a := (action_count P - Datatypes.S k)%nat in
      if can_run P a (st cur) then
        try o := try_action s current a in
        match o with Go s => expand k s current | Return r p => OK (Return r p) end
      else expand k s current
  end.
(** goap.hpp 74-155: one turn of the loop. [path]: the caller's array, if there is one. *)
Definition turn (s : pstate S) (path : option (list (option nat))) (path_len : Z) : res (outcome (pstate S)) :=
  try (h, op, current) := pop_min (heap s) (open s) in
  try (h, cl) := push_head h (close s) current in
  try cur := get h current in
  if reached P (st cur) then
    try len := depth (length h) h (parent cur) 0 in
    if path_len <? len then OK (Return (-1) None)
    else match path with
         | None => OK (Return len None)
         | Some b => try b := write_path (Datatypes.S (length h)) h current (len - 1) b in OK (Return len (Some b))
         end
  else expand (action_count P) (mkp h (free s) op cl) current.
(** goap.hpp 73-159. A path of [None]: what the caller gave is left as it is. *)
Fixpoint loop (fuel : nat) (s : pstate S) (path : option (list (option nat))) (path_len : Z) : res (Z * option (list (option nat))) :=
  match open s with
  | None => OK (-1, path)
  | Some _ =>
      match fuel with
      | O => BAD
      | Datatypes.S fuel =>
          try o := turn s path path_len in
          match o with
          | Go s => loop fuel s path path_len
          | Return r b => OK (r, match b with Some _ => b | None => path end)
          end
      end
  end.
(** goap.hpp 60-71. [nodes]: the pool, holding anything. *)
Definition start_plan (nodes : hp) (s : S) : res (pstate S) :=
  let h := array_to_list nodes 0 in
  try (h, fr, i) := pop_head h (Some O) in
  try n := get h i in
  try h := put h i (mkn 0 0 s None None (next n)) in
  OK (mkp h fr (Some i) None).
(** goap.hpp 58-160. Returns the length of the plan or an error, and the path. *)
Definition plan (nodes : hp) (s : S) (path : option (list (option nat))) (path_len : Z) : res (Z * option (list (option nat))) :=
  try p := start_plan nodes s in loop (Datatypes.S (length nodes)) p path path_len.
End Planner.
