(** Model of lib/dijkstra/include/dijkstra/dijkstra.hpp. *)
From Coq Require Import ZArith List Bool Arith.
From Verif Require Import CRes.
Import ListNotations.
Local Open Scope Z_scope.

(** dijkstra.hpp 13-42. Pointers to nodes are indices in the array given to the search; the application's data is left out.
    [edges] holds the first edge_count entries of the array. The constructor leaves visited, distance, parent and path_next
    unset; here they have any value. *)
Record vertex := mkv { edges : list nat; visited : bool; distance : Z; parent : option nat; path_next : option nat }.
(** dijkstra.hpp 13: how many edges a node can have. *)
Definition MAX_EDGES : nat := 10.
Definition graph := list vertex.

(** dijkstra.hpp 34-38. *)
Definition connect (g : graph) (a b : nat) : res graph :=
  try v := get g a in
  if (length (edges v) <? MAX_EDGES)%nat then put g a (mkv (edges v ++ [b]) (visited v) (distance v) (parent v) (path_next v)) else BAD.
(** dijkstra.hpp 46-51. *)
Definition connect_bidirectional (g : graph) (a b : nat) : res graph := try g := connect g a b in connect g b a.

(** dijkstra.hpp 67-72. *)
Definition reset (g : graph) : graph := map (fun v => mkv (edges v) false INT_MAX None None) g.
(** dijkstra.hpp 81-86, the edges [es] being left. *)
Fixpoint relax (v : nat) (es : list nat) (g : graph) : res graph :=
  match es with
  | [] => OK g
  | w :: es =>
      try nv := get g v in
      try nw := get g w in
      try d := int (distance nv + 1) in
      if d <? distance nw then try g := put g w (mkv (edges nw) (visited nw) d (Some v) (path_next nw)) in relax v es g
      else relax v es g
  end.
(** dijkstra.hpp 88-95, from index [i], the nodes [l] being left. *)
Fixpoint closest (l : graph) (i : nat) (min_distance : Z) (v : nat) : nat :=
  match l with
  | [] => v
  | n :: l => if negb (visited n) && (distance n <? min_distance) then closest l (S i) (distance n) i else closest l (S i) min_distance v
  end.
(** dijkstra.hpp 78-96. *)
Fixpoint search (fuel : nat) (g : graph) (v : nat) : res graph :=
  match fuel with
  | O => BAD
  | S fuel =>
      try nv := get g v in
      if visited nv then OK g
      else try g := put g v (mkv (edges nv) true (distance nv) (parent nv) (path_next nv)) in
           try g := relax v (edges nv) g in
           search fuel g (closest g 0 INT_MAX v)
  end.
(** dijkstra.hpp 98-104. *)
Fixpoint link (fuel : nat) (g : graph) (start p : nat) (len : Z) : res (graph * Z) :=
  match fuel with
  | O => BAD
  | S fuel =>
      if Nat.eqb p start then OK (g, len)
      else try np := get g p in
           try q := some (parent np) in
           try nq := get g q in
           try g := put g q (mkv (edges nq) (visited nq) (distance nq) (parent nq) (Some p)) in
           try len := int (len + 1) in
           link fuel g start q len
  end.
(** dijkstra.hpp 64-105. The fuel is more than the number of times each loop runs when the search ends. *)
Definition dijkstra (g : graph) (start end_ : nat) : res (graph * Z) :=
  let g := reset g in
  try s := get g start in
  try g := put g start (mkv (edges s) (visited s) 0 (parent s) (path_next s)) in
  try g := search (S (length g)) g start in
  link (S (length g)) g start end_ 0.
