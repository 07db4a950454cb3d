(** What a shortest path is. *)
From Coq Require Import ZArith List Arith.
From Verif Require Import CRes DijkModel.
Import ListNotations.

Definition edge (g : graph) (a b : nat) : Prop := exists v, nth_error g a = Some v /\ In b (edges v).
(** Every edge leads to a node of the graph. *)
Definition closed (g : graph) : Prop := forall a b, edge g a b -> b < length g.
(** [walk g a b n]: one can go from [a] to [b] along [n] edges. *)
Inductive walk (g : graph) : nat -> nat -> nat -> Prop :=
| walk_here a : walk g a a 0
| walk_edge a b c n : walk g a b n -> edge g b c -> walk g a c (S n).
Definition shortest (g : graph) (a b n : nat) : Prop := walk g a b n /\ forall m, walk g a b m -> n <= m.
(** Following the path_next links of [g] from [a], along edges of [g], leads to [b], where they end, after [n] steps. *)
Inductive leads (g : graph) : nat -> nat -> nat -> Prop :=
| leads_end b v : nth_error g b = Some v -> path_next v = None -> leads g b b 0
| leads_next a v b c n : nth_error g a = Some v -> path_next v = Some b -> edge g a b -> leads g b c n -> leads g a c (S n).
