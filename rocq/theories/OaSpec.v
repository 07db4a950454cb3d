(** What a map of obstacles and a path around them are. *)
From Coq Require Import ZArith List Bool Arith.
From Verif Require Import OaModel.
Import ListNotations.
Local Open Scope Z_scope.

Section Spec.
Context {P C F : Type}.
Variables (zero : P) (pt : Z -> Z -> P).
Variables (inbox : P -> bool) (crosses : P -> P -> list P -> bool) (len1 : P -> P -> Z) (circle_pt : C -> Z -> F -> nat -> P).

(** A map: the vertices of each polygon. The first polygon is made of the destination and the start. *)
Definition map := list (list P).
Definition all_points (m : map) : nat := length (concat m).

(** The same calls on maps. A call fails if it would make more than 20 polygons or more than 200 points in all. *)
Definition replace {A} (x : list A) (i : nat) (y : A) : list A := firstn i x ++ y :: skipn (S i) x.
Definition fits (m : map) (n : Z) : bool := (Z.of_nat (all_points m) + n <=? 200) && (length m <? 20)%nat.
Definition start_map : map := [[pt 100 100; pt 0 0]].
Definition map_step (m : map) (c : @op C F) : map :=
  match c with
  | Init => start_map
  | StartEnd sx sy ex ey => replace m 0 [pt ex ey; pt sx sy]
  | NewPoly n => if fits m n then m ++ [repeat zero (Z.to_nat n)] else m
  | SetPoint k x y i => replace m (Z.to_nat k) (replace (nth (Z.to_nat k) m []) (Z.to_nat i) (pt x y))
  | Circle c n f => if fits m n then m ++ [List.map (circle_pt c n f) (seq 0 (Z.to_nat n))] else m
  | Process _ => m
  end.
(** What the call returns on a map, for the calls that make a polygon. *)
Definition map_ret (m : map) (n : Z) : option Z := if fits m n then Some (Z.of_nat (length m)) else None.
(** The calls a program may make: sizes are not negative, polygons and vertices exist. *)
Definition call_ok (m : map) (c : @op C F) : Prop :=
  match c with
  | NewPoly n | Circle _ n _ => 0 <= n < 2 ^ 30
  | SetPoint k _ _ i => 0 <= k < Z.of_nat (length m) /\ 0 <= i < Z.of_nat (length (nth (Z.to_nat k) m []))
  | _ => True
  end.
Fixpoint calls_ok (m : map) (h : list (@op C F)) : Prop :=
  match h with [] => True | c :: h => call_ok m c /\ calls_ok (map_step m c) h end.
Definition map_of (h : list (@op C F)) : map := fold_left map_step h start_map.

(** A place: a polygon and a vertex of it. *)
Definition place := (nat * nat)%type.
Definition dest : place := (0, 0)%nat.
Definition start : place := (0, 1)%nat.
Definition at_place (m : map) (x : place) : option P := nth_error (nth (fst x) m []) (snd x).
(** Nothing is in the way from [a] to [b]: no obstacle crosses the segment, but for the polygon [skip], which is not looked at. *)
Definition clear (m : map) (skip : option nat) (a b : P) : bool :=
  forallb (fun k => match skip with Some s => Nat.eqb k s | None => false end || negb (crosses a b (nth k m [])))
          (seq 1 (length m - 1)).
(** Two places see each other if both are inside the bounding box and nothing is in the way. *)
Definition sees (m : map) (skip : option nat) (x y : place) : bool :=
  match at_place m x, at_place m y with
  | Some a, Some b => inbox a && inbox b && clear m skip a b
  | _, _ => false
  end.
(** The rays: the sides of polygons whose ends see each other, their polygon not looked at, and
    the pairs of places of different polygons that see each other. *)
Definition sides (m : map) : list (place * place) :=
  flat_map (fun i => let n := length (nth i m []) in List.map (fun a => ((i, a), (i, (a + 1) mod n)))%nat (seq 0 n)) (seq 0 (length m)).
Definition pairs (m : map) : list (place * place) :=
  flat_map (fun i => flat_map (fun a => flat_map (fun j => List.map (fun b => ((i, a), (j, b)))%nat (seq 0 (length (nth j m []))))
                                                 (seq (i + 1) (length m - (i + 1))))
                              (seq 0 (length (nth i m []))))
           (seq 0 (length m)).
Definition rays_of (m : map) : list (place * place) :=
  filter (fun r => sees m (Some (fst (fst r))) (fst r) (snd r)) (sides m) ++ filter (fun r => sees m None (fst r) (snd r)) (pairs m).
(** A ray can be followed both ways, at the same cost. *)
Definition cost (m : map) (x y : place) : Z := match at_place m x, at_place m y with Some a, Some b => len1 a b | _, _ => 0 end.
Definition step (m : map) (x y : place) (w : Z) : Prop :=
  (In (x, y) (rays_of m) /\ w = cost m x y) \/ (In (y, x) (rays_of m) /\ w = cost m y x).
(** The ways to the destination: from the place [x], [route x ys c] goes through the places [ys], the last of which is the
    destination, and costs [c]. *)
Inductive route (st : place -> place -> Z -> Prop) : place -> list place -> Z -> Prop :=
| route_here : route st dest [] 0
| route_next x y w ys c : st x y w -> route st y ys c -> route st x (y :: ys) (w + c).

(** A search answers well: -2 if there is no way from the start to the destination; if there is one, the answer is a way that
    no other way is cheaper than, given by the number of places it goes through and their coordinates, unless it goes through
    more than 100 places, in which case the answer is -1. *)
Definition good_answer (st : place -> place -> Z -> Prop) (at_ : place -> option P) (path : list P) (ret : Z) : Prop :=
  (ret = -2 /\ forall ys c, ~ route st start ys c) \/
  (exists ys c, route st start ys c /\ (forall ys' c', route st start ys' c' -> c <= c') /\
     ((length ys <= 100)%nat /\ ret = Z.of_nat (length ys) /\ List.map (@Some P) (firstn (length ys) path) = List.map at_ ys
      \/ (100 < length ys)%nat /\ ret = -1)).
End Spec.
