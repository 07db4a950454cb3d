(** C26: the unit-weight path search. *)
From Coq Require Import ZArith List Bool Arith Lia.
From Verif Require Import CRes DijkModel DijkSpec DijkProofs.
Import ListNotations.
Local Open Scope Z_scope.

(** On every graph (whatever the fields of its nodes hold before), between two nodes that a path joins, the search ends, returns
    the length of a shortest path, and leaves links that follow edges from the start to the end, where they stop. The edges
    are left as they are, so the graph can be searched again. *)
Theorem dijkstra_shortest g s e : closed g -> Z.of_nat (length g) < INT_MAX -> (s < length g)%nat -> (exists m, walk g s e m) ->
  exists g' n, dijkstra g s e = OK (g', Z.of_nat n) /\ shortest g s e n /\ leads g' s e n /\ map edges g' = map edges g.
Proof.
  intros C L Ls (m & W). unfold dijkstra. destruct (searched g s C L Ls) as (x & g' & u & E1 & E2 & E3 & g'' & E4 & I & U).
  rewrite E1. cbn [rbind]. rewrite E2. cbn [rbind]. rewrite E4. cbn [rbind].
  destruct (walk_dist g s g'' u I U L e m W) as (y & Y1 & Y2 & Y3). destruct (d_range _ _ _ _ _ I _ _ Y1) as [R1 R2]. specialize (R2 Y2).
  set (n := Z.to_nat (distance y)). assert (D : distance y = Z.of_nat n) by (unfold n; lia).
  assert (Bn : (n < length g)%nat).
  { destruct (d_bound _ _ _ _ _ I _ _ Y1) as [|B]; [lia|]. rewrite Y2 in B. pose proof (filter_le visited g'') as F. fold (nvis g'') in F.
    rewrite (d_len _ _ _ _ _ I) in F. lia. }
  destruct (link_ok g s g'' u I L n g'' e (S (length g'')) e 0 y) as (r & R3 & R4 & R5); auto; try lia.
  - split; auto. intros i z Z1. eauto.
  - rewrite (d_len _ _ _ _ _ I). lia.
  - apply chain_end with y; auto. apply (d_none _ _ _ _ _ I _ _ Y1).
  - exists r, n. replace (n + 0)%nat with n in * by lia. change (Z.of_nat 0) with 0 in R3. split; auto. split; [split|split].
    + apply (dist_walk g s g'' u I n e y); auto. lia.
    + intros m' W'. destruct (walk_dist g s g'' u I U L e m' W') as (z & Z1 & Z2 & Z3). rewrite Y1 in Z1. inversion Z1; subst. lia.
    + eapply chain_leads; eauto.
    + destruct R4 as [R6 R7]. apply nth_error_ext'. intro i. rewrite !nth_error_map.
      destruct (nth_error g'' i) as [z|] eqn:Z1.
      * destruct (R7 _ _ Z1) as (w & -> & Ew & _). destruct (d_edges _ _ _ _ _ I _ _ Z1) as (v & -> & Ev). cbn. congruence.
      * apply nth_error_None in Z1. assert (nth_error r i = None) as -> by (apply nth_error_None; lia).
        assert (nth_error g i = None) as -> by (apply nth_error_None; rewrite <- (d_len _ _ _ _ _ I); auto). reflexivity.
Qed.

(** When no path joins them, a null pointer is dereferenced: the caller must know that there is one. *)
Theorem dijkstra_unreachable_refuted g s e : closed g -> Z.of_nat (length g) < INT_MAX -> (s < length g)%nat -> (e < length g)%nat ->
  (forall m, ~ walk g s e m) -> dijkstra g s e = BAD.
Proof.
  intros C L Ls Le W. unfold dijkstra. destruct (searched g s C L Ls) as (x & g' & u & E1 & E2 & E3 & g'' & E4 & I & U).
  rewrite E1. cbn [rbind]. rewrite E2. cbn [rbind]. rewrite E4. cbn [rbind link]. destruct (Nat.eqb e s) eqn:Q.
  - apply Nat.eqb_eq in Q. subst. destruct (W 0%nat). constructor.
  - destruct (get_lt g'' e) as (y & Y). { rewrite (d_len _ _ _ _ _ I). auto. } unfold get. rewrite Y. cbn [some rbind].
    rewrite (d_par _ _ _ _ _ I _ _ Y); auto. destruct (Z.eq_dec (distance y) INT_MAX) as [|N]; auto.
    destruct (d_range _ _ _ _ _ I _ _ Y) as [R _]. destruct (W (Z.to_nat (distance y))). apply (dist_walk g s g'' u I _ _ y); auto. lia.
Qed.

(** Connecting nodes of the array keeps every edge in it; the eleventh edge of a node is written out of its table. *)
Theorem dijkstra_connect g a b g' : closed g -> (b < length g)%nat -> connect g a b = OK g' ->
  closed g' /\ length g' = length g /\ forall x y, edge g' x y <-> edge g x y \/ (x = a /\ y = b).
Proof.
  intros C B H. unfold connect, get in H. destruct (nth_error g a) as [v|] eqn:E; [|discriminate]. cbn [some rbind] in H.
  destruct (_ <? _)%nat; [|discriminate]. pose proof (nth_lt _ _ _ E) as L. rewrite put_ok in H by auto. inversion H; subst. clear H.
  assert (X : forall x y, edge (upd g a (mkv (edges v ++ [b]) (visited v) (distance v) (parent v) (path_next v))) x y <-> edge g x y \/ (x = a /\ y = b)).
  { intros x y. unfold edge. destruct (Nat.eq_dec a x) as [<-|N].
    - rewrite upd_same, E by auto. split.
      + intros (w & W1 & W2). inversion W1; subst. cbn in W2. apply in_app_iff in W2 as [W2|[->|[]]]; eauto.
      + intros [(w & W1 & W2)|[_ ->]]; eexists; split; eauto; cbn; apply in_app_iff; [inversion W1; subst; auto|right; now left].
    - rewrite upd_other by auto. split; [auto|]. intros [?|[-> _]]; [auto|contradiction]. }
  split; [|split]; auto; [|apply upd_length]. intros x y Y. rewrite upd_length. apply X in Y as [Y|[_ ->]]; eauto.
Qed.
Theorem dijkstra_connect_overflow_refuted g a b v : nth_error g a = Some v -> length (edges v) = 10%nat -> connect g a b = BAD.
Proof. intros E L. unfold connect, get. rewrite E. cbn [some rbind]. now rewrite L. Qed.

(** A case: five nodes, a detour, a cycle and stale fields. *)
Definition ex_graph : graph :=
  [mkv [1; 2; 0]%nat true 7 (Some 4%nat) (Some 3%nat); mkv [0; 3]%nat false 0 None None; mkv [1; 4; 4]%nat true 1 None (Some 2%nat); mkv [4; 0]%nat false 9 None None; mkv [3]%nat false 3 None None].
Example ex_closed : closed ex_graph.
Proof. intros a b (v & V & I). destruct a as [|[|[|[|[|a]]]]]; cbn in V; inversion V; subst; cbn in I; cbn; intuition; try lia. destruct a; discriminate. Qed.
Example ex_found : match dijkstra ex_graph 1 4 with OK (g, n) => n = 2 /\ map path_next g = [None; Some 3%nat; None; Some 4%nat; None] | BAD => False end.
Proof. vm_compute. auto. Qed.
Example ex_walk : walk ex_graph 1 4 2.
Proof. apply walk_edge with 3%nat; [apply walk_edge with 1%nat; [constructor|]|]; eexists; split; try reflexivity; cbn; auto. Qed.
Print Assumptions dijkstra_shortest.
Print Assumptions dijkstra_unreachable_refuted.
Print Assumptions dijkstra_connect.
