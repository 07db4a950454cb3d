From Coq Require Import ZArith List Bool Arith Lia.
From Verif Require Import CRes DijkModel DijkSpec.
Import ListNotations.
Local Open Scope Z_scope.

Definition nvis (g : graph) : nat := length (filter visited g).
Lemma nvis_upd_new g i x y : nth_error g i = Some y -> visited y = false -> visited x = true -> nvis (upd g i x) = S (nvis g).
Proof.
  unfold nvis. revert i; induction g as [|a g IH]; intros [|i] E V V'; cbn in *; try discriminate.
  - inversion E; subst. rewrite V, V'. reflexivity.
  - specialize (IH i E V V'). destruct (visited a); cbn; lia.
Qed.
Lemma nvis_upd_same g i x y : nth_error g i = Some y -> visited x = visited y -> nvis (upd g i x) = nvis g.
Proof.
  unfold nvis. revert i; induction g as [|a g IH]; intros [|i] E V; cbn in *; try discriminate.
  - inversion E; subst. rewrite V. destruct (visited y); reflexivity.
  - specialize (IH i E V). destruct (visited a); cbn; lia.
Qed.
Lemma filter_le {A} (f : A -> bool) l : (length (filter f l) <= length l)%nat.
Proof. induction l; cbn; auto. destruct (f a); cbn; lia. Qed.
Lemma nvis_lt g i y : nth_error g i = Some y -> visited y = false -> (nvis g < length g)%nat.
Proof.
  unfold nvis. revert i; induction g as [|a g IH]; intros [|i] E V; cbn in *; try discriminate.
  - inversion E; subst. rewrite V. pose proof (filter_le visited g). lia.
  - specialize (IH i E V). destruct (visited a); cbn; lia.
Qed.

Lemma nth_error_skipn' {A} (l : list A) k i : nth_error (skipn k l) i = nth_error l (k + i).
Proof. revert l; induction k as [|k IH]; intros [|a l]; cbn; auto. destruct i; auto. Qed.
Lemma skipn_skipn' {A} (l : list A) k j : skipn j (skipn k l) = skipn (j + k) l.
Proof. revert l j; induction k as [|k IH]; intros [|a l] j; rewrite ?Nat.add_0_r, ?Nat.add_succ_r; cbn; auto; try (destruct j; reflexivity). Qed.

Record DInv (g0 : graph) (s : nat) (g : graph) (v : nat) (es : list nat) : Prop := {
  d_len : length g = length g0;
  d_edges : forall i x, nth_error g i = Some x -> exists y, nth_error g0 i = Some y /\ edges x = edges y;
  d_start : exists x, nth_error g s = Some x /\ distance x = 0;
  d_range : forall i x, nth_error g i = Some x -> 0 <= distance x <= INT_MAX /\ (visited x = true -> distance x < INT_MAX);
  d_reach : forall i x, nth_error g i = Some x -> distance x <> INT_MAX -> (i = s /\ distance x = 0) \/
    exists p y, parent x = Some p /\ nth_error g p = Some y /\ visited y = true /\ In i (edges y) /\ distance x = distance y + 1;
  d_done : forall i x w, nth_error g i = Some x -> visited x = true -> In w (edges x) ->
    (i = v /\ In w es) \/ exists y, nth_error g w = Some y /\ distance y <= distance x + 1;
  d_before : forall i x y, nth_error g i = Some x -> visited x = true -> nth_error g v = Some y -> distance x <= distance y;
  d_after : forall i x y, nth_error g i = Some x -> visited x = false -> nth_error g v = Some y -> distance y <= distance x;
  d_none : forall i x, nth_error g i = Some x -> path_next x = None;
  d_bound : forall i x, nth_error g i = Some x -> distance x = INT_MAX \/ distance x + (if visited x then 1 else 0) <= Z.of_nat (nvis g);
  d_v : (v < length g)%nat;
  d_par : forall i x, nth_error g i = Some x -> distance x = INT_MAX -> parent x = None }.

Lemma closest_spec g0 k m v : forall g, skipn k g0 = g -> (v < length g0)%nat ->
  let r := closest g k m v in
  (r < length g0)%nat /\
  ((r = v /\ forall i x, (k <= i)%nat -> nth_error g0 i = Some x -> visited x = false -> m <= distance x) \/
   exists x, nth_error g0 r = Some x /\ visited x = false /\ distance x < m /\ forall i y, (k <= i)%nat -> nth_error g0 i = Some y -> visited y = false -> distance x <= distance y).
Proof.
  intros g; revert k m v; induction g as [|n g IH]; intros k m v K V.
  - cbn. split; auto. left. split; auto. intros i x L E. assert (length (skipn k g0) = 0%nat) by now rewrite K.
    rewrite skipn_length in H. apply nth_lt in E. lia.
  - assert (E0 : nth_error g0 k = Some n). { rewrite <- (Nat.add_0_r k), <- nth_error_skipn', K. reflexivity. }
    assert (K' : skipn (S k) g0 = g). { change (S k) with (1 + k)%nat. rewrite <- skipn_skipn', K. reflexivity. }
    pose proof (nth_lt _ _ _ E0) as L0.
    cbn [closest]. destruct (negb (visited n) && (distance n <? m)) eqn:C.
    + apply andb_prop in C as [C1 C2]. apply negb_true_iff in C1. apply Z.ltb_lt in C2.
      destruct (IH (S k) (distance n) k K' L0) as [R [[R1 R2]|(x & R1 & R2 & R3 & R4)]]; split; auto; right.
      * rewrite R1. exists n. split; auto. split; auto. split; auto. intros i y L E Y. destruct (Nat.eq_dec i k).
        -- subst. rewrite E in E0. inversion E0; subst. lia.
        -- apply (R2 i); auto. lia.
      * exists x. split; auto. split; auto. split; [lia|]. intros i y L E Y. destruct (Nat.eq_dec i k).
        -- subst. rewrite E in E0. inversion E0; subst. lia.
        -- apply (R4 i); auto. lia.
    + destruct (IH (S k) m v K' V) as [R [[R1 R2]|(x & R1 & R2 & R3 & R4)]]; split; auto.
      * left. split; auto. intros i y L E Y. destruct (Nat.eq_dec i k); [|apply (R2 i); auto; lia].
        subst. rewrite E in E0. inversion E0; subst. rewrite Y in C. cbn in C. apply Z.ltb_ge in C. auto.
      * right. exists x. split; auto. split; auto. split; auto. intros i y L E Y. destruct (Nat.eq_dec i k); [|apply (R4 i); auto; lia].
        subst. rewrite E in E0. inversion E0; subst. rewrite Y in C. cbn in C. apply Z.ltb_ge in C. lia.
Qed.

Ltac un H i w g := rewrite (upd_nth g) in H; destruct (Nat.eqb w i && (w <? length g)%nat) eqn:QQ;
  [let Q1 := fresh "Q1" in apply andb_prop in QQ as [Q1 _]; apply Nat.eqb_eq in Q1; subst; inversion H; subst; clear H; cbn [edges visited distance parent path_next] in *|].

Lemma relax_ok g0 s v : closed g0 -> Z.of_nat (length g0) < INT_MAX -> forall es g nv, DInv g0 s g v es -> nth_error g v = Some nv -> visited nv = true ->
  incl es (edges nv) -> exists g', relax v es g = OK g' /\ DInv g0 s g' v [] /\ nvis g' = nvis g /\ nth_error g' v = Some nv.
Proof.
  intros C0 L0 es; induction es as [|w es IH]; intros g nv I Ev Vv INC; cbn [relax]; [eauto|].
  destruct I as [I1 I2 I3 I4 I5 I6 I7 I8 I9 I10 I11 I12].
  assert (Lw : (w < length g)%nat). { rewrite I1. destruct (I2 _ _ Ev) as (y & Y1 & Y2). apply (C0 v). exists y. rewrite <- Y2. split; auto. apply INC; now left. }
  destruct (get_lt _ _ Lw) as (nw & Ew). unfold get. rewrite Ev, Ew. cbn [some rbind].
  destruct (I4 _ _ Ev) as [R1 R2]. specialize (R2 Vv). destruct (I4 _ _ Ew) as [R3 R4].
  rewrite int_ok by (unfold INT_MAX in *; lia). cbn [rbind].
  destruct (distance nv + 1 <? distance nw) eqn:Q.
  - apply Z.ltb_lt in Q. rewrite (put_ok g w) by auto. cbn [rbind].
    assert (Vw : visited nw = false). { destruct (visited nw) eqn:V; auto. specialize (I7 _ _ _ Ew V Ev). lia. }
    assert (N : w <> v) by (intros ->; rewrite Ev in Ew; inversion Ew; subst; lia).
    assert (X : exists x', x' = mkv (edges nw) (visited nw) (distance nv + 1) (Some v) (path_next nw)) by eauto.
    destruct X as (x' & X). rewrite <- X.
    assert (X1 : edges x' = edges nw) by now subst. assert (X2 : visited x' = visited nw) by now subst. assert (X3 : distance x' = distance nv + 1) by now subst.
    assert (X4 : parent x' = Some v) by now subst. assert (X5 : path_next x' = path_next nw) by now subst. clear X.
    assert (Ev' : nth_error (upd g w x') v = Some nv) by (rewrite upd_other; auto).
    assert (NV : nvis (upd g w x') = nvis g) by (apply nvis_upd_same with nw; auto).
    assert (Bw : Z.of_nat (nvis g) < INT_MAX). { pose proof (nvis_lt _ _ _ Ew Vw). lia. }
    assert (BV : distance nv + 1 <= Z.of_nat (nvis g)).
    { destruct (I10 _ _ Ev) as [|B]; [lia|]. now rewrite Vv in B. }
    destruct (IH (upd g w x') nv) as (g' & G1 & G2 & G3 & G4); auto.
    + constructor.
      * now rewrite upd_length.
      * intros i x E. un E i w g; [rewrite X1|]; eauto.
      * destruct I3 as (x & Y1 & Y2). exists x. split; auto. rewrite upd_other; auto. intros ->. rewrite Ew in Y1. inversion Y1; subst. lia.
      * intros i x E. un E i w g; [|eauto]. rewrite X2, X3, Vw. split; [lia|discriminate].
      * intros i x E D. un E i w g.
        -- right. exists v, nv. repeat split; auto. apply INC; now left.
        -- destruct (I5 _ _ E D) as [?|(p & y & P1 & P2 & P3 & P4 & P5)]; auto. right. exists p, y. repeat split; auto.
           rewrite upd_other; auto. intros ->. congruence.
      * intros i x u E V IN. un E i w g; [congruence|].
        destruct (I6 _ _ _ E V IN) as [[-> [->|O]]|(y & Y1 & Y2)]; auto.
        -- right. exists x'. rewrite upd_same by auto. split; auto. rewrite Ev in E. inversion E; subst. lia.
        -- right. destruct (Nat.eq_dec w u) as [->|].
           ++ exists x'. rewrite upd_same by auto. split; auto. rewrite Ew in Y1. inversion Y1; subst. lia.
           ++ exists y. now rewrite upd_other.
      * intros i x y E V E'. rewrite Ev' in E'. inversion E'; subst. un E i w g; [congruence|]. eauto.
      * intros i x y E V E'. rewrite Ev' in E'. inversion E'; subst. un E i w g; [lia|]. eauto.
      * intros i x E. un E i w g; eauto. rewrite X5. eauto.
      * intros i x E. rewrite NV. un E i w g; eauto. rewrite X2, Vw, X3. right. lia.
      * now rewrite upd_length.
      * intros i x E D. un E i w g; [lia|eauto].
    + intros u U. apply INC. now right.
    + exists g'. rewrite G3. auto.
  - apply Z.ltb_ge in Q. apply IH; auto.
    + constructor; auto. intros i x u E V IN. destruct (I6 _ _ _ E V IN) as [[-> [->|O]]|(y & Y1 & Y2)]; eauto.
      right. exists nw. rewrite Ev in E. inversion E; subst. auto.
    + intros u U. apply INC. now right.
Qed.

Definition unreached (g : graph) : Prop := forall i y, nth_error g i = Some y -> visited y = false -> distance y = INT_MAX.
Lemma search_ok g0 s : closed g0 -> Z.of_nat (length g0) < INT_MAX -> forall fuel g v u x, DInv g0 s g u [] -> nth_error g v = Some x ->
  ((visited x = true /\ unreached g) \/ (visited x = false /\ distance x < INT_MAX /\ forall i y, nth_error g i = Some y -> visited y = false -> distance x <= distance y)) ->
  (length g - nvis g < fuel)%nat -> exists g' w, search fuel g v = OK g' /\ DInv g0 s g' w [] /\ unreached g'.
Proof.
  intros C0 L0 fuel; induction fuel as [|fuel IH]; intros g v u x I E H F; [lia|].
  cbn [search]. unfold get. rewrite E. cbn [some rbind]. destruct H as [[V U]|(V & D & M)]; rewrite V; [eauto|].
  rewrite put_ok by (eapply nth_lt; eauto). cbn [rbind].
  assert (X : exists x', x' = mkv (edges x) true (distance x) (parent x) (path_next x)) by eauto.
  destruct X as (x' & X). rewrite <- X.
  assert (X1 : edges x' = edges x) by now subst. assert (X2 : visited x' = true) by now subst. assert (X3 : distance x' = distance x) by now subst.
  assert (X4 : parent x' = parent x) by now subst. assert (X5 : path_next x' = path_next x) by now subst. clear X.
  pose proof (nth_lt _ _ _ E) as L. pose proof (nvis_upd_new g v x' x E V X2) as NV. pose proof (nvis_lt _ _ _ E V) as NL.
  assert (Ev : nth_error (upd g v x') v = Some x') by (now apply upd_same).
  destruct (relax_ok g0 s v C0 L0 (edges x) (upd g v x') x') as (g' & G1 & G2 & G3 & G4); auto.
  - destruct I as [I1 I2 I3 I4 I5 I6 I7 I8 I9 I10 I11 I12]. destruct (get_lt _ _ I11) as (ux & Eu). constructor.
    + now rewrite upd_length.
    + intros i y H. un H i v g; [rewrite X1|]; eauto.
    + destruct I3 as (y & Y1 & Y2). destruct (Nat.eq_dec v s) as [->|N]; [exists x'; split; auto; rewrite X3; congruence|].
      exists y. rewrite upd_other; auto.
    + intros i y H. un H i v g; [rewrite X3|eauto]. specialize (I4 _ _ E). split; [tauto|lia].
    + intros i y H DD.
      assert (P : i = s /\ distance y = 0 \/ (exists p z, parent y = Some p /\ nth_error g p = Some z /\ visited z = true /\ In i (edges z) /\ distance y = distance z + 1)).
      { un H i v g; [rewrite X3, X4|]; apply I5; auto. lia. }
      destruct P as [P|(p & z & P1 & P2 & P3 & P4 & P5)]; auto. right. exists p, z. repeat split; auto. rewrite upd_other; auto. congruence.
    + intros i y w H VV IN. un H i v g; [left; split; auto; congruence|]. destruct (I6 _ _ _ H VV IN) as [[_ []]|(z & Z1 & Z2)].
      right. destruct (Nat.eq_dec v w) as [->|]; [exists x'|exists z; rewrite upd_other; auto]. split; auto. rewrite X3. congruence.
    + intros i y z H VV H'. rewrite Ev in H'. inversion H'; subst. un H i v g; [lia|]. specialize (I7 _ _ _ H VV Eu). specialize (I8 _ _ _ E V Eu). lia.
    + intros i y z H VV H'. rewrite Ev in H'. inversion H'; subst. un H i v g; [congruence|]. specialize (M _ _ H VV). lia.
    + intros i y H. un H i v g; [rewrite X5|]; eauto.
    + intros i y H. rewrite NV. un H i v g; [specialize (I10 _ _ E); rewrite X2, X3; rewrite V in I10; lia|]. specialize (I10 _ _ H). lia.
    + now rewrite upd_length.
    + intros i y H DD. un H i v g; [rewrite X4; apply (I12 _ _ E); lia|eauto].
  - rewrite X1. apply incl_refl.
  - rewrite G1. cbn [rbind]. assert (Lv : (v < length g')%nat) by (eapply nth_lt; eauto).
    assert (LL : length g' = length g) by (destruct G2 as [-> _ _ _ _ _ _ _ _ _ _ _], I; auto).
    destruct (closest_spec g' 0 INT_MAX v g' eq_refl Lv) as [R1 R2]. destruct (get_lt _ _ R1) as (r & Er).
    apply (IH _ _ v r); auto; [|lia]. destruct R2 as [[R2 R3]|(y & Y1 & Y2 & Y3 & Y4)].
    + left. rewrite R2, G4 in Er. inversion Er; subst. split; auto. intros i y H VV. specialize (R3 i y ltac:(lia) H VV).
      destruct G2 as [_ _ _ I4 _ _ _ _ _ _ _ _]. specialize (I4 _ _ H). lia.
    + right. rewrite Er in Y1. inversion Y1; subst. split; auto. split; auto. intros i z H VV. apply (Y4 i); auto. lia.
Qed.

Lemma init_inv g s x : nth_error (reset g) s = Some x -> DInv g s (upd (reset g) s (mkv (edges x) (visited x) 0 (parent x) (path_next x))) s [] /\
  (forall i y, nth_error (upd (reset g) s (mkv (edges x) (visited x) 0 (parent x) (path_next x))) i = Some y -> visited y = false /\ 0 <= distance y).
Proof.
  intro E. pose proof (nth_lt _ _ _ E) as L.
  assert (R : forall i y, nth_error (reset g) i = Some y -> exists z, nth_error g i = Some z /\ y = mkv (edges z) false INT_MAX None None).
  { intros i y H. unfold reset in H. rewrite nth_error_map in H. destruct (nth_error g i) as [z|]; inversion H; eauto. }
  destruct (R _ _ E) as (x0 & E0 & ->). cbn.
  assert (X : exists x', x' = mkv (edges x0) false 0 None None) by eauto. destruct X as (x' & X). rewrite <- X.
  assert (U : forall i y, nth_error (upd (reset g) s x') i = Some y -> (i = s /\ y = x') \/ (i <> s /\ exists z, nth_error g i = Some z /\ y = mkv (edges z) false INT_MAX None None)).
  { intros i y H. rewrite upd_nth in H. destruct (Nat.eqb s i) eqn:Q; cbn [andb] in H.
    - apply Nat.eqb_eq in Q. apply Nat.ltb_lt in L. rewrite L in H. inversion H; auto.
    - apply Nat.eqb_neq in Q. auto. }
  assert (Es : nth_error (upd (reset g) s x') s = Some x') by (now apply upd_same).
  split.
  - constructor.
    + rewrite upd_length. unfold reset. now rewrite map_length.
    + intros i y H. destruct (U _ _ H) as [[-> ->]|(N & z & Z1 & ->)]; eauto. exists x0. now subst.
    + exists x'. split; auto. now subst.
    + intros i y H. unfold INT_MAX. destruct (U _ _ H) as [[-> ->]|(N & z & Z1 & ->)]; subst; cbn; split; lia || discriminate.
    + intros i y H D. destruct (U _ _ H) as [[-> ->]|(N & z & Z1 & ->)]; [left; now subst|]. cbn in D. contradiction.
    + intros i y w H V. destruct (U _ _ H) as [[-> ->]|(N & z & Z1 & ->)]; subst; discriminate.
    + intros i y z H V. destruct (U _ _ H) as [[-> ->]|(N & z' & Z1 & ->)]; subst; discriminate.
    + intros i y z H V H'. rewrite Es in H'. inversion H'; subst. cbn. unfold INT_MAX in *. destruct (U _ _ H) as [[-> ->]|(N & z' & Z1 & ->)]; cbn; lia.
    + intros i y H. destruct (U _ _ H) as [[-> ->]|(N & z & Z1 & ->)]; now subst.
    + intros i y H. destruct (U _ _ H) as [[-> ->]|(N & z & Z1 & ->)]; [right|now left]. subst. cbn. lia.
    + now rewrite upd_length.
    + intros i y H _. destruct (U _ _ H) as [[-> ->]|(N & z & Z1 & ->)]; now subst.
  - intros i y H. unfold INT_MAX in *. destruct (U _ _ H) as [[-> ->]|(N & z & Z1 & ->)]; subst; cbn; split; auto; lia.
Qed.

(** After the search: exactly the nodes that can be reached have a distance, which is the length of a shortest walk. *)
Lemma dist_walk g0 s g u : DInv g0 s g u [] -> forall n i x, nth_error g i = Some x -> distance x = Z.of_nat n -> distance x <> INT_MAX -> walk g0 s i n.
Proof.
  intros I n; induction n as [|n IH]; intros i x E D N; destruct (d_reach _ _ _ _ _ I _ _ E N) as [[-> Z0]|(p & y & P1 & P2 & P3 & P4 & P5)].
  - constructor.
  - pose proof (d_range _ _ _ _ _ I _ _ P2). lia.
  - lia.
  - apply walk_edge with p; [apply (IH p y); auto; try lia|]. { pose proof (d_range _ _ _ _ _ I _ _ P2). specialize (proj2 H P3). lia. }
    destruct (d_edges _ _ _ _ _ I _ _ P2) as (z & Z1 & Z2). exists z. rewrite <- Z2. auto.
Qed.
Lemma walk_dist g0 s g u : DInv g0 s g u [] -> unreached g -> Z.of_nat (length g0) < INT_MAX -> forall e m, walk g0 s e m ->
  exists x, nth_error g e = Some x /\ visited x = true /\ distance x <= Z.of_nat m.
Proof.
  intros I U L e m W. remember s as s0 in W. induction W as [a|a b c n W IH (v & V1 & V2)]; subst.
  - destruct (d_start _ _ _ _ _ I) as (x & X1 & X2). exists x. split; auto. split; [|lia].
    destruct (visited x) eqn:V; auto. pose proof (U _ _ X1 V). unfold INT_MAX in *. lia.
  - destruct (IH eq_refl) as (x & X1 & X2 & X3). destruct (d_edges _ _ _ _ _ I _ _ X1) as (y & Y1 & Y2). rewrite V1 in Y1. inversion Y1; subst y.
    rewrite <- Y2 in V2. destruct (d_done _ _ _ _ _ I _ _ _ X1 X2 V2) as [[_ []]|(z & Z1 & Z2)]. exists z. split; auto. split; [|lia].
    destruct (visited z) eqn:V; auto. pose proof (U _ _ Z1 V). destruct (d_bound _ _ _ _ _ I _ _ X1) as [B|B]; [pose proof (proj2 (d_range _ _ _ _ _ I _ _ X1) X2); lia|].
    rewrite X2 in B. pose proof (filter_le visited g) as FL. fold (nvis g) in FL. rewrite (d_len _ _ _ _ _ I) in FL. lia.
Qed.

(** The last loop. Only path_next changes; nodes closer than [p] may be written, nodes at least as far are not. *)
Inductive chain (g : graph) (D : nat -> Z) : nat -> nat -> nat -> Prop :=
| chain_end b v : nth_error g b = Some v -> path_next v = None -> chain g D b b 0
| chain_next a v b c n : nth_error g a = Some v -> path_next v = Some b -> In b (edges v) -> D b = D a + 1 -> chain g D b c n -> chain g D a c (S n).
Lemma chain_leads g D a b n : chain g D a b n -> leads g a b n.
Proof. induction 1; [econstructor; eauto|]. econstructor; eauto. exists v. auto. Qed.
Lemma chain_upd g D q x a b n : (forall v, nth_error g q = Some v -> edges x = edges v) -> D q < D a -> chain g D a b n -> chain (upd g q x) D a b n.
Proof.
  intros X L C. induction C; [econstructor; eauto; rewrite upd_other; eauto; intros ->; lia|].
  econstructor; eauto. { rewrite upd_other; eauto. intros ->; lia. } apply IHC. lia.
Qed.
Definition same_but_links (g g' : graph) : Prop := length g' = length g /\ forall i x, nth_error g i = Some x -> exists y, nth_error g' i = Some y /\ edges y = edges x /\ distance y = distance x /\ parent y = parent x.
Lemma sbl_trans a b c : same_but_links a b -> same_but_links b c -> same_but_links a c.
Proof.
  intros [A1 A2] [B1 B2]. split; [congruence|]. intros i x E. destruct (A2 _ _ E) as (y & Y1 & Y2 & Y3 & Y4). destruct (B2 _ _ Y1) as (z & Z1 & Z2 & Z3 & Z4).
  exists z. rewrite Z2, Z3, Z4. auto.
Qed.
Lemma link_ok g0 s g u : DInv g0 s g u [] -> Z.of_nat (length g0) < INT_MAX -> forall n g1 p fuel e k x, same_but_links g g1 ->
  nth_error g p = Some x -> distance x = Z.of_nat n -> distance x <> INT_MAX -> Z.of_nat (n + k) < INT_MAX -> (n < fuel)%nat ->
  chain g1 (fun i => match nth_error g i with Some x => distance x | None => 0 end) p e k ->
  exists g', link fuel g1 s p (Z.of_nat k) = OK (g', Z.of_nat (n + k)) /\ same_but_links g g' /\
             chain g' (fun i => match nth_error g i with Some x => distance x | None => 0 end) s e (n + k).
Proof.
  intros I L n; induction n as [|n IH]; intros g1 p fuel e k x S E D N B F C; (destruct fuel as [|fuel]; [lia|]); cbn [link];
    destruct (d_reach _ _ _ _ _ I _ _ E N) as [[-> Z0]|(q & y & P1 & P2 & P3 & P4 & P5)].
  - rewrite Nat.eqb_refl. eauto.
  - pose proof (d_range _ _ _ _ _ I _ _ P2). lia.
  - lia.
  - destruct (Nat.eqb p s) eqn:Q.
    { apply Nat.eqb_eq in Q. subst. destruct (d_start _ _ _ _ _ I) as (z & Z1 & Z2). rewrite E in Z1. inversion Z1; subst. lia. }
    destruct S as [S1 S2]. destruct (S2 _ _ E) as (x1 & E1 & Ed1 & D1 & Pa1). destruct (S2 _ _ P2) as (y1 & F1 & Ed2 & D2 & Pa2).
    unfold get. rewrite E1. cbn [some rbind]. rewrite Pa1, P1. cbn [some rbind]. rewrite F1. cbn [some rbind].
    rewrite put_ok by (eapply nth_lt; eauto). cbn [rbind]. rewrite int_ok by (unfold INT_MAX in *; lia). cbn [rbind].
    replace (Z.of_nat k + 1) with (Z.of_nat (Datatypes.S k)) by lia.
    destruct (IH (upd g1 q (mkv (edges y1) (visited y1) (distance y1) (parent y1) (Some p))) q fuel e (Datatypes.S k) y) as (g' & G1 & G2 & G3); auto; try lia.
    + split; [now rewrite upd_length|]. intros i z Ez. destruct (S2 _ _ Ez) as (z1 & Z1 & Z2 & Z3 & Z4). destruct (Nat.eq_dec q i) as [->|].
      * rewrite upd_same by (eapply nth_lt; eauto). eexists; split; eauto. cbn. rewrite Ez in P2. inversion P2; subst. auto.
      * rewrite upd_other by auto. eauto.
    + apply chain_next with (mkv (edges y1) (visited y1) (distance y1) (parent y1) (Some p)) p; auto.
      * apply upd_same. eapply nth_lt; eauto.
      * cbn. now rewrite Ed2.
      * rewrite E, P2. lia.
      * apply chain_upd; auto. { cbn. intros v Hv. rewrite F1 in Hv. now inversion Hv. } rewrite E, P2. lia.
    + exists g'. replace (Datatypes.S n + k)%nat with (n + Datatypes.S k)%nat by lia. auto.
Qed.

Lemma searched g s : closed g -> Z.of_nat (length g) < INT_MAX -> (s < length g)%nat ->
  exists x g' u, get (reset g) s = OK x /\ put (reset g) s (mkv (edges x) (visited x) 0 (parent x) (path_next x)) = OK g' /\ length g' = length g /\
  exists g'', search (S (length g')) g' s = OK g'' /\ DInv g s g'' u [] /\ unreached g''.
Proof.
  intros C L Ls. assert (Lr : (s < length (reset g))%nat) by (unfold reset; rewrite map_length; auto).
  destruct (get_lt _ _ Lr) as (x & E). pose proof (init_inv g s x E) as [I V].
  set (g' := upd (reset g) s (mkv (edges x) (visited x) 0 (parent x) (path_next x))) in *.
  destruct (d_start _ _ _ _ _ I) as (y & Y1 & Y2).
  destruct (search_ok g s C L (S (length g')) g' s s y I Y1) as (g'' & u & G1 & G2 & G3).
  - right. split; [apply (V _ _ Y1)|]. split; [unfold INT_MAX in *; lia|]. intros i z Z1 Z2. destruct (V _ _ Z1). lia.
  - lia.
  - exists x, g', u. split; [now apply get_ok|]. split; [now apply put_ok|]. split; [unfold g'; rewrite upd_length; unfold reset; now rewrite map_length|].
    exists g''. auto.
Qed.
