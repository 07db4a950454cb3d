(** Proofs about obstacle avoidance: the rays that are computed are those of the map. *)
From Coq Require Import ZArith List Bool Arith Lia.
From Verif Require Import CRes OaModel OaSpec OaProofs OaProofs2 OaProofs3.
Import ListNotations.
Local Open Scope Z_scope.

Lemma foldM_filter {A B} (p : B -> bool) (f : A -> B -> res A) l a : foldM (fun a x => if p x then f a x else OK a) l a = foldM f (filter p l) a.
Proof. revert a; induction l as [|x l IH]; intro a; cbn; auto. destruct (p x); cbn; auto. destruct (f a x); cbn; auto. Qed.

(** The table for a list of rays. *)
Definition flat (R : list (place * place)) : list Z :=
  flat_map (fun r => [Z.of_nat (fst (fst r)); Z.of_nat (snd (fst r)); Z.of_nat (fst (snd r)); Z.of_nat (snd (snd r))]) R.
Definition enc (R : list (place * place)) : list Z * Z := (flat R ++ repeat 0 (2000 - 4 * length R), 4 * Z.of_nat (length R)).
Lemma flat_length R : length (flat R) = (4 * length R)%nat.
Proof. unfold flat. induction R as [|r R IH]; cbn; [auto|]. rewrite IH. lia. Qed.
Lemma flat_app R R' : flat (R ++ R') = flat R ++ flat R'.
Proof. unfold flat. apply flat_map_app. Qed.
Lemma upd_app {A} (u v : list A) i x : upd (u ++ v) (length u + i) x = u ++ upd v i x.
Proof. induction u as [|y u IH]; cbn; auto. now rewrite IH. Qed.
Lemma put_at {A} (u : list A) z v x : put (u ++ z :: v) (length u) x = OK (u ++ x :: v).
Proof.
  rewrite put_ok by (rewrite app_length; cbn [length]; lia). f_equal. rewrite <- (Nat.add_0_r (length u)), upd_app. reflexivity.
Qed.
Lemma push_ok R x y : push (enc R) (Z.of_nat (fst x)) (Z.of_nat (snd x)) (Z.of_nat (fst y)) (Z.of_nat (snd y)) =
  if (length R <? 500)%nat then OK (enc (R ++ [(x, y)])) else BAD.
Proof.
  unfold push, enc. destruct (Nat.ltb_spec (length R) 500) as [H|H].
  - replace (2000 - 4 * length R)%nat with (4 + (2000 - 4 * length (R ++ [(x, y)])))%nat by (rewrite app_length; cbn [length]; lia).
    set (z := (2000 - 4 * length (R ++ [(x, y)]))%nat). cbn [Nat.add repeat].
    assert (L : 4 * Z.of_nat (length R) = Z.of_nat (length (flat R))) by (rewrite flat_length; lia). rewrite L.
    rewrite zput_nat, put_at. cbn [rbind].
    replace (flat R ++ Z.of_nat (fst x) :: 0 :: 0 :: 0 :: repeat 0 z) with ((flat R ++ [Z.of_nat (fst x)]) ++ 0 :: 0 :: 0 :: repeat 0 z) by (now rewrite <- app_assoc).
    replace (Z.of_nat (length (flat R)) + 1) with (Z.of_nat (length (flat R ++ [Z.of_nat (fst x)]))) by (rewrite app_length; cbn [length]; lia).
    rewrite zput_nat, put_at. cbn [rbind].
    replace ((flat R ++ [Z.of_nat (fst x)]) ++ Z.of_nat (snd x) :: 0 :: 0 :: repeat 0 z) with ((flat R ++ [Z.of_nat (fst x); Z.of_nat (snd x)]) ++ 0 :: 0 :: repeat 0 z) by (now rewrite <- !app_assoc).
    replace (Z.of_nat (length (flat R)) + 2) with (Z.of_nat (length (flat R ++ [Z.of_nat (fst x); Z.of_nat (snd x)]))) by (rewrite app_length; cbn [length]; lia).
    rewrite zput_nat, put_at. cbn [rbind].
    replace ((flat R ++ [Z.of_nat (fst x); Z.of_nat (snd x)]) ++ Z.of_nat (fst y) :: 0 :: repeat 0 z) with ((flat R ++ [Z.of_nat (fst x); Z.of_nat (snd x); Z.of_nat (fst y)]) ++ 0 :: repeat 0 z) by (now rewrite <- !app_assoc).
    replace (Z.of_nat (length (flat R)) + 3) with (Z.of_nat (length (flat R ++ [Z.of_nat (fst x); Z.of_nat (snd x); Z.of_nat (fst y)]))) by (rewrite app_length; cbn [length]; lia).
    rewrite zput_nat, put_at. cbn [rbind]. f_equal. f_equal.
    + rewrite flat_app. cbn [flat flat_map app fst snd]. now rewrite <- !app_assoc.
    + rewrite app_length, flat_length. cbn [length]. lia.
  - replace (2000 - 4 * length R)%nat with 0%nat by lia. cbn [repeat]. rewrite app_nil_r.
    replace (4 * Z.of_nat (length R)) with (Z.of_nat (length (flat R))) by (rewrite flat_length; lia).
    rewrite zput_nat. unfold put. replace (length (flat R) <? length (flat R))%nat with false by (symmetry; apply Nat.ltb_ge; lia). reflexivity.
Qed.
Definition pushr (st : list Z * Z) (r : place * place) : res (list Z * Z) :=
  push st (Z.of_nat (fst (fst r))) (Z.of_nat (snd (fst r))) (Z.of_nat (fst (snd r))) (Z.of_nat (snd (snd r))).
Lemma pushes_ok L R : (length R <= 500)%nat -> foldM pushr L (enc R) = if (length R + length L <=? 500)%nat then OK (enc (R ++ L)) else BAD.
Proof.
  revert R; induction L as [|[x y] L IH]; intros R HR.
  - cbn. rewrite Nat.add_0_r, app_nil_r. replace (length R <=? 500)%nat with true by (symmetry; apply Nat.leb_le; lia). reflexivity.
  - cbn [foldM]. unfold pushr at 1. cbn [fst snd]. rewrite push_ok. destruct (Nat.ltb_spec (length R) 500) as [H|H].
    + cbn [rbind]. rewrite IH by (rewrite app_length; cbn [length]; lia). rewrite app_length, <- app_assoc. cbn [length app].
      replace (length R + 1 + length L)%nat with (length R + S (length L))%nat by lia. reflexivity.
    + cbn [rbind length]. replace (length R + S (length L) <=? 500)%nat with false by (symmetry; apply Nat.leb_gt; lia). reflexivity.
Qed.

Section Rays.
Context {P : Type}.
Variables (zero : P) (inbox : P -> bool) (crosses : P -> P -> list P -> bool) (len1 : P -> P -> Z).
Variables (o : oa P) (m : list (list P)).
Hypothesis Hold : holds zero o m.
Hypothesis fresh : rays o = repeat 0 2000 /\ weight o = repeat 0 1000.
Notation sees := (sees inbox crosses).
Notation rays_of := (rays_of inbox crosses).

Lemma blocked_ok skip a b : blocked crosses o (option_map Z.of_nat skip) a b = OK (negb (clear crosses m skip a b)).
Proof.
  unfold blocked, clear. rewrite (h_cur _ _ _ Hold), Nat2Z.id. pose proof (h_m _ _ _ Hold) as HM.
  assert (forall l r, (forall k, In k l -> (k < length m)%nat) ->
    foldM (fun r index => if (r : bool) then OK true else
        if match option_map Z.of_nat skip with Some i => Z.of_nat index =? i | None => false end then OK false
        else try vs := vertices o (Z.of_nat index) in OK (crosses a b vs)) l r =
    OK (r || negb (forallb (fun k => match skip with Some s => Nat.eqb k s | None => false end || negb (crosses a b (nth k m []))) l))) as G.
  { induction l as [|k l IH]; intros r Hl; [cbn; now rewrite orb_false_r|]. cbn [foldM forallb].
    destruct r; cbn [rbind orb]; [rewrite IH by (intros; apply Hl; now right); reflexivity|].
    assert (match option_map Z.of_nat skip with Some i => Z.of_nat k =? i | None => false end = match skip with Some s => Nat.eqb k s | None => false end) as ->.
    { destruct skip; cbn; auto. destruct (Nat.eqb_spec k n); [apply Z.eqb_eq; lia|apply Z.eqb_neq; lia]. }
    destruct (match skip with Some s => Nat.eqb k s | None => false end).
    - cbn [rbind orb andb]. rewrite IH by (intros; apply Hl; now right). reflexivity.
    - rewrite (vertices_ok zero o m) by (auto; apply Hl; now left). cbn [rbind orb]. rewrite IH by (intros; apply Hl; now right).
      destruct (crosses a b (nth k m [])); reflexivity. }
  rewrite G; [reflexivity|]. intros k Hk. apply in_seq in Hk. lia.
Qed.

Lemma vertex_at x : ok_place m x -> exists a, at_place m x = Some a /\ vertex o (Z.of_nat (fst x)) (Z.of_nat (snd x)) = OK a.
Proof. intro H. eexists. split; [apply (at_place_ok m x zero H)|now apply (vertex_ok zero o m)]. Qed.
Lemma len_bound i : (i < length m)%nat -> (length (nth i m []) <= 200)%nat.
Proof. intro Hi. pose proof (offset_S m i Hi). pose proof (offset_all m (S i)). pose proof (h_all _ _ _ Hold). lia. Qed.

Lemma side_ok i a st : (i < length m)%nat -> (a < length (nth i m []))%nat ->
  side_ray inbox crosses o (Z.of_nat i) st (Z.of_nat a) =
  let r := ((i, a), (i, ((a + 1) mod length (nth i m []))%nat)) in if sees m (Some i) (fst r) (snd r) then pushr st r else OK st.
Proof.
  intros Hi Ha. set (n := length (nth i m [])) in *. cbv zeta. cbn [fst snd].
  assert (H1 : ok_place m (i, a)) by (split; auto).
  assert (H2 : ok_place m (i, (a + 1) mod n)%nat) by (split; cbn [fst snd]; auto; apply Nat.mod_upper_bound; lia).
  destruct (vertex_at _ H1) as (u & U1 & U2). destruct (vertex_at _ H2) as (v & V1 & V2). cbn [fst snd] in U2, V2.
  unfold side_ray, OaSpec.sees. rewrite U1, V1, U2. cbn [rbind]. destruct (inbox u); [|reflexivity].
  rewrite (poly_get zero o m) by auto. cbn [rbind l]. fold n.
  replace (Z.rem (Z.of_nat a + 1) (Z.of_nat n)) with (Z.of_nat ((a + 1) mod n)).
  2:{ rewrite Z.rem_mod_nonneg by lia. rewrite Nat2Z.inj_mod. f_equal. lia. }
  rewrite V2. cbn [rbind]. destruct (inbox v); [|reflexivity].
  pose proof (blocked_ok (Some i) u v) as B. cbn [option_map] in B. rewrite B. cbn [rbind andb]. destruct (clear crosses m (Some i) u v); reflexivity.
Qed.
Lemma cross_ok i a j b u st : ok_place m (j, b) -> at_place m (i, a) = Some u -> inbox u = true ->
  cross_ray inbox crosses o (Z.of_nat i) (Z.of_nat a) (Z.of_nat j) u st (Z.of_nat b) =
  let r := ((i, a), (j, b)) in if sees m None (fst r) (snd r) then pushr st r else OK st.
Proof.
  intros H2 U1 Hu. cbv zeta. cbn [fst snd]. destruct (vertex_at _ H2) as (v & V1 & V2). cbn [fst snd] in V2.
  unfold cross_ray, OaSpec.sees. rewrite U1, V1, V2, Hu. cbn [rbind]. destruct (inbox v); [|reflexivity].
  pose proof (blocked_ok None u v) as B. cbn [option_map] in B. rewrite B. cbn [rbind andb]. destruct (clear crosses m None u v); reflexivity.
Qed.

Lemma calc_rays_ok : calc_rays inbox crosses o = if (length (rays_of m) <=? 500)%nat then OK (enc (rays_of m)) else BAD.
Proof.
  pose proof (h_m _ _ _ Hold) as HM.
  transitivity (foldM pushr (rays_of m) (enc [])); [|rewrite pushes_ok by (cbn; lia); reflexivity].
  unfold calc_rays. rewrite (proj1 fresh), (h_cur _ _ _ Hold). change (repeat 0 2000, 0) with (enc []).
  unfold OaSpec.rays_of. rewrite foldM_app.
  assert (E1 : foldM (fun st i => try pol := zget (polys o) i in foldM (side_ray inbox crosses o i) (zseq 0 (l pol)) st) (zseq 0 (Z.of_nat (length m))) (enc []) =
    foldM pushr (filter (fun r => sees m (Some (fst (fst r))) (fst r) (snd r)) (sides m)) (enc [])).
  { rewrite <- foldM_filter. unfold sides. rewrite foldM_flat_map, zseq0, Nat2Z.id, foldM_map. apply foldM_ext. intros st i Hi. apply in_seq in Hi.
    rewrite (poly_get zero o m) by (auto; lia). cbn [rbind l]. rewrite zseq0, Nat2Z.id, !foldM_map. apply foldM_ext. intros st' a Ha. apply in_seq in Ha.
    rewrite side_ok by lia. reflexivity. }
  rewrite E1. destruct (foldM pushr _ (enc [])) as [st0|]; [cbn [rbind]|reflexivity].
  rewrite <- foldM_filter. unfold pairs. rewrite foldM_flat_map, zseq0, foldM_map.
  replace (Z.to_nat (Z.of_nat (length m) - 1)) with (length m - 1)%nat by lia.
  assert (SQ : seq 0 (length m) = seq 0 (length m - 1) ++ [(length m - 1)%nat]).
  { replace (length m) with (length m - 1 + 1)%nat at 1 by lia. rewrite seq_app. reflexivity. }
  rewrite SQ, foldM_app.
  match goal with |- ?lhs = rbind ?a ?b => assert (E2 : lhs = a) end.
  { apply foldM_ext. intros st i Hi. apply in_seq in Hi. rewrite (poly_get zero o m) by (auto; lia). cbn [rbind l].
    rewrite zseq0, Nat2Z.id, foldM_map, foldM_flat_map. apply foldM_ext. intros st1 a Ha. apply in_seq in Ha.
    assert (H1 : ok_place m (i, a)) by (split; cbn; lia). destruct (vertex_at _ H1) as (u & U1 & U2). cbn [fst snd] in U2. rewrite U2. cbn [rbind].
    destruct (inbox u) eqn:Hu.
    - rewrite foldM_flat_map. replace (zseq (Z.of_nat i + 1) (Z.of_nat (length m))) with
        (List.map Z.of_nat (seq (Z.to_nat (Z.of_nat i + 1)) (Z.to_nat (Z.of_nat (length m) - (Z.of_nat i + 1))))) by reflexivity. rewrite foldM_map.
      replace (Z.to_nat (Z.of_nat i + 1)) with (i + 1)%nat by lia.
      replace (Z.to_nat (Z.of_nat (length m) - (Z.of_nat i + 1))) with (length m - (i + 1))%nat by lia.
      apply foldM_ext. intros st2 j Hj. apply in_seq in Hj. rewrite (poly_get zero o m) by (auto; lia). cbn [rbind l].
      rewrite zseq0, Nat2Z.id, !foldM_map. apply foldM_ext. intros st3 b Hb. apply in_seq in Hb.
      rewrite (cross_ok i a j b u); auto. split; cbn; lia.
    - symmetry. rewrite foldM_filter. assert (forall L : list (place * place), (forall r, In r L -> fst r = (i, a)) -> filter (fun r => sees m None (fst r) (snd r)) L = []) as G.
      { induction L as [|[x y] L IH]; intro HL; [reflexivity|]. cbn [filter fst snd]. pose proof (HL (x, y) (or_introl eq_refl)) as Q. cbn in Q. subst x.
        replace (sees m None (i, a) y) with false; [apply IH; intros; apply HL; now right|].
        unfold OaSpec.sees. rewrite U1. destruct (at_place m y); auto. now rewrite Hu. }
      rewrite G; [reflexivity|]. intros r Hr. apply in_flat_map in Hr as (j & _ & Hr). apply in_map_iff in Hr as (b & <- & _). reflexivity. }
  rewrite <- E2. match goal with |- ?r = rbind ?r' _ => destruct r as [st1|] end; [|reflexivity].
  cbn [rbind foldM]. replace (length m - (length m - 1 + 1))%nat with 0%nat by lia. cbn [seq flat_map].
  assert (forall (L : list nat), flat_map (fun _ : nat => @nil (place * place)) L = []) as Z0 by (induction L; auto).
  cbv beta zeta. rewrite Z0. reflexivity.
Qed.

Notation cost := (cost len1).
Lemma ray_places r : In r (rays_of m) -> ok_place m (fst r) /\ ok_place m (snd r).
Proof.
  unfold OaSpec.rays_of. rewrite in_app_iff, !filter_In. intros [[H _]|[H _]].
  - unfold sides in H. apply in_flat_map in H as (i & Hi & H). apply in_map_iff in H as (a & <- & Ha). apply in_seq in Hi, Ha. cbn [fst snd].
    split; split; cbn [fst snd]; try lia. apply Nat.mod_upper_bound. lia.
  - unfold pairs in H. apply in_flat_map in H as (i & Hi & H). apply in_flat_map in H as (a & Ha & H). apply in_flat_map in H as (j & Hj & H).
    apply in_map_iff in H as (b & <- & Hb). apply in_seq in Hi, Ha, Hj, Hb. split; split; cbn [fst snd]; lia.
Qed.
Lemma no_dest_ray r : In r (rays_of m) -> ~ (fst r = dest /\ snd r = dest).
Proof.
  unfold OaSpec.rays_of. rewrite in_app_iff, !filter_In. intros [[H _]|[H _]] [H1 H2].
  - unfold sides in H. apply in_flat_map in H as (i & Hi & H). apply in_map_iff in H as (a & <- & Ha). cbn in H1, H2. injection H1 as -> ->.
    rewrite (h_first _ _ _ Hold) in H2. discriminate.
  - unfold pairs in H. apply in_flat_map in H as (i & Hi & H). apply in_flat_map in H as (a & Ha & H). apply in_flat_map in H as (j & Hj & H).
    apply in_map_iff in H as (b & <- & Hb). cbn in H1, H2. injection H1 as -> ->. injection H2 as -> ->. apply in_seq in Hj. lia.
Qed.

Lemma nth_flat R k x y d : nth_error R k = Some (x, y) ->
  nth_error (flat R ++ d) (4 * k) = Some (Z.of_nat (fst x)) /\ nth_error (flat R ++ d) (4 * k + 1) = Some (Z.of_nat (snd x)) /\
  nth_error (flat R ++ d) (4 * k + 2) = Some (Z.of_nat (fst y)) /\ nth_error (flat R ++ d) (4 * k + 3) = Some (Z.of_nat (snd y)).
Proof.
  revert k; induction R as [|r R IH]; intros [|k] H; cbn in H; try discriminate.
  - injection H as ->. cbn. auto.
  - specialize (IH k H). replace (4 * S k)%nat with (4 + 4 * k)%nat by lia. exact IH.
Qed.
Lemma weights_ok R : (length R <= 500)%nat -> (forall r, In r R -> ok_place m (fst r) /\ ok_place m (snd r)) ->
  calc_rays_weight len1 o (fst (enc R)) (snd (enc R)) = OK (List.map (fun r => cost m (fst r) (snd r)) R ++ repeat 0 (1000 - length R)).
Proof.
  intros HR HO. unfold calc_rays_weight. cbn [fst snd enc]. rewrite (proj2 fresh).
  replace ((4 * Z.of_nat (length R) + 3) / 4) with (Z.of_nat (length R)).
  2:{ replace (4 * Z.of_nat (length R) + 3) with (3 + Z.of_nat (length R) * 4) by lia. rewrite Z.div_add by lia. change (3 / 4) with 0. lia. }
  rewrite zseq0, Nat2Z.id, foldM_map.
  set (g := fun r : place * place => cost m (fst r) (snd r)).
  assert (forall rest done, R = done ++ rest ->
    foldM (fun w i => try a := zget (flat R ++ repeat 0 (2000 - 4 * length R)) (4 * Z.of_nat i) in
      try b := zget (flat R ++ repeat 0 (2000 - 4 * length R)) (4 * Z.of_nat i + 1) in
      try c := zget (flat R ++ repeat 0 (2000 - 4 * length R)) (4 * Z.of_nat i + 2) in
      try d := zget (flat R ++ repeat 0 (2000 - 4 * length R)) (4 * Z.of_nat i + 3) in
      try x := vertex o a b in try y := vertex o c d in zput w (Z.of_nat i) (len1 x y))
      (seq (length done) (length rest)) (List.map g done ++ repeat 0 (1000 - length done)) =
    OK (List.map g R ++ repeat 0 (1000 - length R))) as G.
  { induction rest as [|[x y] rest IH]; intros done HD.
    - rewrite app_nil_r in HD. subst done. reflexivity.
    - cbn [length seq foldM].
      assert (Hk : nth_error R (length done) = Some (x, y)) by (rewrite HD, nth_error_app2, Nat.sub_diag by lia; reflexivity).
      destruct (nth_flat R _ x y (repeat 0 (2000 - 4 * length R)) Hk) as (N0 & N1 & N2 & N3).
      replace (4 * Z.of_nat (length done)) with (Z.of_nat (4 * length done)) by lia.
      replace (Z.of_nat (4 * length done) + 1) with (Z.of_nat (4 * length done + 1)) by lia.
      replace (Z.of_nat (4 * length done) + 2) with (Z.of_nat (4 * length done + 2)) by lia.
      replace (Z.of_nat (4 * length done) + 3) with (Z.of_nat (4 * length done + 3)) by lia.
      rewrite !zget_nat. unfold get. rewrite N0, N1, N2, N3. cbn [some rbind].
      destruct (HO (x, y)) as [Hx Hy]; [eapply nth_error_In; eauto|]. cbn [fst snd] in Hx, Hy.
      destruct (vertex_at _ Hx) as (u & U1 & U2). destruct (vertex_at _ Hy) as (v & V1 & V2). rewrite U2, V2. cbn [rbind].
      assert (LD : (length done < length R)%nat) by (rewrite HD, app_length; cbn [length]; lia).
      replace (1000 - length done)%nat with (S (1000 - length (done ++ [(x, y)])))%nat by (rewrite app_length; cbn [length]; lia).
      cbn [repeat]. rewrite zput_nat. pose proof (put_at (List.map g done) 0 (repeat 0 (1000 - length (done ++ [(x, y)]))) (len1 u v)) as PA.
      rewrite map_length in PA. rewrite PA. cbn [rbind].
      replace (S (length done)) with (length (done ++ [(x, y)])) by (rewrite app_length; cbn [length]; lia).
      rewrite <- (IH (done ++ [(x, y)])); [|now rewrite <- app_assoc]. f_equal.
      rewrite map_app, <- app_assoc. cbn [List.map app]. f_equal. f_equal. unfold g, OaSpec.cost. cbn [fst snd]. now rewrite U1, V1. }
  apply (G R []). reflexivity.
Qed.

(** The ends of rays. *)
Definition ends_of (R : list (place * place)) : list (place * place * Z) :=
  flat_map (fun r => [(fst r, snd r, cost m (fst r) (snd r)); (snd r, fst r, cost m (fst r) (snd r))]) R.
Lemma ends_length R : length (ends_of R) = (2 * length R)%nat.
Proof. unfold ends_of. induction R as [|r R IH]; cbn; [auto|]. rewrite IH. lia. Qed.
Lemma ends_in R x y c : In (x, y, c) (ends_of R) <-> (In (x, y) R /\ c = cost m x y) \/ (In (y, x) R /\ c = cost m y x).
Proof.
  unfold ends_of. rewrite in_flat_map. split.
  - intros ([a b] & H & [Q|[Q|[]]]); cbn in Q; injection Q as <- <- <-; auto.
  - intros [[H ->]|[H ->]]; [exists (x, y)|exists (y, x)]; split; auto; cbn; auto.
Qed.
Lemma ends_nth R k e : nth_error (ends_of R) k = Some e ->
  exists j r, nth_error R j = Some r /\ ((k = 2 * j)%nat /\ e = (fst r, snd r, cost m (fst r) (snd r)) \/ (k = 2 * j + 1)%nat /\ e = (snd r, fst r, cost m (fst r) (snd r))).
Proof.
  revert k; induction R as [|r R IH]; intros k H; [destruct k; discriminate|].
  destruct k as [|[|k]]; cbn in H.
  - injection H as <-. exists 0%nat, r. split; auto.
  - injection H as <-. exists 0%nat, r. split; auto.
  - destruct (IH k H) as (j & r' & H1 & H2). exists (S j), r'. split; [exact H1|]. destruct H2 as [[-> ->]|[-> ->]]; [left|right]; split; auto; lia.
Qed.

Lemma table_ok R (o1 : oa P) : (length R <= 500)%nat -> rays o1 = fst (enc R) ->
  weight o1 = List.map (fun r => cost m (fst r) (snd r)) R ++ repeat 0 (1000 - length R) ->
  forall k x y c, nth_error (ends_of R) k = Some (x, y, c) ->
  zget (rays o1) (2 * Z.of_nat k) = OK (Z.of_nat (fst x)) /\ zget (rays o1) (2 * Z.of_nat k + 1) = OK (Z.of_nat (snd x)) /\
  (let add := if Z.even (Z.of_nat k) then 2 else -2 in
   zget (rays o1) (2 * Z.of_nat k + add) = OK (Z.of_nat (fst y)) /\ zget (rays o1) (2 * Z.of_nat k + add + 1) = OK (Z.of_nat (snd y))) /\
  zget (weight o1) (Z.quot (2 * Z.of_nat k) 4) = OK c.
Proof.
  intros HR H1 H2 k x y c Hk. rewrite H1, H2. cbn [fst enc].
  destruct (ends_nth _ _ _ Hk) as (j & [a b] & Hj & HH). cbn [fst snd] in HH.
  destruct (nth_flat R j a b (repeat 0 (2000 - 4 * length R)) Hj) as (N0 & N1 & N2 & N3).
  set (tb := flat R ++ repeat 0 (2000 - 4 * length R)) in *.
  assert (G : forall n z, nth_error tb n = Some z -> zget tb (Z.of_nat n) = OK z) by (intros n z Q; rewrite zget_nat; unfold get; now rewrite Q).
  assert (WJ : forall q, q = Z.of_nat j -> zget (List.map (fun r => cost m (fst r) (snd r)) R ++ repeat 0 (1000 - length R)) q = OK (cost m a b)).
  { intros q ->. rewrite zget_nat. unfold get. rewrite nth_error_app1 by (rewrite map_length; now apply nth_lt in Hj).
    rewrite nth_error_map, Hj. reflexivity. }
  destruct HH as [[-> Q]|[-> Q]]; injection Q as -> -> ->.
  - replace (Z.even (Z.of_nat (2 * j))) with true by (rewrite Nat2Z.inj_mul, Z.even_mul; reflexivity).
    cbv zeta. replace (2 * Z.of_nat (2 * j)) with (Z.of_nat (4 * j)) by lia.
    replace (Z.of_nat (4 * j) + 1) with (Z.of_nat (4 * j + 1)) by lia. replace (Z.of_nat (4 * j) + 2) with (Z.of_nat (4 * j + 2)) by lia.
    replace (Z.of_nat (4 * j + 2) + 1) with (Z.of_nat (4 * j + 3)) by lia.
    split; [now apply G|split; [now apply G|split; [split; now apply G|]]]. apply WJ. rewrite Nat2Z.inj_mul. rewrite Z.mul_comm. apply Z.quot_mul. lia.
  - replace (Z.even (Z.of_nat (2 * j + 1))) with false by (rewrite Nat2Z.inj_add, Nat2Z.inj_mul, Z.even_add_mul_2 || (rewrite Nat2Z.inj_add, Z.even_add, Nat2Z.inj_mul, Z.even_mul); reflexivity).
    cbv zeta. replace (2 * Z.of_nat (2 * j + 1)) with (Z.of_nat (4 * j + 2)) by lia.
    replace (Z.of_nat (4 * j + 2) + 1) with (Z.of_nat (4 * j + 3)) by lia. replace (Z.of_nat (4 * j + 2) + -2) with (Z.of_nat (4 * j)) by lia.
    replace (Z.of_nat (4 * j) + 1) with (Z.of_nat (4 * j + 1)) by lia.
    split; [now apply G|split; [now apply G|split; [split; now apply G|]]]. apply WJ.
    rewrite Z.quot_div_nonneg by lia. replace (Z.of_nat (4 * j + 2)) with (2 + Z.of_nat j * 4) by lia. rewrite Z.div_add by lia. change (2 / 4) with 0. lia.
Qed.
End Rays.

Section Process.
Context {P : Type}.
Variables (zero : P) (inbox : P -> bool) (crosses : P -> P -> list P -> bool) (len1 : P -> P -> Z).
Notation rays_of := (rays_of inbox crosses).
Notation step := (step inbox crosses len1).

Lemma holds_reset o m : holds zero o m -> holds zero (oa_reset zero o) m.
Proof. intros []. constructor; auto. Qed.
Lemma holds_with (o : oa P) m w n r : holds zero o m ->
  holds zero (mkoa (polys o) (points o) (wk o) n (cur_poly_idx o) (cur_pt_idx o) w r (res_pts o) (res_len o)) m.
Proof. intros []. constructor; auto. Qed.
Lemma route_iff (s1 s2 : place -> place -> Z -> Prop) : (forall x y c, s1 x y c <-> s2 x y c) -> forall x ys c, route s1 x ys c -> route s2 x ys c.
Proof. intros H x ys c R. induction R; constructor; auto. now apply H. Qed.
Lemma good_answer_iff (s1 s2 : place -> place -> Z -> Prop) (at_ : place -> option P) path r : (forall x y c, s1 x y c <-> s2 x y c) ->
  good_answer s1 at_ path r -> good_answer s2 at_ path r.
Proof.
  intro H. assert (H' : forall x y c, s2 x y c <-> s1 x y c) by (intros; symmetry; apply H).
  intros [[H1 H2]|(ys & c & R & M & A)]; [left|right].
  - split; auto. intros ys c R. apply (H2 ys c). now apply (route_iff _ _ H').
  - exists ys, c. split; [now apply (route_iff _ _ H)|split; auto]. intros ys' c' R'. apply (M ys' c'). now apply (route_iff _ _ H').
Qed.

Theorem process_ok o m W : holds zero o m -> (length (rays_of m) <= 500)%nat ->
  (forall x y, In (x, y) (rays_of m) -> 1 <= cost len1 m x y <= W) -> (Z.of_nat (all_points m) + 1) * W < 2 ^ 31 -> 1 <= W ->
  exists f0, forall fuel, (f0 <= fuel)%nat -> exists o' r, oa_process zero inbox crosses len1 fuel o = OK (o', r) /\
    good_answer (step m) (at_place m) (fst (oa_get_path o')) r /\ snd (oa_get_path o') = r.
Proof.
  intros H HR HW Hs W1. pose proof (holds_reset o m H) as H1. set (o1 := oa_reset zero o) in *.
  assert (fresh : rays o1 = repeat 0 2000 /\ weight o1 = repeat 0 1000) by (split; reflexivity).
  pose proof (calc_rays_ok zero inbox crosses o1 m H1 fresh) as CR.
  replace (length (rays_of m) <=? 500)%nat with true in CR by (symmetry; now apply Nat.leb_le).
  assert (RP : forall r, In r (rays_of m) -> ok_place m (fst r) /\ ok_place m (snd r)) by (intros; eapply ray_places; eauto).
  pose proof (weights_ok zero len1 o1 m H1 fresh (rays_of m) HR RP) as CW.
  set (ws := List.map (fun r => cost len1 m (fst r) (snd r)) (rays_of m) ++ repeat 0 (1000 - length (rays_of m))) in *.
  set (o2 := mkoa (polys o1) (points o1) (wk o1) (snd (enc (rays_of m))) (cur_poly_idx o1) (cur_pt_idx o1) ws (fst (enc (rays_of m))) (res_pts o1) (res_len o1)).
  assert (H2 : holds zero o2 m) by (apply holds_with; exact H1).
  destruct (search_ok zero o2 m H2 (ends_of len1 m (rays_of m)) W) as (f0 & G); auto.
  { intros x y c Q. apply ends_in in Q as [[Q ->]|[Q ->]]; destruct (RP _ Q); cbn [fst snd] in *; auto. }
  { intros x y c Q. apply ends_in in Q as [Q|Q]; apply ends_in; auto. }
  { intros c Q. apply ends_in in Q as [[Q _]|[Q _]]; eapply no_dest_ray in Q; eauto. }
  { rewrite ends_length. cbn [ray_n o2 snd enc]. lia. }
  { apply (table_ok len1 m (rays_of m) o2 HR); reflexivity. }
  exists f0. intros fuel Hf. destruct (G fuel Hf) as (w & E1 & E2). destruct (E2 (res_pts o1)) as (rs & r & E3 & E4); [reflexivity|].
  unfold oa_process. fold o1. rewrite CR. cbn [rbind].

  destruct (enc (rays_of m)) as [tb n] eqn:EN. cbn [fst snd] in *. rewrite CW. cbn [rbind]. fold o2.
  unfold dijkstra. change (polys o2) with (polys o1). change 0 with (Z.of_nat 0) at 1. rewrite (poly_get zero o1 m) by (auto; pose proof (h_m _ _ _ H1); lia). cbn [rbind].
  change (get_pt _ 0) with (@OK nat 0%nat). cbn [rbind].
  change (put (valid (wk o2)) 0 2) with (@OK (list Z) (upd (repeat 0 MAX_PTS) 0 2)). cbn [rbind].
  change (passes fuel o2 _) with (passes fuel o2 work1). rewrite E1. cbn [rbind].
  change (res_pts (set_wk o2 w)) with (res_pts o1). change (set_wk o2 w) with (with_work o2 w). rewrite E3. cbn [rbind].
  eexists _, r. split; [reflexivity|]. cbn [oa_get_path fst snd res_pts res_len]. split; auto.
  eapply good_answer_iff; [|exact E4]. intros x y c. unfold back. apply ends_in.
Qed.
Theorem process_overflow fuel o m : holds zero o m -> (500 < length (rays_of m))%nat -> oa_process zero inbox crosses len1 fuel o = BAD.
Proof.
  intros H HR. pose proof (holds_reset o m H) as H1. unfold oa_process.
  rewrite (calc_rays_ok zero inbox crosses _ m H1) by (split; reflexivity).
  replace (length (rays_of m) <=? 500)%nat with false by (symmetry; now apply Nat.leb_gt). reflexivity.
Qed.
End Process.
