(** Obstacle avoidance: what is proved. *)
From Coq Require Import ZArith List Bool Arith Lia.
From Verif Require Import CRes OaModel OaSpec OaProofs OaProofs2 OaProofs3 OaProofs4.
Import ListNotations.
Local Open Scope Z_scope.

Section Props.
Context {P C F : Type}.
Variables (zero : P) (pt : Z -> Z -> P).
Variables (inbox : P -> bool) (crosses : P -> P -> list P -> bool) (len1 : P -> P -> Z) (circle_pt : C -> Z -> F -> nat -> P).
Notation run := (run zero pt inbox crosses len1 circle_pt).
Notation exec := (exec zero pt inbox crosses len1 circle_pt).
Notation map_of := (map_of zero pt circle_pt).
Notation map_step := (map_step zero pt circle_pt).
Notation start_map := (start_map pt).
Notation calls_ok := (calls_ok zero pt circle_pt).

Lemma run_holds h o : calls_ok start_map h -> run h = OK o -> holds zero o (map_of h).
Proof.
  unfold OaModel.run, OaSpec.map_of. pose proof (holds_init zero pt) as H0. revert H0. generalize (oa_init zero pt) as o0, start_map as m0.
  induction h as [|c h IH]; intros o0 m0 H0 HC E; cbn in E; [injection E as <-; exact H0|].
  destruct HC as [HC1 HC2]. pose proof (holds_step zero pt inbox crosses len1 circle_pt o0 m0 c H0 HC1) as S.
  destruct (exec o0 c) as [[o1 r]|] eqn:E1; [|discriminate]. cbn in E. cbn [fold_left]. apply (IH o1 (map_step m0 c)); auto. apply S.
Qed.

(** C28. After any sequence of calls whose arguments make sense (sizes not negative, vertices that exist):
    - the structure holds exactly the polygons that were declared since the last oa_init, each with the vertices last given to it,
      and polygon 0 holds the destination and the start: no call on a polygon changed another, or the start or the destination;
    - each vertex has its place in the table, which has 200 places, and no two vertices have the same. *)
Theorem oa_storage h o : calls_ok start_map h -> run h = OK o ->
  let m := map_of h in
  (forall k, (k < length m)%nat -> vertices o (Z.of_nat k) = OK (nth k m [])) /\
  (length m <= 20)%nat /\
  (forall k v, (k < length m)%nat -> (v < length (nth k m []))%nat -> exists pol a, get (polys o) k = OK pol /\ get_pt pol (Z.of_nat v) = OK a /\ (a < 200)%nat) /\
  (forall k v k' v' pol pol' a, (k < length m)%nat -> (v < length (nth k m []))%nat -> (k' < length m)%nat -> (v' < length (nth k' m []))%nat ->
     get (polys o) k = OK pol -> get (polys o) k' = OK pol' -> get_pt pol (Z.of_nat v) = OK a -> get_pt pol' (Z.of_nat v') = OK a -> k = k' /\ v = v').
Proof.
  intros HC E. pose proof (run_holds h o HC E) as H. cbv zeta. set (m := map_of h) in *.
  split; [intros k Hk; now apply (vertices_ok zero)|]. split; [apply H|].
  assert (G : forall k v, (k < length m)%nat -> (v < length (nth k m []))%nat -> exists pol, get (polys o) k = OK pol /\ get_pt pol (Z.of_nat v) = OK (idx m (k, v))).
  { intros k v Hk Hv. eexists. rewrite <- zget_nat. split; [apply (poly_get zero o m k H Hk)|].
    apply (get_pt_ok m _ (k, v)); [apply H|split; auto]. }
  split.
  - intros k v Hk Hv. destruct (G k v Hk Hv) as (pol & E1 & E2). exists pol, (idx m (k, v)). split; [auto|split; [auto|]].
    pose proof (idx_lt m (k, v) (conj Hk Hv)). pose proof (h_all _ _ _ H). lia.
  - intros k v k' v' pol pol' a Hk Hv Hk' Hv' E1 E1' E2 E2'. destruct (G k v Hk Hv) as (p & Q1 & Q2). destruct (G k' v' Hk' Hv') as (p' & Q1' & Q2').
    rewrite Q1 in E1. injection E1 as <-. rewrite Q1' in E1'. injection E1' as <-. rewrite Q2 in E2. injection E2 as <-. rewrite Q2' in E2'. injection E2' as E2'.
    apply (idx_inj m) in E2'; [|split; auto..]. injection E2' as -> ->. auto.
Qed.
(** C28. Such a call never has undefined behaviour, unless it is a search; declaring a polygon returns the next one if it fits,
    a null pointer if not; and after oa_init everything that fits in an empty map can be declared again. *)
Theorem oa_declare h o c : calls_ok start_map (h ++ [c]) -> run h = OK o -> (forall f, c <> Process f) ->
  exists o' r, exec o c = OK (o', r) /\ run (h ++ [c]) = OK o' /\
    match c with NewPoly n | Circle _ n _ => r = map_ret (map_of h) n | _ => True end.
Proof.
  intros HC E NP. assert (HC' : calls_ok start_map h /\ call_ok (map_of h) c).
  { revert HC. unfold OaSpec.map_of. generalize start_map. clear. induction h as [|d h IH]; intros m [H1 H2]; cbn in *; auto.
    destruct (IH _ H2) as [I1 I2]. auto. }
  destruct HC' as [HC1 HC2]. pose proof (run_holds h o HC1 E) as H. pose proof (holds_step zero pt inbox crosses len1 circle_pt o _ c H HC2) as S.
  destruct (exec o c) as [[o' r]|] eqn:E1; [|destruct S as (f & ->); now destruct (NP f)].
  exists o', r. split; auto. split; [|apply S]. unfold OaModel.run in *. rewrite foldM_app, E. cbn. now rewrite E1.
Qed.
Theorem oa_init_empties h : map_of (h ++ [Init]) = start_map.
Proof. unfold OaSpec.map_of. rewrite fold_left_app. reflexivity. Qed.

(** C27. After any sequence of calls, a search ends, and answers well: it finds a way of least cost along the rays of the map
    from the start to the destination, or reports that there is none. The table of rays holds 500 of them; costs are at least 1, and
    no sum of costs along a path overflows an int. *)
Theorem oa_path_partial h o W : calls_ok start_map h -> run h = OK o -> let m := map_of h in
  (length (rays_of inbox crosses m) <= 500)%nat ->
  (forall x y, In (x, y) (rays_of inbox crosses m) -> 1 <= cost len1 m x y <= W) -> (Z.of_nat (all_points m) + 1) * W < 2 ^ 31 -> 1 <= W ->
  exists f0, forall fuel, (f0 <= fuel)%nat -> exists o' r, exec o (Process fuel) = OK (o', Some r) /\
    snd (oa_get_path o') = r /\ good_answer (step inbox crosses len1 m) (at_place m) (fst (oa_get_path o')) r.
Proof.
  intros HC E m HR HW Hs W1. pose proof (run_holds h o HC E) as H.
  destruct (process_ok zero inbox crosses len1 o m W H HR HW Hs W1) as (f0 & G). exists f0. intros fuel Hf.
  destruct (G fuel Hf) as (o' & r & E1 & E2 & E3). exists o', r. cbn [OaModel.exec]. rewrite E1. cbn. auto.
Qed.
(** With more than 500 rays, the table overflows (polygon.c writes past the end of oa->rays, obstacle_avoidance.h 110). *)
Theorem oa_rays_overflow_refuted h o fuel : calls_ok start_map h -> run h = OK o -> (500 < length (rays_of inbox crosses (map_of h)))%nat ->
  exec o (Process fuel) = BAD.
Proof. intros HC E HR. pose proof (run_holds h o HC E) as H. cbn [OaModel.exec]. now rewrite (process_overflow zero inbox crosses len1 fuel o _ H HR). Qed.
(** C27, for every table of rays: whatever the rays between places of the map and their weights, the search and the
    reading of the path answer well. *)
Theorem oa_search_partial (o : oa P) m (R : list (place * place)) (wt : place * place -> Z) W :
  holds zero o m -> wk o = work0 -> (length R <= 500)%nat ->
  (forall r, In r R -> ok_place m (fst r) /\ ok_place m (snd r) /\ 1 <= wt r <= W) -> (forall r, In r R -> r <> (dest, dest)) ->
  (Z.of_nat (all_points m) + 1) * W < 2 ^ 31 -> 1 <= W ->
  (forall k r, nth_error R k = Some r -> firstn 4 (skipn (4 * k) (rays o)) = List.map Z.of_nat [fst (fst r); snd (fst r); fst (snd r); snd (snd r)]) ->
  ray_n o = 4 * Z.of_nat (length R) -> (forall k r, nth_error R k = Some r -> nth_error (weight o) k = Some (wt r)) -> length (res_pts o) = 100%nat ->
  exists f0, forall fuel, (f0 <= fuel)%nat -> exists w rs ret, dijkstra fuel o 0 0 = OK w /\ get_path MAX_CHKPOINTS (set_wk o w) 0 1 (res_pts o) = OK (rs, ret) /\
    good_answer (fun x y c => (In (x, y) R /\ c = wt (x, y)) \/ (In (y, x) R /\ c = wt (y, x))) (at_place m) rs ret.
Proof.
  intros H HW0 HR HO ND Hs W1 HT HN HWt HL.
  set (E := flat_map (fun r => [(fst r, snd r, wt r); (snd r, fst r, wt r)]) R).
  assert (EI : forall x y c, In (x, y, c) E <-> (In (x, y) R /\ c = wt (x, y)) \/ (In (y, x) R /\ c = wt (y, x))).
  { intros x y c. unfold E. rewrite in_flat_map. split.
    - intros ([a b] & Q & [Q2|[Q2|[]]]); cbn in Q2; injection Q2 as <- <- <-; auto.
    - intros [[Q ->]|[Q ->]]; [exists (x, y)|exists (y, x)]; split; auto; cbn; auto. }
  assert (EN : forall k e, nth_error E k = Some e -> exists j r, nth_error R j = Some r /\ ((k = 2 * j)%nat /\ e = (fst r, snd r, wt r) \/ (k = 2 * j + 1)%nat /\ e = (snd r, fst r, wt r))).
  { unfold E. clear. induction R as [|r R IH]; intros k e Q; [destruct k; discriminate|].
    destruct k as [|[|k]]; cbn in Q; [injection Q as <-; exists 0%nat, r; auto..|].
    destruct (IH k e Q) as (j & r' & H1 & H2). exists (S j), r'. split; [exact H1|]. destruct H2 as [[-> ->]|[-> ->]]; [left|right]; split; auto; lia. }
  assert (EL : length E = (2 * length R)%nat) by (unfold E; clear; induction R as [|r R IH]; cbn; [auto|]; rewrite IH; lia).
  destruct (search_ok zero o m H E W) as (f0 & G); auto.
  - intros x y c Q. apply EI in Q as [[Q ->]|[Q ->]]; destruct (HO _ Q) as (? & ? & ?); cbn [fst snd] in *; auto.
  - intros x y c Q. apply EI in Q as [Q|Q]; apply EI; auto.
  - intros c Q. apply EI in Q as [[Q _]|[Q _]]; now apply ND in Q.
  - rewrite EL. lia.
  - intros k x y c Q. destruct (EN _ _ Q) as (j & [a b] & Hj & HH). cbn [fst snd] in HH. pose proof (HT j _ Hj) as T. cbn [fst snd] in T.
    assert (G : forall i z, nth_error (List.map Z.of_nat [fst a; snd a; fst b; snd b]) i = Some z -> zget (rays o) (Z.of_nat (4 * j + i)) = OK z).
    { intros i z Qi. rewrite zget_nat. apply get_ok. assert (i < 4)%nat by (apply nth_lt in Qi; exact Qi). rewrite <- T in Qi.
      rewrite firstn_nth_error in Qi by auto. rewrite <- Qi. clear. generalize (4 * j)%nat as n. intro n. revert n; generalize (rays o) as l.
      induction l as [|z l IH]; intros [|n]; cbn; auto. now destruct i. }
    pose proof (G 0%nat _ eq_refl) as G0. pose proof (G 1%nat _ eq_refl) as G1. pose proof (G 2%nat _ eq_refl) as G2. pose proof (G 3%nat _ eq_refl) as G3. clear G.
    assert (WJ : forall q, q = Z.of_nat j -> zget (weight o) q = OK (wt (a, b))) by (intros q ->; rewrite zget_nat; apply get_ok; now apply HWt).
    destruct HH as [[-> QQ]|[-> QQ]]; injection QQ as -> -> ->.
    + replace (Z.even (Z.of_nat (2 * j))) with true by (rewrite Nat2Z.inj_mul, Z.even_mul; reflexivity).
      cbv zeta. replace (2 * Z.of_nat (2 * j)) with (Z.of_nat (4 * j + 0)) by lia.
      replace (Z.of_nat (4 * j + 0) + 1) with (Z.of_nat (4 * j + 1)) by lia. replace (Z.of_nat (4 * j + 0) + 2) with (Z.of_nat (4 * j + 2)) by lia.
      replace (Z.of_nat (4 * j + 2) + 1) with (Z.of_nat (4 * j + 3)) by lia.
      split; [auto|split; [auto|split; [split; auto|]]]. apply WJ. rewrite Z.quot_div_nonneg by lia. replace (Z.of_nat (4 * j + 0)) with (0 + Z.of_nat j * 4) by lia. rewrite Z.div_add by lia. reflexivity.
    + replace (Z.even (Z.of_nat (2 * j + 1))) with false by (rewrite Nat2Z.inj_add, Z.even_add, Nat2Z.inj_mul, Z.even_mul; reflexivity).
      cbv zeta. replace (2 * Z.of_nat (2 * j + 1)) with (Z.of_nat (4 * j + 2)) by lia.
      replace (Z.of_nat (4 * j + 2) + 1) with (Z.of_nat (4 * j + 3)) by lia. replace (Z.of_nat (4 * j + 2) + -2) with (Z.of_nat (4 * j + 0)) by lia.
      replace (Z.of_nat (4 * j + 0) + 1) with (Z.of_nat (4 * j + 1)) by lia.
      split; [auto|split; [auto|split; [split; auto|]]]. apply WJ.
      rewrite Z.quot_div_nonneg by lia. replace (Z.of_nat (4 * j + 2)) with (2 + Z.of_nat j * 4) by lia. rewrite Z.div_add by lia. change (2 / 4) with 0. lia.
  - exists f0. intros fuel Hf. destruct (G fuel Hf) as (w & E1 & E2). destruct (E2 (res_pts o) HL) as (rs & r & E3 & E4).
    exists w, rs, r. split; [|split; [exact E3|]].
    + unfold dijkstra. change 0 with (Z.of_nat 0) at 1. rewrite (poly_get zero o m) by (auto; pose proof (h_m _ _ _ H); lia). cbn [rbind].
      change (get_pt _ 0) with (@OK nat 0%nat). cbn [rbind]. rewrite HW0.
      change (put (valid work0) 0 2) with (@OK (list Z) (upd (repeat 0 MAX_PTS) 0 2)). cbn [rbind]. exact E1.
    + eapply good_answer_iff; [|exact E4]. intros. apply EI.
Qed.
End Props.

(** A geometry to make examples with: integer coordinates, obstacles are what lies strictly inside the bounding rectangle of the
    polygon, seen from points of the segment taken every eighth; lengths are |dx| + |dy| + 1. *)
Definition ex_pt (x y : Z) : Z * Z := (x, y).
Definition ex_inbox (p : Z * Z) : bool := (0 <=? fst p) && (fst p <=? 3000) && (0 <=? snd p) && (snd p <=? 2000).
Definition ex_lo (f : Z * Z -> Z) (vs : list (Z * Z)) := fold_left (fun a v => Z.min a (f v)) vs 100000.
Definition ex_hi (f : Z * Z -> Z) (vs : list (Z * Z)) := fold_left (fun a v => Z.max a (f v)) vs (-100000).
Definition ex_crosses (p q : Z * Z) (vs : list (Z * Z)) : bool :=
  existsb (fun k => let x := (fst p * (8 - k) + fst q * k) / 8 in let y := (snd p * (8 - k) + snd q * k) / 8 in
     (ex_lo fst vs <? x) && (x <? ex_hi fst vs) && (ex_lo snd vs <? y) && (y <? ex_hi snd vs)) [0; 1; 2; 3; 4; 5; 6; 7; 8].
Definition ex_len1 (p q : Z * Z) : Z := Z.abs (fst p - fst q) + Z.abs (snd p - snd q) + 1.
Definition ex_circle_pt (c : Z * Z) (n : Z) (off : Z) (i : nat) : Z * Z := (fst c + Z.of_nat i, snd c + off).
Definition ex_run := run (0, 0) ex_pt ex_inbox ex_crosses ex_len1 ex_circle_pt.
Definition ex_exec := exec (0, 0) ex_pt ex_inbox ex_crosses ex_len1 ex_circle_pt.
Definition ex_map_of := map_of (0, 0) ex_pt ex_circle_pt.
(** A square in the way (lib/aversive/tests/obstacle_avoidance.cpp 52-70). *)
Definition ex_square : list (op (Z * Z) Z) :=
  [StartEnd 1000 1000 2000 1100; NewPoly 4; SetPoint 1 1400 900 3; SetPoint 1 1400 1300 2; SetPoint 1 1600 1300 1; SetPoint 1 1600 900 0].
Ltac calls_tac := repeat (split; [first [exact I | split; vm_compute; congruence | split; split; vm_compute; congruence]|]); exact I.
Example oa_storage_ex : calls_ok (0, 0) ex_pt ex_circle_pt (start_map ex_pt) (ex_square ++ [Circle (5, 5) 3 7; Init; NewPoly 198; NewPoly 1]) /\
  exists o, ex_run ex_square = OK o /\ vertices o 1 = OK [(1600, 900); (1600, 1300); (1400, 1300); (1400, 900)] /\ vertices o 0 = OK [(2000, 1100); (1000, 1000)].
Proof. split; [calls_tac|]. eexists. split; [vm_compute; reflexivity|]. split; vm_compute; reflexivity. Qed.
(** The search finds the way round the square. *)
Example oa_path_ex : (length (rays_of ex_inbox ex_crosses (ex_map_of ex_square)) <= 500)%nat /\
  (forall x y, In (x, y) (rays_of ex_inbox ex_crosses (ex_map_of ex_square)) -> 1 <= cost ex_len1 (ex_map_of ex_square) x y <= 5001) /\
  (Z.of_nat (all_points (ex_map_of ex_square)) + 1) * 5001 < 2 ^ 31 /\
  exists o o', ex_run ex_square = OK o /\ ex_exec o (Process 10) = OK (o', Some 3) /\
    firstn 3 (fst (oa_get_path o')) = [(1400, 900); (1600, 900); (2000, 1100)].
Proof.
  split; [vm_compute; lia|]. split.
  - assert (G : forallb (fun r => (1 <=? cost ex_len1 (ex_map_of ex_square) (fst r) (snd r)) && (cost ex_len1 (ex_map_of ex_square) (fst r) (snd r) <=? 5001))
      (rays_of ex_inbox ex_crosses (ex_map_of ex_square)) = true) by (vm_compute; reflexivity).
    rewrite forallb_forall in G. intros x y H. specialize (G _ H). cbn [fst snd] in G. apply andb_prop in G as [G1 G2].
    apply Z.leb_le in G1, G2. auto.
  - split; [vm_compute; reflexivity|]. eexists _, _. split; [vm_compute; reflexivity|]. split; vm_compute; reflexivity.
Qed.
(** No way: the start is inside an obstacle. *)
Example oa_no_path_ex : exists o o', ex_run (ex_square ++ [StartEnd 1500 1000 2000 1100]) = OK o /\ ex_exec o (Process 10) = OK (o', Some (-2)).
Proof. eexists _, _. split; [vm_compute; reflexivity|]. vm_compute; reflexivity. Qed.
(** Fourteen triangles in a row that see each other: the table of rays overflows. *)
Definition triangles : list (op (Z * Z) Z) :=
  concat (List.map (fun k => [NewPoly 3; SetPoint k (200 * k) 500 0; SetPoint k (200 * k + 1) 501 1; SetPoint k (200 * k + 2) 500 2]) [1; 2; 3; 4; 5; 6; 7; 8; 9; 10; 11; 12; 13; 14]).
Example oa_rays_overflow_ex : calls_ok (0, 0) ex_pt ex_circle_pt (start_map ex_pt) triangles /\
  (500 < length (rays_of ex_inbox ex_crosses (ex_map_of triangles)))%nat /\ exists o, ex_run triangles = OK o /\ ex_exec o (Process 10) = BAD.
Proof.
  split; [calls_tac|]. split; [apply Nat.ltb_lt; vm_compute; reflexivity|].
  eexists. split; [vm_compute; reflexivity|]. vm_compute. reflexivity.
Qed.
(** A negative size is accepted, and the next polygon is made of the start and the destination. *)
Theorem oa_negative_size_refuted : exists o1 o2, ex_run [NewPoly (-2); NewPoly 2] = OK o1 /\ ex_exec o1 (SetPoint 2 7 8 0) = OK (o2, None) /\
  vertices o1 0 = OK [(100, 100); (0, 0)] /\ vertices o2 0 = OK [(7, 8); (0, 0)].
Proof. eexists _, _. split; [vm_compute; reflexivity|]. split; [vm_compute; reflexivity|]. split; vm_compute; reflexivity. Qed.
(** The polygons of a copy are still in the original: searching in the copy reads its own arrays at a meaningless index. *)
Theorem oa_copy_refuted fuel : exists o, ex_run ex_square = OK o /\ ex_exec (oa_copy o) (Process fuel) = BAD.
Proof. eexists. split; [vm_compute; reflexivity|]. reflexivity. Qed.

Print Assumptions oa_storage.
Print Assumptions oa_declare.
Print Assumptions oa_path_partial.
Print Assumptions oa_search_partial.
Print Assumptions oa_copy_refuted.
