(** Proofs about obstacle avoidance: every history of calls keeps the tables and the map in step. *)
From Coq Require Import ZArith List Bool Arith Lia.
From Verif Require Import CRes OaModel OaSpec OaProofs.
Import ListNotations.
Local Open Scope Z_scope.

Lemma foldM_pres {A B} (I : A -> Prop) (f : A -> B -> res A) l a a' :
  (forall a x a', I a -> f a x = OK a' -> I a') -> I a -> foldM f l a = OK a' -> I a'.
Proof.
  intro H. revert a; induction l as [|x l IH]; intros a Ha E; cbn in E; [now injection E as <-|].
  destruct (f a x) eqn:F; [|discriminate]. cbn in E. eauto.
Qed.
Lemma put_length {A} (l l' : list A) i x : put l i x = OK l' -> length l' = length l.
Proof. unfold put. destruct (i <? length l)%nat; [|discriminate]. intro H; injection H as <-. apply upd_length. Qed.
Lemma put_inv {A} (l l' : list A) i x : put l i x = OK l' -> l' = upd l i x /\ (i < length l)%nat.
Proof. unfold put. destruct (i <? length l)%nat eqn:E; [|discriminate]. intro H; injection H as <-. apply Nat.ltb_lt in E. auto. Qed.
Lemma replace_length {A} (x : list A) i y : (i < length x)%nat -> length (replace x i y) = length x.
Proof. intro H. unfold replace. rewrite app_length, firstn_length; cbn [length]. rewrite skipn_length. lia. Qed.
Lemma replace_nth {A} (x : list A) i y j d : (i < length x)%nat -> nth j (replace x i y) d = if Nat.eqb i j then y else nth j x d.
Proof.
  intro H. unfold replace. assert (L : length (firstn i x) = i) by (rewrite firstn_length; lia).
  destruct (lt_eq_lt_dec i j) as [[Q| <-]|Q].
  - rewrite app_nth2 by lia. rewrite L. replace (j - i)%nat with (S (j - S i)) by lia.
    cbn [nth]. replace (Nat.eqb i j) with false by (symmetry; apply Nat.eqb_neq; lia).
    rewrite <- (firstn_skipn (S i) x) at 2. rewrite app_nth2; rewrite firstn_length; [|lia]. f_equal; lia.
  - rewrite Nat.eqb_refl, app_nth2 by lia. now rewrite L, Nat.sub_diag.
  - replace (Nat.eqb i j) with false by (symmetry; apply Nat.eqb_neq; lia). rewrite app_nth1 by lia.
    rewrite <- (firstn_skipn i x) at 2. now rewrite app_nth1 by lia.
Qed.

Section Hist.
Context {P C F : Type}.
Variables (zero : P) (pt : Z -> Z -> P).
Variables (inbox : P -> bool) (crosses : P -> P -> list P -> bool) (len1 : P -> P -> Z) (circle_pt : C -> Z -> F -> nat -> P).
Notation holds := (holds zero).
Notation map_step := (map_step zero pt circle_pt).
Notation start_map := (start_map pt).

Lemma same_shape_offset (m m' : list (list P)) : length m' = length m -> (forall k, length (nth k m' []) = length (nth k m [])) ->
  forall k, offset m' k = offset m k.
Proof.
  unfold offset. revert m'; induction m as [|v m IH]; intros [|v' m'] L H k; cbn in L; try lia.
  destruct k as [|k]; [reflexivity|]. cbn. rewrite !app_length. f_equal; [apply (H 0%nat)|]. apply IH; [lia|]. intro j. apply (H (S j)).
Qed.
Lemma same_shape_all (m m' : list (list P)) : length m' = length m -> (forall k, length (nth k m' []) = length (nth k m [])) ->
  all_points m' = all_points m.
Proof. intros L H. rewrite <- !offset_len, L. now apply same_shape_offset. Qed.
Lemma locate (m : list (list P)) i : (i < all_points m)%nat -> exists x, ok_place m x /\ idx m x = i.
Proof.
  unfold ok_place, idx, offset, all_points. revert i; induction m as [|v m IH]; intros i H; cbn in H; [lia|].
  rewrite app_length in H. destruct (lt_dec i (length v)) as [Q|Q].
  - exists (0, i)%nat. cbn. split; [split|]; auto; lia.
  - destruct (IH (i - length v)%nat) as ([k a] & [H1 H2] & E); [lia|]. exists (S k, a). cbn in *. rewrite app_length. split; [split|]; auto; lia.
Qed.

Lemma holds_init : holds (oa_init zero pt) start_map.
Proof.
  constructor; cbn [length oa_init start_map]; auto; try (cbn; lia).
  - intros k Hk. assert (k = 0%nat) as -> by (cbn in Hk; lia). reflexivity.
  - intros k Hk. exists (mkpoly true 0 0). split; [|reflexivity]. cbn in Hk. destruct k as [|k]; [lia|].
    do 19 (destruct k as [|k]; [reflexivity|]). lia.
  - intros i Hi. cbn in Hi. destruct i as [|[|i]]; try reflexivity. lia.
  - intros i Hi. cbn in Hi. destruct i as [|[|i]]; try lia. cbn [oa_init oa_start_end_points points set_wk set_points upd nth repeat MAX_PTS].
    change (nth (S (S i)) (upd (upd (repeat zero 200) 0 (pt 100 100)) 1 (pt 0 0)) zero = zero).
    rewrite !nth_upd. cbn [Nat.eqb andb]. apply nth_repeat.
Qed.

(** Writing the vertex of a place. *)
Lemma holds_write o m x (v : P) w : holds o m -> ok_place m x ->
  (length (valid w) = 200 /\ length (pweight w) = 200 /\ length (p_of w) = 200 /\ length (pt_of w) = 200)%nat ->
  holds (set_wk (set_points o (upd (points o) (idx m x) v)) w) (replace m (fst x) (replace (nth (fst x) m []) (snd x) v)).
Proof.
  intros H Hx Hw. pose proof Hx as [X1 X2].
  set (m' := replace m (fst x) (replace (nth (fst x) m []) (snd x) v)).
  assert (L : length m' = length m) by (apply replace_length; auto).
  assert (S : forall k, length (nth k m' []) = length (nth k m [])).
  { intro k. unfold m'. rewrite replace_nth by auto. destruct (Nat.eqb (fst x) k) eqn:E; auto. apply Nat.eqb_eq in E as <-. now apply replace_length. }
  assert (O : forall k, offset m' k = offset m k) by (now apply same_shape_offset).
  assert (A : all_points m' = all_points m) by (now apply same_shape_all).
  assert (V : forall y, ok_place m' y <-> ok_place m y) by (intro y; unfold ok_place; now rewrite L, S).
  assert (I : forall y, idx m' y = idx m y) by (intro y; unfold idx; now rewrite O).
  constructor; cbn [polys points wk cur_poly_idx cur_pt_idx set_wk set_points]; rewrite ?L, ?A; try apply H; auto.
  - rewrite upd_length. apply H.
  - intros k Hk. rewrite O, S. now apply H.
  - rewrite S. apply H.
  - intros i Hi. rewrite nth_upd. destruct (locate m i Hi) as (y & Hy & <-).
    assert (RV : nth (idx m y) (concat m') zero = nth (snd y) (nth (fst y) m' []) zero) by (rewrite <- I; apply nth_concat; now apply V).
    rewrite RV; clear RV. unfold m'. rewrite (h_points _ _ _ H).
    pose proof (idx_lt _ _ Hx) as B. pose proof (h_all _ _ _ H).
    replace (idx m x <? 200)%nat with true by (symmetry; apply Nat.ltb_lt; lia). rewrite andb_true_r.
    rewrite replace_nth by auto.
    destruct (Nat.eqb (idx m x) (idx m y)) eqn:E.
    + apply Nat.eqb_eq in E. apply (idx_inj m x y Hx Hy) in E as <-. rewrite Nat.eqb_refl, replace_nth by auto. now rewrite Nat.eqb_refl.
    + rewrite (h_val _ _ _ H), nth_concat by auto. destruct (Nat.eqb (fst x) (fst y)) eqn:E2; auto.
      apply Nat.eqb_eq in E2. rewrite <- E2, replace_nth by auto. destruct (Nat.eqb (snd x) (snd y)) eqn:E3; auto.
      apply Nat.eqb_eq in E3. apply Nat.eqb_neq in E. exfalso. apply E. f_equal. destruct x, y; cbn in *; congruence.
  - intros i Hi. rewrite nth_upd. pose proof (idx_lt _ _ Hx). replace (Nat.eqb (idx m x) i) with false by (symmetry; apply Nat.eqb_neq; lia).
    cbn. now apply H.
Qed.

Lemma hd_two o m : holds o m -> exists a b r, m = [a; b] :: r.
Proof.
  intro H. pose proof (h_m _ _ _ H). pose proof (h_first _ _ _ H) as F2. destruct m as [|[|a [|b [|]]] r]; cbn in *; try lia. eauto.
Qed.
Lemma holds_start_end o m a b c d : holds o m -> holds (oa_start_end_points pt o a b c d) (replace m 0 [pt c d; pt a b]).
Proof.
  intro H. destruct (hd_two _ _ H) as (u & v & r & ->).
  pose proof (holds_write o _ (0, 0)%nat (pt c d) (wk o) H) as H1. cbn [fst snd nth idx] in H1.
  assert (H1' : holds (set_wk (set_points o (upd (points o) 0 (pt c d))) (wk o)) ([pt c d; v] :: r)).
  { apply H1; [split; cbn; lia|apply H]. }
  clear H1. pose proof (holds_write _ _ (0, 1)%nat (pt a b)
     (mkw (upd (upd (valid (wk o)) 0 0) 1 0) (upd (upd (pweight (wk o)) 0 1) 1 0) (p_of (wk o)) (pt_of (wk o))) H1') as H2.
  apply H2; [split; cbn; lia|]. cbn [valid pweight p_of pt_of]. rewrite !upd_length. apply H.
Qed.

(** New polygons. *)
Lemma fits_spec (m : list (list P)) n : fits m n = true <-> Z.of_nat (all_points m) + n <= 200 /\ (length m < 20)%nat.
Proof. unfold fits. now rewrite andb_true_iff, Z.leb_le, Nat.ltb_lt. Qed.
Lemma new_poly_spec o m n : holds o m -> 0 <= n < 2 ^ 30 ->
  exists o', oa_new_poly o n = OK (o', map_ret m n) /\
    (if fits m n then holds o' (m ++ [repeat zero (Z.to_nat n)]) /\ points o' = points o /\ polys o' = upd (polys o) (length m) (mkpoly true (Z.of_nat (all_points m)) n) else o' = o).
Proof.
  intros H Hn. unfold oa_new_poly, map_ret. rewrite (h_pt _ _ _ H), (h_cur _ _ _ H). pose proof (h_all _ _ _ H) as HA. pose proof (h_m _ _ _ H) as HM.
  rewrite int_ok by lia. cbn [rbind]. unfold MAX_PTS, MAX_POLY.
  destruct (fits m n) eqn:E.
  - apply fits_spec in E as [E1 E2]. replace (_ >? Z.of_nat 200) with false by (symmetry; rewrite Z.gtb_ltb; apply Z.ltb_ge; lia).
    replace (_ >? Z.of_nat 20) with false by (symmetry; rewrite Z.gtb_ltb; apply Z.ltb_ge; lia).
    replace (0 <=? Z.of_nat (all_points m)) with true by (symmetry; apply Z.leb_le; lia).
    replace (Z.of_nat (all_points m) <=? Z.of_nat 200) with true by (symmetry; apply Z.leb_le; lia). cbn [andb].
    rewrite zput_nat, put_ok by (rewrite (h_polys _ _ _ H); lia). cbn [rbind]. eexists. split; [reflexivity|].
    split; [|split; reflexivity].
    set (m' := m ++ [repeat zero (Z.to_nat n)]).
    assert (L : length m' = S (length m)) by (unfold m'; rewrite app_length; cbn; lia).
    assert (A : all_points m' = (all_points m + Z.to_nat n)%nat).
    { unfold m', all_points. rewrite concat_app, app_length. cbn. rewrite app_nil_r, repeat_length. lia. }
    assert (N : forall k, (k < length m)%nat -> nth k m' [] = nth k m []) by (intros; unfold m'; now rewrite app_nth1).
    assert (O : forall k, (k <= length m)%nat -> offset m' k = offset m k).
    { intros k Hk. unfold offset, m'. rewrite firstn_app. replace (k - length m)%nat with 0%nat by lia. cbn. now rewrite app_nil_r. }
    assert (NL : nth (length m) m' [] = repeat zero (Z.to_nat n)) by (unfold m'; rewrite app_nth2 by lia; now rewrite Nat.sub_diag).
    constructor; cbn [polys points wk cur_poly_idx cur_pt_idx]; rewrite ?L, ?A, ?upd_length; try apply H; try lia.
    + intros k Hk. rewrite upd_nth. destruct (Nat.eqb (length m) k) eqn:E.
      * apply Nat.eqb_eq in E as <-. rewrite NL, repeat_length, O, offset_len, Z2Nat.id by lia.
        rewrite (h_polys _ _ _ H). replace (length m <? 20)%nat with true by (symmetry; apply Nat.ltb_lt; lia). reflexivity.
      * apply Nat.eqb_neq in E. cbn [andb]. rewrite N, O by lia. apply H. lia.
    + intros k Hk. rewrite upd_nth. replace (Nat.eqb (length m) k) with false by (symmetry; apply Nat.eqb_neq; lia). cbn [andb]. apply H. lia.
    + rewrite N by lia. apply H.
    + intros i Hi. unfold m'. rewrite concat_app. cbn. rewrite app_nil_r. destruct (lt_dec i (all_points m)) as [Q|Q].
      * rewrite app_nth1 by auto. now apply H.
      * rewrite app_nth2 by (unfold all_points in Q; lia). rewrite (h_free _ _ _ H) by lia. symmetry. apply nth_repeat.
    + intros i Hi. apply H. lia.
  - assert (~ (Z.of_nat (all_points m) + n <= 200 /\ (length m < 20)%nat)) as N by (rewrite <- fits_spec; congruence).
    destruct (_ >? Z.of_nat 200) eqn:E1; [eauto|]. destruct (_ >? Z.of_nat 20) eqn:E2; [eauto|].
    rewrite Z.gtb_ltb in E1, E2. apply Z.ltb_ge in E1, E2. lia.
Qed.

Lemma replace_app_last {A} (m : list A) x y : replace (m ++ [x]) (length m) y = m ++ [y].
Proof.
  unfold replace. rewrite firstn_app, Nat.sub_diag, firstn_all. cbn [firstn]. rewrite app_nil_r. f_equal. f_equal.
  apply skipn_all2. rewrite app_length; cbn; lia.
Qed.
Lemma replace_snoc {A} (u : list A) r y z : replace (u ++ z :: r) (length u) y = u ++ y :: r.
Proof.
  unfold replace. rewrite firstn_app, Nat.sub_diag, firstn_all. cbn [firstn]. rewrite app_nil_r. f_equal. f_equal.
  rewrite skipn_app. rewrite skipn_all2 by lia. now replace (S (length u) - length u)%nat with 1%nat by lia.
Qed.
Lemma replace_replace {A} (m : list A) k a b : (k < length m)%nat -> replace (replace m k a) k b = replace m k b.
Proof.
  intro H. assert (exists u z r, m = u ++ z :: r /\ length u = k) as (u & z & r & -> & <-).
  { exists (firstn k m). destruct (skipn k m) as [|z r] eqn:E; [pose proof (skipn_length k m) as Q; rewrite E in Q; cbn in Q; lia|].
    exists z, r. rewrite <- E, firstn_skipn. split; auto. rewrite firstn_length; lia. }
  now rewrite !replace_snoc.
Qed.
Lemma skipn_next {A} (v : list A) i z r : skipn i v = z :: r -> skipn (S i) v = r.
Proof. revert v; induction i as [|i IH]; intros [|y v] H; cbn in *; try discriminate; [congruence|]. now apply IH in H. Qed.
Lemma fill_ok o m (g : nat -> P) n w : holds o m -> (length (nth (length m - 1) m []) = n)%nat -> n <> 0%nat ->
  (length (valid w) = 200 /\ length (pweight w) = 200 /\ length (p_of w) = 200 /\ length (pt_of w) = 200)%nat ->
  forall d u, (length u + d = n)%nat -> u = List.map g (seq 0 (length u)) ->
  forall ps, holds (set_wk (set_points o ps) w) (replace m (length m - 1) (u ++ skipn (length u) (nth (length m - 1) m []))) ->
  exists ps', foldM (fun ps i => try k := get_pt (mkpoly true (Z.of_nat (offset m (length m - 1))) (Z.of_nat n)) (Z.of_nat i) in put ps k (g i))
                (seq (length u) d) ps = OK ps' /\
    holds (set_wk (set_points o ps') w) (replace m (length m - 1) (List.map g (seq 0 n))).
Proof.
  intros H Hn Hn0 Hw. pose proof (h_m _ _ _ H) as HM. induction d as [|d IH]; intros u Hd Hu ps Hps.
  - cbn. exists ps. split; auto. replace n with (length u) by lia. rewrite <- Hu. rewrite skipn_all2 in Hps by lia. now rewrite app_nil_r in Hps.
  - set (k := (length m - 1)%nat) in *. set (v := nth k m []) in *. cbn [seq foldM].
    set (m1 := replace m k (u ++ skipn (length u) v)) in *.
    assert (Sk : exists z r, skipn (length u) v = z :: r).
    { destruct (skipn (length u) v) eqn:E; eauto. pose proof (skipn_length (length u) v) as Q. rewrite E in Q. cbn in Q. lia. }
    destruct Sk as (z & r & Sk).
    assert (L1 : length m1 = length m) by (apply replace_length; lia).
    assert (Lv : length (u ++ skipn (length u) v) = length v) by (rewrite app_length, skipn_length; lia).
    assert (S1 : forall j, length (nth j m1 []) = length (nth j m [])).
    { intro j. unfold m1. rewrite replace_nth by lia. destruct (Nat.eqb k j) eqn:E; auto. apply Nat.eqb_eq in E as <-. exact Lv. }
    assert (O1 : forall j, offset m1 j = offset m j) by (now apply same_shape_offset).
    assert (P1 : ok_place m1 (k, length u)) by (split; cbn; [lia|rewrite S1; fold v; lia]).
    assert (Nk : nth k m1 [] = u ++ z :: r) by (unfold m1; rewrite replace_nth by lia; now rewrite Nat.eqb_refl, Sk).
    pose proof (get_pt_ok m1 (Z.of_nat n) (k, length u)) as G. cbn [fst snd] in G. rewrite O1 in G.
    rewrite G; [|pose proof (h_all _ _ _ Hps); auto|auto]. cbn [rbind].
    pose proof (idx_lt _ _ P1) as B. pose proof (h_all _ _ _ Hps) as B2.
    rewrite put_ok. 2:{ pose proof (h_points _ _ _ Hps) as B3. cbn in B3. lia. }
    cbn [rbind].
    pose proof (holds_write _ m1 (k, length u) (g (length u)) w Hps P1 Hw) as H2. cbn [fst snd] in H2.
    rewrite Nk, replace_snoc in H2.
    replace (S (length u)) with (length (u ++ [g (length u)])) by (rewrite app_length; cbn; lia).
    apply IH.
    + rewrite app_length; cbn; lia.
    + rewrite app_length. cbn [length]. rewrite seq_app, map_app. cbn. now rewrite <- Hu.
    + replace (replace m k ((u ++ [g (length u)]) ++ skipn (length (u ++ [g (length u)])) v))
        with (replace m1 k (u ++ g (length u) :: r)).
      * exact H2.
      * unfold m1. rewrite replace_replace by lia. f_equal. rewrite <- app_assoc. cbn [app]. f_equal. f_equal.
        rewrite app_length. cbn [length]. rewrite Nat.add_1_r. symmetry. eapply skipn_next; exact Sk.
Qed.

Lemma set_wk_same (o : oa P) : set_wk o (wk o) = o.
Proof. now destruct o. Qed.
Lemma holds_circle o m c n f : holds o m -> 0 <= n < 2 ^ 30 ->
  exists o', oa_add_poly_obstacle circle_pt o c n f = OK (o', map_ret m n) /\ holds o' (map_step m (Circle c n f)).
Proof.
  intros H Hn. unfold oa_add_poly_obstacle. destruct (new_poly_spec o m n H Hn) as (o1 & E & H1). rewrite E. cbn [rbind OaSpec.map_step].
  unfold map_ret in *. destruct (fits m n) eqn:Ft.
  - destruct H1 as (H1 & P1 & Q1). set (m1 := m ++ [repeat zero (Z.to_nat n)]) in *.
    assert (L : (length m1 - 1 = length m)%nat) by (unfold m1; rewrite app_length; cbn; lia).
    rewrite (poly_get zero o1 m1) by (auto; unfold m1; rewrite app_length; cbn; lia). cbn [rbind].
    assert (N1 : nth (length m) m1 [] = repeat zero (Z.to_nat n)) by (unfold m1; rewrite app_nth2, Nat.sub_diag by lia; reflexivity).
    rewrite N1, repeat_length. unfold fill_circle.
    assert (HS : holds (set_wk (set_points o1 (points o1)) (wk o1)) m1) by (destruct o1; exact H1).
    destruct (Z.to_nat n) as [|n'] eqn:En.
    + cbn. eexists. split; [reflexivity|]. destruct o1; exact H1.
    + destruct (fill_ok o1 m1 (circle_pt c n f) (S n') (wk o1) H1) with (d := S n') (u := @nil P) (ps := points o1) as (ps' & E2 & H2); auto.
      * rewrite L, N1. apply repeat_length.
      * apply H1.
      * rewrite L, N1. cbn [length skipn app]. replace (replace m1 _ _) with m1; [exact HS|]. unfold m1. now rewrite replace_app_last.
      * cbn [length] in E2. rewrite L in E2. cbn [length] in *. rewrite E2. cbn [rbind]. eexists. split; [reflexivity|].
        rewrite L in H2. unfold m1 in H2. rewrite replace_app_last in H2. destruct o1; exact H2.
  - subst o1. eexists. split; [reflexivity|]. exact H.
Qed.
Lemma holds_set_point o m k x y i : holds o m -> call_ok m (@SetPoint C F k x y i) ->
  exists o', oa_poly_set_point pt o k x y i = OK o' /\ holds o' (map_step m (SetPoint k x y i)).
Proof.
  intros H [Hk Hi]. unfold oa_poly_set_point.
  rewrite <- (Z2Nat.id k) by lia. rewrite (poly_get zero o m) by (auto; lia). cbn [rbind].
  assert (Hx : ok_place m (Z.to_nat k, Z.to_nat i)) by (split; cbn; lia).
  pose proof (get_pt_ok m (Z.of_nat (length (nth (Z.to_nat k) m []))) _ (h_all _ _ _ H) Hx) as G. cbn [fst snd] in G. rewrite Z2Nat.id in G by lia.
  rewrite G. cbn [rbind]. pose proof (idx_lt _ _ Hx). pose proof (h_all _ _ _ H). pose proof (h_wk _ _ _ H) as (W1 & W2 & W3 & W4).
  rewrite put_ok by (rewrite (h_points _ _ _ H); lia). cbn [rbind]. rewrite put_ok by lia. cbn [rbind]. rewrite put_ok by lia. cbn [rbind].
  eexists. split; [reflexivity|]. cbn [OaSpec.map_step]. rewrite Nat2Z.id.
  apply (holds_write o m (Z.to_nat k, Z.to_nat i)); auto. cbn. rewrite !upd_length. auto.
Qed.

Definition wlens (w : work) := (length (valid w) = 200 /\ length (pweight w) = 200 /\ length (p_of w) = 200 /\ length (pt_of w) = 200)%nat.
Lemma relax_lens (o : oa P) p s st k st' : wlens (fst st) -> relax o p s st k = OK st' -> wlens (fst st').
Proof.
  destruct st as [w f]. intros H E. unfold relax in E.
  repeat match type of E with
  | rbind ?e _ = OK _ => let Q := fresh "Q" in destruct e eqn:Q; [cbn [rbind] in E|discriminate E]
  | (if ?c then OK _ else _) = OK _ => destruct c; [injection E as <-; exact H|]
  end.
  injection E as <-. destruct H as (W1 & W2 & W3 & W4).
  repeat match goal with Q : put _ _ _ = OK _ |- _ => apply put_length in Q end. unfold wlens; cbn [fst valid pweight p_of pt_of]. cbn [fst] in *. repeat split; congruence.
Qed.
Lemma passes_lens (o : oa P) fuel w w' : wlens w -> passes fuel o w = OK w' -> wlens w'.
Proof.
  revert w; induction fuel as [|fuel IH]; intros w H E; cbn [passes] in E; [discriminate|].
  destruct (pass o w) as [[w1 f]|] eqn:Ep; [|discriminate]. cbn in E.
  assert (wlens w1).
  { unfold pass in Ep. change w1 with (fst (w1, f)). eapply (foldM_pres (fun st => wlens (fst st))); [| |exact Ep]; [|exact H].
    intros st p st' Hst Es. cbn in Es. destruct (zget (polys o) p); [|discriminate]. cbn in Es. destruct (l a >? 255); [discriminate|].
    eapply (foldM_pres (fun st => wlens (fst st))); [| |exact Es]; [|exact Hst].
    intros st1 v st1' Hst1 Ev. unfold visit in Ev. dob Ev. dob Ev. dob Ev. destruct (negb _); [injection Ev as <-; auto|].
    eapply (foldM_pres (fun st => wlens (fst st))); [| |exact Ev]; [|exact Hst1]. intros. eapply relax_lens; eauto. }
  destruct f; [injection E as <-; auto|eauto].
Qed.
Lemma holds_process o m fuel o' r : holds o m -> oa_process zero inbox crosses len1 fuel o = OK (o', r) -> holds o' m.
Proof.
  intros H E. unfold oa_process in E. dob E. destruct a as [rr ret]. dob E. dob E. dob E. destruct a1 as [rs n]. injection E as <- <-.
  assert (wlens a0).
  { unfold dijkstra in E2. dob E2. dob E2. dob E2. apply passes_lens in E2; auto. cbn in E5. apply put_length in E5.
    unfold wlens; cbn [valid pweight p_of pt_of]. rewrite E5. repeat split; reflexivity. }
  destruct H. constructor; cbn; auto.
Qed.

Theorem holds_step o m c : holds o m -> call_ok m c ->
  match exec zero pt inbox crosses len1 circle_pt o c with
  | OK (o', r) => holds o' (map_step m c) /\ match c with NewPoly n | Circle _ n _ => r = map_ret m n | _ => True end
  | BAD => exists f, c = Process f
  end.
Proof.
  intros H Hc. destruct c; cbn [exec].
  - split; auto. apply holds_init.
  - split; auto. now apply holds_start_end.
  - destruct (new_poly_spec o m size H Hc) as (o' & E & H'). rewrite E. split; auto. cbn. unfold fits in *. destruct (_ && _); [apply H'|now subst].
  - destruct (holds_set_point o m pol x y i H Hc) as (o' & E & H'). rewrite E. cbn. auto.
  - destruct (holds_circle o m c samples off H Hc) as (o' & E & H'). rewrite E. auto.
  - destruct (oa_process _ _ _ _ _ _) as [[o' r]|] eqn:E; cbn; eauto. split; auto. eapply holds_process; eauto.
Qed.
End Hist.
