(** Proofs about obstacle avoidance: the tables hold the map. *)
From Coq Require Import ZArith List Bool Arith Lia.
From Verif Require Import CRes OaModel OaSpec.
Import ListNotations.
Local Open Scope Z_scope.

Lemma foldM_app {A B} (f : A -> B -> res A) l1 l2 a : foldM f (l1 ++ l2) a = rbind (foldM f l1 a) (foldM f l2).
Proof. revert a; induction l1 as [|x l1 IH]; intro a; cbn; auto. destruct (f a x); cbn; auto. Qed.
Lemma foldM_map {A B B'} (g : B' -> B) (f : A -> B -> res A) l a : foldM f (List.map g l) a = foldM (fun a x => f a (g x)) l a.
Proof. revert a; induction l as [|x l IH]; intro a; cbn; auto. destruct (f a (g x)); cbn; auto. Qed.
Lemma foldM_flat_map {A B B'} (g : B' -> list B) (f : A -> B -> res A) l a :
  foldM f (flat_map g l) a = foldM (fun a x => foldM f (g x) a) l a.
Proof. revert a; induction l as [|x l IH]; intro a; cbn; auto. rewrite foldM_app. destruct (foldM f (g x) a); cbn; auto. Qed.
Lemma foldM_ext {A B} (f g : A -> B -> res A) l a : (forall a x, In x l -> f a x = g a x) -> foldM f l a = foldM g l a.
Proof.
  revert a; induction l as [|x l IH]; intros a H; cbn; auto. rewrite H by (now left).
  destruct (g a x); cbn; auto. apply IH. intros; apply H. now right.
Qed.
Lemma foldM_nth {A B} (f : A -> nat -> res A) (g : A -> B -> res A) l :
  (forall a k x, nth_error l k = Some x -> f a k = g a x) -> forall a, foldM f (seq 0 (length l)) a = foldM g l a.
Proof.
  intros H a. assert (forall l2 i, (forall k x, nth_error l2 k = Some x -> nth_error l (i + k) = Some x) ->
    forall a, foldM f (seq i (length l2)) a = foldM g l2 a) as G.
  { induction l2 as [|x l2 IH]; intros i Hi b; cbn; auto. rewrite (H b i x).
    - destruct (g b x); cbn; auto. apply IH. intros k y E. replace (S i + k)%nat with (i + S k)%nat by lia. apply Hi; auto.
    - specialize (Hi 0%nat x eq_refl). now rewrite Nat.add_0_r in Hi. }
  apply G. auto.
Qed.
Lemma zseq0 n : zseq 0 n = List.map Z.of_nat (seq 0 (Z.to_nat n)).
Proof. unfold zseq. now rewrite Z.sub_0_r. Qed.
Lemma foldM_inv {A B} (I : A -> Prop) (f : A -> B -> res A) l a :
  I a -> (forall a x, In x l -> I a -> exists a', f a x = OK a' /\ I a') -> exists a', foldM f l a = OK a' /\ I a'.
Proof.
  revert a; induction l as [|x l IH]; intros a Ha H; cbn; eauto.
  destruct (H a x) as (a' & E & Ha'); [now left|auto|]. rewrite E; cbn. apply IH; auto. intros; apply H; auto. now right.
Qed.
Lemma foldM_pure {A B} (f : A -> B -> res A) (g : A -> B -> A) l a :
  (forall a x, In x l -> f a x = OK (g a x)) -> foldM f l a = OK (fold_left g l a).
Proof. revert a; induction l as [|x l IH]; intros a H; cbn; auto. rewrite H by (now left). cbn. apply IH. intros; apply H; now right. Qed.

Lemma nth_upd {A} (l : list A) i j x d : nth j (upd l i x) d = if Nat.eqb i j && (i <? length l)%nat then x else nth j l d.
Proof. revert i j; induction l as [|y l IH]; intros [|i] [|j]; cbn; auto; rewrite ?IH, ?andb_false_r; auto. Qed.
Lemma get_nth {A} (l : list A) i d : (i < length l)%nat -> get l i = OK (nth i l d).
Proof. intro H. apply get_ok. now apply nth_error_nth'. Qed.
Lemma zget_nat {A} (l : list A) i : zget l (Z.of_nat i) = get l i.
Proof. unfold zget. replace (Z.of_nat i <? 0) with false by (symmetry; apply Z.ltb_ge; lia). now rewrite Nat2Z.id. Qed.
Lemma zput_nat {A} (l : list A) i x : zput l (Z.of_nat i) x = put l i x.
Proof. unfold zput. replace (Z.of_nat i <? 0) with false by (symmetry; apply Z.ltb_ge; lia). now rewrite Nat2Z.id. Qed.

Section Rep.
Context {P : Type} (zero : P).
Definition offset (m : list (list P)) (k : nat) : nat := length (concat (firstn k m)).
Definition ok_place (m : list (list P)) (x : place) : Prop := (fst x < length m)%nat /\ (snd x < length (nth (fst x) m []))%nat.
Definition idx (m : list (list P)) (x : place) : nat := (offset m (fst x) + snd x)%nat.
Definition places (m : list (list P)) : list place :=
  flat_map (fun i => List.map (fun a => (i, a)) (seq 0 (length (nth i m [])))) (seq 0 (length m)).

Lemma in_places m x : In x (places m) <-> ok_place m x.
Proof.
  unfold places, ok_place. rewrite in_flat_map. split.
  - intros (i & Hi & Hx). apply in_map_iff in Hx as (a & <- & Ha). apply in_seq in Hi, Ha. cbn. lia.
  - intros [H1 H2]. exists (fst x). rewrite in_seq. split; [lia|]. apply in_map_iff. exists (snd x). rewrite in_seq.
    split; [now destruct x|lia].
Qed.
Lemma offset_S m k : (k < length m)%nat -> offset m (S k) = (offset m k + length (nth k m []))%nat.
Proof.
  unfold offset. revert k; induction m as [|v m IH]; intros k H; cbn in H; [lia|].
  destruct k as [|k]; [cbn; rewrite ?app_nil_r, ?app_length; cbn; lia|].
  rewrite !(firstn_cons _ v). cbn [concat nth]. rewrite !app_length. specialize (IH k). rewrite IH by lia. lia.
Qed.
Lemma offset_mono m j k : (j <= k)%nat -> (offset m j <= offset m k)%nat.
Proof.
  unfold offset. revert j k; induction m as [|v m IH]; intros j k H; [now rewrite !firstn_nil|].
  destruct j, k; cbn; try lia. rewrite !app_length. specialize (IH j k). lia.
Qed.
Lemma offset_all m k : (offset m k <= all_points m)%nat.
Proof.
  unfold offset, all_points. revert k; induction m as [|v m IH]; intros k; [now rewrite firstn_nil|].
  destruct k; cbn; try lia. rewrite !app_length. specialize (IH k). lia.
Qed.
Lemma offset_len m : offset m (length m) = all_points m.
Proof. unfold offset, all_points. now rewrite firstn_all. Qed.
Lemma idx_lt m x : ok_place m x -> (idx m x < all_points m)%nat.
Proof. intros [H1 H2]. unfold idx. pose proof (offset_S m _ H1). pose proof (offset_all m (S (fst x))). lia. Qed.
Lemma idx_inj m x y : ok_place m x -> ok_place m y -> idx m x = idx m y -> x = y.
Proof.
  intros [H1 H2] [H3 H4] E. unfold idx in E. destruct x as [i a], y as [j b]; cbn [fst snd] in *.
  pose proof (offset_S m _ H1). pose proof (offset_S m _ H3).
  destruct (lt_eq_lt_dec i j) as [[L| ->]|L].
  - pose proof (offset_mono m (S i) j L). lia.
  - f_equal. lia.
  - pose proof (offset_mono m (S j) i L). lia.
Qed.
Lemma nth_concat m x d : ok_place m x -> nth (idx m x) (concat m) d = nth (snd x) (nth (fst x) m []) d.
Proof.
  destruct x as [k a]. unfold ok_place, idx, offset; cbn. revert k; induction m as [|v m IH]; intros k [H1 H2]; cbn in *; [lia|].
  destruct k as [|k]; cbn in *; [now rewrite app_nth1 by lia|].
  rewrite app_length, app_nth2 by lia. rewrite <- (IH k) by (split; auto; lia). f_equal; lia.
Qed.
Lemma at_place_ok m x d : ok_place m x -> at_place m x = Some (nth (snd x) (nth (fst x) m []) d).
Proof. intros [H1 H2]. unfold at_place. now apply nth_error_nth'. Qed.

(** The structure holds the map [m]. *)
Record holds (o : oa P) (m : list (list P)) : Prop := mkholds {
  h_polys : length (polys o) = 20%nat;
  h_points : length (points o) = 200%nat;
  h_poly : forall k, (k < length m)%nat -> nth_error (polys o) k = Some (mkpoly true (Z.of_nat (offset m k)) (Z.of_nat (length (nth k m []))));
  h_unused : forall k, (length m <= k < 20)%nat -> exists pol, nth_error (polys o) k = Some pol /\ l pol = 0;
  h_m : (1 <= length m <= 20)%nat;
  h_first : length (nth 0 m []) = 2%nat;
  h_all : (all_points m <= 200)%nat;
  h_cur : cur_poly_idx o = Z.of_nat (length m);
  h_pt : cur_pt_idx o = Z.of_nat (all_points m);
  h_val : forall i, (i < all_points m)%nat -> nth i (points o) zero = nth i (concat m) zero;
  h_free : forall i, (all_points m <= i)%nat -> nth i (points o) zero = zero;
  h_wk : length (valid (wk o)) = 200%nat /\ length (pweight (wk o)) = 200%nat /\ length (p_of (wk o)) = 200%nat /\ length (pt_of (wk o)) = 200%nat }.

Lemma poly_get o m k : holds o m -> (k < length m)%nat ->
  zget (polys o) (Z.of_nat k) = OK (mkpoly true (Z.of_nat (offset m k)) (Z.of_nat (length (nth k m [])))).
Proof. intros H Hk. rewrite zget_nat. apply get_ok. now apply h_poly. Qed.
Lemma get_pt_ok m (b : Z) (x : place) : (all_points m <= 200)%nat -> ok_place m x ->
  get_pt (mkpoly true (Z.of_nat (offset m (fst x))) b) (Z.of_nat (snd x)) = OK (idx m x).
Proof.
  intros Ha H. pose proof (idx_lt _ _ H). unfold get_pt; cbn [own pts]. unfold idx in *.
  replace (0 <=? _) with true by (symmetry; apply Z.leb_le; lia).
  replace (_ <? Z.of_nat MAX_PTS) with true by (symmetry; apply Z.ltb_lt; unfold MAX_PTS; lia). cbn. f_equal. lia.
Qed.
Lemma vertex_ok o m x : holds o m -> ok_place m x ->
  vertex o (Z.of_nat (fst x)) (Z.of_nat (snd x)) = OK (nth (snd x) (nth (fst x) m []) zero).
Proof.
  intros H Hx. unfold vertex. rewrite (poly_get o m) by (auto; apply Hx). cbn [rbind]. rewrite (get_pt_ok m) by (auto; apply H). cbn [rbind].
  pose proof (idx_lt _ _ Hx). rewrite (get_nth _ _ zero) by (rewrite (h_points _ _ H); pose proof (h_all _ _ H); lia).
  now rewrite (h_val _ _ H), nth_concat.
Qed.
Lemma vertices_ok o m k : holds o m -> (k < length m)%nat -> vertices o (Z.of_nat k) = OK (nth k m []).
Proof.
  intros H Hk. unfold vertices. rewrite (poly_get o m) by auto. cbn [rbind l]. rewrite Nat2Z.id.
  set (v := nth k m []).
  assert (forall w acc, (exists u, v = u ++ w /\ acc = u) ->
     foldM (fun vs i => try x := vertex o (Z.of_nat k) (Z.of_nat i) in OK (vs ++ [x])) (seq (length acc) (length w)) acc = OK v) as G.
  { induction w as [|y w IH]; intros acc (u & E & ->); cbn.
    - now rewrite E, app_nil_r.
    - pose proof (vertex_ok o m (k, length u)) as V. cbn [fst snd] in V. rewrite V; auto; clear V.
      2:{ split; cbn; auto. fold v. rewrite E, app_length; cbn; lia. }
      cbn [rbind]. fold v. rewrite E at 1. rewrite app_nth2, Nat.sub_diag by lia. cbn [nth].
      replace (S (length u)) with (length (u ++ [y])) by (rewrite app_length; cbn; lia).
      apply IH. exists (u ++ [y]). rewrite <- app_assoc. auto. }
  apply (G v []). exists []. auto.
Qed.
End Rep.
