(** Proofs about obstacle avoidance: the search ends with the cheapest routes, for every table of rays. *)
From Coq Require Import ZArith List Bool Arith Lia.
From Verif Require Import CRes OaModel OaSpec OaProofs OaProofs2.
Import ListNotations.
Local Open Scope Z_scope.

Definition peqb (x y : place) : bool := Nat.eqb (fst x) (fst y) && Nat.eqb (snd x) (snd y).
Lemma peqb_spec x y : reflect (x = y) (peqb x y).
Proof.
  unfold peqb. destruct x as [a b], y as [c d]; cbn. destruct (Nat.eqb_spec a c), (Nat.eqb_spec b d); cbn; constructor; congruence.
Qed.
Definition place_dec (x y : place) : {x = y} + {x <> y}.
Proof. decide equality; apply Nat.eq_dec. Defined.

Lemma skipn_cons_nth {A} (l : list A) i v : nth_error l i = Some v -> skipn i l = v :: skipn (S i) l.
Proof. revert i; induction l as [|z l IH]; intros [|i] H; cbn in *; try discriminate; [now injection H as ->|]. now rewrite (IH i H). Qed.
Lemma firstn_upd {A} (l : list A) j v : firstn j (upd l j v) = firstn j l.
Proof. revert j; induction l as [|z l IH]; intros [|j]; cbn; auto. now rewrite IH. Qed.
Lemma firstn_nth_error {A} (l : list A) j k : (j < k)%nat -> nth_error (firstn k l) j = nth_error l j.
Proof. revert j k; induction l as [|z l IH]; intros [|j] [|k] H; cbn; auto; try lia. apply IH. lia. Qed.

Fixpoint total (f : place -> Z) (l : list place) : Z := match l with [] => 0 | x :: l => f x + total f l end.
Lemma total_le f g l : (forall x, In x l -> g x <= f x) -> total g l <= total f l.
Proof. induction l as [|x l IH]; intro H; cbn; [lia|]. pose proof (H x (or_introl eq_refl)). assert (total g l <= total f l) by (apply IH; intros; apply H; now right). lia. Qed.
Lemma total_lt f g l y : (forall x, In x l -> g x <= f x) -> In y l -> g y < f y -> total g l < total f l.
Proof.
  induction l as [|x l IH]; intros H Hi Hl; [destruct Hi|]. destruct Hi as [->|Hy]; cbn.
  - assert (total g l <= total f l) by (apply total_le; intros; apply H; now right). lia.
  - pose proof (H x (or_introl eq_refl)). assert (total g l < total f l) by (apply IH; auto; intros; apply H; now right). lia.
Qed.
Lemma total_pos f l : (forall x, In x l -> 0 <= f x) -> 0 <= total f l.
Proof. induction l as [|x l IH]; intro H; cbn; [lia|]. pose proof (H x (or_introl eq_refl)). assert (0 <= total f l) by (apply IH; intros; apply H; now right). lia. Qed.

Section Search.
Context {P : Type} (zero : P).
Variables (o : oa P) (m : list (list P)).
Hypothesis Hold : holds zero o m.
(** The ends of the rays: (from, to, weight). *)
Variable ends : list (place * place * Z).
Variable W : Z.
Hypothesis ends_ok : forall x y c, In (x, y, c) ends -> ok_place m x /\ ok_place m y /\ 1 <= c <= W.
Hypothesis ends_sym : forall x y c, In (x, y, c) ends -> In (y, x, c) ends.
Hypothesis no_self : forall c, ~ In (dest, dest, c) ends.
Hypothesis small : (Z.of_nat (all_points m) + 1) * W < 2 ^ 31.
Hypothesis W_pos : 1 <= W.
(** The table of rays holds these ends. *)
Hypothesis table_n : ray_n o = 2 * Z.of_nat (length ends).
Hypothesis table : forall k x y c, nth_error ends k = Some (x, y, c) ->
  zget (rays o) (2 * Z.of_nat k) = OK (Z.of_nat (fst x)) /\ zget (rays o) (2 * Z.of_nat k + 1) = OK (Z.of_nat (snd x)) /\
  (let add := if Z.even (Z.of_nat k) then 2 else -2 in
   zget (rays o) (2 * Z.of_nat k + add) = OK (Z.of_nat (fst y)) /\ zget (rays o) (2 * Z.of_nat k + add + 1) = OK (Z.of_nat (snd y))) /\
  zget (weight o) (Z.quot (2 * Z.of_nat k) 4) = OK c.

Notation E := (fun x y c => In (x, y, c) ends).
Definition pw (w : work) (x : place) : Z := nth (idx m x) (pweight w) 0.
Definition va (w : work) (x : place) : Z := nth (idx m x) (valid w) 0.
Definition eff (w : work) (x : place) : Z := if peqb x dest then 0 else pw w x.

Lemma m200 : (all_points m <= 200)%nat. Proof. apply (h_all _ _ _ Hold). Qed.
Lemma ix x : ok_place m x -> (idx m x < 200)%nat.
Proof. intro H. pose proof (idx_lt _ _ H). pose proof m200. lia. Qed.
Lemma dest_ok : ok_place m dest.
Proof. pose proof (h_m _ _ _ Hold). pose proof (h_first _ _ _ Hold) as H2. split; unfold dest; cbn [fst snd]; [lia|rewrite H2; lia]. Qed.
Lemma start_ok : ok_place m start.
Proof. pose proof (h_m _ _ _ Hold). pose proof (h_first _ _ _ Hold) as H2. split; unfold start; cbn [fst snd]; [lia|rewrite H2; lia]. Qed.

(** What one ray does to the arrays. *)
Definition better (w : work) (x y : place) (c : Z) : work :=
  mkw (upd (upd (valid w) (idx m y) 2) (idx m x) 1) (upd (pweight w) (idx m y) (pw w x + c))
      (upd (p_of w) (idx m y) (Z.of_nat (fst x))) (upd (pt_of w) (idx m y) (Z.of_nat (snd x))).
Definition arelax (x : place) (st : work * bool) (e : place * place * Z) : work * bool :=
  let '(w, f) := st in let '(s, y, c) := e in
  if peqb x s then if negb (pw w y =? 0) && (pw w x + c >=? pw w y) then (w, f) else (better w x y c, false) else (w, f).

Lemma zeqb_nat a b : (Z.of_nat a =? Z.of_nat b) = Nat.eqb a b.
Proof. destruct (Nat.eqb_spec a b); [apply Z.eqb_eq; lia|apply Z.eqb_neq; lia]. Qed.
Lemma relax_ok x w f k s y c : ok_place m x -> wlens w -> 0 <= pw w x -> pw w x + W < 2 ^ 31 -> nth_error ends k = Some (s, y, c) ->
  relax o (Z.of_nat (fst x)) (Z.of_nat (snd x)) (w, f) (Z.of_nat k) = OK (arelax x (w, f) (s, y, c)).
Proof.
  intros Hx (L1 & L2 & L3 & L4) Hp Hp2 Hk. destruct (table _ _ _ _ Hk) as (T1 & T2 & (T3 & T4) & T5).
  destruct (ends_ok s y c) as (Hs & Hy & Hc); [eapply nth_error_In; eauto|].
  unfold relax, arelax. rewrite T1. cbn [rbind]. rewrite zeqb_nat. unfold peqb.
  destruct (Nat.eqb (fst x) (fst s)) eqn:E1; cbn [negb andb]; [|reflexivity].
  rewrite T2. cbn [rbind]. rewrite zeqb_nat. destruct (Nat.eqb (snd x) (snd s)) eqn:E2; cbn [negb andb]; [|reflexivity].
  rewrite T3. cbn [rbind]. rewrite T4. cbn [rbind].
  rewrite (poly_get zero o m) by (auto; apply Hy). cbn [rbind]. rewrite (get_pt_ok m) by (auto; apply m200). cbn [rbind].
  rewrite (poly_get zero o m) by (auto; apply Hx). cbn [rbind]. rewrite (get_pt_ok m) by (auto; apply m200). cbn [rbind].
  pose proof (ix x Hx) as Ix. pose proof (ix y Hy) as Iy.
  rewrite (get_nth _ _ 0) by lia. cbn [rbind]. rewrite (get_nth _ _ 0) by lia. cbn [rbind]. rewrite T5. cbn [rbind].
  change (nth (idx m y) (pweight w) 0) with (pw w y). change (nth (idx m x) (pweight w) 0) with (pw w x).
  rewrite (int_ok (pw w x + c)) by lia.
  destruct (pw w y =? 0) eqn:E3; cbn [rbind negb andb].
  - rewrite !put_ok by lia. cbn [rbind]. rewrite !put_ok by (rewrite ?upd_length; lia). reflexivity.
  - destruct (pw w x + c >=? pw w y) eqn:E4; [reflexivity|].
    rewrite !put_ok by lia. cbn [rbind]. rewrite !put_ok by (rewrite ?upd_length; lia). reflexivity.
Qed.

(** Reading back. *)
Lemma better_pw w x y c z : wlens w -> ok_place m y -> ok_place m z -> pw (better w x y c) z = if peqb y z then pw w x + c else pw w z.
Proof.
  intros (L1 & L2 & L3 & L4) Hy Hz. unfold pw at 1, better; cbn [pweight]. rewrite nth_upd, L2. pose proof (ix y Hy) as I.
  replace (idx m y <? 200)%nat with true by (symmetry; apply Nat.ltb_lt; lia). rewrite andb_true_r.
  destruct (peqb_spec y z) as [->|N]; [now rewrite Nat.eqb_refl|]. replace (Nat.eqb (idx m y) (idx m z)) with false; [reflexivity|].
  symmetry. apply Nat.eqb_neq. intro Q. apply N. now apply (idx_inj m).
Qed.
Lemma better_va w x y c z : wlens w -> ok_place m x -> ok_place m y -> ok_place m z ->
  va (better w x y c) z = if peqb x z then 1 else if peqb y z then 2 else va w z.
Proof.
  intros (L1 & L2 & L3 & L4) Hx Hy Hz. unfold va, better; cbn [valid]. rewrite !nth_upd, upd_length, L1. pose proof (ix y Hy) as Iy. pose proof (ix x Hx) as Ixx.
  replace (idx m y <? 200)%nat with true by (symmetry; apply Nat.ltb_lt; lia).
  replace (idx m x <? 200)%nat with true by (symmetry; apply Nat.ltb_lt; lia). rewrite !andb_true_r.
  assert (forall a, ok_place m a -> Nat.eqb (idx m a) (idx m z) = peqb a z) as Q.
  { intros a Ha. destruct (peqb_spec a z) as [->|N]; [apply Nat.eqb_refl|]. apply Nat.eqb_neq. intro. apply N. now apply (idx_inj m). }
  now rewrite !Q.
Qed.
Lemma better_par w x y c z : wlens w -> ok_place m y -> ok_place m z ->
  nth (idx m z) (p_of (better w x y c)) 0 = (if peqb y z then Z.of_nat (fst x) else nth (idx m z) (p_of w) 0) /\
  nth (idx m z) (pt_of (better w x y c)) 0 = (if peqb y z then Z.of_nat (snd x) else nth (idx m z) (pt_of w) 0).
Proof.
  intros (L1 & L2 & L3 & L4) Hy Hz. unfold better; cbn [p_of pt_of]. rewrite !nth_upd, L3, L4. pose proof (ix y Hy) as Iy.
  replace (idx m y <? 200)%nat with true by (symmetry; apply Nat.ltb_lt; lia). rewrite !andb_true_r.
  assert (Nat.eqb (idx m y) (idx m z) = peqb y z) as ->; auto.
  destruct (peqb_spec y z) as [->|N]; [apply Nat.eqb_refl|]. apply Nat.eqb_neq. intro. apply N. now apply (idx_inj m).
Qed.
Lemma better_lens w x y c : wlens w -> wlens (better w x y c).
Proof. intros (L1 & L2 & L3 & L4). unfold wlens, better; cbn. now rewrite !upd_length. Qed.

(** Simple paths from the destination, whose places all have a weight that is no more than the cost of the path up to there. *)
Inductive spath (w : work) : place -> list place -> Z -> Prop :=
| sp_dest : spath w dest [dest] 0
| sp_next x y ls a c : spath w x ls a -> E x y c -> y <> dest -> ~ In y ls -> pw w y <> 0 -> pw w y <= a + c -> spath w y (y :: ls) (a + c).

Lemma spath_mono w w' x ls a : (forall z, ok_place m z -> z <> dest -> pw w z <> 0 -> pw w' z <> 0 /\ pw w' z <= pw w z) -> spath w x ls a -> spath w' x ls a.
Proof.
  intros H S. induction S; [constructor|]. assert (Hy : ok_place m y) by (eapply ends_ok; eauto). destruct (H y Hy) as [Q1 Q2]; auto.
  econstructor; eauto. lia.
Qed.
Lemma spath_on w x ls a : spath w x ls a -> 0 <= a /\ forall z, In z ls -> z = dest \/ (pw w z <> 0 /\ pw w z <= a).
Proof.
  intro S. induction S as [|x y ls a c S [IH1 IH2] He Hd Hn H0 Hl]; [split; [lia|intros z [<-|[]]; auto]|].
  assert (1 <= c) by (apply (ends_ok x y c); auto). split; [lia|]. intros z [<-|Hz]; auto. destruct (IH2 z Hz) as [->|[Q1 Q2]]; auto. right. split; auto. lia.
Qed.
Lemma spath_simple w x ls a : spath w x ls a -> NoDup ls /\ (forall z, In z ls -> ok_place m z) /\ (1 <= length ls)%nat /\ a <= (Z.of_nat (length ls) - 1) * W.
Proof.
  intro S. induction S as [|x y ls a c S (N & O & L & B) He Hd Hn H0 Hl].
  - split; [constructor; [intros []|constructor]|split; [|split; cbn; lia]]. intros z [<-|[]]. apply dest_ok.
  - destruct (ends_ok x y c He) as (_ & Hy & Hc). split; [now constructor|split; [|split; [cbn; lia|cbn [length]; nia]]]. intros z [<-|Hz]; auto.
Qed.
Lemma spath_bound w x ls a : spath w x ls a -> a <= (Z.of_nat (all_points m) - 1) * W.
Proof.
  intro S. destruct (spath_simple _ _ _ _ S) as (N & O & L & B).
  assert (length ls <= all_points m)%nat.
  { rewrite <- (map_length (idx m) ls). assert (NoDup (List.map (idx m) ls)) as N2.
    { clear S B L. induction ls as [|z ls IH]; cbn; [constructor|]. inversion N; subst. constructor.
      - intro Q. apply in_map_iff in Q as (z' & Q1 & Q2). apply H1. replace z with z'; auto. apply (idx_inj m); auto; apply O; [now right|now left].
      - apply IH; auto. intros; apply O; now right. }
    rewrite <- (seq_length (all_points m) 0). apply NoDup_incl_length; auto.
    intros i Q. apply in_map_iff in Q as (z & <- & Hz). apply in_seq. pose proof (idx_lt m z (O z Hz)). lia. }
  nia.
Qed.

(** The invariant. [skip] is the place being visited, whose rays are not all done. *)
Definition relaxed (w : work) (x y : place) (c : Z) : Prop := y <> dest -> pw w y <> 0 /\ pw w y <= eff w x + c.
Record Inv (skip : option place) (w : work) : Prop := mkInv {
  i_len : wlens w;
  i_pos : forall x, ok_place m x -> 0 <= pw w x;
  i_dest : pw w dest <= Z.of_nat (all_points m) * W;
  i_path : forall x, ok_place m x -> x <> dest -> pw w x <> 0 -> exists ls, spath w x ls (pw w x);
  i_par : forall x, ok_place m x -> x <> dest -> pw w x <> 0 -> exists y c, E y x c /\ nth (idx m x) (p_of w) 0 = Z.of_nat (fst y) /\
            nth (idx m x) (pt_of w) 0 = Z.of_nat (snd y) /\ (y = dest \/ pw w y <> 0) /\ eff w y + c <= pw w x;
  i_va : forall x, ok_place m x -> x <> dest -> (va w x = 0 <-> pw w x = 0);
  i_done : forall x, ok_place m x -> x <> dest -> Some x <> skip -> va w x <> 2 -> va w x <> 0 -> forall y c, E x y c -> relaxed w x y c;
  i_first : (forall y c, E dest y c -> relaxed w dest y c) \/
            ((skip = None \/ skip = Some dest) /\ pw w dest = 0 /\ (skip = None -> forall x, ok_place m x -> x <> dest -> pw w x = 0)) }.

Lemma eff_bound s w x : Inv s w -> ok_place m x -> 0 <= eff w x <= (Z.of_nat (all_points m) - 1) * W.
Proof.
  intros H Hx. unfold eff. pose proof (idx_lt m dest dest_ok). destruct (peqb_spec x dest) as [->|N]; [nia|].
  split; [now apply H|]. destruct (Z.eq_dec (pw w x) 0) as [->|Q]; [nia|]. destruct (i_path _ _ H x Hx N Q) as (ls & S). now apply spath_bound in S.
Qed.
Lemma pw_bound s w x : Inv s w -> ok_place m x -> 0 <= pw w x <= Z.of_nat (all_points m) * W.
Proof.
  intros H Hx. destruct (place_dec x dest) as [->|N]; [split; apply H; auto; apply dest_ok|].
  pose proof (eff_bound _ _ _ H Hx) as B. unfold eff in B. destruct (peqb_spec x dest); [contradiction|]. nia.
Qed.

Definition measure (w : work) : Z := total (fun x => if pw w x =? 0 then Z.of_nat (all_points m) * W + 1 else pw w x) (places m).
Lemma measure_pos s w : Inv s w -> 0 <= measure w.
Proof.
  intro H. apply total_pos. intros x Hx. apply in_places in Hx. pose proof (pw_bound _ _ _ H Hx). destruct (_ =? 0); lia.
Qed.

(** One improvement, from the place [x], to which its weight is right. *)
Lemma better_inv w x y c : Inv (Some x) w -> ok_place m x -> E x y c -> eff w x = pw w x -> (x = dest \/ pw w x <> 0) ->
  (pw w y = 0 \/ pw w x + c < pw w y) ->
  Inv (Some x) (better w x y c) /\ pw (better w x y c) x = pw w x /\ measure (better w x y c) < measure w /\
  (forall z, ok_place m z -> pw w z <> 0 -> pw (better w x y c) z <> 0 /\ pw (better w x y c) z <= pw w z) /\
  pw (better w x y c) y = pw w x + c.
Proof.
  intros H Hx He Hxe Hset Himp. destruct (ends_ok x y c He) as (_ & Hy & Hc). pose proof (i_len _ _ H) as HL.
  pose proof (pw_bound _ _ _ H Hx) as Bx. pose proof (eff_bound _ _ _ H Hx) as Ex.
  assert (Nxy : x <> y).
  { intros <-. destruct Hset as [->|Q]; [now apply no_self in He|lia]. }
  assert (PW : forall z, ok_place m z -> pw (better w x y c) z = if peqb y z then pw w x + c else pw w z) by (intros; now apply better_pw).
  assert (PX : pw (better w x y c) x = pw w x) by (rewrite PW by auto; destruct (peqb_spec y x); congruence).
  assert (PY : pw (better w x y c) y = pw w x + c) by (rewrite PW by auto; destruct (peqb_spec y y); congruence).
  assert (MONO : forall z, ok_place m z -> pw w z <> 0 -> pw (better w x y c) z <> 0 /\ pw (better w x y c) z <= pw w z).
  { intros z Hz Q. rewrite PW by auto. destruct (peqb_spec y z) as [<-|]; lia. }
  assert (EFF : forall z, ok_place m z -> z <> y -> eff (better w x y c) z = eff w z).
  { intros z Hz N. unfold eff. destruct (peqb z dest); auto. rewrite PW by auto. destruct (peqb_spec y z); congruence. }
  assert (EFM : forall z, ok_place m z -> (z = dest \/ pw w z <> 0) -> eff (better w x y c) z <= eff w z).
  { intros z Hz N. unfold eff. destruct (peqb_spec z dest); [lia|]. destruct N; [contradiction|]. now apply MONO. }
  assert (REL : forall a b d, ok_place m a -> E a b d -> (a = dest \/ a <> y) -> relaxed w a b d -> relaxed (better w x y c) a b d).
  { intros a b d Ha Hab Nay R Nb. destruct (R Nb) as [R1 R2]. assert (Hb : ok_place m b) by (eapply ends_ok; eauto).
    destruct (MONO b Hb R1). split; auto. assert (eff (better w x y c) a = eff w a) as ->; [|lia].
    destruct Nay as [->|]; [unfold eff; now destruct (peqb_spec dest dest)|now apply EFF]. }
  assert (SX : exists ls, spath w x ls (pw w x)).
  { destruct (place_dec x dest) as [->|N]; [|apply (i_path _ _ H); auto; destruct Hset; congruence].
    rewrite <- Hxe. unfold eff. destruct (peqb_spec dest dest); [|congruence]. eexists. constructor. }
  split; [|split; [auto|split; [|split; auto]]].
  - constructor.
    + now apply better_lens.
    + intros z Hz. rewrite PW by auto. destruct (peqb y z); [lia|now apply H].
    + rewrite PW by apply dest_ok. destruct (peqb_spec y dest); [nia|apply H].
    + intros z Hz Nz Q. rewrite PW in Q |- * by auto. destruct (peqb_spec y z) as [<-|N].
      * destruct SX as (ls & S). exists (y :: ls).
        assert (S' : spath (better w x y c) x ls (pw w x)) by (eapply spath_mono; [|exact S]; auto).
        apply (sp_next _ x); auto; [|lia|lia]. intro I. destruct (proj2 (spath_on _ _ _ _ S) y I) as [->|[Q1 Q2]]; [contradiction|lia].
      * destruct (i_path _ _ H z Hz Nz Q) as (ls & S). exists ls. eapply spath_mono; [|exact S]. auto.
    + intros z Hz Nz Q. destruct (better_par w x y c z HL Hy Hz) as [Q1 Q2]. rewrite Q1, Q2. rewrite PW in Q |- * by auto.
      destruct (peqb_spec y z) as [<-|N].
      * exists x, c. repeat split; auto; [rewrite PX; destruct Hset; auto|]. rewrite EFF by auto. lia.
      * destruct (i_par _ _ H z Hz Nz Q) as (p & d & P1 & P2 & P3 & P4 & P5). assert (Hp : ok_place m p) by (eapply ends_ok; eauto).
        exists p, d. repeat split; auto; [destruct P4; auto; right; now apply MONO|]. pose proof (EFM p Hp P4). lia.
    + intros z Hz Nz. rewrite better_va, PW by auto. destruct (peqb_spec x z) as [<-|N1].
      * destruct (peqb_spec y x); [congruence|]. destruct Hset; [contradiction|]. split; lia.
      * destruct (peqb_spec y z) as [<-|N2]; [split; lia|]. now apply H.
    + intros z Hz Nz Ns. rewrite better_va by auto. destruct (peqb_spec x z) as [->|N1]; [congruence|].
      destruct (peqb_spec y z) as [<-|N2]; [lia|]. intros V1 V2 b d Hb. apply REL; auto. apply (i_done _ _ H z); auto.
    + destruct (i_first _ _ H) as [F|(F1 & F2 & F3)].
      * left. intros b d Hb. apply REL; auto. apply dest_ok.
      * right. destruct F1 as [F1|F1]; [discriminate|]. split; [right; auto|]. split; [|discriminate].
        injection F1 as ->. rewrite PX. auto.
  - unfold measure. apply (total_lt _ _ _ y); [| now apply in_places|].
    + intros z Hz. apply in_places in Hz. rewrite PW by auto. destruct (peqb_spec y z) as [<-|].
      * replace (pw w x + c =? 0) with false by (symmetry; apply Z.eqb_neq; lia).
        assert (pw w x + c <= Z.of_nat (all_points m) * W) by (rewrite <- Hxe; nia).
        destruct (pw w y =? 0) eqn:Q; [lia|]. apply Z.eqb_neq in Q. lia.
      * lia.
    + rewrite PY. replace (pw w x + c =? 0) with false by (symmetry; apply Z.eqb_neq; lia).
      assert (pw w x + c <= Z.of_nat (all_points m) * W) by (rewrite <- Hxe; nia).
      destruct (pw w y =? 0) eqn:Q; [lia|]. apply Z.eqb_neq in Q. lia.
Qed.
Definition progress (w : work) (f : bool) (w' : work) (f' : bool) : Prop :=
  measure w' <= measure w /\ (f' = true -> f = true /\ w' = w) /\ (f' = false -> f = false \/ measure w' < measure w).
Lemma progress_refl w f : progress w f w f.
Proof. split; [lia|split; auto]. Qed.
Lemma progress_trans w f w1 f1 w2 f2 : progress w f w1 f1 -> progress w1 f1 w2 f2 -> progress w f w2 f2.
Proof.
  intros (A1 & A2 & A3) (B1 & B2 & B3). split; [lia|]. split.
  - intro Q. destruct (B2 Q) as [-> ->]. auto.
  - intro Q. destruct (B3 Q) as [->|]; [|right; lia]. destruct A3 as [|]; auto. right; lia.
Qed.

Lemma visit_rays x w f : Inv (Some x) w -> ok_place m x -> eff w x = pw w x -> (x = dest \/ pw w x <> 0) ->
  forall rest done w1 f1, ends = done ++ rest -> Inv (Some x) w1 -> pw w1 x = pw w x -> progress w f w1 f1 ->
    (forall y c, In (x, y, c) done -> relaxed w1 x y c) ->
    exists w2 f2, foldM (fun st k => relax o (Z.of_nat (fst x)) (Z.of_nat (snd x)) st (Z.of_nat k)) (seq (length done) (length rest)) (w1, f1) = OK (w2, f2) /\
      Inv (Some x) w2 /\ progress w f w2 f2 /\ forall y c, E x y c -> relaxed w2 x y c.
Proof.
  intros H Hx Hxe Hset. induction rest as [|[[s y] c] rest IH]; intros done w1 f1 He H1 Hp Hpr Hd.
  - cbn. exists w1, f1. split; [auto|split; [auto|split; auto]]. intros y c Q. apply Hd. rewrite He, app_nil_r in Q. auto.
  - cbn [length seq foldM]. pose proof (pw_bound _ _ _ H1 Hx) as B.
    rewrite (relax_ok x w1 f1 (length done) s y c); auto; [|apply H1|lia|lia|rewrite He, nth_error_app2, Nat.sub_diag by lia; reflexivity].
    cbn [rbind]. replace (S (length done)) with (length (done ++ [(s, y, c)])) by (rewrite app_length; cbn; lia).
    assert (He' : ends = (done ++ [(s, y, c)]) ++ rest) by (rewrite <- app_assoc; exact He).
    assert (Hin : E s y c) by (cbv beta; rewrite He; apply in_or_app; right; now left).
    assert (Hxe1 : eff w1 x = pw w1 x) by (unfold eff in *; destruct (peqb x dest); congruence).
    unfold arelax. destruct (peqb_spec x s) as [<-|N].
    + destruct (negb (pw w1 y =? 0) && (pw w1 x + c >=? pw w1 y)) eqn:Q.
      * apply andb_prop in Q as [Q1 Q2]. apply negb_true_iff, Z.eqb_neq in Q1. apply Z.geb_le in Q2.
        apply IH; auto. intros y' c' I. apply in_app_or in I as [I|[I|[]]]; auto. injection I as <- <-. intros Ny. split; auto. lia.
      * assert (Himp : pw w1 y = 0 \/ pw w1 x + c < pw w1 y).
        { apply andb_false_iff in Q as [Q|Q]; [left; now apply negb_false_iff, Z.eqb_eq in Q|right; rewrite Z.geb_leb in Q; apply Z.leb_gt in Q; lia]. }
        destruct (better_inv w1 x y c H1 Hx Hin Hxe1) as (I1 & I2 & I3 & I4 & I5); auto; [destruct Hset; auto; right; congruence|].
        apply IH; auto; [congruence| |].
        { eapply progress_trans; [exact Hpr|]. split; [lia|split; [discriminate|auto]]. }
        { assert (EE : eff (better w1 x y c) x = eff w1 x) by (unfold eff; destruct (peqb x dest); congruence).
          intros y' c' I. apply in_app_or in I as [I|[I|[]]].
          - intros Ny. destruct (Hd y' c' I Ny) as [R1 R2].
            assert (Hy' : ok_place m y') by (eapply ends_ok; rewrite He; apply in_or_app; left; exact I).
            destruct (I4 y' Hy' R1). split; auto. lia.
          - injection I as <- <-. intros Ny. rewrite I5, EE. destruct (ends_ok x y c Hin) as (_ & _ & ?). lia. }
    + apply IH; auto. intros y' c' I. apply in_app_or in I as [I|[I|[]]]; auto. injection I as -> -> ->. congruence.
Qed.

Lemma visit_dest_again w f : Inv None w -> (forall y c, E dest y c -> relaxed w dest y c) ->
  forall rest done, ends = done ++ rest ->
    foldM (fun st k => relax o (Z.of_nat (fst dest)) (Z.of_nat (snd dest)) st (Z.of_nat k)) (seq (length done) (length rest)) (w, f) = OK (w, f).
Proof.
  intros H R. induction rest as [|[[s y] c] rest IH]; intros done He; [reflexivity|].
  cbn [length seq foldM]. pose proof (pw_bound _ _ _ H dest_ok) as B.
  assert (Hin : E s y c) by (cbv beta; rewrite He; apply in_or_app; right; now left).
  destruct (ends_ok s y c Hin) as (_ & Hy & Hc).
  rewrite (relax_ok dest w f (length done) s y c); auto; [|apply dest_ok|apply H|lia|lia|rewrite He, nth_error_app2, Nat.sub_diag by lia; reflexivity].
  cbn [rbind]. replace (S (length done)) with (length (done ++ [(s, y, c)])) by (rewrite app_length; cbn; lia).
  assert (He' : ends = (done ++ [(s, y, c)]) ++ rest) by (rewrite <- app_assoc; exact He).
  unfold arelax. destruct (peqb_spec dest s) as [<-|N]; [|now apply IH].
  assert (Ny : y <> dest) by (intros ->; now apply no_self in Hin).
  destruct (R y c Hin Ny) as [R1 R2]. unfold eff in R2. destruct (peqb_spec dest dest); [|congruence].
  replace (pw w y =? 0) with false by (symmetry; now apply Z.eqb_neq).
  replace (pw w dest + c >=? pw w y) with true by (symmetry; apply Z.geb_le; lia). now apply IH.
Qed.

Lemma visit_ok x w f : Inv None w -> ok_place m x ->
  exists w' f', visit o (Z.of_nat (fst x)) (w, f) (Z.of_nat (snd x)) = OK (w', f') /\ Inv None w' /\ progress w f w' f' /\
    (f' = true -> va w x = 2 -> forall y c, E x y c -> relaxed w x y c).
Proof.
  intros H Hx. unfold visit. rewrite (poly_get zero o m) by (auto; apply Hx). cbn [rbind]. rewrite (get_pt_ok m) by (auto; apply m200). cbn [rbind].
  pose proof (ix x Hx). pose proof (i_len _ _ H) as (L1 & _). cbn [fst].
  rewrite (get_nth _ _ 0) by lia. cbn [rbind]. change (nth (idx m x) (valid w) 0) with (va w x).
  destruct (Z.eqb_spec (va w x) 2) as [V|V]; cbn [negb].
  2:{ exists w, f. split; [auto|split; [auto|split; [apply progress_refl|contradiction]]]. }
  rewrite zseq0, foldM_map, table_n.
  replace (Z.to_nat ((2 * Z.of_nat (length ends) + 1) / 2)) with (length ends).
  2:{ replace (2 * Z.of_nat (length ends) + 1) with (1 + Z.of_nat (length ends) * 2) by lia. rewrite Z.div_add by lia. change (1 / 2) with 0. lia. }
  assert (FIN : Inv (Some x) w -> eff w x = pw w x -> (x = dest \/ pw w x <> 0) ->
    exists (w' : work) (f' : bool), foldM (fun st k => relax o (Z.of_nat (fst x)) (Z.of_nat (snd x)) st (Z.of_nat k)) (seq 0 (length ends)) (w, f) = OK (w', f') /\
      Inv None w' /\ progress w f w' f' /\ (f' = true -> va w x = 2 -> forall y c, E x y c -> relaxed w x y c)).
  { intros H1 Hxe Hset. destruct (visit_rays x w f H1 Hx Hxe Hset ends [] w f) as (w2 & f2 & E2 & I2 & P2 & R2); auto; [apply progress_refl|intros y c []|].
    exists w2, f2. split; [exact E2|]. split; [|split; auto].
    - destruct I2 as [J1 J2 J3 J4 J5 J6 J7 J8]. constructor; auto.
      + intros z Hz Nz _ V1 V2. destruct (place_dec z x) as [->|Nzx]; [auto|]. apply J7; auto. congruence.
      + destruct J8 as [J8|(J8 & _)]; [auto|]. destruct J8 as [J8|J8]; [discriminate|]. injection J8 as ->. left. auto.
    - intros Q _. destruct (proj1 (proj2 P2) Q) as [_ ->]. auto. }
  destruct (i_first _ _ H) as [F|(F1 & F2 & F3)].
  - destruct (place_dec x dest) as [->|N].
    + exists w, f. split; [apply (visit_dest_again w f H F ends []); auto|]. split; [auto|split; [apply progress_refl|auto]].
    + apply FIN.
      * destruct H as [J1 J2 J3 J4 J5 J6 J7 J8]. constructor; auto. intros z Hz Nz _. apply J7; auto. discriminate.
      * unfold eff. destruct (peqb_spec x dest); congruence.
      * right. intro Q. apply (i_va _ _ H) in Q; auto. lia.
  - destruct (place_dec x dest) as [->|N].
    + apply FIN; auto.
      * destruct H as [J1 J2 J3 J4 J5 J6 J7 J8]. constructor; auto.
        intros z Hz Nz _. apply J7; auto. discriminate.
    + exfalso. assert (va w x = 0) by (apply (i_va _ _ H); auto). lia.
Qed.

(** A pass over all the points. *)
Lemma pass_places w : pass o w = foldM (fun st x => visit o (Z.of_nat (fst x)) st (Z.of_nat (snd x))) (places m) (w, true).
Proof.
  unfold pass, places. rewrite zseq0, Nat2Z.id, foldM_map, foldM_flat_map. unfold MAX_POLY.
  pose proof (h_m _ _ _ Hold) as HM. replace 20%nat with (length m + (20 - length m))%nat at 1 by lia.
  rewrite seq_app, foldM_app. cbn [Nat.add].
  rewrite (foldM_ext _ (fun a i => foldM (fun st x => visit o (Z.of_nat (fst x)) st (Z.of_nat (snd x))) (List.map (fun b => (i, b)) (seq 0 (length (nth i m [])))) a)
     (seq 0 (length m))).
  2:{ intros a i Hi. apply in_seq in Hi. rewrite (poly_get zero o m) by (auto; lia). cbn [rbind l].
      assert (L : (length (nth i m []) <= 200)%nat).
      { pose proof (offset_S m i) as Q. pose proof (offset_all m (S i)). pose proof m200. lia. }
      replace (_ >? 255) with false by (symmetry; rewrite Z.gtb_ltb; apply Z.ltb_ge; lia).
      rewrite zseq0, Nat2Z.id, !foldM_map. reflexivity. }
  destruct (foldM _ (seq 0 (length m)) (w, true)) as [st|]; [cbn [rbind]|reflexivity].
  assert (forall l st, (forall i, In i l -> (length m <= i < 20)%nat) -> foldM (fun st i => try pol := zget (polys o) (Z.of_nat i) in
     if OaModel.l pol >? 255 then BAD else foldM (visit o (Z.of_nat i)) (zseq 0 (OaModel.l pol)) st) l st = OK st) as G.
  { induction l as [|i l IH]; intros s Hi; [reflexivity|]. cbn [foldM].
    destruct (h_unused _ _ _ Hold i) as (pol & Q1 & Q2); [apply Hi; now left|]. rewrite zget_nat. unfold get. rewrite Q1. cbn [some rbind]. rewrite Q2.
    cbn [Z.gtb Z.compare]. change (zseq 0 0) with (@nil Z). cbn [foldM rbind]. apply IH. intros; apply Hi; now right. }
  apply G. intros i Hi. apply in_seq in Hi. lia.
Qed.
Lemma visits_ok xs w f : (forall x, In x xs -> ok_place m x) -> Inv None w ->
  exists w' f', foldM (fun st x => visit o (Z.of_nat (fst x)) st (Z.of_nat (snd x))) xs (w, f) = OK (w', f') /\ Inv None w' /\ progress w f w' f' /\
    (f' = true -> forall x, In x xs -> va w x = 2 -> forall y c, E x y c -> relaxed w x y c).
Proof.
  revert w f; induction xs as [|x xs IH]; intros w f Hxs H; cbn [foldM].
  - exists w, f. split; [auto|split; [auto|split; [apply progress_refl|intros _ x []]]].
  - destruct (visit_ok x w f H) as (w1 & f1 & E1 & I1 & P1 & R1); [apply Hxs; now left|]. rewrite E1. cbn [rbind].
    destruct (IH w1 f1) as (w2 & f2 & E2 & I2 & P2 & R2); auto; [intros; apply Hxs; now right|].
    exists w2, f2. split; [auto|]. split; [auto|]. split; [eapply progress_trans; eauto|].
    intros Q. destruct (proj1 (proj2 P2) Q) as [Q1 ->]. destruct (proj1 (proj2 P1) Q1) as [_ ->]. intros z [<-|Hz]; auto.
Qed.

(** All rays are relaxed when the search ends. *)
Definition final (w : work) : Prop := Inv None w /\ forall x y c, E x y c -> x = dest \/ pw w x <> 0 -> relaxed w x y c.
Lemma passes_ok w : Inv None w -> va w dest = 2 \/ (forall y c, E dest y c -> relaxed w dest y c) ->
  exists f0, forall fuel, (f0 <= fuel)%nat -> exists w', passes fuel o w = OK w' /\ final w'.
Proof.
  intros H V. remember (Z.to_nat (measure w)) as n eqn:En. assert (Hn : (Z.to_nat (measure w) <= n)%nat) by lia. clear En.
  revert w H V Hn; induction n as [n IH] using lt_wf_ind; intros w H V Hn.
  destruct (visits_ok (places m) w true) as (w1 & f1 & E1 & I1 & P1 & R1); [intros x; apply in_places|auto|]. rewrite <- pass_places in E1.
  destruct f1.
  - exists 1%nat. intros [|fuel] Hf; [lia|]. exists w1. cbn [passes]. rewrite E1. cbn [rbind]. split; auto.
    destruct (proj1 (proj2 P1) eq_refl) as [_ ->]. split; auto. intros x y c He Hset.
    assert (Hx : ok_place m x) by (eapply ends_ok; eauto).
    destruct (Z.eq_dec (va w x) 2) as [V2|V2]; [apply (R1 eq_refl x); auto; now apply in_places|].
    destruct (place_dec x dest) as [->|N].
    + destruct V as [V|V]; [contradiction|auto].
    + apply (i_done _ _ H x); auto; [discriminate|]. rewrite (i_va _ _ H) by auto. destruct Hset; congruence.
  - destruct (proj2 (proj2 P1) eq_refl) as [|Q]; [discriminate|]. pose proof (measure_pos _ _ I1).
    assert (V1 : va w1 dest = 2 \/ (forall y c, E dest y c -> relaxed w1 dest y c)).
    { right. destruct (i_first _ _ I1) as [F|(_ & F1 & F2)]; auto. exfalso.
      (* nothing has a weight: no progress *)
      assert (measure w <= measure w1); [|lia]. unfold measure. apply total_le. intros x Hx. apply in_places in Hx.
      assert (pw w1 x = 0) as ->. { destruct (place_dec x dest) as [->|]; auto. } cbn [Z.eqb].
      pose proof (pw_bound _ _ _ H Hx). destruct (pw w x =? 0); lia. }
    destruct (IH (Z.to_nat (measure w1))) with (w := w1) as (f0 & G); auto; [lia|].
    exists (S f0). intros [|fuel] Hf; [lia|]. cbn [passes]. rewrite E1. cbn [rbind]. apply G. lia.
Qed.

(** The first state of the search. *)
Definition work1 : work := mkw (upd (repeat 0 MAX_PTS) 0 2) (repeat 0 MAX_PTS) (repeat 0 MAX_PTS) (repeat 0 MAX_PTS).
Lemma work1_pw x : pw work1 x = 0.
Proof. unfold pw, work1; cbn [pweight]. apply nth_repeat. Qed.
Lemma work1_inv : Inv None work1 /\ va work1 dest = 2.
Proof.
  assert (D : idx m dest = 0%nat) by reflexivity.
  assert (VA : forall x, ok_place m x -> x <> dest -> va work1 x = 0).
  { intros x Hx N. unfold va, work1; cbn [valid]. rewrite nth_upd.
    destruct (Nat.eqb_spec 0 (idx m x)) as [Q|Q]; [|apply nth_repeat]. exfalso. apply N. symmetry.
    apply (idx_inj m); auto. apply dest_ok. }
  split.
  - constructor; intros; rewrite ?work1_pw in *; try congruence; try lia.
    + repeat split; reflexivity.
    + split; auto.
    + exfalso. auto.
    + right. split; [auto|split; [auto|intros; apply work1_pw]].
  - unfold va. rewrite D. reflexivity.
Qed.

(** The ways back to the destination. *)
Definition back (x y : place) (c : Z) : Prop := E x y c.
Lemma route_low w x ys c : final w -> ok_place m x -> route back x ys c -> (x = dest \/ pw w x <> 0) /\ eff w x <= c.
Proof.
  intros [HI HR] Hx R. induction R as [|x y c ys d He R IH].
  - split; auto. unfold eff. destruct (peqb_spec dest dest); [lia|congruence].
  - assert (Hy : ok_place m y) by (eapply ends_ok; eauto). destruct (IH Hy) as [I1 I2].
    apply ends_sym in He. destruct (ends_ok _ _ _ He) as (_ & _ & Hc).
    destruct (place_dec x dest) as [->|N].
    + split; auto. pose proof (eff_bound _ _ _ HI Hy). unfold eff. destruct (peqb_spec dest dest); [lia|congruence].
    + destruct (HR y x c He I1 N) as [R1 R2]. split; auto. unfold eff at 1. destruct (peqb_spec x dest); [congruence|]. lia.
Qed.
Inductive chain (w : work) : place -> list place -> Prop :=
| ch_end : chain w dest []
| ch_next x y ys : ok_place m x -> ok_place m y -> x <> dest -> va w x <> 0 ->
    nth (idx m x) (p_of w) 0 = Z.of_nat (fst y) -> nth (idx m x) (pt_of w) 0 = Z.of_nat (snd y) -> chain w y ys -> chain w x (y :: ys).
Lemma chain_exists w x : final w -> ok_place m x -> x = dest \/ pw w x <> 0 -> exists ys, chain w x ys /\ route back x ys (eff w x).
Proof.
  intros [HI HR] Hx Hset. remember (Z.to_nat (eff w x)) as n eqn:En. revert x Hx Hset En; induction n as [n IH] using lt_wf_ind; intros x Hx Hset En.
  destruct (place_dec x dest) as [->|N].
  - exists []. split; [constructor|]. unfold eff. destruct (peqb_spec dest dest); [constructor|congruence].
  - destruct Hset as [|Hset]; [contradiction|]. destruct (i_par _ _ HI x Hx N Hset) as (y & c & P1 & P2 & P3 & P4 & P5).
    destruct (ends_ok _ _ _ P1) as (Hy & _ & Hc). destruct (HR y x c P1 P4 N) as [R1 R2].
    pose proof (eff_bound _ _ _ HI Hy). assert (Ex : eff w x = pw w x) by (unfold eff; destruct (peqb_spec x dest); congruence).
    destruct (IH (Z.to_nat (eff w y))) with (x := y) as (ys & C1 & C2); auto; [lia|].
    exists (y :: ys). split.
    + constructor; auto. rewrite (i_va _ _ HI); auto.
    + replace (eff w x) with (c + eff w y) by lia. apply route_next; auto. now apply ends_sym.
Qed.

Definition with_work (w : work) : oa P := set_wk o w.
Lemma with_vertex w x : ok_place m x -> vertex (with_work w) (Z.of_nat (fst x)) (Z.of_nat (snd x)) = OK (nth (snd x) (nth (fst x) m []) zero).
Proof. intro H. apply (vertex_ok zero o m); auto. Qed.
Lemma get_path_chain w x ys : wlens w -> chain w x ys -> forall n rs, length rs = 100%nat -> (n <= 100)%nat ->
  exists rs' r, get_path n (with_work w) (Z.of_nat (fst x)) (Z.of_nat (snd x)) rs = OK (rs', r) /\ length rs' = 100%nat /\
    firstn (100 - n) rs' = firstn (100 - n) rs /\
    ((length ys <= n)%nat /\ r = Z.of_nat (100 - n + length ys) /\ List.map (@Some P) (firstn (length ys) (skipn (100 - n) rs')) = List.map (at_place m) ys
     \/ (n < length ys)%nat /\ r = -1).
Proof.
  intros HL C. induction C as [|x y ys Hx Hy N V P1 P2 C IH]; intros n rs Hrs Hn.
  - exists rs, (Z.of_nat (100 - n)). split; [destruct n; reflexivity|]. split; [auto|]. split; [auto|]. left. split; [cbn; lia|]. split; [cbn; f_equal; lia|reflexivity].
  - assert (Z00 : (Z.of_nat (fst x) =? 0) && (Z.of_nat (snd x) =? 0) = false).
    { apply andb_false_iff. destruct x as [[|a] [|b]]; cbn; auto. exfalso. now apply N. }
    destruct n as [|n]; cbn [get_path]; rewrite Z00.
    { exists rs, (-1). split; [auto|]. split; [auto|]. split; [auto|]. right. cbn. lia. }
    change (polys (with_work w)) with (polys o). change (wk (with_work w)) with w.
    rewrite (poly_get zero o m) by (auto; apply Hx). cbn [rbind]. rewrite (get_pt_ok m) by (auto; apply m200). cbn [rbind].
    destruct HL as (L1 & L2 & L3 & L4). pose proof (ix x Hx).
    rewrite (get_nth _ _ 0) by lia. cbn [rbind]. change (nth (idx m x) (valid w) 0) with (va w x).
    replace (va w x =? 0) with false by (symmetry; now apply Z.eqb_neq).
    rewrite (get_nth _ _ 0) by lia. cbn [rbind]. rewrite (get_nth _ _ 0) by lia. cbn [rbind]. rewrite P1, P2.
    rewrite with_vertex by auto. cbn [rbind]. unfold MAX_CHKPOINTS. rewrite put_ok by lia. cbn [rbind].
    set (v := nth (snd y) (nth (fst y) m []) zero).
    destruct (IH n (upd rs (100 - S n) v)) as (rs' & r & G1 & G2 & G3 & G4); [now rewrite upd_length|lia|].
    exists rs', r. split; [exact G1|]. split; [auto|].
    replace (100 - n)%nat with (S (100 - S n)) in * by lia. set (i := (100 - S n)%nat) in *.
    assert (Hi : (i < 100)%nat) by lia.
    assert (F : firstn i rs' = firstn i rs /\ nth_error rs' i = Some v).
    { split.
      - pose proof (f_equal (firstn i) G3) as Q. rewrite !firstn_firstn in Q. replace (min i (S i)) with i in Q by lia. rewrite Q.
        apply firstn_upd.
      - assert (Q : nth_error (firstn (S i) rs') i = nth_error (firstn (S i) (upd rs i v)) i) by now rewrite G3.
        rewrite !firstn_nth_error in Q by lia. rewrite Q. apply upd_same. lia. }
    destruct F as [F1 F2]. split; [exact F1|].
    destruct G4 as [(A1 & A2 & A3)|(A1 & A2)]; [left|right; cbn; split; [lia|auto]].
    split; [cbn; lia|]. split; [rewrite A2; cbn [length]; lia|].
    cbn [length List.map].
    assert (SK : skipn i rs' = v :: skipn (S i) rs').
    { now apply skipn_cons_nth. }
    rewrite SK. cbn [firstn List.map]. rewrite A3. f_equal. unfold v. symmetry. now apply at_place_ok.
Qed.

Theorem search_ok : exists f0, forall fuel, (f0 <= fuel)%nat -> exists w,
  passes fuel o work1 = OK w /\ forall rs, length rs = 100%nat -> exists rs' r,
    get_path MAX_CHKPOINTS (with_work w) 0 1 rs = OK (rs', r) /\ good_answer back (at_place m) rs' r.
Proof.
  destruct work1_inv as [I V]. destruct (passes_ok work1 I) as (f0 & G); [auto|]. exists f0. intros fuel Hf.
  destruct (G fuel Hf) as (w & E1 & HF). exists w. split; auto. intros rs Hrs.
  pose proof (i_len _ _ (proj1 HF)) as HL.
  destruct (Z.eq_dec (pw w start) 0) as [Q|Q].
  - assert (V0 : va w start = 0) by (apply (i_va _ _ (proj1 HF)); [apply start_ok|discriminate|exact Q]).
    exists rs, (-2). split.
    + unfold MAX_CHKPOINTS. change (get_path 100 (with_work w) 0 1 rs) with (get_path (S 99) (with_work w) (Z.of_nat (fst start)) (Z.of_nat (snd start)) rs).
      cbn [get_path]. change ((Z.of_nat (fst start) =? 0) && (Z.of_nat (snd start) =? 0)) with false. cbv iota.
      change (polys (with_work w)) with (polys o). change (wk (with_work w)) with w.
      rewrite (poly_get zero o m) by (auto; apply start_ok). cbn [rbind]. rewrite (get_pt_ok m) by (apply m200 || apply start_ok). cbn [rbind].
      pose proof (ix start start_ok). destruct HL as (L1 & L2 & L3 & L4).
      rewrite (get_nth _ _ 0) by lia. cbn [rbind]. change (nth (idx m start) (valid w) 0) with (va w start). rewrite V0. reflexivity.
    + left. split; auto. intros ys c R. destruct (route_low w start ys c HF start_ok R) as [[D|D] _]; [discriminate|contradiction].
  - destruct (chain_exists w start HF start_ok (or_intror Q)) as (ys & C1 & C2).
    destruct (get_path_chain w start ys HL C1 100 rs Hrs) as (rs' & r & G1 & G2 & G3 & G4); [lia|].
    exists rs', r. split; [exact G1|]. right. exists ys, (eff w start). split; [auto|]. split.
    + intros ys' c' R. now apply (route_low w start ys' c' HF start_ok).
    + exact G4.
Qed.
End Search.
