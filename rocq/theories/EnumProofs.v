From Coq Require Import ZArith List Bool Arith Lia Permutation Sorted.
From Verif Require Import EnumModel EnumSpec.
Import ListNotations.
Local Open Scope Z_scope.

(** * strcmp is a total order *)
Lemma strcmp_eq : forall a b, strcmp a b = Eq <-> a = b.
Proof.
  induction a as [|x a IH]; destruct b as [|y b]; cbn; try (split; congruence).
  destruct (Z.compare_spec x y); subst.
  - rewrite IH. split; congruence.
  - split; [congruence|]. intros E; injection E; lia.
  - split; [congruence|]. intros E; injection E; lia.
Qed.
Lemma strcmp_refl : forall a, strcmp a a = Eq.
Proof. intro; now apply strcmp_eq. Qed.
Lemma strcmp_antisym : forall a b, strcmp b a = CompOpp (strcmp a b).
Proof.
  induction a as [|x a IH]; destruct b as [|y b]; cbn; try reflexivity.
  rewrite (Z.compare_antisym x y). destruct (Z.compare x y); cbn; auto.
Qed.
Lemma strcmp_lt_trans : forall a b c, strcmp a b = Lt -> strcmp b c = Lt -> strcmp a c = Lt.
Proof.
  induction a as [|x a IH]; destruct b as [|y b]; destruct c as [|z c]; cbn; try congruence.
  destruct (Z.compare_spec x y), (Z.compare_spec y z); try congruence; intros.
  - subst. rewrite Z.compare_refl. eauto.
  - subst. assert (E : (y ?= z) = Lt) by (now apply Z.compare_lt_iff). now rewrite E.
  - subst. assert (E : (x ?= z) = Lt) by (now apply Z.compare_lt_iff). now rewrite E.
  - assert (E : (x ?= z) = Lt) by (apply Z.compare_lt_iff; lia). now rewrite E.
Qed.
Lemma strcmp_lt_le : forall a b c, strcmp a b = Lt -> strcmp b c <> Gt -> strcmp a c = Lt.
Proof.
  intros a b c H1 H2. destruct (strcmp b c) eqn:E; try congruence.
  - apply strcmp_eq in E. now subst.
  - eapply strcmp_lt_trans; eauto.
Qed.

(** * Binary search *)
Definition mono (c : entry -> comparison) (l : list entry) : Prop :=
  forall i j x y, (i <= j)%nat -> nth_error l i = Some x -> nth_error l j = Some y ->
    (c x = Lt -> c y = Lt) /\ (c y = Gt -> c x = Gt).

Lemma midpoint_bounds : forall a b, (a < b)%nat -> (a <= midpoint a b < b)%nat.
Proof.
  intros a b H. unfold midpoint. apply Nat.ltb_lt in H as E. rewrite E. split.
  - apply Nat.div_le_lower_bound; lia.
  - apply Nat.div_lt_upper_bound; lia.
Qed.

Lemma search_spec : forall c l, mono c l -> forall fuel imin imax, (imax <= length l)%nat -> (imax - imin < fuel)%nat ->
  (forall i e, nth_error l i = Some e -> c e = Eq -> (imin <= i < imax)%nat) ->
  (exists i e, search_loop fuel c l imin imax = Some (Some i) /\ nth_error l i = Some e /\ c e = Eq)
  \/ (search_loop fuel c l imin imax = Some None /\ forall e, In e l -> c e <> Eq).
Proof.
  intros c l M. induction fuel as [|fuel IH]; intros imin imax HM HF HI; [lia|]. cbn [search_loop].
  destruct (Nat.ltb_spec imin imax) as [Hlt|Hge].
  - pose proof (midpoint_bounds _ _ Hlt) as HB. set (m := midpoint imin imax) in *. cbv zeta.
    destruct (nth_error l m) as [e|] eqn:E; [|apply nth_error_None in E; lia].
    destruct (c e) eqn:C.
    + left. exists m, e. auto.
    + apply IH; [lia|lia|]. intros i x Hx Hc. specialize (HI i x Hx Hc). split; [lia|].
      destruct (Nat.lt_ge_cases i m) as [|G]; [assumption|]. destruct (M m i e x G E Hx) as [L _]. rewrite (L C) in Hc. congruence.
    + apply IH; [lia|lia|]. intros i x Hx Hc. specialize (HI i x Hx Hc). split; [|lia].
      destruct (Nat.lt_ge_cases m i) as [|G]; [lia|]. destruct (M i m x e G Hx E) as [_ R]. rewrite (R C) in Hc. congruence.
  - right. split; [reflexivity|]. intros e He Hc. apply In_nth_error in He as [i Hi]. specialize (HI i e Hi Hc). lia.
Qed.

Lemma search_full : forall c l, mono c l ->
  (exists i e, search_loop (S (length l)) c l 0 (length l) = Some (Some i) /\ nth_error l i = Some e /\ c e = Eq)
  \/ (search_loop (S (length l)) c l 0 (length l) = Some None /\ forall e, In e l -> c e <> Eq).
Proof.
  intros c l M. apply search_spec; auto; try lia. intros i e Hi _.
  assert (i < length l)%nat by (apply nth_error_Some; congruence). lia.
Qed.

Lemma insert_spec : forall c l, mono c l -> forall fuel imin imax, (imin <= imax <= length l)%nat -> (imax - imin < fuel)%nat ->
  (forall i e, nth_error l i = Some e -> (i < imin)%nat -> c e = Gt) ->
  (forall i e, nth_error l i = Some e -> (imax <= i)%nat -> c e <> Gt) ->
  exists p, insert_loop fuel c l imin imax = Some p /\ (p <= length l)%nat /\
    (forall i e, nth_error l i = Some e -> (i < p)%nat -> c e = Gt) /\
    (forall i e, nth_error l i = Some e -> (p <= i)%nat -> c e <> Gt).
Proof.
  intros c l M. induction fuel as [|fuel IH]; intros imin imax HM HF H1 H2; [lia|]. cbn [insert_loop].
  destruct (Nat.eqb_spec imin imax) as [->|Hne].
  - exists imax. split; [reflexivity|]. split; [lia|]. auto.
  - assert (Hlt : (imin < imax)%nat) by lia. pose proof (midpoint_bounds _ _ Hlt) as HB.
    set (m := midpoint imin imax) in *. cbv zeta.
    destruct (nth_error l m) as [e|] eqn:E; [|apply nth_error_None in E; lia].
    assert (LE : c e <> Gt -> forall i x, nth_error l i = Some x -> (m <= i)%nat -> c x <> Gt).
    { intros N i x Hx G Hc. apply N. destruct (M m i e x G E Hx) as [_ R]. auto. }
    assert (GT : c e = Gt -> forall i x, nth_error l i = Some x -> (i < m + 1)%nat -> c x = Gt).
    { intros N i x Hx G. destruct (M i m x e ltac:(lia) Hx E) as [_ R]. auto. }
    destruct (c e) eqn:C; (apply IH; [lia|lia|..]; auto); first [apply LE; congruence|apply GT; congruence].
Qed.
Lemma insert_full : forall c l, mono c l ->
  exists p, insert_loop (S (length l)) c l 0 (length l) = Some p /\ (p <= length l)%nat /\
    (forall i e, nth_error l i = Some e -> (i < p)%nat -> c e = Gt) /\
    (forall i e, nth_error l i = Some e -> (p <= i)%nat -> c e <> Gt).
Proof.
  intros c l M. apply insert_spec; auto; try lia. intros i e Hi Hl.
  assert (i < length l)%nat by (apply nth_error_Some; congruence). lia.
Qed.

(** * Sortedness *)
Section Order.
  Variable ord : entry -> entry -> comparison.
  Hypothesis ord_refl : forall a, ord a a = Eq.
  Hypothesis ord_anti : forall a b, ord b a = CompOpp (ord a b).
  Hypothesis ord_lt_le : forall a b c, ord a b = Lt -> ord b c <> Gt -> ord a c = Lt.
  Hypothesis ord_eq_l : forall a b c, ord a b = Eq -> ord a c = ord b c.

  Definition le (a b : entry) : Prop := ord a b <> Gt.
  Definition srt (l : list entry) : Prop :=
    forall i j x y, (i <= j)%nat -> nth_error l i = Some x -> nth_error l j = Some y -> le x y.

  Lemma le_trans : forall a b c, le a b -> le b c -> le a c.
  Proof.
    unfold le. intros a b c H1 H2. destruct (ord a b) eqn:E; try congruence.
    - now rewrite (ord_eq_l _ _ _ E).
    - rewrite (ord_lt_le _ _ _ E H2). congruence.
  Qed.

  Lemma srt_mono : forall l k, srt l -> mono (ord k) l.
  Proof.
    intros l k S i j x y H Hx Hy. pose proof (S i j x y H Hx Hy) as L. unfold le in L. split.
    - intro E. eapply ord_lt_le; eauto.
    - intro E. destruct (ord k x) eqn:C; [| |reflexivity]; exfalso.
      + rewrite (ord_eq_l _ _ _ C) in E. auto.
      + rewrite (ord_lt_le _ _ _ C L) in E. congruence.
  Qed.

  Lemma nth_insert : forall l p k i, (p <= length l)%nat -> nth_error (insert_at l p k) i =
    if Nat.ltb i p then nth_error l i else if Nat.eqb i p then Some k else nth_error l (i - 1).
  Proof.
    intros l p k i H. unfold insert_at. assert (L : length (firstn p l) = p) by (rewrite firstn_length; lia).
    destruct (Nat.ltb_spec i p) as [G|G].
    - rewrite nth_error_app1 by lia. rewrite <- (firstn_skipn p l) at 2. rewrite nth_error_app1 by lia. reflexivity.
    - rewrite nth_error_app2 by lia. rewrite L. destruct (Nat.eqb_spec i p) as [->|N].
      + now rewrite Nat.sub_diag.
      + destruct (i - p)%nat as [|q] eqn:Q; [lia|]. cbn [nth_error].
        rewrite <- (firstn_skipn p l) at 2. rewrite nth_error_app2 by lia. f_equal. lia.
  Qed.

  Lemma srt_insert : forall l k p, srt l -> (p <= length l)%nat ->
    (forall i e, nth_error l i = Some e -> (i < p)%nat -> ord k e = Gt) ->
    (forall i e, nth_error l i = Some e -> (p <= i)%nat -> ord k e <> Gt) ->
    srt (insert_at l p k).
  Proof.
    intros l k p S HP H1 H2 i j x y H Hx Hy. rewrite nth_insert in Hx, Hy by assumption.
    destruct (Nat.ltb_spec i p) as [A|A], (Nat.ltb_spec j p) as [B|B]; try lia.
    - eapply (S i j); eauto.
    - destruct (Nat.eqb_spec j p).
      + injection Hy as <-. unfold le. rewrite (ord_anti k x), (H1 i x Hx A). discriminate.
      + eapply (S i (j - 1)%nat); eauto. lia.
    - destruct (Nat.eqb_spec i p), (Nat.eqb_spec j p); try lia.
      + injection Hx as <-. injection Hy as <-. unfold le. rewrite ord_refl. discriminate.
      + injection Hx as <-. eapply (H2 (j - 1)%nat); eauto. lia.
      + eapply (S (i - 1)%nat (j - 1)%nat); eauto. lia.
  Qed.
End Order.

Lemma perm_insert : forall l p k, Permutation (insert_at l p k) (k :: l).
Proof.
  intros. unfold insert_at. rewrite <- (firstn_skipn p l) at 3. symmetry. apply Permutation_middle.
Qed.

Definition ord_s (a b : entry) := strcmp (e_str_id a) (e_str_id b).
Definition ord_c (a b : entry) := Z.compare (e_can_id a) (e_can_id b).
Definition key_s (s : name) : entry := {| e_str_id := s; e_can_id := 0; e_driver := 0 |}.
Definition key_c (c : Z) : entry := {| e_str_id := []; e_can_id := c; e_driver := 0 |}.

Lemma ord_s_eq_l : forall a b c, ord_s a b = Eq -> ord_s a c = ord_s b c.
Proof. unfold ord_s. intros a b c E. apply strcmp_eq in E. now rewrite E. Qed.
Lemma ord_c_lt_le : forall a b c, ord_c a b = Lt -> ord_c b c <> Gt -> ord_c a c = Lt.
Proof. unfold ord_c. intros a b c. rewrite !Z.compare_lt_iff, Z.compare_gt_iff. lia. Qed.
Lemma ord_c_eq_l : forall a b c, ord_c a b = Eq -> ord_c a c = ord_c b c.
Proof. unfold ord_c. intros a b c E. apply Z.compare_eq_iff in E. now rewrite E. Qed.

Lemma mono_s : forall l s, srt ord_s l -> mono (fun e => strcmp s (e_str_id e)) l.
Proof.
  intros l s S. apply (srt_mono ord_s) with (k := key_s s); auto.
  - intros a b c. apply strcmp_lt_le.
  - apply ord_s_eq_l.
Qed.
Lemma mono_c : forall l c, srt ord_c l -> mono (fun e => Z.compare c (e_can_id e)) l.
Proof.
  intros l c S. apply (srt_mono ord_c) with (k := key_c c); auto.
  - apply ord_c_lt_le.
  - apply ord_c_eq_l.
Qed.

(** * Replacing the CAN id of an entry *)
Lemma replace_len : forall l i e, length (replace_nth l i e) = length l.
Proof. induction l; destruct i; cbn; auto. Qed.
Lemma nth_replace : forall l i e j, nth_error (replace_nth l i e) j =
  if Nat.eqb i j then (match nth_error l j with Some _ => Some e | None => None end) else nth_error l j.
Proof. induction l; destruct i, j; cbn; auto. destruct (Nat.eqb i j); auto. Qed.
Lemma replace_split : forall l i x e, nth_error l i = Some x ->
  l = firstn i l ++ x :: skipn (S i) l /\ replace_nth l i e = firstn i l ++ e :: skipn (S i) l.
Proof.
  induction l; destruct i; cbn; intros x e H; try discriminate.
  - injection H as ->. auto.
  - destruct (IHl i x e H) as [A B]. split; f_equal; auto.
Qed.
Lemma srt_replace : forall l i x e, srt ord_s l -> nth_error l i = Some x -> e_str_id e = e_str_id x ->
  srt ord_s (replace_nth l i e).
Proof.
  intros l i x e S Hx E a b y z H Hy Hz. rewrite nth_replace in Hy, Hz.
  assert (G : forall k w, (if Nat.eqb i k then match nth_error l k with Some _ => Some e | None => None end else nth_error l k) = Some w ->
    exists w', nth_error l k = Some w' /\ e_str_id w = e_str_id w').
  { intros k w Hk. destruct (Nat.eqb_spec i k) as [->|].
    - rewrite Hx in Hk. injection Hk as <-. exists x. auto.
    - exists w. auto. }
  destruct (G _ _ Hy) as (y' & Y & EY), (G _ _ Hz) as (z' & Zz & EZ). unfold le, ord_s. rewrite EY, EZ. eapply (S a b); eauto.
Qed.

(** * History lemmas *)
Lemma adds_app : forall h1 h2, adds (h1 ++ h2) = adds h1 ++ adds h2.
Proof. intros. unfold adds. apply flat_map_app. Qed.
Lemma adds_announce : forall h s c, adds (h ++ [Announce s c]) = adds h.
Proof. intros. rewrite adds_app. cbn. apply app_nil_r. Qed.
Lemma first_announce_app : forall h1 h2 s, first_announce (h1 ++ h2) s =
  match first_announce h1 s with Some c => Some c | None => first_announce h2 s end.
Proof. induction h1 as [|[s' d|s' c] h1 IH]; intros; cbn; auto. destruct (name_dec s' s); auto. Qed.
Lemma announced_add : forall h s' d s, announced (h ++ [Add s' d]) s = announced h s.
Proof.
  induction h as [|[s1 d1|s1 c1] h IH]; intros; cbn; auto.
  - destruct (name_dec s' s); reflexivity.
  - destruct (name_dec s1 s); auto. rewrite first_announce_app. destruct (first_announce h s); reflexivity.
Qed.
Lemma announced_notin : forall h s, ~ In s (map fst (adds h)) -> announced h s = None.
Proof.
  induction h as [|[s1 d1|s1 c1] h IH]; intros s N; cbn in *; auto. destruct (name_dec s1 s); [tauto|]. apply IH. tauto.
Qed.
Lemma announced_announce : forall h s' c s, announced (h ++ [Announce s' c]) s =
  match announced h s with
  | Some x => Some x
  | None => if in_dec name_dec s (map fst (adds h)) then if name_dec s' s then Some c else None else None end.
Proof.
  induction h as [|[s1 d1|s1 c1] h IH]; intros s' c s.
  - reflexivity.
  - cbn [app announced]. change (adds (Add s1 d1 :: h)) with ((s1, d1) :: adds h). cbn [map fst].
    destruct (name_dec s1 s) as [->|N].
    + rewrite first_announce_app. destruct (first_announce h s); [reflexivity|]. cbn [first_announce].
      destruct (in_dec name_dec s (s :: map fst (adds h))) as [I|I]; [reflexivity|]. exfalso. apply I. now left.
    + rewrite IH. destruct (announced h s); [reflexivity|].
      destruct (in_dec name_dec s (map fst (adds h))) as [A|A], (in_dec name_dec s (s1 :: map fst (adds h))) as [B|B]; auto.
      * exfalso. apply B. now right.
      * exfalso. destruct B as [|]; auto.
  - cbn [app announced]. change (adds (Announce s1 c1 :: h)) with (adds h). apply IH.
Qed.

(** * The invariant *)
Definition as_entry (h : list event) (nd : name * Z) : entry :=
  {| e_str_id := fst nd; e_driver := snd nd;
     e_can_id := match announced h (fst nd) with Some c => c | None => CAN_ID_NOT_SET end |}.
Definition known (e : entry) : bool := negb (e_can_id e =? CAN_ID_NOT_SET).

Record inv (cap : nat) (h : list event) (en : enumerator) : Prop := {
  i_len : buffer_len en = cap;
  i_srt : srt ord_s (str_to_can en);
  i_perm : Permutation (str_to_can en) (map (as_entry h) (accepted cap h));
  i_csrt : srt ord_c (can_to_str en);
  i_cperm : Permutation (can_to_str en) (filter known (str_to_can en)) }.

Lemma inv_in : forall cap h en s d c, inv cap h en ->
  (In {| e_str_id := s; e_can_id := c; e_driver := d |} (str_to_can en) <->
   In (s, d) (accepted cap h) /\ c = match announced h s with Some c => c | None => CAN_ID_NOT_SET end).
Proof.
  intros cap h en s d c I. split.
  - intro H. apply (Permutation_in _ (i_perm _ _ _ I)) in H. apply in_map_iff in H as ([s' d'] & E & H).
    unfold as_entry in E. cbn in E. injection E as E1 E2 E3. subst. auto.
  - intros [H ->]. apply (Permutation_in _ (Permutation_sym (i_perm _ _ _ I))).
    apply in_map_iff. exists (s, d). auto.
Qed.

Lemma names_perm : forall cap h en, inv cap h en -> Permutation (map e_str_id (str_to_can en)) (map fst (accepted cap h)).
Proof.
  intros cap h en I. rewrite (Permutation_map e_str_id (i_perm _ _ _ I)), map_map. apply Permutation_refl.
Qed.

Lemma NoDup_app_l : forall (A : Type) (a b : list A), NoDup (a ++ b) -> NoDup a.
Proof. induction a; cbn; intros b H; constructor; inversion H; subst; eauto. rewrite in_app_iff in *. tauto. Qed.
Lemma accepted_nodup : forall cap h, names_distinct h -> NoDup (map fst (accepted cap h)).
Proof.
  intros cap h N. unfold accepted. unfold names_distinct in N. rewrite <- (firstn_skipn cap (adds h)), map_app in N.
  eapply NoDup_app_l; eauto.
Qed.
Lemma in_firstn : forall (A : Type) n (l : list A) x, In x (firstn n l) -> In x l.
Proof. induction n; destruct l; cbn; intros; try tauto. destruct H; auto. Qed.

Lemma firstn_snoc : forall (A : Type) cap (l : list A) x,
  firstn cap (l ++ [x]) = if Nat.ltb (length l) cap then firstn cap l ++ [x] else firstn cap l.
Proof.
  intros. rewrite firstn_app. destruct (Nat.ltb_spec (length l) cap).
  - rewrite !firstn_all2 with (n := cap) by lia. destruct (cap - length l)%nat eqn:E; [lia|]. cbn [firstn]. now rewrite firstn_nil.
  - replace (cap - length l)%nat with 0%nat by lia. cbn. apply app_nil_r.
Qed.

Lemma inv_str_len : forall cap h en, inv cap h en -> length (str_to_can en) = Nat.min cap (length (adds h)).
Proof.
  intros cap h en I. rewrite (Permutation_length (i_perm _ _ _ I)), map_length. unfold accepted. apply firstn_length.
Qed.

Lemma filter_perm : forall (A : Type) (f : A -> bool) l l', Permutation l l' -> Permutation (filter f l) (filter f l').
Proof.
  induction 1; cbn; auto.
  - destruct (f x); auto.
  - destruct (f x), (f y); auto. apply perm_swap.
  - eauto using Permutation_trans.
Qed.
Lemma filter_len : forall (A : Type) (f : A -> bool) l, (length (filter f l) <= length l)%nat.
Proof. induction l; cbn; auto. destruct (f a); cbn; lia. Qed.

Lemma inv_init : forall cap, inv cap [] (enumerator_init cap).
Proof.
  intro cap. constructor; cbn; auto.
  - intros i j x y _ H. destruct i; discriminate.
  - unfold accepted. cbn. rewrite firstn_nil. apply perm_nil.
  - intros i j x y _ H. destruct i; discriminate.
Qed.

Lemma inv_add : forall cap h en s d, inv cap h en -> names_distinct (h ++ [Add s d]) ->
  exists en', add_node en s d = Some en' /\ inv cap (h ++ [Add s d]) en'.
Proof.
  intros cap h en s d I N. unfold add_node. pose proof (inv_str_len _ _ _ I) as L. rewrite (i_len _ _ _ I).
  assert (AE : forall nd, as_entry (h ++ [Add s d]) nd = as_entry h nd).
  { intros [s1 d1]. unfold as_entry. cbn. now rewrite announced_add. }
  assert (AD : adds (h ++ [Add s d]) = adds h ++ [(s, d)]) by (rewrite adds_app; reflexivity).
  assert (AN : announced h s = None).
  { apply announced_notin. unfold names_distinct in N. rewrite AD, map_app in N. cbn in N.
    apply NoDup_remove_2 in N. now rewrite app_nil_r in N. }
  destruct (Nat.ltb_spec (length (str_to_can en)) cap) as [Hlt|Hge].
  - destruct (insert_full _ _ (mono_s _ s (i_srt _ _ _ I))) as (p & -> & HP & H1 & H2).
    eexists. split; [reflexivity|]. constructor; cbn [str_to_can can_to_str buffer_len].
    + reflexivity.
    + apply (srt_insert ord_s); auto.
      * intro; apply strcmp_refl.
      * intros; apply strcmp_antisym.
      * apply I.
    + rewrite perm_insert. unfold accepted. rewrite AD, firstn_snoc.
      destruct (Nat.ltb_spec (length (adds h)) cap); [|lia].
      rewrite (map_ext _ _ AE), map_app. cbn [map].
      replace (as_entry h (s, d)) with {| e_str_id := s; e_can_id := CAN_ID_NOT_SET; e_driver := d |}
        by (unfold as_entry; cbn [fst snd]; now rewrite AN).
      eapply Permutation_trans; [|apply Permutation_cons_append]. constructor. apply I.
    + apply I.
    + rewrite (i_cperm _ _ _ I). rewrite (filter_perm _ known _ _ (perm_insert _ _ _)). cbn. apply Permutation_refl.
  - exists en. split; [reflexivity|]. constructor; try apply I.
    rewrite (i_perm _ _ _ I). unfold accepted. rewrite AD, firstn_snoc.
    destruct (Nat.ltb_spec (length (adds h)) cap); [lia|]. rewrite (map_ext _ _ AE). apply Permutation_refl.
Qed.

Lemma NoDup_fst_inj : forall (A B : Type) (l : list (A * B)) a b b', NoDup (map fst l) -> In (a, b) l -> In (a, b') l -> b = b'.
Proof.
  induction l as [|[x y] l IH]; cbn; intros a b b' N H1 H2; [tauto|]. inversion N; subst.
  destruct H1 as [H1|H1], H2 as [H2|H2]; try congruence; eauto.
  - exfalso. injection H1 as -> ->. apply H3. apply in_map_iff. exists (a, b'). auto.
  - exfalso. injection H2 as -> ->. apply H3. apply in_map_iff. exists (a, b). auto.
Qed.

Lemma index_str_spec : forall cap h en s, inv cap h en ->
  (exists i d, index_by_str_id en s = Some (Some i) /\ In (s, d) (accepted cap h) /\
    nth_error (str_to_can en) i = Some (as_entry h (s, d))) \/
  (index_by_str_id en s = Some None /\ ~ In s (map fst (accepted cap h))).
Proof.
  intros cap h en s I. unfold index_by_str_id.
  destruct (search_full _ _ (mono_s _ s (i_srt _ _ _ I))) as [(i & e & E & Hn & C)|(E & NE)]; rewrite E.
  - left. apply strcmp_eq in C. pose proof (nth_error_In _ _ Hn) as H.
    apply (Permutation_in _ (i_perm _ _ _ I)) in H. apply in_map_iff in H as ([s' d] & <- & H).
    unfold as_entry in C. cbn [e_str_id fst] in C. subst s'. exists i, d. auto.
  - right. split; [reflexivity|]. intro H. apply in_map_iff in H as ([s' d] & <- & H). cbn [fst] in *.
    apply (NE (as_entry h (s', d))).
    + apply (Permutation_in _ (Permutation_sym (i_perm _ _ _ I))). now apply in_map.
    + apply strcmp_refl.
Qed.



Lemma inv_announce : forall cap h en s c, inv cap h en -> names_distinct h -> c <> CAN_ID_NOT_SET ->
  (forall s' c', announced h s' = Some c' -> c' <> CAN_ID_NOT_SET) ->
  exists en', update_node_info en s c = Some en' /\ inv cap (h ++ [Announce s c]) en'.
Proof.
  intros cap h en s c I N HC HA. unfold update_node_info.
  assert (AC : accepted cap (h ++ [Announce s c]) = accepted cap h) by (unfold accepted; now rewrite adds_announce).
  destruct (index_str_spec cap h en s I) as [(i & d & -> & HI & Hn)|(-> & NI)].
  - rewrite Hn. destruct (announced h s) as [c0|] eqn:A; unfold as_entry; cbn [e_can_id fst snd e_str_id e_driver]; rewrite A.
    + pose proof (HA _ _ A) as NC. destruct (Z.eqb_spec c0 CAN_ID_NOT_SET); [contradiction|].
      exists en. split; [reflexivity|]. constructor; try apply I. rewrite AC, (i_perm _ _ _ I).
      erewrite map_ext_in; [apply Permutation_refl|]. intros [s1 d1] _. unfold as_entry. cbn [fst snd]. rewrite announced_announce.
      destruct (announced h s1) eqn:A1; [reflexivity|].
      destruct (in_dec _ _ _); [|reflexivity]. destruct (name_dec s s1); [congruence|reflexivity].
    + rewrite Z.eqb_refl.
      destruct (insert_full _ _ (mono_c _ c (i_csrt _ _ _ I))) as (p & -> & HP & H1 & H2).
      set (e' := {| e_str_id := s; e_can_id := c; e_driver := d |}).
      set (e0 := as_entry h (s, d)).
      destruct (replace_split (str_to_can en) i e0 e' Hn) as [S1 S2].
      assert (K0 : known e0 = false).
      { unfold known, e0, as_entry. cbn [e_can_id fst]. now rewrite A, Z.eqb_refl. }
      assert (K1 : known e' = true).
      { unfold known, e'. cbn [e_can_id]. destruct (Z.eqb_spec c CAN_ID_NOT_SET); [contradiction|reflexivity]. }
      assert (FL : (length (can_to_str en) < length (str_to_can en))%nat).
      { rewrite (Permutation_length (i_cperm _ _ _ I)). rewrite S1 at 1. rewrite filter_app. cbn [filter]. rewrite K0.
        rewrite S1 at 3. rewrite !app_length. cbn [length].
        pose proof (filter_len _ known (firstn i (str_to_can en))). pose proof (filter_len _ known (skipn (S i) (str_to_can en))). lia. }
      pose proof (inv_str_len _ _ _ I). rewrite (i_len _ _ _ I).
      destruct (Nat.ltb_spec (length (can_to_str en)) cap); [|lia].
      eexists. split; [reflexivity|]. constructor; cbn [str_to_can can_to_str buffer_len].
      * reflexivity.
      * eapply srt_replace; eauto. apply I.
      * rewrite S2, AC. rewrite <- Permutation_middle.
        assert (P0 : Permutation (e0 :: firstn i (str_to_can en) ++ skipn (S i) (str_to_can en)) (map (as_entry h) (accepted cap h))).
        { rewrite <- (i_perm _ _ _ I). rewrite S1 at 3. apply Permutation_middle. }
        destruct (in_split _ _ HI) as (a1 & a2 & SA). rewrite SA in *. rewrite map_app in *. cbn [map] in *.
        rewrite <- Permutation_middle in P0. apply Permutation_cons_inv in P0.
        assert (EQ : forall l, (forall nd, In nd l -> In nd (a1 ++ a2)) -> map (as_entry (h ++ [Announce s c])) l = map (as_entry h) l).
        { intros l Hl. apply map_ext_in. intros [s1 d1] H1'. apply Hl in H1'. unfold as_entry. cbn [fst snd]. rewrite announced_announce.
          destruct (announced h s1); [reflexivity|]. destruct (in_dec _ _ _); [|reflexivity].
          destruct (name_dec s s1) as [->|]; [|reflexivity]. exfalso.
          pose proof (accepted_nodup cap h N) as ND. rewrite SA, map_app in ND. cbn [map fst] in ND.
          apply NoDup_remove_2 in ND. apply ND. rewrite <- map_app. apply in_map_iff. exists (s1, d1). auto. }
        rewrite (EQ a1), (EQ a2) by (intros; apply in_app_iff; auto).
        rewrite <- Permutation_middle. rewrite P0.
        assert (E0 : as_entry (h ++ [Announce s c]) (s, d) = e').
        { unfold as_entry, e'. cbn [fst snd]. rewrite announced_announce, A.
          destruct (in_dec _ _ _) as [IN|NIN].
          - destruct (name_dec s s); [reflexivity|congruence].
          - exfalso. apply NIN. assert (HH : In (s, d) (accepted cap h)) by (rewrite SA; apply in_elt).
            apply in_map_iff. exists (s, d). split; [reflexivity|]. unfold accepted in HH. eapply in_firstn; eauto. }
        rewrite E0. apply Permutation_refl.
      * apply (srt_insert ord_c); auto.
        -- intro; apply Z.compare_refl.
        -- intros; apply Z.compare_antisym.
        -- apply I.
      * rewrite perm_insert, (i_cperm _ _ _ I). rewrite S2. rewrite S1 at 1. rewrite !filter_app. cbn [filter]. rewrite K0.
        fold e'. rewrite K1. apply Permutation_middle.
  - exists en. split; [reflexivity|]. constructor; try apply I. rewrite AC, (i_perm _ _ _ I).
    erewrite map_ext_in; [apply Permutation_refl|]. intros [s1 d1] H1'. unfold as_entry. cbn [fst snd]. rewrite announced_announce.
    destruct (announced h s1) eqn:A1; [reflexivity|]. destruct (in_dec _ _ _); [|reflexivity].
    destruct (name_dec s s1) as [->|]; [|reflexivity]. exfalso. apply NI. apply in_map_iff. exists (s1, d1). auto.
Qed.

Lemma first_announce_in : forall h s c, first_announce h s = Some c -> In (Announce s c) h.
Proof. induction h as [|[s1 d1|s1 c1] h IH]; cbn; intros s c H; [discriminate|auto|]. destruct (name_dec s1 s); [left; congruence|auto]. Qed.
Lemma announced_in : forall h s c, announced h s = Some c -> In (Announce s c) h.
Proof.
  induction h as [|[s1 d1|s1 c1] h IH]; cbn; intros s c H; [discriminate| |auto].
  destruct (name_dec s1 s); [right; now apply first_announce_in|auto].
Qed.
Lemma erun_app : forall h1 en h2, erun en (h1 ++ h2) = match erun en h1 with Some en => erun en h2 | None => None end.
Proof. induction h1; cbn; auto. intros. destruct (estep en a); auto. Qed.

Lemma inv_run : forall cap h, names_distinct h -> ids_ok h ->
  exists en, erun (enumerator_init cap) h = Some en /\ inv cap h en.
Proof.
  intros cap h. induction h as [|ev h IH] using rev_ind; intros N O.
  - exists (enumerator_init cap). split; [reflexivity|apply inv_init].
  - assert (N' : names_distinct h).
    { unfold names_distinct in *. rewrite adds_app, map_app in N. eapply NoDup_app_l; eauto. }
    assert (O' : ids_ok h) by (intros s c H; eapply O; apply in_app_iff; eauto).
    destruct (IH N' O') as (en & E & I). rewrite erun_app, E. cbn [erun]. destruct ev as [s d|s c].
    + destruct (inv_add cap h en s d I N) as (en' & E' & I'). cbn [estep]. rewrite E'. eauto.
    + destruct (inv_announce cap h en s c I N') as (en' & E' & I').
      * apply (O s c). apply in_app_iff. right. now left.
      * intros s' c' H. apply (O' s' c'). now apply announced_in.
      * cbn [estep]. rewrite E'. eauto.
Qed.

(** * Lookups *)
Lemma lookup_name_l : forall cap h, names_distinct h -> ids_ok h ->
  exists en, erun (enumerator_init cap) h = Some en /\
  forall s,
    (forall d, In (s, d) (accepted cap h) -> get_driver en s = Some (Some d) /\
       get_can_id en s = Some (match announced h s with Some c => c | None => CAN_ID_NOT_SET end)) /\
    (~ In s (map fst (accepted cap h)) -> get_driver en s = Some None /\ get_can_id en s = Some STRING_ID_NOT_FOUND).
Proof.
  intros cap h N O. destruct (inv_run cap h N O) as (en & E & I). exists en. split; [exact E|]. intro s.
  unfold get_driver, get_can_id. destruct (index_str_spec cap h en s I) as [(i & d & -> & HI & Hn)|(-> & NI)]; cbn [entry_at].
  - rewrite Hn. cbn [option_map]. split.
    + intros d' Hd. assert (d' = d) by (apply (NoDup_fst_inj _ _ (accepted cap h) s); auto using accepted_nodup). subst d'. auto.
    + intro H. exfalso. apply H. apply in_map_iff. exists (s, d). auto.
  - split; [|auto]. intros d Hd. exfalso. apply NI. apply in_map_iff. exists (s, d). auto.
Qed.

Lemma lookup_id_l : forall cap h, names_distinct h -> ids_ok h ->
  exists en, erun (enumerator_init cap) h = Some en /\
  forall c,
    (exists s d, node_has_id cap h s d c /\ get_str_id en c = Some (Some s) /\ get_driver_by_can_id en c = Some (Some d)) \/
    ((forall s d, ~ node_has_id cap h s d c) /\ get_str_id en c = Some None /\ get_driver_by_can_id en c = Some None).
Proof.
  intros cap h N O. destruct (inv_run cap h N O) as (en & E & I). exists en. split; [exact E|]. intro c.
  assert (IN : forall e, In e (can_to_str en) <-> exists s d, node_has_id cap h s d (e_can_id e) /\ e = as_entry h (s, d)).
  { intro e. rewrite (Permutation_in' eq_refl (i_cperm _ _ _ I)), filter_In. split.
    - intros [H K]. apply (Permutation_in _ (i_perm _ _ _ I)) in H. apply in_map_iff in H as ([s d] & <- & H).
      exists s, d. split; [|reflexivity]. split; [exact H|]. unfold known, as_entry in *. cbn [e_can_id fst] in *.
      destruct (announced h s); [reflexivity|]. rewrite Z.eqb_refl in K. discriminate.
    - intros (s & d & [H A] & EE). subst e. split.
      + apply (Permutation_in _ (Permutation_sym (i_perm _ _ _ I))). apply in_map_iff. exists (s, d). auto.
      + pose proof (O _ _ (announced_in _ _ _ A)) as NC. unfold known. destruct (Z.eqb_spec (e_can_id (as_entry h (s, d))) CAN_ID_NOT_SET); [contradiction|reflexivity]. }
  unfold get_str_id, get_driver_by_can_id, index_by_can_id.
  destruct (search_full _ _ (mono_c _ c (i_csrt _ _ _ I))) as [(i & e & -> & Hn & C)|(-> & NE)]; cbn [entry_at].
  - left. rewrite Hn. apply Z.compare_eq_iff in C. apply nth_error_In in Hn. apply IN in Hn as (s & d & [H A] & EE).
    exists s, d. rewrite <- C in A. split; [split; assumption|]. rewrite EE. auto.
  - right. split; [|auto]. intros s d [H A]. apply (NE (as_entry h (s, d))).
    + apply IN. exists s, d. split; [|reflexivity]. split; [exact H|]. unfold as_entry. cbn [e_can_id fst]. now rewrite A.
    + unfold as_entry. cbn [e_can_id fst]. rewrite A. apply Z.compare_refl.
Qed.

Lemma counts_l : forall cap h, names_distinct h -> ids_ok h ->
  exists en, erun (enumerator_init cap) h = Some en /\
  total_nodes_count en = length (accepted cap h) /\ (total_nodes_count en <= cap)%nat /\
  discovered_nodes_count en =
    length (filter (fun nd => match announced h (fst nd) with Some _ => true | None => false end) (accepted cap h)).
Proof.
  intros cap h N O. destruct (inv_run cap h N O) as (en & E & I). exists en. split; [exact E|].
  unfold total_nodes_count. rewrite (Permutation_length (i_perm _ _ _ I)), map_length. split; [reflexivity|].
  split; [unfold accepted; rewrite firstn_length; lia|].
  unfold discovered_nodes_count. rewrite (Permutation_length (filter_perm _ _ _ _ (i_perm _ _ _ I))).
  induction (accepted cap h) as [|[s d] l IH]; [reflexivity|]. cbn [map filter fst]. unfold as_entry at 1. cbn [e_can_id fst].
  destruct (announced h s) as [c|] eqn:A.
  - pose proof (O _ _ (announced_in _ _ _ A)) as NC. destruct (Z.eqb_spec c CAN_ID_NOT_SET); [contradiction|]. cbn. auto.
  - rewrite Z.eqb_refl. cbn. auto.
Qed.
