(** Proofs about the parameter tree. *)
From Coq Require Import ZArith List Bool Arith Lia.
From Verif Require Import CBase Buf ParamModel ParamSpec.
Import ListNotations.
Local Open Scope Z_scope.

(** ** Lists *)
Lemma upd_length A (f : A -> A) : forall l i, length (upd l i f) = length l.
Proof. induction l; intros [|i]; cbn; auto. Qed.
Lemma upd_nth A (f : A -> A) : forall l i j,
  nth_error (upd l i f) j = if Nat.eqb i j then option_map f (nth_error l j) else nth_error l j.
Proof. induction l; intros [|i] [|j]; cbn; auto. destruct (i =? j)%nat; reflexivity. Qed.
Lemma map_upd A B (g : A -> B) (f : A -> A) (f' : B -> B) : (forall x, g (f x) = f' (g x)) ->
  forall l i, map g (upd l i f) = upd (map g l) i f'.
Proof. intros H. induction l; intros [|i]; cbn; f_equal; auto. Qed.
Lemma map_upd_id A B (g : A -> B) (f : A -> A) : (forall x, g (f x) = g x) ->
  forall l i, map g (upd l i f) = map g l.
Proof. intros H. induction l; intros [|i]; cbn; f_equal; auto. Qed.
Lemma nth_map_some A B (g : A -> B) l i y : nth_error (map g l) i = Some y ->
  exists x, nth_error l i = Some x /\ y = g x.
Proof. rewrite nth_error_map. destruct (nth_error l i); cbn; intros; inversion H; eauto. Qed.
Lemma nth_snoc A (l : list A) a i : nth_error (l ++ [a]) i =
  if (i <? length l)%nat then nth_error l i else if (i =? length l)%nat then Some a else None.
Proof.
  destruct (Nat.ltb_spec i (length l)); [now rewrite nth_error_app1|].
  rewrite nth_error_app2 by lia. destruct (Nat.eqb_spec i (length l)).
  - subst. now rewrite Nat.sub_diag.
  - destruct (i - length l)%nat eqn:E; [lia|]. cbn. now destruct n0.
Qed.

Notation nshape x := (nparent x, nid x).
Definition shape (h : heap) : list (option nat * str) := map (fun x => nshape x) (nss h).

(** ** Chains of ancestors *)
Fixpoint chainP (fuel : nat) (l : list (option nat * str)) (n : nat) : list nat :=
  match fuel with
  | O => []
  | S fuel =>
      match nth_error l n with
      | Some x => n :: match fst x with Some m => chainP fuel l m | None => [] end
      | None => []
      end
  end.
Lemma chain_chainP fuel : forall l n, chain_fuel fuel l n = chainP fuel (map (fun x => nshape x) l) n.
Proof.
  induction fuel; intros; cbn [chain_fuel chainP]; [reflexivity|]. rewrite nth_error_map.
  destruct (nth_error l n); cbn; [|reflexivity]. destruct (nparent n0); [now rewrite IHfuel|reflexivity].
Qed.
Lemma chain_shape h n : chain h n = chainP (S n) (shape h) n.
Proof. apply chain_chainP. Qed.

Definition down (l : list (option nat * str)) : Prop :=
  forall n m id, nth_error l n = Some (Some m, id) -> (m < n)%nat.

Lemma chainP_fuel l : down l -> forall f1 f2 n, (n < f1)%nat -> (n < f2)%nat -> chainP f1 l n = chainP f2 l n.
Proof.
  intros D. induction f1; intros [|f2] n H1 H2; try lia. cbn [chainP].
  destruct (nth_error l n) as [[[m|] id]|] eqn:E; cbn; try reflexivity.
  apply D in E. f_equal. apply IHf1; lia.
Qed.
Lemma chainP_le l : down l -> forall f n r, In r (chainP f l n) -> (r <= n)%nat.
Proof.
  intros D. induction f; intros n r; cbn [chainP]; [easy|].
  destruct (nth_error l n) as [[[m|] id]|] eqn:E; cbn [fst In]; try easy; (intros [|H]; [lia|]); try easy.
  apply D in E. apply IHf in H. lia.
Qed.
Lemma chainP_nodup l : down l -> forall f n, NoDup (chainP f l n).
Proof.
  intros D. induction f; intros n; cbn [chainP]; [constructor|].
  destruct (nth_error l n) as [[[m|] id]|] eqn:E; cbn [fst].
  - constructor; [|apply IHf]. intro H. apply chainP_le in H; auto. apply D in E. lia.
  - repeat constructor. easy.
  - constructor.
Qed.
Lemma within_le l : down l -> forall n r, within l n r -> (r <= n)%nat.
Proof. intros D n r. induction 1; [lia|]. apply D in H. lia. Qed.
Lemma in_chainP l : down l -> forall f n r, (n < f)%nat -> (n < length l)%nat ->
  (In r (chainP f l n) <-> within l n r).
Proof.
  intros D. induction f; intros n r Hf Hn; [lia|]. cbn [chainP].
  destruct (nth_error l n) as [[[m|] id]|] eqn:E; cbn [fst In].
  - pose proof (D _ _ _ E) as L. rewrite IHf by lia. split.
    + intros [<-|H]; [constructor|]. econstructor; eauto.
    + intro H. inversion H; subst; [now left|]. rewrite E in H0. inversion H0; subst. auto.
  - split; [intros [<-|[]]; constructor|]. intro H. inversion H; subst; [now left|]. rewrite E in H0. discriminate.
  - apply nth_error_None in E. lia.
Qed.
Lemma within_lt l n r : within l n r -> (n < length l)%nat -> down l -> (r < length l)%nat.
Proof. intros W H D. apply within_le in W; auto. lia. Qed.

(** ** Counters *)
Definition contrib (P : list (option nat * str)) (r : nat) (x : par) : Z :=
  if pchanged x then Z.of_nat (count_occ Nat.eq_dec (chainP (S (pns x)) P (pns x)) r) else 0.
Definition sum (l : list Z) : Z := fold_right Z.add 0 l.
Definition total (h : heap) (r : nat) : Z := sum (map (contrib (shape h) r) (pars h)).
(** Every counter is the number of changed parameters below plus [E]. *)
Definition counted (h : heap) (E : nat -> Z) : Prop :=
  forall r x, nth_error (nss h) r = Some x -> ncnt x = s32 (total h r + E r).

Lemma sum_app a b : sum (a ++ b) = sum a + sum b.
Proof. induction a; cbn; [reflexivity|]. unfold sum in IHa. rewrite IHa. unfold sum. lia. Qed.
Lemma sum_upd (f : par -> Z) (g : par -> par) : forall l p x, nth_error l p = Some x ->
  sum (map f (upd l p g)) = sum (map f l) + f (g x) - f x.
Proof.
  induction l; intros [|p] x H; cbn in *; try discriminate.
  - inversion H; subst. lia.
  - specialize (IHl _ _ H). unfold sum in IHl. lia.
Qed.
Lemma upd_none A (g : A -> A) : forall l p, nth_error l p = None -> upd l p g = l.
Proof. induction l; intros [|p] H; cbn in *; try discriminate; auto. f_equal. auto. Qed.

Lemma s32_add a b : s32 (s32 a + b) = s32 (a + b).
Proof.
  apply sN_mod; [lia|]. unfold s32, sN.
  replace ((a + 2 ^ (32 - 1)) mod 2 ^ 32 - 2 ^ (32 - 1) + b) with ((a + 2 ^ (32 - 1)) mod 2 ^ 32 + (b - 2 ^ (32 - 1))) by lia.
  rewrite Zplus_mod_idemp_l. f_equal. lia.
Qed.

Lemma shape_inc h n : shape (inc h n) = shape h.
Proof. unfold shape, inc, upd_ns. cbn [nss]. now apply map_upd_id. Qed.
Lemma shape_dec h n : shape (dec h n) = shape h.
Proof. unfold shape, dec, upd_ns. cbn [nss]. now apply map_upd_id. Qed.

Lemma total_inc h n r : total (inc h n) r = total h r.
Proof. unfold total. now rewrite shape_inc. Qed.
Lemma total_dec h n r : total (dec h n) r = total h r.
Proof. unfold total. now rewrite shape_dec. Qed.

Definition one (n r : nat) : Z := if Nat.eqb n r then 1 else 0.
Lemma counted_inc h E n : counted h E -> counted (inc h n) (fun r => E r + one n r).
Proof.
  intros C r x. rewrite total_inc. unfold inc, upd_ns. cbn [nss]. rewrite upd_nth. unfold one.
  destruct (Nat.eqb_spec n r) as [->|].
  - destruct (nth_error (nss h) r) eqn:H; [|easy]. cbn. intro I. inversion I; subst. cbn.
    rewrite (C _ _ H), s32_add. f_equal. lia.
  - intro H. rewrite (C _ _ H). f_equal. lia.
Qed.
Lemma counted_dec h E n : counted h E -> counted (dec h n) (fun r => E r - one n r).
Proof.
  intros C r x. rewrite total_dec. unfold dec, upd_ns. cbn [nss]. rewrite upd_nth. unfold one.
  destruct (Nat.eqb_spec n r) as [->|].
  - destruct (nth_error (nss h) r) eqn:H; [|easy]. cbn. intro I. inversion I; subst. cbn.
    rewrite (C _ _ H). unfold Z.sub. rewrite s32_add. f_equal. lia.
  - intro H. rewrite (C _ _ H). f_equal. lia.
Qed.
Lemma counted_ext h E E' : (forall r, E r = E' r) -> counted h E -> counted h E'.
Proof. intros X C r x H. rewrite (C _ _ H). now rewrite X. Qed.

Definition occ (l : list nat) (r : nat) : Z := Z.of_nat (count_occ Nat.eq_dec l r).
Lemma occ_cons n l r : occ (n :: l) r = one n r + occ l r.
Proof. unfold occ, one. cbn. destruct (Nat.eq_dec n r); destruct (Nat.eqb_spec n r); subst; lia. Qed.
Lemma counted_incs l : forall h E, counted h E -> counted (fold_left inc l h) (fun r => E r + occ l r).
Proof.
  induction l; intros h E C; cbn [fold_left].
  - eapply counted_ext; [|exact C]. intro. unfold occ. cbn. lia.
  - apply (counted_inc _ _ a), IHl in C. eapply counted_ext; [|exact C]. intro. rewrite occ_cons. cbn. lia.
Qed.
Lemma counted_decs l : forall h E, counted h E -> counted (fold_left dec l h) (fun r => E r - occ l r).
Proof.
  induction l; intros h E C; cbn [fold_left].
  - eapply counted_ext; [|exact C]. intro. unfold occ. cbn. lia.
  - apply (counted_dec _ _ a), IHl in C. eapply counted_ext; [|exact C]. intro. rewrite occ_cons. cbn. lia.
Qed.

(** Updates of a parameter that keep its namespace. *)
Lemma counted_par h E p x f : nth_error (pars h) p = Some x -> counted h E ->
  counted (upd_par h p f) (fun r => E r + contrib (shape h) r x - contrib (shape h) r (f x)).
Proof.
  intros H C r y Hy. cbn in Hy. rewrite (C _ _ Hy). f_equal.
  unfold total at 2. change (shape (upd_par h p f)) with (shape h). cbn [pars upd_par].
  rewrite (sum_upd _ _ _ _ _ H). unfold total. lia.
Qed.
Lemma contrib_occ P r x : contrib P r x = if pchanged x then occ (chainP (S (pns x)) P (pns x)) r else 0.
Proof. reflexivity. Qed.

(** ** Structure *)
Definition same (h h' : heap) : Prop :=
  map (fun x => (nparent x, nid x, nsubs x, nparams x)) (nss h') = map (fun x => (nparent x, nid x, nsubs x, nparams x)) (nss h) /\
  map (fun x => (pid x, pns x)) (pars h') = map (fun x => (pid x, pns x)) (pars h).
Lemma same_refl h : same h h. Proof. now split. Qed.
Lemma same_trans a b c : same a b -> same b c -> same a c.
Proof. intros [? ?] [? ?]. split; congruence. Qed.
Lemma same_inc h n : same h (inc h n).
Proof. split; [|reflexivity]. now apply map_upd_id. Qed.
Lemma same_dec h n : same h (dec h n).
Proof. split; [|reflexivity]. now apply map_upd_id. Qed.
Lemma same_fold (f : heap -> nat -> heap) l : (forall h n, same h (f h n)) -> forall h, same h (fold_left f l h).
Proof. intro H. induction l; intro; cbn; [apply same_refl|]. eapply same_trans; [apply H|apply IHl]. Qed.
Lemma same_par h p f : (forall x, pid (f x) = pid x /\ pns (f x) = pns x) -> same h (upd_par h p f).
Proof. intro H. split; [reflexivity|]. apply map_upd_id. intro. destruct (H x). congruence. Qed.
Lemma same_shape h h' : same h h' -> shape h' = shape h.
Proof.
  intros [H _]. unfold shape. apply (f_equal (map (fun t => (fst (fst (fst t)), snd (fst (fst t)))))) in H.
  rewrite !map_map in H. exact H.
Qed.

Definition is_child (h : heap) (n i : nat) : bool :=
  match nth_error (nss h) i with Some x => match nparent x with Some m => (m =? n)%nat | None => false end | None => false end.
Definition is_param (h : heap) (n i : nat) : bool :=
  match nth_error (pars h) i with Some x => (pns x =? n)%nat | None => false end.

Record wf (h : heap) : Prop := {
  wf_down : down (shape h);
  wf_pns : forall p x, nth_error (pars h) p = Some x -> (pns x < length (nss h))%nat;
  wf_subs : forall n x, nth_error (nss h) n = Some x -> nsubs x = rev (filter (is_child h n) (seq 0 (length (nss h))));
  wf_params : forall n x, nth_error (nss h) n = Some x -> nparams x = rev (filter (is_param h n) (seq 0 (length (pars h))))
}.

Lemma map_eq_nth A B (g : A -> B) l l' i : map g l = map g l' ->
  option_map g (nth_error l i) = option_map g (nth_error l' i).
Proof. intro H. rewrite <- !nth_error_map. now rewrite H. Qed.
Lemma filter_ext_in' A (f g : A -> bool) l : (forall a, In a l -> f a = g a) -> filter f l = filter g l.
Proof. induction l; cbn; intros H; [reflexivity|]. rewrite (H a) by auto. rewrite IHl by auto. reflexivity. Qed.

Lemma same_wf h h' : same h h' -> wf h -> wf h'.
Proof.
  intros S W. pose proof (same_shape _ _ S) as Sh. destruct S as [S1 S2].
  assert (L1 : length (nss h') = length (nss h)) by (apply (f_equal (@length _)) in S1; now rewrite !map_length in S1).
  assert (L2 : length (pars h') = length (pars h)) by (apply (f_equal (@length _)) in S2; now rewrite !map_length in S2).
  assert (C : forall n i, is_child h' n i = is_child h n i).
  { intros. unfold is_child. pose proof (map_eq_nth _ _ _ _ _ i S1) as E.
    destruct (nth_error (nss h') i), (nth_error (nss h) i); cbn in E; try discriminate; [|reflexivity].
    now inversion E. }
  assert (D : forall n i, is_param h' n i = is_param h n i).
  { intros. unfold is_param. pose proof (map_eq_nth _ _ _ _ _ i S2) as E.
    destruct (nth_error (pars h') i), (nth_error (pars h) i); cbn in E; try discriminate; [|reflexivity].
    now inversion E. }
  split.
  - rewrite Sh. exact (wf_down _ W).
  - intros p x H. pose proof (map_eq_nth _ _ _ _ _ p S2) as E. rewrite H in E. cbn in E.
    destruct (nth_error (pars h) p) eqn:F; cbn in E; [|discriminate]. injection E as _ ->. rewrite L1. eapply wf_pns; eauto.
  - intros n x H. pose proof (map_eq_nth _ _ _ _ _ n S1) as E. rewrite H in E. cbn in E.
    destruct (nth_error (nss h) n) eqn:F; cbn in E; [|discriminate]. injection E as _ _ -> _.
    rewrite L1. erewrite (wf_subs _ W) by eassumption. f_equal. apply filter_ext_in'. intros. now rewrite C.
  - intros n x H. pose proof (map_eq_nth _ _ _ _ _ n S1) as E. rewrite H in E. cbn in E.
    destruct (nth_error (nss h) n) eqn:F; cbn in E; [|discriminate]. injection E as _ _ _ ->.
    rewrite L2. erewrite (wf_params _ W) by eassumption. f_equal. apply filter_ext_in'. intros. now rewrite D.
Qed.

Lemma filter_none A (f : A -> bool) l : (forall a, In a l -> f a = false) -> filter f l = [].
Proof. induction l; cbn; intros H; [reflexivity|]. rewrite (H a) by auto. auto. Qed.

Lemma declare_ns_wf h m id h' : namespace_declare h m id = OK h' -> wf h -> wf h'.
Proof.
  unfold namespace_declare. intros R W. destruct m as [m|]; [destruct (Nat.ltb_spec m (length (nss h))) as [Hm|]; [|discriminate]|].
  - inversion R; subst; clear R.
    set (g := fun x => mkns (nid x) (ncnt x) (nparent x) (length (nss h) :: nsubs x) (nparams x)).
    assert (SH : shape (mkheap (upd (nss h) m g ++ [mkns id 0 (Some m) [] []]) (pars h)) = shape h ++ [(Some m, id)]).
    { unfold shape. cbn [nss]. rewrite map_app. cbn. now rewrite map_upd_id by reflexivity. }
    split.
    + rewrite SH. intros n k i H. rewrite nth_snoc in H. destruct (n <? length (shape h))%nat eqn:L; [eapply wf_down; eauto|].
      destruct (n =? length (shape h))%nat eqn:L2; [|discriminate]. inversion H; subst. unfold shape in *. rewrite map_length in L2.
      apply Nat.eqb_eq in L2. lia.
    + intros p x H. cbn [pars nss] in *. rewrite app_length, upd_length. apply (wf_pns _ W) in H. lia.
    + intros n x H. cbn [nss pars] in *. rewrite app_length, upd_length. cbn [length]. rewrite seq_app, filter_app. cbn [plus seq].
      rewrite nth_snoc, upd_length in H.
      assert (IC : forall n i, (i < length (nss h))%nat ->
         is_child (mkheap (upd (nss h) m g ++ [mkns id 0 (Some m) [] []]) (pars h)) n i = is_child h n i).
      { intros n0 i Hi. unfold is_child. cbn [nss]. rewrite nth_snoc, upd_length.
        destruct (Nat.ltb_spec i (length (nss h))); [|lia]. rewrite upd_nth. destruct (m =? i)%nat; [|reflexivity].
        now destruct (nth_error (nss h) i). }
      assert (IN : is_child (mkheap (upd (nss h) m g ++ [mkns id 0 (Some m) [] []]) (pars h)) n (length (nss h)) = (m =? n)%nat).
      { unfold is_child. cbn [nss]. rewrite nth_snoc, upd_length, Nat.ltb_irrefl, Nat.eqb_refl. reflexivity. }
      cbn [filter]. rewrite IN.
      rewrite (filter_ext_in' _ _ (is_child h n)) by (intros a Ha; apply in_seq in Ha; apply IC; lia).
      destruct (Nat.ltb_spec n (length (nss h))) as [Hn|Hn].
      * rewrite upd_nth in H. destruct (Nat.eqb_spec m n) as [->|].
        -- destruct (nth_error (nss h) n) eqn:F; [|discriminate]. cbn in H. inversion H; subst. unfold g at 1. cbn [nsubs].
           rewrite (wf_subs _ W _ _ F). now rewrite rev_app_distr.
        -- rewrite app_nil_r. eapply wf_subs; eauto.
      * destruct (Nat.eqb_spec n (length (nss h))); [|discriminate]. inversion H; subst. cbn [nsubs].
        destruct (Nat.eqb_spec m (length (nss h))); [lia|]. rewrite app_nil_r. rewrite filter_none; [reflexivity|].
        intros a Ha. unfold is_child. destruct (nth_error (nss h) a) as [y|] eqn:F; [|reflexivity].
        destruct (nparent y) as [q|] eqn:G; [|reflexivity]. apply Nat.eqb_neq.
        assert (HH : nth_error (shape h) a = Some (Some q, nid y)). { unfold shape. rewrite nth_error_map, F. cbn. now rewrite G. }
        apply (wf_down _ W) in HH. apply in_seq in Ha. lia.
    + intros n x H. cbn [nss pars] in *. rewrite nth_snoc, upd_length in H. rewrite upd_nth in H.
      change (is_param _ n) with (is_param h n).
      destruct (Nat.ltb_spec n (length (nss h))) as [Hn|Hn].
      * destruct (Nat.eqb_spec m n) as [->|].
        -- destruct (nth_error (nss h) n) eqn:F; [|discriminate]. cbn in H. inversion H; subst. exact (wf_params _ W _ _ F).
        -- eapply wf_params; eauto.
      * destruct (Nat.eqb_spec n (length (nss h))); [|discriminate]. inversion H; subst. cbn [nparams].
        rewrite filter_none; [reflexivity|]. intros a _. unfold is_param. destruct (nth_error (pars h) a) eqn:F; [|reflexivity].
        apply Nat.eqb_neq. apply (wf_pns _ W) in F. lia.
  - inversion R; subst; clear R.
    assert (SH : shape (mkheap (nss h ++ [mkns id 0 None [] []]) (pars h)) = shape h ++ [(None, id)]).
    { unfold shape. cbn [nss]. now rewrite map_app. }
    split.
    + rewrite SH. intros n k i H. rewrite nth_snoc in H. destruct (n <? length (shape h))%nat eqn:L; [eapply wf_down; eauto|].
      destruct (n =? length (shape h))%nat eqn:L2; discriminate.
    + intros p x H. cbn [pars nss] in *. rewrite app_length. apply (wf_pns _ W) in H. lia.
    + intros n x H. cbn [nss pars] in *. rewrite app_length. cbn [length]. rewrite seq_app, filter_app. cbn [plus seq].
      rewrite nth_snoc in H.
      assert (IC : forall n i, (i < length (nss h))%nat ->
         is_child (mkheap (nss h ++ [mkns id 0 None [] []]) (pars h)) n i = is_child h n i).
      { intros n0 i Hi. unfold is_child. cbn [nss]. rewrite nth_snoc.
        destruct (Nat.ltb_spec i (length (nss h))); [|lia]. reflexivity. }
      assert (IN : is_child (mkheap (nss h ++ [mkns id 0 None [] []]) (pars h)) n (length (nss h)) = false).
      { unfold is_child. cbn [nss]. rewrite nth_snoc, Nat.ltb_irrefl, Nat.eqb_refl. reflexivity. }
      cbn [filter]. rewrite IN, app_nil_r.
      rewrite (filter_ext_in' _ _ (is_child h n)) by (intros a Ha; apply in_seq in Ha; apply IC; lia).
      destruct (Nat.ltb_spec n (length (nss h))) as [Hn|Hn].
      * eapply wf_subs; eauto.
      * destruct (Nat.eqb_spec n (length (nss h))); [|discriminate]. inversion H; subst. cbn [nsubs].
        rewrite filter_none; [reflexivity|].
        intros a Ha. unfold is_child. destruct (nth_error (nss h) a) as [y|] eqn:F; [|reflexivity].
        destruct (nparent y) as [q|] eqn:G; [|reflexivity]. apply Nat.eqb_neq.
        assert (HH : nth_error (shape h) a = Some (Some q, nid y)). { unfold shape. rewrite nth_error_map, F. cbn. now rewrite G. }
        apply (wf_down _ W) in HH. apply in_seq in Ha. lia.
    + intros n x H. cbn [nss pars] in *. rewrite nth_snoc in H.
      change (is_param _ n) with (is_param h n).
      destruct (Nat.ltb_spec n (length (nss h))) as [Hn|Hn].
      * eapply wf_params; eauto.
      * destruct (Nat.eqb_spec n (length (nss h))); [|discriminate]. inversion H; subst. cbn [nparams].
        rewrite filter_none; [reflexivity|]. intros a _. unfold is_param. destruct (nth_error (pars h) a) eqn:F; [|reflexivity].
        apply Nat.eqb_neq. apply (wf_pns _ W) in F. lia.
Qed.

Lemma declare_wf h m id v h' : declare h m id v = OK h' -> wf h ->
  wf h' /\ shape h' = shape h /\ length (nss h') = length (nss h) /\
  pars h' = pars h ++ [mkpar id m false false v] /\ (m < length (nss h))%nat.
Proof.
  unfold declare. intros R W. destruct (Nat.ltb_spec m (length (nss h))) as [Hm|]; [|discriminate].
  inversion R; subst; clear R.
  set (g := fun x => mkns (nid x) (ncnt x) (nparent x) (nsubs x) (length (pars h) :: nparams x)).
  assert (SH : shape (mkheap (upd (nss h) m g) (pars h ++ [mkpar id m false false v])) = shape h).
  { unfold shape. cbn [nss]. now rewrite map_upd_id by reflexivity. }
  split; [|split; [exact SH|split; [cbn; apply upd_length|auto]]].
  split.
  - rewrite SH. exact (wf_down _ W).
  - intros p x H. cbn [pars nss] in *. rewrite upd_length. rewrite nth_snoc in H.
    destruct (p <? length (pars h))%nat; [now apply (wf_pns _ W) in H|].
    destruct (p =? length (pars h))%nat; [|discriminate]. inversion H; subst. cbn. lia.
  - intros n x H. cbn [nss pars] in *. rewrite upd_length. rewrite upd_nth in H.
    rewrite (filter_ext_in' _ _ (is_child h n)).
    + destruct (Nat.eqb_spec m n) as [->|].
      * destruct (nth_error (nss h) n) eqn:F; [|discriminate]. cbn in H. inversion H; subst. exact (wf_subs _ W _ _ F).
      * eapply wf_subs; eauto.
    + intros a _. unfold is_child. cbn [nss]. rewrite upd_nth. destruct (m =? a)%nat; [|reflexivity]. now destruct (nth_error (nss h) a).
  - intros n x H. cbn [nss pars] in *. rewrite app_length. cbn [length]. rewrite seq_app, filter_app. cbn [plus seq filter].
    rewrite upd_nth in H.
    set (h' := mkheap _ _).
    assert (IN : is_param h' n (length (pars h)) = (m =? n)%nat).
    { unfold is_param, h'. cbn [pars]. rewrite nth_snoc, Nat.ltb_irrefl, Nat.eqb_refl. reflexivity. }
    rewrite IN.
    rewrite (filter_ext_in' _ _ (is_param h n)).
    2:{ intros a Ha. apply in_seq in Ha. unfold is_param, h'. cbn [pars]. rewrite nth_snoc.
        destruct (Nat.ltb_spec a (length (pars h))); [reflexivity|lia]. }
    destruct (Nat.eqb_spec m n) as [->|].
    + destruct (nth_error (nss h) n) eqn:F; [|discriminate]. cbn in H. inversion H; subst. unfold g at 1. cbn [nparams].
      rewrite (wf_params _ W _ _ F). now rewrite rev_app_distr.
    + rewrite app_nil_r. eapply wf_params; eauto.
Qed.

(** ** Effects of the calls *)
Lemma pars_incs l : forall h, pars (fold_left inc l h) = pars h.
Proof. induction l; intro; cbn [fold_left]; [reflexivity|]. now rewrite IHl. Qed.
Lemma pars_decs l : forall h, pars (fold_left dec l h) = pars h.
Proof. induction l; intro; cbn [fold_left]; [reflexivity|]. now rewrite IHl. Qed.

Lemma changed_set_spec h p h' : changed_set h p = OK h' ->
  exists x, nth_error (pars h) p = Some x /\ same h h' /\ length (pars h') = length (pars h) /\
    (forall q, nth_error (pars h') q =
       if (p =? q)%nat then Some (mkpar (pid x) (pns x) true (pdefined x || negb (pchanged x)) (pval x)) else nth_error (pars h) q) /\
    (forall E, counted h E -> counted h' E).
Proof.
  unfold changed_set. destruct (nth_error (pars h) p) as [x|] eqn:F; [|discriminate].
  set (h1 := set_changed h p true).
  assert (S1 : same h h1) by (apply same_par; auto).
  assert (C1 : forall E, counted h E -> counted h1 (fun r => E r + contrib (shape h) r x - occ (chain h1 (pns x)) r)).
  { intros E C. eapply counted_ext; [|apply (counted_par _ _ _ _ _ F C)]. intro r. cbn beta. f_equal.
    rewrite contrib_occ. cbn [pchanged pns]. rewrite chain_shape. reflexivity. }
  intro R. exists x. split; [reflexivity|]. destruct (pchanged x) eqn:G; inversion R; subst; clear R.
  - split; [exact S1|]. split; [apply upd_length|]. split.
    + intro q. cbn [h1 set_changed upd_par pars]. rewrite upd_nth. destruct (Nat.eqb_spec p q); [|reflexivity]. subst. rewrite F. cbn.
      now rewrite orb_false_r.
    + intros E C. eapply counted_ext; [|apply C1, C]. intro. cbn beta. rewrite contrib_occ, G, chain_shape.
      change (shape h1) with (shape h). lia.
  - split; [|split; [|split]].
    + eapply same_trans; [exact S1|]. eapply same_trans; [apply same_fold, same_inc|]. apply same_par; auto.
    + unfold set_defined, upd_par. cbn [pars]. rewrite upd_length, pars_incs. apply upd_length.
    + intro q. unfold set_defined, upd_par. cbn [pars]. rewrite upd_nth, pars_incs. cbn [h1 set_changed upd_par pars]. rewrite upd_nth.
      destruct (Nat.eqb_spec p q); [|reflexivity]. subst. rewrite F. cbn. now rewrite orb_true_r.
    + intros E C. apply C1, (counted_incs (chain h1 (pns x))) in C.
      assert (X : exists y, nth_error (pars (fold_left inc (chain h1 (pns x)) h1)) p = Some y /\ pchanged y = true).
      { rewrite pars_incs. cbn [h1 set_changed upd_par pars]. rewrite upd_nth, Nat.eqb_refl, F. cbn. eauto. }
      destruct X as (y & Y & Yc).
      eapply counted_ext; [|apply (counted_par _ _ _ _ _ Y C)]. intro r. cbn beta.
      rewrite !contrib_occ. cbn [pchanged pns]. rewrite Yc, G. lia.
Qed.

Lemma changed_clear_spec h p h' : changed_clear h p = OK h' ->
  exists x, nth_error (pars h) p = Some x /\ same h h' /\ length (pars h') = length (pars h) /\
    (forall q, nth_error (pars h') q =
       if (p =? q)%nat then Some (mkpar (pid x) (pns x) false (pdefined x) (pval x)) else nth_error (pars h) q) /\
    (forall E, counted h E -> counted h' E).
Proof.
  unfold changed_clear. destruct (nth_error (pars h) p) as [x|] eqn:F; [|discriminate].
  set (h1 := set_changed h p false).
  assert (S1 : same h h1) by (apply same_par; auto).
  assert (C1 : forall E, counted h E -> counted h1 (fun r => E r + contrib (shape h) r x)).
  { intros E C. eapply counted_ext; [|apply (counted_par _ _ _ _ _ F C)]. intro r. cbn beta.
    rewrite (contrib_occ _ _ (mkpar _ _ _ _ _)). cbn [pchanged]. lia. }
  intro R. exists x. split; [reflexivity|].
  assert (N1 : forall q, nth_error (pars h1) q =
       if (p =? q)%nat then Some (mkpar (pid x) (pns x) false (pdefined x) (pval x)) else nth_error (pars h) q).
  { intro q. cbn [h1 set_changed upd_par pars]. rewrite upd_nth. destruct (Nat.eqb_spec p q); [|reflexivity]. subst. now rewrite F. }
  destruct (pchanged x) eqn:G; inversion R; subst; clear R.
  - split; [|split; [|split]].
    + eapply same_trans; [exact S1|]. apply same_fold, same_dec.
    + rewrite pars_decs. apply upd_length.
    + intro q. rewrite pars_decs. apply N1.
    + intros E C. apply C1, (counted_decs (chain h1 (pns x))) in C. eapply counted_ext; [|exact C]. intro r. cbn beta.
      rewrite contrib_occ, G, chain_shape. change (shape h1) with (shape h). lia.
  - split; [exact S1|]. split; [apply upd_length|]. split; [exact N1|].
    intros E C. eapply counted_ext; [|apply C1, C]. intro. cbn beta. rewrite contrib_occ, G. lia.
Qed.

Lemma store_at_spec h p a h' : store_at h p a = OK h' ->
  exists x v, nth_error (pars h) p = Some x /\ store (pval x) a = OK v /\ same h h' /\ length (pars h') = length (pars h) /\
    (forall q, nth_error (pars h') q =
       if (p =? q)%nat then Some (mkpar (pid x) (pns x) (pchanged x) (pdefined x) v) else nth_error (pars h) q) /\
    (forall E, counted h E -> counted h' E).
Proof.
  unfold store_at. destruct (nth_error (pars h) p) as [x|] eqn:F; [|discriminate].
  destruct (store (pval x) a) as [v| |] eqn:G; cbn; try discriminate. intro R. inversion R; subst; clear R.
  exists x, v. repeat (split; [reflexivity || assumption|]). split; [apply same_par; auto|]. split; [apply upd_length|]. split.
  - intro q. cbn [set_value upd_par pars]. rewrite upd_nth. destruct (Nat.eqb_spec p q); [|reflexivity]. subst. now rewrite F.
  - intros E C. eapply counted_ext; [|apply (counted_par _ _ _ _ _ F C)]. intro r. cbn beta.
    rewrite !contrib_occ. cbn [pchanged pns]. lia.
Qed.

Lemma set_spec h p a h' : parameter_set h p a = OK h' ->
  exists x v, nth_error (pars h) p = Some x /\ store (pval x) a = OK v /\ same h h' /\ length (pars h') = length (pars h) /\
    (forall q, nth_error (pars h') q =
       if (p =? q)%nat then Some (mkpar (pid x) (pns x) true (pdefined x || negb (pchanged x)) v) else nth_error (pars h) q) /\
    (forall E, counted h E -> counted h' E).
Proof.
  unfold parameter_set. destruct (store_at h p a) as [h1| |] eqn:S; cbn [rbind]; try discriminate. intro R.
  apply store_at_spec in S as (x & v & F & G & S & L & N & C).
  apply changed_set_spec in R as (y & F2 & S2 & L2 & N2 & C2).
  rewrite N, Nat.eqb_refl in F2. inversion F2; subst; clear F2. cbn in N2.
  exists x, v. repeat (split; [assumption|]). split; [eapply same_trans; eassumption|]. split; [congruence|]. split.
  - intro q. rewrite N2, N. now destruct (p =? q)%nat.
  - auto.
Qed.

(** ** Histories *)
Lemma ns_decls_snoc hist o : ns_decls (hist ++ [o]) = ns_decls hist ++ match o with ODeclNs m id => [(m, id)] | _ => [] end.
Proof. unfold ns_decls. rewrite flat_map_app. cbn. now rewrite app_nil_r. Qed.
Lemma par_decls_snoc hist o : par_decls (hist ++ [o]) = par_decls hist ++ match o with ODecl m id d => [(m, id, d)] | _ => [] end.
Proof. unfold par_decls. rewrite flat_map_app. cbn. now rewrite app_nil_r. Qed.

Lemma snoc_split A (l : list A) x a o b : l ++ [x] = a ++ o :: b ->
  (a = l /\ o = x /\ b = []) \/ (exists b', b = b' ++ [x] /\ l = a ++ o :: b').
Proof.
  destruct b as [|y b _] using rev_ind.
  - intro H. apply app_inj_tail in H as [-> ->]. auto.
  - rewrite app_comm_cons, app_assoc. intro H. apply app_inj_tail in H as [-> ->]. eauto.
Qed.

Lemma unread_snoc hist o p : unread (hist ++ [o]) p <-> assigns hist o p \/ (unread hist p /\ forall k, o <> OGet p k).
Proof.
  split.
  - intros (a & q & b & E & A & G). apply snoc_split in E as [(-> & -> & ->)|(b' & -> & ->)]; [now left|].
    right. split.
    + exists a, q, b'. repeat split; auto. intros k I. apply (G k). apply in_app_iff. auto.
    + intros k ->. apply (G k). apply in_app_iff. cbn. auto.
  - intros [A|[(a & q & b & -> & A & G) N]].
    + exists hist, o, []. repeat split; auto.
    + exists a, q, (b ++ [o]). rewrite <- app_assoc. repeat split; auto. intros k I. apply in_app_iff in I as [I|[I|[]]].
      * now apply (G k).
      * now apply (N k).
Qed.

Lemma last_snoc hist o p q : last_assignment (hist ++ [o]) p q <->
  (q = o /\ assigns hist o p) \/ (last_assignment hist p q /\ ~ assigns hist o p).
Proof.
  split.
  - intros (a & b & E & A & G). apply snoc_split in E as [(-> & -> & ->)|(b' & -> & ->)]; [now left|].
    right. split.
    + exists a, b'. repeat split; auto. intros b1 o' b2 ->. apply (G b1 o' (b2 ++ [o])). now rewrite <- app_assoc.
    + apply (G b' o []). reflexivity.
  - intros [(-> & A)|[(a & b & -> & A & G) N]].
    + exists hist, []. repeat split; auto. intros [|] ? ? ?; discriminate.
    + exists a, (b ++ [o]). rewrite <- app_assoc. repeat split; auto. intros b1 o' b2 E.
      apply snoc_split in E as [(-> & -> & ->)|(b' & -> & ->)]; [exact N|]. eapply G. reflexivity.
Qed.

Definition loads (v : value) (k : kind) : res got := load (mkpar [] 0 false true v) k.
Lemma load_loads x k : load x k = if pdefined x then loads (pval x) k else ASSERT.
Proof. unfold loads, load. cbn. destruct (pdefined x), (pval x), k; reflexivity. Qed.

Definition reads (v : value) (dim : nat) (o : op) : Prop :=
  forall k, k <> KStr 0 -> loads v k = match expected dim o k with Some g => OK g | None => ASSERT end.
Definition vec_dim (v : value) (dim : nat) : Prop := match v with VVec buf => length buf = dim | _ => True end.

Lemma text_out_ok buf len s n : (len <= length s)%nat -> n <> O ->
  loads (VStr (firstn len s ++ buf) len) (KStr n) = OK (text_out s len n).
Proof.
  intros L N. unfold loads, load, text_out. cbn [pdefined pval].
  assert (F : length (firstn len s) = len) by (rewrite firstn_length; lia).
  destruct (Nat.ltb_spec len n).
  - do 3 f_equal. rewrite firstn_app, F, Nat.sub_diag. cbn. rewrite app_nil_r. apply firstn_all2. lia.
  - destruct n; [easy|]. cbn. rewrite Nat.sub_0_r. do 3 f_equal.
    rewrite firstn_app, F. replace (n - len)%nat with O by lia. cbn. rewrite app_nil_r. rewrite firstn_firstn. f_equal. lia.
Qed.

Lemma store_reads v a v' dim p : vec_dim v dim -> store v a = OK v' -> reads v' dim (OSet p a) /\ vec_dim v' dim.
Proof.
  unfold reads. destruct v, a; cbn [store vec_dim]; intros D S; try discriminate;
    try (inversion S; subst; split; [intros [] K; reflexivity|exact I]).
  - destruct (Nat.leb_spec len0 (length buf)); cbn in S; [|discriminate].
    destruct (Nat.leb_spec len0 (length s)); [|discriminate]. inversion S; subst.
    split; [|exact I]. intros [] K; try reflexivity. cbn [expected]. apply text_out_ok; [lia|]. intros ->. now apply K.
  - destruct (Nat.leb_spec (length buf) (length l)); [|discriminate]. inversion S; subst. split.
    + intros [] K; reflexivity.
    + cbn. rewrite firstn_length. lia.
  - destruct (Nat.leb_spec dim1 (length buf)); cbn in S; [|discriminate].
    destruct (Nat.leb_spec dim1 (length l)); [|discriminate]. inversion S; subst.
    split; [|exact I]. intros [] K; try reflexivity. cbn [expected]. unfold loads, load. cbn [pdefined pval]. do 2 f_equal.
    rewrite firstn_app, firstn_length. replace (dim1 - _)%nat with O by lia. cbn. rewrite app_nil_r. rewrite firstn_firstn. f_equal. lia.
Qed.

Lemma decl_reads d v b m id : decl_value d = OK (v, b) ->
  b = has_default d /\ vec_dim v (match d with DVec buf _ => length buf | _ => O end) /\
  (b = true -> reads v (match d with DVec buf _ => length buf | _ => O end) (ODecl m id d)).
Proof.
  unfold reads. destruct d as [[]|[]|[]|?|? []|? []]; cbn [decl_value has_default]; intro H;
    try (inversion H; subst; split; [reflexivity|]; split; [exact I|]; intro; try discriminate; intros [] K; reflexivity).
  - inversion H; subst. split; [reflexivity|]. split; [reflexivity|]. intros ? [] K; reflexivity.
  - destruct (Nat.leb_spec n (length buf)); [|discriminate]. inversion H; subst. split; [reflexivity|]. split; [exact I|].
    intros _ [] K; reflexivity.
  - destruct (Nat.leb_spec (length s) (length buf)); [|discriminate]. inversion H; subst. split; [reflexivity|]. split; [exact I|].
    intros _ [] K; try reflexivity. cbn [expected]. rewrite <- (firstn_all s) at 1. apply text_out_ok; [lia|]. intros ->. now apply K.
Qed.

Record Inv (hist : list op) (h : heap) : Prop := {
  i_wf : wf h;
  i_ns : shape h = ns_decls hist;
  i_par : map (fun x => (pns x, pid x)) (pars h) = map fst (par_decls hist);
  i_cnt : counted h (fun _ => 0);
  i_bnd : forall a o b p, hist = a ++ o :: b -> assigns a o p -> (p < length (pars h))%nat;
  i_chg : forall p x, nth_error (pars h) p = Some x -> (pchanged x = true <-> unread hist p);
  i_cd : forall p x, nth_error (pars h) p = Some x -> pchanged x = true -> pdefined x = true;
  i_def : forall p x, nth_error (pars h) p = Some x -> pdefined x = true -> exists o, last_assignment hist p o;
  i_val : forall p x o, nth_error (pars h) p = Some x -> last_assignment hist p o -> pdefined x = true /\ reads (pval x) (dim_of hist p) o;
  i_dim : forall p x, nth_error (pars h) p = Some x -> vec_dim (pval x) (dim_of hist p)
}.

Lemma inv_length hist h : Inv hist h -> length (pars h) = length (par_decls hist).
Proof. intro I. pose proof (f_equal (@length _) (i_par _ _ I)) as E. now rewrite !map_length in E. Qed.

Lemma dim_snoc hist o p : (p < length (par_decls hist))%nat -> dim_of (hist ++ [o]) p = dim_of hist p.
Proof. intro L. unfold dim_of. rewrite par_decls_snoc, nth_error_app1; auto. Qed.

Lemma par_same h h' : same h h' -> map (fun x => (pns x, pid x)) (pars h') = map (fun x => (pns x, pid x)) (pars h).
Proof.
  intros [_ H]. apply (f_equal (map (fun t => (snd t, fst t)))) in H. rewrite !map_map in H. exact H.
Qed.

Lemma run_snoc hist o : run (hist ++ [o]) = rbind (run hist) (fun h => run_op h o).
Proof. unfold run. now rewrite fold_left_app. Qed.

Lemma bnd_snoc hist o n : (forall a q b p, hist = a ++ q :: b -> assigns a q p -> (p < n)%nat) ->
  forall n', (n <= n')%nat -> (forall p, assigns hist o p -> (p < n')%nat) ->
  forall a q b p, hist ++ [o] = a ++ q :: b -> assigns a q p -> (p < n')%nat.
Proof.
  intros H n' L K a q b p E A. apply snoc_split in E as [(-> & -> & ->)|(b' & -> & ->)]; [auto|].
  eapply Nat.lt_le_trans; [|exact L]. eapply H; [reflexivity|exact A].
Qed.

Lemma lt_nth A (l : list A) i : (i < length l)%nat -> exists x, nth_error l i = Some x.
Proof. intro. destruct (nth_error l i) eqn:E; eauto. apply nth_error_None in E. lia. Qed.

Lemma inv_step hist h o h' : Inv hist h -> run_op h o = OK h' -> Inv (hist ++ [o]) h'.
Proof.
  intros I R. pose proof (inv_length _ _ I) as IL.
  assert (UNC : forall p x, nth_error (pars h) p = Some x -> (forall q, ~ assigns hist o q) -> (forall q k, o <> OGet q k) ->
     (pchanged x = true <-> unread (hist ++ [o]) p)).
  { intros p x F A G. rewrite unread_snoc, (i_chg _ _ I _ _ F). split; [intro; right; split; auto|]. intros [X|[X _]]; [now apply A in X|auto]. }
  destruct o as [m id|m id d|p a|p k|p k]; cbn [run_op] in R.
  - (* new namespace *)
    pose proof (declare_ns_wf _ _ _ _ R (i_wf _ _ I)) as W.
    assert (NA : forall q, ~ assigns hist (ODeclNs m id) q) by (intros q A; inversion A).
    assert (P : pars h' = pars h).
    { unfold namespace_declare in R. destruct m as [m|]; [destruct (m <? length (nss h))%nat; [|discriminate]|]; inversion R; reflexivity. }
    assert (SH : shape h' = shape h ++ [(m, id)]).
    { unfold namespace_declare in R. destruct m as [m|]; [destruct (m <? length (nss h))%nat; [|discriminate]|]; inversion R; subst;
      unfold shape; cbn [nss]; rewrite map_app; cbn; [|reflexivity]. now rewrite map_upd_id by reflexivity. }
    split; auto.
    + rewrite SH, ns_decls_snoc, (i_ns _ _ I). reflexivity.
    + rewrite P, par_decls_snoc, app_nil_r. apply I.
    + intros r x H.
      assert (T : (r < length (nss h))%nat -> total h' r = total h r).
      { intro. unfold total. rewrite P, SH. f_equal. apply map_ext_in. intros y Hy. apply In_nth_error in Hy as [q Hq].
        apply (wf_pns _ (i_wf _ _ I)) in Hq. rewrite !contrib_occ. destruct (pchanged y); [|reflexivity]. f_equal.
        assert (CP : forall f n, (n < length (nss h))%nat -> chainP f (shape h ++ [(m, id)]) n = chainP f (shape h) n).
        { assert (SL : length (shape h) = length (nss h)) by (unfold shape; now rewrite map_length).
          induction f; intros n Hn; cbn [chainP]; [reflexivity|]. rewrite nth_error_app1 by lia.
          destruct (nth_error (shape h) n) as [[[u|] i]|] eqn:E; cbn [fst]; try reflexivity. f_equal. apply IHf.
          apply (wf_down _ (i_wf _ _ I)) in E. lia. }
        now apply CP. }
      assert (T2 : r = length (nss h) -> total h' r = 0).
      { intros ->. unfold total. rewrite P, SH.
        assert (Z0 : forall l, (forall y, In y l -> (pns y < length (nss h))%nat) ->
                  sum (map (contrib (shape h ++ [(m, id)]) (length (nss h))) l) = 0).
        { induction l as [|y l IH]; intro B; [reflexivity|]. cbn. unfold sum in IH. rewrite IH by (intros; apply B; now right).
          rewrite contrib_occ. destruct (pchanged y); [|lia]. unfold occ.
          rewrite (proj1 (count_occ_not_In Nat.eq_dec _ _)); [lia|]. intro C.
          rewrite <- SH in C. apply (chainP_le _ (wf_down _ W)) in C. specialize (B y (or_introl eq_refl)). lia. }
        apply Z0. intros y Hy. apply In_nth_error in Hy as [q Hq]. now apply (wf_pns _ (i_wf _ _ I)) in Hq. }
      unfold namespace_declare in R. destruct m as [m|].
      * destruct (m <? length (nss h))%nat; [|discriminate]. inversion R; subst. cbn [nss] in H. rewrite nth_snoc, upd_length in H.
        destruct (Nat.ltb_spec r (length (nss h))).
        -- rewrite T by auto. rewrite upd_nth in H. destruct (m =? r)%nat.
           ++ destruct (nth_error (nss h) r) eqn:F; [|discriminate]. cbn in H. inversion H; subst. cbn. now apply (i_cnt _ _ I).
           ++ now apply (i_cnt _ _ I).
        -- destruct (Nat.eqb_spec r (length (nss h))); [|discriminate]. inversion H; subst. rewrite T2 by auto. reflexivity.
      * inversion R; subst. cbn [nss] in H. rewrite nth_snoc in H.
        destruct (Nat.ltb_spec r (length (nss h))).
        -- rewrite T by auto. now apply (i_cnt _ _ I).
        -- destruct (Nat.eqb_spec r (length (nss h))); [|discriminate]. inversion H; subst. rewrite T2 by auto. reflexivity.
    + rewrite P. eapply bnd_snoc; [apply I|lia|]. intros p A. now apply NA in A.
    + rewrite P. intros p x F. apply UNC; auto. discriminate.
    + rewrite P. apply I.
    + rewrite P. intros p x F D. destruct (i_def _ _ I _ _ F D) as [q Q]. exists q. apply last_snoc. auto.
    + rewrite P. intros p x q F L. apply last_snoc in L as [[-> A]|[L _]]; [now apply NA in A|].
      rewrite dim_snoc by (rewrite <- IL; apply nth_error_Some; congruence). eapply i_val; eauto.
    + rewrite P. intros p x F. rewrite dim_snoc by (rewrite <- IL; apply nth_error_Some; congruence). eapply i_dim; eauto.
  - (* new parameter *)
    unfold parameter_declare in R. destruct (decl_value d) as [[v b]| |] eqn:DV; cbn [rbind] in R; try discriminate.
    destruct (declare h m id v) as [h1| |] eqn:D; cbn [rbind] in R; try discriminate.
    destruct (declare_wf _ _ _ _ _ D (i_wf _ _ I)) as (W1 & SH1 & NL1 & P1 & Hm).
    destruct (decl_reads _ _ _ m id DV) as (-> & VD & RD).
    assert (C1 : counted h1 (fun _ => 0)).
    { intros r x H. unfold total. rewrite P1, map_app, sum_app, SH1. cbn.
      unfold declare in D. destruct (m <? length (nss h))%nat; [|discriminate]. inversion D; subst. cbn [nss] in H.
      rewrite upd_nth in H. rewrite !Z.add_0_r. destruct (m =? r)%nat.
      - destruct (nth_error (nss h) r) eqn:F; [|discriminate]. cbn in H. inversion H; subst. cbn. rewrite (i_cnt _ _ I _ _ F). f_equal.
        unfold total. lia.
      - rewrite (i_cnt _ _ I _ _ H). f_equal. unfold total. lia. }
    assert (NU : ~ unread hist (length (pars h))).
    { intros (a & q & b & E & A & _). pose proof (i_bnd _ _ I _ _ _ _ E A). lia. }
    assert (NL : forall q, ~ last_assignment hist (length (pars h)) q).
    { intros q (a & b & E & A & _). pose proof (i_bnd _ _ I _ _ _ _ E A). lia. }
    assert (F1 : forall q, nth_error (pars h1) q = if (q <? length (pars h))%nat then nth_error (pars h) q
                  else if (q =? length (pars h))%nat then Some (mkpar id m false false v) else None).
    { intro q. rewrite P1. apply nth_snoc. }
    assert (DN : dim_of (hist ++ [ODecl m id d]) (length (pars h)) = match d with DVec buf _ => length buf | _ => O end).
    { unfold dim_of. rewrite par_decls_snoc, nth_snoc, <- IL, Nat.ltb_irrefl, Nat.eqb_refl. reflexivity. }
    assert (FIN : exists f : bool, same h1 h' /\ length (pars h') = S (length (pars h)) /\ counted h' (fun _ => 0) /\ f = has_default d /\
       forall q, nth_error (pars h') q = if (q <? length (pars h))%nat then nth_error (pars h) q
                  else if (q =? length (pars h))%nat then Some (mkpar id m f f v) else None).
    { exists (has_default d). destruct (has_default d).
      - apply changed_set_spec in R as (x & Fx & S & L & N & C). rewrite P1, app_length in Fx. cbn in Fx.
        replace (length (pars h) + 1 - 1)%nat with (length (pars h)) in Fx by lia.
        rewrite nth_snoc, Nat.ltb_irrefl, Nat.eqb_refl in Fx. inversion Fx; subst x; clear Fx. cbn in N.
        split; [exact S|]. split; [rewrite L, P1, app_length; cbn; lia|]. split; [auto|]. split; [reflexivity|].
        intro q. rewrite N, F1. rewrite P1, app_length. cbn [length].
        replace (length (pars h) + 1 - 1)%nat with (length (pars h)) by lia.
        destruct (Nat.ltb_spec q (length (pars h))); destruct (Nat.eqb_spec q (length (pars h)));
          destruct (Nat.eqb_spec (length (pars h)) q); try lia; reflexivity.
      - inversion R; subst h'. split; [apply same_refl|]. split; [rewrite P1, app_length; cbn; lia|]. split; [exact C1|].
        split; [reflexivity|]. exact F1. }
    destruct FIN as (f & S & L & C & Ef & N).
    assert (AS : forall q, assigns hist (ODecl m id d) q <-> f = true /\ q = length (pars h)).
    { intro q. split; intro A; [inversion A; subst; now rewrite IL|]. destruct A as [-> ->]. rewrite IL. constructor. auto. }
    split.
    + eapply same_wf; eauto.
    + rewrite (same_shape _ _ S), SH1, ns_decls_snoc, app_nil_r. apply I.
    + rewrite (par_same _ _ S), P1, map_app, par_decls_snoc, map_app, (i_par _ _ I). reflexivity.
    + exact C.
    + rewrite L. eapply bnd_snoc; [apply I|lia|]. intros p A. apply AS in A. lia.
    + intros p x F. rewrite N in F. rewrite unread_snoc, AS.
      destruct (Nat.ltb_spec p (length (pars h))).
      * rewrite (i_chg _ _ I _ _ F). split; [intro; right; split; [auto|discriminate]|]. intros [[_ ->]|[X _]]; [lia|auto].
      * destruct (Nat.eqb_spec p (length (pars h))); [|discriminate]. inversion F; subst. cbn [pchanged]. split; [auto|].
        intros [[X _]|[X _]]; [auto|now apply NU in X].
    + intros p x F. rewrite N in F. destruct (p <? length (pars h))%nat; [eapply i_cd; eauto|].
      destruct (p =? length (pars h))%nat; [|discriminate]. inversion F; subst. auto.
    + intros p x F Df. rewrite N in F. destruct (Nat.ltb_spec p (length (pars h))).
      * destruct (i_def _ _ I _ _ F Df) as [q Q]. exists q. apply last_snoc. right. split; [auto|]. rewrite AS. lia.
      * destruct (Nat.eqb_spec p (length (pars h))); [|discriminate]. inversion F; subst. cbn in Df.
        eexists. apply last_snoc. left. split; [reflexivity|]. apply AS. auto.
    + intros p x q F Q. rewrite N in F. apply last_snoc in Q as [[-> A]|[Q NA]].
      * apply AS in A as [-> ->]. rewrite Nat.ltb_irrefl, Nat.eqb_refl in F. inversion F; subst. cbn [pdefined pval]. split; [reflexivity|].
        rewrite DN. auto.
      * destruct (Nat.ltb_spec p (length (pars h))).
        -- rewrite dim_snoc by lia. eapply i_val; eauto.
        -- destruct (Nat.eqb_spec p (length (pars h))); [|discriminate]. subst. now apply NL in Q.
    + intros p x F. rewrite N in F. destruct (Nat.ltb_spec p (length (pars h))).
      * rewrite dim_snoc by lia. eapply i_dim; eauto.
      * destruct (Nat.eqb_spec p (length (pars h))); [|discriminate]. inversion F; subst p x. cbn [pval]. now rewrite DN.
  - (* set *)
    apply set_spec in R as (x & v & F & G & S & L & N & C).
    assert (AS : forall q, assigns hist (OSet p a) q <-> q = p) by (intro q; split; intro A; [now inversion A|subst; constructor]).
    assert (Lp : (p < length (pars h))%nat) by (apply nth_error_Some; congruence).
    destruct (store_reads _ _ _ _ p (i_dim _ _ I _ _ F) G) as [SR SD].
    assert (DT : pdefined x || negb (pchanged x) = true).
    { destruct (pchanged x) eqn:E; [|now rewrite orb_true_r]. rewrite (i_cd _ _ I _ _ F E). reflexivity. }
    rewrite DT in N.
    split.
    + eapply same_wf; eauto. apply I.
    + rewrite (same_shape _ _ S), ns_decls_snoc, app_nil_r. apply I.
    + rewrite (par_same _ _ S), par_decls_snoc, app_nil_r. apply I.
    + apply C, I.
    + rewrite L. eapply bnd_snoc; [apply I|lia|]. intros q A. apply AS in A. now subst.
    + intros q y Fy. rewrite N in Fy. rewrite unread_snoc, AS. destruct (Nat.eqb_spec p q).
      * inversion Fy; subst. cbn [pchanged]. tauto.
      * rewrite (i_chg _ _ I _ _ Fy). split; [intro; right; split; [auto|discriminate]|]. intros [->|[X _]]; [easy|auto].
    + intros q y Fy. rewrite N in Fy. destruct (p =? q)%nat; [inversion Fy; auto|]. eapply i_cd; eauto.
    + intros q y Fy D. rewrite N in Fy. destruct (Nat.eqb_spec p q).
      * subst. eexists. apply last_snoc. left. split; [reflexivity|now apply AS].
      * destruct (i_def _ _ I _ _ Fy D) as [z Q]. exists z. apply last_snoc. right. split; [auto|]. rewrite AS. auto.
    + intros q y z Fy Q. rewrite N in Fy. apply last_snoc in Q as [[-> A]|[Q NA]].
      * apply AS in A. subst. rewrite Nat.eqb_refl in Fy. inversion Fy; subst. cbn [pdefined pval]. split; [reflexivity|].
        rewrite dim_snoc by lia. exact SR.
      * rewrite AS in NA. destruct (Nat.eqb_spec p q); [now subst|].
        rewrite dim_snoc by (rewrite <- IL; apply nth_error_Some; congruence). eapply i_val; eauto.
    + intros q y Fy. rewrite N in Fy. destruct (Nat.eqb_spec p q).
      * subst. inversion Fy; subst. cbn [pval]. rewrite dim_snoc by lia. exact SD.
      * rewrite dim_snoc by (rewrite <- IL; apply nth_error_Some; congruence). eapply i_dim; eauto.
  - (* get *)
    unfold parameter_get in R. destruct (changed_clear h p) as [h1| |] eqn:CC; cbn [rbind] in R; try discriminate.
    destruct (parameter_read h1 p k) eqn:RD; cbn [rbind] in R; try discriminate. inversion R; subst h1; clear R.
    apply changed_clear_spec in CC as (x & F & S & L & N & C).
    assert (NA : forall q, ~ assigns hist (OGet p k) q) by (intros q A; inversion A).
    split.
    + eapply same_wf; eauto. apply I.
    + rewrite (same_shape _ _ S), ns_decls_snoc, app_nil_r. apply I.
    + rewrite (par_same _ _ S), par_decls_snoc, app_nil_r. apply I.
    + apply C, I.
    + rewrite L. eapply bnd_snoc; [apply I|lia|]. intros q A. now apply NA in A.
    + intros q y Fy. rewrite N in Fy. rewrite unread_snoc. destruct (Nat.eqb_spec p q).
      * inversion Fy; subst. cbn [pchanged]. split; [discriminate|]. intros [A|[_ X]]; [now apply NA in A|]. now specialize (X k).
      * rewrite (i_chg _ _ I _ _ Fy). split.
        -- intro; right; split; [auto|]. intros k' E. inversion E. congruence.
        -- intros [A|[X _]]; [now apply NA in A|auto].
    + intros q y Fy. rewrite N in Fy. destruct (p =? q)%nat; [inversion Fy; cbn; discriminate|]. eapply i_cd; eauto.
    + intros q y Fy D. rewrite N in Fy. destruct (Nat.eqb_spec p q).
      * subst. inversion Fy; subst. cbn in D. destruct (i_def _ _ I _ _ F D) as [z Q]. exists z. apply last_snoc. auto.
      * destruct (i_def _ _ I _ _ Fy D) as [z Q]. exists z. apply last_snoc. auto.
    + intros q y z Fy Q. rewrite N in Fy. apply last_snoc in Q as [[-> A]|[Q _]]; [now apply NA in A|].
      destruct (Nat.eqb_spec p q).
      * subst. inversion Fy; subst. cbn [pdefined pval].
        rewrite dim_snoc by (rewrite <- IL; apply nth_error_Some; congruence). eapply i_val; eauto.
      * rewrite dim_snoc by (rewrite <- IL; apply nth_error_Some; congruence). eapply i_val; eauto.
    + intros q y Fy. rewrite N in Fy. destruct (Nat.eqb_spec p q).
      * subst. inversion Fy; subst. cbn [pval].
        rewrite dim_snoc by (rewrite <- IL; apply nth_error_Some; congruence). eapply i_dim; eauto.
      * rewrite dim_snoc by (rewrite <- IL; apply nth_error_Some; congruence). eapply i_dim; eauto.
  - (* read *)
    destruct (parameter_read h p k) eqn:RD; cbn [rbind] in R; try discriminate. inversion R; subst h'; clear R.
    assert (NA : forall q, ~ assigns hist (ORead p k) q) by (intros q A; inversion A).
    split.
    + apply I.
    + rewrite ns_decls_snoc, app_nil_r. apply I.
    + rewrite par_decls_snoc, app_nil_r. apply I.
    + apply I.
    + eapply bnd_snoc; [apply I|lia|]. intros q A. now apply NA in A.
    + intros q y Fy. apply UNC; auto. discriminate.
    + apply I.
    + intros q y Fy D. destruct (i_def _ _ I _ _ Fy D) as [z Q]. exists z. apply last_snoc. auto.
    + intros q y z Fy Q. apply last_snoc in Q as [[-> A]|[Q _]]; [now apply NA in A|].
      rewrite dim_snoc by (rewrite <- IL; apply nth_error_Some; congruence). eapply i_val; eauto.
    + intros q y Fy. rewrite dim_snoc by (rewrite <- IL; apply nth_error_Some; congruence). eapply i_dim; eauto.
Qed.

Lemma inv_empty : Inv [] empty.
Proof.
  assert (NE : forall (p : nat) (x : par), nth_error (pars empty) p = Some x -> False) by (intros [] ?; discriminate).
  split; try reflexivity; try (intros; exfalso; eapply NE; eassumption).
  - split; try (intros; exfalso; eapply NE; eassumption).
    + intros [] ? ?; discriminate.
    + intros [] ?; discriminate.
    + intros [] ?; discriminate.
  - intros [] ?; discriminate.
  - intros [] ? ? ? E; discriminate.
Qed.
Theorem inv_run hist : forall h, run hist = OK h -> Inv hist h.
Proof.
  induction hist as [|o hist IH] using rev_ind; intros h R.
  - inversion R. apply inv_empty.
  - rewrite run_snoc in R. destruct (run hist) as [h0| |]; cbn in R; try discriminate. eapply inv_step; eauto.
Qed.

(** ** Counting *)
Lemma sum_filter (f : par -> bool) : forall l,
  exists s, NoDup s /\ (forall p, In p s <-> exists x, nth_error l p = Some x /\ f x = true) /\
    sum (map (fun x => if f x then 1 else 0) l) = Z.of_nat (length s) /\ (length s <= length l)%nat.
Proof.
  induction l as [|x l (s & ND & IN & SM & LE)] using rev_ind.
  - exists []. split; [constructor|]. split; [|split; [reflexivity|auto]]. intro p. split; [easy|]. intros (y & H & _). now destruct p.
  - rewrite map_app, sum_app, app_length. cbn [map sum fold_right length].
    assert (NI : ~ In (length l) s).
    { rewrite IN. intros (y & H & _). assert (length l < length l)%nat; [|lia]. apply nth_error_Some. congruence. }
    destruct (f x) eqn:Fx.
    + exists (length l :: s). split; [now constructor|]. split; [|split; [cbn [length]; unfold sum in *; lia|cbn; lia]].
      intro p. cbn [In]. rewrite IN. split.
      * intros [<-|(y & H & G)].
        -- exists x. split; [|auto]. now rewrite nth_snoc, Nat.ltb_irrefl, Nat.eqb_refl.
        -- exists y. split; [|auto]. rewrite nth_error_app1; [auto|]. apply nth_error_Some. congruence.
      * intros (y & H & G). rewrite nth_snoc in H. destruct (p <? length l)%nat; [right; eauto|].
        destruct (Nat.eqb_spec p (length l)); [auto|discriminate].
    + exists s. split; [auto|]. split; [|split; [unfold sum in *; lia|lia]].
      intro p. rewrite IN. split.
      * intros (y & H & G). exists y. split; [|auto]. rewrite nth_error_app1; [auto|]. apply nth_error_Some. congruence.
      * intros (y & H & G). rewrite nth_snoc in H. destruct (p <? length l)%nat; [eauto|].
        destruct (p =? length l)%nat; [|discriminate]. inversion H; subst. congruence.
Qed.

Lemma count_nodup (l : list nat) r : NoDup l -> count_occ Nat.eq_dec l r = if in_dec Nat.eq_dec r l then 1%nat else O.
Proof.
  intro ND. destruct (in_dec Nat.eq_dec r l) as [H|H].
  - now apply NoDup_count_occ'.
  - now apply count_occ_not_In.
Qed.

Lemma flagged_total h r : wf h -> exists l, flagged h r l /\ total h r = Z.of_nat (length l) /\ (length l <= length (pars h))%nat.
Proof.
  intro W.
  set (f := fun x => pchanged x && if in_dec Nat.eq_dec r (chainP (S (pns x)) (shape h) (pns x)) then true else false).
  destruct (sum_filter f (pars h)) as (s & ND & IN & SM & LE). exists s. split; [|split; [|exact LE]].
  - split; [exact ND|]. intro p. rewrite IN. fold (shape h).
    assert (EQ : forall x, nth_error (pars h) p = Some x -> (f x = true <-> pchanged x = true /\ within (shape h) (pns x) r)).
    { intros x F. unfold f. rewrite andb_true_iff. rewrite <- (in_chainP _ (wf_down _ W) (S (pns x))).
      - destruct (in_dec Nat.eq_dec r (chainP (S (pns x)) (shape h) (pns x))); intuition congruence.
      - lia.
      - unfold shape. rewrite map_length. eapply wf_pns; eauto. }
    split; intros (x & F & G); exists x; split; auto; now apply EQ.
  - rewrite <- SM. unfold total. f_equal. apply map_ext. intro x. rewrite contrib_occ. unfold f, occ.
    rewrite count_nodup by (apply chainP_nodup, W). destruct (pchanged x); [|reflexivity]. cbn [andb].
    destruct (in_dec Nat.eq_dec r (chainP (S (pns x)) (shape h) (pns x))); reflexivity.
Qed.

Lemma counted_exact h r x : wf h -> counted h (fun _ => 0) -> nth_error (nss h) r = Some x ->
  Z.of_nat (length (pars h)) < 2 ^ 31 ->
  exists l, flagged h r l /\ ncnt x = Z.of_nat (length l) /\ (namespace_contains_changed h r = OK true <-> l <> []).
Proof.
  intros W C H B. destruct (flagged_total h r W) as (l & Fl & T & LE). exists l. split; [exact Fl|].
  assert (E : ncnt x = Z.of_nat (length l)). { rewrite (C _ _ H), T. rewrite Z.add_0_r. apply sN_id; lia. }
  split; [exact E|]. unfold namespace_contains_changed. rewrite H, E. unfold u32. rewrite uN_id by lia.
  destruct l; cbn [length]; [split; [discriminate|easy]|].
  replace (0 <? Z.of_nat (S (length l))) with true by (symmetry; apply Z.ltb_lt; lia). split; [discriminate|reflexivity].
Qed.


Lemma flagged_changed hist h r l : Inv hist h -> flagged h r l -> changed_params hist r l.
Proof.
  intros I [ND IN]. split; [exact ND|]. intro p. rewrite IN. fold (shape h). rewrite (i_ns _ _ I).
  pose proof (i_par _ _ I) as IP.
  assert (AP : option_map (fun x => (pns x, pid x)) (nth_error (pars h) p) = option_map fst (nth_error (par_decls hist) p)).
  { rewrite <- !nth_error_map. now rewrite IP. }
  split.
  - intros (x & F & Ch & Wi). split; [now apply (i_chg _ _ I _ _ F)|]. rewrite F in AP. cbn in AP.
    destruct (nth_error (par_decls hist) p) as [[[m id] d]|] eqn:G; [|discriminate]. cbn in AP. inversion AP; subst.
    exists (pns x), (pid x), d. auto.
  - intros [U (m & id & d & G & Wi)]. rewrite G in AP. cbn in AP. destruct (nth_error (pars h) p) as [x|] eqn:F; [|discriminate].
    cbn in AP. inversion AP; subst. exists x. split; [auto|]. split; [now apply (i_chg _ _ I _ _ F)|auto].
Qed.

Theorem changed_exact hist h r : run hist = OK h -> (r < length (ns_decls hist))%nat ->
  Z.of_nat (length (par_decls hist)) < 2 ^ 31 ->
  exists x l, nth_error (nss h) r = Some x /\ changed_params hist r l /\ ncnt x = Z.of_nat (length l) /\
    namespace_contains_changed h r = OK (match l with [] => false | _ => true end).
Proof.
  intros R Hr B. apply inv_run in R as I. rewrite <- (i_ns _ _ I) in Hr. unfold shape in Hr. rewrite map_length in Hr.
  destruct (lt_nth _ _ _ Hr) as [x X]. exists x.
  rewrite <- (inv_length _ _ I) in B.
  destruct (counted_exact _ _ _ (i_wf _ _ I) (i_cnt _ _ I) X B) as (l & Fl & E & CC). exists l.
  split; [auto|]. split; [eapply flagged_changed; eauto|]. split; [auto|].
  unfold namespace_contains_changed in *. rewrite X in *. destruct l as [|n l].
  - destruct (0 <? u32 (ncnt x)); [|reflexivity]. exfalso. now apply CC.
  - apply CC. discriminate.
Qed.

Theorem read_last hist h p o k : run hist = OK h -> last_assignment hist p o -> k <> KStr 0 ->
  parameter_read h p k = match expected (dim_of hist p) o k with Some g => OK g | None => ASSERT end.
Proof.
  intros R L K. apply inv_run in R as I.
  assert (Lp : (p < length (pars h))%nat). { destruct L as (a & b & E & A & _). eapply i_bnd; eauto. }
  destruct (lt_nth _ _ _ Lp) as [x X]. unfold parameter_read. rewrite X, load_loads.
  destruct (i_val _ _ I _ _ _ X L) as [-> V]. now apply V.
Qed.

Theorem read_unassigned hist h p k : run hist = OK h -> (forall o, ~ last_assignment hist p o) ->
  (p < length (par_decls hist))%nat -> parameter_read h p k = ASSERT.
Proof.
  intros R N L. apply inv_run in R as I. rewrite <- (inv_length _ _ I) in L. destruct (lt_nth _ _ _ L) as [x X].
  unfold parameter_read. rewrite X, load_loads. destruct (pdefined x) eqn:D; [|reflexivity].
  destruct (i_def _ _ I _ _ X D) as [o O]. now apply N in O.
Qed.

(** ** Lookup *)
Lemma matches_eq : forall s id, ~ In 0 s -> ~ In 0 id -> name_matches s id = OK (if list_eq_dec Z.eq_dec id s then true else false).
Proof.
  induction s as [|c s IH]; intros [|d id] Hs Hi; cbn [name_matches].
  - reflexivity.
  - destruct (Z.eqb_spec d 0); [subst; exfalso; apply Hi; now left|]. now destruct (list_eq_dec Z.eq_dec (d :: id) []).
  - destruct (Z.eqb_spec c 0); [subst; exfalso; apply Hs; now left|]. now destruct (list_eq_dec Z.eq_dec [] (c :: s)).
  - destruct (Z.eqb_spec c d) as [->|].
    + rewrite IH; [|intro; apply Hs; now right|intro; apply Hi; now right].
      destruct (list_eq_dec Z.eq_dec id s), (list_eq_dec Z.eq_dec (d :: id) (d :: s)); try congruence; reflexivity.
    + destruct (list_eq_dec Z.eq_dec (d :: id) (c :: s)); try congruence; reflexivity.
Qed.

Definition eqs (s : str) (o : option str) : bool :=
  match o with Some id => if list_eq_dec Z.eq_dec id s then true else false | None => false end.
Lemma find_first_ok nm s : ~ In 0 s -> forall l, (forall i, In i l -> exists id, nm i = Some id /\ ~ In 0 id) ->
  find_first nm l s = OK (find (fun i => eqs s (nm i)) l).
Proof.
  intros Hs. induction l as [|i l IH]; intro H; [reflexivity|]. cbn [find_first find].
  destruct (H i (or_introl eq_refl)) as (id & E & Z0). rewrite E, matches_eq by auto. cbn [rbind eqs].
  destruct (list_eq_dec Z.eq_dec id s); [reflexivity|]. apply IH. intros; apply H; now right.
Qed.

Lemma find_rev_latest (f g : nat -> bool) : forall N,
  match find f (rev (filter g (seq 0 N))) with
  | Some i => latest (fun i => (i < N)%nat /\ g i = true /\ f i = true) i
  | None => forall i, (i < N)%nat -> g i = true -> f i = false
  end.
Proof.
  induction N as [|N IH]; [cbn; lia|]. rewrite seq_S, filter_app, rev_app_distr. cbn [plus filter].
  destruct (g N) eqn:G; cbn [rev app].
  - cbn [find]. destruct (f N) eqn:F.
    + split; [auto|]. lia.
    + destruct (find f _) as [i|].
      * destruct IH as [(A & B & C) D]. split; [auto|]. intros j (E1 & E2 & E3).
        destruct (Nat.eq_dec j N); [subst; congruence|]. apply D. repeat split; auto. lia.
      * intros i Hi Gi. destruct (Nat.eq_dec i N); [now subst|]. apply IH; auto. lia.
  - destruct (find f _) as [i|].
    + destruct IH as [(A & B & C) D]. split; [auto|]. intros j (E1 & E2 & E3).
      destruct (Nat.eq_dec j N); [subst; congruence|]. apply D. repeat split; auto. lia.
    + intros i Hi Gi. destruct (Nat.eq_dec i N); [subst; congruence|]. apply IH; auto. lia.
Qed.

Section Find.
Variables (hist : list op) (h : heap).
Hypothesis I : Inv hist h.
Hypothesis ids : ids_ok hist.

Lemma ns_decl_nth i : nth_error (ns_decls hist) i = option_map (fun x => nshape x) (nth_error (nss h) i).
Proof. rewrite <- (i_ns _ _ I). unfold shape. apply nth_error_map. Qed.
Lemma par_decl_nth i : option_map fst (nth_error (par_decls hist) i) = option_map (fun x => (pns x, pid x)) (nth_error (pars h) i).
Proof. rewrite <- !nth_error_map. now rewrite (i_par _ _ I). Qed.

Lemma sub_spec n s : (n < length (nss h))%nat -> ~ In 0 s -> s <> [] ->
  match get_subnamespace h n s with
  | OK (Some c) => latest (fun i => nth_error (ns_decls hist) i = Some (Some n, s)) c
  | OK None => forall i, nth_error (ns_decls hist) i <> Some (Some n, s)
  | _ => False
  end.
Proof.
  intros Hn Hs Ne. destruct (lt_nth _ _ _ Hn) as [x X]. unfold get_subnamespace. rewrite X.
  destruct s as [|c0 s0]; [easy|]. set (s := c0 :: s0) in *.
  rewrite find_first_ok; auto.
  2:{ intros i Hi. rewrite (wf_subs _ (i_wf _ _ I) _ _ X) in Hi. apply in_rev, filter_In in Hi as [Hi _]. apply in_seq in Hi.
      destruct (lt_nth _ (nss h) i ltac:(lia)) as [y Y]. rewrite Y. cbn. exists (nid y). split; [auto|].
      destruct ids as [A _]. rewrite Forall_forall in A. pose proof (ns_decl_nth i) as D. rewrite Y in D. apply nth_error_In in D.
      apply A in D. exact D. }
  rewrite (wf_subs _ (i_wf _ _ I) _ _ X).
  assert (EQ : forall i, (i < length (nss h))%nat /\ is_child h n i = true /\ eqs s (option_map nid (nth_error (nss h) i)) = true <->
                nth_error (ns_decls hist) i = Some (Some n, s)).
  { intro i. rewrite ns_decl_nth. unfold is_child. destruct (nth_error (nss h) i) as [y|] eqn:Y; cbn [option_map eqs].
    - assert (i < length (nss h))%nat by (apply nth_error_Some; congruence).
      destruct (list_eq_dec Z.eq_dec (nid y) s).
      + destruct (nparent y) as [q|]; split.
        * intros (_ & E & _). apply Nat.eqb_eq in E. rewrite E, e. reflexivity.
        * intro E. injection E as -> _. rewrite Nat.eqb_refl. auto.
        * intros (_ & E & _). discriminate.
        * discriminate.
      + split; [intros (_ & _ & E); discriminate|]. intro E. injection E as _ E. now apply n0 in E.
    - split; [intuition congruence|discriminate]. }
  pose proof (find_rev_latest (fun i => eqs s (option_map nid (nth_error (nss h) i))) (is_child h n) (length (nss h))) as L.
  destruct (find _ _) as [c|].
  - destruct L as [A B]. split; [now apply EQ|]. intros j Hj. apply B. now apply EQ.
  - intros i Hi. apply EQ in Hi as (A & B & C). rewrite (L i A B) in C. discriminate.
Qed.

Lemma par_spec n s : (n < length (nss h))%nat -> ~ In 0 s -> s <> [] ->
  match get_parameter h n s with
  | OK (Some c) => latest (fun i => exists d, nth_error (par_decls hist) i = Some (n, s, d)) c
  | OK None => forall i d, nth_error (par_decls hist) i <> Some (n, s, d)
  | _ => False
  end.
Proof.
  intros Hn Hs Ne. destruct (lt_nth _ _ _ Hn) as [x X]. unfold get_parameter. rewrite X.
  destruct s as [|c0 s0]; [easy|]. set (s := c0 :: s0) in *.
  assert (PD : forall i y, nth_error (pars h) i = Some y -> exists d, nth_error (par_decls hist) i = Some (pns y, pid y, d)).
  { intros i y Y. pose proof (par_decl_nth i) as D. rewrite Y in D. cbn in D.
    destruct (nth_error (par_decls hist) i) as [[[a b] d]|]; [|discriminate]. cbn in D. inversion D; subst. eauto. }
  rewrite find_first_ok; auto.
  2:{ intros i Hi. rewrite (wf_params _ (i_wf _ _ I) _ _ X) in Hi. apply in_rev, filter_In in Hi as [Hi _]. apply in_seq in Hi.
      destruct (lt_nth _ (pars h) i ltac:(lia)) as [y Y]. rewrite Y. cbn. exists (pid y). split; [auto|].
      destruct ids as [_ A]. rewrite Forall_forall in A. destruct (PD _ _ Y) as [d D]. apply nth_error_In in D.
      apply A in D. exact D. }
  rewrite (wf_params _ (i_wf _ _ I) _ _ X).
  assert (EQ : forall i, (i < length (pars h))%nat /\ is_param h n i = true /\ eqs s (option_map pid (nth_error (pars h) i)) = true <->
                exists d, nth_error (par_decls hist) i = Some (n, s, d)).
  { intro i. unfold is_param. destruct (nth_error (pars h) i) as [y|] eqn:Y; cbn [option_map eqs].
    - assert (i < length (pars h))%nat by (apply nth_error_Some; congruence).
      destruct (PD _ _ Y) as [d D]. rewrite D.
      destruct (list_eq_dec Z.eq_dec (pid y) s).
      + split.
        * intros (_ & E & _). apply Nat.eqb_eq in E. rewrite E, e. eauto.
        * intros [d' E]. injection E as -> _ _. rewrite Nat.eqb_refl. auto.
      + split; [intros (_ & _ & E); discriminate|]. intros [d' E]. injection E as _ E _. now apply n0 in E.
    - pose proof (par_decl_nth i) as D. rewrite Y in D. cbn in D. destruct (nth_error (par_decls hist) i); [discriminate|].
      split; [intuition congruence|]. intros [? ?]. discriminate. }
  pose proof (find_rev_latest (fun i => eqs s (option_map pid (nth_error (pars h) i))) (is_param h n) (length (pars h))) as L.
  destruct (find _ _) as [c|].
  - destruct L as [A B]. split; [now apply EQ|]. intros j Hj. apply B. now apply EQ.
  - intros i d Hi. destruct (proj2 (EQ i) (ex_intro _ d Hi)) as (A & B & C). rewrite (L i A B) in C. discriminate.
Qed.

Lemma latest_fun P i j : latest P i -> latest P j -> i = j.
Proof. intros [A B] [C D]. apply B in C. apply D in A. lia. Qed.
Lemma leads_fun l : forall n comps m1, leads l n comps m1 -> forall m2, leads l n comps m2 -> m1 = m2.
Proof.
  induction 1; intros m2 H2; inversion H2; subst; auto; try congruence.
  rewrite (latest_fun _ _ _ H0 H7) in *. auto.
Qed.

Lemma split_last s : ~ In slash s -> id_split s = (s, None).
Proof.
  induction s as [|c s IH]; intro H; cbn; [reflexivity|]. destruct (Z.eqb_spec c slash); [subst; exfalso; apply H; now left|].
  rewrite IH; [reflexivity|]. intro; apply H; now right.
Qed.
Lemma split_mid s r : ~ In slash s -> id_split (s ++ slash :: r) = (s, Some r).
Proof.
  induction s as [|c s IH]; intro H; cbn [app id_split]; [now rewrite Z.eqb_refl|].
  destruct (Z.eqb_spec c slash); [subst; exfalso; apply H; now left|]. rewrite IH; [reflexivity|]. intro; apply H; now right.
Qed.
Lemma path_cons s comps : comps <> [] -> path_of (s :: comps) = s ++ slash :: path_of comps.
Proof. destruct comps; [easy|reflexivity]. Qed.
Lemma snoc_ne A (l : list A) x : l ++ [x] <> [].
Proof. now destruct l. Qed.

Lemma child_lt n s c : nth_error (ns_decls hist) c = Some (Some n, s) -> (c < length (nss h))%nat.
Proof. rewrite ns_decl_nth. intro H. apply nth_error_Some. destruct (nth_error (nss h) c); [discriminate|easy]. Qed.

Lemma find_loop comps : forall fuel n last, (n < length (nss h))%nat ->
  Forall (fun s => ~ In slash s /\ ~ In 0 s) (comps ++ [last]) -> (length (path_of (comps ++ [last])) < fuel)%nat ->
  match parameter_find_loop fuel h n (path_of (comps ++ [last])) with
  | OK (Some p) => names hist n comps last p
  | OK None => forall p, ~ names hist n comps last p
  | _ => False
  end.
Proof.
  induction comps as [|s comps IH]; intros fuel n last Hn F L; destruct fuel as [|fuel]; try lia.
  - cbn [app] in *. inversion F as [|? ? [Sl Z0] _]; subst. change (path_of [last]) with last in *. cbn [parameter_find_loop].
    rewrite split_last by auto. destruct (list_eq_dec Z.eq_dec last []) as [->|Ne].
    + unfold get_parameter. destruct (lt_nth _ _ _ Hn) as [x ->]. intros p [A _]. easy.
    + pose proof (par_spec n last Hn Z0 Ne) as P. destruct (get_parameter h n last) as [[p|]| |]; auto.
      * split; [auto|]. exists n. split; [constructor|auto].
      * intros p [_ (m & A & [d B] & _)]. inversion A; subst. now apply P in B.
  - rewrite <- app_comm_cons in *. inversion F as [|? ? [Sl Z0] F']; subst.
    rewrite path_cons in * by apply snoc_ne. cbn [parameter_find_loop]. rewrite split_mid by auto.
    rewrite app_length in L. cbn [length] in L.
    destruct (list_eq_dec Z.eq_dec s []) as [->|Ne].
    + unfold get_subnamespace. destruct (lt_nth _ _ _ Hn) as [x ->]. cbn [rbind].
      specialize (IH fuel n last Hn F' ltac:(lia)). destruct (parameter_find_loop fuel h n _) as [[p|]| |]; auto.
      * destruct IH as [A (m & B & C)]. split; [auto|]. exists m. split; [now constructor|auto].
      * intros p [A (m & B & C)]. apply (IH p). split; [auto|]. exists m. split; [|auto]. inversion B; subst; [auto|easy].
    + pose proof (sub_spec n s Hn Z0 Ne) as P. destruct (get_subnamespace h n s) as [[c|]| |]; cbn [rbind]; auto.
      * assert (Hc : (c < length (nss h))%nat) by (destruct P as [P _]; eapply child_lt; eauto).
        specialize (IH fuel c last Hc F' ltac:(lia)). destruct (parameter_find_loop fuel h c _) as [[p|]| |]; auto.
        -- destruct IH as [A (m & B & C)]. split; [auto|]. exists m. split; [eapply leads_down; eauto|auto].
        -- intros p [A (m & B & C)]. apply (IH p). split; [auto|]. exists m. split; [|auto]. inversion B; subst; [easy|].
           rewrite (latest_fun _ _ _ P H3). auto.
      * intros p [A (m & B & C)]. inversion B; subst; [easy|]. destruct H3 as [H3 _]. now apply P in H3.
Qed.

Lemma nsfind_loop comps : forall fuel n, (n < length (nss h))%nat -> comps <> [] ->
  Forall (fun s => ~ In slash s /\ ~ In 0 s) comps -> (length (path_of comps) < fuel)%nat ->
  match namespace_find_loop fuel h n (path_of comps) with
  | OK (Some m) => leads (ns_decls hist) n comps m
  | OK None => forall m, ~ leads (ns_decls hist) n comps m
  | _ => False
  end.
Proof.
  induction comps as [|s comps IH]; intros fuel n Hn NE F L; [easy|]. clear NE. destruct fuel as [|fuel]; try lia.
  inversion F as [|? ? [Sl Z0] F']; subst.
  assert (SUB : match get_subnamespace h n s with
     | OK (Some c) => (c < length (nss h))%nat /\ forall rest m, leads (ns_decls hist) n (s :: rest) m <-> leads (ns_decls hist) c rest m
     | OK None => forall rest m, ~ leads (ns_decls hist) n (s :: rest) m
     | _ => False
     end).
  { destruct (list_eq_dec Z.eq_dec s []) as [->|Ne].
    - unfold get_subnamespace. destruct (lt_nth _ _ _ Hn) as [x ->]. split; [auto|]. intros rest m. split; intro A.
      + inversion A; subst; [auto|easy].
      + now constructor.
    - pose proof (sub_spec n s Hn Z0 Ne) as P. destruct (get_subnamespace h n s) as [[c|]| |]; auto.
      + split; [destruct P as [P _]; eapply child_lt; eauto|]. intros rest m. split; intro A.
        * inversion A; subst; [easy|]. now rewrite (latest_fun _ _ _ P H3).
        * eapply leads_down; eauto.
      + intros rest m A. inversion A; subst; [easy|]. destruct H3 as [H3 _]. now apply P in H3. }
  destruct comps as [|s2 comps].
  - change (path_of [s]) with s in *. destruct s as [|c0 s0].
    + cbn. repeat constructor.
    + cbn [namespace_find_loop]. rewrite split_last by auto.
      destruct (get_subnamespace h n (c0 :: s0)) as [[c|]| |]; cbn [rbind]; auto. apply SUB. constructor.
  - rewrite path_cons in * by discriminate. rewrite app_length in L. cbn [length] in L.
    assert (E : namespace_find_loop (S fuel) h n (s ++ slash :: path_of (s2 :: comps)) =
       rbind (get_subnamespace h n s) (fun r => match r with None => OK None | Some m => namespace_find_loop fuel h m (path_of (s2 :: comps)) end)).
    { cbn [namespace_find_loop]. destruct (s ++ slash :: path_of (s2 :: comps)) as [|z y] eqn:E0; [now destruct s|]. rewrite <- E0.
      rewrite split_mid by auto. reflexivity. }
    rewrite E. destruct (get_subnamespace h n s) as [[c|]| |]; cbn [rbind]; auto. destruct SUB as [Hc EQ].
    specialize (IH fuel c Hc ltac:(discriminate) F' ltac:(lia)).
    destruct (namespace_find_loop fuel h c _) as [[m|]| |]; auto.
    + now apply EQ.
    + intros m A. apply EQ in A. now apply IH in A.
Qed.
End Find.

Lemma components_exist : forall path, exists comps last, components path (comps ++ [last]) /\ (~ In 0 path -> Forall (fun s => ~ In 0 s) (comps ++ [last])).
Proof.
  induction path as [|c path (comps & last & [E F] & Z0)].
  - exists [], []. split; [split; [reflexivity|repeat constructor; easy]|]. intros _. repeat constructor; easy.
  - destruct (Z.eq_dec c slash) as [->|Ne].
    + exists ([] :: comps), last. rewrite <- app_comm_cons. split.
      * split; [rewrite path_cons by apply snoc_ne; cbn [app]; f_equal; exact E|constructor; auto].
      * intro H. constructor; [auto|]. apply Z0. intro; apply H; now right.
    + destruct comps as [|s comps].
      * exists [], (c :: last). cbn [app] in *. split.
        -- split; [cbn in *; congruence|]. inversion F; subst. constructor; [|auto]. intros [|]; [easy|auto].
        -- intro H. specialize (Z0 ltac:(intro; apply H; now right)). inversion Z0; subst. constructor; [|auto].
           intros [->|]; [apply H; now left|auto].
      * exists ((c :: s) :: comps), last. rewrite <- app_comm_cons in *. split.
        -- split; [rewrite path_cons in * by apply snoc_ne; rewrite E; reflexivity|]. inversion F; subst. constructor; [|auto]. intros [|]; [easy|auto].
        -- intro H. specialize (Z0 ltac:(intro; apply H; now right)). inversion Z0; subst. constructor; [|auto].
           intros [->|]; [apply H; now left|auto].
Qed.

Lemma Forall_and_in A (P Q : A -> Prop) l : Forall P l -> Forall Q l -> Forall (fun x => P x /\ Q x) l.
Proof. rewrite !Forall_forall. auto. Qed.
Lemma path_no_zero comps : ~ In 0 (path_of comps) -> Forall (fun s => ~ In 0 s) comps.
Proof.
  induction comps as [|s comps IH]; intro H; constructor.
  - intro A. apply H. destruct comps; [exact A|]. rewrite path_cons by discriminate. apply in_app_iff. auto.
  - destruct comps; [constructor|]. apply IH. intro A. apply H. rewrite path_cons by discriminate. apply in_app_iff. right. now right.
Qed.

Lemma ns_length hist h : Inv hist h -> length (nss h) = length (ns_decls hist).
Proof. intro I. rewrite <- (i_ns _ _ I). unfold shape. now rewrite map_length. Qed.

Theorem find_exact hist h n path comps last : run hist = OK h -> ids_ok hist -> (n < length (ns_decls hist))%nat ->
  ~ In 0 path -> components path (comps ++ [last]) ->
  match parameter_find h n path with
  | OK (Some p) => names hist n comps last p
  | OK None => forall p, ~ names hist n comps last p
  | _ => False
  end.
Proof.
  intros R IO Hn Z0 [-> F]. apply inv_run in R as I. rewrite <- (ns_length _ _ I) in Hn.
  apply find_loop; auto. apply Forall_and_in; [auto|]. now apply path_no_zero.
Qed.
Theorem nsfind_exact hist h n path comps : run hist = OK h -> ids_ok hist -> (n < length (ns_decls hist))%nat ->
  ~ In 0 path -> comps <> [] -> components path comps ->
  match namespace_find h n path with
  | OK (Some m) => leads (ns_decls hist) n comps m
  | OK None => forall m, ~ leads (ns_decls hist) n comps m
  | _ => False
  end.
Proof.
  intros R IO Hn Z0 Ne [-> F]. apply inv_run in R as I. rewrite <- (ns_length _ _ I) in Hn.
  apply nsfind_loop; auto. apply Forall_and_in; [auto|]. now apply path_no_zero.
Qed.
Lemma names_unique hist n comps last p q : names hist n comps last p -> names hist n comps last q -> p = q.
Proof.
  intros [_ (m & A & B)] [_ (m' & A' & B')]. rewrite (leads_fun _ _ _ _ A _ A') in B. eapply latest_fun; eauto.
Qed.
