From Coq Require Import ZArith List Bool Arith Lia.
From Verif Require Import CBase Buf CmpModel CmpSpec CmpProofs ParamModel ParamSpec ParamProofs ParamProofs2 PmsgModel PmsgSpec PmsgProofs YgenModel YgenSpec YgenProofs YgenProofs2.
Import ListNotations.
Local Open Scope Z_scope.

(** ** A tree among other objects *)
Definition grow (t : list ns) (h : heap) : heap := mkheap (nss h ++ t) (pars h).
Definition rmap {A B} (f : A -> B) (r : res A) : res B := match r with OK a => OK (f a) | ASSERT => ASSERT | BAD => BAD end.

Section Grow.
Variable t : list ns.

Lemma g_nth h n : (n < length (nss h))%nat -> nth_error (nss (grow t h)) n = nth_error (nss h) n.
Proof. intro H. apply nth_error_app1, H. Qed.
Lemma upd_app A (f : A -> A) (b : list A) : forall a i, (i < length a)%nat -> upd (a ++ b) i f = upd a i f ++ b.
Proof. induction a; intros [|i] H; cbn in *; try lia; [reflexivity|]. f_equal. apply IHa. lia. Qed.

Lemma g_chain h n : down (shape h) -> (n < length (nss h))%nat -> chain (grow t h) n = chain h n.
Proof.
  intros D. unfold chain. generalize (S n) as fuel. intro fuel. revert n. induction fuel as [|fuel IH]; intros n Hn; cbn [chain_fuel]; [reflexivity|].
  rewrite g_nth by auto. destruct (nth_error (nss h) n) as [x|] eqn:E; [|reflexivity]. destruct (nparent x) as [m|] eqn:P; [|reflexivity].
  f_equal. apply IH. specialize (D n m (nid x)). unfold shape in D. rewrite nth_error_map, E in D. cbn in D. rewrite P in D. specialize (D eq_refl). lia.
Qed.
Lemma g_inc h n : (n < length (nss h))%nat -> inc (grow t h) n = grow t (inc h n).
Proof. intro H. unfold inc, upd_ns, grow. cbn [nss pars]. now rewrite upd_app. Qed.
Lemma g_dec h n : (n < length (nss h))%nat -> dec (grow t h) n = grow t (dec h n).
Proof. intro H. unfold dec, upd_ns, grow. cbn [nss pars]. now rewrite upd_app. Qed.
Lemma g_incs l : forall h, (forall n, In n l -> (n < length (nss h))%nat) -> fold_left inc l (grow t h) = grow t (fold_left inc l h).
Proof.
  induction l as [|n l IH]; intros h H; cbn [fold_left]; [reflexivity|]. rewrite g_inc by (apply H; now left). apply IH.
  intros m Hm. unfold inc, upd_ns. cbn [nss]. rewrite upd_length. apply H. now right.
Qed.
Lemma g_decs l : forall h, (forall n, In n l -> (n < length (nss h))%nat) -> fold_left dec l (grow t h) = grow t (fold_left dec l h).
Proof.
  induction l as [|n l IH]; intros h H; cbn [fold_left]; [reflexivity|]. rewrite g_dec by (apply H; now left). apply IH.
  intros m Hm. unfold dec, upd_ns. cbn [nss]. rewrite upd_length. apply H. now right.
Qed.
Lemma chain_lt h n m : down (shape h) -> (n < length (nss h))%nat -> In m (chain h n) -> (m < length (nss h))%nat.
Proof. intros D Hn I. rewrite chain_shape in I. apply chainP_le in I; [lia|auto]. Qed.

Lemma g_set_changed h p b : set_changed (grow t h) p b = grow t (set_changed h p b). Proof. reflexivity. Qed.

Lemma g_changed_set h p : wf h -> changed_set (grow t h) p = rmap (grow t) (changed_set h p).
Proof.
  intro W. unfold changed_set. cbn [grow pars]. destruct (nth_error (pars h) p) as [x|] eqn:E; [|reflexivity].
  destruct (pchanged x); [reflexivity|]. cbn [rmap]. f_equal. pose proof (wf_pns _ W _ _ E) as Hx. pose proof (wf_down _ W) as D.
  change (mkheap (nss h ++ t) (pars h)) with (grow t h). rewrite g_set_changed.
  assert (D1 : down (shape (set_changed h p true))) by exact D.
  rewrite g_chain by auto. rewrite g_incs; [reflexivity|]. intros n Hn. eapply chain_lt; eauto.
Qed.
Lemma g_changed_clear h p : wf h -> changed_clear (grow t h) p = rmap (grow t) (changed_clear h p).
Proof.
  intro W. unfold changed_clear. cbn [grow pars]. destruct (nth_error (pars h) p) as [x|] eqn:E; [|reflexivity].
  destruct (pchanged x); [|reflexivity]. cbn [rmap]. f_equal. pose proof (wf_pns _ W _ _ E) as Hx. pose proof (wf_down _ W) as D.
  change (mkheap (nss h ++ t) (pars h)) with (grow t h). rewrite g_set_changed.
  assert (D1 : down (shape (set_changed h p false))) by exact D.
  rewrite g_chain by auto. rewrite g_decs; [reflexivity|]. intros n Hn. eapply chain_lt; eauto.
Qed.
Lemma g_store h p a : store_at (grow t h) p a = rmap (grow t) (store_at h p a).
Proof.
  unfold store_at. cbn [grow pars]. destruct (nth_error (pars h) p) as [x|]; [|reflexivity]. destruct (store (pval x) a); reflexivity.
Qed.
Lemma g_set h p a : wf h -> parameter_set (grow t h) p a = rmap (grow t) (parameter_set h p a).
Proof.
  intro W. unfold parameter_set. rewrite g_store. destruct (store_at h p a) as [h1| |] eqn:E; cbn [rmap rbind]; try reflexivity.
  apply g_changed_set. apply store_at_spec in E as (x & v & _ & _ & S & _). eapply same_wf; eauto.
Qed.
Lemma g_read h p k : parameter_read (grow t h) p k = parameter_read h p k. Proof. reflexivity. Qed.
Lemma g_get h p k : wf h -> parameter_get (grow t h) p k = rmap (fun x => (grow t (fst x), snd x)) (parameter_get h p k).
Proof.
  intro W. unfold parameter_get. rewrite g_changed_clear by auto. destruct (changed_clear h p) as [h1| |]; cbn [rmap rbind]; try reflexivity.
  rewrite g_read. destruct (parameter_read h1 p k); reflexivity.
Qed.

Lemma find_first_ext nm nm' s : forall l, (forall i, In i l -> nm i = nm' i) -> find_first nm l s = find_first nm' l s.
Proof.
  induction l as [|i l IH]; intro H; cbn [find_first]; [reflexivity|]. rewrite (H i (or_introl eq_refl)). destruct (nm' i); [|reflexivity].
  destruct (name_matches s s0) as [[]| |]; cbn [rbind]; auto. apply IH. intros j Hj. apply H. now right.
Qed.
Lemma subs_lt h n x i : wf h -> nth_error (nss h) n = Some x -> In i (nsubs x) -> (i < length (nss h))%nat.
Proof. intros W E I. rewrite (wf_subs _ W _ _ E), <- in_rev in I. apply filter_In in I as [I _]. apply in_seq in I. lia. Qed.
Lemma find_first_in nm l s i : find_first nm l s = OK (Some i) -> In i l.
Proof.
  induction l as [|j l IH]; cbn [find_first]; [discriminate|]. destruct (nm j); [|discriminate].
  destruct (name_matches s s0) as [[]| |]; cbn [rbind]; try discriminate.
  - intro H. injection H as ->. now left.
  - intro H. right. auto.
Qed.

Lemma g_sub h n s : wf h -> (n < length (nss h))%nat -> get_subnamespace (grow t h) n s = get_subnamespace h n s.
Proof.
  intros W Hn. unfold get_subnamespace. rewrite g_nth by auto. destruct s; [reflexivity|]. destruct (nth_error (nss h) n) as [x|] eqn:E; [|reflexivity].
  apply find_first_ext. intros i Hi. rewrite g_nth; [reflexivity|]. eapply subs_lt; eauto.
Qed.
Lemma sub_lt h n s m : wf h -> (n < length (nss h))%nat -> get_subnamespace h n s = OK (Some m) -> (m < length (nss h))%nat.
Proof.
  intros W Hn. unfold get_subnamespace. destruct s; destruct (nth_error (nss h) n) as [x|] eqn:E; try discriminate.
  - intro H. injection H as <-. exact Hn.
  - intro H. apply find_first_in in H. eapply subs_lt; eauto.
Qed.
Lemma g_par h n s : (n < length (nss h))%nat -> get_parameter (grow t h) n s = get_parameter h n s.
Proof. intro Hn. unfold get_parameter. rewrite g_nth by auto. reflexivity. Qed.

Lemma g_ns_find_loop fuel : forall h n id, wf h -> (n < length (nss h))%nat -> namespace_find_loop fuel (grow t h) n id = namespace_find_loop fuel h n id.
Proof.
  induction fuel as [|fuel IH]; intros h n [|c id] W Hn; cbn [namespace_find_loop]; try reflexivity.
  destruct (id_split (c :: id)) as [s rest]. rewrite g_sub by auto. destruct (get_subnamespace h n s) as [[m|]| |] eqn:E; cbn [rbind]; try reflexivity.
  destruct rest; [|reflexivity]. apply IH; auto. eapply sub_lt; eauto.
Qed.
Lemma g_find_loop fuel : forall h n id, wf h -> (n < length (nss h))%nat -> parameter_find_loop fuel (grow t h) n id = parameter_find_loop fuel h n id.
Proof.
  induction fuel as [|fuel IH]; intros h n id W Hn; cbn [parameter_find_loop]; [reflexivity|].
  destruct (id_split id) as [s rest]. destruct rest; [|apply g_par; auto]. rewrite g_sub by auto.
  destruct (get_subnamespace h n s) as [[m|]| |] eqn:E; cbn [rbind]; try reflexivity. apply IH; auto. eapply sub_lt; eauto.
Qed.
Lemma ns_find_lt fuel : forall h n id m, wf h -> (n < length (nss h))%nat -> namespace_find_loop fuel h n id = OK (Some m) -> (m < length (nss h))%nat.
Proof.
  induction fuel as [|fuel IH]; intros h n [|c id] m W Hn; cbn [namespace_find_loop]; try discriminate; try (intro H; injection H as <-; exact Hn).
  destruct (id_split (c :: id)) as [s rest]. destruct (get_subnamespace h n s) as [[q|]| |] eqn:E; cbn [rbind]; try discriminate.
  apply sub_lt in E; auto. destruct rest; [|intro H; injection H as <-; exact E]. apply IH; auto.
Qed.

(** ** Loading in a tree among other objects *)
Definition rrmap (f : heap -> heap) (r : rr) : rr := match r with RDONE x h c => RDONE x (f h) c | r => r end.
Definition kept (h : heap) (r : rr) : Prop := match r with RDONE _ h' _ => same h h' | _ => True end.
Variables (cap : Z) (i2f : Z -> Z).

Lemma g_done h p a c : wf h -> set_done (grow t h) p a c = rrmap (grow t) (set_done h p a c) /\ kept h (set_done h p a c).
Proof.
  intro W. unfold set_done. rewrite g_set by auto. destruct (parameter_set h p a) as [h'| |] eqn:E; cbn; repeat split; auto.
  - apply set_spec in E as (x & v & _ & _ & S & _). apply S.
  - apply set_spec in E as (x & v & _ & _ & S & _). apply S.
Qed.
Lemma g_read_parameter h p o c : wf h -> read_parameter cap i2f (grow t h) p o c = rrmap (grow t) (read_parameter cap i2f h p o c) /\ kept h (read_parameter cap i2f h p o c).
Proof.
  intro W. unfold read_parameter. cbn [grow pars]. change (mkheap (nss h ++ t) (pars h)) with (grow t h).
  pose proof (fun r c0 => conj (eq_refl (RDONE r (grow t h) c0)) (same_refl h)) as Dn.
  destruct (nth_error (pars h) p) as [x|]; [|now split]. destruct (pval x).
  - unfold read_parameter_scalar. destruct (get_float i2f o); [apply g_done, W|apply Dn; assumption].
  - unfold read_parameter_boolean. destruct (cmp_object_as_bool o); [apply g_done, W|apply Dn; assumption].
  - unfold read_parameter_integer. destruct (cmp_object_as_int o); [apply g_done, W|apply Dn; assumption].
  - unfold read_parameter_string. destruct (cmp_object_as_str o); [|apply Dn; assumption].
    destruct (blen buf <=? z); [apply Dn; assumption|]. destruct (cap <? z); [now split|].
    destruct (rd z c); [now split|apply Dn; assumption|apply g_done, W].
  - unfold read_parameter_vector, read_elements. destruct (cmp_object_as_array o); [|apply Dn; assumption].
    destruct (negb (z =? blen buf) && negb (discard o =? 0)); [apply Dn; assumption|]. destruct (cap <? u32 (z * 4)); [now split|].
    destruct (get_vector i2f (Z.to_nat z) false c); [now split|apply Dn; assumption|apply g_done, W].
  - unfold read_parameter_var_vector, read_elements. destruct (cmp_object_as_array o); [|apply Dn; assumption].
    destruct ((blen buf <? z) && negb (discard o =? 0)); [apply Dn; assumption|]. destruct (cap <? u32 (z * 4)); [now split|].
    destruct (get_vector i2f (Z.to_nat z) false c); [now split|apply Dn; assumption|apply g_done, W].
Qed.

Lemma same_len h h' : same h h' -> length (nss h') = length (nss h).
Proof. intros [S _]. apply (f_equal (@length _)) in S. now rewrite !map_length in S. Qed.

Lemma g_read_namespace fuel : forall h n k c, wf h -> (n < length (nss h))%nat ->
  read_namespace cap i2f fuel (grow t h) n k c = rrmap (grow t) (read_namespace cap i2f fuel h n k c) /\
  kept h (read_namespace cap i2f fuel h n k c).
Proof.
  induction fuel as [|fuel IH]; intros h n k c W Hn; cbn [read_namespace].
  - destruct (k <=? 0); cbn; repeat split; auto.
  - destruct (k <=? 0); [cbn; repeat split; auto|].
    destruct (cmp_read_str_size c) as [|c1|id_size c1]; try (cbn; repeat split; auto; fail).
    destruct (cap <? u32 (id_size + 1)); [cbn; repeat split; auto|].
    destruct (rd id_size c1) as [|c2|id c2]; try (cbn; repeat split; auto; fail).
    destruct (cmp_read_object c2) as [|c3|o c3]; try (cbn; repeat split; auto; fail).
    assert (X : forall r1 r2, r1 = rrmap (grow t) r2 /\ kept h r2 ->
      and_then r1 (fun h c => read_namespace cap i2f fuel h n (k - 1) c) =
        rrmap (grow t) (and_then r2 (fun h c => read_namespace cap i2f fuel h n (k - 1) c)) /\
      kept h (and_then r2 (fun h c => read_namespace cap i2f fuel h n (k - 1) c))).
    { intros r1 r2 [-> K]. destruct r2 as [| | |r h' c']; cbn [rrmap and_then]; [now split|now split|now split|].
      destruct (r =? 0); [|now split]. cbn [kept] in K. destruct (IH h' n (k - 1) c') as [A B].
      - eapply same_wf; eauto.
      - now rewrite (same_len _ _ K).
      - split; [exact A|]. destruct (read_namespace cap i2f fuel h' n (k - 1) c'); cbn [kept] in *; auto. eapply same_trans; eauto. }
    apply X. destruct (cmp_object_as_map o) as [inner|].
    + unfold namespace_find. rewrite g_ns_find_loop by auto. destruct (namespace_find_loop (S (length id)) h n id) as [[sub|]| |] eqn:F.
      * apply IH; auto. eapply ns_find_lt; eauto.
      * split; [reflexivity|apply same_refl].
      * now split.
      * now split.
    + unfold parameter_find. rewrite g_find_loop by auto. destruct (parameter_find_loop (S (length id)) h n id) as [[p|]| |] eqn:F.
      * apply g_read_parameter, W.
      * split; [reflexivity|apply same_refl].
      * now split.
      * now split.
Qed.
End Grow.
