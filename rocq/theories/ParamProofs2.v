(** Proofs about the enumeration of parameters, remote access and threads. *)
From Coq Require Import ZArith List Bool Arith Lia.
From Verif Require Import CBase Buf ParamModel ParamSpec ParamProofs.
Import ListNotations.
Local Open Scope Z_scope.

(** ** Enumeration *)
Fixpoint pre (fuel : nat) (h : heap) (n : nat) : list nat :=
  match fuel with
  | O => []
  | S fuel =>
      match nth_error (nss h) n with
      | None => []
      | Some x => nparams x ++ flat_map (pre fuel h) (nsubs x)
      end
  end.

Definition nth_or (l : list nat) (wanted cur : Z) : nat + Z :=
  match nth_error l (Z.to_nat (wanted - cur)) with Some p => inl p | None => inr (cur + Z.of_nat (length l)) end.

Lemma by_params l : forall wanted cur, cur <= wanted -> by_index_params l wanted cur = nth_or l wanted cur.
Proof.
  unfold nth_or. induction l as [|p l IH]; intros w c H; cbn [by_index_params length].
  - destruct (Z.to_nat (w - c)); cbn; f_equal; lia.
  - destruct (Z.eqb_spec c w).
    + subst. now rewrite Z.sub_diag.
    + rewrite IH by lia. replace (Z.to_nat (w - c)) with (S (Z.to_nat (w - (c + 1)))) by lia. cbn [nth_error].
      destruct (nth_error l _); [reflexivity|]. f_equal. lia.
Qed.
Lemma nth_or_app a b w c : c <= w ->
  nth_or (a ++ b) w c = match nth_or a w c with inl p => inl p | inr c => nth_or b w c end.
Proof.
  intro H. unfold nth_or. destruct (nth_error a (Z.to_nat (w - c))) eqn:E.
  - rewrite nth_error_app1; [now rewrite E|]. apply nth_error_Some. congruence.
  - apply nth_error_None in E. rewrite nth_error_app2 by lia. rewrite app_length.
    replace (Z.to_nat (w - (c + Z.of_nat (length a)))) with (Z.to_nat (w - c) - length a)%nat by lia.
    destruct (nth_error b _); [reflexivity|]. f_equal. lia.
Qed.
Lemma nth_or_ge l w c c' : c <= w -> nth_or l w c = inr c' -> c' <= w.
Proof.
  unfold nth_or. destruct (nth_error l (Z.to_nat (w - c))) eqn:E; [discriminate|]. intros H K. inversion K. apply nth_error_None in E. lia.
Qed.

Lemma sub_gt h n x m : wf h -> nth_error (nss h) n = Some x -> In m (nsubs x) ->
  (n < m < length (nss h))%nat /\ exists y, nth_error (nss h) m = Some y /\ nparent y = Some n.
Proof.
  intros W X Hm. rewrite (wf_subs _ W _ _ X) in Hm. apply in_rev, filter_In in Hm as [Hm C]. apply in_seq in Hm.
  unfold is_child in C. destruct (nth_error (nss h) m) as [y|] eqn:Y; [|discriminate]. destruct (nparent y) eqn:P; [|discriminate].
  apply Nat.eqb_eq in C. subst n0. split; [|eauto]. split; [|lia].
  eapply (wf_down _ W). unfold shape. rewrite nth_error_map, Y. cbn. now rewrite P.
Qed.

Lemma by_index_pre h : wf h -> forall fuel n w c, (n < length (nss h))%nat -> (length (nss h) < fuel + n)%nat -> c <= w ->
  by_index fuel h n w c = OK (nth_or (pre fuel h n) w c).
Proof.
  intro W. induction fuel as [|fuel IH]; intros n w c Hn Hf Hc; [lia|]. cbn [by_index pre].
  destruct (lt_nth _ _ _ Hn) as [x X]. rewrite X. rewrite by_params, nth_or_app by auto.
  destruct (nth_or (nparams x) w c) as [p|c1] eqn:E; [reflexivity|]. apply nth_or_ge in E; auto. clear c Hc.
  assert (B : forall m, In m (nsubs x) -> (n < m < length (nss h))%nat) by (intros m Hm; now apply (sub_gt _ _ _ _ W X)).
  revert c1 E. induction (nsubs x) as [|m l IHl]; intros c1 E.
  - cbn. unfold nth_or. destruct (Z.to_nat (w - c1)); cbn; do 2 f_equal; lia.
  - cbn [flat_map]. rewrite nth_or_app by auto. specialize (B m (or_introl eq_refl)) as Bm.
    rewrite IH by lia. cbn [rbind]. destruct (nth_or (pre fuel h m) w c1) eqn:F; [reflexivity|].
    apply IHl; [intros; apply B; now right|]. eapply nth_or_ge; eauto.
Qed.

Lemma within_chain l a r1 : within l a r1 -> forall r2, within l a r2 -> within l r1 r2 \/ within l r2 r1.
Proof.
  induction 1; intros r2 H2; [auto|]. inversion H2; subst.
  - right. econstructor; eauto.
  - rewrite H in H1. inversion H1; subst. auto.
Qed.
Lemma within_trans l a b c : within l a b -> within l b c -> within l a c.
Proof. induction 1; intro; [auto|]. econstructor; eauto. Qed.

Lemma in_pre h : wf h -> forall fuel n p, (n < length (nss h))%nat -> (length (nss h) < fuel + n)%nat ->
  (In p (pre fuel h n) <-> exists x, nth_error (pars h) p = Some x /\ within (shape h) (pns x) n).
Proof.
  intro W. induction fuel as [|fuel IH]; intros n p Hn Hf; [lia|]. cbn [pre].
  destruct (lt_nth _ _ _ Hn) as [x X]. rewrite X. rewrite in_app_iff, in_flat_map.
  rewrite (wf_params _ W _ _ X), <- in_rev, filter_In, in_seq.
  assert (IP : (0 <= p < 0 + length (pars h))%nat /\ is_param h n p = true <-> exists y, nth_error (pars h) p = Some y /\ pns y = n).
  { unfold is_param. split.
    - intros [_ E]. destruct (nth_error (pars h) p) as [y|]; [|discriminate]. apply Nat.eqb_eq in E. eauto.
    - intros (y & Y & E). rewrite Y. split; [|now apply Nat.eqb_eq]. assert (p < length (pars h))%nat; [|lia].
      apply nth_error_Some. congruence. }
  rewrite IP. split.
  - intros [(y & Y & E)|(m & Hm & Hp)].
    + exists y. split; [auto|]. rewrite E. constructor.
    + destruct (sub_gt _ _ _ _ W X Hm) as (B & z & Zm & Pz). apply IH in Hp as (y & Y & Wi); try lia.
      exists y. split; [auto|]. eapply within_trans; [exact Wi|]. econstructor; [|constructor].
      unfold shape. rewrite nth_error_map, Zm. cbn. now rewrite Pz.
  - intros (y & Y & Wi). destruct (Nat.eq_dec (pns y) n) as [|Ne]; [left; eauto|]. right.
    assert (CH : forall a, within (shape h) a n -> a <> n -> (a < length (nss h))%nat ->
              exists m, In m (nsubs x) /\ within (shape h) a m).
    { clear - W X. intros a H. induction H as [a|a b id r E H IHw]; intros Ha La; [easy|].
      destruct (Nat.eq_dec b r) as [->|Nb].
      - exists a. split; [|constructor]. rewrite (wf_subs _ W _ _ X), <- in_rev, filter_In, in_seq. split; [lia|].
        unfold is_child. unfold shape in E. rewrite nth_error_map in E. destruct (nth_error (nss h) a); [|discriminate]. cbn in E.
        inversion E as [[E1 E2]]. rewrite E1. apply Nat.eqb_refl.
      - destruct (IHw X Nb) as (m & Hm & Wm).
        + apply (wf_down _ W) in E. lia.
        + exists m. split; [auto|]. econstructor; eauto. }
    destruct (CH _ Wi Ne (wf_pns _ W _ _ Y)) as (m & Hm & Wm). exists m. split; [auto|].
    destruct (sub_gt _ _ _ _ W X Hm) as (B & _). apply IH; [lia|lia|eauto].
Qed.

Lemma NoDup_app A (a b : list A) : NoDup a -> NoDup b -> (forall x, In x a -> ~ In x b) -> NoDup (a ++ b).
Proof.
  induction 1; intros Hb D; cbn; [auto|]. constructor.
  - rewrite in_app_iff. intros [|]; [auto|]. eapply D; eauto. now left.
  - apply IHNoDup; auto. intros; apply D. now right.
Qed.
Lemma NoDup_flat_map A B (f : A -> list B) l : NoDup l -> (forall x, In x l -> NoDup (f x)) ->
  (forall x y z, In x l -> In y l -> In z (f x) -> In z (f y) -> x = y) -> NoDup (flat_map f l).
Proof.
  induction 1; intros N D; cbn; [constructor|]. apply NoDup_app.
  - apply N. now left.
  - apply IHNoDup; intros; [apply N; now right|]. eapply D; eauto; now right.
  - intros z Hz Hf. apply in_flat_map in Hf as (y & Hy & Hz'). assert (x = y) by (eapply D; eauto; [now left|now right]). now subst.
Qed.

Lemma nodup_pre h : wf h -> forall fuel n, (n < length (nss h))%nat -> (length (nss h) < fuel + n)%nat -> NoDup (pre fuel h n).
Proof.
  intro W. induction fuel as [|fuel IH]; intros n Hn Hf; [lia|]. cbn [pre].
  destruct (lt_nth _ _ _ Hn) as [x X]. rewrite X. apply NoDup_app.
  - rewrite (wf_params _ W _ _ X). apply NoDup_rev, NoDup_filter, seq_NoDup.
  - apply NoDup_flat_map.
    + rewrite (wf_subs _ W _ _ X). apply NoDup_rev, NoDup_filter, seq_NoDup.
    + intros m Hm. destruct (sub_gt _ _ _ _ W X Hm) as (B & _). apply IH; lia.
    + intros m1 m2 p H1 H2 P1 P2.
      destruct (sub_gt _ _ _ _ W X H1) as (B1 & y1 & Y1 & Z1). destruct (sub_gt _ _ _ _ W X H2) as (B2 & y2 & Y2 & Z2).
      apply in_pre in P1 as (u & U & W1); auto; try lia. apply in_pre in P2 as (v & V & W2); auto; try lia.
      rewrite U in V. inversion V; subst v.
      assert (K : forall a b z1, within (shape h) a b -> nth_error (nss h) a = Some z1 -> nparent z1 = Some n -> (n < b)%nat -> a = b).
      { intros a b z1 Wi A P L. inversion Wi; subst; [auto|]. unfold shape in H. rewrite nth_error_map, A in H. cbn in H.
        inversion H. rewrite P in H4. inversion H4; subst. apply within_le in H0; [lia|apply W]. }
      destruct (within_chain _ _ _ W1 _ W2) as [C|C].
      * eapply K; eauto. lia.
      * symmetry. eapply K; eauto. lia.
  - intros p Hp Hf'. apply in_flat_map in Hf' as (m & Hm & Hp'). destruct (sub_gt _ _ _ _ W X Hm) as (B & _).
    apply in_pre in Hp' as (y & Y & Wi); auto; try lia. apply within_le in Wi; [|apply W].
    rewrite (wf_params _ W _ _ X) in Hp. apply in_rev, filter_In in Hp as [_ Hp]. unfold is_param in Hp. rewrite Y in Hp.
    apply Nat.eqb_eq in Hp. lia.
Qed.

Lemma param_within_heap hist h p r : Inv hist h ->
  ((exists x, nth_error (pars h) p = Some x /\ within (shape h) (pns x) r) <-> param_within hist p r).
Proof.
  intro I. rewrite (i_ns _ _ I). pose proof (par_decl_nth _ _ I p) as E. split.
  - intros (x & X & Wi). rewrite X in E. cbn in E. destruct (nth_error (par_decls hist) p) as [[[a b] d]|] eqn:F; [|discriminate].
    cbn in E. inversion E; subst. unfold param_within. eauto.
  - intros (m & id & d & F & Wi). rewrite F in E. cbn in E. destruct (nth_error (pars h) p) as [x|]; [|discriminate].
    cbn in E. inversion E; subst. eauto.
Qed.

Theorem enumeration hist h root : run hist = OK h -> (root < length (ns_decls hist))%nat ->
  exists l, NoDup l /\ (forall p, In p l <-> param_within hist p root) /\
    forall k, 0 <= k -> find_by_index h root k = OK (nth_error l (Z.to_nat k)).
Proof.
  intros R Hr. apply inv_run in R as I. rewrite <- (ns_length _ _ I) in Hr. pose proof (i_wf _ _ I) as W.
  exists (pre (S (length (nss h))) h root). split; [apply nodup_pre; auto; lia|]. split.
  - intro p. rewrite in_pre by (auto; lia). now apply param_within_heap.
  - intros k Hk. unfold find_by_index. rewrite by_index_pre by (auto; lia). cbn [rbind]. unfold nth_or. rewrite Z.sub_0_r.
    now destruct (nth_error _ (Z.to_nat k)).
Qed.

(** ** Full names *)
Definition name_of (P : list (option nat * str)) (n : nat) : str := match nth_error P n with Some x => snd x | None => [] end.

Lemma leads_snoc l a c b : leads l a c b -> forall s d, s <> [] -> latest (fun i => nth_error l i = Some (Some b, s)) d ->
  leads l a (c ++ [s]) d.
Proof.
  induction 1; intros t d Ht L; cbn.
  - eapply leads_down; eauto. constructor.
  - constructor. auto.
  - eapply leads_down; eauto.
Qed.

Lemma chain_names P : down P ->
  (forall i m id, nth_error P i = Some (Some m, id) -> id <> []) ->
  (forall i j m id, nth_error P i = Some (Some m, id) -> nth_error P j = Some (Some m, id) -> i = j) ->
  forall n r, within P n r -> forall rid, nth_error P r = Some (None, rid) ->
  exists l, chainP (S n) P n = l ++ [r] /\ leads P r (map (name_of P) (rev l)) n /\
    Forall (fun i => exists m id, nth_error P i = Some (Some m, id)) l.
Proof.
  intros D NE U n r W. induction W as [n|n m id r E W IH]; intros rid Er.
  - exists []. cbn [chainP]. rewrite Er. split; [reflexivity|split; constructor].
  - destruct (IH _ Er) as (l & C & L & PL). exists (n :: l). cbn [chainP]. rewrite E. cbn [fst].
    pose proof (D _ _ _ E). split.
    + rewrite <- app_comm_cons. f_equal. rewrite <- C. apply chainP_fuel; auto; lia.
    + split; [|constructor; eauto]. cbn [rev]. rewrite map_app. cbn [map]. unfold name_of at 2. rewrite E. cbn [snd].
      eapply leads_snoc; eauto. split; [auto|]. intros j Ej. rewrite (U _ _ _ _ E Ej). lia.
Qed.

Lemma up_nth h : down (shape h) -> forall k n m, nth_error (chainP (S n) (shape h) n) k = Some m -> up h n k = OK m.
Proof.
  intros D. induction k as [|k IH]; intros n m H; cbn [chainP] in H.
  - unfold shape in H. rewrite nth_error_map in H. destruct (nth_error (nss h) n) eqn:E; cbn in H; [|discriminate]. inversion H. reflexivity.
  - destruct (nth_error (shape h) n) as [[[q|] id]|] eqn:E; cbn [fst nth_error] in H; try (now destruct k); try discriminate.
    cbn [up]. pose proof (D _ _ _ E) as L. unfold shape in E. rewrite nth_error_map in E.
    destruct (nth_error (nss h) n) as [x|]; [|discriminate]. cbn in E. inversion E as [[H1 H2]]. rewrite H1. apply IH.
    rewrite <- H. f_equal. apply chainP_fuel; auto; lia.
Qed.

Lemma firstn_S A (l : list A) k x : nth_error l k = Some x -> firstn (S k) l = firstn k l ++ [x].
Proof. revert k. induction l; intros [|k] H; cbn in *; try discriminate; [now inversion H|]. f_equal. now apply IHl. Qed.

Lemma name_loop h n : down (shape h) -> forall k acc, (S k <= length (chainP (S n) (shape h) n))%nat ->
  full_name_loop h n (S k) acc = OK (acc ++ concat (map (fun m => name_of (shape h) m ++ [slash]) (rev (firstn k (chainP (S n) (shape h) n))))).
Proof.
  intro D. induction k as [|k IH]; intros acc L; [cbn; now rewrite app_nil_r|].
  assert (E : full_name_loop h n (S (S k)) acc = rbind (up h n k) (fun m => match nth_error (nss h) m with
            | None => BAD | Some x => full_name_loop h n (S k) (acc ++ nid x ++ [slash]) end)) by reflexivity.
  rewrite E. clear E.
  destruct (nth_error (chainP (S n) (shape h) n) k) as [m|] eqn:Ek; [|apply nth_error_None in Ek; lia].
  rewrite (up_nth _ D _ _ _ Ek). cbn [rbind].
  assert (Lm : exists x, nth_error (nss h) m = Some x).
  { assert (G : forall f a b, In b (chainP f (shape h) a) -> exists x, nth_error (nss h) b = Some x).
    { induction f; intros a b Hb; cbn [chainP] in Hb; [easy|].
      destruct (nth_error (shape h) a) as [[[q|] id]|] eqn:E; cbn [fst In] in Hb; try easy.
      - destruct Hb as [<-|Hb]; [|eauto]. unfold shape in E. rewrite nth_error_map in E. destruct (nth_error (nss h) a); [eauto|discriminate].
      - destruct Hb as [<-|[]]. unfold shape in E. rewrite nth_error_map in E. destruct (nth_error (nss h) a); [eauto|discriminate]. }
    eapply G. eapply nth_error_In. exact Ek. }
  destruct Lm as [x X]. rewrite X. rewrite IH by lia. rewrite (firstn_S _ _ _ _ Ek), rev_app_distr. cbn [rev app map concat].
  unfold name_of at 2. unfold shape at 3. rewrite nth_error_map, X. cbn. now rewrite <- !app_assoc.
Qed.

Lemma path_concat l last : concat (map (fun s => s ++ [slash]) l) ++ last = path_of (l ++ [last]).
Proof.
  induction l as [|s l IH]; [reflexivity|]. cbn [map concat]. rewrite <- app_comm_cons, path_cons by apply snoc_ne.
  rewrite <- IH, <- !app_assoc. reflexivity.
Qed.

Lemma firstn_pred A (l : list A) a : firstn (length l) (l ++ [a]) = l.
Proof. rewrite firstn_app, Nat.sub_diag, firstn_all. cbn. now rewrite app_nil_r. Qed.

Lemma path_nz c : Forall (fun s => ~ In 0 s /\ ~ In slash s) c -> ~ In 0 (path_of c).
Proof.
  induction 1 as [|s c [A _] Z0 IH]; [easy|]. destruct c.
  - exact A.
  - rewrite path_cons by discriminate. intro H. apply in_app_iff in H as [H|[H|H]]; [auto|discriminate|auto].
Qed.

Theorem full_name_found hist h root rid p : run hist = OK h -> ids_ok hist -> ids_distinct hist ->
  nth_error (ns_decls hist) root = Some (None, rid) -> param_within hist p root ->
  exists name, full_name h p = OK name /\ parameter_find h root name = OK (Some p).
Proof.
  intros R IO (N1 & N2 & N3 & N4) Er PW. apply inv_run in R as I. pose proof (i_wf _ _ I) as W.
  apply (param_within_heap _ _ _ _ I) in PW as PW'. destruct PW' as (x & X & Wi).
  destruct PW as (m & id & d & F & _).
  pose proof (par_decl_nth _ _ I p) as E. rewrite F, X in E. cbn in E. inversion E; subst m id; clear E.
  pose proof (i_ns _ _ I) as NS. rewrite <- NS in Er.
  destruct (chain_names (shape h) (wf_down _ W)) with (n := pns x) (r := root) (rid := rid) as (l & C & L & PL); auto.
  { intros i m id H. rewrite NS in H. now apply N1 in H. }
  { rewrite NS. exact N3. }
  set (nm := path_of (([] :: map (name_of (shape h)) (rev l)) ++ [pid x])).
  exists nm. assert (FN : full_name h p = OK nm).
  { unfold full_name, tree_height. rewrite X. cbn [rbind]. rewrite chain_shape, Nat2Z.id, C, app_length. cbn [length].
    replace (length l + 1)%nat with (S (length l)) by lia. rewrite name_loop; [|apply W|rewrite C, app_length; cbn; lia].
    cbn [rbind]. f_equal. rewrite C, firstn_pred. unfold nm.
    change (([] :: map (name_of (shape h)) (rev l)) ++ [pid x]) with ([] :: (map (name_of (shape h)) (rev l) ++ [pid x])).
    rewrite path_cons by apply snoc_ne. rewrite <- path_concat, map_map, <- app_assoc. reflexivity. }
  split; [exact FN|].
  assert (LD : names hist root ([] :: map (name_of (shape h)) (rev l)) (pid x) p).
  { split; [now apply N2 in F|]. exists (pns x). rewrite <- NS. split; [now constructor|]. split; [eauto|].
    intros j [d' Ej]. rewrite (N4 _ _ _ _ _ _ F Ej). lia. }
  assert (Z0 : Forall (fun s => ~ In 0 s /\ ~ In slash s) (map (name_of (shape h)) (rev l) ++ [pid x])).
  { apply Forall_app. split.
    - apply Forall_map, Forall_forall. intros n Hn. apply in_rev in Hn.
      rewrite Forall_forall in PL. destruct (PL _ Hn) as (m & id & E). unfold name_of. rewrite E. cbn [snd].
      rewrite NS in E. split; [|now apply N1 in E]. destruct IO as [A _]. rewrite Forall_forall in A. apply nth_error_In in E. now apply A in E.
    - constructor; [|constructor]. split; [|now apply N2 in F]. destruct IO as [_ A]. rewrite Forall_forall in A.
      apply nth_error_In in F. now apply A in F. }
  assert (FF := find_exact hist h root nm ([] :: map (name_of (shape h)) (rev l)) (pid x) R IO).
  assert (Hr : (root < length (ns_decls hist))%nat) by (rewrite <- NS; apply nth_error_Some; congruence).
  assert (CP : components nm (([] :: map (name_of (shape h)) (rev l)) ++ [pid x])).
  { split; [reflexivity|]. constructor; [easy|]. rewrite Forall_forall in Z0 |- *. intros s Hs. now apply Z0 in Hs. }
  assert (NZ : ~ In 0 nm).
  { unfold nm. rewrite <- app_comm_cons, path_cons by apply snoc_ne. intros [H|H]; [discriminate|].
    exact (path_nz _ Z0 H). }
  specialize (FF Hr NZ CP). destruct (parameter_find h root nm) as [[q|]| |]; try easy.
  - now rewrite (names_unique _ _ _ _ _ _ FF LD).
  - now apply FF in LD.
Qed.

(** ** Remote access *)
Lemma find_valid hist h root name p : run hist = OK h -> ids_ok hist -> (root < length (ns_decls hist))%nat -> ~ In 0 name ->
  parameter_find h root name = OK (Some p) -> exists x, nth_error (pars h) p = Some x.
Proof.
  intros R IO Hr Z0 F. destruct (components_exist name) as (c & l & C & _).
  pose proof (find_exact hist h root name c l R IO Hr Z0 C) as E. rewrite F in E.
  destruct E as [_ (m & _ & [d E] & _)]. apply inv_run in R as I. apply lt_nth. rewrite (inv_length _ _ I).
  apply nth_error_Some. congruence.
Qed.

Definition kinded (v : value) (d : decl) : Prop :=
  match v, d with
  | VScalar _, DScalar _ | VInt _, DInt _ | VBool _, DBool _ => True
  | VVec b, DVec b' _ => length b = length b'
  | VVar b k, DVar b' _ => length b = length b' /\ (k <= length b)%nat
  | VStr b k, DStr b' _ => length b = length b' /\ (k <= length b)%nat
  | _, _ => False
  end.
Lemma kinded_decl d v b : decl_value d = OK (v, b) -> kinded v d.
Proof.
  destruct d as [[]|[]|[]|?|? []|? []]; cbn [decl_value]; intro H; try (inversion H; subst; cbn; auto; lia).
  - destruct (Nat.leb_spec n (length buf)); inversion H; subst. cbn. auto.
  - destruct (Nat.leb_spec (length s) (length buf)); inversion H; subst. cbn. rewrite app_length, repeat_length. lia.
Qed.
Lemma kinded_store v a v' d : store v a = OK v' -> kinded v d -> kinded v' d.
Proof.
  destruct v, a; cbn [store]; intro S; try discriminate; try (inversion S; subst; now destruct d).
  - destruct (Nat.leb_spec len0 (length buf)); cbn in S; [|discriminate].
    destruct (Nat.leb_spec len0 (length s)); [|discriminate]. inversion S; subst. destruct d; cbn; try easy.
    rewrite app_length, firstn_length, skipn_length. lia.
  - destruct (Nat.leb_spec (length buf) (length l)); [|discriminate]. inversion S; subst. destruct d; cbn; try easy.
    rewrite firstn_length. lia.
  - destruct (Nat.leb_spec dim0 (length buf)); cbn in S; [|discriminate].
    destruct (Nat.leb_spec dim0 (length l)); [|discriminate]. inversion S; subst. destruct d; cbn; try easy.
    rewrite app_length, firstn_length, skipn_length. lia.
Qed.

Definition kinds_ok (hist : list op) (h : heap) : Prop :=
  forall p x, nth_error (pars h) p = Some x -> exists m id d, nth_error (par_decls hist) p = Some (m, id, d) /\ kinded (pval x) d.
Lemma kinds_run hist : forall h, run hist = OK h -> kinds_ok hist h.
Proof.
  induction hist as [|o hist IH] using rev_ind; intros h R.
  - inversion R; subst. intros [|p] x H; discriminate.
  - rewrite run_snoc in R. destruct (run hist) as [h0| |] eqn:R0; cbn [rbind] in R; try discriminate.
    specialize (IH _ eq_refl). pose proof (inv_length _ _ (inv_run _ _ R0)) as LEN.
    destruct o; cbn [run_op] in R; intros q y Y; rewrite par_decls_snoc.
    + rewrite app_nil_r. apply IH. revert R. unfold namespace_declare.
      destruct parent; [destruct (_ <? _)%nat|]; intro R; inversion R; subst; exact Y.
    + unfold parameter_declare in R. destruct (decl_value d) as [[v b]| |] eqn:DV; cbn [rbind] in R; try discriminate.
      unfold declare in R. destruct (m <? length (nss h0))%nat; cbn [rbind] in R; [|discriminate].
      assert (K : forall x', nth_error (pars h0 ++ [mkpar id m false false v]) q = Some x' -> pval x' = pval y ->
                  exists m0 id0 d0, nth_error (par_decls hist ++ [(m, id, d)]) q = Some (m0, id0, d0) /\ kinded (pval y) d0).
      { intros x' X' E. rewrite nth_snoc in X' |- *. rewrite LEN in X'. destruct (q =? length (par_decls hist))%nat.
        - destruct (q <? length (par_decls hist))%nat; [rewrite <- E; now apply IH|].
          inversion X'; subst. rewrite <- E. exists m, id, d. split; [reflexivity|]. cbn [pval]. eapply kinded_decl; eauto.
        - destruct (q <? length (par_decls hist))%nat; [rewrite <- E; now apply IH|discriminate]. }
      destruct b.
      * apply changed_set_spec in R as (x & F & _ & _ & N & _). cbn [pars] in *. rewrite N in Y.
        destruct (Nat.eqb_spec (length (pars h0 ++ [mkpar id m false false v]) - 1) q) as [<-|].
        -- inversion Y; subst y. apply (K _ F). reflexivity.
        -- apply (K _ Y). reflexivity.
      * inversion R; subst. cbn [pars] in Y. apply (K _ Y). reflexivity.
    + rewrite app_nil_r. apply set_spec in R as (x & v & F & G & _ & _ & N & _). rewrite N in Y.
      destruct (Nat.eqb_spec p q) as [<-|]; [|now apply IH]. inversion Y; subst y. cbn [pval].
      destruct (IH _ _ F) as (m & id & d & D & K). exists m, id, d. split; [exact D|]. eapply kinded_store; eauto.
    + rewrite app_nil_r. unfold parameter_get in R. destruct (changed_clear h0 p) as [h1| |] eqn:CC; cbn [rbind] in R; try discriminate.
      destruct (parameter_read h1 p k); cbn [rbind] in R; try discriminate. inversion R; subst.
      apply changed_clear_spec in CC as (x & F & _ & _ & N & _). rewrite N in Y.
      destruct (Nat.eqb_spec p q) as [<-|]; [|now apply IH]. inversion Y; subst y. cbn [pval]. exact (IH _ _ F).
    + rewrite app_nil_r. destruct (parameter_read h0 p k); cbn [rbind] in R; try discriminate. inversion R; subst. now apply IH.
Qed.


Theorem remote_write hist h root name comps last v : run hist = OK h -> ids_ok hist -> (root < length (ns_decls hist))%nat ->
  ~ In 0 name -> components name (comps ++ [last]) -> ~ extreme v ->
  ((forall p, ~ names hist root comps last p) -> assign_value h root name v = OK h) /\
  (forall p m id d, names hist root comps last p -> nth_error (par_decls hist) p = Some (m, id, d) ->
     assign_value h root name v = match remote_arg d v with Some a => run_op h (OSet p a) | None => OK h end).
Proof.
  intros R IO Hr Z0 C X. pose proof (find_exact hist h root name comps last R IO Hr Z0 C) as F. unfold assign_value.
  destruct (parameter_find h root name) as [[q|]| |] eqn:PF; cbn [rbind]; try easy.
  - split; [intro N; now apply N in F|]. intros p m id d N D. rewrite (names_unique _ _ _ _ _ _ N F) in *.
    destruct (find_valid _ _ _ _ _ R IO Hr Z0 PF) as [x Hx]. rewrite Hx.
    destruct (kinds_run _ _ R _ _ Hx) as (m' & id' & d' & D' & K). rewrite D in D'. inversion D'; subst m' id' d'.
    destruct (pval x), d; cbn in K; try easy; destruct v; cbn [remote_arg]; try reflexivity.
    destruct (- 2 ^ 31 <? i0) eqn:A, (i0 <? 2 ^ 31 - 1) eqn:B, (- 2 ^ 31 <=? i0) eqn:A', (i0 <=? 2 ^ 31 - 1) eqn:B'; cbn [andb]; try reflexivity; exfalso; try lia.
    + apply X. right. f_equal. lia.
    + apply X. left. f_equal. lia.
  - split; [reflexivity|]. intros p m id d N. now apply F in N.
Qed.

Theorem remote_read_back hist h root name comps last v p m id d a h' :
  run hist = OK h -> ids_ok hist -> (root < length (ns_decls hist))%nat ->
  ~ In 0 name -> components name (comps ++ [last]) -> ~ extreme v ->
  names hist root comps last p -> nth_error (par_decls hist) p = Some (m, id, d) -> remote_arg d v = Some a ->
  assign_value h root name v = OK h' ->
  read_value h' root name = OK (match v with RString s => RString (c_str (firstn 3 s)) | _ => v end) /\
  forall q k, q <> p -> parameter_read h' q k = parameter_read h q k.
Proof.
  intros R IO Hr Z0 C X N D RA S. destruct (remote_write hist h root name comps last v) as [_ RW]; auto.
  rewrite (RW _ _ _ _ N D), RA in S. clear RW.
  assert (R' : run (hist ++ [OSet p a]) = OK h') by (rewrite run_snoc, R; exact S).
  assert (ND : ns_decls (hist ++ [OSet p a]) = ns_decls hist) by (rewrite ns_decls_snoc; apply app_nil_r).
  assert (PD : par_decls (hist ++ [OSet p a]) = par_decls hist) by (rewrite par_decls_snoc; apply app_nil_r).
  assert (IO' : ids_ok (hist ++ [OSet p a])) by (unfold ids_ok; rewrite ND, PD; exact IO).
  assert (N' : names (hist ++ [OSet p a]) root comps last p) by (unfold names; rewrite ND, PD; exact N).
  assert (Hr' : (root < length (ns_decls (hist ++ [OSet p a])))%nat) by (rewrite ND; exact Hr).
  cbn [run_op] in S. apply set_spec in S as (x & w & F & G & _ & _ & U & _). split.
  - pose proof (find_exact _ h' root name comps last R' IO' Hr' Z0 C) as FE. unfold read_value.
    destruct (parameter_find h' root name) as [[q|]| |]; try easy; [|now apply FE in N'].
    rewrite (names_unique _ _ _ _ _ _ FE N'). clear q FE. cbn [rbind].
    assert (LA : last_assignment (hist ++ [OSet p a]) p (OSet p a)) by (apply last_snoc; left; split; [reflexivity|constructor]).
    pose proof (fun k => read_last _ _ _ _ k R' LA) as RL.
    rewrite U, Nat.eqb_refl. apply inv_run in R' as I'.
    destruct (i_val _ _ I' p (mkpar (pid x) (pns x) true (pdefined x || negb (pchanged x)) w) (OSet p a)) as [PDF _]; auto.
    { rewrite U, Nat.eqb_refl. reflexivity. }
    rewrite PDF. cbn [negb pval].
    destruct d, v; cbn [remote_arg] in RA; try discriminate;
      try (destruct (_ && _) in RA; [|discriminate]); inversion RA; subst a; destruct (pval x); cbn [store] in G; try discriminate.
    + inversion G. subst w. rewrite (RL KScalar) by discriminate. reflexivity.
    + inversion G. subst w. rewrite (RL KInt) by discriminate. reflexivity.
    + inversion G. subst w. rewrite (RL KBool) by discriminate. reflexivity.
    + destruct (negb _); [discriminate|]. destruct (_ <=? _)%nat; [|discriminate]. inversion G. subst w.
      rewrite (RL (KStr 4)) by discriminate. cbn [expected rbind]. unfold text_out.
      assert (CZ : forall l : list Z, c_str (l ++ [0]) = c_str l).
      { induction l as [|c l IHl]; [reflexivity|]. cbn. destruct (c =? 0); [reflexivity|now f_equal]. }
      destruct (Nat.ltb_spec (length s) 4); rewrite CZ; [|reflexivity]. do 3 f_equal. rewrite !firstn_all2; auto; lia.
  - intros q k Q. unfold parameter_read. rewrite U. destruct (Nat.eqb_spec p q); [congruence|reflexivity].
Qed.

(** A write that cannot fail: every type but strings. *)
Theorem remote_write_succeeds hist h p m id d v a : run hist = OK h -> nth_error (par_decls hist) p = Some (m, id, d) ->
  remote_arg d v = Some a -> (forall buf o s, d = DStr buf o -> v = RString s -> (length s <= length buf)%nat) ->
  exists h', run_op h (OSet p a) = OK h'.
Proof.
  intros R D RA LS. apply inv_run in R as I. assert (Hp : (p < length (pars h))%nat).
  { rewrite (inv_length _ _ I). apply nth_error_Some. congruence. }
  destruct (lt_nth _ _ _ Hp) as [x Hx]. destruct (kinds_run _ _ R _ _ Hx) as (m' & id' & d' & D' & K).
  rewrite D in D'. inversion D'; subst m' id' d'. cbn [run_op]. unfold parameter_set, store_at. rewrite Hx.
  assert (G : exists w, store (pval x) a = OK w).
  { destruct (pval x), d; cbn in K; try easy; destruct v; cbn [remote_arg] in RA; try discriminate;
      try (destruct (_ && _) in RA; [|discriminate]); inversion RA; subst a; cbn [store]; eauto.
    specialize (LS _ _ _ eq_refl eq_refl). replace (length s <=? length buf)%nat with true by (symmetry; apply Nat.leb_le; lia).
    cbn [negb]. rewrite Nat.leb_refl. eauto. }
  destruct G as [w G]. rewrite G. cbn [rbind]. unfold changed_set, set_value. cbn [upd_par pars]. rewrite upd_nth, Nat.eqb_refl, Hx.
  cbn. destruct (pchanged x); eauto.
Qed.

(** ** Threads *)
Definition weight (r : nat) (a : act) : Z :=
  match a with TInc n => - one n r | TDec n => one n r | _ => 0 end.
Definition tweight (r : nat) (l : list act) : Z := sum (map (weight r) l).
Definition pending (r : nat) (ths : list (list act)) : Z := sum (map (tweight r) ths).

Lemma tweight_app r a b : tweight r (a ++ b) = tweight r a + tweight r b.
Proof. unfold tweight. now rewrite map_app, sum_app. Qed.
Lemma tweight_incs r l : tweight r (map TInc l) = - occ l r.
Proof.
  induction l; [reflexivity|]. rewrite occ_cons. unfold tweight in *. cbn [map sum fold_right weight] in *. unfold sum in IHl. lia.
Qed.
Lemma tweight_decs r l : tweight r (map TDec l) = occ l r.
Proof.
  induction l; [reflexivity|]. rewrite occ_cons. unfold tweight in *. cbn [map sum fold_right weight] in *. unfold sum in IHl. lia.
Qed.

Lemma act_counted h a h' more : act_step h a = OK (h', more) -> same h h' /\
  forall E, counted h (fun r => E r + weight r a) -> counted h' (fun r => E r + tweight r more).
Proof.
  destruct a; cbn [act_step]; intro R.
  - destruct (store_at h p a) as [h1| |] eqn:S; cbn in R; try discriminate. inversion R; subst.
    apply store_at_spec in S as (x & v & _ & _ & S & _ & _ & C). split; [auto|]. intros E CE. apply C in CE. exact CE.
  - destruct (nth_error (pars h) p) as [x|] eqn:F; [|discriminate]. inversion R; subst. split; [apply same_par; auto|].
    intros E C. eapply counted_ext; [|apply (counted_par _ _ _ _ _ F C)]. intro r. cbn beta. cbn [weight].
    rewrite !contrib_occ. cbn [pchanged pns]. destruct (pchanged x).
    + cbn. lia.
    + rewrite tweight_app, tweight_incs, chain_shape. change (shape (set_changed h p true)) with (shape h). change (tweight r [TDefined p]) with 0. lia.
  - inversion R; subst. split; [apply same_inc|]. intros E C. eapply counted_ext; [|apply counted_inc, C]. intro. cbn. lia.
  - inversion R; subst. split; [apply same_par; auto|]. intros E C. unfold set_defined.
    destruct (nth_error (pars h) p) as [x|] eqn:F.
    + eapply counted_ext; [|apply (counted_par _ _ _ _ _ F C)]. intro r. cbn beta. rewrite !contrib_occ. cbn [pchanged pns weight]. change (tweight r []) with 0. lia.
    + unfold upd_par. assert (U : forall A (l : list A) f i, nth_error l i = None -> upd l i f = l).
      { induction l as [|y l IHl]; intros f [|i] H; cbn in *; try easy. f_equal. auto. }
      rewrite U by auto. destruct h. exact C.
  - destruct (nth_error (pars h) p) as [x|] eqn:F; [|discriminate]. inversion R; subst. split; [apply same_par; auto|].
    intros E C. eapply counted_ext; [|apply (counted_par _ _ _ _ _ F C)]. intro r. cbn beta. cbn [weight].
    rewrite !contrib_occ. cbn [pchanged pns]. destruct (pchanged x).
    + rewrite tweight_decs, chain_shape. change (shape (set_changed h p false)) with (shape h). lia.
    + cbn. lia.
  - inversion R; subst. split; [apply same_dec|]. intros E C. eapply counted_ext; [|apply counted_dec, C]. intro. cbn. lia.
  - destruct (parameter_read h p k); cbn in R; try discriminate. inversion R; subst. split; [apply same_refl|]. intros E C. exact C.
Qed.

Lemma pending_upd r : forall ths t l l', nth_error ths t = Some l ->
  pending r (upd ths t (fun _ => l')) = pending r ths - tweight r l + tweight r l'.
Proof.
  induction ths as [|a ths IH]; intros [|t] l l' H; cbn [nth_error] in H; try discriminate; unfold pending in *; cbn [upd map sum fold_right].
  - inversion H; subst. lia.
  - specialize (IH _ _ l' H). unfold sum in IH. lia.
Qed.

Lemma sys_inv s s' t : sys_step s t = OK s' -> same (fst s) (fst s') /\
  (counted (fst s) (fun r => pending r (snd s)) -> counted (fst s') (fun r => pending r (snd s'))).
Proof.
  destruct s as [h ths]. cbn [sys_step fst snd]. destruct (nth_error ths t) as [[|a rest]|] eqn:T.
  - intro R; inversion R; subst. split; [apply same_refl|auto].
  - destruct (act_step h a) as [[h1 more]| |] eqn:S; cbn [rbind]; try discriminate. intro R; inversion R; subst. cbn [fst snd].
    destruct (act_counted _ _ _ _ S) as [SM AC]. split; [exact SM|]. intro C.
    eapply counted_ext; [|apply (AC (fun r => pending r ths - weight r a))].
    + intro r. cbn beta. rewrite (pending_upd r _ _ _ _ T), tweight_app. change (tweight r (a :: rest)) with (weight r a + tweight r rest). lia.
    + eapply counted_ext; [|exact C]. intro. cbn beta. lia.
  - intro R; inversion R; subst. split; [apply same_refl|auto].
Qed.

Lemma sys_run_inv sched : forall s s', sys_run s sched = OK s' -> same (fst s) (fst s') /\
  (counted (fst s) (fun r => pending r (snd s)) -> counted (fst s') (fun r => pending r (snd s'))).
Proof.
  induction sched as [|t sched IH] using rev_ind; intros s s' R.
  - inversion R; subst. split; [apply same_refl|auto].
  - unfold sys_run in R. rewrite fold_left_app in R. cbn [fold_left] in R. fold (sys_run s sched) in R.
    destruct (sys_run s sched) as [s1| |] eqn:Q; cbn [rbind] in R; try discriminate.
    destruct (IH _ _ Q) as [A B]. apply sys_inv in R as [C D]. split; [eapply same_trans; eauto|auto].
Qed.

Lemma calls_weight r l : calls_only l -> tweight r l = 0.
Proof.
  induction 1 as [|a l H F IH]; [reflexivity|]. unfold tweight in *. cbn [map sum fold_right]. unfold sum in IH. rewrite IH.
  destruct a; cbn; try easy.
Qed.

Theorem threads_exact hist h0 ths sched h' ths' r x : run hist = OK h0 -> Forall calls_only ths ->
  sys_run (h0, ths) sched = OK (h', ths') -> Forall (fun l => l = []) ths' ->
  nth_error (nss h') r = Some x -> Z.of_nat (length (par_decls hist)) < 2 ^ 31 ->
  exists l, flagged h' r l /\ ncnt x = Z.of_nat (length l) /\ (namespace_contains_changed h' r = OK true <-> l <> []).
Proof.
  intros R CA S Q X B. apply inv_run in R as I. apply sys_run_inv in S as [SM C]. cbn [fst snd] in *.
  apply counted_exact; auto.
  - eapply same_wf; eauto. apply I.
  - eapply counted_ext; [|apply C].
    + intro r0. unfold pending. clear - Q. induction Q as [|l ls E F IH]; [reflexivity|]. subst l. cbn [map sum fold_right]. unfold sum in IH. rewrite IH. reflexivity.
    + eapply counted_ext; [|apply (i_cnt _ _ I)]. intro r0. cbn beta. unfold pending. clear - CA.
      induction CA as [|l ls E F IH]; [reflexivity|]. cbn [map sum fold_right]. unfold sum in IH. rewrite <- IH, calls_weight by auto. reflexivity.
  - destruct SM as [_ SM]. apply (f_equal (@length _)) in SM. rewrite !map_length in SM. rewrite SM, (inv_length _ _ I). exact B.
Qed.

Lemma solo_cons h f a l : solo h (S f) (a :: l) = try (h, more) := act_step h a in solo h f (more ++ l).
Proof. reflexivity. Qed.
Lemma solo_incs l : forall h fuel rest, (length l <= fuel)%nat -> solo h fuel (map TInc l ++ rest) = solo (fold_left inc l h) (fuel - length l) rest.
Proof.
  induction l as [|n l IH]; intros h fuel rest L; cbn [map app length fold_left] in *; [now rewrite Nat.sub_0_r|].
  destruct fuel; [lia|]. cbn [solo act_step rbind app]. rewrite IH by lia. reflexivity.
Qed.
Lemma solo_decs l : forall h fuel rest, (length l <= fuel)%nat -> solo h fuel (map TDec l ++ rest) = solo (fold_left dec l h) (fuel - length l) rest.
Proof.
  induction l as [|n l IH]; intros h fuel rest L; cbn [map app length fold_left] in *; [now rewrite Nat.sub_0_r|].
  destruct fuel; [lia|]. cbn [solo act_step rbind app]. rewrite IH by lia. reflexivity.
Qed.
Lemma chain_len h n : (length (chain h n) <= S n)%nat.
Proof.
  unfold chain. generalize (S n) at 1 2. intro f. revert n. induction f; intro n; cbn [chain_fuel]; [auto|].
  destruct (nth_error (nss h) n); cbn; [|lia]. destruct (nparent n0); cbn; [|lia]. specialize (IHf n1). lia.
Qed.

Theorem solo_set hist h p a : run hist = OK h -> (p < length (par_decls hist))%nat ->
  solo h (length (ns_decls hist) + 3) (prog_set p a) = parameter_set h p a.
Proof.
  intros R Hp. apply inv_run in R as I. replace (length (ns_decls hist) + 3)%nat with (S (S (S (length (ns_decls hist))))) by lia.
  unfold prog_set, parameter_set. rewrite solo_cons. cbn [act_step].
  destruct (store_at h p a) as [h1| |] eqn:S; cbn [rbind]; try reflexivity.
  apply store_at_spec in S as (x & v & F & _ & SM & _ & N & _). cbn [app]. rewrite solo_cons. cbn [act_step]. unfold changed_set.
  rewrite N, Nat.eqb_refl. cbn [pchanged pns rbind]. destruct (pchanged x); [reflexivity|]. rewrite app_nil_r.
  assert (L : (length (chain (set_changed h1 p true) (pns x)) <= length (ns_decls hist))%nat).
  { eapply Nat.le_trans; [apply chain_len|]. rewrite <- (ns_length _ _ I). apply (wf_pns _ (i_wf _ _ I) _ _ F). }
  rewrite solo_incs by lia. destruct (_ - _)%nat as [|f] eqn:E; [lia|]. now destruct f.
Qed.
Theorem solo_get hist h p k : run hist = OK h -> (p < length (par_decls hist))%nat ->
  solo h (length (ns_decls hist) + 3) (prog_get p k) = try (h, _) := parameter_get h p k in OK h.
Proof.
  intros R Hp. apply inv_run in R as I. replace (length (ns_decls hist) + 3)%nat with (S (S (S (length (ns_decls hist))))) by lia.
  rewrite <- (inv_length _ _ I) in Hp. destruct (lt_nth _ _ _ Hp) as [x F].
  unfold prog_get, parameter_get. rewrite solo_cons. cbn [act_step]. unfold changed_clear. rewrite F. cbn [rbind].
  assert (L : (length (chain (set_changed h p false) (pns x)) <= length (ns_decls hist))%nat).
  { eapply Nat.le_trans; [apply chain_len|]. rewrite <- (ns_length _ _ I). apply (wf_pns _ (i_wf _ _ I) _ _ F). }
  assert (T : forall h f, solo h (S f) [TLoad p k] = try _ := parameter_read h p k in OK h).
  { intros h0 f. rewrite solo_cons. cbn [act_step]. destruct (parameter_read h0 p k); try reflexivity. now destruct f. }
  destruct (pchanged x).
  - rewrite solo_decs by lia. destruct (_ - _)%nat as [|f] eqn:E; [lia|].
    rewrite T. cbn [rbind]. destruct (parameter_read _ p k); reflexivity.
  - cbn [app]. rewrite T. cbn [rbind]. destruct (parameter_read _ p k); reflexivity.
Qed.
