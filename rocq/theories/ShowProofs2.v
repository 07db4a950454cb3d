(** Proofs about the commands of the shell. *)
From Coq Require Import String ZArith List Bool Arith Lia.
From Verif Require Import CBase Buf ParamModel ParamSpec ParamProofs ParamProofs2 ShowModel ShowSpec ShowProofs.
Import ListNotations.
Local Open Scope Z_scope.

(** ** Histories extended by gets *)
Lemma gets_decls hist gs : Forall is_get gs -> ns_decls (hist ++ gs) = ns_decls hist /\ par_decls (hist ++ gs) = par_decls hist.
Proof.
  intro G. unfold ns_decls, par_decls. rewrite !flat_map_app. induction G as [|o gs O G [IH1 IH2]]; cbn [flat_map]; [now rewrite !app_nil_r|].
  destruct o; easy.
Qed.
Lemma gets_last hist gs p o : Forall is_get gs -> last_assignment (hist ++ gs) p o <-> last_assignment hist p o.
Proof.
  induction gs as [|g gs IH] using rev_ind; intro G; [now rewrite app_nil_r|].
  apply Forall_app in G as [G1 G2]. rewrite app_assoc, last_snoc, IH by exact G1.
  inversion G2 as [|? ? Hg]; subst. destruct g; try easy. split.
  - intros [[_ A]|[A _]]; [inversion A|exact A].
  - intro A. right. split; [exact A|]. intro B. inversion B.
Qed.
Lemma gets_same hist h gs : run hist = OK h -> Forall is_get gs -> forall h', run (hist ++ gs) = OK h' -> same h h'.
Proof.
  intro R. induction gs as [|g gs IH] using rev_ind; intros G h' R'.
  - rewrite app_nil_r, R in R'. inversion R'. apply same_refl.
  - apply Forall_app in G as [G1 G2]. rewrite app_assoc, run_snoc in R'. destruct (run (hist ++ gs)) as [h1| |] eqn:R1; try discriminate.
    cbn [rbind] in R'. inversion G2 as [|? ? Hg]; subst. destruct g; try easy. cbn [run_op] in R'.
    unfold parameter_get in R'. destruct (changed_clear h1 p) as [h2| |] eqn:CC; try discriminate. cbn [rbind] in R'.
    destruct (parameter_read h2 p k); try discriminate. cbn [rbind] in R'. inversion R'; subst h'.
    eapply same_trans; [apply IH; eauto|]. apply changed_clear_spec in CC as (? & _ & S & _). exact S.
Qed.
Lemma same_ns h h' n x : same h h' -> nth_error (nss h) n = Some x -> exists y, nth_error (nss h') n = Some y /\ nid y = nid x /\ nsubs y = nsubs x /\ nparams y = nparams x.
Proof.
  intros [S _] X. pose proof (map_eq_nth _ _ _ _ _ n S) as E. rewrite X in E. cbn in E.
  destruct (nth_error (nss h') n) as [y|]; [|discriminate]. cbn in E. inversion E. eauto.
Qed.

Definition gets_for (r : res (heap * str)) (hist : list op) (ps : list nat) : Prop :=
  exists gs h2 text, r = OK (h2, text) /\ run (hist ++ gs) = OK h2 /\ Forall is_get gs /\
    forall q, (exists k, In (OGet q k) gs) <-> In q ps /\ showable hist q /\ exists o, last_assignment hist q o.

Lemma gets_trans hist gs ps : Forall is_get gs -> forall q,
  (In q ps /\ showable (hist ++ gs) q /\ (exists o, last_assignment (hist ++ gs) q o)) <->
  (In q ps /\ showable hist q /\ exists o, last_assignment hist q o).
Proof.
  intros G q. unfold showable. rewrite (proj2 (gets_decls hist gs G)).
  assert ((exists o, last_assignment (hist ++ gs) q o) <-> exists o, last_assignment hist q o).
  { split; intros [o H]; exists o; revert H; now rewrite gets_last. }
  tauto.
Qed.

Lemma gets_all (f : heap -> nat -> res (heap * str)) (g : nat -> list nat) : forall l hist h, run hist = OK h ->
  (forall gs h' i, Forall is_get gs -> run (hist ++ gs) = OK h' -> In i l -> gets_for (f h' i) (hist ++ gs) (g i)) ->
  gets_for (print_all f h l) hist (flat_map g l).
Proof.
  induction l as [|i l IH]; intros hist h R H; cbn [print_all flat_map].
  - exists [], h, []. rewrite app_nil_r. split; [reflexivity|]. split; [exact R|]. split; [constructor|]. intro q. split; [intros [k []]|intros [[] _]].
  - destruct (H [] h i) as (g1 & h1 & t1 & E1 & R1 & G1 & Q1); [constructor|now rewrite app_nil_r|now left|]. rewrite app_nil_r in *.
    destruct (IH (hist ++ g1) h1 R1) as (g2 & h2 & t2 & E2 & R2 & G2 & Q2).
    { intros gs h' j Hgs Hr Hj. rewrite <- app_assoc in Hr |- *. apply H; [now apply Forall_app|exact Hr|now right]. }
    rewrite E1. cbn [rbind]. rewrite E2. cbn [rbind]. exists (g1 ++ g2), h2, (t1 ++ t2). rewrite app_assoc.
    split; [reflexivity|]. split; [exact R2|]. split; [now apply Forall_app|]. intro q.
    specialize (Q1 q). specialize (Q2 q). rewrite (gets_trans hist g1 (flat_map g l) G1 q) in Q2. rewrite in_app_iff.
    assert (X : (exists k, In (OGet q k) (g1 ++ g2)) <-> (exists k, In (OGet q k) g1) \/ (exists k, In (OGet q k) g2)).
    { split; [intros [k K]; apply in_app_or in K as [K|K]; eauto|intros [[k K]|[k K]]; exists k; apply in_or_app; auto]. }
    rewrite X, Q1, Q2. tauto.
Qed.

Lemma show_param_gets ftoa hist h p lvl : run hist = OK h -> (p < length (pars h))%nat -> gets_for (show_param ftoa h p lvl) hist [p].
Proof.
  intros R Hp. pose proof (inv_run _ _ R) as I. destruct (lt_nth _ _ _ Hp) as [x X].
  destruct (kinds_run _ _ R _ _ X) as (m & id & d & D & K).
  unfold show_param, parameter_defined. rewrite X. cbn [rbind].
  assert (NO : forall text, (~ showable hist p \/ forall o, ~ last_assignment hist p o) -> gets_for (OK (h, text)) hist [p]).
  { intros text N. exists [], h, text. rewrite app_nil_r. split; [reflexivity|]. split; [exact R|]. split; [constructor|].
    intro q. split; [intros [k []]|]. intros ([->|[]] & S & o & O). destruct N as [N|N]; [easy|]. now apply N in O. }
  destruct (pdefined x) eqn:DF.
  2: { apply NO. right. intros o LA. destruct (i_val _ _ I _ _ _ X LA). congruence. }
  destruct (i_def _ _ I _ _ X DF) as [o LA]. destruct (i_val _ _ I _ _ _ X LA) as [_ RD].
  assert (YES : forall k g (F : got -> res str), showable hist p -> load x k = OK g -> forall t, F g = OK t ->
            gets_for (try (h, g) := parameter_get h p k in try t := F g in OK (h, t)) hist [p]).
  { intros k g F S L t T.
    assert (CC : exists h1, changed_clear h p = OK h1) by (unfold changed_clear; rewrite X; destruct (pchanged x); eauto).
    destruct CC as [h1 CC]. pose proof (changed_clear_spec _ _ _ CC) as (y & Y & _ & _ & N & _). rewrite X in Y. inversion Y; subst y.
    assert (G : parameter_get h p k = OK (h1, g)).
    { unfold parameter_get. rewrite CC. cbn [rbind]. unfold parameter_read. rewrite N, Nat.eqb_refl.
      replace (load (mkpar (pid x) (pns x) false (pdefined x) (pval x)) k) with (load x k) by reflexivity. rewrite L. reflexivity. }
    rewrite G. cbn [rbind]. rewrite T. cbn [rbind]. exists [OGet p k], h1, t. split; [reflexivity|].
    split; [rewrite run_snoc, R; cbn [rbind run_op]; now rewrite G|]. split; [constructor; [exact Logic.I|constructor]|].
    intro q. split.
    - intros [k' [E|[]]]. inversion E; subst. split; [now left|]. split; eauto.
    - intros ([->|[]] & _). exists k. now left. }
  assert (SH : (match d with DVec _ _ | DVar _ _ => False | _ => True end) -> showable hist p) by (intro; exists m, id, d; auto).
  assert (NS : (match d with DVec _ _ | DVar _ _ => False | _ => True end -> False) -> ~ showable hist p).
  { intros A (m' & id' & d' & D' & B). rewrite D in D'. inversion D'; subst. auto. }
  pose proof (load_loads x) as LL. rewrite DF in LL.
  destruct (pval x) as [s|b|i|buf len|buf|buf dim] eqn:PV; destruct d; cbn in K; try easy.
  - refine (eq_ind _ (fun r => gets_for r hist [p]) (YES KScalar (GScalar s) (fun g => match g with GScalar v => OK (_ ++ ftoa v ++ crlf) | _ => BAD end) (SH Logic.I) _ _ eq_refl) _ _);
      [rewrite LL; reflexivity|]. destruct (parameter_get h p KScalar) as [[? []]| |]; reflexivity.
  - refine (eq_ind _ (fun r => gets_for r hist [p]) (YES KBool (GBool b) (fun g => match g with GBool v => OK (_ ++ lit (if v then "true" else "false") ++ crlf) | _ => BAD end) (SH Logic.I) _ _ eq_refl) _ _);
      [rewrite LL; reflexivity|]. destruct (parameter_get h p KBool) as [[? []]| |]; reflexivity.
  - refine (eq_ind _ (fun r => gets_for r hist [p]) (YES KInt (GInt i) (fun g => match g with GInt v => OK (_ ++ itoa v ++ crlf) | _ => BAD end) (SH Logic.I) _ _ eq_refl) _ _);
      [rewrite LL; reflexivity|]. destruct (parameter_get h p KInt) as [[? []]| |]; reflexivity.
  - assert (LS : exists s l, load x (KStr 50) = OK (GStr s l)).
    { rewrite LL. unfold loads, load. cbn [pdefined pval]. destruct (len <? 50)%nat; eauto. }
    destruct LS as (s & l & LS).
    refine (eq_ind _ (fun r => gets_for r hist [p]) (YES (KStr 50) (GStr s l) (fun g => match g with GStr s _ => OK (_ ++ quote ++ c_str s ++ quote ++ crlf) | _ => BAD end) (SH Logic.I) LS _ eq_refl) _ _).
    destruct (parameter_get h p (KStr 50)) as [[? []]| |]; reflexivity.
  - apply NO. left. apply NS. tauto.
  - apply NO. left. apply NS. tauto.
Qed.

Lemma pre_params h n p : wf h -> (n < length (nss h))%nat -> forall x, nth_error (nss h) n = Some x -> In p (nparams x) -> (p < length (pars h))%nat.
Proof.
  intros WF _ x X Hp. rewrite (wf_params _ WF _ _ X) in Hp. apply in_rev, filter_In in Hp as [Hp _]. apply in_seq in Hp. lia.
Qed.

Lemma gets_for_text r hist ps (F : str -> str) : gets_for r hist ps -> gets_for (try (h, t) := r in OK (h, F t)) hist ps.
Proof. intros (gs & h2 & t & -> & R & G & Q). exists gs, h2, (F t). split; [reflexivity|]. auto. Qed.

Lemma show_tree_gets ftoa hist h : run hist = OK h -> forall fuel gs h' l lvl, Forall is_get gs -> run (hist ++ gs) = OK h' ->
  (forall n, In n l -> (n < length (nss h))%nat /\ (length (nss h) < fuel + n)%nat) ->
  (0 < fuel)%nat ->
  gets_for (show_config_tree ftoa fuel h' l lvl) (hist ++ gs) (flat_map (pre fuel h) l).
Proof.
  intro R. pose proof (inv_run _ _ R) as I. pose proof (i_wf _ _ I) as WF.
  induction fuel as [|fuel IH]; intros gs h' l lvl G R' B F0; [lia|]. cbn [show_config_tree].
  apply gets_all; [exact R'|]. intros gs2 h2 n G2 R2 Hn. rewrite <- app_assoc in R2 |- *.
  assert (G12 : Forall is_get (gs ++ gs2)) by now apply Forall_app.
  destruct (B n Hn) as [Bn Bf]. destruct (lt_nth _ _ _ Bn) as [x X].
  destruct (same_ns _ _ _ _ (gets_same _ _ _ R G12 _ R2) X) as (y & Y & _ & YS & YP). rewrite Y, YS, YP.
  cbn [pre]. rewrite X.
  set (hs := hist ++ gs ++ gs2) in *.
  assert (A : gets_for (print_all (fun h p => show_param ftoa h p (S lvl)) h2 (nparams x)) hs (flat_map (fun p => [p]) (nparams x))).
  { apply gets_all; [exact R2|]. intros gs3 h3 p G3 R3 Hp. apply show_param_gets; [exact R3|].
    pose proof (gets_same _ _ _ R2 G3 _ R3) as S3. pose proof (gets_same _ _ _ R G12 _ R2) as S2.
    destruct S3 as [_ S3]. destruct S2 as [_ S2]. apply (f_equal (@length _)) in S3. apply (f_equal (@length _)) in S2.
    rewrite !map_length in *. rewrite S3, S2. eapply pre_params; eauto. }
  replace (flat_map (fun p => [p]) (nparams x)) with (nparams x) in A.
  2: { generalize (nparams x) as k. induction k as [|a k IHk]; cbn; [reflexivity|]. now rewrite <- IHk. }
  destruct A as (ga & ha & ta & Ea & Ra & Ga & Qa). rewrite Ea. cbn [rbind].
  assert (Bs : gets_for (show_config_tree ftoa fuel ha (nsubs x) (S lvl)) (hs ++ ga) (flat_map (pre fuel h) (nsubs x))).
  { unfold hs in *. rewrite <- app_assoc in Ra |- *. apply IH.
    - now apply Forall_app.
    - exact Ra.
    - intros m Hm. destruct (sub_gt _ _ _ _ WF X Hm) as (Bm & _). lia.
    - lia. }
  destruct Bs as (gb & hb & tb & Eb & Rb & Gb & Qb). rewrite Eb. cbn [rbind].
  eexists (ga ++ gb), hb, _. split; [reflexivity|]. split; [now rewrite app_assoc|]. split; [now apply Forall_app|].
  intro q. specialize (Qa q). specialize (Qb q). rewrite (gets_trans hs ga _ Ga q) in Qb. rewrite in_app_iff.
  assert (XX : (exists k, In (OGet q k) (ga ++ gb)) <-> (exists k, In (OGet q k) ga) \/ (exists k, In (OGet q k) gb)).
  { split; [intros [k K]; apply in_app_or in K as [K|K]; eauto|intros [[k K]|[k K]]; exists k; apply in_or_app; auto]. }
  rewrite XX, Qa, Qb. tauto.
Qed.

(** ** The commands *)
Theorem config_tree_gets ftoa hist h root : run hist = OK h -> (root < length (ns_decls hist))%nat ->
  exists gs h' text, config_tree ftoa h root [] = OK (h', text) /\ run (hist ++ gs) = OK h' /\ Forall is_get gs /\
    forall p, (exists k, In (OGet p k) gs) <-> param_within hist p root /\ showable hist p /\ exists o, last_assignment hist p o.
Proof.
  intros R Hr. pose proof (inv_run _ _ R) as I. pose proof (i_wf _ _ I) as WF. rewrite <- (ns_length _ _ I) in Hr.
  destruct (show_tree_gets ftoa hist h R (S (S (length (nss h)))) [] h [root] 0) as (gs & h' & t & E & R' & G & Q).
  - constructor.
  - now rewrite app_nil_r.
  - intros n [<-|[]]. split; [exact Hr|lia].
  - lia.
  - rewrite app_nil_r in *. exists gs, h', t. split; [exact E|]. split; [exact R'|]. split; [exact G|].
    intro p. rewrite Q. cbn [flat_map]. rewrite app_nil_r. rewrite in_pre by (auto; lia). rewrite (param_within_heap _ _ _ _ I). reflexivity.
Qed.

Theorem config_subtree_gets ftoa hist h root path comps n : run hist = OK h -> ids_ok hist -> (root < length (ns_decls hist))%nat ->
  ~ In 0 path -> comps <> [] -> components path comps -> leads (ns_decls hist) root comps n ->
  exists gs h' text, config_tree ftoa h root [path] = OK (h', text) /\ run (hist ++ gs) = OK h' /\ Forall is_get gs /\
    forall p, (exists k, In (OGet p k) gs) <->
      (exists m id, nth_error (ns_decls hist) m = Some (Some n, id) /\ param_within hist p m) /\ showable hist p /\ exists o, last_assignment hist p o.
Proof.
  intros R IO Hr Z0 C0 C LD. pose proof (inv_run _ _ R) as I. pose proof (i_wf _ _ I) as WF.
  pose proof (nsfind_exact hist h root path comps R IO Hr Z0 C0 C) as F. rewrite <- (ns_length _ _ I) in Hr.
  unfold config_tree. destruct (namespace_find h root path) as [[n'|]| |]; try easy; [|now apply F in LD].
  rewrite (leads_fun _ _ _ _ F _ LD). clear n' F. cbn [rbind].
  assert (Hn : (n < length (nss h))%nat).
  { clear - LD Hr I. induction LD; auto. apply IHLD. destruct H0 as [E _]. rewrite (ns_length _ _ I). apply nth_error_Some. congruence. }
  destruct (lt_nth _ _ _ Hn) as [x X]. rewrite X.
  assert (CH : forall m, In m (nsubs x) <-> exists id, nth_error (ns_decls hist) m = Some (Some n, id)).
  { intro m. rewrite (wf_subs _ WF _ _ X), <- in_rev, filter_In, in_seq, <- (i_ns _ _ I). unfold shape. rewrite nth_error_map. unfold is_child. split.
    - intros [_ E]. destruct (nth_error (nss h) m) as [y|]; [|discriminate]. destruct (nparent y) as [a|] eqn:P; [|discriminate].
      apply Nat.eqb_eq in E. subst. exists (nid y). cbn. now rewrite P.
    - intros [id E]. destruct (nth_error (nss h) m) as [y|] eqn:Y; [|discriminate]. cbn in E. inversion E as [[E1 E2]]. rewrite E1.
      split; [|apply Nat.eqb_refl]. assert (m < length (nss h))%nat by (apply nth_error_Some; congruence). lia. }
  assert (T : gets_for (match nsubs x with [] => OK (h, lit "This tree is empty." ++ crlf) | l => show_config_tree ftoa (S (S (length (nss h)))) h l 0 end)
              hist (flat_map (pre (S (S (length (nss h)))) h) (nsubs x))).
  { destruct (nsubs x) as [|a l] eqn:NS.
    - eexists [], h, _. rewrite app_nil_r. split; [reflexivity|]. split; [exact R|]. split; [constructor|]. intro q. split; [intros [k []]|intros [[] _]].
    - pose proof (show_tree_gets ftoa hist h R (S (S (length (nss h)))) [] h (a :: l) 0) as T. rewrite app_nil_r in T. apply T.
      + constructor.
      + exact R.
      + intros m Hm. rewrite <- NS in Hm. destruct (sub_gt _ _ _ _ WF X Hm) as (Bm & _). lia.
      + lia. }
  destruct T as (gs & h' & t & E & R' & G & Q). exists gs, h', t. split; [exact E|]. split; [exact R'|]. split; [exact G|].
  intro p. rewrite Q, in_flat_map. apply and_iff_compat_r. split.
  - intros (m & Hm & Hp). destruct (sub_gt _ _ _ _ WF X Hm) as (Bm & _). apply CH in Hm as [id Hm]. exists m, id. split; [exact Hm|].
    apply (param_within_heap _ _ _ _ I). apply in_pre in Hp; auto; lia.
  - intros (m & id & Hm & Hp). assert (Hs : In m (nsubs x)) by (apply CH; eauto). exists m. split; [exact Hs|].
    destruct (sub_gt _ _ _ _ WF X Hs) as (Bm & _). apply in_pre; auto; try lia. now apply (param_within_heap _ _ _ _ I).
Qed.

(** ** Setting *)
Lemma scan_digits_read : forall s acc v, read_digits acc s = Some v -> scan_digits s (Some acc) = Some v.
Proof.
  induction s as [|c s IH]; intros acc v H; cbn in *; [exact H|]. unfold is_digit. destruct (_ && _); [|discriminate]. now apply IH.
Qed.
Lemma scan_none : forall s v, s <> [] -> read_digits 0 s = Some v -> scan_digits s None = Some v.
Proof.
  intros [|c s] v N H; [easy|]. cbn in *. unfold is_digit. destruct (_ && _); [|discriminate]. now apply scan_digits_read.
Qed.
Lemma sscanf_ok s i : read_int s = Some i -> - 2 ^ 31 <= i < 2 ^ 31 -> sscanf_d s = OK (Some i).
Proof.
  intros H B. assert (Q : (- 2 ^ 31 <=? i) && (i <? 2 ^ 31) = true) by (apply andb_true_intro; split; [apply Z.leb_le|apply Z.ltb_lt]; lia).
  destruct s as [|c s]; [discriminate|]. unfold read_int in H. unfold sscanf_d.
  destruct (Z.eqb_spec c 45) as [->|N].
  - destruct s as [|d s]; [discriminate|]. destruct (read_digits 0 (d :: s)) as [v|] eqn:E; [|discriminate]. cbn in H. inversion H; subst i.
    change (skip_space (45 :: d :: s)) with (45 :: d :: s). change (45 =? 45) with true. cbn iota.
    rewrite (scan_none _ v) by (auto; discriminate). cbn [option_map]. cbv beta iota zeta. change (45 =? 45) with true. cbv iota. now rewrite Q.
  - assert (DG : is_digit c = true) by (cbn in H; unfold is_digit; destruct (_ && _); [reflexivity|discriminate]).
    assert (C : 48 <= c <= 57) by (unfold is_digit in DG; apply andb_prop in DG as [D1 D2]; apply Z.leb_le in D1, D2; lia).
    assert (SK : skip_space (c :: s) = c :: s).
    { cbn [skip_space]. unfold is_space. destruct (Z.eqb_spec c 32); [lia|]. destruct (Z.leb_spec c 13); [lia|]. now rewrite andb_false_r. }
    rewrite SK. destruct (Z.eqb_spec c 45); [lia|]. destruct (Z.eqb_spec c 43); [lia|].
    rewrite (scan_none _ i) by (auto; discriminate). cbv beta iota zeta. now rewrite Q.
Qed.

Theorem config_set_asked_proof atof hist h root path comps last text p m id d a : run hist = OK h -> ids_ok hist -> (root < length (ns_decls hist))%nat ->
  ~ In 0 path -> components path (comps ++ [last]) -> names hist root comps last p -> nth_error (par_decls hist) p = Some (m, id, d) ->
  asked atof d text a ->
  exists h', config_set atof h root [path; text] = OK (h', []) /\ run (hist ++ [OSet p a]) = OK h'.
Proof.
  intros R IO Hr Z0 C N D A. pose proof (find_exact hist h root path comps last R IO Hr Z0 C) as F. unfold config_set.
  destruct (parameter_find h root path) as [[q|]| |] eqn:PF; try easy; [|now apply F in N].
  rewrite (names_unique _ _ _ _ _ _ F N) in *. clear q F. cbn [rbind].
  destruct (find_valid _ _ _ _ _ R IO Hr Z0 PF) as [x X]. rewrite X.
  destruct (kinds_run _ _ R _ _ X) as (m' & id' & d' & D' & K). rewrite D in D'. inversion D'; subst m' id' d'; clear D'.
  assert (ST : exists v, store (pval x) a = OK v).
  { destruct (pval x), d; cbn in K; try easy; destruct a; cbn [asked] in A; try easy; cbn [store]; eauto.
    destruct A as (-> & -> & L). destruct K as [K1 K2]. rewrite (proj2 (Nat.leb_le (length text) (length buf))) by lia. cbn [negb].
    rewrite Nat.leb_refl. eauto. }
  destruct ST as [v ST].
  assert (SE : exists h', parameter_set h p a = OK h').
  { unfold parameter_set, store_at. rewrite X, ST. cbn [rbind]. unfold changed_set, set_value, upd_par. cbn [pars].
    rewrite upd_nth, Nat.eqb_refl, X. cbn. destruct (pchanged x); eauto. }
  destruct SE as [h' SE]. exists h'. split; [|rewrite run_snoc, R; exact SE].
  destruct (pval x), d; cbn in K; try easy; destruct a; cbn [asked] in A; try easy.
  - rewrite A, SE. reflexivity.
  - destruct b0; subst text; unfold str_eqb.
    + destruct (list_eq_dec Z.eq_dec (lit "true") (lit "true")); [|easy]. rewrite SE. reflexivity.
    + destruct (list_eq_dec Z.eq_dec (lit "false") (lit "true")); [easy|].
      destruct (list_eq_dec Z.eq_dec (lit "false") (lit "false")); [|easy]. rewrite SE. reflexivity.
  - destruct A as [A B]. rewrite (sscanf_ok _ _ A B). cbn [rbind]. rewrite SE. reflexivity.
  - destruct A as (-> & -> & _). rewrite SE. reflexivity.
Qed.

Theorem config_set_senseless_proof atof hist h root path comps last text p m id d : run hist = OK h -> ids_ok hist -> (root < length (ns_decls hist))%nat ->
  ~ In 0 path -> components path (comps ++ [last]) -> names hist root comps last p -> nth_error (par_decls hist) p = Some (m, id, d) ->
  senseless atof d text ->
  exists msg, config_set atof h root [path; text] = OK (h, msg) /\ msg <> [].
Proof.
  intros R IO Hr Z0 C N D A. pose proof (find_exact hist h root path comps last R IO Hr Z0 C) as F. unfold config_set.
  destruct (parameter_find h root path) as [[q|]| |] eqn:PF; try easy; [|now apply F in N].
  rewrite (names_unique _ _ _ _ _ _ F N) in *. clear q F. cbn [rbind].
  destruct (find_valid _ _ _ _ _ R IO Hr Z0 PF) as [x X]. rewrite X.
  destruct (kinds_run _ _ R _ _ X) as (m' & id' & d' & D' & K). rewrite D in D'. inversion D'; subst m' id' d'; clear D'.
  destruct (pval x), d; cbn in K; try easy; cbn [senseless] in A; try easy.
  - rewrite A. eexists. split; [reflexivity|discriminate].
  - unfold str_eqb. destruct A as [A1 A2]. destruct (list_eq_dec _ _ _); [easy|]. destruct (list_eq_dec _ _ _); [easy|].
    eexists. split; [reflexivity|discriminate].
  - assert (SC : sscanf_d text = OK None).
    { unfold sscanf_d. destruct text as [|c r]; [reflexivity|]. destruct (A c r eq_refl) as (S1 & S2 & S3 & S4). cbn [skip_space]. rewrite S1.
      destruct (Z.eqb_spec c 45); [easy|]. destruct (Z.eqb_spec c 43); [easy|]. cbn [scan_digits]. now rewrite S2. }
    rewrite SC. cbn [rbind]. eexists. split; [reflexivity|discriminate].
  - eexists. split; [reflexivity|]. destruct (pid x); discriminate.
  - eexists. split; [reflexivity|]. destruct (pid x); discriminate.
Qed.

Theorem config_set_unknown_proof atof hist h root path comps last text : run hist = OK h -> ids_ok hist -> (root < length (ns_decls hist))%nat ->
  ~ In 0 path -> components path (comps ++ [last]) -> (forall p, ~ names hist root comps last p) ->
  exists msg, config_set atof h root [path; text] = OK (h, msg) /\ msg <> [].
Proof.
  intros R IO Hr Z0 C N. pose proof (find_exact hist h root path comps last R IO Hr Z0 C) as F. unfold config_set.
  destruct (parameter_find h root path) as [[q|]| |] eqn:PF; try easy; [now apply N in F|]. cbn [rbind]. eexists. split; [reflexivity|discriminate].
Qed.
