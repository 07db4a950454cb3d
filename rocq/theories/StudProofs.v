(** Proofs about the parameter editor. *)
From Coq Require Import ZArith List Bool Lia Arith.
From Verif Require Import CBase Buf ParamModel ParamSpec ParamProofs ParamProofs2 StudModel StudSpec.
Import ListNotations.
Local Open Scope Z_scope.

Lemma read_cases : forall hist h name p x, run hist = OK h -> parameter_find h 0 name = OK (Some p) -> nth_error (pars h) p = Some x ->
  (visible hist p /\ exists v, read_value h 0 name = OK v /\ v <> REmpty /\ shows h p v) \/
  (~ visible hist p /\ read_value h 0 name = OK REmpty).
Proof.
  intros hist h name p x R F X. pose proof (inv_run _ _ R) as I. destruct (kinds_run _ _ R _ _ X) as (m & id & d & D & K).
  unfold read_value. rewrite F. cbn [rbind]. rewrite X. destruct (pdefined x) eqn:PD; cbn [negb].
  - destruct (i_def _ _ I p x X PD) as (o & LA). unfold parameter_read. rewrite X. unfold load. rewrite PD.
    assert (V : plain d -> visible hist p) by (intro P; exists m, id, d, o; auto).
    destruct (pval x) as [y|y|y|buf len|buf|buf k] eqn:PV; destruct d; cbn [kinded] in K; try easy; cbn [rbind].
    + left. split; [apply V; exact Logic.I|]. eexists. split; [reflexivity|]. split; [discriminate|]. cbn [shows]. unfold parameter_read. rewrite X. unfold load. rewrite PD, PV. reflexivity.
    + left. split; [apply V; exact Logic.I|]. eexists. split; [reflexivity|]. split; [discriminate|]. cbn [shows]. unfold parameter_read. rewrite X. unfold load. rewrite PD, PV. reflexivity.
    + left. split; [apply V; exact Logic.I|]. eexists. split; [reflexivity|]. split; [discriminate|]. cbn [shows]. unfold parameter_read. rewrite X. unfold load. rewrite PD, PV. reflexivity.
    + left. split; [apply V; exact Logic.I|]. cbn [shows]. destruct (len <? 4)%nat eqn:LT; cbn [rbind].
      * eexists. split; [reflexivity|]. split; [discriminate|]. cbn [shows]. unfold parameter_read. rewrite X. unfold load. rewrite PD, PV, LT. eauto.
      * eexists. split; [reflexivity|]. split; [discriminate|]. cbn [shows]. unfold parameter_read. rewrite X. unfold load. rewrite PD, PV, LT. eauto.
    + right. split; [|reflexivity]. intros (m' & id' & d' & o' & D' & P & _). rewrite D in D'. inversion D'; subst. exact P.
    + right. split; [|reflexivity]. intros (m' & id' & d' & o' & D' & P & _). rewrite D in D'. inversion D'; subst. exact P.
  - right. split; [|reflexivity]. intros (m' & id' & d' & o' & _ & _ & LA). destruct (i_val _ _ I p x o' X LA). congruence.
Qed.

Lemma within_valid : forall hist h p, run hist = OK h -> param_within hist p 0 -> exists x, nth_error (pars h) p = Some x.
Proof.
  intros hist h p R (m & id & d & D & _). apply lt_nth. rewrite (inv_length _ _ (inv_run _ _ R)). apply nth_error_Some. congruence.
Qed.

Lemma full_name_nonempty : forall h p name, full_name h p = OK name -> name <> [].
Proof.
  intros h p name F. unfold full_name in F. destruct (nth_error (pars h) p) as [x|]; [|discriminate].
  destruct (tree_height h p); cbn [rbind] in F; try discriminate.
  destruct (full_name_loop h (pns x) (Z.to_nat a) [slash]) as [s| |] eqn:E; cbn [rbind] in F; try discriminate. inversion F.
  assert (S : forall k n acc s, acc <> [] -> full_name_loop h n k acc = OK s -> s <> []).
  { clear. induction k as [|k IH]; intros n acc s A E; cbn [full_name_loop] in E; [inversion E; subst; exact A|].
    destruct k as [|k]; [inversion E; subst; exact A|]. destruct (up h n k) as [m| |]; cbn [rbind] in E; try discriminate.
    destruct (nth_error (nss h) m) as [y|]; [|discriminate]. apply IH in E; [exact E|]. destruct acc; [congruence|discriminate]. }
  apply S in E; [|discriminate]. destruct s; [congruence|discriminate].
Qed.

(** Request [i] of the enumeration [l]. *)
Lemma get_cases : forall hist h l i, is_tree hist h -> (forall p, In p l <-> param_within hist p 0) ->
  (forall k, 0 <= k -> find_by_index h 0 k = OK (nth_error l (Z.to_nat k))) ->
  match nth_error l i with
  | None => get_by_index h (Z.of_nat i) = OK ([], REmpty)
  | Some p => (visible hist p /\ exists e, get_by_index h (Z.of_nat i) = OK e /\ fst e <> [] /\ entry_of h p e) \/
              (~ visible hist p /\ get_by_index h (Z.of_nat i) = OK ([], REmpty))
  end.
Proof.
  intros hist h l i (R & IO & ID & rid & RT) L FI. unfold get_by_index, index_name.
  rewrite FI by lia. rewrite Nat2Z.id. cbn [rbind]. destruct (nth_error l i) as [p|] eqn:N.
  - apply nth_error_In in N. apply L in N. destruct (full_name_found hist h 0 rid p R IO ID RT N) as (name & FN & PF).
    rewrite FN. cbn [rbind]. destruct (within_valid _ _ _ R N) as (x & X).
    destruct (read_cases hist h name p x R PF X) as [(V & v & E & NE & S)|(V & E)]; rewrite E; cbn [rbind].
    + left. split; [exact V|]. exists (name, v). split; [destruct v; congruence|]. split; [eapply full_name_nonempty; eauto|].
      split; [exact FN|]. split; [exact PF|exact S].
    + right. split; [exact V|]. reflexivity.
  - cbn [rbind]. assert (C : components [] ([] ++ [[]])).
    { split; [reflexivity|]. constructor; [intros []|constructor]. }
    assert (L0 : (0 < length (ns_decls hist))%nat) by (apply nth_error_Some; congruence).
    pose proof (find_exact hist h 0 [] [] [] R IO L0 (fun x => x) C) as FE. unfold read_value.
    destruct (parameter_find h 0 []) as [[q|]| |]; try easy. destruct FE as (E & _). congruence.
Qed.

(** What is fetched: the visible parameters before the first that is not, at most [answers]. *)
Lemma iterate_spec : forall hist h l, is_tree hist h -> (forall p, In p l <-> param_within hist p 0) ->
  (forall k, 0 <= k -> find_by_index h 0 k = OK (nth_error l (Z.to_nat k))) ->
  forall answers i, (i <= length l)%nat -> exists es k, iterate h i answers = OK es /\ (i + k <= length l)%nat /\
    Forall2 (entry_of h) (firstn k (skipn i l)) es /\ Forall (visible hist) (firstn k (skipn i l)) /\
    (k = answers \/ (i + k = length l)%nat \/ exists p, nth_error l (i + k) = Some p /\ ~ visible hist p) /\ (k <= answers)%nat.
Proof.
  intros hist h l T L FI. induction answers as [|n IH]; intros i Hi.
  - exists [], O. cbn [firstn]. split; [reflexivity|]. split; [lia|]. split; [constructor|]. split; [constructor|]. auto.
  - cbn [iterate]. pose proof (get_cases hist h l i T L FI) as G. destruct (nth_error l i) as [p|] eqn:N.
    + assert (SK : skipn i l = p :: skipn (S i) l).
      { clear - N. revert l N. induction i as [|i IHi]; intros [|a l] N; try discriminate; cbn in *; [congruence|]. apply IHi in N. exact N. }
      destruct G as [(V & (name, v) & G & NE & EN)|(V & G)]; rewrite G; cbn [rbind].
      * assert (Hi' : (S i <= length l)%nat) by (apply nth_error_Some; congruence).
        destruct (IH (S i) Hi') as (es & k & E & B & F & FV & ST & LE). cbn [fst] in NE. destruct name as [|c name]; [congruence|].
        rewrite E. cbn [rbind]. exists ((c :: name, v) :: es), (S k). split; [reflexivity|]. split; [lia|].
        rewrite SK. cbn [firstn]. split; [constructor; assumption|]. split; [constructor; assumption|]. split; [|lia].
        destruct ST as [->|[ST|ST]]; [left; reflexivity|right; left; lia|right; right]. rewrite Nat.add_succ_r. exact ST.
      * exists [], O. cbn [firstn]. split; [reflexivity|]. split; [lia|]. split; [constructor|]. split; [constructor|]. split; [|lia].
        right; right. exists p. rewrite Nat.add_0_r. auto.
    + rewrite G. cbn [rbind]. exists [], O. cbn [firstn]. split; [reflexivity|]. split; [lia|]. split; [constructor|]. split; [constructor|].
      split; [|lia]. right; left. apply nth_error_None in N. lia.
Qed.

Lemma fetch_prefix : forall hist h answers, is_tree hist h -> exists l es k,
  NoDup l /\ (forall p, In p l <-> param_within hist p 0) /\ fetch h answers = OK es /\
  Forall2 (entry_of h) (firstn k l) es /\ Forall (visible hist) (firstn k l) /\ (k <= length l)%nat /\
  (k = answers \/ k = length l \/ exists p, nth_error l k = Some p /\ ~ visible hist p).
Proof.
  intros hist h answers T. assert (T' := T). destruct T' as (R & _ & _ & rid & RT).
  destruct (enumeration hist h 0 R) as (l & ND & L & FI); [apply nth_error_Some; congruence|].
  destruct (iterate_spec hist h l T L FI answers 0 (Nat.le_0_l _)) as (es & k & E & B & F & V & ST & _).
  exists l, es, k. cbn [skipn Nat.add] in *. repeat split; auto; apply L.
Qed.

Lemma fetch_complete : forall hist h, is_tree hist h -> (forall p, param_within hist p 0 -> visible hist p) ->
  exists l es, NoDup l /\ (forall p, In p l <-> param_within hist p 0) /\ Forall2 (entry_of h) l es /\
    forall answers, (length l <= answers)%nat -> fetch h answers = OK es.
Proof.
  intros hist h T AV. assert (T' := T). destruct T' as (R & _ & _ & rid & RT).
  destruct (enumeration hist h 0 R) as (l & ND & L & FI); [apply nth_error_Some; congruence|].
  assert (Q : forall answers, (length l <= answers)%nat -> exists es, fetch h answers = OK es /\ Forall2 (entry_of h) l es).
  { intros answers A. destruct (iterate_spec hist h l T L FI answers 0 (Nat.le_0_l _)) as (es & k & E & B & F & V & ST & LE).
    cbn [skipn Nat.add] in *. assert (k = length l).
    { destruct ST as [->|[ST|(p & N & NV)]]; [lia|exact ST|]. exfalso. apply NV, AV, L. eapply nth_error_In; eauto. }
    subst. rewrite firstn_all in F. eauto. }
  destruct (Q (length l) (Nat.le_refl _)) as (es & E & F). exists l, es. split; [exact ND|]. split; [exact L|]. split; [exact F|].
  intros answers A. destruct (Q answers A) as (es' & E' & F'). rewrite E'. f_equal.
  assert (FD : forall p e e', entry_of h p e -> entry_of h p e' -> e = e').
  { clear - T. intros p (n, v) (n', v') (A & B & C) (A' & B' & C'). cbn [fst snd] in *. rewrite A in A'. inversion A'; subst.
    f_equal. unfold shows in *. unfold parameter_read, load in *. destruct (nth_error (pars h) p) as [x|]; [|destruct v; easy || (destruct C as (? & ? & ? & _); discriminate)].
    destruct (pval x); destruct v; try easy; try (destruct C as (? & ? & ? & _); discriminate); destruct v'; try easy;
      try (destruct C' as (? & ? & ? & _); discriminate); destruct (pdefined x); try congruence.
    - destruct C as (o & k & C & ->). destruct C' as (o' & k' & C' & ->). congruence.
    - destruct C as (o & k & C & ->). discriminate. }
  clear - F F' FD. revert es' F'. induction F as [|p e l es P F IH]; intros es' F'; inversion F'; subst; [reflexivity|].
  f_equal; eauto.
Qed.

(** ** The dictionary *)

Lemma key_eqb_spec : forall a b, key_eqb a b = true <-> a = b.
Proof. intros a b. unfold key_eqb. destruct (list_eq_dec Z.eq_dec a b); split; congruence. Qed.
Lemma key_eqb_refl : forall a, key_eqb a a = true.
Proof. intro a. apply key_eqb_spec. reflexivity. Qed.
Lemma lookup_put : forall k d items, lookup k (put k d items) = Some d.
Proof.
  induction items as [|(k', d') items IH]; cbn [put lookup]; [rewrite key_eqb_refl; reflexivity|].
  destruct (key_eqb k' k) eqn:E; cbn [lookup]; rewrite E; [reflexivity|exact IH].
Qed.
Lemma lookup_put_other : forall k k' d items, k' <> k -> lookup k' (put k d items) = lookup k' items.
Proof.
  intros k k' d items N. assert (B : key_eqb k k' = false).
  { destruct (key_eqb k k') eqn:E; [apply key_eqb_spec in E; congruence|reflexivity]. }
  induction items as [|(k2, d2) items IH]; cbn [put lookup]; [rewrite B; reflexivity|].
  destruct (key_eqb k2 k) eqn:E; cbn [lookup].
  - apply key_eqb_spec in E. subst. rewrite B. reflexivity.
  - destruct (key_eqb k2 k'); [reflexivity|exact IH].
Qed.

Lemma set_get : forall path d v d', nested_set d path v = Some d' -> nested_get d' path = Some (Entry v).
Proof.
  induction path as [|k path IH]; intros d v d' S; [destruct d; discriminate|].
  destruct d as [e|items]; [destruct path; discriminate|]. destruct path as [|k' path].
  - cbn in S. inversion S; subst. cbn [nested_get]. rewrite lookup_put. reflexivity.
  - cbn [nested_set] in S. set (sub := match lookup k items with Some d => d | None => Level [] end) in *.
    change (match nested_set sub (k' :: path) v with Some sub => Some (Level (put k sub items)) | None => None end = Some d') in S.
    destruct (nested_set sub (k' :: path) v) as [s|] eqn:E; [|discriminate]. inversion S; subst. apply IH in E.
    change (match lookup k (put k s items) with Some d => nested_get d (k' :: path) | None => None end = Some (Entry v)).
    rewrite lookup_put. exact E.
Qed.
Lemma set_get_other : forall path d v d' path', nested_set d path v = Some d' -> ~ nested_paths path path' ->
  nested_get d' path' = nested_get d path'.
Proof.
  induction path as [|k path IH]; intros d v d' path' S N; [destruct d; discriminate|].
  destruct d as [e|items]; [destruct path; discriminate|].
  destruct path' as [|k1 path1]; [exfalso; apply N; exists (k :: path); left; reflexivity|].
  destruct (list_eq_dec Z.eq_dec k1 k) as [->|NE].
  - destruct path as [|k' path].
    + exfalso. apply N. exists path1. right. reflexivity.
    + cbn [nested_set] in S. set (sub := match lookup k items with Some d => d | None => Level [] end) in *.
      change (match nested_set sub (k' :: path) v with Some sub => Some (Level (put k sub items)) | None => None end = Some d') in S.
      destruct (nested_set sub (k' :: path) v) as [s|] eqn:E; [|discriminate]. inversion S; subst.
      assert (N' : ~ nested_paths (k' :: path) path1).
      { intros (c & [C|C]); apply N; exists c; [left|right]; rewrite C; reflexivity. }
      apply (IH _ _ _ path1) in E; [|exact N']. cbn [nested_get]. rewrite lookup_put, E. unfold sub.
      destruct (lookup k items); [reflexivity|]. destruct path1; [|reflexivity]. exfalso. apply N'. exists (k' :: path). left. reflexivity.
  - assert (L : exists s, d' = Level (put k s items)).
    { destruct path; cbn [nested_set] in S; [inversion S; eauto|].
      match type of S with match ?m with _ => _ end = _ => destruct m end; inversion S; eauto. }
    destruct L as (s & ->). cbn [nested_get]. rewrite lookup_put_other by exact NE. reflexivity.
Qed.

Lemma fill_get : forall l d d', fill d l = Some d' ->
  (forall a b, In a l -> In b l -> nested_paths (split (fst a)) (split (fst b)) -> a = b) -> NoDup l ->
  forall e, In e l -> nested_get d' (split (fst e)) = Some (Entry (snd e)).
Proof.
  assert (K : forall l d d' path, fill d l = Some d' -> (forall a, In a l -> ~ nested_paths (split (fst a)) path) ->
    nested_get d' path = nested_get d path).
  { induction l as [|(n, v) l IH]; intros d d' path F N; cbn [fill] in F; [congruence|].
    destruct (nested_set d (split n) v) as [d1|] eqn:S; [|discriminate]. rewrite (IH d1 d' path F) by (intros a A; apply N; right; exact A).
    eapply set_get_other; eauto. apply (N (n, v)). left; reflexivity. }
  induction l as [|(n, v) l IH]; intros d d' F P ND e I; [destruct I|]. cbn [fill] in F.
  destruct (nested_set d (split n) v) as [d1|] eqn:S; [|discriminate]. inversion ND; subst. destruct I as [<-|I].
  - cbn [fst snd]. rewrite (K l d1 d' (split n) F); [eapply set_get; eauto|]. intros a A X.
    assert (a = (n, v)) by (apply P; [right; exact A|left; reflexivity|exact X]). subst. contradiction.
  - eapply IH; eauto. intros a b A B. apply P; right; assumption.
Qed.

Lemma split_join : forall s, path_of (split s) = s.
Proof.
  induction s as [|c s IH]; [reflexivity|]. cbn [split]. destruct (c =? slash) eqn:E.
  - apply Z.eqb_eq in E. subst. destruct (split s) as [|w ws] eqn:S; [destruct s as [|x s']; cbn in S; [discriminate|destruct (x =? slash); [discriminate|destruct (split s'); discriminate]]|].
    change (path_of ([] :: w :: ws)) with (slash :: path_of (w :: ws)). rewrite IH. reflexivity.
  - destruct (split s) as [|w ws] eqn:S; [destruct s as [|x s']; cbn in S; [discriminate|destruct (x =? slash); [discriminate|destruct (split s'); discriminate]]|].
    destruct ws; cbn [path_of] in *; rewrite <- IH; reflexivity.
Qed.

(** ** Editing *)

Lemma assign_found : forall hist h name p m id d w a, run hist = OK h -> parameter_find h 0 name = OK (Some p) ->
  nth_error (par_decls hist) p = Some (m, id, d) -> remote_arg d w = Some a -> ~ extreme w ->
  assign_value h 0 name w = run (hist ++ [OSet p a]).
Proof.
  intros hist h name p m id d w a R F D RA X. rewrite run_snoc, R. cbn [rbind run_op]. unfold assign_value. rewrite F. cbn [rbind].
  pose proof (inv_run _ _ R) as I. assert (Hp : (p < length (pars h))%nat) by (rewrite (inv_length _ _ I); apply nth_error_Some; congruence).
  destruct (lt_nth _ _ _ Hp) as (x & Hx). rewrite Hx. destruct (kinds_run _ _ R _ _ Hx) as (m' & id' & d' & D' & K).
  rewrite D in D'. inversion D'; subst m' id' d'.
  destruct (pval x), d; cbn [kinded] in K; try easy; destruct w; cbn [remote_arg] in RA; try discriminate; try (inversion RA; reflexivity).
  destruct (- 2 ^ 31 <=? i0) eqn:A; cbn [andb] in RA; [|discriminate]. destruct (i0 <=? 2 ^ 31 - 1) eqn:B; cbn [andb] in RA; [|discriminate].
  inversion RA; subst. unfold extreme in X.
  assert (i0 <> - 2 ^ 31) by (intros ->; apply X; left; reflexivity). assert (i0 <> 2 ^ 31 - 1) by (intros ->; apply X; right; reflexivity).
  replace (- 2 ^ 31 <? i0) with true by lia. replace (i0 <? 2 ^ 31 - 1) with true by lia. reflexivity.
Qed.
Lemma set_ok : forall hist h p m id d w a, run hist = OK h -> nth_error (par_decls hist) p = Some (m, id, d) ->
  remote_arg d w = Some a -> (forall s, w <> RString s) -> exists h', run (hist ++ [OSet p a]) = OK h'.
Proof.
  intros hist h p m id d w a R D RA NS. destruct (remote_write_succeeds hist h p m id d w a R D RA) as (h' & E).
  - intros buf o s _ ->. destruct (NS s eq_refl).
  - exists h'. rewrite run_snoc, R. exact E.
Qed.
Lemma set_read : forall hist h' p a k, run (hist ++ [OSet p a]) = OK h' -> k <> KStr 0 ->
  parameter_read h' p k = match expected (dim_of (hist ++ [OSet p a]) p) (OSet p a) k with Some g => OK g | None => ASSERT end.
Proof.
  intros hist h' p a k R K. apply read_last; auto. apply last_snoc. left. split; [reflexivity|constructor].
Qed.
Lemma set_others : forall hist h h' p a q k, run hist = OK h -> run (hist ++ [OSet p a]) = OK h' -> q <> p ->
  parameter_read h' q k = parameter_read h q k.
Proof.
  intros hist h h' p a q k R R' Q. rewrite run_snoc, R in R'. cbn [rbind run_op] in R'. apply set_spec in R' as (x & w & _ & _ & _ & _ & U & _).
  unfold parameter_read. rewrite U. destruct (Nat.eqb_spec p q); [congruence|reflexivity].
Qed.
Lemma shows_decl : forall hist h p v m id d, run hist = OK h -> nth_error (par_decls hist) p = Some (m, id, d) -> shows h p v ->
  match v with RReal _ => exists o, d = DScalar o | RInteger _ => exists o, d = DInt o | RBoolean _ => exists o, d = DBool o
  | RString _ => exists b o, d = DStr b o | REmpty => False end.
Proof.
  intros hist h p v m id d R D S. pose proof (inv_run _ _ R) as I.
  assert (Hp : (p < length (pars h))%nat) by (rewrite (inv_length _ _ I); apply nth_error_Some; congruence).
  destruct (lt_nth _ _ _ Hp) as (x & Hx). destruct (kinds_run _ _ R _ _ Hx) as (m' & id' & d' & D' & K).
  rewrite D in D'. inversion D'; subst m' id' d'. unfold shows, parameter_read in S. rewrite Hx in S. unfold load in S.
  destruct v; try easy; destruct (pval x); destruct d; cbn [kinded] in K; try easy; eauto; destruct S as (? & ? & ? & _); discriminate.
Qed.
