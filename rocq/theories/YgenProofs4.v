From Coq Require Import ZArith List Bool Arith Lia.
From Verif Require Import CBase Buf CmpModel CmpSpec CmpProofs ParamModel ParamSpec ParamProofs ParamProofs2 PmsgModel PmsgSpec PmsgProofs YgenModel YgenSpec YgenProofs YgenProofs2 YgenProofs3.
Import ListNotations.
Local Open Scope Z_scope.

(** The objects added by config_init to the tree [h]: the copies of the first two namespaces and a child of the first copy. *)
Definition extra (h : heap) (t : list ns) : Prop :=
  exists x0 x1 y0 act, nth_error (nss h) 0 = Some x0 /\ nth_error (nss h) 1 = Some x1 /\
    nsubs y0 = S (S (length (nss h))) :: nsubs x0 /\ nparams y0 = nparams x0 /\
    nid act = actuator /\ nsubs act = [] /\ nparams act = [] /\
    exists y1, t = [y0; y1; act] /\ nsubs y1 = nsubs x1 /\ nparams y1 = nparams x1 /\ ncnt y0 = 0 /\ ncnt y1 = 0.

Lemma extra_same h h' t : same h h' -> extra h t -> extra h' t.
Proof.
  intros S (x0 & x1 & y0 & act & A0 & A1 & B & C & D1 & D2 & D3 & y1 & E1 & E2 & E3 & E4).
  pose proof (same_len _ _ S) as L. destruct S as [S _].
  pose proof (map_eq_nth _ _ _ _ _ 0%nat S) as P0. pose proof (map_eq_nth _ _ _ _ _ 1%nat S) as P1. rewrite A0 in P0. rewrite A1 in P1.
  destruct (nth_error (nss h') 0) as [z0|] eqn:Z0; [|discriminate]. destruct (nth_error (nss h') 1) as [z1|] eqn:Z1; [|discriminate].
  cbn in P0, P1. injection P0 as _ _ Q1 Q2. injection P1 as _ _ R1 R2.
  exists z0, z1, y0, act. rewrite L, Q1, Q2. repeat (split; [assumption|]). exists y1. rewrite R1, R2. auto.
Qed.

Section Find.
Variables (h : heap) (t : list ns).
Hypotheses (W : wf h) (X : extra h t).
Let g := length (nss h).

Lemma x_nth i y : nth_error t i = Some y -> nth_error (nss (grow t h)) (g + i) = Some y.
Proof. intro H. cbn [grow nss]. rewrite nth_error_app2 by (unfold g; lia). unfold g. now rewrite Nat.add_comm, Nat.add_sub. Qed.

Lemma x_par_g s : get_parameter (grow t h) g s = get_parameter h 0 s.
Proof.
  destruct X as (x0 & x1 & y0 & act & A0 & A1 & B & C & D1 & D2 & D3 & y1 & -> & _). unfold get_parameter.
  replace (nth_error (nss (grow [y0; y1; act] h)) g) with (Some y0) by (symmetry; cbn [grow nss]; rewrite nth_error_app2 by (unfold g; lia); unfold g; now rewrite Nat.sub_diag).
  rewrite A0. destruct s; [reflexivity|]. now rewrite C.
Qed.
Lemma x_par_m s : get_parameter (grow t h) (S g) s = get_parameter h 1 s.
Proof.
  destruct X as (x0 & x1 & y0 & act & A0 & A1 & B & C & D1 & D2 & D3 & y1 & -> & E2 & E3 & _). unfold get_parameter.
  replace (nth_error (nss (grow [y0; y1; act] h)) (S g)) with (Some y1)
    by (symmetry; cbn [grow nss]; rewrite nth_error_app2 by (unfold g; lia); unfold g; now rewrite Nat.sub_succ_l, Nat.sub_diag by lia).
  rewrite A1. destruct s; [reflexivity|]. now rewrite E3.
Qed.
Lemma x_sub_g s : s <> [] -> ~ In 0 s -> s <> actuator -> get_subnamespace (grow t h) g s = get_subnamespace h 0 s.
Proof.
  intros Ne Z0 Na. destruct X as (x0 & x1 & y0 & act & A0 & A1 & B & C & D1 & D2 & D3 & y1 & Et & _). unfold get_subnamespace.
  replace (nth_error (nss (grow t h)) g) with (Some y0) by (symmetry; subst t; cbn [grow nss]; rewrite nth_error_app2 by (unfold g; lia); unfold g; now rewrite Nat.sub_diag).
  rewrite A0. destruct s; [easy|]. rewrite B. cbn [find_first].
  replace (nth_error (nss (grow t h)) (S (S (length (nss h))))) with (Some act)
    by (symmetry; subst t; cbn [grow nss]; rewrite nth_error_app2 by lia; now replace (S (S (length (nss h))) - length (nss h))%nat with 2%nat by lia).
  cbn [option_map]. rewrite D1, matches_eq; [|exact Z0|cbn; intuition discriminate].
  destruct (list_eq_dec Z.eq_dec actuator (z :: s)); [congruence|]. cbn [rbind].
  apply find_first_ext. intros i Hi. rewrite g_nth; [reflexivity|]. eapply subs_lt; [exact W| |exact Hi]; eassumption.
Qed.
Lemma x_sub_act : get_subnamespace (grow t h) g actuator = OK (Some (S (S g))).
Proof.
  destruct X as (x0 & x1 & y0 & act & A0 & A1 & B & C & D1 & D2 & D3 & y1 & Et & _). unfold get_subnamespace, actuator. fold actuator.
  replace (nth_error (nss (grow t h)) g) with (Some y0) by (symmetry; subst t; cbn [grow nss]; rewrite nth_error_app2 by (unfold g; lia); unfold g; now rewrite Nat.sub_diag).
  rewrite B. cbn [find_first].
  replace (nth_error (nss (grow t h)) (S (S (length (nss h))))) with (Some act)
    by (symmetry; subst t; cbn [grow nss]; rewrite nth_error_app2 by lia; now replace (S (S (length (nss h))) - length (nss h))%nat with 2%nat by lia).
  cbn [option_map]. rewrite D1, matches_eq; [|cbn; intuition discriminate|cbn; intuition discriminate].
  destruct (list_eq_dec Z.eq_dec actuator actuator); [reflexivity|congruence].
Qed.
Lemma x_sub_m s : s <> [] -> get_subnamespace (grow t h) (S g) s = get_subnamespace h 1 s.
Proof.
  intros Ne. destruct X as (x0 & x1 & y0 & act & A0 & A1 & B & C & D1 & D2 & D3 & y1 & Et & E2 & E3 & _). unfold get_subnamespace.
  replace (nth_error (nss (grow t h)) (S g)) with (Some y1)
    by (symmetry; subst t; cbn [grow nss]; rewrite nth_error_app2 by (unfold g; lia); unfold g; now rewrite Nat.sub_succ_l, Nat.sub_diag by lia).
  rewrite A1. destruct s; [easy|]. rewrite E2. apply find_first_ext. intros i Hi. rewrite g_nth; [reflexivity|]. eapply subs_lt; [exact W| |exact Hi]; eassumption.
Qed.

Lemma x_act_find id fuel : (length id < fuel)%nat -> match parameter_find_loop fuel (grow t h) (S (S g)) id with OK None => True | _ => False end.
Proof.
  destruct X as (x0 & x1 & y0 & act & A0 & A1 & B & C & D1 & D2 & D3 & y1 & Et & _).
  assert (N : nth_error (nss (grow t h)) (S (S g)) = Some act)
    by (subst t; cbn [grow nss]; rewrite nth_error_app2 by (unfold g; lia); unfold g; now replace (S (S (length (nss h))) - length (nss h))%nat with 2%nat by lia).
  revert id. induction fuel as [|fuel IH]; intros id Hf; [lia|]. cbn [parameter_find_loop].
  assert (Hs : forall i s r, id_split i = (s, Some r) -> (length r < length i)%nat).
  { induction i as [|c i IHi]; cbn [id_split]; intros s r; [discriminate|]. destruct (c =? slash).
    - intro H. injection H as _ <-. cbn. lia.
    - destruct (id_split i) as [a b]. intro H. injection H as _ ->. cbn. specialize (IHi a r eq_refl). lia. }
  specialize (Hs id). destruct (id_split id) as [s [r|]].
  - specialize (Hs s r eq_refl). unfold get_subnamespace. rewrite N. destruct s; cbn [rbind].
    + apply IH. lia.
    + rewrite D2. exact I.
  - unfold get_parameter. rewrite N. destruct s; [exact I|]. rewrite D3. exact I.
Qed.

Lemma find_cons H n k path : good_key k -> path <> [] -> parameter_find H n (path_of (k :: path)) =
  try r := get_subnamespace H n k in match r with None => OK None | Some m => parameter_find_loop (S (length k + length (path_of path))) H m (path_of path) end.
Proof.
  intros (Ne & Sl & _) P. rewrite path_cons by auto. unfold parameter_find. cbn [parameter_find_loop]. rewrite split_mid by auto.
  destruct (get_subnamespace H n k) as [[m|]| |]; cbn [rbind]; try reflexivity.
  replace (length (k ++ slash :: path_of path)) with (S (length k + length (path_of path))); [reflexivity|]. rewrite app_length. cbn [length]. lia.
Qed.

Lemma x_find_g path : path <> [] -> Forall good_key path -> (forall p q, path = actuator :: p -> parameter_find h 0 (path_of path) <> OK (Some q)) ->
  match parameter_find h 0 (path_of path) with OK _ => True | _ => False end ->
  parameter_find (grow t h) g (path_of path) = parameter_find h 0 (path_of path).
Proof.
  intros Ne F Na Ok. destruct path as [|k path]; [easy|]. inversion F as [|? ? Gk F']; subst. pose proof Gk as (K1 & K2 & K3).
  destruct path as [|k' path].
  - cbn [path_of]. unfold parameter_find. cbn [parameter_find_loop]. rewrite split_last by auto. apply x_par_g.
  - destruct (list_eq_dec Z.eq_dec k actuator) as [->|Nk].
    + specialize (Na (k' :: path)). destruct (parameter_find h 0 (path_of (actuator :: k' :: path))) as [[q|]| |]; try easy.
      * now destruct (Na q eq_refl).
      * rewrite find_cons, x_sub_act by easy. cbn [rbind].
        pose proof (x_act_find (path_of (k' :: path)) (S (length actuator + length (path_of (k' :: path))))) as Q.
        assert (L : (length (path_of (k' :: path)) < S (length actuator + length (path_of (k' :: path))))%nat) by lia. specialize (Q L).
        destruct (parameter_find_loop _ (grow t h) (S (S g)) _) as [[]| |]; easy.
    + rewrite !find_cons by easy. rewrite x_sub_g by auto. destruct (get_subnamespace h 0 k) as [[m|]| |] eqn:E; cbn [rbind]; try reflexivity.
      apply g_find_loop; auto. eapply sub_lt; eauto. destruct X as (x0 & x1 & ? & ? & A0 & _). apply nth_error_Some. congruence.
Qed.
Lemma x_find_m path : path <> [] -> Forall good_key path -> parameter_find (grow t h) (S g) (path_of path) = parameter_find h 1 (path_of path).
Proof.
  intros Ne F. destruct path as [|k path]; [easy|]. inversion F as [|? ? Gk F']; subst. pose proof Gk as (K1 & K2 & K3).
  destruct path as [|k' path].
  - cbn [path_of]. unfold parameter_find. cbn [parameter_find_loop]. rewrite split_last by auto. apply x_par_m.
  - rewrite !find_cons by easy. rewrite x_sub_m by auto. destruct (get_subnamespace h 1 k) as [[m|]| |] eqn:E; cbn [rbind]; try reflexivity.
    apply g_find_loop; auto. eapply sub_lt; eauto. destruct X as (x0 & x1 & ? & ? & A0 & A1 & _). apply nth_error_Some. congruence.
Qed.
End Find.

(** ** Uses after config_init *)
Lemma g_op t h o : wf h -> usage o -> run_op (grow t h) o = rmap (grow t) (run_op h o).
Proof.
  intros W U. destruct o; try easy; cbn [run_op].
  - now apply g_set.
  - rewrite g_get by auto. destruct (parameter_get h p k) as [[h1 x]| |]; reflexivity.
  - rewrite g_read. destruct (parameter_read h p k); reflexivity.
Qed.
Lemma op_same h o h' : usage o -> run_op h o = OK h' -> same h h'.
Proof.
  intros U. destruct o; try easy; cbn [run_op].
  - intro R. apply set_spec in R as (x & v & _ & _ & S & _). exact S.
  - unfold parameter_get. destruct (changed_clear h p) as [h1| |] eqn:E; cbn [rbind]; try discriminate.
    destruct (parameter_read h1 p k); cbn [rbind]; try discriminate. intro R. injection R as <-. apply changed_clear_spec in E as (x & _ & S & _). exact S.
  - destruct (parameter_read h p k); cbn [rbind]; try discriminate. intro R. injection R as <-. apply same_refl.
Qed.
Lemma runs_bad ops : runs BAD ops = BAD. Proof. induction ops; [reflexivity|exact IHops]. Qed.
Lemma runs_assert ops : runs ASSERT ops = ASSERT. Proof. induction ops; [reflexivity|exact IHops]. Qed.
Lemma runs_cons h o ops : runs (OK h) (o :: ops) = runs (run_op h o) ops. Proof. reflexivity. Qed.
Lemma g_runs t ops : forall h, wf h -> Forall usage ops -> runs (OK (grow t h)) ops = rmap (grow t) (runs (OK h) ops).
Proof.
  induction ops as [|o ops IH]; intros h W U; [reflexivity|]. inversion U; subst. rewrite !runs_cons, g_op by auto.
  destruct (run_op h o) as [h1| |] eqn:E; cbn [rmap].
  - apply IH; auto. eapply same_wf; [eapply op_same; eauto|auto].
  - now rewrite !runs_assert.
  - now rewrite !runs_bad.
Qed.
Lemma runs_same ops : forall h h', Forall usage ops -> runs (OK h) ops = OK h' -> same h h'.
Proof.
  induction ops as [|o ops IH]; intros h h' U.
  - intro H. injection H as ->. apply same_refl.
  - inversion U; subst. rewrite runs_cons. destruct (run_op h o) as [h1| |] eqn:E; [|rewrite runs_assert; discriminate|rewrite runs_bad; discriminate].
    intro R. eapply same_trans; [eapply op_same; eauto|eauto].
Qed.

Lemma usage_decls hist ops : Forall usage ops -> ns_decls (hist ++ ops) = ns_decls hist /\ par_decls (hist ++ ops) = par_decls hist.
Proof.
  intro U. rewrite ns_decls_app, par_decls_app. assert (A : ns_decls ops = [] /\ par_decls ops = []).
  { induction U as [|o ops Uo _ [A B]]; [now split|]. destruct o; cbn in Uo; try easy. }
  destruct A as [-> ->]. now rewrite !app_nil_r.
Qed.
Lemma find_same h h' n id : same h h' -> parameter_find h' n id = parameter_find h n id.
Proof.
  intro Sm. unfold parameter_find. generalize (S (length id)) as fuel. intro fuel. revert n id.
  assert (Ns : forall n s, get_subnamespace h' n s = get_subnamespace h n s).
  { intros n s. unfold get_subnamespace. destruct Sm as [S _]. pose proof (map_eq_nth _ _ _ _ _ n S) as P.
    destruct (nth_error (nss h') n) as [x'|], (nth_error (nss h) n) as [x|]; cbn in P; try discriminate; [|now destruct s].
    injection P as _ _ Q _. destruct s; [reflexivity|]. rewrite Q. apply find_first_ext. intros i _. pose proof (map_eq_nth _ _ _ _ _ i S) as P.
    destruct (nth_error (nss h') i), (nth_error (nss h) i); cbn in P; try discriminate; [|reflexivity]. injection P as _ E _ _. cbn. now rewrite E. }
  assert (Ps : forall n s, get_parameter h' n s = get_parameter h n s).
  { intros n s. unfold get_parameter. destruct Sm as [S1 S]. pose proof (map_eq_nth _ _ _ _ _ n S1) as P.
    destruct (nth_error (nss h') n) as [x'|], (nth_error (nss h) n) as [x|]; cbn in P; try discriminate; [|now destruct s].
    injection P as _ _ _ Q. destruct s; [reflexivity|]. rewrite Q. apply find_first_ext. intros i _. pose proof (map_eq_nth _ _ _ _ _ i S) as P.
    destruct (nth_error (pars h') i), (nth_error (pars h) i); cbn in P; try discriminate; [|reflexivity]. injection P as E _. cbn. now rewrite E. }
  induction fuel as [|fuel IH]; intros n id; cbn [parameter_find_loop]; [reflexivity|].
  destruct (id_split id) as [s [r|]]; [|apply Ps]. rewrite Ns. destruct (get_subnamespace h n s) as [[m|]| |]; cbn [rbind]; auto.
Qed.
