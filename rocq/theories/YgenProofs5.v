From Coq Require Import ZArith List Bool Arith Lia.
From Verif Require Import CBase Buf CmpModel CmpSpec CmpProofs ParamModel ParamSpec ParamProofs ParamProofs2 PmsgModel PmsgSpec PmsgProofs YgenModel YgenSpec YgenProofs YgenProofs2 YgenProofs3 YgenProofs4.
Import ListNotations.
Local Open Scope Z_scope.

Definition still (h : heap) : Prop := Forall (fun x => ncnt x = 0) (nss h).
Lemma upd_forall A (P : A -> Prop) f l i : (forall x, P x -> P (f x)) -> Forall P l -> Forall P (upd l i f).
Proof. intros H F. revert i. induction F; intros [|i]; cbn; constructor; auto. Qed.
Lemma upd_at A (f : A -> A) x b : forall a, upd (a ++ x :: b) (length a) f = a ++ f x :: b.
Proof. induction a; cbn; [reflexivity|]. now rewrite IHa. Qed.
Lemma op_still h o h' : match o with ODeclNs _ _ => True | ODecl _ _ d => has_default d = false | _ => False end ->
  run_op h o = OK h' -> still h -> still h'.
Proof.
  unfold still. intros K R S. destruct o; try easy; cbn [run_op] in R.
  - unfold namespace_declare in R. destruct parent as [m|]; [destruct (m <? length (nss h))%nat; [|discriminate]|]; injection R as <-; cbn [nss].
    + apply Forall_app. split; [|now repeat constructor]. apply upd_forall; auto.
    + apply Forall_app. split; [auto|now repeat constructor].
  - unfold parameter_declare in R. destruct (decl_value d) as [[v b]| |] eqn:D; cbn [rbind] in R; try discriminate.
    destruct (decl_reads d v b m id D) as (Hd & _). rewrite K in Hd. subst b.
    unfold declare in R. destruct (m <? length (nss h))%nat; cbn [rbind] in R; [|discriminate]. injection R as <-. cbn [nss]. apply upd_forall; auto.
Qed.
Lemma runs_still ops : forall h h', Forall (fun o => match o with ODeclNs _ _ => True | ODecl _ _ d => has_default d = false | _ => False end) ops ->
  runs (OK h) ops = OK h' -> still h -> still h'.
Proof.
  induction ops as [|o ops IH]; intros h h' F R S.
  - injection R as <-. exact S.
  - inversion F; subst. rewrite runs_cons in R. destruct (run_op h o) as [h1| |] eqn:E; [|rewrite runs_assert in R; discriminate|rewrite runs_bad in R; discriminate].
    eapply IH; eauto. eapply op_still; eauto.
Qed.

Section Init.
Variables (lm : list (str * yaml)) (ops : list op) (bs : list (list str)) (ls : list (list str * yaml)) (n1 : nat).
Hypothesis E : emit [] 0 [(master, YMap lm)] 1 ops bs ls n1.
Hypothesis G : good (YMap lm).
Let code := ODeclNs None [] :: ops.

Lemma i_two h : run code = OK h -> exists x0 x1, nth_error (nss h) 0 = Some x0 /\ nth_error (nss h) 1 = Some x1.
Proof.
  intro R. destruct (t_run _ _ _ _ _ E) as (h' & R' & L). fold code in R'. rewrite R in R'. injection R' as <-.
  inversion E as [| |? ? ? ? ? ? a ba la m1 b bb lb ? E1 E2]; subst; [discriminate|]. destruct (emit_count _ _ _ _ _ _ _ _ E1) as (C & _). destruct (emit_count _ _ _ _ _ _ _ _ E2) as (C2 & _).
  destruct (nss h) as [|x0 [|x1 q]] eqn:Q; cbn [length] in *; try lia. exists x0, x1. now split.
Qed.
Lemma i_still h : run code = OK h -> still h.
Proof.
  intro R. unfold code in R. change (ODeclNs None [] :: ops) with ([ODeclNs None []] ++ ops) in R. rewrite run_app in R.
  change (run [ODeclNs None []]) with (OK (mkheap [mkns [] 0 None [] []] [])) in R. eapply runs_still; [|exact R|now repeat constructor].
  eapply emit_no_sets; eauto.
Qed.

Lemma i_init h : run code = OK h -> exists t, config_init code = OK (grow t h, (length (nss h), S (length (nss h)), S (S (length (nss h))))) /\ extra h t.
Proof.
  intro R. destruct (i_two h R) as (x0 & x1 & A0 & A1). pose proof (i_still h R) as St. unfold still in St. rewrite Forall_forall in St.
  exists [mkns (nid x0) (ncnt x0) (nparent x0) (S (S (length (nss h))) :: nsubs x0) (nparams x0); x1;
          mkns actuator 0 (Some (length (nss h))) [] []].
  split.
  - unfold config_init. rewrite R. cbn [rbind]. unfold copy_ns. rewrite A0. cbn [rbind nss].
    rewrite nth_error_app1 by (apply nth_error_Some; congruence). rewrite A1. cbn [rbind pars]. unfold namespace_declare. cbn [nss pars].
    rewrite <- app_assoc. cbn [app]. rewrite app_length. cbn [length].
    destruct (Nat.ltb_spec (length (nss h)) (length (nss h) + 2)); [|lia]. cbn [rbind].
    assert (U : upd (nss h ++ [x0; x1]) (length (nss h)) (fun x => mkns (nid x) (ncnt x) (nparent x) ((length (nss h) + 2)%nat :: nsubs x) (nparams x)) =
                nss h ++ [(fun x => mkns (nid x) (ncnt x) (nparent x) ((length (nss h) + 2)%nat :: nsubs x) (nparams x)) x0; x1]).
    { apply upd_at. }
    rewrite U. cbv beta. unfold grow. rewrite <- app_assoc. cbn [app]. now rewrite Nat.add_comm.
  - exists x0, x1, (mkns (nid x0) (ncnt x0) (nparent x0) (S (S (length (nss h))) :: nsubs x0) (nparams x0)), (mkns actuator 0 (Some (length (nss h))) [] []). split; [exact A0|]. split; [exact A1|]. do 5 (split; [reflexivity|]).
    exists x1. split; [reflexivity|]. do 2 (split; [reflexivity|]). cbn [ncnt]. split; [apply St; eapply nth_error_In, A0|apply St; eapply nth_error_In, A1].
Qed.

Lemma i_master : nth_error (ns_decls code) 1 = Some (Some 0%nat, master).
Proof. inversion E; subst; [discriminate|reflexivity]. Qed.
(** The names of the tree, whatever is done with the values. *)
Lemma i_find h t ops' h' : run code = OK h -> extra h t -> Forall usage ops' -> runs (OK h) ops' = OK h' ->
  forall path, path <> [] -> Forall good_key path ->
  parameter_find (grow t h') (length (nss h)) (path_of path) = parameter_find h 0 (path_of path) /\
  parameter_find (grow t h') (S (length (nss h))) (path_of path) = parameter_find h 0 (path_of (master :: path)).
Proof.
  intros R Xt U R' path Ne F. pose proof (runs_same _ _ _ U R') as Sm. pose proof (i_wf _ _ (inv_run _ _ R)) as W.
  pose proof (same_wf _ _ Sm W) as W'. pose proof (extra_same _ _ _ Sm Xt) as X'. rewrite <- (same_len _ _ Sm).
  pose proof (t_find _ _ _ _ _ E (file_items _ G) h path R Ne F) as T. split.
  - rewrite (x_find_g h' t W' X' path Ne F).
    + now apply find_same.
    + intros p q -> Q. rewrite (find_same _ _ _ _ Sm) in Q. rewrite Q in T. destruct T as [v Hv]. apply nth_error_In in Hv.
      apply (t_ls _ _ _ _ _ E) in Hv. apply entry_cons in Hv as [(A & _)|[(p' & A & _)|A]]; [discriminate|discriminate|now apply no_entry in A].
    + rewrite (find_same _ _ _ _ Sm). destruct (parameter_find h 0 (path_of path)); auto.
  - rewrite (x_find_m h' t W' X' path Ne F). rewrite (find_same _ _ _ _ Sm). rewrite find_cons by (auto using master_good).
    pose proof (inv_run _ _ R) as Iv.
    assert (Sb : get_subnamespace h 0 master = OK (Some 1%nat)).
    { pose proof (find_ns code h 0 1 master R (t_ids_ok _ _ _ _ _ E (file_items _ G)) (t_distinct _ _ _ _ _ E (file_items _ G))) as Q.
      assert (L : (0 < length (ns_decls code))%nat) by (unfold code; cbn; lia). specialize (Q L).
      specialize (Q i_master).
      unfold namespace_find, master in Q. cbn [namespace_find_loop] in Q. fold master in Q. change (id_split master) with (master, @None str) in Q. cbv iota in Q.
      destruct (get_subnamespace h 0 master) as [[m|]| |]; cbn [rbind] in Q; try discriminate. exact Q. }
    rewrite Sb. cbn [rbind].
    (* more fuel than needed *)
    assert (Fu : forall f1 f2 H n id, (length id < f1)%nat -> (length id < f2)%nat -> parameter_find_loop f1 H n id = parameter_find_loop f2 H n id).
    { induction f1 as [|f1 IH]; intros f2 H n id H1 H2; [lia|]. destruct f2 as [|f2]; [lia|]. cbn [parameter_find_loop].
      assert (Hs : forall i s r, id_split i = (s, Some r) -> (length r < length i)%nat).
      { induction i as [|c i IHi]; cbn [id_split]; intros s r; [discriminate|]. destruct (c =? slash).
        - intro Q. injection Q as _ <-. cbn. lia.
        - destruct (id_split i) as [a b]. intro Q. injection Q as _ ->. cbn. specialize (IHi a r eq_refl). lia. }
      specialize (Hs id). destruct (id_split id) as [s [r|]]; [|reflexivity]. specialize (Hs s r eq_refl).
      destruct (get_subnamespace H n s) as [[m|]| |]; cbn [rbind]; try reflexivity. apply IH; lia. }
    unfold parameter_find. apply Fu; lia.
Qed.

Lemma i_root_ns m id : nth_error (ns_decls code) m = Some (Some 0%nat, id) -> m = 1%nat /\ id = master.
Proof.
  intro D. destruct (t_ns_at _ _ _ _ _ E _ _ _ D) as (p0 & Q1 & Q2). cbn in Q1. injection Q1 as <-. cbn [app] in Q2.
  assert (id = master) as ->.
  { destruct m as [|m]; [discriminate|]. cbn [nth_error] in Q2. apply nth_error_In in Q2.
    destruct (emit_under _ _ _ _ _ _ _ _ E _ (or_introl Q2)) as (k & p & [<-|[]] & Q). now injection Q as -> _. }
  split; [|reflexivity]. destruct (t_distinct _ _ _ _ _ E (file_items _ G)) as (_ & _ & U & _). exact (U _ _ _ _ D i_master).
Qed.
Lemma i_root_par p id d : nth_error (par_decls code) p = Some (0%nat, id, d) -> False.
Proof.
  intro D. destruct (t_par_at _ _ _ _ _ E _ _ _ _ D) as (p0 & v & Q1 & Q2 & _). cbn in Q1. injection Q1 as <-. cbn [app] in Q2.
  apply nth_error_In, (t_ls _ _ _ _ _ E) in Q2. apply entry_cons in Q2 as [(_ & <- & N)|[(q & Q & H)|H]].
  - now apply N.
  - injection Q as _ <-. inversion H.
  - now apply no_entry in H.
Qed.

(** Loading the section through the copy. *)
Lemma i_load cap i2f h t bs0 rest : run code = OK h -> extra h t -> fits_port cap code ->
  Forall (fun e => sendable (snd e)) ls -> packed (YMap [(master, YMap lm)]) bs0 -> blen (bs0 ++ rest) < 2 ^ 32 ->
  exists h' c, run (code ++ map oset (t_sets ls)) = OK h' /\
    parameter_msgpack_read cap i2f (grow t h) (length (nss h)) (bs0 ++ rest) = RDONE 0 (grow t h') c /\ index c = blen bs0.
Proof.
  intros R Xt FP Se P L. pose proof (i_wf _ _ (inv_run _ _ R)) as W.
  inversion P as [| | | |? hd es MH Pe]; subst.
  pose proof (emit_document _ _ _ _ _ _ _ _ E [(None, [])] [] [] [] es eq_refl Se Pe) as En. rewrite !app_nil_r in En.
  change (entries (ns_decls code) (par_decls code) 0 1 (t_sets ls) es) in En. change (length [(master, YMap lm)]) with 1%nat in MH.
  unfold parameter_msgpack_read, parameter_msgpack_read_cmp.
  set (c := cmp_mem_access_ro_init ((hd ++ es) ++ rest) (blen ((hd ++ es) ++ rest))).
  assert (Hc : here c [] (hd ++ es) rest) by (repeat split; assumption).
  destruct (here_acc _ _ _ _ _ _ _ (map_acc _ _ MH) Hc) as [-> H1]. cbn [moved size].
  destruct (read_entries cap i2f _ _ _ _ _ _ En code h (S (Z.to_nat (size c))) (moved c (blen [] + blen hd)) ([] ++ hd) rest) as (h' & R' & E'); auto.
  { apply (t_ids_ok _ _ _ _ _ E (file_items _ G)). } { apply (t_distinct _ _ _ _ _ E (file_items _ G)). } { unfold code; cbn; lia. }
  { cbn [c cmp_mem_access_ro_init size]. unfold blen. rewrite Nat2Z.id, !app_length. lia. }
  exists h', (moved (moved c (blen [] + blen hd)) (blen ([] ++ hd) + blen es)). split; [exact R'|].
  split; [|cbn [moved index]; rewrite ?blen_app; cbn [app blen length]; unfold blen; cbn; lia].
  change (size (moved c (blen [] + blen hd))) with (size c).
  assert (J1 := H1). assert (E1 := E'). clear H1 E'. set (c1 := moved c (blen [] + blen hd)) in *.
  set (cf := moved c1 (blen ([] ++ hd) + blen es)) in *. clearbody cf.
  (* the only entry *)
  inversion En as [|? ? p id d a hd2 vb sets es2 D SH EN ES|? ? m id hd2 k' mb inner bs' sets es2 D SH MH2 EI ES]; subst.
  { exfalso. eapply i_root_par; eauto. }
  inversion ES; subst. rewrite app_nil_r in *.
  destruct (i_root_ns _ _ D) as [-> ->].
  revert E1. generalize (Z.to_nat (size c)) as fuel. intros fuel. change (Z.of_nat 1) with 1. cbn [read_namespace]. cbn [Z.leb Z.compare].
  destruct (here_acc _ _ _ _ _ _ _ (str_acc _ _ SH) J1) as [-> J2]. destruct (cap <? u32 (blen master + 1)); [discriminate|].
  destruct (here_acc _ _ _ _ _ _ _ (accepts_rd master) J2) as [-> J3].
  destruct (map_obj _ _ MH2) as (o & A & B). destruct (here_acc _ _ _ _ _ _ _ A J3) as [-> J4]. rewrite B.
  assert (N0 : namespace_find h 0 master = OK (Some 1%nat)).
  { apply (find_ns code h 0 1 master R (t_ids_ok _ _ _ _ _ E (file_items _ G)) (t_distinct _ _ _ _ _ E (file_items _ G))); [unfold code; cbn; lia|exact D]. }
  assert (Ng : namespace_find (grow t h) (length (nss h)) master = OK (Some 1%nat)).
  { unfold namespace_find, master in *. cbn [namespace_find_loop] in *. fold master in *. change (id_split master) with (master, @None str) in *. cbv iota in *.
    rewrite (x_sub_g h t W Xt master); [exact N0|easy|cbn; intuition discriminate|easy]. }
  rewrite N0, Ng.
  match goal with |- context [read_namespace cap i2f fuel (grow t h) 1 ?z ?cc] => destruct (g_read_namespace t cap i2f fuel h 1 z cc W) as [A1 _] end.
  { destruct (i_two h R) as (x0 & x1 & _ & X1). apply nth_error_Some. congruence. }
  rewrite A1. destruct (read_namespace cap i2f fuel h 1 (Z.of_nat k') _) as [| | |r h2 c2]; cbn [rrmap and_then]; try discriminate.
  destruct (r =? 0).
  - destruct fuel; cbn [read_namespace Z.sub Z.add Z.leb Z.compare Z.opp Z.pos_sub]; intro Q; injection Q as -> ->; reflexivity.
  - intro Q. injection Q as -> -> ->. reflexivity.
Qed.
End Init.
