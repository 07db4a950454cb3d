From Coq Require Import ZArith List Bool Arith Lia.
From Verif Require Import CBase Buf CmpModel CmpSpec ParamModel ParamSpec ParamProofs ParamProofs2 PmsgModel PmsgSpec PmsgProps YgenModel YgenSpec YgenProofs.
Import ListNotations.
Local Open Scope Z_scope.

Lemma forall2_nth A B (R : A -> B -> Prop) a b : Forall2 R a b -> forall i x, nth_error a i = Some x -> exists y, nth_error b i = Some y /\ R x y.
Proof. induction 1; intros [|i] z; cbn; try discriminate; [intro E; inversion E; subst; eauto|apply IHForall2]. Qed.
Lemma forall2_nth' A B (R : A -> B -> Prop) a b : Forall2 R a b -> forall i y, nth_error b i = Some y -> exists x, nth_error a i = Some x /\ R x y.
Proof. induction 1; intros [|i] z; cbn; try discriminate; [intro E; inversion E; subst; eauto|apply IHForall2]. Qed.

Section Tree.
Variables (l : list (str * yaml)) (ops : list op) (bs : list (list str)) (ls : list (list str * yaml)) (n1 : nat).
Hypothesis E : emit [] 0 l 1 ops bs ls n1.
Hypothesis G : good_items l.
Let hist := ODeclNs None [] :: ops.
Let T := [] :: bs.

Lemma t_run : exists h, run hist = OK h /\ length (nss h) = n1.
Proof.
  unfold hist. change (ODeclNs None [] :: ops) with ([ODeclNs None []] ++ ops). rewrite run_app.
  change (run [ODeclNs None []]) with (OK (mkheap [mkns [] 0 None [] []] [])). eapply emit_runs; eauto.
Qed.

Lemma t_ns : ns_decls hist = (None, []) :: ns_decls ops. Proof. reflexivity. Qed.
Lemma t_par : par_decls hist = par_decls ops. Proof. reflexivity. Qed.

Lemma t_paths : Forall2 (ns_at T) (ns_decls ops) bs /\ Forall2 (par_at T) (par_decls ops) ls.
Proof. destruct (emit_paths _ _ _ _ _ _ _ _ E [[]] []) as [A B]; auto. rewrite app_nil_r in A, B. now split. Qed.

Lemma t_ns_at i m k : nth_error (ns_decls hist) i = Some (Some m, k) ->
  exists p0, nth_error T m = Some p0 /\ nth_error T i = Some (p0 ++ [k]).
Proof.
  rewrite t_ns. destruct i as [|i]; cbn [nth_error]; [discriminate|]. intro H.
  destruct (forall2_nth _ _ _ _ _ (proj1 t_paths) _ _ H) as (path & Hp & m' & k' & p0 & Q & R & ->). injection Q as <- <-. eauto.
Qed.
Lemma t_par_at i m k d : nth_error (par_decls hist) i = Some (m, k, d) ->
  exists p0 v, nth_error T m = Some p0 /\ nth_error ls i = Some (p0 ++ [k], v) /\ declare_of v = Some d.
Proof.
  rewrite t_par. intro H.
  destruct (forall2_nth _ _ _ _ _ (proj2 t_paths) _ _ H) as ([path v] & Hp & m' & k' & p0 & d' & Q & R & F & D). injection Q as <- <- <-.
  cbn in F, D. subst path. eauto.
Qed.

Lemma t_T : NoDup T.
Proof.
  destruct (emit_nodup _ _ _ _ _ _ _ _ E G) as [A _]. constructor; [|exact A]. intro H.
  destruct (emit_under _ _ _ _ _ _ _ _ E _ (or_introl H)) as (k & p & _ & Q). discriminate.
Qed.
Lemma nodup_nth A (L : list A) i j x : NoDup L -> nth_error L i = Some x -> nth_error L j = Some x -> i = j.
Proof. intros N A1 A2. apply (proj1 (NoDup_nth_error L) N); [apply nth_error_Some; congruence|congruence]. Qed.

Lemma t_ids_ok : ids_ok hist.
Proof.
  destruct (emit_keys _ _ _ _ _ _ _ _ E G) as [A B]. split; [constructor; [easy|]|].
  - revert A. apply Forall_impl. now intros d (_ & _ & H).
  - revert B. apply Forall_impl. now intros d (_ & _ & H).
Qed.
Lemma t_distinct : ids_distinct hist.
Proof.
  destruct (emit_keys _ _ _ _ _ _ _ _ E G) as [A B]. rewrite Forall_forall in A, B. repeat split.
  - rewrite t_ns in H. destruct i; [discriminate|]. cbn [nth_error] in H. apply nth_error_In in H. apply A in H. apply H.
  - rewrite t_ns in H. destruct i; [discriminate|]. cbn [nth_error] in H. apply nth_error_In in H. apply A in H. apply H.
  - rewrite t_par in H. apply nth_error_In in H. apply B in H. apply H.
  - rewrite t_par in H. apply nth_error_In in H. apply B in H. apply H.
  - intros i j m id Hi Hj. destruct (t_ns_at _ _ _ Hi) as (p & P1 & Q1), (t_ns_at _ _ _ Hj) as (p' & P2 & Q2).
    rewrite P2 in P1. injection P1 as ->. eapply nodup_nth; eauto. apply t_T.
  - intros i j m id d d' Hi Hj. destruct (t_par_at _ _ _ _ Hi) as (p & v & P1 & Q1 & _), (t_par_at _ _ _ _ Hj) as (p' & v' & P2 & Q2 & _).
    rewrite P2 in P1. injection P1 as ->. destruct (emit_nodup _ _ _ _ _ _ _ _ E G) as [_ N]. eapply nodup_nth; [exact N| |].
    + rewrite nth_error_map, Q1. reflexivity.
    + rewrite nth_error_map, Q2. reflexivity.
Qed.

Lemma t_leads n comps m : leads (ns_decls hist) n comps m -> Forall (fun s => s <> []) comps -> forall q, nth_error T n = Some q -> nth_error T m = Some (q ++ comps).
Proof.
  induction 1 as [|n comps m H IH|n s c comps m Hs [L _] H IH]; intros F q Q.
  - now rewrite app_nil_r.
  - now inversion F.
  - inversion F; subst. destruct (t_ns_at _ _ _ L) as (p0 & P & R). rewrite Q in P. injection P as <-.
    rewrite (IH H3 _ R), <- app_assoc. reflexivity.
Qed.
Lemma t_leads' m : forall comps, nth_error T m = Some comps -> leads (ns_decls hist) 0 comps m.
Proof.
  destruct t_run as (h & R & _). pose proof (inv_run _ _ R) as Iv. pose proof (wf_down _ (i_wf _ _ Iv)) as D. rewrite (i_ns _ _ Iv) in D.
  induction m as [m IH] using (well_founded_induction lt_wf). intros comps H. destruct m as [|m].
  - injection H as <-. constructor.
  - cbn [T nth_error] in H. destruct (forall2_nth' _ _ _ _ _ (proj1 t_paths) _ _ H) as (d & Hd & m' & k & p0 & -> & P & ->).
    change (nth_error (ns_decls hist) (S m) = Some (Some m', k)) in Hd.
    eapply leads_snoc; [apply IH; [eapply D; eauto|exact P]| |].
    + destruct t_distinct as (K & _). now destruct (K _ _ _ Hd).
    + split; [exact Hd|]. intros j Hj. destruct t_distinct as (_ & _ & U & _). rewrite (U _ _ _ _ Hd Hj). lia.
Qed.

Lemma t_names comps last p : Forall (fun s => s <> []) comps -> last <> [] ->
  names hist 0 comps last p <-> exists v, nth_error ls p = Some (comps ++ [last], v).
Proof.
  intros F Hl. split.
  - intros (_ & m & L & [(d & Hd) _]). destruct (t_par_at _ _ _ _ Hd) as (p0 & v & P & Q & _). exists v.
    pose proof (t_leads _ _ _ L F [] eq_refl) as P'. rewrite P' in P. injection P as <-. exact Q.
  - intros [v Hv]. split; [exact Hl|]. destruct (forall2_nth' _ _ _ _ _ (proj2 t_paths) _ _ Hv) as (x & Hx & m & k & p0 & d & -> & P & Q & _).
    cbn in Q. apply app_inj_tail in Q as [<- <-]. exists m. split; [now apply t_leads'|]. split; [now exists d|].
    intros j [d' Hj]. destruct t_distinct as (_ & _ & _ & U). rewrite (U _ _ _ _ _ _ Hx Hj). lia.
Qed.

Lemma t_ls path v : In (path, v) ls <-> entry (YMap l) path v.
Proof.
  rewrite (emit_entries _ _ _ _ _ _ _ _ E). split; [intros (p & -> & H); exact H|intro H; exists path; now split].
Qed.
Lemma t_unassigned p o : ~ last_assignment hist p o.
Proof.
  intros (a & b & Q & As & _). pose proof (emit_no_sets _ _ _ _ _ _ _ _ E) as N.
  assert (I : In o hist) by (rewrite Q; apply in_elt). destruct I as [<-|I]; [inversion As|].
  rewrite Forall_forall in N. apply N in I. inversion As; subst; cbn in I; [easy|congruence].
Qed.

Lemma path_split (path : list str) : path <> [] -> exists comps last, path = comps ++ [last].
Proof. intro H. destruct (exists_last H) as (a & x & ->). eauto. Qed.
Lemma good_zero path : Forall good_key path -> ~ In 0 (path_of path).
Proof. intro F. apply path_nz. revert F. apply Forall_impl. intros s (_ & A & B). now split. Qed.

Lemma t_find h path : run hist = OK h -> path <> [] -> Forall good_key path ->
  match parameter_find h 0 (path_of path) with
  | OK (Some p) => exists v, nth_error ls p = Some (path, v)
  | OK None => forall v, ~ entry (YMap l) path v
  | _ => False
  end.
Proof.
  intros R Ne F. destruct (path_split _ Ne) as (comps & last & ->).
  assert (F1 : Forall (fun s => s <> []) (comps ++ [last])) by (revert F; apply Forall_impl; intros s Hs; apply Hs).
  assert (F2 : Forall (fun s => ~ In slash s) (comps ++ [last])) by (revert F; apply Forall_impl; intros s Hs; apply Hs).
  apply Forall_app in F1 as F3. destruct F3 as [F3 F4]. inversion F4; subst.
  pose proof (find_exact hist h 0 (path_of (comps ++ [last])) comps last R t_ids_ok) as X.
  assert (Lt : (0 < length (ns_decls hist))%nat) by (rewrite t_ns; cbn; lia).
  specialize (X Lt (good_zero _ F) (conj eq_refl F2)).
  destruct (parameter_find h 0 (path_of (comps ++ [last]))) as [[p|]| |]; auto.
  - now apply t_names in X.
  - intros v Hv. apply t_ls in Hv. apply In_nth_error in Hv as [p Hp]. apply (X p). apply t_names; auto. eauto.
Qed.
Lemma t_found h path v : run hist = OK h -> Forall good_key path -> entry (YMap l) path v ->
  exists p m k d, parameter_find h 0 (path_of path) = OK (Some p) /\ nth_error ls p = Some (path, v) /\
    nth_error (par_decls hist) p = Some (m, k, d) /\ declare_of v = Some d.
Proof.
  intros R F H. assert (Ne : path <> []) by (intros ->; inversion H).
  pose proof (t_find h path R Ne F) as X. destruct (parameter_find h 0 (path_of path)) as [[p|]| |]; try easy.
  - destruct X as [v' Hp]. pose proof Hp as Hp2. apply nth_error_In, t_ls in Hp.
    apply t_ls in H. apply t_ls in Hp. apply In_nth_error in H as [q Hq].
    destruct (emit_nodup _ _ _ _ _ _ _ _ E G) as [_ N].
    assert (p = q). { eapply nodup_nth; [exact N| |]; [rewrite nth_error_map, Hp2|rewrite nth_error_map, Hq]; reflexivity. }
    subst q. rewrite Hq in Hp2. injection Hp2 as ->.
    destruct (forall2_nth' _ _ _ _ _ (proj2 t_paths) _ _ Hq) as (x & Hx & m & k & p0 & d & -> & _ & _ & D). exists p, m, k, d. auto.
  - now apply X in H.
Qed.
End Tree.

(** ** Loading *)
Definition arg_of (v : yaml) : arg :=
  match v with
  | YBool b => ABool b | YInt i => AInt i | YFloat x => AScalar x | YStr s => AStr s (length s)
  | _ => ABool false
  end.

Lemma packed_encodes v vb d : declare_of v = Some d -> sendable v -> packed v vb -> encodes d (arg_of v) vb.
Proof.
  destruct v; cbn [declare_of]; intros D S P; inversion D; subst; inversion P; subst; cbn [arg_of]; constructor; auto.
Qed.

Lemma combine_app A B (a a' : list A) (b b' : list B) : length a = length b -> combine (a ++ a') (b ++ b') = combine a b ++ combine a' b'.
Proof. revert b. induction a; intros [|y b]; cbn; intro H; try discriminate; [reflexivity|]. f_equal. apply IHa. lia. Qed.

Lemma emit_document base m l n ops bs ls n' : emit base m l n ops bs ls n' -> forall N0 P0 X Y es, length N0 = n ->
  Forall (fun e => sendable (snd e)) ls -> packed_entries l es ->
  entries (N0 ++ ns_decls ops ++ X) (P0 ++ par_decls ops ++ Y) m (length l)
    (combine (seq (length P0) (length ls)) (map (fun e => arg_of (snd e)) ls)) es.
Proof.
  induction 1 as [|? ? ? ? ? ? ? ? ? ? ? D E IH|? ? ? ? ? ? ? ? ? ? ? ? ? ? E1 IH1 E2 IH2]; intros N0 P0 X Y es L F P.
  - inversion P; subst. constructor.
  - inversion P; subst. inversion F; subst.
    change (par_decls (ODecl m k d :: ops)) with ((m, k, d) :: par_decls ops).
    change (ns_decls (ODecl m k d :: ops)) with (ns_decls ops). cbn [length seq map combine snd].
    eapply ent_param with (id := k) (d := d); [| |eapply packed_encodes; eauto|].
    + rewrite nth_error_app2 by lia. now rewrite Nat.sub_diag.
    + assumption.
    + specialize (IH N0 (P0 ++ [(m, k, d)]) X Y). rewrite app_length, Nat.add_1_r, <- app_assoc in IH. apply IH; auto.
  - change (ns_decls (ODeclNs (Some m) k :: a ++ b)) with ((Some m, k) :: ns_decls (a ++ b)).
    change (par_decls (ODeclNs (Some m) k :: a ++ b)) with (par_decls (a ++ b)).
    rewrite ns_decls_app, par_decls_app. inversion P as [|? ? ? ? vb ? Hh Pv Pr]; subst. inversion Pv as [| | | |? mb bs' Hm Pe]; subst.
    apply Forall_app in F as [F1 F2]. destruct (emit_count _ _ _ _ _ _ _ _ E1) as (C1 & C2 & C3).
    rewrite app_length, seq_app, map_app, combine_app by (now rewrite seq_length, map_length).
    cbn [length]. rewrite <- (app_assoc mb bs').
    eapply ent_child with (m := length N0); [| | | |].
    + rewrite nth_error_app2 by lia. now rewrite Nat.sub_diag.
    + assumption.
    + exact Hm.
    + specialize (IH1 (N0 ++ [(Some m, k)]) P0 (ns_decls b ++ X) (par_decls b ++ Y)).
      rewrite <- !app_assoc in IH1. cbn [app] in IH1. rewrite <- !app_assoc. cbn [app]. rewrite <- !app_assoc.
      apply IH1; auto. rewrite app_length. cbn. lia.
    + specialize (IH2 (N0 ++ [(Some m, k)] ++ ns_decls a) (P0 ++ par_decls a) X Y).
      rewrite (app_length P0), C3 in IH2. rewrite <- !app_assoc in IH2. cbn [app] in IH2. rewrite <- !app_assoc. cbn [app]. rewrite <- !app_assoc.
      apply IH2; auto. rewrite app_length. cbn [length]. lia.
Qed.

Lemma set_last hist sets p a s1 s2 : sets = s1 ++ (p, a) :: s2 -> ~ In p (map fst s2) ->
  last_assignment (hist ++ map (fun x => OSet (fst x) (snd x)) sets) p (OSet p a).
Proof.
  intros -> N. rewrite map_app, app_assoc. cbn [map fst snd]. eexists _, _. split; [reflexivity|]. split; [constructor|].
  intros b1 o' b2 Q As. assert (I : In o' (map (fun x : nat * arg => OSet (fst x) (snd x)) s2)) by (rewrite Q; apply in_elt).
  apply in_map_iff in I as ([q x] & <- & I). inversion As; subst. apply N. apply in_map_iff. now exists (p, x).
Qed.

Lemma seq_combine A (L : list A) : forall q i x, nth_error L i = Some x ->
  exists s1 s2, combine (seq q (length L)) L = s1 ++ ((q + i)%nat, x) :: s2 /\ ~ In (q + i)%nat (map fst s2).
Proof.
  induction L as [|y L IH]; intros q [|i] x; cbn [nth_error]; try discriminate.
  - intro H. injection H as ->. exists [], (combine (seq (S q) (length L)) L). rewrite Nat.add_0_r. split; [reflexivity|].
    intro I. apply in_map_iff in I as ([j z] & E & I). cbn in E. subst j. apply in_combine_l, in_seq in I. lia.
  - intro H. destruct (IH (S q) i x H) as (s1 & s2 & Q & N). exists ((q, y) :: s1), s2. cbn [length seq combine]. rewrite Q.
    rewrite Nat.add_succ_r. split; [reflexivity|exact N].
Qed.

Section Load.
Variables (l : list (str * yaml)) (ops : list op) (bs : list (list str)) (ls : list (list str * yaml)) (n1 : nat).
Hypothesis E : emit [] 0 l 1 ops bs ls n1.
Hypothesis G : good_items l.
Let hist := ODeclNs None [] :: ops.
Definition t_sets (ls : list (list str * yaml)) : list (nat * arg) := combine (seq 0 (length ls)) (map (fun e => arg_of (snd e)) ls).

Lemma t_last p path v : nth_error ls p = Some (path, v) ->
  last_assignment (hist ++ map (fun x => OSet (fst x) (snd x)) (t_sets ls)) p (OSet p (arg_of v)).
Proof.
  intro H. destruct (seq_combine _ (map (fun e => arg_of (snd e)) ls) 0 p (arg_of v)) as (s1 & s2 & Q & N).
  { now rewrite nth_error_map, H. }
  rewrite map_length in Q. eapply set_last; [exact Q|exact N].
Qed.

Lemma t_reads h' p path v k g : run (hist ++ map (fun x => OSet (fst x) (snd x)) (t_sets ls)) = OK h' ->
  nth_error ls p = Some (path, v) -> reads_as v k g -> parameter_read h' p k = OK g.
Proof.
  intros R H Rd. rewrite (read_last _ _ _ _ k R (t_last _ _ _ H)).
  - destruct v, k; cbn in Rd; try easy; try (subst g; reflexivity).
    destruct Rd as [Lt ->]. cbn [arg_of expected text_out]. unfold text_out. destruct (Nat.ltb_spec (length s) out_size); [|lia].
    now rewrite firstn_all.
  - intros ->. destruct v; cbn in Rd; try easy; lia.
Qed.

Lemma t_document bs0 : Forall (fun e => sendable (snd e)) ls -> packed (YMap l) bs0 ->
  document (ns_decls hist) (par_decls hist) 0 (t_sets ls) bs0.
Proof.
  intros F P. inversion P as [| | | |? hd es Hm Pe]; subst. exists (length l), hd, es. split; [exact Hm|]. split; [|reflexivity].
  pose proof (emit_document _ _ _ _ _ _ _ _ E [(None, [])] [] [] [] es eq_refl F Pe) as D. rewrite !app_nil_r in D. exact D.
Qed.
End Load.

(** ** Files *)
Lemma lookup_in l k m : NoDup (map fst l) -> In (k, m) l -> lookup k l = Some m.
Proof.
  induction l as [|[k' v] l IH]; cbn; [easy|]. intros N [Q|I]; inversion N; subst; unfold key_eqb.
  - injection Q as -> ->. destruct (list_eq_dec Z.eq_dec k k); [reflexivity|easy].
  - destruct (list_eq_dec Z.eq_dec k' k); [|auto]. subst. exfalso. apply H1. apply in_map_iff. now exists (k, m).
Qed.

Lemma master_good : good_key master.
Proof. split; [easy|]. split; cbn; intuition discriminate. Qed.

Lemma master_section l m path v : NoDup (map fst l) -> In (master, m) l ->
  master_entry (YMap l) path v <-> entry (YMap [(master, m)]) path v.
Proof.
  intros N I. rewrite entry_cons. split.
  - intros [H (p & ->)]. inversion H as [l0 k0 v0 Hin Nm E1 E2 E3|l0 k0 y0 p0 v0 Hin En E1 E2 E3]; subst.
    + left. pose proof (lookup_in _ _ _ N Hin) as A. rewrite (lookup_in _ _ _ N I) in A. injection A as ->. auto.
    + right. left. pose proof (lookup_in _ _ _ N Hin) as A. rewrite (lookup_in _ _ _ N I) in A. injection A as ->. eauto.
  - intros [(-> & -> & Nm)|[(p & -> & H)|H]].
    + split; [now constructor|now exists []].
    + split; [econstructor; eauto|eauto].
    + now apply no_entry in H.
Qed.

Lemma file_items m : good m -> good_items [(master, m)].
Proof. intro G. split; [repeat constructor; easy|]. repeat constructor; auto; apply master_good. Qed.
Lemma file_map m : good m -> good (YMap [(master, m)]).
Proof. intro G. destruct (file_items m G). constructor; easy. Qed.

Lemma file_generates y : file_ok y -> exists l m ops bs ls n1, y = YMap l /\ NoDup (map fst l) /\ In (master, m) l /\ good m /\
  generate_one y = Some (ODeclNs None [] :: ops) /\ emit [] 0 [(master, m)] 1 ops bs ls n1.
Proof.
  intros (l & m & -> & N & I & Gm). destruct (generated _ (file_map m Gm) _ eq_refl config_name None [] 0) as (a & ba & la & n1 & Q & Em).
  exists l, m, a, ba, la, n1. repeat (split; [auto; fail|]). split; [|exact Em]. unfold generate_one. rewrite (lookup_in _ _ _ N I).
  change (option_map fst (init_code None (parse_tree config_name (YMap [(master, m)])) 0) = Some (ODeclNs None [] :: a)). now rewrite Q.
Qed.

Lemma same_as_all code files c : same_as code files = Some c -> c = code /\ forall y, In y files -> generate_one y = Some code.
Proof.
  induction files as [|y files IH]; cbn [same_as]; intro H.
  - injection H as ->. now split.
  - destruct (generate_one y) as [c'|] eqn:Q; [|discriminate]. destruct (same_code c' code); [|discriminate]. subst c'.
    destruct (IH H) as [-> A]. split; [reflexivity|]. intros z [<-|I]; auto.
Qed.
Lemma generate_all files code : generate files = Some code -> forall y, In y files -> generate_one y = Some code.
Proof.
  destruct files as [|y files]; cbn [generate]; [discriminate|]. destruct (generate_one y) as [c|] eqn:Q; [|discriminate].
  intro H. apply same_as_all in H as [-> A]. intros z [<-|I]; auto.
Qed.

Lemma declare_typed v d : declare_of v = Some d -> typed v d.
Proof. destruct v; cbn; intro H; inversion H; subst; cbn; auto. Qed.
Lemma entry_keys : forall y path v, good y -> entry y path v -> Forall good_key path.
Proof.
  intros y path v G H. induction H as [l k v I N|l k y path v I H IH]; inversion G as [| | | |? _ _ F]; subst; rewrite Forall_forall in F; apply F in I; cbn in I.
  - constructor; [apply I|constructor].
  - constructor; [apply I|]. apply IH, I.
Qed.
Lemma sendable_of m ops bs ls n1 l : emit [] 0 [(master, m)] 1 ops bs ls n1 -> NoDup (map fst l) -> In (master, m) l ->
  (forall path v, master_entry (YMap l) path v -> sendable v) -> Forall (fun e => sendable (snd e)) ls.
Proof.
  intros Em N I S. apply Forall_forall. intros [path v] H. apply (t_ls _ _ _ _ _ Em) in H. cbn. eapply S, master_section; eauto.
Qed.
Lemma master_document_of l m bs : NoDup (map fst l) -> In (master, m) l -> master_document (YMap l) bs -> packed (YMap [(master, m)]) bs.
Proof.
  intros N I (l' & m' & Q & I' & P). injection Q as <-. pose proof (lookup_in _ _ _ N I) as A. rewrite (lookup_in _ _ _ N I') in A. now injection A as ->.
Qed.
