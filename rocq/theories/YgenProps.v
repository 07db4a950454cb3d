(** Theorems about the configuration tree generated from the YAML files (C100) and about its use on the master
    (C101). *)
From Coq Require Import ZArith List Bool Arith Lia.
From Verif Require Import CBase Buf CmpModel CmpSpec CmpProofs ParamModel ParamSpec ParamProofs ParamProofs2 PmsgModel PmsgSpec PmsgProofs YgenModel YgenSpec YgenProofs YgenProofs2 YgenProofs3 YgenProofs4 YgenProofs5.
Import ListNotations.
Local Open Scope Z_scope.

(** ** The generator *)

(** The tree made by the generated code has exactly the entries of the section [master] of the file, under the
    same paths and with the types of their values; none of them has a value yet. *)
Theorem ygen_exact y : file_ok y -> exists code h, generate_one y = Some code /\ run code = OK h /\
  forall path, path <> [] -> Forall good_key path ->
    match parameter_find h 0 (path_of path) with
    | OK (Some p) => exists v m k d, master_entry y path v /\ nth_error (par_decls code) p = Some (m, k, d) /\ typed v d /\
                       parameter_defined h p = OK false
    | OK None => forall v, ~ master_entry y path v
    | _ => False
    end.
Proof.
  intro F. destruct (file_generates y F) as (l & m & ops & bs & ls & n1 & -> & ND & Hm & Gm & GE & E).
  destruct (t_run _ _ _ _ _ E) as (h & R & _). exists (ODeclNs None [] :: ops), h. split; [exact GE|]. split; [exact R|].
  intros path Ne K. pose proof (t_find _ _ _ _ _ E (file_items _ Gm) h path R Ne K) as T.
  destruct (parameter_find h 0 (path_of path)) as [[p|]| |] eqn:Q; try exact T.
  - destruct T as (v & Hv). pose proof (nth_error_In _ _ Hv) as Hi. apply (t_ls _ _ _ _ _ E) in Hi.
    destruct (t_found _ _ _ _ _ E (file_items _ Gm) h path v R K Hi) as (p' & m' & k & d & Q' & _ & Hd & D).
    rewrite Q in Q'. injection Q' as <-. exists v, m', k, d. split; [now apply master_section with (m := m)|].
    split; [exact Hd|]. split; [now apply declare_typed|]. unfold parameter_defined.
    pose proof (inv_run _ _ R) as Iv. destruct (nth_error (pars h) p) as [x|] eqn:X.
    + f_equal. destruct (pdefined x) eqn:Dx; [|reflexivity]. destruct (i_def _ _ Iv p x X Dx) as (o & Lo).
      now apply (t_unassigned _ _ _ _ _ E) in Lo.
    + exfalso. pose proof (inv_length _ _ Iv) as Np. apply nth_error_None in X. assert (p < length (par_decls (ODeclNs None [] :: ops)))%nat by (apply nth_error_Some; congruence). lia.
  - intros v Hv. apply (T v). now apply master_section with (l := l).
Qed.
Print Assumptions ygen_exact.

(** Every parameter of the tree is an entry of the file, and different entries have different parameters. *)
Theorem ygen_no_more y code h p : file_ok y -> generate_one y = Some code -> run code = OK h -> (p < length (pars h))%nat ->
  exists path, path <> [] /\ Forall good_key path /\ parameter_find h 0 (path_of path) = OK (Some p) /\ (exists v, master_entry y path v) /\
    forall path', path' <> [] -> Forall good_key path' -> parameter_find h 0 (path_of path') = OK (Some p) -> path' = path.
Proof.
  intros F GE' R Hp. destruct (file_generates y F) as (l & m & ops & bs & ls & n1 & -> & ND & Hm & Gm & GE & E).
  rewrite GE in GE'. injection GE' as <-. pose proof (inv_run _ _ R) as Iv. rewrite (inv_length _ _ Iv) in Hp.
  destruct (nth_error (par_decls (ODeclNs None [] :: ops)) p) as [[[m0 k] d]|] eqn:D; [|apply nth_error_None in D; lia].
  destruct (t_par_at _ _ _ _ _ E _ _ _ _ D) as (p0 & v & _ & Q & _). set (path := p0 ++ [k]) in *.
  pose proof (nth_error_In _ _ Q) as Hi. apply (t_ls _ _ _ _ _ E) in Hi. pose proof (entry_keys _ _ _ (file_map _ Gm) Hi) as K.
  assert (Ne : path <> []) by (intro H; destruct p0; discriminate).
  destruct (t_found _ _ _ _ _ E (file_items _ Gm) h path v R K Hi) as (p' & m' & k' & d' & Q' & Q2 & _).
  assert (p' = p) as ->.
  { destruct (emit_nodup _ _ _ _ _ _ _ _ E (file_items _ Gm)) as [_ NB]. eapply nodup_nth; [exact NB| |]; erewrite map_nth_error; eauto. }
  exists path. split; [exact Ne|]. split; [exact K|]. split; [exact Q'|].
  split; [exists v; now apply master_section with (m := m)|]. intros path' Ne' K' Qf.
  pose proof (t_find _ _ _ _ _ E (file_items _ Gm) h path' R Ne' K') as T. rewrite Qf in T. destruct T as [v' Hv']. congruence.
Qed.
Print Assumptions ygen_no_more.

(** When the generator accepts several files, they have the same entries, with the same types: the code
    generated from one of them is right for the others. *)
Theorem ygen_agree files code y1 y2 path v1 : generate files = Some code -> In y1 files -> In y2 files -> file_ok y1 -> file_ok y2 ->
  master_entry y1 path v1 -> exists v2, master_entry y2 path v2 /\ same_type v1 v2.
Proof.
  intros GA I1 I2 F1 F2 M.
  destruct (file_generates y1 F1) as (l & m & ops & bs & ls & n1 & -> & ND & Hm & Gm & GE & E).
  destruct (file_generates y2 F2) as (l2 & m2 & ops2 & bs2 & ls2 & n2 & -> & ND2 & Hm2 & Gm2 & GE2 & E2).
  rewrite (generate_all _ _ GA _ I1) in GE. rewrite (generate_all _ _ GA _ I2) in GE2. rewrite GE in GE2. injection GE2 as <-.
  destruct (t_run _ _ _ _ _ E) as (h & R & _).
  assert (Hi : entry (YMap [(master, m)]) path v1) by now apply (master_section l).
  pose proof (entry_keys _ _ _ (file_map _ Gm) Hi) as K.
  destruct (t_found _ _ _ _ _ E (file_items _ Gm) h path v1 R K Hi) as (p & m' & k & d & Q & _ & Hd & D).
  assert (Ne : path <> []) by (intros ->; inversion Hi).
  pose proof (t_find _ _ _ _ _ E2 (file_items _ Gm2) h path R Ne K) as T. rewrite Q in T. destruct T as [v2 Hv].
  assert (Hi2 : entry (YMap [(master, m2)]) path v2) by (apply (t_ls _ _ _ _ _ E2); eapply nth_error_In, Hv).
  exists v2. split; [now apply master_section with (m := m2)|].
  destruct (t_found _ _ _ _ _ E2 (file_items _ Gm2) h path v2 R K Hi2) as (p' & m3 & k' & d' & Q' & _ & Hd' & D').
  rewrite Q in Q'. injection Q' as <-. rewrite Hd in Hd'. injection Hd' as _ _ <-. destruct v1, v2; cbn in D, D'; try discriminate; try exact I; congruence.
Qed.
Print Assumptions ygen_agree.

(** ** The configuration of the master *)

Lemma config_generates y : config_ok y -> exists l lm ops bs ls n1, y = YMap l /\ NoDup (map fst l) /\ In (master, YMap lm) l /\ good (YMap lm) /\
  generate_one y = Some (ODeclNs None [] :: ops) /\ emit [] 0 [(master, YMap lm)] 1 ops bs ls n1.
Proof.
  intros (l & lm & -> & ND & Hm & Gm). destruct (file_generates (YMap l)) as (l' & m & ops & bs & ls & n1 & Q & ND' & Hm' & Gm' & GE & E).
  { exists l, (YMap lm). auto. }
  injection Q as <-. pose proof (lookup_in _ _ _ ND Hm) as L1. rewrite (lookup_in _ _ _ ND Hm') in L1. injection L1 as ->.
  exists l, lm, ops, bs, ls, n1. do 5 (split; [auto|]). exact E.
Qed.
Lemma get_of_read h p k g : parameter_read h p k = OK g -> exists h', parameter_get h p k = OK (h', g).
Proof.
  intro R. unfold parameter_get. destruct (changed_clear h p) as [h1| |] eqn:C.
  - exists h1. cbn [rbind]. apply changed_clear_spec in C as (x & F & _ & _ & N & _). unfold parameter_read in *. rewrite N, Nat.eqb_refl.
    rewrite F in R. rewrite load_loads in *. cbn [pdefined pval]. now rewrite R.
  - unfold changed_clear in C. destruct (nth_error (pars h) p) as [[? ? [] ? ?]|]; discriminate.
  - unfold changed_clear in C. unfold parameter_read in R. destruct (nth_error (pars h) p) as [[? ? [] ? ?]|]; discriminate.
Qed.

(** After config_init, and whatever values are then written and read, every entry of the section [master] is
    found by its path in global_config, and by its path without the first name in master_config; no other path
    is found. *)
Theorem config_lookup y : config_ok y ->
  exists code h g, generate_one y = Some code /\ config_init code = OK (h, (g, S g, S (S g))) /\
  forall ops h', Forall usage ops -> run_from h ops = OK h' -> forall path, path <> [] -> Forall good_key path ->
    match parameter_find h' g (path_of path) with
    | OK (Some p) => exists v m k d, master_entry y path v /\ nth_error (par_decls code) p = Some (m, k, d) /\ typed v d
    | OK None => forall v, ~ master_entry y path v
    | _ => False
    end /\
    parameter_find h' (S g) (path_of path) = parameter_find h' g (path_of (master :: path)).
Proof.
  intro F. destruct (config_generates y F) as (l & lm & ops & bs & ls & n1 & -> & ND & Hm & Gm & GE & E).
  destruct (t_run _ _ _ _ _ E) as (h & R & _). destruct (i_init _ _ _ _ _ E h R) as (t & CI & Xt).
  exists (ODeclNs None [] :: ops), (grow t h), (length (nss h)). split; [exact GE|]. split; [exact CI|].
  intros us h' U R' path Ne K. pose proof (i_wf _ _ (inv_run _ _ R)) as W. change (run_from (grow t h) us) with (runs (OK (grow t h)) us) in R'.
  rewrite (g_runs t us h W U) in R'. destruct (runs (OK h) us) as [h1| |] eqn:R1; try discriminate. injection R' as <-.
  destruct (i_find _ _ _ _ _ E Gm h t us h1 R Xt U R1 path Ne K) as [A B].
  destruct (i_find _ _ _ _ _ E Gm h t us h1 R Xt U R1 (master :: path)) as [A' _]; [discriminate|constructor; [apply master_good|exact K]|].
  rewrite B, A', A. split; [|reflexivity].
  pose proof (t_find _ _ _ _ _ E (file_items _ Gm) h path R Ne K) as T.
  destruct (parameter_find h 0 (path_of path)) as [[p|]| |] eqn:Q; try exact T.
  - destruct T as (v & Hv). pose proof (nth_error_In _ _ Hv) as Hi. apply (t_ls _ _ _ _ _ E) in Hi.
    destruct (t_found _ _ _ _ _ E (file_items _ Gm) h path v R K Hi) as (p' & m' & k & d & Q' & _ & Hd & D).
    rewrite Q in Q'. injection Q' as <-. exists v, m', k, d. split; [now apply master_section with (m := YMap lm)|].
    split; [exact Hd|]. now apply declare_typed.
  - intros v Hv. apply (T v). now apply master_section with (l := l).
Qed.
Print Assumptions config_lookup.

(** The copies made by config_init change nothing to the parameters: after any writes and reads, each of them
    reads as in the tree of the generated code used directly, and the namespaces of the tree report the same
    changes. But the copies themselves, global_config and master_config, never report any change. *)
Theorem config_transparent y code h g ops : config_ok y -> generate_one y = Some code -> config_init code = OK (h, (g, S g, S (S g))) ->
  Forall usage ops ->
  match run (code ++ ops), run_from h ops with
  | OK h1, OK h2 =>
      (forall p k, parameter_read h2 p k = parameter_read h1 p k) /\
      (forall p, parameter_changed h2 p = parameter_changed h1 p) /\
      (forall n, (n < length (ns_decls code))%nat -> namespace_contains_changed h2 n = namespace_contains_changed h1 n) /\
      namespace_contains_changed h2 g = OK false /\ namespace_contains_changed h2 (S g) = OK false
  | ASSERT, ASSERT | BAD, BAD => True
  | _, _ => False
  end.
Proof.
  intros F GE' CI' U. destruct (config_generates y F) as (l & lm & ops0 & bs & ls & n1 & -> & ND & Hm & Gm & GE & E).
  rewrite GE in GE'. injection GE' as <-. destruct (t_run _ _ _ _ _ E) as (h0 & R & _). destruct (i_init _ _ _ _ _ E h0 R) as (t & CI & Xt).
  rewrite CI in CI'. injection CI' as <- <-. pose proof (inv_run _ _ R) as Iv. pose proof (i_wf _ _ Iv) as W.
  rewrite run_app, R. change (run_from (grow t h0) ops) with (runs (OK (grow t h0)) ops). rewrite (g_runs t ops h0 W U).
  destruct (runs (OK h0) ops) as [h1| |] eqn:R1; cbn [rmap]; auto. pose proof (runs_same _ _ _ U R1) as Sm.
  split; [reflexivity|]. split; [reflexivity|]. split.
  - intros n Hn. unfold namespace_contains_changed. rewrite g_nth; [reflexivity|]. rewrite (same_len _ _ Sm).
    pose proof (i_ns _ _ Iv) as Sh. apply (f_equal (@length _)) in Sh. unfold shape in Sh. rewrite map_length in Sh. lia.
  - destruct (extra_same _ _ _ Sm Xt) as (x0 & x1 & y0 & act & _ & _ & _ & _ & _ & _ & _ & y1 & -> & _ & _ & C0 & C1).
    unfold namespace_contains_changed. cbn [grow nss]. rewrite <- (same_len _ _ Sm). split.
    + rewrite nth_error_app2, Nat.sub_diag by lia. cbn [nth_error]. now rewrite C0.
    + rewrite nth_error_app2 by lia. replace (S (length (nss h1)) - length (nss h1))%nat with 1%nat by lia. cbn [nth_error]. now rewrite C1.
Qed.
Print Assumptions config_transparent.

(** Loading the document of the section [master] through global_config succeeds, consumes exactly the document
    and gives every parameter the value of the file, as read by the functions of config.c. *)
Theorem config_load cap i2f y bs rest : config_ok y -> (forall path v, master_entry y path v -> sendable v) ->
  (forall code, generate_one y = Some code -> fits_port cap code) -> master_document y bs -> blen (bs ++ rest) < 2 ^ 32 ->
  exists code h g h' c, generate_one y = Some code /\ config_init code = OK (h, (g, S g, S (S g))) /\
    parameter_msgpack_read cap i2f h g (bs ++ rest) = RDONE 0 h' c /\ index c = blen bs /\
    forall path v k x, master_entry y path v -> reads_as v k x -> exists h'', config_get h' g (path_of path) k = OK (Some (h'', x)).
Proof.
  intros F Se FP MD L. destruct (config_generates y F) as (l & lm & ops & bs' & ls & n1 & -> & ND & Hm & Gm & GE & E).
  destruct (t_run _ _ _ _ _ E) as (h & R & _). destruct (i_init _ _ _ _ _ E h R) as (t & CI & Xt).
  destruct (i_load _ _ _ _ _ E Gm cap i2f h t bs rest R Xt (FP _ GE)) as (h' & c & R' & Rd & Ix); auto.
  { eapply sendable_of; eauto. } { eapply master_document_of; eauto. }
  exists (ODeclNs None [] :: ops), (grow t h), (length (nss h)), (grow t h'), c. do 4 (split; [assumption|]).
  intros path v k x M Rv. assert (Hi : entry (YMap [(master, YMap lm)]) path v) by now apply (master_section l).
  pose proof (entry_keys _ _ _ (file_map _ Gm) Hi) as K. assert (Ne : path <> []) by (intros ->; inversion Hi).
  destruct (t_found _ _ _ _ _ E (file_items _ Gm) h path v R K Hi) as (p & m' & k' & d & Q & Q2 & _).
  rewrite run_app, R in R'.
  assert (Us : Forall usage (map oset (t_sets ls))) by (apply Forall_map, Forall_forall; intros; exact I).
  destruct (i_find _ _ _ _ _ E Gm h t _ h' R Xt Us R' path Ne K) as [A _].
  unfold config_get, config_get_param. rewrite A, Q. cbn [rbind].
  assert (Pr : parameter_read h' p k = OK x).
  { eapply (t_reads ops ls h' p path v k x); eauto. rewrite run_app, R. exact R'. }
  destruct (get_of_read (grow t h') p k x) as (h'' & ->); [exact Pr|]. cbn [rbind]. eauto.
Qed.
Print Assumptions config_load.

(** Asking for a path that is not in the file stops the program ([None]), and never reads anything else. *)
Theorem config_unknown y code h g ops h' path k : config_ok y -> generate_one y = Some code ->
  config_init code = OK (h, (g, S g, S (S g))) -> Forall usage ops -> run_from h ops = OK h' ->
  path <> [] -> Forall good_key path -> (forall v, ~ master_entry y path v) -> config_get h' g (path_of path) k = OK None.
Proof.
  intros F GE CI U R Ne K N. destruct (config_lookup y F) as (code' & h0 & g' & GE' & CI' & H).
  rewrite GE in GE'. injection GE' as <-. rewrite CI in CI'. injection CI' as <- <-. destruct (H ops h' U R path Ne K) as [T _].
  unfold config_get, config_get_param. destruct (parameter_find h' g (path_of path)) as [[p|]| |]; try easy.
  destruct T as (v & m & k' & d & M & _). now apply N in M.
Qed.
Print Assumptions config_unknown.

(** ** A concrete case *)

Definition ex_file : yaml :=
  YMap [(master, YMap [([97], YInt (-3)); ([98], YMap [([99], YFloat 0x3F800000); ([100], YBool true)]); ([101], YStr [120; 121])]);
        (actuator, YOther)].
Definition ex_doc : list Z :=
  [0x81; 0xA6] ++ master ++
  [0x83; 0xA1; 97; 0xFD; 0xA1; 98; 0x82; 0xA1; 99; 0xCA; 0x3F; 0x80; 0; 0; 0xA1; 100; 0xC3; 0xA1; 101; 0xA2; 120; 121].

Lemma ex_key k : (0 <? Z.of_nat (length k)) && forallb (fun c => negb (c =? slash) && negb (c =? 0)) k = true -> good_key k.
Proof.
  intro H. apply andb_true_iff in H as [A B]. rewrite forallb_forall in B. split; [intros ->; discriminate|].
  split; intro I; apply B in I; discriminate.
Qed.
Ltac ex_nodup := repeat (constructor; [cbn; intuition discriminate|]); constructor.
Ltac ex_items := repeat (apply Forall_cons; [split; [apply ex_key; reflexivity|]|]); [..|apply Forall_nil].

(** The file meets the hypotheses. *)
Example ex_config_ok : config_ok ex_file.
Proof.
  eexists _, _. split; [reflexivity|]. split; [ex_nodup|]. split; [left; reflexivity|].
  apply good_map; [discriminate|ex_nodup|]. repeat (apply Forall_cons; [split; [apply ex_key; reflexivity|]|]); [| | |apply Forall_nil]; try constructor; try discriminate.
  - ex_nodup.
  - repeat (apply Forall_cons; [split; [apply ex_key; reflexivity|]|]); [| |apply Forall_nil]; constructor.
Qed.
Example ex_ok : file_ok ex_file.
Proof. destruct ex_config_ok as (l & lm & Q & H & H0 & H1). exists l, (YMap lm). auto. Qed.
Example ex_entries : master_entry ex_file [master; [98]; [99]] (YFloat 0x3F800000) /\ ~ exists v, master_entry ex_file [master; [98]] v.
Proof.
  split.
  - split; [|eauto]. eapply entry_in; [left; reflexivity|]. eapply entry_in; [right; left; reflexivity|]. apply entry_here; [left; reflexivity|easy].
  - intros (v & H & _). unfold ex_file in H. inversion H as [|? ? ? ? ? I H']; subst. destruct I as [I|[I|[]]]; [|discriminate].
    injection I as <-. inversion H' as [? ? ? I N|? ? ? ? ? _ H2]; subst; [|inversion H2].
    cbn in I. destruct I as [I|[I|[I|[]]]]; try discriminate. injection I as <-. now apply N.
Qed.
Example ex_sendable : forall path v, master_entry ex_file path v -> sendable v.
Proof.
  intros path v [H (p & ->)]. unfold ex_file in H.
  inversion H as [? ? ? I N|? ? ? ? ? I H']; subst; clear H; destruct I as [I|[I|[]]]; try discriminate.
  - injection I as <-. now destruct N.
  - injection I as <-. inversion H' as [? ? ? I N|? ? ? ? ? I H2]; subst; clear H'; cbn in I; destruct I as [I|[I|[I|[]]]]; injection I as <- <-; try (cbn; lia); try (now destruct N); try (now inversion H2).
    inversion H2 as [? ? ? I N|? ? ? ? ? I H3]; subst; clear H2; cbn in I; destruct I as [I|[I|[]]]; injection I as <- <-; try (cbn; lia); try easy; now inversion H3.
Qed.
Example ex_document : master_document ex_file ex_doc.
Proof.
  eexists _, _. split; [reflexivity|]. split; [left; reflexivity|].
  change ex_doc with ([0x81] ++ [0xA6] ++ master ++ ([0x83] ++ [0xA1] ++ [97] ++ [0xFD] ++ [0xA1] ++ [98] ++
    ([0x82] ++ [0xA1] ++ [99] ++ (0xCA :: be 4 0x3F800000) ++ [0xA1] ++ [100] ++ [0xC3] ++ []) ++ [0xA1] ++ [101] ++ ([0xA2] ++ [120; 121]) ++ []) ++ []).
  assert (S1 : forall n, 0 <= n <= 31 -> str_header n [0xA0 + n]) by (intros; constructor 1; lia).
  assert (M1 : forall n, 0 <= n <= 15 -> map_header n [0x80 + n]) by (intros; constructor 1; lia).
  constructor; [apply (M1 1); lia|]. repeat apply pe_cons; try apply pe_nil; try (apply (S1 6); lia); try (apply (S1 1); lia).
  constructor; [apply (M1 3); lia|]. repeat apply pe_cons; try apply pe_nil; try (apply (S1 1); lia).
  - constructor; [|cbn; lia]. apply (ie_neg (-3)); lia.
  - constructor; [apply (M1 2); lia|]. repeat apply pe_cons; try apply pe_nil; try (apply (S1 1); lia); constructor.
  - constructor. apply (S1 2); lia.
Qed.
Example ex_fits : forall code, generate_one ex_file = Some code -> fits_port 64 code.
Proof. intros code H. vm_compute in H. injection H as <-. split; [|split]; [repeat constructor; cbn; lia|repeat constructor; cbn; lia|cbn; lia]. Qed.
(** The values, computed. *)
Example ex_values : exists code h h' c, generate [ex_file; ex_file] = Some code /\ config_init code = OK (h, (3, 4, 5)%nat) /\
  parameter_msgpack_read 64 (fun x => x) h 3 ex_doc = RDONE 0 h' c /\
  (exists h1, config_get h' 3 (path_of [master; [97]]) KInt = OK (Some (h1, GInt (-3)))) /\
  (exists h1, config_get h' 3 (path_of [master; [98]; [99]]) KScalar = OK (Some (h1, GScalar 0x3F800000))) /\
  config_get h' 3 (path_of [master; [98]]) KInt = OK None /\
  parameter_find h' 4 (path_of [[98]; [99]]) = parameter_find h' 3 (path_of [master; [98]; [99]]).
Proof.
  destruct (generate [ex_file; ex_file]) as [code|] eqn:G; [|vm_compute in G; discriminate]. exists code. vm_compute in G. injection G as <-.
  destruct (config_init _) as [[h q]| |] eqn:C; try (vm_compute in C; discriminate). vm_compute in C. injection C as <- <-.
  eexists _, _, _. split; [reflexivity|]. split; [reflexivity|]. split; [vm_compute; reflexivity|].
  split; [eexists; vm_compute; reflexivity|]. split; [eexists; vm_compute; reflexivity|]. split; vm_compute; reflexivity.
Qed.
(** A file with an integer instead of a float is refused beside the other one. *)
Example ex_disagree : generate [YMap [(master, YMap [([97], YFloat 0)])]; YMap [(master, YMap [([97], YInt 1)])]] = None.
Proof. vm_compute. reflexivity. Qed.

(** ** What does not hold *)

(** A dictionary without entries in the file is not an empty namespace of the tree: beside values, the generator
    stops with an error; alone, the namespaces around it are lost. *)
Theorem ygen_empty_refuted :
  generate_one (YMap [(master, YMap [([97], YInt 3); ([98], YMap [])])]) = None /\
  generate_one (YMap [(master, YMap [([98], YMap [([99], YMap [])])])]) = Some [ODeclNs None []].
Proof. split; [vm_compute; reflexivity|]. vm_compute; reflexivity. Qed.
Print Assumptions ygen_empty_refuted.

(** A string of 16 bytes is accepted by the generator, but loading its document fails. *)
Theorem config_long_string_refuted : exists y bs code h g h' c, config_ok y /\ master_document y bs /\ generate [y] = Some code /\
  config_init code = OK (h, (g, S g, S (S g))) /\
  parameter_msgpack_read 64 (fun x => x) h g bs = RDONE (-1) h' c.
Proof.
  exists (YMap [(master, YMap [([97], YStr (repeat 120 16))])]), ([0x81] ++ [0xA6] ++ master ++ ([0x81] ++ [0xA1] ++ [97] ++ ([0xB0] ++ repeat 120 16) ++ []) ++ []).
  destruct (generate [YMap [(master, YMap [([97], YStr (repeat 120 16))])]]) as [code|] eqn:G; [|vm_compute in G; discriminate]. exists code. vm_compute in G. injection G as <-.
  destruct (config_init _) as [[h q]| |] eqn:C; try (vm_compute in C; discriminate). vm_compute in C. injection C as <- <-.
  eexists _, _, _, _. split.
  { eexists _, _. split; [reflexivity|]. split; [ex_nodup|]. split; [left; reflexivity|].
    apply good_map; [discriminate|ex_nodup|]. apply Forall_cons; [split; [apply ex_key; reflexivity|constructor]|apply Forall_nil]. }
  split.
  { eexists _, _. split; [reflexivity|]. split; [left; reflexivity|].
    assert (S1 : forall n, 0 <= n <= 31 -> str_header n [0xA0 + n]) by (intros; constructor 1; lia).
    assert (M1 : forall n, 0 <= n <= 15 -> map_header n [0x80 + n]) by (intros; constructor 1; lia).
    constructor; [apply (M1 1); lia|]. apply pe_cons; [apply (S1 6); lia| |apply pe_nil].
    constructor; [apply (M1 1); lia|]. apply pe_cons; [apply (S1 1); lia| |apply pe_nil]. constructor. apply (S1 16); lia. }
  split; [reflexivity|]. split; [reflexivity|]. vm_compute. reflexivity.
Qed.
Print Assumptions config_long_string_refuted.

(** An integer of more than 32 bits is accepted by the generator; its document loads with a return value of zero
    but the parameter has no value. *)
Theorem config_wide_integer_refuted : exists y bs code h g h' c p, config_ok y /\ generate [y] = Some code /\
  master_entry y [master; [97]] (YInt (2 ^ 32)) /\
  bs = [0x81; 0xA6] ++ master ++ [0x81; 0xA1; 97; 0xCF; 0; 0; 0; 1; 0; 0; 0; 0] /\
  config_init code = OK (h, (g, S g, S (S g))) /\
  parameter_msgpack_read 64 (fun x => x) h g bs = RDONE 0 h' c /\
  parameter_find h' g (path_of [master; [97]]) = OK (Some p) /\ parameter_defined h' p = OK false.
Proof.
  exists (YMap [(master, YMap [([97], YInt (2 ^ 32))])]), ([0x81; 0xA6] ++ master ++ [0x81; 0xA1; 97; 0xCF; 0; 0; 0; 1; 0; 0; 0; 0]).
  destruct (generate [YMap [(master, YMap [([97], YInt (2 ^ 32))])]]) as [code|] eqn:G; [|vm_compute in G; discriminate]. exists code. vm_compute in G. injection G as <-.
  destruct (config_init _) as [[h q]| |] eqn:C; try (vm_compute in C; discriminate). vm_compute in C. injection C as <- <-.
  eexists _, _, _, _, 0%nat. split.
  { eexists _, _. split; [reflexivity|]. split; [ex_nodup|]. split; [left; reflexivity|].
    apply good_map; [discriminate|ex_nodup|]. apply Forall_cons; [split; [apply ex_key; reflexivity|constructor]|apply Forall_nil]. }
  split; [reflexivity|]. split.
  { split; [|eauto]. eapply entry_in; [left; reflexivity|]. apply entry_here; [left; reflexivity|easy]. }
  split; [reflexivity|]. split; [reflexivity|]. split; [vm_compute; reflexivity|]. split; [vm_compute; reflexivity|]. vm_compute; reflexivity.
Qed.
Print Assumptions config_wide_integer_refuted.

(** A write that the namespaces of the tree report as a change is not reported by global_config. *)
Theorem config_changes_refuted : exists y code h g h', config_ok y /\ generate_one y = Some code /\
  config_init code = OK (h, (g, S g, S (S g))) /\ run_from h [OSet 0 (AInt 5)] = OK h' /\
  namespace_contains_changed h' 0 = OK true /\ namespace_contains_changed h' 1 = OK true /\
  namespace_contains_changed h' g = OK false /\ namespace_contains_changed h' (S g) = OK false.
Proof.
  exists ex_file. destruct (generate_one ex_file) as [code|] eqn:G; [|vm_compute in G; discriminate]. exists code. vm_compute in G. injection G as <-.
  destruct (config_init _) as [[h q]| |] eqn:C; try (vm_compute in C; discriminate). vm_compute in C. injection C as <- <-.
  eexists _, _, _. split; [apply ex_config_ok|]. split; [reflexivity|]. split; [reflexivity|]. split; [vm_compute; reflexivity|].
  split; [vm_compute; reflexivity|]. split; [vm_compute; reflexivity|]. split; [vm_compute; reflexivity|]. vm_compute; reflexivity.
Qed.
Print Assumptions config_changes_refuted.
