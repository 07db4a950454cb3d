(** Proofs about all that the loader of parameters accepts and refuses. *)
From Coq Require Import ZArith List Bool Arith Lia ZifyBool.
From Verif Require Import CBase Buf CmpModel CmpSpec CmpProofs ParamModel ParamSpec ParamProofs ParamProofs2 PmsgModel PmsgSpec PmsgProofs PmsgProofs2 PmsgLoadSpec PmsgProps.
Import ListNotations.
Local Open Scope Z_scope.

(** ** Objects and formats *)
Definition ob (o : obj) (bs : list Z) : Prop := obj_ok o /\ obj_bytes o = bs.
Lemma ob_acc o bs : ob o bs -> accepts cmp_read_object bs o.
Proof. intros [O <-]. now apply read_object_ok. Qed.

Lemma scalar_ob bs : scalar bs <-> exists o, ob o bs /\ discard o = 0.
Proof.
  split.
  - destruct 1 as [|b|x H|x H|v bs E].
    + exists (mkobj NIL 0 0). repeat split; cbn; lia.
    + exists (mkobj BOOLEAN (if b then 1 else 0) 0). destruct b; repeat split; cbn; lia.
    + exists (mkobj FLOAT x 0). repeat split; cbn [oty oval oext]; lia.
    + exists (mkobj DOUBLE x 0). repeat split; cbn [oty oval oext]; lia.
    + destruct (int_obj_of _ _ E) as [o O]. exists o. destruct (int_obj_ok _ _ _ O) as (A & B & _). repeat split; auto.
      now destruct O.
  - intros ([ty v e] & [O <-] & D). unfold obj_ok in O. unfold obj_bytes. unfold discard in D. cbn [oty oval oext] in *.
    destruct ty; try discriminate; destruct O as [O ->].
    + apply sc_int with v. apply ie_pos. lia.
    + apply sc_nil.
    + replace (194 + v) with (if v =? 1 then 195 else 194) by (destruct (Z.eqb_spec v 1); lia). apply sc_bool.
    + now apply sc_float.
    + now apply sc_double.
    + apply sc_int with v. now apply ie_u8.
    + apply sc_int with v. now apply ie_u16.
    + apply sc_int with v. now apply ie_u32.
    + apply sc_int with v. now apply ie_u64.
    + apply sc_int with v. now apply ie_s8.
    + apply sc_int with v. now apply ie_s16.
    + apply sc_int with v. now apply ie_s32.
    + apply sc_int with v. now apply ie_s64.
    + apply sc_int with v. now apply ie_neg.
Qed.

Ltac ids := rewrite ?sid8, ?uid8, ?sid16, ?uid16, ?sid32, ?uid32, ?sid64, ?uid64 in * by lia.
Lemma number_ob i2f x bs : number i2f x bs <-> exists o, ob o bs /\ get_float i2f o = Some x.
Proof.
  split.
  - destruct 1 as [x H|v bs E R].
    + exists (mkobj FLOAT x 0). split; [split; [unfold obj_ok; cbn [oty oval oext]; lia|reflexivity]|].
      unfold get_float, as_u32; cbn [oty oval]. now ids.
    + destruct (int_obj_of _ _ E) as [o O]. exists o. destruct (int_obj_ok _ _ _ O) as (A & B & _). split; [split; auto|].
      destruct O; unfold get_float, cmp_object_as_long, as_s8, as_u8, as_s16, as_u16, as_s32, as_u32, as_s64, as_u64; cbn [oty oval]; ids; try reflexivity.
      replace (v <=? 9223372036854775807) with true by (symmetry; lia). reflexivity.
  - intros ([ty v e] & [O <-] & D). unfold obj_ok in O. unfold obj_bytes.
    unfold get_float, cmp_object_as_long, as_s8, as_u8, as_s16, as_u16, as_s32, as_u32, as_s64, as_u64 in D. cbn [oty oval oext] in *.
    destruct ty; try discriminate; destruct O as [O ->]; ids.
    all: try (injection D as <-).
    + apply nu_int; [apply ie_pos; lia|lia].
    + now apply nu_float.
    + apply nu_int; [now apply ie_u8|lia].
    + apply nu_int; [now apply ie_u16|lia].
    + apply nu_int; [now apply ie_u32|lia].
    + destruct (Z.leb_spec v 9223372036854775807); [|discriminate]. injection D as <-. apply nu_int; [now apply ie_u64|lia].
    + apply nu_int; [now apply ie_s8|lia].
    + apply nu_int; [now apply ie_s16|lia].
    + apply nu_int; [now apply ie_s32|lia].
    + apply nu_int; [now apply ie_s64|lia].
    + apply nu_int; [now apply ie_neg|lia].
Qed.
Lemma int_ob i bs : int_encoding i bs /\ (length bs <= 5)%nat /\ - 2 ^ 31 <= i < 2 ^ 31 <-> exists o, ob o bs /\ cmp_object_as_int o = Some i.
Proof.
  split.
  - intros (E & L & R). destruct (int_obj_of _ _ E) as [o O]. exists o. destruct (int_obj_ok _ _ _ O) as (A & B & _). split; [split; auto|].
    destruct O; unfold cmp_object_as_int, as_s8, as_u8, as_s16, as_u16, as_s32, as_u32; cbn [oty oval]; ids; try reflexivity; try (cbn in L; lia).
    replace (i <=? 2147483647) with true by (symmetry; lia). reflexivity.
  - intros ([ty v e] & [O <-] & D). unfold obj_ok in O. unfold obj_bytes.
    unfold cmp_object_as_int, as_s8, as_u8, as_s16, as_u16, as_s32, as_u32 in D. cbn [oty oval oext] in *.
    destruct ty; try discriminate; destruct O as [O ->]; ids.
    all: try (injection D as <-).
    + split; [apply ie_pos; lia|cbn [length]; lia].
    + split; [now apply ie_u8|cbn [length be]; lia].
    + split; [now apply ie_u16|cbn [length be]; lia].
    + destruct (Z.leb_spec v 2147483647); [|discriminate]. injection D as <-. split; [now apply ie_u32|cbn [length be]; lia].
    + split; [now apply ie_s8|cbn [length be]; lia].
    + split; [now apply ie_s16|cbn [length be]; lia].
    + split; [now apply ie_s32|cbn [length be]; lia].
    + split; [now apply ie_neg|cbn [length]; lia].
Qed.
Lemma bool_ob b bs : bs = [if b : bool then 0xC3 else 0xC2] <-> exists o, ob o bs /\ cmp_object_as_bool o = Some b.
Proof.
  split.
  - intros ->. exists (mkobj BOOLEAN (if b then 1 else 0) 0). destruct b; repeat split; cbn; lia.
  - intros ([ty v e] & [O <-] & D). unfold obj_ok in O. unfold cmp_object_as_bool, as_bool in D. cbn [oty oval oext] in *.
    destruct ty; try discriminate. injection D as <-. cbn [obj_bytes oty oval]. destruct O as [O ->]. assert (v = 0 \/ v = 1) as [-> | ->] by lia; reflexivity.
Qed.
Ltac hdob := intros ([ty v e] & [O <-] & D); unfold obj_ok in O; unfold obj_bytes;
  unfold cmp_object_as_str, cmp_object_as_map, cmp_object_as_array, as_u32 in D; cbn [oty oval oext] in *;
  destruct ty; try discriminate; destruct O as [O ->]; ids; injection D as <-; now constructor.
Ltac hdex ob := exists ob; split; [split; [unfold obj_ok; cbn [oty oval oext]; lia|reflexivity]|
   unfold cmp_object_as_str, cmp_object_as_map, cmp_object_as_array, as_u32; cbn [oty oval]; now ids].
Lemma str_ob n bs : str_header n bs <-> exists o, ob o bs /\ cmp_object_as_str o = Some n.
Proof. split; [|hdob]. destruct 1; [hdex (mkobj FIXSTR n 0)|hdex (mkobj STR8 n 0)|hdex (mkobj STR16 n 0)|hdex (mkobj STR32 n 0)]. Qed.
Lemma arr_ob n bs : array_header n bs <-> exists o, ob o bs /\ cmp_object_as_array o = Some n.
Proof. split; [|hdob]. destruct 1; [hdex (mkobj FIXARRAY n 0)|hdex (mkobj ARRAY16 n 0)|hdex (mkobj ARRAY32 n 0)]. Qed.
Lemma map_ob n bs : map_header n bs <-> exists o, ob o bs /\ cmp_object_as_map o = Some n.
Proof. split; [|hdob]. destruct 1; [hdex (mkobj FIXMAP n 0)|hdex (mkobj MAP16 n 0)|hdex (mkobj MAP32 n 0)]. Qed.

(** An object is determined by its bytes, whatever follows. *)
Lemma ob_prefix o o' a b x y : ob o a -> ob o' b -> a ++ x = b ++ y -> blen (a ++ x) < 2 ^ 32 -> o = o' /\ a = b /\ x = y.
Proof.
  intros A B E L. pose proof (ob_acc _ _ A [] x (mkctx (a ++ x) (blen (a ++ x)) 0 true 0) eq_refl eq_refl eq_refl L) as P.
  pose proof (ob_acc _ _ B [] y (mkctx (a ++ x) (blen (a ++ x)) 0 true 0) E eq_refl eq_refl L) as Q.
  rewrite P in Q. injection Q as <- Q. split; [reflexivity|]. destruct A as [_ <-], B as [_ <-]. split; [reflexivity|].
  now apply app_inv_head in E.
Qed.
Lemma ob_fun o o' a : ob o a -> ob o' a -> blen a < 2 ^ 32 -> o = o'.
Proof. intros A B L. apply (ob_prefix o o' a a [] [] A B); [reflexivity|now rewrite app_nil_r]. Qed.

(** Conversions of one object exclude each other. *)
Lemma discard_map o n : cmp_object_as_map o = Some n -> discard o = -1.
Proof. unfold cmp_object_as_map, discard. now destruct (oty o). Qed.
Lemma discard_str o n : cmp_object_as_str o = Some n -> discard o = -1 /\ cmp_object_as_map o = None.
Proof. unfold cmp_object_as_str, cmp_object_as_map, discard. now destruct (oty o). Qed.
Lemma discard_arr o n : cmp_object_as_array o = Some n -> discard o = -1 /\ cmp_object_as_map o = None.
Proof. unfold cmp_object_as_array, cmp_object_as_map, discard. now destruct (oty o). Qed.
Lemma discard_scalar o : discard o = 0 -> cmp_object_as_map o = None /\ cmp_object_as_str o = None /\ cmp_object_as_array o = None.
Proof. unfold cmp_object_as_array, cmp_object_as_str, cmp_object_as_map, discard. now destruct (oty o). Qed.
Lemma float_map i2f o x : get_float i2f o = Some x -> cmp_object_as_map o = None.
Proof. unfold get_float, cmp_object_as_long, cmp_object_as_map. now destruct (oty o). Qed.
Lemma int_map o x : cmp_object_as_int o = Some x -> cmp_object_as_map o = None.
Proof. unfold cmp_object_as_int, cmp_object_as_map. now destruct (oty o). Qed.
Lemma bool_map o x : cmp_object_as_bool o = Some x -> cmp_object_as_map o = None.
Proof. unfold cmp_object_as_bool, cmp_object_as_map. now destruct (oty o). Qed.
Lemma discard_two o : discard o = 0 \/ discard o = -1.
Proof. unfold discard. destruct (oty o); auto. Qed.

(** ** Lookups *)
Lemma split_some id : forall s rest, id_split id = (s, Some rest) -> id = s ++ slash :: rest /\ ~ In slash s.
Proof.
  induction id as [|c id IH]; intros s rest; cbn [id_split]; [discriminate|].
  destruct (Z.eqb_spec c slash) as [->|N]; [intro H; injection H as <- <-; auto|].
  destruct (id_split id) as [a b]. intro H. injection H as <- ->. destruct (IH _ _ eq_refl) as [-> Q].
  split; [reflexivity|]. intros [|]; auto.
Qed.
Lemma split_none id : forall s, id_split id = (s, None) -> id = s.
Proof.
  induction id as [|c id IH]; intros s; cbn [id_split]; [now intros [= <-]|].
  destruct (Z.eqb_spec c slash); [discriminate|]. destruct (id_split id) as [a b]. intro H. injection H as <- ->. now rewrite (IH _ eq_refl).
Qed.
Lemma matches_eq s : forall id, ~ In 0 id -> name_matches s id = OK true -> s = id.
Proof.
  induction s as [|c s IH]; intros [|d id] Z0; cbn [name_matches]; try discriminate; auto.
  - intro H. injection H as H. exfalso. apply Z0. left. lia.
  - destruct (c =? 0); discriminate.
  - destruct (Z.eqb_spec c d) as [->|]; [|discriminate]. intro H. rewrite (IH id); auto. intro; apply Z0; now right.
Qed.
Lemma first_nonul names l s i : (forall j id, In j l -> names j = Some id -> ~ In 0 id) -> find_first names l s = OK (Some i) -> ~ In 0 s.
Proof.
  induction l as [|j l IH]; intros Z0; cbn [find_first]; [discriminate|].
  destruct (names j) as [id|] eqn:N; [|discriminate]. destruct (name_matches s id) as [b| |] eqn:M; cbn [rbind]; try discriminate.
  destruct b.
  - intros _. rewrite (matches_eq s id); [apply (Z0 j id); [now left|exact N]|apply (Z0 j id); [now left|exact N]|exact M].
  - apply IH. intros k id' K. apply Z0. now right.
Qed.

Section Named.
Variables (hist : list op) (h : heap).
Hypothesis (R : run hist = OK h) (IO : ids_ok hist).
Lemma ns_nonul i : forall x, option_map nid (nth_error (nss h) i) = Some x -> ~ In 0 x.
Proof.
  intros x H. destruct (nth_error (nss h) i) as [y|] eqn:Y; [|discriminate]. injection H as <-. pose proof (inv_run _ _ R) as I.
  destruct IO as [A _]. rewrite Forall_forall in A.
  pose proof (i_ns _ _ I) as E. apply (f_equal (fun l => nth_error l i)) in E. unfold shape in E. rewrite nth_error_map, Y in E. cbn in E.
  symmetry in E. apply nth_error_In in E. apply A in E. exact E.
Qed.
Lemma par_nonul i : forall x, option_map pid (nth_error (pars h) i) = Some x -> ~ In 0 x.
Proof.
  intros x H. destruct (nth_error (pars h) i) as [y|] eqn:Y; [|discriminate]. injection H as <-. pose proof (inv_run _ _ R) as I.
  destruct IO as [_ A]. rewrite Forall_forall in A.
  pose proof (par_decl_nth _ _ I i) as E. rewrite Y in E. cbn in E. destruct (nth_error (par_decls hist) i) as [[[a b] d]|] eqn:D; [|discriminate].
  cbn in E. injection E as _ <-. apply nth_error_In in D. now apply A in D.
Qed.
Lemma sub_nonul n s m : get_subnamespace h n s = OK (Some m) -> ~ In 0 s.
Proof.
  unfold get_subnamespace. destruct s as [|c s]; [easy|]. destruct (nth_error (nss h) n); [|discriminate].
  apply first_nonul. intros j id _. apply ns_nonul.
Qed.
Lemma find_nonul : forall fuel n id p, parameter_find_loop fuel h n id = OK (Some p) -> ~ In 0 id.
Proof.
  induction fuel as [|fuel IH]; intros n id p; cbn [parameter_find_loop]; [discriminate|].
  destruct (id_split id) as [s [rest|]] eqn:S.
  - destruct (get_subnamespace h n s) as [[m|]| |] eqn:G; cbn [rbind]; try discriminate. intro H. apply IH in H.
    apply split_some in S as [-> _]. apply sub_nonul in G. rewrite in_app_iff. intros [|[|]]; auto. unfold slash in *. discriminate.
  - apply split_none in S as ->. unfold get_parameter. destruct s; [easy|]. destruct (nth_error (nss h) n); [|discriminate].
    apply first_nonul. intros j id _. apply par_nonul.
Qed.
Lemma nsfind_nonul : forall fuel n id p, namespace_find_loop fuel h n id = OK (Some p) -> ~ In 0 id.
Proof.
  induction fuel as [|fuel IH]; intros n id p; destruct id as [|c id]; try easy; cbn [namespace_find_loop].
  destruct (id_split (c :: id)) as [s rest] eqn:S.
  destruct (get_subnamespace h n s) as [[m|]| |] eqn:G; cbn [rbind]; try discriminate. apply sub_nonul in G.
  destruct rest as [rest|].
  - intro H. apply IH in H. apply split_some in S as [-> _]. rewrite in_app_iff. intros [|[|]]; auto. unfold slash in *. discriminate.
  - intros _. apply split_none in S as ->. exact G.
Qed.

Lemma find_means n id p : (n < length (ns_decls hist))%nat -> parameter_find h n id = OK (Some p) -> means hist n id p.
Proof.
  intros Hn F. assert (Z0 := F). apply find_nonul in Z0. destruct (components_exist id) as (comps & last & C & _).
  pose proof (find_exact _ _ _ _ _ _ R IO Hn Z0 C) as E. rewrite F in E. exists comps, last. auto.
Qed.
Lemma leads_nonul n comps m : leads (ns_decls hist) n comps m -> Forall (fun s => ~ In 0 s) comps.
Proof.
  induction 1 as [|n comps m L IH|n s c comps m Ne [Lt _] L IH]; constructor; auto.
  destruct IO as [A _]. rewrite Forall_forall in A. apply nth_error_In in Lt. now apply A in Lt.
Qed.
Lemma names_nonul n comps last p : names hist n comps last p -> Forall (fun s => ~ In 0 s) (comps ++ [last]).
Proof.
  intros [_ (m & L & [d D] & _)]. apply Forall_app. split.
  - eapply leads_nonul; eauto.
  - constructor; [|constructor]. destruct IO as [_ A]. rewrite Forall_forall in A. apply nth_error_In in D. now apply A in D.
Qed.
Lemma path_nonul comps : Forall (fun s => ~ In 0 s) comps -> ~ In 0 (path_of comps).
Proof.
  induction 1 as [|s comps Z0 F IH]; [easy|]. destruct comps; [exact Z0|]. rewrite path_cons by discriminate.
  rewrite in_app_iff. intros [|[|]]; auto. unfold slash in *. discriminate.
Qed.
Lemma means_find n id p : (n < length (ns_decls hist))%nat -> means hist n id p -> parameter_find h n id = OK (Some p).
Proof.
  intros Hn (comps & last & C & N). assert (Z0 : ~ In 0 id) by (destruct C as [-> _]; eapply path_nonul, names_nonul; eauto).
  pose proof (find_exact _ _ _ _ _ _ R IO Hn Z0 C) as E.
  destruct (parameter_find h n id) as [[q|]| |]; try easy; [now rewrite (names_unique _ _ _ _ _ _ E N)|now apply E in N].
Qed.
Lemma nomeans_find n id : (n < length (ns_decls hist))%nat -> ~ In 0 id -> (forall p, ~ means hist n id p) -> parameter_find h n id = OK None.
Proof.
  intros Hn Z0 N. destruct (components_exist id) as (comps & last & C & _).
  pose proof (find_exact _ _ _ _ _ _ R IO Hn Z0 C) as E.
  destruct (parameter_find h n id) as [[q|]| |]; try easy. exfalso. apply (N q). exists comps, last. auto.
Qed.
Lemma find_nomeans n id : (n < length (ns_decls hist))%nat -> parameter_find h n id = OK None -> forall p, ~ means hist n id p.
Proof. intros Hn F p M. rewrite (means_find _ _ _ Hn M) in F. discriminate. Qed.
Lemma leads_find n id comps m : (n < length (ns_decls hist))%nat -> components id comps -> leads (ns_decls hist) n comps m ->
  namespace_find h n id = OK (Some m).
Proof.
  intros Hn C L. destruct comps as [|s comps].
  - destruct C as [-> _]. inversion L; subst. reflexivity.
  - assert (Z0 : ~ In 0 id).
    { destruct C as [-> _]. apply path_nonul. eapply leads_nonul; eauto. }
    pose proof (nsfind_exact hist h n id (s :: comps) R IO Hn Z0 ltac:(discriminate) C) as E.
    destruct (namespace_find h n id) as [[q|]| |]; try easy; [now rewrite (leads_fun _ _ _ _ E _ L)|now apply E in L].
Qed.
Lemma find_leads n id m : (n < length (ns_decls hist))%nat -> namespace_find h n id = OK (Some m) ->
  exists comps, components id comps /\ leads (ns_decls hist) n comps m.
Proof.
  intros Hn F. assert (Z0 := F). apply nsfind_nonul in Z0. destruct (components_exist id) as (comps & last & C & _).
  pose proof (nsfind_exact _ _ _ _ _ R IO Hn Z0 (snoc_ne _ comps last) C) as E. rewrite F in E. eauto.
Qed.
Lemma leads_lt n comps m : (n < length (ns_decls hist))%nat -> leads (ns_decls hist) n comps m -> (m < length (ns_decls hist))%nat.
Proof. intros Hn L. induction L as [|n comps m L IH|n s c comps m Ne [Lt _] L IH]; auto. apply IH. apply nth_error_Some. congruence. Qed.
End Named.

(** ** All that is accepted *)
Section Complete.
Variables (cap : Z) (i2f : Z -> Z).

Lemma vector_ok l els : Forall2 (number i2f) l els -> forall c pre post, here c pre (concat els) post ->
  get_vector i2f (length l) false c = VOK l (moved c (blen pre + blen (concat els))).
Proof.
  induction 1 as [|x b l els Hx _ IH]; intros c pre post Hc.
  - cbn [length get_vector concat]. rewrite blen_nil, Z.add_0_r. destruct Hc as (_ & <- & _). now destruct c.
  - cbn [length get_vector]. cbn [concat] in *. apply number_ob in Hx as (o & O & G).
    destruct (here_acc _ _ _ _ _ _ _ (ob_acc _ _ O) Hc) as [E Hc']. rewrite E, G.
    rewrite (IH _ _ _ Hc'). unfold moved; cbn [mem size ro err]. do 2 f_equal. rewrite !blen_app. lia.
Qed.
Lemma Forall2_len {A B} (P : A -> B -> Prop) l l' : Forall2 P l l' -> length l = length l'.
Proof. induction 1; cbn; congruence. Qed.

Lemma set_accepted hist h p m id d a vb : run hist = OK h -> nth_error (par_decls hist) p = Some (m, id, d) -> accepted i2f d a vb ->
  exists x h', nth_error (pars h) p = Some x /\ kinded (pval x) d /\ parameter_set h p a = OK h'.
Proof.
  intros R D E. apply inv_run in R as I. assert (Hp : (p < length (pars h))%nat).
  { rewrite (inv_length _ _ I). apply nth_error_Some. congruence. }
  destruct (lt_nth _ _ _ Hp) as [x Hx]. destruct (kinds_run _ _ R _ _ Hx) as (m' & id' & d' & D' & K).
  rewrite D in D'. inversion D'; subst m' id' d'. exists x.
  assert (G : exists w, store (pval x) a = OK w).
  { destruct E; destruct (pval x); cbn in K; try easy; cbn [store]; eauto.
    - replace (length s <=? length buf0)%nat with true by (symmetry; apply Nat.leb_le; lia). cbn [negb]. rewrite Nat.leb_refl. eauto.
    - replace (length buf0 <=? length l)%nat with true by (symmetry; apply Nat.leb_le; lia). eauto.
    - replace (length l <=? length buf0)%nat with true by (symmetry; apply Nat.leb_le; lia). cbn [negb]. rewrite Nat.leb_refl. eauto. }
  destruct G as [w G]. unfold parameter_set, store_at. rewrite Hx, G. cbn [rbind]. unfold changed_set, set_value.
  cbn [upd_par pars]. rewrite upd_nth, Nat.eqb_refl, Hx. cbn [option_map pchanged].
  destruct (pchanged x); eauto.
Qed.

Lemma read_accepted hist h p m id d a vb : run hist = OK h -> values_fit cap hist -> nth_error (par_decls hist) p = Some (m, id, d) ->
  accepted i2f d a vb -> forall c pre post, here c pre vb post ->
  exists o b1 b2 h', vb = b1 ++ b2 /\ ob o b1 /\ cmp_object_as_map o = None /\ parameter_set h p a = OK h' /\
    read_parameter cap i2f h p o (moved c (blen pre + blen b1)) = RDONE 0 h' (moved c (blen pre + blen vb)).
Proof.
  intros R FP D E c pre post Hc. destruct (set_accepted _ _ _ _ _ _ _ _ R D E) as (x & h' & Hx & K & S).
  assert (FP' : match d with DVec b _ | DVar b _ => blen b * 4 <= cap /\ blen b * 4 < 2 ^ 32 | DStr b _ => blen b <= cap /\ blen b < 2 ^ 32 | _ => True end).
  { unfold values_fit in FP. rewrite Forall_forall in FP. apply nth_error_In in D. apply (FP _ D). }
  unfold read_parameter. rewrite Hx.
  destruct E; destruct (pval x); cbn in K; try easy.
  - apply number_ob in H as (ob' & A & G). exists ob', bs, [], h'. rewrite app_nil_r. split; [reflexivity|]. split; [exact A|].
    split; [eapply float_map; eauto|]. split; [exact S|]. unfold read_parameter_scalar. rewrite G. unfold set_done. now rewrite S.
  - destruct (proj1 (int_ob i bs) (conj H (conj H0 H1))) as (ob' & A & G). exists ob', bs, [], h'. rewrite app_nil_r. split; [reflexivity|]. split; [exact A|].
    split; [eapply int_map; eauto|]. split; [exact S|]. unfold read_parameter_integer. rewrite G. unfold set_done. now rewrite S.
  - destruct (proj1 (bool_ob b _) eq_refl) as (ob' & A & G). eexists ob', _, [], h'. rewrite app_nil_r. split; [reflexivity|]. split; [exact A|].
    split; [eapply bool_map; eauto|]. split; [exact S|]. unfold read_parameter_boolean. rewrite G. unfold set_done. now rewrite S.
  - apply str_ob in H0 as (ob' & A & C). exists ob', hd, s, h'. split; [reflexivity|]. split; [exact A|].
    split; [eapply discard_str; eauto|]. split; [exact S|].
    destruct (here_acc _ _ _ _ _ _ _ (ob_acc _ _ A) Hc) as [_ Hc']. rewrite <- (app_nil_r s) in Hc'.
    destruct (here_acc _ _ _ _ _ _ _ (accepts_rd s) Hc') as [E2 _]. unfold read_parameter_string. rewrite C.
    assert (LB : blen buf0 = blen buf) by (unfold blen; lia). assert (LS : blen s < blen buf) by (unfold blen; lia).
    replace (blen buf0 <=? blen s) with false by (symmetry; lia). replace (cap <? blen s) with false by (symmetry; lia).
    rewrite E2. unfold set_done. replace (Z.to_nat (blen s)) with (length s) by (unfold blen; lia). rewrite S.
    unfold moved; cbn [mem size ro err]. do 2 f_equal. rewrite !blen_app. lia.
  - apply arr_ob in H0 as (ob' & A & C). exists ob', hd, (concat els), h'. split; [reflexivity|]. split; [exact A|].
    split; [eapply discard_arr; eauto|]. split; [exact S|].
    destruct (here_acc _ _ _ _ _ _ _ (ob_acc _ _ A) Hc) as [_ Hc']. unfold read_parameter_vector. rewrite C.
    assert (LB : blen l = blen buf0) by (unfold blen; lia). rewrite <- LB, Z.eqb_refl. cbn [negb andb]. unfold read_elements.
    assert (LB' : blen l = blen buf) by (unfold blen; lia). rewrite uid32 by (unfold blen in *; lia).
    replace (cap <? blen l * 4) with false by (symmetry; lia).
    replace (Z.to_nat (blen l)) with (length l) by (unfold blen; lia). rewrite (vector_ok l els H1 _ _ _ Hc').
    unfold set_done. rewrite S. unfold moved; cbn [mem size ro err]. do 2 f_equal. rewrite !blen_app. lia.
  - apply arr_ob in H0 as (ob' & A & C). exists ob', hd, (concat els), h'. split; [reflexivity|]. split; [exact A|].
    split; [eapply discard_arr; eauto|]. split; [exact S|].
    destruct (here_acc _ _ _ _ _ _ _ (ob_acc _ _ A) Hc) as [_ Hc']. unfold read_parameter_var_vector. rewrite C.
    assert (LB : blen l <= blen buf0) by (unfold blen; lia). replace (blen buf0 <? blen l) with false by (symmetry; lia).
    cbn [andb]. unfold read_elements.
    assert (LB' : blen l <= blen buf) by (unfold blen in *; lia). rewrite uid32 by (unfold blen in *; lia).
    replace (cap <? blen l * 4) with false by (symmetry; lia).
    replace (Z.to_nat (blen l)) with (length l) by (unfold blen; lia). rewrite (vector_ok l els H1 _ _ _ Hc').
    unfold set_done. rewrite S. unfold moved; cbn [mem size ro err]. do 2 f_equal. rewrite !blen_app. lia.
Qed.

(** A scalar that is no value for the parameter is skipped. *)
Lemma read_misfit hist h p m id d vb o c : run hist = OK h -> nth_error (par_decls hist) p = Some (m, id, d) ->
  ob o vb -> discard o = 0 -> (forall a, ~ accepted i2f d a vb) -> read_parameter cap i2f h p o c = RDONE 0 h c.
Proof.
  intros R D O S N. apply inv_run in R as I. assert (Hp : (p < length (pars h))%nat).
  { rewrite (inv_length _ _ I). apply nth_error_Some. congruence. }
  destruct (lt_nth _ _ _ Hp) as [x Hx]. destruct (kinds_run _ _ R _ _ Hx) as (m' & id' & d' & D' & K).
  rewrite D in D'. inversion D'; subst m' id' d'. unfold read_parameter. rewrite Hx.
  destruct (discard_scalar _ S) as (_ & NS & NA).
  destruct (pval x), d; cbn in K; try easy.
  - unfold read_parameter_scalar. destruct (get_float i2f o) as [v|] eqn:G; [|now rewrite S].
    exfalso. apply (N (AScalar v)). constructor. apply number_ob. eauto.
  - unfold read_parameter_boolean. destruct (cmp_object_as_bool o) as [v|] eqn:G; [|now rewrite S].
    exfalso. apply (N (ABool v)). rewrite (proj2 (bool_ob v vb)) by eauto. constructor.
  - unfold read_parameter_integer. destruct (cmp_object_as_int o) as [v|] eqn:G; [|now rewrite S].
    exfalso. apply (N (AInt v)). destruct (proj2 (int_ob v vb)) as (A & B & C); [eauto|]. now constructor.
  - unfold read_parameter_string. now rewrite NS, S.
  - unfold read_parameter_vector. now rewrite NA, S.
  - unfold read_parameter_var_vector. now rewrite NA, S.
Qed.
End Complete.
