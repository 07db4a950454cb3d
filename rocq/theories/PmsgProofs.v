(** Proofs about saving and loading parameter trees. *)
From Coq Require Import ZArith List Bool Arith Lia ZifyBool.
From Verif Require Import CBase Buf CmpModel CmpSpec CmpProofs ParamModel ParamSpec ParamProofs ParamProofs2 PmsgModel PmsgSpec.
Import ListNotations.
Local Open Scope Z_scope.

Definition oset (x : nat * arg) : op := OSet (fst x) (snd x).

(** ** Headers *)
Ltac hdo ob := eapply (accepts_as' _ ob); [reflexivity|unfold obj_ok; cbn [oty oval oext]; lia|
   unfold cmp_object_as_array, cmp_object_as_map, cmp_object_as_str, cmp_object_as_bin, as_u32; cbn [oty oval oext]; now rewrite uid32 by lia].

Lemma str_acc n hd : str_header n hd -> accepts cmp_read_str_size hd n.
Proof. destruct 1; [hdo (mkobj FIXSTR n 0)|hdo (mkobj STR8 n 0)|hdo (mkobj STR16 n 0)|hdo (mkobj STR32 n 0)]. Qed.
Lemma map_acc n hd : map_header n hd -> accepts cmp_read_map hd n.
Proof. destruct 1; [hdo (mkobj FIXMAP n 0)|hdo (mkobj MAP16 n 0)|hdo (mkobj MAP32 n 0)]. Qed.

Ltac objo ob := exists ob; split; [eapply (fun H => eq_rect _ (fun b => accepts cmp_read_object b ob) (read_object_ok ob H) _ eq_refl)|
   unfold cmp_object_as_array, cmp_object_as_map, cmp_object_as_str, as_u32; cbn [oty oval oext]; repeat split; now rewrite ?uid32 by lia].
Lemma map_obj n hd : map_header n hd -> exists o, accepts cmp_read_object hd o /\ cmp_object_as_map o = Some n.
Proof.
  destruct 1; [objo (mkobj FIXMAP n 0)|objo (mkobj MAP16 n 0)|objo (mkobj MAP32 n 0)];
    unfold obj_ok; cbn [oty oval oext]; lia.
  Unshelve. all: unfold obj_ok; cbn [oty oval oext]; lia.
Qed.
Lemma arr_obj n hd : array_header n hd -> exists o, accepts cmp_read_object hd o /\ cmp_object_as_map o = None /\ cmp_object_as_array o = Some n.
Proof.
  destruct 1; [objo (mkobj FIXARRAY n 0)|objo (mkobj ARRAY16 n 0)|objo (mkobj ARRAY32 n 0)];
    unfold obj_ok; cbn [oty oval oext]; lia.
  Unshelve. all: unfold obj_ok; cbn [oty oval oext]; lia.
Qed.
Lemma str_obj n hd : str_header n hd -> exists o, accepts cmp_read_object hd o /\ cmp_object_as_map o = None /\ cmp_object_as_str o = Some n.
Proof.
  destruct 1; [objo (mkobj FIXSTR n 0)|objo (mkobj STR8 n 0)|objo (mkobj STR16 n 0)|objo (mkobj STR32 n 0)];
    unfold obj_ok; cbn [oty oval oext]; lia.
  Unshelve. all: unfold obj_ok; cbn [oty oval oext]; lia.
Qed.
Lemma int_objm v bs : int_encoding v bs -> (length bs <= 5)%nat -> - 2 ^ 31 <= v < 2 ^ 31 ->
  exists o, accepts cmp_read_object bs o /\ cmp_object_as_map o = None /\ cmp_object_as_int o = Some v.
Proof.
  intros E L R. destruct (int_obj_of _ _ E) as [o O]. exists o. destruct (int_obj_ok _ _ _ O) as (A & B & _).
  split; [rewrite <- B; now apply read_object_ok|].
  destruct O; unfold cmp_object_as_map, cmp_object_as_int, as_s8, as_u8, as_s16, as_u16, as_s32, as_u32; cbn [oty oval];
    rewrite ?sid8, ?uid8, ?sid16, ?uid16, ?sid32, ?uid32 by lia; auto.
  - replace (v <=? 2147483647) with true by (symmetry; lia). auto.
  - cbn in L. lia.
  - cbn in L. lia.
Qed.

(** ** Reading *)
Definition moved (c : ctx) (i : Z) : ctx := mkctx (mem c) (size c) i (ro c) (err c).
Definition here (c : ctx) (pre bs post : list Z) : Prop :=
  mem c = pre ++ bs ++ post /\ index c = blen pre /\ size c = blen (mem c) /\ size c < 2 ^ 32.
Lemma here_acc {A} (R : M A) c pre a b post v : accepts R a v -> here c pre (a ++ b) post ->
  R c = Ok v (moved c (blen pre + blen a)) /\ here (moved c (blen pre + blen a)) (pre ++ a) b post.
Proof.
  intros H (M & I & S & L). rewrite <- app_assoc in M. split.
  - exact (H pre (b ++ post) c M I S L).
  - unfold here, moved. cbn [mem index size]. rewrite <- app_assoc, blen_app. auto.
Qed.

Lemma float_obj x : 0 <= x < 2 ^ 32 -> accepts cmp_read_object (0xCA :: be 4 x) (mkobj FLOAT x 0).
Proof. intro H. apply (read_object_ok (mkobj FLOAT x 0)). unfold obj_ok; cbn [oty oval oext]. lia. Qed.

Section Port.
Variables (cap : Z) (i2f : Z -> Z).

Lemma get_vector_ok l : Forall (fun x => 0 <= x < 2 ^ 32) l -> forall c pre post,
  here c pre (flat_map (fun x => 0xCA :: be 4 x) l) post ->
  get_vector i2f (length l) false c = VOK l (moved c (blen pre + blen (flat_map (fun x => 0xCA :: be 4 x) l))).
Proof.
  induction 1 as [|x l Hx _ IH]; intros c pre post Hc.
  - cbn [length get_vector flat_map]. rewrite blen_nil, Z.add_0_r. destruct Hc as (_ & <- & _). now destruct c.
  - cbn [length get_vector]. cbn [flat_map] in *.
    destruct (here_acc _ _ _ _ _ _ _ (float_obj x Hx) Hc) as [E Hc']. rewrite E. cbn [get_float oty as_u32 oval].
    rewrite (IH _ _ _ Hc'). unfold get_float; cbn [oty]. unfold as_u32; cbn [oval]. rewrite uid32 by lia.
    unfold moved; cbn [mem size ro err]. do 2 f_equal. rewrite !blen_app. lia.
Qed.

Lemma set_ok hist h p m id d a vb : run hist = OK h -> nth_error (par_decls hist) p = Some (m, id, d) -> encodes d a vb ->
  exists x h', nth_error (pars h) p = Some x /\ kinded (pval x) d /\ parameter_set h p a = OK h'.
Proof.
  intros R D E. apply inv_run in R as I. assert (Hp : (p < length (pars h))%nat).
  { rewrite (inv_length _ _ I). apply nth_error_Some. congruence. }
  destruct (lt_nth _ _ _ Hp) as [x Hx]. destruct (kinds_run _ _ R _ _ Hx) as (m' & id' & d' & D' & K).
  rewrite D in D'. inversion D'; subst m' id' d'. exists x.
  assert (G : exists w, store (pval x) a = OK w).
  { destruct E; destruct (pval x); cbn in K; try easy; cbn [store]; eauto.
    - replace (length s <=? length buf0)%nat with true by (symmetry; apply Nat.leb_le; lia). cbn [negb]. rewrite Nat.leb_refl. eauto.
    - replace (length buf0 <=? length l)%nat with true by (symmetry; apply Nat.leb_le; lia). eauto.
    - replace (length l <=? length buf0)%nat with true by (symmetry; apply Nat.leb_le; lia). cbn [negb]. rewrite Nat.leb_refl. eauto. }
  destruct G as [w G]. unfold parameter_set, store_at. rewrite Hx, G. cbn [rbind]. unfold changed_set, set_value.
  cbn [upd_par pars]. rewrite upd_nth, Nat.eqb_refl, Hx. cbn [option_map pchanged].
  destruct (pchanged x); eauto.
Qed.

Lemma read_value hist h p m id d a vb : run hist = OK h -> fits_port cap hist -> nth_error (par_decls hist) p = Some (m, id, d) ->
  encodes d a vb -> forall c pre post, here c pre vb post ->
  exists o b1 b2 h', vb = b1 ++ b2 /\ accepts cmp_read_object b1 o /\ cmp_object_as_map o = None /\ parameter_set h p a = OK h' /\
    read_parameter cap i2f h p o (moved c (blen pre + blen b1)) = RDONE 0 h' (moved c (blen pre + blen vb)).
Proof.
  intros R FP D E c pre post Hc. destruct (set_ok _ _ _ _ _ _ _ _ R D E) as (x & h' & Hx & K & S).
  assert (FP' : match d with DVec b _ | DVar b _ => blen b * 4 <= cap /\ blen b * 4 < 2 ^ 32 | DStr b _ => blen b <= cap /\ blen b < 2 ^ 32 | _ => True end).
  { destruct FP as (_ & F & _). rewrite Forall_forall in F. apply nth_error_In in D. apply (F _ D). }
  unfold read_parameter. rewrite Hx.
  destruct E; destruct (pval x); cbn in K; try easy.
  - exists (mkobj FLOAT x0 0), (0xCA :: be 4 x0), [], h'. rewrite app_nil_r. repeat (split; [now auto using float_obj|]).
    unfold read_parameter_scalar, get_float. cbn [oty]. unfold as_u32; cbn [oval]. rewrite uid32 by lia. unfold set_done. now rewrite S.
  - destruct (int_objm _ _ H H0 H1) as (ob & A & B & C). exists ob, bs, [], h'. rewrite app_nil_r. repeat (split; [now auto|]).
    unfold read_parameter_integer. rewrite C. unfold set_done. now rewrite S.
  - exists (mkobj BOOLEAN (if b then 1 else 0) 0), [if b then 195 else 194], [], h'. rewrite app_nil_r. split; [reflexivity|]. split.
    + replace [if b then 195 else 194] with (obj_bytes (mkobj BOOLEAN (if b then 1 else 0) 0)) by (destruct b; reflexivity).
      apply read_object_ok. unfold obj_ok; cbn [oty oval oext]. destruct b; lia.
    + repeat (split; [now auto|]). unfold read_parameter_boolean, cmp_object_as_bool, as_bool; cbn [oty oval].
      unfold set_done. destruct b; cbn [Z.eqb negb]; now rewrite S.
  - destruct (str_obj _ _ H0) as (ob & A & B & C). exists ob, hd, s, h'. repeat (split; [now auto|]).
    destruct (here_acc _ _ _ _ _ _ _ A Hc) as [_ Hc']. rewrite <- (app_nil_r s) in Hc'.
    destruct (here_acc _ _ _ _ _ _ _ (accepts_rd s) Hc') as [E2 _]. unfold read_parameter_string. rewrite C.
    assert (LB : blen buf0 = blen buf) by (unfold blen; lia). assert (LS : blen s < blen buf) by (unfold blen; lia).
    replace (blen buf0 <=? blen s) with false by (symmetry; lia). replace (cap <? blen s) with false by (symmetry; lia).
    rewrite E2. unfold set_done. replace (Z.to_nat (blen s)) with (length s) by (unfold blen; lia). rewrite S.
    unfold moved; cbn [mem size ro err]. do 2 f_equal. rewrite !blen_app. lia.
  - destruct (arr_obj _ _ H0) as (ob & A & B & C). exists ob, hd, (flat_map (fun x => 0xCA :: be 4 x) l), h'. repeat (split; [now auto|]).
    destruct (here_acc _ _ _ _ _ _ _ A Hc) as [_ Hc']. unfold read_parameter_vector. rewrite C.
    assert (LB : blen l = blen buf0) by (unfold blen; lia). rewrite <- LB, Z.eqb_refl. cbn [negb andb]. unfold read_elements.
    assert (LB' : blen l = blen buf) by (unfold blen; lia). rewrite uid32 by (unfold blen in *; lia).
    replace (cap <? blen l * 4) with false by (symmetry; lia).
    replace (Z.to_nat (blen l)) with (length l) by (unfold blen; lia). rewrite (get_vector_ok l H1 _ _ _ Hc').
    unfold set_done. rewrite S. unfold moved; cbn [mem size ro err]. do 2 f_equal. rewrite !blen_app. lia.
  - destruct (arr_obj _ _ H0) as (ob & A & B & C). exists ob, hd, (flat_map (fun x => 0xCA :: be 4 x) l), h'. repeat (split; [now auto|]).
    destruct (here_acc _ _ _ _ _ _ _ A Hc) as [_ Hc']. unfold read_parameter_var_vector. rewrite C.
    assert (LB : blen l <= blen buf0) by (unfold blen; lia). replace (blen buf0 <? blen l) with false by (symmetry; lia).
    cbn [andb]. unfold read_elements.
    assert (LB' : blen l <= blen buf) by (unfold blen in *; lia). rewrite uid32 by (unfold blen in *; lia).
    replace (cap <? blen l * 4) with false by (symmetry; lia).
    replace (Z.to_nat (blen l)) with (length l) by (unfold blen; lia). rewrite (get_vector_ok l H1 _ _ _ Hc').
    unfold set_done. rewrite S. unfold moved; cbn [mem size ro err]. do 2 f_equal. rewrite !blen_app. lia.
Qed.

Lemma ns_decls_osets hist sets : ns_decls (hist ++ map oset sets) = ns_decls hist.
Proof. unfold ns_decls. rewrite flat_map_app. replace (flat_map _ (map oset sets)) with (@nil (option nat * str)); [apply app_nil_r|]. now induction sets. Qed.
Lemma par_decls_osets hist sets : par_decls (hist ++ map oset sets) = par_decls hist.
Proof. unfold par_decls. rewrite flat_map_app. replace (flat_map _ (map oset sets)) with (@nil (nat * str * decl)); [apply app_nil_r|]. now induction sets. Qed.
Lemma ids_ok_osets hist sets : ids_ok hist -> ids_ok (hist ++ map oset sets).
Proof. unfold ids_ok. now rewrite ns_decls_osets, par_decls_osets. Qed.
Lemma ids_distinct_osets hist sets : ids_distinct hist -> ids_distinct (hist ++ map oset sets).
Proof. unfold ids_distinct. now rewrite ns_decls_osets, par_decls_osets. Qed.
Lemma fits_osets hist sets : fits_port cap hist -> fits_port cap (hist ++ map oset sets).
Proof. unfold fits_port. now rewrite ns_decls_osets, par_decls_osets. Qed.

Lemma find_param hist h n p id d : run hist = OK h -> ids_ok hist -> ids_distinct hist -> (n < length (ns_decls hist))%nat ->
  nth_error (par_decls hist) p = Some (n, id, d) -> parameter_find h n id = OK (Some p).
Proof.
  intros R IO (_ & D2 & _ & D4) Hn D. destruct (D2 _ _ _ _ D) as [Ne Sl].
  assert (Z0 : ~ In 0 id) by (destruct IO as [_ F]; rewrite Forall_forall in F; apply nth_error_In in D; exact (F _ D)).
  pose proof (find_exact hist h n id [] id R IO Hn Z0) as F. cbn [app] in F.
  specialize (F ltac:(split; [reflexivity|repeat constructor; exact Sl])).
  assert (N : names hist n [] id p).
  { split; [exact Ne|]. exists n. split; [constructor|]. split; [eauto|]. intros j [d' J]. rewrite (D4 _ _ _ _ _ _ D J). lia. }
  destruct (parameter_find h n id) as [[q|]| |]; try easy.
  - now rewrite (names_unique _ _ _ _ _ _ F N).
  - now apply F in N.
Qed.
Lemma find_ns hist h n m id : run hist = OK h -> ids_ok hist -> ids_distinct hist -> (n < length (ns_decls hist))%nat ->
  nth_error (ns_decls hist) m = Some (Some n, id) -> namespace_find h n id = OK (Some m).
Proof.
  intros R IO (D1 & _ & D3 & _) Hn D. destruct (D1 _ _ _ D) as [Ne Sl].
  assert (Z0 : ~ In 0 id) by (destruct IO as [F _]; rewrite Forall_forall in F; apply nth_error_In in D; exact (F _ D)).
  pose proof (nsfind_exact hist h n id [id] R IO Hn Z0 ltac:(easy)) as F.
  specialize (F ltac:(split; [reflexivity|repeat constructor; exact Sl])).
  assert (N : leads (ns_decls hist) n [id] m).
  { apply leads_down with (c := m); [exact Ne| |constructor]. split; [exact D|]. intros j J. rewrite (D3 _ _ _ _ D J). lia. }
  destruct (namespace_find h n id) as [[q|]| |]; try easy.
  - now rewrite (leads_fun _ _ _ _ F _ N).
  - now apply F in N.
Qed.

Lemma str_ne n hd : str_header n hd -> (1 <= length hd)%nat.
Proof. destruct 1; cbn; lia. Qed.

Lemma run_app_op hist h p a h' : run hist = OK h -> parameter_set h p a = OK h' -> run (hist ++ [OSet p a]) = OK h'.
Proof. intros R S. rewrite run_snoc, R. cbn [rbind run_op]. exact S. Qed.

Theorem read_entries nl pl n k sets bs : entries nl pl n k sets bs ->
  forall hist h fuel c pre post, ns_decls hist = nl -> par_decls hist = pl -> run hist = OK h ->
    ids_ok hist -> ids_distinct hist -> fits_port cap hist -> (n < length nl)%nat ->
    here c pre bs post -> (length bs <= fuel)%nat ->
    exists h', run (hist ++ map oset sets) = OK h' /\
      read_namespace cap i2f fuel h n (Z.of_nat k) c = RDONE 0 h' (moved c (blen pre + blen bs)).
Proof.
  induction 1 as [n|n k p id d a hd vb sets bs D SH EN ES IH|n k m id hd k' mb inner bs' sets bs D SH MH EI IHI ES IH];
    intros hist h fuel c pre post NL PL R IO ID FP Hn Hc Hf.
  - exists h. cbn [map]. rewrite app_nil_r. split; [exact R|]. destruct fuel; cbn [read_namespace Z.of_nat Z.leb Z.compare];
      rewrite blen_nil, Z.add_0_r; destruct Hc as (_ & <- & _); now destruct c.
  - rewrite !app_length in Hf. pose proof (str_ne _ _ SH).
    destruct fuel as [|fuel]; [lia|]. cbn [read_namespace]. replace (Z.of_nat (S k) <=? 0) with false by (symmetry; lia).
    destruct (here_acc _ _ _ _ _ _ _ (str_acc _ _ SH) Hc) as [-> H1].
    assert (FI : blen id + 1 <= cap /\ blen id + 1 < 2 ^ 32).
    { destruct FP as (_ & F & _). rewrite Forall_forall in F. rewrite <- PL in D. apply nth_error_In in D. apply F in D. cbn [fst snd] in D. tauto. }
    pose proof (blen_nonneg id). rewrite uid32 by lia. replace (cap <? blen id + 1) with false by (symmetry; lia).
    destruct (here_acc _ _ _ _ _ _ _ (accepts_rd id) H1) as [-> H2].
    rewrite <- NL in Hn. rewrite <- PL in D.
    assert (Hv : here (moved (moved c (blen pre + blen hd)) (blen (pre ++ hd) + blen id)) ((pre ++ hd) ++ id) vb (bs ++ post)).
    { destruct H2 as (A & B). split; [|exact B]. rewrite A. now rewrite <- !app_assoc. }
    destruct (read_value _ _ _ _ _ _ _ _ R FP D EN _ _ _ Hv) as (o & b1 & b2 & h1 & Eb & A & NM & ST & RP).
    assert (H2' := H2). rewrite Eb in H2'. rewrite <- (app_assoc b1) in H2'.
    destruct (here_acc _ _ _ _ _ _ _ A H2') as [-> H3]. rewrite NM.
    rewrite (find_param _ _ _ _ _ _ R IO ID Hn D), RP. cbn [and_then Z.eqb].
    destruct (IH (hist ++ [OSet p a]) h1 fuel (moved (moved (moved c (blen pre + blen hd)) (blen (pre ++ hd) + blen id)) (blen ((pre ++ hd) ++ id) + blen vb))
                 (((pre ++ hd) ++ id) ++ vb) post) as (h' & R' & E').
    + change [OSet p a] with (map oset [(p, a)]). now rewrite ns_decls_osets.
    + change [OSet p a] with (map oset [(p, a)]). now rewrite par_decls_osets.
    + now apply run_app_op with (h := h).
    + apply (ids_ok_osets hist [(p, a)]), IO.
    + apply (ids_distinct_osets hist [(p, a)]), ID.
    + apply (fits_osets hist [(p, a)]), FP.
    + now rewrite <- NL.
    + destruct H2 as (A2 & B2 & C2). split; [|split; [unfold moved; cbn [index]; rewrite !blen_app; lia|exact C2]].
      cbn [moved mem] in *. rewrite A2. now rewrite <- !app_assoc.
    + lia.
    + exists h'. split; [cbn [map]; rewrite <- R'; now rewrite <- app_assoc|].
      replace (Z.of_nat (S k) - 1) with (Z.of_nat k) by lia. rewrite E'. unfold moved; cbn [mem size ro err]. do 2 f_equal. rewrite !blen_app. lia.
  - rewrite !app_length in Hf. pose proof (str_ne _ _ SH).
    destruct fuel as [|fuel]; [lia|]. cbn [read_namespace]. replace (Z.of_nat (S k) <=? 0) with false by (symmetry; lia).
    destruct (here_acc _ _ _ _ _ _ _ (str_acc _ _ SH) Hc) as [-> H1].
    assert (FI : blen id + 1 <= cap /\ blen id + 1 < 2 ^ 32).
    { destruct FP as (F & _ & _). rewrite Forall_forall in F. rewrite <- NL in D. apply nth_error_In in D. apply F in D. cbn [fst snd] in D. tauto. }
    pose proof (blen_nonneg id). rewrite uid32 by lia. replace (cap <? blen id + 1) with false by (symmetry; lia).
    destruct (here_acc _ _ _ _ _ _ _ (accepts_rd id) H1) as [-> H2].
    assert (Hm : (m < length nl)%nat) by (apply nth_error_Some; congruence).
    destruct (map_obj _ _ MH) as (o & A & B).
    destruct (here_acc _ _ _ _ _ _ _ A H2) as [-> H3]. rewrite B.
    rewrite (find_ns hist h n m id R IO ID) by (rewrite NL; assumption).
    set (c3 := moved _ (blen ((pre ++ hd) ++ id) + blen mb)) in *. set (pre3 := ((pre ++ hd) ++ id) ++ mb) in *.
    assert (H3' : here c3 pre3 bs' (bs ++ post)) by (destruct H3 as (X & Y); split; [rewrite X; now rewrite <- !app_assoc|exact Y]).
    destruct (IHI hist h fuel c3 pre3 (bs ++ post) NL PL R IO ID FP Hm H3') as (h1 & R1 & E1); [lia|].
    rewrite E1. cbn [and_then Z.eqb].
    destruct (IH (hist ++ map oset inner) h1 fuel (moved c3 (blen pre3 + blen bs')) (pre3 ++ bs') post) as (h' & R' & E').
    + now rewrite ns_decls_osets.
    + now rewrite par_decls_osets.
    + exact R1.
    + now apply ids_ok_osets.
    + now apply ids_distinct_osets.
    + now apply fits_osets.
    + exact Hn.
    + destruct H3' as (X & Y & Z). split; [|split; [unfold moved; cbn [index]; rewrite !blen_app; lia|exact Z]].
      cbn [moved mem]. rewrite X. now rewrite <- !app_assoc.
    + lia.
    + exists h'. split; [rewrite map_app, app_assoc; exact R'|].
      replace (Z.of_nat (S k) - 1) with (Z.of_nat k) by lia. rewrite E'. unfold moved, c3, pre3, moved; cbn [mem size ro err].
      do 2 f_equal. rewrite !blen_app. lia.
Qed.

Theorem read_document hist h n sets bs rest : run hist = OK h -> ids_ok hist -> ids_distinct hist -> fits_port cap hist ->
  (n < length (ns_decls hist))%nat -> document (ns_decls hist) (par_decls hist) n sets bs -> blen (bs ++ rest) < 2 ^ 32 ->
  exists h', run (hist ++ map oset sets) = OK h' /\
    parameter_msgpack_read cap i2f h n (bs ++ rest) = RDONE 0 h' (mkctx (bs ++ rest) (blen (bs ++ rest)) (blen bs) true 0).
Proof.
  intros R IO ID FP Hn (k & hd & es & MH & E & ->) L. unfold parameter_msgpack_read, parameter_msgpack_read_cmp.
  set (c := cmp_mem_access_ro_init ((hd ++ es) ++ rest) (blen ((hd ++ es) ++ rest))).
  assert (Hc : here c [] (hd ++ es) rest) by (repeat split; assumption).
  destruct (here_acc _ _ _ _ _ _ _ (map_acc _ _ MH) Hc) as [-> H1].
  destruct (read_entries _ _ _ _ _ _ E hist h (S (Z.to_nat (size c))) (moved c (blen [] + blen hd)) ([] ++ hd) rest) as (h' & R' & E'); auto.
  { cbn [c cmp_mem_access_ro_init size]. unfold blen. rewrite Nat2Z.id, !app_length. lia. }
  exists h'. split; [exact R'|]. cbn [moved size]. rewrite E'. unfold moved; cbn [mem size ro err c cmp_mem_access_ro_init app].
  do 2 f_equal. now rewrite blen_app.
Qed.
End Port.
