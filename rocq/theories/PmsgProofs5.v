(** Proofs about loading the beginning of a buffer. *)
From Coq Require Import ZArith List Bool Arith Lia ZifyBool.
From Verif Require Import CBase Buf CmpModel CmpSpec CmpProofs ParamModel ParamSpec ParamProofs ParamProofs2 PmsgModel PmsgSpec PmsgProofs PmsgProofs2 PmsgLoadSpec PmsgProps PmsgProofs3 PmsgProofs4.
Import ListNotations.
Local Open Scope Z_scope.

Section Cut.
Variables (cap : Z) (i2f : Z -> Z) (K : Z).
(** The context, with only the first [K] bytes. *)
Definition cut (c : ctx) : ctx := mkctx (firstn (Z.to_nat K) (mem c)) K (index c) (ro c) (err c).
Definition okk (c : ctx) : Prop := okc c /\ index c <= K <= size c.

Lemma cut_len c : okk c -> blen (firstn (Z.to_nat K) (mem c)) = K.
Proof. intros [[(S & I & B) BO] L]. unfold blen in *. rewrite firstn_length. lia. Qed.
Lemma cut_okc c : okk c -> okc (cut c).
Proof.
  intro O. pose proof (cut_len c O) as L. destruct O as [[(S & I & B) BO] H]. split.
  - unfold sane, cut; cbn [mem size index]. lia.
  - unfold cut; cbn [mem]. unfold bytes_ok in *. rewrite <- (firstn_skipn (Z.to_nat K) (mem c)), Forall_app in BO. apply BO.
Qed.
Lemma cut_skip c : okk c -> skipn (Z.to_nat (index c)) (mem (cut c)) = firstn (Z.to_nat (K - index c)) (skipn (Z.to_nat (index c)) (mem c)).
Proof.
  intros [[(S & I & B) BO] H]. unfold cut; cbn [mem]. rewrite skipn_firstn_comm. f_equal. lia.
Qed.
Lemma con_okk c bs c' : okk c -> consumed c bs c' -> index c' <= K -> okk c'.
Proof.
  intros [O L] C H. destruct (con_inside _ _ _ O C) as [_ O']. split; [exact O'|]. destruct C as (? & _ & ->). cbn [moved index size] in *. lia.
Qed.
Lemma cut_moved c i : cut (moved c i) = moved (cut c) i.
Proof. reflexivity. Qed.
Lemma con_cut c bs c' : okk c -> consumed c bs c' -> index c' <= K -> consumed (cut c) bs (cut c').
Proof.
  intros O (post & E & ->) L. cbn [moved index] in L. exists (firstn (Z.to_nat (K - index c) - length bs) post). split; [|reflexivity].
  change (index (cut c)) with (index c). rewrite (cut_skip _ O), E, firstn_app, firstn_all2; [reflexivity|]. unfold blen in L. lia.
Qed.
Lemma con_acc {A} (R : M A) c bs c' v : accepts R bs v -> okc c -> consumed c bs c' -> R c = Ok v c'.
Proof.
  intros H [(S & I & B) BO] (post & E & ->). destruct (skipn_split (mem c) (index c) ltac:(lia)) as [M L].
  rewrite (H (firstn (Z.to_nat (index c)) (mem c)) post c); [|rewrite <- E; exact M|lia|exact S|lia].
  rewrite L. reflexivity.
Qed.

Lemma obj_cut c o c' : okk c -> cmp_read_object c = Ok o c' ->
  if index c' <=? K then cmp_read_object (cut c) = Ok o (cut c') else exists c2, cmp_read_object (cut c) = Fail c2.
Proof.
  intros O E. destruct (obj_sound _ _ _ (proj1 O) E) as (bs & B & C). destruct (Z.leb_spec (index c') K).
  - apply (con_acc _ _ bs); [now apply ob_acc|now apply cut_okc|now apply con_cut].
  - destruct (cut_okc c O) as [S' BO']. pose proof (read_object_total _ S' BO') as T. change (index (cut c)) with (index c) in T.
    rewrite (cut_skip _ O) in T. destruct O as [[S BO] L]. pose proof (read_object_total _ S BO) as T0. rewrite E in T0.
    destruct (skipn (Z.to_nat (index c)) (mem c)) as [|t rest] eqn:Ek; [discriminate|].
    destruct (Z.to_nat (K - index c)) as [|j] eqn:Ej; cbn [firstn] in T; [eauto|].
    destruct (t =? 0xC1); [eauto|]. destruct (follow t <=? blen rest); [|destruct T0 as (? & ? & _); discriminate].
    destruct T0 as (o' & post & _ & _ & _ & T0). injection T0 as _ ->. cbn [set_index index] in H.
    destruct (Z.leb_spec (follow t) (blen (firstn j rest))) as [F|F].
    + pose proof (firstn_le_length j rest). unfold blen in F. lia.
    + destruct T as (c2 & T & _). eauto.
Qed.
Lemma as_cut {A} (f : obj -> option A) c a c' : okk c -> read_as f c = Ok a c' ->
  if index c' <=? K then read_as f (cut c) = Ok a (cut c') else exists c2, read_as f (cut c) = Fail c2.
Proof.
  intros O E. unfold read_as, mbind in *. destruct (cmp_read_object c) as [|c1|o c1] eqn:Eo; try discriminate.
  destruct (f o) eqn:F; [|discriminate]. injection E as <- <-. pose proof (obj_cut _ _ _ O Eo) as T.
  destruct (index c1 <=? K); [rewrite T, F; reflexivity|]. destruct T as [c2 ->]. eauto.
Qed.
Lemma rd_cut n c l c' : okk c -> rd n c = Ok l c' ->
  if index c' <=? K then rd n (cut c) = Ok l (cut c') else exists c2, rd n (cut c) = Fail c2.
Proof.
  intros O E. destruct (rd_sound _ _ _ _ (proj1 O) E) as [C L]. pose proof (con_inside _ _ _ (proj1 O) C) as [I _].
  assert (N := blen_nonneg l). destruct C as (post & Es & ->). cbn [moved index]. pose proof (cut_okc c O) as [(S & I' & B) _].
  unfold rd. change (index (cut c)) with (index c). change (size (cut c)) with K. change (size (cut c)) with K in *.
  rewrite uid32 by (destruct O as [[(? & ? & ?) _] ?]; lia). rewrite <- L. destruct (Z.leb_spec (index c + blen l) K); [|eauto].
  unfold bslice. rewrite <- S. pose proof O as [[(S0 & I0 & B0) BO0] L0].
  replace ((0 <=? index c) && (0 <=? blen l) && (index c + blen l <=? K)) with true by lia.
  rewrite (cut_skip _ O), firstn_firstn, Es. replace (Nat.min (Z.to_nat (blen l)) (Z.to_nat (K - index c))) with (length l) by (unfold blen in *; lia).
  now rewrite firstn_app, firstn_all, Nat.sub_diag, app_nil_r.
Qed.

Lemma vec_cut : forall n c l c', okk c -> get_vector i2f n false c = VOK l c' ->
  if index c' <=? K then get_vector i2f n false (cut c) = VOK l (cut c') else exists c2, get_vector i2f n false (cut c) = VRET (-1) c2.
Proof.
  induction n as [|n IH]; intros c l c' O E; cbn [get_vector] in *.
  - injection E as <- <-. destruct (Z.leb_spec (index c) K) as [|H]; [reflexivity|]. destruct O. lia.
  - destruct (cmp_read_object c) as [|c1|o c1] eqn:Eo; try discriminate. pose proof (obj_cut _ _ _ O Eo) as T.
    destruct (obj_sound _ _ _ (proj1 O) Eo) as (bs & B & C). destruct (con_inside _ _ _ (proj1 O) C) as [_ O1].
    destruct (get_float i2f o) as [v|] eqn:G.
    + destruct (get_vector i2f n false c1) as [| |l1 c2] eqn:E1; try discriminate. injection E as <- <-.
      destruct (Z.leb_spec (index c1) K) as [L|L].
      * rewrite T, G. specialize (IH _ _ _ (con_okk _ _ _ O C L) E1). destruct (index c2 <=? K); [rewrite IH; reflexivity|].
        destruct IH as [c3 ->]. eauto.
      * destruct T as [c3 ->]. pose proof (vec_sound i2f n false c1 O1) as V. rewrite E1 in V. destruct V as (_ & _ & els & _ & (? & _ & ->)).
        cbn [moved index]. pose proof (blen_nonneg (concat els)). destruct (Z.leb_spec (index c1 + blen (concat els)) K); [lia|eauto].
    + destruct (discard o =? 0); [|discriminate]. pose proof (vec_sound i2f n true c1 O1) as V. rewrite E in V. now destruct V as [V _].
Qed.

(** [full] returned 0: the load of the beginning returns 0 when all was there, and -1 when not. *)
Definition cutr (full trunc : rr) : Prop :=
  match full with
  | RDONE 0 h' c' => if index c' <=? K then trunc = RDONE 0 h' (cut c') else exists h2 c2, trunc = RDONE (-1) h2 c2
  | _ => True
  end.
Lemma okk_leb c : okk c -> (index c <=? K) = true.
Proof. intros [_ L]. lia. Qed.
Lemma cutr_here h c r : okk c -> cutr (RDONE r h c) (RDONE r h (cut c)).
Proof. intro O. destruct r; cbn [cutr]; auto. now rewrite (okk_leb _ O). Qed.
Lemma cutr_set h p a c : okk c -> cutr (set_done h p a c) (set_done h p a (cut c)).
Proof. intro O. unfold set_done. destruct (parameter_set h p a); cbn [cutr]; auto. now rewrite (okk_leb _ O). Qed.
Lemma cutr_more h p a c h2 c2 : K < index c -> cutr (set_done h p a c) (RDONE (-1) h2 c2).
Proof. intro L. unfold set_done. destruct (parameter_set h p a); cbn [cutr]; auto. destruct (Z.leb_spec (index c) K); [lia|eauto]. Qed.

Lemma param_cut h p o c : okk c -> cutr (read_parameter cap i2f h p o c) (read_parameter cap i2f h p o (cut c)).
Proof.
  intro O. pose proof (cutr_here h c) as HE. unfold read_parameter. destruct (nth_error (pars h) p) as [x|]; [|exact I].
  assert (EL : forall n mk, cutr (read_elements cap i2f h p n c mk) (read_elements cap i2f h p n (cut c) mk)).
  { intros n mk. unfold read_elements. destruct (cap <? _); [exact I|].
    pose proof (vec_sound i2f (Z.to_nat n) false c (proj1 O)) as V.
    destruct (get_vector i2f (Z.to_nat n) false c) as [|r c1|l c1] eqn:E; [exact I|now subst r|].
    pose proof (vec_cut _ _ _ _ O E) as T. destruct V as (_ & _ & els & _ & C). destruct (Z.leb_spec (index c1) K) as [L|L].
    - rewrite T. apply cutr_set. exact (con_okk _ _ _ O C L).
    - destruct T as [c2 ->]. now apply cutr_more. }
  destruct (pval x).
  - unfold read_parameter_scalar. destruct (get_float i2f o); [now apply cutr_set|auto].
  - unfold read_parameter_boolean. destruct (cmp_object_as_bool o); [now apply cutr_set|auto].
  - unfold read_parameter_integer. destruct (cmp_object_as_int o); [now apply cutr_set|auto].
  - unfold read_parameter_string. destruct (cmp_object_as_str o) as [n|]; [|auto]. destruct (_ <=? n); [auto|].
    destruct (cap <? n); [exact I|]. destruct (rd n c) as [|c1|s c1] eqn:E; [exact I|exact I|].
    pose proof (rd_cut _ _ _ _ O E) as T. destruct (rd_sound _ _ _ _ (proj1 O) E) as [C _]. destruct (Z.leb_spec (index c1) K) as [L|L].
    + rewrite T. apply cutr_set. exact (con_okk _ _ _ O C L).
    + destruct T as [c2 ->]. now apply cutr_more.
  - unfold read_parameter_vector. destruct (cmp_object_as_array o); [|auto]. destruct (_ && _); [auto|apply EL].
  - unfold read_parameter_var_vector. destruct (cmp_object_as_array o); [|auto]. destruct (_ && _); [auto|apply EL].
Qed.

Lemma okc_ctx c : okc c -> ctx_ok c.
Proof. intros [(S & I & B) _]. split; lia. Qed.
Lemma adv_okc c c' : okc c -> advanced c c' -> okc c'.
Proof. intros [(S & I & B) BO] (M & S' & I' & L). split; [|now rewrite M]. unfold sane. rewrite M, S'. lia. Qed.
Lemma done_ns : forall fuel h n k c r h' c', okc c -> read_namespace cap i2f fuel h n k c = RDONE r h' c' -> advanced c c'.
Proof.
  induction fuel as [|fuel IH]; intros h n k c r h' c' O E.
  - cbn [read_namespace] in E. destruct (k <=? 0); [|discriminate]. injection E as <- <- <-. now apply adv_refl, okc_ctx.
  - rewrite read_ns_eq in E. destruct (k <=? 0); [injection E as <- <- <-; now apply adv_refl, okc_ctx|]. pose proof (okc_ctx _ O) as H.
    pose proof (read_as_adv cmp_object_as_str c H) as R. fold cmp_read_str_size in R. destruct (cmp_read_str_size c) as [|c1|s c1]; [discriminate|now injection E as <- <- <-|].
    destruct R as [R1 P1]. destruct (cap <? _); [discriminate|]. pose proof (adv_ok _ _ H R1) as H1.
    pose proof (rd_adv s c1 H1) as R2. destruct (rd s c1) as [|c2|id c2]; [discriminate|subst; now injection E as <- <- <-|]. destruct R2 as [R2 _].
    pose proof (adv_ok _ _ H1 R2) as H2. pose proof (read_object_adv c2 H2) as R3.
    destruct (cmp_read_object c2) as [|c3|o c3]; [discriminate|injection E as <- <- <-; eapply adv_trans; [exact R1|eapply adv_trans; eauto]|].
    destruct R3 as [R3 _]. pose proof (adv_ok _ _ H2 R3) as H3.
    assert (A : advanced c c3) by (eapply adv_trans; [exact R1|eapply adv_trans; eauto]). pose proof (adv_okc _ _ O A) as O3.
    assert (EN : forall r h1 c4, entry cap i2f fuel h n id o c3 = RDONE r h1 c4 -> advanced c3 c4).
    { intros r1 h1 c4. unfold entry. destruct (cmp_object_as_map o).
      - destruct (namespace_find h n id) as [[sub|]| |]; try discriminate; [now apply IH|]. intro Q. injection Q as <- <- <-. now apply adv_refl.
      - destruct (parameter_find h n id) as [[p|]| |]; try discriminate.
        + intro Q. pose proof (fine_param cap i2f h p o c3 H3) as F. now rewrite Q in F.
        + intro Q. injection Q as <- <- <-. now apply adv_refl. }
    destruct (entry cap i2f fuel h n id o c3) as [| | |r1 h1 c4]; try discriminate. specialize (EN _ _ _ eq_refl). cbn [and_then] in E.
    assert (A4 : advanced c c4) by (eapply adv_trans; eauto).
    destruct (r1 =? 0); [|now injection E as <- <- <-]. eapply adv_trans; [exact A4|]. eapply IH; [|exact E]. now apply (adv_okc c).
Qed.

Lemma adv_okk c c' : okk c -> advanced c c' -> index c' <= K -> okk c'.
Proof. intros [O L] A H. split; [now apply (adv_okc c)|]. destruct A as (_ & -> & _). lia. Qed.
(** A step of the reader: it stops here, or the rest follows. *)
Lemma cut_far full c1 h2 c2 : K < index c1 -> (forall r h' c', full = RDONE r h' c' -> advanced c1 c') -> cutr full (RDONE (-1) h2 c2).
Proof.
  intros L A. destruct full as [| | |r h' c']; cbn [cutr]; auto. specialize (A _ _ _ eq_refl). destruct r; auto.
  destruct A as (_ & _ & [_ A] & _). destruct (Z.leb_spec (index c') K); [lia|eauto].
Qed.

Theorem ns_cut : forall fuel fuel2 h n k c, okk c -> K - index c < Z.of_nat fuel2 ->
  cutr (read_namespace cap i2f fuel h n k c) (read_namespace cap i2f fuel2 h n k (cut c)).
Proof.
  induction fuel as [|fuel IH]; intros fuel2 h n k c O F; (destruct fuel2 as [|fuel2]; [destruct O; lia|]).
  { cbn [read_namespace]. destruct (k <=? 0); [now apply cutr_here|exact I]. }
  pose proof (done_ns (S fuel) h n k c) as DN. rewrite !read_ns_eq. rewrite read_ns_eq in DN.
  destruct (k <=? 0); [now apply cutr_here|].
  destruct (cmp_read_str_size c) as [|c1|sz c1] eqn:E1; [exact I|exact I|].
  destruct (as_sound _ _ _ _ (proj1 O) E1) as (o1 & hd & O1 & S1 & C1). pose proof (as_cut _ _ _ _ O E1) as T1.
  destruct (con_inside _ _ _ (proj1 O) C1) as [_ OC1].
  assert (P1 : index c < index c1).
  { pose proof (read_as_adv cmp_object_as_str c (okc_ctx _ (proj1 O))) as R. unfold cmp_read_str_size in E1. rewrite E1 in R. destruct R as [_ R]. lia. }
  destruct (cap <? u32 (sz + 1)) eqn:CP; [exact I|].
  destruct (rd sz c1) as [|c2|id c2] eqn:E2; [exact I|exact I|].
  destruct (rd_sound _ _ _ _ OC1 E2) as [C2 L2]. destruct (con_inside _ _ _ OC1 C2) as [I2 OC2].
  destruct (cmp_read_object c2) as [|c3|o c3] eqn:E3; [exact I|exact I|].
  destruct (obj_sound _ _ _ OC2 E3) as (b1 & Ob & C3). destruct (con_inside _ _ _ OC2 C3) as [_ OC3].
  pose proof (okc_ctx _ OC3) as H3.
  assert (X1 : index c1 <= index c2 <= index c3).
  { destruct C2 as (? & _ & ->), C3 as (? & _ & ->). cbn [moved index]. pose proof (blen_nonneg id). pose proof (blen_nonneg b1). lia. }
  assert (EN : forall r h1 c4, entry cap i2f fuel h n id o c3 = RDONE r h1 c4 -> advanced c3 c4).
  { intros r1 h1 c4. unfold entry. destruct (cmp_object_as_map o).
    - destruct (namespace_find h n id) as [[sub|]| |]; try discriminate; [now apply done_ns|]. intro Q. injection Q as <- <- <-. now apply adv_refl.
    - destruct (parameter_find h n id) as [[p|]| |]; try discriminate.
      + intro Q. pose proof (fine_param cap i2f h p o c3 H3) as Fp. now rewrite Q in Fp.
      + intro Q. injection Q as <- <- <-. now apply adv_refl. }
  assert (FULL : forall r h' c', and_then (entry cap i2f fuel h n id o c3) (fun h c => read_namespace cap i2f fuel h n (k - 1) c) = RDONE r h' c' -> advanced c3 c').
  { intros r h' c'. destruct (entry cap i2f fuel h n id o c3) as [| | |r1 h1 c4]; try discriminate. specialize (EN _ _ _ eq_refl). cbn [and_then].
    destruct (r1 =? 0); [|intro Q; now injection Q as <- <- <-]. intro Q. eapply adv_trans; [exact EN|]. eapply done_ns; [|exact Q]. now apply (adv_okc c3). }
  unfold cmp_read_str_size in *. destruct (Z.leb_spec (index c1) K) as [L1|L1].
  2:{ destruct T1 as [f ->]. eapply (cut_far _ c3); [lia|exact FULL]. }
  rewrite T1, CP. pose proof (con_okk _ _ _ O C1 L1) as K1. pose proof (rd_cut _ _ _ _ K1 E2) as T2.
  destruct (Z.leb_spec (index c2) K) as [LL2|LL2].
  2:{ destruct T2 as [f ->]. eapply (cut_far _ c3); [lia|exact FULL]. }
  rewrite T2. pose proof (con_okk _ _ _ K1 C2 LL2) as K2. pose proof (obj_cut _ _ _ K2 E3) as T3.
  destruct (Z.leb_spec (index c3) K) as [LL3|LL3].
  2:{ destruct T3 as [f ->]. eapply (cut_far _ c3); [lia|exact FULL]. }
  rewrite T3. pose proof (con_okk _ _ _ K2 C3 LL3) as K3.
  assert (ENC : cutr (entry cap i2f fuel h n id o c3) (entry cap i2f fuel2 h n id o (cut c3))).
  { unfold entry. destruct (cmp_object_as_map o).
    - destruct (namespace_find h n id) as [[sub|]| |]; try exact I; [apply IH; [exact K3|lia]|now apply cutr_here].
    - destruct (parameter_find h n id) as [[p|]| |]; try exact I; [now apply param_cut|now apply cutr_here]. }
  clear FULL. destruct (entry cap i2f fuel h n id o c3) as [| | |r1 h1 c4]; try exact I. specialize (EN _ _ _ eq_refl). cbn [and_then].
  destruct (Z.eqb_spec r1 0) as [->|N].
  - cbn [cutr] in ENC. destruct (Z.leb_spec (index c4) K) as [L4|L4].
    + rewrite ENC. cbn [and_then Z.eqb]. apply IH; [now apply (adv_okk c3)|]. destruct EN as (_ & _ & [_ EN] & _). lia.
    + destruct ENC as (h2 & f & ->). cbn [and_then Z.eqb]. eapply (cut_far _ c4); [exact L4|]. intros r h' c' Q. eapply done_ns; [|exact Q]. now apply (adv_okc c3).
  - cbn [cutr]. destruct r1; auto. lia.
Qed.
End Cut.

Theorem load_cut cap i2f h root buf h' c j : bytes_ok buf -> blen buf + 8 < 2 ^ 32 -> parameter_msgpack_read cap i2f h root buf = RDONE 0 h' c ->
  Z.of_nat j < index c -> exists h2 c2, parameter_msgpack_read cap i2f h root (firstn j buf) = RDONE (-1) h2 c2.
Proof.
  intros BO L E J. unfold parameter_msgpack_read, parameter_msgpack_read_cmp in *.
  set (c0 := cmp_mem_access_ro_init buf (blen buf)) in *.
  assert (OC : okc c0) by (split; [|exact BO]; pose proof (blen_nonneg buf); repeat split; cbn [c0 cmp_mem_access_ro_init size index mem]; lia).
  destruct (cmp_read_map c0) as [|c1|k c1] eqn:E1; [discriminate|discriminate|].
  assert (IC : Z.of_nat j <= blen buf).
  { pose proof (read_as_adv cmp_object_as_map c0 (okc_ctx _ OC)) as R. unfold cmp_read_map in E1. rewrite E1 in R. destruct R as [R _].
    pose proof (done_ns cap i2f _ h root k c1 _ _ _ (adv_okc _ _ OC R) E) as A. pose proof (adv_trans _ _ _ R A) as (_ & _ & _ & A'). cbn [c0 cmp_mem_access_ro_init mem] in A'. lia. }
  assert (OK0 : okk (Z.of_nat j) c0) by (split; [exact OC|cbn [c0 cmp_mem_access_ro_init size index]; lia]).
  assert (CE : cmp_mem_access_ro_init (firstn j buf) (blen (firstn j buf)) = cut (Z.of_nat j) c0).
  { pose proof (cut_len _ _ OK0) as CL. unfold cut. cbn [c0 cmp_mem_access_ro_init mem index ro err] in *. rewrite Nat2Z.id in *. now rewrite CL. }
  rewrite CE. unfold cmp_read_map in *. pose proof (as_cut _ _ _ _ _ OK0 E1) as T1.
  destruct (as_sound _ _ _ _ OC E1) as (o & hd & _ & _ & C1). destruct (Z.leb_spec (index c1) (Z.of_nat j)) as [L1|L1].
  - rewrite T1. pose proof (con_okk _ _ _ _ OK0 C1 L1) as K1.
    pose proof (ns_cut cap i2f (Z.of_nat j) (S (Z.to_nat (size c1))) (S (Z.to_nat (size (cut (Z.of_nat j) c1)))) h root k c1 K1) as T2.
    rewrite E in T2. cbn [cutr] in T2. destruct (Z.leb_spec (index c) (Z.of_nat j)); [lia|]. apply T2.
    cbn [cut size]. destruct K1 as [[(_ & I1 & _) _] _]. lia.
  - destruct T1 as [f ->]. eauto.
Qed.
