(** Theorems about saving a parameter tree as MessagePack and loading it (C20). *)
From Coq Require Import ZArith List Bool Arith Lia ZifyBool.
From Verif Require Import CBase Buf CmpModel CmpSpec CmpProofs ParamModel ParamSpec ParamProofs ParamProofs2 PmsgModel PmsgSpec PmsgProofs PmsgProofs2.
Import ListNotations.
Local Open Scope Z_scope.

(** ** Loading a document *)

(** Loading any document for the tree makes exactly the assignments it lists: the tree is then as after the
    calls of parameter_*_set, so that all that is proved of histories of calls (notification, reads) holds. *)
Theorem pmsg_load cap i2f hist h root sets bs rest :
  run hist = OK h -> ids_ok hist -> ids_distinct hist -> fits_port cap hist ->
  (root < length (ns_decls hist))%nat -> document (ns_decls hist) (par_decls hist) root sets bs ->
  blen (bs ++ rest) < 2 ^ 32 ->
  exists h' c, run (hist ++ map (fun x => OSet (fst x) (snd x)) sets) = OK h' /\
    parameter_msgpack_read cap i2f h root (bs ++ rest) = RDONE 0 h' c /\ index c = blen bs.
Proof.
  intros R IO ID FP Hr D L. destruct (read_document cap i2f _ _ _ _ _ rest R IO ID FP Hr D L) as (h' & R' & E').
  eexists _, _. split; [exact R'|]. split; [exact E'|reflexivity].
Qed.

(** ** Round trip *)

Lemma round_trip_core cap i2f hist1 h1 hist2 h2 root :
  run hist1 = OK h1 -> run hist2 = OK h2 -> same_shape hist1 hist2 ->
  ids_ok hist1 -> ids_distinct hist1 -> fits_port cap hist1 -> (root < length (ns_decls hist1))%nat ->
  (forall p x, nth_error (pars h1) p = Some x -> param_within hist1 p root -> pdefined x = true ->
     value_typed (pval x) /\ string_short (pval x)) ->
  exists bs,
    emitsw (parameter_msgpack_write_cmp h1 root) bs /\
    (exists sets, document (ns_decls hist1) (par_decls hist1) root sets bs) /\
    (forall rest, blen (bs ++ rest) < 2 ^ 32 ->
       exists h2' c, parameter_msgpack_read cap i2f h2 root (bs ++ rest) = RDONE 0 h2' c /\
         forall p,
           (param_within hist1 p root -> parameter_defined h1 p = OK true ->
              forall k, parameter_read h2' p k = parameter_read h1 p k) /\
           (~ param_within hist1 p root \/ parameter_defined h1 p = OK false ->
              nth_error (pars h2') p = nth_error (pars h2) p)).
Proof.
  intros R1 R2 SS IO ID FP Hr G. pose proof (inv_run _ _ R1) as I1. pose proof (inv_run _ _ R2) as I2.
  assert (SN : Forall (fun x => blen (snd x) < 2 ^ 32) (ns_decls hist1)).
  { destruct FP as (F & _). eapply Forall_impl; [|exact F]. cbn. intros ? [_ ?]. lia. }
  assert (SP : Forall (fun x => blen (snd (fst x)) < 2 ^ 32 /\ small_decl (snd x)) (par_decls hist1)).
  { destruct FP as (_ & F & _). eapply Forall_impl; [|exact F]. cbn. intros [[m id] d] (A & B & C). cbn in *.
    split; [lia|]. destruct d; cbn; auto; unfold blen in *; lia. }
  assert (Hr' : (root < length (nss h1))%nat) by now rewrite (ns_length _ _ I1).
  destruct (write_ok _ _ R1 SN SP ltac:(apply FP) (S (length (nss h1))) root Hr' ltac:(lia)) as (bs & D & EW).
  { intros p Hp x X Dx. apply in_pre in Hp; [|apply I1|exact Hr'|lia]. apply (param_within_heap _ _ _ _ I1) in Hp. eauto. }
  exists bs. split; [|split].
  - exact EW.
  - eauto.
  - intros rest L. destruct SS as [SS1 SS2].
    assert (D2 : document (ns_decls hist2) (par_decls hist2) root (saved (S (length (nss h1))) h1 root) bs).
    { destruct D as (k & hd & es & MH & E & Eb). exists k, hd, es. repeat (split; [assumption|]). split; [|exact Eb].
      rewrite SS1. eapply entries_kind; eauto. }
    assert (FM : map fst (par_decls hist2) = map fst (par_decls hist1)).
    { clear -SS2. induction SS2 as [|x y l l' [E _] _ IH]; cbn; [reflexivity|]. now rewrite E, IH. }
    assert (IO2 : ids_ok hist2).
    { destruct IO as [A B]. split; [now rewrite SS1|]. rewrite Forall_forall in *. intros x Hx. assert (Hx' : In (fst x) (map fst (par_decls hist1))) by (rewrite <- FM; now apply in_map). clear Hx. rename Hx' into Hx.
      apply in_map_iff in Hx as (y & E & Hy). rewrite <- E. now apply B. }
    assert (PD : forall i m id d, nth_error (par_decls hist2) i = Some (m, id, d) -> exists d', nth_error (par_decls hist1) i = Some (m, id, d') /\ same_kind d' d).
    { intros i m id d H. assert (Li : (i < length (par_decls hist1))%nat).
      { apply (f_equal (@length _)) in FM. rewrite !map_length in FM. rewrite <- FM. apply nth_error_Some. congruence. }
      destruct (lt_nth _ _ _ Li) as [[[m' id'] d'] H']. destruct (Forall2_nth' _ _ _ SS2 _ _ H') as (y & Y & E & K).
      rewrite H in Y. injection Y as <-. cbn in E, K. inversion E; subst. eauto. }
    assert (ID2 : ids_distinct hist2).
    { destruct ID as (A & B & C & E). unfold ids_distinct. rewrite SS1. split; [exact A|]. split; [|split; [exact C|]].
      - intros i m id d H. apply PD in H as (d' & H & _). eauto.
      - intros i j m id d d' Hi Hj. apply PD in Hi as (d1 & Hi & _). apply PD in Hj as (d2 & Hj & _). eauto. }
    assert (FP2 : fits_port cap hist2).
    { destruct FP as (A & B & C). unfold fits_port. rewrite SS1. split; [exact A|]. split.
      - rewrite Forall_forall in B |- *. intros [[m id] d] H. apply In_nth_error in H as [i H]. apply PD in H as (d' & H & K).
        apply nth_error_In in H. apply B in H. cbn [fst snd] in *. destruct H as (X & Y & Z). split; [exact X|]. split; [exact Y|].
        destruct d', d; cbn in K; try easy; unfold blen in *; rewrite <- K; exact Z.
      - apply (f_equal (@length _)) in FM. rewrite !map_length in FM. now rewrite FM. }
    destruct (read_document cap i2f _ _ _ _ _ rest R2 IO2 ID2 FP2 ltac:(rewrite SS1; exact Hr) D2 L) as (h2' & R2' & E2').
    eexists h2', _. split; [exact E2'|]. intro p.
    assert (LEN : length (pars h2') = length (pars h2)).
    { rewrite (inv_length _ _ (inv_run _ _ R2')), par_decls_osets. now rewrite (inv_length _ _ I2). }
    assert (LEN2 : length (pars h2) = length (pars h1)).
    { rewrite (inv_length _ _ I1), (inv_length _ _ I2). apply (f_equal (@length _)) in FM. now rewrite !map_length in FM. }
    split.
    + intros PW Df k. unfold parameter_defined in Df. destruct (nth_error (pars h1) p) as [x|] eqn:X; [|discriminate]. injection Df as Df.
      assert (Lp : (p < length (pars h2'))%nat) by (rewrite LEN, LEN2; apply nth_error_Some; congruence).
      destruct (lt_nth _ _ _ Lp) as [y Y]. unfold parameter_read. rewrite X, Y.
      assert (IN : In (p, arg_of (pval x)) (saved (S (length (nss h1))) h1 root)).
      { apply saved_in. split; [|eauto]. apply in_pre; [apply I1|exact Hr'|lia|]. now apply (param_within_heap _ _ _ _ I1). }
      destruct (sets_effect _ _ R2 _ _ R2' _ _ Y) as [(a & v & Ia & Sa & Da)|[No _]]; [|now apply No in IN].
      apply saved_in in Ia as (_ & x' & X' & _ & ->). rewrite X in X'. injection X' as <-.
      destruct (kinds_run _ _ R1 _ _ X) as (m & id & d & Dp & K).
      destruct (kinds_run _ _ R2' _ _ Y) as (m' & id' & d' & Dp' & K'). rewrite par_decls_osets in Dp'.
      apply PD in Dp' as (d'' & Dp' & SK). rewrite Dp in Dp'. inversion Dp'; subst.
      eapply load_store; eauto.
    + intro H. assert (NO : forall a, ~ In (p, a) (saved (S (length (nss h1))) h1 root)).
      { intros a Ia. apply saved_in in Ia as (Hp & x & X & Dx & _). apply in_pre in Hp; [|apply I1|exact Hr'|lia].
        apply (param_within_heap _ _ _ _ I1) in Hp. destruct H as [H|H]; [easy|]. unfold parameter_defined in H. rewrite X, Dx in H. discriminate. }
      destruct (nth_error (pars h2') p) as [y|] eqn:Y.
      * destruct (sets_effect _ _ R2 _ _ R2' _ _ Y) as [(a & v & Ia & _)|[_ E]]; [now apply NO in Ia|]. now symmetry.
      * symmetry. apply nth_error_None. apply nth_error_None in Y. lia.
Qed.

(** C20. A tree is saved in any buffer that is large enough for its document [bs]; the document, followed by
    anything, loaded in another tree of the same shape gives to every parameter defined in the first its value
    for all the ways to read it, and touches no other parameter. Strings must leave one byte of their buffer
    unused (see the refutation below). *)
Theorem pmsg_round_trip_partial cap i2f hist1 h1 hist2 h2 root :
  run hist1 = OK h1 -> run hist2 = OK h2 -> same_shape hist1 hist2 ->
  ids_ok hist1 -> ids_distinct hist1 -> fits_port cap hist1 -> (root < length (ns_decls hist1))%nat ->
  (forall p x, nth_error (pars h1) p = Some x -> param_within hist1 p root -> pdefined x = true ->
     value_typed (pval x) /\ string_short (pval x)) ->
  exists bs,
    (forall buf, blen bs <= blen buf < 2 ^ 32 ->
       parameter_msgpack_write h1 root buf = Some (bs ++ skipn (length bs) buf, true)) /\
    (exists sets, document (ns_decls hist1) (par_decls hist1) root sets bs) /\
    (forall rest, blen (bs ++ rest) < 2 ^ 32 ->
       exists h2' c, parameter_msgpack_read cap i2f h2 root (bs ++ rest) = RDONE 0 h2' c /\
         forall p,
           (param_within hist1 p root -> parameter_defined h1 p = OK true ->
              forall k, parameter_read h2' p k = parameter_read h1 p k) /\
           (~ param_within hist1 p root \/ parameter_defined h1 p = OK false ->
              nth_error (pars h2') p = nth_error (pars h2) p)).
Proof.
  intros R1 R2 SS IO ID FP Hr G. destruct (round_trip_core cap i2f _ _ _ _ _ R1 R2 SS IO ID FP Hr G) as (bs & EW & D & RD).
  exists bs. split; [|split; [exact D|exact RD]].
  intros buf [L1 L2]. unfold parameter_msgpack_write.
  pose proof (blen_nonneg bs). destruct (split_at buf (blen bs)) as (old & post & -> & LO); [lia|].
  rewrite (EW [] old post); try reflexivity; auto. cbn [mem app]. do 2 f_equal. rewrite <- (skipn_blen_app old post) at 1. unfold blen in *. f_equal. f_equal. lia.
Qed.

(** ** Every input is processed *)

Definition advanced (c c' : ctx) : Prop :=
  mem c' = mem c /\ size c' = size c /\ 0 <= index c <= index c' /\ index c' <= blen (mem c).
Definition ctx_ok (c : ctx) : Prop := 0 <= index c <= blen (mem c) /\ blen (mem c) < 2 ^ 32.
Definition mono {A} (m : M A) : Prop :=
  forall c, ctx_ok c -> match m c with UB => True | Fail c' => advanced c c' | Ok _ c' => advanced c c' end.
Lemma adv_refl c : ctx_ok c -> advanced c c. Proof. unfold ctx_ok, advanced. intuition lia. Qed.
Lemma adv_err c e : ctx_ok c -> advanced c (set_err c e). Proof. unfold ctx_ok, advanced, set_err. cbn. intuition lia. Qed.
Lemma adv_ok c c' : ctx_ok c -> advanced c c' -> ctx_ok c'.
Proof. unfold ctx_ok, advanced. intros A (M & S & I & J). rewrite M. lia. Qed.
Lemma adv_trans a b c : advanced a b -> advanced b c -> advanced a c.
Proof. unfold advanced. intros (M & S & I & J) (M' & S' & I' & J'). rewrite M in *. intuition (congruence || lia). Qed.
Lemma mono_ret {A} (a : A) : mono (ret a). Proof. intros c H. now apply adv_refl. Qed.
Lemma mono_fail {A} e : mono (@fail A e). Proof. intros c H. now apply adv_err. Qed.
Lemma mono_bind {A B} (m : M A) (f : A -> M B) : mono m -> (forall a, mono (f a)) -> mono (mbind m f).
Proof.
  intros H1 H2 c H. unfold mbind. specialize (H1 c H). destruct (m c) as [|c1|a c1]; auto.
  specialize (H2 a c1 (adv_ok _ _ H H1)). destruct (f a c1); auto; eapply adv_trans; eauto.
Qed.
Lemma mono_or {A} (m : M A) e : mono m -> mono (m !! e).
Proof.
  intros H1 c H. unfold or_err. specialize (H1 c H). destruct (m c) as [|c1|a c1]; [exact I| |exact H1]. eapply adv_trans; [exact H1|].
  apply adv_err. eapply adv_ok; eauto.
Qed.
Lemma rd_adv n c : ctx_ok c -> match rd n c with UB => True | Fail c' => c' = c | Ok _ c' => advanced c c' /\ index c' = index c + n end.
Proof.
  intros [H L]. unfold rd. destruct (u32 (index c + n) <=? size c); [|reflexivity].
  destruct (bslice (mem c) (index c) n) eqn:B; [|exact I]. unfold bslice in B.
  destruct ((0 <=? index c) && (0 <=? n) && (index c + n <=? blen (mem c))) eqn:E; [|discriminate].
  unfold advanced, set_index. cbn [mem size index]. rewrite uid32 by lia. intuition lia.
Qed.
Lemma mono_rd n : mono (rd n).
Proof. intros c H. pose proof (rd_adv n c H) as R. destruct (rd n c) as [|c1|a c1]; [exact I|subst; now apply adv_refl|apply R]. Qed.
Ltac mono_tac := repeat first [apply mono_ret | apply mono_fail | apply mono_rd | apply mono_or | (apply mono_bind; [|intro])
  | match goal with |- mono (if ?b then _ else _) => destruct b end].
Lemma read_object_adv c : ctx_ok c ->
  match cmp_read_object c with UB => True | Fail c' => advanced c c' | Ok _ c' => advanced c c' /\ index c + 1 <= index c' end.
Proof.
  intro H. unfold cmp_read_object. unfold mbind at 1, read_type_marker, read_byte, or_err, mbind at 1.
  pose proof (rd_adv 1 c H) as R. destruct (rd 1 c) as [|c1|l c1]; [exact I|subst; now apply adv_err|].
  destruct R as [R E]. cbn [ret]. set (t := le_val l).
  match goal with |- match ?f c1 with _ => _ end => assert (Mo : mono f) by (unfold rd8, rd16, rd32, rd64; mono_tac) end.
  specialize (Mo c1 (adv_ok _ _ H R)). match goal with |- match ?e with _ => _ end => destruct e as [|c2|o c2] end; [exact I| |].
  - eapply adv_trans; eauto.
  - split; [eapply adv_trans; eauto|]. destruct Mo as (_ & _ & Mo & _). lia.
Qed.
Lemma read_as_adv {A} (f : obj -> option A) c : ctx_ok c ->
  match read_as f c with UB => True | Fail c' => advanced c c' | Ok _ c' => advanced c c' /\ index c + 1 <= index c' end.
Proof.
  intro H. unfold read_as, mbind. pose proof (read_object_adv c H) as R. destruct (cmp_read_object c) as [|c1|o c1]; auto.
  destruct (f o); cbn [ret fail]; [exact R|]. destruct R as [R _]. eapply adv_trans; [exact R|]. apply adv_err. eapply adv_ok; eauto.
Qed.

Section Terminates.
Variables (cap : Z) (i2f : Z -> Z).
Definition fine (c : ctx) (r : rr) : Prop :=
  match r with RFUEL => False | RDONE _ _ c' => advanced c c' | _ => True end.
Lemma fine_set c h p a c' : advanced c c' -> fine c (set_done h p a c').
Proof. intro H. unfold set_done. destruct (parameter_set h p a); cbn; auto. Qed.
Lemma vec_adv : forall n e c, ctx_ok c -> match get_vector i2f n e c with VUB => True | VRET _ c' => advanced c c' | VOK _ c' => advanced c c' end.
Proof.
  induction n as [|n IH]; intros e c H; cbn [get_vector]; [destruct e; now apply adv_refl|].
  pose proof (read_object_adv c H) as R. destruct (cmp_read_object c) as [|c1|o c1]; auto. destruct R as [R _].
  pose proof (adv_ok _ _ H R) as H1. destruct (if e then None else get_float i2f o).
  - specialize (IH e c1 H1). destruct (get_vector i2f n e c1); auto; eapply adv_trans; eauto.
  - destruct (discard o =? 0); [|exact R]. specialize (IH true c1 H1). destruct (get_vector i2f n true c1); auto; eapply adv_trans; eauto.
Qed.
Lemma fine_param h p o c : ctx_ok c -> fine c (read_parameter cap i2f h p o c).
Proof.
  intro H. pose proof (adv_refl _ H) as Rf. unfold read_parameter. destruct (nth_error (pars h) p) as [x|]; [|exact I].
  assert (EL : forall n mk, fine c (read_elements cap i2f h p n c mk)).
  { intros n mk. unfold read_elements. destruct (cap <? _); [exact I|]. pose proof (vec_adv (Z.to_nat n) false c H) as V.
    destruct (get_vector i2f (Z.to_nat n) false c); auto. now apply fine_set. }
  destruct (pval x).
  - unfold read_parameter_scalar. destruct (get_float i2f o); [now apply fine_set|exact Rf].
  - unfold read_parameter_boolean. destruct (cmp_object_as_bool o); [now apply fine_set|exact Rf].
  - unfold read_parameter_integer. destruct (cmp_object_as_int o); [now apply fine_set|exact Rf].
  - unfold read_parameter_string. destruct (cmp_object_as_str o) as [n|]; [|exact Rf]. destruct (_ <=? n); [exact Rf|].
    destruct (cap <? n); [exact I|]. pose proof (rd_adv n c H) as R. destruct (rd n c); [exact I|subst; exact Rf|]. now apply fine_set.
  - unfold read_parameter_vector. destruct (cmp_object_as_array o); [|exact Rf]. destruct (_ && _); [exact Rf|apply EL].
  - unfold read_parameter_var_vector. destruct (cmp_object_as_array o); [|exact Rf]. destruct (_ && _); [exact Rf|apply EL].
Qed.
Lemma fine_trans a b r : advanced a b -> fine b r -> fine a r.
Proof. destruct r; cbn; auto. apply adv_trans. Qed.

Lemma fine_ns : forall fuel h n k c, ctx_ok c -> blen (mem c) - index c < Z.of_nat fuel -> fine c (read_namespace cap i2f fuel h n k c).
Proof.
  induction fuel as [|fuel IH]; intros h n k c H F; [unfold ctx_ok in H; lia|]. pose proof (adv_refl _ H) as Rf.
  cbn [read_namespace]. destruct (k <=? 0); [exact Rf|].
  pose proof (read_as_adv cmp_object_as_str c H) as R. fold cmp_read_str_size in R. destruct (cmp_read_str_size c) as [|c1|s c1]; [exact I|exact R|].
  destruct R as [R1 P1]. destruct (cap <? _); [exact I|]. pose proof (adv_ok _ _ H R1) as H1.
  pose proof (rd_adv s c1 H1) as R2. destruct (rd s c1) as [|c2|id c2]; [exact I|subst; exact R1|]. destruct R2 as [R2 _].
  pose proof (adv_ok _ _ H1 R2) as H2. pose proof (read_object_adv c2 H2) as R3. destruct (cmp_read_object c2) as [|c3|o c3]; [exact I|eapply adv_trans; [exact R1|eapply adv_trans; eauto]|].
  destruct R3 as [R3 _]. pose proof (adv_ok _ _ H2 R3) as H3.
  assert (A : advanced c c3) by (eapply adv_trans; [exact R1|eapply adv_trans; eauto]).
  assert (F3 : blen (mem c3) - index c3 < Z.of_nat fuel).
  { destruct R1 as (M1 & _), R2 as (M2 & _ & [_ I2] & _), R3 as (M3 & _ & [_ I3] & _). rewrite M3, M2, M1. lia. }
  apply (fine_trans c c3); [exact A|]. pose proof (adv_refl _ H3) as Rf3.
  match goal with |- fine _ (and_then ?e _) => assert (E : fine c3 e) end.
  { destruct (cmp_object_as_map o).
    - destruct (namespace_find h n id) as [[sub|]| |]; [now apply IH|exact Rf3|exact I|exact I].
    - destruct (parameter_find h n id) as [[p|]| |]; [now apply fine_param|exact Rf3|exact I|exact I]. }
  match goal with |- fine _ (and_then ?e _) => destruct e as [| | |r h' c4] end; cbn [and_then]; auto.
  cbn in E. destruct (r =? 0); [|exact E]. apply (fine_trans c3 c4); [exact E|]. apply IH; [eapply adv_ok; eauto|].
  destruct E as (M4 & _ & [_ I4] & _). rewrite M4. lia.
Qed.
End Terminates.

(** Whatever the contents of the buffer, loading it terminates: the recursion is not deeper than the number of
    bytes, and a load that returns has only looked at the buffer. *)
Theorem pmsg_load_terminates cap i2f h root buf : blen buf < 2 ^ 32 ->
  match parameter_msgpack_read cap i2f h root buf with
  | RFUEL => False
  | RDONE _ _ c => mem c = buf /\ 0 <= index c <= blen buf
  | _ => True
  end.
Proof.
  intro L. unfold parameter_msgpack_read, parameter_msgpack_read_cmp. set (c := cmp_mem_access_ro_init buf (blen buf)).
  assert (H : ctx_ok c) by (pose proof (blen_nonneg buf); split; cbn [c cmp_mem_access_ro_init index mem]; lia).
  pose proof (read_as_adv cmp_object_as_map c H) as R. fold cmp_read_map in R. destruct (cmp_read_map c) as [|c1|k c1]; [exact I| |].
  - destruct R as (A & _ & B & C). cbn in A, B, C. rewrite A. auto with zarith.
  - destruct R as [R P]. pose proof (fine_ns cap i2f (S (Z.to_nat (size c1))) h root k c1 (adv_ok _ _ H R)) as F.
    assert (S1 : size c1 = blen buf) by (destruct R as (_ & S1 & _); exact S1).
    assert (M1 : mem c1 = buf) by (destruct R as (M1 & _); exact M1).
    rewrite S1, M1 in F. destruct H as [H _]. cbn [c cmp_mem_access_ro_init index mem] in H.
    assert (0 <= index c1) by (destruct R as (_ & _ & R & _); lia).
    specialize (F ltac:(lia)). rewrite S1.
    match goal with |- match ?e with _ => _ end => destruct e end; auto.
    cbn in F. destruct F as (A & _ & B & C). rewrite A, M1 in *. split; [reflexivity|lia].
Qed.

(** ** Examples and refutations *)
Definition ex_tree (s : option str) (sc : option Z) : list op :=
  [ODeclNs None [114]; ODeclNs (Some 0%nat) [97];
   ODecl 1 [120] (DScalar sc); ODecl 1 [121] (DInt None); ODecl 0 [115] (DStr [0; 0; 0; 0] s);
   ODecl 0 [118] (DVar [7; 8; 9] None); ODecl 1 [98] (DBool None)].
Definition ex_source : list op := ex_tree (Some [104; 105]) (Some 0x40490fdb) ++ [OSet 1 (AInt (-5)); OSet 3 (AVar [1; 2] 2)].
Definition ex_target : list op := ex_tree (Some [111]) None ++ [OSet 4 (ABool true)].
Definition ex_heap (hist : list op) : heap := match run hist with OK h => h | _ => empty end.

(** The hypotheses are met by a tree with two namespaces, five parameters of different types, one of them
    undefined. *)
Example pmsg_hypotheses : run ex_source = OK (ex_heap ex_source) /\ run ex_target = OK (ex_heap ex_target) /\
  same_shape ex_source ex_target /\ ids_ok ex_source /\ fits_port 64 ex_source /\ ids_distinct ex_source /\
  (forall p x, nth_error (pars (ex_heap ex_source)) p = Some x -> param_within ex_source p 0 -> pdefined x = true ->
     value_typed (pval x) /\ string_short (pval x)).
Proof.
  split; [vm_compute; reflexivity|]. split; [vm_compute; reflexivity|].
  split; [split; [reflexivity|repeat constructor]|].
  split; [split; cbn; repeat constructor; cbn; intuition lia|].
  split; [split; [|split]; cbn; repeat constructor; cbn; lia|]. split.
  - split; [|split; [|split]]; cbn.
    + intros [|[|[|i]]] m id H; cbn in H; try discriminate. inversion H; subst. split; [easy|]. cbn. unfold slash. intuition lia.
    + intros [|[|[|[|[|[|i]]]]]] m id d H; cbn in H; try discriminate; inversion H; subst; (split; [easy|]); cbn; unfold slash; intuition lia.
    + intros [|[|[|i]]] [|[|[|j]]] m id H H'; cbn in *; congruence.
    + intros [|[|[|[|[|[|i]]]]]] [|[|[|[|[|[|j]]]]]] m id d d' H H'; cbn in *; congruence.
  - intros p x H _ _. vm_compute in H. do 5 (destruct p as [|p]; [injection H as <-; cbn; repeat constructor; cbn; lia|]).
    destruct p; discriminate.
Qed.
Example pmsg_example :
  match parameter_msgpack_write (ex_heap ex_source) 0 (repeat 0 64) with
  | Some (buf, ok) =>
      ok = true /\
      match parameter_msgpack_read 64 (fun x => x) (ex_heap ex_target) 0 buf with
      | RDONE r h _ => r = 0 /\ parameter_read h 0 KScalar = OK (GScalar 0x40490fdb) /\ parameter_read h 1 KInt = OK (GInt (-5)) /\
          parameter_read h 2 (KStr 4) = OK (GStr [104; 105; 0] 2) /\ parameter_read h 3 KVar = OK (GVar [1; 2]) /\
          parameter_read h 4 KBool = OK (GBool true)
      | _ => False
      end
  | None => False
  end.
Proof. vm_compute. auto 10. Qed.

(** A string that fills its buffer is saved but not loaded: line 251 refuses it. The load fails. *)
Theorem pmsg_full_string_refuted :
  exists hist1 h1 hist2 h2 buf,
    run hist1 = OK h1 /\ run hist2 = OK h2 /\ same_shape hist1 hist2 /\
    parameter_read h1 2 (KStr 8) = OK (GStr [97; 98; 99; 100; 0] 4) /\
    parameter_msgpack_write h1 0 (repeat 0 64) = Some (buf, true) /\
    match parameter_msgpack_read 64 (fun x => x) h2 0 buf with
    | RDONE r h _ => r = -1 /\ parameter_read h 2 (KStr 8) = OK (GStr [111; 0] 1)
    | _ => False
    end.
Proof.
  exists (ex_tree (Some [97; 98; 99; 100]) None), (ex_heap (ex_tree (Some [97; 98; 99; 100]) None)), ex_target, (ex_heap ex_target).
  eexists. split; [vm_compute; reflexivity|]. split; [vm_compute; reflexivity|].
  split; [split; [reflexivity|repeat constructor]|]. split; [vm_compute; reflexivity|].
  split; [vm_compute; reflexivity|]. vm_compute. auto.
Qed.

(** The writer does not look at the result of writing the header and the identifiers of the namespaces (lines 430
    and 434): with a buffer too small, no error is reported although the document cannot be loaded. *)
Theorem pmsg_short_buffer_refuted :
  exists hist h buf, run hist = OK h /\ parameter_msgpack_write h 0 [0; 0; 0] = Some (buf, true) /\
    match parameter_msgpack_read 64 (fun x => x) h 0 buf with RDONE r _ _ => r = -1 | _ => False end.
Proof.
  exists [ODeclNs None [114]; ODeclNs (Some 0%nat) [97; 98; 99; 100]]. eexists. eexists.
  split; [vm_compute; reflexivity|]. split; [vm_compute; reflexivity|]. vm_compute. auto.
Qed.

(** A malformed document makes the loader access memory outside of the buffer: the announced size of an
    identifier is added to the position in 32 bits (cmp_mem_access.c 7). *)
Theorem pmsg_malformed_refuted :
  exists hist h buf, run hist = OK h /\ parameter_msgpack_read 64 (fun x => x) h 0 buf = RUB.
Proof.
  exists ex_target, (ex_heap ex_target), [0x81; 0xDB; 0xFF; 0xFF; 0xFF; 0xFF].
  split; vm_compute; reflexivity.
Qed.

Print Assumptions pmsg_load.
Print Assumptions pmsg_round_trip_partial.
Print Assumptions pmsg_load_terminates.
Print Assumptions pmsg_full_string_refuted.
Print Assumptions pmsg_short_buffer_refuted.
Print Assumptions pmsg_malformed_refuted.
