(** Proofs about saving parameter trees, and the round trip. *)
From Coq Require Import ZArith List Bool Arith Lia ZifyBool.
From Verif Require Import CBase Buf CmpModel CmpSpec CmpProofs ParamModel ParamSpec ParamProofs ParamProofs2 PmsgModel PmsgSpec PmsgProofs.
Import ListNotations.
Local Open Scope Z_scope.

(** ** Emission *)
Definition emitsw (w : W) (bs : list Z) : Prop :=
  forall pre old post c,
    mem c = pre ++ old ++ post -> blen old = blen bs -> index c = blen pre ->
    size c = blen (mem c) -> size c < 2 ^ 32 -> ro c = false ->
    w c = Some (mkctx (pre ++ bs ++ post) (size c) (blen pre + blen bs) false (err c), true).

Lemma ew_attempt m bs : emits m bs -> emitsw (attempt m) bs.
Proof. intros H pre old post c E L I S B R. unfold attempt. now rewrite (H pre old post c E L I S B R). Qed.
Lemma ew_ignore w bs : emitsw w bs -> emitsw (ignorew w) bs.
Proof. intros H pre old post c E L I S B R. unfold ignorew. now rewrite (H pre old post c E L I S B R). Qed.
Lemma ew_done : emitsw donew [].
Proof.
  intros pre old post c E L I S B R. destruct old; [|rewrite blen_cons, blen_nil in L; pose proof (blen_nonneg old); lia].
  unfold donew. destruct c as [m0 s0 i0 r0 e0]; cbn [mem size index ro err app] in *. subst. now rewrite blen_nil, Z.add_0_r.
Qed.
Lemma ew_and w1 w2 a b : emitsw w1 a -> emitsw w2 b -> emitsw (andw w1 w2) (a ++ b).
Proof.
  intros H1 H2 pre old post c E L I S B R. rewrite blen_app in L.
  pose proof (blen_nonneg a). pose proof (blen_nonneg b).
  destruct (split_at old (blen a)) as (o1 & o2 & -> & L1); [lia|].
  rewrite blen_app in L. unfold andw. rewrite <- app_assoc in E.
  rewrite (H1 pre o1 (o2 ++ post) c E L1 I S B R).
  rewrite (H2 (pre ++ a) o2 post); cbn [mem size index ro err].
  - rewrite <- !app_assoc, !blen_app. cbn [andb]. do 3 f_equal. lia.
  - now rewrite <- app_assoc.
  - lia.
  - now rewrite blen_app.
  - rewrite S, E, !blen_app. lia.
  - exact B.
  - reflexivity.
Qed.
Lemma ew_seq {A} (f : A -> W) (g : A -> list Z) l : (forall x, In x l -> emitsw (f x) (g x)) -> emitsw (seqw (map f l)) (flat_map g l).
Proof.
  unfold seqw. induction l as [|x l IH]; intro H; cbn [map fold_right flat_map]; [apply ew_done|].
  apply ew_and; [apply H; now left|apply IH; intros; apply H; now right].
Qed.

Lemma emits_str data n : 0 <= n <= blen data -> n < 2 ^ 32 ->
  exists hd, str_header n hd /\ emits (cmp_write_str data n) (hd ++ firstn (Z.to_nat n) data).
Proof.
  intros H L. destruct (str_marker_rt n) as (hd & [Sh _] & E & _); [lia|]. exists hd. split; [exact Sh|].
  rewrite write_str_split by lia. apply emits_bind; [exact E|]. now apply emits_payload.
Qed.
Lemma emits_id id : blen id < 2 ^ 32 -> exists hd, str_header (blen id) hd /\ emits (cmp_write_str id (blen id)) (hd ++ id).
Proof.
  intro L. destruct (emits_str id (blen id)) as (hd & A & B); [pose proof (blen_nonneg id); lia|exact L|].
  exists hd. split; [exact A|]. unfold blen in B at 2. now rewrite Nat2Z.id, firstn_all in B.
Qed.
Lemma emits_fl x : 0 <= x < 2 ^ 32 -> emits (cmp_write_float x) (0xCA :: be 4 x).
Proof. intro. unfold cmp_write_float. apply emits_n4. unfold FLOAT_MARKER. lia. Qed.
Lemma emits_s32 x : emits (cmp_write_s32 x) (0xD2 :: be 4 x).
Proof.
  unfold cmp_write_s32. eapply emits_eq; [apply emits_n4; unfold S32_MARKER; lia|]. f_equal. now apply be_u.
Qed.

Definition arg_of (v : value) : arg :=
  match v with
  | VScalar x => AScalar x
  | VInt i => AInt i
  | VBool b => ABool b
  | VStr buf len => AStr (firstn len buf) len
  | VVec buf => AVec buf
  | VVar buf dim => AVar (firstn dim buf) dim
  end.

Definition small_decl (d : decl) : Prop :=
  match d with DVec b _ | DVar b _ => blen b < 2 ^ 32 | DStr b _ => blen b < 2 ^ 32 | _ => True end.

Lemma Forall_firstn' {A} (P : A -> Prop) l : Forall P l -> forall k, Forall P (firstn k l).
Proof. induction 1; intros [|k]; cbn; auto. Qed.

Lemma write_value_ok v d : kinded v d -> value_typed v -> string_short v -> small_decl d ->
  exists vb, encodes d (arg_of v) vb /\ emitsw (write_value v) vb.
Proof.
  destruct v, d; cbn [kinded value_typed string_short small_decl arg_of write_value]; intros K T SS SD; try easy.
  - exists (0xCA :: be 4 x). split; [now constructor|]. now apply ew_attempt, emits_fl.
  - exists [if b then 0xC3 else 0xC2]. split; [constructor|]. apply ew_attempt. unfold cmp_write_bool, cmp_write_true, cmp_write_false.
    destruct b; apply emits_marker; unfold TRUE_MARKER, FALSE_MARKER; lia.
  - exists (0xD2 :: be 4 i). split; [constructor; [constructor; lia|cbn; lia|lia]|]. apply ew_attempt, emits_s32.
  - destruct K as [K1 K2]. destruct (emits_str buf (Z.of_nat len)) as (hd & A & B); [unfold blen; lia|unfold blen in *; lia|].
    exists (hd ++ firstn len buf). split; [|apply ew_attempt; now rewrite Nat2Z.id in B].
    replace len with (length (firstn len buf)) at 2 by (rewrite firstn_length; lia).
    constructor; [rewrite firstn_length; lia|]. unfold blen. rewrite firstn_length. now replace (Nat.min len (length buf)) with len by lia.
  - destruct (array_rt (blen buf)) as (hd & [A _] & B & _); [unfold blen in *; lia|].
    exists (hd ++ flat_map (fun x => 0xCA :: be 4 x) buf). split; [now constructor|]. apply ew_and; [now apply ew_attempt|].
    apply ew_seq. intros x Hx. apply ew_attempt, emits_fl. rewrite Forall_forall in T. now apply T.
  - destruct K as [K1 K2]. replace (dim <=? length buf)%nat with true by (symmetry; apply Nat.leb_le; lia).
    destruct (array_rt (Z.of_nat dim)) as (hd & [A _] & B & _); [unfold blen in *; lia|].
    exists (hd ++ flat_map (fun x => 0xCA :: be 4 x) (firstn dim buf)).
    assert (LF : length (firstn dim buf) = dim) by (rewrite firstn_length; lia). split.
    + rewrite <- LF at 2. constructor; [lia| |now apply Forall_firstn']. unfold blen. now rewrite LF.
    + apply ew_and; [now apply ew_attempt|]. apply ew_seq. intros x Hx. apply ew_attempt, emits_fl.
      pose proof (Forall_firstn' _ _ T dim) as T'. rewrite Forall_forall in T'. now apply T'.
Qed.

(** ** The assignments saved *)
Definition param_sets (h : heap) (p : nat) : list (nat * arg) :=
  match nth_error (pars h) p with Some x => if pdefined x then [(p, arg_of (pval x))] else [] | None => [] end.
Fixpoint saved (fuel : nat) (h : heap) (n : nat) : list (nat * arg) :=
  match fuel with
  | O => []
  | S fuel =>
      match nth_error (nss h) n with
      | None => []
      | Some x => flat_map (saved fuel h) (nsubs x) ++ flat_map (param_sets h) (nparams x)
      end
  end.

Lemma param_sets_in h p q a : In (q, a) (param_sets h p) <-> p = q /\ exists x, nth_error (pars h) p = Some x /\ pdefined x = true /\ a = arg_of (pval x).
Proof.
  unfold param_sets. destruct (nth_error (pars h) p) as [x|] eqn:E.
  - destruct (pdefined x) eqn:D; cbn.
    + split.
      * intros [H|[]]. inversion H; subst. eauto 6.
      * intros [<- (y & Y & _ & ->)]. inversion Y; subst. now left.
    + split; [easy|]. intros [_ (y & Y & Z & _)]. congruence.
  - split; [easy|]. intros [_ (y & Y & _)]. congruence.
Qed.
Lemma saved_in h : forall fuel n q a, In (q, a) (saved fuel h n) <->
  In q (pre fuel h n) /\ exists x, nth_error (pars h) q = Some x /\ pdefined x = true /\ a = arg_of (pval x).
Proof.
  induction fuel as [|fuel IH]; intros n q a; cbn [saved pre]; [easy|].
  destruct (nth_error (nss h) n) as [x|]; [|easy]. rewrite !in_app_iff, !in_flat_map. split.
  - intros [(m & Hm & H)|(p & Hp & H)].
    + apply IH in H as [H1 H2]. split; [right; eauto|exact H2].
    + apply param_sets_in in H as [<- H]. auto.
  - intros [[H|(m & Hm & H)] Hx].
    + right. exists q. split; [exact H|]. apply param_sets_in. auto.
    + left. exists m. split; [exact Hm|]. apply IH. auto.
Qed.

Lemma entries_app nl pl n k1 s1 b1 k2 s2 b2 : entries nl pl n k1 s1 b1 -> entries nl pl n k2 s2 b2 ->
  entries nl pl n (k1 + k2) (s1 ++ s2) (b1 ++ b2).
Proof.
  intros H1 H2. induction H1.
  - exact H2.
  - cbn [Nat.add app]. rewrite <- !app_assoc. econstructor; eauto.
  - cbn [Nat.add app]. rewrite <- !app_assoc. econstructor; eauto.
Qed.

Section Write.
Variables (hist : list op) (h : heap).
Hypothesis R : run hist = OK h.
Hypothesis small_ns : Forall (fun x => blen (snd x) < 2 ^ 32) (ns_decls hist).
Hypothesis small_par : Forall (fun x => blen (snd (fst x)) < 2 ^ 32 /\ small_decl (snd x)) (par_decls hist).
Hypothesis small_cnt : Z.of_nat (length (ns_decls hist) + length (par_decls hist)) < 2 ^ 32.

Definition good (p : nat) : Prop :=
  forall x, nth_error (pars h) p = Some x -> pdefined x = true -> value_typed (pval x) /\ string_short (pval x).

Lemma write_params n l : (forall p, In p l -> (exists x, nth_error (pars h) p = Some x /\ pns x = n) /\ good p) ->
  exists es, entries (ns_decls hist) (par_decls hist) n (length (filter (is_defined h) l)) (flat_map (param_sets h) l) es /\
    emitsw (seqw (map (write_param h) l)) es.
Proof.
  induction l as [|p l IH]; intro H.
  - exists []. split; [constructor|apply ew_done].
  - destruct IH as (es & E & W); [intros q Hq; apply H; now right|]. cbn [filter flat_map map seqw fold_right].
    destruct (H p (or_introl eq_refl)) as [(x & X & N) G]. unfold is_defined at 1, param_sets at 1, write_param at 1. rewrite X.
    destruct (pdefined x) eqn:D; cbn [app].
    + destruct (G x X D) as [T S]. destruct (kinds_run _ _ R _ _ X) as (m & id & d & Dp & K).
      pose proof (par_decl_nth _ _ (inv_run _ _ R) p) as PD. rewrite Dp, X in PD. cbn in PD. injection PD as PD1 PD2. subst m id.
      rewrite Forall_forall in small_par. pose proof (small_par _ (nth_error_In _ _ Dp)) as [L SD]. cbn [fst snd] in L, SD.
      destruct (write_value_ok _ _ K T S SD) as (vb & EV & WV). destruct (emits_id _ L) as (hd & Sh & WI).
      exists (hd ++ pid x ++ vb ++ es). split.
      * cbn [length]. rewrite N in Dp. econstructor; eauto.
      * replace (hd ++ pid x ++ vb ++ es) with (((hd ++ pid x) ++ vb) ++ es) by now rewrite <- !app_assoc.
        apply ew_and; [|exact W]. apply ew_and; [now apply ew_attempt|exact WV].
    + exists es. split; [exact E|]. change es with ([] ++ es). apply ew_and; [apply ew_done|exact W].
Qed.

Lemma filter_le {A} (f : A -> bool) l : (length (filter f l) <= length l)%nat.
Proof. induction l as [|x l IH]; cbn; [lia|]. destruct (f x); cbn; lia. Qed.

Lemma write_ok : forall fuel n, (n < length (nss h))%nat -> (length (nss h) < fuel + n)%nat ->
  (forall p, In p (pre fuel h n) -> good p) ->
  exists bs, document (ns_decls hist) (par_decls hist) n (saved fuel h n) bs /\ emitsw (write_subtree fuel h n) bs.
Proof.
  pose proof (i_wf _ _ (inv_run _ _ R)) as WF. pose proof (inv_length _ _ (inv_run _ _ R)) as LP. pose proof (ns_length _ _ (inv_run _ _ R)) as LN.
  induction fuel as [|fuel IH]; intros n Hn Hf G; [lia|]. cbn [saved write_subtree]. cbn [pre] in G.
  destruct (lt_nth _ _ _ Hn) as [x X]. rewrite X in G |- *.
  assert (SUB : forall l, (forall m, In m l -> In m (nsubs x)) ->
    exists es, entries (ns_decls hist) (par_decls hist) n (length l) (flat_map (saved fuel h) l) es /\
      emitsw (seqw (map (fun m => match nth_error (nss h) m with
                                  | None => ubw
                                  | Some y => andw (ignorew (attempt (cmp_write_str (nid y) (blen (nid y))))) (write_subtree fuel h m)
                                  end) l)) es).
  { induction l as [|m l IHl]; intro Hl.
    - exists []. split; [constructor|apply ew_done].
    - destruct IHl as (es & E & W); [intros; apply Hl; now right|]. cbn [length flat_map map seqw fold_right].
      assert (Hm : In m (nsubs x)) by (apply Hl; now left).
      destruct (sub_gt _ _ _ _ WF X Hm) as (B & y & Y & P). rewrite Y.
      destruct (IH m) as (bs & (k' & mb & es' & MH & EN & Eb) & W'); [lia|lia|intros p Hp; apply G, in_app_iff; right; apply in_flat_map; eauto|].
      assert (D : nth_error (ns_decls hist) m = Some (Some n, nid y)) by (rewrite (ns_decl_nth _ _ (inv_run _ _ R)), Y; cbn; now rewrite P).
      rewrite Forall_forall in small_ns. pose proof (small_ns _ (nth_error_In _ _ D)) as L. cbn [snd] in L.
      destruct (emits_id _ L) as (hd & Sh & WI).
      exists (hd ++ nid y ++ mb ++ es' ++ es). split; [econstructor; eauto|].
      replace (hd ++ nid y ++ mb ++ es' ++ es) with (((hd ++ nid y) ++ bs) ++ es) by (rewrite Eb; now rewrite <- !app_assoc).
      apply ew_and; [|exact W]. apply ew_and; [now apply ew_ignore, ew_attempt|exact W']. }
  destruct (SUB (nsubs x)) as (e1 & E1 & W1); [auto|].
  destruct (write_params n (nparams x)) as (e2 & E2 & W2).
  { intros p Hp. split; [|apply G, in_app_iff; now left].
    rewrite (wf_params _ WF _ _ X) in Hp. apply in_rev, filter_In in Hp as [_ Hp]. unfold is_param in Hp.
    destruct (nth_error (pars h) p) as [y|]; [|discriminate]. apply Nat.eqb_eq in Hp. eauto. }
  assert (CNT : (length (nsubs x) + length (filter (is_defined h) (nparams x)) <= length (ns_decls hist) + length (par_decls hist))%nat).
  { pose proof (filter_le (is_defined h) (nparams x)). pose proof (filter_le (is_child h n) (seq 0 (length (nss h)))).
    pose proof (filter_le (is_param h n) (seq 0 (length (pars h)))). rewrite seq_length in *.
    assert (A1 : length (nsubs x) = length (filter (is_child h n) (seq 0 (length (nss h))))) by now rewrite (wf_subs _ WF _ _ X), rev_length.
    assert (A2 : length (nparams x) = length (filter (is_param h n) (seq 0 (length (pars h))))) by now rewrite (wf_params _ WF _ _ X), rev_length.
    lia. }
  destruct (map_rt (Z.of_nat (length (nsubs x) + length (filter (is_defined h) (nparams x))))) as (hd & [MH _] & WM & _); [lia|].
  exists (hd ++ e1 ++ e2). split.
  - exists (length (nsubs x) + length (filter (is_defined h) (nparams x)))%nat, hd, (e1 ++ e2). split; [exact MH|].
    split; [now apply entries_app|reflexivity].
  - apply ew_and; [|now apply ew_and]. rewrite uid32 by lia. now apply ew_ignore, ew_attempt.
Qed.
End Write.

(** ** Round trip *)
Lemma encodes_kind d d' a bs : same_kind d d' -> encodes d a bs -> encodes d' a bs.
Proof.
  intros K E. destruct E; destruct d'; cbn in K; try easy; try (now constructor); econstructor; eauto; lia.
Qed.
Lemma Forall2_nth' {A B} (P : A -> B -> Prop) l l' : Forall2 P l l' -> forall i x, nth_error l i = Some x -> exists y, nth_error l' i = Some y /\ P x y.
Proof. induction 1; intros [|i] z Hz; cbn in Hz; try discriminate; [injection Hz as <-; eexists; split; [reflexivity|assumption]|apply IHForall2; exact Hz]. Qed.
Lemma entries_kind nl pl pl' n k sets bs : Forall2 (fun x y => fst x = fst y /\ same_kind (snd x) (snd y)) pl pl' ->
  entries nl pl n k sets bs -> entries nl pl' n k sets bs.
Proof.
  intros F. induction 1.
  - constructor.
  - destruct (Forall2_nth' _ _ _ F _ _ H) as ([[n' id'] d'] & D & E & K). cbn in E, K. inversion E; subst.
    econstructor; eauto. eapply encodes_kind; eauto.
  - econstructor; eauto.
Qed.

(** What the assignments leave in a parameter. *)
Lemma sets_effect hist h : run hist = OK h -> forall sets h', run (hist ++ map oset sets) = OK h' ->
  forall q y, nth_error (pars h') q = Some y ->
    (exists a v, In (q, a) sets /\ store v a = OK (pval y) /\ pdefined y = true) \/
    ((forall a, ~ In (q, a) sets) /\ nth_error (pars h) q = Some y).
Proof.
  intro R. induction sets as [|[p a] sets IH] using rev_ind; intros h' R' q y Y.
  - cbn in R'. rewrite app_nil_r, R in R'. inversion R'; subst. right. auto.
  - rewrite map_app, app_assoc in R'. cbn [map] in R'. rewrite run_snoc in R'.
    destruct (run (hist ++ map oset sets)) as [h1| |] eqn:R1; cbn [rbind] in R'; try discriminate. cbn [oset fst snd run_op] in R'.
    apply set_spec in R' as (x & v & X & S & _ & _ & N & _). rewrite N in Y.
    destruct (Nat.eqb_spec p q) as [->|Ne].
    + inversion Y; subst y. left. exists a, (pval x). rewrite in_app_iff. split; [right; now left|]. split; [exact S|].
      cbn [pdefined]. pose proof (i_cd _ _ (inv_run _ _ R1) _ _ X) as CD. destruct (pchanged x); [rewrite CD by auto; reflexivity|].
      apply orb_true_r.
    + destruct (IH _ eq_refl _ _ Y) as [(b & w & I1 & I2)|[I1 I2]].
      * left. exists b, w. rewrite in_app_iff. auto.
      * right. split; [|exact I2]. intros b Hb. apply in_app_iff in Hb as [Hb|[Hb|[]]]; [now apply I1 in Hb|]. congruence.
Qed.

Lemma load_store v x d d' w y k : kinded (pval x) d -> pdefined x = true -> store v (arg_of (pval x)) = OK w -> pval y = w -> pdefined y = true ->
  kinded (pval y) d' -> same_kind d d' ->
  load y k = load x k.
Proof.
  intros K D S E D' V SK. rewrite E in V. unfold load. rewrite E, D, D'. clear E D D'. destruct (pval x) as [a|b|i|buf len|buf|buf dim], v as [a0|b0|i0|buf0 len0|buf0|buf0 dim0]; cbn [arg_of store] in S; try discriminate.
  - inversion S; subst; reflexivity.
  - inversion S; subst; reflexivity.
  - inversion S; subst; reflexivity.
  - destruct (len <=? length buf0)%nat eqn:L1; cbn [negb] in S; [|discriminate]. destruct d; try easy. destruct K as [_ K].
    rewrite firstn_length in S. replace (Nat.min len (length buf)) with len in S by lia. rewrite Nat.leb_refl in S.
    injection S as <-. apply Nat.leb_le in L1. rewrite firstn_firstn, Nat.min_id.
    assert (P : forall m, (m <= len)%nat -> firstn m (firstn len buf ++ skipn len buf0) = firstn m buf).
    { intros m Hm. rewrite firstn_app, firstn_length. replace (m - Nat.min len (length buf))%nat with O by lia.
      cbn [firstn]. rewrite app_nil_r, firstn_firstn. now replace (Nat.min m len) with m by lia. }
    destruct k; try reflexivity. destruct (len <? out_size)%nat eqn:LT; [now rewrite P by lia|].
    apply Nat.ltb_ge in LT. destruct out_size; [reflexivity|]. now rewrite P by lia.
  - destruct (length buf0 <=? length buf)%nat; [|discriminate]. injection S as <-. destruct d, d'; try easy. cbn in K, V, SK.
    rewrite firstn_all2; [reflexivity|]. rewrite firstn_length in V. lia.
  - destruct (dim <=? length buf0)%nat eqn:L1; cbn [negb] in S; [|discriminate]. destruct d; try easy. destruct K as [_ K].
    rewrite firstn_length in S. replace (Nat.min dim (length buf)) with dim in S by lia. rewrite Nat.leb_refl in S.
    injection S as <-. destruct k; try reflexivity. do 2 f_equal. rewrite firstn_firstn, Nat.min_id.
    rewrite firstn_app, firstn_length, firstn_firstn, Nat.min_id. replace (dim - Nat.min dim (length buf))%nat with O by lia.
    cbn [firstn]. now rewrite app_nil_r.
Qed.
