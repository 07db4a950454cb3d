(** Proofs about saving parameters in a buffer of any size. *)
From Coq Require Import ZArith List Bool Arith Lia ZifyBool.
From Verif Require Import CBase Buf CmpModel CmpSpec CmpProofs ParamModel ParamSpec ParamProofs ParamProofs2 PmsgModel PmsgSpec PmsgProofs PmsgProofs2 PmsgLoadSpec PmsgProps PmsgProofs3 PmsgProofs4.
Import ListNotations.
Local Open Scope Z_scope.

(** ** A write that succeeds does the same in a larger buffer *)
Definition wide (x : list Z) (c : ctx) : ctx := mkctx (mem c ++ x) (size c + blen x) (index c) (ro c) (err c).
Definition loc {A} (m : M A) : Prop := forall x c a c', m c = Ok a c' -> m (wide x c) = Ok a (wide x c').
Lemma loc_ret {A} (a : A) : loc (ret a).
Proof. intros x c b c' H. now injection H as <- <-. Qed.
Lemma loc_fail {A} e : loc (@fail A e).
Proof. intros x c b c' H. discriminate. Qed.
Lemma loc_bind {A B} (m : M A) (f : A -> M B) : loc m -> (forall a, loc (f a)) -> loc (mbind m f).
Proof.
  intros Hm Hf x c b c' H. unfold mbind in *. destruct (m c) as [|c1|a c1] eqn:E; try discriminate. rewrite (Hm x _ _ _ E). now apply Hf.
Qed.
Lemma loc_or {A} (m : M A) e : loc m -> loc (m !! e).
Proof. intros Hm x c b c' H. unfold or_err in *. destruct (m c) as [|c1|a c1] eqn:E; try discriminate. injection H as <- <-. now rewrite (Hm x _ _ _ E). Qed.
Lemma bset_all_wide x : forall l b i b', bset_all b i l = Some b' -> bset_all (b ++ x) i l = Some (b' ++ x).
Proof.
  induction l as [|v l IH]; intros b i b' H; cbn [bset_all] in *; [now injection H as <-|].
  destruct (bset b i v) as [b1|] eqn:E; [|discriminate]. assert (E' : bset (b ++ x) i v = Some (b1 ++ x)).
  { unfold bset in *. destruct ((0 <=? i) && (i <? blen b)) eqn:G; [|discriminate]. injection E as <-.
    rewrite blen_app. pose proof (blen_nonneg x). replace ((0 <=? i) && (i <? blen b + blen x)) with true by lia. f_equal.
    unfold blen in G. unfold upd. rewrite firstn_app, skipn_app.
    replace (Z.to_nat i - length b)%nat with 0%nat by lia. replace (S (Z.to_nat i) - length b)%nat with 0%nat by lia.
    cbn [firstn skipn]. rewrite app_nil_r, <- app_assoc. reflexivity. }
  rewrite E'. now apply IH.
Qed.
Lemma loc_wr l : loc (wr l).
Proof.
  intros x c a c' H. unfold wr in *. cbn [wide ro mem size index err]. destruct (ro c); [discriminate|].
  destruct (Z.leb_spec (u32 (index c + blen l)) (size c)); [|discriminate]. pose proof (blen_nonneg x).
  destruct (Z.leb_spec (u32 (index c + blen l)) (size c + blen x)); [|lia].
  destruct (bset_all (mem c) (index c) l) as [m|] eqn:E; [|discriminate]. rewrite (bset_all_wide x _ _ _ _ E).
  destruct (blen l =? 0); [discriminate|]. now injection H as <- <-.
Qed.
Lemma loc_data d n : loc (wr_data d n).
Proof. intros x c a c' H. unfold wr_data in *. destruct (n <=? blen d); [now apply loc_wr|discriminate]. Qed.
Lemma loc_if {A} (b : bool) (m n : M A) : loc m -> loc n -> loc (if b then m else n).
Proof. now destruct b. Qed.
Ltac lc := repeat first [apply loc_ret | apply loc_fail | apply loc_wr | apply loc_data | apply loc_or | apply loc_if
                         | apply loc_bind; [|intro] | progress unfold write_type_marker, write_fixed_value, write_byte, write_payload].
Lemma loc_fl x : loc (cmp_write_float x). Proof. unfold cmp_write_float. lc. Qed.
Lemma loc_s32 x : loc (cmp_write_s32 x). Proof. unfold cmp_write_s32. lc. Qed.
Lemma loc_bool b : loc (cmp_write_bool b). Proof. unfold cmp_write_bool, cmp_write_true, cmp_write_false. lc. Qed.
Lemma loc_array n : loc (cmp_write_array n). Proof. unfold cmp_write_array, cmp_write_fixarray, cmp_write_array16, cmp_write_array32. lc. Qed.
Lemma loc_str d n : loc (cmp_write_str d n).
Proof.
  unfold cmp_write_str, cmp_write_fixstr, cmp_write_str8, cmp_write_str16, cmp_write_str32,
    cmp_write_fixstr_marker, cmp_write_str8_marker, cmp_write_str16_marker, cmp_write_str32_marker. lc.
Qed.

Section Write.
Variable R : Z.
Hypothesis R8 : 8 <= R.

(** A step that stays in the buffer; and one which, when it succeeds, has added [bs]. *)
Definition inw (w : W) : Prop := forall c, sane R c -> exists c' b, w c = Some (c', b) /\ inside c c'.
Definition upto (c : ctx) : list Z := firstn (Z.to_nat (index c)) (mem c).
Definition exact (w : W) (bs : list Z) : Prop :=
  inw w /\ forall c c', sane R c -> ro c = false -> w c = Some (c', true) -> upto c' = upto c ++ bs.

Lemma inw_attempt m : stays_inside R m -> inw (attempt m).
Proof.
  intros H c S. apply si_def in H. specialize (H c S). unfold attempt. destruct (m c) as [|c'|a c']; [easy| |]; eauto.
Qed.
Lemma inw_ignore w : inw w -> inw (ignorew w).
Proof. intros H c S. destruct (H c S) as (c' & b & E & I). unfold ignorew. rewrite E. eauto. Qed.
Lemma inw_done : inw donew.
Proof. intros c S. exists c, true. split; [reflexivity|]. exact (inside_refl R c S). Qed.
Lemma inw_and a b : inw a -> inw b -> inw (andw a b).
Proof.
  intros Ha Hb c S. destruct (Ha c S) as (c1 & s & E1 & I1). pose proof (inside_sane _ _ _ S I1) as S1.
  destruct (Hb c1 S1) as (c2 & t & E2 & I2). exists c2, (s && t). unfold andw. rewrite E1, E2. split; [reflexivity|]. eapply inside_trans; eauto.
Qed.
Lemma inw_seq l : Forall inw l -> inw (seqw l).
Proof. unfold seqw. induction 1; cbn [fold_right]; [apply inw_done|now apply inw_and]. Qed.

Lemma exact_attempt m bs : emits m bs -> loc m -> stays_inside R m -> blen bs <= R -> exact (attempt m) bs.
Proof.
  intros E L SI B. split; [now apply inw_attempt|]. intros c c' S RO A. unfold attempt in A.
  apply si_def in SI. specialize (SI c S). destruct (m c) as [|c1|[] c1] eqn:Em; [discriminate|discriminate|]. injection A as <-.
  destruct S as (Sz & I & Bd). destruct SI as (A1 & A2 & A3 & A4 & A5 & A6).
  set (x := repeat 0 (length bs)). pose proof (L x _ _ _ Em) as W.
  assert (Lx : blen x = blen bs) by (unfold x, blen; now rewrite repeat_length).
  destruct (skipn_split (mem c) (index c)) as [M LP]; [lia|].
  assert (RM : blen bs <= blen (skipn (Z.to_nat (index c)) (mem c) ++ x)) by (rewrite blen_app; pose proof (blen_nonneg (skipn (Z.to_nat (index c)) (mem c))); lia).
  destruct (split_at (skipn (Z.to_nat (index c)) (mem c) ++ x) (blen bs)) as (old & post & Eo & Lo); [pose proof (blen_nonneg bs); lia|].
  rewrite (E (upto c) old post (wide x c)) in W; cbn [wide mem size index ro err].
  - injection W as W1 W2 W3 W4 W5. unfold upto at 1. cbn [wide] in *.
    assert (W3' : index c1 = blen (upto c) + blen bs) by (unfold wide in *; cbn in *; congruence).
    unfold upto in W1 at 1.
    transitivity (firstn (Z.to_nat (index c1)) (mem c1 ++ x)).
    + rewrite firstn_app. replace (Z.to_nat (index c1) - length (mem c1))%nat with 0%nat; [now rewrite firstn_O, app_nil_r|].
      unfold blen in *. lia.
    + rewrite <- W1, W3'. fold (upto c). rewrite app_assoc.
      replace (Z.to_nat (blen (upto c) + blen bs)) with (length (upto c ++ bs)) by (rewrite app_length; unfold blen; lia).
      now rewrite firstn_app, firstn_all, Nat.sub_diag, firstn_O, app_nil_r.
  - unfold upto. rewrite M at 1. rewrite <- app_assoc. f_equal. exact Eo.
  - exact Lo.
  - symmetry. exact LP.
  - rewrite blen_app. lia.
  - lia.
  - exact RO.
Qed.
Lemma exact_done : exact donew [].
Proof. split; [apply inw_done|]. intros c c' _ _ E. injection E as <-. now rewrite app_nil_r. Qed.
Lemma exact_and a b x y : exact a x -> exact b y -> exact (andw a b) (x ++ y).
Proof.
  intros [Ia Ea] [Ib Eb]. split; [now apply inw_and|]. intros c c' S RO H. unfold andw in H.
  destruct (a c) as [[c1 s]|] eqn:E1; [|discriminate]. destruct (b c1) as [[c2 t]|] eqn:E2; [|discriminate].
  injection H as -> H. apply andb_true_iff in H as [-> ->]. destruct (Ia c S) as (c1' & s' & E1' & I1). rewrite E1 in E1'. injection E1' as <- <-.
  rewrite (Eb c1 c'); [|exact (inside_sane _ _ _ S I1)|destruct I1 as (_ & -> & _); exact RO|exact E2].
  now rewrite (Ea c c1 S RO E1), app_assoc.
Qed.
Lemma exact_seq {A} (f : A -> W) (g : A -> list Z) l : (forall x, In x l -> exact (f x) (g x)) -> exact (seqw (map f l)) (flat_map g l).
Proof.
  unfold seqw. induction l as [|x l IH]; intro H; cbn [map fold_right flat_map]; [apply exact_done|].
  apply exact_and; [apply H; now left|apply IH; intros; apply H; now right].
Qed.

Lemma sif x : stays_inside R (cmp_write_float x). Proof. unfold cmp_write_float. unfold write_type_marker, write_byte. si. Qed.
Lemma si32 x : stays_inside R (cmp_write_s32 x). Proof. unfold cmp_write_s32. unfold write_type_marker, write_byte. si. Qed.
Lemma sib b : stays_inside R (cmp_write_bool b). Proof. unfold cmp_write_bool, cmp_write_true, cmp_write_false. unfold write_type_marker, write_byte. si. Qed.
Lemma hd_len n hd : str_header n hd \/ array_header n hd -> blen hd <= 5.
Proof. intros [H|H]; destruct H; rewrite blen_cons, ?be_blen, ?blen_nil; lia. Qed.

(** The values of the tree, and what the buffer needs to hold one more of them. *)
Definition vfit (v : value) : Prop :=
  match v with
  | VStr buf len => (len <= length buf)%nat /\ Z.of_nat len + 8 <= R /\ Z.of_nat len < 2 ^ 32
  | VVec buf => blen buf < 2 ^ 32
  | VVar buf dim => (dim <= length buf)%nat /\ blen buf < 2 ^ 32
  | _ => True
  end.
Lemma value_in v : vfit v -> inw (write_value v).
Proof.
  destruct v; cbn [vfit write_value]; intro V.
  - apply inw_attempt, sif.
  - apply inw_attempt, sib.
  - apply inw_attempt, si32.
  - apply inw_attempt, si_write_str; unfold blen; lia.
  - apply inw_and; [apply inw_attempt, si_write_array, R8|]. apply inw_seq. apply Forall_forall. intros w H. apply in_map_iff in H as (x & <- & _). apply inw_attempt, sif.
  - destruct (Nat.leb_spec dim (length buf)); [|lia].
    apply inw_and; [apply inw_attempt, si_write_array, R8|]. apply inw_seq. apply Forall_forall. intros w H'. apply in_map_iff in H' as (x & <- & _). apply inw_attempt, sif.
Qed.
Lemma exact_fl x : 0 <= x < 2 ^ 32 -> exact (attempt (cmp_write_float x)) (0xCA :: be 4 x).
Proof. intro H. apply exact_attempt; [now apply emits_fl|apply loc_fl|apply sif|]. rewrite blen_cons, be_blen. lia. Qed.
Lemma exact_arr n : 0 <= n < 2 ^ 32 -> exists hd, array_header n hd /\ exact (attempt (cmp_write_array n)) hd.
Proof.
  intro H. destruct (array_rt n H) as (hd & [Sh _] & E & _). exists hd. split; [exact Sh|].
  apply exact_attempt; [exact E|apply loc_array|now apply si_write_array|]. pose proof (hd_len n hd (or_intror Sh)). lia.
Qed.
Lemma exact_str d n : 0 <= n <= blen d -> n < 2 ^ 32 -> n + 8 <= R ->
  exists hd, str_header n hd /\ exact (attempt (cmp_write_str d n)) (hd ++ firstn (Z.to_nat n) d).
Proof.
  intros H L B. destruct (emits_str d n H L) as (hd & Sh & E). exists hd. split; [exact Sh|].
  apply exact_attempt; [exact E|apply loc_str|apply si_write_str; lia|]. pose proof (hd_len n hd (or_introl Sh)).
  rewrite blen_app. unfold blen at 2. rewrite firstn_length. lia.
Qed.
Lemma value_exact v d : kinded v d -> vfit v -> value_typed v -> string_short v -> exists vb, encodes d (arg_of v) vb /\ exact (write_value v) vb.
Proof.
  destruct v, d; cbn [kinded vfit value_typed string_short arg_of write_value]; intros K F T SS; try easy.
  - exists (0xCA :: be 4 x). split; [now constructor|]. now apply exact_fl.
  - exists [if b then 0xC3 else 0xC2]. split; [constructor|]. apply exact_attempt; [|apply loc_bool|apply sib|rewrite blen_cons, blen_nil; lia].
    unfold cmp_write_bool, cmp_write_true, cmp_write_false. destruct b; apply emits_marker; [unfold TRUE_MARKER|unfold FALSE_MARKER]; lia.
  - exists (0xD2 :: be 4 i). split; [constructor; [now constructor|cbn; lia|exact T]|].
    apply exact_attempt; [apply emits_s32|apply loc_s32|apply si32|]. rewrite blen_cons, be_blen. lia.
  - destruct (exact_str buf (Z.of_nat len)) as (hd & Sh & E); [unfold blen; lia|lia|lia|]. rewrite Nat2Z.id in E.
    exists (hd ++ firstn len buf). split; [|exact E].
    assert (L : length (firstn len buf) = len) by (rewrite firstn_length; lia).
    rewrite <- L at 2. constructor; [lia|]. unfold blen. now rewrite L.
  - destruct (exact_arr (blen buf)) as (hd & Sh & E); [unfold blen in *; lia|]. exists (hd ++ flat_map (fun x => 0xCA :: be 4 x) buf).
    split; [constructor; auto|]. apply exact_and; [exact E|]. apply exact_seq. intros x H. apply exact_fl. rewrite Forall_forall in T. now apply T.
  - destruct (Nat.leb_spec dim (length buf)); [|lia].
    assert (L : length (firstn dim buf) = dim) by (rewrite firstn_length; lia).
    destruct (exact_arr (Z.of_nat dim)) as (hd & Sh & E); [unfold blen in *; lia|]. exists (hd ++ flat_map (fun x => 0xCA :: be 4 x) (firstn dim buf)).
    split.
    + rewrite <- L at 2. constructor; [lia| |].
      * unfold blen. now rewrite L.
      * now apply Forall_firstn'.
    + apply exact_and; [exact E|]. apply exact_seq. intros x H'. apply exact_fl. assert (In x buf) by (rewrite <- (firstn_skipn dim buf); apply in_or_app; now left).
      rewrite Forall_forall in T. now apply T.
Qed.

Definition has (c : ctx) (bs : list Z) : Prop := exists a b, upto c = a ++ bs ++ b.
Lemma has_inside c c' bs : sane R c -> inside c c' -> has c bs -> has c' bs.
Proof.
  intros (S & I & B) (A1 & A2 & A3 & A4 & A5 & A6) (a & b & E). exists a, (b ++ skipn (Z.to_nat (index c)) (upto c')).
  rewrite <- (firstn_skipn (Z.to_nat (index c)) (upto c')) at 1. rewrite !app_assoc. f_equal. rewrite <- app_assoc, <- E.
  unfold upto. rewrite firstn_firstn. rewrite <- A5. f_equal. lia.
Qed.

Variable (hist : list op) (h : heap).
Hypothesis RU : run hist = OK h.
Hypothesis WR : writable R hist.
Hypothesis RR : R < 2 ^ 32.

(** Successful, the step has saved the parameters [ps]. *)
Definition saves (w : W) (ps : list nat) : Prop :=
  inw w /\ forall c c', sane R c -> ro c = false -> w c = Some (c', true) ->
    forall p x, In p ps -> nth_error (pars h) p = Some x -> pdefined x = true -> value_typed (pval x) -> string_short (pval x) ->
      exists bs, saved_entry hist p (arg_of (pval x)) bs /\ has c' bs.
Lemma saves_in w : inw w -> saves w [].
Proof. intro H. split; [exact H|]. intros c c' _ _ _ p x []. Qed.
Lemma saves_and a b p q : saves a p -> saves b q -> saves (andw a b) (p ++ q).
Proof.
  intros [Ia Ea] [Ib Eb]. split; [now apply inw_and|]. intros c c' S RO H y x Hy X D T SS. unfold andw in H.
  destruct (a c) as [[c1 s]|] eqn:E1; [|discriminate]. destruct (b c1) as [[c2 t]|] eqn:E2; [|discriminate].
  injection H as -> H. apply andb_true_iff in H as [-> ->]. destruct (Ia c S) as (c1' & s' & E1' & I1). rewrite E1 in E1'. injection E1' as <- <-.
  pose proof (inside_sane _ _ _ S I1) as S1. apply in_app_or in Hy as [Hy|Hy].
  - destruct (Ea c c1 S RO E1 y x Hy X D T SS) as (bs & A & B). exists bs. split; [exact A|].
    destruct (Ib c1 S1) as (c2' & s' & E2' & I2). rewrite E2 in E2'. injection E2' as <- <-. eapply has_inside; eauto.
  - apply (Eb c1 c' S1); auto. destruct I1 as (_ & -> & _). exact RO.
Qed.
Lemma saves_seq {A} (f : A -> W) (g : A -> list nat) l : (forall x, In x l -> saves (f x) (g x)) -> saves (seqw (map f l)) (flat_map g l).
Proof.
  unfold seqw. induction l as [|x l IH]; intro H; cbn [map fold_right flat_map]; [apply saves_in, inw_done|].
  apply saves_and; [apply H; now left|apply IH; intros; apply H; now right].
Qed.

Lemma pars_fit p x : nth_error (pars h) p = Some x -> exists m d, nth_error (par_decls hist) p = Some (m, pid x, d) /\ kinded (pval x) d /\
  blen (pid x) + 8 <= R /\ vfit (pval x).
Proof.
  intro X. destruct (kinds_run _ _ RU _ _ X) as (m & id & d & D & K).
  pose proof (par_decl_nth _ _ (inv_run _ _ RU) p) as PD. rewrite D, X in PD. cbn in PD. injection PD as PD1 PD2. subst m id.
  exists (pns x), d. split; [exact D|]. split; [exact K|]. destruct WR as (_ & _ & F). rewrite Forall_forall in F. apply nth_error_In in D. apply F in D. cbn [fst snd] in D.
  destruct D as [D1 D2]. split; [exact D1|]. destruct (pval x), d; cbn [kinded vfit] in *; try easy; unfold blen in *; intuition lia.
Qed.

Lemma param_saves p : (p < length (pars h))%nat -> saves (write_param h p) [p].
Proof.
  intro Hp. destruct (lt_nth _ _ _ Hp) as [x X]. destruct (pars_fit _ _ X) as (m & d & D & K & L & V).
  assert (IN : inw (write_param h p)).
  { unfold write_param. rewrite X. destruct (pdefined x); [|apply inw_done]. apply inw_and; [|now apply value_in].
    apply inw_attempt, si_write_str; pose proof (blen_nonneg (pid x)); lia. }
  split; [exact IN|]. intros c c' S RO E q y [<-|[]] Y Df T SS. rewrite X in Y. injection Y as <-.
  destruct (value_exact _ _ K V T SS) as (vb & EN & EV).
  destruct (exact_str (pid x) (blen (pid x))) as (hd & Sh & EI); [pose proof (blen_nonneg (pid x)); lia|lia|exact L|].
  replace (Z.to_nat (blen (pid x))) with (length (pid x)) in EI by (unfold blen; lia). rewrite firstn_all in EI.
  unfold write_param in E. rewrite X, Df in E.
  pose proof (proj2 (exact_and _ _ _ _ EI EV) c c' S RO E) as U. exists (hd ++ pid x ++ vb). split.
  - exists m, (pid x), d, hd, vb. auto.
  - exists (upto c), []. rewrite U, app_nil_r, <- !app_assoc. reflexivity.
Qed.

Lemma tree_saves : forall fuel n, (n < length (nss h))%nat -> (length (nss h) < fuel + n)%nat -> saves (write_subtree fuel h n) (pre fuel h n).
Proof.
  pose proof (i_wf _ _ (inv_run _ _ RU)) as WF.
  induction fuel as [|fuel IH]; intros n Hn Hf; [lia|]. cbn [write_subtree pre].
  destruct (lt_nth _ _ _ Hn) as [x X]. rewrite X.
  assert (SP : saves (seqw (map (write_param h) (nparams x))) (nparams x)).
  { pose proof (saves_seq (write_param h) (fun p => [p]) (nparams x)) as Q. rewrite flat_map_concat_map in Q.
    replace (concat (map (fun p => [p]) (nparams x))) with (nparams x) in Q; [|clear; now induction (nparams x) as [|? ? IH]; cbn; [|rewrite <- IH]].
    apply Q. intros p Hp. apply param_saves. rewrite (wf_params _ WF _ _ X) in Hp. apply in_rev, filter_In in Hp as [Hp _]. apply in_seq in Hp. lia. }
  assert (SS : saves (seqw (map (fun m => match nth_error (nss h) m with
                                  | None => ubw
                                  | Some y => andw (ignorew (attempt (cmp_write_str (nid y) (blen (nid y))))) (write_subtree fuel h m)
                                  end) (nsubs x))) (flat_map (pre fuel h) (nsubs x))).
  { apply saves_seq. intros m Hm. destruct (sub_gt _ _ _ _ WF X Hm) as (B & y & Y & P). rewrite Y.
    assert (D : nth_error (ns_decls hist) m = Some (Some n, nid y)) by (rewrite (ns_decl_nth _ _ (inv_run _ _ RU)), Y; cbn; now rewrite P).
    destruct WR as (_ & F & _). rewrite Forall_forall in F. pose proof (F _ (nth_error_In _ _ D)) as L. cbn [snd] in L.
    apply (saves_and _ _ []); [|apply IH; lia]. apply saves_in, inw_ignore, inw_attempt, si_write_str; pose proof (blen_nonneg (nid y)); lia. }
  assert (SM : forall k, saves (ignorew (attempt (cmp_write_map k))) []) by (intro k; apply saves_in, inw_ignore, inw_attempt, si_write_map, R8).
  specialize (SM (u32 (Z.of_nat (length (nsubs x) + length (filter (is_defined h) (nparams x)))))).
  pose proof (saves_and _ _ _ _ SM (saves_and _ _ _ _ SS SP)) as [A B]. split; [exact A|].
  intros c c' S RO E p y Hp. apply (B c c' S RO E p y). cbn [app]. rewrite in_app_iff in Hp |- *. tauto.
Qed.
End Write.

Theorem write_saves room hist h root buf : run hist = OK h -> writable room hist -> blen buf + room < 2 ^ 32 -> (root < length (ns_decls hist))%nat ->
  exists buf' ok, parameter_msgpack_write h root buf = Some (buf', ok) /\ length buf' = length buf /\
    (ok = true -> forall p x, nth_error (pars h) p = Some x -> param_within hist p root -> pdefined x = true ->
       value_typed (pval x) -> string_short (pval x) ->
       exists bs a b, saved_entry hist p (arg_of (pval x)) bs /\ buf' = a ++ bs ++ b).
Proof.
  intros R W L Hr. pose proof (inv_run _ _ R) as I. assert (R8 := proj1 W). pose proof (blen_nonneg buf).
  destruct (tree_saves room R8 hist h R W ltac:(lia) (S (length (nss h))) root) as [IN SV]; [now rewrite (ns_length _ _ I)|lia|].
  set (c := cmp_mem_access_init buf (blen buf)).
  assert (S : sane room c) by (repeat split; cbn [c cmp_mem_access_init size index mem]; lia).
  destruct (IN c S) as (c' & ok & E & (_ & _ & LM & IB & _)). exists (mem c'), ok.
  unfold parameter_msgpack_write, parameter_msgpack_write_cmp. fold c. rewrite E. split; [reflexivity|]. split; [exact LM|].
  intros -> p x X PW D T SS. destruct (SV c c' S eq_refl E p x) as (bs & SE & a & b & U); auto.
  - apply in_pre; [apply I|now rewrite (ns_length _ _ I)|lia|]. now apply (param_within_heap _ _ _ _ I).
  - exists bs, a, (b ++ skipn (Z.to_nat (index c')) (mem c')). split; [exact SE|].
    rewrite <- (firstn_skipn (Z.to_nat (index c')) (mem c')) at 1. fold (upto c'). rewrite U, <- !app_assoc. reflexivity.
Qed.
