(** Proofs about the printing of the parameters. *)
From Coq Require Import String ZArith List Bool Arith Lia.
From Verif Require Import CBase Buf ParamModel ParamSpec ParamProofs ParamProofs2 ShowModel ShowSpec.
Import ListNotations.
Local Open Scope Z_scope.

(** ** Numbers *)
Lemma read_digits_app : forall a acc b, read_digits acc (a ++ b) =
  match read_digits acc a with Some x => read_digits x b | None => None end.
Proof. induction a as [|c a IH]; intros; cbn; [reflexivity|]. destruct (_ && _); [apply IH|reflexivity]. Qed.
Lemma digit_ok d : 0 <= d < 10 -> (48 <=? 48 + d) && (48 + d <=? 57) = true.
Proof. intro. apply andb_true_intro. split; apply Z.leb_le; lia. Qed.
Lemma digits_ok : forall fuel n, 0 <= n -> n < 10 * 2 ^ Z.of_nat fuel ->
  read_digits 0 (digits fuel n) = Some n /\ Forall (fun c => 48 <= c <= 57) (digits fuel n) /\ digits fuel n <> [].
Proof.
  induction fuel as [|fuel IH]; intros n H0 H; cbn [digits].
  - change (10 * 2 ^ Z.of_nat 0) with 10 in H. cbn [read_digits]. rewrite digit_ok by lia.
    split; [f_equal; lia|]. split; [constructor; [lia|constructor]|discriminate].
  - destruct (Z.ltb_spec n 10).
    + cbn [read_digits]. rewrite digit_ok by lia. split; [f_equal; lia|]. split; [constructor; [lia|constructor]|discriminate].
    + pose proof (Z.div_mod n 10). pose proof (Z.mod_pos_bound n 10). rewrite Nat2Z.inj_succ, Z.pow_succ_r in H by lia.
      destruct (IH (n / 10)) as (A & B & C); [lia|lia|]. rewrite read_digits_app, A. cbn [read_digits].
      rewrite digit_ok by lia. split; [f_equal; lia|]. split; [|now destruct (digits fuel (n / 10))].
      apply Forall_app. split; [exact B|]. constructor; [lia|constructor].
Qed.
Lemma digits_log n : 0 <= n -> n < 10 * 2 ^ Z.of_nat (Z.to_nat (Z.log2 n)).
Proof.
  intro H. rewrite Z2Nat.id by apply Z.log2_nonneg. destruct (Z.eq_dec n 0) as [->|]; [reflexivity|].
  pose proof (Z.log2_spec n). assert (0 < 2 ^ Z.log2 n) by (apply Z.pow_pos_nonneg; [lia|apply Z.log2_nonneg]).
  rewrite Z.pow_succ_r in H0 by apply Z.log2_nonneg. lia.
Qed.
Lemma itoa_reads i : read_int (itoa i) = Some i /\ ~ In 10 (itoa i).
Proof.
  unfold itoa. destruct (Z.ltb_spec i 0).
  - destruct (digits_ok _ (- i) ltac:(lia) (digits_log (- i) ltac:(lia))) as (A & B & C).
    set (s := digits _ _) in *. clearbody s. split.
    + cbn. destruct s; [easy|]. rewrite A. cbn. f_equal. lia.
    + intros [E|E]; [discriminate|]. rewrite Forall_forall in B. apply B in E. lia.
  - destruct (digits_ok _ i ltac:(lia) (digits_log i ltac:(lia))) as (A & B & C).
    set (s := digits _ _) in *. clearbody s. split.
    + destruct s as [|c s]; [easy|]. unfold read_int. destruct (Z.eqb_spec c 45); [|exact A].
      inversion B; subst. lia.
    + intro E. rewrite Forall_forall in B. apply B in E. lia.
Qed.

(** ** Lines *)
Notation line := (nat * str * option str)%type.
Definition render_line (l : line) : str :=
  let '(d, k, v) := l in indent d ++ k ++ 58 :: match v with Some v => 32 :: v | None => [] end ++ [10].
Definition render (l : list line) : str := concat (map render_line l).
Definition ok_line (l : line) : Prop :=
  let '(_, k, v) := l in plain_name k /\ match v with Some v => ~ In 10 v | None => True end.

Lemma lines_line l r : ~ In 10 l -> lines (l ++ 10 :: r) = l :: lines r.
Proof.
  induction l as [|c l IH]; intro H; cbn; [reflexivity|]. destruct (Z.eqb_spec c 10) as [->|]; [exfalso; apply H; now left|].
  rewrite IH by (intro K; apply H; now right). reflexivity.
Qed.
Lemma indent_S d : indent (S d) = 32 :: 32 :: indent d.
Proof. reflexivity. Qed.
Lemma indent_no d c : c <> 32 -> ~ In c (indent d).
Proof. intro. induction d; cbn -[indent]; [tauto|]. rewrite indent_S. intros [E|[E|E]]; try lia. now apply IHd. Qed.
Lemma spaces_indent d t : hd 0 t <> 32 -> spaces (indent d ++ t) = ((2 * d)%nat, t).
Proof.
  intro H. induction d.
  - destruct t as [|c t]; [reflexivity|]. cbn. cbn in H. destruct (Z.eqb_spec c 32); [congruence|reflexivity].
  - rewrite indent_S. cbn [app spaces]. change (32 =? 32) with true. cbn iota. rewrite IHd. f_equal. lia.
Qed.
Lemma colon_key k v : ~ In 58 k -> colon (k ++ 58 :: v) = Some (k, v).
Proof.
  induction k as [|c k IH]; intro H; cbn; [reflexivity|]. destruct (Z.eqb_spec c 58) as [->|]; [exfalso; apply H; now left|].
  rewrite IH; [reflexivity|]. intro K. apply H. now right.
Qed.
Definition body (l : line) : str := let '(d, k, v) := l in indent d ++ k ++ 58 :: match v with Some v => 32 :: v | None => [] end.
Lemma render_body l : render_line l = body l ++ [10].
Proof. destruct l as [[d k] v]. cbn. rewrite <- !app_assoc. destruct v; reflexivity. Qed.
Lemma body_no l : ok_line l -> ~ In 10 (body l).
Proof.
  destruct l as [[d k] v]. intros [(A & B & C) V] H. cbn [body] in H. apply in_app_or in H as [H|H]; [now apply indent_no in H|].
  apply in_app_or in H as [H|[H|H]]; [auto|lia|]. destruct v; [|exact H]. destruct H as [|H]; [lia|auto].
Qed.
Lemma read_body l : ok_line l -> read_line (body l) = Some l.
Proof.
  destruct l as [[d k] v]. intros [(A & B & C) V]. unfold read_line. cbn [body]. rewrite spaces_indent.
  2: { destruct k; cbn in *; lia. }
  rewrite Nat.even_mul. cbn [Nat.even orb]. rewrite colon_key by auto. rewrite Nat.div2_double. destruct v; reflexivity.
Qed.

Fixpoint walk (open : list str) (ls : list line) : option (list (list str * str)) :=
  match ls with
  | [] => Some []
  | (d, k, v) :: ls =>
      if (d <=? length open)%nat then
        match v with
        | None => walk (firstn d open ++ [k]) ls
        | Some v => option_map (cons (firstn d open ++ [k], v)) (walk (firstn d open) ls)
        end
      else None
  end.
Lemma entries_walk : forall L open, Forall ok_line L -> entries open (lines (render L)) = walk open L.
Proof.
  induction L as [|l L IH]; intros open H; [reflexivity|]. inversion H as [|? ? Hl HL]; subst.
  change (render (l :: L)) with (render_line l ++ render L).
  rewrite render_body, <- app_assoc. cbn [app]. rewrite lines_line by now apply body_no.
  cbn [entries]. rewrite (read_body _ Hl). destruct l as [[d k] v]. cbn [walk].
  destruct (d <=? length open)%nat; [|reflexivity]. destruct v; rewrite IH by auto; reflexivity.
Qed.

Definition under (open : list str) (e : list str * str) : list str * str := (open ++ fst e, snd e).
Definition good (lvl : nat) (L : list line) (es : list (list str * str)) : Prop :=
  forall open rest, (lvl <= length open)%nat ->
  exists open', firstn lvl open' = firstn lvl open /\ (lvl <= length open')%nat /\
    walk open (L ++ rest) = option_map (app (map (under (firstn lvl open)) es)) (walk open' rest).
Lemma good_nil lvl : good lvl [] [].
Proof. intros open rest H. exists open. split; [reflexivity|]. split; [exact H|]. cbn. now destruct (walk open rest). Qed.
Lemma good_app lvl a ea b eb : good lvl a ea -> good lvl b eb -> good lvl (a ++ b) (ea ++ eb).
Proof.
  intros A B open rest H. destruct (A open (b ++ rest) H) as (o1 & F1 & L1 & W1). destruct (B o1 rest L1) as (o2 & F2 & L2 & W2).
  exists o2. split; [congruence|]. split; [exact L2|]. rewrite <- app_assoc, W1, W2, F1, map_app.
  destruct (walk o2 rest); [|reflexivity]. cbn. now rewrite app_assoc.
Qed.
Lemma good_entry lvl k v : good lvl [(lvl, k, Some v)] [([k], v)].
Proof.
  intros open rest H. exists (firstn lvl open). rewrite firstn_firstn, Nat.min_id. split; [reflexivity|].
  split; [rewrite firstn_length; lia|]. cbn [app walk]. rewrite (proj2 (Nat.leb_le _ _) H).
  destruct (walk _ rest); reflexivity.
Qed.
Lemma good_ns lvl k L es : good (S lvl) L es -> good lvl ((lvl, k, None) :: L) (map (fun e => (k :: fst e, snd e)) es).
Proof.
  intros G open rest H. assert (LO : length (firstn lvl open ++ [k]) = S lvl) by (rewrite app_length, firstn_length; cbn; lia).
  destruct (G (firstn lvl open ++ [k]) rest) as (o & Fo & Lo & W); [lia|].
  exists o. split; [|split; [lia|]].
  - apply (f_equal (firstn lvl)) in Fo. rewrite !firstn_firstn, Nat.min_l in Fo by lia. rewrite Fo.
    rewrite firstn_app, firstn_firstn, Nat.min_id, firstn_length.
    replace (lvl - Nat.min lvl (length open))%nat with O by lia. cbn. apply app_nil_r.
  - cbn [app walk]. rewrite (proj2 (Nat.leb_le _ _) H), W. rewrite (firstn_all2 (firstn lvl open ++ [k])) by lia.
    destruct (walk o rest); [|reflexivity]. cbn. do 2 f_equal. rewrite map_map. apply map_ext. intros [p v]. unfold under. cbn [fst snd].
    now rewrite <- app_assoc.
Qed.

(** ** The printer *)
Lemma items_join (ftoa : Z -> str) (l : list Z) : array_items ftoa l = comma_separated (map ftoa l).
Proof.
  induction l as [|x l IH]; [reflexivity|]. destruct l as [|y l]; [cbn; now rewrite app_nil_r|].
  change (array_items ftoa (x :: y :: l)) with (ftoa x ++ lit ", " ++ array_items ftoa (y :: l)). rewrite IH. reflexivity.
Qed.
Lemma join_no (ftoa : Z -> str) (l : list Z) : (forall x, ~ In 10 (ftoa x)) -> ~ In 10 (comma_separated (map ftoa l)).
Proof.
  intro H. induction l as [|x l IH]; [easy|]. cbn [map comma_separated]. intro K. apply in_app_or in K as [K|K]; [now apply H in K|].
  destruct (map ftoa l); [easy|]. destruct K as [K|[K|K]]; [lia|lia|]. now apply IH.
Qed.
Lemma c_str_plain s : ~ In 0 s -> c_str (s ++ [0]) = s.
Proof.
  induction s as [|c s IH]; intro H; cbn; [reflexivity|]. destruct (Z.eqb_spec c 0) as [->|]; [exfalso; apply H; now left|].
  f_equal. apply IH. intro. apply H. now right.
Qed.
Lemma quoted_no s : ~ In 10 s -> ~ In 10 (quoted s).
Proof. unfold quoted. rewrite !in_app_iff. cbn. intuition discriminate. Qed.
Lemma brackets_no s : ~ In 10 s -> ~ In 10 (brackets s).
Proof. unfold brackets. rewrite !in_app_iff. cbn. intuition discriminate. Qed.
Lemma text_out_whole s len n : (len < n)%nat -> text_out s len n = GStr (firstn len s ++ [0]) len.
Proof. intro H. unfold text_out. now rewrite (proj2 (Nat.ltb_lt _ _) H). Qed.

Lemma placed_within l r n path : placed l r n path -> within l n r.
Proof. induction 1; [constructor|]. econstructor; eauto. Qed.
Lemma placed_cons l n m id q path : nth_error l m = Some (Some n, id) -> placed l m q path -> placed l n q (id :: path).
Proof.
  intro E. induction 1.
  - change [id] with ([] ++ [id]). econstructor; [exact E|constructor].
  - rewrite app_comm_cons. econstructor; eauto.
Qed.
Lemma located_cons hist n m id p path : nth_error (ns_decls hist) m = Some (Some n, id) -> located hist m p path -> located hist n p (id :: path).
Proof.
  intros E (q & i & d & above & D & P & ->). exists q, i, d, (id :: above). split; [exact D|]. split; [|reflexivity]. eapply placed_cons; eauto.
Qed.
Lemma located_within hist r p path : located hist r p path -> param_within hist p r.
Proof. intros (m & id & d & above & D & P & _). exists m, id, d. split; [exact D|]. eapply placed_within; eauto. Qed.

Section P.
Variables (ftoa : Z -> str) (malloc : nat -> bool) (hist : list op) (h : heap).
Hypothesis R : run hist = OK h.
Hypothesis PL : Forall plain_op hist.
Hypothesis FT : forall x, ~ In 10 (ftoa x).

Lemma plain_ns i m id : nth_error (ns_decls hist) i = Some (m, id) -> plain_name id.
Proof.
  intro E. apply nth_error_In in E. unfold ns_decls in E. apply in_flat_map in E as (o & O & E).
  rewrite Forall_forall in PL. apply PL in O. destruct o; cbn in E; try easy. destruct E as [E|[]]. inversion E; subst. exact O.
Qed.
Lemma plain_par i m id d : nth_error (par_decls hist) i = Some (m, id, d) -> plain_op (ODecl m id d).
Proof.
  intro E. apply nth_error_In in E. unfold par_decls in E. apply in_flat_map in E as (o & O & E).
  rewrite Forall_forall in PL. apply PL in O. destruct o; cbn in E; try easy. destruct E as [E|[]]. inversion E; subst. exact O.
Qed.
Lemma plain_last p o : last_assignment hist p o -> plain_op o.
Proof. intros (a & b & E & _). rewrite E in PL. apply Forall_app in PL as [_ P']. now inversion P'. Qed.

Lemma entry_ok p x lvl : nth_error (pars h) p = Some x ->
  exists v, param_entry_print ftoa malloc h p lvl = OK (h, render [(lvl, pid x, Some v)]) /\ plain_name (pid x) /\ ~ In 10 v /\
    shown ftoa (malloc p) hist p v.
Proof.
  intro X. pose proof (inv_run _ _ R) as I. destruct (kinds_run _ _ R _ _ X) as (m & id & d & D & K).
  pose proof (par_decl_nth _ _ I p) as E. rewrite D, X in E. cbn in E. inversion E; subst m id; clear E.
  pose proof (plain_par _ _ _ _ D) as [PN PD].
  unfold param_entry_print, parameter_defined. rewrite X. cbn [rbind].
  assert (W : forall v, indent lvl ++ pid x ++ 58 :: 32 :: v ++ [10] = render [(lvl, pid x, Some v)]).
  { intro v. unfold render. cbn. now rewrite app_nil_r. }
  destruct (pdefined x) eqn:DF; cbn [negb].
  2: { exists [126]. split; [|split; [exact PN|split]].
       - rewrite <- W. change (lit ": ") with [58; 32]. rewrite <- !app_assoc. reflexivity.
       - intros [|[]]; lia.
       - right. split; [|reflexivity]. intros o LA. destruct (i_val _ _ I _ _ _ X LA). congruence. }
  destruct (i_def _ _ I _ _ X DF) as [o LA]. destruct (i_val _ _ I _ _ _ X LA) as [_ RD].
  pose proof (plain_last _ _ LA) as PO.
  assert (RL : forall k, k <> KStr 0 -> parameter_read h p k = match expected (dim_of hist p) o k with Some g => OK g | None => ASSERT end)
    by (intros k Hk; eapply read_last; eauto).
  assert (KN : forall v, written ftoa (malloc p) (dim_of hist p) o v -> shown ftoa (malloc p) hist p v) by (intros v Hv; left; eauto).
  assert (HD : forall v, (indent lvl ++ pid x ++ lit ": ") ++ v ++ newline = render [(lvl, pid x, Some v)]).
  { intro v. rewrite <- W. change (lit ": ") with [58; 32]. rewrite <- !app_assoc. reflexivity. }
  assert (HM : forall (b : list Z), (forall k, k <> KStr 0 -> loads (pval x) k = match expected (dim_of hist p) o k with Some g => OK g | None => ASSERT end) -> True) by auto.
  destruct (pval x) as [s|b|i|buf len|buf|buf dim] eqn:PV.
  - pose proof (RD KScalar ltac:(discriminate)) as Q. cbn in Q.
    rewrite RL by discriminate. destruct (expected (dim_of hist p) o KScalar) as [g|] eqn:EX; [|discriminate].
    inversion Q; subst g. cbn [rbind]. exists (ftoa s). rewrite HD. split; [reflexivity|]. split; [exact PN|]. split; [apply FT|].
    apply KN. destruct o as [| ? ? [[]|[]|[]|?|? []|? []] |? []| |]; cbn in EX |- *; try discriminate; now inversion EX.
  - pose proof (RD KBool ltac:(discriminate)) as Q. cbn in Q.
    rewrite RL by discriminate. destruct (expected (dim_of hist p) o KBool) as [g|] eqn:EX; [|discriminate].
    inversion Q; subst g. cbn [rbind]. exists (lit (if b then "true" else "false")). rewrite HD. split; [reflexivity|]. split; [exact PN|].
    split; [destruct b; cbn; lia|].
    apply KN. destruct o as [| ? ? [[]|[]|[]|?|? []|? []] |? []| |]; cbn [expected written] in EX |- *; try discriminate; now inversion EX.
  - pose proof (RD KInt ltac:(discriminate)) as Q. cbn in Q.
    rewrite RL by discriminate. destruct (expected (dim_of hist p) o KInt) as [g|] eqn:EX; [|discriminate].
    inversion Q; subst g. cbn [rbind]. exists (itoa i). rewrite HD. split; [reflexivity|]. split; [exact PN|].
    split; [apply itoa_reads|].
    apply KN. destruct o as [| ? ? [[]|[]|[]|?|? []|? []] |? []| |]; cbn [expected written] in EX |- *; try discriminate; inversion EX; apply itoa_reads.
  - destruct d; cbn in K; try easy. destruct K as [KL KN']. cbn [plain_op] in PD. destruct PD as [LB _].
    assert (LEN : Z.to_nat (u16 (Z.of_nat (length buf) + 1)) = S (length buf)).
    { unfold u16, uN. rewrite Z.mod_small by (change (2 ^ 16) with 65536; lia). lia. }
    rewrite LEN. pose proof (RD (KStr (S (length buf))) ltac:(discriminate)) as Q. unfold loads, load in Q. cbn [pdefined pval] in Q.
    rewrite (proj2 (Nat.ltb_lt len (S (length buf))) ltac:(lia)) in Q.
    rewrite RL by discriminate. destruct (expected (dim_of hist p) o (KStr (S (length buf)))) as [g|] eqn:EX; [|discriminate].
    inversion Q; subst g; clear Q. cbn [rbind].
    assert (TX : exists s l, expected (dim_of hist p) o (KStr (S (length buf))) = Some (text_out s l (S (length buf))) /\
                   plain_text (firstn l s) /\
                   (written ftoa (malloc p) (dim_of hist p) o (if malloc p then quoted (firstn l s) else quoted [] ++ not_enough_memory))).
    { destruct o as [| ? ? [[]|[]|[]|?|? []|? []] |? []| |]; cbn [expected] in EX; try discriminate.
      - exists s, (length s). split; [reflexivity|]. cbn in PO. rewrite firstn_all. split; [apply PO|]. reflexivity.
      - exists s, len0. split; [reflexivity|]. split; [exact PO|]. reflexivity. }
    destruct TX as (s & l & T1 & [T2a T2b] & T3). rewrite T1 in EX.
    assert (LL : (l < S (length buf))%nat).
    { inversion EX as [Q]. unfold text_out in Q. destruct (Nat.ltb_spec l (S (length buf))); [auto|]. inversion Q. lia. }
    rewrite (text_out_whole _ _ _ LL) in EX. inversion EX as [[EX1 EX2]]. apply app_inj_tail in EX1 as [EX1 _].
    eexists (if malloc p then quoted (firstn l s) else quoted [] ++ not_enough_memory).
    split; [|split; [exact PN|split]].
    + destruct (malloc p).
      * rewrite <- HD. rewrite <- EX2, c_str_plain by exact T2b. do 2 f_equal. unfold quoted, quote. cbn [app]. now rewrite <- !app_assoc.
      * rewrite <- HD. reflexivity.
    + destruct (malloc p).
      * now apply quoted_no.
      * intro A. vm_compute in A. intuition discriminate.
    + apply KN. exact T3.
  - pose proof (RD KVec ltac:(discriminate)) as Q. cbn in Q.
    rewrite RL by discriminate. destruct (expected (dim_of hist p) o KVec) as [g|] eqn:EX; [|discriminate].
    inversion Q; subst g. cbn [rbind].
    exists (if malloc p then brackets (comma_separated (map ftoa buf)) else brackets [] ++ not_enough_memory).
    split; [|split; [exact PN|split]].
    + destruct (malloc p).
      * rewrite <- HD. unfold print_array, brackets. rewrite items_join. do 2 f_equal. cbn [app]. now rewrite <- !app_assoc.
      * rewrite <- HD. reflexivity.
    + destruct (malloc p).
      * apply brackets_no. now apply join_no.
      * intro A. vm_compute in A. intuition discriminate.
    + apply KN. destruct o as [| ? ? [[]|[]|[]|?|? []|? []] |? []| |]; cbn [expected written] in EX |- *; try discriminate; inversion EX; reflexivity.
  - pose proof (RD KVar ltac:(discriminate)) as Q. unfold loads, load in Q. cbn [pdefined pval] in Q.
    rewrite RL by discriminate. destruct (expected (dim_of hist p) o KVar) as [g|] eqn:EX; [|discriminate].
    inversion Q; subst g. cbn [rbind].
    exists (if malloc p then brackets (comma_separated (map ftoa (firstn dim buf))) else brackets [] ++ not_enough_memory).
    split; [|split; [exact PN|split]].
    + destruct (malloc p).
      * rewrite <- HD. unfold print_array, brackets. rewrite items_join. do 2 f_equal. cbn [app]. now rewrite <- !app_assoc.
      * rewrite <- HD. reflexivity.
    + destruct (malloc p).
      * apply brackets_no. now apply join_no.
      * intro A. vm_compute in A. intuition discriminate.
    + apply KN. destruct o as [| ? ? [[]|[]|[]|?|? []|? []] |? []| |]; cbn [expected written] in EX |- *; try discriminate; inversion EX as [EE]; now rewrite EE.
Qed.

Definition matches (n p : nat) (e : list str * str) : Prop :=
  located hist n p (fst e) /\ shown ftoa (malloc p) hist p (snd e).
Definition prints (r : res (heap * str)) (lvl n : nat) (ps : list nat) : Prop :=
  exists L es, r = OK (h, render L) /\ Forall ok_line L /\ good lvl L es /\ Forall2 (matches n) ps es.

Lemma render_app a b : render (a ++ b) = render a ++ render b.
Proof. unfold render. now rewrite map_app, concat_app. Qed.
Lemma prints_all f lvl n g : forall l, (forall i, In i l -> prints (f h i) lvl n (g i)) ->
  prints (print_all f h l) lvl n (flat_map g l).
Proof.
  induction l as [|i l IH]; intro H; cbn [print_all flat_map].
  - exists [], []. split; [reflexivity|]. split; [constructor|]. split; [apply good_nil|constructor].
  - destruct (H i (or_introl eq_refl)) as (L1 & e1 & E1 & O1 & G1 & M1).
    destruct IH as (L2 & e2 & E2 & O2 & G2 & M2); [intros; apply H; now right|].
    rewrite E1. cbn [rbind]. rewrite E2. cbn [rbind]. exists (L1 ++ L2), (e1 ++ e2).
    split; [now rewrite render_app|]. split; [now apply Forall_app|]. split; [now apply good_app|]. now apply Forall2_app.
Qed.

Lemma ns_print fuel : forall n lvl, (n < length (nss h))%nat -> (length (nss h) < fuel + n)%nat ->
  prints (param_ns_print ftoa malloc fuel h n lvl) lvl n (pre fuel h n).
Proof.
  pose proof (inv_run _ _ R) as I. pose proof (i_wf _ _ I) as WF.
  induction fuel as [|fuel IH]; intros n lvl Hn Hf; [lia|]. cbn [param_ns_print pre].
  destruct (lt_nth _ _ _ Hn) as [x X]. rewrite X.
  assert (A : prints (print_all (fun h p => param_entry_print ftoa malloc h p lvl) h (nparams x)) lvl n (flat_map (fun p => [p]) (nparams x))).
  { apply prints_all. intros p Hp. rewrite (wf_params _ WF _ _ X) in Hp. apply in_rev, filter_In in Hp as [_ Hp].
    unfold is_param in Hp. destruct (nth_error (pars h) p) as [y|] eqn:Y; [|discriminate]. apply Nat.eqb_eq in Hp.
    destruct (entry_ok p y lvl Y) as (v & E & N & V & S). exists [(lvl, pid y, Some v)], [([pid y], v)].
    split; [exact E|]. split; [constructor; [split; auto|constructor]|]. split; [apply good_entry|]. constructor; [|constructor].
    split; [|exact S]. cbn [fst]. pose proof (par_decl_nth _ _ I p) as D. rewrite Y in D. cbn in D.
    destruct (nth_error (par_decls hist) p) as [[[m id] d]|] eqn:D'; [|discriminate]. cbn in D. inversion D; subst m id.
    exists n, (pid y), d, []. rewrite Hp in D'. split; [exact D'|]. split; [constructor|reflexivity]. }
  replace (flat_map (fun p => [p]) (nparams x)) with (nparams x) in A.
  2: { generalize (nparams x) as l. induction l as [|a l IHl]; cbn; [reflexivity|]. now rewrite <- IHl. }
  assert (B : prints (print_all (fun h m =>
            match nth_error (nss h) m with
            | None => BAD
            | Some y =>
                try (h, c) := param_ns_print ftoa malloc fuel h m (S lvl) in
                OK (h, indent lvl ++ nid y ++ lit ":" ++ newline ++ c)
            end) h (nsubs x)) lvl n (flat_map (pre fuel h) (nsubs x))).
  { apply prints_all. intros m Hm. destruct (sub_gt _ _ _ _ WF X Hm) as (Bm & y & Y & P). rewrite Y.
    destruct (IH m (S lvl)) as (L & es & E & O & G & M); [lia|lia|]. rewrite E. cbn [rbind].
    assert (SH : nth_error (ns_decls hist) m = Some (Some n, nid y)).
    { rewrite <- (i_ns _ _ I). unfold shape. rewrite nth_error_map, Y. cbn. now rewrite P. }
    exists ((lvl, nid y, None) :: L), (map (fun e => (nid y :: fst e, snd e)) es).
    split; [do 2 f_equal; unfold render; cbn; now rewrite <- !app_assoc|].
    split; [constructor; [split; [eapply plain_ns; eauto|exact Logic.I]|exact O]|]. split; [now apply good_ns|].
    clear - M SH. induction M as [|p e ps es [Q1 Q2] M IHM]; cbn [map]; constructor; [|exact IHM].
    split; [|exact Q2]. cbn [fst]. eapply located_cons; eauto. }
  destruct A as (L1 & e1 & E1 & O1 & G1 & M1). destruct B as (L2 & e2 & E2 & O2 & G2 & M2).
  rewrite E1. cbn [rbind]. rewrite E2. cbn [rbind]. exists (L1 ++ L2), (e1 ++ e2).
  split; [now rewrite render_app|]. split; [now apply Forall_app|]. split; [now apply good_app|]. now apply Forall2_app.
Qed.

Theorem print_reads_back_proof r : (r < length (ns_decls hist))%nat ->
  exists text es l, parameter_print ftoa malloc h r = OK (h, text) /\ read_yaml text = Some es /\
    NoDup l /\ (forall p, In p l <-> param_within hist p r) /\
    Forall2 (fun p e => located hist r p (fst e) /\ shown ftoa (malloc p) hist p (snd e)) l es.
Proof.
  intro Hr. pose proof (inv_run _ _ R) as I. pose proof (i_wf _ _ I) as WF. rewrite <- (ns_length _ _ I) in Hr.
  destruct (ns_print (S (length (nss h))) r 0 Hr) as (L & es & E & O & G & M); [lia|].
  exists (render L), es, (pre (S (length (nss h))) h r). split; [exact E|]. split; [|split; [apply nodup_pre; auto; lia|split; [|exact M]]].
  - unfold read_yaml. rewrite entries_walk by exact O. destruct (G [] [] (Nat.le_refl _)) as (o & _ & _ & W). rewrite app_nil_r in W.
    rewrite W. cbn. rewrite app_nil_r. f_equal. rewrite <- (map_id es) at 2. apply map_ext. intros [a b]. reflexivity.
  - intro p. rewrite in_pre by (auto; lia). now apply param_within_heap.
Qed.
End P.
