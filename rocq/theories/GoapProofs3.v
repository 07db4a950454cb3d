From Coq Require Import ZArith List Bool Arith Lia Permutation.
From Verif Require Import CRes GoapModel GoapSpec GoapProofs GoapProofs2.
Import ListNotations.
Local Open Scope Z_scope.

Section Inv.
Context {St : Type} (P : problem St) (N : nat) (B : Z) (WF : well_formed P N B) (s0 : St).
Notation hp := (list (vnode St)).
Notation valid := (valid P B s0).
Notation good := (good P B s0).
Definition stof (h : hp) (x : nat) : option St := option_map st (nth_error h x).

Lemma stof_updated c l h h' x : updated c l h h' -> (x < length h)%nat -> stof h' x = stof h x.
Proof. intros [_ U] L. destruct (get_lt _ _ L) as (n & E). destruct (U _ _ E) as (m & M1 & M2 & M3 & _). unfold stof. rewrite E, M1. cbn. now rewrite M3. Qed.
Lemma stof_sbn (h h' : hp) x : sbn h h' -> (x < length h)%nat -> stof h' x = stof h x.
Proof. intros [_ U] L. destruct (get_lt _ _ L) as (n & E). destruct (U _ _ E) as (m & M1 & M2 & M3 & M4 & _). unfold stof. rewrite E, M1. cbn. now rewrite M4. Qed.

Lemma bounds C n h : (length C <= N)%nat -> good h C n -> cost n + 1 <= Z.of_nat (length C) ->
  Z.abs (prio n) + B + 1 < 2 ^ 31 /\ cost n + 1 < 2 ^ 31.
Proof.
  intros L (G1 & G2 & _) K. destruct WF as (_ & _ & B0 & W).
  assert ((cost n + 1) * (B + 1) <= (Z.of_nat N + Z.of_nat (action_count P) + 1) * (B + 1)) by nia. split; [|nia].
  assert (Z.abs (prio n) <= cost n * (B + 1)) by lia. nia.
Qed.

Lemma add_node_ok (s : pstate St) current a i n cur O C : free s = Some i -> nth_error (heap s) i = Some n ->
  is_list (heap s) (close s) C -> NoDup C -> ~ In i C -> In current C -> (length O <= length (heap s))%nat -> length (heap s) = N ->
  nth_error (heap s) current = Some cur -> cost cur + 1 <= Z.of_nat (length C) -> (a < action_count P)%nat -> can_run P a (st cur) = true ->
  let c := neighbor P cur current a in
  is_list (upd (heap s) i c) (open s) O -> (forall x, In x (O ++ C) -> x <> i -> valid (heap s) C x) ->
  exists h b, add_node P s current a = OK (if b : bool then mkp (upd h i (withnext c (open s))) (next n) (Some i) (close s)
                                           else mkp (upd h i (withnext c (next n))) (Some i) (open s) (close s)) /\
    updated c (O ++ C) (upd (heap s) i c) h /\ (forall x, In x (O ++ C) -> valid h C x) /\ nth_error h i = Some c /\ good h C c /\
    (b = true -> forall j, In j (O ++ C) -> stof (upd (heap s) i c) j <> Some (st c)) /\
    (b = false -> exists j, In j (O ++ C) /\ stof (upd (heap s) i c) j = Some (st c)).
Proof.
  intros EF EI LC NDC IC ICC LO LN EC KC AC RUN c LO2 V.
  assert (LI : (i < length (heap s))%nat) by (eapply nth_lt; eauto).
  assert (NE : current <> i) by (intros ->; auto).
  assert (GCur : good (heap s) C cur). { destruct (V current) as (m & M1 & M2); [apply in_app_iff; auto|auto|]. rewrite EC in M1. inversion M1; subst; auto. }
  pose proof (is_list_len _ _ _ LC NDC) as LLC. rewrite LN in LLC.
  destruct (bounds C cur (heap s) LLC GCur KC) as [B1 B2].
  unfold add_node, pop_head. rewrite EF. cbn [some rbind]. unfold get at 1. rewrite EI. cbn [some rbind]. rewrite (set_next_ok _ _ n) by auto. cbn [rbind].
  set (n1 := mkn (prio n) (cost n) (st n) (parent n) (act n) None).
  rewrite (fill_ok P N B WF _ current i a cur n1); [|now rewrite upd_other by auto|now apply upd_same|apply GCur|exact B1|exact B2].
  cbn [rbind]. rewrite upd_upd. change (withnext (neighbor P cur current a) (next n1)) with c. set (h2 := upd (heap s) i c) in *.
  assert (E2 : nth_error h2 i = Some c) by (now apply upd_same).
  assert (L2 : length h2 = N) by (unfold h2; now rewrite upd_length).
  destruct (update_all_ok P N B WF c i O (length h2) h2 (open s) true) as (h3 & b3 & U1 & U2 & U3 & U4); auto; [lia|].
  rewrite U1. cbn [rbind].
  assert (LC2 : is_list h2 (close s) C) by (now apply is_list_upd).
  destruct (update_all_ok P N B WF c i C (length h3) h3 (close s) b3) as (h4 & b4 & W1 & W2 & W3 & W4).
  { eapply updated_list; eauto. } { destruct U2 as [-> _]. lia. } { eapply updated_self; eauto. }
  rewrite W1. cbn [rbind]. pose proof (updated_trans c O C h2 h3 h4 U2 W2) as U.
  assert (G2 : good h2 C c).
  { destruct GCur as (Q1 & Q2 & _). destruct WF as (_ & D & B0 & _). pose proof (D (effects P a (st cur))). unfold good, GoapProofs2.good. unfold c at 1 2 3 4 5 6 7 8 9. cbn [neighbor cost prio parent st act].
    split; [lia|]. split; [nia|]. split; auto. exists cur, a. unfold h2. rewrite upd_other by auto. repeat split; auto. unfold c; cbn; lia. }
  assert (E4 : nth_error h4 i = Some c) by (eapply updated_self; eauto).
  assert (V2 : forall x, In x (O ++ C) -> valid h2 C x).
  { intros x X. destruct (Nat.eq_dec x i) as [->|]; [exists c; auto|]. apply valid_upd; auto. }
  assert (SS : forall j, In j (O ++ C) -> (j < length h2)%nat).
  { intros j J. apply in_app_iff in J as [J|J]; [eapply is_list_lt with (h := h2) (l := O); eauto|eapply is_list_lt with (h := h2) (l := C); eauto]. }
  exists h4, b4. split; [|split; [|split; [|split; [|split; [|split]]]]]; auto.
  - destruct b4; unfold push_head; rewrite (set_next_ok h4 i c) by auto; reflexivity.
  - intros x X. apply (valid_updated P N B WF s0 c (O ++ C) h2 h4); auto.
  - assert (valid h4 C i) as (c' & C1 & C2). { apply (valid_updated P N B WF s0 c (O ++ C) h2 h4); auto. exists c. auto. } rewrite E4 in C1. inversion C1; subst. auto.
  - intros T j J. destruct (W3 T) as [T3 Q3]. destruct (U3 T3) as [_ Q4]. unfold stof. apply in_app_iff in J as [J|J].
    + destruct (get_lt _ _ (SS j (in_or_app _ _ _ (or_introl J)))) as (m & M). rewrite M. cbn. intro X. inversion X. eapply Q4; eauto.
    + destruct (get_lt _ _ (SS j (in_or_app _ _ _ (or_intror J)))) as (m & M). destruct U2 as [_ U2]. destruct (U2 _ _ M) as (m' & M1 & M2 & M3 & _).
      rewrite M. cbn. intro X. inversion X as [X1]. apply (Q3 j m' J M1). rewrite M3. exact X1.
  - intro T. destruct (W4 T) as [T3|(j & m & J1 & J2 & J3)].
    + destruct (U4 T3) as [|(j & m & J1 & J2 & J3)]; [discriminate|]. exists j. split; [apply in_app_iff; auto|]. unfold stof. rewrite J2. cbn [option_map]. now rewrite J3.
    + exists j. split; [apply in_app_iff; auto|]. rewrite <- (stof_updated c O h2 h3) by (auto; apply SS; apply in_app_iff; auto). unfold stof. rewrite J2. cbn [option_map]. now rewrite J3.
Qed.

Record Inv (s : pstate St) (F O C : list nat) : Prop := {
  i_len : length (heap s) = N;
  i_free : is_list (heap s) (free s) F;
  i_open : is_list (heap s) (open s) O;
  i_close : is_list (heap s) (close s) C;
  i_nodup : NoDup (F ++ O ++ C);
  i_total : length (F ++ O ++ C) = N;
  i_valid : forall x, In x (O ++ C) -> valid (heap s) C x }.
(** The last open node was collected while it was still in the open list. *)
Record Alias (s : pstate St) (x : nat) (C : list nat) : Prop := {
  a_len : length (heap s) = N;
  a_free : free s = Some x;
  a_open : open s = Some x;
  a_next : exists n, nth_error (heap s) x = Some n /\ next n = None;
  a_close : is_list (heap s) (close s) C;
  a_nodup : NoDup C;
  a_out : ~ In x C;
  a_valid : forall y, In y (x :: C) -> valid (heap s) C y }.
(** The current node: it is closed and its children have room below the bound of costs. *)
Definition current_ok (h : hp) (C : list nat) (current : nat) (v : St) : Prop :=
  In current C /\ exists n, nth_error h current = Some n /\ cost n + 1 <= Z.of_nat (length C) /\ st n = v.

Lemma nodup_parts (F O C : list nat) : NoDup (F ++ O ++ C) -> NoDup F /\ NoDup O /\ NoDup C /\ NoDup (O ++ C) /\ (forall x, In x F -> ~ In x O /\ ~ In x C) /\ (forall x, In x O -> ~ In x C).
Proof.
  assert (Sp : forall a b : list nat, NoDup (a ++ b) -> NoDup a /\ NoDup b /\ forall x, In x a -> ~ In x b).
  { induction a as [|y a IH]; intros b H; cbn in *; [repeat split; auto; constructor|]. inversion H; subst. destruct (IH b H3) as (A1 & A2 & A3). rewrite in_app_iff in H2.
    repeat split; auto; [constructor; tauto|]. intros x [<-|X]; [tauto|auto]. }
  intro H. destruct (Sp _ _ H) as (H1 & H2 & H3). destruct (Sp _ _ H2) as (H4 & H5 & H6). repeat split; auto; intro X; apply (H3 x); auto; apply in_app_iff; auto.
Qed.

Lemma current_updated c l h h' C current v : updated c l h h' -> current_ok h C current v -> current_ok h' C current v.
Proof. intros [_ U] (I & n & N1 & N2 & N3). split; auto. destruct (U _ _ N1) as (m & M1 & M2 & M3 & M4 & _). exists m. rewrite M3, M4. auto. Qed.
Lemma current_upd h C current v i x : ~ In i C -> current_ok h C current v -> current_ok (upd h i x) C current v.
Proof. intros NI (I & n & N1). split; auto. exists n. rewrite upd_other; auto. intros ->; auto. Qed.

(** A free node is there. *)
Lemma add_normal s i F O C current v a : Inv s (i :: F) O C -> current_ok (heap s) C current v -> (a < action_count P)%nat -> can_run P a v = true ->
  exists s' F' O', add_node P s current a = OK s' /\ Inv s' F' O' C /\ current_ok (heap s') C current v /\
    (forall x, In x (O ++ C) -> stof (heap s') x = stof (heap s) x) /\
    ((O' = O /\ exists j, In j (O ++ C) /\ stof (heap s) j = Some (effects P a v)) \/
     (O' = i :: O /\ stof (heap s') i = Some (effects P a v) /\ forall j, In j (O ++ C) -> stof (heap s) j <> Some (effects P a v))).
Proof.
  intros [IL IF IO IC IND IT IV] CU AC RUN. pose proof CU as (ICC & cur & E1 & E2 & E3).
  destruct (nodup_parts _ _ _ IND) as (ND1 & ND2 & ND3 & ND4 & ND5 & ND6). destruct (ND5 i (or_introl eq_refl)) as [NIO NIC].
  destruct IF as (EF & n & N1 & N2). subst v.
  destruct (add_node_ok s current a i n cur O C) as (h & b & A1 & A2 & A3 & A4 & A5 & A6 & A7); auto.
  { eapply is_list_len; eauto. } { now apply is_list_upd. }
  set (c := neighbor P cur current a) in *.
  assert (LC : (i < length (heap s))%nat) by (eapply nth_lt; eauto).
  assert (LH : length h = N) by (destruct A2 as [-> _]; now rewrite upd_length).
  assert (LL : forall p l x, ~ In i l -> is_list (heap s) p l -> is_list (upd h i x) p l).
  { intros p l x NI H. apply is_list_upd; auto. eapply updated_list; eauto. now apply is_list_upd. }
  assert (NIF : ~ In i F) by (now inversion ND1).
  assert (SO : forall x, In x (O ++ C) -> stof (upd (heap s) i c) x = stof (heap s) x).
  { intros x X. unfold stof. rewrite upd_other; auto. intros ->. apply in_app_iff in X as [X|X]; auto. }
  assert (CH : current_ok h C current (st cur)). { eapply current_updated; eauto. apply current_upd; auto. }
  assert (ST : forall w x, In x (O ++ C) -> stof (upd h i w) x = stof (heap s) x).
  { intros w x X. rewrite <- SO by auto. rewrite <- (stof_updated _ _ _ _ x A2). { unfold stof. rewrite upd_other; auto. intros ->. apply in_app_iff in X as [X|X]; auto. }
    rewrite upd_length. destruct (in_app_or _ _ _ X) as [Y|Y]; [eapply is_list_lt with (l := O)|eapply is_list_lt with (l := C)]; eauto. }
  assert (VV : forall w x, In x (O ++ C) -> valid (upd h i w) C x).
  { intros w x X. apply valid_upd; auto. intros ->. apply in_app_iff in X as [X|X]; auto. }
  destruct b.
  - eexists _, F, (i :: O). split; [exact A1|]. split; [|split; [|split]]; cbn [heap free open close].
    + constructor; cbn [heap free open close]; auto.
      * now rewrite upd_length.
      * split; auto. exists (withnext c (open s)). split; [apply upd_same; lia|]. cbn [next withnext]. auto.
      * apply Permutation_NoDup with ((i :: F) ++ O ++ C); auto. cbn. apply Permutation_middle.
      * rewrite <- IT. cbn. rewrite !app_length. cbn. rewrite app_length. lia.
      * intros x [<-|X]; [|auto]. exists (withnext c (open s)). split; [apply upd_same; lia|]. apply (good_mono P B s0 h _ C C c); auto; [apply incl_refl| |repeat split].
        intros p m IP E. exists m. rewrite upd_other; auto. intros ->; auto.
    + now apply current_upd.
    + intros x X. auto.
    + right. split; auto. split; [unfold stof; rewrite upd_same by lia; reflexivity|]. intros j J. rewrite <- SO by auto. now apply A6.
  - eexists _, (i :: F), O. split; [exact A1|]. split; [|split; [|split]]; cbn [heap free open close].
    + constructor; cbn [heap free open close]; auto.
      * now rewrite upd_length.
      * split; auto. exists (withnext c (next n)). split; [apply upd_same; lia|]. cbn [next withnext]. auto.
    + now apply current_upd.
    + intros x X. auto.
    + left. split; auto. destruct (A7 eq_refl) as (j & J1 & J2). exists j. split; auto. now rewrite <- SO.
Qed.

Lemma add_alias s x C current v a : Alias s x C -> current_ok (heap s) C current v -> (a < action_count P)%nat -> can_run P a v = true ->
  exists s', add_node P s current a = OK s' /\ Alias s' x C /\ current_ok (heap s') C current v.
Proof.
  intros [IL IF IO (n & N1 & N2) IC IND NI IV] CU AC RUN. pose proof CU as (ICC & cur & E1 & E2 & E3). subst v.
  assert (LC : (x < length (heap s))%nat) by (eapply nth_lt; eauto).
  destruct (add_node_ok s current a x n cur [x] C) as (h & b & A1 & A2 & A3 & A4 & A5 & A6 & A7); auto.
  { cbn. lia. } { cbn. split; auto. eexists. split; [apply upd_same; auto|]. reflexivity. }
  set (c := neighbor P cur current a) in *.
  assert (b = false). { destruct b; auto. exfalso. apply (A6 eq_refl x); [now left|]. unfold stof. rewrite upd_same by auto. reflexivity. }
  subst b. eexists. split; [exact A1|].
  assert (LH : length h = N) by (destruct A2 as [-> _]; now rewrite upd_length).
  assert (CH : current_ok h C current (st cur)). { eapply current_updated; eauto. apply current_upd; auto. }
  split; [|cbn [heap]; now apply current_upd]. constructor; cbn [heap free open close]; auto.
  - now rewrite upd_length.
  - eexists. split; [apply upd_same; lia|]. exact N2.
  - apply is_list_upd; auto. eapply updated_list; eauto. now apply is_list_upd.
  - intros y [<-|Y].
    + exists (withnext c (next n)). split; [apply upd_same; lia|]. apply (good_mono P B s0 h _ C C c); auto; [apply incl_refl| |repeat split].
      intros p m IP E. exists m. rewrite upd_other; auto. intros ->; auto.
    + apply valid_upd; auto. { intros ->; auto. } apply A3. now right.
Qed.

Lemma collect_ok s F O C : Inv s F O C ->
  (F <> [] /\ collect s = OK (Some s)) \/ (F = [] /\ O = [] /\ collect s = OK None) \/
  (exists x s', F = [] /\ O = [x] /\ collect s = OK (Some s') /\ Alias s' x C /\ heap s' = heap s) \/
  (exists x O' s', F = [] /\ O = O' ++ [x] /\ collect s = OK (Some s') /\ Inv s' [x] O' C /\ sbn (heap s) (heap s')).
Proof.
  intros I. pose proof I as [IL IF IO IC IND IT IV]. unfold collect. destruct F as [|i F]; [|left; split; [easy|]; destruct IF as (-> & _); reflexivity].
  right. cbn in IF. rewrite IF. destruct (nodup_parts _ _ _ IND) as (ND1 & ND2 & ND3 & ND4 & ND5 & ND6).
  rewrite (last_of_ok (heap s) O) by (auto; eapply is_list_len; eauto). cbn [rbind].
  destruct (rev O) as [|x r] eqn:R.
  { assert (O = []) as -> by (now rewrite <- (rev_involutive O), R). left. auto. }
  right. assert (EO : O = rev r ++ [x]) by (rewrite <- (rev_involutive O), R; reflexivity).
  assert (NXC : ~ In x C). { apply ND6. rewrite EO. apply in_app_iff. right. now left. }
  destruct r as [|y r]; cbn [rbind].
  - left. cbn in EO. subst O. eexists x, _. split; auto. split; auto. split; [reflexivity|]. split; auto. destruct IO as (EO & n & N1 & N2).
    constructor; cbn [heap free open close]; auto. exists n. auto.
  - right. cbn [rev] in EO. rewrite <- app_assoc in EO. cbn in EO. assert (IY : In y O) by (rewrite EO; apply in_app_iff; right; now left).
    destruct (is_list_get _ _ _ IO y IY) as (ny & NY). rewrite (set_next_ok _ _ ny) by auto. cbn [rbind].
    exists x, (rev r ++ [y]). eexists. split; auto. split; [rewrite EO, <- app_assoc; reflexivity|]. split; [reflexivity|].
    pose proof (sbn_set (heap s) y ny None NY) as SB. split; [|exact SB].
    assert (NXY : x <> y). { intros ->. rewrite EO in ND2. destruct (nodup_parts (rev r) [y] [y] ND2) as (_ & _ & _ & Q & _). inversion Q; subst. apply H1. now left. }
    constructor; cbn [heap free open close]; auto.
    + now rewrite upd_length.
    + rewrite EO in IO. clear - IO NXY. cbn. split; auto. assert (X : exists n, nth_error (heap s) x = Some n /\ next n = None).
      { revert IO. generalize (open s). induction (rev r) as [|z l IH]; intros p H; cbn in H.
        - destruct H as (_ & n & _ & _ & m & M1 & M2). eauto.
        - destruct H as (_ & n & _ & H). eauto. }
      destruct X as (n & X1 & X2). exists n. rewrite upd_other; auto.
    + rewrite EO in IO, ND2. eapply cut_last; eauto.
    + apply is_list_upd; auto.
    + apply Permutation_NoDup with (O ++ C); auto. rewrite EO. replace (rev r ++ [y; x]) with ((rev r ++ [y]) ++ [x]) by (now rewrite <- app_assoc).
      rewrite <- app_assoc. cbn. symmetry. apply Permutation_middle.
    + rewrite <- IT, EO. cbn. rewrite !app_length. cbn. lia.
    + intros z Z. apply (valid_sbn P B s0 (heap s) _ C C); auto; [apply incl_refl|]. apply IV. rewrite EO. rewrite !in_app_iff in *. cbn in *. tauto.
Qed.

Lemma current_sbn h h' C current v : sbn h h' -> current_ok h C current v -> current_ok h' C current v.
Proof. intros [_ U] (I & n & N1 & N2 & N3). split; auto. destruct (U _ _ N1) as (m & M1 & M2 & M3 & M4 & _). exists m. rewrite M3, M4. auto. Qed.
Definition Ok (s : pstate St) (C : list nat) : Prop := (exists F O, Inv s F O C) \/ (exists x, Alias s x C).

Lemma try_ok s C current v a : Ok s C -> current_ok (heap s) C current v -> (a < action_count P)%nat -> can_run P a v = true ->
  try_action P s current a = OK (Return (-2) None) \/ exists s', try_action P s current a = OK (Go s') /\ Ok s' C /\ current_ok (heap s') C current v.
Proof.
  intros [(F & O & I)|(x & A)] CU AC RUN; unfold try_action.
  - destruct (collect_ok _ _ _ _ I) as [[NF E]|[(_ & _ & E)|[(x & s' & -> & -> & E & A & H)|(x & O' & s' & -> & -> & E & I' & SB)]]]; rewrite E; cbn [rbind].
    + right. destruct F as [|i F]; [contradiction|]. destruct (add_normal _ _ _ _ _ _ _ _ I CU AC RUN) as (s' & F' & O' & Q1 & Q2 & Q3 & _).
      rewrite Q1. cbn [rbind]. eexists. split; eauto. split; auto. left. eauto.
    + auto.
    + right. destruct (add_alias s' x C current v a A) as (s'' & Q1 & Q2 & Q3); auto. { now rewrite H. }
      rewrite Q1. cbn [rbind]. eexists. split; eauto. split; auto. right. eauto.
    + right. destruct (add_normal _ _ _ _ _ current v a I') as (s'' & F' & O'' & Q1 & Q2 & Q3 & _); auto. { eapply current_sbn; eauto. }
      rewrite Q1. cbn [rbind]. eexists. split; eauto. split; auto. left. eauto.
  - right. unfold collect. rewrite (a_free _ _ _ A). cbn [rbind]. destruct (add_alias s x C current v a A) as (s'' & Q1 & Q2 & Q3); auto.
    rewrite Q1. cbn [rbind]. eexists. split; eauto. split; auto. right. eauto.
Qed.
Lemma expand_ok C current v : forall k s, (k <= action_count P)%nat -> Ok s C -> current_ok (heap s) C current v ->
  expand P k s current = OK (Return (-2) None) \/ exists s', expand P k s current = OK (Go s') /\ Ok s' C.
Proof.
  induction k as [|k IH]; intros s K I CU; [right; eexists; split; eauto; reflexivity|]. cbn [expand]. pose proof CU as (_ & n & N1 & N2 & N3).
  unfold get. rewrite N1. cbn [some rbind]. rewrite N3. destruct (can_run P (action_count P - S k) v) eqn:R; [|apply IH; auto; lia].
  destruct (try_ok s C current v (action_count P - S k) I CU ltac:(lia) R) as [E|(s' & E & I' & CU')]; rewrite E; cbn [rbind]; auto. apply IH; auto. lia.
Qed.

(** After the last open node has been collected and taken: it is the current one, closed, and the head of the free list. *)
Definition Last (s : pstate St) (x : nat) (k : nat) : Prop := length (heap s) = N /\ free s = Some x /\ close s = Some x /\ open s = None /\
  exists n, nth_error (heap s) x = Some n /\ 0 <= cost n <= Z.of_nat (N + (action_count P - k)) /\ Z.abs (prio n) <= cost n * (B + 1).
Lemma expand_last x : forall k s, (k <= action_count P)%nat -> Last s x k -> exists s', expand P k s x = OK (Go s') /\ Last s' x 0.
Proof.
  induction k as [|k IH]; intros s K LL; [eexists; split; eauto; reflexivity|]. destruct LL as (L1 & L2 & L3 & L4 & n & N1 & N2 & N3).
  cbn [expand]. unfold get. rewrite N1. cbn [some rbind]. destruct (can_run P _ (st n)) eqn:R.
  - unfold try_action, collect. rewrite L2. cbn [rbind]. unfold add_node, pop_head. rewrite L2. cbn [some rbind]. unfold get at 1. rewrite N1. cbn [some rbind].
    assert (LX : (x < length (heap s))%nat) by (eapply nth_lt; eauto). rewrite (set_next_ok _ _ n) by auto. cbn [rbind].
    set (n1 := mkn (prio n) (cost n) (st n) (parent n) (act n) None).
    assert (BB : Z.abs (prio n) + B + 1 < 2 ^ 31 /\ cost n + 1 < 2 ^ 31).
    { destruct WF as (_ & _ & B0 & W). assert ((cost n + 1) * (B + 1) <= (Z.of_nat N + Z.of_nat (action_count P) + 1) * (B + 1)) by nia. split; [|nia]. nia. }
    rewrite (fill_ok P N B WF _ x x _ n1 n1); [|now apply upd_same|now apply upd_same|apply N2|apply BB|apply BB]. cbn [rbind]. rewrite upd_upd.
    set (a := (action_count P - S k)%nat) in *. set (c := withnext (neighbor P n1 x a) (next n1)). set (h2 := upd (heap s) x c).
    assert (E2 : nth_error h2 x = Some c) by (now apply upd_same). rewrite L4, L3.
    assert (UA : forall f, (0 < f)%nat -> update_all P f h2 (Some x) x true = OK (h2, false)).
    { intros [|f] Hf; [lia|]. cbn [update_all]. unfold get. rewrite E2. cbn [some rbind].
      assert (eqb P (st c) (st c) = true) as -> by (now apply (eqb_eq P N B WF)). unfold update_queued, get. rewrite E2. cbn [some rbind].
      rewrite Z.ltb_irrefl. cbn [rbind]. rewrite E2. cbn [some rbind]. change (next c) with (@None nat). destruct f; reflexivity. }
    replace (update_all P (length h2) h2 None x true) with (@OK (hp * bool) (h2, true)) by (destruct (length h2); reflexivity). cbn [rbind].
    rewrite UA by (unfold h2; rewrite upd_length; lia). cbn [rbind].
    unfold push_head. rewrite (set_next_ok h2 x c) by auto. cbn [rbind]. apply IH; [lia|]. unfold Last. cbn [heap free close open].
    split; [unfold h2; now rewrite !upd_length|]. split; auto. split; auto. split; auto. eexists. split; [apply upd_same; unfold h2; now rewrite upd_length|].
    cbn. destruct WF as (_ & D & B0 & _). pose proof (D (effects P a (st n))). split; [lia|]. nia.
  - apply IH; [lia|]. unfold Last. repeat split; auto. exists n. repeat split; auto; lia.
Qed.
End Inv.
