(** The LEDs and the emergency stop. *)
From Coq Require Import ZArith List Bool Arith Lia.
From Verif Require Import CBase EnumModel EnumSpec EnumProofs MotorModel McanModel McanSpec.
Import ListNotations.
Local Open Scope Z_scope.

Definition regs_ev (regs : list name) : list EnumModel.event := map (fun s => Add s 0) regs.

Lemma register_run regs : forall en, register en regs = erun en (regs_ev regs).
Proof. induction regs as [|s regs IH]; intro en; [reflexivity|]. cbn. destruct (add_node en s 0); auto. Qed.

Definition all_known (tab : list (name * Z)) (regs : list name) : bool :=
  forallb (fun s => match id_of tab s with Some _ => true | None => false end) regs.

Record linv (cap : nat) (regs : list name) (tab : list (name * Z)) (st : enumerator * bool) : Prop := {
  l_hist : exists H, erun (enumerator_init cap) H = Some (fst st) /\ adds H = map (fun s => (s, 0)) regs /\ ids_ok H /\
             (forall s, announced H s = id_of tab s);
  l_ready : snd st = all_known tab regs;
  l_tab : forall s c, In (s, c) tab -> id_of tab s = Some c /\ In s regs }.

Lemma regs_adds regs : adds (regs_ev regs) = map (fun s => (s, 0)) regs.
Proof. induction regs; cbn; [reflexivity|]. now rewrite <- IHregs. Qed.
Lemma regs_announced regs s : announced (regs_ev regs) s = None.
Proof.
  assert (F : forall l, first_announce (regs_ev l) s = None) by (induction l; cbn; auto).
  induction regs as [|x regs IH]; [reflexivity|]. cbn [regs_ev map announced]. fold (regs_ev regs). destruct (name_dec x s); auto.
Qed.
Lemma fst_pair (regs : list name) : map fst (map (fun s => (s, 0)) regs) = regs.
Proof. induction regs; cbn; congruence. Qed.

Lemma id_of_in tab s c : id_of tab s = Some c -> In (s, c) tab.
Proof.
  induction tab as [|[s' c'] tab IH]; cbn [id_of]; [discriminate|]. destruct (name_dec s' s) as [->|].
  - intros [= ->]. now left.
  - intro H. right. auto.
Qed.

Lemma linv_init cap regs : NoDup regs -> regs <> [] ->
  exists en, register (enumerator_init cap) regs = Some en /\ linv cap regs [] (en, false).
Proof.
  intros ND NE. rewrite register_run.
  assert (O : ids_ok (regs_ev regs)).
  { intros s c H. exfalso. apply in_map_iff in H as (? & ? & _). discriminate. }
  destruct (inv_run cap (regs_ev regs)) as (en & E & _); [unfold names_distinct; now rewrite regs_adds, fst_pair|exact O|].
  exists en. split; [exact E|]. constructor; cbn [fst snd].
  - exists (regs_ev regs). split; [exact E|]. split; [apply regs_adds|]. split; [exact O|]. apply regs_announced.
  - destruct regs; [congruence|]. reflexivity.
  - contradiction.
Qed.

Lemma count_all {A} (f : A -> bool) l : Nat.eqb (length (filter f l)) (length l) = forallb f l.
Proof.
  induction l as [|x l IH]; [reflexivity|]. cbn [filter forallb]. destruct (f x); cbn [length andb].
  - exact IH.
  - apply Nat.eqb_neq. pose proof (filter_len _ f l). lia.
Qed.

Lemma info_l cap regs tab st s c : NoDup regs -> (length regs <= cap)%nat -> 1 <= c <= 127 -> linv cap regs tab st ->
  exists st', on_node_info st s c = Some st' /\ linv cap regs (hear regs tab (s, c)) st'.
Proof.
  intros ND LC HC I. destruct st as [en ready]. destruct (l_hist _ _ _ _ I) as (H & E & AD & O & AN). cbn [fst] in E.
  assert (NM : names_distinct H) by (unfold names_distinct; now rewrite AD, fst_pair).
  assert (AC : accepted cap H = map (fun s => (s, 0)) regs).
  { unfold accepted. rewrite AD. apply firstn_all2. now rewrite map_length. }
  unfold on_node_info, hear. destruct (lookup_id_l cap H NM O) as (en0 & E0 & LK). rewrite E in E0. injection E0 as <-.
  destruct (LK c) as [(s' & d & [HI A] & -> & _)|(NI & -> & _)].
  - exists (en, ready). split; [reflexivity|]. rewrite AN in A.
    replace (existsb _ tab) with true; [exact I|]. symmetry. apply existsb_exists. exists (s', c). split; [now apply id_of_in|apply Z.eqb_refl].
  - replace (existsb _ tab) with false.
    2:{ symmetry. apply not_true_is_false. intro X. apply existsb_exists in X as ([s' c'] & IN & X). cbn [snd] in X. apply Z.eqb_eq in X. subst c'.
        destruct (l_tab _ _ _ _ I _ _ IN) as [ID IR]. apply (NI s' 0). split; [|now rewrite AN].
        rewrite AC. apply in_map_iff. eauto. }
    assert (O2 : ids_ok (H ++ [Announce s c])).
    { intros s' c' X. apply in_app_iff in X as [X|[X|[]]]; [eapply O; eauto|]. injection X as _ <-. unfold CAN_ID_NOT_SET. lia. }
    assert (NM2 : names_distinct (H ++ [Announce s c])) by (unfold names_distinct; now rewrite adds_announce).
    destruct (counts_l cap (H ++ [Announce s c]) NM2 O2) as (en' & E' & CT & _ & CD).
    assert (U : update_node_info en s c = Some en').
    { rewrite erun_app, E in E'. cbn [erun estep] in E'. destruct (update_node_info en s c); congruence. }
    rewrite U. eexists. split; [reflexivity|].
    assert (AC2 : accepted cap (H ++ [Announce s c]) = map (fun s => (s, 0)) regs) by (unfold accepted in *; now rewrite adds_announce).
    set (tab' := if in_dec name_dec s regs then match id_of tab s with Some _ => tab | None => (s, c) :: tab end else tab).
    assert (AN2 : forall x, announced (H ++ [Announce s c]) x = id_of tab' x).
    { intro x. rewrite announced_announce, AN, AD, fst_pair. unfold tab'. destruct (in_dec name_dec s regs) as [IR|IR].
      - destruct (id_of tab s) as [cs|] eqn:Es.
        + destruct (id_of tab x) as [cx|] eqn:Ex; [reflexivity|]. destruct (in_dec _ _ _); [|reflexivity]. destruct (name_dec s x) as [->|]; [congruence|reflexivity].
        + cbn [id_of]. destruct (name_dec s x) as [->|N].
          * rewrite Es. destruct (in_dec _ _ _); [reflexivity|contradiction].
          * destruct (id_of tab x); [reflexivity|]. destruct (in_dec _ _ _); reflexivity.
      - destruct (id_of tab x) as [cx|]; [reflexivity|]. destruct (in_dec _ _ _); [|reflexivity]. destruct (name_dec s x) as [->|]; [contradiction|reflexivity]. }
    rewrite CT, CD, AC2, count_all.
    assert (AK : forallb (fun nd : name * Z => match announced (H ++ [Announce s c]) (fst nd) with Some _ => true | None => false end) (map (fun s => (s, 0)) regs) = all_known tab' regs).
    { unfold all_known. clear - AN2. clearbody tab'. clear - AN2. induction regs as [|r regs IH]; [reflexivity|]. cbn [map forallb fst]. rewrite AN2. now f_equal. }
    rewrite AK. constructor; cbn [fst snd].
    + exists (H ++ [Announce s c]). split; [exact E'|]. split; [now rewrite adds_announce|]. split; [exact O2|exact AN2].
    + destruct (all_known tab' regs) eqn:K; [reflexivity|]. pose proof (l_ready _ _ _ _ I) as R. cbn [snd] in R. rewrite R.
      apply not_true_is_false. intro T. assert (all_known tab' regs = true); [|congruence].
      unfold all_known in *. rewrite forallb_forall in *. intros x Hx. specialize (T x Hx). unfold tab'.
      destruct (in_dec name_dec s regs); [|exact T]. destruct (id_of tab s); [exact T|]. cbn [id_of]. destruct (name_dec s x); [reflexivity|exact T].
    + intros x cx Hx. unfold tab' in *. destruct (in_dec name_dec s regs) as [IR|]; [|eapply I; eauto].
      destruct (id_of tab s) eqn:Es; [eapply I; eauto|]. cbn [id_of]. destruct Hx as [[= <- <-]|Hx].
      * destruct (name_dec s s); [auto|congruence].
      * destruct (l_tab _ _ _ _ I _ _ Hx) as [Ix Rx]. destruct (name_dec s x) as [->|]; [congruence|auto].
Qed.

Lemma led_l cap regs h : NoDup regs -> (length regs <= cap)%nat -> regs <> [] -> Forall (fun i => 1 <= snd i <= 127) h ->
  exists en st, register (enumerator_init cap) regs = Some en /\ info_run (en, false) h = Some st /\
    snd st = all_known (heard regs h) regs.
Proof.
  intros ND LC NE F. destruct (linv_init cap regs ND NE) as (en & E & I). exists en.
  assert (G : forall h tab st, linv cap regs tab st -> Forall (fun i => 1 <= snd i <= 127) h ->
    exists st', info_run st h = Some st' /\ linv cap regs (fold_left (hear regs) h tab) st').
  { clear - ND LC. induction h as [|[s c] h IH]; intros tab st I F; [exists st; auto|].
    inversion F as [|? ? Hc Fh]; subst. cbn [snd] in Hc. destruct (info_l cap regs tab st s c ND LC Hc I) as (st' & E & I').
    cbn [info_run fold_left]. rewrite E. apply IH; auto. }
  destruct (G h [] (en, false) I F) as (st & E' & I'). exists st. split; [exact E|]. split; [exact E'|apply I'].
Qed.

(** * Power *)
Definition store (h : list (Z * status)) : list (Z * status) := fold_left (fun m e => on_status m (fst e) (snd e)) h [].
Lemma store_in h src st : In (src, st) (store h) <-> last_status h src = Some st.
Proof.
  unfold store, last_status.
  assert (G : forall h m r, (forall src st, In (src, st) m <-> r src = Some st) ->
    forall src st, In (src, st) (fold_left (fun m e => on_status m (fst e) (snd e)) h m) <->
      fold_left (fun r e => if fst e =? src then Some (snd e) else r) h (r src) = Some st).
  { clear. induction h as [|[a x] h IH]; intros m r H src st; [apply H|]. cbn [fold_left fst snd].
    rewrite (IH _ (fun src => if a =? src then Some x else r src)); [reflexivity|]. clear - H. intros src st. unfold on_status. cbn [In].
    rewrite filter_In. cbn [fst]. destruct (Z.eqb_spec a src) as [->|N].
    - rewrite Z.eqb_refl. cbn. split; [intros [[= ->]|[_ X]]; [reflexivity|discriminate]|intros [= ->]; now left].
    - replace (src =? a) with false by (symmetry; now apply Z.eqb_neq; congruence). cbn [negb]. rewrite H. split; [intros [[= ? ?]|[X _]]; [congruence|exact X]|auto]. }
  apply (G h [] (fun _ => None)). cbn. split; [contradiction|discriminate].
Qed.

(** * The emergency stop *)
Lemma no_stop : existsb (topic_eqb T_EmergencyStop) subscriptions = false.
Proof. reflexivity. Qed.
Lemma never_ends h : fold_left (on_message subscriptions) h false = false.
Proof.
  induction h as [|t h IH]; [reflexivity|]. cbn [fold_left]. replace (on_message subscriptions false t) with false; [exact IH|].
  destruct t; try (unfold on_message; now rewrite andb_false_r).
  unfold on_message. rewrite no_stop. reflexivity.
Qed.
