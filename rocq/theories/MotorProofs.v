From Coq Require Import ZArith List Bool Arith Lia Permutation.
From Verif Require Import CBase EnumModel EnumSpec EnumProofs MotorModel MotorSpec.
Import ListNotations.
Local Open Scope Z_scope.

(** * Streams *)
Lemma stream_inv : forall h s, 0 <= s < STREAMS_NB_VALUES ->
  let d := srun (driver_init []) h in
  Z.testbit (change_status d) s = fresh h s /\
  values d s = match last_write h s with Some v => v | None => 0 end.
Proof.
  intros h s Hs. cbv zeta.
  induction h as [|o h IH] using rev_ind.
  - cbn. rewrite Z.bits_0. auto.
  - destruct IH as [I1 I2]. unfold srun, fresh, last_write in *. rewrite !fold_left_app. cbn [fold_left].
    set (d := fold_left _ h (driver_init [])) in *. unfold STREAMS_NB_VALUES in *. destruct o as [s' v|s'].
    + unfold set_stream_value, STREAMS_NB_VALUES. destruct (Z.ltb_spec s' 10).
      * cbn [change_status values]. destruct (Z.eqb_spec s s') as [->|N].
        -- rewrite Z.eqb_refl, Z.lor_spec, Z.shiftl_spec by lia. rewrite Z.sub_diag. cbn. now rewrite orb_true_r.
        -- destruct (Z.eqb_spec s' s); [lia|]. rewrite Z.lor_spec, Z.shiftl_spec by lia.
           rewrite I1, I2. split; [|reflexivity]. replace (Z.testbit 1 (s - s')) with false; [apply orb_false_r|].
           symmetry. destruct (Z.ltb_spec s s').
           ++ apply Z.testbit_neg_r. lia.
           ++ change 1 with (2 ^ 0). rewrite Z.pow2_bits_eqb by lia. apply Z.eqb_neq. lia.
      * destruct (Z.eqb_spec s' s); [lia|]. auto.
    + unfold get_and_clear_stream_value, STREAMS_NB_VALUES. destruct (Z.ltb_spec s' 10).
      * cbn [fst change_status values]. split; [|destruct (Z.eqb_spec s' s); assumption].
        rewrite Z.land_spec. unfold u32, uN. rewrite <- Z.land_ones by lia. rewrite Z.land_spec, Z.ones_spec_low by lia.
        rewrite Z.lnot_spec, Z.shiftl_spec by lia. rewrite andb_true_r. destruct (Z.eqb_spec s' s) as [->|N].
        -- rewrite Z.sub_diag. cbn. apply andb_false_r.
        -- replace (Z.testbit 1 (s - s')) with false; [rewrite I1; apply andb_true_r|].
           symmetry. destruct (Z.ltb_spec s s').
           ++ apply Z.testbit_neg_r. lia.
           ++ change 1 with (2 ^ 0). rewrite Z.pow2_bits_eqb by lia. apply Z.eqb_neq. lia.
      * destruct (Z.eqb_spec s' s); [lia|]. auto.
Qed.

Lemma srun_setpt : forall h d, control_mode (srun d h) = control_mode d /\ setpt (srun d h) = setpt d.
Proof.
  induction h as [|o h IH]; intros d; [auto|]. unfold srun in *. cbn [fold_left].
  destruct (IH (match o with Write s v => set_stream_value d s v | Read s => fst (get_and_clear_stream_value d s) end)) as [-> ->].
  destruct o as [s v|s]; unfold set_stream_value, get_and_clear_stream_value; destruct (s <? _); auto.
Qed.

Lemma change_status_bits : forall h s, STREAMS_NB_VALUES <= s -> Z.testbit (change_status (srun (driver_init []) h)) s = false.
Proof.
  intros h s Hs. unfold STREAMS_NB_VALUES in Hs. induction h as [|o h IH] using rev_ind; [apply Z.bits_0|].
  unfold srun in *. rewrite fold_left_app. cbn [fold_left]. set (d := fold_left _ h (driver_init [])) in *.
  destruct o as [s' v|s'].
  - unfold set_stream_value, STREAMS_NB_VALUES. destruct (Z.ltb_spec s' 10); [|exact IH]. cbn [change_status].
    rewrite Z.lor_spec, IH, Z.shiftl_spec by lia. cbn. change 1 with (2 ^ 0). rewrite Z.pow2_bits_eqb by lia. apply Z.eqb_neq. lia.
  - unfold get_and_clear_stream_value, STREAMS_NB_VALUES. destruct (Z.ltb_spec s' 10); [|exact IH]. cbn [fst change_status].
    rewrite Z.land_spec, IH. reflexivity.
Qed.

(** * Manager *)
Definition matches (d : driver) (m : motor) : Prop :=
  d_id d = m_name m /\ control_mode d = mode_of (m_sets m) /\ setpt d = value_of (m_sets m).

Record minv (max cap : nat) (st : spec) (m : manager) : Prop := {
  mi_inv : inv cap (log st) (enum m);
  mi_max : max_drivers m = max;
  mi_match : Forall2 matches (drivers m) (motors st);
  mi_len : (length (motors st) <= max)%nat;
  mi_names : NoDup (map m_name (motors st));
  mi_adds : forall i mo, nth_error (motors st) i = Some mo <-> nth_error (adds (log st)) i = Some (m_name mo, Z.of_nat i) /\ nth_error (motors st) i = Some mo;
  mi_adds_eq : adds (log st) = combine (map m_name (motors st)) (map Z.of_nat (seq 0 (length (motors st))));
  mi_ids : forall s c, In (Announce s c) (log st) -> c <= 127 }.

Lemma combine_app_eq : forall (A B : Type) (a a' : list A) (b b' : list B), length a = length b ->
  combine (a ++ a') (b ++ b') = combine a b ++ combine a' b'.
Proof. induction a; destruct b; cbn; intros b' H; try discriminate; auto. injection H as H. now rewrite IHa. Qed.

Lemma map_fst_combine : forall (A B : Type) (a : list A) (b : list B), length a = length b -> map fst (combine a b) = a.
Proof. induction a; destruct b; cbn; intros H; try discriminate; auto. injection H as H. now rewrite IHa. Qed.

Lemma minv_names : forall max cap st m, minv max cap st m -> map fst (adds (log st)) = map m_name (motors st).
Proof.
  intros max cap st m I. rewrite (mi_adds_eq _ _ _ _ I). apply map_fst_combine. now rewrite !map_length, seq_length.
Qed.
Lemma minv_distinct : forall max cap st m, minv max cap st m -> names_distinct (log st).
Proof. intros. unfold names_distinct. erewrite minv_names by eauto. apply H. Qed.
Lemma minv_accepted : forall max cap st m, minv max cap st m -> (max <= cap)%nat -> accepted cap (log st) = adds (log st).
Proof.
  intros max cap st m I H. unfold accepted. apply firstn_all2. rewrite <- (map_length fst), (minv_names _ _ _ _ I), map_length.
  pose proof (mi_len _ _ _ _ I). lia.
Qed.
Lemma minv_len : forall max cap st m, minv max cap st m -> length (drivers m) = length (motors st).
Proof. intros. pose proof (mi_match _ _ _ _ H) as F. clear -F. induction F; cbn; congruence. Qed.

Lemma nth_combine : forall (A B : Type) (a : list A) (b : list B) i x y,
  nth_error (combine a b) i = Some (x, y) <-> nth_error a i = Some x /\ nth_error b i = Some y.
Proof.
  induction a; destruct b; destruct i; cbn; intros x y; try (split; [discriminate|intros [? ?]; discriminate]); auto.
  split; [intro E; injection E as -> ->; auto|intros [E1 E2]; congruence].
Qed.

Lemma nth_seq_Z : forall n i k, nth_error (map Z.of_nat (seq 0 n)) i = Some k <-> (i < n)%nat /\ k = Z.of_nat i.
Proof.
  intros n i k. rewrite nth_error_map. destruct (Nat.lt_ge_cases i n) as [L|G].
  - rewrite (nth_error_nth' _ 0%nat) by (now rewrite seq_length). rewrite seq_nth by assumption. cbn.
    split; [intro E; injection E as <-; auto|intros [_ ->]; reflexivity].
  - assert (N : nth_error (seq 0 n) i = None) by (apply nth_error_None; rewrite seq_length; lia). rewrite N. cbn.
    split; [discriminate|lia].
Qed.

Lemma minv_in : forall max cap st m s k, minv max cap st m ->
  (In (s, k) (adds (log st)) <-> exists i mo, nth_error (motors st) i = Some mo /\ m_name mo = s /\ k = Z.of_nat i).
Proof.
  intros max cap st m s k I. rewrite (mi_adds_eq _ _ _ _ I). split.
  - intro H. apply In_nth_error in H as [i H]. apply nth_combine in H as [H1 H2]. apply nth_seq_Z in H2 as [H2 ->].
    rewrite nth_error_map in H1. destruct (nth_error (motors st) i) as [mo|] eqn:E; [|discriminate]. cbn in H1. exists i, mo. split; [exact E|]. split; [congruence|reflexivity].
  - intros (i & mo & H & <- & ->). apply nth_error_In with (n := i). apply nth_combine. split.
    + rewrite nth_error_map, H. reflexivity.
    + apply nth_seq_Z. split; [|reflexivity]. apply nth_error_Some. congruence.
Qed.

Lemma get_can_id_unknown : forall max cap st m s, minv max cap st m -> (max <= cap)%nat ->
  get_can_id (enum m) s = Some (if in_dec name_dec s (map m_name (motors st))
                                then match announced (log st) s with Some c => c | None => EnumModel.CAN_ID_NOT_SET end
                                else STRING_ID_NOT_FOUND).
Proof.
  intros max cap st m s I HM. unfold get_can_id.
  destruct (index_str_spec cap (log st) (enum m) s (mi_inv _ _ _ _ I)) as [(i & d & -> & HI & Hn)|(-> & NI)]; cbn [entry_at].
  - rewrite Hn. cbn [option_map]. rewrite (minv_accepted _ _ _ _ I HM) in HI.
    destruct (in_dec _ _ _) as [IN|NIN]; [reflexivity|]. exfalso. apply NIN. rewrite <- (minv_names _ _ _ _ I).
    apply in_map_iff. exists (s, d). auto.
  - rewrite (minv_accepted _ _ _ _ I HM), (minv_names _ _ _ _ I) in NI. destruct (in_dec _ _ _); [contradiction|reflexivity].
Qed.

Lemma get_driver_spec : forall max cap st m s, minv max cap st m -> (max <= cap)%nat ->
  (exists i mo, nth_error (motors st) i = Some mo /\ m_name mo = s /\ get_driver (enum m) s = Some (Some (Z.of_nat i))) \/
  (~ In s (map m_name (motors st)) /\ get_driver (enum m) s = Some None).
Proof.
  intros max cap st m s I HM. unfold get_driver.
  destruct (index_str_spec cap (log st) (enum m) s (mi_inv _ _ _ _ I)) as [(i & d & -> & HI & Hn)|(-> & NI)]; cbn [entry_at].
  - left. rewrite Hn. rewrite (minv_accepted _ _ _ _ I HM) in HI. apply (minv_in _ _ _ _ _ _ I) in HI as (j & mo & H1 & H2 & ->).
    exists j, mo. auto.
  - right. rewrite (minv_accepted _ _ _ _ I HM), (minv_names _ _ _ _ I) in NI. auto.
Qed.

Lemma upd_length : forall l i f, length (update_driver l i f) = length l.
Proof. induction l; destruct i; cbn; auto. Qed.
Lemma upd_nth : forall l i f j, nth_error (update_driver l i f) j =
  if Nat.eqb i j then option_map f (nth_error l j) else nth_error l j.
Proof. induction l; destruct i, j; cbn; auto. destruct (Nat.eqb i j); auto. Qed.

Lemma Forall2_nth : forall (A B : Type) (R : A -> B -> Prop) a b,
  Forall2 R a b <-> length a = length b /\ forall i x y, nth_error a i = Some x -> nth_error b i = Some y -> R x y.
Proof.
  intros A B R a. induction a as [|x a IH]; destruct b as [|y b]; cbn; split; intro H; try (inversion H; fail).
  - split; [reflexivity|]. intros [|i]; discriminate.
  - constructor.
  - destruct H; discriminate.
  - destruct H; discriminate.
  - inversion H; subst. apply IH in H5 as [L N]. split; [lia|]. intros [|i] u v Hu Hv; cbn in *; [congruence|eauto].
  - destruct H as [L N]. constructor; [apply (N 0%nat); reflexivity|]. apply IH. split; [lia|]. intros i. apply (N (S i)).
Qed.

Lemma matches_set : forall d mo sp, matches d mo -> matches (driver_set d sp) {| m_name := m_name mo; m_sets := sp :: m_sets mo |}.
Proof. intros d mo sp (A & B & C). unfold matches. destruct sp; cbn; auto. Qed.

Lemma NoDup_nth_name : forall (l : list motor) i j a b, NoDup (map m_name l) ->
  nth_error l i = Some a -> nth_error l j = Some b -> m_name a = m_name b -> i = j.
Proof.
  intros l i j a b N Hi Hj E. apply (NoDup_nth_error (map m_name l)); auto.
  - rewrite map_length. apply nth_error_Some. congruence.
  - rewrite !nth_error_map, Hi, Hj. cbn. congruence.
Qed.

Lemma matches_stream : forall f d mo, matches d mo ->
  matches (fold_left (fun d sv => set_stream_value d (fst sv) (snd sv)) f d) mo.
Proof.
  induction f as [|[s v] f IH]; intros d mo M; [exact M|]. cbn [fold_left fst snd]. apply IH.
  unfold set_stream_value. destruct (s <? _); [|exact M]. destruct M as (A & B & C). unfold matches; cbn; auto.
Qed.

Lemma create_step : forall max cap st m s, minv max cap st m -> (max <= cap)%nat -> (length s <= MOTOR_ID_MAX_LEN)%nat ->
  exists m', create_driver m s = Some (m',
     if in_dec name_dec s (map m_name (motors st)) then None
     else if Nat.ltb (length (motors st)) max then Some (length (motors st)) else None) /\
  minv max cap (spec_step max st (Create s)) m'.
Proof.
  intros max cap st m s I HM HL. unfold create_driver. rewrite (get_can_id_unknown _ _ _ _ _ I HM). cbn [spec_step].
  destruct (in_dec name_dec s (map m_name (motors st))) as [IN|NIN].
  - assert (NE : (match announced (log st) s with Some c => c | None => EnumModel.CAN_ID_NOT_SET end =? STRING_ID_NOT_FOUND) = false).
    { apply Z.eqb_neq. destruct (announced (log st) s) as [c|] eqn:A; [|discriminate]. apply announced_in in A.
      apply (mi_ids _ _ _ _ I) in A. unfold STRING_ID_NOT_FOUND. lia. }
    rewrite NE. cbn. exists m. auto.
  - rewrite Z.eqb_refl. cbn [negb]. rewrite (mi_max _ _ _ _ I), (minv_len _ _ _ _ I).
    destruct (Nat.ltb_spec (length (motors st)) max) as [Hlt|Hge]; [|exists m; auto].
    cbn [driver_init d_id]. rewrite (firstn_all2 s) by exact HL.
    assert (ND : names_distinct (log st ++ [Add s (Z.of_nat (length (motors st)))])).
    { unfold names_distinct. rewrite adds_app, map_app, (minv_names _ _ _ _ I). cbn.
      apply (Permutation_NoDup (Permutation_cons_append _ _)). constructor; [exact NIN|apply I]. }
    destruct (inv_add cap (log st) (enum m) s _ (mi_inv _ _ _ _ I) ND) as (en & -> & I').
    eexists. split; [reflexivity|]. constructor; cbn [motors log drivers enum max_drivers].
    + exact I'.
    + reflexivity.
    + apply Forall2_app; [apply I|]. constructor; [|constructor]. unfold driver_init. rewrite firstn_all2 by exact HL. unfold matches; cbn; auto.
    + rewrite app_length. cbn. lia.
    + rewrite map_app. cbn. apply (Permutation_NoDup (Permutation_cons_append _ _)). constructor; [exact NIN|apply I].
    + intros i mo. split; [|tauto]. intro H. split; [|exact H]. rewrite adds_app, (mi_adds_eq _ _ _ _ I). cbn [adds flat_map app].
      assert (LC : length (combine (map m_name (motors st)) (map Z.of_nat (seq 0 (length (motors st))))) = length (motors st))
        by (rewrite combine_length, !map_length, seq_length; lia).
      destruct (Nat.lt_ge_cases i (length (motors st))) as [L|G].
      * rewrite nth_error_app1 in H by exact L. rewrite nth_error_app1 by lia. apply nth_combine. split.
        -- rewrite nth_error_map, H. reflexivity.
        -- apply nth_seq_Z. auto.
      * rewrite nth_error_app2 in H by exact G. rewrite nth_error_app2 by lia. rewrite LC.
        destruct (i - length (motors st))%nat as [|q] eqn:Q; [|destruct q; discriminate].
        cbn in H |- *. injection H as <-. cbn. repeat f_equal. lia.
    + rewrite adds_app, (mi_adds_eq _ _ _ _ I), map_app, app_length. cbn [length map adds flat_map app].
      rewrite Nat.add_1_r, seq_S, map_app. rewrite combine_app_eq by (now rewrite !map_length, seq_length). reflexivity.
    + intros s0 c H. apply in_app_iff in H as [H|[H|[]]]; [|discriminate]. eapply I; eauto.
Qed.

Lemma set_step : forall max cap st m s sp, minv max cap st m -> (max <= cap)%nat ->
  exists m', manager_set m s sp = Some m' /\ minv max cap (spec_step max st (Set_ s sp)) m'.
Proof.
  intros max cap st m s sp I HM. unfold manager_set. cbn [spec_step].
  set (g := fun m0 : motor => if name_dec (m_name m0) s then {| m_name := m_name m0; m_sets := sp :: m_sets m0 |} else m0).
  assert (GN : forall l, map m_name (map g l) = map m_name l).
  { intro l. rewrite map_map. apply map_ext. intro a. unfold g. destruct (name_dec _ _); reflexivity. }
  assert (NX : forall i mo, nth_error (map g (motors st)) i = Some mo <->
      nth_error (adds (log st)) i = Some (m_name mo, Z.of_nat i) /\ nth_error (map g (motors st)) i = Some mo).
  { intros i mo. split; [|tauto]. intro H. split; [|exact H]. rewrite nth_error_map in H.
    destruct (nth_error (motors st) i) as [m0|] eqn:E; [|discriminate]. cbn in H. injection H as <-.
    apply (mi_adds _ _ _ _ I) in E as [E _]. rewrite E. unfold g. destruct (name_dec _ _); reflexivity. }
  destruct (get_driver_spec _ _ _ _ s I HM) as [(i & mo & Hi & Hn & ->)|[NI ->]].
  - eexists. split; [reflexivity|]. constructor; cbn [motors log drivers enum max_drivers with_driver].
    + apply I.
    + apply I.
    + apply Forall2_nth. pose proof (proj1 (Forall2_nth _ _ _ _ _) (mi_match _ _ _ _ I)) as [L M].
      split; [now rewrite upd_length, map_length|]. intros j x y Hx Hy. rewrite upd_nth, Nat2Z.id in Hx. rewrite nth_error_map in Hy.
      destruct (nth_error (motors st) j) as [mj|] eqn:Ej; [|discriminate]. cbn in Hy. injection Hy as <-.
      destruct (Nat.eqb_spec i j) as [->|N].
      * destruct (nth_error (drivers m) j) as [dj|] eqn:Ed; [|discriminate]. cbn in Hx. injection Hx as <-.
        assert (mj = mo) by congruence. subst mj. unfold g. destruct (name_dec (m_name mo) s); [|congruence].
        apply matches_set. eapply M; eauto.
      * unfold g. destruct (name_dec (m_name mj) s) as [E|_].
        -- exfalso. apply N. eapply NoDup_nth_name; eauto. apply I. congruence.
        -- eapply M; eauto.
    + rewrite map_length. apply I.
    + rewrite GN. apply I.
    + exact NX.
    + rewrite GN, map_length. apply I.
    + apply I.
  - exists m. split; [reflexivity|].
    assert (MG : map g (motors st) = motors st).
    { rewrite <- (map_id (motors st)) at 2. apply map_ext_in. intros a Ha. unfold g. destruct (name_dec (m_name a) s) as [E|]; [|reflexivity].
      exfalso. apply NI. rewrite <- E. now apply in_map. }
    constructor; cbn [motors log drivers enum max_drivers]; rewrite ?MG; apply I.
Qed.

Lemma board_step : forall max cap st m s c, minv max cap st m -> c <= 127 ->
  exists m', on_announce m s c = Some m' /\ minv max cap (spec_step max st (Board s c)) m'.
Proof.
  intros max cap st m s c I HC. unfold on_announce.
  destruct (inv_announce cap (log st) (enum m) s c (mi_inv _ _ _ _ I) (minv_distinct _ _ _ _ I)) as (en & -> & I').
  - unfold EnumModel.CAN_ID_NOT_SET. lia.
  - intros s' c' A. apply announced_in in A. apply (mi_ids _ _ _ _ I) in A. unfold EnumModel.CAN_ID_NOT_SET. lia.
  - eexists. split; [reflexivity|]. cbn [spec_step]. constructor; cbn [motors log drivers enum max_drivers].
    + exact I'.
    + apply I.
    + apply I.
    + apply I.
    + apply I.
    + rewrite adds_announce. apply I.
    + rewrite adds_announce. apply I.
    + intros s0 c0 H. apply in_app_iff in H as [H|[H|[]]]; [eapply I; eauto|]. congruence.
Qed.

Lemma feedback_lookup : forall max cap st m c, minv max cap st m -> (max <= cap)%nat ->
  (exists i mo, nth_error (motors st) i = Some mo /\ announced (log st) (m_name mo) = Some c /\
     get_driver_by_can_id (enum m) c = Some (Some (Z.of_nat i))) \/
  ((forall mo, In mo (motors st) -> announced (log st) (m_name mo) <> Some c) /\ get_driver_by_can_id (enum m) c = Some None).
Proof.
  intros max cap st m c I HM.
  assert (O : ids_ok (log st)).
  { intros s' c' A. apply (mi_ids _ _ _ _ I) in A. unfold EnumModel.CAN_ID_NOT_SET. lia. }
  pose proof (mi_inv _ _ _ _ I) as EI.
  assert (IN : forall e, In e (can_to_str (enum m)) <-> exists s d, node_has_id cap (log st) s d (e_can_id e) /\ e = as_entry (log st) (s, d)).
  { intro e. rewrite (Permutation_in' eq_refl (i_cperm _ _ _ EI)), filter_In. split.
    - intros [H K]. apply (Permutation_in _ (i_perm _ _ _ EI)) in H. apply in_map_iff in H as ([s d] & <- & H).
      exists s, d. split; [|reflexivity]. split; [exact H|]. unfold known, as_entry in *. cbn [e_can_id fst] in *.
      destruct (announced (log st) s); [reflexivity|]. rewrite Z.eqb_refl in K. discriminate.
    - intros (s & d & [H A] & EE). subst e. split.
      + apply (Permutation_in _ (Permutation_sym (i_perm _ _ _ EI))). apply in_map_iff. exists (s, d). auto.
      + pose proof (O _ _ (announced_in _ _ _ A)) as NC. unfold known.
        destruct (Z.eqb_spec (e_can_id (as_entry (log st) (s, d))) EnumModel.CAN_ID_NOT_SET); [contradiction|reflexivity]. }
  unfold get_driver_by_can_id, index_by_can_id.
  destruct (search_full _ _ (mono_c _ c (i_csrt _ _ _ EI))) as [(i & e & -> & Hn & C)|(-> & NE)]; cbn [entry_at].
  - left. rewrite Hn. apply Z.compare_eq_iff in C. apply nth_error_In in Hn. apply IN in Hn as (s & d & [H A] & EE).
    rewrite (minv_accepted _ _ _ _ I HM) in H. apply (minv_in _ _ _ _ _ _ I) in H as (j & mo & Hj & Hs & ->).
    exists j, mo. split; [exact Hj|]. split; [congruence|]. rewrite EE. reflexivity.
  - right. split; [|reflexivity]. intros mo Hmo A. apply In_nth_error in Hmo as [i Hi].
    apply (NE (as_entry (log st) (m_name mo, Z.of_nat i))).
    + apply IN. exists (m_name mo), (Z.of_nat i). split; [|reflexivity]. split.
      * rewrite (minv_accepted _ _ _ _ I HM). apply (minv_in _ _ _ _ _ _ I). exists i, mo. auto.
      * unfold as_entry. cbn [e_can_id fst]. now rewrite A.
    + unfold as_entry. cbn [e_can_id fst]. rewrite A. apply Z.compare_refl.
Qed.

Lemma feedback_step : forall max cap st m c f, minv max cap st m -> (max <= cap)%nat ->
  exists m', on_feedback m c f = Some m' /\ minv max cap st m'.
Proof.
  intros max cap st m c f I HM. unfold on_feedback.
  destruct (feedback_lookup _ _ _ _ c I HM) as [(i & mo & Hi & HA & ->)|[NI ->]]; [|exists m; auto].
  eexists. split; [reflexivity|]. constructor; cbn [drivers enum max_drivers with_driver]; try apply I.
  apply Forall2_nth. pose proof (proj1 (Forall2_nth _ _ _ _ _) (mi_match _ _ _ _ I)) as [L M].
  split; [now rewrite upd_length|]. intros j x y Hx Hy. rewrite upd_nth, Nat2Z.id in Hx.
  destruct (Nat.eqb_spec i j) as [->|N]; [|eapply M; eauto].
  destruct (nth_error (drivers m) j) as [dj|] eqn:Ed; [|discriminate]. cbn in Hx. injection Hx as <-.
  apply matches_stream. eapply M; eauto.
Qed.

Lemma mrun_app : forall h1 st h2, mrun st (h1 ++ h2) = match mrun st h1 with Some st => mrun st h2 | None => None end.
Proof. induction h1; cbn; auto. intros. destruct (mstep st a); auto. Qed.

Lemma minv_init : forall max cap, minv max cap {| motors := []; log := [] |} (manager_init max cap).
Proof.
  intros. constructor; cbn; auto; try lia.
  - apply inv_init.
  - constructor.
  - intros [|i] mo; cbn; intuition discriminate.
Qed.

Lemma manager_run : forall max cap h, (max <= cap)%nat -> Forall op_ok h ->
  exists m res, mrun (manager_init max cap, []) h = Some (m, res) /\ minv max cap (spec_run max h) m.
Proof.
  intros max cap h HM. induction h as [|o h IH] using rev_ind; intro F.
  - exists (manager_init max cap), []. split; [reflexivity|]. apply minv_init.
  - apply Forall_app in F as [F Fo]. inversion Fo as [|? ? Ho _]; subst. destruct (IH F) as (m & res & E & I).
    rewrite mrun_app, E. cbn [mrun]. unfold spec_run. rewrite fold_left_app. cbn [fold_left]. fold (spec_run max h).
    destruct o as [s|s sp|s c|c f]; cbn [mstep op_ok] in *.
    + destruct (create_step _ _ _ _ s I HM Ho) as (m' & -> & I'). eauto.
    + destruct (set_step _ _ _ _ s sp I HM) as (m' & -> & I'). eauto.
    + destruct (board_step _ _ _ _ s c I Ho) as (m' & -> & I'). eauto.
    + destruct (feedback_step _ _ _ _ c f I HM) as (m' & -> & I'). eauto.
Qed.

(** * Statements *)
Lemma create_l : forall max cap h s, (max <= cap)%nat -> Forall op_ok h -> (length s <= MOTOR_ID_MAX_LEN)%nat ->
  exists m res m' r, mrun (manager_init max cap, []) h = Some (m, res) /\ create_driver m s = Some (m', r) /\
  let known := map m_name (motors (spec_run max h)) in
  length (drivers m) = length known /\ (length known <= max)%nat /\
  (In s known \/ length known = max -> r = None /\ drivers m' = drivers m) /\
  (~ In s known -> (length known < max)%nat ->
     r = Some (length known) /\ exists d, drivers m' = drivers m ++ [d] /\ d_id d = s /\ control_mode d = MODE_DISABLED /\ change_status d = 0).
Proof.
  intros max cap h s HM F HL. destruct (manager_run max cap h HM F) as (m & res & E & I).
  destruct (create_step _ _ _ _ s I HM HL) as (m' & C & I'). eexists m, res, m', _. split; [exact E|]. split; [exact C|].
  cbv zeta. rewrite map_length. pose proof (minv_len _ _ _ _ I) as L. pose proof (mi_len _ _ _ _ I).
  split; [exact L|]. split; [assumption|].
  unfold create_driver in C. destruct (get_can_id (enum m) s); [|discriminate].
  destruct (negb (z =? STRING_ID_NOT_FOUND)).
  - injection C as C1 C2. subst m'. split; [intros _|].
    + split; [|reflexivity]. now rewrite <- C2.
    + intros NI Hlt. exfalso. destruct (in_dec _ _ _); [contradiction|]. destruct (Nat.ltb_spec (length (motors (spec_run max h))) max); [discriminate|lia].
  - rewrite L, (mi_max _ _ _ _ I) in C. destruct (Nat.ltb_spec (length (motors (spec_run max h))) max) as [Hlt|Hge].
    + destruct (add_node _ _ _); [|discriminate]. injection C as C1 C2. split.
      * intros [IN|Q]; [|lia]. destruct (in_dec _ _ _); [discriminate|contradiction].
      * intros NI _. destruct (in_dec _ _ _); [contradiction|]. split; [reflexivity|]. subst m'. cbn [drivers].
        exists (driver_init s). split; [reflexivity|]. unfold driver_init. cbn [d_id control_mode change_status]. split; [now apply firstn_all2|]. auto.
    + injection C as C1 C2. subst m'. split; [intros _; split; [|reflexivity]|lia]. destruct (in_dec _ _ _); reflexivity.
Qed.

Lemma setpoints_l : forall max cap h, (max <= cap)%nat -> Forall op_ok h ->
  exists m res, mrun (manager_init max cap, []) h = Some (m, res) /\
  length (drivers m) = length (motors (spec_run max h)) /\
  forall i d mo, nth_error (drivers m) i = Some d -> nth_error (motors (spec_run max h)) i = Some mo ->
    d_id d = m_name mo /\ control_mode d = mode_of (m_sets mo) /\ setpt d = value_of (m_sets mo).
Proof.
  intros max cap h HM F. destruct (manager_run max cap h HM F) as (m & res & E & I). exists m, res.
  split; [exact E|]. split; [eapply minv_len; eauto|]. intros i d mo Hd Hm.
  exact (proj2 (proj1 (Forall2_nth _ _ _ _ _) (mi_match _ _ _ _ I)) i d mo Hd Hm).
Qed.

Lemma received_l d f : has_received d f (fold_left (fun d sv => set_stream_value d (fst sv) (snd sv)) (stream_updates f) d).
Proof.
  unfold has_received. split; [destruct f; reflexivity|]. split; [destruct f; reflexivity|]. split; [destruct f; reflexivity|].
  intro q. destruct f, q; cbn [measured]; (split; [reflexivity|]); cbn -[Z.testbit Z.lor]; rewrite ?Z.lor_spec; cbn -[Z.testbit Z.lor];
    repeat match goal with |- context [Z.testbit (Z.pos ?a) ?n] => let v := eval vm_compute in (Z.testbit (Z.pos a) n) in change (Z.testbit (Z.pos a) n) with v end;
    rewrite ?orb_false_r, ?orb_true_r; reflexivity.
Qed.
Lemma feedback_l : forall max cap h c f, (max <= cap)%nat -> Forall op_ok h ->
  exists m res m', mrun (manager_init max cap, []) h = Some (m, res) /\ on_feedback m c f = Some m' /\
  let st := spec_run max h in
  ((exists i mo, nth_error (motors st) i = Some mo /\ announced (log st) (m_name mo) = Some c /\
     forall j d, nth_error (drivers m) j = Some d -> exists d', nth_error (drivers m') j = Some d' /\ (j <> i -> d' = d) /\ (j = i -> has_received d f d')) \/
   ((forall mo, In mo (motors st) -> announced (log st) (m_name mo) <> Some c) /\ m' = m)).
Proof.
  intros max cap h c f HM F. destruct (manager_run max cap h HM F) as (m & res & E & I).
  destruct (feedback_lookup _ _ _ _ c I HM) as [(i & mo & Hi & HA & G)|[NI G]].
  - eexists m, res, _. split; [exact E|]. split; [unfold on_feedback; rewrite G; reflexivity|]. cbv zeta. left. exists i, mo. split; [exact Hi|]. split; [exact HA|].
    intros j d Hd. cbn [drivers with_driver]. rewrite upd_nth, Nat2Z.id, Hd. rewrite (Nat.eqb_sym i j). destruct (Nat.eqb_spec j i) as [->|N].
    + cbn [option_map]. eexists. split; [reflexivity|]. split; [contradiction|]. intros _. apply received_l.
    + eexists. split; [reflexivity|]. split; [reflexivity|]. contradiction.
  - exists m, res, m. split; [exact E|]. split; [unfold on_feedback; now rewrite G|]. right. auto.
Qed.

(** * Actuators *)
Lemma actuator_l : forall cap h s drv, names_distinct h -> ids_ok h -> (length s <= ACTUATOR_NAME_MAX_LENGTH)%nat ->
  In (s, drv) (accepted cap h) ->
  exists en, erun (enumerator_init cap) h = Some en /\
  forall a table reef high duty, can_name a = firstn ACTUATOR_NAME_MAX_LENGTH s ->
   match announced h s with
   | Some c => if 127 <? c then prepare_uavcan_msg a en table reef high duty = Some None
               else exists cmd, prepare_uavcan_msg a en table reef high duty = Some (Some cmd) /\ c_node cmd = c /\
                 c_solenoid0 cmd = pump0 a /\ c_solenoid1 cmd = pump1 a /\
                 c_pump0 cmd = (if pump0 a then duty else 0) /\ c_pump1 cmd = (if pump1 a then duty else 0) /\
                 c_servo cmd = match a_position a with TABLE_PICKUP => table | REEF_PICKUP => reef | POSITION_HIGH => high end
   | None => prepare_uavcan_msg a en table reef high duty = Some None
   end.
Proof.
  intros cap h s drv N O HL HI. destruct (lookup_name_l cap h N O) as (en & E & K). exists en. split; [exact E|].
  intros a table reef high duty HN. rewrite firstn_all2 in HN by exact HL. destruct (K s) as [K1 _]. destruct (K1 _ HI) as [_ G].
  unfold prepare_uavcan_msg. rewrite HN, G. destruct (announced h s) as [c|]; [|reflexivity].
  destruct (127 <? c); [reflexivity|]. eexists. split; [reflexivity|]. cbn. repeat split; destruct (a_position a); reflexivity.
Qed.
