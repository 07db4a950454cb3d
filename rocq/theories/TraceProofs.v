From Coq Require Import NArith List Bool PeanoNat Lia.
From Verif Require Import TraceModel TraceSpec.
Import ListNotations.

Local Notation SZ := TRACE_BUFFER_SIZE.

Lemma sz_pos : SZ <> 0. Proof. discriminate. Qed.

(** [slot (write_index - 1 - i)] holds the [i]-th newest event. *)
Record TInv (b : trace_buffer) (past : list op) : Prop := {
  ti_active : active b = enabled past;
  ti_wi : write_index b < SZ;
  ti_nb : nb_events b = Nat.min SZ (length (recorded past));
  ti_wi0 : length (recorded past) < SZ -> write_index b = length (recorded past);
  ti_slots : forall i, i < nb_events b -> 
     nth_error (recorded past) i = Some (slots b ((write_index b + (SZ - 1 - i)) mod SZ)) }.

Lemma wrap_step w i : w < SZ -> i < SZ ->
  ((w + 1) mod SZ + (SZ - 1 - S i)) mod SZ = (w + (SZ - 1 - i)) mod SZ \/ SZ <= S i.
Proof.
  intros Hw Hi. destruct (Nat.le_gt_cases SZ (S i)); [now right|left].
  rewrite Nat.add_mod_idemp_l by apply sz_pos. f_equal. lia.
Qed.

Lemma slot_inj w i : w < SZ -> i < SZ -> 0 < i -> (w + (SZ - i)) mod SZ <> w.
Proof.
  intros Hw Hi H E. unfold TRACE_BUFFER_SIZE in *.
  destruct (Nat.lt_ge_cases (w + (200 - i)) 200).
  - rewrite Nat.mod_small in E by lia. lia.
  - replace (w + (200 - i)) with (w - i + 1 * 200) in E by lia. rewrite Nat.mod_add in E by lia.
    rewrite Nat.mod_small in E by lia. lia.
Qed.

Lemma step_inv b past o : TInv b past -> TInv (step b o) (o :: past).
Proof.
  intros [A W N W0 SL]. destruct o as [| | | | |id now d]; cbn [step].
  - split; cbn; auto; try (unfold TRACE_BUFFER_SIZE; lia).
  - split; cbn; auto.
  - split; cbn; auto.
  - split; cbn; auto; try (unfold TRACE_BUFFER_SIZE; lia).
  - split; cbn; auto.
  - unfold trace_push_event. rewrite A. destruct (enabled past) eqn:EN; cbn [negb].
    2:{ split; cbn; rewrite ?EN; auto. }
    split; cbn [active write_index nb_events slots recorded enabled length]; rewrite ?EN; auto; cbn [length].
    + apply Nat.mod_upper_bound, sz_pos.
    + rewrite N. destruct (Nat.ltb_spec (Nat.min SZ (length (recorded past))) SZ); lia.
    + intro L. rewrite W0 by lia. rewrite Nat.mod_small; lia.
    + intros i Hi.
      assert (HN : i < SZ /\ i < S (length (recorded past))).
      { rewrite N in Hi. destruct (Nat.ltb_spec (Nat.min SZ (length (recorded past))) SZ); lia. }
      destruct HN as [HN HL]. destruct i as [|i].
      * cbn [nth_error]. f_equal.
        replace ((write_index b + 1) mod SZ + (SZ - 1 - 0)) with ((write_index b + 1) mod SZ + (SZ - 1)) by lia.
        rewrite Nat.add_mod_idemp_l by apply sz_pos.
        replace (write_index b + 1 + (SZ - 1)) with (write_index b + 1 * SZ) by (unfold TRACE_BUFFER_SIZE; lia).
        rewrite Nat.mod_add by apply sz_pos. rewrite Nat.mod_small by exact W. now rewrite Nat.eqb_refl.
      * cbn [nth_error]. destruct (wrap_step (write_index b) i W ltac:(lia)) as [E|E]; [|lia].
        rewrite E. replace (SZ - 1 - i) with (SZ - S i) by lia.
        destruct (Nat.eqb_spec (write_index b) ((write_index b + (SZ - S i)) mod SZ)) as [Q|_].
        -- exfalso. symmetry in Q. revert Q. apply slot_inj; lia.
        -- replace (SZ - S i) with (SZ - 1 - i) by lia. apply SL. lia.
Qed.

Lemma run_inv ops : TInv (run ops) (rev ops).
Proof.
  unfold run. rewrite <- fold_left_rev_right. induction (rev ops) as [|o l IH]; cbn.
  - split; cbn; auto; try (unfold TRACE_BUFFER_SIZE; lia).
  - now apply step_inv.
Qed.

Lemma print_loop_nth b n : forall index i, i < n -> index < SZ ->
  nth_error (print_loop b n index) i = Some (slots b ((index + i) mod SZ)).
Proof.
  induction n as [|n IH]; intros index i Hi Hx; [lia|]. cbn [print_loop]. destruct i as [|i].
  - cbn [nth_error]. now rewrite Nat.add_0_r, Nat.mod_small.
  - cbn [nth_error]. rewrite IH; [|lia|apply Nat.mod_upper_bound, sz_pos].
    rewrite Nat.add_mod_idemp_l by apply sz_pos. do 3 f_equal. lia.
Qed.
Lemma print_loop_length b n : forall index, length (print_loop b n index) = n.
Proof. induction n; intro; cbn; auto. Qed.

Lemma nth_error_ext {A} (l1 l2 : list A) : length l1 = length l2 ->
  (forall i, i < length l1 -> nth_error l1 i = nth_error l2 i) -> l1 = l2.
Proof.
  revert l2. induction l1 as [|a l1 IH]; intros [|b l2] L H; try discriminate; [reflexivity|].
  pose proof (H 0 ltac:(cbn; lia)) as E. cbn in E. inversion E; subst. f_equal. apply IH.
  - now inversion L.
  - intros i Hi. apply (H (S i)). cbn. lia.
Qed.

Lemma nth_error_rev {A} (l : list A) i : i < length l -> nth_error (rev l) i = nth_error l (length l - 1 - i).
Proof.
  intro H. destruct l as [|a0 l0] eqn:E; [cbn in H; lia|]. rewrite <- E in *. clear E.
  rewrite (nth_error_nth' (rev l) a0) by now rewrite rev_length.
  rewrite (nth_error_nth' l a0) by lia. rewrite rev_nth by exact H. do 2 f_equal. lia.
Qed.

Lemma nth_error_firstn' {A} (l : list A) : forall n i, i < n -> nth_error (firstn n l) i = nth_error l i.
Proof.
  induction l as [|a l IH]; intros n i H; destruct n as [|n]; try lia; [now destruct i|].
  destruct i as [|i]; cbn; [reflexivity|]. apply IH. lia.
Qed.

Lemma trace_print_l ops : snd (trace_print (run ops)) = rev (firstn SZ (recorded (rev ops))).
Proof.
  destruct (run_inv ops) as [A W N W0 SL]. set (b := run ops) in *. set (past := rev ops) in *.
  assert (LF : length (firstn SZ (recorded past)) = nb_events b) by (rewrite firstn_length; lia).
  unfold trace_print. cbn [snd]. apply nth_error_ext.
  - rewrite print_loop_length, rev_length, LF. reflexivity.
  - intros i Hi. rewrite print_loop_length in Hi.
    rewrite nth_error_rev by lia. rewrite LF.
    assert (NB : nb_events b <= SZ) by lia.
    rewrite nth_error_firstn' by lia. rewrite (SL (nb_events b - 1 - i)) by lia.
    destruct (Nat.eqb_spec (nb_events b) SZ) as [E|E].
    + rewrite print_loop_nth by lia. do 2 f_equal. rewrite E. 
      replace (SZ - 1 - (SZ - 1 - i)) with i by lia. reflexivity.
    + rewrite print_loop_nth by (try apply Nat.neq_0_lt_0, sz_pos; lia). do 2 f_equal.
      assert (L : length (recorded past) < SZ) by lia. rewrite (W0 L), N.
      rewrite Nat.min_r by lia. rewrite Nat.add_0_l.
      replace (length (recorded past) + (SZ - 1 - (length (recorded past) - 1 - i))) with (i + 1 * SZ) by lia.
      rewrite Nat.mod_add by apply sz_pos. reflexivity.
Qed.

Lemma trace_bounds_l ops : write_index (run ops) < SZ /\ nb_events (run ops) <= SZ.
Proof. destruct (run_inv ops) as [A W N W0 SL]. split; [exact W|]. rewrite N. lia. Qed.

Lemma trace_active_l ops : active (run ops) = enabled (rev ops).
Proof. apply run_inv. Qed.
