(** C96. The control panel: lamps, inputs, starter and colour selection. *)
From Coq Require Import ZArith Lia List Bool Permutation.
From Verif Require Import PanelModel PanelSpec.
Import ListNotations.
Local Open Scope Z_scope.

Lemma output_eqb_spec a b : reflect (a = b) (output_eqb a b).
Proof. destruct a, b; constructor; congruence. Qed.
Lemma output_eqb_refl a : output_eqb a a = true.
Proof. destruct a; reflexivity. Qed.
Lemma last_app o l l' : last_written o (l ++ l') = match last_written o l' with Some v => Some v | None => last_written o l end.
Proof.
  induction l as [|[q v] l IH]; cbn [app last_written]; [destruct (last_written o l'); reflexivity|].
  rewrite IH. destruct (last_written o l'); reflexivity.
Qed.

(** What is known of a lamp: the entry and the last number agree. *)
Definition shows (o : output) (p : panel) (e : option (Z * bool)) : Prop :=
  match e with
  | Some (m, on) => leds p o = Some (mkLed m on) /\ last_written o (written p) = Some (if on then m - 1 else 0)
  | None => leds p o = None /\ last_written o (written p) = None
  end.
Lemma shows_set o p e q v : shows o p e ->
  shows o (set_output p q v) (match e with Some (m, on) => Some (m, if output_eqb q o then v else on) | None => None end).
Proof.
  unfold set_output. destruct (output_eqb_spec q o) as [->|N].
  - destruct e as [[m on]|]; cbn [shows]; intros [H1 H2]; rewrite H1.
    + cbn [leds written]. rewrite output_eqb_refl, last_app. cbn [last_written max_brightness]. rewrite output_eqb_refl. destruct v; split; try reflexivity; f_equal; lia.
    + auto.
  - destruct (leds p q) as [i|]; [|destruct e as [[m on]|]; auto].
    assert (E : output_eqb o q = false) by (destruct (output_eqb_spec o q); congruence).
    assert (E' : output_eqb q o = false) by (destruct (output_eqb_spec q o); congruence).
    destruct e as [[m on]|]; cbn [shows leds written]; rewrite E, last_app; cbn [last_written]; rewrite E'; auto.
Qed.
Lemma shows_open_other o p e q d : shows o p e -> q <> o -> shows o (open_led p q d) e.
Proof.
  intros H N. unfold open_led. destruct d as [[[n|] b]|]; [|exact H|exact H]. cbn [max_file brightness_opens]. destruct b; [|exact H].
  assert (E : output_eqb q o = false) by (destruct (output_eqb_spec q o); congruence).
  assert (E' : output_eqb o q = false) by (destruct (output_eqb_spec o q); congruence).
  set (p' := mkPanel _ _). assert (H' : shows o p' e) by (unfold p'; destruct e as [[m on]|]; cbn [shows leds written]; rewrite E'; exact H).
  pose proof (shows_set o p' e q false H') as S. rewrite E in S. destruct e as [[m on]|]; exact S.
Qed.
Lemma shows_open o p d m : leds p o = None -> usable d m -> shows o (open_led p o d) (Some (m, false)).
Proof.
  intros H (n & -> & ->). unfold open_led. cbn [max_file brightness_opens]. unfold set_output. cbn [leds written]. rewrite output_eqb_refl. cbn [shows leds written max_brightness].
  rewrite output_eqb_refl, last_app. cbn [last_written]. rewrite output_eqb_refl. split; [reflexivity|]. f_equal.
Qed.
Lemma shows_open_not o p d : shows o p None -> (forall m, ~ usable d m) -> shows o (open_led p o d) None.
Proof.
  intros H N. unfold open_led. destruct d as [[[n|] [|]]|]; try exact H. destruct (N (match n with Some v => v | None => 0 end)). exists n. auto.
Qed.
Lemma shows_start o : shows o panel_start None.
Proof. split; reflexivity. Qed.
Lemma shows_init o flags m : connected o -> usable (flags o) m -> shows o (init_leds flags panel_start) (Some (m, false)).
Proof.
  intros [C1 C2] U. unfold init_leds. pose proof (shows_start o) as S0.
  destruct o; try congruence; repeat (first [apply shows_open_other; [|discriminate] | apply shows_open; [|exact U]]);
    repeat match goal with |- leds (open_led ?p ?q ?d) ?o = None => apply (shows_open_other o p None q d); [split|discriminate] | |- last_written ?o (written (open_led ?p ?q ?d)) = None => apply (shows_open_other o p None q d); [split|discriminate] end; reflexivity.
Qed.
Lemma shows_init_not o flags : (connected o -> forall m, ~ usable (flags o) m) -> shows o (init_leds flags panel_start) None.
Proof.
  intro U. unfold init_leds, connected in *. pose proof (shows_start o) as S0.
  destruct o; repeat (first [exact S0 | apply shows_open_other; [|discriminate] | apply shows_open_not; [|apply U; split; discriminate]]).
Qed.
Lemma shows_orders o l : forall p e, shows o p e ->
  shows o (fold_left obey l p) (match e with Some (m, on) => Some (m, fold_left (fun on r => match r with Set_ q => if output_eqb q o then true else on | Clear q => if output_eqb q o then false else on
                                    | Toggle q => if output_eqb q o then negb on else on end) l on) | None => None end).
Proof.
  induction l as [|r l IH]; intros p e H; cbn [fold_left]; [destruct e as [[m on]|]; exact H|].
  set (e' := match e with Some (m, on) => Some (m, match r with Set_ q => if output_eqb q o then true else on | Clear q => if output_eqb q o then false else on
                                    | Toggle q => if output_eqb q o then negb on else on end) | None => None end).
  assert (S1 : shows o (obey p r) e').
  { unfold e'. destruct r as [q|q|q]; cbn [obey].
    - pose proof (shows_set o p e q true H) as S. destruct e as [[m on]|]; exact S.
    - pose proof (shows_set o p e q false H) as S. destruct e as [[m on]|]; exact S.
    - unfold control_panel_toggle. destruct (output_eqb_spec q o) as [->|N].
      + destruct e as [[m on]|].
        * destruct H as [H1 H2]. rewrite H1. cbn [out_status]. pose proof (shows_set o p (Some (m, on)) o (negb on) (conj H1 H2)) as S. cbn beta iota in S. rewrite output_eqb_refl in S. exact S.
        * destruct H as [H1 H2]. rewrite H1. split; assumption.
      + destruct (leds p q) as [i|]; [|destruct e as [[m on]|]; exact H].
        pose proof (shows_set o p e q (negb (out_status i)) H) as S. destruct (output_eqb_spec q o); [congruence|]. destruct e as [[m on]|]; exact S. }
  specialize (IH _ _ S1). unfold e' in IH. destruct e as [[m on]|]; exact IH.
Qed.

(** C96. The last number written to a lamp's file is the one of the last orders: the highest brightness less one, or 0. *)
Theorem lamp_follows_orders flags o m l : connected o -> usable (flags o) m ->
  last_written o (written (fold_left obey l (init_leds flags panel_start))) = Some (if lamp o l then m - 1 else 0).
Proof. intros C U. pose proof (shows_orders o l _ _ (shows_init o flags m C U)) as [_ H]. exact H. Qed.
(** A lamp without files, or the yellow or green lamp, is never written. *)
Theorem lamp_missing_ignored flags o l : (connected o -> forall m, ~ usable (flags o) m) ->
  last_written o (written (fold_left obey l (init_leds flags panel_start))) = None.
Proof. intros U. pose proof (shows_orders o l _ _ (shows_init_not o flags U)) as [_ H]. exact H. Qed.
(** A lamp that can only be on or off (highest brightness 1) is never switched on. *)
Theorem lamp_on_off_refuted flags o l : connected o -> usable (flags o) 1 ->
  last_written o (written (fold_left obey (l ++ [Set_ o]) (init_leds flags panel_start))) = Some 0.
Proof. intros C U. rewrite (lamp_follows_orders flags o 1 _ C U). destruct (lamp o _); reflexivity. Qed.
(** If the highest brightness cannot be read, -1 is written. *)
Theorem lamp_unread_refuted : exists flags o, usable (flags o) 0 /\
  last_written o (written (fold_left obey [Set_ o] (init_leds flags panel_start))) = Some (-1).
Proof. exists (fun _ => Some (mkDir (Some None) true)), LED_BUS. split; [exists None; auto|reflexivity]. Qed.
Example ex_lamp : exists flags, connected LED_READY /\ usable (flags LED_READY) 255 /\
  last_written LED_READY (written (fold_left obey [Set_ LED_READY; Toggle LED_COMM; Toggle LED_READY; Toggle LED_READY] (init_leds flags panel_start))) = Some 254.
Proof. exists (fun _ => Some (mkDir (Some (Some 255)) true)). split; [split; discriminate|]. split; [exists (Some 255); auto|reflexivity]. Qed.

(** ** Inputs *)
Lemma perm_obtain n l : Permutation (seq 0 n) l -> Permutation (seq 0 (S n)) (n :: l).
Proof. intro H. rewrite seq_S. cbn [plus]. rewrite <- Permutation_cons_append. now constructor. Qed.
Lemma held_set w n g b : exists l, Permutation (held w) (handles (inputs w n) ++ l) /\
  Permutation (held (mkWorld (obtained w) b (fun i => if input_eqb i n then Some g else inputs w i))) (handles (Some g) ++ l).
Proof.
  unfold held. destruct n; cbn [inputs input_eqb].
  - exists (handles (inputs w BUTTON_GREEN) ++ handles (inputs w STARTER)). split; reflexivity.
  - exists (handles (inputs w BUTTON_YELLOW) ++ handles (inputs w STARTER)). split; apply Permutation_app_swap_app.
  - exists (handles (inputs w BUTTON_YELLOW) ++ handles (inputs w BUTTON_GREEN)). split; rewrite app_assoc; apply Permutation_app_comm.
Qed.
Lemma destroy_eq w g : gpio_destroy w g = mkWorld (obtained w) (returned w ++ (match line g with Some l => [l] | None => [] end) ++ (match chip g with Some l => [l] | None => [] end)) (inputs w).
Proof. unfold gpio_destroy, give_back. destruct w as [n r i], g as [[c|] [h|]]; cbn; rewrite ?app_nil_r, <- ?app_assoc; reflexivity. Qed.
(** What an opening does. *)
Lemma open_input_eq w n a : open_input w n (Some a) =
  if works a then
    mkWorld (S (S (obtained w))) (returned w ++ match inputs w n with Some g => (match line g with Some l => [l] | None => [] end) ++ (match chip g with Some l => [l] | None => [] end) | None => [] end)
      (fun i => if input_eqb i n then Some (mkGpio (Some (obtained w)) (Some (S (obtained w)))) else inputs w i)
  else if negb (chip_opens a) then w
  else if negb (line_found a) then mkWorld (S (obtained w)) (returned w ++ [obtained w]) (inputs w)
  else mkWorld (S (S (obtained w))) (returned w ++ [S (obtained w); obtained w]) (inputs w).
Proof.
  unfold open_input, gpio_open, works, obtain, gpio_move_construct, gpio_move_assign. destruct a as [[|] [|] [|]]; cbn [chip_opens line_found line_input negb andb];
    rewrite ?destroy_eq; cbn [obtained returned inputs chip line gpio_default app]; rewrite ?app_nil_r; try reflexivity.
  - destruct (inputs w n) as [[c h]|]; cbn [chip line gpio_default]; rewrite ?app_nil_r; reflexivity.
  - destruct w; reflexivity.
  - destruct w; reflexivity.
  - destruct w; reflexivity.
  - destruct w; reflexivity.
Qed.
(** C96. Every handle obtained from the library is either held by one input or was given back, once. *)
Theorem handles_once l : let w := opening l in Permutation (seq 0 (obtained w)) (held w ++ returned w).
Proof.
  cbv zeta. unfold opening. rewrite <- fold_left_rev_right. induction (rev l) as [|[n f] r IH]; [constructor|]. cbn [fold_right fst snd].
  set (w := fold_right _ _ r) in *. clearbody w. destruct f as [a|]; [|exact IH]. rewrite open_input_eq. destruct (works a).
  - cbn [obtained returned]. match goal with |- Permutation _ (held (mkWorld _ ?b (fun i => if input_eqb i n then Some ?g else _)) ++ _) => destruct (held_set w n g b) as (r' & P1 & P2); set (H' := held (mkWorld _ _ _)); assert (P3 : Permutation H' (handles (Some g) ++ r')) by exact P2 end.
    rewrite P3. rewrite P1 in IH. cbn [handles chip line app].
    transitivity (S (obtained w) :: obtained w :: ((handles (inputs w n) ++ r') ++ returned w)); [apply perm_obtain, perm_obtain, IH|].
    rewrite perm_swap. do 2 apply perm_skip. rewrite (Permutation_app_comm (handles _) r'), <- app_assoc. apply Permutation_app_head.
    rewrite Permutation_app_comm. apply Permutation_app_head.
    destruct (inputs w n) as [[[c|] [h|]]|]; cbn [handles chip line app]; try constructor; constructor.
  - destruct (negb (chip_opens a)); [exact IH|]. destruct (negb (line_found a)); cbn [obtained returned].
    + change (held (mkWorld _ _ _)) with (held w). rewrite app_assoc, <- Permutation_cons_append. apply perm_obtain, IH.
    + change (held (mkWorld _ _ _)) with (held w). rewrite app_assoc. rewrite Permutation_app_comm. cbn [app]. apply perm_obtain, perm_obtain, IH.
Qed.
(** An input reads the line that was opened for it last; opening another input does not change it; without a line it reads false. *)
Theorem input_reads l n a l' level : works a = true -> (forall x, In x l' -> fst x <> n) ->
  control_panel_read (opening (l ++ (n, Some a) :: l')) level n = (level (S (obtained (opening l))) =? 1).
Proof.
  intros W N. unfold opening. rewrite fold_left_app. cbn [fold_left fst snd]. set (w := fold_left _ l world_start).
  assert (E : inputs (fold_left (fun w x => open_input w (fst x) (snd x)) l' (open_input w n (Some a))) n = Some (mkGpio (Some (obtained w)) (Some (S (obtained w))))).
  { assert (E0 : inputs (open_input w n (Some a)) n = Some (mkGpio (Some (obtained w)) (Some (S (obtained w))))).
    { rewrite open_input_eq, W. cbn [inputs]. destruct n; reflexivity. }
    revert E0. generalize (open_input w n (Some a)). induction l' as [|[q f] l' IH]; intros v E0; [exact E0|]. cbn [fold_left fst snd].
    apply IH; [intros x I; apply N; right; exact I|]. destruct f as [b|]; [|exact E0]. rewrite open_input_eq.
    assert (Q : input_eqb n q = false) by (specialize (N _ (or_introl eq_refl)); destruct n, q; cbn in *; congruence).
    destruct (works b); [cbn [inputs]; rewrite Q; exact E0|]. destruct (negb (chip_opens b)); [exact E0|]. destruct (negb (line_found b)); exact E0. }
  unfold control_panel_read. rewrite E. reflexivity.
Qed.
Theorem input_missing l n level : (forall a, In (n, Some a) l -> works a = false) -> control_panel_read (opening l) level n = false.
Proof.
  intro H. assert (E : inputs (opening l) n = None).
  { unfold opening. rewrite <- fold_left_rev_right. assert (H' : forall a, In (n, Some a) (rev l) -> works a = false) by (intros a I; apply H, in_rev, I).
    induction (rev l) as [|[q f] r IH]; [reflexivity|]. cbn [fold_right fst snd]. set (w := fold_right _ _ r) in *.
    assert (I : inputs w n = None) by (apply IH; intros a J; apply H'; right; exact J). destruct f as [b|]; [|exact I]. rewrite open_input_eq.
    destruct (works b) eqn:W; [|destruct (negb (chip_opens b)); [exact I|]; destruct (negb (line_found b)); exact I].
    cbn [inputs]. destruct (input_eqb n q) eqn:Q; [|exact I].
    assert (n = q) as -> by (destruct n, q; cbn in Q; congruence). rewrite (H' b) in W; [discriminate|left; reflexivity]. }
  unfold control_panel_read. rewrite E. reflexivity.
Qed.
Example ex_inputs : let l := [(STARTER, Some (mkAnswer true true true)); (BUTTON_YELLOW, Some (mkAnswer true false true)); (STARTER, Some (mkAnswer true true true))] in
  held (opening l) = [3%nat; 4%nat] /\ returned (opening l) = [2%nat; 1%nat; 0%nat].
Proof. split; reflexivity. Qed.

(** ** The starter *)
Lemma arming_falses n : forall ms p, exists q, fold_left starter_step (repeat false n) (Arming ms, p) = (Arming (ms + 10 * Z.of_nat n), q).
Proof.
  induction n as [|n IH]; intros ms p; [exists p; cbn [repeat fold_left]; do 2 f_equal; lia|]. cbn [repeat fold_left starter_step].
  destruct (IH (ms + 10) (if STARTER_MIN_ARMED_TIME_MS <=? ms + 10 then control_panel_set p LED_READY else p)) as [q E]. rewrite E. exists q. do 2 f_equal. lia.
Qed.
Lemma go_stays l : forall p, fold_left starter_step l (Go, p) = (Go, p).
Proof. induction l as [|r l IH]; intro p; [reflexivity|apply IH]. Qed.
(** Where the function is, from the readings. *)
Definition starter_inv (l : list bool) (st : starter) : Prop :=
  match st with
  | Released => True
  | Arming ms => 0 <= ms /\ exists p n, l = p ++ repeat false n /\ ms = 10 * (Z.of_nat n - 1)
  | Go => exists p n s, l = p ++ repeat false n ++ true :: s /\ (101 <= n)%nat
  end.
Lemma repeat_snoc {A} (x : A) n : repeat x n ++ [x] = repeat x (S n).
Proof. cbn. induction n as [|n IH]; [reflexivity|]. cbn. now rewrite IH. Qed.
Lemma starter_inv_run p l : starter_inv l (fst (fold_left starter_step l (Released, p))).
Proof.
  induction l as [|r l IH] using rev_ind; [exact I|]. rewrite fold_left_app. cbn [fold_left]. destruct (fold_left starter_step l (Released, p)) as [st q]. cbn [fst] in *.
  destruct st as [|ms|]; cbn [starter_step].
  - destruct r; cbn [fst starter_inv]; [exact I|]. split; [lia|]. exists l, 1%nat. split; reflexivity.
  - destruct IH as [Hm (pre & n & E & M)]. destruct r; cbn [fst].
    + destruct (STARTER_MIN_ARMED_TIME_MS <=? ms) eqn:T; [|exact I]. apply Z.leb_le in T. unfold STARTER_MIN_ARMED_TIME_MS in T. exists pre, n, []. split; [rewrite E, <- app_assoc; reflexivity|lia].
    + split; [lia|]. exists pre, (S n). split; [rewrite E, <- app_assoc, repeat_snoc; reflexivity|lia].
  - destruct IH as (pre & n & s & E & M). exists pre, n, (s ++ [r]). split; [rewrite E, <- !app_assoc; reflexivity|exact M].
Qed.
(** C96. The match starts exactly when the starter is released after it was seen in place 101 times in a row (one second). *)
Theorem starter_exact p l : fst (wait_for_starter p l) = Go <-> exists pre n post, l = pre ++ repeat false n ++ true :: post /\ (101 <= n)%nat.
Proof.
  unfold wait_for_starter. set (q := control_panel_clear p LED_READY). split.
  - intro H. pose proof (starter_inv_run q l) as I. rewrite H in I. exact I.
  - intros (pre & n & post & -> & N). pose proof (starter_inv_run q pre) as I. rewrite fold_left_app. destruct (fold_left starter_step pre (Released, q)) as [st p1].
    cbn [fst] in I. rewrite fold_left_app. cbn [fold_left].
    assert (A : st = Go \/ exists ms p2, fold_left starter_step (repeat false n) (st, p1) = (Arming ms, p2) /\ 10 * (Z.of_nat n - 1) <= ms).
    { destruct st as [|ms|]; [right|right|left; reflexivity].
      - destruct n as [|n]; [lia|]. cbn [repeat fold_left starter_step]. destruct (arming_falses n 0 p1) as [p2 E]. rewrite E. eexists _, _. split; [reflexivity|lia].
      - destruct I as [I _]. destruct (arming_falses n ms p1) as [p2 E]. rewrite E. eexists _, _. split; [reflexivity|lia]. }
    destruct A as [-> | (ms & p2 & E & M)]; [rewrite go_stays; cbn [starter_step]; rewrite go_stays; reflexivity|].
    rewrite E. cbn [starter_step]. unfold STARTER_MIN_ARMED_TIME_MS. rewrite (proj2 (Z.leb_le 1000 ms)) by lia. rewrite go_stays. reflexivity.
Qed.
Lemma shows_starter m l : forall st p, shows LED_READY p (Some (m, armed st)) ->
  shows LED_READY (snd (fold_left starter_step l (st, p))) (Some (m, armed (fst (fold_left starter_step l (st, p))))).
Proof.
  induction l as [|r l IH]; intros st p H; [exact H|]. cbn [fold_left]. destruct st as [|ms|]; cbn [starter_step].
  - destruct r; apply IH; exact H.
  - unfold STARTER_MIN_ARMED_TIME_MS. cbn [armed] in H. destruct r; apply IH.
    + destruct (1000 <=? ms); exact H.
    + cbn [armed]. destruct (1000 <=? ms + 10) eqn:T.
      * exact (shows_set LED_READY p _ LED_READY true H).
      * destruct (1000 <=? ms) eqn:T'; [|exact H]. apply Z.leb_le in T'. apply Z.leb_gt in T. lia.
  - apply IH, H.
Qed.
(** The lamp LED_READY is on exactly while the starter is armed, if nothing else switches it. *)
Theorem starter_lamp flags m l0 l : usable (flags LED_READY) m ->
  let r := wait_for_starter (fold_left obey l0 (init_leds flags panel_start)) l in
  last_written LED_READY (written (snd r)) = Some (if armed (fst r) then m - 1 else 0).
Proof.
  intros U. cbv zeta. unfold wait_for_starter. pose proof (shows_orders LED_READY l0 _ _ (shows_init LED_READY flags m ltac:(split; discriminate) U)) as H. cbn beta iota in H.
  pose proof (shows_set LED_READY _ _ LED_READY false H) as H'. cbn beta iota in H'. change (output_eqb LED_READY LED_READY) with true in H'. cbn iota in H'.
  exact (proj2 (shows_starter m l Released _ H')).
Qed.
(** Without a starter input the match never starts. *)
Theorem starter_missing_refuted l0 p n level : (forall a, In (STARTER, Some a) l0 -> works a = false) ->
  fst (wait_for_starter p (repeat (control_panel_read (opening l0) level STARTER) n)) <> Go.
Proof.
  intros H G. rewrite (input_missing l0 STARTER level H) in G. apply starter_exact in G as (pre & k & post & E & _).
  assert (I : In true (repeat false n)) by (rewrite E; apply in_or_app; right; apply in_or_app; right; left; reflexivity). apply repeat_spec in I. discriminate.
Qed.
(** Choosing a colour never ends: the buttons are never seen pressed. *)
Theorem color_never_refuted fuel p : wait_for_color_selection fuel p = None.
Proof. revert p. induction fuel as [|f IH]; intro p; [reflexivity|]. cbn [wait_for_color_selection control_panel_button_is_pressed negb andb]. apply IH. Qed.
Example ex_starter : fst (wait_for_starter panel_start (true :: repeat false 50 ++ true :: repeat false 101 ++ [true])) = Go /\
  fst (wait_for_starter panel_start (true :: repeat false 100 ++ [true])) = Released.
Proof. split; vm_compute; reflexivity. Qed.
Print Assumptions lamp_follows_orders.
Print Assumptions lamp_missing_ignored.
Print Assumptions lamp_on_off_refuted.
Print Assumptions lamp_unread_refuted.
Print Assumptions handles_once.
Print Assumptions input_reads.
Print Assumptions input_missing.
Print Assumptions starter_exact.
Print Assumptions starter_lamp.
Print Assumptions starter_missing_refuted.
Print Assumptions color_never_refuted.
