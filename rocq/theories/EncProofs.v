(** Proofs about the encoder, divider, blocking detection and wheel/polar model. *)
From Coq Require Import ZArith List Bool QArith Lia ZifyBool.
From Verif Require Import CBase CRes EncModel EncSpec.
Import ListNotations.
Local Open Scope Z_scope.
Ltac Zify.zify_post_hook ::= Z.to_euclidean_division_equations.

(** ** Wheel encoders *)
Lemma tick_diff_spec x y : Z.abs (y - x) < 2 ^ 15 -> encoder_tick_diff (shows x) (shows y) = y - x.
Proof.
  intro H. unfold encoder_tick_diff, shows, u32, s32, uN, sN.
  change (2 ^ 15) with 32768 in H. change (2 ^ 16) with 65536. change (2 ^ 32) with 4294967296. change (2 ^ (32 - 1)) with 2147483648.
  pose proof (Z.mod_pos_bound x 65536 ltac:(lia)) as Hx. pose proof (Z.mod_pos_bound y 65536 ltac:(lia)) as Hy.
  pose proof (Z.div_mod x 65536 ltac:(lia)) as Ex. pose proof (Z.div_mod y 65536 ltac:(lia)) as Ey.
  set (a := x mod 65536) in *. set (b := y mod 65536) in *. set (qx := x / 65536) in *. set (qy := y / 65536) in *.
  clearbody a b qx qy.
  assert (Q : qy = qx \/ qy = qx + 1 \/ qy = qx - 1) by lia.
  destruct (a <? b) eqn:E1; [|destruct (b <? a) eqn:E2].
  - rewrite (Z.mod_small (b - a)) by lia. destruct (b - a <=? 32767) eqn:E3.
    + rewrite Z.mod_small by lia. lia.
    + rewrite (Z.mod_small (65535 + 1 - (b - a))) by lia.
      replace (- (65535 + 1 - (b - a))) with (b - a - 65536) by lia.
      replace ((b - a - 65536) mod 4294967296) with (b - a - 65536 + 4294967296)
        by (apply (Z.mod_unique_pos _ _ (-1)); lia).
      replace (b - a - 65536 + 4294967296 + 2147483648) with (b - a - 65536 + 2147483648 + 1 * 4294967296) by lia.
      rewrite Z.mod_add, Z.mod_small by lia. lia.
  - rewrite (Z.mod_small (a - b)) by lia. destruct (a - b <=? 32767) eqn:E3.
    + replace (- (a - b)) with (b - a) by lia.
      replace ((b - a) mod 4294967296) with (b - a + 4294967296) by (apply (Z.mod_unique_pos _ _ (-1)); lia).
      replace (b - a + 4294967296 + 2147483648) with (b - a + 2147483648 + 1 * 4294967296) by lia.
      rewrite Z.mod_add, Z.mod_small by lia. lia.
    + rewrite (Z.mod_small (65535 + 1 - (a - b))) by lia. rewrite Z.mod_small by lia. lia.
  - lia.
Qed.

Lemma encoder_reads_spec xs : forall x v v0,
  slow (2 ^ 15) x xs -> within (- 2 ^ 31) (2 ^ 31 - 1) (map (fun y => v + (y - x)) xs) ->
  encoder_reads (mkWheel (shows x) v) (map shows xs) v0 =
    OK (mkWheel (shows (last_pos x xs)) (v + (last_pos x xs - x)), match xs with [] => v0 | _ => v + (last_pos x xs - x) end).
Proof.
  induction xs as [|y xs IH]; intros x v v0 S W; cbn [map encoder_reads last_pos].
  - do 3 f_equal. lia.
  - destruct S as [S1 S2]. inversion W as [|z l W1 W2]; subst.
    unfold encoder_get. cbn [w_prev w_value]. rewrite tick_diff_spec by exact S1.
    rewrite int_ok by lia. cbn [rbind]. rewrite IH; [|exact S2|].
    + cbn [rbind]. replace (v + (y - x) + (last_pos y xs - y)) with (v + (last_pos y xs - x)) by lia. destruct xs; reflexivity.
    + clear - W2. unfold within in *. rewrite Forall_forall in *. intros z H. apply W2.
      apply in_map_iff in H as (t & <- & H). apply in_map_iff. exists t. split; auto. lia.
Qed.

(** ** Motor feedback *)
Lemma s16_diff x y : Z.abs (y - x) < 2 ^ 15 -> s16 (shows y - shows x) = y - x.
Proof.
  intro H. unfold s16, shows. rewrite <- (sN_id 16 (y - x)) by (cbn; lia). apply sN_mod; [lia|].
  change (2 ^ 16) with 65536. rewrite Zminus_mod_idemp_l, Zminus_mod_idemp_r. reflexivity.
Qed.

Lemma s32_u32 x : s32 (u32 x) = s32 x.
Proof. unfold s32, u32, uN. apply sN_mod; [lia|]. apply Z.mod_mod. lia. Qed.
Lemma s32_id x : - 2 ^ 31 <= x < 2 ^ 31 -> s32 x = x.
Proof. intro. apply sN_id; cbn in *; lia. Qed.

Lemma overflow_spec acc t q : 0 < t -> 0 < q -> t * q <= 2 ^ 30 -> - (t * q) <= acc < 2 * (t * q) ->
  exists k, periodic_accumulator_overflow acc t q = OK (acc - k * (t * q)) /\ 0 <= acc - k * (t * q) < t * q.
Proof.
  intros T Q P A. unfold periodic_accumulator_overflow.
  assert (T' : t <= t * q) by nia.
  rewrite (s32_id t) by lia. rewrite int_ok by lia. cbn [rbind].
  assert (U : u32 (t * q) = t * q) by (apply uN_id; lia).
  destruct (t * q <=? acc) eqn:E1; [|destruct (acc <? 0) eqn:E2].
  - exists 1. split; [|lia]. rewrite U. f_equal. rewrite s32_u32. rewrite <- (s32_id (acc - 1 * (t * q))) by lia.
    apply sN_mod; [lia|]. unfold u32, uN. rewrite Zminus_mod_idemp_l. f_equal. lia.
  - exists (-1). split; [|lia]. rewrite U. f_equal. rewrite s32_u32. rewrite <- (s32_id (acc - -1 * (t * q))) by lia.
    apply sN_mod; [lia|]. unfold u32, uN. rewrite Zplus_mod_idemp_l. f_equal. lia.
  - exists 0. split; [f_equal|]; lia.
Qed.

(** Well-formed configuration of a periodic axis. *)
Record good (e : encoder_s) := {
  g_p : 0 <= transmission_p e < 2 ^ 16; g_q : 0 < transmission_q e < 2 ^ 16; g_t : 0 < ticks_per_rev e;
  g_period : ticks_per_rev e * transmission_q e <= 2 ^ 30;
  g_acc : 0 <= accumulator e < ticks_per_rev e * transmission_q e }.

Lemma accumulate_spec e x y : good e -> previous e = shows x -> Z.abs (y - x) < 2 ^ 15 ->
  Z.abs (y - x) * transmission_p e <= ticks_per_rev e * transmission_q e ->
  exists k, let acc := accumulator e + transmission_p e * (y - x) - k * (ticks_per_rev e * transmission_q e) in
    accumulate_periodic e (shows y) = OK (enc_set e acc (shows y), (y - x) * transmission_p e) /\
    0 <= acc < ticks_per_rev e * transmission_q e.
Proof.
  intros [P Q T PE A] E S F. cbv zeta. unfold accumulate_periodic, compute_delta_accumulator_periodic.
  rewrite E, s16_diff by exact S. set (d := y - x) in *.
  assert (D : - (ticks_per_rev e * transmission_q e) <= d * transmission_p e <= ticks_per_rev e * transmission_q e) by nia.
  rewrite int_ok by lia. cbn [rbind]. rewrite int_ok by lia. cbn [rbind].
  destruct (overflow_spec (accumulator e + d * transmission_p e) (ticks_per_rev e) (transmission_q e)) as (k & -> & R); try lia.
  exists k. cbn [rbind]. split; [do 3 f_equal|]; lia.
Qed.

Lemma good_set e acc prev : good e -> 0 <= acc < ticks_per_rev e * transmission_q e -> good (enc_set e acc prev).
Proof. intros [P Q T PE A] H. constructor; cbn; auto. Qed.

(** ** Stream divider *)
Lemma nearest_nearbyint x : nearest (nearbyint x) x.
Proof.
  destruct x as [n d]. unfold nearest, nearbyint. cbn [Qnum Qden].
  pose proof (Z.mod_pos_bound n (Z.pos d) ltac:(lia)) as B. pose proof (Z.div_mod n (Z.pos d) ltac:(lia)) as E.
  set (f := n / Z.pos d) in *. set (r := n mod Z.pos d) in *. clearbody f r.
  unfold Qlt, Qeq, Qminus, Qplus, Qopp, inject_Z. cbn [Qnum Qden].
  destruct (2 * r <? Z.pos d) eqn:E1; [|destruct (Z.pos d <? 2 * r) eqn:E2; [|destruct (Z.even f) eqn:E3]].
  - left. split; rewrite ?Pos2Z.inj_mul; nia.
  - left. split; rewrite ?Pos2Z.inj_mul; nia.
  - right. split; [left; rewrite ?Pos2Z.inj_mul; nia|]. now apply Z.even_spec.
  - right. split; [right; rewrite ?Pos2Z.inj_mul; nia|]. apply Z.even_spec.
    rewrite Z.even_add. rewrite E3. reflexivity.
Qed.
Lemma nearest_unique n m x : nearest n x -> nearest m x -> n = m.
Proof.
  destruct x as [a d]. unfold nearest, Qlt, Qeq, Qminus, Qplus, Qopp, inject_Z. cbn [Qnum Qden].
  rewrite ?Pos2Z.inj_mul. generalize (Z.pos d) (Pos2Z.is_pos d). clear d. intros d D H1 H2.
  assert (B1 : d * (2 * n - 1) <= 2 * a <= d * (2 * n + 1)) by (destruct H1 as [[? ?]|[[?|?] ?]]; nia).
  assert (B2 : d * (2 * m - 1) <= 2 * a <= d * (2 * m + 1)) by (destruct H2 as [[? ?]|[[?|?] ?]]; nia).
  assert (C : n = m \/ n = m + 1 \/ m = n + 1) by nia.
  destruct C as [C|[C|C]]; auto; exfalso; subst.
  - assert (EQ : 2 * a = d * (2 * m + 1)) by nia.
    destruct H1 as [[? ?]|[_ [i I]]]; [nia|]. destruct H2 as [[? ?]|[_ [j J]]]; [nia|]. lia.
  - assert (EQ : 2 * a = d * (2 * n + 1)) by nia.
    destruct H1 as [[? ?]|[_ [i I]]]; [nia|]. destruct H2 as [[? ?]|[_ [j J]]]; [nia|]. lia.
Qed.

Inductive sop := OpFrequency (frequency spin : Q) | OpEnable (b : bool) | OpUpdate.
Definition stream_op (s : stream_config) (o : sop) : res stream_config :=
  match o with
  | OpFrequency f spin => stream_set_prescaler s f spin
  | OpEnable b => OK (stream_enable s b)
  | OpUpdate => OK (fst (stream_should_send s))
  end.
Fixpoint stream_ops (s : stream_config) (l : list sop) : res stream_config :=
  match l with [] => OK s | o :: l => try s := stream_op s o in stream_ops s l end.
(** The events of the specification for the calls: the prescaler is the ratio of the frequencies, rounded. *)
Inductive means : sop -> sev -> Prop :=
| m_freq f spin n : ~ (f == 0)%Q -> nearest n (spin / f) -> means (OpFrequency f spin) (SetPrescaler n)
| m_enable b : means (OpEnable b) (Enable b)
| m_update : means OpUpdate Update.
Definition usable (e : sev) : Prop := match e with SetPrescaler n => 1 <= n < 65536 | _ => True end.

Definition sinv (s : stream_config) (n : Z) (b : bool) (k : Z) : Prop :=
  enabled s = b /\ prescaler s = n /\ 1 <= n < 65536 /\ 0 <= k /\ counter s = n - k mod n.

Lemma mod_succ k n : 1 <= n -> 0 <= k -> (k + 1) mod n = if k mod n + 1 =? n then 0 else k mod n + 1.
Proof.
  intros N K. pose proof (Z.mod_pos_bound k n ltac:(lia)). pose proof (Z.div_mod k n ltac:(lia)).
  destruct (k mod n + 1 =? n) eqn:E.
  - symmetry. apply (Z.mod_unique_pos _ _ (k / n + 1)); lia.
  - symmetry. apply (Z.mod_unique_pos _ _ (k / n)); lia.
Qed.

Lemma should_send_inv s n b k : sinv s n b k ->
  sinv (fst (stream_should_send s)) n b (if b then k + 1 else k) /\
  (snd (stream_should_send s) = true <-> b = true /\ (k + 1) mod n = 0).
Proof.
  intros (E1 & E2 & N & K & C). unfold stream_should_send. rewrite E1. destruct b; cbn [fst snd].
  2: { split; [repeat split; auto; lia|]. split; [discriminate|intros [? _]; discriminate]. }
  pose proof (Z.mod_pos_bound k n ltac:(lia)) as B.
  unfold u16. rewrite uN_id by lia. pose proof (mod_succ k n ltac:(lia) K) as M.
  destruct (counter s - 1 =? 0) eqn:E; cbn [fst snd]; destruct (k mod n + 1 =? n) eqn:E'; try lia;
    (split; [unfold sinv; cbn [enabled prescaler counter]; repeat split; auto; lia|]).
  - split; auto.
  - split; [discriminate|]. intros [_ H]. lia.
Qed.

Lemma stream_ops_inv l : forall evs s n b k, Forall2 means l evs -> Forall usable evs -> sinv s n b k ->
  exists s', stream_ops s l = OK s' /\ sinv s' (prescaler_after n evs) (enabled_after b evs) (ticks b k evs).
Proof.
  induction l as [|o l IH]; intros evs s n b k M U I; inversion M as [|? e ? evs' M1 M2]; subst; cbn [stream_ops prescaler_after enabled_after ticks].
  - eauto.
  - inversion U as [|? ? U1 U2]; subst. inversion M1; subst; cbn [stream_op].
    + unfold stream_set_prescaler. replace (Qeq_bool f 0) with false.
      2: { symmetry. apply not_true_is_false. intro E. apply Qeq_bool_iff in E. contradiction. }
      rewrite (nearest_unique _ _ _ (nearest_nearbyint (spin / f)) H0). cbn [usable] in U1.
      replace ((0 <=? n0) && (n0 <? 65536)) with true by lia. cbn [rbind].
      apply IH; auto. destruct I as (I1 & _). unfold sinv. cbn [enabled prescaler counter]. rewrite Z.mod_0_l by lia.
      repeat split; auto; lia.
    + cbn [rbind]. apply IH; auto. destruct I as (I1 & I2 & I3). unfold sinv, stream_enable. cbn [enabled prescaler counter]. auto.
    + cbn [rbind]. apply IH; auto. apply should_send_inv. exact I.
Qed.

(** ** Blocking detection *)
Definition bd_op (b : bd) (e : bev) : bd :=
  match e with Thresholds er c => bd_set_thresholds b er c | Manage er => bd_manage b er | Reset => bd_reset b | GetMax => fst (bd_get_max b) end.
Definition bd_run (h : list bev) : bd := fold_left bd_op h bd_init.
Lemma bd_run_snoc h e : bd_run (h ++ [e]) = bd_op (bd_run h) e.
Proof. unfold bd_run. now rewrite fold_left_app. Qed.
Lemma thresholds_snoc h e : forall t, thresholds t (h ++ [e]) = match e with Thresholds er c => (er, c) | _ => thresholds t h end.
Proof. induction h as [|x h IH]; intro t; [destruct e; reflexivity|]. cbn [app thresholds]. destruct x; rewrite IH; reflexivity. Qed.
Lemma bd_thresholds h : err_thres (bd_run h) = fst (thresholds (0, 0) h) /\ cpt_thres (bd_run h) = snd (thresholds (0, 0) h).
Proof.
  induction h as [|e h [IH1 IH2]] using rev_ind; [split; reflexivity|]. rewrite bd_run_snoc, thresholds_snoc.
  destruct e; cbn; auto. unfold bd_manage. destruct (_ =? 0); cbn; auto.
Qed.

(** Length of the current run of exceeding updates. *)
Definition run_op (h : list bev) (r : nat) (e : bev) : nat :=
  match e with
  | Manage err => let t := fst (thresholds (0, 0) h) in if t =? 0 then r else if t <? err then S r else O
  | Reset => O | _ => r end.
Inductive runs : list bev -> nat -> Prop :=
| runs_nil : runs [] 0
| runs_snoc h r e : runs h r -> runs (h ++ [e]) (run_op h r e).
Lemma runs_ex h : exists r, runs h r.
Proof. induction h as [|e h [r IH]] using rev_ind; eexists; [constructor|constructor; exact IH]. Qed.

Lemma exceeded_snoc_inv h e n : exceeded (h ++ [e]) n -> n = O \/
  match e with
  | Manage err => let t := fst (thresholds (0, 0) h) in (t = 0 /\ exceeded h n) \/ (t <> 0 /\ t < err /\ exists m, n = S m /\ exceeded h m)
  | Reset => False | _ => exceeded h n end.
Proof.
  intro H. inversion H as [|h' err m T L X E|h' err m T X E|h' a c m X E|h' m X E]; subst; auto; apply app_inj_tail in E as [-> <-]; right; cbv zeta; eauto 8.
Qed.
Lemma exceeded_runs h r : runs h r -> forall n, exceeded h n <-> (n <= r)%nat.
Proof.
  induction 1 as [|h r e R IH]; intro n.
  - split; [|intro; replace n with O by lia; constructor]. intro H. inversion H; subst; try lia; destruct h; discriminate.
  - split.
    + intro H. apply exceeded_snoc_inv in H as [->|H]; [lia|]. destruct e; cbn [run_op] in *; try (now apply IH); try contradiction.
      cbv zeta in *. destruct H as [[-> X]|(T & L & m & -> & X)].
      * now apply IH.
      * apply IH in X. replace (_ =? 0) with false by lia. replace (_ <? err) with true by lia. lia.
    + destruct n as [|n]; [constructor|]. destruct e; cbn [run_op]; cbv zeta; intro L.
      * constructor. now apply IH.
      * destruct (_ =? 0) eqn:E1; [apply ex_off; [lia|now apply IH]|]. destruct (_ <? err) eqn:E2; [|lia].
        apply ex_more; [lia..|]. apply IH. lia.
      * lia.
      * apply ex_getmax. now apply IH.
Qed.
Lemma bd_cpt h r : runs h r -> cpt (bd_run h) = Z.of_nat r mod 65536.
Proof.
  induction 1 as [|h r e R IH]; [reflexivity|]. rewrite bd_run_snoc. destruct e; cbn [bd_op run_op]; auto.
  unfold bd_manage. destruct (bd_thresholds h) as [-> _]. cbv zeta. destruct (_ =? 0); auto. cbn [cpt]. destruct (_ <? err); [|reflexivity].
  rewrite IH. unfold u16, uN. change (2 ^ 16) with 65536. rewrite Nat2Z.inj_succ, Zplus_mod_idemp_l. reflexivity.
Qed.

(** ** Largest error *)
Lemma seen_snoc h e x : seen (h ++ [e]) x <-> (exists err, e = Manage err /\ x = err /\ fst (thresholds (0, 0) h) <> 0) \/ (e <> GetMax /\ seen h x).
Proof.
  split.
  - intro H. inversion H as [h' err T E E2|h' e' err N S E E2]; subst; apply app_inj_tail in E as [-> <-]; eauto.
  - intros [(err & -> & -> & T)|[N S]]; [now apply seen_now|now apply seen_before].
Qed.
Lemma bd_max h : (forall x, seen h x -> x <= err_max (bd_run h)) /\ 0 <= err_max (bd_run h) /\
  (err_max (bd_run h) = 0 \/ seen h (err_max (bd_run h))).
Proof.
  induction h as [|e h (I1 & I2 & I3)] using rev_ind.
  - split; [|cbn; lia]. intros x H. inversion H as [h' ? ? E|h' ? ? ? ? E]; destruct h'; discriminate.
  - rewrite bd_run_snoc. destruct e; cbn [bd_op].
    + cbn [bd_set_thresholds err_max]. split; [|split; [auto|]].
      * intros x H. apply seen_snoc in H as [(? & H & _)|[_ H]]; [discriminate|auto].
      * destruct I3; auto. right. apply seen_snoc. right. split; [discriminate|auto].
    + unfold bd_manage. destruct (bd_thresholds h) as [ET _]. destruct (err_thres (bd_run h) =? 0) eqn:E.
      * split; [|split; [auto|]].
        -- intros x H. apply seen_snoc in H as [(? & _ & _ & H)|[_ H]]; [lia|auto].
        -- destruct I3; auto. right. apply seen_snoc. right. split; [discriminate|auto].
      * cbn [err_max]. split; [|split].
        -- intros x H. apply seen_snoc in H as [(y & [=->] & -> & _)|[_ H]]; [|apply I1 in H]; destruct (_ <? _) eqn:L; lia.
        -- destruct (_ <? _) eqn:L; lia.
        -- destruct (_ <? _) eqn:L.
           ++ right. apply seen_snoc. left. exists err. repeat split; auto. lia.
           ++ destruct I3; auto. right. apply seen_snoc. right. split; [discriminate|auto].
    + cbn [bd_reset err_max]. split; [|split; [auto|]].
      * intros x H. apply seen_snoc in H as [(? & H & _)|[_ H]]; [discriminate|auto].
      * destruct I3; auto. right. apply seen_snoc. right. split; [discriminate|auto].
    + cbn. split; [|lia]. intros x H. apply seen_snoc in H as [(? & H & _)|[H _]]; [discriminate|congruence].
Qed.
