From Coq Require Import ZArith List Bool Lia Sorted.
From Verif Require Import CBase TimestampModel.
Import ListNotations.
Local Open Scope Z_scope.

Lemma duration_mod_l k T1 T2 : 0 < k -> - 2 ^ (k - 1) <= T2 - T1 < 2 ^ (k - 1) ->
  sN k (uN k (uN k T2 - uN k T1)) = T2 - T1.
Proof.
  intros K H. rewrite <- (sN_id k (T2 - T1)) by assumption. apply sN_mod; [lia|]. unfold uN.
  pose proof (Z.pow_pos_nonneg 2 k ltac:(lia) ltac:(lia)).
  rewrite Z.mod_mod by lia. now rewrite <- Zminus_mod.
Qed.

Lemma duration32_l T1 T2 : - 2 ^ 31 <= T2 - T1 < 2 ^ 31 ->
  timestamp_duration_us (T1 mod 2 ^ 32) (T2 mod 2 ^ 32) = T2 - T1.
Proof. intro H. apply (duration_mod_l 32); [lia|exact H]. Qed.
Lemma duration64_l T1 T2 : - 2 ^ 63 <= T2 - T1 < 2 ^ 63 ->
  ltimestamp_duration_us (T1 mod 2 ^ 64) (T2 mod 2 ^ 64) = T2 - T1.
Proof. intro H. apply (duration_mod_l 64); [lia|exact H]. Qed.

(** * STM32 *)

(** Value of the clock at tick [e]: one tick is lost per period. *)
Definition lossy (e : Z) : Z := e - e / PERIOD.

Lemma div_le_mono a b : a <= b -> a / PERIOD <= b / PERIOD.
Proof. intro. apply Z.div_le_mono; [reflexivity|assumption]. Qed.

Lemma lossy_mono a b : a <= b -> lossy a <= lossy b.
Proof.
  intro H. unfold lossy. unfold PERIOD, COUNTER_MAX in *.
  pose proof (Z.div_mod a (65535 + 1) ltac:(lia)). pose proof (Z.div_mod b (65535 + 1) ltac:(lia)).
  pose proof (Z.mod_pos_bound a (65535 + 1) ltac:(lia)). pose proof (Z.mod_pos_bound b (65535 + 1) ltac:(lia)).
  nia.
Qed.

Definition good (r : result) (e : Z) : Prop :=
  r_start r - PERIOD < e <= r_end r /\
  if r_long r then exists b, r_start r - 2 * PERIOD < b <= r_start r /\ 0 <= b /\ r_value r = lossy e - 2 ^ 32 * (lossy b / 2 ^ 32)
  else r_value r = (lossy e) mod 2 ^ 32.

(** [k]: number of interrupts served. [es]: the instants for the short results. *)
Record HI (s : hw) (k : Z) (es : list Z) : Prop := {
  hi_k : 0 <= k;
  hi_t : 0 <= ticks s;
  hi_q : ticks s / PERIOD = k + (if uif s then 1 else 0);
  hi_low : low s = (COUNTER_MAX * k) mod 2 ^ 32;
  hi_high : high s = 0;
  hi_es : Forall2 good (results s) es;
  hi_sorted : StronglySorted Z.ge es;
  hi_bound : Forall (fun e => e <= ticks s /\ e / PERIOD <= k) es;
  hi_pc : match thread s with
          | Idle => True
          | ReadLow l st t1 th =>
              th = 0 /\
              exists k1, t1 = (COUNTER_MAX * k1) mod 2 ^ 32 /\ 0 <= k1 <= k /\ st / PERIOD - 1 <= k1 <= st / PERIOD /\ st <= ticks s
                /\ Forall (fun e => e <= st /\ e / PERIOD <= k1) es
          | ReadCnt l st t1 th tim =>
              th = 0 /\
              exists k1 b, t1 = (COUNTER_MAX * k1) mod 2 ^ 32 /\ 0 <= k1 <= k /\ st / PERIOD - 1 <= k1 <= st / PERIOD /\
                st <= b <= ticks s /\ tim = b mod PERIOD
                /\ Forall (fun e => e <= st /\ e / PERIOD <= k1) es
          | Polled l st t1 th tim =>
              th = 0 /\
              exists k1 b, t1 = (COUNTER_MAX * k1) mod 2 ^ 32 /\ 0 <= k1 <= k /\ st / PERIOD - 1 <= k1 <= st / PERIOD /\
                st <= b <= ticks s /\ tim = b mod PERIOD /\ b / PERIOD <= k
                /\ Forall (fun e => e <= st /\ e / PERIOD <= k1) es
          end }.

Lemma mul_inj k1 k2 : 0 <= k2 - k1 < 2 ^ 32 ->
  (COUNTER_MAX * k1) mod 2 ^ 32 = (COUNTER_MAX * k2) mod 2 ^ 32 -> k1 = k2.
Proof.
  intros H E. assert (D : (COUNTER_MAX * (k2 - k1)) mod 2 ^ 32 = 0).
  { rewrite Z.mul_sub_distr_l. rewrite Zminus_mod, E, Z.sub_diag. reflexivity. }
  apply Z.mod_divide in D; [|lia]. unfold COUNTER_MAX in D.
  apply Z.gauss in D; [|reflexivity]. destruct D as [z D]. lia.
Qed.

Lemma tick_div n : 0 <= n -> (n + 1) / PERIOD = n / PERIOD + (if (n + 1) mod PERIOD =? 0 then 1 else 0).
Proof.
  intro H. unfold PERIOD, COUNTER_MAX. pose proof (Z.div_mod n (65535 + 1) ltac:(lia)).
  pose proof (Z.mod_pos_bound n (65535 + 1) ltac:(lia)). pose proof (Z.div_mod (n + 1) (65535 + 1) ltac:(lia)).
  pose proof (Z.mod_pos_bound (n + 1) (65535 + 1) ltac:(lia)).
  destruct (Z.eqb_spec ((n + 1) mod (65535 + 1)) 0); nia.
Qed.

Lemma Forall_weaken (A : Type) (P Q : A -> Prop) l : (forall x, P x -> Q x) -> Forall P l -> Forall Q l.
Proof. intros H F. eapply Forall_impl; eauto. Qed.

Ltac proj := cbn [ticks uif overrun low high thread results].

Lemma lossy_period k : lossy (k * PERIOD) = COUNTER_MAX * k.
Proof. unfold lossy. rewrite Z.div_mul by (unfold PERIOD, COUNTER_MAX; lia). unfold PERIOD. lia. Qed.
Lemma return_same_short t th b : ts_return false (t mod 2 ^ 32) th (b mod PERIOD) (t mod 2 ^ 32) = (t + b mod PERIOD) mod 2 ^ 32.
Proof. unfold ts_return. rewrite Z.eqb_refl. cbn [negb]. unfold u32, uN. now rewrite Zplus_mod_idemp_l. Qed.
Lemma return_same_long t b : ts_return true (t mod 2 ^ 32) 0 (b mod PERIOD) (t mod 2 ^ 32) = t + b mod PERIOD - 2 ^ 32 * (t / 2 ^ 32).
Proof.
  unfold ts_return. rewrite Z.eqb_refl. cbn [negb]. unfold u64, uN. pose proof (Z.mod_pos_bound t (2 ^ 32) ltac:(lia)).
  pose proof (Z.mod_pos_bound b PERIOD ltac:(unfold PERIOD, COUNTER_MAX; lia)). pose proof (Z.div_mod t (2 ^ 32) ltac:(lia)).
  unfold PERIOD, COUNTER_MAX in *. rewrite Z.mod_small; lia.
Qed.
Lemma return_other_long k1 k tim : (COUNTER_MAX * k) mod 2 ^ 32 <> (COUNTER_MAX * k1) mod 2 ^ 32 -> 0 <= COUNTER_MAX * k - COUNTER_MAX * k1 < 2 ^ 32 ->
  ts_return true ((COUNTER_MAX * k1) mod 2 ^ 32) 0 tim ((COUNTER_MAX * k) mod 2 ^ 32) = COUNTER_MAX * k - 2 ^ 32 * (COUNTER_MAX * k1 / 2 ^ 32).
Proof.
  generalize (COUNTER_MAX * k) (COUNTER_MAX * k1). intros b a NE D. unfold ts_return. apply Z.eqb_neq in NE. rewrite NE. cbn [negb].
  pose proof (Z.mod_pos_bound a (2 ^ 32) ltac:(lia)). pose proof (Z.mod_pos_bound b (2 ^ 32) ltac:(lia)).
  pose proof (Z.div_mod a (2 ^ 32) ltac:(lia)). pose proof (Z.div_mod b (2 ^ 32) ltac:(lia)). change (u32 (0 + 1)) with 1.
  unfold u64, uN. destruct (Z.ltb_spec (b mod 2 ^ 32) (a mod 2 ^ 32)); rewrite Z.mod_small by lia; nia.
Qed.

Lemma hstep_inv s e k es : HI s k es -> overrun (hstep s e) = false ->
  Forall (fun r => r_end r - r_start r < 2 ^ 31) (results (hstep s e)) ->
  exists k' es', HI (hstep s e) k' es'.
Proof.
  intros [HK HT HQ HL HH HE HS HB HP] NO DU. destruct e as [| |long|].
  - (* Tick *)
    cbn [hstep] in *. pose proof (tick_div (ticks s) HT) as TD.
    assert (HB' : Forall (fun e => e <= ticks s + 1 /\ e / PERIOD <= k) es).
    { eapply Forall_weaken; [|exact HB]. cbn. intros x Hx. lia. }
    destruct ((ticks s + 1) mod PERIOD =? 0).
    + cbn [overrun] in NO. apply orb_false_elim in NO. destruct NO as [NO UF]. rewrite UF in HQ.
      exists k, es. split; proj; auto; try lia.
      revert HP; destruct (thread s) as [|l st t1 th|l st t1 th tim|l st t1 th tim]; intro HP; auto.
      * destruct HP as (El & k1 & E1 & L1 & B1 & T1 & F1). split; auto. exists k1. repeat split; auto; lia.
      * destruct HP as (El & k1 & b & E1 & L1 & B1 & T1 & F1). split; auto. exists k1, b. intuition lia.
      * destruct HP as (El & k1 & b & E1 & L1 & B1 & T1 & F1). split; auto. exists k1, b. intuition lia.
    + exists k, es. split; proj; auto; try lia.
      revert HP; destruct (thread s) as [|l st t1 th|l st t1 th tim|l st t1 th tim]; intro HP; auto.
      * destruct HP as (El & k1 & E1 & L1 & B1 & T1 & F1). split; auto. exists k1. repeat split; auto; lia.
      * destruct HP as (El & k1 & b & E1 & L1 & B1 & T1 & F1). split; auto. exists k1, b. intuition lia.
      * destruct HP as (El & k1 & b & E1 & L1 & B1 & T1 & F1). split; auto. exists k1, b. intuition lia.
  - (* Isr *)
    cbn [hstep] in *. destruct (uif s) eqn:UF; [|exists k, es; split; rewrite ?UF; auto].
    exists (k + 1), es. split; proj; auto; try lia.
    + unfold u32, uN. rewrite HL. rewrite Zplus_mod_idemp_l. f_equal. lia.
    + eapply Forall_weaken; [|exact HB]. cbn. intros x Hx. lia.
    + revert HP; destruct (thread s) as [|l st t1 th|l st t1 th tim|l st t1 th tim]; intro HP; auto.
      * destruct HP as (El & k1 & E1 & L1 & B1 & T1 & F1). split; auto. exists k1. repeat split; auto; lia.
      * destruct HP as (El & k1 & b & E1 & L1 & B1 & T1 & F1). split; auto. exists k1, b. intuition lia.
      * destruct HP as (El & k1 & b & E1 & L1 & B1 & T1 & F1). split; auto. exists k1, b. intuition lia.
  - (* Call *)
    cbn [hstep] in *. destruct (thread s) eqn:TH; [|exists k, es; split; rewrite ?TH; auto..].
    exists k, es. split; proj; auto. split; [exact HH|]. exists k. rewrite HQ.
    repeat split; auto; destruct (uif s); try lia.
  - (* Cpu *)
    cbn [hstep] in *. destruct (thread s) as [|l st t1 th|l st t1 th tim|l st t1 th tim] eqn:TH.
    + exists k, es. split; rewrite ?TH; auto.
    + exists k, es. split; proj; auto.
      destruct HP as (El & k1 & E1 & L1 & B1 & T1 & F1). split; auto. exists k1, (ticks s). unfold counter. intuition lia.
    + destruct (uif s) eqn:UF; [exists k, es; split; rewrite ?TH, ?UF; auto|].
      exists k, es. split; proj; rewrite ?UF; auto.
      destruct HP as (El & k1 & b & E1 & L1 & B1 & T1 & ET & F1). split; auto. exists k1, b.
      assert (b / PERIOD <= k). { rewrite Z.add_0_r in HQ. rewrite <- HQ. apply div_le_mono; lia. }
      intuition lia.
    + destruct HP as (El & k1 & b & E1 & L1 & B1 & T1 & ET & BK & F1). subst th.
      cbn [results] in DU. inversion DU as [|? ? D1 D2]; subst. cbn in D1.
      set (e' := if low s =? (COUNTER_MAX * k1) mod 2 ^ 32 then b else k * PERIOD).
      assert (KK : k * PERIOD <= ticks s).
      { unfold PERIOD, COUNTER_MAX in *. pose proof (Z.div_mod (ticks s) (65535 + 1) ltac:(lia)).
        pose proof (Z.mod_pos_bound (ticks s) (65535 + 1) ltac:(lia)). destruct (uif s); nia. }
      assert (G : st - PERIOD < e' <= ticks s /\
                  ts_return false ((COUNTER_MAX * k1) mod 2 ^ 32) 0 (b mod PERIOD) (low s) = lossy e' mod 2 ^ 32 /\
                  ts_return true ((COUNTER_MAX * k1) mod 2 ^ 32) 0 (b mod PERIOD) (low s) = lossy e' - 2 ^ 32 * (lossy (k1 * PERIOD) / 2 ^ 32)
                  /\ e' / PERIOD <= k /\ Forall (fun e => e <= e') es).
      { unfold e'. destruct (Z.eqb_spec (low s) ((COUNTER_MAX * k1) mod 2 ^ 32)) as [EQ|NE].
        - pose proof EQ as EQ0. rewrite HL in EQ. symmetry in EQ. apply mul_inj in EQ.
          + subst k1. rewrite EQ0.
            assert (BP : b / PERIOD = k).
            { apply Z.le_antisymm; [exact BK|].
              assert (k <= st / PERIOD) by lia. pose proof (div_le_mono st b ltac:(lia)). lia. }
            assert (LB : lossy b = COUNTER_MAX * k + b mod PERIOD).
            { unfold lossy. rewrite BP. unfold PERIOD, COUNTER_MAX in *. pose proof (Z.div_mod b (65535 + 1) ltac:(lia)). lia. }
            split; [unfold PERIOD, COUNTER_MAX; lia|]. split; [|split; [|split; [exact BK|]]].
            * rewrite return_same_short. now rewrite LB.
            * rewrite return_same_long, LB, lossy_period. reflexivity.
            * eapply Forall_weaken; [|exact F1]. cbv beta. intros; lia.
          + split; [lia|]. unfold PERIOD, COUNTER_MAX in *.
            pose proof (Z.div_mod (ticks s) (65535 + 1) ltac:(lia)).
            pose proof (Z.mod_pos_bound (ticks s) (65535 + 1) ltac:(lia)).
            pose proof (Z.div_mod st (65535 + 1) ltac:(lia)).
            pose proof (Z.mod_pos_bound st (65535 + 1) ltac:(lia)). destruct (uif s); nia.
        - assert (k1 < k). { destruct (Z.eq_dec k1 k); [subst; rewrite HL in NE; congruence|lia]. }
          split; [|split; [|split; [|split]]].
          + split; [|exact KK]. unfold PERIOD, COUNTER_MAX in *.
            pose proof (Z.div_mod st (65535 + 1) ltac:(lia)).
            pose proof (Z.mod_pos_bound st (65535 + 1) ltac:(lia)). nia.
          + unfold ts_return. apply Z.eqb_neq in NE. rewrite NE. cbn [negb]. now rewrite HL, lossy_period.
          + rewrite HL in *. rewrite return_other_long; [now rewrite !lossy_period|exact NE|].
            unfold PERIOD, COUNTER_MAX in *. clear - KK T1 D1 B1 H.
            pose proof (Z.div_mod st (65535 + 1) ltac:(lia)).
            pose proof (Z.mod_pos_bound st (65535 + 1) ltac:(lia)). nia.
          + rewrite Z.div_mul by (unfold PERIOD, COUNTER_MAX; lia). lia.
          + eapply Forall_weaken; [|exact F1]. cbv beta. intros x [_ Hx]. unfold PERIOD, COUNTER_MAX in *.
            pose proof (Z.div_mod x (65535 + 1) ltac:(lia)).
            pose proof (Z.mod_pos_bound x (65535 + 1) ltac:(lia)). nia. }
      destruct G as (G1 & G2 & G2' & G3 & G4).
      exists k, (e' :: es). split; proj; auto.
      * constructor; [|exact HE]. split; cbn [r_start r_end r_long r_value]; auto. destruct l; [|exact G2].
        exists (k1 * PERIOD). split; [|split; [unfold PERIOD, COUNTER_MAX; lia|exact G2']].
        unfold PERIOD, COUNTER_MAX in *. clear - B1.
        pose proof (Z.div_mod st (65535 + 1) ltac:(lia)). pose proof (Z.mod_pos_bound st (65535 + 1) ltac:(lia)). nia.
      * constructor; [exact HS|]. eapply Forall_weaken; [|exact G4]. cbn. intros; lia.
      * constructor; [lia|]. exact HB.
Qed.

Lemma overrun_mono s tr : overrun (fold_left hstep tr s) = false -> overrun s = false.
Proof.
  revert s. induction tr as [|e tr IH]; intros s H; [exact H|]. cbn [fold_left] in H. apply IH in H.
  destruct e; cbn [hstep] in H; cbv zeta in H.
  - destruct ((ticks s + 1) mod PERIOD =? 0); cbn [overrun] in H; [|exact H]. now apply orb_false_elim in H.
  - now destruct (uif s).
  - now destruct (thread s).
  - destruct (thread s); auto. now destruct (uif s).
Qed.

Lemma results_mono s e : exists l, results (hstep s e) = l ++ results s.
Proof.
  destruct e; cbn [hstep]; cbv zeta.
  - destruct ((ticks s + 1) mod PERIOD =? 0); now exists [].
  - destruct (uif s); now exists [].
  - destruct (thread s); now exists [].
  - destruct (thread s); try now exists [].
    + destruct (uif s); now exists [].
    + cbn. eexists [_]. reflexivity.
Qed.
Lemma results_mono_run tr : forall s, exists l, results (fold_left hstep tr s) = l ++ results s.
Proof.
  induction tr as [|e tr IH]; intro s; [now exists []|]. cbn.
  destruct (IH (hstep s e)) as [l E]. destruct (results_mono s e) as [l' E']. exists (l ++ l'). now rewrite E, E', app_assoc.
Qed.

Lemma hrun_inv_from tr : forall s k es, HI s k es -> overrun (fold_left hstep tr s) = false ->
  Forall (fun r => r_end r - r_start r < 2 ^ 31) (results (fold_left hstep tr s)) ->
  exists k' es', HI (fold_left hstep tr s) k' es'.
Proof.
  induction tr as [|e tr IH]; intros s k es H NO DU; [eauto|]. cbn in *.
  destruct (hstep_inv s e k es H) as (k' & es' & H').
  - now apply overrun_mono in NO.
  - destruct (results_mono_run tr (hstep s e)) as [l E]. rewrite E in DU. now apply Forall_app in DU.
  - apply (IH _ _ _ H'); auto.
Qed.

Lemma hinit_inv : HI hw_init 0 [].
Proof. split; cbn; auto; try lia; constructor. Qed.

Lemma ts_linear_l tr : overrun (hrun tr) = false ->
  Forall (fun r => r_end r - r_start r < 2 ^ 31) (results (hrun tr)) ->
  exists es, Forall2 good (results (hrun tr)) es /\ StronglySorted Z.ge es.
Proof.
  intros B C. destruct (hrun_inv_from tr hw_init 0 [] hinit_inv B C) as (k & es & H).
  exists es. split; apply H.
Qed.

Lemma forall2_split (P : result -> Z -> Prop) l1 x l2 y l3 es :
  Forall2 P (l1 ++ y :: l2 ++ x :: l3) es -> StronglySorted Z.ge es ->
  exists ex ey, P x ex /\ P y ey /\ ex <= ey.
Proof.
  revert es. induction l1 as [|a l1 IH]; intros es H S.
  - inversion H; subst. inversion S; subst. cbn in *.
    clear H. revert l' H4 H2 S H3 H5. induction l2 as [|b l2 IH2]; intros es H4 H2 S H3 H5.
    + inversion H4; subst. inversion H5; subst. exists y1, y0. repeat split; auto. lia.
    + inversion H4; subst. inversion H5; subst. inversion H3; subst. apply (IH2 l'); auto. constructor; auto.
  - inversion H; subst. inversion S; subst. now apply (IH l').
Qed.

Lemma ts_monotone_l tr l1 y l2 x l3 : overrun (hrun tr) = false ->
  Forall (fun r => r_end r - r_start r < 2 ^ 31) (results (hrun tr)) ->
  results (hrun tr) = l1 ++ y :: l2 ++ x :: l3 -> r_long x = false -> r_long y = false ->
  r_end y - r_start x < 2 ^ 31 - PERIOD ->
  0 <= timestamp_duration_us (r_value x) (r_value y) <= r_end y - r_start x + PERIOD.
Proof.
  intros B C E LX LY D. destruct (ts_linear_l tr B C) as (es & F & S). rewrite E in F.
  destruct (forall2_split good l1 x l2 y l3 es F S) as (ex & ey & [B1 V1] & [B2 V2] & LE). rewrite LX in V1. rewrite LY in V2.
  rewrite V1, V2. pose proof (lossy_mono ex ey LE).
  assert (lossy ey - lossy ex <= ey - ex).
  { unfold lossy. pose proof (div_le_mono ex ey LE). lia. }
  rewrite duration32_l; lia.
Qed.
Lemma good_early r e : good r e -> r_long r = true -> r_end r < 2 ^ 32 -> r_start r <= r_end r -> r_value r = lossy e.
Proof.
  intros [A B] L R O. rewrite L in B. destruct B as (b & B1 & B0 & ->). assert (lossy b / 2 ^ 32 = 0); [|lia].
  apply Z.div_small. unfold lossy, PERIOD, COUNTER_MAX in *. pose proof (Z.div_mod b (65535 + 1) ltac:(lia)). pose proof (Z.mod_pos_bound b (65535 + 1) ltac:(lia)). nia.
Qed.
Lemma start_end tr : Forall (fun r => r_start r <= r_end r) (results (hrun tr)).
Proof.
  enough (I : Forall (fun r => r_start r <= r_end r) (results (hrun tr)) /\
    match thread (hrun tr) with Idle => True | ReadLow _ st _ _ | ReadCnt _ st _ _ _ | Polled _ st _ _ _ => st <= ticks (hrun tr) end) by apply I.
  unfold hrun. assert (I0 : Forall (fun r => r_start r <= r_end r) (results hw_init) /\
    match thread hw_init with Idle => True | ReadLow _ st _ _ | ReadCnt _ st _ _ _ | Polled _ st _ _ _ => st <= ticks hw_init end) by (cbn; auto).
  revert I0. generalize hw_init. induction tr as [|e tr IH]; intros s I0; [exact I0|]. cbn [fold_left]. apply IH. destruct I0 as [I1 I2].
  destruct e; cbn [hstep]; cbv zeta.
  - destruct (_ =? 0); proj; (split; [exact I1|]); destruct (thread s); auto; lia.
  - destruct (uif s); proj; auto.
  - destruct (thread s) eqn:TH; proj; try (split; [exact I1|]); rewrite ?TH; auto; lia.
  - destruct (thread s) eqn:TH; proj; rewrite ?TH; auto.
    + destruct (uif s); proj; rewrite ?TH; auto.
Qed.
Lemma start_nonneg tr : Forall (fun r => 0 <= r_start r) (results (hrun tr)).
Proof.
  enough (I : 0 <= ticks (hrun tr) /\ Forall (fun r => 0 <= r_start r) (results (hrun tr)) /\
    match thread (hrun tr) with Idle => True | ReadLow _ st _ _ | ReadCnt _ st _ _ _ | Polled _ st _ _ _ => 0 <= st end) by apply I.
  unfold hrun. assert (I0 : 0 <= ticks hw_init /\ Forall (fun r => 0 <= r_start r) (results hw_init) /\
    match thread hw_init with Idle => True | ReadLow _ st _ _ | ReadCnt _ st _ _ _ | Polled _ st _ _ _ => 0 <= st end) by (cbn; auto with zarith).
  revert I0. generalize hw_init. induction tr as [|e tr IH]; intros s I0; [exact I0|]. cbn [fold_left]. apply IH. destruct I0 as (I0 & I1 & I2).
  destruct e; cbn [hstep]; cbv zeta.
  - destruct (_ =? 0); proj; (split; [lia|]); auto.
  - destruct (uif s); proj; auto.
  - destruct (thread s) eqn:TH; proj; rewrite ?TH; auto.
  - destruct (thread s) eqn:TH; proj; rewrite ?TH; auto.
    + destruct (uif s); proj; rewrite ?TH; auto.
Qed.
Lemma lts_early_l tr : overrun (hrun tr) = false ->
  Forall (fun r => r_end r - r_start r < 2 ^ 31 /\ r_long r = true /\ r_end r < 2 ^ 32) (results (hrun tr)) ->
  exists es, Forall2 (fun r e => r_start r - PERIOD < e <= r_end r /\ r_value r = lossy e) (results (hrun tr)) es /\ StronglySorted Z.ge es.
Proof.
  intros B C. destruct (ts_linear_l tr B) as (es & F & S).
  - eapply Forall_weaken; [|exact C]. cbv beta. tauto.
  - exists es. split; [|exact S]. pose proof (start_end tr) as O. revert C O. clear - F. induction F as [|r e rs es G F IH]; intros C O; constructor; inversion C; inversion O; subst; auto.
    split; [apply G|]. apply good_early; tauto.
Qed.
Lemma lts_monotone_l tr l1 y l2 x l3 : overrun (hrun tr) = false ->
  Forall (fun r => r_end r - r_start r < 2 ^ 31) (results (hrun tr)) ->
  results (hrun tr) = l1 ++ y :: l2 ++ x :: l3 -> r_long x = true -> r_long y = true -> r_end x < 2 ^ 32 -> r_end y < 2 ^ 32 ->
  0 <= ltimestamp_duration_us (r_value x) (r_value y) <= r_end y - r_start x + PERIOD.
Proof.
  intros B C E LX LY RX RY. destruct (ts_linear_l tr B C) as (es & F & S). rewrite E in F. pose proof (start_end tr) as O. rewrite E in O.
  apply Forall_app in O as [_ O]. apply Forall_cons_iff in O as [OY O]. apply Forall_app in O as [_ O]. apply Forall_cons_iff in O as [OX _].
  destruct (forall2_split good l1 x l2 y l3 es F S) as (ex & ey & G1 & G2 & LE).
  rewrite (good_early x ex), (good_early y ey) by auto. destruct G1 as [B1 _]. destruct G2 as [B2 _]. pose proof (lossy_mono ex ey LE).
  assert (lossy ey - lossy ex <= ey - ex).
  { unfold lossy. pose proof (div_le_mono ex ey LE). lia. }
  assert (P : 0 <= PERIOD < 2 ^ 20) by (unfold PERIOD, COUNTER_MAX; lia).
  assert (N : 0 <= r_start x).
  { pose proof (start_nonneg tr) as N. rewrite E in N. apply Forall_app in N as [_ N]. apply Forall_cons_iff in N as [_ N]. apply Forall_app in N as [_ N].
    now apply Forall_cons_iff in N as [N _]. }
  unfold ltimestamp_duration_us. unfold u64, uN. rewrite Z.mod_small by lia. unfold s64. rewrite sN_id; lia.
Qed.
(** * Periods without races: the clock loses one tick per period. *)

Definition quiet (s : hw) (n k : Z) : Prop :=
  ticks s = n /\ uif s = false /\ overrun s = false /\ low s = (COUNTER_MAX * k) mod 2 ^ 32 /\ high s = 0 /\ thread s = Idle.

Lemma quiet_tick s n k : quiet s n k -> (n + 1) mod PERIOD <> 0 -> quiet (hstep s Tick) (n + 1) k.
Proof.
  intros (A & B & C & D & E & F) H. cbn [hstep]. cbv zeta. rewrite A.
  destruct (Z.eqb_spec ((n + 1) mod PERIOD) 0); [contradiction|]. repeat split; cbn; auto.
Qed.

Lemma quiet_ticks m : forall s q r k, quiet s (q * PERIOD + r) k -> 0 <= r -> r + Z.of_nat m < PERIOD ->
  quiet (fold_left hstep (repeat Tick m) s) (q * PERIOD + r + Z.of_nat m) k
  /\ results (fold_left hstep (repeat Tick m) s) = results s.
Proof.
  induction m as [|m IH]; intros s q r k H R L.
  - cbn. rewrite Z.add_0_r. now split.
  - cbn [repeat fold_left]. destruct (IH (hstep s Tick) q (r + 1) k) as [I1 I2].
    + replace (q * PERIOD + (r + 1)) with (q * PERIOD + r + 1) by lia. apply quiet_tick; [exact H|].
      replace (q * PERIOD + r + 1) with (r + 1 + q * PERIOD) by lia. rewrite Z_mod_plus_full.
      rewrite Z.mod_small; lia.
    + lia.
    + lia.
    + split; [|rewrite I2].
      * replace (q * PERIOD + r + Z.of_nat (S m)) with (q * PERIOD + (r + 1) + Z.of_nat m) by lia. exact I1.
      * cbn [hstep]. cbv zeta. now destruct ((ticks s + 1) mod PERIOD =? 0).
Qed.

Definition one_period : list ev := repeat Tick (Z.to_nat COUNTER_MAX) ++ [Tick; Isr].

Lemma quiet_period s q k : quiet s (q * PERIOD) k ->
  quiet (fold_left hstep one_period s) ((q + 1) * PERIOD) (k + 1)
  /\ results (fold_left hstep one_period s) = results s.
Proof.
  intro H. unfold one_period. rewrite fold_left_app.
  destruct (quiet_ticks (Z.to_nat COUNTER_MAX) s q 0 k) as [(A & B & C & D & E & F) R].
  - now rewrite Z.add_0_r.
  - lia.
  - rewrite Z2Nat.id by (unfold COUNTER_MAX; lia). unfold PERIOD. lia.
  - rewrite Z2Nat.id in A by (unfold COUNTER_MAX; lia).
    set (s1 := fold_left hstep (repeat Tick (Z.to_nat COUNTER_MAX)) s) in *. clearbody s1.
    cbn [fold_left hstep]. rewrite A. replace (q * PERIOD + 0 + COUNTER_MAX + 1) with ((q + 1) * PERIOD) by (unfold PERIOD; lia).
    rewrite Z_mod_mult. change (0 =? 0) with true. cbv zeta iota. proj. cbn [fold_left hstep uif].
    split; [|exact R]. unfold quiet; proj; repeat split; auto.
    + now rewrite B, C.
    + unfold u32, uN. rewrite D, Zplus_mod_idemp_l. f_equal. lia.
Qed.

Fixpoint periods (n : nat) : list ev := match n with O => [] | S n => periods n ++ one_period end.

Lemma quiet_periods n : quiet (hrun (periods n)) (Z.of_nat n * PERIOD) (Z.of_nat n) /\ results (hrun (periods n)) = [].
Proof.
  induction n as [|n [IH IR]].
  - now repeat split.
  - unfold hrun in *. cbn [periods]. rewrite fold_left_app.
    destruct (quiet_period _ _ _ IH) as [Q R]. rewrite R. split; [|exact IR].
    replace (Z.of_nat (S n)) with (Z.of_nat n + 1) by lia. exact Q.
Qed.

Definition one_call (long : bool) : list ev := [Call long; Cpu; Cpu; Cpu].

Lemma quiet_call s n k long : quiet s n k -> 
  exists r, results (fold_left hstep (one_call long) s) = r :: results s /\ r_start r = n /\ r_end r = n /\
    r_long r = long /\
    r_value r = (if long then u64 ((COUNTER_MAX * k) mod 2 ^ 32 + n mod PERIOD) else u32 ((COUNTER_MAX * k) mod 2 ^ 32 + n mod PERIOD))
    /\ quiet (fold_left hstep (one_call long) s) n k.
Proof.
  intros (A & B & C & D & E & F). unfold one_call. cbn [fold_left]. unfold hstep at 4.
  cbn [hstep]. rewrite F. cbv zeta. proj. cbn [hstep]. cbv zeta. proj. rewrite B. proj. cbn [hstep]. proj.
  eexists. split; [reflexivity|]. cbn [r_start r_end r_long r_value]. unfold quiet, counter. proj. rewrite A, D, E.
  split; [reflexivity|]. split; [reflexivity|]. split; [reflexivity|]. split; [|repeat split; auto].
  unfold ts_return. rewrite Z.eqb_refl. cbn [negb]. destruct long; reflexivity.
Qed.

Lemma ts_drift_l n : exists tr r, overrun (hrun tr) = false /\ results (hrun tr) = [r] /\ r_long r = false /\
  r_start r = Z.of_nat n * PERIOD /\ r_end r = Z.of_nat n * PERIOD /\
  timestamp_duration_us (r_value r) (u32 (r_start r)) = s32 (Z.of_nat n).
Proof.
  destruct (quiet_periods n) as [Q R]. exists (periods n ++ one_call false). unfold hrun in *. rewrite fold_left_app.
  destruct (quiet_call _ _ _ false Q) as (r & E1 & E2 & E3 & E4 & E5 & E6). exists r.
  rewrite E1, R. repeat split; auto; [apply E6|]. rewrite E5, E2.
  rewrite Z_mod_mult, Z.add_0_r. unfold timestamp_duration_us. apply sN_mod; [lia|]. unfold u32, uN.
  rewrite !Z.mod_mod by lia. rewrite <- Zminus_mod. f_equal. unfold PERIOD. lia.
Qed.

Lemma lts_backwards_n n : Z.of_nat n = 65537 -> exists tr r1 r2, overrun (hrun tr) = false /\ results (hrun tr) = [r2; r1] /\
  r_long r1 = true /\ r_long r2 = true /\ r_end r1 < r_start r2 /\ r_value r2 < r_value r1.
Proof.
  intro EN. destruct (quiet_periods n) as [Q R]. rewrite EN in Q.
  destruct (quiet_call _ _ _ true Q) as (r1 & E1 & E2 & E3 & E4 & E5 & E6).
  destruct (quiet_period _ _ _ E6) as [Q2 R2].
  destruct (quiet_call _ _ _ true Q2) as (r2 & F1 & F2 & F3 & F4 & F5 & F6).
  exists (((periods n ++ one_call true) ++ one_period) ++ one_call true), r1, r2.
  unfold hrun in *. rewrite !fold_left_app. rewrite F1, R2, E1, R. split; [apply F6|].
  repeat split; auto.
  - rewrite E3, F2. unfold PERIOD, COUNTER_MAX. lia.
  - rewrite E5, F5. vm_compute. reflexivity.
Qed.

Lemma lts_backwards_l : exists tr r1 r2, overrun (hrun tr) = false /\ results (hrun tr) = [r2; r1] /\
  r_long r1 = true /\ r_long r2 = true /\ r_end r1 < r_start r2 /\ r_value r2 < r_value r1.
Proof. apply (lts_backwards_n (Z.to_nat 65537)). apply Z2Nat.id. lia. Qed.
