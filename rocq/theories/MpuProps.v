(** C95. The memory protection unit. *)
From Coq Require Import ZArith Lia List Bool.
From Verif Require Import MpuModel MpuSpec.
Import ListNotations.
Local Open Scope Z_scope.

Lemma land_mask a : 0 <= a < 2 ^ 32 -> Z.land a (2 ^ 32 - 32) = a - a mod 32.
Proof.
  intro H. replace (a - a mod 32) with (Z.shiftl (Z.shiftr a 5) 5).
  2: { rewrite Z.shiftl_mul_pow2, Z.shiftr_div_pow2 by lia. change (2 ^ 5) with 32. pose proof (Z.div_mod a 32). lia. }
  change (2 ^ 32 - 32) with (Z.shiftl (Z.ones 27) 5). apply Z.bits_inj'. intros n Hn. rewrite Z.land_spec.
  destruct (Z.lt_ge_cases n 5) as [L|L].
  - rewrite !Z.shiftl_spec_low by lia. apply andb_false_r.
  - rewrite !Z.shiftl_spec by lia. rewrite Z.shiftr_spec by lia. replace (n - 5 + 5) with n by lia.
    destruct (Z.lt_ge_cases n 32) as [U|U].
    + rewrite Z.ones_spec_low by lia. apply andb_true_r.
    + destruct (Z.eq_dec a 0) as [->|N]; [rewrite !Z.bits_0; reflexivity|].
      rewrite (Z.bits_above_log2 a n); [reflexivity|lia|]. apply Z.lt_le_trans with 32; [|lia]. apply Z.log2_lt_pow2; lia.
Qed.
Lemma ap_range ap : 0 <= ap_value ap < 8.
Proof. destruct ap; cbn; lia. Qed.

(** The registers after a call. *)
Lemma configure_regs u region addr len ap x : 0 <= region < 16 -> 0 <= addr < 2 ^ 32 -> 5 <= len <= 32 -> exists u',
  mpu_configure_region u region addr len ap x = Some u' /\ ctrl u' = ctrl u /\
  rbar u' region = addr - addr mod 32 /\ rasr u' region = (if x then 0 else 2 ^ 28) + ap_value ap * 2 ^ 24 + (len - 1) * 2 + 1 /\
  forall i, i <> region -> rbar u' i = rbar u i /\ rasr u' i = rasr u i.
Proof.
  intros R A L. unfold mpu_configure_region. rewrite (proj2 (Z.ltb_ge len 5)) by lia. eexists. split; [reflexivity|].
  rewrite (land_mask addr A). replace (Z.land region 15) with region by (change 15 with (Z.ones 4); rewrite Z.land_ones, Z.mod_small; lia).
  set (v := addr - addr mod 32 + region + 16). pose proof (Z.mod_pos_bound addr 32 ltac:(lia)) as M. pose proof (Z.div_mod addr 32 ltac:(lia)) as Dm.
  assert (E : v = 32 * (addr / 32) + (region + 16)) by (unfold v; lia).
  assert (V5 : v mod 32 = region + 16) by (rewrite E, Z.add_comm, Z.mul_comm, Z.mod_add, Z.mod_small; lia).
  assert (V4 : v mod 16 = region).
  { replace v with (region + (2 * (addr / 32) + 1) * 16) by lia. rewrite Z.mod_add, Z.mod_small; lia. }
  assert (T : Z.testbit v 4 = true).
  { apply Z.testbit_true; [lia|]. change (2 ^ 4) with 16. replace v with (region + (1 + (addr / 32) * 2) * 16) by lia.
    rewrite Z.div_add, Z.div_small by lia. rewrite Z.add_0_l, Z.mod_add by lia. reflexivity. }
  unfold write_rasr, write_rbar. rewrite T, V4, V5. cbn [ctrl rnr rbar rasr]. unfold with_reg. rewrite Z.eqb_refl.
  split; [reflexivity|]. split; [unfold v; lia|]. split.
  - rewrite !Z.shiftl_mul_pow2 by lia. pose proof (ap_range ap). rewrite Z.mod_small; [change (2 ^ 1) with 2; destruct x; lia|].
    change (2 ^ 1) with 2. change (2 ^ 24) with 16777216. change (2 ^ 28) with 268435456. change (2 ^ 32) with 4294967296. destruct x; lia.
  - intros i N. now rewrite (proj2 (Z.eqb_neq i region) N).
Qed.
(** The fields of these registers. *)
Lemma fields (u : unit_regs) (i len : Z) (ap : access_permission) (x : bool) : 5 <= len <= 32 -> rasr u i = (if x then 0 else 2 ^ 28) + ap_value ap * 2 ^ 24 + (len - 1) * 2 + 1 ->
  enabled u i = true /\ log_size u i = len /\ ap_field u i = ap_value ap /\ xn u i = negb x /\ subregions u i = 0.
Proof.
  intros L E. pose proof (ap_range ap) as A. unfold enabled, log_size, ap_field, xn, subregions. rewrite E. clear E.
  change (2 ^ 24) with 16777216. change (2 ^ 28) with 268435456. change (2 ^ 8) with 256.
  set (p := ap_value ap) in *. set (b := if x then 0 else 268435456).
  assert (B : b = 0 \/ b = 268435456) by (unfold b; destruct x; auto).
  assert (Bx : x = (b =? 0)) by (unfold b; destruct x; reflexivity). clearbody b.
  assert (R : forall y, y = b + p * 16777216 + (len - 1) * 2 + 1 ->
    y mod 2 = 1 /\ (y / 2) mod 32 = len - 1 /\ (y / 16777216) mod 8 = p /\ (y / 268435456) mod 2 = (if b =? 0 then 0 else 1) /\ (y / 256) mod 256 = 0).
  { intros y ->. destruct B as [-> | ->]; cbn [Z.eqb]; repeat match goal with |- _ /\ _ => split end; Z.to_euclidean_division_equations; lia. }
  destruct (R _ eq_refl) as (R1 & R2 & R3 & R4 & R5). set (y := b + p * 16777216 + (len - 1) * 2 + 1) in *.
  split; [apply Z.testbit_true; [lia|]; change (2 ^ 0) with 1; rewrite Z.div_1_r; exact R1|].
  split; [lia|]. split; [exact R3|]. split; [|exact R5].
  subst x. destruct (b =? 0); cbn [negb]; [apply Z.testbit_false|apply Z.testbit_true]; try lia; change (2 ^ 28) with 268435456; assumption.
Qed.
Lemma allows_granted u i ap x priv k : ap_field u i = ap_value ap -> xn u i = negb x -> region_allows u i priv k = granted ap x priv k.
Proof. intros A X. unfold region_allows, granted. rewrite A, X, negb_involutive. destruct ap, priv, k, x; reflexivity. Qed.
Lemma div_covers a addr len : 0 <= len -> addr mod 2 ^ len = 0 -> (a / 2 ^ len =? addr / 2 ^ len) = (addr <=? a) && (a <? addr + 2 ^ len).
Proof.
  intros L A. assert (P : 0 < 2 ^ len) by (apply Z.pow_pos_nonneg; lia). pose proof (Z.div_mod addr (2 ^ len) ltac:(lia)) as D1. rewrite A, Z.add_0_r in D1.
  pose proof (Z.div_mod a (2 ^ len) ltac:(lia)) as D2. pose proof (Z.mod_pos_bound a (2 ^ len) P) as M.
  set (q := a / 2 ^ len) in *. set (q' := addr / 2 ^ len) in *. set (s := 2 ^ len) in *.
  destruct (q =? q') eqn:E; symmetry.
  - apply Z.eqb_eq in E. apply andb_true_iff. rewrite Z.leb_le, Z.ltb_lt. nia.
  - apply Z.eqb_neq in E. apply andb_false_iff. rewrite Z.leb_gt, Z.ltb_ge. destruct (Z.lt_ge_cases q q'); [left|right]; nia.
Qed.
Lemma round_down addr len : 5 <= len -> (addr - addr mod 32) / 2 ^ len = addr / 2 ^ len.
Proof.
  intro L. replace (2 ^ len) with (32 * 2 ^ (len - 5)) by (change 32 with (2 ^ 5); rewrite <- Z.pow_add_r by lia; f_equal; lia).
  assert (0 < 2 ^ (len - 5)) by (apply Z.pow_pos_nonneg; lia). rewrite <- !Z.div_div by lia.
  f_equal. pose proof (Z.div_mod addr 32 ltac:(lia)). replace (addr - addr mod 32) with (addr / 32 * 32) by lia. now rewrite Z.div_mul.
Qed.

(** C95. A region covers exactly the block that was asked for, when its address is a multiple of its length, with the permissions that were asked for;
    nothing else changes. *)
Theorem region_as_asked_partial u region addr len ap x : 0 <= region < 8 -> 0 <= addr < 2 ^ 32 -> 5 <= len <= 32 -> addr mod 2 ^ len = 0 ->
  exists u', mpu_configure_region u region addr len ap x = Some u' /\ ctrl u' = ctrl u /\
    (forall a, covers u' region a = (addr <=? a) && (a <? addr + 2 ^ len)) /\
    (forall priv k, region_allows u' region priv k = granted ap x priv k) /\ subregions u' region = 0 /\
    forall i, i <> region -> rbar u' i = rbar u i /\ rasr u' i = rasr u i.
Proof.
  intros R A L Al. destruct (configure_regs u region addr len ap x ltac:(lia) A L) as (u' & E & C & Rb & Ra & O).
  destruct (fields u' region len ap x L Ra) as (F1 & F2 & F3 & F4 & F5). exists u'. split; [exact E|]. split; [exact C|].
  split; [|split; [|split; [exact F5|exact O]]].
  - intro a. unfold covers. rewrite F1, F2, Rb, round_down by lia. cbn [andb]. apply div_covers; [lia|exact Al].
  - intros. now apply allows_granted.
Qed.
(** The block of an address which is not a multiple of the length starts before it. *)
Theorem region_unaligned u region addr len ap x : 0 <= region < 8 -> 0 <= addr < 2 ^ 32 -> 5 <= len <= 32 ->
  exists u', mpu_configure_region u region addr len ap x = Some u' /\
    forall a, covers u' region a = (addr - addr mod 2 ^ len <=? a) && (a <? addr - addr mod 2 ^ len + 2 ^ len).
Proof.
  intros R A L. destruct (configure_regs u region addr len ap x ltac:(lia) A L) as (u' & E & C & Rb & Ra & O).
  destruct (fields u' region len ap x L Ra) as (F1 & F2 & _). exists u'. split; [exact E|].
  intro a. unfold covers. rewrite F1, F2, Rb, round_down by lia. cbn [andb].
  assert (P : 0 < 2 ^ len) by (apply Z.pow_pos_nonneg; lia). pose proof (Z.div_mod addr (2 ^ len) ltac:(lia)) as D.
  replace (addr / 2 ^ len) with ((addr - addr mod 2 ^ len) / 2 ^ len).
  - apply div_covers; [lia|]. replace (addr - addr mod 2 ^ len) with (addr / 2 ^ len * 2 ^ len) by lia. apply Z.mod_mul. lia.
  - replace (addr - addr mod 2 ^ len) with (addr / 2 ^ len * 2 ^ len) by lia. apply Z.div_mul. lia.
Qed.
Theorem region_as_asked_refuted : exists u u', mpu_configure_region u 1 (2 ^ 29 + 32) 6 AP_RO_RO false = Some u' /\
  covers u' 1 (2 ^ 29) = true /\ covers u' 1 (2 ^ 29 + 32 + 32) = false.
Proof. exists (mkUnit 0 0 (fun _ => 0) (fun _ => 0)). eexists. split; [reflexivity|]. split; vm_compute; reflexivity. Qed.
(** Regions of less than 32 bytes are refused. *)
Theorem region_too_small u region addr len ap x : len < 5 -> mpu_configure_region u region addr len ap x = None.
Proof. intro H. unfold mpu_configure_region. now rewrite (proj2 (Z.ltb_lt len 5) H). Qed.

Lemma configure_low u l u' : Forall proper l -> configure_all u l = Some u' ->
  ctrl u' = ctrl u /\ forall i, ~ 1 <= i <= 6 -> rbar u' i = rbar u i /\ rasr u' i = rasr u i.
Proof.
  revert u. induction l as [|q l IH]; intros u P H; cbn [configure_all] in H.
  - injection H as <-. auto.
  - inversion P as [|? ? (P1 & P2 & P3) P']; subst.
    destruct (configure_regs u (q_region q) (q_addr q) (q_len q) (q_ap q) (q_exec q) ltac:(lia) P2 P3) as (u1 & E & C & _ & _ & O). rewrite E in H.
    destruct (IH u1 P' H) as [I1 I2]. split; [congruence|]. intros i N. destruct (I2 i N) as [-> ->]. apply O. lia.
Qed.
Lemma init_regs u : exists u', mpu_init u = Some u' /\ Z.testbit (ctrl u') 0 = true /\ Z.testbit (ctrl u') 2 = true /\
  rbar u' 7 = 0 /\ rasr u' 7 = 2 ^ 28 + ap_value AP_NO_NO * 2 ^ 24 + (5 - 1) * 2 + 1 /\
  rbar u' 0 = 2 ^ 29 /\ rasr u' 0 = 2 ^ 28 + ap_value AP_RW_RW * 2 ^ 24 + (29 - 1) * 2 + 1 /\
  forall i, i <> 0 -> i <> 7 -> rbar u' i = rbar u i /\ rasr u' i = rasr u i.
Proof.
  unfold mpu_init. set (u0 := mkUnit (Z.lor (ctrl u) 4) (rnr u) (rbar u) (rasr u)).
  destruct (configure_regs u0 7 0 5 AP_NO_NO false ltac:(lia) ltac:(lia) ltac:(lia)) as (u1 & E1 & C1 & B1 & A1 & O1). rewrite E1.
  destruct (configure_regs u1 0 (2 ^ 29) 29 AP_RW_RW false ltac:(lia) ltac:(lia) ltac:(lia)) as (u2 & E2 & C2 & B2 & A2 & O2). rewrite E2.
  exists (mpu_enable u2). split; [reflexivity|]. unfold mpu_enable. cbn [ctrl rbar rasr].
  split; [rewrite Z.lor_spec; apply orb_true_r|].
  split; [rewrite Z.lor_spec, C2, C1; unfold u0; cbn [ctrl]; rewrite Z.lor_spec; change (Z.testbit 4 2) with true; rewrite orb_true_r; reflexivity|].
  destruct (O2 7 ltac:(lia)) as [-> ->]. split; [exact B1|]. split; [exact A1|]. split; [exact B2|]. split; [exact A2|].
  intros i N0 N7. destruct (O2 i N0) as [-> ->]. destruct (O1 i N7) as [-> ->]. auto.
Qed.

(** C95. After mpu_init and whatever regions 1 to 6 are then given, no code can read, write or execute the first 32 bytes: a null pointer always faults. *)
Theorem null_always_faults u l u1 u2 default priv k a : mpu_init u = Some u1 -> Forall proper l -> configure_all u1 l = Some u2 -> 0 <= a < 32 ->
  allowed default u2 priv k a = false.
Proof.
  intros I P C A. destruct (init_regs u) as (u' & E & T0 & T2 & B7 & A7 & _). rewrite E in I. injection I as <-.
  destruct (configure_low _ _ _ P C) as [Ct O]. destruct (O 7 ltac:(lia)) as [Rb Ra]. rewrite B7 in Rb. rewrite A7 in Ra.
  destruct (fields u2 7 5 AP_NO_NO false ltac:(lia) Ra) as (F1 & F2 & F3 & F4 & _).
  unfold allowed. rewrite Ct, T0. cbn [decides numbers]. unfold covers at 1. rewrite F1, F2, Rb.
  change (0 / 2 ^ 5) with 0. change (2 ^ 5) with 32. rewrite Z.div_small by lia. cbn [Z.eqb andb].
  unfold region_allows. rewrite F3. destruct k, priv; reflexivity.
Qed.
(** Code in RAM is executed only if a region 1 to 6 covers it; RAM can be read and written by all code outside of such regions. *)
Theorem ram_not_executable u l u1 u2 default priv k a : mpu_init u = Some u1 -> Forall proper l -> configure_all u1 l = Some u2 ->
  2 ^ 29 <= a < 2 ^ 30 -> (forall i, 1 <= i <= 6 -> covers u2 i a = false) ->
  allowed default u2 priv k a = match k with Fetch => false | _ => true end.
Proof.
  intros I P C A N. destruct (init_regs u) as (u' & E & T0 & T2 & B7 & A7 & B0 & A0 & _). rewrite E in I. injection I as <-.
  destruct (configure_low _ _ _ P C) as [Ct O]. destruct (O 7 ltac:(lia)) as [Rb Ra]. rewrite B7 in Rb. rewrite A7 in Ra.
  destruct (fields u2 7 5 AP_NO_NO false ltac:(lia) Ra) as (F1 & F2 & F3 & F4 & _).
  destruct (O 0 ltac:(lia)) as [Rb0 Ra0]. rewrite B0 in Rb0. rewrite A0 in Ra0.
  destruct (fields u2 0 29 AP_RW_RW false ltac:(lia) Ra0) as (G1 & G2 & G3 & G4 & _).
  assert (N7 : covers u2 7 a = false).
  { unfold covers. rewrite F1, F2, Rb. change (0 / 2 ^ 5) with 0. cbn [andb]. apply Z.eqb_neq. change (2 ^ 5) with 32. pose proof (Z.div_le_mono 32 a 32 ltac:(lia) ltac:(lia)). change (32 / 32) with 1 in *. lia. }
  assert (N0 : covers u2 0 a = true).
  { unfold covers. rewrite G1, G2, Rb0. cbn [andb]. rewrite div_covers; [|lia|reflexivity]. apply andb_true_iff. rewrite Z.leb_le, Z.ltb_lt. change (2 ^ 29 + 2 ^ 29) with (2 ^ 30). lia. }
  unfold allowed. rewrite Ct, T0. cbn [decides numbers]. rewrite N7, !N by lia. rewrite N0.
  unfold region_allows. rewrite G3, G4. destruct k, priv; reflexivity.
Qed.
(** Everywhere else, without other regions, privileged code keeps the default memory map. *)
Theorem rest_default u u1 default k a : mpu_init u = Some u1 -> (forall i, 1 <= i <= 6 -> enabled u i = false) -> 32 <= a -> ~ 2 ^ 29 <= a < 2 ^ 30 ->
  allowed default u1 true k a = default a k.
Proof.
  intros I D A N. destruct (init_regs u) as (u' & E & T0 & T2 & B7 & A7 & B0 & A0 & O). rewrite E in I. injection I as <-.
  destruct (fields u' 7 5 AP_NO_NO false ltac:(lia) A7) as (F1 & F2 & _). destruct (fields u' 0 29 AP_RW_RW false ltac:(lia) A0) as (G1 & G2 & _).
  assert (N7 : covers u' 7 a = false).
  { unfold covers. rewrite F1, F2, B7. change (0 / 2 ^ 5) with 0. cbn [andb]. apply Z.eqb_neq. change (2 ^ 5) with 32. pose proof (Z.div_le_mono 32 a 32 ltac:(lia) ltac:(lia)). change (32 / 32) with 1 in *. lia. }
  assert (N0 : covers u' 0 a = false).
  { unfold covers. rewrite G1, G2, B0. cbn [andb]. rewrite div_covers; [|lia|reflexivity]. apply andb_false_iff. rewrite Z.leb_gt, Z.ltb_ge. change (2 ^ 29 + 2 ^ 29) with (2 ^ 30). lia. }
  assert (Nm : forall i, 1 <= i <= 6 -> covers u' i a = false).
  { intros i Hi. unfold covers, enabled. destruct (O i ltac:(lia) ltac:(lia)) as [_ ->]. unfold enabled in D. now rewrite D. }
  unfold allowed. rewrite T0. cbn [decides numbers]. rewrite N7, !Nm, N0, T2 by lia. reflexivity.
Qed.
(** A region which lets code run in RAM. *)
Example ex_executable_ram : exists u1 u2, mpu_init (mkUnit 0 0 (fun _ => 0) (fun _ => 0)) = Some u1 /\
  Forall proper [mkRequest 3 (2 ^ 29 + 2 ^ 12) 12 AP_RO_RO true] /\ configure_all u1 [mkRequest 3 (2 ^ 29 + 2 ^ 12) 12 AP_RO_RO true] = Some u2 /\
  allowed (fun _ _ => true) u2 true Fetch (2 ^ 29 + 2 ^ 12) = true /\ allowed (fun _ _ => true) u2 true Fetch (2 ^ 29) = false.
Proof.
  do 2 eexists. split; [vm_compute; reflexivity|]. split; [constructor; [unfold proper; cbn; lia|constructor]|]. split; [vm_compute; reflexivity|].
  split; vm_compute; reflexivity.
Qed.
(** Region 7 given again takes the protection of null pointers away. *)
Theorem null_unprotected_refuted : exists u1 u2, mpu_init (mkUnit 0 0 (fun _ => 0) (fun _ => 0)) = Some u1 /\
  mpu_configure_region u1 7 (2 ^ 29) 10 AP_RW_RW false = Some u2 /\ allowed (fun _ _ => true) u2 true Read 0 = true.
Proof. do 2 eexists. split; [vm_compute; reflexivity|]. split; [vm_compute; reflexivity|]. vm_compute. reflexivity. Qed.

(** C108. From a unit at reset: each region is disabled or holds its last request. *)
Definition holds (u : unit_regs) (l : list call) : Prop := Z.testbit (ctrl u) 2 = true /\ Z.testbit (ctrl u) 0 = running l /\ forall i, 0 <= i < 8 ->
  match last_request l i with
  | None => enabled u i = false
  | Some q => 5 <= q_len q <= 32 /\ rbar u i = q_addr q - q_addr q mod 32 /\
      rasr u i = (if q_exec q then 0 else 2 ^ 28) + ap_value (q_ap q) * 2 ^ 24 + (q_len q - 1) * 2 + 1
  end.
Lemma last_snoc l c i : last_request (l ++ [c]) i = match c with Configure q => if q_region q =? i then Some q else last_request l i | _ => last_request l i end.
Proof. unfold last_request. rewrite fold_left_app. reflexivity. Qed.
Lemma running_snoc l c : running (l ++ [c]) = match c with Configure _ => running l | Enable => true | Disable => false end.
Proof. unfold running. rewrite fold_left_app. reflexivity. Qed.
Lemma holds_configure u l q : holds u l -> fits (Configure q) -> exists u',
  mpu_configure_region u (q_region q) (q_addr q) (q_len q) (q_ap q) (q_exec q) = Some u' /\ holds u' (l ++ [Configure q]).
Proof.
  intros (H2 & H0 & H) (R & A & L). destruct (configure_regs u (q_region q) (q_addr q) (q_len q) (q_ap q) (q_exec q) ltac:(lia) A L) as (u' & E & C & Rb & Ra & O).
  exists u'. split; [exact E|]. unfold holds. rewrite C, running_snoc. split; [exact H2|]. split; [exact H0|]. intros i Hi. rewrite last_snoc.
  destruct (Z.eqb_spec (q_region q) i) as [<-|N]; [auto|]. destruct (O i ltac:(lia)) as [O1 O2]. specialize (H i Hi). unfold enabled in *. rewrite O1, O2. exact H.
Qed.
Lemma holds_calls cs : forall u l, holds u l -> Forall fits cs -> exists u', calls u cs = Some u' /\ holds u' (l ++ cs).
Proof.
  induction cs as [|c cs IH]; intros u l H F.
  - exists u. rewrite app_nil_r. auto.
  - pose proof (Forall_inv F) as F1. apply Forall_inv_tail in F. replace (l ++ c :: cs) with ((l ++ [c]) ++ cs) by now rewrite <- app_assoc.
    destruct c as [q| |]; cbn [calls].
    + destruct (holds_configure u l q H F1) as (u' & -> & H'). exact (IH u' _ H' F).
    + apply IH; [|exact F]. destruct H as (H2 & H0 & H). unfold holds, mpu_enable, enabled. cbn [ctrl rbar rasr]. rewrite running_snoc, !Z.lor_spec, H2.
      split; [reflexivity|]. split; [apply orb_true_r|]. intros i Hi. rewrite last_snoc. exact (H i Hi).
    + apply IH; [|exact F]. destruct H as (H2 & H0 & H). unfold holds, mpu_disable, enabled. cbn [ctrl rbar rasr]. rewrite running_snoc, !Z.ldiff_spec, H2.
      split; [reflexivity|]. split; [apply andb_false_r|]. intros i Hi. rewrite last_snoc. exact (H i Hi).
Qed.
Lemma holds_covers u l i a : holds u l -> 0 <= i < 8 -> covers u i a = match last_request l i with Some q => inside q a | None => false end.
Proof.
  intros (_ & _ & H) Hi. specialize (H i Hi). unfold covers. destruct (last_request l i) as [q|]; [|now rewrite H]. destruct H as (L & Rb & Ra).
  destruct (fields u i _ _ _ L Ra) as (F1 & F2 & _). rewrite F1, F2, Rb, round_down by lia. reflexivity.
Qed.
Lemma holds_decides u l a priv k regions : holds u l -> Forall (fun i => 0 <= i < 8) regions ->
  match decides u a regions with Some i => Some (region_allows u i priv k) | None => None end =
  match decider l a regions with Some q => Some (granted (q_ap q) (q_exec q) priv k) | None => None end.
Proof.
  intros H F. induction F as [|i regions Hi F IH]; cbn [decides decider]; [reflexivity|]. rewrite (holds_covers u l i a H Hi).
  destruct (last_request l i) as [q|] eqn:Q; [|exact IH]. destruct (inside q a); [|exact IH].
  destruct H as (_ & _ & H). specialize (H i Hi). rewrite Q in H. destruct H as (L & _ & Ra). destruct (fields u i _ _ _ L Ra) as (_ & _ & F3 & F4 & _).
  now rewrite (allows_granted u i _ _ priv k F3 F4).
Qed.
Lemma numbers_range : Forall (fun i => 0 <= i < 8) numbers.
Proof. repeat constructor; discriminate. Qed.
Lemma holds_answer u l default priv k a : holds u l -> allowed default u priv k a = answer default l priv k a.
Proof.
  intro H. pose proof (holds_decides u l a priv k numbers H numbers_range) as D. destruct H as (H2 & H0 & _). unfold allowed, answer. rewrite H0, H2, andb_true_r.
  destruct (running l); [|reflexivity]. destruct (decides u a numbers), (decider l a numbers); congruence.
Qed.
Lemma holds_init u u1 : (forall i, 0 <= i < 8 -> enabled u i = false) -> mpu_init u = Some u1 -> holds u1 init_calls.
Proof.
  intros D I. set (u0 := mkUnit (Z.lor (ctrl u) 4) (rnr u) (rbar u) (rasr u)).
  assert (K : forall q v w l, mpu_configure_region v (q_region q) (q_addr q) (q_len q) (q_ap q) (q_exec q) = Some w ->
    fits (Configure q) -> (forall i, 0 <= i < 8 -> match last_request l i with None => enabled v i = false | Some p => 5 <= q_len p <= 32 /\
      rbar v i = q_addr p - q_addr p mod 32 /\ rasr v i = (if q_exec p then 0 else 2 ^ 28) + ap_value (q_ap p) * 2 ^ 24 + (q_len p - 1) * 2 + 1 end) ->
    ctrl w = ctrl v /\ forall i, 0 <= i < 8 -> match last_request (l ++ [Configure q]) i with None => enabled w i = false | Some p => 5 <= q_len p <= 32 /\
      rbar w i = q_addr p - q_addr p mod 32 /\ rasr w i = (if q_exec p then 0 else 2 ^ 28) + ap_value (q_ap p) * 2 ^ 24 + (q_len p - 1) * 2 + 1 end).
  { intros q v w l E (R & A & L) H. destruct (configure_regs v (q_region q) (q_addr q) (q_len q) (q_ap q) (q_exec q) ltac:(lia) A L) as (u' & E' & C & Rb & Ra & O).
    rewrite E in E'. injection E' as <-. split; [exact C|]. intros i Hi. rewrite last_snoc. destruct (Z.eqb_spec (q_region q) i) as [<-|N]; [auto|].
    destruct (O i ltac:(lia)) as [O1 O2]. specialize (H i Hi). unfold enabled in *. rewrite O1, O2. exact H. }
  unfold mpu_init in I. fold u0 in I. destruct (mpu_configure_region u0 7 0 5 AP_NO_NO false) as [v|] eqn:E1; [|discriminate].
  destruct (mpu_configure_region v 0 (2 ^ 29) 29 AP_RW_RW false) as [w|] eqn:E2; [|discriminate]. injection I as <-.
  destruct (K (mkRequest 7 0 5 AP_NO_NO false) u0 v [] E1 ltac:(cbn; lia)) as [C1 H1]. { intros i Hi. cbn. apply (D i Hi). }
  destruct (K (mkRequest 0 (2 ^ 29) 29 AP_RW_RW false) v w _ E2 ltac:(cbn; lia) H1) as [C2 H2].
  unfold holds, mpu_enable, enabled. cbn [ctrl rbar rasr]. rewrite C2, C1. unfold u0. cbn [ctrl]. rewrite !Z.lor_spec.
  split; [now rewrite orb_true_r|]. split; [apply orb_true_r|]. exact H2.
Qed.

(** C108. Through any calls, each access is answered by the latest requests. *)
Theorem protection_of_calls u u1 cs default : (forall i, 0 <= i < 8 -> enabled u i = false) -> mpu_init u = Some u1 -> Forall fits cs ->
  exists u2, calls u1 cs = Some u2 /\ forall priv k a, allowed default u2 priv k a = answer default (init_calls ++ cs) priv k a.
Proof.
  intros D I F. destruct (holds_calls cs u1 _ (holds_init u u1 D I) F) as (u2 & E & H). exists u2. split; [exact E|]. intros. now apply holds_answer.
Qed.
(** In the middle of a call: a region that no request has used is set up at once. *)
Theorem setup_atomic_partial u u1 cs u2 q default priv k a : (forall i, 0 <= i < 8 -> enabled u i = false) -> mpu_init u = Some u1 -> Forall fits cs ->
  calls u1 cs = Some u2 -> fits (Configure q) -> last_request (init_calls ++ cs) (q_region q) = None ->
  allowed default (mpu_configure_between u2 (q_region q) (q_addr q)) priv k a = answer default (init_calls ++ cs) priv k a.
Proof.
  intros D I F C (R & A & L) N. destruct (holds_calls cs u1 _ (holds_init u u1 D I) F) as (u2' & E & H). rewrite C in E. injection E as <-.
  apply holds_answer. destruct H as (H2 & H0 & H). unfold mpu_configure_between, write_rbar, holds, enabled. cbn [ctrl rbar rasr]. split; [exact H2|]. split; [exact H0|].
  destruct (configure_regs u2 (q_region q) (q_addr q) (q_len q) (q_ap q) (q_exec q) ltac:(lia) A L) as (u' & E & _ & _ & _ & O).
  unfold mpu_configure_region in E. rewrite (proj2 (Z.ltb_ge (q_len q) 5)) in E by lia. injection E as <-. cbn [write_rasr write_rbar rbar rasr] in O.
  intros i Hi. specialize (H i Hi). destruct (Z.eqb_spec i (q_region q)) as [->|Ni].
  - rewrite N in H |- *. exact H.
  - destruct (O i Ni) as [O1 _]. destruct (last_request (init_calls ++ cs) i) as [p|]; [|exact H]. destruct H as (Ha & Hb & Hc).
    split; [exact Ha|]. split; [etransitivity; [exact O1|exact Hb]|exact Hc].
Qed.
(** The call ends with the write of the attributes. *)
Theorem setup_between u region addr len ap x u' : mpu_configure_region u region addr len ap x = Some u' -> exists v, u' = write_rasr (mpu_configure_between u region addr) v.
Proof. unfold mpu_configure_region, mpu_configure_between. destruct (len <? 5); [discriminate|]. intros [= <-]. eexists. reflexivity. Qed.
(** A region that is in use is not moved at once: in between the new base has the old length, and memory that is open before and after is closed. *)
Theorem move_atomic_refuted : exists u1 u2 u3, mpu_init (mkUnit 0 0 (fun _ => 0) (fun _ => 0)) = Some u1 /\
  calls u1 [Configure (mkRequest 1 (2 ^ 29) 10 AP_NO_NO false)] = Some u2 /\ mpu_configure_region u2 1 (2 ^ 29 + 2 ^ 16) 5 AP_NO_NO false = Some u3 /\
  let a := 2 ^ 29 + 2 ^ 16 + 64 in let free := fun _ _ => true in
  allowed free u2 true Write a = true /\ allowed free (mpu_configure_between u2 1 (2 ^ 29 + 2 ^ 16)) true Write a = false /\ allowed free u3 true Write a = true.
Proof.
  do 3 eexists. split; [vm_compute; reflexivity|]. split; [vm_compute; reflexivity|]. split; [vm_compute; reflexivity|].
  split; [vm_compute; reflexivity|]. split; vm_compute; reflexivity.
Qed.
(** Off, on and a region given twice. *)
Example ex_calls : let cs := [Configure (mkRequest 2 (2 ^ 29) 12 AP_RO_RO true); Disable; Configure (mkRequest 2 (2 ^ 29 + 2 ^ 12) 12 AP_RO_NO true); Enable] in
  let free := fun _ _ => true in Forall fits cs /\ last_request (init_calls ++ cs) 4 = None /\
  answer free (init_calls ++ cs) true Fetch (2 ^ 29 + 2 ^ 12) = true /\ answer free (init_calls ++ cs) false Fetch (2 ^ 29 + 2 ^ 12) = false /\
  answer free (init_calls ++ cs) true Fetch (2 ^ 29) = false /\ answer free (init_calls ++ cs) true Read 0 = false /\ answer free (init_calls ++ cs) false Read (2 ^ 27) = false.
Proof. cbv zeta. split; [repeat constructor; cbn; lia|]. repeat split; vm_compute; reflexivity. Qed.
Print Assumptions region_as_asked_partial.
Print Assumptions region_unaligned.
Print Assumptions region_as_asked_refuted.
Print Assumptions region_too_small.
Print Assumptions null_always_faults.
Print Assumptions ram_not_executable.
Print Assumptions rest_default.
Print Assumptions null_unprotected_refuted.
Print Assumptions protection_of_calls.
Print Assumptions setup_atomic_partial.
Print Assumptions setup_between.
Print Assumptions move_atomic_refuted.
