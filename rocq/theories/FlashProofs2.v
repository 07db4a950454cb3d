(** Proofs about saving: what the flash holds afterwards, and after each operation. *)
From Coq Require Import ZArith NArith List Bool Lia ZifyBool Arith.
From Verif Require Import CBase Buf CmpModel ParamModel PmsgModel FlashModel FlashSpec FlashProofs.
Import ListNotations.
Local Open Scope Z_scope.

Section Save.
Variable dst_len : Z.
Notation steps := (steps dst_len).
Notation step := (step dst_len).
Notation save := (save dst_len).

Lemma steps_app m a b : steps m (a ++ b) = (let? m := steps m a in steps m b).
Proof. revert m; induction a as [|o a IH]; intro m; cbn; [reflexivity|]. destruct (step m o); cbn; auto. Qed.
Lemma land_erased b : byte_ok b -> Z.land 255 b = b.
Proof. intro H. rewrite Z.land_comm. change 255 with (Z.ones 8). rewrite Z.land_ones by lia. apply Z.mod_small. exact H. Qed.
Lemma write_erased d : forall pre post a, bytes_ok d -> a = blen pre ->
  steps (pre ++ repeat 255 (length d) ++ post) (flash_write a d) = DONE (pre ++ d ++ post).
Proof.
  induction d as [|b d IH]; intros pre post a B ->; [reflexivity|]. inversion B; subst. cbn [flash_write FlashModel.steps length repeat app].
  unfold FlashModel.step. rewrite bget_mid by reflexivity. cbn [fsome fbind]. rewrite bset_app by reflexivity. cbn [fsome fbind].
  rewrite land_erased by assumption. specialize (IH (pre ++ [b]) post (blen pre + 1) ltac:(assumption)).
  rewrite <- !app_assoc in IH. cbn [app] in IH. apply IH. rewrite blen_app. reflexivity.
Qed.
Lemma flash_write_prefix d : forall a p q, flash_write a d = p ++ q -> exists d1 d2, d = d1 ++ d2 /\ p = flash_write a d1.
Proof.
  induction d as [|b d IH]; intros a p q E; cbn in E.
  - symmetry in E. apply app_eq_nil in E as [-> ->]. exists [], []. auto.
  - destruct p as [|o p]; [exists [], (b :: d); auto|]. cbn in E. injection E as <- E. apply IH in E as (d1 & d2 & -> & ->).
    exists (b :: d1), d2. auto.
Qed.
Lemma app_prefix {A} (a b p q : list A) : a ++ b = p ++ q -> (exists r, a = p ++ r) \/ (exists r, p = a ++ r /\ b = r ++ q).
Proof.
  revert p; induction a as [|x a IH]; intros p E; [right; exists p; auto|]. destruct p as [|y p]; [left; exists (x :: a); reflexivity|].
  cbn in E. injection E as <- E. apply IH in E as [(r & ->)|(r & -> & ->)]; [left; exists r; reflexivity|right; exists r; auto].
Qed.
Lemma erase area beyond : blen area = dst_len -> step (area ++ beyond) Erase = DONE (repeat 255 (Z.to_nat dst_len) ++ beyond).
Proof.
  intro L. unfold FlashModel.step. rewrite blen_app. pose proof (blen_nonneg beyond). replace (dst_len <=? _) with true by lia.
  rewrite <- L. now rewrite skipn_blen_app.
Qed.
Lemma writes_in_area a d : 0 <= a -> a + blen d <= dst_len -> Forall (in_area dst_len) (flash_write a d).
Proof.
  revert a; induction d as [|b d IH]; intros a Ha L; cbn; [constructor|]. rewrite blen_cons in L. pose proof (blen_nonneg d).
  constructor; [cbn; lia|]. apply IH; lia.
Qed.

(** ** One block *)
Definition header_ops (dst : Z) (d : list Z) : list fop :=
  flash_write dst (le32 (crc (le32 (blen d)))) ++ flash_write (dst + 4) (le32 (blen d)) ++ flash_write (dst + 8) (le32 (crc d)).
Lemma write_word pre x a r : a = blen pre -> steps (pre ++ FF ++ r) (flash_write a (le32 x)) = DONE (pre ++ le32 x ++ r).
Proof. intro E. apply (write_erased (le32 x)); auto using le32_bytes. Qed.
Lemma len4 x : blen (le32 x) = 4. Proof. reflexivity. Qed.
Lemma header_ok pre d r : 
  write_block_header dst_len (pre ++ FF ++ FF ++ FF ++ d ++ r) (blen pre) (blen d) = DONE (header_ops (blen pre) d) /\
  steps (pre ++ FF ++ FF ++ FF ++ d ++ r) (header_ops (blen pre) d) = DONE (pre ++ block d ++ r).
Proof.
  assert (E : steps (pre ++ FF ++ FF ++ FF ++ d ++ r)
      (flash_write (blen pre) (le32 (crc (le32 (blen d)))) ++ flash_write (blen pre + 4) (le32 (blen d)))
    = DONE (pre ++ le32 (crc (le32 (blen d))) ++ le32 (blen d) ++ FF ++ d ++ r)).
  { rewrite steps_app, write_word by reflexivity. cbn [fbind]. rewrite app_assoc. rewrite write_word; [now rewrite <- app_assoc|].
    rewrite blen_app, len4. reflexivity. }
  split.
  - unfold write_block_header. rewrite E. cbn [fbind].
    rewrite (app_assoc pre), (app_assoc (pre ++ _)), (app_assoc (_ ++ le32 (blen d))).
    rewrite bslice_mid; [|rewrite !blen_app, !len4; change (blen FF) with 4; unfold HEADER_SIZE; lia|reflexivity]. cbn [fsome fbind].
    unfold header_ops. now rewrite <- app_assoc.
  - unfold header_ops. rewrite (app_assoc (flash_write (blen pre) _)), steps_app, E. cbn [fbind].
    rewrite (app_assoc pre), (app_assoc (pre ++ _)). rewrite write_word by (rewrite !blen_app, !len4; lia).
    unfold block. now rewrite <- !app_assoc.
Qed.
Lemma repeat12 n t : repeat 255 (12 + n + t) = FF ++ FF ++ FF ++ repeat 255 n ++ repeat 255 t.
Proof. unfold FF. rewrite <- !repeat_app. reflexivity. Qed.
Lemma data_ok pre bs k r : bytes_ok bs -> 12 + blen bs <= Z.of_nat k ->
  steps (pre ++ repeat 255 k ++ r) (flash_write (blen pre + HEADER_SIZE) bs)
  = DONE (pre ++ FF ++ FF ++ FF ++ bs ++ repeat 255 (k - 12 - length bs) ++ r).
Proof.
  intros B L. unfold blen in L. replace k with (12 + length bs + (k - 12 - length bs))%nat at 1 by lia. rewrite repeat12, <- !app_assoc.
  rewrite (app_assoc pre), (app_assoc (pre ++ _)), (app_assoc (_ ++ FF)).
  rewrite write_erased; [now rewrite <- !app_assoc|exact B|]. rewrite !blen_app. change (blen FF) with 4. unfold HEADER_SIZE. lia.
Qed.

Lemma odd_mod n : Z.odd n = false -> n mod 2 =? 1 = false. Proof. rewrite Zmod_odd. now intros ->. Qed.
Lemma odd_mod1 n : Z.odd n = true -> n mod 2 =? 1 = true. Proof. rewrite Zmod_odd. now intros ->. Qed.

Variable beyond : list Z.
Hypotheses (Q : quiet beyond) (Len : 0 <= dst_len < 2 ^ 32).
Definition first_ops (blocks : list (list Z)) : list fop := match blocks with [] => [Erase] | _ => [] end.
Lemma first_ok blocks k : blen (image blocks) + Z.of_nat k = dst_len ->
  steps (image blocks ++ repeat 255 k ++ beyond) (first_ops blocks) = DONE (image blocks ++ repeat 255 k ++ beyond).
Proof.
  intro L. destruct blocks; [|reflexivity]. cbn [first_ops FlashModel.steps image flat_map app]. cbn in L.
  rewrite erase by (unfold blen in *; rewrite repeat_length; cbn in L; lia). cbn [fbind]. do 3 f_equal. unfold blen in L. cbn in L. lia.
Qed.
Lemma find_ok blocks k : Forall (fun d => blen d < 2 ^ 32) blocks ->
  block_find_first_free (image blocks ++ repeat 255 k ++ beyond) = DONE (blen (image blocks)) /\
  exists o, block_find_last_used (image blocks ++ repeat 255 k ++ beyond) = DONE o /\
    match o with None => [Erase] | Some _ => [] end = first_ops blocks.
Proof.
  intro F. destruct (walk0 _ (free_invalid k _ Q) blocks F) as [H1 H2]. split; [exact H1|].
  eexists. split; [exact H2|]. now destruct blocks.
Qed.

Variable out : Z -> fres (list Z * bool).
Variable bs : list Z.
Hypotheses (SA : saves_as dst_len out bs) (NE : bs <> []) (Fits : 12 + blen bs <= dst_len).
Lemma bs_pos : 0 < blen bs. Proof. unfold blen. destruct bs; [easy|cbn [length]; lia]. Qed.

(** There is room after the blocks. *)
Lemma save_fits fuel blocks k : Z.odd (blen bs) = false -> Forall (fun d => blen d < 2 ^ 32) blocks ->
  blen (image blocks) + Z.of_nat k = dst_len -> 12 + blen bs <= Z.of_nat k ->
  save (S fuel) dst_len out (image blocks ++ repeat 255 k ++ beyond) =
    DONE (first_ops blocks ++ flash_write (blen (image blocks) + HEADER_SIZE) bs ++ header_ops (blen (image blocks)) bs) /\
  steps (image blocks ++ repeat 255 k ++ beyond)
    (first_ops blocks ++ flash_write (blen (image blocks) + HEADER_SIZE) bs ++ header_ops (blen (image blocks)) bs)
  = DONE (image (blocks ++ [bs]) ++ repeat 255 (k - 12 - length bs) ++ beyond).
Proof.
  intros Ev F L Lk. destruct SA as (B & S1 & _). pose proof bs_pos as P. pose proof (blen_nonneg (image blocks)).
  destruct (find_ok blocks k F) as (FF1 & o & FL & EO). pose proof (data_ok (image blocks) bs k beyond B Lk) as D.
  destruct (header_ok (image blocks) bs (repeat 255 (k - 12 - length bs) ++ beyond)) as [HO HS]. split.
  - cbn [FlashModel.save]. rewrite FL. cbn [fbind]. rewrite EO, first_ok by assumption. cbn [fbind]. rewrite FF1. cbn [fbind].
    replace (u32 (dst_len - blen (image blocks))) with (Z.of_nat k) by (unfold u32; rewrite uN_id; lia).
    replace (Z.of_nat k <=? HEADER_SIZE) with false by (unfold HEADER_SIZE; lia). cbn [FlashModel.steps fbind].
    rewrite S1 by (unfold u32, HEADER_SIZE; rewrite uN_id; lia). cbn [fbind]. rewrite D. cbn [fbind negb].
    rewrite odd_mod by exact Ev. cbn [FlashModel.steps fbind]. rewrite HO. cbn [fbind app]. reflexivity.
  - rewrite steps_app, first_ok by assumption. cbn [fbind]. rewrite steps_app, D. cbn [fbind]. rewrite HS.
    rewrite image_app, image_one, <- app_assoc. reflexivity.
Qed.

(** What a save does, in all cases. *)
Lemma save_even blocks m : Z.odd (blen bs) = false -> holds dst_len m blocks beyond ->
  exists ops m', save 2 dst_len out m = DONE ops /\ steps m ops = DONE m' /\ Forall (in_area dst_len) ops /\
    holds dst_len m' (if blen (image blocks) + 12 + blen bs <=? dst_len then blocks ++ [bs] else [bs]) beyond.
Proof.
  intros Ev (k & -> & L & F). pose proof bs_pos as P. pose proof (blen_nonneg (image blocks)) as Pi. assert (Bl : blen bs < 2 ^ 32) by lia.
  assert (HA : forall pre, 0 <= pre -> pre + 12 + blen bs <= dst_len -> Forall (in_area dst_len) (flash_write (pre + HEADER_SIZE) bs ++ header_ops pre bs)).
  { intros pre P0 P1. apply Forall_app. split; [apply writes_in_area; unfold HEADER_SIZE; lia|]. unfold header_ops.
    apply Forall_app. split; [|apply Forall_app; split]; apply writes_in_area; rewrite ?len4; lia. }
  assert (FA : Forall (in_area dst_len) (first_ops blocks)) by (destruct blocks; cbn; repeat constructor).
  destruct (blen (image blocks) + 12 + blen bs <=? dst_len) eqn:C.
  - destruct (save_fits 1 blocks k Ev F L ltac:(lia)) as [S1 S2]. eexists _, _. split; [exact S1|]. split; [exact S2|].
    split; [apply Forall_app; split; [exact FA|apply HA; lia]|].
    exists (k - 12 - length bs)%nat. split; [reflexivity|]. split; [rewrite image_app, image_one, blen_app, block_length; unfold blen in *; lia|].
    apply Forall_app. auto.
  - destruct (find_ok blocks k F) as (FF1 & o & FL & EO).
    set (N := Z.to_nat dst_len).
    assert (EM : forall pre, blen pre = dst_len -> step (pre ++ beyond) Erase = DONE (image [] ++ repeat 255 N ++ beyond)) by (intros; now apply erase).
    assert (E0 : step (image blocks ++ repeat 255 k ++ beyond) Erase = DONE (image [] ++ repeat 255 N ++ beyond)).
    { rewrite app_assoc. apply EM. rewrite blen_app. unfold blen at 2. rewrite repeat_length. exact L. }
    destruct (save_fits 0 [] N Ev ltac:(constructor) ltac:(unfold N, blen; cbn; lia) ltac:(unfold N; lia)) as [S1 S2].
    assert (HH : forall m'', m'' = image ([] ++ [bs]) ++ repeat 255 (N - 12 - length bs) ++ beyond -> holds dst_len m'' [bs] beyond).
    { intros m'' ->. exists (N - 12 - length bs)%nat. split; [reflexivity|]. split; [|auto].
      rewrite image_one, block_length. unfold N, blen in *. lia. }
    destruct (Z_le_gt_dec (Z.of_nat k) 12) as [K|K].
    + (* not even a header *)
      destruct (header_ok [] bs (repeat 255 (N - 12 - length bs) ++ beyond)) as [HO HS].
      destruct SA as (B & SS & _). pose proof (data_ok [] bs N beyond B ltac:(unfold N; lia)) as D.
      eexists (first_ops blocks ++ [Erase] ++ flash_write (0 + HEADER_SIZE) bs ++ [] ++ header_ops 0 bs), _. split; [|split; [|split]].
      * cbn [FlashModel.save]. rewrite FL. cbn [fbind]. rewrite EO, first_ok by assumption. cbn [fbind]. rewrite FF1. cbn [fbind].
        replace (u32 (dst_len - blen (image blocks))) with (Z.of_nat k) by (unfold u32; rewrite uN_id; lia).
        replace (Z.of_nat k <=? HEADER_SIZE) with true by (unfold HEADER_SIZE; lia). cbn [FlashModel.steps]. rewrite E0. cbn [fbind].
        rewrite SS by (unfold u32, HEADER_SIZE; rewrite uN_id; lia). cbn [fbind].
        change (image [] ++ repeat 255 N ++ beyond) with ([] ++ repeat 255 N ++ beyond). change (0 + HEADER_SIZE) with (blen [] + HEADER_SIZE).
        rewrite D. cbn [fbind negb]. rewrite odd_mod by exact Ev. cbn [FlashModel.steps fbind]. change 0 with (blen []) in HO |- *. rewrite HO. reflexivity.
      * rewrite steps_app, first_ok by assumption. cbn [fbind]. rewrite steps_app. cbn [FlashModel.steps]. rewrite E0. cbn [fbind app].
        rewrite steps_app. change (image [] ++ repeat 255 N ++ beyond) with ([] ++ repeat 255 N ++ beyond). change (0 + HEADER_SIZE) with (blen [] + HEADER_SIZE).
        rewrite D. cbn [fbind]. change (header_ops 0 bs) with (header_ops (blen []) bs). exact HS.
      * apply Forall_app. split; [exact FA|]. constructor; [exact I|]. apply (HA 0); lia.
      * apply HH. rewrite image_app, image_one. reflexivity.
    + destruct SA as (B & SS & SR). destruct (SR (Z.of_nat k - 12) ltac:(lia)) as (l & El & Ll & Bl').
      pose proof (data_ok (image blocks) l k beyond Bl' ltac:(lia)) as D.
      assert (E1 : step (image blocks ++ FF ++ FF ++ FF ++ l ++ repeat 255 (k - 12 - length l) ++ beyond) Erase = DONE (image [] ++ repeat 255 N ++ beyond)).
      { rewrite !app_assoc. rewrite <- app_assoc. rewrite app_assoc. rewrite <- (app_assoc _ _ beyond). rewrite app_assoc. apply EM. rewrite !blen_app. change (blen FF) with 4. unfold blen in *. rewrite repeat_length. lia. }
      eexists (first_ops blocks ++ [] ++ flash_write (blen (image blocks) + HEADER_SIZE) l ++ Erase :: _), _. split; [|split; [|split]].
      * revert S1. generalize 1%nat as f1. intros f1 S1. cbn [FlashModel.save]. rewrite FL. cbn [fbind]. rewrite EO, first_ok by assumption. cbn [fbind]. rewrite FF1. cbn [fbind].
        replace (u32 (dst_len - blen (image blocks))) with (Z.of_nat k) by (unfold u32; rewrite uN_id; lia).
        replace (Z.of_nat k <=? HEADER_SIZE) with false by (unfold HEADER_SIZE; lia). cbn [FlashModel.steps fbind].
        replace (u32 (Z.of_nat k - HEADER_SIZE)) with (Z.of_nat k - 12) by (unfold u32, HEADER_SIZE; rewrite uN_id; lia).
        rewrite El. cbn [fbind]. rewrite D. cbn [fbind negb]. rewrite E1. cbn [fbind]. rewrite S1. cbn [fbind]. reflexivity.
      * rewrite steps_app, first_ok by assumption. cbn [fbind app]. rewrite steps_app, D. cbn [fbind FlashModel.steps]. rewrite E1. cbn [fbind]. exact S2.
      * apply Forall_app. split; [exact FA|]. cbn [app]. apply Forall_app. split; [apply writes_in_area; unfold HEADER_SIZE; lia|].
        constructor; [exact I|]. cbn [first_ops]. constructor; [exact I|]. apply (HA 0); lia.
      * now apply HH.
Qed.

(** ** A crash *)
Lemma K_crc : crc FF = 3303096572. Proof. vm_compute. reflexivity. Qed.
Lemma partial_word x w1 w2 : le32 x = w1 ++ w2 -> length (w1 ++ repeat 255 (length w2)) = 4%nat /\ bytes_ok (w1 ++ repeat 255 (length w2)) /\
  FF = repeat 255 (length w1) ++ repeat 255 (length w2) /\ bytes_ok w1.
Proof.
  intro E. pose proof (f_equal (@length _) E) as L. rewrite app_length, le32_length in L. pose proof (le32_bytes x) as B. rewrite E in B.
  apply Forall_app in B as [B _]. split; [rewrite app_length, repeat_length; lia|]. split; [|split; [|exact B]].
  - apply Forall_app. split; [exact B|]. apply Forall_forall. intros b Hb. apply repeat_spec in Hb. subst. unfold byte_ok. lia.
  - rewrite <- repeat_app. unfold FF. f_equal. lia.
Qed.
Lemma partial_crc l w1 w2 : length l = 4%nat -> bytes_ok l -> l <> FF -> le32 (crc l) = w1 ++ w2 -> val32 (w1 ++ repeat 255 (length w2)) <> crc FF.
Proof.
  intros L B NF E. destruct w2 as [|b w2].
  - rewrite app_nil_r in E. cbn [length repeat]. rewrite app_nil_r, <- E, val_le32 by apply crc_range. intro C. apply NF.
    apply crc_inj; auto. repeat constructor; unfold byte_ok; lia.
  - destruct (partial_word _ _ _ E) as (L4 & B4 & _ & _). rewrite K_crc.
    destruct (@exists_last _ (w1 ++ repeat 255 (length (b :: w2)))) as (w & y & Ew).
    { destruct w1; discriminate. }
    assert (y = 255).
    { cbn [length] in Ew. replace (S (length w2)) with (length w2 + 1)%nat in Ew by lia. rewrite repeat_app, app_assoc in Ew.
      apply app_inj_tail in Ew as [_ Ew]. now symmetry. }
    subst y. rewrite Ew in *. rewrite app_length in L4. cbn [length] in L4.
    destruct w as [|w0 [|w1' [|w2' [|w3 w]]]]; cbn [length] in L4; try lia. cbn [app] in *. unfold bytes_ok in B4.
    repeat match goal with H : Forall _ (_ :: _) |- _ => inversion H; clear H; subst end. unfold byte_ok in *. unfold val32. cbn [le_val]. lia.
Qed.
Section Crash.
Variables (blocks : list (list Z)) (R : list Z).
Hypotheses (F : Forall (fun d => blen d < 2 ^ 32) blocks) (Stop : block_is_valid R 0 = DONE false).
Let n := blen bs.
Definition acceptable (m' : list Z) : Prop := stored m' = DONE (last_of blocks) \/ stored m' = DONE (Some bs).
Lemma last_of_app {A} (l : list A) x : last_of (l ++ [x]) = Some x.
Proof. induction l as [|y l IH]; [reflexivity|]. cbn [app]. destruct l; [reflexivity|exact IH]. Qed.
Lemma old_state r : block_is_valid r 0 = DONE false -> acceptable (image blocks ++ r).
Proof. intro H. left. now apply stored_image. Qed.
Lemma new_state c2 : length c2 = 4%nat -> bytes_ok c2 ->
  acceptable (image blocks ++ le32 (crc (le32 n)) ++ le32 n ++ c2 ++ bs ++ R).
Proof.
  intros L B. assert (n < 2 ^ 32) by (unfold n; lia). pose proof bs_pos. destruct (Z.eq_dec (val32 c2) (crc bs)) as [E|E].
  - right. rewrite <- (le32_val c2 L B), E.
    replace (image blocks ++ _) with (image (blocks ++ [bs]) ++ R) by (rewrite image_app, image_one; unfold block; now rewrite <- !app_assoc).
    rewrite stored_image; [now rewrite last_of_app|exact Stop|apply Forall_app; auto].
  - apply old_state. apply bad_data; auto. unfold n in *. rewrite val_le32; lia.
Qed.
Lemma crash_header p q : header_ops (blen (image blocks)) bs = p ++ q ->
  exists m', steps (image blocks ++ FF ++ FF ++ FF ++ bs ++ R) p = DONE m' /\ acceptable m'.
Proof.
  intro E. unfold header_ops in E. assert (Pn : 0 < n < 2 ^ 32) by (pose proof bs_pos; unfold n; lia).
  assert (NF : le32 n <> FF).
  { intro C. apply (f_equal val32) in C. rewrite val_le32 in C by lia. change (val32 FF) with 4294967295 in C. unfold n in *. lia. }
  apply app_prefix in E as [(r & E)|(r & -> & E)].
  - apply flash_write_prefix in E as (w1 & w2 & E & ->). destruct (partial_word _ _ _ E) as (L4 & B4 & EF & Bw).
    eexists. split.
    + rewrite EF at 1. rewrite <- app_assoc. rewrite write_erased by auto. reflexivity.
    + apply old_state. rewrite app_assoc. apply bad_length; auto. apply (partial_crc (le32 n)); [reflexivity|apply le32_bytes|exact NF|exact E].
  - rewrite steps_app, write_word by reflexivity. cbn [fbind].
    apply app_prefix in E as [(r' & E)|(r' & -> & E)].
    + apply flash_write_prefix in E as (w1 & w2 & E & ->). destruct (partial_word _ _ _ E) as (L4 & B4 & EF & Bw).
      eexists. split.
      * rewrite EF at 1. rewrite <- app_assoc. rewrite (app_assoc (image blocks)). rewrite write_erased; [reflexivity|auto|rewrite blen_app, len4; lia].
      * rewrite <- app_assoc. rewrite (app_assoc w1). destruct (list_eq_dec Z.eq_dec (w1 ++ repeat 255 (length w2)) (le32 n)) as [->|NEq].
        -- apply new_state; [reflexivity|]. repeat constructor; unfold byte_ok; lia.
        -- apply old_state. apply bad_length; auto. rewrite val_le32 by apply crc_range. intro C. apply NEq. symmetry.
           apply crc_inj; auto using le32_bytes.
    + rewrite (app_assoc (image blocks)). rewrite steps_app, write_word by (rewrite blen_app, len4; lia). cbn [fbind].
      apply flash_write_prefix in E as (w1 & w2 & E & ->). destruct (partial_word _ _ _ E) as (L4 & B4 & EF & Bw).
      eexists. split.
      * rewrite EF at 1. rewrite <- (app_assoc (repeat 255 (length w1))). rewrite (app_assoc (image blocks ++ _)).
        rewrite write_erased; [reflexivity|auto|rewrite !blen_app, !len4; lia].
      * rewrite <- !app_assoc. rewrite (app_assoc w1). now apply new_state.
Qed.
End Crash.
Lemma crash blocks k p q : Forall (fun d => blen d < 2 ^ 32) blocks ->
  blen (image blocks) + Z.of_nat k = dst_len -> 12 + blen bs <= Z.of_nat k ->
  first_ops blocks ++ flash_write (blen (image blocks) + HEADER_SIZE) bs ++ header_ops (blen (image blocks)) bs = p ++ q ->
  exists m', steps (image blocks ++ repeat 255 k ++ beyond) p = DONE m' /\ acceptable blocks m'.
Proof.
  intros F L Lk E. pose proof (free_invalid k _ Q) as Stop. destruct SA as (B & _ & _).
  assert (Hnil : acceptable blocks (image blocks ++ repeat 255 k ++ beyond)) by (now apply old_state).
  apply app_prefix in E as [(r & E)|(r & -> & E)].
  - destruct p as [|o p]; [eexists; split; [reflexivity|exact Hnil]|]. destruct blocks; [|discriminate]. cbn in E. injection E as <- E.
    symmetry in E. apply app_eq_nil in E as [-> _]. eexists. split; [apply (first_ok []); exact L|exact Hnil].
  - rewrite steps_app, first_ok by assumption. cbn [fbind]. apply app_prefix in E as [(r' & E)|(r' & -> & E)].
    + apply flash_write_prefix in E as (d1 & d2 & -> & ->). apply Forall_app in B as [B1 B2]. rewrite blen_app in *. pose proof (blen_nonneg d2).
      eexists. split; [apply data_ok; [exact B1|lia]|]. apply old_state; [exact F|]. apply erased_invalid.
    + rewrite steps_app, data_ok by auto. cbn [fbind]. eapply crash_header; eauto. now apply free_invalid.
Qed.

(** ** An odd number of bytes *)
Lemma save_odd blocks m : Z.odd (blen bs) = true -> holds dst_len m blocks beyond -> blen (image blocks) + 12 + blen bs + 9 <= dst_len ->
  exists ops m', save 1 dst_len out m = DONE ops /\ steps m ops = DONE m' /\ Forall (in_area dst_len) ops /\
    stored m' = DONE (Some (bs ++ [255])).
Proof.
  intros Od (k & -> & L & F) Lk. destruct SA as (B & S1 & _). pose proof bs_pos as P. pose proof (blen_nonneg (image blocks)).
  destruct (find_ok blocks k F) as (FF1 & o & FL & EO). pose proof (data_ok (image blocks) bs k beyond B ltac:(lia)) as D.
  set (t := (k - 12 - length bs)%nat) in *. assert (Lt : (9 <= t)%nat) by (unfold t, blen in *; lia).
  assert (Et : repeat 255 t ++ beyond = [255] ++ 255 :: FF ++ repeat 255 (t - 6) ++ beyond).
  { replace t with (1 + (1 + (4 + (t - 6))))%nat at 1 by lia. rewrite 3 repeat_app, <- !app_assoc. reflexivity. }
  assert (PD : steps (image blocks ++ FF ++ FF ++ FF ++ bs ++ repeat 255 t ++ beyond) (flash_write (blen (image blocks) + blen bs + HEADER_SIZE + 1) [0])
    = DONE (image blocks ++ FF ++ FF ++ FF ++ (bs ++ [255]) ++ 0 :: FF ++ repeat 255 (t - 6) ++ beyond)).
  { rewrite Et. cbn [flash_write FlashModel.steps]. unfold FlashModel.step.
    rewrite <- (app_assoc bs). 
    replace (image blocks ++ FF ++ FF ++ FF ++ bs ++ [255] ++ 255 :: FF ++ repeat 255 (t - 6) ++ beyond)
      with ((image blocks ++ FF ++ FF ++ FF ++ bs ++ [255]) ++ 255 :: FF ++ repeat 255 (t - 6) ++ beyond) by now rewrite <- !app_assoc.
    assert (EA : blen (image blocks) + blen bs + HEADER_SIZE + 1 = blen (image blocks ++ FF ++ FF ++ FF ++ bs ++ [255])).
    { rewrite !blen_app. change (blen FF) with 4. change (blen [255]) with 1. unfold HEADER_SIZE. lia. }
    rewrite bget_mid by exact EA. cbn [fsome fbind]. rewrite bset_app by exact EA. cbn [fsome fbind]. rewrite Z.land_0_r. now rewrite <- !app_assoc. }
  destruct (header_ok (image blocks) (bs ++ [255]) (0 :: FF ++ repeat 255 (t - 6) ++ beyond)) as [HO HS].
  assert (EL : blen (bs ++ [255]) = blen bs + 1) by (rewrite blen_app; reflexivity). rewrite EL in HO.
  eexists (first_ops blocks ++ [] ++ flash_write (blen (image blocks) + HEADER_SIZE) bs ++
           flash_write (blen (image blocks) + blen bs + HEADER_SIZE + 1) [0] ++ header_ops (blen (image blocks)) (bs ++ [255])), _.
  split; [|split; [|split]].
  - cbn [FlashModel.save]. rewrite FL. cbn [fbind]. rewrite EO, first_ok by assumption. cbn [fbind]. rewrite FF1. cbn [fbind].
    replace (u32 (dst_len - blen (image blocks))) with (Z.of_nat k) by (unfold u32; rewrite uN_id; lia).
    replace (Z.of_nat k <=? HEADER_SIZE) with false by (unfold HEADER_SIZE; lia). cbn [FlashModel.steps fbind].
    rewrite S1 by (unfold u32, HEADER_SIZE; rewrite uN_id; lia). cbn [fbind]. rewrite D. cbn [fbind negb].
    rewrite odd_mod1 by exact Od. rewrite PD. cbn [fbind]. rewrite HO. cbn [fbind app]. reflexivity.
  - rewrite steps_app, first_ok by assumption. cbn [fbind app]. rewrite steps_app, D. cbn [fbind]. rewrite steps_app, PD. cbn [fbind]. rewrite HS. reflexivity.
  - apply Forall_app. split; [destruct blocks; repeat constructor|]. cbn [app].
    apply Forall_app. split; [apply writes_in_area; unfold HEADER_SIZE; lia|].
    apply Forall_app. split; [apply writes_in_area; unfold HEADER_SIZE; change (blen [0]) with 1; lia|]. unfold header_ops.
    apply Forall_app. split; [|apply Forall_app; split]; apply writes_in_area; rewrite ?len4; lia.
  - replace (image blocks ++ block (bs ++ [255]) ++ 0 :: FF ++ repeat 255 (t - 6) ++ beyond)
      with (image (blocks ++ [bs ++ [255]]) ++ 0 :: FF ++ repeat 255 (t - 6) ++ beyond) by (rewrite image_app, image_one, <- app_assoc; reflexivity).
    rewrite stored_image; [now rewrite last_of_app| |apply Forall_app; split; [exact F|constructor; [rewrite EL; lia|constructor]]].
    replace (t - 6)%nat with (3 + (t - 9))%nat by lia. rewrite repeat_app, <- app_assoc.
    change (0 :: FF ++ repeat 255 3 ++ repeat 255 (t - 9) ++ beyond) with ([0; 255; 255; 255] ++ FF ++ repeat 255 (t - 9) ++ beyond).
    apply bad_length; [reflexivity..|]. rewrite K_crc. vm_compute. discriminate.
Qed.
End Save.
