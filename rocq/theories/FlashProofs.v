(** Proofs about the storage of the configuration in flash. *)
From Coq Require Import ZArith NArith List Bool Lia ZifyBool Arith.
From Verif Require Import CBase Buf CrcModel CrcSpec CrcProps CmpModel CmpProofs ParamModel PmsgModel FlashModel FlashSpec.
Import ListNotations.
Local Open Scope Z_scope.
Ltac Zify.zify_post_hook ::= Z.to_euclidean_division_equations.
Notation byte_ok := Buf.byte_ok.
Notation bytes_ok := Buf.bytes_ok.

(** ** Words and checksums *)
Lemma crc_range l : 0 <= crc l < 2 ^ 32.
Proof.
  unfold crc. pose proof (crc32_fits 0xdeadbeef (map Z.to_N l) eq_refl) as H.
  apply N2Z.inj_lt in H. change (Z.of_N (2 ^ 32)) with (2 ^ 32) in H. lia.
Qed.
Lemma val_le32 x : 0 <= x < 2 ^ 32 -> val32 (le32 x) = x.
Proof. intro H. unfold val32, le32. cbn [le_val]. lia. Qed.
Lemma le32_bytes x : bytes_ok (le32 x).
Proof. unfold le32. repeat constructor; apply Z.mod_pos_bound; lia. Qed.
Lemma le32_length x : length (le32 x) = 4%nat. Proof. reflexivity. Qed.
Ltac bys := unfold bytes_ok in *; repeat match goal with H : Forall _ (_ :: _) |- _ => inversion H; clear H; subst end; unfold byte_ok in *.
Lemma four (l : list Z) : length l = 4%nat -> exists a b c d, l = [a; b; c; d].
Proof. destruct l as [|a [|b [|c [|d [|e l]]]]]; try discriminate. eauto. Qed.
Lemma split256 a a' x x' : 0 <= a < 256 -> 0 <= a' < 256 -> a + 256 * x = a' + 256 * x' -> a = a' /\ x = x'.
Proof. intros. destruct (Z.eq_dec x x'); lia. Qed.
Lemma val_inj l l' : length l = 4%nat -> length l' = 4%nat -> bytes_ok l -> bytes_ok l' -> val32 l = val32 l' -> l = l'.
Proof.
  intros L L' B B'. destruct (four _ L) as (a & b & c & d & ->), (four _ L') as (a' & b' & c' & d' & ->).
  bys.
  unfold val32. cbn [le_val]. intro E.
  apply split256 in E as [-> E]; auto. apply split256 in E as [-> E]; auto. apply split256 in E as [-> E]; auto.
  apply split256 in E as [-> _]; auto.
Qed.
Lemma le32_val l : length l = 4%nat -> bytes_ok l -> le32 (val32 l) = l.
Proof.
  intros L B. apply val_inj; auto using le32_bytes. apply val_le32. destruct (four _ L) as (a & b & c & d & ->).
  bys. unfold val32. cbn [le_val]. lia.
Qed.
Lemma crc_inj l l' : length l = 4%nat -> length l' = 4%nat -> bytes_ok l -> bytes_ok l' -> crc l = crc l' -> l = l'.
Proof.
  intros L L' B B' E. destruct (list_eq_dec Z.eq_dec l l') as [|NE]; [assumption|exfalso].
  unfold crc in E. apply N2Z.inj in E. revert E. apply (crc32_detects_bursts _ _ _ 0 32).
  - reflexivity.
  - apply Forall_map. eapply Forall_impl; [|exact B]. intros x H. unfold byte_ok in H. unfold CrcSpec.byte_ok. lia.
  - apply Forall_map. eapply Forall_impl; [|exact B']. intros x H. unfold byte_ok in H. unfold CrcSpec.byte_ok. lia.
  - lia.
  - split; [now rewrite !map_length, L, L'|]. intros i Hi. unfold msg_bit.
    assert (4 <= i / 8)%nat by (apply Nat.div_le_lower_bound; lia).
    rewrite !nth_overflow by (rewrite map_length; lia). reflexivity.
  - intro E. apply NE. clear -E B B'. revert l' E B'. induction l as [|x l IH]; intros [|y l'] E B'; try discriminate; [reflexivity|].
    inversion B; inversion B'; subst. cbn in E. injection E as E1 E2. unfold byte_ok in *. f_equal; [lia|auto].
Qed.

(** ** Slices *)
Lemma bslice_shift pre m i n : 0 <= i -> bslice (pre ++ m) (blen pre + i) n = bslice m i n.
Proof.
  intro Hi. unfold bslice. rewrite blen_app. pose proof (blen_nonneg pre).
  replace ((0 <=? blen pre + i) && (0 <=? n) && (blen pre + i + n <=? blen pre + blen m)) with ((0 <=? i) && (0 <=? n) && (i + n <=? blen m)) by lia.
  destruct (_ && _); [|reflexivity]. do 2 f_equal. rewrite skipn_app.
  replace (Z.to_nat (blen pre + i)) with (length pre + Z.to_nat i)%nat by (unfold blen; lia).
  rewrite skipn_all2 by lia. cbn [app]. f_equal. lia.
Qed.
Lemma bslice_here a b n : n = blen a -> bslice (a ++ b) 0 n = Some a.
Proof.
  intros ->. unfold bslice. rewrite blen_app. pose proof (blen_nonneg a). pose proof (blen_nonneg b).
  replace (_ && _) with true by lia. cbn [skipn Z.to_nat]. now rewrite firstn_blen_app.
Qed.
Lemma bslice_mid a b c i n : i = blen a -> n = blen b -> bslice (a ++ b ++ c) i n = Some b.
Proof. intros -> ->. rewrite <- (Z.add_0_r (blen a)). rewrite bslice_shift by lia. now apply bslice_here. Qed.
Lemma bget_mid a x c i : i = blen a -> bget (a ++ x :: c) i = Some x.
Proof.
  intros ->. unfold bget, blen. replace (0 <=? Z.of_nat (length a)) with true by lia. rewrite Nat2Z.id.
  rewrite nth_error_app2 by lia. now rewrite Nat.sub_diag.
Qed.

(** ** Blocks *)
Lemma valid_shift pre m : block_is_valid (pre ++ m) (blen pre) = block_is_valid m 0.
Proof.
  unfold block_is_valid. rewrite !(bslice_shift _ _ 4), !(bslice_shift _ _ 8) by lia.
  rewrite <- (Z.add_0_r (blen pre)) at 1. rewrite bslice_shift by lia.
  destruct (bslice m 0 4); [|reflexivity]. cbn [fsome fbind]. change (0 + 4) with 4.
  destruct (bslice m 4 4); [|reflexivity]. cbn [fsome fbind]. destruct (negb _); [reflexivity|].
  change (0 + 8) with 8. destruct (bslice m 8 4); [|reflexivity]. cbn [fsome fbind].
  rewrite bslice_shift by lia. reflexivity.
Qed.
Lemma length_shift pre m : block_get_length (pre ++ m) (blen pre) = block_get_length m 0.
Proof. unfold block_get_length. now rewrite bslice_shift by lia. Qed.

Section Header.
Variables (c l c2 r : list Z).
Hypotheses (Hc : length c = 4%nat) (Hl : length l = 4%nat).
Lemma bad_length : val32 c <> crc l -> block_is_valid (c ++ l ++ r) 0 = DONE false.
Proof.
  intro NE. unfold block_is_valid. rewrite bslice_here by (unfold blen; lia). cbn [fsome fbind].
  rewrite bslice_mid by (unfold blen; lia). cbn [fsome fbind].
  replace (val32 c =? crc l) with false by lia. reflexivity.
Qed.
Hypothesis Hc2 : length c2 = 4%nat.
Lemma bad_data d : val32 l = blen d -> val32 c2 <> crc d -> block_is_valid (c ++ l ++ c2 ++ d ++ r) 0 = DONE false.
Proof.
  intros L NE. unfold block_is_valid. rewrite bslice_here by (unfold blen; lia). cbn [fsome fbind].
  rewrite bslice_mid by (unfold blen; lia). cbn [fsome fbind]. destruct (negb _); [reflexivity|].
  rewrite (app_assoc c l). rewrite bslice_mid by (rewrite ?blen_app; unfold blen; lia). cbn [fsome fbind].
  rewrite (app_assoc (c ++ l) c2). rewrite bslice_mid by (rewrite ?blen_app; unfold blen in *; lia). cbn [fsome fbind].
  f_equal. lia.
Qed.
End Header.
Lemma block_length d : blen (block d) = 12 + blen d.
Proof. unfold block. rewrite !blen_app. assert (E : forall x, blen (le32 x) = 4) by reflexivity. rewrite !E. lia. Qed.
Lemma block_valid d r : blen d < 2 ^ 32 -> block_is_valid (block d ++ r) 0 = DONE true /\ block_get_length (block d ++ r) 0 = DONE (blen d).
Proof.
  intro L. pose proof (blen_nonneg d). unfold block. rewrite <- !app_assoc. split.
  - unfold block_is_valid. rewrite bslice_here by reflexivity. cbn [fsome fbind].
    rewrite bslice_mid by reflexivity. cbn [fsome fbind]. rewrite val_le32 by apply crc_range.
    rewrite Z.eqb_refl. cbn [negb]. rewrite (app_assoc (le32 (crc (le32 _)))). rewrite bslice_mid by reflexivity. cbn [fsome fbind].
    rewrite (app_assoc (_ ++ le32 (blen d))). rewrite bslice_mid; [|reflexivity|apply val_le32; lia]. cbn [fsome fbind].
    rewrite val_le32 by apply crc_range. now rewrite Z.eqb_refl.
  - unfold block_get_length. rewrite bslice_mid by reflexivity. cbn [fsome fbind]. now rewrite val_le32 by lia.
Qed.
Lemma image_app a b : image (a ++ b) = image a ++ image b. Proof. apply flat_map_app. Qed.
Lemma image_one d : image [d] = block d. Proof. unfold image. cbn [flat_map]. apply app_nil_r. Qed.

(** ** Walks *)
Section Walk.
Variable r : list Z.
Hypothesis Stop : block_is_valid r 0 = DONE false.
Lemma walk : forall blocks fuel pre last, Forall (fun d => blen d < 2 ^ 32) blocks -> (length blocks < fuel)%nat ->
  find_free fuel (pre ++ image blocks ++ r) (blen pre) = DONE (blen pre + blen (image blocks)) /\
  find_last fuel (pre ++ image blocks ++ r) (blen pre) last =
    DONE (match blocks with [] => last | _ => Some (blen pre + blen (image (removelast blocks))) end).
Proof.
  induction blocks as [|d blocks IH]; intros fuel pre last F L; (destruct fuel as [|fuel]; [cbn in L; lia|]); cbn [find_free find_last].
  - cbn [image flat_map app]. rewrite valid_shift, Stop. cbn [fbind]. rewrite blen_nil, Z.add_0_r. auto.
  - inversion F; subst. cbn [image flat_map]. fold (image blocks). rewrite <- (app_assoc (block d)).
    destruct (block_valid d (image blocks ++ r)) as [V G]; [assumption|].
    rewrite valid_shift, V, length_shift, G. cbn [fbind].
    specialize (IH fuel (pre ++ block d) (Some (blen pre)) ltac:(assumption) ltac:(cbn in L; lia)).
    rewrite <- (app_assoc pre), blen_app, block_length in IH. unfold HEADER_SIZE.
    replace (blen pre + blen d + 12) with (blen pre + (12 + blen d)) by lia. destruct IH as [-> ->]. split.
    + f_equal. rewrite blen_app, block_length. lia.
    + f_equal. destruct blocks as [|d' blocks]; [cbn; f_equal; unfold blen; cbn; lia|].
      change (removelast (d :: d' :: blocks)) with (d :: removelast (d' :: blocks)). cbn [image flat_map].
      f_equal. rewrite blen_app, block_length. unfold image. lia.
Qed.
Lemma image_ge blocks : Z.of_nat (length blocks) <= blen (image blocks).
Proof. induction blocks as [|d b IH]; cbn [image flat_map length]; [rewrite blen_nil; lia|]. rewrite blen_app, block_length. pose proof (blen_nonneg d). fold (image b). lia. Qed.
Lemma walk0 blocks : Forall (fun d => blen d < 2 ^ 32) blocks ->
  block_find_first_free (image blocks ++ r) = DONE (blen (image blocks)) /\
  block_find_last_used (image blocks ++ r) = DONE (match blocks with [] => None | _ => Some (blen (image (removelast blocks))) end).
Proof.
  intro F. unfold block_find_first_free, block_find_last_used.
  apply (walk blocks (S (length (image blocks ++ r))) [] None F). rewrite app_length. pose proof (image_ge blocks). unfold blen in *. lia.
Qed.
Lemma stored_image blocks : Forall (fun d => blen d < 2 ^ 32) blocks -> stored (image blocks ++ r) = DONE (last_of blocks).
Proof.
  intro F. unfold stored. destruct (walk0 blocks F) as [_ ->]. cbn [fbind]. destruct blocks as [|d0 b0]; [reflexivity|].
  destruct (@exists_last _ (d0 :: b0) ltac:(discriminate)) as (b & d & E). rewrite E in *. clear E.
  rewrite removelast_last, image_app, image_one. rewrite <- app_assoc. apply Forall_app in F as [_ F]. inversion F; subst.
  rewrite length_shift. destruct (block_valid d r) as [_ ->]; [assumption|]. cbn [fbind]. unfold HEADER_SIZE. rewrite bslice_shift by lia.
  unfold block. rewrite <- !app_assoc. rewrite (app_assoc (le32 (blen d))), (app_assoc (le32 (crc (le32 _)))).
  rewrite bslice_mid by reflexivity. cbn [fsome fbind]. do 2 f_equal.
  clear. induction b as [|x b IH]; [reflexivity|]. cbn [app]. destruct b; [reflexivity|exact IH].
Qed.
End Walk.

(** An erased place is not a block. *)
Definition FF : list Z := repeat 255 4.
Lemma erased_invalid r : block_is_valid (FF ++ FF ++ r) 0 = DONE false.
Proof. apply bad_length; [reflexivity..|]. vm_compute. discriminate. Qed.
Lemma free_invalid k beyond : quiet beyond -> block_is_valid (repeat 255 k ++ beyond) 0 = DONE false.
Proof.
  intro Q. destruct (le_lt_dec 8 k) as [L|L].
  - replace k with (4 + (4 + (k - 8)))%nat by lia. rewrite 2 repeat_app, <- !app_assoc. apply erased_invalid.
  - destruct (Q k L) as (c & l & r & -> & Lc & Ll & NE). now apply bad_length.
Qed.
