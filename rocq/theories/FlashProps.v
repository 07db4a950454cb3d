(** Theorems about the configuration stored in flash (C21, C22). *)
From Coq Require Import ZArith List Bool Lia ZifyBool Arith.
From Verif Require Import CBase Buf CmpModel ParamModel ParamSpec ParamProofs PmsgModel PmsgSpec PmsgProofs2 PmsgProps
  FlashModel FlashSpec FlashProofs FlashProofs2.
Import ListNotations.
Local Open Scope Z_scope.

(** A configuration whose document is [bs]: not empty, of even length, and that fits in the area. *)
Definition good_save (dst_len : Z) (out : Z -> fres (list Z * bool)) (bs : list Z) : Prop :=
  saves_as dst_len out bs /\ bs <> [] /\ Z.odd (blen bs) = false /\ 12 + blen bs <= dst_len.

(** ** C22: saves one after the other *)

(** Whatever the area holds, after any sequence of saves what is found is the last one; saves only change
    bytes of the area. Only documents of even length, see the refutation below. *)
Theorem flash_saves_partial dst_len beyond : quiet beyond -> 0 <= dst_len < 2 ^ 32 ->
  forall outs docs blocks m, Forall2 (good_save dst_len) outs docs -> holds dst_len m blocks beyond ->
  exists m' blocks', save_all 2 dst_len outs m = DONE m' /\ holds dst_len m' blocks' beyond /\
    stored m' = DONE (last_of (blocks ++ docs)) /\ skipn (Z.to_nat dst_len) m' = skipn (Z.to_nat dst_len) m.
Proof.
  intros Q Len.
  assert (SK : forall m blocks, holds dst_len m blocks beyond -> skipn (Z.to_nat dst_len) m = beyond).
  { intros m blocks (k & -> & L & _). rewrite app_assoc.
    replace (Z.to_nat dst_len) with (length (image blocks ++ repeat 255 k)) by (rewrite app_length, repeat_length; unfold blen in *; lia).
    rewrite skipn_app, skipn_all, Nat.sub_diag. reflexivity. }
  assert (LA : forall (l : list (list Z)) x, last_of (l ++ [x]) = Some x).
  { induction l as [|y l IH]; intro x; [reflexivity|]. cbn [app]. specialize (IH x). destruct (l ++ [x]) eqn:E; [now destruct l|]. exact IH. }
  assert (LB : forall (a b c : list (list Z)), last_of a = last_of b -> last_of (a ++ c) = last_of (b ++ c)).
  { intros a b c H. destruct c as [|z c]; [now rewrite !app_nil_r|].
    destruct (@exists_last _ (z :: c) ltac:(discriminate)) as (c' & y & ->). now rewrite !app_assoc, !LA. }
  intros outs docs blocks m F. revert blocks m. induction F as [|out bs outs docs (SA & NE & Ev & Fi) F IH]; intros blocks m H.
  - exists m, blocks. split; [reflexivity|]. split; [exact H|]. split; [|reflexivity]. rewrite app_nil_r.
    destruct H as (k & -> & L & Fb). apply stored_image; [now apply free_invalid|exact Fb].
  - destruct (save_even dst_len beyond Q Len out bs SA NE Fi blocks m Ev H) as (ops & m1 & S1 & S2 & _ & H1).
    destruct (IH _ _ H1) as (m' & blocks' & E & H' & ST & _). exists m', blocks'. cbn [save_all]. rewrite S1. cbn [fbind]. rewrite S2. cbn [fbind].
    split; [exact E|]. split; [exact H'|]. split.
    + rewrite ST. f_equal. change (blocks ++ bs :: docs) with (blocks ++ [bs] ++ docs). rewrite app_assoc. apply LB.
      rewrite LA. destruct (_ <=? _); [apply LA|reflexivity].
    + now rewrite (SK _ _ H'), (SK _ _ H).
Qed.

(** Every operation of a save is in the area. *)
Theorem flash_save_in_area_partial dst_len beyond blocks m out bs : quiet beyond -> 0 <= dst_len < 2 ^ 32 ->
  good_save dst_len out bs -> holds dst_len m blocks beyond ->
  exists ops, save dst_len 2 dst_len out m = DONE ops /\ Forall (in_area dst_len) ops.
Proof.
  intros Q Len (SA & NE & Ev & Fi) H. destruct (save_even dst_len beyond Q Len out bs SA NE Fi blocks m Ev H) as (ops & m1 & S1 & _ & A & _). eauto.
Qed.

(** The area is used up to its end: a save only erases it when the document does not fit after the blocks. *)
Theorem flash_appends dst_len beyond blocks m out bs : quiet beyond -> 0 <= dst_len < 2 ^ 32 ->
  good_save dst_len out bs -> holds dst_len m blocks beyond -> blen (image blocks) + 12 + blen bs <= dst_len ->
  exists m', save_all 2 dst_len [out] m = DONE m' /\ holds dst_len m' (blocks ++ [bs]) beyond.
Proof.
  intros Q Len (SA & NE & Ev & Fi) H L. destruct (save_even dst_len beyond Q Len out bs SA NE Fi blocks m Ev H) as (ops & m1 & S1 & S2 & _ & H1).
  exists m1. cbn [save_all]. rewrite S1. cbn [fbind]. rewrite S2. cbn [fbind]. split; [reflexivity|].
  replace (_ <=? _) with true in H1 by lia. exact H1.
Qed.
Theorem flash_erases_when_full dst_len beyond blocks m out bs : quiet beyond -> 0 <= dst_len < 2 ^ 32 ->
  good_save dst_len out bs -> holds dst_len m blocks beyond -> dst_len < blen (image blocks) + 12 + blen bs ->
  exists m', save_all 2 dst_len [out] m = DONE m' /\ holds dst_len m' [bs] beyond.
Proof.
  intros Q Len (SA & NE & Ev & Fi) H L. destruct (save_even dst_len beyond Q Len out bs SA NE Fi blocks m Ev H) as (ops & m1 & S1 & S2 & _ & H1).
  exists m1. cbn [save_all]. rewrite S1. cbn [fbind]. rewrite S2. cbn [fbind]. split; [reflexivity|].
  replace (_ <=? _) with false in H1 by lia. exact H1.
Qed.

(** A document of odd length is found too, when nothing is saved after it. *)
Theorem flash_save_odd_partial dst_len beyond blocks m out bs : quiet beyond -> 0 <= dst_len < 2 ^ 32 ->
  saves_as dst_len out bs -> Z.odd (blen bs) = true -> holds dst_len m blocks beyond -> blen (image blocks) + 12 + blen bs + 9 <= dst_len ->
  exists m', save_all 1 dst_len [out] m = DONE m' /\ stored m' = DONE (Some (bs ++ [255])).
Proof.
  intros Q Len SA Od H L. pose proof (blen_nonneg (image blocks)).
  assert (NE : bs <> []) by (intro; subst; discriminate).
  destruct (save_odd dst_len beyond Q Len out bs SA NE ltac:(lia) blocks m Od H L) as (ops & m1 & S1 & S2 & _ & H1).
  exists m1. cbn [save_all]. rewrite S1. cbn [fbind]. rewrite S2. cbn [fbind]. auto.
Qed.

Lemma last_of_end : forall (l : list (list Z)) x, last_of (l ++ [x]) = Some x.
Proof. induction l as [|y l IH]; intro x; [reflexivity|]. cbn [app]. specialize (IH x). destruct (l ++ [x]) eqn:E0; [now destruct l|]. exact IH. Qed.

(** The saves are of parameter trees: the values of the last one come back. The tree has a document [bs]; it
    must be of even length, fit in the area, and the writer must report when there is no room for it. *)
Theorem flash_last_saved_partial cap i2f dst_len beyond m blocks trees docs hist1 h1 hist2 h2 root :
  quiet beyond -> 0 <= dst_len < 2 ^ 32 -> holds dst_len m blocks beyond ->
  Forall2 (fun h d => good_save dst_len (written h root) d) trees docs ->
  run hist1 = OK h1 -> run hist2 = OK h2 -> same_shape hist1 hist2 ->
  ids_ok hist1 -> ids_distinct hist1 -> fits_port cap hist1 -> (root < length (ns_decls hist1))%nat ->
  (forall p x, nth_error (pars h1) p = Some x -> param_within hist1 p root -> pdefined x = true ->
     value_typed (pval x) /\ string_short (pval x)) ->
  exists bs,
    (exists sets, document (ns_decls hist1) (par_decls hist1) root sets bs) /\
    (forall size, blen bs <= size < 2 ^ 32 -> written h1 root size = DONE (bs, true)) /\
    (bytes_ok bs -> reports_overflow (written h1 root) bs -> Z.odd (blen bs) = false -> 12 + blen bs <= dst_len ->
     exists m' h2',
       save_all 2 dst_len (map (fun h => written h root) (trees ++ [h1])) m = DONE m' /\
       parameter_flash_storage_load cap i2f h2 root m' = DONE (true, h2') /\
       forall p,
         (param_within hist1 p root -> parameter_defined h1 p = OK true ->
            forall k, parameter_read h2' p k = parameter_read h1 p k) /\
         (~ param_within hist1 p root \/ parameter_defined h1 p = OK false ->
            nth_error (pars h2') p = nth_error (pars h2) p)).
Proof.
  intros Q Len H F R1 R2 SS IO ID FP Hr G.
  destruct (round_trip_core cap i2f _ _ _ _ _ R1 R2 SS IO ID FP Hr G) as (bs & EW & D & RD).
  assert (SA : forall size, blen bs <= size < 2 ^ 32 -> written h1 root size = DONE (bs, true)).
  { intros size Hs. pose proof (blen_nonneg bs).
    unfold written. rewrite (EW [] (repeat 0 (length bs)) (repeat 0 (Z.to_nat size - length bs))); cbn [cmp_mem_access_init mem index CmpModel.size ro]; auto.
    - cbn [cmp_mem_access_get_pos index mem app]. change (blen [] + blen bs) with (blen bs). now rewrite firstn_blen_app.
    - cbn [app]. rewrite <- repeat_app. f_equal. unfold blen in *. lia.
    - unfold blen. now rewrite repeat_length.
    - unfold blen. rewrite repeat_length. lia.
    - lia. }
  exists bs. split; [exact D|]. split; [exact SA|]. intros B RO Ev Fi.
  assert (GS : good_save dst_len (written h1 root) bs).
  { split; [split; [exact B|split; [intros; apply SA; lia|exact RO]]|]. split; [|auto]. destruct D as (sets & k & hd & es & MH & _ & ->). intro C. apply app_eq_nil in C as [-> _].
    inversion MH. }
  assert (F' : Forall2 (good_save dst_len) (map (fun h => written h root) (trees ++ [h1])) (docs ++ [bs])).
  { rewrite map_app. apply Forall2_app; [|constructor; [exact GS|constructor]]. clear -F. induction F; cbn; constructor; auto. }
  destruct (flash_saves_partial dst_len beyond Q Len _ _ _ _ F' H) as (m' & blocks' & E & _ & ST & _).
  assert (Bl : blen (bs ++ []) < 2 ^ 32) by (rewrite app_nil_r; lia).
  destruct (RD [] Bl) as (h2' & c & E2 & V). rewrite app_nil_r in E2. exists m', h2'. split; [exact E|]. split; [|exact V].
  unfold parameter_flash_storage_load. rewrite ST. cbn [fbind]. rewrite app_assoc, last_of_end, E2. reflexivity.
Qed.

(** ** C21: a crash while saving *)

(** The save stops after any number of the bytes given to the flash: what is found afterwards is what the area
    held last, or what was being saved. There is no other condition: the checksum of the length of a block
    never agrees by chance with a length written in part. Only when the document fits after the blocks, see
    the refutation below. *)
Theorem flash_crash_partial dst_len beyond blocks m out bs ops p q : quiet beyond -> 0 <= dst_len < 2 ^ 32 ->
  good_save dst_len out bs -> holds dst_len m blocks beyond -> blen (image blocks) + 12 + blen bs <= dst_len ->
  save dst_len 2 dst_len out m = DONE ops -> ops = p ++ q ->
  exists m', steps dst_len m p = DONE m' /\
    (stored m' = DONE (last_of blocks) \/ stored m' = DONE (Some bs)).
Proof.
  intros Q Len (SA & NE & Ev & Fi) (k & -> & L & F) Lk S1 E.
  destruct (save_fits dst_len beyond Q Len out bs SA NE Fi 1 blocks k Ev F L ltac:(lia)) as [S2 _].
  rewrite S2 in S1. injection S1 as <-.
  exact (crash dst_len beyond Q Len out bs SA NE Fi blocks k p q F L ltac:(lia) E).
Qed.

(** For parameter trees: the tree that is loaded after the crash gets the values of the last complete save or
    of the save that was interrupted. *)
Theorem flash_crash_load_partial cap i2f dst_len beyond blocks m h ns bs ops p q hT : quiet beyond -> 0 <= dst_len < 2 ^ 32 ->
  good_save dst_len (written h ns) bs -> holds dst_len m blocks beyond -> blen (image blocks) + 12 + blen bs <= dst_len ->
  parameter_flash_storage_save dst_len 2 dst_len h ns m = DONE ops -> ops = p ++ q ->
  exists m' m'', steps dst_len m p = DONE m' /\ steps dst_len m ops = DONE m'' /\
    (parameter_flash_storage_load cap i2f hT ns m' = parameter_flash_storage_load cap i2f hT ns m \/
     parameter_flash_storage_load cap i2f hT ns m' = parameter_flash_storage_load cap i2f hT ns m'').
Proof.
  intros Q Len G H Lk S1 E. destruct (flash_crash_partial _ _ _ _ _ _ _ _ _ Q Len G H Lk S1 E) as (m' & E' & C).
  destruct (save_even dst_len beyond Q Len _ bs (proj1 G) ltac:(apply G) ltac:(apply G) blocks m ltac:(apply G) H) as (ops' & m'' & S2 & E'' & _ & H'').
  unfold parameter_flash_storage_save in S1. rewrite S1 in S2. injection S2 as <-. exists m', m''. split; [exact E'|]. split; [exact E''|].
  replace (_ <=? _) with true in H'' by lia.
  unfold parameter_flash_storage_load. destruct C as [-> | ->]; [left|right].
  - destruct H as (k & -> & L & F). now rewrite stored_image by (auto using free_invalid).
  - destruct H'' as (k & -> & L & F). rewrite stored_image by (auto using free_invalid). now rewrite last_of_end.
Qed.

(** ** The driver of the STM32F3 *)

(** After the bytes [D] have been written from an even address, [n] bytes are still erased; an odd last byte
    waits in memory. *)
Definition f3_holds (s : f3) (pre D : list Z) (n : nat) (post : list Z) : Prop :=
  if Z.odd (blen D)
  then exists D' b, D = D' ++ [b] /\ f3_mem s = pre ++ D' ++ repeat 255 (S n) ++ post /\ write_last_byte s = true /\ last_byte s = b
  else f3_mem s = pre ++ D ++ repeat 255 n ++ post /\ write_last_byte s = false.
Lemma half_word_ok pre post lo hi : flash_write_half_word (pre ++ 255 :: 255 :: post) (blen pre) lo hi = DONE (pre ++ lo :: hi :: post).
Proof.
  unfold flash_write_half_word. rewrite bget_mid by reflexivity. cbn [fsome fbind].
  assert (E : forall x y, pre ++ x :: y :: post = (pre ++ [x]) ++ y :: post) by (intros; now rewrite <- app_assoc).
  rewrite E at 1. rewrite bget_mid by (rewrite blen_app; reflexivity). cbn [fsome fbind Z.eqb Pos.eqb andb orb].
  rewrite bset_app by reflexivity. cbn [fsome fbind]. rewrite E, bset_app by (rewrite blen_app; reflexivity). cbn [fsome]. now rewrite <- E.
Qed.
Lemma f3_words_ok : forall k data, (length data <= k)%nat -> forall pre n post s a, a = blen pre ->
  f3_mem s = pre ++ repeat 255 (length data + n) ++ post -> write_last_byte s = false ->
  exists s', f3_words s a data = DONE s' /\ f3_holds s' pre data n post.
Proof.
  induction k as [|k IH]; intros data Lk pre n post s a -> M W.
  { destruct data; [|cbn in Lk; lia]. exists s. split; [reflexivity|]. split; [exact M|exact W]. }
  destruct data as [|lo [|hi data]].
  - exists s. split; [reflexivity|]. split; [exact M|exact W].
  - eexists. split; [reflexivity|]. exists [], lo. cbn [f3_mem write_last_byte last_byte]. auto.
  - cbn [length plus repeat app] in M. cbn [f3_words]. rewrite M, half_word_ok. cbn [fbind].
    destruct (IH data ltac:(cbn in Lk; lia) (pre ++ [lo; hi]) n post (mkf3 (pre ++ lo :: hi :: repeat 255 (length data + n) ++ post) (write_last_byte s) (last_byte s)) (blen pre + 2))
      as (s' & E & H); [rewrite blen_app; reflexivity|cbn [f3_mem]; now rewrite <- app_assoc|exact W|].
    exists s'. split; [exact E|]. unfold f3_holds in *. replace (Z.odd (blen (lo :: hi :: data))) with (Z.odd (blen data)).
    + destruct (Z.odd (blen data)).
      * destruct H as (D' & b & -> & M' & W' & L'). exists (lo :: hi :: D'), b. split; [reflexivity|]. rewrite M', <- app_assoc. auto.
      * destruct H as [M' W']. rewrite M', <- app_assoc. auto.
    + rewrite !blen_cons. replace (1 + (1 + blen data)) with (blen data + 2) by lia. now rewrite Z.odd_add, xorb_false_r.
Qed.
Lemma f3_write_ok data D pre n post s : data <> [] -> Z.odd (blen pre) = false -> f3_holds s pre D (length data + n) post ->
  exists s', f3_write s (blen pre + blen D) data = DONE s' /\ f3_holds s' pre (D ++ data) n post.
Proof.
  intros NE Ev H. unfold f3_write. rewrite Z.odd_add, Ev, xorb_false_l. unfold f3_holds in H. destruct (Z.odd (blen D)) eqn:Od.
  - destruct H as (D' & b & -> & M & W & L). destruct data as [|x data]; [easy|]. rewrite W, L. cbn [fbind].
    rewrite M. rewrite blen_app. change (blen [b]) with 1. replace (blen pre + (blen D' + 1) - 1) with (blen (pre ++ D')) by (rewrite blen_app; lia).
    cbn [length plus repeat app]. rewrite (app_assoc pre), half_word_ok. cbn [fbind].
    destruct (f3_words_ok (length data) data ltac:(lia) ((pre ++ D') ++ [b; x]) n post (mkf3 ((pre ++ D') ++ b :: x :: repeat 255 (length data + n) ++ post) false b) (blen pre + (blen D' + 1) + 1))
      as (s' & E & H); [rewrite !blen_app; change (blen [b; x]) with 2; lia|cbn [f3_mem]; now rewrite <- !app_assoc|reflexivity|].
    exists s'. split; [exact E|]. rewrite blen_app in Od. change (blen [b]) with 1 in Od.
    unfold f3_holds in *. replace (Z.odd (blen ((D' ++ [b]) ++ x :: data))) with (Z.odd (blen data)).
    + destruct (Z.odd (blen data)).
      * destruct H as (E' & c & -> & M' & W' & L'). exists (D' ++ b :: x :: E'), c. rewrite M'. split; [now rewrite <- !app_assoc|]. split; [now rewrite <- !app_assoc|]. auto.
      * destruct H as [M' W']. rewrite M', <- !app_assoc. auto.
    + rewrite !blen_app, (blen_cons x). change (blen [b]) with 1. rewrite (Z.odd_add (blen D' + 1) (1 + blen data)), Od. rewrite (Z.odd_add 1). change (Z.odd 1) with true. now destruct (Z.odd (blen data)).
  - destruct H as [M W].
    destruct (f3_words_ok (length data) data ltac:(lia) (pre ++ D) n post s (blen pre + blen D)) as (s' & E & H);
      [rewrite blen_app; lia|now rewrite <- app_assoc|exact W|].
    exists s'. split; [exact E|]. unfold f3_holds in *. rewrite blen_app, Z.odd_add, Od, xorb_false_l. destruct (Z.odd (blen data)).
    + destruct H as (E' & c & -> & M' & W' & L'). exists (D ++ E'), c. rewrite M', <- !app_assoc. auto.
    + destruct H as [M' W']. rewrite M', <- !app_assoc. auto.
Qed.
Lemma f3_writes_ok chunks : forall D pre n post s, Forall (fun c => c <> []) chunks -> Z.odd (blen pre) = false ->
  f3_holds s pre D (length (concat chunks) + n) post ->
  exists s', f3_writes s (blen pre + blen D) chunks = DONE s' /\ f3_holds s' pre (D ++ concat chunks) n post.
Proof.
  induction chunks as [|c chunks IH]; intros D pre n post s F Ev H; cbn [f3_writes concat] in *.
  - rewrite app_nil_r. eauto.
  - inversion F; subst. rewrite app_length, <- Nat.add_assoc in H.
    destruct (f3_write_ok _ _ _ _ _ _ ltac:(eassumption) Ev H) as (s1 & E1 & H1). rewrite E1. cbn [fbind].
    destruct (IH _ _ _ _ _ ltac:(assumption) Ev H1) as (s' & E & H'). rewrite blen_app in E. rewrite Z.add_assoc in E. rewrite app_assoc. eauto.
Qed.

(** Writing erased flash in any number of pieces, none of them empty, from an even address: the flash holds the
    bytes when their number is even. *)
Theorem flash_f3_even_partial pre chunks post s : Forall (fun c => c <> []) chunks -> Z.odd (blen pre) = false ->
  Z.odd (blen (concat chunks)) = false -> write_last_byte s = false ->
  f3_mem s = pre ++ repeat 255 (length (concat chunks)) ++ post ->
  exists s', f3_writes s (blen pre) chunks = DONE s' /\ f3_mem s' = pre ++ concat chunks ++ post.
Proof.
  intros F Ev Ev' W M. destruct (f3_writes_ok chunks [] pre 0 post s F Ev) as (s' & E & H).
  { rewrite Nat.add_0_r. split; [exact M|exact W]. }
  cbn [app] in H. unfold f3_holds in H. rewrite Ev' in H. rewrite blen_nil, Z.add_0_r in E. exists s'. split; [exact E|apply H].
Qed.
(** When their number is odd, parameter_flash_storage_save adds a byte (lines 93-98), at an address that is
    even again: the last byte of the document is never written, for any document. *)
Theorem flash_f3_odd_refuted pre chunks post s : Forall (fun c => c <> []) chunks -> Z.odd (blen pre) = false ->
  Z.odd (blen (concat chunks)) = true -> write_last_byte s = false ->
  f3_mem s = pre ++ repeat 255 (length (concat chunks) + 1) ++ post ->
  exists s' D b, f3_writes s (blen pre) chunks = DONE s' /\ concat chunks = D ++ [b] /\
    exists s'', f3_write s' (blen pre + blen (concat chunks) + 1) [0] = DONE s'' /\ f3_mem s'' = pre ++ D ++ [255; 255] ++ post.
Proof.
  intros F Ev Od W M. destruct (f3_writes_ok chunks [] pre 1 post s F Ev) as (s' & E & H).
  { split; [exact M|exact W]. }
  cbn [app] in H. unfold f3_holds in H. rewrite Od in H. rewrite blen_nil, Z.add_0_r in E. destruct H as (D & b & ED & M' & W' & L').
  exists s', D, b. split; [exact E|]. split; [exact ED|]. unfold f3_write.
  replace (Z.odd (blen pre + blen (concat chunks) + 1)) with false by (rewrite !Z.odd_add, Ev, Od; reflexivity).
  eexists. split; [reflexivity|]. exact M'.
Qed.

(** ** Examples and refutations *)
Fixpoint reports_check (out : Z -> fres (list Z * bool)) (n : nat) : bool :=
  match n with
  | O => true
  | S n => match out (Z.of_nat n) with
           | DONE (l, false) => (blen l <=? Z.of_nat n) && forallb (fun b => (0 <=? b) && (b <? 256)) l
           | _ => false
           end && reports_check out n
  end.
Lemma reports_check_ok out bs n : reports_check out n = true -> length bs = n -> reports_overflow out bs.
Proof.
  intros H L size Hs. unfold blen in Hs. rewrite L in Hs. clear L. induction n as [|n IH]; [lia|]. cbn [reports_check] in H.
  apply andb_prop in H as [H1 H2]. destruct (Z.eq_dec size (Z.of_nat n)) as [->|]; [|apply IH; [exact H2|lia]].
  destruct (out (Z.of_nat n)) as [| |[l []]]; try discriminate. exists l. split; [reflexivity|]. apply andb_prop in H1 as [A B].
  split; [lia|]. apply Forall_forall. intros b Hb. rewrite forallb_forall in B. apply B in Hb. unfold byte_ok. lia.
Qed.
Fixpoint fits_check (out : Z -> fres (list Z * bool)) (bs : list Z) (a : Z) (n : nat) : bool :=
  match n with
  | O => true
  | S n => match out a with
           | DONE (l, true) => if list_eq_dec Z.eq_dec l bs then true else false
           | _ => false
           end && fits_check out bs (a + 1) n
  end.
Lemma fits_check_ok out bs n : fits_check out bs (blen bs) (S n) = true -> forall L, L <= blen bs + Z.of_nat n ->
  forall size, blen bs <= size <= L -> out size = DONE (bs, true).
Proof.
  intros H L HL size Hs.
  assert (K : forall k a, fits_check out bs a k = true -> a <= size < a + Z.of_nat k -> out size = DONE (bs, true)).
  { clear. induction k as [|k IH]; intros a H Ha; [lia|]. cbn [fits_check] in H. apply andb_prop in H as [H1 H2].
    destruct (Z.eq_dec size a) as [->|]; [|apply (IH (a + 1)); [exact H2|lia]].
    destruct (out a) as [| |[l []]]; try discriminate. destruct (list_eq_dec Z.eq_dec l bs); [now subst|discriminate]. }
  apply (K _ _ H). lia.
Qed.
(** One parameter "x"; the document has 8 bytes; with an identifier of two letters it has 9. *)
Definition fl_hist (id : str) (x : Z) : list op := [ODeclNs None [114]; ODecl 0 id (DScalar (Some x))].
Definition fl_heap (id : str) (x : Z) : heap := match run (fl_hist id x) with OK h => h | _ => empty end.
Definition fl_out (id : str) (x : Z) := written (fl_heap id x) 0.
Definition fl_after : list Z := repeat 255 16.
Definition fl_empty (n : nat) : list Z := repeat 255 n ++ fl_after.

Example fl_quiet : quiet fl_after.
Proof.
  intros k Hk. exists FF, FF, (repeat 255 (k + 8)). split; [|split; [reflexivity|split; [reflexivity|]]].
  - unfold fl_after, FF. rewrite <- !repeat_app. f_equal. lia.
  - vm_compute. discriminate.
Qed.
Example fl_holds : holds 64 (fl_empty 64) [] fl_after.
Proof. exists 64%nat. split; [reflexivity|]. split; [reflexivity|constructor]. Qed.
(** The hypotheses of the theorems are met: the area of 64 bytes has room for three of these documents. *)
Example fl_good : good_save 64 (fl_out [120] 0x3f800000) [0x81; 0xA1; 120; 0xCA; 0x3f; 0x80; 0; 0].
Proof.
  split; [|split; [discriminate|split; [reflexivity|unfold blen; cbn; lia]]].
  split; [repeat constructor; unfold byte_ok; lia|]. split.
  - apply (fits_check_ok _ _ 56); [vm_compute; reflexivity|unfold blen; cbn; lia].
  - apply (reports_check_ok _ _ 8); [vm_compute; reflexivity|reflexivity].
Qed.

Example fl_three_saves :
  match save_all 2 64 [fl_out [120] 1; fl_out [120] 2; fl_out [120] 3] (fl_empty 64) with
  | DONE m => stored m = DONE (Some [0x81; 0xA1; 120; 0xCA; 0; 0; 0; 3])
  | _ => False
  end.
Proof. vm_compute. reflexivity. Qed.
(** What the load gives: the value of the parameter. *)
Definition fl_value (id : str) (m : fres (list Z)) : fres (bool * res got) :=
  let? m := m in
  let? (ok, h) := parameter_flash_storage_load 64 (fun x => x) (fl_heap id 0x7fffffff) 0 m in
  DONE (ok, parameter_read h 0 KScalar).

(** The byte that makes the length even is written one byte too far, on the header of the next block (line 94):
    the second save is lost, although the load reports success, and so is every later one. *)
Theorem flash_odd_saves_refuted :
  exists id x1 x2 x3 m, holds 64 m [] fl_after /\
    fl_value id (save_all 2 64 [fl_out id x1] m) = DONE (true, OK (GScalar x1)) /\
    fl_value id (save_all 2 64 [fl_out id x1; fl_out id x2] m) = DONE (true, OK (GScalar x1)) /\
    fl_value id (save_all 2 64 [fl_out id x1; fl_out id x2; fl_out id x3] m) = DONE (true, OK (GScalar x1)) /\
    x1 <> x2 /\ x1 <> x3.
Proof.
  exists [97; 98], 1, 2, 3, (fl_empty 64). split; [exact fl_holds|]. split; [vm_compute; reflexivity|]. split; [vm_compute; reflexivity|].
  split; [vm_compute; reflexivity|]. split; discriminate.
Qed.

(** That byte may even be written outside of the area. *)
Theorem flash_outside_refuted :
  exists dst_len id x m ops b, holds dst_len m [] fl_after /\ save dst_len 2 dst_len (fl_out id x) m = DONE ops /\
    In (Prog dst_len b) ops.
Proof.
  exists 22, [97; 98], 1, (fl_empty 22). eexists _, 0. split; [exists 22%nat; repeat split; constructor|].
  split; [vm_compute; reflexivity|]. vm_compute. intuition.
Qed.

(** A crash when the area has been erased to make room: no configuration is left. *)
Theorem flash_crash_full_refuted :
  exists dst_len x1 x2 m ops p q, fl_value [120] (DONE m) = DONE (true, OK (GScalar x1)) /\
    save dst_len 2 dst_len (fl_out [120] x2) m = DONE ops /\ ops = p ++ q /\
    fl_value [120] (steps dst_len m p) = DONE (false, OK (GScalar 0x7fffffff)).
Proof.
  exists 32, 1, 2. destruct (save_all 2 32 [fl_out [120] 1] (fl_empty 32)) as [| |m] eqn:E; try (vm_compute in E; discriminate).
  exists m. vm_compute in E. injection E as <-. eexists. exists [Erase]. eexists.
  split; [vm_compute; reflexivity|]. split; [vm_compute; reflexivity|]. split; [reflexivity|]. vm_compute. reflexivity.
Qed.

(** After a crash, the next save programs bytes that are not erased: what it stores, with a valid checksum, is
    neither the configuration that was saved nor any other. *)
Theorem flash_save_after_crash_refuted :
  exists x1 x2 x3 m ops p q, fl_value [120] (DONE m) = DONE (true, OK (GScalar x1)) /\
    save 64 2 64 (fl_out [120] x2) m = DONE ops /\ ops = p ++ q /\
    fl_value [120] (steps 64 m p) = DONE (true, OK (GScalar x1)) /\
    exists x, fl_value [120] (let? m := steps 64 m p in save_all 2 64 [fl_out [120] x3] m) = DONE (true, OK (GScalar x)) /\
      x <> x1 /\ x <> x2 /\ x <> x3.
Proof.
  exists 0x01010101, 0x3f800000, 0x40000000. destruct (save_all 2 64 [fl_out [120] 0x01010101] (fl_empty 64)) as [| |m] eqn:E; try (vm_compute in E; discriminate).
  exists m. vm_compute in E. injection E as <-. destruct (save 64 2 64 (fl_out [120] 0x3f800000) _) as [| |ops] eqn:E; try (vm_compute in E; discriminate).
  exists ops, (firstn 10 ops), (skipn 10 ops). vm_compute in E. injection E as <-.
  split; [vm_compute; reflexivity|]. split; [vm_compute; reflexivity|]. split; [reflexivity|]. split; [vm_compute; reflexivity|].
  eexists. split; [vm_compute; reflexivity|]. repeat split; discriminate.
Qed.

(** A configuration larger than the area: the save erases and starts again for ever. *)
Theorem flash_too_big_refuted : exists dst_len out m, holds dst_len m [] fl_after /\ forall fuel, save dst_len fuel dst_len out m = HANG.
Proof.
  exists 16, (fl_out [120] 1), (fl_empty 16). split; [exists 16%nat; repeat split; constructor|].
  induction fuel as [|fuel IH]; [reflexivity|].
  cbn [save].
  assert (E1 : block_find_last_used (fl_empty 16) = DONE None) by (vm_compute; reflexivity).
  assert (E2 : steps 16 (fl_empty 16) [Erase] = DONE (fl_empty 16)) by (vm_compute; reflexivity).
  assert (E3 : block_find_first_free (fl_empty 16) = DONE 0) by (vm_compute; reflexivity).
  rewrite E1. cbn [fbind]. rewrite E2. cbn [fbind]. rewrite E3. cbn [fbind].
  change (u32 (16 - 0) <=? HEADER_SIZE) with false. cbn iota. cbn [steps fbind].
  assert (E4 : fl_out [120] 1 (u32 (u32 (16 - 0) - HEADER_SIZE)) = DONE ([0x81; 0xA1; 120; 0xCA], false)) by (vm_compute; reflexivity).
  rewrite E4. cbn [fbind].
  assert (E5 : steps 16 (fl_empty 16) (flash_write (0 + HEADER_SIZE) [0x81; 0xA1; 120; 0xCA]) =
    DONE (repeat 255 12 ++ [0x81; 0xA1; 120; 0xCA] ++ fl_after)) by (vm_compute; reflexivity).
  rewrite E5. cbn [fbind negb].
  assert (E6 : step 16 (repeat 255 12 ++ [0x81; 0xA1; 120; 0xCA] ++ fl_after) Erase = DONE (fl_empty 16)) by (vm_compute; reflexivity).
  rewrite E6. cbn [fbind]. now rewrite IH.
Qed.

(** When the blocks fill the area and no memory follows it, the search for the end of the blocks accesses
    memory that does not exist. *)
Theorem flash_walk_outside_refuted : exists dst_len m blocks, holds dst_len m blocks [] /\ stored m = FAULT.
Proof.
  exists 20, (block [1; 2; 3; 4; 5; 6; 7; 8]), [[1; 2; 3; 4; 5; 6; 7; 8]]. split.
  - exists 0%nat. split; [now rewrite !app_nil_r, image_one|]. split; [reflexivity|]. repeat constructor.
  - vm_compute. reflexivity.
Qed.

(** The motor board and the wheel encoder have an area of two pages of flash, of which only the first is erased:
    the second page is programmed again although it is not erased. Here with pages of 16 bytes. *)
Theorem flash_one_page_refuted :
  exists sector dst_len m out1 out2 m1 m2,
    (let? ops := save sector 2 dst_len out1 m in steps sector m ops) = DONE m1 /\
    (let? ops := save sector 2 dst_len out2 m1 in steps sector m1 ops) = DONE m2 /\
    out1 = fl_out [120] 0x3f800000 /\ out2 = fl_out [120] 0x40000000 /\
    m = fl_empty 32 /\ dst_len = 2 * sector /\
    fl_value [120] (DONE m1) = DONE (true, OK (GScalar 0x3f800000)) /\
    fl_value [120] (DONE m2) = DONE (true, OK (GScalar 0)).
Proof.
  exists 16, 32, (fl_empty 32), (fl_out [120] 0x3f800000), (fl_out [120] 0x40000000). eexists. eexists.
  split; [vm_compute; reflexivity|]. split; [vm_compute; reflexivity|]. do 4 (split; [reflexivity|]).
  split; [vm_compute; reflexivity|]. vm_compute. reflexivity.
Qed.

Print Assumptions flash_saves_partial.
Print Assumptions flash_save_in_area_partial.
Print Assumptions flash_appends.
Print Assumptions flash_erases_when_full.
Print Assumptions flash_save_odd_partial.
Print Assumptions flash_last_saved_partial.
Print Assumptions flash_crash_partial.
Print Assumptions flash_crash_load_partial.
Print Assumptions flash_f3_even_partial.
Print Assumptions flash_f3_odd_refuted.
