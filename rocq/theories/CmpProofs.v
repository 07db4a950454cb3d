From Coq Require Import ZArith List Bool Lia ZifyBool.
From Verif Require Import CBase Buf CmpModel CmpSpec.
Import ListNotations.
Local Open Scope Z_scope.

(** ** Byte images *)

Lemma le_bytes_length k : forall x, length (le_bytes k x) = k.
Proof. induction k; intro; cbn [le_bytes length]; auto. Qed.
Lemma be_length k : forall x, length (be k x) = k.
Proof. induction k; intro; cbn [be length]; auto. Qed.
Lemma be_blen k x : blen (be k x) = Z.of_nat k.
Proof. unfold blen. now rewrite be_length. Qed.
Lemma be_ok k : forall x, bytes_ok (be k x).
Proof. induction k; intro; cbn [be]; constructor; [apply Z.mod_pos_bound; lia|apply IHk]. Qed.

Lemma le_val_bytes k : forall x, le_val (le_bytes k x) = x mod 256 ^ Z.of_nat k.
Proof.
  induction k as [|k IH]; intro x; cbn [le_bytes le_val].
  - rewrite Z.mod_1_r. reflexivity.
  - rewrite IH. rewrite Nat2Z.inj_succ, Z.pow_succ_r by lia.
    assert (0 < 256 ^ Z.of_nat k) by (apply Z.pow_pos_nonneg; lia).
    rewrite Z.rem_mul_r by lia. lia.
Qed.
Lemma le_bytes_val l : bytes_ok l -> le_bytes (length l) (le_val l) = l.
Proof.
  induction 1 as [|b l B L IH]; cbn [length le_bytes le_val]; [reflexivity|].
  unfold byte_ok in B. replace (b + 256 * le_val l) with (le_val l * 256 + b) by lia.
  rewrite Z.add_mod, Z.mod_mul by lia. cbn [Z.add]. rewrite Z.mod_mod, Z.mod_small by lia.
  rewrite Z.div_add_l, Z.div_small by lia. rewrite Z.add_0_r, IH. reflexivity.
Qed.
Lemma le_val_range l : bytes_ok l -> 0 <= le_val l < 256 ^ blen l.
Proof.
  induction 1 as [|b l B L IH]; [cbn; lia|]. rewrite blen_cons. cbn [le_val].
  pose proof (blen_nonneg l). replace (1 + blen l) with (Z.succ (blen l)) by lia. rewrite Z.pow_succ_r by lia.
  unfold byte_ok in B. lia.
Qed.

Lemma be_rev k : forall x, be k x = rev (le_bytes k x).
Proof.
  assert (G : forall k x, be (S k) x = be k (x / 256) ++ [x mod 256]).
  { intros n. induction n as [|n IH]; intro x.
    - cbn. now rewrite Z.div_1_r.
    - change (be (S (S n)) x) with ((x / 256 ^ Z.of_nat (S n)) mod 256 :: be (S n) x).
      rewrite IH. cbn [be app]. f_equal.
      rewrite Nat2Z.inj_succ, Z.pow_succ_r, Z.div_div by (try apply Z.pow_pos_nonneg; lia). reflexivity. }
  induction k as [|k IH]; intro x; [reflexivity|]. rewrite G, IH. reflexivity.
Qed.

Lemma rev_be k x : rev (be k x) = le_bytes k x.
Proof. rewrite be_rev. apply rev_involutive. Qed.
Lemma le_bytes_ok k x : bytes_ok (le_bytes k x).
Proof. rewrite <- rev_be. apply Forall_rev, be_ok. Qed.

Lemma le_val_rev_be k x : le_val (rev (be k x)) = x mod 256 ^ Z.of_nat k.
Proof. rewrite rev_be. apply le_val_bytes. Qed.

Lemma be16_val x : be16 x = le_val (be 2 x).
Proof. rewrite be_rev. reflexivity. Qed.
Lemma be32_val x : be32 x = le_val (be 4 x).
Proof. rewrite be_rev. reflexivity. Qed.
Lemma be64_val x : be64 x = le_val (be 8 x).
Proof. rewrite be_rev. reflexivity. Qed.

Lemma le_be k x : le_bytes k (le_val (be k x)) = be k x.
Proof. rewrite <- (be_length k x) at 1. apply le_bytes_val, be_ok. Qed.
Lemma le_be16 x : le_bytes 2 (be16 x) = be 2 x. Proof. rewrite be16_val. apply le_be. Qed.
Lemma le_be32 x : le_bytes 4 (be32 x) = be 4 x. Proof. rewrite be32_val. apply le_be. Qed.
Lemma le_be64 x : le_bytes 8 (be64 x) = be 8 x. Proof. rewrite be64_val. apply le_be. Qed.
Lemma le_1 x : le_bytes 1 x = be 1 x.
Proof. rewrite be_rev. reflexivity. Qed.

Lemma be_le k l : length l = k -> bytes_ok l -> be k (le_val l) = rev l.
Proof. intros <- B. rewrite be_rev, le_bytes_val; auto. Qed.

(** Reading back: the converted value of the bytes on the wire. *)
Lemma be_le_val k x : le_val (be k (le_val (be k x))) = x mod 256 ^ Z.of_nat k.
Proof. rewrite (be_le k (be k x)) by (apply be_length || apply be_ok). apply le_val_rev_be. Qed.
Lemma be16_rd x : be16 (le_val (be 2 x)) = x mod 2 ^ 16.
Proof. rewrite be16_val. apply (be_le_val 2). Qed.
Lemma be32_rd x : be32 (le_val (be 4 x)) = x mod 2 ^ 32.
Proof. rewrite be32_val. apply (be_le_val 4). Qed.
Lemma be64_rd x : be64 (le_val (be 8 x)) = x mod 2 ^ 64.
Proof. rewrite be64_val. apply (be_le_val 8). Qed.
Lemma be8_rd x : le_val (be 1 x) = x mod 2 ^ 8.
Proof. rewrite <- le_1. apply (le_val_bytes 1). Qed.

(** What the converted value says of the bytes. *)
Lemma be_conv k l : length l = k -> bytes_ok l -> be k (le_val (be k (le_val l))) = l.
Proof.
  intros L B. rewrite (be_le k l L B), be_le.
  - apply rev_involutive.
  - rewrite rev_length. exact L.
  - apply Forall_rev, B.
Qed.

Lemma be_mod k x y : x mod 256 ^ Z.of_nat k = y mod 256 ^ Z.of_nat k -> be k x = be k y.
Proof.
  intro H. rewrite !be_rev. f_equal.
  rewrite <- (le_bytes_val (le_bytes k x)), <- (le_bytes_val (le_bytes k y)) by apply le_bytes_ok.
  rewrite !le_bytes_length, !le_val_bytes, H. reflexivity.
Qed.

(** ** Emission *)

Lemma emits_wr l : l <> [] -> emits (wr l) l.
Proof.
  intros N pre old post c E L I S B R. unfold wr. rewrite R.
  pose proof (blen_nonneg pre). pose proof (blen_nonneg old). pose proof (blen_nonneg post).
  assert (X : blen (mem c) = blen pre + (blen old + blen post)) by now rewrite E, !blen_app.
  rewrite I. unfold u32. rewrite uN_id by lia.
  replace (blen pre + blen l <=? size c) with true by (symmetry; lia).
  rewrite E, bset_all_app by (auto; unfold blen in L; lia).
  replace (blen l =? 0) with false; [reflexivity|]. symmetry. apply Z.eqb_neq.
  destruct l; [easy|]. rewrite blen_cons. pose proof (blen_nonneg l). lia.
Qed.

Lemma emits_ret : emits (ret tt) [].
Proof.
  intros pre old post c E L I S B R. destruct old; [|rewrite blen_cons, blen_nil in L; pose proof (blen_nonneg old); lia].
  unfold ret. destruct c as [m0 s0 i0 r0 e0]; cbn [mem size index ro err app] in *. subst. now rewrite blen_nil, Z.add_0_r.
Qed.

Lemma emits_bind W1 W2 a b : emits W1 a -> emits W2 b -> emits (W1 ;; W2) (a ++ b).
Proof.
  intros H1 H2 pre old post c E L I S B R. rewrite blen_app in L.
  pose proof (blen_nonneg a). pose proof (blen_nonneg b).
  destruct (split_at old (blen a)) as (o1 & o2 & -> & L1); [lia|].
  rewrite blen_app in L. unfold mbind. rewrite <- app_assoc in E.
  rewrite (H1 pre o1 (o2 ++ post) c E L1 I S B R).
  rewrite (H2 (pre ++ a) o2 post); cbn [mem size index ro err].
  - rewrite <- !app_assoc, !blen_app. f_equal. f_equal. lia.
  - now rewrite <- app_assoc.
  - lia.
  - now rewrite blen_app.
  - rewrite S, E, !blen_app. lia.
  - exact B.
  - reflexivity.
Qed.

Lemma emits_or W e a : emits W a -> emits (W !! e) a.
Proof. intros H pre old post c E L I S B R. unfold or_err. now rewrite (H pre old post c E L I S B R). Qed.

Lemma emits_eq W a b : emits W a -> a = b -> emits W b.
Proof. now intros H <-. Qed.

Lemma emits_byte x : 0 <= x < 256 -> emits (write_byte x) [x].
Proof.
  intro H. unfold write_byte. replace [x] with (le_bytes 1 x); [now apply emits_wr|].
  cbn. now rewrite Z.mod_small by lia.
Qed.
Lemma emits_marker x : 0 <= x < 256 -> emits (write_type_marker x) [x].
Proof. intro. now apply emits_or, emits_byte. Qed.
Lemma emits_fixed x : 0 <= x < 256 -> emits (write_fixed_value x) [x].
Proof. intro. now apply emits_or, emits_byte. Qed.

Lemma emits_data d n : 0 < n <= blen d -> emits (wr_data d n) (firstn (Z.to_nat n) d).
Proof.
  intros H pre old post c E L I S B R. unfold wr_data. replace (n <=? blen d) with true by (symmetry; lia).
  apply emits_wr with (old := old); auto. intro X. apply (f_equal (@length Z)) in X.
  rewrite firstn_length in X. unfold blen in H. cbn in X. lia.
Qed.

Lemma emits_payload d n : 0 <= n <= blen d -> emits (write_payload d n) (firstn (Z.to_nat n) d).
Proof.
  intro H. unfold write_payload. destruct (Z.eqb_spec n 0) as [->|].
  - apply emits_ret.
  - apply emits_or, emits_data. lia.
Qed.

(** ** Acceptance *)

Lemma accepts_rd l : accepts (rd (blen l)) l l.
Proof.
  intros pre post c E I S B. unfold rd. pose proof (blen_nonneg pre). pose proof (blen_nonneg l). pose proof (blen_nonneg post).
  assert (X : blen (mem c) = blen pre + (blen l + blen post)) by now rewrite E, !blen_app.
  rewrite I. unfold u32. rewrite uN_id by lia. replace (blen pre + blen l <=? size c) with true by (symmetry; lia).
  rewrite E, bslice_app by reflexivity. unfold set_index. now rewrite E.
Qed.

Lemma accepts_ret {A} (a : A) : accepts (ret a) [] a.
Proof.
  intros pre post c E I S B. unfold ret. rewrite blen_nil, Z.add_0_r, <- I. now destruct c.
Qed.

Lemma accepts_bind {A B} (R : M A) (f : A -> M B) a b u v :
  accepts R a u -> accepts (f u) b v -> accepts (mbind R f) (a ++ b) v.
Proof.
  intros H1 H2 pre post c E I S L. unfold mbind. rewrite <- app_assoc in E.
  rewrite (H1 pre (b ++ post) c E I S L).
  rewrite (H2 (pre ++ a) post); cbn [mem size index ro err].
  - rewrite !blen_app. do 2 f_equal. lia.
  - rewrite E. now rewrite <- !app_assoc.
  - now rewrite blen_app.
  - exact S.
  - exact L.
Qed.

Lemma accepts_bind_ret {A B} (R : M A) (f : A -> M B) a u v :
  accepts R a u -> accepts (f u) [] v -> accepts (mbind R f) a v.
Proof. intros H1 H2. rewrite <- (app_nil_r a). eapply accepts_bind; eauto. Qed.

Lemma accepts_or {A} (R : M A) e a u : accepts R a u -> accepts (R !! e) a u.
Proof. intros H pre post c E I S B. unfold or_err. now rewrite (H pre post c E I S B). Qed.

Lemma accepts_map {A} (n : Z) (f : list Z -> A) l e :
  blen l = n -> accepts (let! x := rd n !! e in ret (f x)) l (f l).
Proof.
  intros <-. eapply accepts_bind_ret; [apply accepts_or, accepts_rd|]. apply accepts_ret.
Qed.

Lemma accepts_rd8 e x : 0 <= x < 2 ^ 8 -> accepts (rd8 e) (be 1 x) x.
Proof.
  intro H. assert (E : x = le_val (be 1 x)) by (rewrite be8_rd, Z.mod_small; lia).
  rewrite E at 2. unfold rd8. now apply accepts_map.
Qed.
Lemma accepts_rd8_s e x : - 2 ^ 7 <= x < 2 ^ 7 -> exists y, accepts (rd8 e) (be 1 x) y /\ s8 y = x.
Proof.
  intro H. exists (le_val (be 1 x)). split; [unfold rd8; now apply accepts_map|].
  rewrite be8_rd. unfold s8. rewrite (sN_mod 8 _ x) by (try lia; apply Z.mod_mod; lia).
  apply sN_id; cbn; lia.
Qed.
Lemma accepts_rd16 e x : accepts (rd16 e) (be 2 x) (x mod 2 ^ 16).
Proof. rewrite <- be16_rd. unfold rd16. now apply (accepts_map 2 (fun l => be16 (le_val l))). Qed.
Lemma accepts_rd32 e x : accepts (rd32 e) (be 4 x) (x mod 2 ^ 32).
Proof. rewrite <- be32_rd. unfold rd32. now apply (accepts_map 4 (fun l => be32 (le_val l))). Qed.
Lemma accepts_rd64 e x : accepts (rd64 e) (be 8 x) (x mod 2 ^ 64).
Proof. rewrite <- be64_rd. unfold rd64. now apply (accepts_map 8 (fun l => be64 (le_val l))). Qed.

Lemma accepts_marker t : 0 <= t < 256 -> accepts read_type_marker [t] t.
Proof.
  intro H. unfold read_type_marker, read_byte. apply accepts_or.
  eapply accepts_bind_ret; [apply (accepts_rd [t])|]. cbn [le_val]. replace (t + 256 * 0) with t by lia. apply accepts_ret.
Qed.

#[local] Hint Unfold FIXMAP_MARKER FIXARRAY_MARKER FIXSTR_MARKER NIL_MARKER FALSE_MARKER TRUE_MARKER BIN8_MARKER BIN16_MARKER BIN32_MARKER EXT8_MARKER EXT16_MARKER EXT32_MARKER FLOAT_MARKER DOUBLE_MARKER U8_MARKER U16_MARKER U32_MARKER U64_MARKER S8_MARKER S16_MARKER S32_MARKER S64_MARKER FIXEXT1_MARKER FIXEXT2_MARKER FIXEXT4_MARKER FIXEXT8_MARKER FIXEXT16_MARKER STR8_MARKER STR16_MARKER STR32_MARKER ARRAY16_MARKER ARRAY32_MARKER MAP16_MARKER MAP32_MARKER NEGATIVE_FIXNUM_MARKER
  FIXARRAY_SIZE FIXMAP_SIZE FIXSTR_SIZE : cmpm.

(** ** The object reader and writer *)

Ltac pick :=
  repeat match goal with
         | |- accepts (if ?b then _ else _) _ _ =>
             first [ replace b with false by (symmetry; lia) | replace b with true by (symmetry; lia) ]; cbv iota
         end.

Lemma land_ones_small k b v : 0 <= k -> b mod 2 ^ k = 0 -> 0 <= v < 2 ^ k -> Z.land (b + v) (Z.ones k) = v.
Proof.
  intros K B V. rewrite Z.land_ones by exact K. rewrite Z.add_mod, B by lia. cbn [Z.add].
  rewrite Z.mod_mod by lia. now apply Z.mod_small.
Qed.
Lemma land_F b v : b mod 16 = 0 -> 0 <= v < 16 -> Z.land (b + v) 15 = v.
Proof. intros. apply (land_ones_small 4); cbn; lia. Qed.
Lemma land_1F b v : b mod 32 = 0 -> 0 <= v < 32 -> Z.land (b + v) 31 = v.
Proof. intros. apply (land_ones_small 5); cbn; lia. Qed.

Lemma s8_wrap v : - 2 ^ 7 <= v < 0 -> s8 (256 + v) = v.
Proof.
  intro H. unfold s8. rewrite (sN_mod 8 _ v); [apply sN_id; cbn; lia|lia|].
  rewrite <- (Z.mod_add v 1 (2 ^ 8)) by lia. f_equal. lia.
Qed.
Lemma sN_of_mod k v : 0 < k -> - 2 ^ (k - 1) <= v < 2 ^ (k - 1) -> sN k (v mod 2 ^ k) = v.
Proof.
  intros K H. rewrite (sN_mod k _ v); [now apply sN_id|lia|]. apply Z.mod_mod.
  pose proof (Z.pow_pos_nonneg 2 k). lia.
Qed.

Ltac start := unfold cmp_read_object;
  match goal with |- accepts _ (?t :: ?r) _ => change (t :: r) with ([t] ++ r) end;
  eapply accepts_bind; [apply accepts_marker; lia|]; autounfold with cmpm; pick.

Ltac ret_as := match goal with |- accepts (ret ?a) _ ?b => replace a with b; [apply accepts_ret|] end.

Lemma read_object_ok o : obj_ok o -> accepts cmp_read_object (obj_bytes o) o.
Proof.
  destruct o as [ty v x]. unfold obj_ok, obj_bytes. cbn [oty oval oext].
  destruct ty; intro H; destruct H as [H X]; try subst x.
  all: try (start; eapply accepts_bind_ret; [first [apply accepts_rd8; exact H | apply accepts_rd16 | apply accepts_rd32 | apply accepts_rd64]
     |ret_as; rewrite ?Z.mod_small by lia; reflexivity]; fail).
  - start. apply accepts_ret.
  - start. ret_as. rewrite land_F by (reflexivity || lia). reflexivity.
  - start. ret_as. rewrite land_F by (reflexivity || lia). reflexivity.
  - start. ret_as. rewrite land_1F by (reflexivity || lia). reflexivity.
  - replace v with 0 by lia. start. apply accepts_ret.
  - assert (v = 0 \/ v = 1) as [-> | ->] by lia; start; apply accepts_ret.
  - destruct (accepts_rd8_s EXT_TYPE_READING_ERROR x X) as (y & A & <-).
    start. eapply accepts_bind; [apply accepts_rd8, H|]. eapply accepts_bind_ret; [exact A|]. apply accepts_ret.
  - destruct (accepts_rd8_s EXT_TYPE_READING_ERROR x X) as (y & A & <-).
    start. eapply accepts_bind; [apply accepts_rd16|]. eapply accepts_bind_ret; [exact A|].
    ret_as. now rewrite Z.mod_small by lia.
  - destruct (accepts_rd8_s EXT_TYPE_READING_ERROR x X) as (y & A & <-).
    start. eapply accepts_bind; [apply accepts_rd32|]. eapply accepts_bind_ret; [exact A|].
    ret_as. now rewrite Z.mod_small by lia.
  - destruct (accepts_rd8_s DATA_READING_ERROR v H) as (y & A & <-).
    start. eapply accepts_bind_ret; [exact A|]. apply accepts_ret.
  - start. eapply accepts_bind_ret; [apply accepts_rd16|]. ret_as. unfold s16. now rewrite (sN_of_mod 16).
  - start. eapply accepts_bind_ret; [apply accepts_rd32|]. ret_as. unfold s32. now rewrite (sN_of_mod 32).
  - start. eapply accepts_bind_ret; [apply accepts_rd64|]. ret_as. unfold s64. now rewrite (sN_of_mod 64).
  - destruct (accepts_rd8_s EXT_TYPE_READING_ERROR x X) as (y & A & <-). subst v.
    start. eapply accepts_bind_ret; [exact A|]. apply accepts_ret.
  - destruct (accepts_rd8_s EXT_TYPE_READING_ERROR x X) as (y & A & <-). subst v.
    start. eapply accepts_bind_ret; [exact A|]. apply accepts_ret.
  - destruct (accepts_rd8_s EXT_TYPE_READING_ERROR x X) as (y & A & <-). subst v.
    start. eapply accepts_bind_ret; [exact A|]. apply accepts_ret.
  - destruct (accepts_rd8_s EXT_TYPE_READING_ERROR x X) as (y & A & <-). subst v.
    start. eapply accepts_bind_ret; [exact A|]. apply accepts_ret.
  - destruct (accepts_rd8_s EXT_TYPE_READING_ERROR x X) as (y & A & <-). subst v.
    start. eapply accepts_bind_ret; [exact A|]. apply accepts_ret.
  - start. ret_as. rewrite s8_wrap by lia. reflexivity.
Qed.

Lemma emits_m1 t e x : 0 <= t < 256 -> emits (write_type_marker t ;; wr (le_bytes 1 x) !! e) (t :: be 1 x).
Proof.
  intro T. apply (emits_bind _ _ [t]); [now apply emits_marker|]. apply emits_or. rewrite le_1. now apply emits_wr.
Qed.
Lemma emits_m2 t e x : 0 <= t < 256 -> emits (write_type_marker t ;; wr (le_bytes 2 (be16 x)) !! e) (t :: be 2 x).
Proof.
  intro T. apply (emits_bind _ _ [t]); [now apply emits_marker|]. apply emits_or. rewrite le_be16. now apply emits_wr.
Qed.
Lemma emits_m4 t e x : 0 <= t < 256 -> emits (write_type_marker t ;; wr (le_bytes 4 (be32 x)) !! e) (t :: be 4 x).
Proof.
  intro T. apply (emits_bind _ _ [t]); [now apply emits_marker|]. apply emits_or. rewrite le_be32. now apply emits_wr.
Qed.
Lemma emits_n1 t x : 0 <= t < 256 -> emits (write_type_marker t ;; wr (le_bytes 1 x)) (t :: be 1 x).
Proof.
  intro T. apply (emits_bind _ _ [t]); [now apply emits_marker|]. rewrite le_1. now apply emits_wr.
Qed.
Lemma emits_n2 t x : 0 <= t < 256 -> emits (write_type_marker t ;; wr (le_bytes 2 (be16 x))) (t :: be 2 x).
Proof.
  intro T. apply (emits_bind _ _ [t]); [now apply emits_marker|]. rewrite le_be16. now apply emits_wr.
Qed.
Lemma emits_n4 t x : 0 <= t < 256 -> emits (write_type_marker t ;; wr (le_bytes 4 (be32 x))) (t :: be 4 x).
Proof.
  intro T. apply (emits_bind _ _ [t]); [now apply emits_marker|]. rewrite le_be32. now apply emits_wr.
Qed.
Lemma emits_n8 t x : 0 <= t < 256 -> emits (write_type_marker t ;; wr (le_bytes 8 (be64 x))) (t :: be 8 x).
Proof.
  intro T. apply (emits_bind _ _ [t]); [now apply emits_marker|]. rewrite le_be64. now apply emits_wr.
Qed.

Lemma be_u k n x : n = 8 * Z.of_nat k -> be k (uN n x) = be k x.
Proof.
  intros ->. apply be_mod. unfold uN. rewrite Z.pow_mul_r by lia. apply Z.mod_mod.
  pose proof (Z.pow_pos_nonneg 256 (Z.of_nat k)). lia.
Qed.
Lemma emits_u k W n x : n = 8 * Z.of_nat k -> (forall y, emits (W y) (be k y)) -> emits (W (uN n x)) (be k x).
Proof. intros E H. rewrite <- (be_u k n x E). apply H. Qed.

Lemma emits_pfix v : 0 <= v < 128 -> emits (cmp_write_pfix v) [v].
Proof. intro H. unfold cmp_write_pfix. replace (v <=? 127) with true by (symmetry; lia). apply emits_fixed. lia. Qed.
Lemma emits_nfix v : -32 <= v < 0 -> emits (cmp_write_nfix v) [256 + v].
Proof.
  intro H. unfold cmp_write_nfix. replace ((-32 <=? v) && (v <=? -1))%bool with true by (symmetry; lia).
  replace (256 + v) with (u8 v); [apply emits_fixed; apply uN_range; lia|].
  unfold u8, uN. change (2 ^ 8) with 256. replace v with (256 + v + (-1) * 256) at 1 by lia. rewrite Z.mod_add by lia. apply Z.mod_small. lia.
Qed.
Lemma lor_add b k v : 0 <= k -> 0 <= v < 2 ^ k -> b mod 2 ^ k = 0 -> Z.lor b v = b + v.
Proof.
  intros K V B. symmetry. rewrite <- Z.lxor_lor, Z.add_nocarry_lxor; try reflexivity.
  - apply Z.bits_inj'. intros n N. rewrite Z.land_spec, Z.bits_0.
    destruct (Z_lt_ge_dec n k).
    + replace (Z.testbit b n) with false; [reflexivity|]. symmetry.
      rewrite <- (Z.mod_pow2_bits_low b k n) by lia. rewrite B. apply Z.bits_0.
    + rewrite <- (Z.mod_small v (2 ^ k)) by lia. rewrite Z.mod_pow2_bits_high by lia. apply andb_false_r.
  - apply Z.bits_inj'. intros n N. rewrite Z.land_spec, Z.bits_0.
    destruct (Z_lt_ge_dec n k).
    + replace (Z.testbit b n) with false; [reflexivity|]. symmetry.
      rewrite <- (Z.mod_pow2_bits_low b k n) by lia. rewrite B. apply Z.bits_0.
    + rewrite <- (Z.mod_small v (2 ^ k)) by lia. rewrite Z.mod_pow2_bits_high by lia. apply andb_false_r.
Qed.
Lemma emits_fixmap v : 0 <= v < 16 -> emits (cmp_write_fixmap v) [0x80 + v].
Proof.
  intro H. unfold cmp_write_fixmap. autounfold with cmpm. replace (v <=? 15) with true by (symmetry; lia).
  rewrite (lor_add _ 4) by (cbn; lia). apply emits_fixed. lia.
Qed.
Lemma emits_fixarray v : 0 <= v < 16 -> emits (cmp_write_fixarray v) [0x90 + v].
Proof.
  intro H. unfold cmp_write_fixarray. autounfold with cmpm. replace (v <=? 15) with true by (symmetry; lia).
  rewrite (lor_add _ 4) by (cbn; lia). apply emits_fixed. lia.
Qed.
Lemma emits_fixstr v : 0 <= v < 32 -> emits (cmp_write_fixstr_marker v) [0xA0 + v].
Proof.
  intro H. unfold cmp_write_fixstr_marker. autounfold with cmpm. replace (v <=? 31) with true by (symmetry; lia).
  rewrite (lor_add _ 5) by (cbn; lia). apply emits_fixed. lia.
Qed.
Lemma emits_ext8 tp n : emits (cmp_write_ext8_marker tp n) (0xC7 :: be 1 n ++ be 1 tp).
Proof.
  unfold cmp_write_ext8_marker. apply (emits_bind _ _ [0xC7]); [apply emits_marker; unfold EXT8_MARKER; lia|].
  apply emits_bind; apply emits_or; rewrite le_1; now apply emits_wr.
Qed.
Lemma emits_ext16 tp n : emits (cmp_write_ext16_marker tp n) (0xC8 :: be 2 n ++ be 1 tp).
Proof.
  unfold cmp_write_ext16_marker. apply (emits_bind _ _ [0xC8]); [apply emits_marker; unfold EXT16_MARKER; lia|].
  apply emits_bind; apply emits_or; rewrite ?le_be16, ?le_1; now apply emits_wr.
Qed.
Lemma emits_ext32 tp n : emits (cmp_write_ext32_marker tp n) (0xC9 :: be 4 n ++ be 1 tp).
Proof.
  unfold cmp_write_ext32_marker. apply (emits_bind _ _ [0xC9]); [apply emits_marker; unfold EXT32_MARKER; lia|].
  apply emits_bind; apply emits_or; rewrite ?le_be32, ?le_1; now apply emits_wr.
Qed.

Ltac em := first [ apply emits_m1 | apply emits_m2 | apply emits_m4 | apply emits_n1 | apply emits_n2 | apply emits_n4 | apply emits_n8 ]; autounfold with cmpm; lia.

#[local] Opaque le_bytes be be16 be32 be64 wr mbind or_err write_type_marker write_fixed_value.

Lemma write_object_ok o : obj_ok o -> emits (cmp_write_object o) (obj_bytes o).
Proof.
  destruct o as [ty v x]. unfold obj_ok, obj_bytes, cmp_write_object. cbn [oty oval oext].
  unfold as_u8, as_u16, as_u32, as_u64, as_s8, as_s16, as_s32, as_s64, as_bool, ext_type, u8, u16, u32, u64, s8, s16, s32, s64.
  cbn [oty oval oext].
  destruct ty; intro H; destruct H as [H X]; try subst x.
  all: rewrite ?(uN_id 32 v) by lia; rewrite ?(uN_id 8 v) by lia; rewrite ?(uN_id 16 v) by lia; rewrite ?(uN_id 64 v) by lia.
  all: rewrite ?(sN_id 8 v) by (cbn; lia); rewrite ?(sN_id 16 v) by (cbn; lia); rewrite ?(sN_id 32 v) by (cbn; lia); rewrite ?(sN_id 64 v) by (cbn; lia).
  all: rewrite ?(sN_id 8 x) by (cbn; lia).
  all: try em.
  - now apply emits_pfix.
  - now apply emits_fixmap.
  - now apply emits_fixarray.
  - now apply emits_fixstr.
  - apply emits_marker. autounfold with cmpm. lia.
  - assert (v = 0 \/ v = 1) as [-> | ->] by lia; cbn [negb Z.eqb]; apply emits_marker; autounfold with cmpm; lia.
  - apply emits_ext8.
  - apply emits_ext16.
  - apply emits_ext32.
  - eapply emits_eq; [em|]. cbn [app]. f_equal. apply (be_u 2 16). lia.
  - eapply emits_eq; [em|]. cbn [app]. f_equal. apply (be_u 4 32). lia.
  - eapply emits_eq; [em|]. cbn [app]. f_equal. apply (be_u 8 64). lia.
  - now apply emits_nfix.
Qed.

(** ** Typed readers *)

Lemma accepts_as {A} (f : obj -> option A) o a : obj_ok o -> f o = Some a -> accepts (read_as f) (obj_bytes o) a.
Proof.
  intros O F. unfold read_as. eapply accepts_bind_ret; [apply read_object_ok, O|]. rewrite F. apply accepts_ret.
Qed.

Lemma accepts_as' {A} (f : obj -> option A) o a bs :
  obj_bytes o = bs -> obj_ok o -> f o = Some a -> accepts (read_as f) bs a.
Proof. intros <-. apply accepts_as. Qed.

(** The object behind an encoding of an integer. *)
Inductive int_obj (v : Z) : list Z -> obj -> Prop :=
| io_pos : 0 <= v <= 127 -> int_obj v [v] (mkobj POSITIVE_FIXNUM v 0)
| io_neg : -32 <= v < 0 -> int_obj v [256 + v] (mkobj NEGATIVE_FIXNUM v 0)
| io_u8 : 0 <= v < 2 ^ 8 -> int_obj v (0xCC :: be 1 v) (mkobj UINT8 v 0)
| io_u16 : 0 <= v < 2 ^ 16 -> int_obj v (0xCD :: be 2 v) (mkobj UINT16 v 0)
| io_u32 : 0 <= v < 2 ^ 32 -> int_obj v (0xCE :: be 4 v) (mkobj UINT32 v 0)
| io_u64 : 0 <= v < 2 ^ 64 -> int_obj v (0xCF :: be 8 v) (mkobj UINT64 v 0)
| io_s8 : - 2 ^ 7 <= v < 2 ^ 7 -> int_obj v (0xD0 :: be 1 v) (mkobj SINT8 v 0)
| io_s16 : - 2 ^ 15 <= v < 2 ^ 15 -> int_obj v (0xD1 :: be 2 v) (mkobj SINT16 v 0)
| io_s32 : - 2 ^ 31 <= v < 2 ^ 31 -> int_obj v (0xD2 :: be 4 v) (mkobj SINT32 v 0)
| io_s64 : - 2 ^ 63 <= v < 2 ^ 63 -> int_obj v (0xD3 :: be 8 v) (mkobj SINT64 v 0).

Lemma int_obj_of v bs : int_encoding v bs -> exists o, int_obj v bs o.
Proof. destruct 1; eexists; econstructor; eassumption. Qed.
Lemma int_obj_ok v bs o : int_obj v bs o -> obj_ok o /\ obj_bytes o = bs /\ oval o = v.
Proof. destruct 1; unfold obj_ok; cbn [oty oval oext obj_bytes]; repeat split; try lia. Qed.

Ltac as_tac := unfold as_u8, as_u16, as_u32, as_u64, as_s8, as_s16, as_s32, as_s64, u8, u16, u32, u64, s8, s16, s32, s64 in *;
  cbn [oval oty oext] in *;
  rewrite ?(fun v => uN_id 8 v) by lia; rewrite ?(fun v => uN_id 16 v) by lia;
  rewrite ?(fun v => uN_id 32 v) by lia; rewrite ?(fun v => uN_id 64 v) by lia.

Lemma uid8 v : 0 <= v < 2 ^ 8 -> u8 v = v. Proof. apply (uN_id 8). Qed.
Lemma uid16 v : 0 <= v < 2 ^ 16 -> u16 v = v. Proof. apply (uN_id 16). Qed.
Lemma uid32 v : 0 <= v < 2 ^ 32 -> u32 v = v. Proof. apply (uN_id 32). Qed.
Lemma uid64 v : 0 <= v < 2 ^ 64 -> u64 v = v. Proof. apply (uN_id 64). Qed.
Lemma sid8 v : - 2 ^ 7 <= v < 2 ^ 7 -> s8 v = v. Proof. intro. apply (sN_id 8); cbn; lia. Qed.
Lemma sid16 v : - 2 ^ 15 <= v < 2 ^ 15 -> s16 v = v. Proof. intro. apply (sN_id 16); cbn; lia. Qed.
Lemma sid32 v : - 2 ^ 31 <= v < 2 ^ 31 -> s32 v = v. Proof. intro. apply (sN_id 32); cbn; lia. Qed.
Lemma sid64 v : - 2 ^ 63 <= v < 2 ^ 63 -> s64 v = v. Proof. intro. apply (sN_id 64); cbn; lia. Qed.

Ltac ids := rewrite ?uid8 by lia; rewrite ?uid16 by lia; rewrite ?uid32 by lia; rewrite ?uid64 by lia;
            rewrite ?sid8 by lia; rewrite ?sid16 by lia; rewrite ?sid32 by lia; rewrite ?sid64 by lia.
Ltac ids_in H := rewrite ?uid8 in H by lia; rewrite ?uid16 in H by lia; rewrite ?uid32 in H by lia; rewrite ?uid64 in H by lia;
            rewrite ?sid8 in H by lia; rewrite ?sid16 in H by lia; rewrite ?sid32 in H by lia; rewrite ?sid64 in H by lia.
Ltac conv f := unfold f, as_u8, as_u16, as_u32, as_u64, as_s8, as_s16, as_s32, as_s64; cbn [oty oval oext]; ids;
   repeat match goal with |- context [if ?b then _ else _] => first [replace b with true by (symmetry; lia) | replace b with false by (symmetry; lia)] end;
   reflexivity.

Lemma as_long_ok v bs o : int_obj v bs o -> - 2 ^ 63 <= v < 2 ^ 63 -> cmp_object_as_long o = Some v.
Proof. destruct 1; intro; conv cmp_object_as_long. Qed.
Lemma as_ulong_ok v bs o : int_obj v bs o -> 0 <= v ->
  match oty o with SINT8 | SINT16 | SINT32 | SINT64 => False | _ => True end -> cmp_object_as_ulong o = Some v.
Proof. destruct 1; intros ? T; cbn [oty] in T; try contradiction; try lia; conv cmp_object_as_ulong. Qed.

(** The bytes written by the two integer writers. *)
Definition uint_obj (v : Z) : obj :=
  if v <=? 127 then mkobj POSITIVE_FIXNUM v 0
  else if v <=? 255 then mkobj UINT8 v 0
  else if v <=? 65535 then mkobj UINT16 v 0
  else if v <=? 4294967295 then mkobj UINT32 v 0 else mkobj UINT64 v 0.
Definition sint_obj (v : Z) : obj :=
  if 0 <=? v then uint_obj v
  else if -32 <=? v then mkobj NEGATIVE_FIXNUM v 0
  else if -128 <=? v then mkobj SINT8 v 0
  else if -32768 <=? v then mkobj SINT16 v 0
  else if -2147483648 <=? v then mkobj SINT32 v 0 else mkobj SINT64 v 0.

Lemma uint_obj_int v : 0 <= v < 2 ^ 64 -> int_obj v (obj_bytes (uint_obj v)) (uint_obj v).
Proof.
  intro H. unfold uint_obj.
  destruct (Z.leb_spec v 127); [constructor; lia|].
  destruct (Z.leb_spec v 255); [apply io_u8; lia|].
  destruct (Z.leb_spec v 65535); [apply io_u16; lia|].
  destruct (Z.leb_spec v 4294967295); [apply io_u32; lia|apply io_u64; lia].
Qed.
Lemma sint_obj_int v : - 2 ^ 63 <= v < 2 ^ 63 -> int_obj v (obj_bytes (sint_obj v)) (sint_obj v).
Proof.
  intro H. unfold sint_obj.
  destruct (Z.leb_spec 0 v); [apply uint_obj_int; lia|].
  destruct (Z.leb_spec (-32) v); [apply io_neg; lia|].
  destruct (Z.leb_spec (-128) v); [apply io_s8; lia|].
  destruct (Z.leb_spec (-32768) v); [apply io_s16; lia|].
  destruct (Z.leb_spec (-2147483648) v); [apply io_s32; lia|apply io_s64; lia].
Qed.

Lemma write_uint_obj v : 0 <= v < 2 ^ 64 -> cmp_write_uint v = cmp_write_object (uint_obj v).
Proof.
  intro H. unfold cmp_write_uint, uint_obj, cmp_write_object.
  destruct (Z.leb_spec v 127); [unfold as_u8; cbn [oty oval]; reflexivity|].
  destruct (Z.leb_spec v 255); [unfold as_u8; cbn [oty oval]; reflexivity|].
  destruct (Z.leb_spec v 65535); [unfold as_u16; cbn [oty oval]; reflexivity|].
  destruct (Z.leb_spec v 4294967295); [unfold as_u32; cbn [oty oval]; reflexivity|].
  unfold as_u64; cbn [oty oval]. now rewrite uid64.
Qed.
Lemma write_sint_obj v : - 2 ^ 63 <= v < 2 ^ 63 -> cmp_write_sint v = cmp_write_object (sint_obj v).
Proof.
  intro H. unfold cmp_write_sint, sint_obj.
  destruct (Z.leb_spec 0 v); [rewrite uid64 by lia; apply write_uint_obj; lia|].
  destruct (Z.leb_spec (-32) v); [reflexivity|].
  destruct (Z.leb_spec (-128) v); [reflexivity|].
  destruct (Z.leb_spec (-32768) v); [reflexivity|].
  change (-2147483647 - 1) with (-2147483648).
  destruct (Z.leb_spec (-2147483648) v); [reflexivity|].
  unfold cmp_write_object, as_s64; cbn [oty oval]. now rewrite sid64.
Qed.

Lemma int_enc_len v bs : int_encoding v bs ->
  blen bs = 1 /\ -32 <= v <= 127 \/ blen bs = 2 /\ -128 <= v <= 255 \/ blen bs = 3 /\ -32768 <= v <= 65535
  \/ blen bs = 5 /\ - 2 ^ 31 <= v < 2 ^ 32 \/ blen bs = 9.
Proof.
  destruct 1; rewrite ?blen_cons, ?be_blen, ?blen_nil; lia.
Qed.

Lemma int_enc_of v bs o : int_obj v bs o -> int_encoding v bs.
Proof. destruct 1; econstructor; lia. Qed.

Lemma uint_shortest v : 0 <= v < 2 ^ 64 -> shortest (int_encoding v) (obj_bytes (uint_obj v)).
Proof.
  intro H. split; [eapply int_enc_of, uint_obj_int, H|]. intros bs' E. apply int_enc_len in E.
  unfold uint_obj.
  destruct (Z.leb_spec v 127); [|destruct (Z.leb_spec v 255); [|destruct (Z.leb_spec v 65535); [|destruct (Z.leb_spec v 4294967295)]]];
  cbn [obj_bytes oty oval]; rewrite ?blen_cons, ?be_blen, ?blen_nil; lia.
Qed.
Lemma sint_shortest v : - 2 ^ 63 <= v < 2 ^ 63 -> shortest (int_encoding v) (obj_bytes (sint_obj v)).
Proof.
  intro H. unfold sint_obj. destruct (Z.leb_spec 0 v); [apply uint_shortest; lia|].
  split; [pose proof (int_enc_of _ _ _ (sint_obj_int v H)) as X; unfold sint_obj in X;
    replace (0 <=? v) with false in X by (symmetry; lia); exact X|]. intros bs' E. apply int_enc_len in E.
  destruct (Z.leb_spec (-32) v); [|destruct (Z.leb_spec (-128) v); [|destruct (Z.leb_spec (-32768) v); [|destruct (Z.leb_spec (-2147483648) v)]]];
  cbn [obj_bytes oty oval]; rewrite ?blen_cons, ?be_blen, ?blen_nil; lia.
Qed.

Lemma accepts_long v bs : int_encoding v bs -> - 2 ^ 63 <= v < 2 ^ 63 -> accepts cmp_read_long bs v.
Proof.
  intros E H. destruct (int_obj_of _ _ E) as (o & I). destruct (int_obj_ok _ _ _ I) as (O & B & _).
  eapply accepts_as'; eauto. eapply as_long_ok; eauto.
Qed.

Lemma sint_rt v : - 2 ^ 63 <= v < 2 ^ 63 ->
  exists bs, shortest (int_encoding v) bs /\ emits (cmp_write_sint v) bs /\ accepts cmp_read_sinteger bs v.
Proof.
  intro H. exists (obj_bytes (sint_obj v)). split; [now apply sint_shortest|]. split.
  - rewrite write_sint_obj by exact H. apply write_object_ok. eapply int_obj_ok, sint_obj_int, H.
  - apply accepts_long; [|exact H]. eapply int_enc_of, sint_obj_int, H.
Qed.

Lemma uint_obj_type v : match oty (uint_obj v) with SINT8 | SINT16 | SINT32 | SINT64 => False | _ => True end.
Proof.
  unfold uint_obj. destruct (v <=? 127); [exact I|]. destruct (v <=? 255); [exact I|].
  destruct (v <=? 65535); [exact I|]. destruct (v <=? 4294967295); exact I.
Qed.

Lemma uint_rt v : 0 <= v < 2 ^ 64 ->
  exists bs, shortest (int_encoding v) bs /\ emits (cmp_write_uint v) bs /\ accepts cmp_read_uinteger bs v.
Proof.
  intro H. exists (obj_bytes (uint_obj v)). split; [now apply uint_shortest|].
  destruct (int_obj_ok _ _ _ (uint_obj_int v H)) as (O & _). split.
  - rewrite write_uint_obj by exact H. now apply write_object_ok.
  - eapply accepts_as; [exact O|]. eapply as_ulong_ok; [apply uint_obj_int, H|lia|apply uint_obj_type].
Qed.

(** Narrow readers. *)
Lemma narrow_rt {A} (f : obj -> option A) W o a :
  W = cmp_write_object o -> obj_ok o -> f o = Some a -> round_trip W (read_as f) a.
Proof.
  intros -> O F. exists (obj_bytes o). split; [destruct o as [ty v x]; destruct ty; discriminate|].
  split; [now apply write_object_ok|now apply accepts_as].
Qed.

Ltac sint_cases v :=
  unfold sint_obj, uint_obj;
  destruct (Z.leb_spec 0 v);
  [destruct (Z.leb_spec v 127); [|destruct (Z.leb_spec v 255); [|destruct (Z.leb_spec v 65535); [|destruct (Z.leb_spec v 4294967295)]]]
  |destruct (Z.leb_spec (-32) v); [|destruct (Z.leb_spec (-128) v); [|destruct (Z.leb_spec (-32768) v); [|destruct (Z.leb_spec (-2147483648) v)]]]];
  try lia.

Lemma char_rt v : - 2 ^ 7 <= v < 2 ^ 7 -> round_trip (cmp_write_sint v) cmp_read_char v.
Proof.
  intro H. apply narrow_rt with (o := sint_obj v).
  - apply write_sint_obj. lia.
  - eapply int_obj_ok, sint_obj_int. lia.
  - sint_cases v; conv cmp_object_as_char.
Qed.
Lemma short_rt v : - 2 ^ 15 <= v < 2 ^ 15 -> round_trip (cmp_write_sint v) cmp_read_short v.
Proof.
  intro H. apply narrow_rt with (o := sint_obj v).
  - apply write_sint_obj. lia.
  - eapply int_obj_ok, sint_obj_int. lia.
  - sint_cases v; conv cmp_object_as_short.
Qed.
Lemma int_rt v : - 2 ^ 31 <= v < 2 ^ 31 -> round_trip (cmp_write_sint v) cmp_read_int v.
Proof.
  intro H. apply narrow_rt with (o := sint_obj v).
  - apply write_sint_obj. lia.
  - eapply int_obj_ok, sint_obj_int. lia.
  - sint_cases v; conv cmp_object_as_int.
Qed.
Ltac uint_cases v :=
  unfold uint_obj;
  destruct (Z.leb_spec v 127); [|destruct (Z.leb_spec v 255); [|destruct (Z.leb_spec v 65535); [|destruct (Z.leb_spec v 4294967295)]]];
  try lia.
Lemma uchar_rt v : 0 <= v < 2 ^ 8 -> round_trip (cmp_write_uint v) cmp_read_uchar v.
Proof.
  intro H. apply narrow_rt with (o := uint_obj v).
  - apply write_uint_obj. lia.
  - eapply int_obj_ok, uint_obj_int. lia.
  - uint_cases v; conv cmp_object_as_uchar.
Qed.
Lemma ushort_rt v : 0 <= v < 2 ^ 16 -> round_trip (cmp_write_uint v) cmp_read_ushort v.
Proof.
  intro H. apply narrow_rt with (o := uint_obj v).
  - apply write_uint_obj. lia.
  - eapply int_obj_ok, uint_obj_int. lia.
  - uint_cases v; conv cmp_object_as_ushort.
Qed.
Lemma uint32_rt v : 0 <= v < 2 ^ 32 -> round_trip (cmp_write_uint v) cmp_read_uint v.
Proof.
  intro H. apply narrow_rt with (o := uint_obj v).
  - apply write_uint_obj. lia.
  - eapply int_obj_ok, uint_obj_int. lia.
  - uint_cases v; conv cmp_object_as_uint.
Qed.

(** Exact widths. *)
Ltac exact_rt ob :=
  intros; eapply narrow_rt with (o := ob);
  [unfold cmp_write_object, as_u8, as_u16, as_u32, as_u64, as_s8, as_s16, as_s32, as_s64; cbn [oty oval]; ids; reflexivity
  |unfold obj_ok; cbn [oty oval oext]; lia
  |unfold as_u8, as_u16, as_u32, as_u64, as_s8, as_s16, as_s32, as_s64; cbn [oty oval]; ids; reflexivity].

Lemma pfix_rt v : 0 <= v < 2 ^ 7 -> round_trip (cmp_write_pfix v) cmp_read_pfix v.
Proof. exact_rt (mkobj POSITIVE_FIXNUM v 0). Qed.
Lemma nfix_rt v : -32 <= v < 0 -> round_trip (cmp_write_nfix v) cmp_read_nfix v.
Proof. exact_rt (mkobj NEGATIVE_FIXNUM v 0). Qed.
Lemma sfix_rt v : -32 <= v < 2 ^ 7 -> round_trip (cmp_write_sfix v) cmp_read_sfix v.
Proof.
  intro H. destruct (Z_lt_ge_dec v 0).
  - eapply narrow_rt with (o := mkobj NEGATIVE_FIXNUM v 0).
    + unfold cmp_write_sfix, cmp_write_object, as_s8; cbn [oty oval]. rewrite sid8 by lia.
      replace (0 <=? v) with false by (symmetry; lia). replace ((-32 <=? v) && (v <=? -1))%bool with true by (symmetry; lia). reflexivity.
    + unfold obj_ok; cbn [oty oval oext]; lia.
    + unfold as_s8; cbn [oty oval]. now rewrite sid8 by lia.
  - eapply narrow_rt with (o := mkobj POSITIVE_FIXNUM v 0).
    + unfold cmp_write_sfix, cmp_write_object, as_u8; cbn [oty oval].
      replace (0 <=? v) with true by (symmetry; lia). reflexivity.
    + unfold obj_ok; cbn [oty oval oext]; lia.
    + unfold as_s8; cbn [oty oval]. now rewrite sid8 by lia.
Qed.
Lemma s8_rt v : - 2 ^ 7 <= v < 2 ^ 7 -> round_trip (cmp_write_s8 v) cmp_read_s8 v.
Proof. exact_rt (mkobj SINT8 v 0). Qed.
Lemma s16_rt v : - 2 ^ 15 <= v < 2 ^ 15 -> round_trip (cmp_write_s16 v) cmp_read_s16 v.
Proof. exact_rt (mkobj SINT16 v 0). Qed.
Lemma s32_rt v : - 2 ^ 31 <= v < 2 ^ 31 -> round_trip (cmp_write_s32 v) cmp_read_s32 v.
Proof. exact_rt (mkobj SINT32 v 0). Qed.
Lemma s64_rt v : - 2 ^ 63 <= v < 2 ^ 63 -> round_trip (cmp_write_s64 v) cmp_read_s64 v.
Proof. exact_rt (mkobj SINT64 v 0). Qed.
Lemma u8_rt v : 0 <= v < 2 ^ 8 -> round_trip (cmp_write_u8 v) cmp_read_u8 v.
Proof. exact_rt (mkobj UINT8 v 0). Qed.
Lemma u16_rt v : 0 <= v < 2 ^ 16 -> round_trip (cmp_write_u16 v) cmp_read_u16 v.
Proof. exact_rt (mkobj UINT16 v 0). Qed.
Lemma u32_rt v : 0 <= v < 2 ^ 32 -> round_trip (cmp_write_u32 v) cmp_read_u32 v.
Proof. exact_rt (mkobj UINT32 v 0). Qed.
Lemma u64_rt v : 0 <= v < 2 ^ 64 -> round_trip (cmp_write_u64 v) cmp_read_u64 v.
Proof. exact_rt (mkobj UINT64 v 0). Qed.
Lemma float_rt d2f v : 0 <= v < 2 ^ 32 -> round_trip (cmp_write_float v) (cmp_read_float d2f) v.
Proof. exact_rt (mkobj FLOAT v 0). Qed.
Lemma double_rt f2d v : 0 <= v < 2 ^ 64 -> round_trip (cmp_write_double v) (cmp_read_double f2d) v.
Proof. exact_rt (mkobj DOUBLE v 0). Qed.
Lemma nil_rt : round_trip cmp_write_nil cmp_read_nil tt.
Proof. exact_rt (mkobj NIL 0 0). Qed.
Lemma bool_rt b : round_trip (cmp_write_bool b) cmp_read_bool b.
Proof. destruct b; [exact_rt (mkobj BOOLEAN 1 0)|exact_rt (mkobj BOOLEAN 0 0)]. Qed.
Lemma bool8_rt b : 0 <= b < 2 ^ 8 -> round_trip (cmp_write_u8_as_bool b) cmp_read_bool_as_u8 (if b =? 0 then 0 else 1).
Proof.
  intro. unfold cmp_write_u8_as_bool. destruct (b =? 0); [exact_rt (mkobj BOOLEAN 0 0)|exact_rt (mkobj BOOLEAN 1 0)].
Qed.

(** Headers of arrays and maps, strings and binaries. *)
Ltac hdr ob := exists (obj_bytes ob); split;
   [split; [econstructor; lia | intros bs' E; destruct E; cbn [obj_bytes oty oval]; rewrite ?blen_cons, ?be_blen, ?blen_nil; lia]|].
Ltac emit_as ob := match goal with |- emits ?W _ => replace W with (cmp_write_object ob);
   [apply write_object_ok; unfold obj_ok; cbn [oty oval oext]; lia
   |unfold cmp_write_object, as_u32; cbn [oty oval oext]; rewrite uid32 by lia; reflexivity] end.
Ltac acc_as := eapply accepts_as; [unfold obj_ok; cbn [oty oval oext]; lia|
   unfold cmp_object_as_array, cmp_object_as_map, cmp_object_as_str, cmp_object_as_bin, as_u32; cbn [oty oval oext]; now rewrite uid32 by lia].

Lemma array_rt n : 0 <= n < 2 ^ 32 ->
  exists bs, shortest (array_header n) bs /\ emits (cmp_write_array n) bs /\ accepts cmp_read_array bs n.
Proof.
  intro H. unfold cmp_write_array. autounfold with cmpm.
  destruct (Z.leb_spec n 15).
  - hdr (mkobj FIXARRAY n 0). split; [emit_as (mkobj FIXARRAY n 0)|acc_as].
  - destruct (Z.leb_spec n 65535).
    + hdr (mkobj ARRAY16 n 0). split; [emit_as (mkobj ARRAY16 n 0)|acc_as].
    + hdr (mkobj ARRAY32 n 0). split; [emit_as (mkobj ARRAY32 n 0)|acc_as].
Qed.
Lemma map_rt n : 0 <= n < 2 ^ 32 ->
  exists bs, shortest (map_header n) bs /\ emits (cmp_write_map n) bs /\ accepts cmp_read_map bs n.
Proof.
  intro H. unfold cmp_write_map. autounfold with cmpm.
  destruct (Z.leb_spec n 15).
  - hdr (mkobj FIXMAP n 0). split; [emit_as (mkobj FIXMAP n 0)|acc_as].
  - destruct (Z.leb_spec n 65535).
    + hdr (mkobj MAP16 n 0). split; [emit_as (mkobj MAP16 n 0)|acc_as].
    + hdr (mkobj MAP32 n 0). split; [emit_as (mkobj MAP32 n 0)|acc_as].
Qed.
Lemma str_marker_rt n : 0 <= n < 2 ^ 32 ->
  exists bs, shortest (str_header n) bs /\ emits (cmp_write_str_marker n) bs /\ accepts cmp_read_str_size bs n.
Proof.
  intro H. unfold cmp_write_str_marker. autounfold with cmpm.
  destruct (Z.leb_spec n 31).
  - hdr (mkobj FIXSTR n 0). split; [emit_as (mkobj FIXSTR n 0)|acc_as].
  - destruct (Z.leb_spec n 255).
    + hdr (mkobj STR8 n 0). split; [emit_as (mkobj STR8 n 0)|acc_as].
    + destruct (Z.leb_spec n 65535).
      * hdr (mkobj STR16 n 0). split; [emit_as (mkobj STR16 n 0)|acc_as].
      * hdr (mkobj STR32 n 0). split; [emit_as (mkobj STR32 n 0)|acc_as].
Qed.
Lemma bin_marker_rt n : 0 <= n < 2 ^ 32 ->
  exists bs, shortest (bin_header n) bs /\ emits (cmp_write_bin_marker n) bs /\ accepts cmp_read_bin_size bs n.
Proof.
  intro H. unfold cmp_write_bin_marker. autounfold with cmpm.
  destruct (Z.leb_spec n 255).
  - hdr (mkobj BIN8 n 0). split; [emit_as (mkobj BIN8 n 0)|acc_as].
  - destruct (Z.leb_spec n 65535).
    + hdr (mkobj BIN16 n 0). split; [emit_as (mkobj BIN16 n 0)|acc_as].
    + hdr (mkobj BIN32 n 0). split; [emit_as (mkobj BIN32 n 0)|acc_as].
Qed.

(** Payloads. *)
Lemma write_str_split d n : 0 <= n < 2 ^ 32 -> cmp_write_str d n = (cmp_write_str_marker n ;; write_payload d n).
Proof.
  intro H. unfold cmp_write_str, cmp_write_str_marker, FIXSTR_SIZE.
  destruct (Z.leb_spec n 31); [rewrite uid8 by lia; reflexivity|].
  destruct (Z.leb_spec n 255); [rewrite uid8 by lia; reflexivity|].
  destruct (Z.leb_spec n 65535); [rewrite uid16 by lia; reflexivity|reflexivity].
Qed.
Lemma write_bin_split d n : 0 <= n < 2 ^ 32 -> cmp_write_bin d n = (cmp_write_bin_marker n ;; write_payload d n).
Proof.
  intro H. unfold cmp_write_bin, cmp_write_bin_marker.
  destruct (Z.leb_spec n 255); [rewrite uid8 by lia; reflexivity|].
  destruct (Z.leb_spec n 65535); [rewrite uid16 by lia; reflexivity|reflexivity].
Qed.
Lemma write_ext_split d tp n : 0 < n < 2 ^ 32 ->
  cmp_write_ext tp n d = (cmp_write_ext_marker tp n ;; wr_data d n !! DATA_WRITING_ERROR).
Proof.
  intro H. unfold cmp_write_ext, cmp_write_ext_marker.
  destruct (Z.eqb_spec n 1) as [->|]; [reflexivity|].
  destruct (Z.eqb_spec n 2) as [->|]; [reflexivity|].
  destruct (Z.eqb_spec n 4) as [->|]; [reflexivity|].
  destruct (Z.eqb_spec n 8) as [->|]; [reflexivity|].
  destruct (Z.eqb_spec n 16) as [->|]; [reflexivity|].
  destruct (Z.leb_spec n 255); [rewrite uid8 by lia; reflexivity|].
  destruct (Z.leb_spec n 65535); [rewrite uid16 by lia; reflexivity|reflexivity].
Qed.

Lemma accepts_rd_data dst l : blen l <= blen dst ->
  accepts (rd_data dst (blen l)) l (l ++ skipn (Z.to_nat (blen l)) dst).
Proof.
  intros H pre post c E I S B. unfold rd_data. rewrite (accepts_rd l pre post c E I S B).
  destruct (split_at dst (blen l)) as (a & b & -> & L); [pose proof (blen_nonneg l); lia|].
  rewrite <- L. rewrite skipn_blen_app.
  change (a ++ b) with ([] ++ a ++ b). rewrite bset_all_app; [reflexivity|reflexivity|unfold blen in L; lia].
Qed.

(** What the reader leaves in the buffer of the caller: the data, then for a string a null byte, then
    what was there before. *)
Lemma str_rt d n dst cap : 0 <= n <= blen d -> n < cap -> cap <= blen dst -> cap < 2 ^ 32 ->
  exists h, shortest (str_header n) h /\
    emits (cmp_write_str d n) (h ++ firstn (Z.to_nat n) d) /\
    accepts (cmp_read_str dst cap) (h ++ firstn (Z.to_nat n) d)
      (firstn (Z.to_nat n) d ++ 0 :: skipn (Z.to_nat (n + 1)) dst, n).
Proof.
  intros H1 H2 H3 H4. destruct (str_marker_rt n) as (h & S & E & A); [lia|].
  exists h. split; [exact S|]. split.
  - rewrite write_str_split by lia. apply emits_bind; [exact E|apply emits_payload; lia].
  - unfold cmp_read_str. eapply accepts_bind; [exact A|].
    rewrite uid32 by lia. replace (cap <? n + 1) with false by (symmetry; lia).
    set (l := firstn (Z.to_nat n) d).
    assert (L : blen l = n) by (unfold l, blen in *; rewrite firstn_length; lia).
    eapply accepts_bind_ret; [rewrite <- L; apply accepts_or, accepts_rd_data; lia|].
    intros pre post c Em I Sz B.
    destruct (split_at dst n) as (a & b & -> & La); [lia|].
    rewrite L. rewrite <- La at 1. rewrite skipn_blen_app.
    rewrite blen_app in H3. destruct b as [|x b]; [rewrite blen_nil in H3; lia|].
    rewrite (bset_app l x b 0 n) by (symmetry; exact L).
    replace (a ++ x :: b) with ((a ++ [x]) ++ b) by now rewrite <- app_assoc.
    replace (n + 1) with (blen (a ++ [x])) by (rewrite blen_app, La, blen_cons, blen_nil; lia).
    rewrite skipn_blen_app. rewrite blen_nil, Z.add_0_r, <- I. now destruct c.
Qed.

Lemma bin_rt d n dst cap : 0 <= n <= blen d -> n <= cap -> cap <= blen dst -> cap < 2 ^ 32 ->
  exists h, shortest (bin_header n) h /\
    emits (cmp_write_bin d n) (h ++ firstn (Z.to_nat n) d) /\
    accepts (cmp_read_bin dst cap) (h ++ firstn (Z.to_nat n) d)
      (firstn (Z.to_nat n) d ++ skipn (Z.to_nat n) dst, n).
Proof.
  intros H1 H2 H3 H4. destruct (bin_marker_rt n) as (h & S & E & A); [lia|].
  exists h. split; [exact S|]. split.
  - rewrite write_bin_split by lia. apply emits_bind; [exact E|apply emits_payload; lia].
  - unfold cmp_read_bin. eapply accepts_bind; [exact A|].
    replace (cap <? n) with false by (symmetry; lia).
    set (l := firstn (Z.to_nat n) d).
    assert (L : blen l = n) by (unfold l, blen in *; rewrite firstn_length; lia).
    eapply accepts_bind_ret; [rewrite <- L at 1; apply accepts_or, accepts_rd_data; lia|].
    rewrite L. apply accepts_ret.
Qed.

Ltac ext_as ob := match goal with |- emits ?W _ => replace W with (cmp_write_object ob);
   [apply write_object_ok; unfold obj_ok; cbn [oty oval oext]; lia
   |unfold cmp_write_object, as_u32, ext_type; cbn [oty oval oext]; rewrite ?uid32 by lia; rewrite sid8 by lia; reflexivity] end.
Ltac acc_ext := eapply accepts_as; [unfold obj_ok; cbn [oty oval oext]; lia|
   unfold cmp_object_as_ext, as_u32, ext_type; cbn [oty oval oext]; rewrite uid32 by lia; now rewrite sid8 by lia].
Ltac ehdr ob := exists (obj_bytes ob); split;
   [split; [econstructor; lia | intros bs' E; destruct E; cbn [obj_bytes oty oval oext];
            rewrite ?blen_cons, ?blen_app, ?be_blen, ?blen_nil; lia]|split; [ext_as ob|acc_ext]].

Lemma ext_marker_rt tp n : - 2 ^ 7 <= tp < 2 ^ 7 -> 0 <= n < 2 ^ 32 ->
  exists bs, shortest (ext_header tp n) bs /\ emits (cmp_write_ext_marker tp n) bs /\ accepts cmp_read_ext_marker bs (tp, n).
Proof.
  intros T H. unfold cmp_write_ext_marker.
  destruct (Z.eqb_spec n 1) as [->|]; [ehdr (mkobj FIXEXT1 1 tp)|].
  destruct (Z.eqb_spec n 2) as [->|]; [ehdr (mkobj FIXEXT2 2 tp)|].
  destruct (Z.eqb_spec n 4) as [->|]; [ehdr (mkobj FIXEXT4 4 tp)|].
  destruct (Z.eqb_spec n 8) as [->|]; [ehdr (mkobj FIXEXT8 8 tp)|].
  destruct (Z.eqb_spec n 16) as [->|]; [ehdr (mkobj FIXEXT16 16 tp)|].
  destruct (Z.leb_spec n 255); [ehdr (mkobj EXT8 n tp)|].
  destruct (Z.leb_spec n 65535); [ehdr (mkobj EXT16 n tp)|ehdr (mkobj EXT32 n tp)].
Qed.

Lemma ext_rt tp d n dst : - 2 ^ 7 <= tp < 2 ^ 7 -> 0 < n <= blen d -> n <= blen dst -> n < 2 ^ 32 ->
  exists h, shortest (ext_header tp n) h /\
    emits (cmp_write_ext tp n d) (h ++ firstn (Z.to_nat n) d) /\
    accepts (cmp_read_ext dst) (h ++ firstn (Z.to_nat n) d)
      (tp, n, firstn (Z.to_nat n) d ++ skipn (Z.to_nat n) dst).
Proof.
  intros T H1 H2 H3. destruct (ext_marker_rt tp n T) as (h & S & E & A); [lia|].
  exists h. split; [exact S|]. split.
  - rewrite write_ext_split by lia. apply emits_bind; [exact E|apply emits_or, emits_data; lia].
  - unfold cmp_read_ext. eapply accepts_bind; [exact A|]. cbn [snd].
    set (l := firstn (Z.to_nat n) d).
    assert (L : blen l = n) by (unfold l, blen in *; rewrite firstn_length; lia).
    eapply accepts_bind_ret; [rewrite <- L at 1; apply accepts_or, accepts_rd_data; lia|].
    rewrite L. apply accepts_ret.
Qed.

(** ** Memory accessor *)

Lemma bset_all_some m : forall l i, 0 <= i -> i + blen l <= blen m -> exists m', bset_all m i l = Some m'.
Proof.
  intros l i I H. destruct (split_at m i) as (a & b & -> & La); [pose proof (blen_nonneg l); lia|].
  rewrite blen_app in H. destruct (split_at b (blen l)) as (o & r & -> & Lo); [pose proof (blen_nonneg l); lia|].
  eexists. apply bset_all_app; [lia|]. unfold blen in Lo. lia.
Qed.

Lemma rd_spec n c : sane n c -> 0 <= n ->
  rd n c = if index c + n <=? size c
           then Ok (firstn (Z.to_nat n) (skipn (Z.to_nat (index c)) (mem c))) (set_index c (index c + n))
           else Fail c.
Proof.
  intros (S & I & B) N. unfold rd. rewrite uid32 by lia. destruct (Z.leb_spec (index c + n) (size c)); [|reflexivity].
  unfold bslice. replace ((0 <=? index c) && (0 <=? n) && (index c + n <=? blen (mem c)))%bool with true by (symmetry; lia).
  reflexivity.
Qed.

#[local] Transparent wr.
Lemma wr_spec l c : sane (blen l) c -> l <> [] -> ro c = false ->
  wr l c = if index c + blen l <=? size c
           then Ok tt (mkctx (firstn (Z.to_nat (index c)) (mem c) ++ l ++ skipn (Z.to_nat (index c + blen l)) (mem c))
                             (size c) (index c + blen l) false (err c))
           else Fail c.
Proof.
  intros (S & I & B) N R. unfold wr. rewrite R. pose proof (blen_nonneg l).
  assert (blen l <> 0) by (destruct l; [easy|rewrite blen_cons; pose proof (blen_nonneg l); lia]).
  rewrite uid32 by lia. destruct (Z.leb_spec (index c + blen l) (size c)) as [L|]; [|reflexivity].
  destruct (split_at (mem c) (index c)) as (a & b & E & La); [lia|]. rewrite S, E, blen_app in L.
  destruct (split_at b (blen l)) as (o & r & -> & Lo); [lia|].
  rewrite E. rewrite bset_all_app by (unfold blen in *; lia).
  replace (blen l =? 0) with false by (symmetry; lia). rewrite <- La. rewrite firstn_blen_app.
  replace (skipn (Z.to_nat (blen a + blen l)) (a ++ o ++ r)) with r; [reflexivity|].
  rewrite app_assoc. replace (blen a + blen l) with (blen (a ++ o)) by (rewrite blen_app; lia). now rewrite skipn_blen_app.
Qed.

Lemma wr_ro l c : ro c = true -> wr l c = Fail c.
Proof. intro R. unfold wr. now rewrite R. Qed.

(** ** Staying inside *)

Definition inside (c c' : ctx) : Prop :=
  size c' = size c /\ ro c' = ro c /\ length (mem c') = length (mem c) /\
  index c <= index c' <= size c' /\
  firstn (Z.to_nat (index c)) (mem c') = firstn (Z.to_nat (index c)) (mem c) /\
  skipn (Z.to_nat (index c')) (mem c') = skipn (Z.to_nat (index c')) (mem c).

Lemma si_def {A} R (m : M A) : stays_inside R m <->
  forall c, sane R c -> match m c with UB => False | Fail c' => inside c c' | Ok _ c' => inside c c' end.
Proof. reflexivity. Qed.

Lemma inside_refl R c : sane R c -> inside c c.
Proof. intros (S & I & B). unfold inside. repeat split; lia. Qed.
Lemma inside_err R c e : sane R c -> inside c (set_err c e).
Proof. intros (S & I & B). unfold inside. cbn. repeat split; lia. Qed.
Lemma inside_sane R c c' : sane R c -> inside c c' -> sane R c'.
Proof. intros (S & I & B) (A1 & A2 & A3 & A4 & A5 & A6). unfold sane, blen in *. lia. Qed.
Lemma skipn_plus {A} (a b : nat) (l : list A) : skipn (a + b) l = skipn b (skipn a l).
Proof. revert l. induction a; intro l; [reflexivity|]. destruct l; [cbn; now rewrite skipn_nil|]. apply IHa. Qed.
Lemma inside_trans R a b c : sane R a -> inside a b -> inside b c -> inside a c.
Proof.
  intros (S & I & B) (A1 & A2 & A3 & A4 & A5 & A6) (B1 & B2 & B3 & B4 & B5 & B6).
  unfold inside. repeat split; try lia; try congruence.
  - rewrite <- A5. replace (Z.to_nat (index a)) with (min (Z.to_nat (index a)) (Z.to_nat (index b))) by lia.
    rewrite <- !firstn_firstn, B5. reflexivity.
  - rewrite B6. replace (Z.to_nat (index c)) with (Z.to_nat (index b) + Z.to_nat (index c - index b))%nat by lia.
    rewrite !skipn_plus, A6. reflexivity.
Qed.

Lemma si_ret {A} R (a : A) : stays_inside R (ret a).
Proof. intros c S. cbn. exact (inside_refl R c S). Qed.
Lemma si_fail {A} R e : stays_inside R (@fail A e).
Proof. intros c S. cbn. exact (inside_err R c e S). Qed.
#[local] Transparent mbind or_err.
Lemma si_bind {A B} R (m : M A) (f : A -> M B) :
  stays_inside R m -> (forall a, stays_inside R (f a)) -> stays_inside R (mbind m f).
Proof.
  intros H1 H2 c S. rewrite si_def in H1. specialize (H1 c S). unfold mbind. destruct (m c) as [|c'|a c']; auto.
  specialize (H2 a). rewrite si_def in H2. specialize (H2 c' (inside_sane _ _ _ S H1)).
  destruct (f a c') as [|c''|b c'']; auto; exact (inside_trans _ _ _ _ S H1 H2).
Qed.
Lemma si_or {A} R (m : M A) e : stays_inside R m -> stays_inside R (m !! e).
Proof.
  intros H c S. rewrite si_def in H. specialize (H c S). unfold or_err. destruct (m c) as [|c'|a c']; auto.
Qed.
Lemma sane_le R R' c : sane R c -> R' <= R -> sane R' c.
Proof. unfold sane. lia. Qed.
Lemma si_rd R n : 0 <= n <= R -> stays_inside R (rd n).
Proof.
  intro N. apply si_def. intros c S. rewrite rd_spec by (try apply (sane_le R _ _ S); lia).
  destruct (Z.leb_spec (index c + n) (size c)).
  - destruct S as (S & I & B). unfold inside, set_index; cbn [mem size index ro err]. repeat split; lia.
  - exact (inside_refl R c S).
Qed.
Lemma si_wr R l : blen l <= R -> stays_inside R (wr l).
Proof.
  intro N. apply si_def. intros c S. destruct (ro c) eqn:E; [rewrite wr_ro by exact E; exact (inside_refl R c S)|].
  destruct l as [|x l'].
  - unfold wr. rewrite E. change (blen []) with 0. destruct S as (S & I & B). rewrite blen_nil in N.
    rewrite uid32 by lia. replace (index c + 0 <=? size c) with true by (symmetry; lia).
    rewrite Z.add_0_r. cbn [bset_all Z.eqb]. unfold inside. cbn [mem size index ro err]. repeat split; congruence || lia.
  - set (l := x :: l') in *. rewrite wr_spec; [|apply (sane_le R _ _ S); lia|discriminate|exact E].
    destruct (Z.leb_spec (index c + blen l) (size c)) as [L|]; [|exact (inside_refl R c S)].
    destruct S as (S & I & B). unfold inside. cbn [mem size index ro err].
    pose proof (blen_nonneg l).
    destruct (split_at (mem c) (index c)) as (a & b & Em & La); [lia|]. rewrite S, Em, blen_app in L.
    destruct (split_at b (blen l)) as (o & r & -> & Lo); [lia|].
    rewrite Em. rewrite <- La. rewrite firstn_blen_app.
    replace (skipn (Z.to_nat (blen a + blen l)) (a ++ o ++ r)) with r.
    2:{ rewrite app_assoc. replace (blen a + blen l) with (blen (a ++ o)) by (rewrite blen_app; lia). now rewrite skipn_blen_app. }
    split; [reflexivity|]. split; [now rewrite E|]. split.
    { unfold blen in Lo. rewrite !app_length. lia. }
    split. { rewrite S, Em, !blen_app. pose proof (blen_nonneg a). pose proof (blen_nonneg r). lia. }
    split. { now rewrite firstn_blen_app. }
    replace (skipn (Z.to_nat (blen a + blen l)) (a ++ o ++ r)) with r.
    2:{ rewrite app_assoc. replace (blen a + blen l) with (blen (a ++ o)) by (rewrite blen_app; lia). now rewrite skipn_blen_app. }
    rewrite app_assoc. replace (blen a + blen l) with (blen (a ++ l)) by (rewrite blen_app; lia). apply skipn_blen_app.
Qed.
Lemma si_wr_data R d n : 0 <= n <= R -> n <= blen d -> stays_inside R (wr_data d n).
Proof.
  intros N D. unfold wr_data. intros c S. replace (n <=? blen d) with true by (symmetry; lia).
  revert c S. apply si_wr. unfold blen in *. rewrite firstn_length. lia.
Qed.
Lemma si_rd_data R d n : 0 <= n <= R -> n <= blen d -> stays_inside R (rd_data d n).
Proof.
  intros N D. apply si_def. intros c S. unfold rd_data.
  pose proof (proj1 (si_def R _) (si_rd R n N) c S) as H.
  rewrite rd_spec in * by (try apply (sane_le R _ _ S); lia).
  destruct (index c + n <=? size c) eqn:L; [|exact H].
  edestruct (bset_all_some d) as (d' & ->); [reflexivity| |exact H].
  destruct S as (S & I & B). unfold blen in *. rewrite firstn_length, skipn_length. lia.
Qed.
Lemma si_payload R d n : 0 <= n <= R -> n <= blen d -> stays_inside R (write_payload d n).
Proof.
  intros. unfold write_payload. destruct (n =? 0); [apply si_ret|apply si_or, si_wr_data; auto].
Qed.
Lemma si_le {k x} R : Z.of_nat k <= R -> stays_inside R (wr (le_bytes k x)).
Proof. intro. apply si_wr. unfold blen. now rewrite le_bytes_length. Qed.
#[local] Opaque wr mbind or_err.

Ltac si := repeat first
  [ apply si_ret | apply si_fail | apply si_or | apply si_bind; [|intro] | apply si_le; lia
  | apply si_rd; lia
  | match goal with |- stays_inside _ (if ?b then _ else _) => destruct b
                  | |- stays_inside _ (match ?b with Some _ => _ | None => _ end) => destruct b end ].

#[local] Hint Unfold read_type_marker read_byte write_type_marker write_fixed_value write_byte rd8 rd16 rd32 rd64 : cmpi.
#[local] Transparent write_type_marker write_fixed_value.

Lemma si_read_object R : 8 <= R -> stays_inside R cmp_read_object.
Proof. intro H. unfold cmp_read_object. autounfold with cmpi. si. Qed.
Lemma si_read_as {A} R (f : obj -> option A) : 8 <= R -> stays_inside R (read_as f).
Proof. intro H. unfold read_as. apply si_bind; [now apply si_read_object|intro o]. destruct (f o); si. Qed.
Lemma si_write_object R o : 8 <= R -> stays_inside R (cmp_write_object o).
Proof.
  intro H. unfold cmp_write_object.
  destruct (oty o);
  unfold cmp_write_pfix, cmp_write_fixmap, cmp_write_fixarray, cmp_write_fixstr_marker, cmp_write_nil, cmp_write_true,
   cmp_write_false, cmp_write_bin8_marker, cmp_write_bin16_marker, cmp_write_bin32_marker, cmp_write_ext8_marker,
   cmp_write_ext16_marker, cmp_write_ext32_marker, cmp_write_float, cmp_write_double, cmp_write_u8, cmp_write_u16,
   cmp_write_u32, cmp_write_u64, cmp_write_s8, cmp_write_s16, cmp_write_s32, cmp_write_s64, cmp_write_fixext1_marker,
   cmp_write_fixext2_marker, cmp_write_fixext4_marker, cmp_write_fixext8_marker, cmp_write_fixext16_marker,
   cmp_write_str8_marker, cmp_write_str16_marker, cmp_write_str32_marker, cmp_write_array16, cmp_write_array32,
   cmp_write_map16, cmp_write_map32, cmp_write_nfix; autounfold with cmpi; si.
Qed.
Lemma si_eq {A} R (m m' : M A) : m = m' -> stays_inside R m' -> stays_inside R m.
Proof. now intros ->. Qed.
Lemma si_write_uint R v : 8 <= R -> stays_inside R (cmp_write_uint v).
Proof.
  intro. unfold cmp_write_uint, cmp_write_pfix, cmp_write_u8, cmp_write_u16, cmp_write_u32, cmp_write_u64. autounfold with cmpi. si.
Qed.
Lemma si_write_sint R v : 8 <= R -> stays_inside R (cmp_write_sint v).
Proof.
  intro. unfold cmp_write_sint, cmp_write_nfix, cmp_write_s8, cmp_write_s16, cmp_write_s32, cmp_write_s64. autounfold with cmpi.
  destruct (0 <=? v); [now apply si_write_uint|]. si.
Qed.
Lemma si_write_str_marker R n : 8 <= R -> stays_inside R (cmp_write_str_marker n).
Proof.
  intro. unfold cmp_write_str_marker, cmp_write_fixstr_marker, cmp_write_str8_marker, cmp_write_str16_marker, cmp_write_str32_marker.
  autounfold with cmpi. si.
Qed.
Lemma si_write_bin_marker R n : 8 <= R -> stays_inside R (cmp_write_bin_marker n).
Proof.
  intro. unfold cmp_write_bin_marker, cmp_write_bin8_marker, cmp_write_bin16_marker, cmp_write_bin32_marker.
  autounfold with cmpi. si.
Qed.
Lemma si_write_ext_marker R tp n : 8 <= R -> stays_inside R (cmp_write_ext_marker tp n).
Proof.
  intro. unfold cmp_write_ext_marker, cmp_write_fixext1_marker, cmp_write_fixext2_marker, cmp_write_fixext4_marker,
    cmp_write_fixext8_marker, cmp_write_fixext16_marker, cmp_write_ext8_marker, cmp_write_ext16_marker, cmp_write_ext32_marker.
  autounfold with cmpi. si.
Qed.
Lemma si_write_array R n : 8 <= R -> stays_inside R (cmp_write_array n).
Proof.
  intro. unfold cmp_write_array, cmp_write_fixarray, cmp_write_array16, cmp_write_array32. autounfold with cmpi. si.
Qed.
Lemma si_write_map R n : 8 <= R -> stays_inside R (cmp_write_map n).
Proof.
  intro. unfold cmp_write_map, cmp_write_fixmap, cmp_write_map16, cmp_write_map32. autounfold with cmpi. si.
Qed.
Lemma si_write_str R d n : 8 <= R -> 0 <= n <= R -> n <= blen d -> n < 2 ^ 32 -> stays_inside R (cmp_write_str d n).
Proof.
  intros. rewrite write_str_split by lia. apply si_bind; [now apply si_write_str_marker|intro; now apply si_payload].
Qed.
Lemma si_write_bin R d n : 8 <= R -> 0 <= n <= R -> n <= blen d -> n < 2 ^ 32 -> stays_inside R (cmp_write_bin d n).
Proof.
  intros. rewrite write_bin_split by lia. apply si_bind; [now apply si_write_bin_marker|intro; now apply si_payload].
Qed.
Lemma si_write_ext R tp d n : 8 <= R -> 0 < n <= R -> n <= blen d -> n < 2 ^ 32 -> stays_inside R (cmp_write_ext tp n d).
Proof.
  intros. rewrite write_ext_split by lia.
  apply si_bind; [now apply si_write_ext_marker|intro; apply si_or, si_wr_data; lia].
Qed.

(** The size read from the wire is an unsigned 32-bit number. *)
#[local] Transparent mbind.
Lemma si_read_bin R d n : 8 <= R -> n <= R -> n <= blen d -> stays_inside R (cmp_read_bin d n).
Proof.
  intros R8 N D. unfold cmp_read_bin. apply si_def. intros c S. unfold mbind.
  pose proof (proj1 (si_def R _) (si_read_as R cmp_object_as_bin R8) c S) as H.
  unfold cmp_read_bin_size. destruct (read_as cmp_object_as_bin c) as [|c'|s c'] eqn:E; try exact H.
  assert (P : 0 <= s).
  { unfold read_as, mbind in E. destruct (cmp_read_object c) as [|c1|o c1]; try discriminate.
    destruct (cmp_object_as_bin o) eqn:F; [|discriminate]. injection E as <- <-.
    unfold cmp_object_as_bin, as_u32 in F. destruct (oty o); try discriminate; injection F as <-; apply uN_range; lia. }
  pose proof (inside_sane _ _ _ S H) as S'.
  destruct (Z.ltb_spec n s).
  - exact (inside_trans _ _ _ _ S H (inside_err _ _ _ S')).
  - assert (G : stays_inside R (let! d0 := rd_data d s !! DATA_READING_ERROR in ret (d0, s))).
    { apply si_bind; [apply si_or, si_rd_data; lia|intro; apply si_ret]. }
    pose proof (proj1 (si_def R _) G c' S') as G'. unfold mbind in G'.
    destruct ((rd_data d s !! DATA_READING_ERROR) c') as [|c2|a c2]; auto;
      cbn in G' |- *; exact (inside_trans _ _ _ _ S H G').
Qed.

(** ** The object reader on every input *)

Lemma be_onto k l : length l = k -> bytes_ok l -> exists v, 0 <= v < 256 ^ Z.of_nat k /\ be k v = l.
Proof.
  intros L B. exists (le_val (rev l)). assert (B' : bytes_ok (rev l)) by now apply Forall_rev. split.
  - pose proof (le_val_range (rev l) B') as R. unfold blen in R. rewrite rev_length, L in R. exact R.
  - rewrite be_le by (rewrite ?rev_length; auto). apply rev_involutive.
Qed.
Lemma be_onto_s k n l : n = 8 * Z.of_nat k -> 0 < n -> length l = k -> bytes_ok l ->
  exists v, - 2 ^ (n - 1) <= v < 2 ^ (n - 1) /\ be k v = l.
Proof.
  intros N P L B. destruct (be_onto k l L B) as (v & R & <-). exists (sN n v). split; [now apply sN_range|].
  apply be_mod. replace (256 ^ Z.of_nat k) with (2 ^ n) by (subst n; rewrite Z.pow_mul_r by lia; reflexivity).
  unfold sN. assert (0 < 2 ^ n) by (apply Z.pow_pos_nonneg; lia).
  rewrite Zminus_mod_idemp_l. f_equal. lia.
Qed.

Lemma split_bytes l n : 0 <= n <= blen l -> bytes_ok l ->
  exists a b, l = a ++ b /\ length a = Z.to_nat n /\ bytes_ok a.
Proof.
  intros H B. destruct (split_at l n H) as (a & b & -> & L). exists a, b. split; [reflexivity|].
  split; [unfold blen in L; lia|]. now apply Forall_app in B.
Qed.

Lemma marker_cases t : 0 <= t < 256 -> t <> 0xC1 ->
  t < 0xC0 \/ 0xE0 <= t \/ In t (map Z.of_nat (seq 192 1) ++ map Z.of_nat (seq 194 30)).
Proof.
  intros H N. destruct (Z_lt_ge_dec t 0xC0); [now left|]. destruct (Z_lt_ge_dec t 0xE0); [|right; left; lia].
  right; right. apply in_app_iff. destruct (Z.eq_dec t 0xC0) as [->|]; [left; now left|right].
  apply in_map_iff. exists (Z.to_nat t). split; [lia|]. apply in_seq. lia.
Qed.

Ltac obj_with o := exists o; eexists; split; [|split; [reflexivity|]];
   [unfold obj_ok; cbn [oty oval oext]; lia|reflexivity].

Lemma obj_of_bytes t rest : 0 <= t < 256 -> t <> 0xC1 -> bytes_ok rest -> follow t <= blen rest ->
  exists o post, obj_ok o /\ t :: rest = obj_bytes o ++ post /\ blen (obj_bytes o) = 1 + follow t.
Proof.
  intros T N B F. destruct (marker_cases t T N) as [H|[H|H]].
  - assert (follow t = 0) as F0.
    { unfold follow. cbn [existsb]. repeat match goal with |- context [t =? ?k] => replace (t =? k) with false by (symmetry; lia) end. reflexivity. }
    rewrite F0. destruct (Z_lt_ge_dec t 0x80); [|destruct (Z_lt_ge_dec t 0x90); [|destruct (Z_lt_ge_dec t 0xA0)]].
    + exists (mkobj POSITIVE_FIXNUM t 0), rest. unfold obj_ok; cbn [oty oval oext obj_bytes]. repeat split; lia.
    + exists (mkobj FIXMAP (t - 0x80) 0), rest. unfold obj_ok; cbn [oty oval oext obj_bytes]. repeat split; try lia. cbn [app]. f_equal. lia.
    + exists (mkobj FIXARRAY (t - 0x90) 0), rest. unfold obj_ok; cbn [oty oval oext obj_bytes]. repeat split; try lia. cbn [app]. f_equal. lia.
    + exists (mkobj FIXSTR (t - 0xA0) 0), rest. unfold obj_ok; cbn [oty oval oext obj_bytes]. repeat split; try lia. cbn [app]. f_equal. lia.
  - assert (follow t = 0) as F0.
    { unfold follow. cbn [existsb]. repeat match goal with |- context [t =? ?k] => replace (t =? k) with false by (symmetry; lia) end. reflexivity. }
    rewrite F0. exists (mkobj NEGATIVE_FIXNUM (t - 256) 0), rest. unfold obj_ok; cbn [oty oval oext obj_bytes]. repeat split; try lia. cbn [app]. f_equal. lia.
  - assert (U : forall k c ty, c = t -> follow c = Z.of_nat k ->
              (forall v, 0 <= v < 256 ^ Z.of_nat k -> obj_ok (mkobj ty v 0) /\ obj_bytes (mkobj ty v 0) = c :: be k v) ->
              exists o post, obj_ok o /\ t :: rest = obj_bytes o ++ post /\ blen (obj_bytes o) = 1 + follow t).
    { intros k c ty -> Fk G. destruct (split_bytes rest (follow t)) as (a & b & -> & La & Ba); [lia|exact B|].
      rewrite Fk, Nat2Z.id in La. destruct (be_onto k a La Ba) as (v & R & <-). destruct (G v R) as (O & E).
      exists (mkobj ty v 0), b. rewrite E. repeat split; auto. rewrite blen_cons, be_blen. lia. }
    assert (S : forall k n c ty, n = 8 * Z.of_nat k -> 0 < n -> c = t -> follow c = Z.of_nat k ->
              (forall v, - 2 ^ (n - 1) <= v < 2 ^ (n - 1) -> obj_ok (mkobj ty v 0) /\ obj_bytes (mkobj ty v 0) = c :: be k v) ->
              exists o post, obj_ok o /\ t :: rest = obj_bytes o ++ post /\ blen (obj_bytes o) = 1 + follow t).
    { intros k n c ty Nk Pk -> Fk G. destruct (split_bytes rest (follow t)) as (a & b & -> & La & Ba); [lia|exact B|].
      rewrite Fk, Nat2Z.id in La. destruct (be_onto_s k n a Nk Pk La Ba) as (v & R & <-). destruct (G v R) as (O & E).
      exists (mkobj ty v 0), b. rewrite E. repeat split; auto. rewrite blen_cons, be_blen. lia. }
    assert (X : forall c ty n, c = t -> follow c = 1 ->
              (forall v, - 2 ^ 7 <= v < 2 ^ 7 -> obj_ok (mkobj ty n v) /\ obj_bytes (mkobj ty n v) = c :: be 1 v) ->
              exists o post, obj_ok o /\ t :: rest = obj_bytes o ++ post /\ blen (obj_bytes o) = 1 + follow t).
    { intros c ty n -> Fk G. destruct (split_bytes rest (follow t)) as (a & b & -> & La & Ba); [lia|exact B|].
      rewrite Fk in La. destruct (be_onto_s 1 8 a eq_refl eq_refl La Ba) as (v & R & <-). destruct (G v R) as (O & E).
      exists (mkobj ty n v), b. rewrite E. repeat split; auto. rewrite blen_cons, be_blen. lia. }
    assert (Y : forall k c ty, c = t -> follow c = Z.of_nat k + 1 ->
              (forall n v, 0 <= n < 256 ^ Z.of_nat k -> - 2 ^ 7 <= v < 2 ^ 7 -> obj_ok (mkobj ty n v) /\ obj_bytes (mkobj ty n v) = c :: be k n ++ be 1 v) ->
              exists o post, obj_ok o /\ t :: rest = obj_bytes o ++ post /\ blen (obj_bytes o) = 1 + follow t).
    { intros k c ty -> Fk G. destruct (split_bytes rest (Z.of_nat k)) as (a & b & -> & La & Ba); [lia|exact B|].
      rewrite blen_app in F. replace (blen a) with (Z.of_nat k) in F by (unfold blen; lia).
      apply Forall_app in B as (_ & Bb).
      destruct (split_bytes b 1) as (a' & b' & -> & La' & Ba'); [lia|exact Bb|].
      rewrite Nat2Z.id in La. destruct (be_onto k a La Ba) as (n & Rn & <-).
      destruct (be_onto_s 1 8 a' eq_refl eq_refl La' Ba') as (v & R & <-). destruct (G n v Rn R) as (O & E).
      exists (mkobj ty n v), b'. rewrite E. repeat split; auto.
      - cbn [app]. now rewrite <- app_assoc.
      - rewrite blen_cons, blen_app, !be_blen. lia. }
    cbn [map seq app Z.of_nat Pos.of_succ_nat Pos.succ In] in H.
    repeat (destruct H as [H|H]); try contradiction.
    + subst t. exists (mkobj NIL 0 0), rest. unfold obj_ok; cbn [oty oval oext obj_bytes]. repeat split; lia.
    + subst t. exists (mkobj BOOLEAN 0 0), rest. unfold obj_ok; cbn [oty oval oext obj_bytes]. repeat split; lia.
    + subst t. exists (mkobj BOOLEAN 1 0), rest. unfold obj_ok; cbn [oty oval oext obj_bytes]. repeat split; lia.
    + apply (U 1%nat _ BIN8 H eq_refl). intros v V. cbn in V. split; [unfold obj_ok; cbn [oty oval oext]; lia|reflexivity].
    + apply (U 2%nat _ BIN16 H eq_refl). intros v V. cbn in V. split; [unfold obj_ok; cbn [oty oval oext]; lia|reflexivity].
    + apply (U 4%nat _ BIN32 H eq_refl). intros v V. cbn in V. split; [unfold obj_ok; cbn [oty oval oext]; lia|reflexivity].
    + apply (Y 1%nat _ EXT8 H eq_refl). intros n v Vn V. cbn in Vn. split; [unfold obj_ok; cbn [oty oval oext]; lia|reflexivity].
    + apply (Y 2%nat _ EXT16 H eq_refl). intros n v Vn V. cbn in Vn. split; [unfold obj_ok; cbn [oty oval oext]; lia|reflexivity].
    + apply (Y 4%nat _ EXT32 H eq_refl). intros n v Vn V. cbn in Vn. split; [unfold obj_ok; cbn [oty oval oext]; lia|reflexivity].
    + apply (U 4%nat _ FLOAT H eq_refl). intros v V. cbn in V. split; [unfold obj_ok; cbn [oty oval oext]; lia|reflexivity].
    + apply (U 8%nat _ DOUBLE H eq_refl). intros v V. cbn in V. split; [unfold obj_ok; cbn [oty oval oext]; lia|reflexivity].
    + apply (U 1%nat _ UINT8 H eq_refl). intros v V. cbn in V. split; [unfold obj_ok; cbn [oty oval oext]; lia|reflexivity].
    + apply (U 2%nat _ UINT16 H eq_refl). intros v V. cbn in V. split; [unfold obj_ok; cbn [oty oval oext]; lia|reflexivity].
    + apply (U 4%nat _ UINT32 H eq_refl). intros v V. cbn in V. split; [unfold obj_ok; cbn [oty oval oext]; lia|reflexivity].
    + apply (U 8%nat _ UINT64 H eq_refl). intros v V. cbn in V. split; [unfold obj_ok; cbn [oty oval oext]; lia|reflexivity].
    + apply (S 1%nat 8 _ SINT8 eq_refl eq_refl H eq_refl). intros v V. split; [unfold obj_ok; cbn [oty oval oext]; cbn in V; lia|reflexivity].
    + apply (S 2%nat 16 _ SINT16 eq_refl eq_refl H eq_refl). intros v V. split; [unfold obj_ok; cbn [oty oval oext]; cbn in V; lia|reflexivity].
    + apply (S 4%nat 32 _ SINT32 eq_refl eq_refl H eq_refl). intros v V. split; [unfold obj_ok; cbn [oty oval oext]; cbn in V; lia|reflexivity].
    + apply (S 8%nat 64 _ SINT64 eq_refl eq_refl H eq_refl). intros v V. split; [unfold obj_ok; cbn [oty oval oext]; cbn in V; lia|reflexivity].
    + apply (X _ FIXEXT1 1 H eq_refl). intros v V. split; [unfold obj_ok; cbn [oty oval oext]; lia|reflexivity].
    + apply (X _ FIXEXT2 2 H eq_refl). intros v V. split; [unfold obj_ok; cbn [oty oval oext]; lia|reflexivity].
    + apply (X _ FIXEXT4 4 H eq_refl). intros v V. split; [unfold obj_ok; cbn [oty oval oext]; lia|reflexivity].
    + apply (X _ FIXEXT8 8 H eq_refl). intros v V. split; [unfold obj_ok; cbn [oty oval oext]; lia|reflexivity].
    + apply (X _ FIXEXT16 16 H eq_refl). intros v V. split; [unfold obj_ok; cbn [oty oval oext]; lia|reflexivity].
    + apply (U 1%nat _ STR8 H eq_refl). intros v V. cbn in V. split; [unfold obj_ok; cbn [oty oval oext]; lia|reflexivity].
    + apply (U 2%nat _ STR16 H eq_refl). intros v V. cbn in V. split; [unfold obj_ok; cbn [oty oval oext]; lia|reflexivity].
    + apply (U 4%nat _ STR32 H eq_refl). intros v V. cbn in V. split; [unfold obj_ok; cbn [oty oval oext]; lia|reflexivity].
    + apply (U 2%nat _ ARRAY16 H eq_refl). intros v V. cbn in V. split; [unfold obj_ok; cbn [oty oval oext]; lia|reflexivity].
    + apply (U 4%nat _ ARRAY32 H eq_refl). intros v V. cbn in V. split; [unfold obj_ok; cbn [oty oval oext]; lia|reflexivity].
    + apply (U 2%nat _ MAP16 H eq_refl). intros v V. cbn in V. split; [unfold obj_ok; cbn [oty oval oext]; lia|reflexivity].
    + apply (U 4%nat _ MAP32 H eq_refl). intros v V. cbn in V. split; [unfold obj_ok; cbn [oty oval oext]; lia|reflexivity].
Qed.

#[local] Transparent or_err mbind.
Definition read_body (t : Z) : M obj :=
  if t <=? 0x7F then ret (mkobj POSITIVE_FIXNUM t 0)
  else if t <=? 0x8F then ret (mkobj FIXMAP (Z.land t FIXMAP_SIZE) 0)
  else if t <=? 0x9F then ret (mkobj FIXARRAY (Z.land t FIXARRAY_SIZE) 0)
  else if t <=? 0xBF then ret (mkobj FIXSTR (Z.land t FIXSTR_SIZE) 0)
  else if t =? NIL_MARKER then ret (mkobj NIL 0 0)
  else if t =? FALSE_MARKER then ret (mkobj BOOLEAN 0 0)
  else if t =? TRUE_MARKER then ret (mkobj BOOLEAN 1 0)
  else if t =? BIN8_MARKER then (let! n := rd8 LENGTH_READING_ERROR in ret (mkobj BIN8 n 0))
  else if t =? BIN16_MARKER then (let! n := rd16 LENGTH_READING_ERROR in ret (mkobj BIN16 n 0))
  else if t =? BIN32_MARKER then (let! n := rd32 LENGTH_READING_ERROR in ret (mkobj BIN32 n 0))
  else if t =? EXT8_MARKER then
    (let! n := rd8 LENGTH_READING_ERROR in let! tp := rd8 EXT_TYPE_READING_ERROR in
     ret (mkobj EXT8 n (s8 tp)))
  else if t =? EXT16_MARKER then
    (let! n := rd16 LENGTH_READING_ERROR in let! tp := rd8 EXT_TYPE_READING_ERROR in
     ret (mkobj EXT16 n (s8 tp)))
  else if t =? EXT32_MARKER then
    (let! n := rd32 LENGTH_READING_ERROR in let! tp := rd8 EXT_TYPE_READING_ERROR in
     ret (mkobj EXT32 n (s8 tp)))
  else if t =? FLOAT_MARKER then (let! x := rd32 DATA_READING_ERROR in ret (mkobj FLOAT x 0))
  else if t =? DOUBLE_MARKER then (let! x := rd64 DATA_READING_ERROR in ret (mkobj DOUBLE x 0))
  else if t =? U8_MARKER then (let! x := rd8 DATA_READING_ERROR in ret (mkobj UINT8 x 0))
  else if t =? U16_MARKER then (let! x := rd16 DATA_READING_ERROR in ret (mkobj UINT16 x 0))
  else if t =? U32_MARKER then (let! x := rd32 DATA_READING_ERROR in ret (mkobj UINT32 x 0))
  else if t =? U64_MARKER then (let! x := rd64 DATA_READING_ERROR in ret (mkobj UINT64 x 0))
  else if t =? S8_MARKER then (let! x := rd8 DATA_READING_ERROR in ret (mkobj SINT8 (s8 x) 0))
  else if t =? S16_MARKER then (let! x := rd16 DATA_READING_ERROR in ret (mkobj SINT16 (s16 x) 0))
  else if t =? S32_MARKER then (let! x := rd32 DATA_READING_ERROR in ret (mkobj SINT32 (s32 x) 0))
  else if t =? S64_MARKER then (let! x := rd64 DATA_READING_ERROR in ret (mkobj SINT64 (s64 x) 0))
  else if t =? FIXEXT1_MARKER then (let! tp := rd8 EXT_TYPE_READING_ERROR in ret (mkobj FIXEXT1 1 (s8 tp)))
  else if t =? FIXEXT2_MARKER then (let! tp := rd8 EXT_TYPE_READING_ERROR in ret (mkobj FIXEXT2 2 (s8 tp)))
  else if t =? FIXEXT4_MARKER then (let! tp := rd8 EXT_TYPE_READING_ERROR in ret (mkobj FIXEXT4 4 (s8 tp)))
  else if t =? FIXEXT8_MARKER then (let! tp := rd8 EXT_TYPE_READING_ERROR in ret (mkobj FIXEXT8 8 (s8 tp)))
  else if t =? FIXEXT16_MARKER then (let! tp := rd8 EXT_TYPE_READING_ERROR in ret (mkobj FIXEXT16 16 (s8 tp)))
  else if t =? STR8_MARKER then (let! n := rd8 DATA_READING_ERROR in ret (mkobj STR8 n 0))
  else if t =? STR16_MARKER then (let! n := rd16 DATA_READING_ERROR in ret (mkobj STR16 n 0))
  else if t =? STR32_MARKER then (let! n := rd32 DATA_READING_ERROR in ret (mkobj STR32 n 0))
  else if t =? ARRAY16_MARKER then (let! n := rd16 DATA_READING_ERROR in ret (mkobj ARRAY16 n 0))
  else if t =? ARRAY32_MARKER then (let! n := rd32 DATA_READING_ERROR in ret (mkobj ARRAY32 n 0))
  else if t =? MAP16_MARKER then (let! n := rd16 DATA_READING_ERROR in ret (mkobj MAP16 n 0))
  else if t =? MAP32_MARKER then (let! n := rd32 DATA_READING_ERROR in ret (mkobj MAP32 n 0))
  else if NEGATIVE_FIXNUM_MARKER <=? t then ret (mkobj NEGATIVE_FIXNUM (s8 t) 0)
  else fail INVALID_TYPE_ERROR.
Lemma read_object_body : cmp_read_object = (let! t := read_type_marker in read_body t).
Proof. reflexivity. Qed.

Lemma skipn_cons_nth c t rest : sane 8 c -> skipn (Z.to_nat (index c)) (mem c) = t :: rest ->
  index c + 1 + blen rest = size c /\
  read_type_marker c = Ok t (set_index c (index c + 1)).
Proof.
  intros S E. pose proof S as (Sz & I & B).
  assert (L : index c + 1 + blen rest = size c).
  { apply (f_equal blen) in E. unfold blen in *. rewrite skipn_length in E. cbn [length] in E. lia. }
  split; [exact L|]. unfold read_type_marker, read_byte, or_err, mbind.
  pose proof (blen_nonneg rest).
  rewrite rd_spec by (try apply (sane_le 8 _ _ S); lia). replace (index c + 1 <=? size c) with true by (symmetry; lia).
  rewrite E. change (Z.to_nat 1) with 1%nat. cbn [firstn le_val]. unfold ret. now replace (t + 256 * 0) with t by lia.
Qed.

#[local] Transparent or_err.
Lemma rd_short n c e : sane 8 c -> 0 <= n <= 8 -> size c < index c + n -> (rd n !! e) c = Fail (set_err c e).
Proof.
  intros S N L. unfold or_err. rewrite rd_spec by (try apply (sane_le 8 _ _ S); lia).
  replace (index c + n <=? size c) with false by (symmetry; lia). reflexivity.
Qed.
Lemma rd_enough n c e : sane 8 c -> 0 <= n <= 8 -> index c + n <= size c ->
  exists l, (rd n !! e) c = Ok l (set_index c (index c + n)).
Proof.
  intros S N L. unfold or_err. rewrite rd_spec by (try apply (sane_le 8 _ _ S); lia).
  replace (index c + n <=? size c) with true by (symmetry; lia). eauto.
Qed.
Definition short_err (e : Z) : Prop := e = DATA_READING_ERROR \/ e = EXT_TYPE_READING_ERROR \/ e = LENGTH_READING_ERROR.

Lemma short1 {A} n e (f : list Z -> M A) c : sane 8 c -> 0 <= n <= 8 -> size c < index c + n -> short_err e ->
  exists c', (let! l := rd n !! e in f l) c = Fail c' /\ mem c' = mem c /\ short_err (err c').
Proof.
  intros S N L E. unfold mbind. rewrite rd_short by auto. eexists; split; [reflexivity|]. split; [reflexivity|exact E].
Qed.
Lemma short2 {A} n e e2 (g : list Z -> Z) (g2 : list Z -> Z) (f : Z -> Z -> A) c :
  sane 8 c -> 0 <= n <= 7 -> size c < index c + n + 1 -> short_err e -> short_err e2 ->
  exists c', (let! a := (let! l := rd n !! e in ret (g l)) in let! b := (let! l := rd 1 !! e2 in ret (g2 l)) in ret (f a b)) c = Fail c'
     /\ mem c' = mem c /\ short_err (err c').
Proof.
  intros S N L E E2. unfold mbind. destruct (Z_lt_ge_dec (size c) (index c + n)).
  - rewrite rd_short by (auto; lia). eexists; split; [reflexivity|]. split; [reflexivity|exact E].
  - destruct (rd_enough n c e S) as (l & ->); [lia|lia|]. unfold ret at 1.
    rewrite rd_short; [|unfold sane, set_index in *; cbn [mem size index] in *; lia|lia|cbn [set_index size index]; lia].
    eexists; split; [reflexivity|]. split; [reflexivity|exact E2].
Qed.
Lemma assoc_bind {A B C} (m : M A) (f : A -> M B) (g : B -> M C) c :
  (let! y := (let! x := m in f x) in g y) c = (let! x := m in (let! y := f x in g y)) c.
Proof. unfold mbind. destruct (m c); reflexivity. Qed.

Lemma body_short t c : sane 8 c -> 0 <= t < 256 -> t <> 0xC1 -> size c < index c + follow t ->
  exists c', read_body t c = Fail c' /\ mem c' = mem c /\ short_err (err c').
Proof.
  intros S T N L. pose proof S as (Sz & I & B). destruct (marker_cases t T N) as [H|[H|H]].
  - replace (follow t) with 0 in L; [lia|].
    unfold follow. cbn [existsb]. repeat match goal with |- context [t =? ?k] => replace (t =? k) with false by (symmetry; lia) end. reflexivity.
  - replace (follow t) with 0 in L; [lia|].
    unfold follow. cbn [existsb]. repeat match goal with |- context [t =? ?k] => replace (t =? k) with false by (symmetry; lia) end. reflexivity.
  - cbn [map seq app Z.of_nat Pos.of_succ_nat Pos.succ In] in H.
    repeat (destruct H as [H|H]); try contradiction; subst t; cbn in L; try lia.
    all: unfold read_body; cbn [Z.leb Z.eqb Z.compare Pos.compare Pos.compare_cont Pos.eqb NIL_MARKER FALSE_MARKER TRUE_MARKER]; autounfold with cmpm; cbn [Z.leb Z.eqb Z.compare Pos.compare Pos.compare_cont Pos.eqb].
    all: unfold rd8, rd16, rd32, rd64.
    all: first [ rewrite assoc_bind; apply short1; [exact S|lia|lia|unfold short_err; auto]
               | apply short2; [exact S|lia|lia|unfold short_err; auto|unfold short_err; auto] ].
Qed.

Lemma read_object_total c : sane 8 c -> bytes_ok (mem c) ->
  match skipn (Z.to_nat (index c)) (mem c) with
  | [] => cmp_read_object c = Fail (set_err c TYPE_MARKER_READING_ERROR)
  | t :: rest =>
      if t =? 0xC1 then cmp_read_object c = Fail (set_err (set_index c (index c + 1)) INVALID_TYPE_ERROR)
      else if follow t <=? blen rest then
        exists o post, obj_ok o /\ t :: rest = obj_bytes o ++ post /\ blen (obj_bytes o) = 1 + follow t /\
          cmp_read_object c = Ok o (set_index c (index c + 1 + follow t))
      else exists c', cmp_read_object c = Fail c' /\ mem c' = mem c /\ short_err (err c')
  end.
Proof.
  intros S BM. pose proof S as (Sz & I & B). rewrite read_object_body.
  destruct (skipn (Z.to_nat (index c)) (mem c)) as [|t rest] eqn:E.
  - assert (L : size c < index c + 1).
    { apply (f_equal blen) in E. unfold blen in *. rewrite skipn_length in E. cbn [length] in E. lia. }
    unfold mbind, read_type_marker, read_byte, or_err, mbind. rewrite rd_spec by (try apply (sane_le 8 _ _ S); lia).
    replace (index c + 1 <=? size c) with false by (symmetry; lia). reflexivity.
  - destruct (skipn_cons_nth c t rest S E) as (L & M).
    assert (Bt : bytes_ok (t :: rest)).
    { rewrite <- E. unfold bytes_ok in *. rewrite <- (firstn_skipn (Z.to_nat (index c)) (mem c)) in BM. apply Forall_app in BM. apply BM. }
    inversion_clear Bt as [|? ? Bt' Br].
    destruct (Z.eqb_spec t 0xC1) as [->|NC].
    + unfold mbind. rewrite M. unfold read_body. reflexivity.
    + destruct (Z.leb_spec (follow t) (blen rest)) as [Fo|Fo].
      * destruct (obj_of_bytes t rest Bt' NC Br Fo) as (o & post & O & Eo & Lo). exists o, post.
        split; [exact O|]. split; [exact Eo|]. split; [exact Lo|].
        rewrite <- read_object_body. destruct (split_at (mem c) (index c)) as (a & b & Em & La); [lia|].
        rewrite Em, <- La, skipn_blen_app in E. subst b.
        rewrite (read_object_ok o O a post c); [|now rewrite Em, Eo|now symmetry|exact Sz|lia].
        unfold set_index. do 2 f_equal. lia.
      * unfold mbind. rewrite M.
        destruct (body_short t (set_index c (index c + 1))) as (c' & -> & Mc & Ec); [| |exact NC| |].
        -- unfold sane, set_index in *; cbn [mem size index]. pose proof (blen_nonneg rest). lia.
        -- unfold byte_ok in Bt'. lia.
        -- cbn [set_index size index]. lia.
        -- exists c'. auto.
Qed.

(** Strings: inside, except for the one header whose length is the maximum. *)
Lemma si_read_str R d n c : 8 <= R -> n <= R -> 0 <= n <= blen d -> bytes_ok (mem c) -> sane R c ->
  (forall post, skipn (Z.to_nat (index c)) (mem c) <> 0xDB :: 255 :: 255 :: 255 :: 255 :: post) ->
  match cmp_read_str d n c with UB => False | Fail c' => inside c c' | Ok _ c' => inside c c' end.
Proof.
  intros R8 N D BM S NX. unfold cmp_read_str. unfold mbind at 1.
  pose proof (proj1 (si_def R _) (si_read_as R cmp_object_as_str R8) c S) as H.
  unfold cmp_read_str_size. destruct (read_as cmp_object_as_str c) as [|c'|s c'] eqn:E; try exact H.
  assert (P : 0 <= s < 2 ^ 32 - 1).
  { unfold read_as, mbind in E. pose proof (read_object_total c (sane_le R 8 c S R8) BM) as T.
    destruct (cmp_read_object c) as [|c1|o c1]; try discriminate.
    destruct (cmp_object_as_str o) eqn:F; [|discriminate]. injection E as <- <-.
    assert (Q : 0 <= z < 2 ^ 32) by
      (unfold cmp_object_as_str, as_u32 in F; destruct (oty o); try discriminate; injection F as <-; apply (uN_range 32); lia).
    destruct (Z.eq_dec z (2 ^ 32 - 1)) as [->|]; [exfalso|lia].
    destruct (skipn (Z.to_nat (index c)) (mem c)) as [|t rest] eqn:Es; [discriminate|].
    destruct (t =? 193); [discriminate|]. destruct (follow t <=? blen rest); [|destruct T as (? & ? & _); discriminate].
    destruct T as (o' & post & O & Eo & Lo & Eq). injection Eq as <- _.
    apply (NX post). rewrite Eo. destruct o as [ty v x]. unfold cmp_object_as_str, as_u32 in F. unfold obj_ok in O.
    cbn [oty oval oext] in *. destruct ty; try discriminate; destruct O as (O & ->); injection F as F;
      rewrite uid32 in F by lia; try lia. subst v. reflexivity. }
  pose proof (inside_sane _ _ _ S H) as S'. rewrite uid32 by lia.
  destruct (Z.ltb_spec n (s + 1)).
  - exact (inside_trans _ _ _ _ S H (inside_err _ _ _ S')).
  - unfold mbind. pose proof (si_or R _ DATA_READING_ERROR (si_rd_data R d s ltac:(lia) ltac:(lia))) as G.
    pose proof (proj1 (si_def R _) G c' S') as G'.
    destruct ((rd_data d s !! DATA_READING_ERROR) c') as [|c2|a c2] eqn:Er; auto; [exact (inside_trans _ _ _ _ S H G')|].
    assert (La : blen a = blen d).
    { unfold or_err, rd_data in Er. rewrite rd_spec in Er by (try apply (sane_le R _ _ S'); lia).
      destruct (index c' + s <=? size c'); [|discriminate].
      destruct (bset_all d 0 _) as [d'|] eqn:Ed; [|discriminate]. injection Er as <- _.
      clear -Ed. revert Ed. generalize (firstn (Z.to_nat s) (skipn (Z.to_nat (index c')) (mem c'))) as l.
      intro l. generalize 0 as i. revert d. induction l as [|x l IH]; intros d i Ed; cbn [bset_all] in Ed; [now injection Ed as <-|].
      destruct (bset d i x) as [d1|] eqn:B1; [|discriminate]. rewrite (IH _ _ Ed).
      unfold bset in B1. destruct ((0 <=? i) && (i <? blen d)) eqn:X; [|discriminate]. injection B1 as <-.
      unfold blen in *. rewrite app_length, firstn_length.
      pose proof (skipn_length (S (Z.to_nat i)) d) as SL. cbn [length skipn] in SL |- *. lia. }
    unfold bset. replace ((0 <=? s) && (s <? blen a))%bool with true by (symmetry; lia).
    exact (inside_trans _ _ _ _ S H G').
Qed.
