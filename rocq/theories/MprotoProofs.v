From Coq Require Import ZArith List Bool Lia.
From Verif Require Import CBase DijkProofs MprotoModel MprotoSpec.
Import ListNotations.
Local Open Scope Z_scope.

Lemma len_app {A} (a b : list A) : len (a ++ b) = len a + len b.
Proof. unfold len. rewrite app_length. lia. Qed.
Lemma len_nn {A} (a : list A) : 0 <= len a.
Proof. unfold len. lia. Qed.

Lemma put_nil m off : 0 <= off -> off <= len m -> put m off [] = m.
Proof.
  intros. unfold put. cbn [length app]. rewrite Nat.add_0_r. apply firstn_skipn.
Qed.
Lemma put_len m off bs : 0 <= off -> off + len bs <= len m -> len (put m off bs) = len m.
Proof.
  intros. unfold put. rewrite !len_app. unfold len in *. rewrite firstn_length, skipn_length. lia.
Qed.
Lemma put_first m off bs : 0 <= off -> off + len bs <= len m ->
  firstn (Z.to_nat off) (put m off bs) = firstn (Z.to_nat off) m.
Proof.
  intros. unfold put, len in *. rewrite firstn_app, firstn_firstn, Nat.min_id, firstn_length.
  replace (Z.to_nat off - Nat.min (Z.to_nat off) (length m))%nat with 0%nat by lia.
  cbn [firstn]. apply app_nil_r.
Qed.
Lemma put_skip m off bs k : 0 <= off -> off + len bs <= len m -> off + len bs <= k ->
  skipn (Z.to_nat k) (put m off bs) = skipn (Z.to_nat k) m.
Proof.
  intros. unfold put, len in *. rewrite !skipn_app, firstn_length.
  rewrite (skipn_all2 (firstn _ _)) by (rewrite firstn_length; lia).
  rewrite (skipn_all2 bs) by lia. cbn [app]. rewrite skipn_skipn'. f_equal. lia.
Qed.

Lemma put_nth_app m off c bs : 0 <= off -> off + len c + len bs <= len m ->
  put (put m off c) (off + len c) bs = put m off (c ++ bs).
Proof.
  intros O L. set (P := put m off c). unfold put. subst P.
  pose proof (put_skip m off c (off + len c + len bs) O) as S.
  replace (Z.to_nat (off + len c) + length bs)%nat with (Z.to_nat (off + len c + len bs)) by (unfold len in *; lia).
  rewrite S by (pose proof (len_nn bs); lia).
  replace (Z.to_nat off + length (c ++ bs))%nat with (Z.to_nat (off + len c + len bs))
    by (rewrite app_length; unfold len in *; lia).
  rewrite !app_assoc. f_equal. f_equal. unfold put.
  assert (LF : length (firstn (Z.to_nat off) m) = Z.to_nat off) by (rewrite firstn_length; unfold len in *; lia).
  replace (Z.to_nat (off + len c)) with (length (firstn (Z.to_nat off) m ++ c))%nat
    by (rewrite app_length; unfold len in *; lia).
  rewrite app_assoc, firstn_app, Nat.sub_diag, firstn_all. cbn [firstn]. apply app_nil_r.
Qed.

(** What a sequence of chunks leaves in memory. *)
Lemma write_chunks_spec cs : forall m off room, 0 <= off -> 0 <= room -> off + room <= len m ->
  exists bs b, write_chunks m off room cs = OK (put m off bs, len bs, b) /\ len bs <= room /\
    (b = true -> bs = concat cs) /\ (b = true <-> len (concat cs) <= room).
Proof.
  induction cs as [|c r IH]; intros m off room O R L; cbn [write_chunks concat].
  - exists [], true. rewrite put_nil by lia. repeat split; auto; cbn; lia.
  - pose proof (len_nn c) as LC. destruct (Z.ltb_spec room (len c)) as [H|H].
    + exists [], false. rewrite put_nil by lia. rewrite len_app. pose proof (len_nn (concat r)).
      repeat split; try discriminate; cbn; lia.
    + destruct (Z.ltb_spec (len m) (off + len c)); [lia|].
      destruct (IH (put m off c) (off + len c) (room - len c)) as (bs & b & E & B & F & G);
        [lia|lia|rewrite put_len; lia|].
      rewrite E. exists (c ++ bs), b. rewrite put_nth_app, !len_app by lia.
      repeat split; try lia. { intro T. now rewrite (F T). } all: destruct G as [G1 G2].
      * intro T. specialize (G1 T). lia.
      * intro T. apply G2. lia.
Qed.

Lemma pb_encode_spec m off room e : 0 <= off -> 0 <= room -> off + room <= len m ->
  exists bs b, pb_encode m off room e = OK (put m off bs, len bs, b) /\ len bs <= room /\
    (b = true -> bs = concat (fst e)) /\ (b = true <-> len (concat (fst e)) <= room /\ snd e = true).
Proof.
  intros O R L. destruct (write_chunks_spec (fst e) m off room O R L) as (bs & b & E & B & F & G).
  unfold pb_encode. rewrite E. exists bs, (b && snd e). rewrite andb_true_iff. tauto.
Qed.

Lemma size_len n : len (size_bytes n) = 5. Proof. reflexivity. Qed.

Lemma size_write m off w : 0 <= off -> off + 5 <= len m ->
  pb_encode m off 5 ([size_bytes w], true) = OK (put m off (size_bytes w), 5, true).
Proof.
  intros O L. unfold pb_encode. cbn [fst snd write_chunks]. rewrite size_len.
  change (5 <? 5) with false. destruct (Z.ltb_spec (len m) (off + 5)); [lia|]. reflexivity.
Qed.

(** Writing the size in front of what follows it. *)
Lemma put_front m off s bs : 0 <= off -> off + len s + len bs <= len m ->
  put (put m (off + len s) bs) off s = put m off (s ++ bs).
Proof.
  intros O L. pose proof (len_nn s) as Hs. pose proof (len_nn bs) as Hb.
  set (P := put m (off + len s) bs). unfold put. subst P.
  replace (firstn (Z.to_nat off) (put m (off + len s) bs)) with (firstn (Z.to_nat off) m).
  2:{ unfold put. rewrite firstn_app, firstn_firstn, firstn_length. unfold len in *.
      replace (Nat.min (Z.to_nat off) (Z.to_nat (off + Z.of_nat (length s)))) with (Z.to_nat off) by lia.
      replace (Z.to_nat off - Nat.min _ (length m))%nat with 0%nat by lia. cbn [firstn]. symmetry. apply app_nil_r. }
  f_equal. rewrite <- app_assoc. f_equal.
  replace (Z.to_nat off + length s)%nat with (Z.to_nat (off + len s)) by (unfold len; lia).
  unfold put. rewrite skipn_app, skipn_all2 by (rewrite firstn_length; lia). cbn [app].
  rewrite firstn_length. replace (Z.to_nat (off + len s) - Nat.min (Z.to_nat (off + len s)) (length m))%nat with 0%nat
    by (unfold len in *; lia).
  cbn [skipn]. f_equal. f_equal. rewrite app_length. unfold len in *; lia.
Qed.

Lemma put_keep m off bs : 0 <= off -> off + 5 + len bs <= len m ->
  put m (off + 5) bs = put m off (firstn 5 (skipn (Z.to_nat off) m) ++ bs) /\
  len (firstn 5 (skipn (Z.to_nat off) m)) = 5.
Proof.
  intros O L. pose proof (len_nn bs).
  assert (L5 : len (firstn 5 (skipn (Z.to_nat off) m)) = 5)
    by (unfold len in *; rewrite firstn_length, skipn_length; lia).
  split; [|exact L5].
  assert (X : put m off (firstn 5 (skipn (Z.to_nat off) m)) = m).
  { unfold put. replace (length (firstn 5 (skipn (Z.to_nat off) m))) with 5%nat by (unfold len in L5; lia).
    rewrite Nat.add_comm, <- skipn_skipn', firstn_skipn. apply firstn_skipn. }
  remember (firstn 5 (skipn (Z.to_nat off) m)) as q. rewrite <- put_nth_app by (rewrite ?L5; lia).
  now rewrite X, L5.
Qed.

Lemma size_le32 n : 0 <= n < 2 ^ 32 -> exists s, le32 n s /\ size_bytes n = 13 :: s.
Proof.
  intro H. exists [n mod 256; n / 256 mod 256; n / 65536 mod 256; n / 16777216 mod 256].
  split; [|reflexivity]. unfold le32. do 4 eexists. split; [reflexivity|].
  repeat match goal with |- _ /\ _ => split end; try (apply Z.mod_pos_bound; lia);
  try (apply (Z.mod_pos_bound _ 256); lia).
  change (2 ^ 8) with 256. change (2 ^ 16) with 65536. change (2 ^ 24) with 16777216. change (2 ^ 32) with 4294967296 in H.
  rewrite (Z.mod_small (n / 16777216)) by (split; [apply Z.div_pos; lia|apply Z.div_lt_upper_bound; lia]).
  Z.div_mod_to_equations. lia.
Qed.
Lemma size_round n : 0 <= n < 2 ^ 32 -> size_dec (size_bytes n) = Some n.
Proof.
  intro H. unfold size_dec, size_bytes. rewrite Z.eqb_refl. f_equal. change (2 ^ 32) with 4294967296 in H.
  rewrite (Z.mod_small (n / 16777216)) by (split; [apply Z.div_pos; lia|apply Z.div_lt_upper_bound; lia]).
  Z.div_mod_to_equations. lia.
Qed.

Lemma size_part bs : len bs < 2 ^ 32 -> part bs (size_bytes (len bs) ++ bs).
Proof.
  intro H. destruct (size_le32 (len bs)) as (s & L & E); [pose proof (len_nn bs); lia|].
  exists s. split; [exact L|]. rewrite E. reflexivity.
Qed.

Lemma u32_small x : 0 <= x < 2 ^ 32 -> u32 x = x.
Proof. apply (uN_id 32). Qed.

Section Enc.
Variable hd : codec (Z * str).

(** What encode_topic_header does: nothing outside of the buffer, and a part when it succeeds. *)
Lemma header_spec t m buf_len md : metadata t = Some md -> 0 <= buf_len -> buf_len <= len m -> buf_len < 2 ^ 32 ->
  let e := enc hd (msgid md, name t) in
  exists n bs, encode_topic_header hd t m buf_len = OK (n, put m 0 bs) /\ len bs <= buf_len /\ 
    (n = 0 \/ n = len bs /\ snd e = true /\ bs = size_bytes (len (concat (fst e))) ++ concat (fst e)) /\
    (snd e = true -> 5 + len (concat (fst e)) <= buf_len -> n = 5 + len (concat (fst e))).
Proof.
  intros M B0 B1 B2 e. unfold encode_topic_header. rewrite M. change SIZE_LEN with 5.
  destruct (Z.ltb_spec buf_len 5) as [H|H].
  { exists 0, []. rewrite put_nil by (try apply len_nn; lia). cbn [len length]. split; [reflexivity|].
    split; [cbn; lia|]. split; [now left|]. intros _ L. pose proof (len_nn (concat (fst e))). lia. }
  destruct (pb_encode_spec m 5 (buf_len - 5) e) as (bs & b & E & L & F & G); [lia|lia|lia|].
  fold e. rewrite E. pose proof (len_nn bs).
  destruct b.
  - specialize (F eq_refl). destruct (proj1 G eq_refl) as [G1 G2]. rewrite size_write;
      [|lia|rewrite put_len; lia].
    rewrite u32_small by lia. exists (5 + len bs), (size_bytes (len bs) ++ bs).
    pose proof (put_front m 0 (size_bytes (len bs)) bs ltac:(lia)) as PF. rewrite size_len in PF.
    change (0 + 5) with 5 in PF. rewrite PF by lia. rewrite len_app, size_len. split; [reflexivity|].
    split; [lia|]. rewrite <- F. split; [right; auto|reflexivity].
  - exists 0, (firstn 5 (skipn (Z.to_nat 0) m) ++ bs).
    destruct (put_keep m 0 bs) as [K1 K2]; [lia|lia|]. change (0 + 5) with 5 in K1. rewrite <- K1.
    split; [reflexivity|]. rewrite len_app, K2. split; [lia|].
    split; [now left|]. intros S1 S2. assert (false = true) by (apply G; split; [lia|exact S1]). discriminate.
Qed.

Lemma body_spec t m off buf_len scratch md : metadata t = Some md -> 0 <= off -> 0 <= buf_len ->
  off + buf_len <= len m -> buf_len < 2 ^ 32 -> scratch <= buffer_len t ->
  exists n bs, encode_topic_body t m off buf_len scratch = OK (n, put m off bs) /\ len bs <= buf_len /\
    (n = 0 \/ exists v, content t = Some v /\ scratch = buffer_len t /\ let e := enc (fields md) v in
       n = len bs /\ snd e = true /\ bs = size_bytes (len (concat (fst e))) ++ concat (fst e)) /\
    (forall v, content t = Some v -> scratch = buffer_len t -> snd (enc (fields md) v) = true ->
       5 + len (concat (fst (enc (fields md) v))) <= buf_len -> n = 5 + len (concat (fst (enc (fields md) v)))).
Proof.
  intros M O B0 B1 B2 SC. unfold encode_topic_body. rewrite M. change SIZE_LEN with 5.
  destruct (Z.ltb_spec scratch (buffer_len t)) as [H|H].
  { exists 0, []. rewrite put_nil by lia. split; [reflexivity|]. split; [cbn; lia|]. split; [now left|].
    intros v _ S. lia. }
  destruct (Z.ltb_spec buf_len 5) as [H1|H1].
  { exists 0, []. rewrite put_nil by lia. split; [reflexivity|]. split; [cbn; lia|]. split; [now left|].
    intros v _ _ _ L. pose proof (len_nn (concat (fst (enc (fields md) v)))). lia. }
  destruct (content t) as [v|].
  2:{ exists 0, []. rewrite put_nil by lia. split; [reflexivity|]. split; [cbn; lia|]. split; [now left|].
      discriminate. }
  destruct (Z.ltb_spec (buffer_len t) scratch); [lia|].
  set (e := enc (fields md) v).
  destruct (pb_encode_spec m (off + 5) (buf_len - 5) e) as (bs & b & E & L & F & G); [lia|lia|lia|].
  rewrite E. pose proof (len_nn bs).
  destruct b.
  - specialize (F eq_refl). destruct (proj1 G eq_refl) as [G1 G2]. rewrite size_write;
      [|lia|rewrite put_len; lia].
    rewrite u32_small by lia. exists (len bs + 5), (size_bytes (len bs) ++ bs).
    pose proof (put_front m off (size_bytes (len bs)) bs ltac:(lia)) as PF. rewrite size_len in PF.
    rewrite PF by lia. rewrite len_app, size_len. split; [reflexivity|].
    split; [lia|]. split.
    + right. exists v. split; [reflexivity|]. split; [lia|]. fold e. rewrite <- F. cbn zeta. split; [lia|auto].
    + intros v' V _ _ _. assert (v' = v) by congruence. subst v'. fold e. rewrite <- F. lia.
  - exists 0, (firstn 5 (skipn (Z.to_nat off) m) ++ bs).
    destruct (put_keep m off bs) as [K1 K2]; [lia|lia|]. rewrite <- K1.
    split; [reflexivity|]. rewrite len_app, K2. split; [lia|].
    split; [now left|]. intros v' V _ S1 S2. assert (v' = v) by congruence. subst v'. fold e in S1, S2.
    assert (false = true) by (apply G; split; [lia|exact S1]). discriminate.
Qed.
End Enc.
