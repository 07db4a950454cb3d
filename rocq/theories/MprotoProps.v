(** Topic messages with a header (msgbus_protobuf.c): what is written, and what a receiver does with it. *)
From Coq Require Import ZArith List Bool Lia.
From Verif Require Import CBase DijkProofs MprotoModel MprotoSpec MprotoProofs.
Import ListNotations.
Local Open Scope Z_scope.

Section Any.
Variable hd : codec (Z * str).

Lemma encode_spec t m buf_len scratch md : metadata t = Some md -> 0 <= buf_len -> buf_len <= len m ->
  buf_len < 2 ^ 32 -> scratch <= buffer_len t ->
  let eh := enc hd (msgid md, name t) in
  exists n bs, messagebus_encode_topic_message hd t m buf_len scratch = OK (n, put m 0 bs) /\ len bs <= buf_len /\
    (n = 0 \/ exists v, content t = Some v /\ scratch = buffer_len t /\ n = len bs /\
       snd eh = true /\ snd (enc (fields md) v) = true /\
       bs = (size_bytes (len (concat (fst eh))) ++ concat (fst eh)) ++
            size_bytes (len (concat (fst (enc (fields md) v)))) ++ concat (fst (enc (fields md) v))) /\
    (forall v, content t = Some v -> scratch = buffer_len t -> snd eh = true -> snd (enc (fields md) v) = true ->
       10 + len (concat (fst eh)) + len (concat (fst (enc (fields md) v))) <= buf_len ->
       n = 10 + len (concat (fst eh)) + len (concat (fst (enc (fields md) v)))).
Proof.
  intros M B0 B1 B2 SC eh. unfold messagebus_encode_topic_message.
  destruct (header_spec hd t m buf_len md M B0 B1 B2) as (n & bs & E & L & A & C). fold eh in A, C. rewrite E.
  pose proof (len_nn bs) as Lb.
  destruct (Z.eqb_spec n 0) as [N|N].
  { exists 0, bs. split; [reflexivity|]. split; [exact L|]. split; [now left|].
    intros v _ _ S1 _ W. rewrite N in C. pose proof (len_nn (concat (fst (enc (fields md) v)))).
    pose proof (len_nn (concat (fst eh))). specialize (C S1 ltac:(lia)). lia. }
  destruct A as [A|(A & SE & BS)]; [contradiction|].
  destruct (body_spec t (put m 0 bs) n (buf_len - n) scratch md M) as (k & cs & E2 & L2 & A2 & C2);
    [lia|lia|rewrite put_len; lia|lia|exact SC|].
  rewrite E2. pose proof (len_nn cs) as Lc.
  assert (P : put (put m 0 bs) n cs = put m 0 (bs ++ cs)).
  { rewrite A. replace (len bs) with (0 + len bs) by lia. apply put_nth_app; lia. }
  rewrite P.
  assert (NB : n = 5 + len (concat (fst eh))) by (rewrite A, BS, len_app, size_len; reflexivity).
  destruct (Z.eqb_spec k 0) as [K|K].
  - exists 0, (bs ++ cs). rewrite len_app. split; [reflexivity|]. split; [lia|]. split; [now left|].
    intros v V SB S1 S2 W. pose proof (len_nn (concat (fst (enc (fields md) v)))).
    specialize (C2 v V SB S2 ltac:(lia)). lia.
  - destruct A2 as [A2|(v & V & SB & A2 & S2 & CS)]; [contradiction|].
    exists (n + k), (bs ++ cs). rewrite len_app. split; [reflexivity|]. split; [lia|]. split.
    + right. exists v. rewrite <- BS, <- CS. repeat match goal with |- _ /\ _ => split end; auto. lia.
    + intros v' V' _ _ _ W. assert (v' = v) by congruence. subst v'. rewrite A2, CS, len_app, size_len. lia.
Qed.

(** Encoding into a buffer writes nothing outside of it and reports at most its length. *)
Theorem encode_in_bounds_partial t m buf_len scratch_len :
  metadata t <> None -> 0 <= buf_len -> buf_len <= len m -> buf_len < 2 ^ 32 -> scratch_len <= buffer_len t ->
  exists n m', messagebus_encode_topic_message hd t m buf_len scratch_len = OK (n, m') /\
    0 <= n <= buf_len /\ len m' = len m /\ skipn (Z.to_nat buf_len) m' = skipn (Z.to_nat buf_len) m.
Proof.
  intros M B0 B1 B2 SC. destruct (metadata t) as [md|] eqn:MD; [|congruence].
  destruct (encode_spec t m buf_len scratch_len md MD B0 B1 B2 SC) as (n & bs & E & L & A & _).
  pose proof (len_nn bs). exists n, (put m 0 bs). split; [exact E|]. split.
  { destruct A as [A|(v & _ & _ & A & _)]; lia. }
  split; [apply put_len; lia|]. apply put_skip; lia.
Qed.

(** A length other than zero is that of a whole message: the header with the name of the topic and the number of its
    type, then what the topic holds. *)
Theorem encode_message_partial t m buf_len scratch_len md n m' :
  metadata t = Some md -> 0 <= buf_len -> buf_len <= len m -> buf_len < 2 ^ 32 -> scratch_len <= buffer_len t ->
  messagebus_encode_topic_message hd t m buf_len scratch_len = OK (n, m') -> n <> 0 ->
  exists v h b, content t = Some v /\ encodes hd (msgid md, name t) h /\ encodes (fields md) v b /\
    n = 10 + len h + len b /\ message h b (firstn (Z.to_nat n) m').
Proof.
  intros M B0 B1 B2 SC E N.
  destruct (encode_spec t m buf_len scratch_len md M B0 B1 B2 SC) as (n' & bs & E' & L & A & _).
  rewrite E in E'. assert (n' = n /\ m' = put m 0 bs) as [-> ->] by (split; congruence).
  destruct A as [A|(v & V & _ & A & S1 & S2 & BS)]; [contradiction|].
  exists v, (concat (fst (enc hd (msgid md, name t)))), (concat (fst (enc (fields md) v))).
  split; [exact V|]. split; [split; [exact S1|reflexivity]|]. split; [split; [exact S2|reflexivity]|].
  set (h := concat (fst (enc hd (msgid md, name t)))) in *. set (b := concat (fst (enc (fields md) v))) in *.
  assert (LB : len bs = 10 + len h + len b) by (rewrite BS, !len_app, !size_len; lia).
  pose proof (len_nn h). pose proof (len_nn b).
  split; [lia|].
  replace (firstn (Z.to_nat n) (put m 0 bs)) with bs.
  2:{ unfold put. cbn [Z.to_nat firstn app]. rewrite A. unfold len. rewrite Nat2Z.id.
      rewrite firstn_app, Nat.sub_diag, firstn_all. cbn [firstn]. now rewrite app_nil_r. }
  exists (size_bytes (len h) ++ h), (size_bytes (len b) ++ b).
  split; [apply size_part; lia|]. split; [apply size_part; lia|exact BS].
Qed.

(** Whatever was published once, has a scratch buffer of its size and fits in the buffer is encoded. *)
Theorem encode_succeeds_partial t m buf_len md v h b :
  metadata t = Some md -> 0 <= buf_len -> buf_len <= len m -> buf_len < 2 ^ 32 ->
  content t = Some v -> encodes hd (msgid md, name t) h -> encodes (fields md) v b -> 10 + len h + len b <= buf_len ->
  exists m', messagebus_encode_topic_message hd t m buf_len (buffer_len t) = OK (10 + len h + len b, m').
Proof.
  intros M B0 B1 B2 V [S1 H] [S2 B] L.
  destruct (encode_spec t m buf_len (buffer_len t) md M B0 B1 B2 ltac:(lia)) as (n' & bs & E & _ & _ & C).
  exists (put m 0 bs). rewrite E. rewrite H in C. specialize (C v V eq_refl S1 S2). rewrite B in C.
  rewrite C by exact L. reflexivity.
Qed.

(** A topic that was never published gives no message, and neither does a scratch buffer too small for it. *)
Theorem encode_refused t m buf_len scratch_len :
  metadata t <> None -> 0 <= buf_len -> buf_len <= len m -> buf_len < 2 ^ 32 ->
  content t = None \/ scratch_len < buffer_len t ->
  exists m', messagebus_encode_topic_message hd t m buf_len scratch_len = OK (0, m').
Proof.
  intros M B0 B1 B2 C. destruct (metadata t) as [md|] eqn:MD; [|congruence].
  unfold messagebus_encode_topic_message.
  destruct (header_spec hd t m buf_len md MD B0 B1 B2) as (n & bs & E & L & A & _). rewrite E.
  destruct (Z.eqb_spec n 0); [now eexists|].
  unfold encode_topic_body. destruct (Z.ltb_spec scratch_len (buffer_len t)); [now eexists|].
  destruct (_ <? _); [now eexists|]. destruct C as [C|C]; [|lia]. rewrite C. now eexists.
Qed.

Lemma find_delivered bus n t v : find bus n = Some t -> delivered bus (publish bus n v) n v.
Proof.
  induction bus as [|u r IH]; cbn [find publish]; [discriminate|].
  unfold same. destruct (list_eq_dec Z.eq_dec (name u) n) as [E|E].
  - intros _. exists [], u, r. repeat split; auto.
  - intro H. destruct (IH H) as (pre & x & post & P1 & P2 & P3 & P4).
    exists (u :: pre), x, post. rewrite P4. cbn [app]. rewrite P1. repeat split; auto.
Qed.
Lemma find_none bus n : Forall (fun u => name u <> n) bus -> find bus n = None.
Proof.
  induction 1 as [|u r H _ IH]; cbn [find]; [reflexivity|].
  unfold same. destruct (list_eq_dec Z.eq_dec (name u) n); [contradiction|exact IH].
Qed.

(** Injecting changes nothing, or it is a publication to one topic of the bus. *)
Theorem inject_effect bus m l bus' :
  messagebus_inject_encoded_message hd bus m l = OK bus' -> bus' = bus \/ exists n v, delivered bus bus' n v.
Proof.
  unfold messagebus_inject_encoded_message. intro H.
  assert (I : forall a b : list topic, OK a = OK b -> b = a) by congruence.
  repeat match type of H with
  | (match ?x with _ => _ end) = _ => destruct x eqn:?; try discriminate
  end; try (left; exact (I _ _ H)).
  right. apply I in H. subst bus'. eexists _, _. eapply find_delivered; eassumption.
Qed.

Lemma stream_app p q r off n : off = len p -> n = len q -> stream (p ++ q ++ r) off n = OK q.
Proof.
  intros -> ->. unfold stream. rewrite !len_app. pose proof (len_nn r).
  destruct (Z.ltb_spec (len p + (len q + len r)) (len p + len q)); [lia|]. f_equal.
  unfold len. rewrite !Nat2Z.id, skipn_app, skipn_all, Nat.sub_diag. cbn [skipn app].
  rewrite firstn_app, Nat.sub_diag, firstn_all. cbn [firstn]. apply app_nil_r.
Qed.

Lemma part_inv h p : part h p -> exists s, p = s ++ h /\ len s = 5 /\ size_dec s = Some (len h).
Proof.
  intros (s & (a & b & c & d & -> & _ & _ & _ & _ & E) & ->).
  exists [13; a; b; c; d]. split; [reflexivity|]. split; [reflexivity|]. cbn [size_dec]. rewrite Z.eqb_refl.
  f_equal. unfold len. rewrite E. reflexivity.
Qed.

(** A message whose header names no topic of the bus is ignored. *)
Theorem inject_unknown bus h p rest i n l :
  part h p -> dec hd h = Some (i, n) -> Forall (fun u => name u <> n) bus ->
  messagebus_inject_encoded_message hd bus (p ++ rest) l = OK bus.
Proof.
  intros P D F. destruct (part_inv h p P) as (s & -> & L & S).
  unfold messagebus_inject_encoded_message. rewrite <- app_assoc.
  pose proof (stream_app [] s (h ++ rest) 0 SIZE_LEN eq_refl (eq_sym L)) as E1. cbn [app] in E1. rewrite E1, S.
  rewrite (stream_app s h rest SIZE_LEN (len h) (eq_sym L) eq_refl), D, (find_none bus n F). reflexivity.
Qed.

(** What a well-formed message does: the contents go to the first topic of that name. Whatever follows the message in
    memory plays no part. *)
Theorem inject_message bus h b bs rest i n t md v l :
  message h b bs -> dec hd h = Some (i, n) -> find bus n = Some t -> metadata t = Some md ->
  buffer_len t <= 1024 -> dec (fields md) b = Some v ->
  exists bus', messagebus_inject_encoded_message hd bus (bs ++ rest) l = OK bus' /\ delivered bus bus' n v.
Proof.
  intros (p & q & P & Q & ->) D F M B V.
  destruct (part_inv h p P) as (s & -> & L & S). destruct (part_inv b q Q) as (s' & -> & L' & S').
  exists (publish bus n v). split; [|eapply find_delivered; exact F].
  unfold messagebus_inject_encoded_message.
  replace (((s ++ h) ++ s' ++ b) ++ rest) with (s ++ h ++ s' ++ b ++ rest) by (now rewrite !app_assoc).
  pose proof (stream_app [] s (h ++ s' ++ b ++ rest) 0 SIZE_LEN eq_refl (eq_sym L)) as E1. cbn [app] in E1. rewrite E1, S.
  rewrite (stream_app s h (s' ++ b ++ rest) SIZE_LEN (len h) (eq_sym L) eq_refl), D, F.
  pose proof (stream_app (s ++ h) s' (b ++ rest) (SIZE_LEN + len h) SIZE_LEN) as E2.
  rewrite <- app_assoc in E2. rewrite E2, S'; [|rewrite len_app, L; reflexivity|now rewrite L'].
  pose proof (stream_app ((s ++ h) ++ s') b rest (2 * SIZE_LEN + len h) (len b)) as E3.
  rewrite <- !app_assoc in E3. rewrite E3; [|rewrite !len_app, L, L'; unfold SIZE_LEN; lia|reflexivity].
  rewrite M. unfold OBJ_LEN. destruct (Z.ltb_spec 1024 (buffer_len t)); [lia|]. now rewrite V.
Qed.

(** What one bus sends, another one with a topic of the same name and type receives. *)
Theorem encode_inject t md m buf_len scratch_len n m' bus t' md' rest l :
  metadata t = Some md -> 0 <= buf_len -> buf_len <= len m -> buf_len < 2 ^ 32 -> scratch_len <= buffer_len t ->
  messagebus_encode_topic_message hd t m buf_len scratch_len = OK (n, m') -> n <> 0 ->
  find bus (name t) = Some t' -> metadata t' = Some md' -> fields md' = fields md -> buffer_len t' <= 1024 ->
  faithful hd (msgid md, name t) -> (forall v, content t = Some v -> faithful (fields md) v) ->
  exists v bus', content t = Some v /\
    messagebus_inject_encoded_message hd bus (firstn (Z.to_nat n) m' ++ rest) l = OK bus' /\
    delivered bus bus' (name t) v.
Proof.
  intros M B0 B1 B2 SC E N F M' FE B FH FV.
  destruct (encode_message_partial t m buf_len scratch_len md n m' M B0 B1 B2 SC E N)
    as (v & h & b & V & H & Bb & _ & MS).
  destruct (inject_message bus h b _ rest (msgid md) (name t) t' md' v l MS) as (bus' & I & D);
    [now apply FH|exact F|exact M'|exact B|rewrite FE; now apply (FV v V)|].
  exists v, bus'. auto.
Qed.
End Any.

(** Examples: two buses with the same two topics. *)
Definition ex_type : meta := mkmeta plain_bytes 7.
Definition ex_topic : topic := mktopic [97; 98] 3 (Some ex_type) (Some [1; 2; 3]).
Definition ex_other : topic := mktopic [99] 3 (Some ex_type) None.
Definition ex_bus : list topic := [ex_other; mktopic [97; 98] 3 (Some ex_type) None].
Definition ex_mem : list Z := repeat 170 40.

Lemma plain_faithful v : faithful plain_bytes v.
Proof.
  intros bs [S <-]. cbn [plain_bytes enc dec fst snd concat] in *. rewrite app_nil_r. cbn [app].
  now rewrite Z.eqb_refl.
Qed.
Lemma plain_header_faithful i n : len n < 65 -> faithful plain_header (i, n).
Proof.
  intros L bs [S <-]. cbn [plain_header enc dec fst snd concat]. rewrite app_nil_r. cbn [app].
  destruct (Z.ltb_spec (len n) 65); [reflexivity|lia].
Qed.

Example ex_encode : messagebus_encode_topic_message plain_header ex_topic ex_mem 20 3 =
  OK (17, [13; 3; 0; 0; 0; 7; 97; 98; 13; 4; 0; 0; 0; 3; 1; 2; 3] ++ repeat 170 23).
Proof. vm_compute. reflexivity. Qed.
Example ex_encode_inject : exists v bus', content ex_topic = Some v /\
  messagebus_inject_encoded_message plain_header ex_bus
    (firstn 17 ([13; 3; 0; 0; 0; 7; 97; 98; 13; 4; 0; 0; 0; 3; 1; 2; 3] ++ repeat 170 23) ++ [5]) 17 = OK bus' /\
  delivered ex_bus bus' [97; 98] v.
Proof.
  eapply (encode_inject plain_header ex_topic ex_type ex_mem 20 3 17 _ ex_bus _ ex_type [5] 17);
    try reflexivity; try (cbn; lia); try discriminate.
  - apply plain_header_faithful. cbn. lia.
  - intros v _. apply plain_faithful.
Qed.
Example ex_refused : exists m', messagebus_encode_topic_message plain_header ex_other ex_mem 40 3 = OK (0, m').
Proof. apply encode_refused; try (cbn; lia); [discriminate|now left]. Qed.
Example ex_too_small : messagebus_encode_topic_message plain_header ex_topic ex_mem 16 3 =
  OK (0, [13; 3; 0; 0; 0; 7; 97; 98; 170; 170; 170; 170; 170; 3; 170; 170] ++ repeat 170 24).
Proof. vm_compute. reflexivity. Qed.

(** The encoder asks the topic for as many bytes as the scratch buffer has: with a scratch buffer larger than the
    topic, as the UDP broadcaster gives, the read goes past the buffer of the topic. *)
Theorem encode_scratch_refuted : exists (hd : codec (Z * str)) t m buf_len scratch_len,
  metadata t <> None /\ 0 <= buf_len <= len m /\ buffer_len t < scratch_len /\ scratch_len = 512 /\
  messagebus_encode_topic_message hd t m buf_len scratch_len = BAD.
Proof.
  exists plain_header, ex_topic, ex_mem, 40, 512. split; [discriminate|]. split; [cbn; lia|].
  split; [cbn; lia|]. split; reflexivity.
Qed.
(** In fact any larger scratch buffer does. *)
Theorem encode_scratch_overread hd t md m buf_len scratch_len v h :
  metadata t = Some md -> 0 <= buf_len -> buf_len <= len m -> buf_len < 2 ^ 32 ->
  content t = Some v -> encodes hd (msgid md, name t) h -> 10 + len h <= buf_len -> buffer_len t < scratch_len ->
  messagebus_encode_topic_message hd t m buf_len scratch_len = BAD.
Proof.
  intros M B0 B1 B2 V [S H] L SC. unfold messagebus_encode_topic_message.
  destruct (header_spec hd t m buf_len md M B0 B1 B2) as (n & bs & E & _ & _ & C). rewrite E.
  rewrite H in C. specialize (C S ltac:(lia)). pose proof (len_nn h).
  destruct (Z.eqb_spec n 0); [lia|]. unfold encode_topic_body.
  destruct (Z.ltb_spec scratch_len (buffer_len t)); [lia|]. unfold SIZE_LEN.
  destruct (Z.ltb_spec (buf_len - n) 5); [lia|]. rewrite V.
  destruct (Z.ltb_spec (buffer_len t) scratch_len); [reflexivity|lia].
Qed.

(** The receiver trusts the sizes in the message: a message of five bytes makes it read past them. *)
Theorem inject_overread_refuted : exists bus m,
  len m = 5 /\ (forall hd, messagebus_inject_encoded_message hd bus m (len m) = BAD).
Proof. exists ex_bus, [13; 1; 0; 0; 0]. split; [reflexivity|]. intro hd. reflexivity. Qed.

(** The number of the type is not looked at: a message of another type is published. *)
Theorem inject_type_refuted : exists hd bus m i n t md bus',
  (exists h b, message h b m /\ dec hd h = Some (i, n)) /\ find bus n = Some t /\ metadata t = Some md /\ msgid md <> i /\
  messagebus_inject_encoded_message hd bus m (len m) = OK bus' /\ bus' <> bus.
Proof.
  exists plain_header, ex_bus, [13; 3; 0; 0; 0; 8; 97; 98; 13; 2; 0; 0; 0; 1; 1], 8, [97; 98],
    (mktopic [97; 98] 3 (Some ex_type) None), ex_type, [ex_other; mktopic [97; 98] 3 (Some ex_type) (Some [1])].
  split.
  { exists [8; 97; 98], [1; 1]. split; [|reflexivity].
    exists [13; 3; 0; 0; 0; 8; 97; 98], [13; 2; 0; 0; 0; 1; 1].
    split; [exists [3; 0; 0; 0]|split; [exists [2; 0; 0; 0]|reflexivity]];
      (split; [|reflexivity]); do 4 eexists; (split; [reflexivity|cbn; lia]). }
  split; [reflexivity|]. split; [reflexivity|]. split; [discriminate|]. split; [reflexivity|].
  unfold ex_bus. congruence.
Qed.

(** A topic without metadata (wheel_encoders_handler.cpp 29) or with more than 1024 bytes cannot be injected into. *)
Theorem inject_unfit_refuted hd bus h b bs i n t l :
  message h b bs -> dec hd h = Some (i, n) -> find bus n = Some t -> metadata t = None \/ 1024 < buffer_len t ->
  messagebus_inject_encoded_message hd bus bs l = BAD.
Proof.
  intros (p & q & P & Q & ->) D F C.
  destruct (part_inv h p P) as (s & -> & L & S). destruct (part_inv b q Q) as (s' & -> & L' & S').
  unfold messagebus_inject_encoded_message.
  replace ((s ++ h) ++ s' ++ b) with (s ++ h ++ s' ++ b ++ []) by (now rewrite app_nil_r, !app_assoc).
  pose proof (stream_app [] s (h ++ s' ++ b ++ []) 0 SIZE_LEN eq_refl (eq_sym L)) as E1. cbn [app] in E1. rewrite E1, S.
  rewrite (stream_app s h (s' ++ b ++ []) SIZE_LEN (len h) (eq_sym L) eq_refl), D, F.
  pose proof (stream_app (s ++ h) s' (b ++ []) (SIZE_LEN + len h) SIZE_LEN) as E2.
  rewrite <- app_assoc in E2. rewrite E2, S'; [|rewrite len_app, L; reflexivity|now rewrite L'].
  pose proof (stream_app ((s ++ h) ++ s') b [] (2 * SIZE_LEN + len h) (len b)) as E3.
  rewrite <- !app_assoc in E3. rewrite E3; [|rewrite !len_app, L, L'; unfold SIZE_LEN; lia|reflexivity].
  destruct C as [C|C].
  - now rewrite C.
  - destruct (metadata t); [|reflexivity]. unfold OBJ_LEN. destruct (Z.ltb_spec 1024 (buffer_len t)); [reflexivity|lia].
Qed.
Example ex_unfit : messagebus_inject_encoded_message plain_header [mktopic [97; 98] 3 None None]
  [13; 3; 0; 0; 0; 7; 97; 98; 13; 2; 0; 0; 0; 1; 1] 15 = BAD.
Proof. reflexivity. Qed.

Print Assumptions encode_in_bounds_partial.
Print Assumptions encode_message_partial.
Print Assumptions encode_succeeds_partial.
Print Assumptions encode_refused.
Print Assumptions inject_effect.
Print Assumptions inject_unknown.
Print Assumptions inject_message.
Print Assumptions encode_inject.
Print Assumptions encode_scratch_refuted.
Print Assumptions encode_scratch_overread.
Print Assumptions inject_overread_refuted.
Print Assumptions inject_type_refuted.
Print Assumptions inject_unfit_refuted.
