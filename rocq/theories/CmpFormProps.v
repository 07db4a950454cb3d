(** The functions of cmp.c that are for one format: extensions of each size, strings, binaries, arrays and maps. *)
From Coq Require Import ZArith List Bool Lia.
From Verif Require Import CBase Buf CmpModel CmpSpec CmpProofs CmpFormSpec.
Import ListNotations.
Local Open Scope Z_scope.

Lemma accepts_payload {A} (a : A) e d dst n : 0 < n <= blen d -> n <= blen dst ->
  accepts (let! x := rd_data dst n !! e in ret (a, x)) (firstn (Z.to_nat n) d) (a, firstn (Z.to_nat n) d ++ skipn (Z.to_nat n) dst).
Proof.
  intros H1 H2. set (l := firstn (Z.to_nat n) d).
  assert (L : blen l = n) by (unfold l, blen in *; rewrite firstn_length; lia).
  eapply accepts_bind_ret; [rewrite <- L at 1; apply accepts_or, accepts_rd_data; lia|]. rewrite L. apply accepts_ret.
Qed.
Ltac accf := eapply accepts_as; [unfold obj_ok; cbn [oty oval oext]; lia|
   unfold as_u32, ext_type; cbn [oty oval oext]; repeat match goal with |- context [u32 ?v] => rewrite (uid32 v) by lia end; rewrite ?uid8 by lia; rewrite ?uid16 by lia; rewrite ?uid32 by lia; rewrite sid8 by lia; reflexivity].

Ltac extw ob := match goal with |- emits ?W _ => replace W with (cmp_write_object ob);
   [apply write_object_ok; unfold obj_ok; cbn [oty oval oext]; lia
   |unfold cmp_write_object, as_u32, ext_type; cbn [oty oval oext]; rewrite uid32 by lia; rewrite ?uid8 by lia; rewrite ?uid16 by lia;
    rewrite sid8 by lia; reflexivity] end.

Theorem cmp_fixext_round_trip tp d dst : - 2 ^ 7 <= tp < 2 ^ 7 ->
  (1 <= blen d -> 1 <= blen dst -> fixext_form (cmp_write_fixext1 tp d) (cmp_read_fixext1 dst) 0xD4 1 tp d dst) /\
  (2 <= blen d -> 2 <= blen dst -> fixext_form (cmp_write_fixext2 tp d) (cmp_read_fixext2 dst) 0xD5 2 tp d dst) /\
  (4 <= blen d -> 4 <= blen dst -> fixext_form (cmp_write_fixext4 tp d) (cmp_read_fixext4 dst) 0xD6 4 tp d dst) /\
  (8 <= blen d -> 8 <= blen dst -> fixext_form (cmp_write_fixext8 tp d) (cmp_read_fixext8 dst) 0xD7 8 tp d dst) /\
  (16 <= blen d -> 16 <= blen dst -> fixext_form (cmp_write_fixext16 tp d) (cmp_read_fixext16 dst) 0xD8 16 tp d dst).
Proof.
  intros T. repeat apply conj; intros D1 D2.
  - split.
    + apply emits_bind; [change (emits (cmp_write_fixext1_marker tp) (obj_bytes (mkobj FIXEXT1 1 tp))); ext_as (mkobj FIXEXT1 1 tp)|apply emits_or, emits_data; lia].
    + apply accepts_bind with (u := tp); [change (accepts cmp_read_fixext1_marker (obj_bytes (mkobj FIXEXT1 1 tp)) tp); accf|apply accepts_payload; lia].
  - split.
    + apply emits_bind; [change (emits (cmp_write_fixext2_marker tp) (obj_bytes (mkobj FIXEXT2 2 tp))); ext_as (mkobj FIXEXT2 2 tp)|apply emits_or, emits_data; lia].
    + apply accepts_bind with (u := tp); [change (accepts cmp_read_fixext2_marker (obj_bytes (mkobj FIXEXT2 2 tp)) tp); accf|apply accepts_payload; lia].
  - split.
    + apply emits_bind; [change (emits (cmp_write_fixext4_marker tp) (obj_bytes (mkobj FIXEXT4 4 tp))); ext_as (mkobj FIXEXT4 4 tp)|apply emits_or, emits_data; lia].
    + apply accepts_bind with (u := tp); [change (accepts cmp_read_fixext4_marker (obj_bytes (mkobj FIXEXT4 4 tp)) tp); accf|apply accepts_payload; lia].
  - split.
    + apply emits_bind; [change (emits (cmp_write_fixext8_marker tp) (obj_bytes (mkobj FIXEXT8 8 tp))); ext_as (mkobj FIXEXT8 8 tp)|apply emits_or, emits_data; lia].
    + apply accepts_bind with (u := tp); [change (accepts cmp_read_fixext8_marker (obj_bytes (mkobj FIXEXT8 8 tp)) tp); accf|apply accepts_payload; lia].
  - split.
    + apply emits_bind; [change (emits (cmp_write_fixext16_marker tp) (obj_bytes (mkobj FIXEXT16 16 tp))); ext_as (mkobj FIXEXT16 16 tp)|apply emits_or, emits_data; lia].
    + apply accepts_bind with (u := tp); [change (accepts cmp_read_fixext16_marker (obj_bytes (mkobj FIXEXT16 16 tp)) tp); accf|apply accepts_payload; lia].
Qed.

Theorem cmp_sized_ext_round_trip tp n d dst : - 2 ^ 7 <= tp < 2 ^ 7 -> 0 < n <= blen d -> n <= blen dst ->
  (n < 2 ^ 8 -> ext_form (cmp_write_ext8 tp n d) (cmp_read_ext8 dst) 0xC7 1 n tp d dst) /\
  (n < 2 ^ 16 -> ext_form (cmp_write_ext16 tp n d) (cmp_read_ext16 dst) 0xC8 2 n tp d dst) /\
  (n < 2 ^ 32 -> ext_form (cmp_write_ext32 tp n d) (cmp_read_ext32 dst) 0xC9 4 n tp d dst).
Proof.
  intros T D1 D2. repeat apply conj; intros N.
  - split.
    + apply emits_bind; [change (emits (cmp_write_ext8_marker tp n) (obj_bytes (mkobj EXT8 n tp))); extw (mkobj EXT8 n tp)|apply emits_or, emits_data; lia].
    + apply accepts_bind with (u := (tp, n)); [change (accepts cmp_read_ext8_marker (obj_bytes (mkobj EXT8 n tp)) (tp, n)); accf|apply accepts_payload; lia].
  - split.
    + apply emits_bind; [change (emits (cmp_write_ext16_marker tp n) (obj_bytes (mkobj EXT16 n tp))); extw (mkobj EXT16 n tp)|apply emits_or, emits_data; lia].
    + apply accepts_bind with (u := (tp, n)); [change (accepts cmp_read_ext16_marker (obj_bytes (mkobj EXT16 n tp)) (tp, n)); accf|apply accepts_payload; lia].
  - split.
    + apply emits_bind; [change (emits (cmp_write_ext32_marker tp n) (obj_bytes (mkobj EXT32 n tp))); extw (mkobj EXT32 n tp)|apply emits_or, emits_data; lia].
    + apply accepts_bind with (u := (tp, n)); [change (accepts cmp_read_ext32_marker (obj_bytes (mkobj EXT32 n tp)) (tp, n)); accf|apply accepts_payload; lia].
Qed.

Ltac emitf ob := match goal with |- emits ?W _ => replace W with (cmp_write_object ob);
   [apply write_object_ok; unfold obj_ok; cbn [oty oval oext]; lia
   |unfold cmp_write_object, as_u32; cbn [oty oval oext]; rewrite uid32 by lia; rewrite ?uid8 by lia; rewrite ?uid16 by lia; reflexivity] end.
Ltac hform ob := split; [match goal with |- emits ?W _ => change (emits W (obj_bytes ob)) end; emitf ob
  |match goal with |- accepts ?R _ ?v => change (accepts R (obj_bytes ob) v) end; acc_as].

Theorem cmp_one_format_headers n : 0 <= n ->
  (n <= 15 -> small_form (cmp_write_fixarray n) cmp_read_array 0x90 n) /\
  (n < 2 ^ 16 -> header_form (cmp_write_array16 n) cmp_read_array 0xDC 2 n n) /\
  (n < 2 ^ 32 -> header_form (cmp_write_array32 n) cmp_read_array 0xDD 4 n n) /\
  (n <= 15 -> small_form (cmp_write_fixmap n) cmp_read_map 0x80 n) /\
  (n < 2 ^ 16 -> header_form (cmp_write_map16 n) cmp_read_map 0xDE 2 n n) /\
  (n < 2 ^ 32 -> header_form (cmp_write_map32 n) cmp_read_map 0xDF 4 n n) /\
  (n <= 31 -> small_form (cmp_write_fixstr_marker n) cmp_read_str_size 0xA0 n) /\
  (n < 2 ^ 8 -> header_form (cmp_write_str8_marker n) cmp_read_str_size 0xD9 1 n n) /\
  (n < 2 ^ 16 -> header_form (cmp_write_str16_marker n) cmp_read_str_size 0xDA 2 n n) /\
  (n < 2 ^ 32 -> header_form (cmp_write_str32_marker n) cmp_read_str_size 0xDB 4 n n) /\
  (n < 2 ^ 8 -> header_form (cmp_write_bin8_marker n) cmp_read_bin_size 0xC4 1 n n) /\
  (n < 2 ^ 16 -> header_form (cmp_write_bin16_marker n) cmp_read_bin_size 0xC5 2 n n) /\
  (n < 2 ^ 32 -> header_form (cmp_write_bin32_marker n) cmp_read_bin_size 0xC6 4 n n).
Proof.
  intros H. repeat apply conj; intros N.
  - hform (mkobj FIXARRAY n 0).
  - hform (mkobj ARRAY16 n 0).
  - hform (mkobj ARRAY32 n 0).
  - hform (mkobj FIXMAP n 0).
  - hform (mkobj MAP16 n 0).
  - hform (mkobj MAP32 n 0).
  - hform (mkobj FIXSTR n 0).
  - hform (mkobj STR8 n 0).
  - hform (mkobj STR16 n 0).
  - hform (mkobj STR32 n 0).
  - hform (mkobj BIN8 n 0).
  - hform (mkobj BIN16 n 0).
  - hform (mkobj BIN32 n 0).
Qed.

(** With their payloads: what is written is the header followed by the bytes. *)
Theorem cmp_one_format_payloads d n : 0 <= n <= blen d ->
  (n <= 31 -> emits (cmp_write_fixstr d n) ([0xA0 + n] ++ firstn (Z.to_nat n) d)) /\
  (n < 2 ^ 8 -> emits (cmp_write_str8 d n) ((0xD9 :: be 1 n) ++ firstn (Z.to_nat n) d)) /\
  (n < 2 ^ 16 -> emits (cmp_write_str16 d n) ((0xDA :: be 2 n) ++ firstn (Z.to_nat n) d)) /\
  (n < 2 ^ 32 -> emits (cmp_write_str32 d n) ((0xDB :: be 4 n) ++ firstn (Z.to_nat n) d)) /\
  (n < 2 ^ 8 -> emits (cmp_write_bin8 d n) ((0xC4 :: be 1 n) ++ firstn (Z.to_nat n) d)) /\
  (n < 2 ^ 16 -> emits (cmp_write_bin16 d n) ((0xC5 :: be 2 n) ++ firstn (Z.to_nat n) d)) /\
  (n < 2 ^ 32 -> emits (cmp_write_bin32 d n) ((0xC6 :: be 4 n) ++ firstn (Z.to_nat n) d)).
Proof.
  intros H. destruct (cmp_one_format_headers n ltac:(lia)) as (_ & _ & _ & _ & _ & _ & F & S8 & S16 & S32 & B8 & B16 & B32).
  repeat apply conj; intros N; apply emits_bind; try (apply emits_payload; lia).
  - now apply F.
  - now apply S8.
  - now apply S16.
  - now apply S32.
  - now apply B8.
  - now apply B16.
  - now apply B32.
Qed.

(** The small formats refuse what does not fit in them, and write nothing. *)
Theorem cmp_small_formats_refuse n c :
  (15 < n -> cmp_write_fixarray n c = Fail (mkctx (mem c) (size c) (index c) (ro c) INPUT_VALUE_TOO_LARGE_ERROR)) /\
  (15 < n -> cmp_write_fixmap n c = Fail (mkctx (mem c) (size c) (index c) (ro c) INPUT_VALUE_TOO_LARGE_ERROR)) /\
  (31 < n -> cmp_write_fixstr_marker n c = Fail (mkctx (mem c) (size c) (index c) (ro c) INPUT_VALUE_TOO_LARGE_ERROR)).
Proof.
  unfold cmp_write_fixarray, cmp_write_fixmap, cmp_write_fixstr_marker. unfold FIXARRAY_SIZE, FIXMAP_SIZE, FIXSTR_SIZE.
  repeat apply conj; intros H; (match goal with |- context [n <=? ?k] => destruct (Z.leb_spec n k); [lia|] end); reflexivity.
Qed.

(** An extension of five bytes in the 16-bit format, read in a buffer of eight. *)
Example ext16_case : let c0 := cmp_mem_access_init (repeat 0 16) 16 in
  match cmp_write_ext16 (-3) 5 [1; 2; 3; 4; 5] c0 with
  | Ok _ c => firstn 9 (mem c) = [0xC8; 0; 5; 0xFD; 1; 2; 3; 4; 5] /\
      match cmp_read_ext16 (repeat 7 8) (cmp_mem_access_set_pos c 0) with
      | Ok r _ => r = (-3, 5, [1; 2; 3; 4; 5; 7; 7; 7])
      | _ => False
      end
  | _ => False
  end.
Proof. vm_compute. repeat split. Qed.

Print Assumptions cmp_fixext_round_trip.
Print Assumptions cmp_sized_ext_round_trip.
Print Assumptions cmp_one_format_headers.
