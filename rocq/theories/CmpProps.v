(** Properties C14, C15 and C16: the MessagePack codec and its memory accessor. *)
From Coq Require Import ZArith List Bool Lia.
From Verif Require Import CBase Buf CmpModel CmpSpec CmpProofs.
Import ListNotations.
Local Open Scope Z_scope.

(** ** C14: what is written is read back, in the shortest form. *)

Theorem cmp_sint_round_trip : forall v, - 2 ^ 63 <= v < 2 ^ 63 ->
  exists bs, shortest (int_encoding v) bs /\ emits (cmp_write_sint v) bs /\ accepts cmp_read_sinteger bs v.
Proof. exact sint_rt. Qed.
Print Assumptions cmp_sint_round_trip.

Theorem cmp_uint_round_trip : forall v, 0 <= v < 2 ^ 64 ->
  exists bs, shortest (int_encoding v) bs /\ emits (cmp_write_uint v) bs /\ accepts cmp_read_uinteger bs v.
Proof. exact uint_rt. Qed.
Print Assumptions cmp_uint_round_trip.

(** Every encoding of an integer, not only the shortest, is understood. *)
Theorem cmp_any_int_encoding_read : forall v bs, int_encoding v bs -> - 2 ^ 63 <= v < 2 ^ 63 ->
  accepts cmp_read_sinteger bs v.
Proof. exact accepts_long. Qed.
Print Assumptions cmp_any_int_encoding_read.

(** Narrow readers read what the generic writers wrote, as long as the value fits the type. *)
Theorem cmp_narrow_round_trip :
  (forall v, - 2 ^ 7 <= v < 2 ^ 7 -> round_trip (cmp_write_sint v) cmp_read_char v) /\
  (forall v, - 2 ^ 15 <= v < 2 ^ 15 -> round_trip (cmp_write_sint v) cmp_read_short v) /\
  (forall v, - 2 ^ 31 <= v < 2 ^ 31 -> round_trip (cmp_write_sint v) cmp_read_int v) /\
  (forall v, 0 <= v < 2 ^ 8 -> round_trip (cmp_write_uint v) cmp_read_uchar v) /\
  (forall v, 0 <= v < 2 ^ 16 -> round_trip (cmp_write_uint v) cmp_read_ushort v) /\
  (forall v, 0 <= v < 2 ^ 32 -> round_trip (cmp_write_uint v) cmp_read_uint v).
Proof. exact (conj char_rt (conj short_rt (conj int_rt (conj uchar_rt (conj ushort_rt uint32_rt))))). Qed.
Print Assumptions cmp_narrow_round_trip.

Theorem cmp_fixed_width_round_trip :
  (forall v, 0 <= v < 2 ^ 7 -> round_trip (cmp_write_pfix v) cmp_read_pfix v) /\
  (forall v, -32 <= v < 0 -> round_trip (cmp_write_nfix v) cmp_read_nfix v) /\
  (forall v, -32 <= v < 2 ^ 7 -> round_trip (cmp_write_sfix v) cmp_read_sfix v) /\
  (forall v, - 2 ^ 7 <= v < 2 ^ 7 -> round_trip (cmp_write_s8 v) cmp_read_s8 v) /\
  (forall v, - 2 ^ 15 <= v < 2 ^ 15 -> round_trip (cmp_write_s16 v) cmp_read_s16 v) /\
  (forall v, - 2 ^ 31 <= v < 2 ^ 31 -> round_trip (cmp_write_s32 v) cmp_read_s32 v) /\
  (forall v, - 2 ^ 63 <= v < 2 ^ 63 -> round_trip (cmp_write_s64 v) cmp_read_s64 v) /\
  (forall v, 0 <= v < 2 ^ 8 -> round_trip (cmp_write_u8 v) cmp_read_u8 v) /\
  (forall v, 0 <= v < 2 ^ 16 -> round_trip (cmp_write_u16 v) cmp_read_u16 v) /\
  (forall v, 0 <= v < 2 ^ 32 -> round_trip (cmp_write_u32 v) cmp_read_u32 v) /\
  (forall v, 0 <= v < 2 ^ 64 -> round_trip (cmp_write_u64 v) cmp_read_u64 v).
Proof.
  exact (conj pfix_rt (conj nfix_rt (conj sfix_rt (conj s8_rt (conj s16_rt (conj s32_rt (conj s64_rt
        (conj u8_rt (conj u16_rt (conj u32_rt u64_rt)))))))))).
Qed.
Print Assumptions cmp_fixed_width_round_trip.

Theorem cmp_scalar_round_trip :
  round_trip cmp_write_nil cmp_read_nil tt /\
  (forall b, round_trip (cmp_write_bool b) cmp_read_bool b) /\
  (forall b, 0 <= b < 2 ^ 8 -> round_trip (cmp_write_u8_as_bool b) cmp_read_bool_as_u8 (if b =? 0 then 0 else 1)) /\
  (forall d2f v, 0 <= v < 2 ^ 32 -> round_trip (cmp_write_float v) (cmp_read_float d2f) v) /\
  (forall f2d v, 0 <= v < 2 ^ 64 -> round_trip (cmp_write_double v) (cmp_read_double f2d) v).
Proof. exact (conj nil_rt (conj bool_rt (conj bool8_rt (conj float_rt double_rt)))). Qed.
Print Assumptions cmp_scalar_round_trip.

(** Strings, binaries and extensions: shortest header, payload copied, the rest of the buffer of the
    caller kept; a string is followed by a null byte. *)
Theorem cmp_str_round_trip : forall d n dst cap,
  0 <= n <= blen d -> n < cap -> cap <= blen dst -> cap < 2 ^ 32 ->
  exists h, shortest (str_header n) h /\
    emits (cmp_write_str d n) (h ++ firstn (Z.to_nat n) d) /\
    accepts (cmp_read_str dst cap) (h ++ firstn (Z.to_nat n) d)
      (firstn (Z.to_nat n) d ++ 0 :: skipn (Z.to_nat (n + 1)) dst, n).
Proof. exact str_rt. Qed.
Print Assumptions cmp_str_round_trip.

Theorem cmp_bin_round_trip : forall d n dst cap,
  0 <= n <= blen d -> n <= cap -> cap <= blen dst -> cap < 2 ^ 32 ->
  exists h, shortest (bin_header n) h /\
    emits (cmp_write_bin d n) (h ++ firstn (Z.to_nat n) d) /\
    accepts (cmp_read_bin dst cap) (h ++ firstn (Z.to_nat n) d)
      (firstn (Z.to_nat n) d ++ skipn (Z.to_nat n) dst, n).
Proof. exact bin_rt. Qed.
Print Assumptions cmp_bin_round_trip.

Theorem cmp_ext_round_trip : forall tp d n dst,
  - 2 ^ 7 <= tp < 2 ^ 7 -> 0 < n <= blen d -> n <= blen dst -> n < 2 ^ 32 ->
  exists h, shortest (ext_header tp n) h /\
    emits (cmp_write_ext tp n d) (h ++ firstn (Z.to_nat n) d) /\
    accepts (cmp_read_ext dst) (h ++ firstn (Z.to_nat n) d)
      (tp, n, firstn (Z.to_nat n) d ++ skipn (Z.to_nat n) dst).
Proof. exact ext_rt. Qed.
Print Assumptions cmp_ext_round_trip.

Theorem cmp_header_round_trip : forall n, 0 <= n < 2 ^ 32 ->
  (exists bs, shortest (array_header n) bs /\ emits (cmp_write_array n) bs /\ accepts cmp_read_array bs n) /\
  (exists bs, shortest (map_header n) bs /\ emits (cmp_write_map n) bs /\ accepts cmp_read_map bs n) /\
  (exists bs, shortest (str_header n) bs /\ emits (cmp_write_str_marker n) bs /\ accepts cmp_read_str_size bs n) /\
  (exists bs, shortest (bin_header n) bs /\ emits (cmp_write_bin_marker n) bs /\ accepts cmp_read_bin_size bs n) /\
  (forall tp, - 2 ^ 7 <= tp < 2 ^ 7 ->
     exists bs, shortest (ext_header tp n) bs /\ emits (cmp_write_ext_marker tp n) bs /\ accepts cmp_read_ext_marker bs (tp, n)).
Proof.
  intros n H. exact (conj (array_rt n H) (conj (map_rt n H) (conj (str_marker_rt n H) (conj (bin_marker_rt n H)
    (fun tp T => ext_marker_rt tp n T H))))).
Qed.
Print Assumptions cmp_header_round_trip.

(** Three writes then three reads on one buffer. *)
Example cmp_round_trip_example :
  let c0 := cmp_mem_access_init (repeat 0 16) 16 in
  match (cmp_write_sint (-1000) ;; cmp_write_str [104; 105] 2 ;; cmp_write_uint 200) c0 with
  | Ok _ c => firstn 8 (mem c) = [0xD1; 0xFC; 0x18; 0xA2; 104; 105; 0xCC; 200] /\ index c = 8 /\
      match (let! a := cmp_read_int in let! s := cmp_read_str (repeat 7 4) 4 in let! b := cmp_read_ulong in ret (a, s, b))
              (cmp_mem_access_set_pos c 0) with
      | Ok r c' => r = (-1000, ([104; 105; 0; 7], 2), 200) /\ index c' = 8
      | _ => False
      end
  | _ => False
  end.
Proof. vm_compute. repeat split. Qed.

(** The pair for unsigned fixnums does not work: the reader tests the type of the negative ones. *)
Theorem cmp_ufix_round_trip_refuted :
  exists v bs, 0 <= v < 2 ^ 7 /\ emits (cmp_write_ufix v) bs /\
    exists c, mem c = bs /\ size c = blen (mem c) /\ index c = 0 /\
      match cmp_read_ufix c with Fail c' => err c' = INVALID_TYPE_ERROR | _ => False end.
Proof.
  exists 5, [5]. split; [lia|]. split; [apply emits_pfix; lia|].
  exists (cmp_mem_access_init [5] 1). repeat split.
Qed.
Print Assumptions cmp_ufix_round_trip_refuted.

(** An extension without payload is written as far as its header and reported as a failure. *)
Theorem cmp_ext_empty_refuted :
  exists c, size c = blen (mem c) /\ ro c = false /\ index c + 64 <= size c /\
    match cmp_write_ext 1 0 [] c with Fail c' => err c' = DATA_WRITING_ERROR /\ index c' = 3 | _ => False end.
Proof. exists (cmp_mem_access_init (repeat 0 64) 64). vm_compute. repeat split; congruence. Qed.
Print Assumptions cmp_ext_empty_refuted.

(** ** C15: the memory accessor. *)

Theorem cmp_mem_read : forall n c, sane n c -> 0 <= n ->
  rd n c = if index c + n <=? size c
           then Ok (firstn (Z.to_nat n) (skipn (Z.to_nat (index c)) (mem c))) (set_index c (index c + n))
           else Fail c.
Proof. exact rd_spec. Qed.
Print Assumptions cmp_mem_read.

Theorem cmp_mem_write : forall l c, sane (blen l) c -> l <> [] -> ro c = false ->
  wr l c = if index c + blen l <=? size c
           then Ok tt (mkctx (firstn (Z.to_nat (index c)) (mem c) ++ l ++ skipn (Z.to_nat (index c + blen l)) (mem c))
                             (size c) (index c + blen l) false (err c))
           else Fail c.
Proof. exact wr_spec. Qed.
Print Assumptions cmp_mem_write.

Theorem cmp_mem_write_ro : forall l c, ro c = true -> wr l c = Fail c.
Proof. exact wr_ro. Qed.
Print Assumptions cmp_mem_write_ro.

(** The whole codec over the accessor: it never leaves the buffer, the position only advances inside it and
    only the bytes between the two positions may change, whatever the bytes in the buffer. [R] is the largest
    request; the buffer plus that request must be addressable with 32 bits. *)
Theorem cmp_codec_stays_inside : forall R, 8 <= R ->
  (forall o, stays_inside R (cmp_write_object o)) /\
  (forall v, stays_inside R (cmp_write_sint v)) /\
  (forall v, stays_inside R (cmp_write_uint v)) /\
  (forall n, stays_inside R (cmp_write_array n)) /\
  (forall n, stays_inside R (cmp_write_map n)) /\
  (forall d n, 0 <= n <= R -> n <= blen d -> n < 2 ^ 32 -> stays_inside R (cmp_write_str d n)) /\
  (forall d n, 0 <= n <= R -> n <= blen d -> n < 2 ^ 32 -> stays_inside R (cmp_write_bin d n)) /\
  (forall tp d n, 0 < n <= R -> n <= blen d -> n < 2 ^ 32 -> stays_inside R (cmp_write_ext tp n d)) /\
  stays_inside R cmp_read_object /\
  (forall A (f : obj -> option A), stays_inside R (read_as f)) /\
  (forall d n, n <= R -> n <= blen d -> stays_inside R (cmp_read_bin d n)).
Proof.
  exact (fun R H => conj (fun o => si_write_object R o H) (conj (fun v => si_write_sint R v H) (conj (fun v => si_write_uint R v H)
    (conj (fun n => si_write_array R n H) (conj (fun n => si_write_map R n H) (conj (fun d n => si_write_str R d n H)
    (conj (fun d n => si_write_bin R d n H) (conj (fun tp d n => si_write_ext R tp d n H)
    (conj (si_read_object R H) (conj (fun A f => si_read_as R f H) (fun d n => si_read_bin R d n H))))))))))).
Qed.
Print Assumptions cmp_codec_stays_inside.

(** Strings: the same, except for the single header announcing 2^32 - 1 bytes. *)
Theorem cmp_read_str_stays_inside_partial : forall R d n c,
  8 <= R -> n <= R -> 0 <= n <= blen d -> bytes_ok (mem c) -> sane R c ->
  (forall post, skipn (Z.to_nat (index c)) (mem c) <> 0xDB :: 255 :: 255 :: 255 :: 255 :: post) ->
  match cmp_read_str d n c with UB => False | Fail c' => inside c c' | Ok _ c' => inside c c' end.
Proof. exact si_read_str. Qed.
Print Assumptions cmp_read_str_stays_inside_partial.

(** Five bytes from the network make the string reader copy 4 GiB: the length check overflows, then the
    bounds check of the accessor overflows too. *)
Theorem cmp_read_str_inside_refuted :
  exists c, sane 1024 c /\ bytes_ok (mem c) /\ blen (mem c) = 5 /\ cmp_read_str (repeat 0 64) 64 c = UB.
Proof.
  exists (cmp_mem_access_ro_init [0xDB; 255; 255; 255; 255] 5).
  split; [unfold sane; cbn; lia|]. split; [repeat constructor; unfold byte_ok; lia|]. split; [reflexivity|].
  vm_compute. reflexivity.
Qed.
Print Assumptions cmp_read_str_inside_refuted.

(** The position can be set anywhere, and a position next to the end of the address space passes the
    bounds check. *)
Theorem cmp_set_pos_unchecked_refuted :
  exists c, sane 8 c /\ rd 8 (cmp_mem_access_set_pos c (2 ^ 32 - 4)) = UB /\
            cmp_mem_access_pos_is_valid c (2 ^ 32 - 4) = false.
Proof. exists (cmp_mem_access_init (repeat 0 16) 16). split; [unfold sane; cbn; lia|]. vm_compute. auto. Qed.
Print Assumptions cmp_set_pos_unchecked_refuted.

Example cmp_mem_example :
  let c := cmp_mem_access_init (repeat 0 4) 4 in
  sane 1000 c /\
  wr [1; 2; 3] c = Ok tt (mkctx [1; 2; 3; 0] 4 3 false 0) /\
  wr [1; 2] (mkctx [1; 2; 3; 0] 4 3 false 0) = Fail (mkctx [1; 2; 3; 0] 4 3 false 0) /\
  rd 1 (mkctx [1; 2; 3; 0] 4 3 false 0) = Ok [0] (mkctx [1; 2; 3; 0] 4 4 false 0).
Proof. cbn. unfold sane. cbn. repeat split; lia. Qed.

(** ** C16: the generic object reader. *)

(** On every input: at the end of the buffer, on the invalid marker and when bytes are missing it fails with
    the matching error; otherwise it returns the one object whose encoding is at the position and consumes
    exactly it. *)
Theorem cmp_read_object_total : forall c, sane 8 c -> bytes_ok (mem c) ->
  match skipn (Z.to_nat (index c)) (mem c) with
  | [] => cmp_read_object c = Fail (set_err c TYPE_MARKER_READING_ERROR)
  | t :: rest =>
      if t =? 0xC1 then cmp_read_object c = Fail (set_err (set_index c (index c + 1)) INVALID_TYPE_ERROR)
      else if follow t <=? blen rest then
        exists o post, obj_ok o /\ t :: rest = obj_bytes o ++ post /\ blen (obj_bytes o) = 1 + follow t /\
          cmp_read_object c = Ok o (set_index c (index c + 1 + follow t))
      else exists c', cmp_read_object c = Fail c' /\ mem c' = mem c /\
             (err c' = DATA_READING_ERROR \/ err c' = EXT_TYPE_READING_ERROR \/ err c' = LENGTH_READING_ERROR)
  end.
Proof. exact read_object_total. Qed.
Print Assumptions cmp_read_object_total.

Theorem cmp_object_round_trip : forall o, obj_ok o ->
  emits (cmp_write_object o) (obj_bytes o) /\ accepts cmp_read_object (obj_bytes o) o.
Proof. exact (fun o H => conj (write_object_ok o H) (read_object_ok o H)). Qed.
Print Assumptions cmp_object_round_trip.

Example cmp_object_example :
  obj_ok (mkobj EXT16 300 (-5)) /\
  cmp_read_object (cmp_mem_access_ro_init [0xC8; 1; 44; 251; 9] 5) =
    Ok (mkobj EXT16 300 (-5)) (mkctx [0xC8; 1; 44; 251; 9] 5 4 true 0) /\
  cmp_read_object (cmp_mem_access_ro_init [0xC8; 1; 44] 3) =
    Fail (mkctx [0xC8; 1; 44] 3 3 true EXT_TYPE_READING_ERROR).
Proof. split; [unfold obj_ok; cbn; lia|]. vm_compute. auto. Qed.
