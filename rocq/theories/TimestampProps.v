(** Property theorems for C03 and C53 (lib/timestamp). *)
From Coq Require Import ZArith List Lia Sorted.
From Verif Require Import CBase TimestampModel TimestampProofs.
Import ListNotations.
Local Open Scope Z_scope.

(** C03: [T1] and [T2] are the true instants in microseconds, the counters show them modulo 2^32. *)
Theorem timestamp_duration_exact : forall T1 T2, - 2 ^ 31 <= T2 - T1 < 2 ^ 31 ->
  timestamp_duration_us (T1 mod 2 ^ 32) (T2 mod 2 ^ 32) = T2 - T1.
Proof. exact duration32_l. Qed.
Print Assumptions timestamp_duration_exact.

Theorem ltimestamp_duration_exact : forall T1 T2, - 2 ^ 63 <= T2 - T1 < 2 ^ 63 ->
  ltimestamp_duration_us (T1 mod 2 ^ 64) (T2 mod 2 ^ 64) = T2 - T1.
Proof. exact duration64_l. Qed.
Print Assumptions ltimestamp_duration_exact.

Example timestamp_duration_example :
  timestamp_duration_us ((5 * 2 ^ 32 - 1) mod 2 ^ 32) ((5 * 2 ^ 32 + 9) mod 2 ^ 32) = 10
  /\ timestamp_duration_us ((5 * 2 ^ 32 + 9) mod 2 ^ 32) ((5 * 2 ^ 32 - 1) mod 2 ^ 32) = -10.
Proof. split; reflexivity. Qed.

(** C53: take any interleaving of timer ticks, interrupts and steps of [timestamp_get] and [ltimestamp_get] in which no
    overflow interrupt is lost and no call lasts 2^31 us. Of two calls of [timestamp_get], the second never returns a value
    before the first (as measured by [timestamp_duration_us]), and the difference is at most the time
    between the start of the first and the end of the second, plus one timer period. *)
Theorem timestamp_monotone_partial : forall tr l1 y l2 x l3, overrun (hrun tr) = false ->
  Forall (fun r => r_end r - r_start r < 2 ^ 31) (results (hrun tr)) ->
  results (hrun tr) = l1 ++ y :: l2 ++ x :: l3 -> r_long x = false -> r_long y = false ->
  r_end y - r_start x < 2 ^ 31 - PERIOD ->
  0 <= timestamp_duration_us (r_value x) (r_value y) <= r_end y - r_start x + PERIOD.
Proof. exact ts_monotone_l. Qed.
Print Assumptions timestamp_monotone_partial.

(** C53: the same for [ltimestamp_get], but only during the first 2^32 microseconds. *)
Theorem ltimestamp_monotone_partial : forall tr l1 y l2 x l3, overrun (hrun tr) = false ->
  Forall (fun r => r_end r - r_start r < 2 ^ 31) (results (hrun tr)) ->
  results (hrun tr) = l1 ++ y :: l2 ++ x :: l3 -> r_long x = true -> r_long y = true -> r_end x < 2 ^ 32 -> r_end y < 2 ^ 32 ->
  0 <= ltimestamp_duration_us (r_value x) (r_value y) <= r_end y - r_start x + PERIOD.
Proof. exact lts_monotone_l. Qed.
Print Assumptions ltimestamp_monotone_partial.

(** C53: stronger form. There is an instant for each call (newest first), never decreasing, at most one
    period before the start of the call and not after its end, such that the returned value is the
    number of ticks at that instant, less one tick per elapsed period: modulo 2^32 for [timestamp_get], less the whole
    multiples of 2^32 elapsed at the start of the call (or up to two periods before) for [ltimestamp_get]. *)
Theorem timestamp_linearises : forall tr, overrun (hrun tr) = false ->
  Forall (fun r => r_end r - r_start r < 2 ^ 31) (results (hrun tr)) ->
  exists es, Forall2 (fun r e => r_start r - PERIOD < e <= r_end r /\
      if r_long r then exists b, r_start r - 2 * PERIOD < b <= r_start r /\ 0 <= b /\
        r_value r = e - e / PERIOD - 2 ^ 32 * ((b - b / PERIOD) / 2 ^ 32)
      else r_value r = (e - e / PERIOD) mod 2 ^ 32) (results (hrun tr)) es
    /\ StronglySorted Z.ge es.
Proof. exact ts_linear_l. Qed.
Print Assumptions timestamp_linearises.

(** The interrupt may fall between the reads: here the counter wraps after [time_us_low] was read. *)
Example timestamp_race_example :
  let tr := repeat Tick (Z.to_nat 65535) ++ [Call false; Tick; Cpu; Isr; Cpu; Cpu; Call false; Cpu; Cpu; Tick; Cpu] in
  overrun (hrun tr) = false /\
  map (fun r => (r_start r, r_end r, r_value r)) (results (hrun tr)) = [(65536, 65537, 65535); (65535, 65536, 65535)].
Proof. cbv zeta. split; vm_compute; reflexivity. Qed.
Example ltimestamp_race_example :
  let tr := repeat Tick (Z.to_nat 65535) ++ [Call true; Tick; Cpu; Isr; Cpu; Cpu; Call true; Cpu; Cpu; Tick; Cpu] in
  overrun (hrun tr) = false /\
  map (fun r => (r_long r, r_start r, r_end r, r_value r)) (results (hrun tr)) = [(true, 65536, 65537, 65535); (true, 65535, 65536, 65535)].
Proof. cbv zeta. split; vm_compute; reflexivity. Qed.

(** C53 fails as to following real time: [n] periods after the start the value is [n] microseconds late
    (the period is COUNTER_MAX + 1 ticks but only COUNTER_MAX is added). *)
Theorem timestamp_real_time_refuted : forall n, exists tr r,
  overrun (hrun tr) = false /\ results (hrun tr) = [r] /\ r_long r = false /\
  r_start r = Z.of_nat n * PERIOD /\ r_end r = Z.of_nat n * PERIOD /\
  timestamp_duration_us (r_value r) (u32 (r_start r)) = s32 (Z.of_nat n).
Proof. exact ts_drift_l. Qed.
Print Assumptions timestamp_real_time_refuted.

(** C53 fails for the 64-bit clock: the high word is never updated, so that it goes backwards. *)
Theorem ltimestamp_monotone_refuted : exists tr r1 r2,
  overrun (hrun tr) = false /\ results (hrun tr) = [r2; r1] /\
  r_long r1 = true /\ r_long r2 = true /\ r_end r1 < r_start r2 /\ r_value r2 < r_value r1.
Proof. exact lts_backwards_l. Qed.
Print Assumptions ltimestamp_monotone_refuted.
