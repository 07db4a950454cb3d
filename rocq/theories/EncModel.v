(** Model of the encoder, stream divider, blocking detection and wheel/polar conversion code. *)
From Coq Require Import ZArith List Bool QArith.
From Verif Require Import CBase CRes.
Import ListNotations.
Local Open Scope Z_scope.

(** ** wheel-encoder-firmware/src/encoder.c *)

(** wheel-encoder-firmware/src/encoder.c:12-13 (one wheel: previous raw reading and 32-bit value). *)
Record wheel := mkWheel { w_prev : Z; w_value : Z }.

(** wheel-encoder-firmware/src/encoder.c:77-94 encoder_tick_diff. The arithmetic is on uint32_t and the result is
    converted to int32_t. *)
Definition encoder_tick_diff (enc_old enc_new : Z) : Z :=
  if enc_old <? enc_new then
    if u32 (enc_new - enc_old) <=? 32767 then s32 (u32 (enc_new - enc_old))
    else s32 (u32 (- u32 (65535 + 1 - u32 (enc_new - enc_old))))
  else if enc_new <? enc_old then
    if u32 (enc_old - enc_new) <=? 32767 then s32 (u32 (- u32 (enc_old - enc_new)))
    else s32 (u32 (65535 + 1 - u32 (enc_old - enc_new)))
  else 0.

(** wheel-encoder-firmware/src/encoder.c:44-47 encoder_init, one wheel: [raw] is the timer's counter. *)
Definition encoder_init (raw : Z) : wheel := mkWheel raw raw.
(** wheel-encoder-firmware/src/encoder.c:15-21 encoder_get_left and 23-29 encoder_get_right (same code): [raw] is the
    counter read now, `+=` is on int32_t. *)
Definition encoder_get (w : wheel) (raw : Z) : res (wheel * Z) :=
  try v := int (w_value w + encoder_tick_diff (w_prev w) raw) in OK (mkWheel raw v, v).
(** A sequence of readings, the last value returned ([v0] if there is none). *)
Fixpoint encoder_reads (w : wheel) (raws : list Z) (v0 : Z) : res (wheel * Z) :=
  match raws with [] => OK (w, v0) | raw :: raws => try (w, v) := encoder_get w raw in encoder_reads w raws v end.

(** ** motor-control-firmware/src/feedback.c *)

(** motor-control-firmware/src/feedback.h:33-41 struct encoder_s. *)
Record encoder_s := mkEnc { accumulator : Z; previous : Z; transmission_p : Z; transmission_q : Z; ticks_per_rev : Z }.
Definition enc_set (e : encoder_s) (acc prev : Z) : encoder_s :=
  mkEnc acc prev (transmission_p e) (transmission_q e) (ticks_per_rev e).

(** motor-control-firmware/src/feedback.c:5-10. *)
Definition compute_delta_accumulator_periodic (encoder prev p : Z) : res Z := int (s16 (encoder - prev) * p).
(** motor-control-firmware/src/feedback.c:12-16. *)
Definition compute_delta_accumulator_bounded (encoder prev : Z) : Z := s16 (encoder - prev).
(** motor-control-firmware/src/feedback.c:18-29: the comparison is on int32_t (overflow is undefined), the updates are
    on uint32_t. *)
Definition periodic_accumulator_overflow (acc ticks q : Z) : res Z :=
  try period := int (s32 ticks * q) in
  if period <=? acc then OK (s32 (u32 (u32 acc - u32 (ticks * q))))
  else if acc <? 0 then OK (s32 (u32 (u32 acc + u32 (ticks * q))))
  else OK acc.

(** motor-control-firmware/src/feedback.c:31-61. Simplified: exact rational numbers instead of binary32, and turns
    instead of radians (the code multiplies by 2*M_PI). With [ticks], [q] or [delta_t] zero the code's result is not
    a number, here it is 0. *)
Definition compute_encoder_position_periodic (acc ticks q : Z) : Q := (inject_Z acc / inject_Z ticks / inject_Z q)%Q.
Definition compute_encoder_position_bounded (acc ticks p q : Z) : Q :=
  (inject_Z acc / inject_Z ticks * inject_Z p / inject_Z q)%Q.
Definition compute_encoder_velocity_periodic (delta ticks q : Z) (delta_t : Q) : Q :=
  (inject_Z delta / inject_Z ticks / inject_Z q / delta_t)%Q.
Definition compute_encoder_velocity_bounded (delta ticks p q : Z) (delta_t : Q) : Q :=
  (inject_Z delta / inject_Z ticks * inject_Z p / inject_Z q / delta_t)%Q.

(** motor-control-firmware/src/feedback.h:52-74 struct feedback_s, without the RPM and potentiometer inputs. *)
Record output_s := mkOut { position : Q; velocity : Q; actuator_is_periodic : bool }.
Record input_s := mkIn { in_primary : Z; in_secondary : Z; in_delta_t : Q }.
Record feedback_s := mkFb { output : output_s; primary : encoder_s; secondary : encoder_s }.
Inductive selection := PRIMARY_PERIODIC | PRIMARY_BOUNDED | TWO_PERIODIC.

(** motor-control-firmware/src/feedback.c:86-95, 141-150 and 152-161 (the same code three times). *)
Definition accumulate_periodic (e : encoder_s) (encoder : Z) : res (encoder_s * Z) :=
  try delta := compute_delta_accumulator_periodic encoder (previous e) (transmission_p e) in
  try acc := int (accumulator e + delta) in
  try acc := periodic_accumulator_overflow acc (ticks_per_rev e) (transmission_q e) in
  OK (enc_set e acc encoder, delta).
(** motor-control-firmware/src/feedback.c:115-119. *)
Definition accumulate_bounded (e : encoder_s) (encoder : Z) : res (encoder_s * Z) :=
  let delta := compute_delta_accumulator_bounded encoder (previous e) in
  try acc := int (accumulator e + delta) in
  OK (enc_set e acc encoder, delta).

(** motor-control-firmware/src/feedback.c:84-178 feedback_compute for the three encoder selections. FEEDBACK_RPM and
    FEEDBACK_POTENTIOMETER (66-83, 179-191) are not modelled here. *)
Definition feedback_compute (sel : selection) (f : feedback_s) (i : input_s) : res feedback_s :=
  match sel with
  | PRIMARY_PERIODIC =>
      try (e, delta) := accumulate_periodic (primary f) (in_primary i) in
      OK (mkFb (mkOut (compute_encoder_position_periodic (accumulator e) (ticks_per_rev e) (transmission_q e))
                      (compute_encoder_velocity_periodic delta (ticks_per_rev e) (transmission_q e) (in_delta_t i)) true)
               e (secondary f))
  | PRIMARY_BOUNDED =>
      try (e, delta) := accumulate_bounded (primary f) (in_primary i) in
      OK (mkFb (mkOut (compute_encoder_position_bounded (accumulator e) (ticks_per_rev e) (transmission_p e) (transmission_q e))
                      (compute_encoder_velocity_bounded delta (ticks_per_rev e) (transmission_p e) (transmission_q e) (in_delta_t i)) false)
               e (secondary f))
  | TWO_PERIODIC =>
      try (e, delta) := accumulate_periodic (primary f) (in_primary i) in
      try (e2, _) := accumulate_periodic (secondary f) (in_secondary i) in
      OK (mkFb (mkOut (compute_encoder_position_periodic (accumulator e2) (ticks_per_rev e2) (transmission_q e2))
                      (compute_encoder_velocity_periodic delta (ticks_per_rev e) (transmission_q e) (in_delta_t i)) true)
               e e2)
  end.
Fixpoint feedback_run (sel : selection) (f : feedback_s) (inputs : list input_s) : res feedback_s :=
  match inputs with [] => OK f | i :: inputs => try f := feedback_compute sel f i in feedback_run sel f inputs end.

(** ** motor-control-firmware/src/stream.c *)

(** motor-control-firmware/src/stream.h:11-15 stream_config_t. *)
Record stream_config := mkStream { enabled : bool; prescaler : Z; counter : Z }.

(** nearbyint of C in its default rounding mode (to nearest, ties to even). *)
Definition nearbyint (x : Q) : Z :=
  let n := Qnum x in let d := Z.pos (Qden x) in
  let f := n / d in let r := n mod d in
  if 2 * r <? d then f else if d <? 2 * r then f + 1 else if Z.even f then f else f + 1.

(** motor-control-firmware/src/stream.c:4-8 stream_set_prescaler. Simplified: exact rational numbers instead of
    binary32. Converting a value outside of uint16_t is undefined. *)
Definition stream_set_prescaler (s : stream_config) (frequency spin_frequency : Q) : res stream_config :=
  if Qeq_bool frequency 0 then BAD
  else let n := nearbyint (spin_frequency / frequency) in
       if (0 <=? n) && (n <? 65536) then OK (mkStream (enabled s) n n) else BAD.
(** motor-control-firmware/src/stream.c:10-13 stream_enable. *)
Definition stream_enable (s : stream_config) (b : bool) : stream_config := mkStream b (prescaler s) (counter s).
(** motor-control-firmware/src/stream.c:15-28 stream_should_send. *)
Definition stream_should_send (s : stream_config) : stream_config * bool :=
  if enabled s then
    let c := u16 (counter s - 1) in
    if c =? 0 then (mkStream true (prescaler s) (prescaler s), true)
    else (mkStream true (prescaler s) c, false)
  else (s, false).

(** ** lib/aversive/blocking_detection_manager/blocking_detection_manager.cpp *)

(** lib/aversive/include/aversive/blocking_detection_manager/blocking_detection_manager.h struct blocking_detection.
    Every function holds the mutex [lock_], so that the calls are serialised. *)
Record bd := mkBd { cpt_thres : Z; cpt : Z; err_thres : Z; err_max : Z }.
(** blocking_detection_manager.cpp:35-42 bd_init. *)
Definition bd_init : bd := mkBd 0 0 0 0.
(** blocking_detection_manager.cpp:45-49 bd_reset. *)
Definition bd_reset (b : bd) : bd := mkBd (cpt_thres b) 0 (err_thres b) (err_max b).
(** blocking_detection_manager.cpp:51-56 bd_set_thresholds. *)
Definition bd_set_thresholds (b : bd) (err cnt : Z) : bd := mkBd cnt (cpt b) err (err_max b).
(** blocking_detection_manager.cpp:58-74 bd_manage ([cpt] is a uint16_t). *)
Definition bd_manage (b : bd) (err : Z) : bd :=
  if err_thres b =? 0 then b else
  let m := if err_max b <? err then err else err_max b in
  mkBd (cpt_thres b) (if err_thres b <? err then u16 (cpt b + 1) else 0) (err_thres b) m.
(** blocking_detection_manager.cpp:77-81 bd_get. *)
Definition bd_get (b : bd) : bool := negb (cpt_thres b =? 0) && (cpt_thres b <=? cpt b).
(** blocking_detection_manager.cpp:84-91 bd_get_max (uint32_t converted to int32_t). *)
Definition bd_get_max (b : bd) : bd * Z := (mkBd (cpt_thres b) (cpt b) (err_thres b) 0, s32 (err_max b)).

(** ** lib/aversive/robot_system *)

Record polar := mkPolar { p_distance : Z; p_angle : Z }.
Record wheels := mkWheels { w_left : Z; w_right : Z }.

(** lib/aversive/robot_system/angle_distance.c:28-32 rs_get_polar_from_wheels (C's division truncates). *)
Definition rs_get_polar_from_wheels (w : wheels) : res polar :=
  try d := int (w_right w + w_left w) in
  try a := int (w_right w - w_left w) in
  OK (mkPolar (Z.quot d 2) (Z.quot a 2)).
(** lib/aversive/robot_system/angle_distance.c:37-41 rs_get_wheels_from_polar. *)
Definition rs_get_wheels_from_polar (p : polar) : res wheels :=
  try l := int (p_distance p - p_angle p) in
  try r := int (p_distance p + p_angle p) in
  OK (mkWheels l r).

(** lib/aversive/include/aversive/robot_system/robot_system.h struct robot_system without
    CONFIG_MODULE_ROBOT_SYSTEM_MOT_AND_EXT, which no build defines. The gains are binary64 in the code: here the
    conversion of a reading by its gain is an arbitrary function ([None]: the product does not fit an int32_t), which
    is the identity when RS_IGNORE_EXT_GAIN is set. *)
Definition scaling := Z -> option Z.
Record robot_system := mkRs { virtual_pwm : polar; virtual_encoders : polar; pext_prev : polar; wext_prev : wheels;
                              left_ext_gain : scaling; right_ext_gain : scaling }.
Definition pz : polar := mkPolar 0 0.
(** lib/aversive/robot_system/robot_system.c:74-80 rs_init then 117-129 rs_set_{left,right}_ext_encoder. *)
Definition rs_init (gl gr : scaling) : robot_system := mkRs pz pz pz (mkWheels 0 0) gl gr.
(** robot_system.c:117-129 rs_set_left_ext_encoder and rs_set_right_ext_encoder, called again when the parameters change. *)
Definition rs_set_gains (rs : robot_system) (gl gr : scaling) : robot_system :=
  mkRs (virtual_pwm rs) (virtual_encoders rs) (pext_prev rs) (wext_prev rs) gl gr.
(** robot_system.c:131-144 rs_set_angle: the new state and the commands sent to the wheels. *)
Definition rs_set_angle (rs : robot_system) (angle : Z) : res (robot_system * wheels) :=
  let p := mkPolar (p_distance (virtual_pwm rs)) angle in
  try w := rs_get_wheels_from_polar p in
  OK (mkRs p (virtual_encoders rs) (pext_prev rs) (wext_prev rs) (left_ext_gain rs) (right_ext_gain rs), w).
(** robot_system.c:146-160 rs_set_distance. *)
Definition rs_set_distance (rs : robot_system) (distance : Z) : res (robot_system * wheels) :=
  let p := mkPolar distance (p_angle (virtual_pwm rs)) in
  try w := rs_get_wheels_from_polar p in
  OK (mkRs p (virtual_encoders rs) (pext_prev rs) (wext_prev rs) (left_ext_gain rs) (right_ext_gain rs), w).
(** robot_system.c:162-172 rs_get_angle and rs_get_distance. *)
Definition rs_get_angle (rs : robot_system) : Z := p_angle (virtual_encoders rs).
Definition rs_get_distance (rs : robot_system) : Z := p_distance (virtual_encoders rs).
(** robot_system.c:232-304 rs_update: [left] and [right] are what the encoder functions return. safe_getencoder
    (62-72) returns them through a uint32_t. *)
Definition rs_update (rs : robot_system) (left right : Z) : res robot_system :=
  try l := some (left_ext_gain rs (s32 (u32 left))) in
  try r := some (right_ext_gain rs (s32 (u32 right))) in
  let wext := mkWheels l r in
  try pext := rs_get_polar_from_wheels wext in
  try da := int (p_angle pext - p_angle (pext_prev rs)) in
  try dd := int (p_distance pext - p_distance (pext_prev rs)) in
  try a := int (p_angle (virtual_encoders rs) + da) in
  try d := int (p_distance (virtual_encoders rs) + dd) in
  OK (mkRs (virtual_pwm rs) (mkPolar d a) pext wext (left_ext_gain rs) (right_ext_gain rs)).
