{
 "claims": [
  {
   "property": "C01",
   "status": "proved",
   "theorems": [
    "crc16_incremental",
    "crc32_incremental",
    "crc16_fits",
    "crc32_fits",
    "crc16_linear",
    "crc32_affine",
    "crc16_is_remainder",
    "crc32_is_remainder",
    "remainder_unique"
   ],
   "note": "Model: bitwise CRC over N. Also identifies both checksums with polynomial remainders over GF(2)."
  },
  {
   "property": "C02",
   "status": "proved",
   "theorems": [
    "crc16_detects_bursts",
    "crc32_detects_bursts",
    "crc16_init_injective",
    "crc32_init_injective",
    "crc16_detects_odd_errors",
    "crc16_detects_double_errors",
    "crc32_detects_double_errors"
   ],
   "note": "Single bit errors are bursts of width 1. Odd/double error detection is extra."
  },
  {
   "property": "C03",
   "status": "proved",
   "theorems": [
    "timestamp_duration_exact",
    "ltimestamp_duration_exact"
   ],
   "note": "Conversion to float seconds is not part of the claim."
  },
  {
   "property": "C04",
   "status": "partial",
   "theorems": [
    "trace_prints_most_recent",
    "trace_in_bounds",
    "trace_disabled_records_nothing_partial",
    "trace_print_keeps_disabled_refuted"
   ],
   "note": "Full claim proved with the actual effect of print; refuted: printing a disabled trace enables it again."
  },
  {
   "property": "C05",
   "status": "proved",
   "theorems": [
    "lru_never_stuck",
    "lru_evicts_least_recent",
    "lru_get_finds",
    "lru_capacity_one_refuted"
   ],
   "note": "For every capacity of at least two. Capacity one is refuted (endless lookup)."
  },
  {
   "property": "C06",
   "status": "proved",
   "theorems": [
    "anchor_cache_never_wrong",
    "anchor_cache_recent_available",
    "anchor_cache_lookup_refreshes",
    "anchor_pointer_stable_refuted"
   ],
   "note": "The value read immediately is right; the returned pointer is not protected against later eviction (refuted)."
  },
  {
   "property": "C07",
   "status": "proved",
   "theorems": [
    "uwb_roundtrip",
    "uwb_header_bytes",
    "uwb_encapsulate_needs_room",
    "uwb_short_frame_refuted"
   ],
   "note": "For every payload and buffer with room. Finding outside of the claim (refuted theorem): frames of 9 or 10 bytes, which no encapsulation produces, decode to a size near 2^32."
  },
  {
   "property": "C08",
   "status": "partial",
   "theorems": [
    "uwb_timestamp_roundtrip",
    "uwb_difference_partial",
    "uwb_difference_wrap_refuted"
   ],
   "note": "Round trip proved. Differences are exact without wrap, one tick short with a wrap (refuted)."
  },
  {
   "property": "C09",
   "status": "partial",
   "theorems": [
    "uwb_ranging_partial",
    "uwb_initiate_delivered",
    "uwb_ranging_exact_refuted",
    "uwb_ranging_zero_refuted"
   ],
   "note": "For every pair of clock offsets, the reported time is within one tick, exact if no clock wraps; refutations give the two failures."
  },
  {
   "property": "C10",
   "status": "proved",
   "theorems": [
    "uwb_decoded_fields",
    "uwb_ignores_foreign_frames",
    "uwb_anchor_ignores_advertisements",
    "uwb_data_delivered",
    "uwb_anchor_position_delivered",
    "uwb_tag_position_delivered",
    "uwb_initiate_delivered"
   ],
   "note": "For arbitrary received bytes."
  },
  {
   "property": "C11",
   "status": "proved",
   "theorems": [
    "enumerator_lookup_by_name",
    "enumerator_lookup_by_can_id",
    "enumerator_counts",
    "enumerator_id_255_refuted",
    "enumerator_duplicate_refuted"
   ],
   "note": "For histories with distinct names and real CAN ids; the two refutations show that both conditions are needed."
  },
  {
   "property": "C12",
   "status": "proved",
   "theorems": [
    "motor_create",
    "motor_setpoints",
    "motor_feedback_dispatch",
    "motor_long_id_refuted"
   ],
   "note": "For ids of at most 24 characters and enumerators with room for all motors; longer ids are refuted. Other boards in the same enumerator are not modelled."
  },
  {
   "property": "C13",
   "status": "proved",
   "theorems": [
    "motor_stream_fresh",
    "motor_stream_no_other_flags",
    "motor_stream_keeps_setpoint",
    "motor_setpoint_keeps_streams",
    "motor_setpoints"
   ],
   "note": "Lock-protected sections are atomic steps."
  },
  {
   "property": "C14",
   "status": "proved",
   "theorems": [
    "cmp_sint_round_trip",
    "cmp_uint_round_trip",
    "cmp_any_int_encoding_read",
    "cmp_narrow_round_trip",
    "cmp_fixed_width_round_trip",
    "cmp_scalar_round_trip",
    "cmp_str_round_trip",
    "cmp_bin_round_trip",
    "cmp_ext_round_trip",
    "cmp_header_round_trip",
    "cmp_fixext_round_trip",
    "cmp_sized_ext_round_trip",
    "cmp_one_format_headers",
    "cmp_one_format_payloads",
    "cmp_small_formats_refuse",
    "cmp_ufix_round_trip_refuted",
    "cmp_ext_empty_refuted"
   ],
   "note": "All reader/writer pairs; refuted for the ufix pair and for empty extensions."
  },
  {
   "property": "C15",
   "status": "partial",
   "theorems": [
    "cmp_mem_read",
    "cmp_mem_write",
    "cmp_mem_write_ro",
    "cmp_codec_stays_inside",
    "cmp_read_str_stays_inside_partial",
    "cmp_read_str_inside_refuted",
    "cmp_set_pos_unchecked_refuted"
   ],
   "note": "Holds while buffer size plus request stays below 2^32. A string header announcing 2^32-1 bytes and an unchecked position are refuted."
  },
  {
   "property": "C16",
   "status": "proved",
   "theorems": [
    "cmp_read_object_total",
    "cmp_object_round_trip"
   ],
   "note": "For every input and every object."
  },
  {
   "property": "C17",
   "status": "proved",
   "theorems": [
    "param_changed_exact",
    "param_changed_flag",
    "param_changed_threads",
    "param_set_is_its_steps",
    "param_get_is_its_steps",
    "param_contains_changed_transient_refuted",
    "param_changed_then_get_refuted"
   ],
   "note": "Every history, and every schedule of threads once they are idle. While calls are in progress the exact statement is refuted. Objects are declared once, before the threads start."
  },
  {
   "property": "C18",
   "status": "proved",
   "theorems": [
    "param_find_exact",
    "param_namespace_find_exact",
    "param_path_unique",
    "param_path_components",
    "param_find_embedded_nul_refuted"
   ],
   "note": "For names without null bytes (C strings); the variant with explicit length is refuted for names with one."
  },
  {
   "property": "C19",
   "status": "proved",
   "theorems": [
    "param_enumeration",
    "param_full_name_resolves",
    "param_full_name_clash_refuted"
   ],
   "note": "The full name resolves if names are non-empty, without slash and different at the same place. The capacity of the message's name field is not modelled."
  },
  {
   "property": "C20",
   "status": "partial",
   "theorems": [
    "pmsg_round_trip_partial",
    "pmsg_load",
    "pmsg_load_terminates",
    "pmsg_full_string_refuted",
    "pmsg_short_buffer_refuted",
    "pmsg_malformed_refuted"
   ],
   "note": "Round trip for all trees of the same shape whose defined strings leave one byte of their buffer unused; a string filling its buffer is refused by the loader (refuted). A too small buffer is not always reported (refuted), a malformed document may read out of bounds (refuted). Loading terminates on every buffer."
  },
  {
   "property": "C21",
   "status": "partial",
   "theorems": [
    "flash_crash_partial",
    "flash_crash_load_partial",
    "flash_crash_full_refuted",
    "flash_save_after_crash_refuted"
   ],
   "note": "A save interrupted after any number of programmed bytes leaves the last complete configuration or the new one, for documents of even length that fit after the blocks; no collision of checksums has to be excluded. When the area must be erased first a crash loses everything (refuted), and a save after a crash may store a corrupted configuration (refuted). Not covered: a byte programmed in part, an interrupted erase."
  },
  {
   "property": "C22",
   "status": "partial",
   "theorems": [
    "flash_saves_partial",
    "flash_last_saved_partial",
    "flash_save_in_area_partial",
    "flash_appends",
    "flash_erases_when_full",
    "flash_save_odd_partial",
    "flash_f3_even_partial",
    "flash_f3_odd_refuted",
    "flash_odd_saves_refuted",
    "flash_outside_refuted",
    "flash_too_big_refuted",
    "flash_walk_outside_refuted",
    "flash_one_page_refuted"
   ],
   "note": "Documents of even length for which the writer reports a lack of room: after any sequence of saves the last is loaded, only the area is changed. For documents of odd length all later saves are lost on the F4 and the last byte is lost on the F3 (refuted), a byte may be written outside of the area (refuted), a document that is too large hangs (refuted)."
  },
  {
   "property": "C23",
   "status": "proved",
   "theorems": [
    "bus_safe",
    "bus_events",
    "bus_read",
    "bus_read_last",
    "bus_wait",
    "bus_refused",
    "bus_published",
    "bus_refused_changes_nothing",
    "bus_notified",
    "bus_group",
    "bus_find",
    "bus_find_blocking",
    "bus_callbacks",
    "bus_stats",
    "bus_wait_not_lost",
    "bus_group_not_lost",
    "bus_find_not_lost",
    "bus_no_deadlock",
    "bus_exclusion",
    "bus_independent",
    "bus_long_read_refuted",
    "bus_advertise_twice_refuted",
    "bus_early_publish_missed_refuted",
    "bus_short_message_tail_refuted"
   ],
   "note": "For every number of threads and every interleaving (each mutex acquisition, each copied byte, each broadcast is a scheduling point) of calls that read at most the buffer size and advertise each topic at most once: no out-of-bounds access, no endless walk, every result fits the history before it, no lost wake-up, no deadlock. The refuted theorems show what happens outside these conditions. Message bytes copied by memcpy one at a time; spurious condition variable wake-ups are not modelled."
  },
  {
   "property": "C24",
   "status": "proved",
   "theorems": [
    "raft_terms_grow",
    "raft_one_vote"
   ],
   "note": "For one node, any inputs (messages from any sender, ticks, elections asked for) and any tick randomness."
  },
  {
   "property": "C25",
   "status": "partial",
   "theorems": [
    "raft_election_safety_partial",
    "raft_safe",
    "raft_apply_partial",
    "raft_two_leaders_duplicate_refuted",
    "raft_two_leaders_late_vote_refuted",
    "raft_logs_diverge_refuted",
    "raft_applied_twice_refuted",
    "raft_minority_commit_refuted"
   ],
   "note": "Election safety is proved for networks that neither duplicate votes nor deliver them after their election, and refuted without this (late or duplicated vote). Agreement of the logs and of the state machines is false of the code: three refutations with concrete schedules. Absence of undefined behaviour and numbering of logs proved for every schedule."
  },
  {
   "property": "C26",
   "status": "proved",
   "theorems": [
    "dijkstra_shortest",
    "dijkstra_connect",
    "dijkstra_unreachable_refuted",
    "dijkstra_connect_overflow_refuted"
   ],
   "note": "For every graph whose edges stay in the array and that has fewer than 2^31-1 nodes. Findings: a null pointer is dereferenced exactly when no path exists; the eleventh connect of a node writes out of its table."
  },
  {
   "property": "C27",
   "status": "partial",
   "theorems": [
    "oa_path_partial",
    "oa_search_partial",
    "oa_rays_overflow_refuted",
    "oa_copy_refuted"
   ],
   "note": "For every history of calls and every geometry: the search ends and returns a cheapest path along visibility rays, or reports that there is none (or that the path has over 100 points). Missing: maps with more than 500 rays, for which the ray table overflows (refuted), and sums of lengths above int range. Visibility and lengths (float geometry) are parameters of the model."
  },
  {
   "property": "C28",
   "status": "proved",
   "theorems": [
    "oa_storage",
    "oa_declare",
    "oa_init_empties",
    "oa_negative_size_refuted"
   ],
   "note": "For histories whose sizes are not negative and whose vertex indices exist; a negative size is shown to break the property."
  },
  {
   "property": "C29",
   "status": "proved",
   "theorems": [
    "goap_plan",
    "goap_finds",
    "goap_finds_climbing",
    "goap_gives_up_refuted",
    "goap_far_refuted"
   ],
   "note": "For every problem whose operator== is equality and whose distances keep priorities in an int (goap_far_refuted: without this a null pointer is dereferenced). Also proved: planning finds a plan when the reachable states fit in the pool. Finding: with an exhausted pool it may answer 'no path' although there is one."
  },
  {
   "property": "C30",
   "status": "partial",
   "theorems": [
    "goap_pool_partial",
    "goap_pool_shared_refuted"
   ],
   "note": "Holds at each turn unless the pool was exhausted while exactly one node was open: that node is then open and free at once (refuted by a concrete search)."
  },
  {
   "property": "C31",
   "status": "partial",
   "theorems": [
    "feedback_bounded",
    "feedback_periodic_partial",
    "feedback_two_encoders_partial",
    "feedback_velocity",
    "feedback_periodic_refuted",
    "feedback_bounded_overflow_refuted"
   ],
   "note": "Bounded axis: full (while the accumulator fits int32_t). Periodic axis: the range needs the encoder not to move by more than one period of the axis between two samples; refuted otherwise, since the code corrects by one period only. Positions are exact rationals in turns, not binary32."
  },
  {
   "property": "C32",
   "status": "proved",
   "theorems": [
    "stream_sends",
    "stream_disabled",
    "stream_prescaler",
    "stream_fast_request_refuted"
   ],
   "note": "For every history of frequency settings, enable/disable calls and updates. A requested frequency above twice the update rate gives a prescaler of 0 (outside the property): the stream then sends every 65536 updates."
  },
  {
   "property": "C33",
   "status": "partial",
   "theorems": [
    "pid_integrator_bounded",
    "pid_integrator_bounded_finite",
    "pid_nan_sticks",
    "pid_reset_outputs_partial",
    "pid_reset_refuted",
    "pid_output_is_law",
    "pid_output_bounded"
   ],
   "note": "In single precision (Flocq), every gain, limit and error history. The integrator bound is complete. Missing: independence of the outputs after a reset is false for the first output when the derivative gain is not zero, because the reset keeps the previous error (refuted); proved for zero derivative gain or from the second output on. Finding: a NaN error stays in the integrator."
  },
  {
   "property": "C34",
   "status": "partial",
   "theorems": [
    "limits_in_force",
    "setpoints_limited",
    "duty_cycle_limited",
    "pwm_set_limited",
    "safe_state_partial",
    "safe_state_refuted_battery",
    "safe_state_refuted_wrap",
    "nan_defeats_limits",
    "bridge_limited",
    "bridge_applies",
    "bridge_recharges"
   ],
   "note": "In single precision, for every history of requests, parameter changes and rounds. Missing: the 0 V safe state fails for a battery reading of 0 (0/0 then an undefined conversion) and for a setpoint older than 2^31 microseconds, both refuted with a witness; a NaN torque request defeats the limits."
  },
  {
   "property": "C35",
   "status": "partial",
   "theorems": [
    "velocity_interpolation",
    "velocity_reached",
    "position_interpolation_partial",
    "position_interpolation_refuted"
   ],
   "note": "In exact arithmetic for the real-valued limits. Missing: in position mode the speed exceeds vel_limit by up to acc_limit*dt (refuted with a witness in single precision; the bound vel_limit + acc_limit*dt is proved)."
  },
  {
   "property": "C36",
   "status": "proved",
   "theorems": [
    "thermal_range",
    "thermal_limit",
    "thermal_limit_effective",
    "thermal_ambient_refuted"
   ],
   "note": "In exact arithmetic, every current history. Findings: negative currents cool the model below the ambient temperature, and the control loop does not use the result."
  },
  {
   "property": "C37",
   "status": "partial",
   "theorems": [
    "limit_within",
    "limit_sym_within",
    "limit_nan",
    "mean_within",
    "mean_int16_within_partial",
    "mean_int16_refuted",
    "iir_difference_equation"
   ],
   "note": "Missing: the integer mean is wrong for negative sums (refuted with a witness)."
  },
  {
   "property": "C38",
   "status": "partial",
   "theorems": [
    "bd_blocked_partial",
    "bd_no_false_alarm",
    "bd_max_seen",
    "bd_wrap_refuted"
   ],
   "note": "For every history of calls with fewer than 65536 consecutive exceeding updates; refuted beyond, where the 16-bit counter wraps. No false alarm for any history."
  },
  {
   "property": "C39",
   "status": "proved",
   "theorems": [
    "polar_wheels_polar",
    "wheels_polar_wheels",
    "rs_follows",
    "odometry_displacement",
    "wheels_polar_wheels_refuted",
    "polar_overflow_refuted",
    "gain_change_refuted"
   ],
   "note": "For every history of commands, readings and gain changes with values below 2^30 (the code's sums overflow beyond). The gain multiplication (binary64) is an arbitrary function. Findings: wheels of different parity are not found again from polar; a gain change moves the virtual encoders."
  },
  {
   "property": "C40",
   "status": "proved",
   "theorems": [
    "wheel_follows",
    "wheel_displacement",
    "wheel_half_range_refuted",
    "wheel_overflow_refuted"
   ],
   "note": "For every path of the wheel within the range of int32_t."
  },
  {
   "property": "C41",
   "status": "proved",
   "theorems": [
    "simple_modulo_range",
    "modulo_range",
    "odometry_angle"
   ],
   "note": "modulo: real angles of less than 2^31 turns. odometry_angle: IEEE doubles, every history, any cos and sin."
  },
  {
   "property": "C42",
   "status": "proved",
   "theorems": [
    "in_poly_correct",
    "in_poly_float"
   ],
   "note": "in_poly_correct: without rounding, every convex polygon and point of the plane. in_poly_float: in single precision, all integer coordinates below 4096 (the table is 3000 mm by 2000 mm)."
  },
  {
   "property": "C43",
   "status": "proved",
   "theorems": [
    "rotate_direction",
    "rotate_compose",
    "rotate_inverse",
    "rotate_rigid",
    "transform_rigid",
    "rigid_is_transform",
    "chain_acts",
    "inverse_undoes",
    "inverse_acts",
    "chain_assoc",
    "chain_identity",
    "chain_inverse",
    "transform_determines"
   ],
   "note": "Over the reals (cosf and sinf are cos and sin, no rounding)."
  },
  {
   "property": "C44",
   "status": "proved",
   "theorems": [
    "score_is_official",
    "score_bounds",
    "score_monotone",
    "score_put_green",
    "score_put_red",
    "score_independent",
    "score_events",
    "mirror_x_twice",
    "mirror_x_table",
    "mirror_a_twice",
    "mirror_twice",
    "mirror_heading",
    "mirror_turn",
    "mirror_sides"
   ],
   "note": "Score over integers for every state; mirroring over real numbers (the macros are polymorphic; binary32 rounding is not modelled)."
  },
  {
   "property": "C45",
   "status": "proved",
   "theorems": [
    "goal_zero_iff",
    "action_progress",
    "action_keeps_goals",
    "execute_as_planned",
    "execute_needs_arrival",
    "pickup_conserves",
    "pickup_moves",
    "pickup_guard_needed",
    "pickup_failure_with_effect_refuted",
    "strategy_always_plans",
    "game_story",
    "game_won"
   ],
   "note": "For every state, every outcome of movements and of the clock, with the real planner (150 nodes, 10 steps). Finding: a pickup that fails its last movement has changed the state although it reports a failure."
  },
  {
   "property": "C46",
   "status": "proved",
   "theorems": [
    "spi_transfer",
    "bits_injective",
    "spi_sample",
    "spi_exchange"
   ],
   "note": "For every byte string, every history of the lines and every behaviour of the slave (a function of the history of the lines)."
  },
  {
   "property": "C47",
   "status": "proved",
   "theorems": [
    "powered_recent_order",
    "busy_order",
    "unpowered_after_timeout",
    "servos_released",
    "order_powers",
    "order_race_refuted"
   ],
   "note": "For every interleaving of orders, statements of the handler, steps of the servo thread and ticks. Finding: the timer of the previous order may fire between the statements of the restart, which leaves the board unpowered after an order (safe side). Velocities and accelerations are finite numbers."
  },
  {
   "property": "C48",
   "status": "proved",
   "theorems": [
    "pump_pulse_value",
    "pump_monotone",
    "pump_extremes",
    "servo_set_value",
    "servo_target",
    "outputs_in_range",
    "order_effect",
    "ccer_enables",
    "actuator_channels",
    "nan_refuted",
    "servo_pulse_refuted",
    "canio_channels_refuted",
    "canio_pulse_refuted"
   ],
   "note": "For every rounding that is monotone and keeps whole numbers up to 2^24. Findings: not-a-number passes the clamps (undefined conversion); the ramp makes the applied servo pulse leave the period; the IO board scales by the timer frequency instead of the period, and enables neither of the two servo channels of timer 1."
  },
  {
   "property": "C49",
   "status": "proved",
   "theorems": [
    "proxy_delivers",
    "proxy_topics",
    "distance_names_differ",
    "actuator_names",
    "actuator_names_differ_refuted"
   ],
   "note": "For every history of registrations, announcements and messages, with the model of the bus enumerator; any topic naming and translation. Finding: the naming of the actuator proxy maps two different board names to the same topic."
  },
  {
   "property": "C50",
   "status": "partial",
   "theorems": [
    "param_remote_write",
    "param_remote_write_succeeds",
    "param_remote_read_back_partial",
    "param_remote_extremes_refuted",
    "param_remote_string_refuted",
    "param_remote_long_string_refuted"
   ],
   "note": "Proved for every 32-bit integer but the two extremes, which are refused; strings are read back truncated to 3 characters; too long strings stop on an assertion."
  },
  {
   "property": "C51",
   "status": "proved",
   "theorems": [
    "map_contents",
    "map_set_opponent",
    "map_bounding_box",
    "map_on_table",
    "map_on_table_refuted",
    "rectangle_covers",
    "around_covers",
    "around_covers_only",
    "map_avoids_opponents",
    "map_ignore_opponents_refuted",
    "map_server_contents",
    "map_server_two_opponents_refuted"
   ],
   "note": "For every history of operations on the map, on top of the model of the path planner's tables. Findings: the polygon of the ally leaves the table; the mode that ignores opponents has no effect; a wake up of the map server for another topic counts the last opponent twice and forgets the other."
  },
  {
   "property": "C52",
   "status": "proved",
   "theorems": [
    "has_ended_reason",
    "wait_for_end_reason",
    "goto_xy_premature_refuted"
   ],
   "note": "Every state, every set of flags. What each reason means is in TrajSpec.holds. Finding: a movement to a point is reported as reached if it is asked about before the first update of the trajectory manager."
  },
  {
   "property": "C53",
   "status": "partial",
   "theorems": [
    "timestamp_monotone_partial",
    "ltimestamp_monotone_partial",
    "timestamp_linearises",
    "timestamp_real_time_refuted",
    "ltimestamp_monotone_refuted"
   ],
   "note": "timestamp_get: monotone for every interrupt placement, provided no overflow interrupt is lost. Refuted: following real time (one tick lost per period), and monotonicity of ltimestamp_get after 2^32 microseconds (before, it is proved)."
  },
  {
   "property": "C54",
   "status": "proved",
   "theorems": [
    "quadramp_arrives",
    "quadramp_acceleration",
    "quadramp_speed",
    "quadramp_moves",
    "quadramp_defined",
    "quadramp_run",
    "quadramp_overshoots_refuted",
    "quadramp_stuck_refuted"
   ],
   "note": "For every sequence of targets and every limit, double as real numbers (binary64 rounding not modelled). Findings: the ramp overshoots its target (sign error in the braking term of the negative direction), so its output can leave the range of the targets; a speed below one unit per step never moves a positive output upwards."
  },
  {
   "property": "C55",
   "status": "proved",
   "theorems": [
    "buffers_conserved",
    "signals_in_order",
    "none_lost",
    "reader_drains",
    "signal_angles",
    "no_signal_before_light",
    "signal_before_rotation"
   ],
   "note": "Every interleaving of the two interrupts and of the reader's memory accesses. signal_angles: without rounding, constant speed."
  },
  {
   "property": "C56",
   "status": "proved",
   "theorems": [
    "mpr_chip_select",
    "mpr_status",
    "mpr_data",
    "mpr_measurement",
    "mpr_pascal_monotone",
    "mpr_low_pressure_refuted"
   ],
   "note": "For every answer of the two sensors and every history of the bus. Finding: a raw value below the sensor's minimum gives a negative pressure whose conversion to uint32_t is undefined."
  },
  {
   "property": "C57",
   "status": "proved",
   "theorems": [
    "goto_avoid_waypoints",
    "goto_avoid_lock",
    "goto_avoid_opponent",
    "goto_avoid_stops",
    "goto_avoid_near_refuted",
    "retry_attempts",
    "retry_defined",
    "retry_overflow_refuted"
   ],
   "note": "Every path, every sequence of end reasons. Findings: with the flag NEAR_GOAL a failed attempt does not stop the robot; unlimited retries overflow the counter after 2^31 attempts."
  },
  {
   "property": "C58",
   "status": "proved",
   "theorems": [
    "actuator_command",
    "actuator_long_name_refuted"
   ],
   "note": "For names of at most 32 characters; longer ones are refuted."
  },
  {
   "property": "C59",
   "status": "proved",
   "theorems": [
    "param_read_last",
    "param_read_unassigned"
   ],
   "note": "Every history."
  },
  {
   "property": "C60",
   "status": "proved",
   "theorems": [
    "adc_measures",
    "adc_mean_in_range"
   ],
   "note": "Buffers of 12-bit samples, more than 111 and at most 4096 conversions each."
  },
  {
   "property": "C61",
   "status": "partial",
   "theorems": [
    "crossing_correct_partial",
    "path_avoids_obstacles_partial",
    "crossing_rounding_refuted"
   ],
   "note": "Without rounding, every convex polygon, segment, map and path. Missing: in single precision it is false, refuted with a witness (a segment along the diagonal of a square obstacle is taken for free)."
  },
  {
   "property": "C62",
   "status": "proved",
   "theorems": [
    "odometry_update",
    "odometry_direction"
   ],
   "note": "Without rounding and without centrifugal correction (which the robot does not enable)."
  },
  {
   "property": "C63",
   "status": "partial",
   "theorems": [
    "angle_delta_partial",
    "angle_delta_refuted",
    "argmin_minimal",
    "clamp_value"
   ],
   "note": "Missing: the angular difference is out of range when the difference is below minus half a turn (refuted with a witness). argmin_minimal holds for IEEE floats."
  },
  {
   "property": "C64",
   "status": "partial",
   "theorems": [
    "rpm_rotation",
    "rpm_position_partial",
    "rpm_position_race_refuted"
   ],
   "note": "rpm_rotation without rounding; rpm_position_partial: IEEE range of the position. Missing: a crossing between the reading of the clock and the lock gives a negative position (refuted with a witness)."
  },
  {
   "property": "C65",
   "status": "proved",
   "theorems": [
    "command_reached",
    "hardstop_holds"
   ],
   "note": "Real-valued doubles in the trajectory manager; IEEE floats in the PID."
  },
  {
   "property": "C66",
   "status": "proved",
   "theorems": [
    "goto_xy_aims",
    "goto_xy_never_overturns",
    "goto_xy_reached"
   ],
   "note": "Real-valued doubles."
  },
  {
   "property": "C67",
   "status": "proved",
   "theorems": [
    "mode_gating",
    "regulated_error",
    "encoders_agree"
   ],
   "note": ""
  },
  {
   "property": "C68",
   "status": "proved",
   "theorems": [
    "reachable_target_valid"
   ],
   "note": ""
  },
  {
   "property": "C69",
   "status": "proved",
   "theorems": [
    "align_with_wall_ends"
   ],
   "note": ""
  },
  {
   "property": "C70",
   "status": "partial",
   "theorems": [
    "collision_partial",
    "unregulated_axis_blocks",
    "collision_again_refuted"
   ],
   "note": "Refuted with a witness: the detector goes on using the last error of an axis which is not regulated any more."
  },
  {
   "property": "C71",
   "status": "partial",
   "theorems": [
    "auto_position_partial",
    "auto_position_backward",
    "align_y_forward"
   ],
   "note": "Over the reals, with exact movements and ideal contact with the walls. Missing: it is false when the robot is calibrated backward, auto_position_backward proves where it ends instead (mirrored ordinate)."
  },
  {
   "property": "C72",
   "status": "proved",
   "theorems": [
    "correct_optimal",
    "correct_improves",
    "correct_defined",
    "range_model",
    "range_correction",
    "predict_covariance",
    "estimator_history",
    "estimator_turn",
    "estimator_at_anchor_refuted"
   ],
   "note": "Over the reals. correct_optimal: any dimension and measurement function. Finding: a range to an anchor which is exactly at the estimated position divides by zero, and the estimate is not a number for ever."
  },
  {
   "property": "C73",
   "status": "partial",
   "theorems": [
    "imu_update",
    "mag_update",
    "no_acceleration_update",
    "no_field_update",
    "filter_unit_partial",
    "correction_descends",
    "seen_is_rotation",
    "level_board_refuted",
    "nan_for_ever_refuted",
    "attitude_never_changes_refuted"
   ],
   "note": "Without rounding, every state and measurement. Missing: the norm is 1 only when the gradient is not zero; refuted in IEEE arithmetic with a witness (a filter already at the right attitude becomes NaN for ever), and the thread never calls the filter."
  },
  {
   "property": "C74",
   "status": "proved",
   "theorems": [
    "rang_packets_sent",
    "rang_packet_progress",
    "rang_early_packet_refuted"
   ],
   "note": "Any number of threads and any interleaving; the return is a possibility theorem from every reachable state (steps of the radio thread and the caller suffice). Finding: a call made before the thread has registered for the event never returns, and blocks every later call."
  },
  {
   "property": "C75",
   "status": "proved",
   "theorems": [
    "rang_round_robin",
    "rang_roles",
    "rang_timers"
   ],
   "note": "For every history. rang_roles is for parameters which do not change."
  },
  {
   "property": "C76",
   "status": "partial",
   "theorems": [
    "rang_data_published",
    "rang_range_published",
    "rang_reception_partial",
    "rang_reception_refuted"
   ],
   "note": "Arbitrary bytes. Missing: safety is false for frames of less than 11 or more than 1014 bytes and for a final message with equal times, rang_reception_refuted. The rounding of the distance to float is not modelled."
  },
  {
   "property": "C77",
   "status": "proved",
   "theorems": [
    "mcan_sends",
    "mcan_ids_distinct",
    "mcan_cycle"
   ],
   "note": "Any interleaving; critical sections and operations on the enumerator atomic. The boards which are not motors are not in the enumerator of this model."
  },
  {
   "property": "C78",
   "status": "proved",
   "theorems": [
    "mcan_delivered",
    "mcan_foreign"
   ],
   "note": "Messages are not lost on the bus. Same restrictions as C77."
  },
  {
   "property": "C79",
   "status": "proved",
   "theorems": [
    "mcan_ready_led",
    "mcan_power_led",
    "mcan_board_power",
    "mcan_power_back"
   ],
   "note": "For at least one registered board, distinct names which fit in the table."
  },
  {
   "property": "C80",
   "status": "partial",
   "theorems": [
    "mcan_board_estop",
    "mcan_estop_refuted",
    "mcan_estop_static"
   ],
   "note": "The motor boards reboot exactly on the message. Missing: it is false of the master, mcan_estop_refuted: its subscriber is a local variable, destroyed when the init function returns; mcan_estop_static shows that a static one suffices."
  },
  {
   "property": "C81",
   "status": "partial",
   "theorems": [
    "raft_patience",
    "raft_timeout",
    "raft_heartbeat",
    "raft_commit_confirmed_partial",
    "raft_confirmed",
    "raft_stale_leader_refuted"
   ],
   "note": "For every history of one node. Missing: the commit rule needs a majority, but one peer is enough (raft_minority_commit_refuted, C25). Finding: messages of a leader of an older term, which the node rejects, keep it from starting an election for ever."
  },
  {
   "property": "C82",
   "status": "partial",
   "theorems": [
    "pmsg_load_accepts",
    "pmsg_load_reports",
    "pmsg_load_refuses",
    "pmsg_load_truncated",
    "pmsg_save_reports",
    "pmsg_null_id_refuted",
    "pmsg_load_not_atomic_refuted"
   ],
   "note": "Both directions, for buffers below 4 GiB. Missing: for identifiers with null characters, or lengths which wrap in 32 bits, the loader reads outside of a buffer (pmsg_null_id_refuted, pmsg_malformed_refuted); headers of namespaces which do not fit are not reported (pmsg_short_buffer_refuted, C20). Finding: a refused configuration has already been applied up to the error."
  },
  {
   "property": "C83",
   "status": "proved",
   "theorems": [
    "stage_law",
    "circular_error_shortest",
    "cascade_law",
    "round_law",
    "voltage_law",
    "torque_demand",
    "trajectory_demand",
    "velocity_demand",
    "position_demand",
    "approach_limited",
    "pid_new_law",
    "pid_new_law_rate",
    "pid_new_proportional",
    "thermal_new",
    "thermal_from_cold",
    "velocity_history",
    "idle_until_requested",
    "startup_battery",
    "startup_low_battery",
    "startup_rest",
    "bridge_starts_off",
    "bridge_holds_duty",
    "bridge_recharge_holds_duty",
    "adc_inputs",
    "adc_current"
   ],
   "note": "The laws without rounding; idle_until_requested and startup_battery in IEEE arithmetic; the bridge and the inputs in integers."
  },
  {
   "property": "C84",
   "status": "partial",
   "theorems": [
    "pts2line_correct",
    "intersect_line_correct",
    "proj_pt_line_correct",
    "line_translate_correct",
    "inside_circle_correct",
    "intersect_segment_sound",
    "intersect_segment_complete_partial",
    "intersect_segment_refuted"
   ],
   "note": "Without rounding, every point and line of the plane. Missing: segments of which the first lies in line inside the second are answered with 0, refuted with a witness. The rounding is looked at in C42 and C61."
  },
  {
   "property": "C85",
   "status": "partial",
   "theorems": [
    "circle_intersect_correct_partial",
    "circle_intersect_one_refuted",
    "circle_intersect_same_centre",
    "circle_intersect_same_refuted",
    "circle_intersect_close_refuted",
    "norms_correct",
    "vect_resize_correct",
    "vect_resize_zero",
    "vect2_conversions_correct",
    "vect2_sums_correct",
    "vect2_lengths_correct",
    "vect2_angle_correct",
    "vect2_angle_refuted",
    "vect2_scale_pol_refuted",
    "vect2_scale_pol_in_place"
   ],
   "note": "Without rounding, for centres apart by 0.06 mm on an axis. Missing: tangent circles are answered with 2, equal circles with 1 and points that are not numbers, circles with close centres with 0 although they cross; the scaling of a polar vector does not write the angle (all refuted with witnesses). In float arithmetic the angle of two parallel vectors can be not a number."
  },
  {
   "property": "C86",
   "status": "proved",
   "theorems": [
    "odometry_unlinked",
    "odometry_start",
    "odometry_integer_pose",
    "odometry_centrifugal"
   ],
   "note": "Without rounding."
  },
  {
   "property": "C87",
   "status": "proved",
   "theorems": [
    "stays_at_rest",
    "goto_xy_rel_target",
    "goto_d_a_rel_target"
   ],
   "note": "stays_at_rest: the controllers in IEEE single precision, the ramps over the real numbers; the conditions on events are in TrajStartSpec.idle."
  },
  {
   "property": "C88",
   "status": "partial",
   "theorems": [
    "opponent_located",
    "opponent_scanned",
    "beacon_needs_parameters",
    "beacon_angle_range",
    "published_position_refuted",
    "opponent_displaced"
   ],
   "note": "Without rounding; opponent_scanned shows that every opponent gives such a message. Missing: the coordinates published with the signal are wrong (metres added to millimetres, published_position_refuted), its readers recompute them; they use the pose of the robot at the time of the reading (opponent_displaced)."
  },
  {
   "property": "C89",
   "status": "partial",
   "theorems": [
    "crosses_to_point",
    "crosses_polar_refuted"
   ],
   "note": "Without rounding. Proved for movements to a point; missing: movements given as a distance or an angle, for which it is false (steps taken for mm, degrees for radians), refuted with a witness."
  },
  {
   "property": "C90",
   "status": "partial",
   "theorems": [
    "conversions_inverse",
    "conversions_physical",
    "aligning_mode",
    "game_mode",
    "modes_set",
    "configured_limits",
    "aligning_speed_refuted"
   ],
   "note": "Without rounding. Missing: the speeds of the aligning mode hold only for a movement ordered before the next control round, refuted for every configuration with another speed."
  },
  {
   "property": "C91",
   "status": "partial",
   "theorems": [
    "encode_in_bounds_partial",
    "encode_message_partial",
    "encode_succeeds_partial",
    "encode_refused",
    "inject_effect",
    "inject_unknown",
    "inject_message",
    "encode_inject",
    "encode_scratch_refuted",
    "encode_scratch_overread",
    "inject_overread_refuted",
    "inject_type_refuted",
    "inject_unfit_refuted"
   ],
   "note": "The codec of nanopb is a premise (nanopb is not in /repo). Missing: the encoder reads past the topic's buffer whenever the scratch buffer is larger than the topic (encode_scratch_overread), so the positive theorems assume a scratch buffer of the topic's size at most; the receiver trusts the sizes in the message and does not look at the type number (refuted)."
  },
  {
   "property": "C92",
   "status": "proved",
   "theorems": [
    "udp_in_order",
    "udp_no_leak",
    "udp_dropped",
    "udp_accepted",
    "udp_drains"
   ],
   "note": "The pool, the mailbox and the network stack are modelled by their contracts (ChibiOS, lwIP)."
  },
  {
   "property": "C93",
   "status": "partial",
   "theorems": [
    "wheel_calib_balances",
    "wheel_calib_residual",
    "reading_error",
    "track_calib_finds_track_partial",
    "track_calib_finds_track_refuted",
    "track_calib_zero_refuted",
    "wheel_calib_zero_refuted",
    "wheel_calib_negative_refuted",
    "calib_jump_refuted"
   ],
   "note": "Positive theorems without rounding, over a physical model of the robot against a wall. Missing: track_calib is wrong when the error over all the turns exceeds half a turn (refuted: ten turns, a tenth); a number of rounds of 0 gives values that are not finite, a negative one does not end; new gains make the odometry jump (refuted)."
  },
  {
   "property": "C94",
   "status": "partial",
   "theorems": [
    "gyro_value",
    "acc_value",
    "temp_value",
    "mag_value",
    "gyro_torn_refuted",
    "imu_configured",
    "imu_never_stalls",
    "imu_no_duplicate",
    "temperature_rate",
    "imu_timestamp_wraps",
    "imu_loses_refuted"
   ],
   "note": "Values without rounding and for registers that do not change during a reading. Missing: a measurement that arrives between the two transfers of an axis gives a torn value, and one that arrives while the thread works is lost (both refuted with witnesses)."
  },
  {
   "property": "C95",
   "status": "partial",
   "theorems": [
    "region_as_asked_partial",
    "region_unaligned",
    "region_as_asked_refuted",
    "region_too_small",
    "null_always_faults",
    "ram_not_executable",
    "rest_default",
    "null_unprotected_refuted"
   ],
   "note": "The unit is the one of the ARMv7-M manual. Missing: an address that is not a multiple of the length is silently rounded down (refuted; region_unaligned says what is covered). The null protection holds as long as region 7 is not given again."
  },
  {
   "property": "C96",
   "status": "partial",
   "theorems": [
    "lamp_follows_orders",
    "lamp_missing_ignored",
    "lamp_on_off_refuted",
    "lamp_unread_refuted",
    "handles_once",
    "input_reads",
    "input_missing",
    "starter_exact",
    "starter_lamp",
    "starter_missing_refuted",
    "color_never_refuted"
   ],
   "note": "Missing: full brightness is the highest less one, so a lamp with a highest brightness of 1 is never lit, and -1 is written if it cannot be read; the buttons are not implemented, so choosing a colour never ends; without a starter input the match never starts (all refuted)."
  },
  {
   "property": "C97",
   "status": "partial",
   "theorems": [
    "menu_navigation_partial",
    "gui_navigation",
    "menu_cycle_refuted",
    "menu_timer_refuted"
   ],
   "note": "Proved for trees of pages, hence for the menus of the robot (gui_navigation). Missing: pages that lead back to themselves overwrite the history, and the timer thread may use widgets while they are destroyed (both refuted with witnesses)."
  },
  {
   "property": "C98",
   "status": "proved",
   "theorems": [
    "print_reads_back",
    "print_integer",
    "print_injection_refuted"
   ],
   "note": "print_injection_refuted shows that the condition on strings is needed: they are printed without escapes."
  },
  {
   "property": "C99",
   "status": "partial",
   "theorems": [
    "config_tree_is_gets",
    "config_subtree_is_gets",
    "config_tree_keeps_values",
    "config_tree_loses_changes",
    "config_tree_readonly_refuted",
    "config_tree_subtree_refuted",
    "config_tree_long_string_refuted",
    "config_set_asked",
    "config_set_senseless",
    "config_set_unknown",
    "config_set_usage",
    "config_set_garbage_refuted",
    "config_set_long_string_refuted"
   ],
   "note": "Missing: showing the parameters marks them as read, so a controller misses a change; with a path the own parameters of the namespace are not shown; strings are cut at 49 characters; numbers followed by garbage are accepted; too long strings stop the robot and too large numbers are undefined (all refuted). The layout of the text of config_tree is modelled but only its effect is specified."
  },
  {
   "property": "C100",
   "status": "proved",
   "theorems": [
    "ygen_exact",
    "ygen_no_more",
    "ygen_agree",
    "ygen_empty_refuted"
   ],
   "note": "ygen_empty_refuted shows that the condition on empty dictionaries is needed."
  },
  {
   "property": "C101",
   "status": "partial",
   "theorems": [
    "config_lookup",
    "config_load",
    "config_transparent",
    "config_unknown",
    "config_changes_refuted",
    "config_long_string_refuted",
    "config_wide_integer_refuted"
   ],
   "note": "Missing: the public namespaces never report a change (config_transparent, config_changes_refuted), because they are copies made by memcpy. The document loaded is that of the section master; the sections of the actuators are loaded in namespaces that the motor drivers declare (C20 for one document on any tree). Strings of 16 bytes or more and integers of more than 32 bits are accepted by the generator but are not loaded (refuted)."
  },
  {
   "property": "C102",
   "status": "partial",
   "theorems": [
    "strm_exact",
    "strm_write",
    "strm_off",
    "strm_rate_refuted"
   ],
   "note": "Missing: turns are counted from the last write of any frequency of the streams, not of the own one: a write to one stream, even of the same value, restarts all (strm_rate_refuted: a stream at 50 Hz never sends while another frequency is written before each turn)."
  },
  {
   "property": "C103",
   "status": "partial",
   "theorems": [
    "tpub_safe",
    "tpub_exact",
    "tpub_count",
    "tpub_off",
    "tpub_turned_off",
    "tpub_delivery",
    "tpub_others_refuted",
    "tpub_lost_refuted",
    "tpub_twice_refuted",
    "tpub_echo_refuted"
   ],
   "note": "Missing: \"exactly once\". Delivery is proved for positions and data packets when the watcher is waiting at the publication and nothing else is published until the broadcast (tpub_delivery). Otherwise a publication can be lost (tpub_lost_refuted) or broadcast twice (tpub_twice_refuted); IMU, attitude and ranges are never broadcast (tpub_others_refuted). A received position is broadcast again with an unset time (tpub_echo_refuted). Data packets are shorter than 1024 bytes."
  },
  {
   "property": "C104",
   "status": "partial",
   "theorems": [
    "tof_start",
    "tof_color_start",
    "tof_exact_partial",
    "tof_distance_only",
    "tof_lost_start_refuted",
    "tof_garbage_refuted",
    "tof_garbage_color_refuted",
    "tof_stale_refuted"
   ],
   "note": "Missing: the claim under failed transfers, which is false. Without failures the start and the messages of any number of turns are exact (tof_start, tof_color_start, tof_exact_partial, tof_distance_only). One lost order to measure blocks the board for ever (tof_lost_start_refuted); a failed read is broadcast as a valid distance or color (tof_garbage_refuted, tof_garbage_color_refuted); an old distance can be sent as new (tof_stale_refuted)."
  },
  {
   "property": "C105",
   "status": "partial",
   "theorems": [
    "curv_line",
    "curv_line_safe",
    "curv_line_straight",
    "curv_line_returns",
    "curv_line_no_end",
    "curv_line_degenerate_refuted"
   ],
   "note": "Missing: lines given by twice the same point, for which the claim is false (curv_line_degenerate_refuted), and windows with a zero start angle, for which the code divides by zero. Numbers are reals: rounding is not modelled."
  },
  {
   "property": "C106",
   "status": "partial",
   "theorems": [
    "curv_circle_speeds",
    "curv_circle_follow_partial",
    "curv_circle_correction",
    "curv_circle_end",
    "curv_circle_flags_refuted"
   ],
   "note": "Missing: the flags, which are ignored, so that the claim is false with the center on the right (curv_circle_flags_refuted). Where the center is not on the side of the robot, curv_circle_correction gives the corrected radius."
  },
  {
   "property": "C107",
   "status": "proved",
   "theorems": [
    "curv_turn_accepted",
    "curv_turn_refused",
    "curv_turn_path",
    "curv_turn_speeds",
    "curv_turn_begins"
   ],
   "note": "For turns by less than 180 degrees whose arc has the direction of the turn. The clothoid is the series of the Fresnel integrals to four terms, as in the code; numbers are reals."
  },
  {
   "property": "C108",
   "status": "partial",
   "theorems": [
    "protection_of_calls",
    "setup_atomic_partial",
    "setup_between",
    "move_atomic_refuted"
   ],
   "note": "From a unit with all regions disabled, as at reset. Missing, because false: moving a region that is in use exposes the new base with the old length (move_atomic_refuted); setting up an unused region is atomic (setup_atomic_partial)."
  },
  {
   "property": "C109",
   "status": "partial",
   "theorems": [
    "hitl_motor",
    "hitl_servo",
    "hitl_actuator_partial",
    "hitl_feedback_partial",
    "hitl_actuator_refuted",
    "hitl_force_partial",
    "hitl_force_refuted",
    "hitl_cups_mirrored",
    "hitl_cups_on_table",
    "hitl_borders_refuted"
   ],
   "note": "Missing, because false: forces have no upper limit (hitl_force_refuted), the actuator outputs are read before the first command although nothing wrote them (hitl_actuator_refuted; with a command first everything holds, for servo commands up to 40 and pumps up to 1), one border is at 1850 m (hitl_borders_refuted)."
  },
  {
   "property": "C110",
   "status": "partial",
   "theorems": [
    "hitl_odometry",
    "hitl_heading",
    "hitl_direction",
    "hitl_heading_refuted",
    "hitl_safe"
   ],
   "note": "In real arithmetic. The distance is proved. Missing, because false: the direction turns by 212/174 of the true angle (hitl_heading, hitl_direction), wrong for every turn of a hundredth of a radian or more (hitl_heading_refuted)."
  },
  {
   "property": "C111",
   "status": "partial",
   "theorems": [
    "hitl_beacon_far",
    "hitl_beacon_partial",
    "hitl_beacon_refuted"
   ],
   "note": "In real arithmetic, from 10 cm on, for the pose of the simulation. Missing, because false: the opponent is put 38.9 to 41 mm from where it is (hitl_beacon_refuted)."
  },
  {
   "property": "C112",
   "status": "partial",
   "theorems": [
    "lim_window",
    "lim_conforming",
    "lim_per_second_refuted",
    "lim_one_per_second_refuted",
    "lim_clock_set_back_refuted",
    "lim_broadcast_prefix",
    "lim_broadcast_partial",
    "lim_long_packet_refuted"
   ],
   "note": "In real arithmetic. Proved: at most rate * (1 + T) packets in any time T (lim_window), and the forwarding of packets of less than 1024 bytes at more than one packet per second with a clock that does not go back. Missing, because false: at most rate in each second (up to 2 * rate - 1, lim_per_second_refuted); a rate of one lets nothing through (lim_one_per_second_refuted); a clock set back (lim_clock_set_back_refuted); packets of 1024 to 1500 bytes (lim_long_packet_refuted)."
  },
  {
   "property": "C113",
   "status": "partial",
   "theorems": [
    "upl_parameters",
    "upl_parameters_once",
    "upl_paths_distinct",
    "upl_parameters_slash_refuted"
   ],
   "note": "Proved for keys without slash; with one, two values can have the same name (upl_parameters_slash_refuted)."
  },
  {
   "property": "C114",
   "status": "partial",
   "theorems": [
    "upl_applied",
    "upl_known",
    "upl_other_boards",
    "upl_answered",
    "upl_completes",
    "upl_integer_for_scalar_refuted",
    "upl_integer_for_undefined_refuted",
    "upl_lost_answer_refuted",
    "upl_unsaved_refuted",
    "upl_text_refuted"
   ],
   "note": "Proved for values of the type of their parameter (integers but the two extremes), with all else unchanged; it finishes if no message is lost. Missing, because false: values of another type are silently ignored, a lost message makes it wait for ever, the end does not mean saved, a text stops it half-way (the refuted theorems)."
  },
  {
   "property": "C115",
   "status": "partial",
   "theorems": [
    "stud_fetch_complete",
    "stud_fetch_partial",
    "stud_hidden_refuted",
    "stud_tree",
    "stud_path_name",
    "stud_clash_refuted"
   ],
   "note": "Proved when every parameter has a value of a type that can be sent and no answer is lost; in general a beginning of the list is proved. Missing, because false: a parameter without a value hides those after it (stud_hidden_refuted), a lost answer too; a parameter named like a namespace beside it ends the fetching (stud_clash_refuted). Texts show their first three characters (C50)."
  },
  {
   "property": "C116",
   "status": "partial",
   "theorems": [
    "stud_edit_number_partial",
    "stud_edit_not_a_number",
    "stud_edit_bool_refuted",
    "stud_edit_text_refuted"
   ],
   "note": "Proved for integers (but the two extremes) and reals. Missing, because false: \"False\" sets a boolean to true (stud_edit_bool_refuted); a text too long stops the board (stud_edit_text_refuted)."
  },
  {
   "property": "C117",
   "status": "partial",
   "theorems": [
    "csend_sound",
    "csend_complete_partial",
    "csend_once",
    "csend_one_value",
    "csend_small",
    "csend_driver_first",
    "csend_driver_once",
    "csend_number_keys",
    "csend_sends",
    "csend_collision_refuted",
    "csend_no_actuators_refuted"
   ],
   "note": "Proved for every file, completeness for files in which no dictionary has two keys with the same text. Missing, because false: 1 and \"1\" in one dictionary lose a value (csend_collision_refuted); an empty entry \"actuator:\" stops the tool before anything is sent (csend_no_actuators_refuted)."
  }
 ]
}