{"id": "C01", "title": "CRC checksums can be computed incrementally", "statement": "crc16(init, a ++ b) equals crc16(crc16(init,a), b) and crc32(init, a ++ b) equals crc32(crc32(init,a), b); results always fit 16 resp. 32 bits; the checksum is affine over GF(2) in (initial value, message).", "quantifier": "every initial value and every pair of byte strings of any length", "why_tests_cant": "the space of byte strings is unbounded; tests check a few vectors", "anchors": ["lib/crc/crc16.c:crc16", "lib/crc/crc32.c:crc32"]}
{"id": "C02", "title": "CRC detects corrupted messages", "statement": "If two messages of the same length differ only in a single bit, or only inside a window (burst) not longer than the CRC width, their checksums (same initial value) differ. For a fixed message, different initial values give different checksums.", "quantifier": "every message, initial value, burst position and burst content", "why_tests_cant": "exponentially many error patterns and unbounded lengths", "anchors": ["lib/crc/crc16.c:crc16", "lib/crc/crc32.c:crc32"]}
{"id": "C03", "title": "Durations between wrapping timestamps are exact", "statement": "timestamp_duration_us(t1,t2) equals the true elapsed microseconds whenever the true elapsed time is in [-2^31, 2^31), whatever the counter values and number of counter wraps before.", "quantifier": "every pair of instants less than 2^31 us apart", "why_tests_cant": "wrap-around happens once every 71 minutes; 2^64 pairs", "anchors": ["lib/timestamp/timestamp.c:timestamp_duration_us,timestamp_duration_s", "lib/timestamp/include/timestamp/timestamp.h"]}
{"id": "C04", "title": "Trace buffer keeps exactly the most recent events in order", "statement": "After any sequence of trace calls, printing lists, oldest first, exactly the most recent TRACE_BUFFER_SIZE events recorded (all of them if fewer), each with its point id and 22-bit truncated timestamp, except those before the last clear; a disabled trace records nothing.", "quantifier": "every history of trace/clear/enable/disable/print calls", "why_tests_cant": "the ring wraps only after 200 events and has an off-by-one at every boundary; histories are unbounded", "anchors": ["lib/trace/trace.c:trace_init,_trace_point,trace_print,trace_clear", "lib/trace/include/trace/trace.h"]}
{"id": "C05", "title": "LRU cache returns the right entry and evicts the least recently used one", "statement": "After any sequence of allocate/get calls on a cache of capacity n >= 2, get(k) returns an entry iff k is among the keys currently retained, the entry returned is the one most recently allocated for k, at most n entries are retained, and an allocation in a full cache reuses the entry whose last use is oldest. No entry is ever lost or shared by two keys.", "quantifier": "every capacity and every history of operations", "why_tests_cant": "linked-list surgery depends on the whole operation history", "anchors": ["uwb-beacon-firmware/src/lru_cache.c:cache_init,cache_entry_allocate,cache_entry_get"]}
{"id": "C06", "title": "Anchor position lookups return the last announced position", "statement": "Looking up an anchor returns the most recent position message received for that anchor address, provided that fewer than 5 other anchors have been heard or looked up since; an anchor never heard of is reported as unknown.", "quantifier": "every sequence of anchor position messages and lookups", "why_tests_cant": "depends on eviction order over arbitrary histories", "anchors": ["uwb-beacon-firmware/src/anchor_position_cache.c", "uwb-beacon-firmware/src/lru_cache.c"]}
{"id": "C07", "title": "UWB frames survive encapsulation", "statement": "decapsulating an encapsulated frame gives back sequence number, PAN, source, destination and payload; the encoded frame is exactly 11 bytes longer than the payload and all other bytes are written inside it.", "quantifier": "every payload, address, PAN id and sequence number in range", "why_tests_cant": "payload space is unbounded", "anchors": ["uwb-beacon-firmware/src/uwb_protocol.c:uwb_mac_encapsulate_frame,uwb_mac_decapsulate_frame"]}
{"id": "C08", "title": "40-bit radio timestamps: encoding and wrap-around difference", "statement": "Reading back a written 40-bit timestamp gives it back; the difference of two 40-bit counter values is the elapsed tick count even if the counter wrapped once between the two.", "quantifier": "every pair of 40-bit counter values", "why_tests_cant": "2^80 pairs; the wrap path is hit once every 17 s", "anchors": ["uwb-beacon-firmware/src/uwb_protocol.c:write_40bit_int,read_40bit_int,substract_40bit_int"]}
{"id": "C09", "title": "Two-way ranging computes the time of flight", "statement": "In a full advertisement/reply/finalization exchange between two nodes with ideal clocks, the time of flight reported equals the true propagation delay, for every clock offset between the nodes, as long as the involved intervals stay in range; the reported value is symmetric in the role of the two nodes.", "quantifier": "every clock offset, reply delay and propagation delay", "why_tests_cant": "three-message protocol over two unsynchronised wrapping 40-bit clocks", "anchors": ["uwb-beacon-firmware/src/uwb_protocol.c:uwb_process_incoming_frame,uwb_send_measurement_advertisement"]}
{"id": "C10", "title": "UWB nodes ignore frames that are not for them", "statement": "A frame whose PAN id differs, or whose destination is neither the node's address nor broadcast, changes no state, sends nothing and calls no callback; anchors never answer advertisements.", "quantifier": "every received frame and every handler state", "why_tests_cant": "frame space is unbounded", "anchors": ["uwb-beacon-firmware/src/uwb_protocol.c:uwb_process_incoming_frame"]}
{"id": "C11", "title": "CAN bus enumeration finds the right driver", "statement": "After any sequence of node registrations and CAN-id announcements, looking up a registered name gives the CAN id announced first for that name (or 'not set' if none), looking up a CAN id gives the driver registered for the name which announced that id, an unknown name/id is reported as such, capacity is never exceeded.", "quantifier": "every history of registrations and announcements", "why_tests_cant": "binary search in two sorted arrays mutated by every operation", "anchors": ["master-firmware/src/can/bus_enumerator.c"]}
{"id": "C12", "title": "Motor manager keeps one driver per id", "statement": "Creating a driver returns a fresh driver, or NULL if the id is known or the manager is full; setpoint calls only touch the driver registered under that exact id.", "quantifier": "every sequence of creations and setpoints", "why_tests_cant": "unbounded histories", "anchors": ["master-firmware/src/can/motor_manager.c", "master-firmware/src/can/motor_driver.c"]}
{"id": "C13", "title": "Motor driver stream flags report fresh data exactly once", "statement": "A stream reports 'changed' iff a value was received since the last read of that stream, the value read is the last one received, and reading a stream does not affect other streams; switching setpoint type replaces the control mode and setpoint atomically.", "quantifier": "every history of stream updates and reads", "why_tests_cant": "unbounded interleavings of 10 streams", "anchors": ["master-firmware/src/can/motor_driver.c"]}
{"id": "C14", "title": "MessagePack values round-trip", "statement": "For every value written by the codec's writers (nil, booleans, signed/unsigned integers of all widths, float/double bit patterns, strings, binaries, arrays/map headers, ext), the corresponding reader returns exactly the same value and consumes exactly the bytes written; integer writers use the shortest encoding.", "quantifier": "every value of every type, any trailing bytes", "why_tests_cant": "2^64 integers, unbounded strings", "anchors": ["lib/cmp/cmp.c"]}
{"id": "C15", "title": "MessagePack memory buffers are never accessed out of bounds", "statement": "Reads and writes through a memory-backed context never touch a byte outside [0,size), fail without moving data when the request does not fit, and advance the position by exactly the request size otherwise.", "quantifier": "every sequence of reads/writes of any length, any buffer size", "why_tests_cant": "needs all sizes and positions, including near SIZE_MAX", "anchors": ["lib/cmp_mem_access/cmp_mem_access.c"]}
{"id": "C16", "title": "MessagePack object reader is total and inverse to the object writer", "statement": "On every input the generic object reader either fails with an error code or returns an object; objects produced by the object writer are read back identically; every byte value is a legal marker except 0xC1.", "quantifier": "every byte string / every object", "why_tests_cant": "input space is unbounded", "anchors": ["lib/cmp/cmp.c:cmp_read_object,cmp_write_object,read_type_marker"]}
{"id": "C17", "title": "Parameter change notification is exact", "statement": "After any history of declare/set/get calls, a namespace reports 'contains changed' iff some parameter in its subtree was set since its last get; the changed counter equals the number of such parameters.", "quantifier": "every tree shape and history of operations", "why_tests_cant": "counters are maintained incrementally along ancestor chains", "anchors": ["lib/parameter/parameter.c:_parameter_changed_set,_parameter_changed_clear,parameter_namespace_contains_changed"]}
{"id": "C18", "title": "Parameter lookup by path", "statement": "parameter_find(ns, path) returns the parameter declared under that path (the most recently declared one on a clash), and NULL if and only if no such parameter exists; namespace lookup likewise.", "quantifier": "every tree and every path string", "why_tests_cant": "unbounded trees and strings, ids that are prefixes of each other, stray slashes", "anchors": ["lib/parameter/parameter.c:parameter_find,parameter_namespace_find,parameter_declare,parameter_namespace_declare"]}
{"id": "C19", "title": "Parameter enumeration visits every parameter exactly once", "statement": "Listing parameters by index 0,1,2,... yields every parameter of the tree exactly once and then stops; the full name built for a parameter is resolved back to that parameter.", "quantifier": "every parameter tree", "why_tests_cant": "unbounded trees", "anchors": ["uwb-beacon-firmware/src/uavcan/parameter_enumeration.cpp", "motor-control-firmware/src/uavcan/parameter_server.cpp"]}
{"id": "C20", "title": "Saved parameters are restored", "statement": "Serialising a namespace to MessagePack and loading the result into a tree of the same shape gives every defined parameter its value back and leaves undefined ones untouched.", "quantifier": "every tree and all values", "why_tests_cant": "unbounded trees and 2^32 values per leaf", "anchors": ["lib/parameter/parameter_msgpack.c"]}
{"id": "C21", "title": "Saving the configuration is crash-safe", "statement": "If power is lost at any point while a configuration block is written to flash, a later load returns either the last completely saved configuration or the new one, never a mix, barring a checksum collision.", "quantifier": "every crash point, every old and new configuration", "why_tests_cant": "one crash point per byte written and arbitrary contents", "anchors": ["lib/parameter_flash_storage/parameter_flash_storage.c"]}
{"id": "C22", "title": "The most recently saved configuration is the one loaded", "statement": "After any sequence of successful saves, loading returns the last one; saves never write outside the storage area; when the area is full it is erased and reused.", "quantifier": "every sequence of configuration sizes and contents", "why_tests_cant": "block packing depends on the whole history of sizes", "anchors": ["lib/parameter_flash_storage/parameter_flash_storage.c:parameter_flash_storage_save,parameter_flash_storage_block_find_used,parameter_flash_storage_block_find_last_used"]}
{"id": "C23", "title": "Message bus readers see the last message published", "statement": "Reading a topic returns the most recently published message of that topic (false if none); a publish larger than the topic buffer is refused and changes nothing; publishing on a topic does not affect other topics; looking up a name gives the topic advertised under it; watchers of the topic's groups are notified.", "quantifier": "every history of advertise/publish/read on any set of topics", "why_tests_cant": "unbounded histories", "anchors": ["lib/msgbus/messagebus.c"]}
{"id": "C24", "title": "Leader election: one vote per term", "statement": "Terms never decrease, and a node never grants its vote to two different candidates in the same term.", "quantifier": "every sequence of messages and timeouts received by a node", "why_tests_cant": "asynchronous message orders", "anchors": ["lib/raft/raft.hpp:State::process,tick,start_election"]}
{"id": "C25", "title": "Leader election safety and log safety", "statement": "At most one leader is elected per term; committed entries are never lost, reordered or re-applied.", "quantifier": "every cluster execution with message loss, duplication and reordering", "why_tests_cant": "exponentially many schedules", "anchors": ["lib/raft/raft.hpp"]}
{"id": "C26", "title": "Shortest path on unit graphs", "statement": "The path search returns the number of edges of a shortest path between two nodes and the links it leaves describe a path of that length.", "quantifier": "every finite graph", "why_tests_cant": "unbounded graphs", "anchors": ["lib/dijkstra/include/dijkstra/dijkstra.hpp"]}
{"id": "C27", "title": "Obstacle avoidance path is valid and optimal in its visibility graph", "statement": "The path returned ends at the requested destination, consecutive points are joined by a visibility ray, and no other sequence of rays has lower cost; if no path exists an error is reported; the search terminates.", "quantifier": "every set of rays and weights", "why_tests_cant": "unbounded graphs", "anchors": ["lib/aversive/obstacle_avoidance/obstacle_avoidance.c:dijkstra,get_path,oa_process"]}
{"id": "C28", "title": "Obstacle storage never overflows and polygons do not overlap", "statement": "Declaring polygons either fails or returns a polygon whose points are disjoint from those of all other polygons and from start/end, inside the point table; resetting gives everything back.", "quantifier": "every sequence of polygon declarations", "why_tests_cant": "unbounded histories", "anchors": ["lib/aversive/obstacle_avoidance/obstacle_avoidance.c:oa_init,oa_new_poly,oa_poly_set_point"]}
{"id": "C29", "title": "Plans returned by the planner are executable and reach the goal", "statement": "When the planner reports a plan of n steps, the returned actions can be run one after the other from the start state, each one's precondition holding, and the goal holds after the last; n never exceeds the caller's buffer.", "quantifier": "every world model (states, actions, goal), heuristic and node budget", "why_tests_cant": "unbounded search spaces and pointer-recycling node pools", "anchors": ["lib/goap/include/goap/goap.hpp", "lib/goap/include/goap/goap_internals.hpp"]}
{"id": "C30", "title": "Planner node pool is neither leaked nor shared", "statement": "During a search every node of the pool is in exactly one of the free, open and closed lists.", "quantifier": "every search history", "why_tests_cant": "linked-list surgery over arbitrary histories", "anchors": ["lib/goap/include/goap/goap_internals.hpp"]}
{"id": "C31", "title": "Motor encoder feedback accumulates every tick", "statement": "For a bounded axis the accumulated position equals the true displacement in ticks (times the gear factor) as long as the encoder moves less than 2^15 ticks between samples; for a periodic axis the accumulator stays in [0, period) and is congruent to the true displacement.", "quantifier": "every sequence of encoder readings", "why_tests_cant": "unbounded histories with counter wraps", "anchors": ["motor-control-firmware/src/feedback.c"]}
{"id": "C32", "title": "Feedback stream rate divider", "statement": "A stream with prescaler n >= 1 sends exactly every n-th update; a disabled one never sends.", "quantifier": "every prescaler and number of updates", "why_tests_cant": "65535 prescalers, unbounded runs", "anchors": ["motor-control-firmware/src/stream.c"]}
{"id": "C33", "title": "PID integral term and output are bounded", "statement": "The integrator never exceeds its limit in absolute value after any error history, and after a reset the controller output is a function of the subsequent errors only.", "quantifier": "every gain, limit and error history", "why_tests_cant": "unbounded real-valued histories", "anchors": ["lib/pid/pid.c"]}
{"id": "C34", "title": "Motor controller never exceeds its configured limits", "statement": "Velocity, torque and current setpoints passed to the inner loops never exceed the configured limits, and the PWM duty cycle applied never exceeds 95 %; a stale setpoint or a low battery gives 0 V.", "quantifier": "every state, parameter set and input", "why_tests_cant": "real-valued inputs, all mode combinations", "anchors": ["motor-control-firmware/src/pid_cascade.c", "motor-control-firmware/src/control.c", "motor-control-firmware/src/motor_pwm.c"]}
{"id": "C35", "title": "Setpoint interpolation respects speed and acceleration limits", "statement": "In velocity mode the interpolated velocity changes by at most acc_limit*dt per step, never overshoots the target and reaches it in finitely many steps; in position mode the planned speed is never above vel_limit.", "quantifier": "every target, limit, step size and history", "why_tests_cant": "unbounded real-valued histories", "anchors": ["motor-control-firmware/src/setpoint.c"]}
{"id": "C36", "title": "Motor thermal protection", "statement": "The thermal model temperature stays within the range given by its inputs, and the current limit is unrestricted below the threshold and bounded by the equilibrium current above it.", "quantifier": "every current history", "why_tests_cant": "real-valued histories", "anchors": ["motor-control-firmware/src/motor_protection.c"]}
{"id": "C37", "title": "Limiting and averaging filters", "statement": "limit() returns a value within [min,max], unchanged inside; limit_sym likewise; the mean of samples lies between the smallest and largest sample.", "quantifier": "every sample and window", "why_tests_cant": "unbounded inputs", "anchors": ["lib/filter/basic.c", "lib/filter/iir.c"]}
{"id": "C38", "title": "Blocking detection fires after a sustained error only", "statement": "Blocking is reported iff the error exceeded its threshold during at least the configured number of consecutive updates up to now.", "quantifier": "every error history and threshold", "why_tests_cant": "unbounded histories, 16-bit counter wrap", "anchors": ["lib/aversive/blocking_detection_manager/blocking_detection_manager.cpp"]}
{"id": "C39", "title": "Wheel and polar coordinates are consistent", "statement": "Converting polar to wheel commands and back is exact; the virtual angle and distance encoders always equal the polar transform of the wheel displacement since start.", "quantifier": "every wheel encoder history", "why_tests_cant": "unbounded histories", "anchors": ["lib/aversive/robot_system/robot_system.c", "lib/aversive/robot_system/angle_distance.c"]}
{"id": "C40", "title": "Wheel encoders count through 16-bit timer wraps", "statement": "The 32-bit wheel counter follows the true wheel displacement if less than 2^15 ticks occur between two readings.", "quantifier": "every sequence of readings", "why_tests_cant": "unbounded histories", "anchors": ["wheel-encoder-firmware/src/encoder.c:encoder_tick_diff,encoder_get_left"]}
{"id": "C41", "title": "Angles are normalised", "statement": "Angle normalisation returns an equivalent angle within [-pi, pi], and the odometry angle stays in that range after any history of displacements of at most one turn each.", "quantifier": "every real angle and displacement history", "why_tests_cant": "real-valued inputs", "anchors": ["lib/aversive/trajectory_manager/trajectory_manager_utils.cpp:modulo_2pi,simple_modulo_2pi", "lib/aversive/position_manager/position_manager.cpp"]}
{"id": "C42", "title": "Point-in-polygon test is right on convex obstacles", "statement": "For a convex counter-clockwise polygon the test says inside iff the point is strictly inside, and says on the border for border points.", "quantifier": "every convex polygon and point", "why_tests_cant": "real-valued inputs", "anchors": ["lib/aversive/math/geometry/polygon.c:is_in_poly"]}
{"id": "C43", "title": "Planar rotations and rigid motions form a group", "statement": "Inverse, composition and action on points of the SO(2)/SE(2) helpers satisfy the group laws and preserve distances.", "quantifier": "every rotation/translation", "why_tests_cant": "real-valued inputs", "anchors": ["master-firmware/src/math/lie_groups.c"]}
{"id": "C44", "title": "Match score and colour mirroring", "statement": "Mirroring a coordinate twice for a colour is the identity and stays on the table; the score is non-negative and never decreases when a windsock is raised or a glass is put in the port; score components do not depend on unrelated state.", "quantifier": "every strategy state", "why_tests_cant": "exponentially many states", "anchors": ["master-firmware/src/strategy/score.cpp", "master-firmware/src/strategy/color.h"]}
{"id": "C45", "title": "Strategy actions and goals", "statement": "Every goal of the match is reachable: each goal's distance is zero iff reached, and an action whose precondition holds strictly decreases the distance it is meant to reduce unless that goal is already reached, without undoing other goals; the glass pickup conserves the glasses. Over a whole match, whatever the movements and the clock do, the loop never runs an action that cannot run, nothing achieved is undone, no glass is lost, the published score never decreases and the flags are up at the end; if all movements succeed during one round all goals are reached.", "quantifier": "every strategy state", "why_tests_cant": "exponentially many states", "anchors": ["master-firmware/src/strategy/actions_goap.cpp", "master-firmware/src/strategy/actions_impl.cpp", "master-firmware/src/strategy/goals.cpp", "master-firmware/src/strategy.cpp strategy_order_play_game"]}
{"id": "C46", "title": "Software SPI exchanges bytes faithfully", "statement": "A transfer emits exactly the bits of the bytes sent, MSB first, one per clock pulse, and returns the byte formed by the bits sampled.", "quantifier": "every byte string and every slave behaviour", "why_tests_cant": "2^8n inputs", "anchors": ["lib/softspi/softspi.c"]}
{"id": "C47", "title": "Actuators are unpowered 500 ms after the last order", "statement": "The actuator board output is powered only if an order was received less than SAFETY_TIMEOUT ago, and when motion is not allowed the servo pulse applied is 0.", "quantifier": "every timed sequence of orders and timer events", "why_tests_cant": "unbounded schedules", "anchors": ["actuator-firmware/src/safety.c", "actuator-firmware/src/servo.c"]}
{"id": "C48", "title": "Actuator duty cycles are clamped", "statement": "For every requested value the pulse of a pump, and the target pulse given to the ramp of a servomotor, is the clamped fraction of the PWM period, and setting one channel leaves the other ones unchanged; exactly the channels wired to actuators are enabled.", "quantifier": "every requested position and channel", "why_tests_cant": "real-valued inputs", "anchors": ["actuator-firmware/src/servo.c:duty_cycle,servo_set", "actuator-firmware/src/pump.c:pump_set_pwm"]}
{"id": "C49", "title": "UAVCAN to message bus bridge routes by sender", "statement": "A message from a node registered under a name is published on that name's topic and no other; messages from unknown nodes are dropped; topics are created once per name.", "quantifier": "every sequence of messages and registrations", "why_tests_cant": "unbounded histories", "anchors": ["master-firmware/src/can/UavcanToMessagebusProxy.hpp"]}
{"id": "C50", "title": "Remote parameter writes are type- and range-checked", "statement": "A remote parameter write changes exactly the named parameter, only if the value type matches, and the value read back is the one written, for every 32-bit integer.", "quantifier": "every parameter, type and value", "why_tests_cant": "unbounded values", "anchors": ["uwb-beacon-firmware/src/uavcan/parameter_server.cpp", "motor-control-firmware/src/uavcan/parameter_server.cpp"]}
{"id": "C51", "title": "Obstacle map: clamping and opponent tracking", "statement": "Points of every rectangular obstacle stay on the table; it covers the rectangle inflated by half the robot size (clipped to the table); the last MAP_NUM_OPPONENT opponent detections are all present in the map.", "quantifier": "every obstacle and detection history", "why_tests_cant": "unbounded histories", "anchors": ["master-firmware/src/base/map.c"]}
{"id": "C52", "title": "Trajectory end condition", "statement": "Waiting for the end of a trajectory reports only a reason that was asked for and that holds, with goal reached taking precedence, and stops the robot on collision.", "quantifier": "every combination of requested flags and robot state", "why_tests_cant": "2^n combinations", "anchors": ["master-firmware/src/robot_helpers/trajectory_helpers.cpp:trajectory_has_ended"]}
{"id": "C53", "title": "Monotonic timestamps", "statement": "On STM32 two successive timestamp reads never go backwards and the timestamp follows real time, whatever interrupt occurs between the register reads.", "quantifier": "every timer value and interrupt placement", "why_tests_cant": "race on a few-cycle window", "anchors": ["lib/timestamp/timestamp_stm32.c:timestamp_get"]}
{"id": "C54", "title": "Velocity ramp generator (quadramp)", "statement": "The generated setpoint never moves faster than the configured speed (up to the rounding of one unit), its speed changes by at most the configured acceleration per step, and it is the target as soon as |target - position| < 2; within 2^29 no conversion overflows.", "quantifier": "every target sequence and limit", "why_tests_cant": "unbounded histories", "anchors": ["lib/quadramp/quadramp.c"]}
{"id": "C55", "title": "Beacon signal pool is conserved", "statement": "Every signal buffer is at any time either free, queued or held by the reader; signals are delivered in order and none is lost unless all buffers are in use.", "quantifier": "every interleaving of interrupts and reads", "why_tests_cant": "interrupt interleavings", "anchors": ["proximity-beacon-firmware/src/proximity_beacon.c"]}
{"id": "C56", "title": "Pressure sensor driver decodes the sensor protocol", "statement": "The raw pressure returned is the 24-bit big-endian number sent by the sensor; the chip select is asserted exactly during transfers; a status is an error iff powered is 0, or an error or reserved bit is set.", "quantifier": "every sensor response", "why_tests_cant": "2^32 responses", "anchors": ["actuator-firmware/src/pressure_sensor.c"]}
{"id": "C57", "title": "Retry and waypoint execution of a move", "statement": "A move with n retries is attempted at most n+1 times and succeeds iff one attempt does; during an attempt waypoints are visited in order, stopping at the first abnormal end; the map lock is released on every path.", "quantifier": "every outcome sequence of trajectory ends", "why_tests_cant": "unbounded sequences", "anchors": ["master-firmware/src/strategy_impl/base.cpp:strategy_goto_avoid,strategy_goto_avoid_retry"]}
{"id": "C58", "title": "Actuator board commands go to the right board and are consistent", "statement": "A command for an actuator board is produced only if a legal CAN id (at most 127) was announced for the board's name; it is addressed to the id announced first, each solenoid is switched with its pump, a disabled pump has duty cycle zero, and the servo gets the value configured for the selected arm position.", "quantifier": "every history of registrations and announcements, every board name, pump and arm state", "why_tests_cant": "depends on the history of the bus and on name lengths", "anchors": ["master-firmware/src/can/actuator_driver.c:actuator_driver_init,actuator_driver_prepare_uavcan_msg", "master-firmware/src/can/bus_enumerator.c"]}
{"id": "C59", "title": "Parameter reads return the last value set", "statement": "After any history of declarations (with or without default), sets, gets and reads, reading a parameter with the function of its type returns the value last given to it (a string is cut to fit the output buffer and null terminated); with another type, or if the parameter never got a value, the call stops on an assertion and returns nothing.", "quantifier": "every history of calls, every parameter, type and output buffer size above zero", "why_tests_cant": "the value read depends on the whole history and on every other parameter's writes", "anchors": ["lib/parameter/parameter.c:parameter_scalar_read,parameter_integer_read,parameter_boolean_read,parameter_vector_read,parameter_variable_vector_read,parameter_string_read"]}
{"id": "C60", "title": "Motor current measurement uses the right samples", "statement": "For full conversion buffers, the callback never reads outside the buffer; it asks for a recharge of the charge pump exactly every fourth time, leaves out the first 111 conversions exactly in the buffer after a recharge, and the sum and count it publishes are those of the current samples used.", "quantifier": "every sequence of conversion buffers", "why_tests_cant": "the phase between recharge and discarded samples depends on the whole history of callbacks", "anchors": ["motor-control-firmware/src/analog.c:adc_callback"]}
{"id": "C61", "title": "A planned path stays out of the obstacles", "statement": "The segment test answers that a segment is blocked by a convex obstacle exactly when some point of it is strictly inside the obstacle; hence, whatever the history of declarations, every leg of a path the planner returns, from the start to the destination, has no point strictly inside a declared convex obstacle.", "quantifier": "every convex polygon, every segment, every history of planner calls and every path returned", "why_tests_cant": "real-valued geometry over all polygons and segments, combined with a graph search over all maps", "anchors": ["lib/aversive/math/geometry/polygon.c:is_crossing_poly,calc_rays", "lib/aversive/math/geometry/lines.c:intersect_segment,intersect_line", "lib/aversive/obstacle_avoidance/obstacle_avoidance.c:oa_process"]}
{"id": "C62", "title": "The odometry integrates the encoders", "statement": "Each odometry update moves the pose along the circular arc (or the line) whose length and turn are those counted by the encoders since the last update; over any history of updates the direction is the initial one turned by everything the angle encoder counted, no count being lost or used twice.", "quantifier": "every pose, physical parameters, encoder values and history of updates", "why_tests_cant": "real-valued inputs and unbounded histories", "anchors": ["lib/aversive/position_manager/position_manager.cpp:position_manage"]}
{"id": "C63", "title": "Angular difference, clamping and choice of the smallest", "statement": "The angular difference helper returns the signed angle between -pi and pi which leads from the first direction to the second; clamping returns a value within the bounds and leaves values within them alone; the index of the smallest element designates an element that no other is below, the first of them.", "quantifier": "every angle, integer and array of floats, with NaN and infinities", "why_tests_cant": "real-valued and unbounded inputs", "anchors": ["master-firmware/src/robot_helpers/math_helpers.c:angle_delta,math_clamp_value,argmin"]}
{"id": "C64", "title": "Rotation measured from barrier crossings", "statement": "From the times of the last two barrier crossings, the velocity reported is one turn per the longer of the last period and the time since the last crossing, and the position is the angle turned since the last crossing, always between 0 and one turn.", "quantifier": "every pair of crossing times and every reading time, clock wrap included", "why_tests_cant": "real-valued and 2^96 inputs, interrupt between the reading of the clock and of the crossings", "anchors": ["motor-control-firmware/src/rpm.c:rpm_get_position,rpm_get_velocity,rpm_get_velocity_and_position", "proximity-beacon-firmware/src/proximity_beacon.c:light_sensor_cb"]}
{"id": "C65", "title": "The base goes where it is told and stays stopped", "statement": "After a relative movement, a rotation or a stop has been ordered, and as long as no other order is given, when the trajectory is reported finished the set points of the control loops are exactly the encoder positions at the time of the order plus the ordered distance and angle; after a hard stop they are, from the first control period on, those of the place where the robot was stopped.", "quantifier": "every robot state, order and history of control periods, odometry updates, queries and parameter changes", "why_tests_cant": "unbounded histories and real-valued orders", "anchors": ["lib/aversive/trajectory_manager/trajectory_manager_core.cpp:trajectory_d_rel,trajectory_a_rel,trajectory_d_a_rel,trajectory_stop,trajectory_hardstop,trajectory_finished"]}
{"id": "C66", "title": "Movements to a point aim at the point", "statement": "At each period of a movement to a point the control loops are given the straight distance and, slightly reduced, the turn which leads from the measured pose to the point, forward or backward as ordered (whichever needs the smaller turn when both are allowed); the speed is zero while the direction is off by more than the start window; the movement stops being tracked only within the distance window; finished means that the last such set points are reached.", "quantifier": "every pose, target, direction, window and history", "why_tests_cant": "real-valued geometry and unbounded histories", "anchors": ["lib/aversive/trajectory_manager/trajectory_manager_core.cpp:trajectory_goto_xy_abs,trajectory_goto_forward_xy_abs,trajectory_goto_backward_xy_abs,trajectory_manager_xy_event"]}
{"id": "C67", "title": "Control modes drive the wheels as they say", "statement": "In distance-only mode both wheels get the same command, in angle-only mode opposite commands, in free mode none, in direct mode the loop changes nothing, and else the difference and the sum of the distance and angle commands; the errors regulated are the ones between the ramps and the encoders, and the encoder counts used by the loops are always those of the odometry.", "quantifier": "every mode and reachable state", "why_tests_cant": "every state reachable by any interleaving", "anchors": ["master-firmware/src/base/base_controller.cpp:base_ctrl_thd", "lib/aversive/robot_system/robot_system.c:rs_set_angle,rs_set_distance,rs_update"]}
{"id": "C68", "title": "The target of a trajectory is read as it was written", "statement": "In every reachable state the kind of target stored (cartesian or polar, in a union) is the one which the trajectory in progress reads.", "quantifier": "every interleaving of orders, control periods, trajectory updates and queries", "why_tests_cant": "type confusion needs a particular interleaving", "anchors": ["lib/aversive/include/aversive/trajectory_manager/trajectory_manager.h:trajectory_target", "lib/aversive/trajectory_manager/trajectory_manager_core.cpp:trajectory_manager_xy_event"]}
{"id": "C69", "title": "Aligning with a wall ends stopped against it", "statement": "When aligning with a wall returns, a blocking of the wheels was detected, the robot is hard stopped where it was then, the blocking detectors are reset and both control loops are enabled again.", "quantifier": "every state and every behaviour of the environment", "why_tests_cant": "depends on an unbounded interaction with the environment", "anchors": ["master-firmware/src/robot_helpers/trajectory_helpers.cpp:trajectory_align_with_wall"]}
{"id": "C70", "title": "A collision is reported only when there is one", "statement": "A collision end is reported only if the measured position of a regulated axis differs from its set point by more than the threshold.", "quantifier": "every mode and history", "why_tests_cant": "depends on the history of modes", "anchors": ["master-firmware/src/robot_helpers/trajectory_helpers.cpp:trajectory_has_ended", "master-firmware/src/base/base_controller.cpp:base_ctrl_thd"]}
{"id": "C71", "title": "Automatic positioning leads to the requested pose", "statement": "Starting roughly facing the wall of its colour, whatever pose it believes to have, after automatic positioning the robot is at the requested point and direction and believes so, for both colours and both calibration directions.", "quantifier": "every starting pose, belief, target, robot length, colour and calibration direction", "why_tests_cant": "needs the physical robot, over all poses", "anchors": ["master-firmware/src/robot_helpers/autoposition.cpp:strategy_auto_position,strategy_align_y"]}
{"id": "C72", "title": "The tag's position estimate is corrected optimally", "statement": "Each range to an anchor corrects the estimated position towards the measured distance by a fraction between 0 and 1, with the gain which gives the least variance in every direction; the published variances stay positive, never grow by a range, and grow by the process noise at each inertial measurement; each inertial measurement publishes exactly one position with its time.", "quantifier": "every dimension, prior estimate and covariance, anchor position, range and noise variance, and every history of measurements", "why_tests_cant": "the covariance depends on the whole history, and optimality compares with every other gain", "anchors": ["uwb-beacon-firmware/src/ekf.hpp:Predictor,Corrector", "uwb-beacon-firmware/src/state_estimation.cpp:RadioPositionEstimator", "uwb-beacon-firmware/src/state_estimation_thread.cpp:state_estimation_thd"]}
{"id": "C73", "title": "The attitude filter tracks the attitude", "statement": "Each update turns the attitude at the rate measured by the gyroscope and corrects it down the gradient of the error between the measured and the expected directions of gravity and of the magnetic field; measurements which are all zeros are not used; the attitude stays a quaternion of norm 1; the attitude published is the one of the filter fed with all the measurements.", "quantifier": "every attitude, measurement, gain, sampling frequency and history", "why_tests_cant": "an analytic statement about every attitude and measurement", "anchors": ["uwb-beacon-firmware/src/MadgwickAHRS.c:madgwick_filter_update,madgwick_filter_updateIMU", "uwb-beacon-firmware/src/ahrs_thread.c:ahrs_thd"]}
{"id": "C74", "title": "A data packet to send over the radio is sent exactly once", "statement": "When threads call ranging_send_data_packet concurrently, every packet is given to the radio exactly once, with the content and destination of its call, in the order in which the calls were admitted; a call returns only after its packet was given to the radio, and it does return.", "quantifier": "every number of threads, packets, interleaving with timers, interrupts, received frames and changes of parameters", "why_tests_cant": "depends on every interleaving of the callers, the radio thread and the interrupts", "anchors": ["uwb-beacon-firmware/src/ranging_thread.c:ranging_send_data_packet,ranging_thread"]}
{"id": "C75", "title": "Radio nodes keep to their role", "statement": "A tag asks the anchors 7, 10, 11 and 14 for measurements in turn and never sends an anchor position; an anchor never asks for a measurement and sends the position of its parameters.", "quantifier": "every history of timers, interrupts, received frames and data packets", "why_tests_cant": "ranges over every history of the event loop", "anchors": ["uwb-beacon-firmware/src/ranging_thread.c:ranging_thread"]}
{"id": "C76", "title": "Frames received by radio are handled safely and published unchanged", "statement": "Data in a frame for this node is published unchanged with the addresses of sender and receiver; a measured time of flight is published as the distance light travels in it; whatever bytes are received, the node stays within its buffers.", "quantifier": "every content and length of a received frame, buffer and time", "why_tests_cant": "any bytes can arrive by radio; a test sends a few frames", "anchors": ["uwb-beacon-firmware/src/ranging_thread.c:frame_rx_cb,data_packet_received_cb,ranging_found_cb", "uwb-beacon-firmware/src/uwb_protocol.c:uwb_process_incoming_frame"]}
{"id": "C77", "title": "The CAN thread sends each motor its last setpoint, once per period", "statement": "Whatever the other threads do in between, each period of the CAN thread serves every motor exactly once, in the order of creation, and ends; what it sends for a motor is that motor's last setpoint, of the right kind, under the id of the board which bears the motor's name, and nothing if the board is unknown or the motor is disabled. Two motors are never sent to the same board.", "quantifier": "every history of creations, setpoints, discovered boards and feedback, and every interleaving with the steps of the CAN thread", "why_tests_cant": "ranges over all interleavings and all orders of discovery", "anchors": ["master-firmware/src/can/motor_driver_uavcan.cpp:timer_callback,update_motor_can_id,motor_driver_uavcan_send_setpoint", "master-firmware/src/can/uavcan_node.cpp:handleNodeInfoRetrieved"]}
{"id": "C78", "title": "A motor board obeys the setpoints of its motor, and no others", "statement": "In a period without a new command for a motor, the board of that motor takes exactly the motor's last setpoint, once. A board which bears the name of no motor is never commanded.", "quantifier": "every history, interleaving, motor and board", "why_tests_cant": "ranges over all assignments of names and ids, and all interleavings", "anchors": ["master-firmware/src/can/motor_driver_uavcan.cpp", "motor-control-firmware/src/uavcan/Position_handler.cpp:setpoint_cb", "motor-control-firmware/src/uavcan/Velocity_handler.cpp", "motor-control-firmware/src/uavcan/Torque_handler.cpp", "motor-control-firmware/src/uavcan/Voltage_handler.cpp"]}
{"id": "C79", "title": "The LEDs tell the state of the bus", "statement": "The ready LED is on exactly when every registered board has been heard, each under an id of its own. The power LED is on exactly when the last status of some node reports a missing supply, which a motor board does when its battery is low.", "quantifier": "every history of discovered boards and of statuses", "why_tests_cant": "ranges over all histories of messages of any number of nodes", "anchors": ["master-firmware/src/can/uavcan_node.cpp:handleNodeInfoRetrieved,node_status_cb,main", "motor-control-firmware/src/uavcan/uavcan_node.cpp"]}
{"id": "C80", "title": "An emergency stop message stops the robot", "statement": "When an emergency stop message arrives the master program ends and the motor boards reboot.", "quantifier": "every history of messages before it", "why_tests_cant": "depends on the lifetime of an object after every history of messages", "anchors": ["master-firmware/src/can/emergency_stop_handler.cpp:emergency_stop_init", "motor-control-firmware/src/uavcan/EmergencyStop_handler.cpp"]}
{"id": "C81", "title": "Raft nodes keep time, and a leader sends and commits what it should", "statement": "A node which has heard a leader waits at least 100 ticks before it asks for votes, and one which hears nothing asks within 501 ticks. A leader writes to every peer at every tenth tick of its leadership, what that peer has still to receive, and moves its commit index only to an entry of its own term which a peer has confirmed.", "quantifier": "every history of ticks, messages (from any sender, in any order) and operations, and every random number", "why_tests_cant": "ranges over unbounded histories and all values of the random timers", "anchors": ["lib/raft/raft.hpp:tick,tick_heartbeat,tick_election,reset_election_timer,find_safe_index,become_leader"]}
{"id": "C82", "title": "A truncated or foreign configuration is reported, and saving in a short buffer is too", "statement": "Loading returns success exactly for buffers which start with a configuration: a map of entries, each a path and a value of the type of its parameter, a path and a value to be skipped, or the path of a namespace and such a map. Then exactly the assignments it spells are made, in order. If any byte of it is missing, the load returns an error. Saving never writes outside of the buffer, and when it reports no error the buffer holds the identifier and value of every defined parameter.", "quantifier": "every parameter tree, every contents and length of the buffer", "why_tests_cant": "ranges over all byte strings and all trees", "anchors": ["lib/parameter/parameter_msgpack.c:parameter_msgpack_read,parameter_msgpack_write,discard,get_vector"]}
{"id": "C83", "title": "A motor board computes the documented control laws, from a defined state at power-up", "statement": "In each round the position, velocity and current loops each apply their gains to the error, its integral and its derivative, each demand limited by the configured limit, and the last is divided by the battery voltage to give the duty cycle; a circular actuator goes the shortest way. Position, velocity and trajectory requests are followed by a ramp within the configured acceleration and speed. Until something is requested the board asks for no current, whatever else happens; it starts with a battery threshold, temperatures and a bridge in the documented state. The duty cycle set at a trigger is held until the next.", "quantifier": "every state of the loop, gains, limits, measurement and request, and every history before the first request", "why_tests_cant": "ranges over real-valued states and inputs, and all histories", "anchors": ["motor-control-firmware/src/control.c", "motor-control-firmware/src/pid_cascade.c", "motor-control-firmware/src/setpoint.c", "motor-control-firmware/src/motor_pwm.c", "motor-control-firmware/src/motor_protection.c", "motor-control-firmware/src/analog.c", "lib/pid/pid.c:pid_init"]}
{"id": "C84", "title": "Lines, projections and segments", "statement": "The line made from two points is the line through them; the intersection of two lines is their one common point, or they are reported as parallel (no common point) or identical; the projection of a point is the nearest point of the line. The point reported for two segments belongs to both, with the reported kind; segments with a common point are recognised.", "quantifier": "every pair of points, lines and segments", "why_tests_cant": "ranges over all coordinates", "anchors": ["lib/aversive/math/geometry/lines.c:pts2line,intersect_line,intersect_segment,proj_pt_line,line_translate", "lib/aversive/math/geometry/circles.c:pt_is_inside_circle"]}
{"id": "C85", "title": "Circles and vectors", "statement": "The intersection of two circles reports 0 if they have no common point, 1 if one, 2 if two, and the points reported are exactly the common points. Norms and distances are euclidean; a resized vector has the requested length and its old direction. Cartesian and polar vectors convert into each other, and sums, differences, multiples and angles are the same in both forms.", "quantifier": "every pair of circles and vectors", "why_tests_cant": "ranges over all coordinates, including tangent, concentric and parallel cases", "anchors": ["lib/aversive/math/geometry/circles.c:circle_intersect", "lib/aversive/math/geometry/vect_base.c:pt_norm,xy_norm,vect_norm,vect_resize", "lib/aversive/math/vect2/vect2.c"]}
{"id": "C86", "title": "Odometry from power-up, integer pose and slip correction", "statement": "Before it is linked to the robot's encoders, an odometry update does nothing and the pose is the origin. After the power-up sequence (link, physical parameters, choice of the encoders, pose) the first update starts from the pose that was set, whatever the encoders count. The integer pose is the pose in millimetres and degrees, truncated. With a slip coefficient, an update moves the pose sideways by the coefficient times the distance and the angle of the step.", "quantifier": "every encoder value, pose, physical parameter and coefficient", "why_tests_cant": "ranges over real-valued poses and encoder readings", "anchors": ["lib/aversive/position_manager/position_manager.c:position_init,position_set_related_robot_system,position_manage,position_get_x_s16"]}
{"id": "C87", "title": "A base without orders stays at rest; targets given relative to the robot", "statement": "From power-up, as long as no order is given and the wheels do not turn, the control loop never powers the motors, reports no collision and starts no movement, whatever modes, polls, poses and finite gains come in between. A target given in the robot's frame (ahead and left, or distance and direction) is the corresponding point of the table.", "quantifier": "every history of control rounds, polls, mode changes, poses and gains; every relative target and pose", "why_tests_cant": "ranges over all histories from power-up and all real targets", "anchors": ["master-firmware/src/base/base_controller.cpp:robot_init,base_ctrl_thd", "master-firmware/src/aversive/trajectory_manager/trajectory_manager_core.cpp:trajectory_goto_xy_rel,trajectory_goto_d_a_rel"]}
{"id": "C88", "title": "The opponent is where the beacon sees it", "statement": "When the beacon reports the start and the length of the arc over which it saw a round reflector, the master publishes the direction of the reflector's centre and its distance up to the square of the reflector's radius over the distance, and the point used as the opponent's position is that close to it. Without the two configuration values nothing is published.", "quantifier": "every pose of the robot, position and radius of the reflector outside of the beacon, offset of the beacon and whole turn of the beam", "why_tests_cant": "ranges over real-valued positions and angles", "anchors": ["master-firmware/src/can/beacon_signal_handler.cpp:beacon_cb", "master-firmware/src/robot_helpers/beacon_helpers.cpp:beacon_get_angle,beacon_cartesian_convert", "master-firmware/src/base/map_server.cpp:map_server_thd"]}
{"id": "C89", "title": "The collision test of a movement", "statement": "Asked whether the current movement runs into a convex obstacle, the robot answers yes exactly if the straight way from its position to the end of the movement goes through the inside of the obstacle, or its position to the millimetre is inside of it.", "quantifier": "every pose, movement and convex obstacle", "why_tests_cant": "ranges over real-valued poses, targets and polygons", "anchors": ["master-firmware/src/robot_helpers/trajectory_helpers.cpp:trajectory_crosses_obstacle,trajectory_is_cartesian", "master-firmware/src/robot_helpers/math_helpers.c:math_point_is_in_square"]}
{"id": "C90", "title": "Speeds, units and modes of the base", "statement": "Speeds, accelerations and distances given in millimetres, radians and seconds are converted to encoder steps and control periods and back without loss; a movement has the speed and acceleration limits of the current mode or configuration in these units. In aligning mode the robot moves at no more than 30 mm/s with only its distance regulated, until the mode is changed.", "quantifier": "every robot state, physical parameter, configuration, movement command and control round", "why_tests_cant": "ranges over real-valued parameters and all commands", "anchors": ["lib/aversive/trajectory_manager/trajectory_manager_utils.cpp:pos_mm2imp,speed_mm2imp,acc_mm2imp,pos_rd2imp,speed_rd2imp,acc_rd2imp", "master-firmware/src/robot_helpers/trajectory_helpers.cpp:trajectory_set_mode_aligning,trajectory_set_mode_game", "master-firmware/src/base/base_controller.cpp:base_ctrl_thd"]}
{"id": "C91", "title": "Topic messages survive the trip", "statement": "Encoding a topic into a buffer writes nothing outside of it; it reports 0 or the length of a whole message (size and header with the topic's name and type number, size and contents), and does not report 0 when the topic was published and the message fits. Injecting that message into a bus publishes the same contents to the topic of that name and type, and changes no other topic; a message for an unknown topic is ignored.", "quantifier": "every topic, contents, message type, buffer length and receiving bus", "why_tests_cant": "ranges over all topics, contents and received bytes", "anchors": ["master-firmware/src/msgbus_protobuf.c:messagebus_encode_topic_message,messagebus_inject_encoded_message,encode_topic_header,encode_topic_body"]}
{"id": "C92", "title": "The UDP broadcaster loses nothing between its threads", "statement": "The messages given to the network are those that were encoded, unchanged, each once and in order; no message buffer leaks or is used for two messages at once, and a publication is dropped only while 16 messages wait to be sent.", "quantifier": "every interleaving of the two threads, sequence of publications and failure of network buffers", "why_tests_cant": "ranges over all schedules of two threads", "anchors": ["master-firmware/src/udp_topic_broadcaster.c:udp_topic_encode_thd,udp_topic_send_thd,udp_topic_register_callbacks"]}
{"id": "C93", "title": "Calibration of the odometry finds the wheels and the track", "statement": "After wheel_calib the angle of the odometry is a fixed multiple of the heading of the robot, whatever its wheels are, if it drifts by less than half a turn; with readings in whole impulses the rotation left over the whole calibration way is a few impulses. track_calib proposes the true distance between the wheels, if the wheel gains are right. Both set usable values only, and applying them does not move the robot's odometry.", "quantifier": "every wheel size, configured gain, track, number of rounds, tolerance of the movements and drift less than half a turn", "why_tests_cant": "ranges over continuous physical parameters and executions of the movements", "anchors": ["master-firmware/src/commands.cpp:wheel_calib,track_calib", "master-firmware/src/robot_helpers/trajectory_helpers.cpp:trajectory_align_with_wall", "lib/aversive/robot_system/robot_system.c:rs_update", "master-firmware/src/robot_helpers/math_helpers.c:angle_delta"]}
{"id": "C94", "title": "The IMU is configured as its scales assume and its measurements are published", "statement": "After configuration the ranges of the sensors are those of the conversion factors, measurements come 250 times a second with a latched interrupt and the magnetometer measures continuously, its values copied to where the driver reads them. The values read are the signed register contents in rad/s, m/s2, degrees and microtesla. The reading thread is never stuck with the interrupt line active, publishes no measurement twice, and loses none.", "quantifier": "every register contents, schedule of the exchanges between the sensor and the magnetometer, and interleaving of measurements and thread steps", "why_tests_cant": "ranges over all register values and schedules of hardware and thread", "anchors": ["uwb-beacon-firmware/src/mpu9250.c:mpu9250_configure,mpu9250_enable_magnetometer,mpu9250_gyro_read,mpu9250_acc_read,mpu9250_temp_read,mpu9250_mag_read", "uwb-beacon-firmware/src/imu_thread.c:imu_reader_thd", "uwb-beacon-firmware/src/exti.c"]}
{"id": "C95", "title": "Memory protection as requested", "statement": "Configuring a region of the memory protection unit makes it cover exactly the requested block with the requested permissions and leaves the other regions alone; blocks below 32 bytes are refused. After initialisation a null pointer access faults, code in RAM cannot run, whatever regions 1 to 6 are given then, and privileged code keeps the default memory map elsewhere.", "quantifier": "every initial state of the unit, request, sequence of requests, address and kind of access", "why_tests_cant": "ranges over all addresses, requests and states of the unit", "anchors": ["lib/arm-cortex-tools/mpu.c:mpu_init,mpu_configure_region,mpu_enable", "lib/arm-cortex-tools/mpu.h:mpu_access_permission_t"]}
{"id": "C96", "title": "The control panel lights what it is told and the starter starts the match", "statement": "The brightness last written for a lamp is full or zero as the last set, clear and toggle orders say; orders for a lamp that could not be opened do nothing. Each input reads the line opened for it, false if none; every GPIO handle is held by one input or given back once. The match starts exactly when the starter is released after a second in place, and the ready lamp shows when it is armed. The colour is the one of the button that is pressed.", "quantifier": "every content of the brightness files, sequence of orders, answers of the GPIO library and sequence of readings of the starter", "why_tests_cant": "ranges over all histories of orders, readings and library answers", "anchors": ["master-firmware/src/control_panel.cpp:set_output,open_led,control_panel_init,control_panel_read,control_panel_toggle", "master-firmware/src/gpio_input.cpp:GpioInput", "master-firmware/src/strategy.cpp:wait_for_starter,wait_for_color_selection"]}
{"id": "C97", "title": "The menus go back where the user came from", "statement": "After any sequence of buttons, back buttons, timers and other events the screen shows the page on top of the stack of pages the user entered and did not leave, with its title, and the back button is enabled exactly when there is a page to go back to; no widget or page that does not exist is used.", "quantifier": "every tree of pages and sequence of events", "why_tests_cant": "ranges over all page trees and event histories, and over the interleaving with the timer thread", "anchors": ["master-firmware/src/gui/Menu.cpp:Menu", "master-firmware/src/gui/MenuPage.cpp:MenuPage", "master-firmware/src/gui/Page.h:Page", "master-firmware/src/gui.cpp:gui_thread"]}
{"id": "C98", "title": "Printing the parameters shows every parameter once, at its place, with its value", "statement": "For every history of the parameter tree, the text printed for a namespace, read as YAML by its indentation, has exactly one entry per parameter of the namespace, under the names of the namespaces that contain it, and the entry is the last value given to the parameter (a tilde if none was given, an empty value with a warning if no memory could be had). Printing never fails and changes nothing, not even what is reported as changed. Names must be without colon or end of line and strings without end of line.", "quantifier": "every history of declarations, sets and gets, every namespace, every outcome of the memory allocations", "why_tests_cant": "ranges over all trees, values and allocation failures", "anchors": ["lib/parameter/parameter_print.c:parameter_print,param_ns_print,param_entry_print,print_array"]}
{"id": "C99", "title": "The shell commands show and set the parameters asked for, and nothing else", "statement": "config_tree shows the parameters of the configuration and never fails; showing does not change them. config_set gives the parameter named the value written, and for an unknown parameter, a text that is no value of its type or a wrong number of arguments changes nothing and tells the user.", "quantifier": "every history of the parameters, every path and text typed", "why_tests_cant": "ranges over all trees, paths and texts", "anchors": ["master-firmware/src/commands.cpp:show_config_tree,config_tree,config_set"]}
{"id": "C100", "title": "The parameter tree generated from the configuration files has exactly the entries of the files", "statement": "For every configuration file whose section master is made of non-empty dictionaries with distinct usable names and of booleans, integers, floats and strings, the generated code runs without error and the tree it makes has one parameter per entry, found by the path of the entry and by no other path, of the type of its value, without a value; there are no other parameters. If the generator accepts several files, they have the same entries with the same types.", "quantifier": "every configuration file, every list of files, every path", "why_tests_cant": "ranges over all files, nested to any depth", "anchors": ["tools/config/parser/parser.py:parse_tree,to_init_code,tree_depth", "tools/config/config_to_c.py:main"]}
{"id": "C101", "title": "The configuration of the robot is the one of its file, under the names of the file", "statement": "After the start of the configuration and the load of the document of the section master, every parameter reads as its entry in the file when asked by its path. Whatever is then written or read, every entry of the section is found by its path in the global configuration and by the rest of its path in the configuration of the master, no other path is found (asking for its value stops the program), the parameters read as if the public namespaces were not copies, and the public namespaces report the changes below them.", "quantifier": "every configuration file with values that fit, every later history of writes and reads, every path", "why_tests_cant": "ranges over all files, documents, histories and paths", "anchors": ["master-firmware/src/config.c:config_init,config_get_scalar,config_get_integer,config_get_boolean", "lib/parameter/parameter_msgpack.c:parameter_msgpack_read_cmp", "master-firmware/src/main.cpp:config_load_from_flash", "tools/config/config_to_msgpack.py:main"]}
{"id": "C102", "title": "A motor board sends each feedback message at the rate asked for it, with the measures of the moment", "statement": "After the start of the streams, and whatever frequencies are written (not positive, or such that 100 Hz divided by it rounds to 1 to 65535) and whatever is done with the other parameters, each turn of the communication loop sends every feedback message at most once, with the measures of that turn, and exactly those whose frequency as last written is positive and whose divider (the nearest integer to 100 / frequency) divides the number of turns since its own frequency was written.", "quantifier": "every parameter tree the streams are declared in, every history of writes, uses of the tree and turns, every measure", "why_tests_cant": "ranges over all histories of writes and turns and all frequencies", "anchors": ["motor-control-firmware/src/uavcan/uavcan_streams.cpp:uavcan_streams_start,uavcan_streams_spin", "motor-control-firmware/src/stream.c:stream_should_send,stream_set_prescaler", "lib/parameter/parameter.c:parameter_namespace_contains_changed,parameter_scalar_get"]}
{"id": "C103", "title": "The UWB beacon broadcasts on the CAN bus what its topics publish, and nothing that its parameters exclude", "statement": "In every schedule of the publishers, the watcher and the UAVCAN loop: the board never uses a missing topic or an unwritten buffer; every broadcast has the content last published on its topic; there are never more broadcasts of a kind than publications; there is none for a topic whose parameter was never on and at most three after it is turned off; and a publication on a topic (IMU, attitude, range, position, data packet) whose parameter is on is broadcast exactly once.", "quantifier": "every schedule of publications, receptions, parameter writes and steps of the threads", "why_tests_cant": "depends on the interleaving of three threads and on all histories", "anchors": ["uwb-beacon-firmware/src/uavcan/topics_publisher.cpp:topics_watcher,topics_publisher_start,topics_publisher_spin", "uwb-beacon-firmware/src/uavcan/position_handler.cpp:tag_pos_cb", "lib/msgbus/messagebus.c:messagebus_topic_publish,messagebus_watchgroup_wait,messagebus_topic_read"]}
{"id": "C104", "title": "The sensor board broadcasts each measured distance and color, as measured", "statement": "Whatever state the two sensors were left in, the start of the board moves the distance sensor off the address that both share, without writing to the color sensor, configures both, and then at each turn the board broadcasts one new measurement: the distance in mm with the error code of that measurement and, when the color sensor is used, the red, green, blue and clear values of a new reading. A lost I2C transfer delays a message but never stops the board nor makes it broadcast something that was not measured.", "quantifier": "every initial state of the sensors, every sequence of measurements with any delays, every number of turns and every pattern of failed transfers", "why_tests_cant": "depends on the timing of the sensor against the polling and on every sequence of measurements and failures", "anchors": ["sensor-firmware/src/vl6180x/vl6180x.c:vl6180x_measure_distance,vl6180x_configure,vl6180x_change_i2c_address,vl6180x_ping", "sensor-firmware/src/TCS3472.c:TCS3472_read_color,TCS3472_configure", "sensor-firmware/src/main.c:tof_distance_init,color_sensor_init", "sensor-firmware/src/uavcan/node.cpp:uavcan_node_main", "sensor-firmware/src/uavcan/DistanceVL6180X_pub.cpp:distance_vl6180x_publish", "sensor-firmware/src/uavcan/ColorRGBC_pub.cpp:color_rgbc_publish"]}
{"id": "C105", "title": "Following a line", "statement": "While a line is followed, at each period the robot is sent to the point of the line that lies ahead of its projection, by the given advance less its distance to the line. On the line it goes straight at full speed, beside it it turns back to the line by at most a quarter turn, slower the more it has to turn, and nothing overflows. The line is followed until another order.", "quantifier": "every line, every pose of the robot, every sequence of poses", "why_tests_cant": "a question about every pose and line in the plane", "anchors": ["lib/aversive/trajectory_manager/trajectory_manager_core.cpp:trajectory_line_abs,trajectory_manager_line_event,trajectory_manager_manage", "lib/aversive/math/geometry/lines.c:pts2line,proj_pt_line", "lib/aversive/math/vect2/vect2.c:vect2_cart2pol"]}
{"id": "C106", "title": "Moving on a circle", "statement": "An order to orbit around a point with a given radius makes the robot move on the circle of that radius, as fast as both its speed limits allow, forward or backward and clockwise or counterclockwise as the flags say, and ends when the given angle has been turned.", "quantifier": "every center, radius, angle and flags, every pose of the robot and speed limits", "why_tests_cant": "a question about every pose and every ratio of the speeds", "anchors": ["lib/aversive/trajectory_manager/trajectory_manager_core.cpp:trajectory_circle_rel,trajectory_manager_circle_event,circle_get_speed_from_radius"]}
{"id": "C107", "title": "Turning from one line to another by clothoids", "statement": "A turn from a line to another one is accepted exactly when the acceleration in angle that it needs is allowed and when it fits before the crossing of the lines; a refused one changes nothing. The path of an accepted turn (line, clothoid, arc of the given radius and angle, clothoid, line) is continuous, with a continuous tangent, and ends on the second line; the speeds and the acceleration ordered make the robot run it; the turn begins when the robot passes the point where the first clothoid begins.", "quantifier": "every pair of crossing lines and every angle, arc, radius, speed and distance to the crossing", "why_tests_cant": "the geometry must fit for every angle and radius; a test shows one turn", "anchors": ["lib/aversive/trajectory_manager/trajectory_manager_core.cpp:calc_clitoid,trajectory_clitoid,start_clitoid,trajectory_manager_line_event", "lib/aversive/math/geometry/lines.c:intersect_line,line_translate,proj_pt_line", "lib/aversive/math/geometry/vect_base.c:vect_resize,vect_rot_trigo,vect_rot_retro"]}
{"id": "C108", "title": "Memory protection through any sequence of calls, also in the middle of one", "statement": "After the memory protection is initialised and through any later calls that follow its documentation, each access is answered by the region with the highest number that contains the address, as it was last requested, and switching the protection off and on again loses nothing. While a region is being configured, an interrupt sees each access answered by the old or by the new configuration.", "quantifier": "every sequence of calls, every address, kind of access, privilege and default memory map; the moment between the two register writes of a call", "why_tests_cant": "a test sees a few addresses after a few calls; the claim is for each of 2^32 addresses and each history of calls, and an interrupt between two writes cannot be placed by a test", "anchors": ["lib/arm-cortex-tools/mpu.c:mpu_init,mpu_configure_region,mpu_enable,mpu_disable", "lib/arm-cortex-tools/include/arm-cortex-tools/mpu.h:access_permission_t"]}
{"id": "C109", "title": "Simulator: boards obey their own commands and forces are limited", "statement": "An emulated motor, servo or actuator board of the simulator has at each moment the values of the last message addressed to its node, and its initial values before; the actuator board answers with the simulated pressures and input. The force of each simulated wheel is the voltage of its motor, limited to 8 N in both directions. The cups mirror each other and, like the borders, are on the table.", "quantifier": "every sequence of messages, for this node or others, in any order with the periods of the simulation; every voltage", "why_tests_cant": "the claim is for each order of messages and periods and each voltage, and values that were never written look right in many tests", "anchors": ["hitl/main.cpp:clamp,main,makeBorders,create_cups", "hitl/motor_board_emulator.cpp:UavcanMotorEmulator", "hitl/servo_board_emulator.cpp:ServoBoardEmulator", "hitl/actuator_board_emulator.cpp:ActuatorBoardEmulator", "hitl/actuator_board_emulator.h:set_pressure,get_pwm,get_solenoid,get_servo_pos"]}
{"id": "C110", "title": "Simulator: the odometry of the master follows the simulated robot", "statement": "With the configuration for the simulation, whenever the master updates its odometry from the emulated encoders, its distance is how far the simulated robot has gone forward and its direction has turned by as much as the simulated robot, up to the resolution of the encoders, and no conversion overflows.", "quantifier": "every motion of the simulated robot, period by period, and every moment at which the master updates", "why_tests_cant": "errors of scale build up over a path; a test of a straight line or of the signs does not see them", "anchors": ["hitl/PhysicsRobot.cpp:AccumulateWheelEncoders,GetWheelEncoders", "hitl/wheel_encoders_emulator.cpp:set_encoders", "hitl/main.cpp:main", "config_simulation.yaml", "lib/aversive/robot_system/robot_system.c:rs_update"]}
{"id": "C111", "title": "Simulator: the master sees the simulated opponent where it is", "statement": "When the simulated opponent is nearer than 1.5 m, the emulated beacon sends a signal from which the master puts the opponent where it is; when it is farther, nothing is sent.", "quantifier": "every position and direction of the robot and position of the opponent", "why_tests_cant": "the geometry must fit for all positions; the two programs are written with different conventions and tested apart", "anchors": ["hitl/ProximityBeaconEmulator.cpp:ProximityBeaconEmulator", "config_simulation.yaml", "master-firmware/src/can/beacon_signal_handler.cpp:beacon_cb", "master-firmware/src/base/map_server.cpp"]}
{"id": "C112", "title": "The IP over CAN adapter protects the bus and forwards the rest", "statement": "The adapter lets at most the given number of packets per second through to the CAN bus. Packets that come no faster are all broadcast, in order and unchanged.", "quantifier": "every traffic (times, sizes and contents of the packets), every rate, every window of time", "why_tests_cant": "the limit is about each window of each history of arrivals, and the times come from the clock of the machine", "anchors": ["tools/uavcan_ip_interface.py:RateLimiter,rx_thread,node_thread"]}
{"id": "C113", "title": "Each value of a configuration file becomes one parameter", "statement": "The parameters generated from a configuration for a motor board are the values of the file, each exactly once, with the keys on the way to it joined by slashes as name.", "quantifier": "every configuration tree", "why_tests_cant": "trees have any depth and width; name clashes come only with particular keys", "anchors": ["tools/motor_config_loader.py:parameters_from_config"]}
{"id": "C114", "title": "Uploading a configuration leaves the boards with its values", "statement": "When the upload of a configuration to the motor boards has finished, every parameter named in it has the value of the file on its board and is saved, and all others are unchanged. The upload finishes, or fails with an error.", "quantifier": "every configuration of any number of boards, every parameter tree of the boards, every loss of messages", "why_tests_cant": "it depends on the types on both sides, on the tree of each board and on which message is lost", "anchors": ["tools/motor_config_loader.py:ConfigUploader,main", "motor-control-firmware/src/uavcan/parameter_server.cpp:ParamManager"]}
{"id": "C115", "title": "The parameter editor shows all the parameters of a board", "statement": "The list that the studio fetches from a board has every parameter of the board exactly once, with its full name and the value it has; the tree shown has it at the path of its name.", "quantifier": "every tree of parameters on the board, every history of assignments, every lost answer", "why_tests_cant": "it depends on the order of enumeration, on which parameters have a value and on the names of all the others", "anchors": ["tools/studio/cvra_studio/network/ParameterTree.py:ParameterTree", "tools/studio/cvra_studio/viewers/NestedDict.py:NestedDict", "tools/studio/cvra_studio/commands/param_tree.py:ParameterTreeModel", "uwb-beacon-firmware/src/uavcan/parameter_server.cpp:ParamManager", "uwb-beacon-firmware/src/uavcan/parameter_enumeration.cpp"]}
{"id": "C116", "title": "Editing a parameter in the studio sets it to what was entered", "statement": "When a value is entered for a parameter shown, the parameter of that name on the board gets that value and no other parameter of the board changes. A text that is not a value of its type changes nothing.", "quantifier": "every tree of parameters, every parameter shown, every text", "why_tests_cant": "the text goes through the types of three programs; a test of one type or of one truth value looks right", "anchors": ["tools/studio/cvra_studio/network/ParameterTree.py:value_to_uavcan,extract_value", "tools/studio/cvra_studio/commands/param_tree.py:set_param,_on_param_change", "uwb-beacon-firmware/src/uavcan/parameter_server.cpp:assignParamValue"]}
{"id": "C117", "title": "The configuration tool sends the values of the file to the master board", "statement": "When a configuration file is sent to the master board, the messages together hold every value of the file under its path and nothing else, each path in one message only and with one value. A message holds one actuator at most, and the driver of an actuator is created once and before any value is sent to it.", "quantifier": "every configuration file: any nesting, any number of sections and actuators, keys that are texts, whole numbers, truth values or null", "why_tests_cant": "the file is cut in pieces and its keys are rewritten; a test with one file does not show that nothing is lost or sent twice for the others", "anchors": ["tools/config/config_send.py:keys_to_str,config_split,create_actuator,send_config_file"]}
