# Formal model of cvra/robot-software: design

The properties are in `properties.jsonl`, the status of each in `MANIFEST.json`, the Coq development in
`rocq/theories`, the log of the tests against wrong programs in `seeded/LOG.jsonl`.

## Conventions

* One module of the code = up to four kinds of Coq files: `XModel.v` (executable Gallina model, no proofs, every definition
  cites the file and lines of `/repo` it models), `XSpec.v` (a small independent specification, not using the
  helpers of the model), `XProofs*.v` (lemmas) and `XProps.v` (the property theorems, each with an `Example` showing that a
  concrete non-trivial case meets its hypotheses, and `Print Assumptions`).
* C integers are `Z`/`N` with explicit `mod 2^k` where the C type wraps. Undefined behaviour (access out of bounds,
  null pointers, division by zero, signed overflow, conversion out of range, failed assertion, endless loop) is a
  distinct outcome of the model (`BAD`, `None`, `UB`, `OutOfFuel`...), never silently given a value.
* Floating point. `FloatModel.v` defines a *machine*: the arithmetic that the code is written over. The machine `ieee` is IEEE-754 binary32 or
  binary64 (Flocq), the machine `exact` is the same without rounding. A theorem says which one it is about. Some modules (Lie, Quad,
  Traj, Autopos, mirroring in Strat) use the reals directly. Statements over the reals are about the algorithm, not
  about its rounding. Floats which only travel through codecs are 32/64-bit words.
* Pointers to list nodes and array slots are indices; linked lists are index-linked memory when the pointer surgery is
  what the property is about, and lists otherwise.
* Concurrency: a critical section protected by a mutex is an atomic step where the code takes the mutex; what is not
  protected is split in memory accesses or statements. A schedule is an arbitrary list of steps.
* A property that the code violates is stated in full and refuted by a theorem `..._refuted` with a witness; what holds is proved
  under the exact extra hypothesis. A theorem that proves less than the claim has the suffix `_partial`, and the remark below says
  what is missing.

## Trusted base

* Coq 8.16.1's kernel, including `vm_compute`.
* The axioms of the standard library listed for each theorem in the last section, no other axiom. Libraries used: the
  standard library and Flocq (definitions and theorems, no axioms of its own).
* The reading of `/repo` expressed by the definitions of the models: nothing ties the model to the code mechanically.
* The specifications (`XSpec.v`) and the statements in `XProps.v`.


## What is modelled

Every definition of a model cites its file and lines and states its own simplifications. Summary:

| Coq module | code in /repo | numbers and simplifications |
|---|---|---|
| Crc | lib/crc crc16.c crc32.c | words are `N` |
| Timestamp | lib/timestamp timestamp.c timestamp_stm32.c | 32-bit wrap; timer, interrupt and reader interleave register access by register access |
| Trace | lib/trace/trace.c | ring buffer of 200 events, 22-bit times |
| Lru | uwb-beacon-firmware lru_cache.c anchor_position_cache.c | linked entries as index memory; positions are opaque |
| Ekf | uwb-beacon-firmware ekf.hpp, state_estimation.cpp, loop of state_estimation_thread.cpp | reals; matrices are functions; division by zero is `None` |
| Madg | uwb-beacon-firmware MadgwickAHRS.c, loop of ahrs_thread.c | machine with square roots |
| Rang | uwb-beacon-firmware ranging_thread.c | events as bit masks; callers step statement by statement; the radio driver delivers any bytes; distances are rationals |
| Uwb | uwb-beacon-firmware uwb_protocol.c | frames are byte lists; `size_t` 32 bits; radio hardware is the sequence of calls it makes |
| Enum | master-firmware/src/can/bus_enumerator.c | strings without terminator |
| Motor | master-firmware/src/can motor_driver.c motor_manager.c motor_feedback_streams_handler.cpp actuator_driver.c | critical sections atomic; floats opaque |
| Cmp | lib/cmp/cmp.c, lib/cmp_mem_access | buffers are byte lists; `size_t` 32 bits; little-endian |
| Param | lib/parameter/parameter.c, parameter_enumeration.cpp and parameter_server.cpp of the UAVCAN nodes | tree of numbered nodes; threads step by step for the change flags |
| Pmsg | lib/parameter/parameter_msgpack.c | on top of Cmp and Param |
| Flash | lib/parameter_flash_storage parameter_flash_storage.c flash_f4.c flash_f3.c | NOR memory: programming clears bits; a crash is a prefix of the programmed bytes |
| Bus | lib/msgbus/messagebus.c (with the ChibiOS port) | any number of threads, one statement or copied byte per step |
| Raft | lib/raft/raft.hpp | nodes, and clusters over a network that loses, delays, duplicates |
| Dijk | lib/dijkstra dijkstra.hpp | arrays of nodes, connections table of 10 |
| Oa | lib/aversive/obstacle_avoidance, rays of polygon.c | visibility and lengths are parameters, instantiated by Geo |
| Goap | lib/goap goap.hpp goap_internals.hpp | node pool as index memory |
| Enc | motor-control-firmware encoder.c feedback.c stream.c; lib/aversive/blocking_detection_manager, robot_system | integers with wrap; positions in turns are rationals |
| Pid | lib/pid/pid.c, lib/filter basic.c mean.c iir.c | machine `ieee` binary32, or `exact` where said |
| Ctl | motor-control-firmware setpoint.c pid_cascade.c motor_protection.c motor_pwm.c analog.c, loop of control.c | machines |
| Quad | lib/quadramp | reals |
| Geo | lib/aversive/math/geometry vect_base.c lines.c polygon.c (tests) | machines |
| Opp | master-firmware/src/can/beacon_signal_handler.cpp; robot_helpers/beacon_helpers.cpp; trajectory_crosses_obstacle of trajectory_helpers.cpp | over the reals |
| Mproto | master-firmware/src/msgbus_protobuf.c | nanopb codecs as parameters |
| Calib | master-firmware/src/commands.cpp (wheel_calib, track_calib) | movements as a relation with tolerances; not compiled by any build |
| Imu | ImuModel ImuSpec ImuProps | uwb-beacon-firmware/src/mpu9250.c, imu_thread.c, exti.c: register writes, conversions, interrupt and reader thread. Simplified: SPI transfers are single register accesses; the magnetometer is the AK8963 of its data sheet. |
| Mpu | MpuModel MpuSpec MpuProps | lib/arm-cortex-tools/mpu.c: the registers of the memory protection unit. Left out: barriers and the enabling of fault exceptions. |
| Panel | PanelModel PanelSpec PanelProps | master-firmware/src/control_panel.cpp, gpio_input.cpp, gpio_input.h; strategy.cpp wait_for_starter, wait_for_color_selection. The files and libgpiod are modelled by their answers. |
| Menu | MenuModel MenuSpec MenuProps | master-firmware/src/gui/Menu.cpp, MenuPage.cpp, MenuPage.h, Page.h, gui.cpp (page tree). Widgets are handles that are never reused; drawing and the actions of the leaf pages are left out. |
| Show | ShowModel ShowSpec ShowProofs ShowProofs2 ShowProps | lib/parameter/parameter_print.c; master-firmware/src/commands.cpp 208-344 (config_tree, config_set). The text of a float is a function given by the C library. |
| Ygen | YgenModel YgenSpec YgenProofs YgenProofs2 YgenProofs3 YgenProofs4 YgenProofs5 YgenProps | tools/config/parser/parser.py; tools/config/config_to_c.py; master-firmware/src/config.c. The generator starts from the value returned by the YAML parser and ends with the list of calls of the generated code; the text, the C compiler and the names of C objects are not modelled. The document is any MessagePack encoding of the section, not the encoder of Python. |
| Strm | motor-control-firmware/src/uavcan/uavcan_streams.cpp | on the models of the parameter tree (Param) and of stream.c (Enc). The measures are given with each turn; broadcasts are the output; values of floats are given by an arbitrary function from their bits to rationals, 0 being not positive. |
| Tpub | uwb-beacon-firmware/src/uavcan/topics_publisher.cpp, position_handler.cpp | the watcher thread, the UAVCAN loop, the publishers and parameter writes interleaved; a publication is one step (the topic and group mutexes make it one for these readers, see Bus). Failures of the publishers at the start are not modelled. |
| Tof | sensor-firmware/src/vl6180x/vl6180x.c, vl6180x_chibios.c, TCS3472.c, main.c (start), uavcan/node.cpp (loop), DistanceVL6180X_pub.cpp, ColorRGBC_pub.cpp | the code on an I2C bus with models of the VL6180X and TCS3472 written from what the code relies on; measurements, delays and failed transfers come from the environment. The restart of the I2C driver and the sleep between turns are not modelled. |
| Curv | lib/aversive/trajectory_manager/trajectory_manager_core.cpp 496-1042 (circles, lines, clitoids), with lib/aversive/math/geometry/lines.c and vect_base.c | orders and periodic events on real numbers; a division by zero whose result is converted to an integer is BAD. Locks are not modelled. |
| Hitl | hitl/main.cpp, PhysicsRobot.cpp, ProximityBeaconEmulator.cpp, motor_board_emulator.cpp, servo_board_emulator.cpp, actuator_board_emulator.{h,cpp}, wheel_encoders_emulator.cpp; config_simulation.yaml | composed with the odometry of Enc and Pos and the beacon handler of Opp. Real numbers for floats; Box2D gives the motion; uninitialised members are a distinct value whose use is an error. The viewer is left out. |
| Lim | LimModel LimSpec LimProofs LimProps | tools/uavcan_ip_interface.py: RateLimiter, rx_thread, node_thread. Real numbers for floats; the direction from CAN to the network is left out. |
| Upl | UplModel UplSpec UplProofs UplProofs2 UplProps | tools/motor_config_loader.py, on the parameter tree and server of Param. The ParamServer of libuavcan (assign, read back, empty name if the value is empty) is described in the model, from its documentation. Boards are found at once or never; progress bars and logging are left out. |
| Stud | StudModel StudSpec StudProofs StudProps | tools/studio: ParameterTree.py, the dictionary of NestedDict.py, ParameterTreeModel of param_tree.py, on the parameter tree and server of Param. int and float of a text are arbitrary partial functions; the ParamServer of libuavcan is described in the model; the widgets are left out. |
| Csend | CsendModel CsendSpec CsendProofs CsendProps | tools/config/config_send.py without the watching of the file. Starts from the value returned by the YAML parser and ends with the service calls; fractional keys, files that are no dictionary and calls that fail are left out. |
| Udp | master-firmware/src/udp_topic_broadcaster.c | pool, mailbox and network by contract |
| Unit | lib/aversive/trajectory_manager/trajectory_manager_utils.cpp (unit conversions); modes of trajectory_helpers.cpp; speeds of base_controller.cpp | over the reals |
| Circ | lib/aversive/math/geometry circles.c, norms of vect_base.c; lib/aversive/math/vect2 | machine with square roots; vect2 over the reals |
| Lie | master-firmware/src/math/lie_groups.c | reals |
| Pos | lib/aversive/position_manager, angle functions of trajectory_manager_utils.cpp, robot_helpers/math_helpers.c | machines; `cos`, `sin` of libm arbitrary in the IEEE theorems |
| Beacon | proximity-beacon-firmware proximity_beacon.c proximity_beacon_publisher.cpp; motor-control-firmware rpm.c | interleaving of interrupts and reader by memory access; machines |
| Traj | lib/aversive/trajectory_manager (core, utils), control_system_manager; master-firmware/src/base base_controller.cpp cs_port.c; robot_helpers/trajectory_helpers.cpp | reals, PID in IEEE; events atomic |
| Goto | master-firmware/src/strategy_impl/base.cpp | environment arbitrary |
| Autopos | master-firmware/src/robot_helpers/autoposition.cpp | reals, movements without slip, ideal walls |
| Map | master-firmware/src/base map.c map_server.cpp; discrete_circles.c | on top of Oa |
| Strat | master-firmware/src/strategy score.cpp color.h goals.cpp actions, strategy.cpp (game loop) | on top of Goap; mirroring over the reals |
| Spi | lib/softspi; actuator-firmware pressure_sensor.c pressure_sensor_interface.c | slave arbitrary; conversion over rationals |
| Act | actuator-firmware Command_handler safety.c servo.c pump.c pwm.c; can-io-firmware servo and pwm | rounding abstract (monotone, exact on integers) |
| Mcan | master-firmware/src/can motor_driver_uavcan.cpp uavcan_node.cpp emergency_stop_handler.cpp; motor-control-firmware/src/uavcan setpoint and emergency stop handlers | on top of Motor and Enum; the timer callback interleaves with other threads motor by motor; bus without loss |
| Proxy | master-firmware/src/can UavcanToMessagebusProxy.hpp sensor_handler.cpp actuator_handler.cpp | on top of Enum; translation arbitrary |

Not modelled: the compiler, the hardware, the RTOS (ChibiOS), libuavcan, nanopb, Eigen, ugfx, lwIP; the embedded computer and simulator code
(webot_sim, Box2D and the viewer of hitl), the rest of the sensor firmware and the wheel encoder firmware, the bootloaders, the drawing and leaf pages of the GUI, the logging and command shell,
build
scripts, protobuf definitions, UAVCAN message definitions, the other Python tools.


## Properties: what is modelled and how it is proved

| id | property | status | modules | proof | remarks |
|---|---|---|---|---|---|
| C01 | CRC checksums can be computed incrementally | proved | Crc | fold laws; xor-homomorphism of the bit step; identification with the remainder of polynomials over GF(2) | Model: bitwise CRC over N. Also identifies both checksums with polynomial remainders over GF(2). |
| C02 | CRC detects corrupted messages | proved | Crc | injectivity of the bit step; order of x modulo the polynomial by computation | Single bit errors are bursts of width 1. Odd/double error detection is extra. |
| C03 | Durations between wrapping timestamps are exact | proved | Timestamp | modular arithmetic | Conversion to float seconds is not part of the claim. |
| C04 | Trace buffer keeps exactly the most recent events in order | partial | Trace | invariant: ring buffer = last 200 of the recorded history | Full claim proved with the actual effect of print; refuted: printing a disabled trace enables it again. |
| C05 | LRU cache returns the right entry and evicts the least recently used one | proved | Lru | representation predicate of the linked list, refinement to a list of keys, induction over calls | For every capacity of at least two. Capacity one is refuted (endless lookup). |
| C06 | Anchor position lookups return the last announced position | proved | Lru | same representation with the history of announcements | The value read immediately is right; the returned pointer is not protected against later eviction (refuted). |
| C07 | UWB frames survive encapsulation | proved | Uwb | byte list computation for symbolic payloads | For every payload and buffer with room. Finding outside of the claim (refuted theorem): frames of 9 or 10 bytes, which no encapsulation produces, decode to a size near 2^32. |
| C08 | 40-bit radio timestamps: encoding and wrap-around difference | partial | Uwb | big-endian lemmas, modular arithmetic | Round trip proved. Differences are exact without wrap, one tick short with a wrap (refuted). |
| C09 | Two-way ranging computes the time of flight | partial | Uwb | run of the two handlers with symbolic clocks | For every pair of clock offsets, the reported time is within one tick, exact if no clock wraps; refutations give the two failures. |
| C10 | UWB nodes ignore frames that are not for them | proved | Uwb | case analysis of the handler on arbitrary bytes | For arbitrary received bytes. |
| C11 | CAN bus enumeration finds the right driver | proved | Enum | sortedness invariant of both tables, correctness of the binary search, induction over histories | For histories with distinct names and real CAN ids; the two refutations show that both conditions are needed. |
| C12 | Motor manager keeps one driver per id | proved | Motor | invariant of the manager by induction over calls | For ids of at most 24 characters and enumerators with room for all motors; longer ids are refuted. Other boards in the same enumerator are not modelled. |
| C13 | Motor driver stream flags report fresh data exactly once | proved | Motor | invariant of the flags by induction over events | Lock-protected sections are atomic steps. |
| C14 | MessagePack values round-trip | proved | Cmp, CmpForm | case analysis of the markers with big-endian lemmas | All reader/writer pairs; refuted for the ufix pair and for empty extensions. |
| C15 | MessagePack memory buffers are never accessed out of bounds | partial | Cmp | weakest precondition style bounds for every reader and writer | Holds while buffer size plus request stays below 2^32. A string header announcing 2^32-1 bytes and an unchecked position are refuted. |
| C16 | MessagePack object reader is total and inverse to the object writer | proved | Cmp | totality and case analysis over all object types | For every input and every object. |
| C17 | Parameter change notification is exact | proved | Param | counter invariant by induction over the tree and over the schedules | Every history, and every schedule of threads once they are idle. While calls are in progress the exact statement is refuted. Objects are declared once, before the threads start. |
| C18 | Parameter lookup by path | proved | Param | lookup specified as a relation on paths; induction on the path | For names without null bytes (C strings); the variant with explicit length is refuted for names with one. |
| C19 | Parameter enumeration visits every parameter exactly once | proved | Param | induction over the tree | The full name resolves if names are non-empty, without slash and different at the same place. The capacity of the message's name field is not modelled. |
| C20 | Saved parameters are restored | partial | Pmsg | structural induction over the tree, on top of the codec round trip | Round trip for all trees of the same shape whose defined strings leave one byte of their buffer unused; a string filling its buffer is refused by the loader (refuted). A too small buffer is not always reported (refuted), a malformed document may read out of bounds (refuted). Loading terminates on every buffer. |
| C21 | Saving the configuration is crash-safe | partial | Flash | invariant of the block list; analysis of each prefix of the programmed bytes | A save interrupted after any number of programmed bytes leaves the last complete configuration or the new one, for documents of even length that fit after the blocks; no collision of checksums has to be excluded. When the area must be erased first a crash loses everything (refuted), and a save after a crash may store a corrupted configuration (refuted). Not covered: a byte programmed in part, an interrupted erase. |
| C22 | The most recently saved configuration is the one loaded | partial | Flash | invariant of the block list, induction over saves | Documents of even length for which the writer reports a lack of room: after any sequence of saves the last is loaded, only the area is changed. For documents of odd length all later saves are lost on the F4 and the last byte is lost on the F3 (refuted), a byte may be written outside of the area (refuted), a document that is too large hangs (refuted). |
| C23 | Message bus readers see the last message published | proved | Bus | inductive invariant of the whole system (threads, locks, lists, buffers), refinement to the history of publications, progress measure | For every number of threads and every interleaving (each mutex acquisition, each copied byte, each broadcast is a scheduling point) of calls that read at most the buffer size and advertise each topic at most once: no out-of-bounds access, no endless walk, every result fits the history before it, no lost wake-up, no deadlock. The refuted theorems show what happens outside these conditions. Message bytes copied by memcpy one at a time; spurious condition variable wake-ups are not modelled. |
| C24 | Leader election: one vote per term | proved | Raft | invariant per node, induction over inputs | For one node, any inputs (messages from any sender, ticks, elections asked for) and any tick randomness. |
| C25 | Leader election safety and log safety | partial | Raft | invariant of the cluster (votes counted = votes given); refutations by explicit schedules | Election safety is proved for networks that neither duplicate votes nor deliver them after their election, and refuted without this (late or duplicated vote). Agreement of the logs and of the state machines is false of the code: three refutations with concrete schedules. Absence of undefined behaviour and numbering of logs proved for every schedule. |
| C26 | Shortest path on unit graphs | proved | Dijk | labelling invariant, induction on distance | For every graph whose edges stay in the array and that has fewer than 2^31-1 nodes. Findings: a null pointer is dereferenced exactly when no path exists; the eleventh connect of a node writes out of its table. |
| C27 | Obstacle avoidance path is valid and optimal in its visibility graph | partial | Oa | label-correcting invariant, potential argument for termination, optimality by induction on paths | For every history of calls and every geometry: the search ends and returns a cheapest path along visibility rays, or reports that there is none (or that the path has over 100 points). Missing: maps with more than 500 rays, for which the ray table overflows (refuted), and sums of lengths above int range. Visibility and lengths (float geometry) are parameters of the model. |
| C28 | Obstacle storage never overflows and polygons do not overlap | proved | Oa | allocation invariant by induction over calls | For histories whose sizes are not negative and whose vertex indices exist; a negative size is shown to break the property. |
| C29 | Plans returned by the planner are executable and reach the goal | proved | Goap | invariant of the search (parent chains are executable plans); completeness by a counting argument | For every problem whose operator== is equality and whose distances keep priorities in an int (goap_far_refuted: without this a null pointer is dereferenced). Also proved: planning finds a plan when the reachable states fit in the pool. Finding: with an exhausted pool it may answer 'no path' although there is one. |
| C30 | Planner node pool is neither leaked nor shared | partial | Goap | partition invariant of the pool | Holds at each turn unless the pool was exhausted while exactly one node was open: that node is then open and free at once (refuted by a concrete search). |
| C31 | Motor encoder feedback accumulates every tick | partial | Enc | induction over samples, arithmetic of wraps | Bounded axis: full (while the accumulator fits int32_t). Periodic axis: the range needs the encoder not to move by more than one period of the axis between two samples; refuted otherwise, since the code corrects by one period only. Positions are exact rationals in turns, not binary32. |
| C32 | Feedback stream rate divider | proved | Enc | induction over histories, prescaler arithmetic | For every history of frequency settings, enable/disable calls and updates. A requested frequency above twice the update rate gives a prescaler of 0 (outside the property): the stream then sends every 65536 updates. |
| C33 | PID integral term and output are bounded | partial | Pid | IEEE comparisons; induction over the error history | In single precision (Flocq), every gain, limit and error history. The integrator bound is complete. Missing: independence of the outputs after a reset is false for the first output when the derivative gain is not zero, because the reset keeps the previous error (refuted); proved for zero derivative gain or from the second output on. Finding: a NaN error stays in the integrator. |
| C34 | Motor controller never exceeds its configured limits | partial | Ctl | invariant of limits, induction over histories, IEEE comparisons | In single precision, for every history of requests, parameter changes and rounds. Missing: the 0 V safe state fails for a battery reading of 0 (0/0 then an undefined conversion) and for a setpoint older than 2^31 microseconds, both refuted with a witness; a NaN torque request defeats the limits. |
| C35 | Setpoint interpolation respects speed and acceleration limits | partial | Ctl | real arithmetic through the exact machine | In exact arithmetic for the real-valued limits. Missing: in position mode the speed exceeds vel_limit by up to acc_limit*dt (refuted with a witness in single precision; the bound vel_limit + acc_limit*dt is proved). |
| C36 | Motor thermal protection | proved | Ctl | real arithmetic, induction | In exact arithmetic, every current history. Findings: negative currents cool the model below the ambient temperature, and the control loop does not use the result. |
| C37 | Limiting and averaging filters | partial | Pid | induction, real arithmetic | Missing: the integer mean is wrong for negative sums (refuted with a witness). |
| C38 | Blocking detection fires after a sustained error only | partial | Enc | induction over updates | For every history of calls with fewer than 65536 consecutive exceeding updates; refuted beyond, where the 16-bit counter wraps. No false alarm for any history. |
| C39 | Wheel and polar coordinates are consistent | proved | Enc | integer arithmetic, induction over updates | For every history of commands, readings and gain changes with values below 2^30 (the code's sums overflow beyond). The gain multiplication (binary64) is an arbitrary function. Findings: wheels of different parity are not found again from polar; a gain change moves the virtual encoders. |
| C40 | Wheel encoders count through 16-bit timer wraps | proved | Enc | induction over the path of the wheel | For every path of the wheel within the range of int32_t. |
| C41 | Angles are normalised | proved | Pos | real arithmetic; IEEE rounding bounds (Flocq) | modulo: real angles of less than 2^31 turns. odometry_angle: IEEE doubles, every history, any cos and sin. |
| C42 | Point-in-polygon test is right on convex obstacles | proved | Geo | orientation determinants; exactness of binary32 on small integers | in_poly_correct: without rounding, every convex polygon and point of the plane. in_poly_float: in single precision, all integer coordinates below 4096 (the table is 3000 mm by 2000 mm). |
| C43 | Planar rotations and rigid motions form a group | proved | Lie | trigonometry | Over the reals (cosf and sinf are cos and sin, no rounding). |
| C44 | Match score and colour mirroring | proved | Strat | computation with symbolic state; real arithmetic | Score over integers for every state; mirroring over real numbers (the macros are polymorphic; binary32 rounding is not modelled). |
| C45 | Strategy actions and goals | proved | Strat | case analysis of actions; correctness of the planner (C29); invariant of the game loop | For every state, every outcome of movements and of the clock, with the real planner (150 nodes, 10 steps). Finding: a pickup that fails its last movement has changed the state although it reports a failure. |
| C46 | Software SPI exchanges bytes faithfully | proved | Spi | induction over bytes and bits | For every byte string, every history of the lines and every behaviour of the slave (a function of the history of the lines). |
| C47 | Actuators are unpowered 500 ms after the last order | proved | Act | inductive invariant over interleavings with the timer | For every interleaving of orders, statements of the handler, steps of the servo thread and ticks. Finding: the timer of the previous order may fire between the statements of the restart, which leaves the board unpowered after an order (safe side). Velocities and accelerations are finite numbers. |
| C48 | Actuator duty cycles are clamped | proved | Act | monotonicity of rounding, case analysis | For every rounding that is monotone and keeps whole numbers up to 2^24. Findings: not-a-number passes the clamps (undefined conversion); the ramp makes the applied servo pulse leave the period; the IO board scales by the timer frequency instead of the period, and enables neither of the two servo channels of timer 1. |
| C49 | UAVCAN to message bus bridge routes by sender | proved | Proxy | refinement to the bus enumerator and to the calls of the message bus | For every history of registrations, announcements and messages, with the model of the bus enumerator; any topic naming and translation. Finding: the naming of the actuator proxy maps two different board names to the same topic. |
| C50 | Remote parameter writes are type- and range-checked | partial | Param | case analysis per type | Proved for every 32-bit integer but the two extremes, which are refused; strings are read back truncated to 3 characters; too long strings stop on an assertion. |
| C51 | Obstacle map: clamping and opponent tracking | proved | Map | invariant over histories on top of the allocation of Oa; integer geometry | For every history of operations on the map, on top of the model of the path planner's tables. Findings: the polygon of the ally leaves the table; the mode that ignores opponents has no effect; a wake up of the map server for another topic counts the last opponent twice and forgets the other. |
| C52 | Trajectory end condition | proved | Traj | case analysis of the poll; induction over waiting | Every state, every set of flags. What each reason means is in TrajSpec.holds. Finding: a movement to a point is reported as reached if it is asked about before the first update of the trajectory manager. |
| C53 | Monotonic timestamps | partial | Timestamp | inductive invariant over interleavings of timer, interrupt and reads | timestamp_get: monotone for every interrupt placement, provided no overflow interrupt is lost. Refuted: following real time (one tick lost per period), and monotonicity of ltimestamp_get after 2^32 microseconds (before, it is proved). |
| C54 | Velocity ramp generator (quadramp) | proved | Quad | real arithmetic, induction over steps | For every sequence of targets and every limit, double as real numbers (binary64 rounding not modelled). Findings: the ramp overshoots its target (sign error in the braking term of the negative direction), so its output can leave the range of the targets; a speed below one unit per step never moves a positive output upwards. |
| C55 | Beacon signal pool is conserved | proved | Beacon, BeaconStart | inductive invariant over interleavings | Every interleaving of the two interrupts and of the reader's memory accesses. signal_angles: without rounding, constant speed. |
| C56 | Pressure sensor driver decodes the sensor protocol | proved | Spi | bit list arithmetic on top of Spi | For every answer of the two sensors and every history of the bus. Finding: a raw value below the sensor's minimum gives a negative pressure whose conversion to uint32_t is undefined. |
| C57 | Retry and waypoint execution of a move | proved | Goto | induction over the path and over attempts | Every path, every sequence of end reasons. Findings: with the flag NEAR_GOAL a failed attempt does not stop the robot; unlimited retries overflow the counter after 2^31 attempts. |
| C58 | Actuator board commands go to the right board and are consistent | proved | Motor | case analysis of the command sequence | For names of at most 32 characters; longer ones are refuted. |
| C59 | Parameter reads return the last value set | proved | Param | induction over histories | Every history. |
| C60 | Motor current measurement uses the right samples | proved | Ctl | induction over buffers | Buffers of 12-bit samples, more than 111 and at most 4096 conversions each. |
| C61 | A planned path stays out of the obstacles | partial | Geo | convexity: separating edges; composition with C27 | Without rounding, every convex polygon, segment, map and path. Missing: in single precision it is false, refuted with a witness (a segment along the diagonal of a square obstacle is taken for free). |
| C62 | The odometry integrates the encoders | proved | Pos | real analysis of one step (law of cosines), induction | Without rounding and without centrifugal correction (which the robot does not enable). |
| C63 | Angular difference, clamping and choice of the smallest | partial | Pos | real arithmetic; IEEE comparisons | Missing: the angular difference is out of range when the difference is below minus half a turn (refuted with a witness). argmin_minimal holds for IEEE floats. |
| C64 | Rotation measured from barrier crossings | partial | Beacon | real arithmetic, IEEE division bounds | rpm_rotation without rounding; rpm_position_partial: IEEE range of the position. Missing: a crossing between the reading of the clock and the lock gives a negative position (refuted with a witness). |
| C65 | The base goes where it is told and stays stopped | proved | Traj | ramp convergence (C54) and PID (C33) along executions | Real-valued doubles in the trajectory manager; IEEE floats in the PID. |
| C66 | Movements to a point aim at the point | proved | Traj | trigonometry of the target vector; convergence of the set points | Real-valued doubles. |
| C67 | Control modes drive the wheels as they say | proved | Traj | case analysis of the loop; invariant |  |
| C68 | The target of a trajectory is read as it was written | proved | Traj | inductive invariant over events |  |
| C69 | Aligning with a wall ends stopped against it | proved | Traj | induction over waiting |  |
| C70 | A collision is reported only when there is one | partial | Traj | inductive invariant over events | Refuted with a witness: the detector goes on using the last error of an axis which is not regulated any more. |
| C71 | Automatic positioning leads to the requested pose | partial | Autopos | geometry of the sequence of movements | Over the reals, with exact movements and ideal contact with the walls. Missing: it is false when the robot is calibrated backward, auto_position_backward proves where it ends instead (mirrored ordinate). |
| C72 | The tag's position estimate is corrected optimally | proved | Ekf | linear algebra over the reals (completing the square), induction over the history | Over the reals. correct_optimal: any dimension and measurement function. Finding: a range to an anchor which is exactly at the estimated position divides by zero, and the estimate is not a number for ever. |
| C73 | The attitude filter tracks the attitude | partial | Madg | the step is the gradient (limits of difference quotients), algebra of quaternions; NaN propagation in Flocq | Without rounding, every state and measurement. Missing: the norm is 1 only when the gradient is not zero; refuted in IEEE arithmetic with a witness (a filter already at the right attitude becomes NaN for ever), and the thread never calls the filter. |
| C74 | A data packet to send over the radio is sent exactly once | proved | Rang | inductive invariant over events (stages of the handshake); progress by emptying the lower events | Any number of threads and any interleaving; the return is a possibility theorem from every reachable state (steps of the radio thread and the caller suffice). Finding: a call made before the thread has registered for the event never returns, and blocks every later call. |
| C75 | Radio nodes keep to their role | proved | Rang, RangTimer | inductive invariant over events | For every history. rang_roles is for parameters which do not change. |
| C76 | Frames received by radio are handled safely and published unchanged | partial | Rang | case analysis of the received bytes, bounds of every buffer access | Arbitrary bytes. Missing: safety is false for frames of less than 11 or more than 1014 bytes and for a final message with equal times, rang_reception_refuted. The rounding of the distance to float is not modelled. |
| C77 | The CAN thread sends each motor its last setpoint, once per period | proved | Mcan | inductive invariant over events, refining the motor manager | Any interleaving; critical sections and operations on the enumerator atomic. The boards which are not motors are not in the enumerator of this model. |
| C78 | A motor board obeys the setpoints of its motor, and no others | proved | Mcan | consequence of the invariant and of the distinct ids | Messages are not lost on the bus. Same restrictions as C77. |
| C79 | The LEDs tell the state of the bus | proved | Mcan | induction over the history, counting | For at least one registered board, distinct names which fit in the table. |
| C80 | An emergency stop message stops the robot | partial | Mcan | induction over the history | The motor boards reboot exactly on the message. Missing: it is false of the master, mcan_estop_refuted: its subscriber is a local variable, destroyed when the init function returns; mcan_estop_static shows that a static one suffices. |
| C81 | Raft nodes keep time, and a leader sends and commits what it should | partial | Raft2 | invariants on the timers and on what is known of each peer, induction over the history | For every history of one node. Missing: the commit rule needs a majority, but one peer is enough (raft_minority_commit_refuted, C25). Finding: messages of a leader of an older term, which the node rejects, keep it from starting an election for ever. |
| C82 | A truncated or foreign configuration is reported, and saving in a short buffer is too | partial | Pmsg2 | induction over the reader in both directions against a grammar; simulation for truncation; prefix invariant of the writer | Both directions, for buffers below 4 GiB. Missing: for identifiers with null characters, or lengths which wrap in 32 bits, the loader reads outside of a buffer (pmsg_null_id_refuted, pmsg_malformed_refuted); headers of namespaces which do not fit are not reported (pmsg_short_buffer_refuted, C20). Finding: a refused configuration has already been applied up to the error. |
| C83 | A motor board computes the documented control laws, from a defined state at power-up | proved | CtlLaw, CtlStart | real arithmetic through the exact machine; induction over histories; IEEE comparisons | The laws without rounding; idle_until_requested and startup_battery in IEEE arithmetic; the bridge and the inputs in integers. |
| C84 | Lines, projections and segments | partial | GeoLine | linear algebra in the plane over the exact machine | Without rounding, every point and line of the plane. Missing: segments of which the first lies in line inside the second are answered with 0, refuted with a witness. The rounding is looked at in C42 and C61. |
| C85 | Circles and vectors | partial | Circ | quadratic equation of the radical line; trigonometry | Without rounding, for centres apart by 0.06 mm on an axis. Missing: tangent circles are answered with 2, equal circles with 1 and points that are not numbers, circles with close centres with 0 although they cross; the scaling of a polar vector does not write the angle (all refuted with witnesses). In float arithmetic the angle of two parallel vectors can be not a number. |
| C86 | Odometry from power-up, integer pose and slip correction | proved | PosStart | PosModel over exact arithmetic: execution of the power-up sequence, and algebra on one update. | Without rounding. |
| C87 | A base without orders stays at rest; targets given relative to the robot | proved | TrajStart | TrajModel with TrajStartSpec (idle events): an invariant of every history of idle events; the controllers give zero for zero error by cases on IEEE zeros. Relative targets by the addition formulas. | stays_at_rest: the controllers in IEEE single precision, the ramps over the real numbers; the conditions on events are in TrajStartSpec.idle. |
| C88 | The opponent is where the beacon sees it | partial | Opp | OppModel over the reals; OppSpec defines what a beam sees. The beam meets the disc iff the cosine of its angle to the centre is large enough; a whole turn determines the interval. | Without rounding; opponent_scanned shows that every opponent gives such a message. Missing: the coordinates published with the signal are wrong (metres added to millimetres, published_position_refuted), its readers recompute them; they use the pose of the robot at the time of the reading (opponent_displaced). |
| C89 | The collision test of a movement | partial | Opp | OppModel on top of the polygon tests proved in C42 and C61; a witness for the polar case. | Without rounding. Proved for movements to a point; missing: movements given as a distance or an angle, for which it is false (steps taken for mm, degrees for radians), refuted with a witness. |
| C90 | Speeds, units and modes of the base | partial | Unit | UnitModel on the robot of TrajModel: algebra, and what every command does to the ramps. | Without rounding. Missing: the speeds of the aligning mode hold only for a movement ordered before the next control round, refuted for every configuration with another speed. |
| C91 | Topic messages survive the trip | partial | Mproto | MprotoModel: bytes in memory with bounds; a codec is any pair of functions, faithful where it has to be. Induction over the chunks written; the frames are split by lengths. Witnesses for what is false. | The codec of nanopb is a premise (nanopb is not in /repo). Missing: the encoder reads past the topic's buffer whenever the scratch buffer is larger than the topic (encode_scratch_overread), so the positive theorems assume a scratch buffer of the topic's size at most; the receiver trusts the sizes in the message and does not look at the type number (refuted). |
| C92 | The UDP broadcaster loses nothing between its threads | proved | Udp | UdpModel: two threads stepping in any order; an invariant (a permutation of the 16 buffers, and encoded = handled ++ waiting) by induction over schedules. | The pool, the mailbox and the network stack are modelled by their contracts (ChibiOS, lwIP). |
| C93 | Calibration of the odometry finds the wheels and the track | partial | Calib | CalibModel lists the movements asked for and the arithmetic; CalibSpec is the physical robot (wheels, track, wall). Sum of tolerated movements, nearest multiple of a turn, algebra; IEEE special values by cases. | Positive theorems without rounding, over a physical model of the robot against a wall. Missing: track_calib is wrong when the error over all the turns exceeds half a turn (refuted: ten turns, a tenth); a number of rounds of 0 gives values that are not finite, a negative one does not end; new gains make the odometry jump (refuted). |
| C94 | The IMU is configured as its scales assume and its measurements are published | partial | Imu | Registers of the sensor and of the magnetometer behind it as functions; the operations of the driver interleaved with any number of exchanges; the thread and the interrupt line as a transition system with an invariant over all event lists. | Values without rounding and for registers that do not change during a reading. Missing: a measurement that arrives between the two transfers of an axis gives a torn value, and one that arrives while the thread works is lost (both refuted with witnesses). |
| C95 | Memory protection as requested | partial | Mpu | Registers of the unit as functions, decoded by an independent specification of the ARMv7-M rules; the fields of the written words by arithmetic; the null region by an invariant over lists of requests. | The unit is the one of the ARMv7-M manual. Missing: an address that is not a multiple of the length is silently rounded down (refuted; region_unaligned says what is covered). The null protection holds as long as region 7 is not given again. |
| C96 | The control panel lights what it is told and the starter starts the match | partial | Panel | Files and library as answers; an invariant that links entry, last order and last number; permutation of handles; the starter by an invariant on the tail of the readings. | Missing: full brightness is the highest less one, so a lamp with a highest brightness of 1 is never lit, and -1 is written if it cannot be read; the buttons are not implemented, so choosing a colour never ends; without a starter input the match never starts (all refuted). |
| C97 | The menus go back where the user came from | partial | Menu | Refinement of the history pointers by a stack, with the pages of the stack linked and of strictly increasing rank; widgets created and destroyed as sets of handles. | Proved for trees of pages, hence for the menus of the robot (gui_navigation). Missing: pages that lead back to themselves overwrite the history, and the timer thread may use widgets while they are destroyed (both refuted with witnesses). |
| C98 | Printing the parameters shows every parameter once, at its place, with its value | proved | Show | The text is the rendering of a list of lines; a reader of YAML written in the specification inverts it; structural induction over the tree on top of the invariants of C17-C19. | print_injection_refuted shows that the condition on strings is needed: they are printed without escapes. |
| C99 | The shell commands show and set the parameters asked for, and nothing else | partial | Show | The command is shown to do what a list of gets does, so the theorems on histories apply; the lookup theorem and the typing invariant give the effect of config_set. | Missing: showing the parameters marks them as read, so a controller misses a change; with a path the own parameters of the namespace are not shown; strings are cut at 49 characters; numbers followed by garbage are accepted; too long strings stop the robot and too large numbers are undefined (all refuted). The layout of the text of config_tree is modelled but only its effect is specified. |
| C100 | The parameter tree generated from the configuration files has exactly the entries of the files | proved | Ygen | A relation between the members of a dictionary and the calls, the paths of the namespaces and the paths and values of the parameters, proved equal to the generator; induction on it gives the names, so that the theorems on lookups (C18) apply. | ygen_empty_refuted shows that the condition on empty dictionaries is needed. |
| C101 | The configuration of the robot is the one of its file, under the names of the file | partial | Ygen | A heap with extra namespaces at the end is shown to commute with every operation; the lookups in the copies are those in the originals; the document is a document of C20 through the relation of C100. | Missing: the public namespaces never report a change (config_transparent, config_changes_refuted), because they are copies made by memcpy. The document loaded is that of the section master; the sections of the actuators are loaded in namespaces that the motor drivers declare (C20 for one document on any tree). Strings of 16 bytes or more and integers of more than 32 bits are accepted by the generator but are not loaded (refuted). |
| C102 | A motor board sends each feedback message at the rate asked for it, with the measures of the moment | partial | Strm | invariant over histories of writes, uses of the tree and turns: the value, the changed mark and the divider of each stream; the report of changes of the namespace by the theorem of the parameter tree (C17). | Missing: turns are counted from the last write of any frequency of the streams, not of the own one: a write to one stream, even of the same value, restarts all (strm_rate_refuted: a stream at 50 Hz never sends while another frequency is written before each turn). |
| C103 | The UWB beacon broadcasts on the CAN bus what its topics publish, and nothing that its parameters exclude | partial | Tpub | invariant of the interleaving (what is watched, signaled, read has been published); counting of the notifications under way; progress of a notification through the watcher and the loop by phases. | Missing: "exactly once". Delivery is proved for positions and data packets when the watcher is waiting at the publication and nothing else is published until the broadcast (tpub_delivery). Otherwise a publication can be lost (tpub_lost_refuted) or broadcast twice (tpub_twice_refuted); IMU, attitude and ranges are never broadcast (tpub_others_refuted). A received position is broadcast again with an unset time (tpub_echo_refuted). Data packets are shorter than 1024 bytes. |
| C104 | The sensor board broadcasts each measured distance and color, as measured | partial | Tof | the sensor is a state machine advanced by each transfer; induction on the fuel of each wait, then on the turns, with the invariant "ready, no interrupt pending, sample interrupt enabled". | Missing: the claim under failed transfers, which is false. Without failures the start and the messages of any number of turns are exact (tof_start, tof_color_start, tof_exact_partial, tof_distance_only). One lost order to measure blocks the board for ever (tof_lost_start_refuted); a failed read is broadcast as a valid distance or color (tof_garbage_refuted, tof_garbage_color_refuted); an old distance can be sent as new (tof_stale_refuted). |
| C105 | Following a line | partial | Curv | the projection and the aim are characterised by plane geometry (foot of the perpendicular, direction of the line), the angle by the unique solution of the polar equations; induction on the periods. | Missing: lines given by twice the same point, for which the claim is false (curv_line_degenerate_refuted), and windows with a zero start angle, for which the code divides by zero. Numbers are reals: rounding is not modelled. |
| C106 | Moving on a circle | partial | Curv | real algebra on the ratio of the speeds; the correction is evaluated for a center on the left and on the right. | Missing: the flags, which are ignored, so that the claim is false with the center on the right (curv_circle_flags_refuted). Where the center is not on the side of the robot, curv_circle_correction gives the corrected radius. |
| C107 | Turning from one line to another by clothoids | proved | Curv | the center is computed in the frame of the first line and shown symmetric about the bisector; everything else follows by the addition formulas. The whole of calc_clitoid is reduced to a closed formula (turn_calc). | For turns by less than 180 degrees whose arc has the direction of the turn. The clothoid is the series of the Fresnel integrals to four terms, as in the code; numbers are reals. |
| C108 | Memory protection through any sequence of calls, also in the middle of one | partial | Mpu | invariant between the registers and the last request of each region, by induction on the calls; the fields of the registers by div/mod algebra as in C95. | From a unit with all regions disabled, as at reset. Missing, because false: moving a region that is in use exposes the new base with the old length (move_atomic_refuted); setting up an unused region is atomic (setup_atomic_partial). |
| C109 | Simulator: boards obey their own commands and forces are limited | partial | Hitl | folds over the messages against the last message for the node; lives of the actuator board by induction. | Missing, because false: forces have no upper limit (hitl_force_refuted), the actuator outputs are read before the first command although nothing wrote them (hitl_actuator_refuted; with a command first everything holds, for servo commands up to 40 and pumps up to 1), one border is at 1850 m (hitl_borders_refuted). |
| C110 | Simulator: the odometry of the master follows the simulated robot | partial | Hitl | invariant between wheels, published values and the robot system of the master by induction on an interleaving of periods and updates; composed with C62. | In real arithmetic. The distance is proved. Missing, because false: the direction turns by 212/174 of the true angle (hitl_heading, hitl_direction), wrong for every turn of a hundredth of a radian or more (hitl_heading_refuted). |
| C111 | Simulator: the master sees the simulated opponent where it is | partial | Hitl | polar form of the two positions, bounds of sin and cos by their series. | In real arithmetic, from 10 cm on, for the pose of the simulation. Missing, because false: the opponent is put 38.9 to 41 mm from where it is (hitl_beacon_refuted). |
| C112 | The IP over CAN adapter protects the bus and forwards the rest | partial | Lim | induction on the arrivals with the quota as potential; the largest burst as an explicit traffic. | In real arithmetic. Proved: at most rate * (1 + T) packets in any time T (lim_window), and the forwarding of packets of less than 1024 bytes at more than one packet per second with a clock that does not go back. Missing, because false: at most rate in each second (up to 2 * rate - 1, lim_per_second_refuted); a rate of one lets nothing through (lim_one_per_second_refuted); a clock set back (lim_clock_set_back_refuted); packets of 1024 to 1500 bytes (lim_long_packet_refuted). |
| C113 | Each value of a configuration file becomes one parameter | partial | Upl | nested induction on the tree; injectivity of joining with slashes. | Proved for keys without slash; with one, two values can have the same name (upl_parameters_slash_refuted). |
| C114 | Uploading a configuration leaves the boards with its values | partial | Upl | induction on the requests with the boards as histories of calls, composed with the theorems of C50 and C59; injectivity of paths in the namespace tree. | Proved for values of the type of their parameter (integers but the two extremes), with all else unchanged; it finishes if no message is lost. Missing, because false: values of another type are silently ignored, a lost message makes it wait for ever, the end does not mean saved, a text stops it half-way (the refuted theorems). |
| C115 | The parameter editor shows all the parameters of a board | partial | Stud | induction on the requests over the enumeration of C19; get after set of the dictionary by induction on the path. | Proved when every parameter has a value of a type that can be sent and no answer is lost; in general a beginning of the list is proved. Missing, because false: a parameter without a value hides those after it (stud_hidden_refuted), a lost answer too; a parameter named like a namespace beside it ends the fetching (stud_clash_refuted). Texts show their first three characters (C50). |
| C116 | Editing a parameter in the studio sets it to what was entered | partial | Stud | the remote write is the local set (history extended by one call); composed with C59. | Proved for integers (but the two extremes) and reals. Missing, because false: "False" sets a boolean to true (stud_edit_bool_refuted); a text too long stops the board (stud_edit_text_refuted). |
| C117 | The configuration tool sends the values of the file to the master board | partial | Csend | induction over the nested dictionary; the cutting by cases on the entry "actuator". | Proved for every file, completeness for files in which no dictionary has two keys with the same text. Missing, because false: 1 and "1" in one dictionary lose a value (csend_collision_refuted); an empty entry "actuator:" stops the tool before anything is sent (csend_no_actuators_refuted). |

No property had to be left out as not expressible.


## Findings

Behaviours of the code that contradict what a user would expect; most have a theorem (`..._refuted`) with a witness.

* Timestamp: one tick is lost at each overflow of the timer; `ltimestamp_get` may go backwards.
* Trace: printing a disabled trace enables it again.
* LRU cache: endless lookup with a capacity of one; pointers returned by the anchor cache are reused after eviction.
* UWB: frames of 9 or 10 bytes decode with a payload size near 2^32; differences of 40-bit times are off by one when they wrap.
* Bus enumerator: CAN id 255 and duplicate names break lookups. Motor ids above 24 and actuator names above 32 characters overflow or alias.
* MessagePack: a string header of 2^32 - 1 bytes overflows the size check; `set_pos` is unchecked; the ufix pair and empty extensions do not round trip.
* Parameters: change flags are transiently wrong while another thread writes; the remote server refuses the two extreme integers, truncates strings to 3 characters,
  stops on long strings; full names may clash when a name contains a slash.
* Saved configuration: strings filling their buffer are refused on load; too small buffers are not always reported; malformed documents read out of bounds.
* Flash: a crash while the area is erased loses everything; a save after a crash may store a corrupt configuration; documents of odd length lose later saves (F4) or their last byte (F3);
  a document too large hangs; a byte may be written outside of the area.
* Message bus: reading more bytes than the buffer; advertising twice; messages published before the wait are missed.
* Raft: two leaders in one term after a late or duplicated vote; diverging logs; entries applied twice; commit by a minority.
* Dijkstra: null pointer dereferenced when there is no path; the eleventh connection is written out of the table.
* Obstacle avoidance: ray table overflows above 500 rays; copying the structure keeps pointers to the original.
* Planner: a node may be open and free at once when the pool is exhausted; it then may say that there is no plan.
* Encoders: an axis moving more than one period between samples leaves its range; the accumulator overflows; prescaler 0 for fast stream requests;
  the blocking counter wraps at 65536; a change of wheel gains moves the virtual encoders.
* PID: reset keeps the previous error; a NaN error stays in the integrator and passes the limits. `mean_int16` is wrong for negative sums.
* Motor controller: battery reading 0 gives 0/0 and an undefined conversion; setpoints older than 2^31 us are valid again; NaN torque; speed exceeds its limit by up to acc*dt in position mode;
  thermal protection uses the signed current and its result is not used (control.c:431); current_limit is recomputed only when torque_limit changes.
* Ramp generator: overshoots (sign error of the braking term), gets stuck below one unit per step.
* Geometry: in single precision a path along the diagonal of an obstacle is taken for free; `trajectory_crosses_obstacle` mixes units; integer casts of positions out of range.
* `angle_delta` is out of range when the difference is below minus half a turn.
* rpm.c reads the clock before taking the lock: negative position; positions are wrong when the rotor stops for more than 2^31 us.
* Trajectories: a movement to a point is reported as reached before the first update of the trajectory manager; an axis that is no more regulated keeps its last error in the blocking detector;
  commands without `robot.lock` race with the control loop; speeds set by the aligning/game modes are overwritten in the next period; opponent and ally end reasons are never reported.
* Moves with avoidance: with NEAR_GOAL a failed attempt leaves the robot moving; unlimited retries overflow a counter; the map lock is held during the whole movement.
* Automatic positioning ends at the mirrored ordinate when the robot is calibrated backward.
* Map: the polygon of the ally leaves the table; the mode that ignores opponents has no effect; a wake-up for another topic counts the last opponent twice.
* Strategy: a pickup that fails in its last movement has changed the state although it reports a failure.
* Actuator board: an order racing with the timer leaves the board unpowered; NaN passes clamps; the servo pulse leaves its period; the IO board scales by 1e6 instead of the period, and its channel
  mask uses a logical or.
* UAVCAN proxies: two board names give the same topic. Pressure sensor: a raw value below the minimum is an undefined conversion.
* Position estimation: a range to an anchor which is exactly at the estimated position (the initial estimate is the origin) divides by zero, and the estimate is not a number for ever.
* Attitude filter: it normalises the gradient without testing for zero, so a filter which is already at the right attitude becomes NaN for ever (level board without magnetometer: at the first update);
  the thread of the tag never calls the filter, and always publishes the initial attitude.
* Radio thread: a data packet sent before the thread has registered for its event blocks its caller and all later ones for ever; a received data frame of 9 or 10 bytes makes the copy to the
  message overrun its buffer; answering a frame of more than 1014 bytes overruns the receive buffer; the event of the tag position timer is never handled.
* CAN node: the subscriber for emergency stops is a local variable of its init function, so the master never reacts to the message.
* Raft: messages of a leader of an older term, although rejected, restart the election timer, and can keep a node from starting an election for ever.
* Parameters: a configuration that is refused has been applied up to the error; a null character in an identifier makes the loader read outside of a name.
* Geometry: `circle_intersect` never answers 1 for tangent circles (2, twice the same point), answers 1 with NaN points for equal circles, and misses crossings of circles with close centres;
  `intersect_segment` answers 0 for a segment in line inside another; `vect2_scale_pol` leaves the angle of its result unwritten; `vect2_angle_2vec_rad_cart` of (1, 1) and itself is NaN in floats.
* Opponent detection: the published coordinates of the opponent add a distance in metres to a position in millimetres; the map places a signal of up to half a second ago with the current pose.
* `trajectory_crosses_obstacle`: for movements that are not to a point it takes encoder steps for millimetres and degrees for radians, and misses an obstacle right ahead.
* Aligning mode: the control loop overwrites the speeds that `trajectory_set_mode_aligning` sets within 10 ms, so only a movement ordered at once is slow; the second push against a wall of the
  automatic positioning goes at the configured speed. The same holds for the speed of 300 mm/s set in `strategy_auto_position`.
* Topic messages: `messagebus_encode_topic_message` asks the topic for scratch_len bytes, and `messagebus_topic_read` copies that many: with a scratch buffer larger than the topic (512 in the UDP
  broadcaster) it reads past the topic's buffer. `messagebus_inject_encoded_message` ignores its length argument and reads wherever the sizes in the message say; it does not check the type number;
  a topic without metadata (`/encoders`) is a null dereference, one of more than 1024 bytes overflows a static buffer.
* Calibration: `track_calib` takes the angle modulo a turn, so the more turns are asked for the less error it can see (ten turns hide an error of a tenth); both commands divide by zero for a count of 0
  and `wheel_calib` with a negative count does not end; the gains multiply the counts since power-up, so applying new gains makes the pose jump by (change of gain) x (way since power-up).
* Imu: every axis is read with two separate transfers while the sensor goes on measuring, so a value can mix two measurements (gyro_torn_refuted). The comment
  "continuous mode" beside the write of CNTL2 describes what is in fact a soft reset. The temperature comes with one message in 101, not 100.
* Mpu: mpu_configure_region rounds an unaligned address down silently. mpu_init is called nowhere in the repository.
* Panel: a lamp is lit with max_brightness - 1: never for LEDs that can only be on or off. control_panel_button_is_pressed always answers false, so
  wait_for_color_selection (used before automatic positioning) never returns. LED_YELLOW and LED_GREEN cannot be opened.
* Menu: the history is kept in the pages, so entering a page that is already in the history loses it. The timer callback runs in ugfx's timer thread without
  a lock, and may write to widgets that are being destroyed.
* Show: the shell command config_tree reads with parameter_*_get, which clears the changed flags: showing the configuration between a change and the next
  cycle of the controller makes the controller miss the change. config_tree with a path skips the parameters of the namespace itself. config_set with a
  string longer than the parameter fails an assertion. parameter_print writes strings without escapes, so a string with an end of line reads as other parameters.
* Ygen: global_config and master_config are copies (memcpy) of the namespaces of the generated tree, whose parameters and namespaces point to the originals:
  parameter_namespace_contains_changed(&global_config) and (&master_config) are always false. (The base controller asks namespaces below them, which works.)
  An empty dictionary in a configuration file makes the generator fail, or silently drops the namespaces around it. A string of 16 bytes or more, and an
  integer of more than 32 bits, pass the generator; the first stops the load, the second leaves the parameter without a value (on the master, the warning
  itself is reported by ERROR, which exits).
* **Feedback streams restart together** (uavcan_streams.cpp 114-122, stream.c 11-18): a write to any of the seven frequencies makes the next turn set all seven dividers again, which clears their counters. A stream whose divider is 2 or more sends nothing while another frequency is written at each turn (`strm_rate_refuted`).
* **Beacon: topics that are never broadcast** (topics_publisher.cpp 55-93): the pointers to the IMU, attitude and range topics stay null and these topics are not watched, so publish/imu, publish/attitude and publish/range have no effect (`tpub_others_refuted`).
* **Beacon: lost and repeated broadcasts** (topics_publisher.cpp 78-94): the watch group keeps only the last topic and the semaphores are binary: a data packet followed by a position before the watcher runs is lost (`tpub_lost_refuted`); a packet published between the take of the semaphore and the read is sent twice, the one before never (`tpub_twice_refuted`).
* **Beacon: echo of positions** (position_handler.cpp 13-29): a position received from the bus is published with unset timestamp, z and variance_z, and with publish/tag_positions on it is broadcast again (`tpub_echo_refuted`): two such boards send it to each other without end.
* **Sensor board: one lost transfer stops it** (vl6180x.c 22-40): the waits of vl6180x_measure_distance have no end and results of transfers are ignored; if the write of SYSRANGE__START is lost the board waits for ever and also stops sending colors (`tof_lost_start_refuted`).
* **Sensor board: garbage broadcast as measured** (vl6180x_chibios.c 12-18, ColorRGBC_pub.cpp): when a read fails, the uninitialised variables are broadcast (`tof_garbage_refuted`, `tof_garbage_color_refuted`); a failed read of the interrupt status repeats the previous distance as a new one (`tof_stale_refuted`).
* **Flags of circles are ignored** (trajectory_manager_core.cpp 523-588, 691-728): the comment promises forward or backward and clockwise or not, but no code reads the flags. With the center on its right the robot is sent on a circle of more than seven times the radius (`curv_circle_flags_refuted`).
* **A line through twice the same point** (trajectory_line_abs, and trajectory_clitoid when the turn begins at once) makes each period divide zero by zero and convert the result to an integer (`curv_line_degenerate_refuted`).
* trajectory_manager_line_event holds the lock of the position when it calls pos_mm2imp and pos_rd2imp, which take it again: with a writer waiting in between this blocks for ever. Read in the code; locks are not modelled here.
* **Moving a protected region is not atomic** (mpu.c 39-40): the base is written before the attributes and the region is not disabled in between; an interrupt there can fault on memory that is open before and after (`move_atomic_refuted`).
* **The simulator does not limit forces upwards** (hitl/main.cpp 34-43): clamp returns the value instead of the maximum when it is above it, so 12 V on both motors pushes with -8 N and 12 N (`hitl_force_refuted`).
* **The simulated robot turns less than the master thinks** (config_simulation.yaml 11, hitl/main.cpp 208): the track is 174 mm in the configuration and 212 mm in the simulation; each turn is overestimated by 22% (`hitl_heading_refuted`).
* **The emulated beacon gives the middle of the reflector as the start of the signal** (hitl/ProximityBeaconEmulator.cpp 37-42): the master adds half the length again and puts the opponent 4 cm beside (`hitl_beacon_refuted`).
* **The emulated actuator board reads outputs that were never written** until the first command (hitl/actuator_board_emulator.h 29-31, main.cpp 279-282; `hitl_actuator_refuted`). The positions of the beacon emulator are not initialised either until the first period (read in the code).
* **A border of the simulated table is at 1850 m** (hitl/main.cpp 131; `hitl_borders_refuted`).
* **IP adapter: twice the rate** (tools/uavcan_ip_interface.py 82-100): the quota starts at and is limited to one second of traffic, so that 2 * rate - 1 packets can pass within a second (`lim_per_second_refuted`); `--packets-per-second 1` lets nothing through, ever (`lim_one_per_second_refuted`); it uses the wall clock: after it is set back by an hour everything is dropped for an hour (`lim_clock_set_back_refuted`).
* **IP adapter: a packet of 1024 bytes or more ends the forwarding** (tools/uavcan_ip_interface.py 107, 136): the interface delivers up to 1500 bytes, and the assertion ends the thread that broadcasts while the others go on (`lim_long_packet_refuted`).
* **Config upload: ignored values** (tools/motor_config_loader.py 70-75, parameter_server.cpp 80-93): `kp: 3` is sent as an integer, the board ignores it and answers with its old value, and the upload reports success (`upl_integer_for_scalar_refuted`).
* **Config upload: waits for ever** (tools/motor_config_loader.py 84-93): the exceptions for a lost answer or an unknown parameter are raised in the thread that should release the semaphore (`upl_lost_answer_refuted`). The answers to the save requests are not waited for: the program ends normally with nothing saved (`upl_unsaved_refuted`; `RuntimError` on line 106 is misspelt, too).
* **Studio: entering "False" sets a boolean to true** (ParameterTree.py 49-50, param_tree.py 182): the text is converted with bool(), true for all but the empty text (`stud_edit_bool_refuted`).
* **Studio: a parameter without a value hides the following ones** (ParameterTree.py 99-100): the server answers with an empty name for it, which the studio takes for the end of the list; a timeout ends it as well, and "successfully fetched" is logged (`stud_hidden_refuted`, `stud_fetch_partial`). All parameters of the beacon and of the motor board have default values.
* **Configuration tool: 1 and "1"** (tools/config/config_send.py 13-21): the keys become texts without a check that they stay different; the later value silently replaces the earlier (`csend_collision_refuted`). An entry `actuator:` with nothing below stops the tool with an exception, and no other section is sent (`csend_no_actuators_refuted`).


## Axioms of each theorem

Output of `Print Assumptions`, abbreviated: `none` = closed under the global context; `F` = `ClassicalDedekindReals.sig_forall_dec`; `N` = `ClassicalDedekindReals.sig_not_dec`; `E` = `FunctionalExtensionality.functional_extensionality_dep`; `C` = `Classical_Prop.classic`. All four are in the standard library of Coq: `F`, `N` and `E` come with its real numbers, `C` with the proofs of Flocq about IEEE-754.

| file | axioms | theorems |
|---|---|---|
| ActProps | EF | `canio_pulse_refuted`, `pump_extremes`, `pump_monotone`, `servo_set_value`, `servo_target` |
| ActProps | EFN | `busy_order`, `nan_refuted`, `order_effect`, `order_powers`, `order_race_refuted`, `outputs_in_range`, `powered_recent_order`, `pump_pulse_value`, `servo_pulse_refuted`, `servos_released`, `unpowered_after_timeout` |
| ActProps | none | `actuator_channels`, `canio_channels_refuted`, `ccer_enables` |
| AutoposProps | EFN | `align_y_forward`, `auto_position_backward`, `auto_position_partial` |
| BeaconProps | CEFN | `rpm_position_partial`, `rpm_position_race_refuted` |
| BeaconProps | EFN | `rpm_rotation`, `signal_angles` |
| BeaconProps | none | `buffers_conserved`, `none_lost`, `reader_drains`, `signals_in_order` |
| BeaconStartProps | EFN | `signal_before_rotation` |
| BeaconStartProps | none | `no_signal_before_light` |
| BusProps | none | `bus_advertise_twice_refuted`, `bus_callbacks`, `bus_early_publish_missed_refuted`, `bus_events`, `bus_exclusion`, `bus_find`, `bus_find_blocking`, `bus_find_not_lost`, `bus_group`, `bus_group_not_lost`, `bus_independent`, `bus_long_read_refuted`, `bus_no_deadlock`, `bus_notified`, `bus_published`, `bus_read`, `bus_read_last`, `bus_refused`, `bus_refused_changes_nothing`, `bus_safe`, `bus_short_message_tail_refuted`, `bus_stats`, `bus_wait`, `bus_wait_not_lost` |
| CalibProps | CEFN | `track_calib_zero_refuted`, `wheel_calib_zero_refuted` |
| CalibProps | EF | `reading_error` |
| CalibProps | EFN | `track_calib_finds_track_partial`, `track_calib_finds_track_refuted`, `wheel_calib_balances`, `wheel_calib_residual` |
| CalibProps | none | `calib_jump_refuted`, `wheel_calib_negative_refuted` |
| CircProps | CEFN | `vect2_angle_correct`, `vect2_angle_refuted`, `vect2_conversions_correct`, `vect2_lengths_correct`, `vect2_sums_correct` |
| CircProps | EFN | `circle_intersect_close_refuted`, `circle_intersect_correct_partial`, `circle_intersect_one_refuted`, `circle_intersect_same_centre`, `circle_intersect_same_refuted`, `norms_correct`, `vect2_scale_pol_in_place`, `vect2_scale_pol_refuted`, `vect_resize_correct`, `vect_resize_zero` |
| CmpFormProps | none | `cmp_fixext_round_trip`, `cmp_one_format_headers`, `cmp_one_format_payloads`, `cmp_sized_ext_round_trip`, `cmp_small_formats_refuse` |
| CmpProps | none | `cmp_any_int_encoding_read`, `cmp_bin_round_trip`, `cmp_codec_stays_inside`, `cmp_ext_empty_refuted`, `cmp_ext_round_trip`, `cmp_fixed_width_round_trip`, `cmp_header_round_trip`, `cmp_mem_read`, `cmp_mem_write`, `cmp_mem_write_ro`, `cmp_narrow_round_trip`, `cmp_object_round_trip`, `cmp_read_object_total`, `cmp_read_str_inside_refuted`, `cmp_read_str_stays_inside_partial`, `cmp_scalar_round_trip`, `cmp_set_pos_unchecked_refuted`, `cmp_sint_round_trip`, `cmp_str_round_trip`, `cmp_ufix_round_trip_refuted`, `cmp_uint_round_trip` |
| CrcProps | none | `crc16_detects_bursts`, `crc16_detects_double_errors`, `crc16_detects_odd_errors`, `crc16_fits`, `crc16_incremental`, `crc16_init_injective`, `crc16_is_remainder`, `crc16_linear`, `crc32_affine`, `crc32_detects_bursts`, `crc32_detects_double_errors`, `crc32_fits`, `crc32_incremental`, `crc32_init_injective`, `crc32_is_remainder`, `remainder_unique` |
| CsendProps | none | `csend_collision_refuted`, `csend_complete_partial`, `csend_driver_first`, `csend_driver_once`, `csend_no_actuators_refuted`, `csend_number_keys`, `csend_once`, `csend_one_value`, `csend_sends`, `csend_small`, `csend_sound` |
| CtlLawProps | EF | `approach_limited` |
| CtlLawProps | EFN | `cascade_law`, `circular_error_shortest`, `position_demand`, `round_law`, `stage_law`, `torque_demand`, `trajectory_demand`, `velocity_demand`, `voltage_law` |
| CtlProps | CEFN | `duty_cycle_limited`, `limits_in_force`, `nan_defeats_limits`, `position_interpolation_refuted`, `pwm_set_limited`, `safe_state_partial`, `safe_state_refuted_battery`, `safe_state_refuted_wrap`, `setpoints_limited` |
| CtlProps | EFN | `position_interpolation_partial`, `thermal_ambient_refuted`, `thermal_limit`, `thermal_limit_effective`, `thermal_range`, `velocity_interpolation`, `velocity_reached` |
| CtlProps | none | `adc_mean_in_range`, `adc_measures`, `bridge_applies`, `bridge_limited`, `bridge_recharges` |
| CtlStartProps | CEFN | `idle_until_requested`, `startup_battery`, `startup_low_battery` |
| CtlStartProps | EFN | `adc_current`, `pid_new_law`, `pid_new_law_rate`, `pid_new_proportional`, `startup_rest`, `thermal_from_cold`, `thermal_new`, `velocity_history` |
| CtlStartProps | none | `adc_inputs`, `bridge_holds_duty`, `bridge_recharge_holds_duty`, `bridge_starts_off` |
| CurvProps | CEFN | `curv_circle_correction`, `curv_circle_end`, `curv_circle_flags_refuted`, `curv_circle_follow_partial`, `curv_line`, `curv_line_degenerate_refuted`, `curv_line_no_end`, `curv_line_returns`, `curv_line_safe`, `curv_line_straight`, `curv_turn_accepted`, `curv_turn_begins`, `curv_turn_refused` |
| CurvProps | EF | `curv_circle_speeds`, `curv_turn_speeds` |
| CurvProps | EFN | `curv_turn_path` |
| DijkProps | none | `dijkstra_connect`, `dijkstra_connect_overflow_refuted`, `dijkstra_shortest`, `dijkstra_unreachable_refuted` |
| EkfProps | EF | `correct_defined`, `correct_improves`, `correct_optimal`, `predict_covariance` |
| EkfProps | EFN | `estimator_at_anchor_refuted`, `estimator_history`, `estimator_turn`, `range_correction`, `range_model` |
| EncProps | none | `bd_blocked_partial`, `bd_max_seen`, `bd_no_false_alarm`, `bd_wrap_refuted`, `feedback_bounded`, `feedback_bounded_overflow_refuted`, `feedback_periodic_partial`, `feedback_periodic_refuted`, `feedback_two_encoders_partial`, `feedback_velocity`, `gain_change_refuted`, `odometry_displacement`, `polar_overflow_refuted`, `polar_wheels_polar`, `rs_follows`, `stream_disabled`, `stream_fast_request_refuted`, `stream_prescaler`, `stream_sends`, `wheel_displacement`, `wheel_follows`, `wheel_half_range_refuted`, `wheel_overflow_refuted`, `wheels_polar_wheels`, `wheels_polar_wheels_refuted` |
| EnumProps | none | `enumerator_counts`, `enumerator_duplicate_refuted`, `enumerator_id_255_refuted`, `enumerator_lookup_by_can_id`, `enumerator_lookup_by_name` |
| FlashProps | none | `flash_appends`, `flash_crash_full_refuted`, `flash_crash_load_partial`, `flash_crash_partial`, `flash_erases_when_full`, `flash_f3_even_partial`, `flash_f3_odd_refuted`, `flash_last_saved_partial`, `flash_odd_saves_refuted`, `flash_one_page_refuted`, `flash_outside_refuted`, `flash_save_after_crash_refuted`, `flash_save_in_area_partial`, `flash_save_odd_partial`, `flash_saves_partial`, `flash_too_big_refuted`, `flash_walk_outside_refuted` |
| GeoLineProps | EFN | `inside_circle_correct`, `intersect_line_correct`, `intersect_segment_complete_partial`, `intersect_segment_refuted`, `intersect_segment_sound`, `line_translate_correct`, `proj_pt_line_correct`, `pts2line_correct` |
| GeoProps | CEFN | `crossing_rounding_refuted`, `in_poly_float` |
| GeoProps | EFN | `crossing_correct_partial`, `in_poly_correct`, `path_avoids_obstacles_partial` |
| GoapProps | none | `goap_far_refuted`, `goap_finds`, `goap_finds_climbing`, `goap_gives_up_refuted`, `goap_plan`, `goap_pool_partial`, `goap_pool_shared_refuted` |
| GotoProps | none | `goto_avoid_lock`, `goto_avoid_near_refuted`, `goto_avoid_opponent`, `goto_avoid_stops`, `goto_avoid_waypoints`, `retry_attempts`, `retry_defined`, `retry_overflow_refuted` |
| HitlProps | CEFN | `hitl_beacon_far`, `hitl_beacon_partial`, `hitl_beacon_refuted` |
| HitlProps | EF | `hitl_actuator_partial`, `hitl_actuator_refuted`, `hitl_feedback_partial`, `hitl_force_partial`, `hitl_force_refuted` |
| HitlProps | EFN | `hitl_direction`, `hitl_heading`, `hitl_heading_refuted`, `hitl_odometry`, `hitl_safe` |
| HitlProps | F | `hitl_motor`, `hitl_servo` |
| HitlProps | none | `hitl_borders_refuted`, `hitl_cups_mirrored`, `hitl_cups_on_table` |
| ImuProps | EF | `imu_configured` |
| ImuProps | EFN | `acc_value`, `gyro_torn_refuted`, `gyro_value`, `mag_value`, `temp_value` |
| ImuProps | none | `imu_loses_refuted`, `imu_never_stalls`, `imu_no_duplicate`, `imu_timestamp_wraps`, `temperature_rate` |
| LieProps | CEFN | `rigid_is_transform` |
| LieProps | EFN | `chain_acts`, `chain_assoc`, `chain_identity`, `chain_inverse`, `inverse_acts`, `inverse_undoes`, `rotate_compose`, `rotate_direction`, `rotate_inverse`, `rotate_rigid`, `transform_determines`, `transform_rigid` |
| LimProps | EF | `lim_broadcast_partial`, `lim_broadcast_prefix`, `lim_clock_set_back_refuted`, `lim_conforming`, `lim_long_packet_refuted`, `lim_one_per_second_refuted`, `lim_per_second_refuted`, `lim_window` |
| LruProps | none | `anchor_cache_lookup_refreshes`, `anchor_cache_never_wrong`, `anchor_cache_recent_available`, `anchor_pointer_stable_refuted`, `lru_capacity_one_refuted`, `lru_evicts_least_recent`, `lru_get_finds`, `lru_never_stuck` |
| MadgProps | CEFN | `attitude_never_changes_refuted`, `level_board_refuted`, `nan_for_ever_refuted` |
| MadgProps | EFN | `correction_descends`, `filter_unit_partial`, `imu_update`, `mag_update`, `no_acceleration_update`, `no_field_update`, `seen_is_rotation` |
| MapProps | EF | `around_covers`, `around_covers_only`, `rectangle_covers` |
| MapProps | EFN | `map_avoids_opponents`, `map_bounding_box`, `map_contents`, `map_ignore_opponents_refuted`, `map_on_table`, `map_on_table_refuted`, `map_server_contents`, `map_server_two_opponents_refuted`, `map_set_opponent` |
| McanProps | none | `mcan_board_estop`, `mcan_board_power`, `mcan_cycle`, `mcan_delivered`, `mcan_estop_refuted`, `mcan_estop_static`, `mcan_foreign`, `mcan_ids_distinct`, `mcan_power_back`, `mcan_power_led`, `mcan_ready_led`, `mcan_sends` |
| MenuProps | none | `gui_navigation`, `menu_cycle_refuted`, `menu_navigation_partial`, `menu_timer_refuted` |
| MotorProps | none | `actuator_command`, `actuator_long_name_refuted`, `motor_create`, `motor_feedback_dispatch`, `motor_long_id_refuted`, `motor_setpoint_keeps_streams`, `motor_setpoints`, `motor_stream_fresh`, `motor_stream_keeps_setpoint`, `motor_stream_no_other_flags` |
| MprotoProps | none | `encode_in_bounds_partial`, `encode_inject`, `encode_message_partial`, `encode_refused`, `encode_scratch_overread`, `encode_scratch_refuted`, `encode_succeeds_partial`, `inject_effect`, `inject_message`, `inject_overread_refuted`, `inject_type_refuted`, `inject_unfit_refuted`, `inject_unknown` |
| MpuProps | none | `move_atomic_refuted`, `null_always_faults`, `null_unprotected_refuted`, `protection_of_calls`, `ram_not_executable`, `region_as_asked_partial`, `region_as_asked_refuted`, `region_too_small`, `region_unaligned`, `rest_default`, `setup_atomic_partial`, `setup_between` |
| OaProps | none | `oa_copy_refuted`, `oa_declare`, `oa_init_empties`, `oa_negative_size_refuted`, `oa_path_partial`, `oa_rays_overflow_refuted`, `oa_search_partial`, `oa_storage` |
| OppProps | CEFN | `crosses_polar_refuted`, `crosses_to_point`, `opponent_located`, `opponent_scanned`, `published_position_refuted` |
| OppProps | EFN | `beacon_angle_range`, `beacon_needs_parameters`, `opponent_displaced` |
| PanelProps | none | `color_never_refuted`, `handles_once`, `input_missing`, `input_reads`, `lamp_follows_orders`, `lamp_missing_ignored`, `lamp_on_off_refuted`, `lamp_unread_refuted`, `starter_exact`, `starter_lamp`, `starter_missing_refuted` |
| ParamProps | none | `param_changed_exact`, `param_changed_flag`, `param_changed_then_get_refuted`, `param_changed_threads`, `param_contains_changed_transient_refuted`, `param_enumeration`, `param_find_embedded_nul_refuted`, `param_find_exact`, `param_full_name_clash_refuted`, `param_full_name_resolves`, `param_get_is_its_steps`, `param_namespace_find_exact`, `param_path_components`, `param_path_unique`, `param_read_last`, `param_read_unassigned`, `param_remote_extremes_refuted`, `param_remote_long_string_refuted`, `param_remote_read_back_partial`, `param_remote_string_refuted`, `param_remote_write`, `param_remote_write_succeeds`, `param_set_is_its_steps` |
| PidProps | CEFN | `limit_nan`, `limit_sym_within`, `limit_within`, `pid_integrator_bounded`, `pid_integrator_bounded_finite`, `pid_nan_sticks`, `pid_reset_outputs_partial`, `pid_reset_refuted` |
| PidProps | EFN | `iir_difference_equation`, `mean_within`, `pid_output_bounded`, `pid_output_is_law` |
| PidProps | none | `mean_int16_refuted`, `mean_int16_within_partial` |
| PmsgProps | none | `pmsg_full_string_refuted`, `pmsg_load`, `pmsg_load_terminates`, `pmsg_malformed_refuted`, `pmsg_round_trip_partial`, `pmsg_short_buffer_refuted` |
| PmsgProps2 | none | `pmsg_load_accepts`, `pmsg_load_not_atomic_refuted`, `pmsg_load_refuses`, `pmsg_load_reports`, `pmsg_load_truncated`, `pmsg_null_id_refuted`, `pmsg_save_reports` |
| PosProps | CEFN | `argmin_minimal`, `odometry_angle` |
| PosProps | EFN | `angle_delta_partial`, `angle_delta_refuted`, `modulo_range`, `odometry_direction`, `odometry_update`, `simple_modulo_range` |
| PosProps | none | `clamp_value` |
| PosStartProps | EFN | `odometry_centrifugal`, `odometry_integer_pose`, `odometry_start`, `odometry_unlinked` |
| ProxyProps | none | `actuator_names`, `actuator_names_differ_refuted`, `distance_names_differ`, `proxy_delivers`, `proxy_topics` |
| QuadProps | EFN | `quadramp_acceleration`, `quadramp_arrives`, `quadramp_defined`, `quadramp_moves`, `quadramp_overshoots_refuted`, `quadramp_run`, `quadramp_speed`, `quadramp_stuck_refuted` |
| RaftProps | none | `raft_applied_twice_refuted`, `raft_apply_partial`, `raft_election_safety_partial`, `raft_logs_diverge_refuted`, `raft_minority_commit_refuted`, `raft_one_vote`, `raft_safe`, `raft_terms_grow`, `raft_two_leaders_duplicate_refuted`, `raft_two_leaders_late_vote_refuted` |
| RaftProps2 | none | `raft_commit_confirmed_partial`, `raft_confirmed`, `raft_heartbeat`, `raft_patience`, `raft_stale_leader_refuted`, `raft_timeout` |
| RangProps | none | `rang_data_published`, `rang_early_packet_refuted`, `rang_packet_progress`, `rang_packets_sent`, `rang_range_published`, `rang_reception_partial`, `rang_reception_refuted`, `rang_roles`, `rang_round_robin` |
| RangTimerProps | none | `rang_timers` |
| ShowProps | none | `config_set_asked`, `config_set_garbage_refuted`, `config_set_long_string_refuted`, `config_set_senseless`, `config_set_unknown`, `config_set_usage`, `config_subtree_is_gets`, `config_tree_is_gets`, `config_tree_keeps_values`, `config_tree_long_string_refuted`, `config_tree_loses_changes`, `config_tree_readonly_refuted`, `config_tree_subtree_refuted`, `print_injection_refuted`, `print_integer`, `print_reads_back` |
| SpiProps | none | `bits_injective`, `mpr_chip_select`, `mpr_data`, `mpr_low_pressure_refuted`, `mpr_measurement`, `mpr_pascal_monotone`, `mpr_status`, `spi_exchange`, `spi_sample`, `spi_transfer` |
| StratProps | EF | `mirror_a_twice`, `mirror_sides`, `mirror_turn`, `mirror_twice`, `mirror_x_table`, `mirror_x_twice` |
| StratProps | EFN | `mirror_heading` |
| StratProps | none | `action_keeps_goals`, `action_progress`, `execute_as_planned`, `execute_needs_arrival`, `game_story`, `game_won`, `goal_zero_iff`, `pickup_conserves`, `pickup_failure_with_effect_refuted`, `pickup_guard_needed`, `pickup_moves`, `score_bounds`, `score_events`, `score_independent`, `score_is_official`, `score_monotone`, `score_put_green`, `score_put_red`, `strategy_always_plans` |
| StrmProps | none | `strm_exact`, `strm_off`, `strm_rate_refuted`, `strm_write` |
| StudProps | none | `stud_clash_refuted`, `stud_edit_bool_refuted`, `stud_edit_not_a_number`, `stud_edit_number_partial`, `stud_edit_text_refuted`, `stud_fetch_complete`, `stud_fetch_partial`, `stud_hidden_refuted`, `stud_path_name`, `stud_tree` |
| TimestampProps | none | `ltimestamp_duration_exact`, `ltimestamp_monotone_partial`, `ltimestamp_monotone_refuted`, `timestamp_duration_exact`, `timestamp_linearises`, `timestamp_monotone_partial`, `timestamp_real_time_refuted` |
| TofProps | none | `tof_color_start`, `tof_distance_only`, `tof_exact_partial`, `tof_garbage_color_refuted`, `tof_garbage_refuted`, `tof_lost_start_refuted`, `tof_stale_refuted`, `tof_start` |
| TpubProps | none | `tpub_count`, `tpub_delivery`, `tpub_echo_refuted`, `tpub_exact`, `tpub_lost_refuted`, `tpub_off`, `tpub_others_refuted`, `tpub_safe`, `tpub_turned_off`, `tpub_twice_refuted` |
| TraceProps | none | `trace_disabled_records_nothing_partial`, `trace_in_bounds`, `trace_print_keeps_disabled_refuted`, `trace_prints_most_recent` |
| TrajProps | CEFN | `align_with_wall_ends`, `collision_again_refuted`, `collision_partial`, `command_reached`, `encoders_agree`, `goto_xy_aims`, `goto_xy_never_overturns`, `goto_xy_premature_refuted`, `goto_xy_reached`, `hardstop_holds`, `has_ended_reason`, `mode_gating`, `reachable_target_valid`, `regulated_error`, `unregulated_axis_blocks`, `wait_for_end_reason` |
| TrajStartProps | CEFN | `goto_d_a_rel_target`, `goto_xy_rel_target`, `stays_at_rest` |
| UdpProps | none | `udp_accepted`, `udp_drains`, `udp_dropped`, `udp_in_order`, `udp_no_leak` |
| UnitProps | CEFN | `aligning_mode`, `aligning_speed_refuted`, `configured_limits`, `conversions_inverse`, `conversions_physical`, `game_mode`, `modes_set` |
| UplProps | none | `upl_answered`, `upl_applied`, `upl_completes`, `upl_integer_for_scalar_refuted`, `upl_integer_for_undefined_refuted`, `upl_known`, `upl_lost_answer_refuted`, `upl_other_boards`, `upl_parameters`, `upl_parameters_once`, `upl_parameters_slash_refuted`, `upl_paths_distinct`, `upl_text_refuted`, `upl_unsaved_refuted` |
| UwbProps | none | `uwb_anchor_ignores_advertisements`, `uwb_anchor_position_delivered`, `uwb_data_delivered`, `uwb_decoded_fields`, `uwb_difference_partial`, `uwb_difference_wrap_refuted`, `uwb_encapsulate_needs_room`, `uwb_header_bytes`, `uwb_ignores_foreign_frames`, `uwb_initiate_delivered`, `uwb_ranging_exact_refuted`, `uwb_ranging_partial`, `uwb_ranging_zero_refuted`, `uwb_roundtrip`, `uwb_short_frame_refuted`, `uwb_tag_position_delivered`, `uwb_timestamp_roundtrip` |
| YgenProps | none | `config_changes_refuted`, `config_load`, `config_long_string_refuted`, `config_lookup`, `config_transparent`, `config_unknown`, `config_wide_integer_refuted`, `ygen_agree`, `ygen_empty_refuted`, `ygen_exact`, `ygen_no_more` |
