(** Model of proximity-beacon-firmware/src/proximity_beacon.c, of the periodic callback of proximity_beacon_publisher.cpp and of
    motor-control-firmware/src/rpm.c, over the floating-point machines of FloatModel.v. *)
From Coq Require Import ZArith List Bool.
From Verif Require Import CRes FloatModel PidModel CtlModel.
Import ListNotations.
Local Open Scope Z_scope.

Section Code.
Variable m : machine.
Notation flt := (num (F m)).

(** The position since the last crossing: proximity_beacon.c:47-52 and rpm.c:31-37. [delta_t / period * 2] is in float,
    the product by M_PI in double. *)
Definition turn (delta_t period : flt) : flt :=
  narrow m (mul (D m) (widen m (mul (F m) (div (F m) delta_t period) (of_int m 2))) (m_pi m)).
Definition position_of (delta_t period : flt) : flt :=
  if lt (F m) delta_t period then turn delta_t period else of_int m 0.

(** * rpm.c *)

(** rpm.c:5-6: the timestamps of the last two crossings. *)
Record crossings := { last_last : Z; last : Z }.
(** rpm.c:8-12 and proximity_beacon.c:23-34 *)
Definition crossing (c : crossings) (ts : Z) : crossings := {| last_last := last c; last := ts |}.
(** rpm.c:14-20 *)
Definition get_period (c : crossings) : flt := timestamp_duration_s m (last_last c) (last c).
(** rpm.c:22-38; [t] is the value of timestamp_get() on line 24, and [c] the crossings on lines 26-27: an interrupt may come
    between them. *)
Definition rpm_get_position (c : crossings) (t : Z) : flt :=
  position_of (timestamp_duration_s m (last c) t) (get_period c).
(** 1 / period * 2 * M_PI *)
Definition speed (period : flt) : flt :=
  narrow m (mul (D m) (widen m (mul (F m) (div (F m) (of_int m 1) period) (of_int m 2))) (m_pi m)).
(** rpm.c:40-55 *)
Definition rpm_get_velocity (c : crossings) (t : Z) : flt :=
  let delta_t := timestamp_duration_s m (last c) t in
  let period := get_period c in
  if lt (F m) delta_t period then speed period else speed delta_t.
(** rpm.c:57-74 *)
Definition rpm_get_velocity_and_position (c : crossings) (t : Z) : flt * flt :=
  let delta_t := timestamp_duration_s m (last c) t in
  let period := get_period c in
  if lt (F m) delta_t period then (speed period, turn delta_t period) else (speed delta_t, of_int m 0).

(** * proximity_beacon.c *)

(** proximity_beacon.h:8-11 *)
Record signal := { start_angle : flt; length_ : flt }.
(** proximity_beacon.c:18-21 *)
Record sensor := { active : bool; start : flt; cross : crossings }.
Definition sensor_init : sensor := {| active := false; start := of_int m 0; cross := {| last_last := 0; last := 1 |} |}.
(** proximity_beacon.c:36-64: the new state and the signal which just ended, if any. The interrupts of both sensors have the same
    priority (mcuconf.h:120 and 122), so that they do not preempt each other. *)
Definition light (s : sensor) (ts : Z) (pin : bool) : sensor * option signal :=
  let delta_t := timestamp_duration_s m (last (cross s)) ts in
  let period := get_period (cross s) in
  let position := position_of delta_t period in
  if negb pin then ({| active := true; start := position; cross := cross s |}, None)
  else if active s then
    let length := sub (F m) position (start s) in
    let length := if lt (F m) length (of_int m 0)
                  then narrow m (add (D m) (widen m length) (mul (D m) (lit (D m) 2 0) (m_pi m))) else length in
    ({| active := false; start := start s; cross := cross s |}, Some {| start_angle := start s; length_ := length |})
  else (s, None).

(** proximity_beacon.c:10 *)
Definition SIGNAL_BUFFER_SIZE : nat := 2 * 7.

(** The reader, proximity_beacon_publisher.cpp:14-20: between two of its accesses to shared memory any number of interrupts may be
    served. *)
Inductive reader :=
| Idle                                  (* before a call of proximity_beacon_signal_get *)
| Got (sp : nat)                        (* a signal was fetched *)
| Read1 (sp : nat) (a : flt)            (* its start angle was copied *)
| Read2 (sp : nat) (a l : flt)          (* and its length *)
| Sent (sp : nat).                      (* it was broadcast *)

(** The buffers are designated by their index in the array of proximity_beacon.c:13. A buffer in the pool holds the pool's link instead
    of a signal (ChibiOS memory pools keep their free list in the free objects): [None]. *)
Record state := {
  sens : sensor;
  array : list (option signal);
  free : list nat;                      (* the pool, last in first out *)
  mbox : list nat;                      (* the mailbox, oldest first *)
  rdr : reader }.

(** proximity_beacon.c:78-82; the pool is loaded one element after the other. *)
Definition init : state :=
  {| sens := sensor_init; array := repeat None SIGNAL_BUFFER_SIZE; free := rev (seq 0 SIGNAL_BUFFER_SIZE); mbox := []; rdr := Idle |}.

(** proximity_beacon.c:66-74: under the lock. The mailbox refuses a message when it is full; its answer is not looked at. *)
Definition publish (s : state) (g : signal) : res state :=
  match free s with
  | [] => OK s
  | sp :: free =>
      try array := put (array s) sp (Some g) in
      OK {| sens := sens s; array := array; free := free;
            mbox := if (length (mbox s) <? SIGNAL_BUFFER_SIZE)%nat then mbox s ++ [sp] else mbox s; rdr := rdr s |}
  end.

Definition with_rdr (s : state) (mb : list nat) (r : reader) : state :=
  {| sens := sens s; array := array s; free := free s; mbox := mb; rdr := r |}.
Definition read (s : state) (sp : nat) : res signal := try o := get (array s) sp in some o.

(** proximity_beacon_publisher.cpp:14-20, one access to shared memory; [Some] is what is broadcast. *)
Definition reader_step (s : state) : res (state * option signal) :=
  match rdr s with
  | Idle => match mbox s with
            | [] => OK (s, None)                                 (* proximity_beacon.c:96-99 *)
            | sp :: mb => OK (with_rdr s mb (Got sp), None)
            end
  | Got sp => try g := read s sp in OK (with_rdr s (mbox s) (Read1 sp (start_angle g)), None)
  | Read1 sp a => try g := read s sp in OK (with_rdr s (mbox s) (Read2 sp a (length_ g)), None)
  | Read2 sp a l => OK (with_rdr s (mbox s) (Sent sp), Some {| start_angle := a; length_ := l |})
  | Sent sp =>                                                   (* proximity_beacon.c:103-106 *)
      try array := put (array s) sp None in
      OK ({| sens := sens s; array := array; free := sp :: free s; mbox := mbox s; rdr := Idle |}, None)
  end.

(** Interrupts, with the time and the level of the light sensor's pin, and steps of the reader. *)
Inductive event := Hall (ts : Z) | Light (ts : Z) (pin : bool) | Reader.
Definition with_sens (s : state) (x : sensor) : state :=
  {| sens := x; array := array s; free := free s; mbox := mbox s; rdr := rdr s |}.
Definition sense (x : sensor) (e : event) : sensor * option signal :=
  match e with
  | Hall ts => ({| active := active x; start := start x; cross := crossing (cross x) ts |}, None)
  | Light ts pin => light x ts pin
  | Reader => (x, None)
  end.
Definition step (s : state) (e : event) : res (state * option signal) :=
  match e with
  | Reader => reader_step s
  | _ => let (x, g) := sense (sens s) e in
         let s := with_sens s x in
         match g with
         | None => OK (s, None)
         | Some g => try s := publish s g in OK (s, None)
         end
  end.
(** An execution, and the signals broadcast during it. *)
Fixpoint run (s : state) (es : list event) : res (state * list signal) :=
  match es with
  | [] => OK (s, [])
  | e :: es => try (s, o) := step s e in
               try (s, out) := run s es in
               OK (s, match o with Some g => g :: out | None => out end)
  end.
End Code.
