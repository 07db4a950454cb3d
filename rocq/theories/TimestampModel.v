(** Model of lib/timestamp/timestamp.c and lib/timestamp/timestamp_stm32.c. *)
From Coq Require Import ZArith List Bool.
From Verif Require Import CBase.
Import ListNotations.
Local Open Scope Z_scope.

(** timestamp.c:3-6: uint32_t subtraction converted to int32_t. *)
Definition timestamp_duration_us (t1 t2 : Z) : Z := s32 (u32 (t2 - t1)).
(** timestamp.c:13-16 *)
Definition ltimestamp_duration_us (t1 t2 : Z) : Z := s64 (u64 (t2 - t1)).

(** * The STM32 time base

    State machine of the timer, its interrupt and one thread calling [timestamp_get] or
    [ltimestamp_get]. A trace is any interleaving of timer ticks, interrupt service and thread steps:
    every placement of the interrupt between the register reads is covered. The interrupt handler is
    atomic with respect to the thread (it preempts it). One timer tick is one microsecond. *)

(** include/timestamp/timestamp_stm32_settings.h:18 *)
Definition COUNTER_MAX : Z := 65535.
(** timestamp_stm32.c:37 (line numbers of the file): ARR = COUNTER_MAX, so that the counter takes the
    values 0..COUNTER_MAX and the period is COUNTER_MAX + 1. *)
Definition PERIOD : Z := COUNTER_MAX + 1.

(** Program counter of the thread inside [timestamp_get] (timestamp_stm32.c:44-53) or, if [long],
    [ltimestamp_get] (timestamp_stm32.c:55-69). [start] is a ghost: the tick at which the call began. *)
Inductive pc :=
| Idle
| ReadLow (long : bool) (start : Z) (t1 th : Z)        (* t1 (and th) read *)
| ReadCnt (long : bool) (start : Z) (t1 th tim : Z)    (* CNT read, polling SR *)
| Polled (long : bool) (start : Z) (t1 th tim : Z).    (* UIF was seen clear *)

(** A finished call: first and last tick (ghosts) and the returned value. *)
Record result := { r_long : bool; r_start : Z; r_end : Z; r_value : Z }.

Record hw := {
  ticks : Z;         (* ghost: ticks since the timer was started *)
  uif : bool;        (* update interrupt flag *)
  overrun : bool;    (* ghost: an overflow happened while the flag was still set *)
  low : Z;           (* time_us_low *)
  high : Z;          (* time_us_high *)
  thread : pc;
  results : list result (* newest first *) }.

(** timestamp_stm32.c:30-41 *)
Definition hw_init : hw :=
  {| ticks := 0; uif := false; overrun := false; low := 0; high := 0; thread := Idle; results := [] |}.

Inductive ev := Tick | Isr | Call (long : bool) | Cpu.

(** CNT register. *)
Definition counter (s : hw) : Z := ticks s mod PERIOD.

(** timestamp_stm32.c:48-52 and 61-68: the return statement. *)
Definition ts_return (long : bool) (t1 th tim t2 : Z) : Z :=
  if long then
    if negb (t2 =? t1) then
      if t2 <? t1 then u64 (u32 (th + 1) * 2 ^ 32 + t2) else u64 (th * 2 ^ 32 + t2)
    else u64 (th * 2 ^ 32 + t1 + tim)
  else
    if negb (t2 =? t1) then t2 else u32 (t1 + tim).

Definition hstep (s : hw) (e : ev) : hw :=
  match e with
  | Tick =>
      let n := ticks s + 1 in
      if n mod PERIOD =? 0
      then {| ticks := n; uif := true; overrun := overrun s || uif s; low := low s; high := high s;
              thread := thread s; results := results s |}
      else {| ticks := n; uif := uif s; overrun := overrun s; low := low s; high := high s;
              thread := thread s; results := results s |}
  | Isr => (* timestamp_stm32.c:23-28, entered only while the flag is set *)
      if uif s
      then {| ticks := ticks s; uif := false; overrun := overrun s; low := u32 (low s + COUNTER_MAX);
              high := high s; thread := thread s; results := results s |}
      else s
  | Call long =>
      match thread s with
      | Idle => {| ticks := ticks s; uif := uif s; overrun := overrun s; low := low s; high := high s;
                   thread := ReadLow long (ticks s) (low s) (high s); results := results s |}
      | _ => s
      end
  | Cpu =>
      let set p := {| ticks := ticks s; uif := uif s; overrun := overrun s; low := low s; high := high s;
                      thread := p; results := results s |} in
      match thread s with
      | Idle => s
      | ReadLow l st t1 th => set (ReadCnt l st t1 th (counter s))           (* timestamp_stm32.c:17 *)
      | ReadCnt l st t1 th tim => if uif s then s else set (Polled l st t1 th tim) (* :18-19 *)
      | Polled l st t1 th tim =>
          {| ticks := ticks s; uif := uif s; overrun := overrun s; low := low s; high := high s;
             thread := Idle;
             results := {| r_long := l; r_start := st; r_end := ticks s;
                           r_value := ts_return l t1 th tim (low s) |} :: results s |}
      end
  end.

Definition hrun (tr : list ev) : hw := fold_left hstep tr hw_init.
