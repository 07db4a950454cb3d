(** Model of lib/trace/trace.c. *)
From Coq Require Import NArith List Bool PeanoNat.
Import ListNotations.

(** include/trace/trace.h:8-10 *)
Definition TRACE_BUFFER_SIZE : nat := 200.

(** include/trace/trace.h:12-17 and the union of lines 23-28: type tag with the data. Strings are
    identified by their pointer, floats by their bits. *)
Inductive payload := PString (p : N) | PAddress (p : N) | PScalar (bits : N) | PInteger (i : N).

(** include/trace/trace.h:19-29 *)
Record trace_event := { event_id : N; ts22 : N; data : payload }.

(** include/trace/trace.h:31-36. Slots never written are zero (trace.c:72). *)
Record trace_buffer := { active : bool; write_index : nat; nb_events : nat; slots : nat -> trace_event }.

Definition zero_event : trace_event := {| event_id := 0; ts22 := 0; data := PString 0 |}.

(** trace.c:70-73 *)
Definition trace_init : trace_buffer :=
  {| active := false; write_index := 0; nb_events := 0; slots := fun _ => zero_event |}.

(** trace.c:7-24. [e] is what the caller filled in; the timestamp is stored in a 22-bit field and the
    id is a uint8_t. The section under the lock (lines 15-23) is one atomic step. *)
Definition trace_push_event (b : trace_buffer) (id now : N) (d : payload) : trace_buffer :=
  if negb (active b) then b else
  let e := {| event_id := N.modulo id 256; ts22 := N.modulo now (2 ^ 22); data := d |} in
  {| active := active b;
     write_index := Nat.modulo (write_index b + 1) TRACE_BUFFER_SIZE;
     nb_events := if Nat.ltb (nb_events b) TRACE_BUFFER_SIZE then nb_events b + 1 else nb_events b;
     slots := fun i => if Nat.eqb (write_index b) i then e else slots b i |}.

(** trace.c:76-79 *)
Definition trace_enable (b : trace_buffer) := 
  {| active := true; write_index := write_index b; nb_events := nb_events b; slots := slots b |}.
(** trace.c:85-88 *)
Definition trace_disable (b : trace_buffer) := 
  {| active := false; write_index := write_index b; nb_events := nb_events b; slots := slots b |}.
(** trace.c:91-97 *)
Definition trace_clear (b : trace_buffer) := 
  {| active := active b; write_index := 0; nb_events := 0; slots := slots b |}.

(** trace.c:109-131: the events in the order printed. *)
Fixpoint print_loop (b : trace_buffer) (n index : nat) : list trace_event :=
  match n with
  | O => []
  | S n => slots b index :: print_loop b n (Nat.modulo (index + 1) TRACE_BUFFER_SIZE)
  end.
(** trace.c:99-133. Returns the printed events. *)
Definition trace_print (b : trace_buffer) : trace_buffer * list trace_event :=
  let index := if Nat.eqb (nb_events b) TRACE_BUFFER_SIZE then write_index b else 0 in
  ({| active := true; write_index := write_index b; nb_events := nb_events b; slots := slots b |},
   print_loop b (nb_events b) index).

(** Calls. trace.c:26-64: the five trace functions differ by the payload only. *)
Inductive op := Init | Enable | Disable | Clear | Print | Trace (id now : N) (d : payload).

Definition step (b : trace_buffer) (o : op) : trace_buffer :=
  match o with
  | Init => trace_init
  | Enable => trace_enable b
  | Disable => trace_disable b
  | Clear => trace_clear b
  | Print => fst (trace_print b)
  | Trace id now d => trace_push_event b id now d
  end.
Definition run (ops : list op) : trace_buffer := fold_left step ops trace_init.
