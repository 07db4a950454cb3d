(** Model of lib/pid/pid.c and lib/filter (basic.c, mean.c, iir.c), over the floating-point machines of
    FloatModel.v. *)
From Coq Require Import ZArith List Bool.
From Verif Require Import CBase CRes FloatModel.
Import ListNotations.
Local Open Scope Z_scope.

Section Code.
Variable M : machine.
Notation flt := (num (F M)).

(** Small integer constants converted to float. *)
Definition of_int (n : Z) : flt := lit (F M) n 0.

(** * lib/filter *)

(** basic.c:3-12 *)
Definition filter_limit (value min max : flt) : flt :=
  if lt (F M) max value then max
  else if lt (F M) value min then min
  else value.

(** basic.c:14-17 *)
Definition filter_limit_sym (value limit : flt) : flt := filter_limit value (neg (F M) limit) limit.

(** mean.c:4-14: [n] is the length of the list. *)
Definition mean (set : list flt) : flt :=
  div (F M) (fold_left (fun ret x => add (F M) ret x) set (of_int 0)) (of_int (Z.of_nat (length set))).

(** iir.h: coefficients, degree and delay line; [ii_a = None] is the NULL pointer of a FIR filter. *)
Record iir := { ii_b : list flt; ii_a : option (list flt); ii_d : list flt }.

(** iir.c:40-47: the delay line of length n is cleared (n is the length of [ii_d]). *)
Definition filter_iir_init (b : list flt) (a : option (list flt)) (n : nat) : iir :=
  {| ii_b := b; ii_a := a; ii_d := repeat (of_int 0) n |}.

(** iir.c:49-68: [for i = 0 .. n-2: d[i] = b[i+1]*in (- a[i]*out) + d[i+1]], then the last delay.
    Reading outside an array is [BAD]. The loop is a recursion on the number of remaining rounds. *)
Fixpoint iir_loop (b : list flt) (a : option (list flt)) (inp out : flt) (d : list flt)
         (i k : nat) : res (list flt) :=
  match k with
  | O => OK d
  | S k =>
      try bi := get b (S i) in
      try dn := get d (S i) in
      try v := match a with
               | None => OK (add (F M) (mul (F M) bi inp) dn)
               | Some a => try ai := get a i in
                           OK (add (F M) (sub (F M) (mul (F M) bi inp) (mul (F M) ai out)) dn)
               end in
      try d := put d i v in
      iir_loop b a inp out d (S i) k
  end.

Definition filter_iir_apply (f : iir) (inp : flt) : res (iir * flt) :=
  let n := length (ii_d f) in
  try b0 := get (ii_b f) 0 in
  try d0 := get (ii_d f) 0 in
  let out := add (F M) (mul (F M) b0 inp) d0 in
  try d := iir_loop (ii_b f) (ii_a f) inp out (ii_d f) 0 (n - 1) in
  try bn := get (ii_b f) n in
  try v := match ii_a f with
           | None => OK (mul (F M) bn inp)
           | Some a => try an := get a (n - 1) in
                       OK (sub (F M) (mul (F M) bn inp) (mul (F M) an out))
           end in
  try d := put d (n - 1) v in
  OK ({| ii_b := ii_b f; ii_a := ii_a f; ii_d := d |}, out).

(** A sequence of samples through the filter. *)
Fixpoint iir_run (f : iir) (xs : list flt) : res (list flt) :=
  match xs with
  | [] => OK []
  | x :: xs => try r := filter_iir_apply f x in
               try ys := iir_run (fst r) xs in
               OK (snd r :: ys)
  end.

(** * lib/pid *)

(** include/pid/pid.h *)
Record pid := {
  kp : flt; ki : flt; kd : flt;
  integrator : flt;
  integrator_limit : flt;
  previous_error : flt;
  frequency : flt }.

(** pid.c:14-19 *)
Definition pid_set_gains (p : pid) (kp ki kd : flt) : pid :=
  {| kp := kp; ki := ki; kd := kd; integrator := integrator p; integrator_limit := integrator_limit p;
     previous_error := previous_error p; frequency := frequency p |}.

(** pid.c:5-12 (the structure was uninitialised before). *)
Definition pid_init : pid :=
  {| kp := of_int 1; ki := of_int 0; kd := of_int 0; integrator := of_int 0;
     integrator_limit := inf (F M); previous_error := of_int 0; frequency := of_int 1 |}.

(** pid.c:57-60 *)
Definition pid_set_integral_limit (p : pid) (max : flt) : pid :=
  {| kp := kp p; ki := ki p; kd := kd p; integrator := integrator p; integrator_limit := max;
     previous_error := previous_error p; frequency := frequency p |}.

(** pid.c:62-65: the previous error is kept. *)
Definition pid_reset_integral (p : pid) : pid :=
  {| kp := kp p; ki := ki p; kd := kd p; integrator := of_int 0; integrator_limit := integrator_limit p;
     previous_error := previous_error p; frequency := frequency p |}.

(** pid.c:67-70 *)
Definition pid_set_frequency (p : pid) (f : flt) : pid :=
  {| kp := kp p; ki := ki p; kd := kd p; integrator := integrator p;
     integrator_limit := integrator_limit p; previous_error := previous_error p; frequency := f |}.

(** pid.c:38-55 *)
Definition pid_process (p : pid) (error : flt) : pid * flt :=
  let i := add (F M) (integrator p) error in
  let i := if lt (F M) (integrator_limit p) i then integrator_limit p
           else if lt (F M) i (neg (F M) (integrator_limit p)) then neg (F M) (integrator_limit p)
           else i in
  let output := mul (F M) (neg (F M) (kp p)) error in
  let output := add (F M) output (div (F M) (mul (F M) (neg (F M) (ki p)) i) (frequency p)) in
  let output := add (F M) output
                  (mul (F M) (mul (F M) (neg (F M) (kd p)) (sub (F M) error (previous_error p)))
                       (frequency p)) in
  ({| kp := kp p; ki := ki p; kd := kd p; integrator := i; integrator_limit := integrator_limit p;
      previous_error := error; frequency := frequency p |}, output).

(** A caller's history of the controller. *)
Inductive pid_op :=
| Process (error : flt)
| SetGains (kp ki kd : flt)
| SetLimit (max : flt)
| SetFrequency (f : flt)
| Reset.

Definition pid_step (p : pid) (o : pid_op) : pid :=
  match o with
  | Process e => fst (pid_process p e)
  | SetGains a b c => pid_set_gains p a b c
  | SetLimit m => pid_set_integral_limit p m
  | SetFrequency f => pid_set_frequency p f
  | Reset => pid_reset_integral p
  end.

Definition pid_run (p : pid) (ops : list pid_op) : pid := fold_left pid_step ops p.

(** The outputs for a sequence of errors. *)
Fixpoint pid_outputs (p : pid) (errors : list flt) : list flt :=
  match errors with
  | [] => []
  | e :: errors => let r := pid_process p e in snd r :: pid_outputs (fst r) errors
  end.

End Code.

(** mean.c:16-26. The sum is an [int] (overflow is [BAD]); [ret / n] divides in size_t, 32 bits wide on
    the microcontrollers, and the quotient is converted back to int. Division by zero is [BAD]. *)
Definition mean_int16 (set : list Z) : res Z :=
  try ret := fold_left (fun r x => try r := r in int (r + x)) set (OK 0) in
  let n := Z.of_nat (length set) in
  if n =? 0 then BAD else OK (s32 (u32 ret / n)).
