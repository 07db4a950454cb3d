(** Specification of the UWB protocol. *)
From Coq Require Import ZArith List.
From Verif Require Import Buf UwbModel.
Import ListNotations.
Local Open Scope Z_scope.

Definition addr_ok (a : Z) : Prop := 0 <= a < 2 ^ 16.

(** Two nodes with ideal clocks: the clock of a node at true time [t] (in ticks) shows [t + offset]
    modulo 2^40. A frame to be sent at clock value [ts] leaves at the first true time, not before [t],
    at which the clock shows [ts]. *)
Definition clock (offset t : Z) : Z := (t + offset) mod 2 ^ 40.
Definition tx_time (offset t ts : Z) : Z := t + (ts - clock offset t) mod 2 ^ 40.

(** A receive buffer: the received bytes followed by whatever was there. *)
Definition received (f junk : list Z) : list Z := f ++ junk.
