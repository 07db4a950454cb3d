(** Model of the IP over CAN adapter, tools/uavcan_ip_interface.py: its rate limiter, the thread that reads the packets
    of the network interface and the thread that broadcasts them on the CAN bus.

    Simplifications: times and quotas are exact real numbers (Python uses binary64); the queue between the two threads is
    the list of what was put in it, and what the broadcasting thread has done is given for a list entirely consumed; the
    opposite direction (CAN to network) and the opening of the interface are not modelled. *)
From Coq Require Import Reals ZArith List Bool.
Import ListNotations.
Local Open Scope R_scope.

(** uavcan_ip_interface.py:82-85: the fields of a RateLimiter. *)
Record limiter := Limiter { max_rate : R; quota : R; last_time : R }.

(** uavcan_ip_interface.py:82-85: __init__, called at time [t]. *)
Definition limiter_init (rate t : R) : limiter := Limiter rate rate t.

(** uavcan_ip_interface.py:87-100: check, called when time.time() returns [t]. *)
Definition check (s : limiter) (t : R) : limiter * bool :=
  let dt := t - last_time s in
  let q := quota s + max_rate s * dt in
  let q := Rmin q (max_rate s) in
  if Rle_dec q 1 then (Limiter (max_rate s) q t, false)
  else (Limiter (max_rate s) (q - 1) t, true).

Definition packet := list Z.

(** uavcan_ip_interface.py:107: os.read(tun_fd, 1500) of a packet of any size. *)
Definition MTU : nat := 1500%nat.
Definition os_read (p : packet) : packet := firstn MTU p.

(** uavcan_ip_interface.py:106-111: the loop of rx_thread over the packets of the interface, each with the time at which
    it is checked. The result is what is put in the queue, with the same times. *)
Fixpoint rx_loop (s : limiter) (l : list (R * packet)) : list (R * packet) :=
  match l with
  | [] => []
  | (t, p) :: l =>
      let (s, ok) := check s t in
      if ok then (t, os_read p) :: rx_loop s l else rx_loop s l
  end.

(** uavcan_ip_interface.py:103-111: rx_thread started at time [t0]. *)
Definition rx_thread (rate t0 : R) (l : list (R * packet)) : list (R * packet) := rx_loop (limiter_init rate t0) l.

(** uavcan_ip_interface.py:121-143: the loop of node_thread over the packets of the queue: the data of the messages it
    broadcasts, and whether the thread is still alive (a failed assertion ends it; the other threads go on). *)
Fixpoint node_thread (q : list packet) : list packet * bool :=
  match q with
  | [] => ([], true)
  | p :: q =>
      if (length p <? 1024)%nat then let (sent, alive) := node_thread q in (p :: sent, alive)
      else ([], false)
  end.

(** uavcan_ip_interface.py:152-187: the packets broadcast on the bus by an adapter started at time [t0]. *)
Definition adapter (rate t0 : R) (l : list (R * packet)) : list packet * bool :=
  node_thread (map snd (rx_thread rate t0 l)).
