(** C112: properties of the IP over CAN adapter (tools/uavcan_ip_interface.py). *)
From Coq Require Import Reals ZArith List Bool Lra Lia.
From Verif Require Import LimModel LimSpec LimProofs.
Import ListNotations.
Local Open Scope R_scope.

(** Whatever the traffic, between any two instants [a] and [b] at most rate * (1 + b - a) packets are let through, as
    long as the clock does not go back. *)
Theorem lim_window : forall rate t0 a b l, 0 <= rate -> a <= b -> clock_from t0 (map fst l) ->
  INR (count_in a b (map fst (rx_thread rate t0 l))) <= rate + rate * (b - a).
Proof. exact window. Qed.
Print Assumptions lim_window.

(** Packets that come no faster than the rate all go through, in order. *)
Theorem lim_conforming : forall rate t0 l, 1 < rate -> spaced (/ rate) t0 (map fst l) ->
  rx_thread rate t0 l = map (fun x => (fst x, os_read (snd x))) l.
Proof. exact conforming. Qed.
Print Assumptions lim_conforming.

Example lim_example : clock_from 0 [0; 0; 1/2; 1] /\ spaced (/ 2) 0 [1/4; 1; 3/2] /\
  rx_thread 2 0 [(0, [1%Z]); (0, [2%Z]); (1/2, [3%Z]); (1, [4%Z])] = [(0, [1%Z]); (1/2, [3%Z]); (1, [4%Z])].
Proof.
  split; [cbn; lra|]. split; [cbn; lra|]. unfold rx_thread, limiter_init. cbn [rx_loop]. unfold check. cbn [quota max_rate last_time]. cbv zeta.
  replace (2 + 2 * (0 - 0)) with 2 by ring. rewrite (Rmin_left 2 2) by lra. destruct (Rle_dec 2 1); [lra|]. cbn [quota max_rate last_time].
  replace (2 - 1 + 2 * (0 - 0)) with 1 by ring. rewrite (Rmin_left 1 2) by lra. destruct (Rle_dec 1 1); [|lra]. cbn [quota max_rate last_time].
  replace (1 + 2 * (1/2 - 0)) with 2 by lra. rewrite (Rmin_left 2 2) by lra. destruct (Rle_dec 2 1); [lra|]. cbn [quota max_rate last_time].
  replace (2 - 1 + 2 * (1 - 1/2)) with 2 by lra. rewrite (Rmin_left 2 2) by lra. destruct (Rle_dec 2 1); [lra|]. reflexivity.
Qed.

(** "Max number of packets per second" does not hold: for every rate of 2 or more, some traffic gets 2 * rate - 1 packets
    through within one second. *)
Theorem lim_per_second_refuted : forall n, (2 <= n)%nat -> exists l, clock_from 0 (map fst l) /\
  Forall (fun t => 0 <= t <= 1) (map fst l) /\ length (rx_thread (INR n) 0 l) = (2 * n - 1)%nat /\ (n < 2 * n - 1)%nat.
Proof. intros n N. exists (burst n). destruct (burst_clock n N). repeat split; auto using burst_length. lia. Qed.
Print Assumptions lim_per_second_refuted.

(** With a rate of one packet per second (or less), nothing is ever let through. *)
Theorem lim_one_per_second_refuted : forall rate t0 l, rate <= 1 -> rx_thread rate t0 l = [].
Proof. intros rate t0 l H. apply slow_loop. exact H. Qed.
Print Assumptions lim_one_per_second_refuted.

(** When the clock is set back, everything is dropped until it is back at the time of the last packet, less one second
    (plus the time of one packet): however slow the traffic. *)
Theorem lim_clock_set_back_refuted : forall rate t0 l1 t p l2, 0 < rate ->
  Forall (fun t' => t' <= t - 1 + / rate) (map fst l2) ->
  rx_thread rate t0 ((l1 ++ [(t, p)]) ++ l2) = rx_thread rate t0 (l1 ++ [(t, p)]).
Proof. exact clock_back. Qed.
Print Assumptions lim_clock_set_back_refuted.
Example lim_clock_set_back_example : spaced (/ 1000) (-3600) [-3599; -3000; -1] /\
  Forall (fun t' => t' <= 0 - 1 + / 1000) [-3599; -3000; -1].
Proof. split; [cbn; lra|]. repeat constructor; lra. Qed.

(** What is broadcast on the bus is a beginning of what was let through; as long as the packets are shorter than 1024
    bytes it is all of it, byte for byte. *)
Theorem lim_broadcast_prefix : forall rate t0 l, exists rest,
  map snd (rx_thread rate t0 l) = fst (adapter rate t0 l) ++ rest /\ (snd (adapter rate t0 l) = true -> rest = []).
Proof. intros rate t0 l. apply node_prefix. Qed.
Print Assumptions lim_broadcast_prefix.
Theorem lim_broadcast_partial : forall rate t0 l, 1 < rate -> spaced (/ rate) t0 (map fst l) ->
  Forall (fun x => (length (snd x) < 1024)%nat) l -> adapter rate t0 l = (map snd l, true).
Proof.
  intros rate t0 l R S F. unfold adapter. rewrite conforming by assumption. rewrite map_map.
  rewrite node_all.
  - f_equal. apply map_ext_in. intros x X. cbn [snd]. apply os_read_short. rewrite Forall_forall in F. apply F; assumption.
  - rewrite Forall_forall in *. intros p P. apply in_map_iff in P. destruct P as (x & <- & X). cbn [snd].
    rewrite os_read_short; apply F; assumption.
Qed.
Print Assumptions lim_broadcast_partial.

(** The interface accepts packets of up to 1500 bytes. The first that has 1024 or more and goes through ends the
    forwarding for ever: nothing that follows is broadcast, whatever it is. *)
Theorem lim_long_packet_refuted : forall rate t0 l1 t p l2, 1 < rate -> spaced (/ rate) t0 (map fst (l1 ++ [(t, p)])) ->
  Forall (fun x => (length (snd x) < 1024)%nat) l1 -> (1024 <= length p)%nat ->
  adapter rate t0 ((l1 ++ [(t, p)]) ++ l2) = (map snd l1, false).
Proof.
  intros rate t0 l1 t p l2 R S F L. unfold adapter, rx_thread.
  destruct (loop_app (l1 ++ [(t, p)]) (limiter_init rate t0) l2) as (s' & _ & _ & _ & E). unfold packet in *. rewrite E.
  fold (rx_thread rate t0 (l1 ++ [(t, p)])). rewrite conforming by assumption. rewrite !map_app, map_map. cbn [map snd fst].
  rewrite <- app_assoc. cbn [app]. rewrite node_dead.
  - f_equal. apply map_ext_in. intros x X. cbn [snd]. apply os_read_short. rewrite Forall_forall in F. apply F; assumption.
  - rewrite Forall_forall in *. intros q P. apply in_map_iff in P. destruct P as (x & <- & X). cbn [snd].
    rewrite os_read_short; apply F; assumption.
  - unfold os_read. rewrite firstn_length. apply Nat.min_glb; [|exact L]. unfold MTU. apply Nat.leb_le. reflexivity.
Qed.
Print Assumptions lim_long_packet_refuted.
Example lim_long_packet_example : exists (l1 : list (R * packet)) t (p : packet), spaced (/ 2) 0 (map fst (l1 ++ [(t, p)])) /\
  Forall (fun x => (length (snd x) < 1024)%nat) l1 /\ (1024 <= length p)%nat.
Proof.
  exists [(0, [1%Z])], 1, (repeat 0%Z 1024). split; [cbn; lra|]. split.
  - constructor; [|constructor]. apply Nat.ltb_lt. reflexivity.
  - rewrite repeat_length. apply Nat.le_refl.
Qed.
