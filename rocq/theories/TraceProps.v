(** Property theorems for C04 (lib/trace). *)
From Coq Require Import NArith List Lia.
From Verif Require Import TraceModel TraceSpec TraceProofs.
Import ListNotations.

(** C04: printing lists, oldest first, exactly the 200 most recent events recorded since the last
    clear, for any history of calls (oldest call first in [ops]). *)
Theorem trace_prints_most_recent : forall ops,
  snd (trace_print (run ops)) = rev (firstn 200 (recorded (rev ops))).
Proof. exact trace_print_l. Qed.
Print Assumptions trace_prints_most_recent.

(** C04: the buffer is never indexed out of bounds. *)
Theorem trace_in_bounds : forall ops, write_index (run ops) < 200 /\ nb_events (run ops) <= 200.
Proof. exact trace_bounds_l. Qed.
Print Assumptions trace_in_bounds.

(** C04: while disabled, nothing is recorded, until the next enable, print or init. *)
Theorem trace_disabled_records_nothing_partial : forall ops ts,
  Forall (fun o => exists id now d, o = Trace id now d) ts ->
  snd (trace_print (run (ops ++ Disable :: ts))) = snd (trace_print (run ops)).
Proof.
  intros ops ts H. rewrite !trace_print_l. do 2 f_equal. rewrite rev_app_distr. cbn.
  rewrite <- app_assoc. cbn.
  assert (G : Forall (fun o => exists id now d, o = Trace id now d) (rev ts)).
  { apply Forall_forall. intros x Hx. apply in_rev in Hx. rewrite Forall_forall in H. now apply H. }
  assert (P : enabled (rev ts ++ Disable :: rev ops) = false /\ recorded (rev ts ++ Disable :: rev ops) = recorded (rev ops)).
  { induction G as [|o l (id & now & d & ->) G [IH1 IH2]]; [now split|]. cbn. rewrite IH1. now split. }
  apply P.
Qed.
Print Assumptions trace_disabled_records_nothing_partial.

Definition count_up (n : nat) : list op := map (fun i => Trace (N.of_nat i) 0 (PInteger (N.of_nat i))) (seq 0 n).
Example trace_example :
  map event_id (snd (trace_print (run (Enable :: Trace 7 0 (PString 1) :: Clear :: count_up 203)))) =
  map N.of_nat (seq 3 200).
Proof. vm_compute. reflexivity. Qed.

(** C04 fails for printing while disabled: printing silently enables the trace again. *)
Theorem trace_print_keeps_disabled_refuted : exists ops id,
  snd (trace_print (run (ops ++ [Disable; Print; Trace id 0 (PInteger 0)]))) <>
  snd (trace_print (run (ops ++ [Disable; Print]))).
Proof. exists [], 1%N. vm_compute. discriminate. Qed.
Print Assumptions trace_print_keeps_disabled_refuted.
