(** Property theorems for C11 (master-firmware/src/can/bus_enumerator.c). *)
From Coq Require Import ZArith List Bool Lia.
From Verif Require Import EnumModel EnumSpec EnumProofs.
Import ListNotations.
Local Open Scope Z_scope.

(** C11: lookups by name, after any history of registrations (of distinct names) and announcements.
    In particular no run goes out of bounds. *)
Theorem enumerator_lookup_by_name : forall cap h, names_distinct h -> ids_ok h ->
  exists en, erun (enumerator_init cap) h = Some en /\
  forall s,
    (forall d, In (s, d) (accepted cap h) -> get_driver en s = Some (Some d) /\
       get_can_id en s = Some (match announced h s with Some c => c | None => CAN_ID_NOT_SET end)) /\
    (~ In s (map fst (accepted cap h)) -> get_driver en s = Some None /\ get_can_id en s = Some STRING_ID_NOT_FOUND).
Proof. exact lookup_name_l. Qed.
Print Assumptions enumerator_lookup_by_name.

(** C11: lookups by CAN id find a node with that id (name and driver of the same node), or report
    that there is none. *)
Theorem enumerator_lookup_by_can_id : forall cap h, names_distinct h -> ids_ok h ->
  exists en, erun (enumerator_init cap) h = Some en /\
  forall c,
    (exists s d, node_has_id cap h s d c /\ get_str_id en c = Some (Some s) /\ get_driver_by_can_id en c = Some (Some d)) \/
    ((forall s d, ~ node_has_id cap h s d c) /\ get_str_id en c = Some None /\ get_driver_by_can_id en c = Some None).
Proof. exact lookup_id_l. Qed.
Print Assumptions enumerator_lookup_by_can_id.

(** C11: the capacity is never exceeded, the counts are right. *)
Theorem enumerator_counts : forall cap h, names_distinct h -> ids_ok h ->
  exists en, erun (enumerator_init cap) h = Some en /\
  total_nodes_count en = length (accepted cap h) /\ (total_nodes_count en <= cap)%nat /\
  discovered_nodes_count en =
    length (filter (fun nd => match announced h (fst nd) with Some _ => true | None => false end) (accepted cap h)).
Proof. exact counts_l. Qed.
Print Assumptions enumerator_counts.

Definition ex_hist : list event :=
  [Add [98] 10; Add [97; 97] 11; Announce [98] 42; Announce [120] 9; Add [97] 12; Announce [97] 7; Announce [98] 43; Add [99] 13].

Example enumerator_hypotheses : names_distinct ex_hist /\ ids_ok ex_hist.
Proof.
  split.
  - unfold names_distinct. cbn. repeat constructor; cbn; intuition discriminate.
  - intros s c H. unfold CAN_ID_NOT_SET. cbn in H. intuition congruence.
Qed.
Example enumerator_example : exists en, erun (enumerator_init 3) ex_hist = Some en /\
  get_can_id en [98] = Some 42 /\ get_driver_by_can_id en 7 = Some (Some 12) /\ get_can_id en [97; 97] = Some 255 /\
  get_can_id en [99] = Some 254 /\ get_str_id en 43 = Some None.
Proof. eexists. split; [reflexivity|]. repeat split. Qed.

(** C11 fails if the id 0xFF (the "not set" marker) is announced: each repetition takes one more slot
    of the second table, which is finally overrun. *)
Theorem enumerator_id_255_refuted : exists cap h, names_distinct h /\ erun (enumerator_init cap) h = None.
Proof.
  exists 1%nat, [Add [97] 1; Announce [97] 255; Announce [97] 255]. split; [|reflexivity].
  unfold names_distinct. cbn. repeat constructor. auto.
Qed.
Print Assumptions enumerator_id_255_refuted.

(** C11 fails if a name is registered twice: the CAN id of one registration hides behind the other. *)
Theorem enumerator_duplicate_refuted : exists cap h en, ids_ok h /\ erun (enumerator_init cap) h = Some en /\
  In [97] (map fst (accepted cap h)) /\ announced h [97] = Some 5 /\ get_can_id en [97] = Some CAN_ID_NOT_SET.
Proof.
  exists 4%nat, [Add [97] 1; Announce [97] 5; Add [97] 2; Add [97] 3]. eexists. split.
  - intros s c H. unfold CAN_ID_NOT_SET. cbn in H. intuition congruence.
  - split; [reflexivity|]. split; [now left|]. split; reflexivity.
Qed.
Print Assumptions enumerator_duplicate_refuted.
