(** The UDP broadcaster: no message is lost, changed, repeated or reordered between the two threads. *)
From Coq Require Import ZArith List Bool Arith Lia Permutation.
From Verif Require Import UdpModel UdpSpec.
Import ListNotations.

Lemma encoded_app a b : encoded (a ++ b) = encoded a ++ encoded b.
Proof. unfold encoded. apply flat_map_app. Qed.
Lemma handled_app a b : handled (a ++ b) = handled a ++ handled b.
Proof. unfold handled. apply flat_map_app. Qed.

Lemma upd_other c m p k : k <> m -> upd c m p k = c k.
Proof. intro H. unfold upd. apply Nat.eqb_neq in H. now rewrite H. Qed.
Lemma upd_same c m p : upd c m p m = p.
Proof. unfold upd. now rewrite Nat.eqb_refl. Qed.
Lemma map_upd c m p l : ~ In m l -> map (upd c m p) l = map c l.
Proof. intro H. apply map_ext_in. intros k K. apply upd_other. intro E. subst. contradiction. Qed.

(** Each object is in one place, and what was encoded is what was handled and what waits. *)
Definition inv (s : state) : Prop :=
  Permutation (pool s ++ mailbox s ++ held s) (seq 0 16) /\ encoded (log s) = handled (log s) ++ waiting s.

Lemma inv_init : inv init.
Proof.
  split; [|reflexivity]. cbn [init pool mailbox held snd_ enc app]. rewrite app_nil_r.
  symmetry. apply Permutation_rev.
Qed.

Ltac rot := repeat (rewrite <- ?app_assoc; cbn [app]).

(** Two lists with the same elements, as often. *)
Ltac perm :=
  let x := fresh "x" in apply (Permutation_count_occ Nat.eq_dec); intro x;
  repeat match goal with H : Permutation _ _ |- _ =>
    let H' := fresh in pose proof (proj1 (Permutation_count_occ Nat.eq_dec _ _) H x) as H'; clear H end;
  repeat (rewrite ?count_occ_app in *; cbn [count_occ app] in *);
  repeat match goal with |- context [Nat.eq_dec ?a ?b] => destruct (Nat.eq_dec a b) end; lia.

Lemma nodup_of s : Permutation (pool s ++ mailbox s ++ held s) (seq 0 16) -> NoDup (pool s ++ mailbox s ++ held s).
Proof. intro P. apply (Permutation_NoDup (Permutation_sym P)). apply seq_NoDup. Qed.

Lemma nodup_r {A} (a b : list A) : NoDup (a ++ b) -> NoDup b.
Proof. induction a as [|x a IH]; [auto|]. cbn. intro H. apply IH. now inversion H. Qed.

(** The message of the encoder is nowhere else. *)
Lemma mine s m : Permutation (pool s ++ mailbox s ++ held s) (seq 0 16) -> enc s = EEncode m \/ enc s = EPost m ->
  ~ In m (mailbox s) /\ (forall k, snd_ s = SBuf k \/ snd_ s = SSend k -> k <> m) /\ length (mailbox s) < 16.
Proof.
  intros P E. pose proof (nodup_of s P) as N. pose proof (Permutation_length P) as L.
  rewrite seq_length, !app_length in L.
  assert (H : exists q, held s = q ++ [m] /\ forall k, snd_ s = SBuf k \/ snd_ s = SSend k -> q = [k]).
  { unfold held. destruct E as [-> | ->]; eexists; (split; [reflexivity|]); intros k [-> | ->]; reflexivity. }
  destruct H as (q & H & Q). rewrite H in *.
  apply nodup_r in N. split; [|split].
  - intro I. rewrite app_assoc in N. apply NoDup_remove_2 in N. rewrite app_nil_r in N. apply N.
    apply in_or_app. now left.
  - intros k K Eq. subst k. rewrite (Q m K) in N. apply nodup_r in N. cbn in N.
    inversion N as [|? ? A B]. apply A. now left.
  - rewrite app_length in L. cbn in L. lia.
Qed.

Lemma inv_step s c : inv s -> inv (step s c).
Proof.
  intros [P E]. destruct c as [p|b]; cbn [step].
  - unfold step_encoder. destruct (enc s) as [|m|m] eqn:EN.
    + destruct (pool s) as [|m r] eqn:PO.
      * split; cbn [pool mailbox held snd_ enc log contents].
        -- unfold held in *; cbn [snd_ enc]. rewrite EN in P. exact P.
        -- rewrite encoded_app, handled_app. cbn [encoded handled flat_map]. rewrite !app_nil_r, E. unfold waiting. cbn [snd_ enc contents mailbox].
           rewrite EN. now rewrite ?app_nil_r.
      * split; cbn [pool mailbox log].
        -- unfold held in *; cbn [snd_ enc]. rewrite EN in P. perm.
        -- rewrite E. unfold waiting. cbn [snd_ enc contents mailbox]. rewrite EN. now rewrite ?app_nil_r.
    + destruct (mine s m P (or_introl EN)) as (M1 & M2 & _).
      assert (SM : match snd_ s with SFetch => [] | SBuf k | SSend k => [upd (contents s) m p k] end =
                   match snd_ s with SFetch => [] | SBuf k | SSend k => [contents s k] end).
      { destruct (snd_ s) as [|k|k] eqn:SN; [reflexivity| |]; rewrite upd_other; auto. }
      destruct p as [|a p]; cbn [pool mailbox log].
      * split; cbn [pool mailbox log].
        -- unfold held in *; cbn [snd_ enc]. rewrite EN in P. perm.
        -- rewrite E. unfold waiting. cbn [snd_ enc contents mailbox]. rewrite EN, SM, map_upd; auto.
      * split; cbn [pool mailbox log].
        -- unfold held in *; cbn [snd_ enc]. rewrite EN in P. exact P.
        -- rewrite encoded_app, handled_app, E. unfold waiting. cbn [snd_ enc contents mailbox]. rewrite EN, SM, map_upd by auto.
           rewrite upd_same. cbn [handled encoded flat_map]. rewrite !app_nil_r. rewrite <- !app_assoc. reflexivity.
    + destruct (mine s m P (or_intror EN)) as (_ & _ & M3).
      destruct (Nat.ltb_spec (length (mailbox s)) MSG_BUF_SIZE) as [L|L]; [|unfold MSG_BUF_SIZE in L; lia].
      split; cbn [pool mailbox log].
      * unfold held in *; cbn [snd_ enc]. rewrite EN in P. perm.
      * rewrite E. unfold waiting. cbn [snd_ enc contents mailbox]. rewrite EN, map_app. cbn [map].
        now rewrite !app_nil_r.
  - unfold step_sender. destruct (snd_ s) as [|m|m] eqn:SN.
    + destruct (mailbox s) as [|m r] eqn:MB.
      * split; [rewrite MB|]; assumption.
      * split; cbn [pool mailbox log].
        -- unfold held in *; cbn [snd_ enc]. rewrite SN in P. perm.
        -- rewrite E. unfold waiting. cbn [snd_ enc contents mailbox]. rewrite SN, MB. reflexivity.
    + destruct b; split; cbn [pool mailbox log].
      * unfold held in *; cbn [snd_ enc]. rewrite SN in P. exact P.
      * rewrite E. unfold waiting. cbn [snd_ enc contents mailbox]. now rewrite SN.
      * unfold held in *; cbn [snd_ enc]. rewrite SN in P. perm.
      * rewrite encoded_app, handled_app, E. unfold waiting. cbn [snd_ enc contents mailbox]. rewrite SN.
        cbn [handled encoded flat_map]. rewrite !app_nil_r, <- !app_assoc. reflexivity.
    + split; cbn [pool mailbox log].
      * unfold held in *; cbn [snd_ enc]. rewrite SN in P. perm.
      * rewrite encoded_app, handled_app, E. unfold waiting. cbn [snd_ enc contents mailbox]. rewrite SN.
        cbn [handled encoded flat_map]. rewrite !app_nil_r, <- !app_assoc. reflexivity.
Qed.

Lemma inv_run l : inv (run l).
Proof.
  unfold run. rewrite <- fold_left_rev_right. induction (rev l) as [|c r IH]; [exact inv_init|]. cbn [fold_right].
  now apply inv_step.
Qed.

(** At any time the messages encoded so far are, in order and unchanged, those the sender is done with, then those
    that wait: none is lost between the threads, sent twice, overwritten or out of order. *)
Theorem udp_in_order l : encoded (log (run l)) = handled (log (run l)) ++ waiting (run l).
Proof. apply inv_run. Qed.

(** Each of the 16 message objects is at any time in exactly one place: none leaks, none is freed twice. *)
Theorem udp_no_leak l : Permutation (pool (run l) ++ mailbox (run l) ++ held (run l)) (seq 0 16).
Proof. apply inv_run. Qed.

(** A publication is dropped only while 16 messages wait to be sent. *)
Theorem udp_dropped l c : log (step (run l) c) = log (run l) ++ [Dropped] -> length (waiting (run l)) = 16.
Proof.
  intro H. pose proof (inv_run l) as [P _]. set (s := run l) in *. clearbody s. apply Permutation_length in P.
  rewrite seq_length, !app_length in P.
  assert (K : forall e, log s = log s ++ [e] -> False).
  { intros e X. apply (f_equal (@length _)) in X. rewrite app_length in X. cbn in X. lia. }
  assert (K2 : forall e, log s ++ [e] = log s ++ [Dropped] -> e = Dropped).
  { intros e X. apply app_inv_head in X. congruence. }
  destruct c as [p|b]; cbn [step] in H; unfold step_encoder, step_sender in H.
  - destruct (enc s) as [|m|m] eqn:EN.
    + destruct (pool s) as [|m r] eqn:PO; [|apply K in H; contradiction].
      unfold waiting, held in *. rewrite EN in *. rewrite !app_length, map_length in *. cbn [length] in P.
      destruct (snd_ s); cbn [length] in *; lia.
    + destruct p; [apply K in H; contradiction|]. cbn [log] in H. apply K2 in H. discriminate.
    + destruct (_ <? _); apply K in H; contradiction.
  - destruct (snd_ s) as [|m|m] eqn:SN.
    + destruct (mailbox s); apply K in H; contradiction.
    + destruct b; cbn [log] in H; [apply K in H; contradiction|]. apply K2 in H. discriminate.
    + cbn [log] in H. apply K2 in H. discriminate.
Qed.

(** A publication that finds the encoder waiting and a free message is not dropped: the encoder takes the message, and
    then what it encodes is recorded. *)
Theorem udp_accepted l p q : enc (run l) = EWait -> length (waiting (run l)) < 16 -> q <> [] ->
  encoded (log (step (step (run l) (Encoder p)) (Encoder q))) = encoded (log (run l)) ++ [q].
Proof.
  intros EN W Q. pose proof (inv_run l) as [P _]. set (s := run l) in *. clearbody s. apply Permutation_length in P.
  rewrite seq_length, !app_length in P.
  cbn [step]. unfold step_encoder at 2. rewrite EN. destruct (pool s) as [|m r] eqn:PO.
  - exfalso. unfold waiting, held in *. rewrite EN in *. rewrite !app_length, map_length in *. cbn [length] in *.
    destruct (snd_ s); cbn [length] in *; lia.
  - unfold step_encoder. cbn [enc log]. destruct q as [|a q]; [contradiction|]. cbn [log]. now rewrite encoded_app.
Qed.

(** Left alone, the sender sends all that is in the mailbox. *)
Lemma drain n : forall s, snd_ s = SFetch -> enc s = EWait -> length (mailbox s) = n ->
  exists s', fold_left step (repeat (Sender true) (3 * n)) s = s' /\ mailbox s' = [] /\ snd_ s' = SFetch /\ enc s' = EWait /\
    log s' = log s ++ map Sent (map (contents s) (mailbox s)).
Proof.
  induction n as [|n IH]; intros s SN E L.
  - apply length_zero_iff_nil in L. exists s. rewrite L. cbn. rewrite app_nil_r. auto.
  - destruct (mailbox s) as [|m r] eqn:MB; [discriminate|]. cbn [length] in L.
    replace (3 * S n) with (S (S (S (3 * n)))) by lia. cbn [repeat fold_left].
    set (s3 := step (step (step s (Sender true)) (Sender true)) (Sender true)).
    assert (X : s3 = mkstate (m :: pool s) r (contents s) (enc s) SFetch (log s ++ [Sent (contents s m)])).
    { unfold s3. cbn [step]. unfold step_sender at 3. rewrite SN, MB. reflexivity. }
    destruct (IH s3) as (s' & F & A & B & C & D); try (rewrite X; cbn; auto; lia).
    exists s'. split; [exact F|]. split; [exact A|]. split; [exact B|]. split; [exact C|].
    rewrite D, X. cbn [log mailbox contents map]. now rewrite <- app_assoc.
Qed.
Theorem udp_drains l : enc (run l) = EWait -> snd_ (run l) = SFetch ->
  exists n, let s' := run (l ++ repeat (Sender true) n) in
    log s' = log (run l) ++ map Sent (waiting (run l)) /\ handled (log s') = encoded (log s').
Proof.
  intros E S. exists (3 * length (mailbox (run l))).
  destruct (drain _ (run l) S E eq_refl) as (s' & F & A & B & C & D).
  assert (R : run (l ++ repeat (Sender true) (3 * length (mailbox (run l)))) = s').
  { unfold run at 1. rewrite fold_left_app. exact F. }
  rewrite R. cbn zeta.
  assert (W : waiting (run l) = map (contents (run l)) (mailbox (run l))).
  { unfold waiting. rewrite S, E. now rewrite app_nil_r. }
  split; [rewrite W; exact D|].
  pose proof (udp_in_order (l ++ repeat (Sender true) (3 * length (mailbox (run l))))) as O. rewrite R in O.
  rewrite O. unfold waiting. rewrite A, B, C. cbn. now rewrite app_nil_r.
Qed.

(** Examples: two messages on their way, and a pool that is used up. *)
Definition two : list choice :=
  [Encoder []; Encoder [1%Z]; Encoder []; Encoder []; Encoder [2%Z]; Sender true; Encoder []].
Example ex_two : waiting (run two) = [[1%Z]; [2%Z]] /\ encoded (log (run two)) = [[1%Z]; [2%Z]] /\
  handled (log (run two)) = [].
Proof. repeat split. Qed.
Definition full : list choice := concat (repeat [Encoder []; Encoder [1%Z]; Encoder []] 16).
Example ex_dropped : log (step (run full) (Encoder [])) = log (run full) ++ [Dropped].
Proof. vm_compute. reflexivity. Qed.
Example ex_accepted : enc (run two) = EWait /\ length (waiting (run two)) < 16 /\
  encoded (log (run (two ++ [Encoder []; Encoder [3%Z]]))) = [[1%Z]; [2%Z]; [3%Z]].
Proof. repeat split. vm_compute. lia. Qed.
Example ex_drains : enc (run full) = EWait /\ snd_ (run full) = SFetch /\ length (waiting (run full)) = 16.
Proof. vm_compute. auto. Qed.

Print Assumptions udp_in_order.
Print Assumptions udp_no_leak.
Print Assumptions udp_dropped.
Print Assumptions udp_accepted.
Print Assumptions udp_drains.
