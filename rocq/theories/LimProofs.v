(** Proofs about the rate limiter. *)
From Coq Require Import Reals ZArith List Bool Lra Lia.
From Verif Require Import LimModel LimSpec.
Import ListNotations.
Local Open Scope R_scope.

Notation times l := (map (@fst R packet) l).

Lemma check_cases : forall s t s' ok, check s t = (s', ok) ->
  max_rate s' = max_rate s /\ last_time s' = t /\
  let q := Rmin (quota s + max_rate s * (t - last_time s)) (max_rate s) in
  (ok = false /\ q <= 1 /\ quota s' = q) \/ (ok = true /\ 1 < q /\ quota s' = q - 1).
Proof.
  intros s t s' ok H. unfold check in H. cbv zeta in *.
  destruct (Rle_dec _ 1) as [L|L]; inversion H; subst; cbn; repeat split; auto. right. repeat split; lra.
Qed.

Definition inv (s : limiter) : Prop := 0 <= quota s <= max_rate s.

Lemma inv_step : forall s t s' ok, inv s -> last_time s <= t -> check s t = (s', ok) -> inv s'.
Proof.
  intros s t s' ok I T H. apply check_cases in H. cbv zeta in H. destruct H as (M & L & H). unfold inv in *. rewrite M.
  assert (0 <= max_rate s * (t - last_time s)) by (apply Rmult_le_pos; lra).
  pose proof (Rmin_r (quota s + max_rate s * (t - last_time s)) (max_rate s)).
  assert (0 <= Rmin (quota s + max_rate s * (t - last_time s)) (max_rate s)) by (apply Rmin_glb; lra).
  destruct H as [(_ & _ & E)|(_ & ? & E)]; rewrite E; lra.
Qed.

Lemma count_late : forall a b l s, b < last_time s -> clock_from (last_time s) (times l) ->
  count_in a b (times (rx_loop s l)) = 0%nat.
Proof.
  intros a b. induction l as [|(t, p) l IH]; intros s B C; [reflexivity|].
  cbn [rx_loop map fst clock_from] in *. destruct C as (C1 & C2). destruct (check s t) as (s', ok) eqn:K.
  apply check_cases in K. destruct K as (_ & L & _). specialize (IH s'). rewrite L in IH. specialize (IH ltac:(lra) C2).
  destruct ok; [|exact IH]. cbn [map fst count_in]. destruct (Rle_dec a t); [|exact IH]. destruct (Rle_dec t b); [lra|exact IH].
Qed.

Lemma count_inside : forall a b l s, inv s -> a <= last_time s <= b -> clock_from (last_time s) (times l) ->
  INR (count_in a b (times (rx_loop s l))) <= quota s + max_rate s * (b - last_time s).
Proof.
  intros a b. induction l as [|(t, p) l IH]; intros s I B C.
  - cbn [rx_loop map count_in INR]. destruct I. assert (0 <= max_rate s * (b - last_time s)) by (apply Rmult_le_pos; lra). lra.
  - cbn [rx_loop map fst clock_from] in *. destruct C as (C1 & C2). destruct (check s t) as (s', ok) eqn:K.
    pose proof (inv_step _ _ _ _ I C1 K) as I'. apply check_cases in K. destruct K as (M & L & K). cbv zeta in K.
    destruct (Rle_dec t b) as [T|T].
    + specialize (IH s' I'). rewrite L, M in IH. specialize (IH ltac:(lra) C2).
      pose proof (Rmin_l (quota s + max_rate s * (t - last_time s)) (max_rate s)).
      destruct K as [(-> & _ & E)|(-> & _ & E)]; rewrite E in IH.
      * lra.
      * cbn [map fst count_in]. destruct (Rle_dec a t); [|lra]. destruct (Rle_dec t b); [|lra]. rewrite S_INR. lra.
    + assert (Z : count_in a b (times (rx_loop s' l)) = 0%nat) by (apply count_late; rewrite L; [lra|exact C2]).
      assert (0 <= max_rate s * (b - last_time s)) by (destruct I; apply Rmult_le_pos; lra).
      destruct ok; cbn [map fst count_in]; [destruct (Rle_dec a t); [destruct (Rle_dec t b); [lra|]|]|];
        rewrite Z; cbn [INR]; destruct I; lra.
Qed.

Lemma count_before : forall a b l s, inv s -> last_time s < a -> a <= b -> clock_from (last_time s) (times l) ->
  INR (count_in a b (times (rx_loop s l))) <= max_rate s + max_rate s * (b - a).
Proof.
  intros a b. induction l as [|(t, p) l IH]; intros s I A B C.
  - cbn. destruct I. assert (0 <= max_rate s * (b - a)) by (apply Rmult_le_pos; lra). lra.
  - cbn [rx_loop map fst clock_from] in *. destruct C as (C1 & C2). destruct (check s t) as (s', ok) eqn:K.
    pose proof (inv_step _ _ _ _ I C1 K) as I'. apply check_cases in K. destruct K as (M & L & K). cbv zeta in K.
    destruct (Rlt_dec t a) as [T|T].
    + specialize (IH s' I'). rewrite L, M in IH. specialize (IH T B C2).
      destruct ok; [|exact IH]. cbn [map fst count_in]. destruct (Rle_dec a t); [lra|exact IH].
    + assert (0 <= max_rate s) by (destruct I; lra).
      assert (N : 0 <= max_rate s * (b - a)) by (apply Rmult_le_pos; lra).
      destruct (Rle_dec t b) as [T'|T'].
      * pose proof (count_inside a b l s' I') as J. rewrite L, M in J. specialize (J ltac:(lra) C2).
        pose proof (Rmin_r (quota s + max_rate s * (t - last_time s)) (max_rate s)).
        assert (max_rate s * (b - t) <= max_rate s * (b - a)) by (apply Rmult_le_compat_l; lra).
        destruct K as [(-> & _ & E)|(-> & _ & E)]; rewrite E in J.
        -- lra.
        -- cbn [map fst count_in]. destruct (Rle_dec a t); [|lra]. destruct (Rle_dec t b); [|lra]. rewrite S_INR. lra.
      * assert (Z : count_in a b (times (rx_loop s' l)) = 0%nat) by (apply count_late; rewrite L; [lra|exact C2]).
        destruct ok; cbn [map fst count_in]; [destruct (Rle_dec a t); [destruct (Rle_dec t b); [lra|]|]|];
          rewrite Z; cbn [INR]; lra.
Qed.

Lemma window : forall rate t0 a b l, 0 <= rate -> a <= b -> clock_from t0 (times l) ->
  INR (count_in a b (times (rx_thread rate t0 l))) <= rate + rate * (b - a).
Proof.
  intros rate t0 a b l R0 AB C. unfold rx_thread.
  assert (I : inv (limiter_init rate t0)) by (unfold inv; cbn; lra).
  assert (0 <= rate * (b - a)) by (apply Rmult_le_pos; lra).
  destruct (Rlt_dec t0 a) as [A|A]; [exact (count_before a b l (limiter_init rate t0) I A AB C)|].
  destruct (Rle_dec t0 b) as [B|B].
  - pose proof (count_inside a b l (limiter_init rate t0) I ltac:(cbn; lra) C) as J. cbn in J.
    assert (rate * (b - t0) <= rate * (b - a)) by (apply Rmult_le_compat_l; lra). lra.
  - rewrite (count_late a b l (limiter_init rate t0)); [cbn; lra|cbn; lra|exact C].
Qed.

Lemma conforming_loop : forall l s, 1 < max_rate s -> 0 < quota s -> apart (/ max_rate s) (last_time s) (times l) ->
  rx_loop s l = map (fun x => (fst x, os_read (snd x))) l.
Proof.
  induction l as [|(t, p) l IH]; intros s M Q A; [reflexivity|].
  cbn [rx_loop map fst snd apart] in *. destruct A as (A1 & A2). destruct (check s t) as (s', ok) eqn:K.
  apply check_cases in K. destruct K as (M' & L & K). cbv zeta in K.
  assert (1 <= max_rate s * (t - last_time s)).
  { replace 1 with (max_rate s * / max_rate s) by (field; lra). apply Rmult_le_compat_l; lra. }
  assert (1 < Rmin (quota s + max_rate s * (t - last_time s)) (max_rate s)) by (apply Rmin_glb_lt; lra).
  destruct K as [(_ & ? & _)|(-> & _ & E)]; [lra|]. rewrite (IH s'); [reflexivity|lra|lra|]. rewrite M', L. exact A2.
Qed.

Lemma conforming : forall rate t0 l, 1 < rate -> spaced (/ rate) t0 (times l) ->
  rx_thread rate t0 l = map (fun x => (fst x, os_read (snd x))) l.
Proof.
  intros rate t0 [|(t, p) l] M S; [reflexivity|]. cbn [spaced map fst] in S. destruct S as (S1 & S2).
  unfold rx_thread. cbn [rx_loop map fst snd]. destruct (check (limiter_init rate t0) t) as (s', ok) eqn:K.
  apply check_cases in K. destruct K as (M' & L & K). cbn [limiter_init quota max_rate last_time] in *. cbv zeta in K.
  assert (0 <= rate * (t - t0)) by (apply Rmult_le_pos; lra).
  rewrite (Rmin_right (rate + rate * (t - t0)) rate) in K by lra.
  destruct K as [(_ & ? & _)|(-> & _ & E)]; [lra|]. rewrite conforming_loop; [reflexivity|lra|lra|]. rewrite M', L. exact S2.
Qed.

Lemma slow_loop : forall l s, max_rate s <= 1 -> rx_loop s l = [].
Proof.
  induction l as [|(t, p) l IH]; intros s M; [reflexivity|]. cbn [rx_loop]. destruct (check s t) as (s', ok) eqn:K.
  apply check_cases in K. destruct K as (M' & _ & K). cbv zeta in K.
  pose proof (Rmin_r (quota s + max_rate s * (t - last_time s)) (max_rate s)).
  destruct K as [(-> & _)|(_ & ? & _)]; [|lra]. apply IH. lra.
Qed.

(** A clock that goes back. *)
Lemma back_loop : forall T l s, 0 < max_rate s -> quota s <= max_rate s + max_rate s * (last_time s - T) ->
  Forall (fun t => t <= T - 1 + / max_rate s) (times l) -> rx_loop s l = [].
Proof.
  intros T. induction l as [|(t, p) l IH]; intros s M Q F; [reflexivity|]. cbn [rx_loop map fst] in *.
  inversion F as [|? ? F1 F2]; subst. destruct (check s t) as (s', ok) eqn:K.
  apply check_cases in K. destruct K as (M' & L & K). cbv zeta in K.
  assert (B : max_rate s + max_rate s * (t - T) <= 1).
  { assert (max_rate s * (t - T) <= max_rate s * (- 1 + / max_rate s)) by (apply Rmult_le_compat_l; lra).
    replace (max_rate s * (-1 + / max_rate s)) with (1 - max_rate s) in H by (field; lra). lra. }
  pose proof (Rmin_l (quota s + max_rate s * (t - last_time s)) (max_rate s)).
  assert (E2 : max_rate s * (t - last_time s) + max_rate s * (last_time s - T) = max_rate s * (t - T)) by ring.
  destruct K as [(-> & _ & E)|(_ & ? & E)]; [|lra]. apply IH; rewrite ?M', ?L; [lra|lra|exact F2].
Qed.

Lemma loop_app : forall l1 s l2, exists s', max_rate s' = max_rate s /\ (quota s <= max_rate s -> quota s' <= max_rate s') /\
  last_time s' = last (times l1) (last_time s) /\ rx_loop s (l1 ++ l2) = rx_loop s l1 ++ rx_loop s' l2.
Proof.
  induction l1 as [|(t, p) l1 IH]; intros s l2; [exists s; repeat split; auto|].
  cbn [rx_loop app map fst]. destruct (check s t) as (s1, ok) eqn:K. apply check_cases in K. destruct K as (M & L & K).
  cbv zeta in K. destruct (IH s1 l2) as (s' & M' & Q' & L' & E). exists s'. split; [congruence|]. split; [|split].
  - intros _. apply Q'. rewrite M. pose proof (Rmin_r (quota s + max_rate s * (t - last_time s)) (max_rate s)).
    destruct K as [(_ & _ & ->)|(_ & _ & ->)]; lra.
  - rewrite L', L. destruct l1 as [|x l1]; [reflexivity|]. cbn [map]. generalize (fst x). intro y.
    clear. revert y. induction l1 as [|z l1 IH]; intro y; [reflexivity|]. cbn [map last]. cbn [map last] in IH. apply (IH (fst z)).
  - destruct ok; rewrite E; reflexivity.
Qed.

Lemma clock_back : forall rate t0 l1 t p l2, 0 < rate -> Forall (fun t' => t' <= t - 1 + / rate) (times l2) ->
  rx_thread rate t0 ((l1 ++ [(t, p)]) ++ l2) = rx_thread rate t0 (l1 ++ [(t, p)]).
Proof.
  intros rate t0 l1 t p l2 R0 F. unfold rx_thread.
  destruct (loop_app (l1 ++ [(t, p)]) (limiter_init rate t0) l2) as (s' & M & Q & L & E). rewrite E.
  rewrite map_app in L. cbn [map fst] in L. rewrite last_last in L. cbn [limiter_init max_rate quota] in *.
  rewrite (back_loop t l2 s'); [apply app_nil_r| | |]; rewrite ?M; auto. specialize (Q (Rle_refl _)). rewrite L.
  rewrite M in Q. lra.
Qed.

(** The largest burst. *)
Lemma burst1 : forall k rate l, 1 + INR k <= rate -> 
  length (rx_loop (Limiter rate (1 + INR k) 0) (repeat (0, @nil Z) k ++ l)) = (k + length (rx_loop (Limiter rate 1 0) l))%nat.
Proof.
  induction k as [|k IH]; intros rate l H.
  - cbn [INR repeat app]. rewrite Rplus_0_r. reflexivity.
  - cbn [repeat app rx_loop]. rewrite S_INR in *. unfold check. cbn [quota max_rate last_time]. cbv zeta.
    replace (1 + (INR k + 1) + rate * (0 - 0)) with (1 + INR k + 1) by ring. pose proof (pos_INR k).
    rewrite Rmin_left by lra. destruct (Rle_dec (1 + INR k + 1) 1); [lra|].
    replace (1 + INR k + 1 - 1) with (1 + INR k) by ring. cbn [length]. rewrite IH by lra. reflexivity.
Qed.
Lemma burst2 : forall n k rate, 2 <= rate ->
  length (rx_loop (Limiter rate 1 (INR k / rate)) (map (fun i => (INR i / rate, @nil Z)) (seq (S k) n))) = n.
Proof.
  induction n as [|n IH]; intros k rate H; [reflexivity|]. cbn [seq map rx_loop]. unfold check. cbn [quota max_rate last_time].
  cbv zeta. replace (1 + rate * (INR (S k) / rate - INR k / rate)) with 2 by (rewrite S_INR; field; lra).
  rewrite Rmin_left by lra. destruct (Rle_dec 2 1); [lra|]. replace (2 - 1) with 1 by ring. cbn [length]. rewrite IH by lra.
  reflexivity.
Qed.
Definition burst (n : nat) : list (R * packet) :=
  repeat (0, []) (n - 1) ++ map (fun i => (INR i / INR n, [])) (seq 1 n).
Lemma burst_length : forall n, (2 <= n)%nat -> length (rx_thread (INR n) 0 (burst n)) = (2 * n - 1)%nat.
Proof.
  intros n N. unfold rx_thread, limiter_init, burst. assert (2 <= INR n) by (change 2 with (INR 2); apply le_INR; lia).
  assert (E : INR n = 1 + INR (n - 1)) by (rewrite minus_INR by lia; cbn [INR]; ring).
  rewrite E at 2. rewrite burst1 by lra. pose proof (burst2 n 0 (INR n) H) as B. cbn [INR] in B.
  replace (0 / INR n) with 0 in B by (field; lra). rewrite B. lia.
Qed.
Lemma burst_clock : forall n, (2 <= n)%nat -> clock_from 0 (times (burst n)) /\ Forall (fun t => 0 <= t <= 1) (times (burst n)).
Proof.
  intros n N. unfold burst. assert (P : 0 < INR n) by (apply lt_0_INR; lia). assert (P' : 0 < / INR n) by (apply Rinv_0_lt_compat; lra).
  split.
  - generalize (n - 1)%nat. intro k. induction k as [|k IH]; [|cbn [repeat app map fst clock_from]; split; [lra|exact IH]].
    cbn [repeat app]. enough (H : forall m k, clock_from (INR k / INR n) (times (map (fun i => (INR i / INR n, @nil Z)) (seq (S k) m)))).
    { specialize (H n 0%nat). cbn [INR] in H. replace (0 / INR n) with 0 in H by (field; lra). exact H. }
    induction m as [|m IHm]; intro k; [exact I|]. cbn [seq map fst clock_from]. split; [|apply IHm].
    unfold Rdiv. apply Rmult_le_compat_r; [lra|]. rewrite S_INR; lra.
  - rewrite map_app. apply Forall_app. split.
    + apply Forall_forall. intros x X. apply in_map_iff in X. destruct X as ((t, p) & <- & X). apply repeat_spec in X.
      inversion X; cbn; lra.
    + apply Forall_forall. intros x X. rewrite map_map in X. apply in_map_iff in X. destruct X as (i & <- & X).
      apply in_seq in X. cbn [fst]. assert (INR i <= INR n) by (apply le_INR; lia). pose proof (pos_INR i). split.
      * unfold Rdiv. apply Rmult_le_pos; lra.
      * apply Rmult_le_reg_r with (INR n); [lra|]. unfold Rdiv. rewrite Rmult_assoc, Rinv_l by lra. lra.
Qed.

Lemma node_all : forall q, Forall (fun p => (length p < 1024)%nat) q -> node_thread q = (q, true).
Proof.
  induction q as [|p q IH]; intro F; [reflexivity|]. inversion F; subst. cbn [node_thread].
  rewrite (proj2 (Nat.ltb_lt _ _)) by assumption. rewrite IH by assumption. reflexivity.
Qed.
Lemma node_dead : forall q1 p q2, Forall (fun p => (length p < 1024)%nat) q1 -> (1024 <= length p)%nat ->
  node_thread (q1 ++ p :: q2) = (q1, false).
Proof.
  induction q1 as [|p1 q1 IH]; intros p q2 F L; cbn [app node_thread].
  - rewrite (proj2 (Nat.ltb_ge _ _)) by assumption. reflexivity.
  - inversion F; subst. rewrite (proj2 (Nat.ltb_lt _ _)) by assumption. rewrite IH by assumption. reflexivity.
Qed.
Lemma node_prefix : forall q, exists rest, q = fst (node_thread q) ++ rest /\ (snd (node_thread q) = true -> rest = []).
Proof.
  induction q as [|p q IH]; [exists []; auto|]. cbn [node_thread]. destruct (length p <? 1024)%nat.
  - destruct IH as (r & E & A). destruct (node_thread q) as (s, a). cbn [fst snd] in *. exists r. split; [cbn; congruence|exact A].
  - exists (p :: q). split; [reflexivity|discriminate].
Qed.
Lemma os_read_short : forall p, (length p < 1024)%nat -> os_read p = p.
Proof.
  intros p H. unfold os_read. apply firstn_all2. unfold MTU.
  apply Nat.leb_le. apply Nat.leb_le. apply Nat.lt_le_incl, (Nat.lt_trans _ 1024); [exact H|]. apply Nat.ltb_lt. reflexivity.
Qed.
