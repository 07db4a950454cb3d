(** * Feedback streams of the motor boards: which messages are sent, and when

    motor-control-firmware/src/uavcan/uavcan_streams.cpp. *)
From Coq Require Import ZArith List Bool Arith QArith Lia Lqa.
From Verif Require Import CBase ParamModel ParamSpec ParamProofs ParamProofs2 EncSpec StrmModel StrmSpec StrmProofs StrmProofs2 StrmProofs3.
From Verif Require CRes EncModel EncProofs.
Import ListNotations.
Local Open Scope Z_scope.

Lemma exec_app num n p evs evs' : forall st, exec num n p st (evs ++ evs') =
  rbind (exec num n p st evs) (fun x => let (st, a) := x in rbind (exec num n p st evs') (fun y => let (st, b) := y in OK (st, a ++ b))).
Proof.
  induction evs as [|e evs IH]; intro st; cbn [exec app rbind].
  - destruct (exec num n p st evs') as [[st' b]| |]; reflexivity.
  - destruct (step num n p st e) as [[st1 a]| |]; cbn [rbind]; try reflexivity. rewrite IH.
    destruct (exec num n p st1 evs) as [[st2 b]| |]; cbn [rbind]; try reflexivity.
    destruct (exec num n p st2 evs') as [[st3 c]| |]; cbn [rbind]; try reflexivity. now rewrite app_assoc.
Qed.

Lemma start_good (num : Z -> Q) hist h r : run hist = OK h -> (r < length (ns_decls hist))%nat -> (num 0%Z <= 0)%Q ->
  exists h1, run (hist ++ start_ops r (length (ns_decls hist))) = OK h1 /\
    good_state num hist r (hist ++ start_ops r (length (ns_decls hist))) h1 streams0 (fun _ => 0) true 0.
Proof.
  intros R Rr N0. destruct (start_ok hist h r R Rr) as (h1 & R1 & H1). exists h1. split; [exact R1|].
  split; [|split; [|split; [|discriminate]]].
  - split; [exact R1|]. split; [split; reflexivity|]. intros k K. exists true. auto.
  - intros k K. now left.
  - split; [|reflexivity]. intros _. exists 0%nat, 0. split; [lia|]. apply H1. lia.
Qed.

(** From the start of the streams on a tree of parameters, and whatever is done with it, a spin sends each message at
    most once, with the measures of that spin, and exactly those whose stream is due: the frequency last written for
    it is positive, and the number of spins since a frequency was written is a multiple of its divider. *)
Theorem strm_exact : forall (num : Z -> Q) hist h r, run hist = OK h -> (r < length (ns_decls hist))%nat ->
  Z.of_nat (length (par_decls hist)) + 7 < 2 ^ 31 -> (num 0%Z <= 0)%Q ->
  let n := length (ns_decls hist) in let p := length (par_decls hist) in
  exists h1, run (hist ++ start_ops r n) = OK h1 /\
    forall evs i st outs, Forall (admissible num p) evs -> exec num n p (h1, streams0) evs = OK (st, outs) ->
      exists st' ms l, exec num n p (h1, streams0) (evs ++ [Spin i]) = OK (st', outs ++ [ms]) /\
        NoDup l /\ ms = map (fun k => message_of k i) l /\
        forall k, In k l <-> (k < 7)%nat /\ due num (frequency 0 k evs) (age true 0 evs).
Proof.
  intros num hist h r R Rr Sm N0 n p. destruct (start_good num hist h r R Rr N0) as (h1 & R1 & G1). exists h1. split; [exact R1|].
  intros evs i [h2 s2] outs Ad E. destruct (exec_ok num hist r Rr Sm (ex_intro _ h R) evs _ _ _ _ _ _ _ _ G1 Ad E) as (H' & vals & w & j & G' & Fr & Ag).
  cbn [fst snd] in G'. destruct (spin_ok num hist r Rr Sm (ex_intro _ h R) H' h2 s2 vals w j i G') as (H3 & h3 & s3 & ms & l & E3 & _ & Nd & Dl & Ms).
  exists (h3, s3), ms, l. split; [|split; [exact Nd|split; [exact Ms|]]].
  - rewrite exec_app. fold n p in E. rewrite E. cbn [rbind exec step]. fold n p in E3. rewrite E3. reflexivity.
  - intro k. rewrite Dl, Ag. split; intros [K D]; (split; [exact K|]); [rewrite (Fr k K)|rewrite (Fr k K) in D]; exact D.
Qed.

(** Frequencies can be written at any time. *)
Theorem strm_write : forall (num : Z -> Q) hist h r, run hist = OK h -> (r < length (ns_decls hist))%nat ->
  Z.of_nat (length (par_decls hist)) + 7 < 2 ^ 31 -> (num 0%Z <= 0)%Q ->
  let n := length (ns_decls hist) in let p := length (par_decls hist) in
  exists h1, run (hist ++ start_ops r n) = OK h1 /\
    forall evs k v st outs, Forall (admissible num p) evs -> exec num n p (h1, streams0) evs = OK (st, outs) -> (k < 7)%nat -> usable num v ->
      exists st', exec num n p (h1, streams0) (evs ++ [Write k v]) = OK (st', outs).
Proof.
  intros num hist h r R Rr Sm N0 n p. destruct (start_good num hist h r R Rr N0) as (h1 & R1 & G1). exists h1. split; [exact R1|].
  intros evs k v [h2 s2] outs Ad E K U. destruct (exec_ok num hist r Rr Sm (ex_intro _ h R) evs _ _ _ _ _ _ _ _ G1 Ad E) as (H' & vals & w & j & G' & Fr & Ag).
  cbn [fst snd] in G'. destruct (write_ok num hist r Rr H' h2 s2 vals w j k v G' K U) as (h3 & E3 & _).
  exists (h3, s2). rewrite exec_app. fold n p in E. rewrite E. cbn [rbind exec step]. fold p in E3. rewrite E3. cbn [rbind]. now rewrite app_nil_r.
Qed.

(** A stream that is not wanted sends nothing. *)
Theorem strm_off : forall (num : Z -> Q) hist h r, run hist = OK h -> (r < length (ns_decls hist))%nat ->
  Z.of_nat (length (par_decls hist)) + 7 < 2 ^ 31 -> (num 0%Z <= 0)%Q ->
  let n := length (ns_decls hist) in let p := length (par_decls hist) in
  exists h1, run (hist ++ start_ops r n) = OK h1 /\
    forall evs i st outs ms k, Forall (admissible num p) evs -> exec num n p (h1, streams0) (evs ++ [Spin i]) = OK (st, outs ++ [ms]) ->
      (num (frequency 0 k evs) <= 0)%Q -> (k < 7)%nat -> ~ In (message_of k i) ms.
Proof.
  intros num hist h r R Rr Sm N0 n p. destruct (strm_exact num hist h r R Rr Sm N0) as (h1 & R1 & X). exists h1. split; [exact R1|].
  fold n p in X. intros evs i st outs ms k Ad E Off K I.
  assert (exists st0 o0, exec num n p (h1, streams0) evs = OK (st0, o0)) as (st0 & o0 & E0).
  { rewrite exec_app in E. destruct (exec num n p (h1, streams0) evs) as [[s0 o0]| |]; cbn [rbind] in E; try discriminate. eauto. }
  destruct (X evs i st0 o0 Ad E0) as (st' & ms' & l & E' & _ & -> & D). rewrite E in E'. injection E' as _ E'. apply app_inj_tail in E' as [_ ->].
  apply in_map_iff in I as (k' & M & I). apply D in I as [K' [Pos _]].
  assert (k' = k) as -> by (do 7 (destruct k as [|k]; [do 7 (destruct k' as [|k']; [first [reflexivity|discriminate M]|]); lia|]); lia). lra.
Qed.

(** A stream keeps its rate only while no frequency is written: writing the one of another stream, even with the
    value it has, starts all of them again. With the current at 50 Hz and a write of the velocity before each spin, the
    current is never sent. *)
Definition busy (i : inputs) (N : nat) : list event := Write 0 50 :: concat (repeat [Write 1 10; Spin i] N) ++ [Write 1 10].
Theorem strm_rate_refuted : exists hist h h1 p, run hist = OK h /\ p = length (par_decls hist) /\
  run (hist ++ start_ops 0 1) = OK h1 /\ length (ns_decls hist) = 1%nat /\
  forall i N, Forall (admissible inject_Z p) (busy i N) /\ frequency 0 0 (busy i N) = 50 /\
    exists st outs ms, exec inject_Z 1 p (h1, streams0) (busy i N ++ [Spin i]) = OK (st, outs ++ [ms]) /\ length outs = N /\
      ~ In (message_of 0 i) ms.
Proof.
  exists [ODeclNs None [1]]. destruct (run [ODeclNs None [1]]) as [h| |] eqn:R; [|vm_compute in R; discriminate..].
  destruct (strm_exact inject_Z _ h 0 R ltac:(cbn; lia) ltac:(cbn; lia) ltac:(vm_compute; discriminate)) as (h1 & R1 & X).
  destruct (strm_write inject_Z _ h 0 R ltac:(cbn; lia) ltac:(cbn; lia) ltac:(vm_compute; discriminate)) as (h1' & R1' & W).
  rewrite R1 in R1'. injection R1' as <-. cbn [ns_decls par_decls length] in *. exists h, h1, 0%nat.
  split; [reflexivity|]. split; [reflexivity|]. split; [exact R1|]. split; [reflexivity|]. intros i N.
  assert (U50 : usable inject_Z 50). { right. split; [reflexivity|]. exists 2. split; [|lia]. left; split; reflexivity. }
  assert (U10 : usable inject_Z 10). { right. split; [reflexivity|]. exists 10. split; [|lia]. left; split; reflexivity. }
  set (loop := fun N => concat (repeat [Write 1 10; Spin i] N)).
  assert (Al : Forall (admissible inject_Z 0) (Write 0 50 :: loop N)).
  { constructor; [split; [lia|exact U50]|]. unfold loop. induction N; cbn; [constructor|]. constructor; [split; [lia|exact U10]|]. constructor; [exact I|assumption]. }
  assert (Aa : Forall (admissible inject_Z 0) (busy i N)).
  { change (busy i N) with ((Write 0 50 :: loop N) ++ [Write 1 10]). apply Forall_app. split; [exact Al|]. constructor; [split; [lia|exact U10]|constructor]. }
  assert (Fq : forall v evs M, frequency v 0 (concat (repeat [Write 1 10; Spin i] M) ++ evs) = frequency v 0 evs).
  { intros v evs M. induction M; cbn; auto. }
  assert (F0 : frequency 0 0 (busy i N) = 50) by (unfold busy; cbn [frequency Nat.eqb]; now rewrite Fq).
  assert (Ag : forall w j M, age w j (concat (repeat [Write 1 10; Spin i] M) ++ [Write 1 10]) = 1).
  { intros w j M. revert w j. induction M; intros; cbn; auto. }
  assert (Ex : exists st outs, exec inject_Z 1 0 (h1, streams0) (Write 0 50 :: loop N) = OK (st, outs) /\ length outs = N).
  { clear Aa F0. unfold loop in *. induction N as [|N IH].
    - destruct (W [] 0%nat 50 (h1, streams0) [] ltac:(constructor) eq_refl ltac:(lia) U50) as (st & E). exists st, []. auto.
    - assert (S0 : Write 0 50 :: concat (repeat [Write 1 10; Spin i] (S N)) = (Write 0 50 :: concat (repeat [Write 1 10; Spin i] N)) ++ [Write 1 10; Spin i]).
      { cbn [app]. f_equal. clear. induction N; [reflexivity|]. cbn [repeat concat app]. do 2 f_equal. exact IHN. }
      rewrite S0 in Al |- *. apply Forall_app in Al as [Al _]. destruct (IH Al) as (st & outs & E & L).
      destruct (W _ 1%nat 10 _ _ Al E ltac:(lia) U10) as (st1 & E1).
      assert (Al' : Forall (admissible inject_Z 0) ((Write 0 50 :: concat (repeat [Write 1 10; Spin i] N)) ++ [Write 1 10])).
      { apply Forall_app. split; [exact Al|constructor; [split; [lia|exact U10]|constructor]]. }
      destruct (X _ i _ _ Al' E1) as (st2 & ms & l & E2 & _).
      rewrite <- app_assoc in E2. exists st2, (outs ++ [ms]). split; [exact E2|]. rewrite app_length. cbn. lia. }
  destruct Ex as (st & outs & E & L). split; [exact Aa|]. split; [exact F0|].
  destruct (W _ 1%nat 10 _ _ Al E ltac:(lia) U10) as (st1 & E1). change ((Write 0 50 :: loop N) ++ [Write 1 10]) with (busy i N) in E1.
  destruct (X _ i _ _ Aa E1) as (st2 & ms & l & E2 & _ & -> & D). exists st2, outs. eexists. split; [exact E2|]. split; [exact L|].
  intro I. apply in_map_iff in I as (k & M & I). assert (k = 0)%nat as -> by (do 7 (destruct k as [|k]; [first [reflexivity|discriminate M]|]); discriminate M).
  apply D in I as [_ (_ & m & q & Nm & P & J)]. rewrite F0 in Nm. unfold busy in J. cbn [age] in J. rewrite Ag in J.
  assert (m = 2). { apply (EncProofs.nearest_unique _ _ _ Nm). left; split; reflexivity. } lia.
Qed.

(** ** Cases *)
Definition ex_inputs : inputs := mkin 1 2 3 4 5 6 7 8 9 10 11.
Definition ex_hist : list op := [ODeclNs None [1]; ODeclNs (Some 0%nat) [2]; ODecl 1 [3] (DScalar (Some 5))].
(** The position at 100 Hz, the index at 30 Hz (one spin out of 3). *)
Example ex_streams : exists h1, run (ex_hist ++ start_ops 0 2) = OK h1 /\
  (let evs := [Write 2 100; Write 3 30; Other (OSet 0 (AScalar 8)); Spin ex_inputs; Spin ex_inputs] in
   Forall (admissible inject_Z 1) evs /\
   exists st, exec inject_Z 2 1 (h1, streams0) (evs ++ [Spin ex_inputs; Write 2 0; Spin ex_inputs]) =
     OK (st, [[message_of 2 ex_inputs]; [message_of 2 ex_inputs]; [message_of 2 ex_inputs; message_of 3 ex_inputs]; []])).
Proof.
  eexists. split; [vm_compute; reflexivity|]. split.
  - constructor; [split; [lia|]|constructor; [split; [lia|]|constructor; [left; lia|repeat constructor]]].
    + right. split; [reflexivity|]. exists 1. split; [|lia]. left; split; reflexivity.
    + right. split; [reflexivity|]. exists 3. split; [|lia]. left; split; reflexivity.
  - eexists. vm_compute. reflexivity.
Qed.

Print Assumptions strm_exact.
Print Assumptions strm_write.
Print Assumptions strm_off.
Print Assumptions strm_rate_refuted.
