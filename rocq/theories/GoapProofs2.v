From Coq Require Import ZArith List Bool Arith Lia Permutation.
From Verif Require Import CRes GoapModel GoapSpec GoapProofs.
Import ListNotations.
Local Open Scope Z_scope.

Section Steps.
Context {St : Type} (P : problem St) (N : nat) (B : Z) (WF : well_formed P N B) (s0 : St).
Notation hp := (list (vnode St)).

Lemma eqb_eq a b : eqb P a b = true <-> a = b. Proof. apply WF. Qed.

(** What update_all does, [c] being the new node. *)
Definition updated (c : vnode St) (l : list nat) (h h' : hp) : Prop := length h' = length h /\ forall j n, nth_error h j = Some n ->
  exists n', nth_error h' j = Some n' /\ next n' = next n /\ st n' = st n /\ cost n' = cost n /\
    ((prio n' = prio n /\ parent n' = parent n /\ act n' = act n) \/
     (In j l /\ st n = st c /\ cost c < cost n /\ prio n' = prio c /\ parent n' = parent c /\ act n' = act c)).
Lemma updated_refl c l h : updated c l h h.
Proof. split; auto. intros j n E. exists n. repeat split; auto. Qed.
Lemma updated_trans c l l' h1 h2 h3 : updated c l h1 h2 -> updated c l' h2 h3 -> updated c (l ++ l') h1 h3.
Proof.
  intros [A1 A2] [B1 B2]. split; [congruence|]. intros j n E. destruct (A2 _ _ E) as (m & M1 & M2 & M3 & M4 & M5). destruct (B2 _ _ M1) as (k & K1 & K2 & K3 & K4 & K5).
  exists k. split; auto. split; [congruence|]. split; [congruence|]. split; [congruence|].
  destruct K5 as [(X1 & X2 & X3)|(X0 & X1 & X2 & X3 & X4 & X5)], M5 as [(Y1 & Y2 & Y3)|(Y0 & Y1 & Y2 & Y3 & Y4 & Y5)].
  - left. repeat split; congruence.
  - right. rewrite X1, X2, X3. repeat split; auto. apply in_app_iff; auto.
  - right. rewrite X3, X4, X5. repeat split; auto; try congruence. { apply in_app_iff; auto. }
  - right. rewrite X3, X4, X5. repeat split; auto. apply in_app_iff; auto.
Qed.
Lemma updated_sub c l l' h h' : incl l l' -> updated c l h h' -> updated c l' h h'.
Proof.
  intros I [A1 A2]. split; auto. intros j n E. destruct (A2 _ _ E) as (m & M1 & M2 & M3 & M4 & M5). exists m. repeat split; auto.
  destruct M5 as [?|(X0 & X)]; auto.
Qed.
Lemma updated_list c l h h' q p : updated c l h h' -> is_list h p q -> is_list h' p q.
Proof. intros [_ U]. apply is_list_keep. intros i n _ E. destruct (U _ _ E) as (m & M1 & M2 & _). eauto. Qed.
Lemma updated_self c l h h' i : updated c l h h' -> nth_error h i = Some c -> nth_error h' i = Some c.
Proof.
  intros [_ U] E. destruct (U _ _ E) as (m & M1 & M2 & M3 & M4 & [(X1 & X2 & X3)|(X0 & X1 & X2 & _)]); [|lia].
  rewrite M1. f_equal. destruct m, c; cbn in *; congruence.
Qed.

Lemma update_all_ok c i : forall l fuel h p b, is_list h p l -> (length l <= fuel)%nat -> nth_error h i = Some c ->
  exists h' b', update_all P fuel h p i b = OK (h', b') /\ updated c l h h' /\
    (b' = true -> b = true /\ forall j n, In j l -> nth_error h j = Some n -> st n <> st c) /\
    (b' = false -> b = false \/ exists j n, In j l /\ nth_error h j = Some n /\ st n = st c).
Proof.
  induction l as [|x l IH]; intros fuel h p b H L E; cbn in H.
  - subst. exists h, b. destruct fuel; cbn; (split; [reflexivity|]); (split; [apply updated_refl|]); split; auto; intros ->; split; auto; intros j n [].
  - destruct H as (-> & n & N1 & N2). destruct fuel as [|fuel]; cbn in L; [lia|]. cbn [update_all]. unfold get. rewrite N1, E. cbn [some rbind].
    destruct (eqb P (st n) (st c)) eqn:Q.
    + apply eqb_eq in Q.
      assert (U : exists h1, update_queued h x c = OK h1 /\ updated c [x] h h1).
      { unfold update_queued, get. rewrite N1. cbn [some rbind]. destruct (cost c <? cost n) eqn:K; [|eexists; split; eauto; apply updated_refl].
        apply Z.ltb_lt in K. rewrite put_ok by (eapply nth_lt; eauto). eexists. split; [reflexivity|]. split; [apply upd_length|].
        intros j m M. destruct (Nat.eq_dec x j) as [<-|].
        - rewrite upd_same by (eapply nth_lt; eauto). eexists. split; eauto. rewrite N1 in M. inversion M; subst. cbn. repeat split. right. repeat split; auto.
        - rewrite upd_other by auto. exists m. repeat split; auto. }
      destruct U as (h1 & U1 & U2). rewrite U1. cbn [rbind]. pose proof U2 as [_ U3]. destruct (U3 _ _ N1) as (n1 & M1 & M2 & _). rewrite M1. cbn [some rbind].
      rewrite M2. destruct (IH fuel h1 (next n) false) as (h' & b' & R1 & R2 & R3 & R4); [eapply updated_list; eauto|lia|eapply updated_self; eauto|].
      exists h', b'. split; auto. split; [change (x :: l) with ([x] ++ l); eapply updated_trans; eauto|]. split.
      * intro T. destruct (R3 T). discriminate.
      * intros _. right. exists x, n. split; [now left|auto].
    + destruct (IH fuel h (next n) b N2 ltac:(lia) E) as (h' & b' & R1 & R2 & R3 & R4). exists h', b'. split; auto.
      split; [eapply updated_sub; eauto; intros z Z; now right|]. split.
      * intro T. destruct (R3 T) as [T1 T2]. split; auto. intros j m [<-|J] M; [|eauto]. rewrite N1 in M. inversion M; subst. intro X. apply eqb_eq in X. congruence.
      * intro T. destruct (R4 T) as [|(j & m & J1 & J2 & J3)]; auto. right. exists j, m. split; [now right|auto].
Qed.

Definition neighbor (cur : vnode St) (current a : nat) : vnode St :=
  mkn (prio cur + 1 + dist P (effects P a (st cur))) (cost cur + 1) (effects P a (st cur)) (Some current) (Some a) None.
Definition withnext (n : vnode St) (x : option nat) : vnode St := mkn (prio n) (cost n) (st n) (parent n) (act n) x.
Lemma fill_ok h current i a cur n : nth_error h current = Some cur -> nth_error h i = Some n -> 0 <= cost cur -> 
  Z.abs (prio cur) + B + 1 < 2 ^ 31 -> cost cur + 1 < 2 ^ 31 ->
  fill P h current i a = OK (upd h i (withnext (neighbor cur current a) (next n))).
Proof.
  intros EC EI K1 K2 K3. pose proof (nth_lt _ _ _ EI) as LI. destruct WF as (_ & D & B0 & _). pose proof (D (effects P a (st cur))) as DD.
  unfold fill, get. rewrite EC, EI. cbn [some rbind]. rewrite put_ok by auto. cbn [rbind].
  destruct (Nat.eq_dec i current) as [->|NE].
  - rewrite EC in EI. inversion EI; subst n. rewrite !upd_same by auto. cbn [some rbind cost]. rewrite int_ok by lia. cbn [rbind]. rewrite put_ok by (now rewrite upd_length). cbn [rbind].
    rewrite !upd_same by (now rewrite !upd_length). cbn [some rbind prio st]. rewrite int_ok by lia. cbn [rbind]. rewrite int_ok by lia. cbn [rbind].
    rewrite put_ok by (now rewrite !upd_length). now rewrite !upd_upd.
  - rewrite upd_other by auto. rewrite EC. cbn [some rbind]. rewrite upd_same by auto. cbn [some rbind]. rewrite int_ok by lia. cbn [rbind]. rewrite put_ok by (now rewrite upd_length). cbn [rbind].
    rewrite !(upd_other _ i current) by auto. rewrite EC. cbn [some rbind]. rewrite !upd_same by (now rewrite !upd_length). cbn [some rbind prio st]. rewrite int_ok by lia. cbn [rbind]. rewrite int_ok by lia. cbn [rbind].
    rewrite put_ok by (now rewrite !upd_length). now rewrite !upd_upd.
Qed.

(** A node that stands for a state reached by a sequence of actions, its parents being in [C]. *)
Definition good (h : hp) (C : list nat) (n : vnode St) : Prop :=
  0 <= cost n <= Z.of_nat (length C) /\ - (cost n * (B + 1)) <= prio n <= cost n * (B + 1) /\
  match parent n with
  | None => st n = s0
  | Some p => In p C /\ exists pn a, nth_error h p = Some pn /\ act n = Some a /\ (a < action_count P)%nat /\
      can_run P a (st pn) = true /\ st n = effects P a (st pn) /\ cost pn < cost n
  end.
Definition valid (h : hp) (C : list nat) (x : nat) : Prop := exists n, nth_error h x = Some n /\ good h C n.

Lemma good_mono h h' C C' n n' : (length C <= length C')%nat -> incl C C' -> (forall p m, In p C -> nth_error h p = Some m -> exists m', nth_error h' p = Some m' /\ st m' = st m /\ cost m' = cost m) ->
  alike n n' -> good h C n -> good h' C' n'.
Proof.
  intros L I K (Q1 & Q2 & Q3 & Q4 & Q5) (G1 & G2 & G3). unfold good. rewrite Q1, Q2, Q3, Q4, Q5. split; [lia|]. split; [lia|].
  destruct (parent n) as [p|]; auto. destruct G3 as (G3 & pn & a & A1 & A2 & A3 & A4 & A5 & A6). split; auto.
  destruct (K _ _ G3 A1) as (m' & M1 & M2 & M3). exists m', a. rewrite M2, M3. auto 10.
Qed.
Lemma valid_sbn h h' C C' x : (length C <= length C')%nat -> incl C C' -> sbn h h' -> valid h C x -> valid h' C' x.
Proof.
  intros L I [_ K] (n & N1 & N2). destruct (K _ _ N1) as (n' & M1 & M2). exists n'. split; auto. apply (good_mono h h' C C' n n'); auto.
  intros p m _ E. destruct (K _ _ E) as (m' & E' & X1 & X2 & X3 & _). eauto.
Qed.
Lemma valid_updated c l h h' C x : good h C c -> updated c l h h' -> valid h C x -> valid h' C x.
Proof.
  intros GC [_ U] (n & N1 & N2). destruct (U _ _ N1) as (n' & M1 & M2 & M3 & M4 & M5). exists n'. split; auto.
  assert (K : forall p m, In p C -> nth_error h p = Some m -> exists m', nth_error h' p = Some m' /\ st m' = st m /\ cost m' = cost m).
  { intros p m _ E. destruct (U _ _ E) as (m' & Q1 & Q2 & Q3 & Q4 & _). eauto. }
  destruct M5 as [(X1 & X2 & X3)|(X0 & X1 & X2 & X3 & X4 & X5)].
  - apply (good_mono h h' C C n n'); auto; [apply incl_refl|repeat split; auto].
  - destruct N2 as (G1 & _ & _). destruct GC as (H1 & H2 & H3). destruct WF as (_ & _ & B0 & _). unfold good. rewrite M3, M4, X3, X4, X5, X1. split; [lia|]. split; [nia|].
    destruct (parent c) as [p|]; auto. destruct H3 as (H3 & pn & a & A1 & A2 & A3 & A4 & A5 & A6). split; auto.
    destruct (K _ _ H3 A1) as (m' & Q1 & Q2 & Q3). exists m', a. rewrite Q2, Q3. repeat split; auto. lia.
Qed.
Lemma valid_upd h C i n x : ~ In i C -> x <> i -> valid h C x -> valid (upd h i n) C x.
Proof.
  intros I NE (m & M1 & M2). exists m. rewrite upd_other by auto. split; auto. apply (good_mono h (upd h i n) C C m m); auto; [apply incl_refl| |apply alike_refl].
  intros p k J E. exists k. rewrite upd_other; auto. intros ->; auto.
Qed.

(** The chain of parents is a sequence of actions from the start. *)
Inductive pathto (h : hp) : nat -> list nat -> Prop :=
| path_root x n : nth_error h x = Some n -> parent n = None -> pathto h x []
| path_step x n p a l : nth_error h x = Some n -> parent n = Some p -> act n = Some a -> pathto h p l -> pathto h x (l ++ [a]).
Lemma runs_app s l l' : runs P s (l ++ l') = match runs P s l with Some s' => runs P s' l' | None => None end.
Proof. revert s; induction l as [|a l IH]; intro s; cbn; auto. destruct (_ && _); auto. Qed.
Lemma valid_path h C : (forall x, In x C -> valid h C x) -> forall k x, valid h C x -> (forall n, nth_error h x = Some n -> cost n <= Z.of_nat k) ->
  exists l n, nth_error h x = Some n /\ pathto h x l /\ runs P s0 l = Some (st n) /\ (length l <= k)%nat.
Proof.
  intros V k; induction k as [|k IH]; intros x (n & N1 & G1 & G2 & G3) K; specialize (K n N1); destruct (parent n) as [p|] eqn:Pn.
  - destruct G3 as (IP & pn & a & A1 & _ & _ & _ & _ & A6). destruct (V p IP) as (pn' & Q1 & Q2 & _). rewrite A1 in Q1. inversion Q1; subst. lia.
  - exists [], n. repeat split; auto; [econstructor; eauto|cbn; now rewrite G3].
  - destruct G3 as (IP & pn & a & A1 & A2 & A3 & A4 & A5 & A6). destruct (IH p) as (l & m & M1 & M2 & M3 & M4); auto.
    { intros m E. rewrite A1 in E. inversion E; subst. lia. }
    rewrite A1 in M1. inversion M1; subst m. exists (l ++ [a]), n. split; auto. split; [econstructor; eauto|]. split.
    + rewrite runs_app, M3. cbn [runs]. apply Nat.ltb_lt in A3. rewrite A3, A4. cbn [andb]. now rewrite A5.
    + rewrite app_length. cbn. lia.
  - exists [], n. repeat split; auto; [econstructor; eauto|cbn; now rewrite G3|cbn; lia].
Qed.
Lemma depth_ok h x l : pathto h x l -> forall fuel len n, nth_error h x = Some n -> (length l <= fuel)%nat -> 0 <= len -> len + Z.of_nat (length l) < 2 ^ 31 ->
  depth fuel h (parent n) len = OK (len + Z.of_nat (length l)).
Proof.
  induction 1 as [x m E Q|x m p a l E Q A Hp IH]; intros fuel len n En F L1 L2; rewrite E in En; inversion En; subst; rewrite Q.
  - cbn. destruct fuel; cbn; f_equal; lia.
  - rewrite app_length in *. cbn in F, L2. destruct fuel as [|fuel]; [lia|]. cbn [depth]. unfold get.
    assert (X : exists pn, nth_error h p = Some pn) by (inversion Hp; eauto). destruct X as (pn & X). rewrite X. cbn [some rbind].
    rewrite int_ok by lia. cbn [rbind]. rewrite IH; auto; try lia. f_equal. cbn. lia.
Qed.
Lemma upd_split {A} (b : list A) k x : (k < length b)%nat -> upd b k x = firstn k b ++ x :: skipn (S k) b.
Proof. revert k; induction b as [|y b IH]; intros [|k] L; cbn in *; auto; try lia. rewrite IH by lia. reflexivity. Qed.
Lemma write_path_ok h x l : pathto h x l -> forall fuel b, (length l < fuel)%nat -> (length l <= length b)%nat ->
  write_path fuel h x (Z.of_nat (length l) - 1) b = OK (map Some l ++ skipn (length l) b).
Proof.
  induction 1 as [x m E Q|x m p a l E Q A Hp IH]; intros fuel b F L; (destruct fuel as [|fuel]; [lia|]); cbn [write_path]; unfold get; rewrite E; cbn [some rbind]; rewrite Q; auto.
  rewrite app_length in *. cbn [length] in *. destruct (_ <? 0) eqn:Z0; [apply Z.ltb_lt in Z0; lia|].
  replace (Z.to_nat (Z.of_nat (length l + 1) - 1)) with (length l) by lia. rewrite put_ok by lia. cbn [rbind].
  replace (Z.of_nat (length l + 1) - 1 - 1) with (Z.of_nat (length l) - 1) by lia. rewrite IH by (rewrite ?upd_length; lia). f_equal.
  rewrite upd_split by lia. rewrite skipn_app, firstn_length, skipn_all2 by (rewrite firstn_length; lia). cbn.
  replace (length l - Nat.min (length l) (length b))%nat with 0%nat by lia. cbn. rewrite A, map_app, <- app_assoc. cbn. now rewrite Nat.add_1_r.
Qed.
End Steps.
