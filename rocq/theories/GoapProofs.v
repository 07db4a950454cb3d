From Coq Require Import ZArith List Bool Arith Lia Permutation.
From Verif Require Import CRes GoapModel GoapSpec.
Import ListNotations.
Local Open Scope Z_scope.

Lemma upd_upd {A} (l : list A) i x y : upd (upd l i x) i y = upd l i y.
Proof. revert i; induction l; intros [|i]; cbn; auto. now rewrite IHl. Qed.

Section Lists.
Context {St : Type}.
Notation hp := (list (vnode St)).

Lemma is_list_fun (h : hp) : forall l p l', is_list h p l -> is_list h p l' -> l = l'.
Proof.
  induction l as [|x l IH]; intros p [|y l'] A B; cbn in *; auto.
  - destruct B; congruence.
  - destruct A; congruence.
  - destruct A as (-> & n & N1 & N2), B as (B & m & M1 & M2). inversion B; subst. f_equal. rewrite N1 in M1. inversion M1; subst. eauto.
Qed.
Lemma is_list_lt (h : hp) l : forall p, is_list h p l -> forall i, In i l -> (i < length h)%nat.
Proof.
  induction l as [|x l IH]; intros p H i I; [easy|]. destruct H as (-> & n & N1 & N2), I as [<-|I]; [|eauto]. eapply nth_lt; eauto.
Qed.
Lemma is_list_get (h : hp) l : forall p, is_list h p l -> forall i, In i l -> exists n, nth_error h i = Some n.
Proof. intros p H i I. apply get_lt. eapply is_list_lt; eauto. Qed.
Lemma is_list_len (h : hp) l p : is_list h p l -> NoDup l -> (length l <= length h)%nat.
Proof.
  intros H ND. rewrite <- (seq_length (length h) 0). apply NoDup_incl_length; auto. intros i I. apply in_seq. pose proof (is_list_lt _ _ _ H i I). lia.
Qed.
Lemma is_list_keep (h h' : hp) : forall l p, (forall i n, In i l -> nth_error h i = Some n -> exists n', nth_error h' i = Some n' /\ next n' = next n) ->
  is_list h p l -> is_list h' p l.
Proof.
  induction l as [|x l IH]; intros p K H; auto. destruct H as (-> & n & N1 & N2). destruct (K x n (or_introl eq_refl) N1) as (n' & M1 & M2).
  split; auto. exists n'. split; auto. rewrite M2. apply IH; auto. intros i m I. apply K. now right.
Qed.
Lemma is_list_upd (h : hp) l p i x : ~ In i l -> is_list h p l -> is_list (upd h i x) p l.
Proof. intros N. apply is_list_keep. intros j n J E. exists n. split; auto. rewrite upd_other; auto. intros ->; auto. Qed.
Lemma is_list_nil (h : hp) p : is_list h p [] <-> p = None.
Proof. reflexivity. Qed.
Lemma is_list_app (h : hp) l1 : forall p l2, is_list h p (l1 ++ l2) -> exists q, is_list h q l2.
Proof. induction l1 as [|x l1 IH]; intros p l2 H; [eauto|]. destruct H as (_ & n & _ & H). eauto. Qed.

(** The same nodes, but for the links. *)
Definition alike (n n' : vnode St) : Prop := prio n' = prio n /\ cost n' = cost n /\ st n' = st n /\ parent n' = parent n /\ act n' = act n.
Definition sbn (h h' : hp) : Prop := length h' = length h /\ forall j n, nth_error h j = Some n -> exists n', nth_error h' j = Some n' /\ alike n n'.
Lemma alike_refl n : alike n n. Proof. repeat split. Qed.
Lemma sbn_refl h : sbn h h. Proof. split; auto. intros. eexists. split; eauto. apply alike_refl. Qed.
Lemma sbn_trans a b c : sbn a b -> sbn b c -> sbn a c.
Proof.
  intros [A1 A2] [B1 B2]. split; [congruence|]. intros j n E. destruct (A2 _ _ E) as (m & M1 & Q1 & Q2 & Q3 & Q4 & Q5). destruct (B2 _ _ M1) as (k & K1 & R1 & R2 & R3 & R4 & R5).
  exists k. split; auto. repeat split; congruence.
Qed.
Lemma set_next_ok (h : hp) i n x : nth_error h i = Some n -> set_next h i x = OK (upd h i (mkn (prio n) (cost n) (st n) (parent n) (act n) x)).
Proof. intro E. unfold set_next, get. rewrite E. cbn [some rbind]. apply put_ok. eapply nth_lt; eauto. Qed.
Lemma sbn_set (h : hp) i n x : nth_error h i = Some n -> sbn h (upd h i (mkn (prio n) (cost n) (st n) (parent n) (act n) x)).
Proof.
  intro E. split; [apply upd_length|]. intros j m M. destruct (Nat.eq_dec i j) as [->|N].
  - rewrite upd_same by (eapply nth_lt; eauto). eexists. split; eauto. rewrite E in M. inversion M; subst. repeat split.
  - rewrite upd_other by auto. eexists. split; eauto. apply alike_refl.
Qed.

Lemma find_min_ok (h : hp) l : forall fuel p me mp, is_list h p l -> (length l <= fuel)%nat ->
  exists r, find_min fuel h p me mp = OK r /\ ((r = me /\ forall i n, In i l -> nth_error h i = Some n -> mp <= prio n) \/ exists i, In i l /\ r = Some i).
Proof.
  induction l as [|x l IH]; intros fuel p me mp H L; cbn in H.
  - subst. destruct fuel; cbn; eexists; split; eauto; left; split; auto; intros i n [].
  - destruct H as (-> & n & N1 & N2). destruct fuel as [|fuel]; cbn in L; [lia|]. cbn [find_min]. unfold get. rewrite N1. cbn [some rbind].
    destruct (prio n <? mp) eqn:Q.
    + destruct (IH fuel (next n) (Some x) (prio n) N2 ltac:(lia)) as (r & R1 & [[R2 R3]|(i & I1 & I2)]); exists r; split; auto; right.
      * exists x. split; [now left|auto].
      * exists i. split; [now right|auto].
    + apply Z.ltb_ge in Q. destruct (IH fuel (next n) me mp N2 ltac:(lia)) as (r & R1 & [[R2 R3]|(i & I1 & I2)]); exists r; split; auto.
      * left. split; auto. intros i m [<-|I] E; [rewrite N1 in E; inversion E; subst; auto|eauto].
      * right. exists i. split; [now right|auto].
Qed.

Lemma unlink_none (h : hp) m : forall l fuel p, is_list h p l -> ~ In m l -> (length l <= fuel)%nat -> unlink fuel h p (Some m) = OK h.
Proof.
  induction l as [|x l IH]; intros fuel p H N L; cbn in H.
  - subst. destruct fuel; reflexivity.
  - destruct H as (-> & n & N1 & N2). destruct fuel as [|fuel]; cbn in L; [lia|]. cbn [unlink]. unfold get. rewrite N1. cbn [some rbind].
    assert (same (next n) (Some m) = false) as ->.
    { destruct l as [|y l]; cbn in N2; [now rewrite N2|]. destruct N2 as (-> & _). cbn. apply Nat.eqb_neq. intros ->. apply N. right. now left. }
    apply IH; auto; [|lia]. intro. apply N. now right.
Qed.
Lemma unlink_ok m l2 : forall l1 (h : hp) x fuel, NoDup (x :: l1 ++ m :: l2) -> is_list h (Some x) (x :: l1 ++ m :: l2) -> (length (x :: l1 ++ m :: l2) <= fuel)%nat ->
  exists h', unlink fuel h (Some x) (Some m) = OK h' /\ is_list h' (Some x) (x :: l1 ++ l2) /\ sbn h h' /\ (forall j, ~ In j (x :: l1 ++ m :: l2) -> nth_error h' j = nth_error h j).
Proof.
  induction l1 as [|y l1 IH]; intros h x fuel ND (_ & n & N1 & N2) L; (destruct fuel as [|fuel]; [cbn in L; lia|]); cbn [unlink]; unfold get; rewrite N1; cbn [some rbind].
  - cbn in N2. destruct N2 as (-> & nm & M1 & M2). cbn [same]. rewrite Nat.eqb_refl. cbn [some rbind]. rewrite M1. cbn [some rbind].
    rewrite (set_next_ok h x n) by auto. cbn [rbind]. set (h1 := upd h x _).
    assert (X : x <> m /\ ~ In x l2 /\ ~ In m l2). { inversion ND; subst. inversion H2; subst. cbn in H1. intuition. }
    destruct X as (X1 & X2 & X3).
    assert (E1 : nth_error h1 m = Some nm) by (unfold h1; rewrite upd_other; auto).
    rewrite (set_next_ok h1 m nm) by auto. cbn [rbind]. set (h2 := upd h1 m _).
    assert (E2 : nth_error h2 x = Some (mkn (prio n) (cost n) (st n) (parent n) (act n) (next nm))).
    { unfold h2. rewrite upd_other by auto. unfold h1. apply upd_same. eapply nth_lt; eauto. }
    rewrite E2. cbn [some rbind next].
    assert (T : is_list h2 (next nm) l2). { unfold h2, h1. apply is_list_upd; auto. apply is_list_upd; auto. }
    exists h2. split; [apply (unlink_none h2 m l2); auto; cbn in L; lia|]. split; [|split].
    + cbn. split; auto. eexists. split; eauto.
    + apply sbn_trans with h1; [now apply sbn_set|now apply sbn_set].
    + intros j J. cbn in J. unfold h2, h1. rewrite !upd_other; auto.
  - cbn in N2. destruct N2 as (NX & ny & Y1 & Y2). rewrite NX. cbn [same].
    assert (ND' : NoDup (y :: l1 ++ m :: l2)) by (now inversion ND).
    assert (X : ~ In x (y :: l1 ++ m :: l2)) by (now inversion ND).
    assert (Nat.eqb y m = false) as ->. { apply Nat.eqb_neq. intros ->. inversion ND'; subst. apply H1. apply in_app_iff. right. now left. }
    destruct (IH h y fuel ND') as (h' & H1 & H2 & H3 & H4).
    + cbn. split; auto. eauto.
    + cbn in L |- *. lia.
    + exists h'. split; auto. split; [|split; auto].
      * split; auto. exists n. split; [rewrite H4; auto|]. rewrite NX. apply H2.
      * intros j J. apply H4. intro. apply J. now right.
Qed.

Lemma pop_min_ok (h : hp) p l : is_list h p l -> NoDup l -> l <> [] -> (forall i n, In i l -> nth_error h i = Some n -> prio n < INT_MAX) ->
  exists h' p' i l1 l2, pop_min h p = OK (h', p', i) /\ l = l1 ++ i :: l2 /\ is_list h' p' (l1 ++ l2) /\ sbn h h' /\ (forall j, ~ In j l -> nth_error h' j = nth_error h j).
Proof.
  intros H ND NE PR. unfold pop_min. destruct (find_min_ok h l (length h) p None INT_MAX H) as (r & R1 & R2). { eapply is_list_len; eauto. }
  rewrite R1. cbn [rbind]. destruct l as [|x l]; [contradiction|]. pose proof H as HH. destruct H as (-> & n & N1 & N2).
  destruct R2 as [[-> R]|(i & I1 & ->)].
  { specialize (R x n (or_introl eq_refl) N1). specialize (PR x n (or_introl eq_refl) N1). lia. }
  cbn [same]. destruct (Nat.eqb i x) eqn:Q.
  - apply Nat.eqb_eq in Q. subst. cbn [some rbind]. unfold get. rewrite N1. cbn [some rbind]. exists h, (next n), x, [], l. repeat split; auto. intros j m E. exists m. repeat split; auto.
  - apply Nat.eqb_neq in Q. destruct I1 as [->|I1]; [contradiction|]. apply in_split in I1 as (l1 & l2 & ->).
    destruct (unlink_ok i l2 l1 h x (length h)) as (h' & H1 & H2 & H3 & H4); auto. { eapply is_list_len; eauto. }
    rewrite H1. cbn [rbind some]. exists h', (Some x), i, (x :: l1), l2. auto.
Qed.

Lemma last_of_ok (h : hp) : forall l fuel p q, is_list h p l -> (length l <= fuel)%nat ->
  last_of fuel h p q = OK (match rev l with [] => None | x :: _ => Some x end, match rev l with [] => q | _ :: [] => q | _ :: y :: _ => Some y end).
Proof.
  induction l as [|x l IH]; intros fuel p q H L; cbn in H.
  - subst. destruct fuel; reflexivity.
  - destruct H as (-> & n & N1 & N2). destruct fuel as [|fuel]; cbn in L; [lia|]. cbn [last_of]. unfold get. rewrite N1. cbn [some rbind].
    destruct l as [|y l]; cbn in N2; [rewrite N2; reflexivity|]. pose proof N2 as (NX & _). rewrite NX.
    rewrite (IH fuel (Some y) (Some x)); [|now rewrite <- NX|cbn in *; lia]. f_equal. cbn [rev]. destruct (rev l) as [|z r]; cbn; auto.
    f_equal. destruct (r ++ [y]) eqn:R; [destruct r; discriminate|]. cbn. destruct r; inversion R; reflexivity.
Qed.
(** Cutting the last element of a list. *)
Lemma cut_last (h : hp) x m ny : forall l p y, is_list h p (l ++ [y; x]) -> NoDup (l ++ [y; x]) -> nth_error h y = Some ny -> m = mkn (prio ny) (cost ny) (st ny) (parent ny) (act ny) None ->
  is_list (upd h y m) p (l ++ [y]).
Proof.
  induction l as [|z l IH]; intros p y H ND E M.
  - cbn in *. destruct H as (-> & n & N1 & _). split; auto. exists m. split; [apply upd_same; eapply nth_lt; eauto|]. now subst.
  - cbn [app] in *. inversion ND; subst. destruct H as (-> & n & N1 & N2). split; auto. exists n. split; [rewrite upd_other; auto; intros <-; apply H2; apply in_app_iff; right; now left|].
    eapply IH; eauto.
Qed.
End Lists.
