(** Computations of C and C++ code that may have undefined behaviour, and arrays, shared by the models. *)
From Coq Require Import ZArith List Bool Arith Lia.
Import ListNotations.
Local Open Scope Z_scope.

(** [BAD]: the code has undefined behaviour, or does not end within the fuel given to a loop of the model. *)
Inductive res (A : Type) := OK (a : A) | BAD.
Arguments OK {A}. Arguments BAD {A}.
Definition rbind {A B} (m : res A) (f : A -> res B) : res B := match m with OK a => f a | BAD => BAD end.
Notation "'try' x := m 'in' f" := (rbind m (fun x => f)) (at level 200, x pattern, right associativity).
Definition some {A} (o : option A) : res A := match o with Some a => OK a | None => BAD end.
(** int arithmetic that may overflow. *)
Definition int (x : Z) : res Z := if (- 2 ^ 31 <=? x) && (x <? 2 ^ 31) then OK x else BAD.
Definition INT_MAX : Z := 2 ^ 31 - 1.

Fixpoint upd {A} (l : list A) (i : nat) (x : A) : list A :=
  match l, i with [], _ => [] | _ :: l, O => x :: l | y :: l, S i => y :: upd l i x end.
Definition get {A} (l : list A) (i : nat) : res A := some (nth_error l i).
Definition put {A} (l : list A) (i : nat) (x : A) : res (list A) := if (i <? length l)%nat then OK (upd l i x) else BAD.

Ltac dob H := match type of H with rbind ?e _ = OK _ =>
  let E := fresh "E" in destruct e eqn:E; [cbn [rbind] in H|discriminate H] end.

Lemma upd_length {A} (l : list A) i x : length (upd l i x) = length l.
Proof. revert i; induction l; intros [|i]; cbn; auto. Qed.
Lemma upd_nth {A} (l : list A) i j x : nth_error (upd l i x) j = if Nat.eqb i j && (i <? length l)%nat then Some x else nth_error l j.
Proof.
  revert i j; induction l as [|y l IH]; intros [|i] [|j]; cbn; auto; rewrite ?IH, ?andb_false_r; auto.
Qed.
Lemma upd_same {A} (l : list A) i x : (i < length l)%nat -> nth_error (upd l i x) i = Some x.
Proof. intro H. rewrite upd_nth, Nat.eqb_refl. apply Nat.ltb_lt in H. now rewrite H. Qed.
Lemma upd_other {A} (l : list A) i j x : i <> j -> nth_error (upd l i x) j = nth_error l j.
Proof. intro H. rewrite upd_nth. apply Nat.eqb_neq in H. now rewrite H. Qed.
Lemma put_ok {A} (l : list A) i x : (i < length l)%nat -> put l i x = OK (upd l i x).
Proof. intro H. unfold put. apply Nat.ltb_lt in H. now rewrite H. Qed.
Lemma get_ok {A} (l : list A) i x : get l i = OK x <-> nth_error l i = Some x.
Proof. unfold get, some. destruct (nth_error l i); split; congruence. Qed.
Lemma get_lt {A} (l : list A) i : (i < length l)%nat -> exists x, nth_error l i = Some x.
Proof. intro H. destruct (nth_error l i) eqn:E; [eauto|]. apply nth_error_None in E. lia. Qed.
Lemma nth_lt {A} (l : list A) i x : nth_error l i = Some x -> (i < length l)%nat.
Proof. intro H. apply nth_error_Some. congruence. Qed.
Lemma int_ok x : - 2 ^ 31 <= x < 2 ^ 31 -> int x = OK x.
Proof. intro H. unfold int. replace (- 2 ^ 31 <=? x) with true by (symmetry; apply Z.leb_le; lia). now replace (x <? 2 ^ 31) with true by (symmetry; apply Z.ltb_lt; lia). Qed.
Lemma int_inv x y : int x = OK y -> y = x /\ - 2 ^ 31 <= x < 2 ^ 31.
Proof. unfold int. destruct (_ && _) eqn:E; [|discriminate]. intro H. inversion H; subst. apply andb_prop in E as [E1 E2]. apply Z.leb_le in E1. apply Z.ltb_lt in E2. auto. Qed.
Lemma nth_error_ext' {A} (l l' : list A) : (forall i, nth_error l i = nth_error l' i) -> l = l'.
Proof.
  revert l'; induction l as [|x l IH]; intros [|y l'] H; auto; try (specialize (H 0%nat); discriminate).
  f_equal; [specialize (H 0%nat); now inversion H|]. apply IH. intro i. apply (H (S i)).
Qed.
