(** Byte buffers shared by the models: a buffer is the list of its bytes, its capacity is the length
    of the list. Any access outside is undefined behaviour, [None]. *)
From Coq Require Import ZArith List Bool Lia ZifyBool.
Import ListNotations.
Local Open Scope Z_scope.

Definition byte_ok (b : Z) : Prop := 0 <= b < 256.
Definition bytes_ok (l : list Z) : Prop := Forall byte_ok l.

Definition blen (buf : list Z) : Z := Z.of_nat (length buf).

(** [buf[i] = v] *)
Definition bset (buf : list Z) (i v : Z) : option (list Z) :=
  if (0 <=? i) && (i <? blen buf)
  then Some (firstn (Z.to_nat i) buf ++ v :: skipn (S (Z.to_nat i)) buf) else None.

(** [buf[i]] *)
Definition bget (buf : list Z) (i : Z) : option Z :=
  if 0 <=? i then nth_error buf (Z.to_nat i) else None.

(** [buf[i] = l0; buf[i+1] = l1; ...] *)
Fixpoint bset_all (buf : list Z) (i : Z) (l : list Z) : option (list Z) :=
  match l with
  | [] => Some buf
  | v :: l => match bset buf i v with Some buf => bset_all buf (i + 1) l | None => None end
  end.

(** [n] bytes starting at [i]. *)
Definition bslice (buf : list Z) (i n : Z) : option (list Z) :=
  if (0 <=? i) && (0 <=? n) && (i + n <=? blen buf)
  then Some (firstn (Z.to_nat n) (skipn (Z.to_nat i) buf)) else None.

(** [memmove(buf + dst, buf + src, n)] *)
Definition bmove (buf : list Z) (dst src n : Z) : option (list Z) :=
  match bslice buf src n with
  | Some l => if (0 <=? dst) && (dst + n <=? blen buf)
              then Some (firstn (Z.to_nat dst) buf ++ l ++ skipn (Z.to_nat (dst + n)) buf)
              else None
  | None => None
  end.

Lemma blen_app a b : blen (a ++ b) = blen a + blen b.
Proof. unfold blen. rewrite app_length. lia. Qed.
Lemma blen_cons a b : blen (a :: b) = 1 + blen b.
Proof. unfold blen. cbn [length]. lia. Qed.
Lemma blen_nil : blen [] = 0. Proof. reflexivity. Qed.
Lemma blen_nonneg b : 0 <= blen b. Proof. unfold blen. lia. Qed.

Lemma firstn_blen_app a b : firstn (Z.to_nat (blen a)) (a ++ b) = a.
Proof.
  unfold blen. rewrite Nat2Z.id. rewrite firstn_app, Nat.sub_diag, firstn_all. cbn. apply app_nil_r.
Qed.
Lemma skipn_blen_app a b : skipn (Z.to_nat (blen a)) (a ++ b) = b.
Proof. unfold blen. rewrite Nat2Z.id. rewrite skipn_app, Nat.sub_diag, skipn_all. reflexivity. Qed.

Lemma bset_app a x b v i : i = blen a -> bset (a ++ x :: b) i v = Some (a ++ v :: b).
Proof.
  intros ->. unfold bset. rewrite blen_app, blen_cons.
  pose proof (blen_nonneg a). pose proof (blen_nonneg b).
  replace ((0 <=? blen a) && (blen a <? blen a + (1 + blen b)))%bool with true by (symmetry; lia).
  rewrite firstn_blen_app. do 3 f_equal.
  replace (a ++ x :: b) with ((a ++ [x]) ++ b) by now rewrite <- app_assoc.
  replace (S (Z.to_nat (blen a))) with (Z.to_nat (blen (a ++ [x]))).
  - apply skipn_blen_app.
  - rewrite blen_app. cbn. lia.
Qed.

Lemma bset_all_app l : forall a o b i, i = blen a -> length o = length l ->
  bset_all (a ++ o ++ b) i l = Some (a ++ l ++ b).
Proof.
  induction l as [|v l IH]; intros a o b i E L; destruct o as [|x o]; try discriminate; [reflexivity|].
  cbn [bset_all app]. rewrite bset_app by exact E.
  replace (a ++ v :: o ++ b) with ((a ++ [v]) ++ o ++ b) by now rewrite <- app_assoc.
  rewrite IH.
  - now rewrite <- app_assoc.
  - rewrite blen_app, E. reflexivity.
  - now inversion L.
Qed.

Lemma bget_app a x b i : i = blen a -> bget (a ++ x :: b) i = Some x.
Proof.
  intros ->. unfold bget. pose proof (blen_nonneg a). replace (0 <=? blen a) with true by (symmetry; lia).
  unfold blen. rewrite Nat2Z.id. rewrite nth_error_app2 by lia. now rewrite Nat.sub_diag.
Qed.

Lemma bslice_app a m b i n : i = blen a -> n = blen m -> bslice (a ++ m ++ b) i n = Some m.
Proof.
  intros -> ->. unfold bslice. rewrite !blen_app.
  pose proof (blen_nonneg a). pose proof (blen_nonneg b). pose proof (blen_nonneg m).
  replace ((0 <=? blen a) && (0 <=? blen m) && (blen a + blen m <=? blen a + (blen m + blen b)))%bool with true by (symmetry; lia).
  now rewrite skipn_blen_app, firstn_blen_app.
Qed.

(** Splitting a buffer at given sizes. *)
Lemma split_at (l : list Z) n : 0 <= n <= blen l -> exists a b, l = a ++ b /\ blen a = n.
Proof.
  intro H. exists (firstn (Z.to_nat n) l), (skipn (Z.to_nat n) l). split; [now rewrite firstn_skipn|].
  unfold blen in *. rewrite firstn_length. lia.
Qed.
