From Coq Require Import ZArith List Bool Arith QArith Lia Lqa.
From Verif Require Import CBase ParamModel ParamSpec ParamProofs ParamProofs2 EncSpec StrmModel StrmSpec StrmProofs.
From Verif Require CRes EncModel EncProofs.
Import ListNotations.
Local Open Scope Z_scope.

Lemma decls_app a b : ns_decls (a ++ b) = ns_decls a ++ ns_decls b /\ par_decls (a ++ b) = par_decls a ++ par_decls b.
Proof. split; apply flat_map_app. Qed.

(** ** The start *)
Lemma declare_ok H h m id v : run H = OK h -> (m < length (nss h))%nat ->
  exists h', run (H ++ [ODecl m id (DScalar (Some v))]) = OK h' /\ length (nss h') = length (nss h) /\
    length (pars h') = S (length (pars h)) /\ holds h' (length (pars h)) v true /\
    forall q, (q < length (pars h))%nat -> nth_error (pars h') q = nth_error (pars h) q.
Proof.
  intros R L. rewrite run_snoc, R. cbn [rbind run_op]. unfold parameter_declare. cbn [decl_value rbind]. unfold declare.
  destruct (Nat.ltb_spec m (length (nss h))); [|lia]. cbn [rbind pars]. rewrite app_length. cbn [length].
  set (h0 := mkheap _ _). replace (length (pars h) + 1 - 1)%nat with (length (pars h)) by lia.
  assert (N : nth_error (pars h0) (length (pars h)) = Some (mkpar id m false false (VScalar v))).
  { cbn [h0 pars]. rewrite nth_error_app2, Nat.sub_diag by lia. reflexivity. }
  destruct (changed_set h0 (length (pars h))) as [h'| |] eqn:C.
  2,3: unfold changed_set in C; rewrite N in C; discriminate.
  exists h'. split; [reflexivity|]. apply changed_set_spec in C as (x & X & S & Lp & Nq & _). rewrite N in X. injection X as <-.
  split; [|split; [|split]].
  - destruct S as [S _]. apply (f_equal (@length _)) in S. rewrite !map_length in S. rewrite S. cbn [h0 nss]. apply upd_length.
  - rewrite Lp. cbn [h0 pars]. rewrite app_length. cbn. lia.
  - eexists. rewrite Nq, Nat.eqb_refl. split; [reflexivity|]. auto.
  - intros q Hq. rewrite Nq. destruct (Nat.eqb_spec (length (pars h)) q); [lia|]. cbn [h0 pars]. now rewrite nth_error_app1.
Qed.

Lemma start_ok hist h r : run hist = OK h -> (r < length (ns_decls hist))%nat ->
  let n := length (ns_decls hist) in let p := length (par_decls hist) in
  exists h1, run (hist ++ start_ops r n) = OK h1 /\ forall k, (k < 7)%nat -> holds h1 (p + k) 0 true.
Proof.
  intros R Hr n p. pose proof (inv_run _ _ R) as Iv. pose proof (inv_length _ _ Iv) as Lp. fold p in Lp.
  assert (Ln : length (nss h) = n) by (pose proof (i_ns _ _ Iv) as Sh; apply (f_equal (@length _)) in Sh; unfold shape in Sh; now rewrite map_length in Sh).
  assert (R0 : exists h0, run (hist ++ [ODeclNs (Some r) n_streams]) = OK h0 /\ length (nss h0) = S n /\ pars h0 = pars h).
  { rewrite run_snoc, R. cbn [rbind run_op]. unfold namespace_declare. fold n in Hr. destruct (Nat.ltb_spec r (length (nss h))); [|lia].
    eexists. split; [reflexivity|]. cbn [nss pars]. rewrite app_length, upd_length. cbn. split; [lia|reflexivity]. }
  destruct R0 as (h0 & R0 & L0 & P0). rewrite <- P0 in Lp. clear R Iv P0 Ln.
  assert (Hd : forall ids H h0 s, run H = OK h0 -> length (nss h0) = S n -> length (pars h0) = (p + s)%nat ->
    (forall k, (k < s)%nat -> holds h0 (p + k) 0 true) ->
    exists h1, run (H ++ map (fun id => ODecl n id (DScalar (Some 0))) ids) = OK h1 /\ forall k, (k < s + length ids)%nat -> holds h1 (p + k) 0 true).
  { clear. induction ids as [|id ids IH]; intros H h0 s R L Lp Hk.
    - exists h0. cbn [map]. rewrite app_nil_r. split; [exact R|]. intros k K. apply Hk. cbn in K. lia.
    - destruct (declare_ok H h0 n id 0 R ltac:(lia)) as (h' & R' & L' & Lp' & Hn & Ho).
      destruct (IH _ h' (S s) R') as (h1 & R1 & H1); [lia|lia| |].
      + intros k K. destruct (Nat.eq_dec k s) as [->|Ne]; [now rewrite <- Lp|]. destruct (Hk k) as (x & X & A); [lia|].
        exists x. rewrite Ho by lia. auto.
      + exists h1. cbn [map]. rewrite <- app_assoc in R1. split; [exact R1|]. intros k K. apply H1. cbn in K. lia. }
  destruct (Hd [n_current; n_velocity; n_position; n_index; n_enc_pos; n_motor_pos; n_motor_torque] _ h0 0%nat R0 L0) as (h1 & R1 & H1).
  { lia. } { intros; lia. }
  exists h1. rewrite <- app_assoc in R1. split; [exact R1|exact H1].
Qed.

(** ** The namespace reports a change exactly when a frequency has been written *)
Section Sys.
Variables (num : Z -> Q) (hist : list op) (r : nat).
Let n := length (ns_decls hist).
Let p := length (par_decls hist).
Hypothesis Rr : (r < n)%nat.
Hypothesis Small : Z.of_nat p + 7 < 2 ^ 31.
Hypothesis Ok0 : exists h, run hist = OK h.

Definition tree_of (H : list op) : Prop := ns_decls H = ns_decls (hist ++ start_ops r n) /\ par_decls H = par_decls (hist ++ start_ops r n).

Lemma tree_ns H : tree_of H -> ns_decls H = ns_decls hist ++ [(Some r, n_streams)].
Proof. intros [-> _]. now rewrite (proj1 (decls_app _ _)). Qed.
Lemma tree_par H : tree_of H -> exists l, par_decls H = par_decls hist ++ l /\ length l = 7%nat /\ forall x, In x l -> fst (fst x) = n.
Proof. intros [_ ->]. rewrite (proj2 (decls_app _ _)). eexists. split; [reflexivity|]. split; [reflexivity|]. cbn. intuition (subst; reflexivity). Qed.

Lemma tree_within H : tree_of H -> forall q, param_within H q n <-> (p <= q < p + 7)%nat.
Proof.
  intros T q. destruct Ok0 as [h0 R0]. pose proof (wf_down _ (i_wf _ _ (inv_run _ _ R0))) as Dn. rewrite (i_ns _ _ (inv_run _ _ R0)) in Dn.
  destruct (tree_par H T) as (l & P & L & F). unfold param_within. rewrite (tree_ns H T), P. split.
  - intros (m & id & d & N & W). destruct (Nat.ltb_spec q p) as [Hq|Hq].
    + exfalso. rewrite nth_error_app1 in N by exact Hq.
      assert (Hm : (m < n)%nat).
      { pose proof (inv_run _ _ R0) as Iv. pose proof (i_par _ _ Iv) as Pp. pose proof (map_nth_error fst _ _ N) as N'. rewrite <- Pp in N'.
        rewrite nth_error_map in N'. destruct (nth_error (pars h0) q) as [x|] eqn:X; [|discriminate]. cbn in N'. injection N' as <- _.
        pose proof (wf_pns _ (i_wf _ _ Iv) _ _ X) as Hw. pose proof (i_ns _ _ Iv) as Sh. apply (f_equal (@length _)) in Sh. unfold shape in Sh. rewrite map_length in Sh. unfold n. lia. }
      clear N. remember n as t eqn:Et in W. revert Hm. induction W as [a|a b i c Na Wb IH]; intros; [lia|].
      rewrite nth_error_app1 in Na by exact Hm. apply Dn in Na. apply IH; [exact Et|lia].
    + split; [exact Hq|]. assert (q < length (par_decls hist ++ l))%nat by (apply nth_error_Some; congruence). rewrite app_length in *. fold p in H0. lia.
  - intros [A B]. destruct (nth_error l (q - p)) as [[[m id] d]|] eqn:N; [|apply nth_error_None in N; lia].
    pose proof (F _ (nth_error_In _ _ N)) as Q. cbn in Q. subst m. exists n, id, d. split; [|constructor].
    rewrite nth_error_app2 by exact A. exact N.
Qed.

Definition changed (h : heap) : Prop := exists k v, (k < 7)%nat /\ holds h (p + k) v true.
Lemma contains_ok H h vals : run H = OK h -> tree_of H -> (forall k, (k < 7)%nat -> exists b, holds h (p + k) (vals k) b) ->
  exists b, namespace_contains_changed h n = OK b /\ (b = true <-> changed h).
Proof.
  intros R T V. destruct (tree_par H T) as (l0 & P & L & _).
  destruct (changed_exact H h n R) as (x & l & _ & C & _ & E).
  - rewrite (tree_ns H T), app_length. cbn. fold n. lia.
  - rewrite P, app_length. fold p. lia.
  - eexists. split; [exact E|]. destruct C as [_ C]. pose proof (inv_run _ _ R) as Iv. split.
    + destruct l as [|q l]; [discriminate|]. intros _. destruct (proj1 (C q)) as [U W]; [now left|]. apply (tree_within H T) in W.
      destruct (V (q - p)%nat) as (b & y & Y & Vy & Dy & By); [lia|]. replace (p + (q - p))%nat with q in Y by lia.
      exists (q - p)%nat, (vals (q - p)%nat). split; [lia|]. exists y. replace (p + (q - p))%nat with q by lia. repeat (split; [assumption|]).
      now apply (i_chg _ _ Iv _ _ Y).
    + intros (k & v & K & y & Y & _ & _ & Cy). assert (In (p + k)%nat l) as I.
      { apply C. split; [now apply (i_chg _ _ Iv _ _ Y)|apply (tree_within H T); lia]. }
      destruct l; [easy|reflexivity].
Qed.
Lemma tree_usage H o : tree_of H -> match o with OSet _ _ | OGet _ _ | ORead _ _ => True | _ => False end -> tree_of (H ++ [o]).
Proof. intros [A B] U. unfold tree_of. rewrite ns_decls_snoc, par_decls_snoc, A, B. destruct o; try easy; now rewrite !app_nil_r. Qed.
End Sys.
