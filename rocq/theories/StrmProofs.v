From Coq Require Import ZArith List Bool Arith QArith Qround Lia Lqa.
From Verif Require Import CBase ParamModel ParamSpec ParamProofs ParamProofs2 EncSpec StrmModel StrmSpec.
From Verif Require CRes EncModel EncProofs.
Import ListNotations.
Local Open Scope Z_scope.

Notation nearest_unique := EncProofs.nearest_unique.

Section Num.
Variable num : Z -> Q.

(** ** One stream *)
Definition conf_ok (c : EncModel.stream_config) (v j : Z) : Prop :=
  ((num v <= 0)%Q /\ EncModel.enabled c = false) \/
  ((0 < num v)%Q /\ EncModel.enabled c = true /\ exists n, nearest n (100 / num v) /\ 0 < n < 65536 /\ EncModel.prescaler c = n /\
     0 <= j /\ EncModel.counter c = n - j mod n).

Lemma send_ok c v j : conf_ok c v j -> exists c' b, EncModel.stream_should_send c = (c', b) /\ conf_ok c' v (j + 1) /\ (b = true <-> due num v (j + 1)).
Proof.
  intros [[L E]|(L & E & n & N & B & P & J & C)]; unfold EncModel.stream_should_send; rewrite E.
  - exists c, false. split; [reflexivity|]. split; [left; auto|]. split; [discriminate|]. intros [H _]. lra.
  - assert (M : 0 <= j mod n < n) by (apply Z.mod_pos_bound; lia).
    assert (U : u16 (EncModel.counter c - 1) = n - j mod n - 1) by (rewrite C; unfold u16; apply Z.mod_small; lia).
    rewrite U. assert (D : due num v (j + 1) <-> (j + 1) mod n = 0).
    { split.
      - intros (_ & n' & q & N' & _ & Q). rewrite (nearest_unique _ _ _ N N'). rewrite Q, Z.mul_comm. apply Z.mod_mul. rewrite <- (nearest_unique _ _ _ N N'). lia.
      - intro Q. split; [exact L|]. exists n, ((j + 1) / n). split; [exact N|]. split; [lia|]. pose proof (Z.div_mod (j + 1) n). lia. }
    assert (Sx : (j mod n = n - 1 /\ (j + 1) mod n = 0) \/ (j mod n < n - 1 /\ (j + 1) mod n = j mod n + 1)).
    { pose proof (Z.div_mod j n ltac:(lia)) as Dm. destruct (Z.eq_dec (j mod n) (n - 1)) as [Q|Q]; [left|right]; (split; [lia|]).
      - symmetry. apply (Z.mod_unique_pos _ _ (j / n + 1)); lia.
      - symmetry. apply (Z.mod_unique_pos _ _ (j / n)); lia. }
    destruct (Z.eqb_spec (n - j mod n - 1) 0) as [Q|Q]; (eexists _, _; split; [reflexivity|]); cbn [EncModel.enabled EncModel.prescaler EncModel.counter].
    + split; [|rewrite D; split; intros; [lia|reflexivity]]. right. split; [exact L|]. split; [reflexivity|]. exists n. repeat (split; [assumption || lia|]). cbn [EncModel.counter]. lia.
    + split; [|rewrite D; split; [discriminate|lia]]. right. split; [exact L|]. split; [reflexivity|]. exists n. repeat (split; [assumption || lia|]). cbn [EncModel.counter]. lia.
Qed.

(** ** Updating one stream *)
Lemma get_of_read h p k g : parameter_read h p k = OK g -> exists h', parameter_get h p k = OK (h', g) /\ changed_clear h p = OK h'.
Proof.
  intro R. unfold parameter_get. destruct (changed_clear h p) as [h1| |] eqn:C.
  - exists h1. cbn [rbind]. apply changed_clear_spec in C as (x & F & _ & _ & N & _). unfold parameter_read in *. rewrite N, Nat.eqb_refl.
    rewrite F in R. rewrite load_loads in *. cbn [pdefined pval]. now rewrite R.
  - unfold changed_clear in C. destruct (nth_error (pars h) p) as [[? ? [] ? ?]|]; discriminate.
  - unfold changed_clear in C. unfold parameter_read in R. destruct (nth_error (pars h) p) as [[? ? [] ? ?]|]; discriminate.
Qed.

(** Parameter [q] is a float with value [v]. *)
Definition holds (h : heap) (q : nat) (v : Z) (b : bool) : Prop :=
  exists x, nth_error (pars h) q = Some x /\ pval x = VScalar v /\ pdefined x = true /\ pchanged x = b.

Lemma update_ok hist h c q v b : run hist = OK h -> holds h q v b -> usable num v ->
  exists h' c', stream_update_from_parameters num h c q = OK (h', c') /\ conf_ok c' v 0 /\ run (hist ++ [OGet q KScalar]) = OK h' /\
    holds h' q v false /\ forall q', q' <> q -> nth_error (pars h') q' = nth_error (pars h) q'.
Proof.
  intros R (x & X & V & D & _) U. assert (Rd : parameter_read h q KScalar = OK (GScalar v)).
  { unfold parameter_read. rewrite X. unfold load. now rewrite V, D. }
  destruct (get_of_read _ _ _ _ Rd) as (h' & G & C). apply changed_clear_spec in C as (x' & X' & _ & _ & N & _).
  rewrite X in X'. injection X' as <-.
  assert (K : forall c', (if negb (Qle_bool (num v) 0) then try conf := lift (EncModel.stream_set_prescaler c (num v) UAVCAN_SPIN_FREQUENCY) in OK (h', EncModel.stream_enable conf true) else OK (h', EncModel.stream_enable c false)) = OK (h', c') -> conf_ok c' v 0 ->
    exists h' c', stream_update_from_parameters num h c q = OK (h', c') /\ conf_ok c' v 0 /\ run (hist ++ [OGet q KScalar]) = OK h' /\
    holds h' q v false /\ forall q', q' <> q -> nth_error (pars h') q' = nth_error (pars h) q').
  { intros c' E O. exists h', c'. split; [|split; [exact O|split; [|split]]].
    - unfold stream_update_from_parameters. rewrite G. cbn [rbind]. exact E.
    - rewrite run_snoc, R. cbn [rbind run_op]. now rewrite G.
    - exists (mkpar (pid x) (pns x) false (pdefined x) (pval x)). rewrite N, Nat.eqb_refl. auto.
    - intros q' Q. rewrite N. destruct (Nat.eqb_spec q q'); [congruence|reflexivity]. }
  destruct U as [L|(L & n & Ne & B)].
  - eapply K.
    + rewrite (proj2 (Qle_bool_iff _ _) L). reflexivity.
    + left. split; [exact L|reflexivity].
  - assert (Q : Qle_bool (num v) 0 = false).
    { destruct (Qle_bool (num v) 0) eqn:Q; [|reflexivity]. apply Qle_bool_iff in Q. lra. }
    assert (En : EncModel.nearbyint (UAVCAN_SPIN_FREQUENCY / num v) = n) by (eapply nearest_unique; [apply EncProofs.nearest_nearbyint|exact Ne]).
    assert (Z0 : Qeq_bool (num v) 0 = false).
    { destruct (Qeq_bool (num v) 0) eqn:Z0; [|reflexivity]. apply Qeq_bool_iff in Z0. lra. }
    eapply K.
    + rewrite Q. cbn [negb]. unfold EncModel.stream_set_prescaler. rewrite Z0. cbv zeta. rewrite En.
      destruct (Z.leb_spec 0 n); [|lia]. destruct (Z.ltb_spec n 65536); [|lia]. cbn [andb lift rbind EncModel.stream_enable EncModel.enabled EncModel.prescaler EncModel.counter]. reflexivity.
    + right. split; [exact L|]. split; [reflexivity|]. exists n. cbn [EncModel.stream_enable EncModel.prescaler EncModel.counter]. rewrite Z.mod_0_l by lia. repeat (split; [assumption || lia|]). lia.
Qed.
End Num.
