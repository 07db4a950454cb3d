From Coq Require Import ZArith List Bool Arith QArith Lia Lqa.
From Verif Require Import CBase ParamModel ParamSpec ParamProofs ParamProofs2 EncSpec StrmModel StrmSpec StrmProofs StrmProofs2.
From Verif Require CRes EncModel EncProofs.
Import ListNotations.
Local Open Scope Z_scope.

Definition conf (s : streams) (k : nat) : EncModel.stream_config :=
  match k with
  | 0%nat => s_current s | 1%nat => s_velocity s | 2%nat => s_position s | 3%nat => s_index s
  | 4%nat => s_enc_pos s | 5%nat => s_motor_pos s | _ => s_motor_torque s
  end.

Section Sys.
Variables (num : Z -> Q) (hist : list op) (r : nat).
Let n := length (ns_decls hist).
Let p := length (par_decls hist).
Hypothesis Rr : (r < n)%nat.
Hypothesis Small : Z.of_nat p + 7 < 2 ^ 31.
Hypothesis Ok0 : exists h, run hist = OK h.

Definition at_rest (H : list op) (h : heap) (vals : nat -> Z) : Prop :=
  run H = OK h /\ tree_of hist r H /\ forall k, (k < 7)%nat -> exists b, holds h (p + k) (vals k) b.

Lemma upd_step H h vals c k : at_rest H h vals -> (k < 7)%nat -> usable num (vals k) ->
  exists H' h' c', stream_update_from_parameters num h c (p + k) = OK (h', c') /\ conf_ok num c' (vals k) 0 /\ at_rest H' h' vals /\
    holds h' (p + k) (vals k) false /\ forall k' v, holds h (p + k') v false -> holds h' (p + k') v false.
Proof.
  intros (R & T & V) K U. destruct (V k K) as (b & Hb). destruct (update_ok num H h c (p + k) (vals k) b R Hb U) as (h' & c' & E & C & R' & Hf & O).
  exists (H ++ [OGet (p + k) KScalar]), h', c'. split; [exact E|]. split; [exact C|].
  assert (F : forall k' v b', k' <> k -> holds h (p + k') v b' -> holds h' (p + k') v b').
  { intros k' v b' Ne (x & X & A). exists x. rewrite O by lia. auto. }
  split; [|split; [exact Hf|]].
  - split; [exact R'|]. split; [now apply tree_usage|]. intros k' K'. destruct (Nat.eq_dec k' k) as [->|Ne]; [eauto|].
    destruct (V k' K') as (b' & Hb'). exists b'. auto.
  - intros k' v Hh. destruct (Nat.eq_dec k' k) as [->|Ne]; [|auto]. destruct Hh as (x & X & Vx & _). destruct Hb as (y & Y & Vy & _).
    rewrite X in Y. injection Y as <-. rewrite Vx in Vy. injection Vy as ->. exact Hf.
Qed.

Definition good_state (H : list op) (h : heap) (s : streams) (vals : nat -> Z) (w : bool) (j : Z) : Prop :=
  at_rest H h vals /\ (forall k, (k < 7)%nat -> usable num (vals k)) /\ (w = true <-> changed hist h) /\
  (w = false -> forall k, (k < 7)%nat -> conf_ok num (conf s k) (vals k) j).

Lemma update_all_ok H h s vals w j : good_state H h s vals w j ->
  exists H' h' s', update_all num h n p s = OK (h', s') /\ at_rest H' h' vals /\ (forall k, (k < 7)%nat -> holds h' (p + k) (vals k) false) /\
    forall k, (k < 7)%nat -> conf_ok num (conf s' k) (vals k) (if w then 0 else j).
Proof.
  intros (A & U & W & C). pose proof A as (R & T & V). destruct (contains_ok num hist r Rr Small Ok0 H h vals R T V) as (b & Cc & B).
  unfold update_all. fold n in Cc. rewrite Cc. cbn [rbind]. destruct w.
  - assert (b = true) as -> by (apply B, W; reflexivity).
    destruct (upd_step H h vals (s_current s) 0 A ltac:(lia) (U 0%nat ltac:(lia))) as (H0 & h0 & c0 & E0 & C0 & A0 & F0 & K0). rewrite Nat.add_0_r in E0.
    destruct (upd_step H0 h0 vals (s_velocity s) 1 A0 ltac:(lia) (U 1%nat ltac:(lia))) as (H1 & h1 & c1 & E1 & C1 & A1 & F1 & K1).
    destruct (upd_step H1 h1 vals (s_position s) 2 A1 ltac:(lia) (U 2%nat ltac:(lia))) as (H2 & h2 & c2 & E2 & C2 & A2 & F2 & K2).
    destruct (upd_step H2 h2 vals (s_index s) 3 A2 ltac:(lia) (U 3%nat ltac:(lia))) as (H3 & h3 & c3 & E3 & C3 & A3 & F3 & K3).
    destruct (upd_step H3 h3 vals (s_enc_pos s) 4 A3 ltac:(lia) (U 4%nat ltac:(lia))) as (H4 & h4 & c4 & E4 & C4 & A4 & F4 & K4).
    destruct (upd_step H4 h4 vals (s_motor_pos s) 5 A4 ltac:(lia) (U 5%nat ltac:(lia))) as (H5 & h5 & c5 & E5 & C5 & A5 & F5 & K5).
    destruct (upd_step H5 h5 vals (s_motor_torque s) 6 A5 ltac:(lia) (U 6%nat ltac:(lia))) as (H6 & h6 & c6 & E6 & C6 & A6 & F6 & K6).
    exists H6, h6, (mkstreams c0 c1 c2 c3 c4 c5 c6).
    split; [rewrite E0; cbn [rbind]; rewrite E1; cbn [rbind]; rewrite E2; cbn [rbind]; rewrite E3; cbn [rbind]; rewrite E4; cbn [rbind]; rewrite E5; cbn [rbind]; rewrite E6; reflexivity|].
    split; [exact A6|]. split.
    + intros k K. do 7 (destruct k as [|k]; [now repeat (first [assumption|apply K6|apply K5|apply K4|apply K3|apply K2|apply K1])|]). lia.
    + intros k K. do 7 (destruct k as [|k]; [assumption|]). lia.
  - assert (b = false) as ->. { destruct b; [|reflexivity]. assert (false = true) by (apply W, B; reflexivity). discriminate. }
    exists H, h, s. split; [reflexivity|]. split; [exact A|]. split; [|exact (C eq_refl)].
    intros k K. destruct (V k K) as ([] & Hb); [|exact Hb]. exfalso. assert (false = true) by (apply W; exists k, (vals k); auto). discriminate.
Qed.

Lemma spin_ok H h s vals w j i : good_state H h s vals w j ->
  exists H' h' s' ms l, uavcan_streams_spin num h n p s i = OK (h', s', ms) /\
    good_state H' h' s' vals false (if w then 1 else j + 1) /\
    NoDup l /\ (forall k, In k l <-> (k < 7)%nat /\ due num (vals k) (if w then 1 else j + 1)) /\ ms = map (fun k => message_of k i) l.
Proof.
  intro Gs. destruct (update_all_ok H h s vals w j Gs) as (H' & h' & s' & E & A & F & C). destruct Gs as (_ & U & _).
  set (j0 := if w then 0 else j) in *. replace (if w then 1 else j + 1) with (j0 + 1) by (subst j0; destruct w; reflexivity).
  unfold uavcan_streams_spin. rewrite E. cbn [rbind]. unfold send.
  destruct (send_ok num _ _ _ (C 0%nat ltac:(lia))) as (c0 & b0 & E0 & O0 & D0). destruct (send_ok num _ _ _ (C 1%nat ltac:(lia))) as (c1 & b1 & E1 & O1 & D1).
  destruct (send_ok num _ _ _ (C 2%nat ltac:(lia))) as (c2 & b2 & E2 & O2 & D2). destruct (send_ok num _ _ _ (C 3%nat ltac:(lia))) as (c3 & b3 & E3 & O3 & D3).
  destruct (send_ok num _ _ _ (C 4%nat ltac:(lia))) as (c4 & b4 & E4 & O4 & D4). destruct (send_ok num _ _ _ (C 5%nat ltac:(lia))) as (c5 & b5 & E5 & O5 & D5).
  destruct (send_ok num _ _ _ (C 6%nat ltac:(lia))) as (c6 & b6 & E6 & O6 & D6). cbn [conf] in *. rewrite E0, E1, E2, E3, E4, E5, E6.
  set (bs := fun k : nat => match k with 0%nat => b0 | 1%nat => b1 | 2%nat => b2 | 3%nat => b3 | 4%nat => b4 | 5%nat => b5 | _ => b6 end).
  exists H', h'. eexists _, _, (filter bs [0; 1; 2; 4; 3; 5; 6]%nat). split; [reflexivity|]. split; [|split; [|split]].
  - split; [exact A|]. split; [exact U|]. split.
    + split; [discriminate|]. intros (k & v & K & x & X & _ & _ & Cx). destruct (F k K) as (y & Y & _ & _ & Cy). fold p in X. congruence.
    + intros _ k K. do 7 (destruct k as [|k]; [assumption|]). lia.
  - apply NoDup_filter. repeat (constructor; [cbn; intuition discriminate|]). constructor.
  - intro k. rewrite filter_In. split.
    + intros [I B]. cbn in I. destruct I as [I|[I|[I|[I|[I|[I|[I|[]]]]]]]]; subst k; cbn [bs] in B; (split; [lia|tauto]).
    + intros [K D]. do 7 (destruct k as [|k]; [cbn [bs]; split; [cbn; tauto|tauto]|]). lia.
  - cbn [filter bs]. destruct b0, b1, b2, b3, b4, b5, b6; reflexivity.
Qed.

Lemma store_scalar w v : (exists u, w = VScalar u) -> store w (AScalar v) = OK (VScalar v).
Proof. intros (u & ->). reflexivity. Qed.

Lemma write_ok H h s vals w j k v : good_state H h s vals w j -> (k < 7)%nat -> usable num v ->
  exists h', parameter_set h (p + k) (AScalar v) = OK h' /\
    good_state (H ++ [OSet (p + k) (AScalar v)]) h' s (fun k' => if (k =? k')%nat then v else vals k') true j.
Proof.
  intros ((R & T & V) & U & W & C) K Uv. destruct (V k K) as (b & x & X & Vx & Dx & _).
  destruct (parameter_set h (p + k) (AScalar v)) as [h'| |] eqn:E.
  2,3: unfold parameter_set, store_at in E; rewrite X, Vx in E; cbn [store rbind] in E; unfold changed_set in E; cbn [set_value upd_par pars] in E;
       rewrite upd_nth, Nat.eqb_refl, X in E; cbn in E; destruct (pchanged x); discriminate.
  exists h'. split; [reflexivity|]. pose proof E as E'. apply set_spec in E' as (x' & v' & X' & St & _ & _ & N & _). rewrite X in X'. injection X' as <-.
  rewrite Vx in St. injection St as <-.
  assert (Hk : holds h' (p + k) v true).
  { eexists. rewrite N, Nat.eqb_refl. split; [reflexivity|]. cbn. rewrite Dx. auto. }
  split; [|split; [|split; [|discriminate]]].
  - split; [rewrite run_snoc, R; exact E|]. split; [now apply tree_usage|]. intros k' K'. destruct (Nat.eqb_spec k k') as [<-|Ne]; [eauto|].
    destruct (V k' K') as (b' & y & Y & A). exists b', y. rewrite N. destruct (Nat.eqb_spec (p + k) (p + k')); [lia|]. auto.
  - intros k' K'. destruct (k =? k')%nat; auto.
  - split; [|reflexivity]. intros _. exists k, v. auto.
Qed.

Lemma other_ok H h s vals w j o h' : good_state H h s vals w j -> admissible num p (Other o) -> run_op h o = OK h' ->
  good_state (H ++ [o]) h' s vals w j.
Proof.
  intros ((R & T & V) & U & W & C) Ad E. assert (T' : tree_of hist r (H ++ [o])) by (apply tree_usage; [exact T|destruct o; easy]).
  assert (N : forall k, (k < 7)%nat -> nth_error (pars h') (p + k) = nth_error (pars h) (p + k)).
  { intros k K. destruct o; cbn [admissible] in Ad; try easy; cbn [run_op] in E.
    - apply set_spec in E as (x & v & _ & _ & _ & _ & N & _). rewrite N. destruct (Nat.eqb_spec p0 (p + k)); [lia|reflexivity].
    - unfold parameter_get in E. destruct (changed_clear h p0) as [h1| |] eqn:Cc; cbn [rbind] in E; try discriminate.
      destruct (parameter_read h1 p0 k0); cbn [rbind] in E; try discriminate. injection E as <-.
      apply changed_clear_spec in Cc as (x & _ & _ & _ & N & _). rewrite N. destruct (Nat.eqb_spec p0 (p + k)); [lia|reflexivity].
    - destruct (parameter_read h p0 k0); cbn [rbind] in E; try discriminate. now injection E as <-. }
  assert (Hh : forall k v b, (k < 7)%nat -> holds h' (p + k) v b <-> holds h (p + k) v b) by (intros k v b K; unfold holds; now rewrite (N k K)).
  split; [|split; [exact U|split; [|exact C]]].
  - split; [now rewrite run_snoc, R|]. split; [exact T'|]. intros k K. destruct (V k K) as (b & Hb). exists b. now apply Hh.
  - rewrite W. split; intros (k & v & K & Hv); exists k, v; (split; [exact K|]); now apply Hh.
Qed.

Lemma step_ok H h s vals w j e h' s' o : good_state H h s vals w j -> admissible num p e -> step num n p (h, s) e = OK (h', s', o) ->
  exists H' vals' w' j', good_state H' h' s' vals' w' j' /\
    (forall k evs, (k < 7)%nat -> frequency (vals k) k (e :: evs) = frequency (vals' k) k evs) /\
    (forall evs, age w j (e :: evs) = age w' j' evs).
Proof.
  intros Gs Ad E. destruct e as [k v|o'|i]; cbn [step] in E.
  - destruct Ad as [K Uv]. destruct (write_ok _ _ _ _ _ _ _ _ Gs K Uv) as (h1 & E1 & G1). rewrite E1 in E. injection E as <- <- _.
    eexists _, _, _, _. split; [exact G1|]. split; [reflexivity|reflexivity].
  - destruct (run_op h o') as [h1| |] eqn:E1; try discriminate. injection E as <- <- _. pose proof (other_ok _ _ _ _ _ _ _ _ Gs Ad E1) as G1.
    eexists _, _, _, _. split; [exact G1|]. split; reflexivity.
  - destruct (spin_ok _ _ _ _ _ _ i Gs) as (H1 & h1 & s1 & ms & l & E1 & G1 & _). rewrite E1 in E. injection E as <- <- _.
    eexists _, _, _, _. split; [exact G1|]. split; reflexivity.
Qed.

Lemma exec_ok evs : forall H h s vals w j st outs, good_state H h s vals w j -> Forall (admissible num p) evs -> exec num n p (h, s) evs = OK (st, outs) ->
  exists H' vals' w' j', good_state H' (fst st) (snd st) vals' w' j' /\ (forall k, (k < 7)%nat -> frequency (vals k) k evs = vals' k) /\
    age w j evs = if w' then 1 else j' + 1.
Proof.
  induction evs as [|e evs IH]; intros H h s vals w j st outs Gs Ad E; cbn [exec] in E.
  - injection E as <- _. exists H, vals, w, j. auto.
  - inversion Ad; subst. destruct (step num n p (h, s) e) as [[[h1 s1] a]| |] eqn:E1; try discriminate. cbn [rbind] in E.
    destruct (step_ok _ _ _ _ _ _ _ _ _ _ Gs H2 E1) as (H1 & vals1 & w1 & j1 & G1 & Fr & Ag).
    destruct (exec num n p (h1, s1) evs) as [[st2 b]| |] eqn:E2; try discriminate. cbn [rbind] in E. injection E as -> _.
    destruct (IH _ _ _ _ _ _ _ _ G1 H3 E2) as (H' & vals' & w' & j' & G' & Fr' & Ag'). exists H', vals', w', j'. split; [exact G'|]. split.
    + intros k K. rewrite Fr by exact K. auto.
    + now rewrite Ag.
Qed.
End Sys.
