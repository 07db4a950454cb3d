(** The beacon after power-up. *)
From Coq Require Import ZArith Reals List Bool Lia Lra.
From Verif Require Import CBase CRes FloatModel FloatSpec FloatProofs PidModel PidSpec CtlModel BeaconModel BeaconSpec BeaconProofs BeaconProps.
Import ListNotations.
Local Open Scope R_scope.

(** C55. A signal is not measured before its beginning was seen. *)
Theorem no_signal_before_light m es : (forall t, ~ In (Light t false) es) -> measured m (sensor_init m) es = [].
Proof.
  assert (G : forall es x, active m x = false -> (forall t, ~ In (Light t false) es) -> measured m x es = []).
  { clear es. induction es as [|e es IH]; intros x A H; [reflexivity|]. cbn [measured].
    assert (H' : forall t, ~ In (Light t false) es) by (intros t K; apply (H t); right; exact K).
    destruct e as [t|t [|]|]; cbn [sense].
    - cbn [fst snd app]. now apply IH.
    - unfold light. cbn [negb]. rewrite A. cbn [fst snd app]. now apply IH.
    - exfalso. apply (H t). left. reflexivity.
    - cbn [fst snd app]. now apply IH. }
  intro H. now apply G.
Qed.
(** C55. Before the rotor was seen to turn, a light is reported at the angle 0 with the length 0, for 35 minutes. *)
Theorem signal_before_rotation t1 t2 : (2 <= t1 < 2 ^ 31)%Z -> (t1 <= t2 < 2 ^ 31)%Z ->
  measured exact (sensor_init exact) [Light (stamp t1) false; Light (stamp t2) true] =
  [{| start_angle := real 0 : num (F exact); length_ := real 0 : num (F exact) |}].
Proof.
  intros H1 H2.
  assert (P : forall t, (2 <= t < 2 ^ 31)%Z -> position_of exact (timestamp_duration_s exact 1 (stamp t)) (timestamp_duration_s exact 0 1) = real 0).
  { intros t H. change 1%Z with (stamp 1) at 1 2. change 0%Z with (stamp 0). rewrite !duration_exact by lia. change (1 - 0)%Z with 1%Z. rewrite ex_position by lia.
    destruct (Z.ltb_spec (t - 1) 1); [lia|reflexivity]. }
  cbn [measured sense light negb snd fst app sensor_init cross last last_last active start]. unfold get_period. cbn [last last_last]. rewrite !P by lia.
  cbv zeta. rewrite ex_int. change (sub (F exact) (real 0) (real 0)) with (real (0 - 0)). rewrite ex_lt.
  match goal with |- context [rlt ?d 0] => destruct (rlt_spec d 0) end; [exfalso; lra|]. rewrite Rminus_0_r. reflexivity.
Qed.
Print Assumptions no_signal_before_light.
Print Assumptions signal_before_rotation.
Example start_signal_case : measured exact (sensor_init exact) [Light (stamp 5000) false; Light (stamp 9000) true] = [{| start_angle := real 0 : num (F exact); length_ := real 0 : num (F exact) |}].
Proof. apply signal_before_rotation; lia. Qed.
Example no_light_case m : measured m (sensor_init m) [Hall 100; Light 5000 true; Reader; Hall 200; Light 6000 true] = [].
Proof. apply no_signal_before_light. intros t [H|[H|[H|[H|[H|[]]]]]]; discriminate. Qed.
