(** What the trajectory manager is for. *)
From Coq Require Import ZArith Reals List Bool.
From Flocq Require Import Core.
From Verif Require Import CRes QuadModel EncModel LieSpec TrajModel.
Import ListNotations.
Local Open Scope R_scope.

(** Why a trajectory ends, in order of precedence, with the bit of each. *)
Inductive reason := Goal | Near | Collision | Timer.
Definition precedence : list reason := [Goal; Near; Collision; Timer].
Definition bit (n : reason) : Z := match n with Goal => 0 | Near => 5 | Collision => 1 | Timer => 3 end.
(** The number of a reason, trajectory_helpers.h:22-27. *)
Definition code (n : reason) : Z := (2 ^ bit n)%Z.
Definition watched (w : Z) (n : reason) : Prop := Z.testbit w (bit n) = true.

Definition distance_to (r : robot) (tx ty : R) : R := sqrt ((pos_x r - tx) * (pos_x r - tx) + (pos_y r - ty) * (pos_y r - ty)).
Definition ramp_done (c : cs) : Prop := filtered_consign_value c = consign_value c.
(** Distance in mm and angle in radians that [n] encoder steps are. *)
Definition mm (r : robot) (n : Z) : R := IZR n / distance_imp_per_mm r.
Definition rad (r : robot) (n : Z) : R := IZR n / distance_imp_per_mm r / track_mm r * 2.
Definition near_distance (r : robot) : Prop :=
  exists d, read_distance (tgt r) = OK d /\ Rabs (mm r (d - rs_get_distance (rs r))) < d_win (win r).
Definition near_angle (r : robot) : Prop :=
  exists a, read_angle (tgt r) = OK a /\ Rabs (rad r (a - rs_get_angle (rs r))) < a_win_rad (win r).
Definition near_target (r : robot) : Prop :=
  match state r with
  | RUNNING_XY _ ANGLE_OK => exists tx ty, tgt r = Cart tx ty /\ distance_to r tx ty < d_win (win r)
  | RUNNING_D => near_distance r
  | RUNNING_A => near_angle r
  | RUNNING_AD => near_distance r /\ near_angle r
  | _ => False
  end.
Definition blocked (b : bd) : Prop := (cpt_thres b <> 0 /\ cpt_thres b <= cpt b)%Z.
Definition seconds (n : Z) : Z := (n * 1000000000)%Z.
Definition holds (r : robot) (n : reason) : Prop :=
  match n with
  | Goal => ramp_done (angle_cs r) /\ ramp_done (distance_cs r)
  | Near => near_target r
  | Collision => blocked (angle_bd r) \/ blocked (distance_bd r)
  | Timer => exists s, game_start r = Some s /\ (seconds 100 <= now r - s)%Z
  end.
(** [n] holds, and nothing that comes before it and was asked for does. *)
Definition first_reason (w : Z) (r : robot) (n : reason) : Prop :=
  exists before after, precedence = before ++ n :: after /\ watched w n /\ holds r n /\
  forall m, In m before -> watched w m -> ~ holds r m.
Definition timer_fits (r : robot) : Prop := forall s, game_start r = Some s -> (0 <= now r - s < seconds (2 ^ 31))%Z.

(** The robot was told to stay where its encoders say it was in [r], at once. *)
Definition axis_stopped (c : cs) (here : Z) : Prop :=
  consign_value c = here /\ previous_out (consign_filter c) = IZR here /\ previous_var (consign_filter c) = 0.
Definition stopped (r r' : robot) : Prop :=
  state r' = READY /\ scheduled r' = false /\ rs r' = rs r /\
  axis_stopped (angle_cs r') (rs_get_angle (rs r)) /\ axis_stopped (distance_cs r') (rs_get_distance (rs r)).

(** Events that give no order to the robot. *)
Definition quiet (e : event) : Prop :=
  match e with Command _ => False | Poll w => ~ watched w Collision /\ ~ watched w Timer | _ => True end.

(** [theta] and [dist]: turning by [theta] then moving by [dist] (backward when negative) leads to the point. *)
Definition leads_to (r : robot) (theta dist tx ty : R) : Prop :=
  tx = pos_x r + dist * cos (pos_a r + theta) /\ ty = pos_y r + dist * sin (pos_a r + theta).
Definition steps_of_mm (r : robot) (d : R) : Z := Ztrunc (d * distance_imp_per_mm r).
Definition steps_of_rad (r : robot) (a : R) : Z := Ztrunc (a * distance_imp_per_mm r * track_mm r / 2).

(** Where the relative commands, those that turn and the stops lead the encoders. *)
Definition wanted_distance (r : robot) (c : command) : option Z :=
  match c with
  | D_rel d | Only_d_rel d | D_a_rel d _ => Some (rs_get_distance (rs r) + steps_of_mm r d)%Z
  | A_rel _ | A_abs _ | Turnto _ _ | Turnto_behind _ _ | Stop | Hardstop => Some (rs_get_distance (rs r))
  | Only_a_rel _ | Only_a_abs _ => Some (consign_value (distance_cs r))
  | _ => None
  end.
Definition turned (r : robot) (theta : R) (z : Z) : Prop := z = (rs_get_angle (rs r) + steps_of_rad r theta)%Z.
Definition wanted_angle (r : robot) (c : command) (z : Z) : Prop :=
  match c with
  | A_rel a | Only_a_rel a | D_a_rel _ a => turned r (a * PI / 180) z
  | A_abs a | Only_a_abs a => exists theta, Rabs theta <= PI /\ same_angle (pos_a r + theta) (a * PI / 180) /\ turned r theta z
  | Turnto x y => exists theta n, Rabs theta <= PI /\ 0 <= n /\ leads_to r theta n x y /\ turned r theta z
  | Turnto_behind x y => exists theta n, Rabs theta <= PI /\ n <= 0 /\ leads_to r theta n x y /\ turned r theta z
  | D_rel _ | Stop | Hardstop => z = rs_get_angle (rs r)
  | Only_d_rel _ => z = consign_value (angle_cs r)
  | _ => False
  end.

(** The member of the target that the state of the trajectory makes the code read was the last one written. *)
Definition target_valid (r : robot) : Prop :=
  match state r with
  | READY => True
  | RUNNING_A => exists a, read_angle (tgt r) = OK a
  | RUNNING_D => exists d, read_distance (tgt r) = OK d
  | RUNNING_AD => (exists a, read_angle (tgt r) = OK a) /\ (exists d, read_distance (tgt r) = OK d)
  | RUNNING_XY _ _ => exists x y, tgt r = Cart x y
  end.
Definition is_init (r : robot) : Prop := exists gl gr w s imp track n, r = robot_init gl gr w s imp track n.
Definition reachable (r : robot) : Prop := exists r0 es, is_init r0 /\ run r0 es = OK r.

(** The speed of a movement to a point while its heading is wrong by [theta]. *)
Definition allowed_speed (r : robot) (theta : R) : R :=
  if Rlt_dec (a_start_rad (win r)) (Rabs theta) then 0
  else Rabs (d_speed (spd r) * ((a_start_rad (win r) - Rabs theta) / a_start_rad (win r))).
(** A quiet event that is not the one that updates the set points. *)
Definition passive (e : event) : Prop := quiet e /\ e <> Manage.

(** The detectors are never switched off by a threshold of zero (the counts are of type uint16_t). *)
Definition detecting (e : event) : Prop :=
  match e with Thresholds a d => (fst a <> 0 /\ 0 <= snd a /\ fst d <> 0 /\ 0 <= snd d)%Z | _ => True end.
(** The last round of the control loop in [es], from [r0], went from [r] to [r']. *)
Definition last_round (r0 : robot) (es : list event) (r r' : robot) : Prop :=
  exists es1 l rr s es2, es = es1 ++ Control l rr s :: es2 /\ (forall l' rr' s', ~ In (Control l' rr' s') es2) /\
  run r0 es1 = OK r /\ step r (Control l rr s) = OK r'.
(** The measured position of an axis is off its set point. *)
Definition angle_off (r : robot) : Prop :=
  (err_thres (angle_bd r) < Z.abs (filtered_consign_value (angle_cs r) - p_angle (pext_prev (rs r))))%Z.
Definition distance_off (r : robot) : Prop :=
  (err_thres (distance_bd r) < Z.abs (filtered_consign_value (distance_cs r) - p_distance (pext_prev (rs r))))%Z.
