(** Proofs about the upload of a configuration: sequences of requests. *)
From Coq Require Import ZArith List Bool Lia Arith.
From Verif Require Import CBase Buf ParamModel ParamSpec ParamProofs ParamProofs2 UplModel UplSpec UplProofs.
Import ListNotations.
Local Open Scope Z_scope.

Lemma str_eqb_spec : forall a b, str_eqb a b = true <-> a = b.
Proof. intros a b. unfold str_eqb. destruct (list_eq_dec Z.eq_dec a b); split; congruence. Qed.
Lemma str_eqb_refl : forall a, str_eqb a a = true.
Proof. intro a. apply str_eqb_spec. reflexivity. Qed.

Lemma set_board_same : forall b h net h0, board b net = Some h0 -> board b (set_board b h net) = Some h.
Proof.
  intros b h. induction net as [|(b', h') net IH]; intros h0 B; cbn [board set_board] in *; [discriminate|].
  destruct (str_eqb b' b) eqn:E; cbn [board]; rewrite E; [reflexivity|eauto].
Qed.
Lemma set_board_other : forall b b' h net, b' <> b -> board b' (set_board b h net) = board b' net.
Proof.
  intros b b' h. induction net as [|(b2, h2) net IH]; intro N; cbn [board set_board]; [reflexivity|].
  destruct (str_eqb b2 b) eqn:E; cbn [board].
  - apply str_eqb_spec in E. subst. destruct (str_eqb b b') eqn:E'; [apply str_eqb_spec in E'; congruence|reflexivity].
  - destruct (str_eqb b2 b'); [reflexivity|auto].
Qed.

(** The requests to one board. *)
Inductive steps : heap -> list (str * pyval) -> heap -> Prop :=
| steps_nil h : steps h [] h
| steps_cons h u v w h1 l h2 : request_value v = Some w -> get_set h u w = OK (h1, true) -> steps h1 l h2 -> steps h ((u, v) :: l) h2.

Lemma steps_app : forall l1 l2 h h2, steps h (l1 ++ l2) h2 -> exists h1, steps h l1 h1 /\ steps h1 l2 h2.
Proof.
  induction l1 as [|(u, v) l1 IH]; intros l2 h h2 S; cbn [app] in S.
  - exists h. split; [constructor|exact S].
  - inversion S; subst. apply IH in H6. destruct H6 as (h' & A & B). exists h'. split; [econstructor; eauto|exact B].
Qed.

Definition for_board (b : str) (reqs : list (str * (str * pyval))) : list (str * pyval) :=
  map snd (filter (fun r => str_eqb (fst r) b) reqs).

Lemma send_steps : forall fates reqs n net net', send_all fates n net reqs = OK (net', Finished) ->
  (forall k, (k < length reqs)%nat -> fates (n + k)%nat = Answered) /\
  forall b h, board b net = Some h -> exists h', board b net' = Some h' /\ steps h (for_board b reqs) h'.
Proof.
  intros fates. induction reqs as [|(b0, (u, v)) reqs IH]; intros n net net' S; cbn [send_all] in S.
  - inversion S; subst. split; [intros k K; inversion K|]. intros b h B. exists h. split; [exact B|constructor].
  - destruct (request_value v) as [w|] eqn:W; [|discriminate]. destruct (board b0 net) as [h0|] eqn:B0; [|discriminate].
    destruct (fates n) eqn:F; [|discriminate|destruct (get_set h0 u w) as [(x, y)| |]; discriminate].
    destruct (get_set h0 u w) as [(h1, ok)| |] eqn:G; cbn [rbind] in S; try discriminate. destruct ok; [|discriminate].
    apply IH in S. destruct S as (S1 & S2). split.
    + intros [|k] K; [rewrite Nat.add_0_r; exact F|]. rewrite Nat.add_succ_r. apply (S1 k). cbn in K. lia.
    + intros b h B. unfold for_board. cbn [filter fst]. destruct (str_eqb b0 b) eqn:E.
      * apply str_eqb_spec in E. subst b0. rewrite B in B0. inversion B0; subst h0.
        destruct (S2 b h1 (set_board_same _ _ _ _ B)) as (h' & B' & S'). exists h'. split; [exact B'|].
        cbn [map snd]. econstructor; eauto.
      * assert (N : b <> b0) by (intros ->; rewrite str_eqb_refl in E; discriminate).
        apply S2. rewrite set_board_other by exact N. exact B.
Qed.

Lemma for_board_app : forall b r1 r2, for_board b (r1 ++ r2) = for_board b r1 ++ for_board b r2.
Proof. intros. unfold for_board. rewrite filter_app, map_app. reflexivity. Qed.
Lemma for_board_pair : forall b b' l, for_board b (map (pair b') l) = if str_eqb b' b then l else [].
Proof.
  intros b b' l. unfold for_board. induction l as [|x l IH]; cbn [map filter fst]; [destruct (str_eqb b' b); reflexivity|].
  destruct (str_eqb b' b) eqn:E; cbn [map snd]; [rewrite IH; reflexivity|exact IH].
Qed.
Lemma requests_board : forall configs b c, NoDup (map fst configs) -> In (b, c) configs ->
  for_board b (requests configs) = parameters_from_config c.
Proof.
  assert (Z0 : forall b configs, ~ In b (map fst configs) -> for_board b (requests configs) = []).
  { intros b. induction configs as [|(b', c') configs IH]; intro N; [reflexivity|]. unfold requests. cbn [flat_map fst snd].
    rewrite for_board_app, for_board_pair. destruct (str_eqb b' b) eqn:E; [apply str_eqb_spec in E; subst; exfalso; apply N; left; reflexivity|].
    cbn [app]. apply IH. intro H. apply N. right; exact H. }
  induction configs as [|(b', c') configs IH]; intros b c N I; [destruct I|]. unfold requests. cbn [flat_map fst snd].
  rewrite for_board_app, for_board_pair. inversion N; subst. destruct I as [E|I].
  - inversion E; subst. rewrite str_eqb_refl. fold (requests configs). rewrite (Z0 b configs) by assumption. apply app_nil_r.
  - destruct (str_eqb b' b) eqn:E; [|apply IH; auto]. apply str_eqb_spec in E; subst. exfalso. apply H1.
    apply in_map_iff. exists (b, c). auto.
Qed.

(** ** What the requests to a board do *)

Definition entries_ok (l : list (str * pyval)) : Prop :=
  forall u v, In (u, v) l -> exists path, path <> [] /\ Forall key_ok path /\ u = url path.

Lemma steps_run : forall l hist h h', steps h l h' -> entries_ok l -> run hist = OK h -> ids_ok hist -> (0 < length (ns_decls hist))%nat ->
  exists hist', run hist' = OK h' /\ same_decls hist hist' /\
    (forall q k, (forall path v m id d, In (url path, v) l -> Forall key_ok path -> param_at hist path q ->
        nth_error (par_decls hist) q = Some (m, id, d) -> ~ fits d v) -> parameter_read h' q k = parameter_read h q k).
Proof.
  intros l hist h h' S. revert hist. induction S as [h|h u v w h1 l h2 W G S IH]; intros hist OKS R IO L.
  - exists hist. split; [exact R|]. split; [split; reflexivity|]. auto.
  - destruct (OKS u v (or_introl eq_refl)) as (path & NE & K & ->). unfold get_set in G.
    destruct (assign_value h 0 (url path) w) as [hh| |] eqn:A; cbn [rbind] in G; try discriminate.
    destruct (read_value hh 0 (url path)) as [r| |]; cbn [rbind] in G; try discriminate. inversion G; subst hh.
    destruct (assign_step hist h path v w h1 R IO L K NE W A) as (hist1 & R1 & SD & RD & _).
    destruct (IH hist1) as (hist' & R' & SD' & RD').
    + intros u' v' I. apply (OKS u' v'). right; exact I.
    + exact R1.
    + eapply same_ids; eauto.
    + destruct SD as (<- & _). exact L.
    + exists hist'. split; [exact R'|]. split; [destruct SD, SD'; split; congruence|].
      intros q k H. rewrite RD'.
      * apply RD. intros m id d P D. apply (H path v m id d); auto. left; reflexivity.
      * intros path' v' m id d I K' P D. apply (H path' v' m id d); auto; [right; exact I| |destruct SD as (_ & ->); exact D].
        apply (same_param_at _ _ _ _ SD). exact P.
Qed.

Lemma steps_value : forall l1 l2 path v hist h h' p m id d, steps h (l1 ++ (url path, v) :: l2) h' ->
  entries_ok (l1 ++ (url path, v) :: l2) -> ~ In (url path) (map fst l2) ->
  run hist = OK h -> ids_ok hist -> (0 < length (ns_decls hist))%nat -> path <> [] -> Forall key_ok path ->
  param_at hist path p -> nth_error (par_decls hist) p = Some (m, id, d) -> fits d v -> has_value h' p v.
Proof.
  intros l1 l2 path v hist h h' p m id d S E N R IO L NE K P D F.
  apply steps_app in S. destruct S as (h1 & S1 & S2).
  assert (E1 : entries_ok l1) by (intros u' v' I; apply (E u' v'); apply in_or_app; left; exact I).
  assert (E2 : entries_ok l2) by (intros u' v' I; apply (E u' v'); apply in_or_app; right; right; exact I).
  destruct (steps_run l1 hist h h1 S1 E1 R IO L) as (hist1 & R1 & SD & _).
  inversion S2 as [|? ? ? w h2 ? ? W G S3]; subst. unfold get_set in G.
  destruct (assign_value h1 0 (url path) w) as [hh| |] eqn:A; cbn [rbind] in G; try discriminate.
  destruct (read_value hh 0 (url path)) as [r| |]; cbn [rbind] in G; try discriminate. inversion G; subst hh.
  assert (IO1 : ids_ok hist1) by (eapply same_ids; eauto).
  assert (L1 : (0 < length (ns_decls hist1))%nat) by (destruct SD as (<- & _); exact L).
  destruct (assign_step hist1 h1 path v w h2 R1 IO1 L1 K NE W A) as (hist2 & R2 & SD2 & _ & V).
  assert (P1 : param_at hist1 path p) by (apply (same_param_at _ _ _ _ SD); exact P).
  assert (D1 : nth_error (par_decls hist1) p = Some (m, id, d)) by (destruct SD as (_ & <-); exact D).
  specialize (V p m id d P1 D1 F).
  assert (IO2 : ids_ok hist2) by (eapply same_ids; eauto).
  assert (L2 : (0 < length (ns_decls hist2))%nat) by (destruct SD2 as (<- & _); exact L1).
  destruct (steps_run l2 hist2 h2 h' S3 E2 R2 IO2 L2) as (hist3 & R3 & SD3 & RD).
  assert (Q : forall k, parameter_read h' p k = parameter_read h2 p k).
  { intro k. apply RD. intros path' v' m' id' d' I K' P' _ _. apply N.
    assert (path' = path).
    { eapply (param_at_inj hist2 h2); eauto. apply (same_param_at _ _ _ _ SD2). exact P1. }
    subst. apply in_map_iff. exists (url path, v'). auto. }
  destruct v; cbn [has_value] in *; try rewrite Q; exact V.
Qed.

Lemma config_entries : forall c, tidy (Dict c) -> entries_ok (parameters_from_config c).
Proof.
  intros c T u v I. apply params_exact in I. destruct I as (path & A & ->). exists path. split; [|split; [|reflexivity]].
  - inversion A. discriminate.
  - eapply value_path_ok; eauto.
Qed.

Lemma upload_finished : forall fates saves net configs net' saved, upload_config fates saves net configs = OK (net', Finished, saved) ->
  send_all fates 0 net (requests configs) = OK (net', Finished) /\ saved = filter saves (map fst configs).
Proof.
  intros fates saves net configs net' saved U. unfold upload_config in U. destruct (forallb _ configs); [|discriminate].
  destruct (send_all fates 0 net (requests configs)) as [(n1, o)| |]; cbn [rbind] in U; try discriminate.
  destruct o; inversion U; subst. split; reflexivity.
Qed.

Lemma applied : forall fates saves net configs net' saved b c hist h,
  upload_config fates saves net configs = OK (net', Finished, saved) -> NoDup (map fst configs) -> In (b, c) configs ->
  tidy (Dict c) -> is_board net b hist h ->
  exists h', board b net' = Some h' /\
    (forall path v p m id d, value_at (Dict c) path v -> param_at hist path p ->
       nth_error (par_decls hist) p = Some (m, id, d) -> fits d v -> has_value h' p v) /\
    (forall q k, (forall path v m id d, value_at (Dict c) path v -> param_at hist path q ->
       nth_error (par_decls hist) q = Some (m, id, d) -> ~ fits d v) -> parameter_read h' q k = parameter_read h q k).
Proof.
  intros fates saves net configs net' saved b c hist h U N I T (B & R & IO & L).
  apply upload_finished in U. destruct U as (U & _). apply send_steps in U. destruct U as (_ & U).
  destruct (U b h B) as (h' & B' & S). rewrite (requests_board _ _ _ N I) in S. exists h'. split; [exact B'|].
  pose proof (config_entries c T) as E. split.
  - intros path v p m id d A P D F.
    assert (J : In (url path, v) (parameters_from_config c)) by (apply params_exact; eauto).
    pose proof (params_nodup c T) as ND. destruct (in_split _ _ J) as (l1 & l2 & EQ). rewrite EQ in S, E, ND.
    eapply steps_value; eauto.
    + rewrite map_app in ND. cbn [map fst] in ND. apply NoDup_remove_2 in ND. intro X. apply ND. apply in_or_app. right; exact X.
    + inversion A. discriminate.
    + eapply value_path_ok; eauto.
  - intros q k H. destruct (steps_run _ hist h h' S E R IO L) as (hist' & _ & _ & RD). apply RD.
    intros path v m id d J K P D. apply (H path v m id d); auto. apply params_exact in J. destruct J as (path' & A & EQ).
    assert (path = path').
    { apply url_inj; [apply path_slash; exact K|apply path_slash; eapply value_path_ok; eauto|exact EQ]. }
    subst. exact A.
Qed.

(** A parameter that was acknowledged exists. *)
Lemma ack_known : forall hist h path v w h1, run hist = OK h -> ids_ok hist -> (0 < length (ns_decls hist))%nat ->
  path <> [] -> Forall key_ok path -> request_value v = Some w -> get_set h (url path) w = OK (h1, true) ->
  exists p, param_at hist path p.
Proof.
  intros hist h path v w h1 R IO L NE K W G. unfold get_set in G.
  destruct (assign_value h 0 (url path) w) as [hh| |] eqn:A; cbn [rbind] in G; try discriminate.
  destruct (read_value hh 0 (url path)) as [r| |] eqn:RV; cbn [rbind] in G; try discriminate. inversion G as [[E1 E2]]. subst hh.
  destruct (assign_step hist h path v w h1 R IO L K NE W A) as (hist1 & R1 & SD & _ & _).
  assert (IO1 : ids_ok hist1) by (eapply same_ids; eauto).
  assert (L1 : (0 < length (ns_decls hist1))%nat) by (destruct SD as (<- & _); exact L).
  destruct path as [|last comps _] using rev_ind; [congruence|]. destruct (url_components _ _ K) as (C & Z0).
  pose proof (find_exact hist1 h1 0 _ ([] :: comps) last R1 IO1 L1 Z0 C) as FE. unfold read_value in RV.
  destruct (parameter_find h1 0 (url (comps ++ [last]))) as [[p|]| |]; try easy.
  - exists p. apply (same_param_at _ _ _ _ SD). apply (proj1 (names_skip _ _ _ _)) in FE. exists comps, last. auto.
  - cbn [rbind] in RV. inversion RV; subst. discriminate.
Qed.
Lemma steps_known : forall l1 l2 path v hist h h', steps h (l1 ++ (url path, v) :: l2) h' ->
  entries_ok (l1 ++ (url path, v) :: l2) -> run hist = OK h -> ids_ok hist -> (0 < length (ns_decls hist))%nat ->
  path <> [] -> Forall key_ok path -> exists p, param_at hist path p.
Proof.
  intros l1 l2 path v hist h h' S E R IO L NE K. apply steps_app in S. destruct S as (h1 & S1 & S2).
  assert (E1 : entries_ok l1) by (intros u' v' I; apply (E u' v'); apply in_or_app; left; exact I).
  destruct (steps_run l1 hist h h1 S1 E1 R IO L) as (hist1 & R1 & SD & _).
  assert (IO1 : ids_ok hist1) by (eapply same_ids; eauto).
  assert (L1 : (0 < length (ns_decls hist1))%nat) by (destruct SD as (<- & _); exact L).
  inversion S2 as [|? ? ? w h2 ? ? W G S3]; subst.
  destruct (ack_known hist1 h1 path v w h2 R1 IO1 L1 NE K W G) as (p & P). exists p. apply (same_param_at _ _ _ _ SD). exact P.
Qed.
Lemma known : forall fates saves net configs net' saved b c hist h path v,
  upload_config fates saves net configs = OK (net', Finished, saved) -> NoDup (map fst configs) -> In (b, c) configs ->
  tidy (Dict c) -> is_board net b hist h -> value_at (Dict c) path v -> exists p, param_at hist path p.
Proof.
  intros fates saves net configs net' saved b c hist h path v U N I T (B & R & IO & L) A.
  apply upload_finished in U. destruct U as (U & _). apply send_steps in U. destruct U as (_ & U).
  destruct (U b h B) as (h' & B' & S). rewrite (requests_board _ _ _ N I) in S.
  pose proof (config_entries c T) as E.
  assert (J : In (url path, v) (parameters_from_config c)) by (apply params_exact; eauto).
  destruct (in_split _ _ J) as (l1 & l2 & EQ). rewrite EQ in S, E. eapply steps_known; eauto.
  - inversion A. discriminate.
  - eapply value_path_ok; eauto.
Qed.

(** ** It ends if nothing is lost *)

Definition servable (hists : str -> list op) (r : str * (str * pyval)) : Prop :=
  exists path p m id d, fst (snd r) = url path /\ path <> [] /\ Forall key_ok path /\
    param_at (hists (fst r)) path p /\ nth_error (par_decls (hists (fst r))) p = Some (m, id, d) /\ fits d (snd (snd r)).
Definition boards_ok (hists : str -> list op) (net : network) (b : str) : Prop :=
  exists hist h, same_decls (hists b) hist /\ is_board net b hist h.

Lemma serve : forall hist h path v p m id d, run hist = OK h -> ids_ok hist -> (0 < length (ns_decls hist))%nat ->
  path <> [] -> Forall key_ok path -> param_at hist path p -> nth_error (par_decls hist) p = Some (m, id, d) -> fits d v ->
  exists w h1 hist1, request_value v = Some w /\ get_set h (url path) w = OK (h1, true) /\ run hist1 = OK h1 /\ same_decls hist hist1.
Proof.
  intros hist h path v p m id d R IO L NE K P D F.
  assert (W : exists w, request_value v = Some w) by (destruct F; cbn; eauto). destruct W as (w & W).
  destruct (proj1 (fits_arg d v w W) F) as (X & a & RA).
  destruct P as (comps & last & -> & NM). destruct (url_components _ _ K) as (C & Z0). apply names_skip in NM.
  destruct (remote_write hist h 0 _ ([] :: comps) last w R IO L Z0 C X) as (_ & RW).
  destruct (remote_write_succeeds hist h p m id d w a R D RA) as (h1 & A).
  { intros buf o s -> ->. destruct v; discriminate. }
  assert (AV : assign_value h 0 (url (comps ++ [last])) w = OK h1) by (rewrite (RW p m id d NM D), RA; exact A).
  destruct (remote_read_back hist h 0 _ ([] :: comps) last w p m id d a h1 R IO L Z0 C X NM D RA AV) as (RB & _).
  exists w, h1, (hist ++ [OSet p a]). split; [exact W|]. split; [|split].
  - unfold get_set. rewrite AV. cbn [rbind]. rewrite RB. cbn [rbind]. destruct v; inversion W; subst; reflexivity.
  - rewrite run_snoc, R. exact A.
  - split; [rewrite ns_decls_snoc|rewrite par_decls_snoc]; rewrite app_nil_r; reflexivity.
Qed.

Lemma send_completes : forall fates hists, (forall n, fates n = Answered) -> forall reqs n net,
  Forall (servable hists) reqs -> Forall (fun r => boards_ok hists net (fst r)) reqs ->
  exists net', send_all fates n net reqs = OK (net', Finished).
Proof.
  intros fates hists AF. induction reqs as [|(b, (u, v)) reqs IH]; intros n net F BK; [exists net; reflexivity|].
  inversion F as [|? ? SV F']; subst. inversion BK as [|? ? B0 BK']; subst.
  destruct SV as (path & p & m & id & d & U & NE & K & P & D & FT). destruct B0 as (hist & h & SD0 & B & R & IO & L).
  cbn [fst snd] in *. subst u.
  assert (P' : param_at hist path p) by (apply (same_param_at _ _ _ _ SD0); exact P).
  assert (D' : nth_error (par_decls hist) p = Some (m, id, d)) by (destruct SD0 as (_ & <-); exact D).
  destruct (serve hist h path v p m id d R IO L NE K P' D' FT) as (w & h1 & hist1 & W & G & R1 & SD).
  cbn [send_all]. rewrite W, B, AF, G. cbn [rbind]. apply IH; [exact F'|]. rewrite Forall_forall in *. intros r I.
  destruct (list_eq_dec Z.eq_dec (fst r) b) as [EQ|NEQ].
  - rewrite EQ. exists hist1, h1. split; [destruct SD0, SD; split; congruence|]. split; [eapply set_board_same; eauto|].
    split; [exact R1|]. split; [eapply same_ids; eauto|]. destruct SD as (<- & _). exact L.
  - destruct (BK' r I) as (hist2 & h2 & SD2 & B2 & R2). exists hist2, h2. split; [exact SD2|]. split; [|exact R2].
    rewrite set_board_other by exact NEQ. exact B2.
Qed.

Lemma completes : forall fates saves net configs hists, (forall n, fates n = Answered) ->
  (forall b c, In (b, c) configs -> tidy (Dict c) /\ (exists h, is_board net b (hists b) h) /\
     forall path v, value_at (Dict c) path v -> exists p m id d, param_at (hists b) path p /\
       nth_error (par_decls (hists b)) p = Some (m, id, d) /\ fits d v) ->
  exists net', upload_config fates saves net configs = OK (net', Finished, filter saves (map fst configs)).
Proof.
  intros fates saves net configs hists AF H.
  assert (S : exists net', send_all fates 0 net (requests configs) = OK (net', Finished)).
  { apply (send_completes fates hists AF).
    - apply Forall_forall. intros (b, (u, v)) I. unfold requests in I. apply in_flat_map in I. destruct I as ((b', c) & I & J).
      cbn [fst snd] in J. apply in_map_iff in J. destruct J as (x & E & J). inversion E; subst. destruct (H b c I) as (T & _ & V).
      apply params_exact in J. destruct J as (path & A & ->). destruct (V path v A) as (p & m & id & d & P & D & F).
      exists path, p, m, id, d. cbn [fst snd]. split; [reflexivity|]. split; [inversion A; discriminate|].
      split; [eapply value_path_ok; eauto|]. auto.
    - apply Forall_forall. intros (b, (u, v)) I. unfold requests in I. apply in_flat_map in I. destruct I as ((b', c) & I & J).
      cbn [fst snd] in J. apply in_map_iff in J. destruct J as (x & E & J). inversion E; subst. destruct (H b c I) as (_ & (h & B) & _).
      exists (hists b), h. split; [split; reflexivity|exact B]. }
  destruct S as (net' & S). exists net'. unfold upload_config. rewrite S. cbn [rbind].
  replace (forallb _ configs) with true; [reflexivity|]. symmetry. apply forallb_forall. intros (b, c) I. cbn [fst].
  destruct (H b c I) as (_ & (h & (-> & _)) & _). reflexivity.
Qed.
