(** Theorems about the movements with obstacle avoidance. *)
From Coq Require Import ZArith List Bool Lia Arith.
From Verif Require Import CBase CRes GotoModel GotoSpec.
Import ListNotations.
Local Open Scope Z_scope.

Section Props.
Variable point : Type.
Notation follow := (follow point).
Notation goto_avoid := (strategy_goto_avoid point).
Notation retry := (strategy_goto_avoid_retry point).

(** * One attempt *)

(** Following the path consumes one reason a movement. *)
Definition only_moves (a : action point) : bool := match a with Goto _ | Wait_end _ _ | Blocked_end _ => true | _ => false end.
Lemma follow_only pts flags : forall er rs l res, follow pts flags er rs = (l, res) -> forallb only_moves l = true.
Proof.
  induction pts as [|p pts IH]; cbn [GotoModel.follow]; intros er rs l res H; [now injection H as <- <-|].
  unfold wait_for_end in H. destruct rs as [|r rs]; [now injection H as <- <-|].
  destruct (_ && _); [now injection H as <- <-|]. destruct (follow pts flags r rs) as [l' res'] eqn:E. injection H as <- <-. cbn. eapply IH, E.
Qed.
Lemma moves_app_only (l l' : list (action point)) er pts flags rs res : follow pts flags er rs = (l, Some res) -> moves (l ++ l') = moves l ++ moves l'.
Proof.
  revert er rs l res. induction pts as [|p pts IH]; cbn [GotoModel.follow]; intros er rs l res H; [now injection H as <- <-|].
  unfold wait_for_end in H. destruct rs as [|r rs]; [discriminate|].
  destruct (_ && _); [now injection H as <- <-|]. destruct (follow pts flags r rs) as [l2 res'] eqn:E. injection H as <- ->. cbn [app moves]. rewrite (IH _ _ _ _ E). reflexivity.
Qed.
Lemma follow_moves flags : forall pts er rs l reason rs', follow pts flags er rs = (l, Some (reason, rs')) ->
  (length (moves l) <= length pts)%nat /\
  (forall i p f r, nth_error (moves l) i = Some (p, f, r) ->
     nth_error pts i = Some p /\ f = (if Nat.eqb (S i) (length pts) then flags else Z.lor flags 32) /\ ((S i < length (moves l))%nat -> proceeds r)) /\
  ((length (moves l) < length pts)%nat -> ~ proceeds reason) /\
  targets l = map (fun m => fst (fst m)) (moves l) /\
  (pts <> [] -> exists p f, nth_error (moves l) (length (moves l) - 1) = Some (p, f, reason)).
Proof.
  induction pts as [|p pts IH]; cbn [GotoModel.follow]; intros er rs l reason rs' H.
  - injection H as <- <- <-. cbn. repeat split; auto; try lia; try (destruct i; discriminate). congruence.
  - unfold wait_for_end in H. destruct rs as [|r rs]; [discriminate|].
    set (f := match pts with [] => flags | _ => Z.lor flags TRAJ_END_NEAR_GOAL end) in *.
    assert (Hf : f = (if Nat.eqb 1 (S (length pts)) then flags else Z.lor flags 32)) by (subst f; destruct pts; reflexivity).
    destruct (negb (r =? TRAJ_END_GOAL_REACHED) && negb (r =? TRAJ_END_NEAR_GOAL)) eqn:B.
    + injection H as <- <- <-. cbn [moves length targets flat_map app map fst]. split; [lia|]. split; [|split; [|split]].
      * intros [|i] q g s E; cbn in E; [injection E as <- <- <-|destruct i; discriminate]. repeat split; auto; try lia.
      * intros _ [->| ->]; discriminate.
      * reflexivity.
      * intros _. exists p, f. reflexivity.
    + destruct (follow pts flags r rs) as [l' res'] eqn:E. injection H as <- ->. destruct (IH _ _ _ _ _ E) as (A1 & A2 & A3 & A4 & A5).
      assert (P : proceeds r). { apply andb_false_iff in B. unfold proceeds. rewrite !negb_false_iff, !Z.eqb_eq in B. exact B. }
      cbn [app moves length targets flat_map map fst]. split; [lia|]. split; [|split; [|split]].
      * intros [|i] q g s X; cbn [nth_error] in X |- *.
        { injection X as <- <- <-. repeat split; auto. }
        destruct (A2 _ _ _ _ X) as (B1 & B2 & B3). split; auto. split; [exact B2|]. intro. apply B3. lia.
      * intro L. apply A3. lia.
      * f_equal. exact A4.
      * intros _. destruct pts as [|p' pts'].
        { cbn in E. injection E as <- <- <-. cbn. exists p, f. reflexivity. }
        destruct (A5 ltac:(discriminate)) as (q & g & X). replace (S (length (moves l')) - 1)%nat with (length (moves l')) by lia.
        destruct (moves l') as [|m ml] eqn:M; [discriminate|]. cbn [nth_error length] in *. replace (S (length ml) - 1)%nat with (length ml) in X by lia. exists q, g. exact X.
Qed.
Lemma moves_nomove (l : list (action point)) : forallb (fun a => match a with Goto _ => false | _ => true end) l = true -> moves l = [] /\ targets l = [].
Proof. induction l as [|[]]; cbn; intro H; auto; discriminate. Qed.
Lemma targets_app (l l' : list (action point)) : targets (l ++ l') = targets l ++ targets l'.
Proof. apply flat_map_app. Qed.

(** The shape of an attempt that returned. *)
Definition planning (x y flags : Z) : list (action point) :=
  Lock :: (if flags =? 27 then [Opponent false] else []) ++ [Plan x y] ++ (if flags =? 27 then [Opponent true] else []).
Definition ending_of (reason : Z) : list (action point) :=
  if reason =? 4 then [Led true] ++ strategy_hardstop_robot point ++ [Sleep 100] ++ strategy_hardstop_robot point ++ [Led false]
  else if reason =? 2 then strategy_hardstop_robot point else if reason =? 16 then strategy_hardstop_robot point
  else if reason =? 8 then strategy_stop_robot point else [].
Lemma attempt_inv x y a flags e l b : goto_avoid x y a flags e = (l, Some b) ->
  (path _ e = [] /\ b = false /\ l = planning x y flags ++ strategy_stop_robot point ++ [Release]) \/
  (path _ e <> [] /\ exists m reason rs, follow (path _ e) flags 0 (reasons _ e) = (m, Some (reason, rs)) /\
     ((reason = 1 /\ b = true /\ exists r, l = planning x y flags ++ m ++ [Sleep 200; Turn a; Wait_end 1 r; Release]) \/
      (reason <> 1 /\ b = false /\ l = planning x y flags ++ m ++ ending_of reason ++ [Release]))).
Proof.
  unfold strategy_goto_avoid. change TRAJ_FLAGS_ALL_IGNORE_OPPONENT with 27. fold (planning x y flags). intro H.
  destruct (path _ e) as [|p pts] eqn:P; [left; now injection H as <- <-|]. right. split; [discriminate|].
  destruct (GotoModel.follow point (p :: pts) flags 0 (reasons _ e)) as [m [[reason rs]|]] eqn:E; [|discriminate]. exists m, reason, rs. split; auto.
  change TRAJ_END_GOAL_REACHED with 1 in H. destruct (Z.eqb_spec reason 1) as [R|R].
  - left. unfold wait_for_end in H. destruct rs as [|r rs]; [discriminate|]. injection H as <- <-. repeat split; auto. exists r. reflexivity.
  - right. injection H as <- <-. auto.
Qed.
Lemma planning_moves x y flags l : moves (planning x y flags ++ l) = moves l /\ targets (planning x y flags ++ l) = targets l.
Proof. unfold planning. destruct (flags =? 27); split; reflexivity. Qed.
Lemma ending_moves reason : forallb (fun a => match a with Goto _ => false | _ => true end) (ending_of reason ++ [Release]) = true.
Proof. unfold ending_of. repeat (destruct (_ =? _); [reflexivity|]). reflexivity. Qed.

Lemma nth_error_ext {A} (l l' : list A) : (forall i, nth_error l i = nth_error l' i) -> l = l'.
Proof.
  revert l'. induction l as [|x l IH]; intros [|y l'] H; auto; try (specialize (H O); discriminate).
  f_equal; [specialize (H O); now injection H|]. apply IH. intro i. exact (H (S i)).
Qed.
(** The waypoints are visited in order, up to the first movement which ends abnormally; the attempt succeeds exactly when
    the last one is reached; and then the robot has turned to the direction asked for. *)
Theorem goto_avoid_waypoints x y a flags e l b : goto_avoid x y a flags e = (l, Some b) ->
  follows (path _ e) flags (moves l) /\ targets l = map (fun m => fst (fst m)) (moves l) /\
  (b = true <-> completes (path _ e) (moves l)) /\
  (b = true -> exists l' r, l = l' ++ [Turn a; Wait_end 1 r; Release]).
Proof.
  intro H. apply attempt_inv in H as [(P & -> & ->)|(P & m & reason & rs & F & H)].
  - destruct (planning_moves x y flags (strategy_stop_robot point ++ [Release])) as [-> ->]. rewrite P. cbn. split; [|split; [reflexivity|split; [|discriminate]]].
    + split; [cbn; lia|]. split; [intros [|i] p f r X; discriminate|cbn; lia].
    + split; [discriminate|]. intros [X _]. congruence.
  - pose proof (follow_moves _ _ _ _ _ _ _ F) as (A1 & A2 & A3 & A4 & A5). specialize (A5 P) as (q & g & A5).
    assert (K : forall t, forallb (fun a => match a with Goto _ => false | _ => true end) t = true -> moves (planning x y flags ++ m ++ t) = moves m /\ targets (planning x y flags ++ m ++ t) = targets m).
    { intros t Ht. destruct (planning_moves x y flags (m ++ t)) as [-> ->]. rewrite (moves_app_only _ _ _ _ _ _ _ F), targets_app.
      destruct (moves_nomove t Ht) as [-> ->]. now rewrite !app_nil_r. }
    assert (Fo : follows (path _ e) flags (moves m)).
    { split; auto. split; auto. intro L. exists q, g, reason. split; auto. }
    destruct H as [(-> & -> & r & ->)|(R & -> & ->)].
    + destruct (K [Sleep 200; Turn a; Wait_end 1 r; Release] eq_refl) as [-> ->]. split; auto. split; auto. split.
      * split; auto. intros _. split; auto. split; [|exists q, g; exact A5].
        assert (L : length (moves m) = length (path _ e)).
        { destruct (Nat.eq_dec (length (moves m)) (length (path _ e))); auto. exfalso. apply A3; [lia|]. now left. }
        apply nth_error_ext. intro i. rewrite nth_error_map. destruct (nth_error (moves m) i) as [[[p' f'] r']|] eqn:N; cbn.
        { symmetry. apply (A2 _ _ _ _ N). }
        { symmetry. apply nth_error_None. apply nth_error_None in N. lia. }
      * intros _. exists (planning x y flags ++ m ++ [Sleep 200]), r. now rewrite <- !app_assoc.
    + destruct (K _ (ending_moves reason)) as [-> ->]. split; auto. split; auto. split; [|discriminate].
      split; [discriminate|]. intros (_ & _ & p' & f' & X). rewrite A5 in X. congruence.
Qed.

(** The map is locked first and released last, whatever happens; an attempt which has not returned holds it. *)
Lemma only_moves_lock (l : list (action point)) : forallb only_moves l = true -> forallb (fun a => negb (is_lock a || is_release a)) l = true.
Proof. induction l as [|[]]; cbn; intro H; auto; discriminate. Qed.
Theorem goto_avoid_lock x y a flags e l r : goto_avoid x y a flags e = (l, r) ->
  match r with Some _ => locked_throughout l | None => locked_still l end.
Proof.
  intro H. destruct r as [b|].
  - apply attempt_inv in H as [(P & -> & ->)|(P & m & reason & rs & F & H)].
    + unfold planning. eexists. rewrite app_assoc. split; [reflexivity|]. destruct (flags =? 27); reflexivity.
    + apply follow_only, only_moves_lock in F. destruct H as [(-> & -> & r & ->)|(R & -> & ->)].
      * exists (tl (planning x y flags) ++ m ++ [Sleep 200; Turn a; Wait_end 1 r]). split; [cbn [planning tl app]; now rewrite <- !app_assoc|].
        rewrite !forallb_app, F. unfold planning. destruct (flags =? 27); reflexivity.
      * exists (tl (planning x y flags) ++ m ++ ending_of reason). split; [cbn [planning tl app]; now rewrite <- !app_assoc|].
        rewrite !forallb_app, F. unfold planning, ending_of. destruct (flags =? 27); cbn; repeat (destruct (_ =? _); [reflexivity|]); reflexivity.
  - unfold strategy_goto_avoid in H. change TRAJ_FLAGS_ALL_IGNORE_OPPONENT with 27 in H. fold (planning x y flags) in H.
    destruct (path _ e) as [|p pts]; [discriminate|]. destruct (GotoModel.follow _ _ _ _ _) as [m res] eqn:F. apply follow_only, only_moves_lock in F.
    assert (X : exists t, l = planning x y flags ++ m ++ t /\ forallb (fun a : action point => negb (is_lock a || is_release a)) t = true).
    { destruct res as [[reason rs]|]; [|injection H as <-; exists []; split; [now rewrite app_nil_r|reflexivity]].
      destruct (_ =? _); [|discriminate]. unfold wait_for_end in H. destruct rs; [|discriminate]. injection H as <-. eexists. split; [reflexivity|reflexivity]. }
    destruct X as (t & -> & T). exists (tl (planning x y flags) ++ m ++ t). split; [reflexivity|]. rewrite !forallb_app, F, T. unfold planning. destruct (flags =? 27); reflexivity.
Qed.

(** The opponent is ignored in the planning, and only there, exactly in the mode which asks for it. *)
Theorem goto_avoid_opponent x y a flags e l r : goto_avoid x y a flags e = (l, r) ->
  forall l1 c l2, l = l1 ++ c :: l2 ->
  match c with
  | Plan x' y' => x' = x /\ y' = y /\ opponent_shown l1 = negb (flags =? 27)
  | Opponent _ | Lock => True
  | _ => opponent_shown l1 = true
  end.
Proof.
  intros H l1 c l2 E.
  assert (Sh : exists t, l = planning x y flags ++ t /\ forallb (fun a : action point => match a with Plan _ _ | Opponent _ => false | _ => true end) t = true).
  { assert (Fo : forall pts er rs m res, follow pts flags er rs = (m, res) -> forallb (fun a : action point => match a with Plan _ _ | Opponent _ => false | _ => true end) m = true).
    { intros pts er rs m res F. apply follow_only in F. clear - F. induction m as [|[]]; cbn in *; auto; discriminate. }
    destruct r as [b|].
    - apply attempt_inv in H as [(P & -> & ->)|(P & m & reason & rs & F & H)]; [eexists; split; [reflexivity|reflexivity]|].
      apply Fo in F. destruct H as [(-> & -> & r & ->)|(R & -> & ->)]; (eexists; split; [reflexivity|]); rewrite forallb_app, F; cbn [andb]; auto.
      unfold ending_of. repeat (destruct (_ =? _); [reflexivity|]). reflexivity.
    - unfold strategy_goto_avoid in H. change TRAJ_FLAGS_ALL_IGNORE_OPPONENT with 27 in H. fold (planning x y flags) in H.
      destruct (path _ e) as [|p pts]; [discriminate|]. destruct (GotoModel.follow _ _ _ _ _) as [m res] eqn:F. apply Fo in F.
      destruct res as [[reason rs]|]; [|injection H as <-; eexists; split; [reflexivity|exact F]].
      destruct (_ =? _); [|discriminate]. unfold wait_for_end in H. destruct rs; [|discriminate]. injection H as <-. eexists. split; [reflexivity|]. rewrite forallb_app, F. reflexivity. }
  destruct Sh as (t & -> & T). clear H.
  assert (Late : forall u1 u2, t = u1 ++ c :: u2 -> opponent_shown (planning x y flags ++ u1) = true /\ match c with Plan _ _ | Opponent _ => False | _ => True end).
  { intros u1 u2 ->. rewrite forallb_app in T. cbn [forallb] in T. apply andb_prop in T as [T1 T2]. apply andb_prop in T2 as [T2 _]. split; [|destruct c; auto; discriminate].
    unfold opponent_shown. rewrite fold_left_app. set (b0 := fold_left _ (planning x y flags) true). assert (B0 : b0 = true) by (unfold b0, planning; destruct (flags =? 27); reflexivity). rewrite B0. clear - T1.
    induction u1 as [|d u1 IH]; auto. cbn in *. apply andb_prop in T1 as [T1 T3]. destruct d; auto; discriminate. }
  unfold planning in E. destruct (flags =? 27) eqn:I; cbn [app negb] in E |- *.
  - destruct l1 as [|c1 l1]; [injection E as <- _; auto|]. injection E as <- E. destruct l1 as [|c2 l1]; [injection E as <- _; exact Logic.I|]. injection E as <- E.
    destruct l1 as [|c3 l1]; [injection E as <- _; repeat split|]. injection E as <- E. destruct l1 as [|c4 l1]; [injection E as <- _; exact Logic.I|]. injection E as <- E.
    destruct (Late _ _ E) as [L1 L2]. unfold planning in L1. rewrite I in L1. cbn [app] in L1. destruct c; auto; contradiction.
  - destruct l1 as [|c1 l1]; [injection E as <- _; auto|]. injection E as <- E. destruct l1 as [|c2 l1]; [injection E as <- _; repeat split|]. injection E as <- E.
    destruct (Late _ _ E) as [L1 L2]. unfold planning in L1. rewrite I in L1. cbn [app] in L1. destruct c; auto; contradiction.
Qed.

(** When it fails the robot is left stopped, provided that the end of a movement is one of those asked for (which
    wait_for_end_reason in TrajProps.v proves) and that the caller does not ask for the vicinity of the goal. *)
Theorem goto_avoid_stops x y a flags e l : goto_avoid x y a flags e = (l, Some false) -> Z.land flags 32 = 0 ->
  (forall p f r, In (p, f, r) (moves l) -> In r [1; 2; 4; 8; 16; 32] /\ Z.land f r <> 0) -> ends_stopped l.
Proof.
  intros H N W. pose proof (goto_avoid_waypoints _ _ _ _ _ _ _ H) as ((Fl & Fi & Fr) & _ & _).
  apply attempt_inv in H as [(P & _ & ->)|(P & m & reason & rs & F & H)].
  - exists (planning x y flags), Stop, [Sleep 200; Set_mode FREE; Sleep 200; Set_mode ANGLE_DISTANCE; Release]. repeat split; auto.
  - destruct H as [(_ & B & _)|(R & _ & ->)]; [discriminate|].
    pose proof (follow_moves _ _ _ _ _ _ _ F) as (A1 & A2 & A3 & A4 & A5). specialize (A5 P) as (q & g & A5).
    assert (M : moves (planning x y flags ++ m ++ ending_of reason ++ [Release]) = moves m).
    { destruct (planning_moves x y flags (m ++ ending_of reason ++ [Release])) as [-> _]. rewrite (moves_app_only _ _ _ _ _ _ _ F).
      destruct (moves_nomove _ (ending_moves reason)) as [-> _]. apply app_nil_r. }
    rewrite M in *. assert (I : In (q, g, reason) (moves m)) by (eapply nth_error_In, A5). destruct (W _ _ _ I) as [Rs Wf].
    assert (R32 : reason <> 32).
    { intros ->. assert (L : length (moves m) = length (path _ e)).
      { destruct (Nat.eq_dec (length (moves m)) (length (path _ e))); auto. exfalso. apply A3; [lia|]. now right. }
      destruct (A2 _ _ _ _ A5) as (_ & -> & _). assert (0 < length (moves m))%nat by (destruct (moves m); cbn; [contradiction|lia]).
      replace (S (length (moves m) - 1)) with (length (path _ e)) in Wf by lia. rewrite Nat.eqb_refl in Wf. contradiction. }
    cbn in Rs. destruct Rs as [<-|[<-|[<-|[<-|[<-|[<-|[]]]]]]]; try congruence; cbn [ending_of Z.eqb Pos.eqb].
    + exists (planning x y flags ++ m), Hardstop, [Sleep 200; Set_mode FREE; Sleep 200; Set_mode ANGLE_DISTANCE; Release]. split; [now rewrite <- app_assoc|]. repeat split; auto.
    + exists (planning x y flags ++ m ++ [Led true] ++ strategy_hardstop_robot point ++ [Sleep 100]), Hardstop, [Sleep 200; Set_mode FREE; Sleep 200; Set_mode ANGLE_DISTANCE; Led false; Release].
      split; [rewrite <- !app_assoc; reflexivity|]. repeat split; auto.
    + exists (planning x y flags ++ m), Stop, [Sleep 200; Set_mode FREE; Sleep 200; Set_mode ANGLE_DISTANCE; Release]. split; [now rewrite <- app_assoc|]. repeat split; auto.
    + exists (planning x y flags ++ m), Hardstop, [Sleep 200; Set_mode FREE; Sleep 200; Set_mode ANGLE_DISTANCE; Release]. split; [now rewrite <- app_assoc|]. repeat split; auto.
Qed.

(** * Several attempts *)

Lemma retry_inv x y a flags n : forall es c atts res, retry_loop point x y a flags n c es = OK (atts, res) -> 0 <= c -> (0 <= n -> c <= n) ->
  atts = map (goto_avoid x y a flags) (firstn (length atts) es) /\
  (0 <= n -> c + Z.of_nat (length atts) <= n + 1) /\
  match res with
  | Some b => exists before l, atts = before ++ [(l, Some b)] /\ (forall t, In t before -> snd t = Some false) /\ (b = false -> 0 <= n /\ c + Z.of_nat (length atts) = n + 1)
  | None => forall t, In t atts -> snd t <> Some true
  end.
Proof.
  induction es as [|e es IH]; intros c atts res H C N; cbn [retry_loop] in H.
  - injection H as <- <-. cbn. repeat split; auto; try lia; tauto.
  - destruct (goto_avoid x y a flags e) as [l [b|]] eqn:A; cbn [snd] in H.
    + unfold int in H. destruct ((- 2 ^ 31 <=? c + 1) && (c + 1 <? 2 ^ 31)); [|discriminate]. cbn [rbind] in H.
      destruct ((0 <=? n) && (n <? c + 1)) eqn:L.
      { apply andb_prop in L as [L1 L2]. apply Z.leb_le in L1. apply Z.ltb_lt in L2. injection H as <- <-. cbn [length firstn map]. rewrite A. split; auto. split; [lia|].
        exists [], l. cbn [app length]. split; auto. split; [intros t []|]. intros _. lia. }
      assert (N' : 0 <= n -> c + 1 <= n). { intro X. apply andb_false_iff in L as [L|L]; [apply Z.leb_gt in L; lia|apply Z.ltb_ge in L; lia]. }
      destruct b.
      { injection H as <- <-. cbn [length firstn map]. rewrite A. split; auto. split; [intro X; specialize (N' X); lia|]. exists [], l. split; auto. split; [intros t []|discriminate]. }
      destruct (retry_loop point x y a flags n (c + 1) es) as [[l2 r2]|] eqn:E; [|discriminate]. cbn [rbind] in H. injection H as <- <-.
      destruct (IH _ _ _ E ltac:(lia) N') as (I1 & I2 & I3). cbn [length firstn map]. rewrite A. split; [now f_equal|]. split; [intro X; specialize (I2 X); lia|].
      destruct r2 as [b|].
      * destruct I3 as (bf & l3 & -> & J1 & J2). exists ((l, Some false) :: bf), l3. split; auto. split; [intros t [<-|X]; auto|]. intro B. specialize (J2 B). cbn [length] in *. lia.
      * intros t [<-|X]; [discriminate|auto].
    + injection H as <- <-. cbn [length firstn map]. rewrite A. split; auto. split; [lia|]. intros t [<-|[]]. discriminate.
Qed.
(** With [n] retries: at most [n + 1] attempts; the result is that of the last one, all those before having failed; so
    that the movement succeeds exactly when an attempt does, and a failure means that all the attempts were used. With a
    negative number there is no limit, and the function only returns on a success. *)
Theorem retry_attempts x y a flags n es atts res : retry x y a flags n es = OK (atts, res) ->
  atts = map (goto_avoid x y a flags) (firstn (length atts) es) /\
  (0 <= n -> Z.of_nat (length atts) <= n + 1) /\
  match res with
  | Some b =>
      (b = true <-> exists t, In t atts /\ snd t = Some true) /\
      (exists before l, atts = before ++ [(l, Some b)] /\ forall t, In t before -> snd t = Some false) /\
      (b = false -> 0 <= n /\ Z.of_nat (length atts) = n + 1)
  | None => forall t, In t atts -> snd t <> Some true
  end.
Proof.
  intro H. apply retry_inv in H; try lia. destruct H as (A & B & C). split; auto. split; [intro X; specialize (B X); lia|].
  destruct res as [b|]; auto. destruct C as (bf & l & -> & C1 & C2). split; [|split].
  - split.
    + intros ->. exists (l, Some true). split; auto. apply in_or_app. right. now left.
    + intros (t & I & T). apply in_app_or in I as [I|[<-|[]]]; [rewrite (C1 _ I) in T; discriminate|]. now injection T.
  - exists bf, l. auto.
  - intro X. specialize (C2 X). lia.
Qed.
(** The counter of attempts does not overflow with less than 2^31 - 1 retries. *)
Theorem retry_defined x y a flags n es : 0 <= n < 2 ^ 31 - 1 -> exists atts res, retry x y a flags n es = OK (atts, res).
Proof.
  intro N. unfold strategy_goto_avoid_retry. assert (G : forall c, 0 <= c <= n -> exists atts res, retry_loop point x y a flags n c es = OK (atts, res)); [|apply G; lia].
  induction es as [|e es IH]; intros c C; cbn [retry_loop]; [do 2 eexists; reflexivity|].
  destruct (goto_avoid x y a flags e) as [l [b|]]; cbn [snd]; [|do 2 eexists; reflexivity]. rewrite int_ok by lia. cbn [rbind].
  destruct ((0 <=? n) && (n <? c + 1)) eqn:L; [do 2 eexists; reflexivity|]. destruct b; [do 2 eexists; reflexivity|].
  assert (c + 1 <= n). { apply andb_false_iff in L as [L|L]; [apply Z.leb_gt in L; lia|apply Z.ltb_ge in L; lia]. }
  destruct (IH (c + 1) ltac:(lia)) as (atts & res & ->). cbn [rbind]. do 2 eexists; reflexivity.
Qed.
(** It does with an unlimited number, or 2^31 - 1: after 2^31 failed attempts (undefined behaviour). *)
Theorem retry_overflow_refuted x y a flags n : n < 0 \/ n = 2 ^ 31 - 1 -> exists m, retry x y a flags n (repeat (mkEnv point [] []) m) = BAD.
Proof.
  intro N. unfold strategy_goto_avoid_retry.
  assert (G : forall k c, 0 <= c -> c + Z.of_nat k = 2 ^ 31 - 1 -> retry_loop point x y a flags n c (repeat (mkEnv point [] []) (S k)) = BAD).
  { induction k as [|k IH]; intros c C K; [cbn [repeat retry_loop strategy_goto_avoid path snd]|change (repeat (mkEnv point [] []) (S (S k))) with (mkEnv point [] [] :: repeat (mkEnv point [] []) (S k)); cbn [retry_loop strategy_goto_avoid path snd]].
    - replace c with (2 ^ 31 - 1) by lia. reflexivity.
    - rewrite int_ok by lia. cbn [rbind]. replace ((0 <=? n) && (n <? c + 1)) with false.
      2:{ symmetry. apply andb_false_iff. destruct N as [N| ->]; [left; apply Z.leb_gt; lia|right; apply Z.ltb_ge; lia]. }
      specialize (IH (c + 1) ltac:(lia) ltac:(lia)). rewrite IH. reflexivity. }
  exists (S (Z.to_nat (2 ^ 31 - 1))). apply G; lia.
Qed.
End Props.

(** Two waypoints: near the first, the second reached, then turned (goto_avoid_waypoints, a success). *)
Example ex_goto_success : strategy_goto_avoid Z 100 200 90 27 (mkEnv Z [5; 6] [32; 1; 1]) =
  ([Lock; Opponent false; Plan 100 200; Opponent true; Goto 5; Wait_end 59 32; Goto 6; Wait_end 27 1; Sleep 200; Turn 90; Wait_end 1 1; Release], Some true).
Proof. reflexivity. Qed.
(** A collision on the way to the first of two (goto_avoid_stops). *)
Example ex_goto_collision : exists l, strategy_goto_avoid Z 100 200 90 31 (mkEnv Z [5; 6] [2]) = (l, Some false) /\ Z.land 31 32 = 0 /\ moves l = [(5, 63, 2)] /\ Z.land 63 2 <> 0 /\ In Hardstop l.
Proof. eexists. split; [reflexivity|]. repeat split; try discriminate. cbn. tauto. Qed.
(** retry_attempts: a failure then a success, of three attempts allowed. *)
Example ex_retry : exists atts, strategy_goto_avoid_retry Z 100 200 90 31 2 [mkEnv Z [] []; mkEnv Z [6] [1; 1]] = OK (atts, Some true) /\ length atts = 2%nat.
Proof. eexists. split; reflexivity. Qed.
(** Without the condition of goto_avoid_stops on the flags, the robot is not stopped: the last movement ends near its goal,
    which is not a success, and goes on. *)
Theorem goto_avoid_near_refuted : exists l, strategy_goto_avoid Z 100 200 90 33 (mkEnv Z [6] [32]) = (l, Some false) /\ ~ In Stop l /\ ~ In Hardstop l.
Proof. eexists. split; [reflexivity|]. split; cbn; intuition discriminate. Qed.

Print Assumptions goto_avoid_waypoints.
Print Assumptions goto_avoid_lock.
Print Assumptions goto_avoid_opponent.
Print Assumptions goto_avoid_stops.
Print Assumptions retry_attempts.
Print Assumptions retry_defined.
Print Assumptions retry_overflow_refuted.
Print Assumptions goto_avoid_near_refuted.
