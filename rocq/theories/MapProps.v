(** C51: the obstacle map. *)
From Coq Require Import ZArith List Bool Reals Lra Lia Permutation.
From Verif Require Import CRes OaModel MapModel MapSpec MapProofs.
Import ListNotations.
Local Open Scope Z_scope.

Lemma run_snoc rs wall h c : run rs wall (h ++ [c]) = (try m := run rs wall h in exec m c).
Proof.
  unfold run. destruct (map_init rs wall) as [m|]; [|reflexivity]. cbn [rbind].
  revert m; induction h as [|b h IH]; intro m; cbn [app foldM rbind].
  - destruct (exec m c); reflexivity.
  - destruct (exec m b) as [m'|]; [|reflexivity]. cbn [rbind]. apply IH.
Qed.

Lemma ally_snoc h c : ally_polygon (h ++ [c]) = match c with SetAlly x y a r => circle_pts x y (r + a) | _ => ally_polygon h end.
Proof. unfold ally_polygon. rewrite fold_left_app. cbn [fold_left]. destruct c; reflexivity. Qed.
Lemma last_two_snoc h c : last_two (h ++ [c]) =
  match c with UpdateOpponent x y s r => det x y s r :: firstn 1 (last_two h) | _ => last_two h end.
Proof.
  unfold last_two, detections. rewrite flat_map_app. cbn [flat_map].
  destruct c; cbn [app]; rewrite ?app_nil_r; try reflexivity. rewrite rev_app_distr. cbn [rev app firstn].
  f_equal. destruct (rev _) as [|? [|? ?]]; reflexivity.
Qed.
Lemma last_two_shape h : exists d e, last_two h = [d; e].
Proof. unfold last_two. destruct (rev _) as [|? [|? ?]]; cbn; eauto. Qed.

Lemma run_inv rs wall h : size rs -> Forall sane h ->
  exists m o1 o2, run rs wall h = OK m /\ inv rs wall m (ally_polygon h) o1 o2 /\
    (Forall detects h -> last_opponent_index m = 0 /\ map around (last_two h) = [o2; o1] \/
                         last_opponent_index m = 1 /\ map around (last_two h) = [o1; o2]).
Proof.
  intros Hr. induction h as [|c h IH] using rev_ind; intros Hs.
  - destruct (init_ok rs wall Hr) as (m & E & I & K & _). exists m, (around nobody), (around nobody).
    split; [unfold run; rewrite E; reflexivity|]. split; [exact I|]. intros _. left. split; [exact K|reflexivity].
  - apply Forall_app in Hs as [Hs Hc]. inversion Hc as [|? ? S _]; subst.
    destruct (IH Hs) as (m & o1 & o2 & E & I & K). rewrite run_snoc, E. cbn [rbind]. rewrite ally_snoc.
    destruct c as [x y a r|i x y s r|x y s r|a b c d|b]; cbn [exec sane] in *.
    + destruct S as (_ & _ & S1 & S2). destruct (ally_ok _ _ _ _ _ _ x y a r I S1 S2) as (m' & E' & I' & L).
      exists m', o1, o2. split; [exact E'|]. split; [exact I'|]. intro D. apply Forall_app in D as [D _].
      rewrite last_two_snoc, L. exact (K D).
    + destruct S as (S0 & S1 & S2 & S3 & S4). destruct (set_ok _ _ _ _ _ _ i x y s r I S0 S1 S2 S3 S4) as (m' & E' & L & [[_ I']|[_ I']]);
      (eexists m', _, _; split; [exact E'|]; split; [exact I'|]; intro D; apply Forall_app in D as [_ D]; inversion D as [|? ? D' _]; destruct D').
    + destruct S as (S1 & S2 & S3 & S4). destruct (update_ok _ _ _ _ _ _ x y s r I S1 S2 S3 S4) as (m' & E' & [(L & L' & I')|(L & L' & I')]);
      (eexists m', _, _; split; [exact E'|]; split; [exact I'|]; intro D; apply Forall_app in D as [D _]; rewrite last_two_snoc;
       destruct (last_two_shape h) as (d & e & T); specialize (K D); rewrite T in *; cbn [map firstn] in *).
      * right. split; [exact L'|]. destruct K as [[_ K]|[K _]]; [|lia]. injection K as <- <-. reflexivity.
      * left. split; [exact L'|]. destruct K as [[K _]|[_ K]]; [lia|]. injection K as <- <-. reflexivity.
    + eexists _, o1, o2. split; [reflexivity|]. split; [apply ends_ok; exact I|]. intro D. apply Forall_app in D as [D _].
      rewrite last_two_snoc. exact (K D).
    + eexists _, o1, o2. split; [reflexivity|]. split; [destruct I; constructor; auto|]. intro D. apply Forall_app in D as [D _].
      rewrite last_two_snoc. exact (K D).
Qed.

(** Whatever the history of detections, the planner avoids exactly the ally, the last two opponents seen and the fixed obstacles. *)
Theorem map_contents rs wall h : size rs -> Forall sane h -> Forall detects h ->
  exists m obs, run rs wall h = OK m /\ obstacles m = OK obs /\
    Permutation obs (ally_polygon h :: map around (last_two h) ++ fixed_obstacles rs wall).
Proof.
  intros Hr Hs Hd. destruct (run_inv rs wall h Hr Hs) as (m & o1 & o2 & E & I & K).
  exists m, (ally_polygon h :: o1 :: o2 :: fixed_obstacles rs wall). split; [exact E|]. split; [apply (inv_obstacles _ _ _ _ _ _ I)|].
  destruct (K Hd) as [[_ ->]|[_ ->]]; [|reflexivity]. constructor. cbn [app]. constructor.
Qed.

(** Setting one opponent changes this opponent and nothing else. *)
Theorem map_set_opponent rs wall h i x y s r : size rs -> Forall sane h -> sane (SetOpponent i x y s r) ->
  exists m m' a o1 o2, run rs wall h = OK m /\ run rs wall (h ++ [SetOpponent i x y s r]) = OK m' /\
    obstacles m = OK (a :: o1 :: o2 :: fixed_obstacles rs wall) /\
    obstacles m' = OK (a :: (if i =? 0 then around (det x y s r) else o1) :: (if i =? 0 then o2 else around (det x y s r)) :: fixed_obstacles rs wall).
Proof.
  intros Hr Hs S. destruct (run_inv rs wall h Hr Hs) as (m & o1 & o2 & E & I & _).
  rewrite run_snoc, E. cbn [rbind exec]. destruct S as (S0 & S1 & S2 & S3 & S4).
  destruct (set_ok _ _ _ _ _ _ i x y s r I S0 S1 S2 S3 S4) as (m' & E' & _ & [[-> I']|[-> I']]); rewrite E';
  eexists m, m', _, _, _; (split; [reflexivity|]); (split; [reflexivity|]); (split; [exact (inv_obstacles _ _ _ _ _ _ I)|exact (inv_obstacles _ _ _ _ _ _ I')]).
Qed.

(** The border of the area of the centre of the robot is half its size from the border of the table. *)
Theorem map_bounding_box rs wall : size rs ->
  exists m, map_init rs wall = OK m /\ box m = (rs / 2, rs / 2, 3000 - rs / 2, 2000 - rs / 2).
Proof. intro H. destruct (init_ok rs wall H) as (m & E & _ & _ & B). eauto. Qed.

(** Bounds of a mean. *)
Lemma mean_le f c ws vs : length ws = length vs -> Forall (fun w => (0 <= w)%R) ws -> (forall v, In v vs -> (f v <= c)%R) ->
  (mean f ws vs <= c * sum ws)%R.
Proof.
  revert vs; induction ws as [|w ws IH]; intros [|v vs] L H F; try discriminate L; cbn [mean sum]; [lra|].
  inversion H; subst. specialize (IH vs (f_equal Nat.pred L) H3 (fun v Hv => F v (or_intror Hv))). specialize (F v (or_introl eq_refl)). nra.
Qed.
Lemma mean_opp f ws vs : mean (fun v => (- f v)%R) ws vs = (- mean f ws vs)%R.
Proof. revert vs; induction ws as [|w ws IH]; intros [|v vs]; cbn [mean]; try rewrite IH; ring. Qed.
Lemma covers_le vs p : covers vs p -> forall c, ((forall v, In v vs -> (fst v <= c)%R) -> (fst p <= c)%R) /\ ((forall v, In v vs -> (snd v <= c)%R) -> (snd p <= c)%R) /\
   ((forall v, In v vs -> (c <= fst v)%R) -> (c <= fst p)%R) /\ ((forall v, In v vs -> (c <= snd v)%R) -> (c <= snd p)%R).
Proof.
  intros (ws & L & F & S & <- & <-) c. repeat split; intro H.
  - pose proof (mean_le _ c _ _ L F H). rewrite S in *. lra.
  - pose proof (mean_le _ c _ _ L F H). rewrite S in *. lra.
  - pose proof (mean_le (fun v => - fst v)%R (- c) _ _ L F) as M. rewrite mean_opp, S in M. specialize (fun K => M (fun v Hv => K v Hv)).
    assert (- mean fst ws vs <= - c * 1)%R by (apply M; intros v Hv; specialize (H v Hv); lra). lra.
  - pose proof (mean_le (fun v => - snd v)%R (- c) _ _ L F) as M. rewrite mean_opp, S in M.
    assert (- mean snd ws vs <= - c * 1)%R by (apply M; intros v Hv; specialize (H v Hv); lra). lra.
Qed.

Lemma between a b x : (a <= x <= b)%R -> exists t, (0 <= t <= 1 /\ x = (1 - t) * a + t * b)%R.
Proof.
  intro H. destruct (Req_dec a b) as [->|N].
  - exists 0%R. split; lra.
  - exists ((x - a) / (b - a))%R. assert (0 < b - a)%R by lra. split; [|field; lra].
    split; [apply Rmult_le_pos; [lra|left; apply Rinv_0_lt_compat; lra]|].
    apply (Rmult_le_reg_r (b - a)); [lra|]. unfold Rdiv. rewrite Rmult_assoc, Rinv_l by lra. lra.
Qed.

(** A rectangle, clipped, covers every point of the table which is in it. *)
Theorem rectangle_covers x1 y1 x2 y2 p : on_table p -> (IZR x1 <= fst p <= IZR x2)%R -> (IZR y1 <= snd p <= IZR y2)%R -> covers (rectangle x1 y1 x2 y2) p.
Proof.
  intros [Tx Ty] Hx Hy.
  assert (C1 : forall hi z x, (0 <= hi)%Z -> (0 <= x <= IZR hi)%R -> (IZR z <= x)%R -> (IZR (clip hi z) <= x)%R).
  { intros hi z x H H1 H2. unfold clip. destruct (Z.max_spec 0 (Z.min z hi)) as [[_ ->]|[_ ->]]; [|lra].
    destruct (Z.min_spec z hi) as [[_ ->]|[M ->]]; [lra|]. apply IZR_le in M. lra. }
  assert (C2 : forall hi z x, (0 <= hi)%Z -> (0 <= x <= IZR hi)%R -> (x <= IZR z)%R -> (x <= IZR (clip hi z))%R).
  { intros hi z x H H1 H2. unfold clip. destruct (Z.max_spec 0 (Z.min z hi)) as [[_ ->]|[M ->]].
    - destruct (Z.min_spec z hi) as [[_ ->]|[M ->]]; lra.
    - apply IZR_le in M. destruct (Z.min_spec z hi) as [[_ E]|[_ E]]; rewrite E in M; lra. }
  destruct (between (IZR (clip 3000 x1)) (IZR (clip 3000 x2)) (fst p)) as (t & Ht & Et).
  { split; [apply C1|apply C2]; try lia; lra. }
  destruct (between (IZR (clip 2000 y1)) (IZR (clip 2000 y2)) (snd p)) as (u & Hu & Eu).
  { split; [apply C1|apply C2]; try lia; lra. }
  exists [t * (1 - u); t * u; (1 - t) * u; (1 - t) * (1 - u)]%R. split; [reflexivity|]. split.
  - repeat (apply Forall_cons; [apply Rmult_le_pos; lra|]). apply Forall_nil.
  - unfold rectangle. cbn [sum mean fst snd]. rewrite Et, Eu. repeat split; ring.
Qed.

Lemma rectangle_table x1 y1 x2 y2 : Forall on_table (rectangle x1 y1 x2 y2).
Proof.
  assert (C : forall hi z, 0 <= hi -> (0 <= IZR (clip hi z) <= IZR hi)%R).
  { intros hi z H. unfold clip. split; apply IZR_le; lia. }
  unfold rectangle, on_table. repeat (apply Forall_cons; [cbn [fst snd]; split; apply C; lia|]); apply Forall_nil.
Qed.

(** All the vertices but those of the ally are on the table. *)
Theorem map_on_table rs wall h : size rs -> Forall sane h -> Forall detects h ->
  exists m a obs, run rs wall h = OK m /\ obstacles m = OK (a :: obs) /\ Forall (Forall on_table) obs.
Proof.
  intros Hr Hs Hd. destruct (run_inv rs wall h Hr Hs) as (m & o1 & o2 & E & I & K).
  eexists m, _, _. split; [exact E|]. split; [apply (inv_obstacles _ _ _ _ _ _ I)|].
  assert (F : Forall (Forall on_table) (fixed_obstacles rs wall)).
  { unfold fixed_obstacles. apply Forall_app. split; [destruct wall|]; repeat (apply Forall_cons; [apply rectangle_table|]); apply Forall_nil. }
  destruct (last_two_shape h) as (d & e & T). rewrite T in K. cbn [map] in K.
  destruct (K Hd) as [[_ J]|[_ J]]; injection J as <- <-; (apply Forall_cons; [apply rectangle_table|apply Forall_cons; [apply rectangle_table|exact F]]).
Qed.

(** ... and the ally's are not always: the robot of the team in a corner of the table. *)
Theorem map_on_table_refuted : exists h m a obs, Forall sane h /\ run 200 true h = OK m /\ obstacles m = OK (a :: obs) /\ ~ Forall on_table a.
Proof.
  exists [SetAlly 100 100 200 200].
  assert (S : Forall sane [SetAlly 100 100 200 200]) by (repeat constructor; cbn; unfold coord, size; lia).
  destruct (run_inv 200 true _ ltac:(unfold size; lia) S) as (m & o1 & o2 & E & I & _).
  eexists m, _, _. split; [exact S|]. split; [exact E|]. split; [apply (inv_obstacles _ _ _ _ _ _ I)|].
  unfold ally_polygon. cbn [fold_left]. intro F. rewrite Forall_forall in F.
  specialize (F (IZR 100 - 1.25 * IZR (200 + 200) / 2, IZR 100)%R ltac:(right; right; left; reflexivity)). destruct F as [[F _] _]. cbn [fst] in F.
  change (200 + 200) with 400 in F. lra.
Qed.

(** The square around an opponent: exactly the positions (in mm) of the robot where it touches the opponent. *)
Theorem around_covers d px py : size (dsize d) -> size (drobot d) -> 0 <= px <= 3000 -> 0 <= py <= 2000 ->
  touches d px py -> covers (around d) (IZR px, IZR py).
Proof.
  intros S1 S2 Hx Hy [Tx Ty]. unfold size in *. unfold around.
  pose proof (Z.div_mod (dsize d + drobot d) 2 ltac:(lia)). pose proof (Z.mod_pos_bound (dsize d + drobot d) 2 ltac:(lia)).
  apply rectangle_covers; cbn [on_table fst snd]; [unfold on_table; cbn [fst snd]|..]; repeat split; apply IZR_le; lia.
Qed.
Theorem around_covers_only d px py : size (dsize d) -> size (drobot d) ->
  - ((dsize d + drobot d) / 2) <= dx d <= 3000 + (dsize d + drobot d) / 2 -> - ((dsize d + drobot d) / 2) <= dy d <= 2000 + (dsize d + drobot d) / 2 ->
  covers (around d) (IZR px, IZR py) -> touches d px py /\ 0 <= px <= 3000 /\ 0 <= py <= 2000.
Proof.
  intros S1 S2 Dx Dy C. unfold size in *. unfold around in C. set (half := (dsize d + drobot d) / 2) in *.
  pose proof (Z.div_mod (dsize d + drobot d) 2 ltac:(lia)). pose proof (Z.mod_pos_bound (dsize d + drobot d) 2 ltac:(lia)).
  fold half in H. pose proof (covers_le _ _ C) as B. clear C.
  assert (B1 : px <= clip 3000 (dx d + half)).
  { apply le_IZR. apply (proj1 (B _)). intros v [<-|[<-|[<-|[<-|[]]]]]; cbn [fst]; apply IZR_le; unfold clip; lia. }
  assert (B2 : clip 3000 (dx d - half) <= px).
  { apply le_IZR. apply (proj1 (proj2 (proj2 (B _)))). intros v [<-|[<-|[<-|[<-|[]]]]]; cbn [fst]; apply IZR_le; unfold clip; lia. }
  assert (B3 : py <= clip 2000 (dy d + half)).
  { apply le_IZR. apply (proj1 (proj2 (B _))). intros v [<-|[<-|[<-|[<-|[]]]]]; cbn [snd]; apply IZR_le; unfold clip; lia. }
  assert (B4 : clip 2000 (dy d - half) <= py).
  { apply le_IZR. apply (proj2 (proj2 (proj2 (B _)))). intros v [<-|[<-|[<-|[<-|[]]]]]; cbn [snd]; apply IZR_le; unfold clip; lia. }
  unfold clip in *. unfold touches. lia.
Qed.

(** So the planner avoids the positions where the robot touches one of the last two opponents seen. *)
Theorem map_avoids_opponents rs wall h d : size rs -> Forall sane h -> Forall detects h -> In d (last_two h) ->
  exists m obs, run rs wall h = OK m /\ obstacles m = OK obs /\
    exists vs, In vs obs /\ forall px py, 0 <= px <= 3000 -> 0 <= py <= 2000 -> touches d px py -> covers vs (IZR px, IZR py).
Proof.
  intros Hr Hs Hd Hin. destruct (map_contents rs wall h Hr Hs Hd) as (m & obs & E & O & P). exists m, obs. split; [exact E|]. split; [exact O|].
  exists (around d). split.
  - apply (Permutation_in _ (Permutation_sym P)). right. apply in_or_app. left. now apply in_map.
  - intros px py Hx Hy T.
    assert (S : size (dsize d) /\ size (drobot d)).
    { unfold last_two in Hin.
      assert (Hin' : In d (rev (detections h) ++ [nobody; nobody])) by (rewrite <- (firstn_skipn 2 (rev (detections h) ++ [nobody; nobody])); apply in_or_app; now left).
      apply in_app_or in Hin' as [H|H].
      - apply in_rev in H. unfold detections in H. apply in_flat_map in H as (c & Hc & H). rewrite Forall_forall in Hs. specialize (Hs c Hc).
        destruct c; try contradiction. destruct H as [<-|[]]. cbn in *. tauto.
      - destruct H as [<-|[<-|[]]]; cbn; unfold size; lia. }
    apply around_covers; tauto.
Qed.

(** Finding: the mode which ignores the opponents changes nothing. *)
Theorem map_ignore_opponents_refuted rs wall h b : size rs -> Forall sane h ->
  exists m m' obs, run rs wall h = OK m /\ run rs wall (h ++ [EnableOpponent b]) = OK m' /\ obstacles m = OK obs /\ obstacles m' = OK obs.
Proof.
  intros Hr Hs. destruct (run_inv rs wall h Hr Hs) as (m & o1 & o2 & E & I & _). rewrite run_snoc, E. cbn [rbind exec].
  eexists m, _, _. split; [reflexivity|]. split; [reflexivity|]. split; [apply (inv_obstacles _ _ _ _ _ _ I)|].
  apply inv_obstacles with (rs := rs). destruct I; constructor; auto.
Qed.

Lemma foldM_app' {A B} (f : A -> B -> res A) l l' a : foldM f (l ++ l') a = (try a := foldM f l a in foldM f l' a).
Proof. revert a; induction l as [|b l IH]; intro a; cbn [app foldM rbind]; [reflexivity|]. destruct (f a b); cbn [rbind]; auto. Qed.

(** The map server: what the map holds after each wake up. *)
Theorem map_server_contents rs os wall ts : size rs -> 0 <= os <= 2 ^ 28 ->
  server rs os wall ts = run rs wall (flat_map (server_ops rs os) ts).
Proof.
  intros Hr Ho. unfold server, run. destruct (map_init rs wall) as [m|]; [|reflexivity]. cbn [rbind].
  revert m; induction ts as [|t ts IH]; intro m; [reflexivity|]. cbn [flat_map foldM].
  rewrite foldM_app'. replace (foldM exec (server_ops rs os t) m) with (server_iteration rs os m t).
  { destruct (server_iteration rs os m t); cbn [rbind]; [apply IH|reflexivity]. }
  unfold server_iteration, server_ops. rewrite foldM_app'. rewrite Z.quot_div_nonneg by lia.
  destruct (beacon t) as [[[x y] [|]]|]; cbn [foldM exec rbind];
  [destruct (map_update_opponent_obstacle _ _ _ _ _); [|reflexivity]; cbn [rbind]..|];
  destruct (ally_pos t) as [[x' y']|]; cbn [foldM exec rbind]; try destruct (map_set_ally_obstacle _ _ _ _ _); reflexivity.
Qed.

(** Finding: a wake up for the position of the ally counts the last opponent a second time, and the other opponent is forgotten
    although it was seen just before. *)
Definition first_seen := mktopics (Some (2000, 500, true)) None.
Definition second_seen := mktopics (Some (500, 500, true)) None.
Definition ally_seen := mktopics (Some (500, 500, true)) (Some (1000, 1000)).
Theorem map_server_two_opponents_refuted : exists m obs,
  server 200 200 true [first_seen; second_seen; ally_seen] = OK m /\ obstacles m = OK obs /\
  touches (det 2000 500 250 200) 2000 500 /\ forall vs, In vs obs -> ~ covers vs (2000, 500)%R.
Proof.
  rewrite map_server_contents by (unfold size; lia).
  assert (S : Forall sane (flat_map (server_ops 200 200) [first_seen; second_seen; ally_seen])).
  { repeat constructor; cbn; unfold coord, size; lia. }
  assert (D : Forall detects (flat_map (server_ops 200 200) [first_seen; second_seen; ally_seen])) by (repeat constructor).
  destruct (map_contents 200 true _ ltac:(unfold size; lia) S D) as (m & obs & E & O & P).
  exists m, obs. split; [exact E|]. split; [exact O|]. split; [unfold touches; cbn; lia|].
  intros vs H C. apply (Permutation_in _ P) in H. pose proof (covers_le _ _ C) as B. cbn [fst snd] in B. clear C P O E D S.
  unfold ally_polygon in H. cbn in H.
  destruct H as [<-|[<-|[<-|[<-|[<-|[<-|[<-|[]]]]]]]].
  - destruct (B 1500%R) as [B1 _]. enough (2000 <= 1500)%R by lra. apply B1. intros v [<-|[<-|[<-|[<-|[]]]]]; cbn; lra.
  - destruct (B 1500%R) as [B1 _]. enough (2000 <= 1500)%R by lra. apply B1. intros v [<-|[<-|[<-|[<-|[]]]]]; cbn; lra.
  - destruct (B 1500%R) as [B1 _]. enough (2000 <= 1500)%R by lra. apply B1. intros v [<-|[<-|[<-|[<-|[]]]]]; cbn; lra.
  - destruct (B 1000%R) as (_ & _ & _ & B1). enough (1000 <= 500)%R by lra. apply B1. intros v [<-|[<-|[<-|[<-|[]]]]]; cbn; lra.
  - destruct (B 1000%R) as (_ & _ & _ & B1). enough (1000 <= 500)%R by lra. apply B1. intros v [<-|[<-|[<-|[<-|[]]]]]; cbn; lra.
  - destruct (B 1000%R) as (_ & _ & _ & B1). enough (1000 <= 500)%R by lra. apply B1. intros v [<-|[<-|[<-|[<-|[]]]]]; cbn; lra.
  - destruct (B 1000%R) as (_ & _ & _ & B1). enough (1000 <= 500)%R by lra. apply B1. intros v [<-|[<-|[<-|[<-|[]]]]]; cbn; lra.
Qed.

Example map_example : exists h, Forall sane h /\ Forall detects h /\ last_two h = [det 900 800 250 200; det 100 100 250 200] /\
  touches (det 900 800 250 200) 1000 700.
Proof.
  exists [UpdateOpponent 5 5 0 0; SetAlly 1 2 3 4; UpdateOpponent 100 100 250 200; PathEnds 0 0 10 10; UpdateOpponent 900 800 250 200].
  repeat split; try (repeat constructor; cbn; unfold coord, size; lia); cbn; lia.
Qed.

Print Assumptions map_contents.
Print Assumptions map_set_opponent.
Print Assumptions map_bounding_box.
Print Assumptions map_on_table.
Print Assumptions map_on_table_refuted.
Print Assumptions around_covers.
Print Assumptions around_covers_only.
Print Assumptions map_avoids_opponents.
Print Assumptions map_ignore_opponents_refuted.
Print Assumptions map_server_contents.
Print Assumptions map_server_two_opponents_refuted.
