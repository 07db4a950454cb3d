(** C29 and C30: the action planner. *)
From Coq Require Import ZArith List Bool Arith Lia Permutation.
From Verif Require Import CRes GoapModel GoapSpec GoapProofs GoapProofs2 GoapProofs3 GoapProofs4.
Import ListNotations.
Local Open Scope Z_scope.

(** C29: for every application (states, actions, goal), every pool, whatever it holds before, and every start, planning ends, without
    undefined behaviour, with an error (-1 or -2), the caller's array being untouched, or with a plan no longer than the caller asked for:
    its actions can be run in order from the start and lead to the goal. The array then starts with these actions and is otherwise
    unchanged. *)
Theorem goap_plan {S} (P : problem S) (B : Z) nodes s path path_len : well_formed P (length nodes) B -> (0 < length nodes)%nat ->
  (forall b, path = Some b -> path_len <= Z.of_nat (length b)) ->
  exists r path', plan P nodes s path path_len = OK (r, path') /\
    (((r = -1 \/ r = -2) /\ path' = path) \/
     exists l, r = Z.of_nat (length l) /\ r <= path_len /\ solves P s l /\
               path' = match path with None => None | Some b => Some (map Some l ++ skipn (length l) b) end).
Proof.
  intros WF NP room. destruct (start_ok P (length nodes) B s nodes eq_refl NP) as (p & E & I & _).
  unfold plan. rewrite E. cbn [rbind]. destruct (loop_ok P (length nodes) B WF s path path_len room (Datatypes.S (length nodes)) p []) as (r & b & E2 & R).
  - left. eauto.
  - cbn. lia.
  - exists r. eexists. split; [exact E2|]. destruct R as [[R ->]|(l & R1 & R2 & R3 & ->)]; [left; auto|right]. exists l. repeat split; auto.
    destruct path; reflexivity.
Qed.

(** If the states that can be reached fit in the pool with one node to spare, and plans that long fit in the array, a plan is found
    whenever there is one. *)
Theorem goap_finds {S} (P : problem S) (B : Z) nodes s path path_len all l : well_formed P (length nodes) B ->
  (forall b, path = Some b -> path_len <= Z.of_nat (length b)) ->
  In s all -> (forall v a, In v all -> (a < action_count P)%nat -> can_run P a v = true -> In (effects P a v) all) ->
  (length all < length nodes)%nat -> Z.of_nat (length all) <= path_len -> solves P s l ->
  exists r path', plan P nodes s path path_len = OK (r, path') /\ 0 <= r.
Proof.
  intros WF room A1 A2 A3 A4 SO. destruct (start_ok P (length nodes) B s nodes eq_refl ltac:(lia)) as (p & E & I & ST).
  unfold plan. rewrite E. cbn [rbind]. apply (loop_full P (length nodes) B WF s path path_len room all A2 A3 l SO (or_introl A4) _ p _ _ _ 0%nat I); [|cbn; lia].
  constructor; cbn [app map].
  - constructor; [easy|constructor].
  - intros x [<-|[]]. eauto.
  - exists 0%nat. split; [now left|auto].
  - intros x v [].
Qed.

(** The same when long plans cannot exist although there are many states: every action that changes the state makes some rank grow, and no
    rank is more than [path_len] above that of the start. *)
Theorem goap_finds_climbing {S} (P : problem S) (B : Z) nodes s path path_len all (rank : S -> Z) l : well_formed P (length nodes) B ->
  (forall b, path = Some b -> path_len <= Z.of_nat (length b)) ->
  In s all -> (forall v a, In v all -> (a < action_count P)%nat -> can_run P a v = true -> In (effects P a v) all) ->
  (length all < length nodes)%nat ->
  (forall v a, In v all -> (a < action_count P)%nat -> can_run P a v = true -> effects P a v = v \/ rank v < rank (effects P a v)) ->
  (forall v, In v all -> rank v - rank s <= path_len) -> solves P s l ->
  exists r path', plan P nodes s path path_len = OK (r, path') /\ 0 <= r.
Proof.
  intros WF room A1 A2 A3 A4 A5 SO. destruct (start_ok P (length nodes) B s nodes eq_refl ltac:(lia)) as (p & E & I & ST).
  unfold plan. rewrite E. cbn [rbind]. apply (loop_full P (length nodes) B WF s path path_len room all A2 A3 l SO (or_intror (ex_intro _ rank (conj A4 A5))) _ p _ _ _ 0%nat I); [|cbn; lia].
  constructor; cbn [app map].
  - constructor; [easy|constructor].
  - intros x [<-|[]]. eauto.
  - exists 0%nat. split; [now left|auto].
  - intros x v [].
Qed.

(** C30: at each turn of the search, every node of the pool is in exactly one of the three lists, unless the pool was exhausted while a single
    node was open; that node is then both open (or just closed) and free. *)
Theorem goap_pool_partial {S} (P : problem S) (B : Z) nodes s path path_len p : well_formed P (length nodes) B -> (0 < length nodes)%nat ->
  (forall b, path = Some b -> path_len <= Z.of_nat (length b)) -> reachable P nodes s path path_len p ->
  partition p \/ exists x, free p = Some x /\ (open p = Some x \/ (open p = None /\ close p = Some x)).
Proof.
  intros WF NP room R. assert (K : (exists C, Ok P (length nodes) B s p C) \/ exists x, free p = Some x /\ open p = None /\ close p = Some x).
  { induction R as [p E|p p' R IH NO E].
    - destruct (start_ok P (length nodes) B s nodes eq_refl NP) as (p' & E' & I & _). rewrite E in E'. injection E' as <-. left. exists []. left. eauto.
    - destruct IH as [(C & [(F & O & I)|(x & A)])|(x & X1 & X2 & X3)]; [| |congruence].
      + destruct O as [|y O]; [destruct (NO (i_open _ _ _ _ _ _ _ _ I))|].
        destruct (turn_normal P (length nodes) B WF s path path_len room p F (y :: O) C I ltac:(easy)) as [(r & b & E' & _)|(s' & i & E' & I' & _)]; rewrite E in E'; [discriminate|].
        injection E' as <-. left. eauto.
      + destruct (turn_alias P (length nodes) B WF s path path_len room p x C A) as [(r & b & E' & _)|(s' & E' & O1 & O2 & O3)]; rewrite E in E'; [discriminate|].
        injection E' as <-. right. eauto. }
  destruct K as [(C & [(F & O & I)|(x & A)])|(x & X1 & X2 & X3)].
  - left. destruct I as [IL IF IO IC IND IT _]. exists F, O, C. repeat split; auto.
    + intro H. rewrite !in_app_iff in H. destruct H as [H|[H|H]]; [eapply is_list_lt with (l := F)|eapply is_list_lt with (l := O)|eapply is_list_lt with (l := C)]; eauto.
    + intro H. rewrite IL in H. apply (NoDup_length_incl IND (l' := seq 0 (length nodes))); [rewrite seq_length; lia| |apply in_seq; lia].
      intros j J. apply in_seq. rewrite !in_app_iff in J.
      destruct J as [J|[J|J]]; [pose proof (is_list_lt _ _ _ IF j J)|pose proof (is_list_lt _ _ _ IO j J)|pose proof (is_list_lt _ _ _ IC j J)]; lia.
  - right. exists x. split; [apply (a_free _ _ _ _ _ _ _ A)|]. left. apply (a_open _ _ _ _ _ _ _ A).
  - right. exists x. auto.
Qed.

(** A case: cut wood, which takes an axe. *)
Definition wood : problem (bool * bool) := mkproblem _ 2
  (fun a s => match a with O => snd s | _ => true end) (fun a s => match a with O => (true, snd s) | _ => (fst s, true) end)
  (fun s => fst s) (fun s => if fst s then 0 else 1) (fun a b => Bool.eqb (fst a) (fst b) && Bool.eqb (snd a) (snd b)).
Definition blank {S} (s : S) : vnode S := mkn 77 3 s (Some 1%nat) None (Some 9%nat).
Example ex_wood_wf : well_formed wood 100 1.
Proof.
  split; [intros [[] []] [[] []]; cbn; split; congruence|]. split; [intros [[] []]; cbn; lia|]. cbn. lia.
Qed.
Example ex_wood : plan wood (repeat (blank (false, false)) 100) (false, false) (Some (repeat None 10)) 10 = OK (2, Some (Some 1%nat :: Some 0%nat :: repeat None 8)).
Proof. vm_compute. reflexivity. Qed.
Example ex_wood_solves : solves wood (false, false) [1; 0]%nat.
Proof. eexists. split; reflexivity. Qed.
Example ex_wood_all : forall v a, In v [(false, false); (false, true); (true, true)] -> (a < 2)%nat -> can_run wood a v = true -> In (effects wood a v) [(false, false); (false, true); (true, true)].
Proof. intros v a H A R. destruct a as [|[|a]]; [| |lia]; cbn in H; destruct H as [<-|[<-|[<-|[]]]]; cbn in *; try discriminate; auto. Qed.

(** Two choices at each step: 1 to 2 or 3, then 4 to 7 and so on; the goal is 4. With a pool of two nodes, the second one is both open and
    free after the first turn, and the search then answers that there is no plan instead of that memory is missing. *)
Definition tree : problem Z := mkproblem _ 2 (fun _ _ => true) (fun a s => 2 * s + (1 - Z.of_nat a)) (fun s => s =? 4) (fun s => if s =? 4 then 0 else 1) Z.eqb.
Example ex_tree_wf : well_formed tree 2 1.
Proof. split; [intros; apply Z.eqb_eq|]. split; [intro s; cbn; destruct (s =? 4); lia|]. cbn. lia. Qed.
Theorem goap_pool_shared_refuted : exists p, reachable tree [blank 0; blank 0] 1 None 10 p /\ ~ partition p.
Proof.
  eexists. split; [eapply reach_turn; [apply reach_start; reflexivity|discriminate|vm_compute; reflexivity]|].
  intros (F & O & C & H1 & H2 & _ & H3 & _). cbn in H1, H2. destruct F as [|x F]; [discriminate H1|]. destruct O as [|y O]; [discriminate H2|].
  destruct H1 as [H1 _], H2 as [H2 _]. inversion H1; inversion H2; subst. inversion H3; subst. apply H4. apply in_app_iff. right. now left.
Qed.
Theorem goap_gives_up_refuted : plan tree [blank 0; blank 0] 1 None 10 = OK (-1, None) /\ solves tree 1 [1; 1]%nat.
Proof. split; [vm_compute; reflexivity|]. eexists. split; reflexivity. Qed.
(** Without the bound on distances, no node has a priority below INT_MAX and a null pointer is dereferenced. *)
Definition far : problem Z := mkproblem _ 1 (fun _ _ => true) (fun _ s => s + 1) (fun s => s =? 4) (fun s => 2 ^ 31 - 2) Z.eqb.
Theorem goap_far_refuted : plan far [blank 0; blank 0; blank 0] 1 None 10 = BAD.
Proof. vm_compute. reflexivity. Qed.
Print Assumptions goap_plan.
Print Assumptions goap_finds.
Print Assumptions goap_pool_partial.
