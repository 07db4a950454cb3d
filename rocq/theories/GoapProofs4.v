From Coq Require Import ZArith List Bool Arith Lia Permutation.
From Verif Require Import CRes GoapModel GoapSpec GoapProofs GoapProofs2 GoapProofs3.
Import ListNotations.
Local Open Scope Z_scope.

Section Loop.
Context {St : Type} (P : problem St) (N : nat) (B : Z) (WF : well_formed P N B) (s0 : St) (path : option (list (option nat))) (path_len : Z).
Hypothesis room : forall b, path = Some b -> path_len <= Z.of_nat (length b).
Notation hp := (list (vnode St)).
Notation valid := (valid P B s0).
Notation good := (good P B s0).
Notation Inv := (Inv P N B s0).
Notation Alias := (Alias P N B s0).

(** What plan may return. *)
Definition result (r : Z) (b : option (list (option nat))) : Prop :=
  ((r = -1 \/ r = -2) /\ b = None) \/
  exists l, r = Z.of_nat (length l) /\ r <= path_len /\ solves P s0 l /\ b = match path with None => None | Some buf => Some (map Some l ++ skipn (length l) buf) end.

Definition finish (h : hp) (current : nat) (cur : vnode St) : res (outcome (pstate St)) :=
  try len := depth (length h) h (parent cur) 0 in
  if path_len <? len then OK (Return (-1) None)
  else match path with
       | None => OK (Return len None)
       | Some b => try b := write_path (S (length h)) h current (len - 1) b in OK (Return len (Some b))
       end.
Lemma finish_ok h C current cur : length h = N -> (forall x, In x C -> valid h C x) -> In current C -> nth_error h current = Some cur -> (length C <= N)%nat ->
  reached P (st cur) = true -> exists r b, finish h current cur = OK (Return r b) /\ result r b /\
  (Z.of_nat (length C) <= path_len \/ (forall l, pathto h current l -> Z.of_nat (length l) <= path_len) -> 0 <= r).
Proof.
  intros L V I E LC R. destruct (valid_path P B s0 h C V (length C) current (V _ I)) as (l & n & N1 & N2 & N3 & N4).
  { intros n En. destruct (V _ I) as (m & M1 & (M2 & _)). rewrite M1 in En. injection En as <-. lia. }
  rewrite E in N1. injection N1 as <-. unfold finish.
  assert (NB : Z.of_nat N < 2 ^ 31). { destruct WF as (_ & _ & B0 & W). nia. }
  rewrite (depth_ok h current l N2 (length h) 0 cur) by (auto; lia). cbn [rbind]. rewrite Z.add_0_l. destruct (_ <? _) eqn:Q.
  - apply Z.ltb_lt in Q. eexists _, _. split; [reflexivity|]. split; [left; auto|]. intros [X|X]; [lia|specialize (X l N2); lia].
  - apply Z.ltb_ge in Q. destruct path as [buf|] eqn:PP.
    + specialize (room _ eq_refl). rewrite (write_path_ok h current l N2) by lia. cbn [rbind]. eexists _, _. split; [reflexivity|]. split; [|intros _; lia].
      right. exists l. rewrite PP. repeat split; auto. exists (st cur). auto.
    + eexists _, _. split; [reflexivity|]. split; [|intros _; lia]. right. exists l. rewrite PP. repeat split; auto. exists (st cur). auto.
Qed.

Lemma prio_bound h C n : (length C <= N)%nat -> good h C n -> prio n < INT_MAX.
Proof.
  intros L ((G0 & G1) & G2 & _). destruct WF as (_ & _ & B0 & W). unfold INT_MAX.
  assert (cost n * (B + 1) <= (Z.of_nat N + Z.of_nat (action_count P) + 1) * (B + 1)) by nia. lia.
Qed.

(** The state after the first lines of a turn. *)
Lemma pop_ok s F O C : Inv s F O C -> O <> [] -> exists h op cl current O' cur h0,
  pop_min (heap s) (open s) = OK (h0, op, current) /\ push_head h0 (close s) current = OK (h, cl) /\ nth_error h current = Some cur /\
  Permutation O (current :: O') /\ Inv (mkp h (free s) op cl) F O' (current :: C) /\ current_ok h (current :: C) current (st cur) /\
  (forall x, In x (O ++ C) -> stof h x = stof (heap s) x) /\ (length C < N)%nat.
Proof.
  intros [IL IF IO IC IND IT IV] NE. destruct (nodup_parts _ _ _ IND) as (ND1 & ND2 & ND3 & ND4 & ND5 & ND6).
  pose proof (is_list_len _ _ _ IC ND3) as LC. rewrite IL in LC.
  destruct (pop_min_ok (heap s) (open s) O IO ND2 NE) as (h0 & op & i & l1 & l2 & Q1 & Q2 & Q3 & Q4 & Q5).
  { intros j n J E. destruct (IV j) as (m & M1 & M2); [apply in_app_iff; auto|]. rewrite E in M1. injection M1 as <-. eapply prio_bound; eauto. }
  assert (II : In i O) by (rewrite Q2; apply in_app_iff; right; now left).
  assert (LI : (i < length (heap s))%nat) by exact (is_list_lt _ _ _ IO i II). pose proof Q4 as SB. destruct Q4 as [SL SK].
  destruct (get_lt h0 i) as (n0 & N0); [lia|]. set (cur := mkn (prio n0) (cost n0) (st n0) (parent n0) (act n0) (close s)). set (h := upd h0 i cur).
  assert (SB2 : sbn h0 h) by (now apply sbn_set). pose proof (sbn_trans _ _ _ SB SB2) as SB3.
  assert (LH : length h = N) by (destruct SB3 as [-> _]; auto).
  assert (LC' : (length C < N)%nat). { rewrite <- IT, !app_length. destruct O; [contradiction|]. cbn. lia. }
  assert (EC : nth_error h i = Some cur) by (apply upd_same; lia).
  assert (PO : Permutation O (i :: l1 ++ l2)) by (rewrite Q2; symmetry; apply Permutation_middle).
  assert (NDO : ~ In i (l1 ++ l2)). { apply (Permutation_NoDup PO) in ND2. now inversion ND2. }
  assert (KL : forall p l, (forall x, In x l -> ~ In x O) -> is_list (heap s) p l -> is_list h p l).
  { intros p l D. apply is_list_keep. intros j m J E. exists m. split; auto. unfold h. rewrite upd_other by (intros ->; eapply D; eauto). rewrite Q5; auto. }
  exists h, op, (Some i), i, (l1 ++ l2), cur, h0. split; auto. split; [unfold push_head; rewrite (set_next_ok h0 i n0) by auto; reflexivity|]. split; auto. split; auto.
  split; [|split; [|split]]; auto.
  - constructor; cbn [heap free open close]; auto.
    + apply KL; auto. intros x X. apply ND5; auto.
    + apply is_list_upd; auto.
    + split; auto. exists cur. split; auto. cbn. apply KL; auto. intros x X Y. apply (ND6 x); auto.
    + apply Permutation_NoDup with (F ++ O ++ C); auto. apply Permutation_app_head. rewrite PO. cbn. rewrite Permutation_middle. reflexivity.
    + rewrite <- IT, !app_length. cbn. apply Permutation_length in PO. cbn in PO. rewrite app_length in *. lia.
    + intros x X. apply (valid_sbn P B s0 (heap s) h C (i :: C)); auto; [cbn; lia|intros z Z; now right|]. apply IV. rewrite !in_app_iff in *. cbn in X.
      assert (K : In x (l1 ++ l2) \/ x = i \/ In x C) by (rewrite in_app_iff; intuition). destruct K as [K|[->|K]]; auto. left. apply (Permutation_in x (Permutation_sym PO)). now right.
  - split; [now left|]. exists cur. split; auto. split; auto. cbn. destruct (IV i) as (m & M1 & (M2 & _)); [apply in_app_iff; auto|].
    destruct (SK _ _ M1) as (m' & M3 & A1 & A2 & _). rewrite N0 in M3. injection M3 as <-. lia.
  - intros x X. eapply stof_sbn; eauto. destruct (in_app_or _ _ _ X) as [Y|Y]; [eapply is_list_lt with (l := O)|eapply is_list_lt with (l := C)]; eauto.
Qed.

Lemma turn_normal s F O C : Inv s F O C -> O <> [] ->
  (exists r b, turn P s path path_len = OK (Return r b) /\ result r b) \/
  (exists s' i, turn P s path path_len = OK (Go s') /\ Ok P N B s0 s' (i :: C) /\ (length C < N)%nat).
Proof.
  intros I NE. destruct (pop_ok s F O C I NE) as (h & op & cl & current & O' & cur & h0 & E1 & E2 & E3 & _ & I' & CU & _ & LC).
  unfold turn. rewrite E1. cbn [rbind]. rewrite E2. cbn [rbind]. unfold get. rewrite E3. cbn [some rbind].
  destruct (reached P (st cur)) eqn:R.
  - left. destruct (finish_ok h (current :: C) current cur) as (r & b & F1 & F2 & _); auto.
    + apply (i_len _ _ _ _ _ _ _ _ I').
    + intros x X. apply (i_valid _ _ _ _ _ _ _ _ I'). apply in_app_iff. auto.
    + now left.
    + exists r, b. split; auto.
  - destruct (expand_ok P N B WF s0 (current :: C) current (st cur) (action_count P) (mkp h (free s) op cl)) as [E|(s' & E & I2)]; auto.
    + left. eauto.
    + left. exists (-2), None. split; auto. left. auto.
    + right. exists s', current. auto.
Qed.
Lemma turn_alias s x C : Alias s x C ->
  (exists r b, turn P s path path_len = OK (Return r b) /\ result r b) \/
  (exists s', turn P s path path_len = OK (Go s') /\ open s' = None /\ free s' = Some x /\ close s' = Some x).
Proof.
  intros [IL IF IO (n & N1 & N2) IC IND NI IV].
  assert (LX : (x < length (heap s))%nat) by (eapply nth_lt; eauto).
  assert (LC : (length C < N)%nat).
  { assert (NoDup (x :: C)) as ND by (now constructor). assert (incl (x :: C) (seq 0 N)) as IN.
    { intros y [<-|Y]; apply in_seq; [lia|]. pose proof (is_list_lt _ _ _ IC y Y). lia. }
    pose proof (NoDup_incl_length ND IN). rewrite seq_length in H. cbn in H. lia. }
  assert (GX : good (heap s) C n). { destruct (IV x (or_introl eq_refl)) as (m & M1 & M2). rewrite N1 in M1. injection M1 as <-; auto. }
  set (cur := mkn (prio n) (cost n) (st n) (parent n) (act n) (close s)). set (h := upd (heap s) x cur).
  assert (EC : nth_error h x = Some cur) by (now apply upd_same).
  assert (T : turn P s path path_len = if reached P (st cur) then finish h x cur else expand P (action_count P) (mkp h (free s) None (Some x)) x).
  { unfold turn, pop_min. rewrite IO.
    assert (length (heap s) = S (pred N)) as -> by lia. cbn [find_min]. unfold get at 1. rewrite N1. cbn [some rbind].
    assert (prio n <? INT_MAX = true) as ->. { apply Z.ltb_lt. eapply prio_bound; eauto. lia. } rewrite N2.
    replace (find_min (pred N) (heap s) None (Some x) (prio n)) with (@OK (option nat) (Some x)) by (destruct (pred N); reflexivity). cbn [rbind same].
    rewrite Nat.eqb_refl. cbn [some rbind]. unfold get at 1. rewrite N1. cbn [some rbind]. unfold push_head. rewrite (set_next_ok _ _ n) by auto. cbn [rbind].
    fold cur. fold h. unfold get at 1. rewrite EC. cbn [some rbind]. rewrite N2. reflexivity. }
  rewrite T. clear T.
  assert (LH : length h = N) by (unfold h; now rewrite upd_length).
  destruct (reached P (st cur)) eqn:R.
  - left. destruct (finish_ok h (x :: C) x cur) as (r & b & F1 & F2 & _); auto.
    + intros y Y. apply (valid_sbn P B s0 (heap s) h C (x :: C)); auto; [cbn; lia|intros z Z; now right|now apply sbn_set].
    + now left.
    + exists r, b. split; auto.
  - right. destruct (expand_last P N B WF x (action_count P) (mkp h (free s) None (Some x))) as (s' & E1 & E2 & E3 & E4 & E5 & _); auto.
    + unfold Last. cbn [heap free open close]. repeat split; auto. exists cur. split; auto. destruct GX as (G1 & G2 & _). cbn. lia.
    + exists s'. auto.
Qed.

Lemma loop_ok : forall fuel s C, Ok P N B s0 s C -> (N - length C < fuel)%nat ->
  exists r b, loop P fuel s path path_len = OK (r, match b with Some _ => b | None => path end) /\ result r b.
Proof.
  assert (Done : forall s fuel, open s = None -> loop P fuel s path path_len = OK (-1, path)) by (intros s [|f] H; cbn; now rewrite H).
  assert (R0 : result (-1) None) by (left; auto).
  induction fuel as [|fuel IH]; intros s C I F; [lia|]. destruct I as [(Fr & O & I)|(x & A)].
  - destruct O as [|y O].
    + exists (-1), None. split; auto. apply Done. apply (i_open _ _ _ _ _ _ _ _ I).
    + assert (NE : exists z, open s = Some z) by (destruct (i_open _ _ _ _ _ _ _ _ I) as (-> & _); eauto). destruct NE as (z & NE).
      cbn [loop]. rewrite NE. destruct (turn_normal s Fr (y :: O) C I ltac:(easy)) as [(r & b & E & R)|(s' & i & E & I' & L)]; rewrite E; cbn [rbind]; [eauto|].
      apply (IH s' (i :: C)); auto. cbn. lia.
  - cbn [loop]. rewrite (a_open _ _ _ _ _ _ _ A). destruct (turn_alias s x C A) as [(r & b & E & R)|(s' & E & O' & _ & _)]; rewrite E; cbn [rbind]; [eauto|].
    exists (-1), None. split; auto.
Qed.

Lemma array_next (nodes : hp) : forall i k n, nth_error nodes k = Some n ->
  exists m, nth_error (array_to_list nodes i) k = Some m /\ next m = if (S k <? length nodes)%nat then Some (S (i + k)) else None.
Proof.
  induction nodes as [|a nodes IH]; intros i [|k] n E; cbn [nth_error array_to_list] in *; try discriminate.
  - eexists. split; eauto. cbn [next length]. destruct nodes; cbn [length]; [reflexivity|]. replace (1 <? S (S (length nodes)))%nat with true by (symmetry; apply Nat.ltb_lt; lia). now rewrite Nat.add_0_r.
  - destruct (IH (S i) k n E) as (m & M1 & M2). exists m. split; auto. rewrite M2. cbn [length].
    replace (S (S k) <? S (length nodes))%nat with (S k <? length nodes)%nat by reflexivity. now replace (S i + k)%nat with (i + S k)%nat by lia.
Qed.
Lemma array_length (nodes : hp) i : length (array_to_list nodes i) = length nodes.
Proof. revert i; induction nodes; intro i; cbn; auto. Qed.
Lemma array_list (nodes : hp) : forall j k, (k + S j = length nodes)%nat -> is_list (array_to_list nodes 0) (Some k) (seq k (S j)).
Proof.
  induction j as [|j IH]; intros k L; cbn [seq is_list]; split; auto; destruct (get_lt nodes k) as (n & E); try lia; destruct (array_next nodes 0 k n E) as (m & M1 & M2); exists m; split; auto; rewrite M2.
  - replace (S k <? length nodes)%nat with false by (symmetry; apply Nat.ltb_ge; lia). reflexivity.
  - replace (S k <? length nodes)%nat with true by (symmetry; apply Nat.ltb_lt; lia). apply IH. lia.
Qed.
Lemma start_ok nodes : length nodes = N -> (0 < N)%nat -> exists p, start_plan nodes s0 = OK p /\ Inv p (seq 1 (N - 1)) [0%nat] [] /\ stof (heap p) 0 = Some s0.
Proof.
  intros L NP. unfold start_plan, pop_head. cbn [some rbind].
  pose proof (array_list nodes (N - 1) 0 ltac:(lia)) as AL. cbn [seq] in AL. destruct AL as (_ & n & N1 & N2).
  unfold get at 1. rewrite N1. cbn [some rbind]. rewrite (set_next_ok _ _ n) by auto. cbn [rbind]. set (h := array_to_list nodes 0) in *.
  assert (LH : length h = N) by (unfold h; now rewrite array_length).
  unfold get. rewrite upd_same by lia. cbn [some rbind]. rewrite put_ok by (rewrite upd_length; lia). cbn [rbind]. rewrite upd_upd. cbn [next].
  eexists. split; [reflexivity|]. split; [|unfold stof; cbn [heap]; rewrite upd_same by lia; reflexivity]. constructor; cbn [heap free open close].
  - now rewrite upd_length.
  - apply is_list_upd; auto. rewrite in_seq. lia.
  - cbn [is_list]. split; auto. eexists. split; [apply upd_same; lia|]. reflexivity.
  - reflexivity.
  - rewrite app_nil_r. apply Permutation_NoDup with (0%nat :: seq 1 (N - 1)); [apply Permutation_cons_append|]. constructor; [rewrite in_seq; lia|apply seq_NoDup].
  - rewrite app_length, seq_length. cbn. lia.
  - intros x X. cbn in X. destruct X as [<-|[]]. eexists. split; [apply upd_same; lia|]. unfold good, GoapProofs2.good. cbn. lia || (split; [lia|split; [lia|reflexivity]]).
Qed.

(** When all the states that can be reached fit in the pool, with one node to spare. *)
Section Complete.
Variable L : list St.
Hypothesis L_start : In s0 L.
Hypothesis L_closed : forall v a, In v L -> (a < action_count P)%nat -> can_run P a v = true -> In (effects P a v) L.
Hypothesis L_small : (length L < N)%nat.
Definition covered (h : hp) (l : list nat) (v : St) : Prop := exists j, In j l /\ stof h j = Some v.
(** Every closed node is expanded, but for the last [k] actions of the current one. *)
Record Full (h : hp) (O C : list nat) (current k : nat) : Prop := {
  f_dup : NoDup (map (stof h) (O ++ C));
  f_in : forall x, In x (O ++ C) -> exists v, stof h x = Some v /\ In v L;
  f_start : covered h (O ++ C) s0;
  f_closed : forall x v, In x C -> stof h x = Some v -> reached P v = false /\
    forall a, (a < action_count P)%nat -> can_run P a v = true -> (x = current /\ (action_count P - k <= a)%nat) \/ covered h (O ++ C) (effects P a v) }.

Lemma full_small h O C current k : Full h O C current k -> (length O + length C <= length L)%nat.
Proof.
  intros [D I _ _]. rewrite <- app_length, <- (map_length (stof h)), <- (map_length Some L). apply NoDup_incl_length; auto.
  intros o H. apply in_map_iff in H as (x & <- & X). destruct (I x X) as (v & -> & V). now apply in_map.
Qed.
Lemma covered_st h h' l v : (forall x, In x l -> stof h' x = stof h x) -> covered h l v -> covered h' l v.
Proof. intros K (j & J1 & J2). exists j. split; auto. now rewrite K. Qed.

Lemma expand_full C current v : forall k s F O, (k <= action_count P)%nat -> Inv s F O C -> current_ok (heap s) C current v -> Full (heap s) O C current k ->
  exists s' F' O', expand P k s current = OK (Go s') /\ Inv s' F' O' C /\ Full (heap s') O' C current 0.
Proof.
  induction k as [|k IH]; intros s F O K I CU FU.
  { exists s, F, O. auto. }
  cbn [expand]. pose proof CU as (ICC & n & N1 & N2 & N3). unfold get. rewrite N1. cbn [some rbind]. rewrite N3.
  set (a := (action_count P - S k)%nat).
  assert (SC : stof (heap s) current = Some v) by (unfold stof; rewrite N1; cbn; now rewrite N3).
  destruct (can_run P a v) eqn:R.
  - pose proof (full_small _ _ _ _ _ FU) as SM. pose proof (i_total _ _ _ _ _ _ _ _ I) as TT. rewrite !app_length in TT.
    destruct F as [|i F]; [cbn in TT; lia|].
    unfold try_action. destruct (collect_ok P N B s0 _ _ _ _ I) as [[_ E]|[(Q & _)|[(? & ? & Q & _)|(? & ? & ? & Q & _)]]]; try discriminate. rewrite E. cbn [rbind].
    destruct (add_normal P N B WF s0 s i F O C current v a I CU ltac:(lia) R) as (s' & F' & O' & Q1 & Q2 & Q3 & Q4 & Q5).
    rewrite Q1. cbn [rbind]. apply (IH s' F' O'); auto; [lia|]. destruct FU as [D1 D2 D3 D4].
    assert (IV : In v L). { destruct (D2 current) as (w & W1 & W2); [apply in_app_iff; auto|]. rewrite SC in W1. injection W1 as <-. auto. }
    assert (MM : map (stof (heap s')) (O ++ C) = map (stof (heap s)) (O ++ C)) by (apply map_ext_in; auto).
    destruct Q5 as [(-> & j & J1 & J2)|(-> & J1 & J2)].
    + constructor.
      * now rewrite MM.
      * intros x X. rewrite Q4 by auto. auto.
      * eapply covered_st; eauto.
      * intros x w X W. rewrite Q4 in W by (apply in_app_iff; auto). destruct (D4 x w X W) as [Y1 Y2]. split; auto. intros b B1 B2.
        destruct (Y2 b B1 B2) as [[-> Y3]|Y3]; [|right; eapply covered_st; eauto]. destruct (Nat.eq_dec b a) as [->|NE]; [|left; split; auto; lia].
        right. rewrite SC in W. injection W as <-. exists j. split; auto. now rewrite Q4.
    + assert (SUB : forall w, covered (heap s) (O ++ C) w -> covered (heap s') ((i :: O) ++ C) w).
      { intros w (j & X1 & X2). exists j. split; [now right|]. now rewrite Q4. }
      constructor.
      * cbn [app map]. constructor; [|now rewrite MM]. rewrite MM, J1. intro X. apply in_map_iff in X as (j & X1 & X2). eapply J2; eauto.
      * intros x [<-|X]; [exists (effects P a v); split; auto; apply L_closed; auto; lia|]. rewrite Q4 by auto. auto.
      * auto.
      * intros x w X W. rewrite Q4 in W by (apply in_app_iff; auto). destruct (D4 x w X W) as [Y1 Y2]. split; auto. intros b B1 B2.
        destruct (Y2 b B1 B2) as [[-> Y3]|Y3]; [|right; auto]. destruct (Nat.eq_dec b a) as [->|NE]; [|left; split; auto; lia].
        right. rewrite SC in W. injection W as <-. exists i. split; [now left|auto].
  - apply (IH s F O); auto; [lia|]. destruct FU as [D1 D2 D3 D4]. constructor; auto. intros x w X W. destruct (D4 x w X W) as [Y1 Y2]. split; auto. intros b B1 B2.
    destruct (Y2 b B1 B2) as [[-> Y3]|Y3]; auto. rewrite SC in W. injection W as <-. left. split; auto. destruct (Nat.eq_dec b a) as [->|]; [congruence|lia].
Qed.

Lemma closed_covers h C current v l v' : Full h [] C current 0 -> covered h C v -> runs P v l = Some v' -> covered h C v'.
Proof.
  intros FU. revert v; induction l as [|a l IH]; intros v CV R; cbn [runs] in R; [now injection R as <-|].
  destruct (_ && _) eqn:Q; [|discriminate]. apply andb_prop in Q as [Q1 Q2]. apply Nat.ltb_lt in Q1. apply (IH _) in R; auto.
  destruct CV as (j & J1 & J2). destruct (f_closed _ _ _ _ _ FU j v J1 J2) as [_ Y]. destruct (Y a Q1 Q2) as [[_ Z]|Z]; auto. lia.
Qed.
(** Every action that changes the state makes it climb, and no state is more than [path_len] above the start. *)
Definition climbs : Prop := exists rank : St -> Z,
  (forall v a, In v L -> (a < action_count P)%nat -> can_run P a v = true -> effects P a v = v \/ rank v < rank (effects P a v)) /\
  (forall v, In v L -> rank v - rank s0 <= path_len).
Lemma nodup_map_inj {A C} (f : A -> C) l x y : NoDup (map f l) -> In x l -> In y l -> f x = f y -> x = y.
Proof.
  induction l as [|z l IH]; cbn; intros ND X Y E; [contradiction|]. inversion ND; subst.
  destruct X as [<-|X], Y as [<-|Y]; auto; exfalso; apply H1; [rewrite E|rewrite <- E]; now apply in_map.
Qed.
Lemma path_rank h C rank : (forall x, In x C -> valid h C x) -> NoDup (map (stof h) C) -> (forall x, In x C -> exists v, stof h x = Some v /\ In v L) ->
  (forall v a, In v L -> (a < action_count P)%nat -> can_run P a v = true -> effects P a v = v \/ rank v < rank (effects P a v)) ->
  forall x l, pathto h x l -> In x C -> forall n, nth_error h x = Some n -> rank s0 + Z.of_nat (length l) <= rank (st n).
Proof.
  intros V ND IN R x l H. induction H as [x m E Q|x m p a l E Q A Hp IH]; intros X n En; rewrite E in En; injection En as <-; destruct (V x X) as (m' & E' & _ & _ & G3); rewrite E in E'; injection E' as <-; rewrite Q in G3.
  - rewrite G3. cbn. lia.
  - destruct G3 as (IP & pn & a' & A1 & A2 & A3 & A4 & A5 & A6). specialize (IH IP pn A1). rewrite app_length. cbn [length].
    destruct (IN p IP) as (v & V1 & V2). unfold stof in V1. rewrite A1 in V1. cbn in V1. injection V1 as <-.
    assert (NE : x <> p) by (intros ->; rewrite E in A1; injection A1 as <-; lia).
    destruct (R _ _ V2 A3 A4) as [K|K]; [|rewrite A5; lia].
    exfalso. apply NE. apply (nodup_map_inj (stof h) C); auto. unfold stof. rewrite E, A1. cbn. now rewrite A5, K.
Qed.
Lemma loop_full l : solves P s0 l -> Z.of_nat (length L) <= path_len \/ climbs -> forall fuel s F O C current, Inv s F O C -> Full (heap s) O C current 0 -> (N - length C < fuel)%nat ->
  exists r b, loop P fuel s path path_len = OK (r, b) /\ 0 <= r.
Proof.
  intros (v' & R1 & R2) PL. induction fuel as [|fuel IH]; intros s F O C current I FU FL; [lia|].
  destruct O as [|y O].
  { exfalso. pose proof (closed_covers _ _ _ _ _ _ FU (f_start _ _ _ _ _ FU) R1) as (j & J1 & J2).
    destruct (f_closed _ _ _ _ _ FU j v' J1 J2). congruence. }
  assert (NE : exists z, open s = Some z) by (destruct (i_open _ _ _ _ _ _ _ _ I) as (-> & _); eauto). destruct NE as (z & NE).
  destruct (pop_ok s F (y :: O) C I ltac:(easy)) as (h & op & cl & cu & O' & cur & h0 & E1 & E2 & E3 & PO & I' & CU & SS & LC).
  cbn [loop]. rewrite NE. unfold turn. rewrite E1. cbn [rbind]. rewrite E2. cbn [rbind]. unfold get. rewrite E3. cbn [some rbind].
  pose proof (full_small _ _ _ _ _ FU) as SM. apply Permutation_length in PO as PL2. cbn in PL2.
  assert (FP : Permutation ((y :: O) ++ C) (O' ++ cu :: C)) by (rewrite PO; cbn; apply Permutation_middle).
  destruct (reached P (st cur)) eqn:R.
  - destruct (finish_ok h (cu :: C) cu cur) as (r & b & F1 & F2 & F3); auto.
    + apply (i_len _ _ _ _ _ _ _ _ I').
    + intros x X. apply (i_valid _ _ _ _ _ _ _ _ I'). apply in_app_iff. auto.
    + now left.
    + unfold finish in F1. rewrite F1. cbn [rbind]. eexists _, _. split; [reflexivity|]. apply F3. destruct PL as [PL|(rank & RK1 & RK2)]; [left; cbn in *; lia|right]. intros lp LP.
      destruct FU as [D1 D2 D3 D4].
      assert (D1' : NoDup (map (stof h) (cu :: C))).
      { assert (X : NoDup (map (stof h) (O' ++ cu :: C))).
        { apply Permutation_NoDup with (map (stof (heap s)) ((y :: O) ++ C)); auto. erewrite (map_ext_in (stof (heap s)) (stof h)); [apply Permutation_map; auto|].
          intros x X. symmetry. auto. }
        rewrite map_app in X. clear - X. induction (map (stof h) O'); cbn in X; auto. inversion X; auto. }
      assert (D2' : forall x, In x (cu :: C) -> exists v, stof h x = Some v /\ In v L).
      { intros x X. assert (X' : In x ((y :: O) ++ C)) by (apply (Permutation_in x (Permutation_sym FP)); apply in_app_iff; now right). rewrite SS by auto. auto. }
      assert (V' : forall x, In x (cu :: C) -> valid h (cu :: C) x) by (intros x X; apply (i_valid _ _ _ _ _ _ _ _ I'); apply in_app_iff; auto).
      pose proof (path_rank h (cu :: C) rank V' D1' D2' RK1 cu lp LP (or_introl eq_refl) cur E3) as K.
      destruct (D2' cu (or_introl eq_refl)) as (v & K1 & K2). unfold stof in K1. rewrite E3 in K1. cbn in K1. injection K1 as <-. specialize (RK2 _ K2). lia.
  - destruct (expand_full (cu :: C) cu (st cur) (action_count P) (mkp h (free s) op cl) F O') as (s' & F' & O'' & X1 & X2 & X3); auto.
    + destruct FU as [D1 D2 D3 D4]. constructor; cbn [heap].
      * apply Permutation_NoDup with (map (stof (heap s)) ((y :: O) ++ C)); auto. erewrite (map_ext_in (stof (heap s)) (stof h)); [apply Permutation_map; auto|].
        intros x X. symmetry. auto.
      * intros x X. apply (Permutation_in x (Permutation_sym FP)) in X. rewrite SS by auto. auto.
      * destruct D3 as (j & J1 & J2). exists j. split; [eapply Permutation_in; eauto|]. now rewrite SS.
      * intros x w X W. destruct (Nat.eq_dec x cu) as [->|NX].
        -- unfold stof in W. rewrite E3 in W. cbn in W. injection W as <-. split; auto. intros. left. split; auto. lia.
        -- destruct X as [<-|X]; [contradiction|]. rewrite SS in W by (apply in_app_iff; auto). destruct (D4 x w X W) as [Y1 Y2]. split; auto. intros a A1 A2. right.
           destruct (Y2 a A1 A2) as [[_ Z]|(j & J1 & J2)]; [lia|]. exists j. split; [eapply Permutation_in; eauto|]. now rewrite SS.
    + rewrite X1. cbn [rbind]. apply (IH s' F' O'' (cu :: C) cu); auto. cbn. lia.
Qed.
End Complete.
End Loop.
