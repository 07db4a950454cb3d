(** Proofs about the upload of a configuration. *)
From Coq Require Import ZArith List Bool Lia Arith FinFun.
From Verif Require Import CBase Buf ParamModel ParamSpec ParamProofs ParamProofs2 UplModel UplSpec.
Import ListNotations.
Local Open Scope Z_scope.

(** ** The list of parameters *)

Fixpoint yaml_rect' (P : yaml -> Prop) (HL : forall v, P (Leaf v))
  (HD : forall items, Forall (fun x => P (snd x)) items -> P (Dict items)) (c : yaml) : P c :=
  match c with
  | Leaf v => HL v
  | Dict items => HD items ((fix go l : Forall (fun x => P (snd x)) l :=
      match l with [] => Forall_nil _ | x :: l => Forall_cons x (yaml_rect' P HL HD (snd x)) (go l) end) items)
  end.

Fixpoint leaves (c : yaml) : list (list str * pyval) :=
  match c with
  | Leaf v => [([], v)]
  | Dict items => flat_map (fun x => match x with (k, c) => map (fun y => (k :: fst y, snd y)) (leaves c) end) items
  end.

Lemma parameters_leaves : forall c name, parameters name c = map (fun y => (name ++ url (fst y), snd y)) (leaves c).
Proof.
  induction c as [v|items IH] using yaml_rect'; intro name; cbn [parameters leaves].
  - cbn. rewrite app_nil_r. reflexivity.
  - induction items as [|(k, c) items IHi]; [reflexivity|]. inversion IH; subst. cbn [flat_map]. rewrite map_app, <- IHi by assumption.
    f_equal. cbn [snd] in *. rewrite H1, map_map. apply map_ext. intros (p, v). cbn [fst snd url map concat]. f_equal.
    rewrite <- app_assoc. reflexivity.
Qed.

Lemma leaves_value_at : forall c path v, In (path, v) (leaves c) <-> value_at c path v.
Proof.
  induction c as [v|items IH] using yaml_rect'; intros path v'; cbn [leaves].
  - split; [intros [E|[]]; inversion E; constructor|]. inversion 1; left; reflexivity.
  - rewrite in_flat_map. rewrite Forall_forall in IH. split.
    + intros ((k, c) & I & J). apply in_map_iff in J. destruct J as ((p, v) & E & J). cbn [fst snd] in E. inversion E; subst.
      econstructor; [exact I|]. apply (IH (k, c) I). exact J.
    + inversion 1; subst. exists (k, c). split; [assumption|]. apply in_map_iff. exists (path0, v'). split; [reflexivity|].
      apply (IH (k, c)); assumption.
Qed.

Lemma params_exact : forall config u v, In (u, v) (parameters_from_config config) <->
  exists path, value_at (Dict config) path v /\ u = url path.
Proof.
  intros config u v. unfold parameters_from_config. rewrite parameters_leaves, in_map_iff. split.
  - intros ((p, v') & E & I). cbn [fst snd app] in E. inversion E; subst. exists p. split; [|reflexivity]. apply leaves_value_at; exact I.
  - intros (p & A & ->). exists (p, v). split; [reflexivity|]. apply leaves_value_at; exact A.
Qed.

Lemma NoDup_app' : forall A (a b : list A), NoDup a -> NoDup b -> (forall x, In x a -> ~ In x b) -> NoDup (a ++ b).
Proof. exact NoDup_app. Qed.

Lemma leaves_nodup : forall c, tidy c -> NoDup (map fst (leaves c)).
Proof.
  induction c as [v|items IH] using yaml_rect'; intro T; cbn [leaves].
  - repeat constructor. intros [].
  - inversion T as [|? ND K]; subst. clear T. induction items as [|(k, c) items IHi]; [constructor|].
    inversion IH; subst. inversion ND; subst. cbn [flat_map]. rewrite map_app. apply NoDup_app'.
    + rewrite map_map. cbn [fst]. rewrite <- (map_map fst (cons k)). apply Injective_map_NoDup.
      * intros a b E. inversion E; reflexivity.
      * apply H1. apply (K k c). left; reflexivity.
    + apply IHi; auto. intros k' c' I. apply K. right; exact I.
    + intros p I J. rewrite map_map in I. apply in_map_iff in I. destruct I as ((p1, v1) & <- & _).
      apply in_map_iff in J. destruct J as ((p2, v2) & E & J). apply in_flat_map in J. destruct J as ((k', c') & J1 & J2).
      apply in_map_iff in J2. destruct J2 as ((p3, v3) & E3 & _). cbn [fst snd] in *. assert (k' = k) by congruence. subst k'.
      apply H3. apply in_map_iff. exists (k, c'). auto.
Qed.

Lemma split_slash : forall a b x y, ~ In slash a -> ~ In slash b ->
  (x = [] \/ exists x', x = slash :: x') -> (y = [] \/ exists y', y = slash :: y') -> a ++ x = b ++ y -> a = b /\ x = y.
Proof.
  induction a as [|c a IH]; intros [|d b] x y A B X Y E; cbn [app] in E.
  - auto.
  - exfalso. destruct X as [->|(x' & ->)]; inversion E; subst. apply B. left; reflexivity.
  - exfalso. destruct Y as [->|(y' & ->)]; inversion E; subst. apply A. left; reflexivity.
  - inversion E; subst. destruct (IH b x y) as (-> & ->); auto; intro; [apply A|apply B]; right; assumption.
Qed.
Lemma url_shape : forall p, url p = [] \/ exists x, url p = slash :: x.
Proof. intros [|k p]; [left; reflexivity|]. right. unfold url. cbn. eauto. Qed.
Lemma url_inj : forall p q, Forall (fun k => ~ In slash k) p -> Forall (fun k => ~ In slash k) q -> url p = url q -> p = q.
Proof.
  induction p as [|k p IH]; intros [|k' q] P Q E; auto; try (unfold url in E; cbn in E; discriminate).
  inversion P; subst. inversion Q; subst. change (slash :: k ++ url p = slash :: k' ++ url q) in E. inversion E as [E'].
  apply split_slash in E'; auto using url_shape. destruct E' as (-> & E'). f_equal. auto.
Qed.

Lemma value_path_ok : forall c path v, value_at c path v -> tidy c -> Forall key_ok path.
Proof.
  induction 1 as [|items k c path v I _ IH]; intro T; constructor; inversion T; subst.
  - apply (H1 k c I).
  - apply IH. apply (H1 k c I).
Qed.
Lemma path_slash : forall p, Forall key_ok p -> Forall (fun k => ~ In slash k) p.
Proof. intros p H. eapply Forall_impl; [|exact H]. intros k (_ & K & _). exact K. Qed.

Lemma params_nodup : forall config, tidy (Dict config) -> NoDup (map fst (parameters_from_config config)).
Proof.
  intros config T. unfold parameters_from_config. rewrite parameters_leaves, map_map. cbn [fst app].
  rewrite <- (map_map fst url). pose proof (leaves_nodup _ T) as N.
  assert (F : forall p, In p (map fst (leaves (Dict config))) -> Forall key_ok p).
  { intros p I. apply in_map_iff in I. destruct I as ((p', v) & <- & I). apply leaves_value_at in I. eapply value_path_ok; eauto. }
  revert N F. generalize (map fst (leaves (Dict config))). clear. induction l as [|p l IH]; intros N F; [constructor|].
  inversion N; subst. cbn [map]. constructor.
  - intro I. apply in_map_iff in I. destruct I as (q & E & I). apply H1. apply url_inj in E; [subst; assumption| |];
      apply path_slash, F; [right; assumption|left; reflexivity].
  - apply IH; auto. intros q I. apply F. right; exact I.
Qed.

(** ** Paths of a board *)

Lemma leads_ge : forall l n comps m, down l -> leads l n comps m -> (n <= m)%nat.
Proof.
  intros l n comps m D L. induction L as [| |n s c comps m _ (E & _) _ IH]; auto. apply D in E. lia.
Qed.
Lemma leads_snoc_inv : forall l comps n s m, s <> [] -> leads l n (comps ++ [s]) m ->
  exists m', leads l n comps m' /\ nth_error l m = Some (Some m', s).
Proof.
  intros l. induction comps as [|k comps IH]; intros n s m S L; cbn [app] in L.
  - inversion L as [|? ? ? L'|? ? c ? ? S' (E & _) L']; subst; [congruence|]. inversion L'; subst. exists n. split; [constructor|exact E].
  - inversion L as [|? ? ? L'|? ? c ? ? S' E L']; subst.
    + apply IH in L'; [|exact S]. destruct L' as (m' & L' & E). exists m'. split; [constructor; exact L'|exact E].
    + apply IH in L'; [|exact S]. destruct L' as (m' & L' & E'). exists m'. split; [econstructor; eauto|exact E'].
Qed.
Lemma leads_inj : forall l, down l -> forall p n q m, Forall (fun s => s <> []) p -> Forall (fun s => s <> []) q ->
  leads l n p m -> leads l n q m -> p = q.
Proof.
  intros l D. induction p as [|s p IH] using rev_ind; intros n q m P Q A B.
  - destruct q as [|s q _] using rev_ind; [reflexivity|]. exfalso. inversion A; subst.
    apply Forall_app in Q. destruct Q as (_ & Q). inversion Q; subst. apply leads_snoc_inv in B; [|assumption].
    destruct B as (m' & L & E). apply leads_ge in L; [|exact D]. apply D in E. lia.
  - apply Forall_app in P. destruct P as (P1 & P2). inversion P2; subst. apply leads_snoc_inv in A; [|assumption].
    destruct A as (m1 & L1 & E1). destruct q as [|s' q _] using rev_ind.
    + exfalso. inversion B; subst. apply leads_ge in L1; [|exact D]. apply D in E1. lia.
    + apply Forall_app in Q. destruct Q as (Q1 & Q2). inversion Q2; subst. apply leads_snoc_inv in B; [|assumption].
      destruct B as (m2 & L2 & E2). rewrite E1 in E2. inversion E2; subst. f_equal. eapply IH; eauto.
Qed.

Lemma run_down : forall hist h, run hist = OK h -> down (ns_decls hist).
Proof. intros hist h R. apply inv_run in R. rewrite <- (i_ns _ _ R). apply (wf_down _ (i_wf _ _ R)). Qed.

Lemma key_nonempty : forall p, Forall key_ok p -> Forall (fun s => s <> []) p.
Proof. intros p H. eapply Forall_impl; [|exact H]. intros k (K & _). exact K. Qed.

Lemma param_at_inj : forall hist h path path' p, run hist = OK h -> Forall key_ok path -> Forall key_ok path' ->
  param_at hist path p -> param_at hist path' p -> path = path'.
Proof.
  intros hist h path path' p R P P' (c & s & -> & _ & m & L & ((d & E) & _)) (c' & s' & -> & _ & m' & L' & ((d' & E') & _)).
  rewrite E in E'. inversion E'; subst. apply Forall_app in P. apply Forall_app in P'. f_equal.
  eapply leads_inj; [eapply run_down; eauto| | |exact L|exact L']; apply key_nonempty; tauto.
Qed.
Lemma param_at_unique : forall hist path p q, param_at hist path p -> param_at hist path q -> p = q.
Proof.
  intros hist path p q (c & s & -> & N) (c' & s' & E & N'). apply app_inj_tail in E. destruct E as (<- & <-).
  eapply names_unique; eauto.
Qed.

Lemma url_path_of : forall k path, url (k :: path) = path_of ([] :: k :: path).
Proof.
  intros k path. cbn [path_of app]. revert k. induction path as [|k' path IH]; intro k.
  - unfold url. cbn. rewrite app_nil_r. reflexivity.
  - change (url (k :: k' :: path)) with (slash :: k ++ url (k' :: path)). rewrite IH. reflexivity.
Qed.
Lemma url_components : forall comps last, Forall key_ok (comps ++ [last]) ->
  components (url (comps ++ [last])) (([] :: comps) ++ [last]) /\ ~ In 0 (url (comps ++ [last])).
Proof.
  intros comps last F. destruct (comps ++ [last]) as [|k path] eqn:E; [destruct comps; discriminate|].
  change (([] :: comps) ++ [last]) with ([] :: (comps ++ [last])). rewrite E. split.
  - split; [apply url_path_of|]. constructor; [intros []|]. apply path_slash. exact F.
  - rewrite url_path_of. apply path_nz. constructor; [split; intros []|]. eapply Forall_impl; [|exact F]. intros x (_ & ? & ?). auto.
Qed.
Lemma names_skip : forall hist comps last p, names hist 0 ([] :: comps) last p <-> names hist 0 comps last p.
Proof.
  intros hist comps last p. unfold names. split; intros (N & m & L & E); (split; [exact N|]); exists m; (split; [|exact E]).
  - inversion L; subst; [assumption|congruence].
  - constructor. exact L.
Qed.

(** ** One request *)

Lemma assign_extreme : forall h name v h', extreme v -> assign_value h 0 name v = OK h' -> h' = h.
Proof.
  intros h name v h' X A. unfold assign_value in A. destruct (parameter_find h 0 name) as [[p|]| |]; cbn [rbind] in A; try discriminate.
  - destruct (nth_error (pars h) p) as [x|]; [|discriminate].
    destruct X as [-> | ->]; destruct (pval x); try (inversion A; reflexivity); cbn in A; inversion A; reflexivity.
  - inversion A; reflexivity.
Qed.

Lemma fits_arg : forall d v w, request_value v = Some w ->
  (fits d v <-> (~ extreme w /\ exists a, remote_arg d w = Some a)).
Proof.
  intros d v w W. split.
  - intro F. destruct F; cbn [request_value] in W; inversion W; subst.
    + split; [intros [E|E]; discriminate|]. cbn. eauto.
    + split; [intros [E|E]; inversion E; lia|]. cbn [remote_arg].
      destruct (- 2 ^ 31 <=? i) eqn:A; [|lia]. destruct (i <=? 2 ^ 31 - 1) eqn:B; [|lia]. cbn. eauto.
    + split; [intros [E|E]; discriminate|]. cbn. eauto.
  - intros (X & a & R). destruct v; cbn [request_value] in W; inversion W; subst; destruct d; cbn [remote_arg] in R; try discriminate; constructor.
    destruct (- 2 ^ 31 <=? i) eqn:A; cbn [andb] in R; [|discriminate]. destruct (i <=? 2 ^ 31 - 1) eqn:B; cbn [andb] in R; [|discriminate].
    unfold extreme in X. split.
    + destruct (Z.eq_dec i (- 2 ^ 31)) as [->|]; [exfalso; apply X; left; reflexivity|lia].
    + destruct (Z.eq_dec i (2 ^ 31 - 1)) as [->|]; [exfalso; apply X; right; reflexivity|lia].
Qed.

Lemma extreme_dec : forall v, extreme v \/ ~ extreme v.
Proof.
  intro v. unfold extreme. destruct v; try (right; intros [E|E]; discriminate).
  destruct (Z.eq_dec i (- 2 ^ 31)) as [->|]; [left; left; reflexivity|].
  destruct (Z.eq_dec i (2 ^ 31 - 1)) as [->|]; [left; right; reflexivity|]. right. intros [E|E]; inversion E; congruence.
Qed.

Definition same_decls (a b : list op) : Prop := ns_decls a = ns_decls b /\ par_decls a = par_decls b.
Lemma same_param_at : forall a b path p, same_decls a b -> param_at a path p <-> param_at b path p.
Proof. intros a b path p (N & P). unfold param_at, names. rewrite N, P. tauto. Qed.
Lemma same_ids : forall a b, same_decls a b -> ids_ok a -> ids_ok b.
Proof. intros a b (N & P). unfold ids_ok. rewrite N, P. tauto. Qed.

Lemma assign_step : forall hist h path v w h1, run hist = OK h -> ids_ok hist -> (0 < length (ns_decls hist))%nat ->
  Forall key_ok path -> path <> [] -> request_value v = Some w -> assign_value h 0 (url path) w = OK h1 ->
  exists hist1, run hist1 = OK h1 /\ same_decls hist hist1 /\
    (forall q k, (forall m id d, param_at hist path q -> nth_error (par_decls hist) q = Some (m, id, d) -> ~ fits d v) ->
       parameter_read h1 q k = parameter_read h q k) /\
    (forall p m id d, param_at hist path p -> nth_error (par_decls hist) p = Some (m, id, d) -> fits d v -> has_value h1 p v).
Proof.
  intros hist h path v w h1 R IO L K NE W A. destruct path as [|last comps _] using rev_ind; [congruence|]. clear NE.
  destruct (url_components _ _ K) as (C & Z0).
  destruct (extreme_dec w) as [X|X].
  { apply assign_extreme in A; [|exact X]. subst. exists hist. split; [exact R|]. split; [split; reflexivity|]. split; [auto|].
    intros p m id d _ _ F. apply (fits_arg d v w W) in F. tauto. }
  destruct (remote_write hist h 0 (url (comps ++ [last])) ([] :: comps) last w R IO L Z0 C X) as (RN & RW).
  assert (FE := find_exact hist h 0 (url (comps ++ [last])) ([] :: comps) last R IO L Z0 C).
  assert (DEC : (exists p, names hist 0 ([] :: comps) last p) \/ (forall p, ~ names hist 0 ([] :: comps) last p)).
  { destruct (parameter_find h 0 (url (comps ++ [last]))) as [[p|]| |]; try easy; [left; eauto|right; exact FE]. }
  assert (PA : forall p, param_at hist (comps ++ [last]) p <-> names hist 0 ([] :: comps) last p).
  { intro p. rewrite names_skip. split; [|intro N; exists comps, last; auto]. intros (c & s & E & N). apply app_inj_tail in E.
    destruct E as (<- & <-). exact N. }
  destruct DEC as [(p & N)|N].
  - assert (D : exists m id d, nth_error (par_decls hist) p = Some (m, id, d)).
    { destruct N as (_ & m & _ & ((d & E) & _)). eauto. }
    destruct D as (m & id & d & D). assert (A0 := A). rewrite (RW p m id d N D) in A. destruct (remote_arg d w) as [a|] eqn:RA.
    + exists (hist ++ [OSet p a]). assert (R1 : run (hist ++ [OSet p a]) = OK h1) by (rewrite run_snoc, R; exact A).
      assert (ND : ns_decls (hist ++ [OSet p a]) = ns_decls hist) by (rewrite ns_decls_snoc; apply app_nil_r).
      assert (PD : par_decls (hist ++ [OSet p a]) = par_decls hist) by (rewrite par_decls_snoc; apply app_nil_r).
      split; [exact R1|]. split; [split; symmetry; assumption|]. split.
      * intros q k H. destruct (Nat.eq_dec q p) as [->|Q].
        -- exfalso. apply (H m id d (proj2 (PA p) N) D). apply (fits_arg d v w W). eauto.
        -- apply (remote_read_back hist h 0 (url (comps ++ [last])) ([] :: comps) last w p m id d a h1); auto.
      * intros p' m' id' d' P' D' F. apply PA in P'. rewrite (names_unique _ _ _ _ _ _ P' N) in *. rewrite D in D'.
        inversion D'; subst. assert (LA : last_assignment (hist ++ [OSet p a]) p (OSet p a)) by (apply last_snoc; left; split; [reflexivity|constructor]).
        pose proof (fun k => read_last _ _ _ _ k R1 LA) as RL.
        destruct F; cbn [request_value] in W; inversion W; subst; cbn [remote_arg] in RA;
          try (destruct (_ && _) in RA; [|discriminate]); inversion RA; subst; cbn [has_value].
        -- rewrite RL by discriminate. reflexivity.
        -- rewrite RL by discriminate. reflexivity.
        -- rewrite RL by discriminate. reflexivity.
    + inversion A; subst. exists hist. split; [exact R|]. split; [split; reflexivity|]. split; [auto|].
      intros p' m' id' d' P' D' F. apply PA in P'. rewrite (names_unique _ _ _ _ _ _ P' N) in *. rewrite D in D'.
      inversion D'; subst. apply (fits_arg d' v w W) in F. destruct F as (_ & a & F). congruence.
  - rewrite (RN N) in A. inversion A; subst. exists hist. split; [exact R|]. split; [split; reflexivity|]. split; [auto|].
    intros p m id d P. apply PA in P. apply N in P. destruct P.
Qed.
