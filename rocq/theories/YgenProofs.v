From Coq Require Import ZArith List Bool Arith Lia.
From Verif Require Import CBase Buf CmpModel CmpSpec ParamModel ParamSpec ParamProofs YgenModel YgenSpec.
Import ListNotations.
Local Open Scope Z_scope.

Lemma yaml_rect' (P : yaml -> Prop) : (forall l, Forall (fun kv => P (snd kv)) l -> P (YMap l)) ->
  (forall b, P (YBool b)) -> (forall i, P (YInt i)) -> (forall x, P (YFloat x)) -> (forall s, P (YStr s)) -> P YOther ->
  forall y, P y.
Proof.
  intros M B I F S O. fix IH 1. intros [l|b|i|x|s|]; [|apply B|apply I|apply F|apply S|exact O].
  apply M. induction l as [|kv l IHl]; constructor; [apply IH|exact IHl].
Qed.

(** The calls, the paths of the namespaces, and the paths and values of the parameters for the members [l] of
    namespace [m], whose path is [base]. *)
Inductive emit : list str -> nat -> list (str * yaml) -> nat -> list op -> list (list str) -> list (list str * yaml) -> nat -> Prop :=
| em_nil base m n : emit base m [] n [] [] [] n
| em_leaf base m k v d r n ops bs ls n' : declare_of v = Some d -> emit base m r n ops bs ls n' ->
    emit base m ((k, v) :: r) n (ODecl m k d :: ops) bs ((base ++ [k], v) :: ls) n'
| em_map base m k l r n a ba la n1 b bb lb n2 : emit (base ++ [k]) n l (S n) a ba la n1 -> emit base m r n1 b bb lb n2 ->
    emit base m ((k, YMap l) :: r) n (ODeclNs (Some m) k :: a ++ b) ((base ++ [k]) :: ba ++ bb) (la ++ lb) n2.

(** ** The generator *)
Definition child (kv : str * yaml) : tree :=
  match snd kv with YMap _ => parse_tree (fst kv) (snd kv) | _ => TParam (fst kv) (snd kv) end.

Definition step_depth level (kv : str * yaml) : nat := match depth (snd kv) (S level) with None => level | Some d => d end.

Lemma depth_map l level : l <> [] -> depth (YMap l) level = Some (fold_right Nat.max O (map (step_depth level) l)).
Proof. destruct l; [easy|]. reflexivity. Qed.

Lemma max_ge l x : In x l -> (x <= fold_right Nat.max O l)%nat.
Proof. induction l; cbn; [easy|]. intros [->|H]; [lia|]. specialize (IHl H). lia. Qed.
Lemma max_le l b : (forall x, In x l -> (x <= b)%nat) -> (fold_right Nat.max O l <= b)%nat.
Proof. induction l; cbn; intro H; [lia|]. pose proof (H a (or_introl eq_refl)). specialize (IHl (fun x K => H x (or_intror K))). lia. Qed.

Lemma depth_good : forall y, good y -> forall level, match depth y level with
  | Some d => is_map y /\ (level <= d)%nat /\ (forall l, y = YMap l -> (level < d)%nat <-> exists kv, In kv l /\ is_map (snd kv))
  | None => ~ is_map y end.
Proof.
  induction y using yaml_rect'; intros G level; try (cbn; tauto). rename H into IH.
  inversion G as [| | | |? Ne ND F]; subst. rewrite depth_map by auto. split; [exact I|].
  assert (Lo : forall kv, In kv l -> (level <= step_depth level kv)%nat /\ (is_map (snd kv) <-> (level < step_depth level kv)%nat)).
  { intros kv Hk. rewrite Forall_forall in IH, F. destruct (F kv Hk) as [_ Gk]. specialize (IH kv Hk Gk (S level)).
    unfold step_depth. destruct (depth (snd kv) (S level)).
    - destruct IH as (A & B & _). split; [lia|]. split; [lia|auto].
    - split; [lia|]. split; [easy|lia]. }
  split.
  - destruct l as [|kv l]; [easy|]. destruct (Lo kv (or_introl eq_refl)) as [A _].
    pose proof (max_ge (map (step_depth level) (kv :: l)) (step_depth level kv) (or_introl eq_refl)). lia.
  - intros l' E. injection E as <-. split.
    + intro H. destruct (Exists_dec (fun kv => is_map (snd kv)) l) as [X|X].
      { intros [k []]; cbn; auto. }
      * apply Exists_exists in X as (kv & A & B). eauto.
      * exfalso. pose proof (max_le (map (step_depth level) l) level) as Q. apply (Nat.lt_irrefl level).
        eapply Nat.lt_le_trans; [exact H|]. apply Q. intros x Hx. apply in_map_iff in Hx as (kv & <- & Hk). destruct (Lo kv Hk) as [_ B].
        destruct (Nat.le_gt_cases (step_depth level kv) level); [auto|]. exfalso. apply X, Exists_exists. exists kv. split; [auto|]. now apply B.
    + intros (kv & A & B). apply Lo in B; [|auto]. eapply Nat.lt_le_trans; [exact B|]. apply max_ge. now apply in_map.
Qed.

Lemma parse_map name l : good (YMap l) -> parse_tree name (YMap l) = TNs name (Some (map child l)).
Proof.
  intro G. pose proof (depth_good _ G 1) as D. cbn [parse_tree]. destruct (depth (YMap l) 1) as [d|]; [|now exfalso; apply D].
  destruct D as (_ & Ge & Ex). specialize (Ex l eq_refl). destruct d as [|[|d]]; [lia| |reflexivity].
  f_equal. f_equal. apply map_ext_in. intros [k v] H. unfold child. cbn [fst snd]. destruct v; try reflexivity.
  exfalso. assert (1 < 1)%nat; [|lia]. apply Ex. exists (k, YMap l0). split; [auto|exact I].
Qed.

Lemma gather_cons f t l n : gather f (t :: l) n =
  match f t n with None => None | Some (a, n) => match gather f l n with None => None | Some (b, n) => Some (a ++ b, n) end end.
Proof. reflexivity. Qed.

Lemma generated : forall y, good y -> forall l, y = YMap l -> forall name parent base n, exists a ba la n1,
  init_code parent (parse_tree name y) n =
    Some (ODeclNs parent (match parent with None => [] | Some _ => name end) :: a, n1) /\
  emit base n l (S n) a ba la n1.
Proof.
  induction y using yaml_rect'; intros G l0 E; try discriminate. injection E as ->. rename l0 into l. rename H into IH.
  intros name parent base n. rewrite parse_map by auto. cbn [init_code].
  inversion G as [| | | |? _ _ F]; subst. clear G.
  assert (X : forall c, exists a ba la n1, gather (init_code (Some n)) (map child l) c = Some (a, n1) /\ emit base n l c a ba la n1).
  { clear parent. induction l as [|[k v] l IHl]; intro c.
    - eexists _, _, _, _. split; [reflexivity|constructor].
    - inversion IH as [|? ? Hv IH']; subst. inversion F as [|? ? [_ Gv] F']; subst. cbn [snd fst] in *.
      cbn [map]. rewrite gather_cons. unfold child at 1. cbn [fst snd].
      destruct v as [l'|b|i|x|s|].
      + destruct (Hv Gv l' eq_refl k (Some n) (base ++ [k]) c) as (a & ba & la & n1 & E1 & E2). rewrite E1.
        destruct (IHl IH' F' n1) as (b & bb & lb & n2 & E3 & E4). rewrite E3.
        eexists _, _, _, _. split; [reflexivity|]. apply em_map with n1; eauto.
      + destruct (IHl IH' F' c) as (b' & bb & lb & n2 & E3 & E4). cbn [init_code declare_of]. rewrite E3.
        eexists _, _, _, _. split; [reflexivity|]. apply em_leaf; eauto.
      + destruct (IHl IH' F' c) as (b' & bb & lb & n2 & E3 & E4). cbn [init_code declare_of]. rewrite E3.
        eexists _, _, _, _. split; [reflexivity|]. apply em_leaf; eauto.
      + destruct (IHl IH' F' c) as (b' & bb & lb & n2 & E3 & E4). cbn [init_code declare_of]. rewrite E3.
        eexists _, _, _, _. split; [reflexivity|]. apply em_leaf; eauto.
      + destruct (IHl IH' F' c) as (b' & bb & lb & n2 & E3 & E4). cbn [init_code declare_of]. rewrite E3.
        eexists _, _, _, _. split; [reflexivity|]. apply em_leaf; eauto.
      + inversion Gv. }
  destruct (X (S n)) as (a & ba & la & n1 & E1 & E2). exists a, ba, la, n1. now rewrite E1.
Qed.

(** ** The calls *)
Lemma ns_decls_app a b : ns_decls (a ++ b) = ns_decls a ++ ns_decls b.
Proof. apply flat_map_app. Qed.
Lemma par_decls_app a b : par_decls (a ++ b) = par_decls a ++ par_decls b.
Proof. apply flat_map_app. Qed.

Lemma emit_count base m l n ops bs ls n' : emit base m l n ops bs ls n' ->
  n' = (n + length bs)%nat /\ length (ns_decls ops) = length bs /\ length (par_decls ops) = length ls.
Proof.
  induction 1; [cbn; lia| |].
  - destruct IHemit as (A & B & C). cbn [ns_decls par_decls flat_map app length]. fold (ns_decls ops). fold (par_decls ops). lia.
  - destruct IHemit1 as (A & B & C), IHemit2 as (A' & B' & C').
    change (ns_decls (ODeclNs (Some m) k :: a ++ b)) with ((Some m, k) :: ns_decls (a ++ b)).
    change (par_decls (ODeclNs (Some m) k :: a ++ b)) with (par_decls (a ++ b)).
    rewrite ns_decls_app, par_decls_app. cbn [length]. rewrite !app_length. lia.
Qed.

Definition runs (r : res heap) (ops : list op) : res heap := fold_left (fun r o => try h := r in run_op h o) ops r.
Lemma runs_app r a b : runs r (a ++ b) = runs (runs r a) b.
Proof. apply fold_left_app. Qed.
Lemma run_app a b : run (a ++ b) = runs (run a) b.
Proof. apply fold_left_app. Qed.

Lemma decl_none v d : declare_of v = Some d -> exists x, decl_value d = OK (x, false).
Proof. destruct v; cbn; intro H; inversion H; subst; cbn; eauto. Qed.

Lemma emit_runs base m l n ops bs ls n' : emit base m l n ops bs ls n' -> forall h, length (nss h) = n -> (m < n)%nat ->
  exists h', runs (OK h) ops = OK h' /\ length (nss h') = n'.
Proof.
  induction 1 as [|? ? ? ? ? ? ? ? ? ? ? D E IH|? ? ? ? ? ? ? ? ? ? ? ? ? ? E1 IH1 E2 IH2]; intros h L Hm.
  - exists h. now split.
  - destruct (decl_none _ _ D) as [x Ex]. unfold runs. cbn [fold_left]. cbn [rbind run_op]. unfold parameter_declare. rewrite Ex.
    cbn [rbind]. unfold declare. rewrite L. destruct (Nat.ltb_spec m n); [|lia]. cbn [rbind].
    apply IH; [|auto]. cbn [nss]. now rewrite upd_length.
  - unfold runs. cbn [fold_left rbind run_op]. unfold namespace_declare. rewrite L. destruct (Nat.ltb_spec m n); [|lia].
    fold (runs (OK (mkheap (upd (nss h) m (fun x => mkns (nid x) (ncnt x) (nparent x) (n :: nsubs x) (nparams x)) ++ [mkns k 0 (Some m) [] []]) (pars h))) (a ++ b)).
    rewrite runs_app. destruct (IH1 (mkheap (upd (nss h) m (fun x => mkns (nid x) (ncnt x) (nparent x) (n :: nsubs x) (nparams x)) ++ [mkns k 0 (Some m) [] []]) (pars h))) as (h1 & R1 & L1).
    { cbn [nss]. rewrite app_length, upd_length. cbn. lia. } { lia. }
    rewrite R1. apply IH2; [auto|]. pose proof (emit_count _ _ _ _ _ _ _ _ E1) as (C & _). lia.
Qed.

(** Paths are consistent with the parents. *)
Definition ns_at (T : list (list str)) (d : option nat * str) (path : list str) : Prop :=
  exists m k p0, d = (Some m, k) /\ nth_error T m = Some p0 /\ path = p0 ++ [k].
Definition par_at (T : list (list str)) (d : nat * str * decl) (e : list str * yaml) : Prop :=
  exists m k p0 d', d = (m, k, d') /\ nth_error T m = Some p0 /\ fst e = p0 ++ [k] /\ declare_of (snd e) = Some d'.

Lemma emit_paths base m l n ops bs ls n' : emit base m l n ops bs ls n' -> forall T0 X, length T0 = n -> nth_error T0 m = Some base ->
  Forall2 (ns_at (T0 ++ bs ++ X)) (ns_decls ops) bs /\ Forall2 (par_at (T0 ++ bs ++ X)) (par_decls ops) ls.
Proof.
  induction 1 as [|? ? ? ? ? ? ? ? ? ? ? D E IH|? ? ? ? ? ? ? ? ? ? ? ? ? ? E1 IH1 E2 IH2]; intros T0 X L Hm.
  - split; constructor.
  - destruct (IH T0 X L Hm) as [A B]. split; [exact A|].
    change (par_decls (ODecl m k d :: ops)) with ((m, k, d) :: par_decls ops). constructor; [|exact B].
    exists m, k, base, d. split; [reflexivity|]. split; [|now split]. now rewrite nth_error_app1 by (apply nth_error_Some; congruence).
  - change (ns_decls (ODeclNs (Some m) k :: a ++ b)) with ((Some m, k) :: ns_decls (a ++ b)).
    change (par_decls (ODeclNs (Some m) k :: a ++ b)) with (par_decls (a ++ b)).
    rewrite ns_decls_app, par_decls_app.
    destruct (IH1 (T0 ++ [base ++ [k]]) (bb ++ X)) as [A B].
    { rewrite app_length. cbn. lia. } { rewrite nth_error_app2 by lia. now rewrite L, Nat.sub_diag. }
    pose proof (emit_count _ _ _ _ _ _ _ _ E1) as (C & _).
    destruct (IH2 (T0 ++ [base ++ [k]] ++ ba) X) as [A' B'].
    { rewrite !app_length. cbn. lia. } { now rewrite nth_error_app1 by (apply nth_error_Some; congruence). }
    assert (Q1 : T0 ++ ((base ++ [k]) :: ba ++ bb) ++ X = (T0 ++ [base ++ [k]]) ++ ba ++ bb ++ X) by (rewrite <- !app_assoc; cbn; now rewrite <- app_assoc).
    assert (Q2 : T0 ++ ((base ++ [k]) :: ba ++ bb) ++ X = (T0 ++ [base ++ [k]] ++ ba) ++ bb ++ X) by (rewrite <- !app_assoc; cbn; now rewrite <- app_assoc).
    split.
    + constructor.
      * exists m, k, base. split; [reflexivity|]. split; [|reflexivity]. now rewrite nth_error_app1 by (apply nth_error_Some; congruence).
      * apply Forall2_app; [rewrite Q1; exact A|rewrite Q2; exact A'].
    + apply Forall2_app; [rewrite Q1; exact B|rewrite Q2; exact B'].
Qed.

(** The values are the entries of the file. *)
Lemma entry_cons k v r path x : entry (YMap ((k, v) :: r)) path x <->
  (path = [k] /\ v = x /\ ~ is_map x) \/ (exists p, path = k :: p /\ entry v p x) \/ entry (YMap r) path x.
Proof.
  split.
  - intro H. inversion H as [l0 k0 v0 Hin N E1 E2 E3|l0 k0 y0 p0 v0 Hin En E1 E2 E3]; subst; destruct Hin as [E|I].
    + injection E as -> ->. auto.
    + right. right. now constructor.
    + injection E as -> ->. right. left. eauto.
    + right. right. econstructor; eauto.
  - intros [(-> & -> & N)|[(p & -> & En)|H]].
    + constructor; [now left|auto].
    + econstructor; [now left|auto].
    + inversion H; subst; [constructor; [now right|auto]|eapply entry_in; [right; eassumption|assumption]].
Qed.
Lemma no_entry path x : ~ entry (YMap []) path x.
Proof. intro H. inversion H; contradiction. Qed.

Lemma emit_entries base m l n ops bs ls n' : emit base m l n ops bs ls n' -> forall path v,
  In (path, v) ls <-> exists p, path = base ++ p /\ entry (YMap l) p v.
Proof.
  induction 1 as [|? ? ? ? ? ? ? ? ? ? ? D E IH|? ? ? ? ? ? ? ? ? ? ? ? ? ? E1 IH1 E2 IH2]; intros path x.
  - split; [easy|]. intros (p & _ & H). now apply no_entry in H.
  - cbn [In]. rewrite IH. assert (NM : ~ is_map v) by (destruct v; cbn; try easy; discriminate). split.
    + intros [E0|(p & -> & H)].
      * injection E0 as <- <-. exists [k]. split; [reflexivity|]. apply entry_cons. left. auto.
      * exists p. split; [reflexivity|]. apply entry_cons. auto.
    + intros (p & -> & H). apply entry_cons in H as [(-> & -> & _)|[(p' & -> & H)|H]].
      * now left. * inversion H; subst; now exfalso; apply NM. * right. eauto.
  - rewrite in_app_iff, IH1, IH2. split.
    + intros [(p & -> & H)|(p & -> & H)].
      * exists (k :: p). rewrite <- app_assoc. split; [reflexivity|]. apply entry_cons. right. left. eauto.
      * exists p. split; [reflexivity|]. apply entry_cons. auto.
    + intros (p & -> & H). apply entry_cons in H as [(-> & <- & NM)|[(p' & -> & H)|H]].
      * now exfalso; apply NM.
      * left. exists p'. rewrite <- app_assoc. auto.
      * right. eauto.
Qed.

Lemma emit_under base m l n ops bs ls n' : emit base m l n ops bs ls n' -> forall path, In path bs \/ In path (map fst ls) ->
  exists k p, In k (map fst l) /\ path = base ++ k :: p.
Proof.
  induction 1 as [|? ? ? ? ? ? ? ? ? ? ? D E IH|? ? ? ? ? ? ? ? ? ? ? ? ? ? E1 IH1 E2 IH2]; intros path H.
  - cbn in H. tauto.
  - cbn [map fst In] in *. assert (X : path = base ++ [k] \/ (In path bs \/ In path (map fst ls))) by (destruct H as [H|[H|H]]; auto).
    destruct X as [->|X]; [exists k, []; auto|]. destruct (IH path X) as (k' & p & A & B). eauto.
  - cbn [map fst In] in *. rewrite map_app, !in_app_iff in H.
    assert (X : path = base ++ [k] \/ (In path ba \/ In path (map fst la)) \/ (In path bb \/ In path (map fst lb))) by (destruct H as [[H|[H|H]]|[H|H]]; auto).
    destruct X as [->|[X|X]].
    + exists k, []. auto.
    + destruct (IH1 path X) as (k' & p & A & ->). exists k, (k' :: p). rewrite <- app_assoc. auto.
    + destruct (IH2 path X) as (k' & p & A & B). eauto.
Qed.

Definition good_items (l : list (str * yaml)) : Prop := NoDup (map fst l) /\ Forall (fun kv => good_key (fst kv) /\ good (snd kv)) l.

Lemma nodup_app A (a b : list A) : NoDup a -> NoDup b -> (forall x, In x a -> ~ In x b) -> NoDup (a ++ b).
Proof.
  induction a; cbn; auto. intros N1 N2 D. inversion N1; subst. constructor.
  - rewrite in_app_iff. intros [H|H]; [auto|]. eapply D; eauto.
  - apply IHa; auto.
Qed.

Lemma emit_nodup base m l n ops bs ls n' : emit base m l n ops bs ls n' -> good_items l -> NoDup bs /\ NoDup (map fst ls).
Proof.
  induction 1 as [|? ? ? ? ? ? ? ? ? ? ? D E IH|? ? ? ? ? ? ? ? ? ? ? ? ? ? E1 IH1 E2 IH2]; intros [ND F].
  - split; constructor.
  - inversion ND; subst. inversion F; subst. destruct IH as [A B]; [now split|]. split; [exact A|]. cbn [map fst]. constructor; [|exact B].
    intro H. destruct (emit_under _ _ _ _ _ _ _ _ E (base ++ [k])) as (k' & p & K & Q); [auto|].
    apply app_inv_head in Q. injection Q as <- _. contradiction.
  - inversion ND; subst. inversion F as [|? ? [_ G] F']; subst. cbn [snd] in G. destruct IH2 as [A B]; [now split|].
    destruct IH1 as [A1 B1]. { inversion G; subst. now split. }
    assert (Dis : forall path, (In path ba \/ In path (map fst la)) -> (In path bb \/ In path (map fst lb)) -> False).
    { intros path P1 P2. destruct (emit_under _ _ _ _ _ _ _ _ E1 _ P1) as (k1 & p1 & _ & ->).
      destruct (emit_under _ _ _ _ _ _ _ _ E2 _ P2) as (k2 & p2 & K2 & Q). rewrite <- app_assoc in Q. apply app_inv_head in Q.
      injection Q as <- _. contradiction. }
    rewrite map_app. split.
    + constructor.
      * rewrite in_app_iff. intros [I|I].
        -- destruct (emit_under _ _ _ _ _ _ _ _ E1 _ (or_introl I)) as (k1 & p1 & _ & Q). rewrite <- app_assoc in Q.
           apply app_inv_head in Q. injection Q as Q. discriminate.
        -- destruct (emit_under _ _ _ _ _ _ _ _ E2 _ (or_introl I)) as (k1 & p1 & K1 & Q). apply app_inv_head in Q. injection Q as <- _. contradiction.
      * apply nodup_app; auto. intros x P1 P2. apply (Dis x); auto.
    + apply nodup_app; auto. intros x P1 P2. apply (Dis x); auto.
Qed.

Lemma emit_keys base m l n ops bs ls n' : emit base m l n ops bs ls n' -> good_items l ->
  Forall (fun d => good_key (snd d)) (ns_decls ops) /\ Forall (fun d => good_key (snd (fst d))) (par_decls ops).
Proof.
  induction 1 as [|? ? ? ? ? ? ? ? ? ? ? D E IH|? ? ? ? ? ? ? ? ? ? ? ? ? ? E1 IH1 E2 IH2]; intros [ND F].
  - split; constructor.
  - inversion ND; subst. inversion F as [|? ? [G _] F']; subst. destruct IH as [A B]; [now split|]. split; [exact A|]. constructor; auto.
  - inversion ND; subst. inversion F as [|? ? [Gk G] F']; subst. cbn [fst snd] in *. destruct IH2 as [A B]; [now split|].
    destruct IH1 as [A1 B1]. { inversion G; subst. now split. }
    change (ns_decls (ODeclNs (Some m) k :: a ++ b)) with ((Some m, k) :: ns_decls (a ++ b)).
    change (par_decls (ODeclNs (Some m) k :: a ++ b)) with (par_decls (a ++ b)).
    rewrite ns_decls_app, par_decls_app. split; [constructor; [exact Gk|]|]; apply Forall_app; auto.
Qed.

Lemma emit_no_sets base m l n ops bs ls n' : emit base m l n ops bs ls n' -> Forall (fun o => match o with ODeclNs _ _ => True | ODecl _ _ d => has_default d = false | _ => False end) ops.
Proof.
  induction 1 as [|? ? ? ? ? ? ? ? ? ? ? D E IH|? ? ? ? ? ? ? ? ? ? ? ? ? ? E1 IH1 E2 IH2]; [constructor| |].
  - constructor; [|exact IH]. destruct v; cbn in D; inversion D; subst; reflexivity.
  - constructor; [exact I|]. now apply Forall_app.
Qed.
