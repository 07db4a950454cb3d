(** Proofs for the message bus. *)
From Coq Require Import ZArith List Bool Arith Lia.
From Verif Require Import CBase BusModel BusSpec.
Import ListNotations.
Local Open Scope Z_scope.

(** ** Lists *)
Lemma upd_length A (l : list A) i x : length (upd l i x) = length l.
Proof. revert i. induction l; intros [|i]; cbn; auto. Qed.
Lemma upd_nth A (l : list A) i j x : nth_error (upd l i x) j =
  if (j =? i)%nat then match nth_error l j with Some _ => Some x | None => None end else nth_error l j.
Proof.
  revert i j. induction l as [|a l IH]; intros i j; cbn; [destruct j, i; cbn; try reflexivity; now destruct (j =? i)%nat|].
  destruct i, j; cbn; try reflexivity. apply IH.
Qed.
Lemma upd_same A (l : list A) i x y : nth_error l i = Some y -> nth_error (upd l i x) i = Some x.
Proof. intro H. rewrite upd_nth, Nat.eqb_refl, H. reflexivity. Qed.
Lemma upd_other A (l : list A) i j x : j <> i -> nth_error (upd l i x) j = nth_error l j.
Proof. intro H. rewrite upd_nth. now destruct (Nat.eqb_spec j i). Qed.

(** Threads after thread [i] moved to [p'] and the others were woken up by [w]. *)
Lemma thr_upd (l : list pc) i p (w : pc -> pc) p' j q' : nth_error l i = Some p -> nth_error (upd (map w l) i p') j = Some q' ->
  (j = i /\ q' = p') \/ (j <> i /\ exists q, nth_error l j = Some q /\ q' = w q).
Proof.
  intros H. rewrite upd_nth, nth_error_map. destruct (Nat.eqb_spec j i).
  - subst. rewrite H. cbn. intro E; inversion E. auto.
  - destruct (nth_error l j) as [q|]; cbn; intro E; inversion E. right. eauto.
Qed.
Lemma upd_id (l : list pc) i p' : upd l i p' = upd (map (fun q => q) l) i p'.
Proof. now rewrite map_id. Qed.

Lemma lock_eqb_eq a b : lock_eqb a b = true <-> a = b.
Proof.
  destruct a, b; cbn; try rewrite Nat.eqb_eq; split; intro H; try discriminate; try congruence; inversion H; auto.
Qed.
Lemma locked_false l ths : locked l ths = false <-> forall i p, nth_error ths i = Some p -> ~ In l (held p).
Proof.
  unfold locked. split.
  - intros H i p E I. apply nth_error_In in E. assert (X : existsb (fun p => existsb (lock_eqb l) (held p)) ths = true); [|congruence].
    apply existsb_exists. exists p. split; auto. apply existsb_exists. exists l. split; auto. now apply lock_eqb_eq.
  - intro H. destruct (existsb _ ths) eqn:E; [|reflexivity]. apply existsb_exists in E as (p & I & E).
    apply existsb_exists in E as (l' & I' & E). apply lock_eqb_eq in E. subst. apply In_nth_error in I as [i I]. now apply H in I.
Qed.
Lemma locked_true l ths : locked l ths = true <-> exists i p, nth_error ths i = Some p /\ In l (held p).
Proof.
  unfold locked. rewrite existsb_exists. split.
  - intros (p & I & E). apply existsb_exists in E as (l' & I' & E). apply lock_eqb_eq in E. subst. apply In_nth_error in I as [i I]. eauto.
  - intros (i & p & E & I). exists p. split; [now apply nth_error_In in E|]. apply existsb_exists. exists l. split; auto. now apply lock_eqb_eq.
Qed.

(** ** History *)
Lemma pubs_app a b t : pubs (a ++ b) t = pubs a t ++ pubs b t.
Proof. unfold pubs. apply flat_map_app. Qed.
Lemma contents_app bufs a b t : contents bufs (a ++ b) t = fold_left overlay (pubs b t) (contents bufs a t).
Proof. unfold contents. now rewrite pubs_app, fold_left_app. Qed.
Lemma overlay_length old m : (length m <= length old)%nat -> length (overlay old m) = length old.
Proof. intro. unfold overlay. rewrite app_length, skipn_length. lia. Qed.

Definition not_pub (e : event) (t : nat) : Prop := forall j m, e <> EPub j t m.
Lemma pubs_not e t : not_pub e t -> pubs [e] t = [].
Proof. intro H. destruct e; try reflexivity. cbn. destruct (Nat.eqb_spec t0 t); [|reflexivity]. subst. now destruct (H i msg). Qed.
Lemma contents_not bufs a e t : not_pub e t -> contents bufs (a ++ [e]) t = contents bufs a t.
Proof. intro. rewrite contents_app, pubs_not by auto. reflexivity. Qed.
Lemma pubs_snoc_not a e t : not_pub e t -> pubs (a ++ [e]) t = pubs a t.
Proof. intro. rewrite pubs_app, pubs_not by auto. apply app_nil_r. Qed.

Lemma since_snoc h i o c e : since_call h i o c -> (forall o', e <> ECall i o') -> since_call (h ++ [e]) i o (c ++ [e]).
Proof.
  intros (a & -> & N) H. exists a. split; [now rewrite <- app_assoc|]. intros o' I. apply in_app_iff in I as [I|[I|[]]]; [now apply N in I|].
  now apply H in I.
Qed.

Section Inv.
Variables (bufs : list (list Z)) (ng : nat).

Definition inside (h : list event) (i : nat) (o : op) : Prop := legal_op bufs ng o /\ exists c, since_call h i o c.
Definition notified (h : list event) (i t : nat) (ws : list nat) : Prop :=
  exists msg a c1 c2, published_by h i t msg a c1 c2 /\ forall g, In (EWatch g t) (a ++ c1) -> In g ws \/ In (ENotify g t) c2.
Definition called_back (h : list event) (i t : nat) (cs : list nat) : Prop :=
  exists name a c1 c2, advertised_by h i t name a c1 c2 /\ forall c, In (EReg c) (a ++ c1) -> In c cs \/ In (ECallback c t) c2.
Definition blocked (h : list event) (i : nat) (P : event -> Prop) : Prop :=
  exists a b, h = a ++ EBlock i :: b /\ forall e, In e b -> ~ P e.
Definition is_pub (t : nat) (e : event) : Prop := exists j m, e = EPub j t m.
Definition is_note (g : nat) (e : event) : Prop := exists t, e = ENotify g t.

(** What is true of thread [i] at [p]. *)
Definition T (h : list event) (i : nat) (p : pc) : Prop :=
  match p with
  | Idle => True
  | PubAcq t msg => inside h i (OPublish t msg) /\ (length msg <= length (nth t bufs []))%nat
  | PubCopy t msg k => inside h i (OPublish t msg) /\ (length msg <= length (nth t bufs []))%nat /\ (k <= length msg)%nat
  | PubWatch t ws => notified h i t ws
  | PubGroup t g ws => notified h i t (g :: ws)
  | ReadAcq t len | ReadTest t len => inside h i (ORead t len)
  | ReadCopy false t len out => inside h i (ORead t len) /\ pubs h t <> [] /\ (length out <= len)%nat /\
      out = firstn (length out) (contents bufs h t)
  | ReadCopy true t len out => inside h i (OWait t len) /\ (exists c, since_call h i (OWait t len) c /\ pubs c t <> []) /\
      (length out <= len)%nat /\ out = firstn (length out) (contents bufs h t)
  | ReadRel t len res => inside h i (ORead t len) /\
      res = match pubs h t with [] => None | _ => Some (firstn len (contents bufs h t)) end
  | WaitAcq t len | WaitHold t len => inside h i (OWait t len)
  | WaitBlk t len => inside h i (OWait t len) /\ blocked h i (is_pub t)
  | WaitRe t len => inside h i (OWait t len) /\ exists c, since_call h i (OWait t len) c /\ pubs c t <> []
  | WatchAcq g t | WatchAcq2 g t | WatchIn g t => inside h i (OWatch g t)
  | GwAcq g | GwHold g => inside h i (OGroupWait g)
  | GwBlk g => inside h i (OGroupWait g) /\ blocked h i (is_note g)
  | GwRe g | GwIn g => inside h i (OGroupWait g) /\ exists c, since_call h i (OGroupWait g) c /\ exists t, In (ENotify g t) c
  | AdvName t name | AdvAcq t name | AdvLink t name => inside h i (OAdvertise t name)
  | AdvCb t cs => called_back h i t cs
  | FindAcq b name | FindIn b name => inside h i (if b : bool then OFindBlocking name else OFind name)
  | FindBlk name | FindRe name => inside h i (OFindBlocking name)
  | RegAcq c | RegIn c => True
  | StatAcq t | StatIn t => inside h i (OStats t)
  end.

Lemma inside_snoc h i o e : inside h i o -> (forall o', e <> ECall i o') -> inside (h ++ [e]) i o.
Proof. intros [L [c S]] N. split; [auto|]. eexists. eapply since_snoc; eauto. Qed.
Lemma notified_snoc h i t ws e : notified h i t ws -> (forall o', e <> ECall i o') -> notified (h ++ [e]) i t ws.
Proof.
  intros (msg & a & c1 & c2 & [-> N] & W) E. exists msg, a, c1, (c2 ++ [e]). split; [split|].
  - now rewrite <- !app_assoc; cbn; rewrite <- app_assoc.
  - intros o I. rewrite app_assoc in I. apply in_app_iff in I as [I|[I|[]]]; [now apply N in I|now apply E in I].
  - intros g I. destruct (W g I); auto. right. apply in_app_iff. auto.
Qed.
Lemma called_snoc h i t ws e : called_back h i t ws -> (forall o', e <> ECall i o') -> called_back (h ++ [e]) i t ws.
Proof.
  intros (msg & a & c1 & c2 & [-> N] & W) E. exists msg, a, c1, (c2 ++ [e]). split; [split|].
  - now rewrite <- !app_assoc; cbn; rewrite <- app_assoc.
  - intros o I. rewrite app_assoc in I. apply in_app_iff in I as [I|[I|[]]]; [now apply N in I|now apply E in I].
  - intros g I. destruct (W g I); auto. right. apply in_app_iff. auto.
Qed.
Lemma blocked_snoc h i P e : blocked h i P -> ~ P e -> blocked (h ++ [e]) i P.
Proof.
  intros (a & b & -> & H) N. exists a, (b ++ [e]). split; [now rewrite <- app_assoc|]. intros e' I.
  apply in_app_iff in I as [I|[<-|[]]]; auto.
Qed.

(** An event of another thread that does not concern [p]. *)
Lemma T_frame h i p e : (forall o, e <> ECall i o) ->
  (forall t, is_pub t e -> ~ In (LTopic t) (held p) /\ forall len, p <> WaitBlk t len) ->
  (forall g, is_note g e -> p <> GwBlk g) -> T h i p -> T (h ++ [e]) i p.
Proof.
  intros NC NP NG H.
  assert (NPT : forall t, In (LTopic t) (held p) -> not_pub e t).
  { intros t I j m ->. destruct (NP t); [exists j, m; auto|]. auto. }
  assert (IS : forall o, inside h i o -> inside (h ++ [e]) i o) by (intros; apply inside_snoc; auto).
  destruct p; cbn [T held] in *; auto;
    try (now apply notified_snoc); try (now apply called_snoc);
    try (destruct H; split; auto; fail).
  - (* ReadCopy *) destruct wait.
    + destruct H as (A & (c & S & P) & L & O). rewrite contents_not by (apply NPT; cbn; auto). split; [now apply IS|]. split; [|auto].
      exists (c ++ [e]). split; [apply since_snoc; auto|]. rewrite pubs_app. intro X. apply app_eq_nil in X. tauto.
    + destruct H as (A & P & L & O). rewrite contents_not, pubs_snoc_not by (apply NPT; cbn; auto). auto.
  - destruct H as [A B]. split; [auto|]. rewrite contents_not, pubs_snoc_not by (apply NPT; cbn; auto). auto.
  - destruct H as [A B]. split; [auto|]. apply blocked_snoc; [auto|]. intro P. now destruct (NP _ P) as [_ X]; destruct (X len).
  - destruct H as (A & c & S & P). split; [auto|]. exists (c ++ [e]). split; [apply since_snoc; auto|]. rewrite pubs_app. intro X. apply app_eq_nil in X. tauto.
  - destruct H as [A B]. split; [auto|]. apply blocked_snoc; [auto|]. intro P. now destruct (NG _ P).
  - destruct H as (A & c & S & t & P). split; [auto|]. exists (c ++ [e]). split; [apply since_snoc; auto|]. exists t. apply in_app_iff. auto.
  - destruct H as (A & c & S & t & P). split; [auto|]. exists (c ++ [e]). split; [apply since_snoc; auto|]. exists t. apply in_app_iff. auto.
Qed.

Lemma T_wake_topic h i j t m p : j <> i -> ~ In (LTopic t) (held p) -> T h i p -> T (h ++ [EPub j t m]) i (wake_topic t p).
Proof.
  intros J NH H. destruct p; try (apply T_frame; [discriminate|intros t' (j' & m' & E); inversion E; subst; split; [exact NH|discriminate]|intros ? [? ?]; discriminate|exact H]).
  cbn [wake_topic]. destruct (Nat.eqb_spec t0 t).
  - subst. destruct H as [[A [c S]] _]. cbn [T]. split; [apply inside_snoc; [split; eauto|discriminate]|].
    exists (c ++ [EPub j t m]). split; [apply since_snoc; auto; discriminate|]. rewrite pubs_app. cbn. rewrite Nat.eqb_refl.
    intro X. apply app_eq_nil in X. now destruct X.
  - apply T_frame; [discriminate| |intros ? [? ?]; discriminate|exact H]. intros t' (j' & m' & E); inversion E; subst. split; [easy|]. intros ? X; inversion X; congruence.
Qed.
Lemma T_wake_group h i g t p : T h i p -> T (h ++ [ENotify g t]) i (wake_group g p).
Proof.
  intros H. destruct p; try (apply T_frame; [discriminate|intros ? (? & ? & ?); discriminate|discriminate|exact H]).
  cbn [wake_group]. destruct (Nat.eqb_spec g0 g).
  - subst. destruct H as [[A [c S]] _]. cbn [T]. split; [apply inside_snoc; [split; eauto|discriminate]|].
    exists (c ++ [ENotify g t]). split; [apply since_snoc; auto; discriminate|]. exists t. apply in_app_iff. cbn. auto.
  - apply T_frame; [discriminate|intros ? (? & ? & ?); discriminate| |exact H]. intros g' [t' E]; inversion E; subst. congruence.
Qed.
Lemma T_wake_bus h i j t p : T h i p -> T (h ++ [EAdvDone j t]) i (wake_bus p).
Proof.
  intros H. assert (T h i (wake_bus p)) by (destruct p; auto).
  apply T_frame; [discriminate|intros ? (? & ? & ?); discriminate|intros ? [? ?]; discriminate|auto].
Qed.

(** ** Global invariant *)
Definition excl (ths : list pc) : Prop := forall i j p q l,
  nth_error ths i = Some p -> nth_error ths j = Some q -> In l (held p) -> In l (held q) -> i = j.

(** The part of a message that thread [p] has copied to the buffer of [t]. *)
Definition cop (p : pc) (t : nat) : option (list Z) :=
  match p with PubCopy t' msg k => if (t' =? t)%nat then Some (firstn k msg) else None | _ => None end.

Record topic_ok (s : sys) (t : nat) (x : topic) : Prop := {
  to_len : length (buf x) = length (nth t bufs []);
  to_pub : published x = match pubs (log s) t with [] => false | _ => true end;
  to_msg : messages x = s32 (Z.of_nat (length (pubs (log s) t)));
  to_wat : forall g, In (EWatch g t) (log s) -> In g (watchers x);
  to_cop : forall i p m, nth_error (thr s) i = Some p -> cop p t = Some m -> buf x = overlay (contents bufs (log s) t) m;
  to_buf : (forall i p, nth_error (thr s) i = Some p -> cop p t = None) -> buf x = contents bufs (log s) t
}.

Definition adv_list (h : list event) : list (nat * str) :=
  rev (flat_map (fun e => match e with EAdv _ t n => [(t, n)] | _ => [] end) h).
Fixpoint lseg (ts : list topic) (cur : option nat) (l : list nat) : Prop :=
  match l with
  | [] => cur = None
  | t :: l => cur = Some t /\ exists x, nth_error ts t = Some x /\ lseg ts (next x) l
  end.
Definition pnd (t : nat) (p : pc) : nat :=
  match p with AdvName t' _ | AdvAcq t' _ | AdvLink t' _ => if (t' =? t)%nat then 1 else 0 | _ => 0 end.
Definition pend (t : nat) (ths : list pc) : nat := fold_right (fun p n => (pnd t p + n)%nat) O ths.
Definition naming (p : pc) (t : nat) (n : str) : Prop := p = AdvAcq t n \/ p = AdvLink t n.

Record adv_ok (s : sys) : Prop := {
  a_seg : lseg (topics s) (head s) (map fst (adv_list (log s)));
  a_names : forall t n x, In (t, n) (adv_list (log s)) -> nth_error (topics s) t = Some x -> tname x = firstn NAME_MAX n;
  a_next : forall t x, nth_error (topics s) t = Some x -> ~ In t (map fst (adv_list (log s))) -> next x = None;
  a_pend : forall i p t n x, nth_error (thr s) i = Some p -> naming p t n -> nth_error (topics s) t = Some x -> tname x = firstn NAME_MAX n
}.

Record Inv (bud : nat -> nat) (s : sys) : Prop := {
  v_excl : excl (thr s);
  v_T : forall i p, nth_error (thr s) i = Some p -> T (log s) i p;
  v_log : forall a e b, log s = a ++ e :: b -> event_ok bufs a e;
  v_cnt : forall t, (pend t (thr s) + count_occ Nat.eq_dec (map fst (adv_list (log s))) t <= bud t)%nat;
  v_find : forall i n, nth_error (thr s) i = Some (FindBlk n) ->
             lookup (log s) n = None \/ exists j t cs, nth_error (thr s) j = Some (AdvCb t cs);
  v_len : length (topics s) = length bufs;
  v_topic : forall t x, nth_error (topics s) t = Some x -> topic_ok s t x;
  v_adv : adv_ok s;
  v_glen : length (groups s) = ng;
  v_grp : forall g r, nth_error (groups s) g = Some r -> r = last_notified (log s) g;
  v_cbs : forall c, In (EReg c) (log s) -> In c (cbs s)
}.

(** Broadcasts. *)
Definition waked (q q' : pc) : Prop :=
  q' = q \/ match q, q' with
            | WaitBlk _ _, WaitRe _ _ | GwBlk _, GwRe _ | FindBlk _, FindRe _ => True
            | _, _ => False
            end.
Definition wakes (w : pc -> pc) : Prop := forall q, waked q (w q).
Lemma wakes_id : wakes (fun q => q). Proof. left. reflexivity. Qed.
Lemma wakes_topic t : wakes (wake_topic t).
Proof. intro q. destruct q; try (left; reflexivity). cbn. destruct (_ =? _)%nat; [right; exact I|left; reflexivity]. Qed.
Lemma wakes_group g : wakes (wake_group g).
Proof. intro q. destruct q; try (left; reflexivity). cbn. destruct (_ =? _)%nat; [right; exact I|left; reflexivity]. Qed.
Lemma wakes_bus : wakes wake_bus.
Proof. intro q. destruct q; try (left; reflexivity). right; exact I. Qed.
Ltac waked H := destruct H as [H|H]; [rewrite H; reflexivity|];
  match type of H with match ?q with _ => _ end => destruct q; try contradiction;
    match type of H with match ?q' with _ => _ end => destruct q'; try contradiction; reflexivity end end.
Lemma waked_held q q' : waked q q' -> held q' = held q. Proof. intro H. waked H. Qed.
Lemma waked_cop q q' t : waked q q' -> cop q' t = cop q t. Proof. intro H. waked H. Qed.
Lemma waked_pnd q q' t : waked q q' -> pnd t q' = pnd t q. Proof. intro H. waked H. Qed.
Lemma waked_naming q q' t n : waked q q' -> naming q' t n -> naming q t n.
Proof. intros [->|H]; [auto|]. destruct q, q'; try contradiction; intros [X|X]; discriminate. Qed.
Lemma waked_findblk q q' n : waked q q' -> q' = FindBlk n -> q = FindBlk n.
Proof. intros [->|H]; [auto|]. destruct q, q'; try contradiction; discriminate. Qed.
Lemma waked_advcb q q' t cs : waked q q' -> q = AdvCb t cs -> q' = AdvCb t cs.
Proof. intros [->|H]; [auto|]. destruct q, q'; try contradiction; discriminate. Qed.

Lemma excl_upd ths i p p' w : wakes w -> excl ths -> nth_error ths i = Some p ->
  (forall l, In l (held p') -> In l (held p) \/ locked l ths = false) -> excl (upd (map w ths) i p').
Proof.
  intros W X N H a b q r l Ha Hb La Lb.
  assert (G : forall j q, nth_error (upd (map w ths) i p') j = Some q -> In l (held q) ->
    (j = i /\ (In l (held p) \/ locked l ths = false)) \/ (j <> i /\ exists q0, nth_error ths j = Some q0 /\ In l (held q0))).
  { intros j q0 Hj Lj. eapply thr_upd in Hj as [[-> ->]|(J & q1 & Q & ->)]; [left; auto| |exact N].
    right. split; auto. exists q1. split; [auto|]. now rewrite (waked_held _ _ (W q1)) in Lj. }
  destruct (G _ _ Ha La) as [[-> A]|(A0 & qa & A1 & A2)]; destruct (G _ _ Hb Lb) as [[-> B]|(B0 & qb & B1 & B2)]; auto.
  - destruct A as [A|A]; [symmetry; eapply X; eauto|]. rewrite locked_false in A. now apply A in B1.
  - destruct B as [B|B]; [eapply X; eauto|]. rewrite locked_false in B. now apply B in A1.
  - eapply X; eauto.
Qed.

Lemma pend_upd t ths i p p' : nth_error ths i = Some p -> (pend t (upd ths i p') + pnd t p = pend t ths + pnd t p')%nat.
Proof.
  revert i. induction ths as [|q ths IH]; intros [|i] H; cbn in H; try discriminate; cbn [upd pend fold_right].
  - inversion H; subst. unfold pend. lia.
  - specialize (IH _ H). unfold pend in *. lia.
Qed.
Lemma pend_map t ths w : wakes w -> pend t (map w ths) = pend t ths.
Proof. intro W. induction ths as [|q ths IH]; [reflexivity|]. cbn. unfold pend in IH. rewrite IH. f_equal. apply waked_pnd, W. Qed.

Definition opt (e : option event) : list event := match e with Some e => [e] | None => [] end.

Lemma log_ok h e : (forall a x b, h = a ++ x :: b -> event_ok bufs a x) -> (forall x, e = Some x -> event_ok bufs h x) ->
  forall a x b, h ++ opt e = a ++ x :: b -> event_ok bufs a x.
Proof.
  intros H E a x b. destruct e as [e|]; cbn [opt]; [|rewrite app_nil_r; apply H].
  intro Q. destruct b as [|y b] using rev_ind.
  - apply app_inj_tail in Q as [<- <-]. auto.
  - rewrite app_comm_cons, app_assoc in Q. apply app_inj_tail in Q as [Q _]. eapply H; eauto.
Qed.

(** The part of the invariant about threads and history. *)
Lemma inv_thr bud bud' s s' i p p' w e : Inv bud s -> nth_error (thr s) i = Some p -> wakes w ->
  thr s' = upd (map w (thr s)) i p' -> log s' = log s ++ opt e ->
  (forall l, In l (held p') -> In l (held p) \/ locked l (thr s) = false) ->
  T (log s') i p' ->
  (forall j q, j <> i -> nth_error (thr s) j = Some q -> T (log s) j q -> T (log s') j (w q)) ->
  (forall x, e = Some x -> event_ok bufs (log s) x) ->
  (forall t, (pnd t p' + count_occ Nat.eq_dec (map fst (adv_list (log s'))) t + bud t <=
              pnd t p + count_occ Nat.eq_dec (map fst (adv_list (log s))) t + bud' t)%nat) ->
  (forall j n, nth_error (thr s') j = Some (FindBlk n) -> lookup (log s') n = None \/ exists j t cs, nth_error (thr s') j = Some (AdvCb t cs)) ->
  length (topics s') = length bufs -> (forall t x, nth_error (topics s') t = Some x -> topic_ok s' t x) ->
  adv_ok s' -> length (groups s') = ng -> (forall g r, nth_error (groups s') g = Some r -> r = last_notified (log s') g) ->
  (forall c, In (EReg c) (log s') -> In c (cbs s')) -> Inv bud' s'.
Proof.
  intros I N W ET EL HL HT HO HE HC HF TL TO AD GL GR CB. constructor; auto.
  - rewrite ET. eapply excl_upd; eauto. apply I.
  - intros j q' Q. rewrite ET in Q. eapply thr_upd in Q as [[-> ->]|(J & q & Q & ->)]; [auto| |exact N].
    apply HO; auto. now apply (v_T _ _ I).
  - rewrite EL. apply log_ok; auto. apply I.
  - intro t. rewrite ET. pose proof (pend_upd t (map w (thr s)) i (w p) p') as P.
    rewrite nth_error_map, N in P. specialize (P eq_refl). rewrite (pend_map _ _ _ W), (waked_pnd _ _ _ (W p)) in P.
    specialize (HC t). pose proof (v_cnt _ _ I t). lia.
Qed.

(** Events that leave the state alone. *)
Definition neutral (e : event) : Prop :=
  match e with EPub _ _ _ | EAdv _ _ _ | ENotify _ _ | EWatch _ _ | EReg _ => False | _ => True end.
Lemma neutral_pub e t : neutral e -> not_pub e t. Proof. intros H j m ->. exact H. Qed.
Lemma neutral_adv h e : neutral e -> adv_list (h ++ [e]) = adv_list h.
Proof. intro H. unfold adv_list. rewrite flat_map_app. destruct e; try contradiction; cbn; now rewrite app_nil_r. Qed.
Lemma neutral_lookup h e n : neutral e -> lookup (h ++ [e]) n = lookup h n.
Proof. intro H. unfold lookup. rewrite fold_left_app. destruct e; try contradiction; reflexivity. Qed.
Lemma neutral_note h e g : neutral e -> last_notified (h ++ [e]) g = last_notified h g.
Proof. intro H. unfold last_notified. rewrite fold_left_app. destruct e; try contradiction; reflexivity. Qed.

Lemma topic_frame s s' i p p' w t x x' : nth_error (thr s) i = Some p -> wakes w -> thr s' = upd (map w (thr s)) i p' ->
  cop p' t = cop p t -> (forall g, In (EWatch g t) (log s') -> In (EWatch g t) (log s)) -> pubs (log s') t = pubs (log s) t ->
  buf x' = buf x -> published x' = published x -> messages x' = messages x -> watchers x' = watchers x ->
  topic_ok s t x -> topic_ok s' t x'.
Proof.
  intros N W ET C HW HP B P M Wa O.
  assert (CT : contents bufs (log s') t = contents bufs (log s) t) by (unfold contents; now rewrite HP).
  constructor; rewrite ?HP, ?CT, ?B, ?P, ?M, ?Wa; try apply O.
  - intros g G. apply (to_wat _ _ _ O), HW, G.
  - intros j q m J K. rewrite ET in J. eapply thr_upd in J as [[-> ->]|(J & q0 & Q & ->)]; [| |exact N].
    + rewrite C in K. eapply to_cop; eauto.
    + rewrite (waked_cop _ _ _ (W q0)) in K. eapply to_cop; eauto.
  - intro Q. apply (to_buf _ _ _ O). intros j q J. destruct (Nat.eq_dec j i) as [->|J0].
    + rewrite N in J. inversion J; subst. rewrite <- C. apply (Q i). rewrite ET. eapply upd_same. rewrite nth_error_map, N. reflexivity.
    + rewrite <- (waked_cop _ _ t (W q)). apply (Q j). rewrite ET, upd_other, nth_error_map, J by auto. reflexivity.
Qed.

(** A move that changes only the thread, with at most one neutral event. *)
Lemma inv_simple bud bud' s i p p' e : Inv bud s -> nth_error (thr s) i = Some p ->
  (forall x, e = Some x -> neutral x /\ event_ok bufs (log s) x /\ forall j o, x = ECall j o -> j = i) ->
  (forall l, In l (held p') -> In l (held p) \/ locked l (thr s) = false) ->
  T (log s ++ opt e) i p' ->
  (forall t, pnd t p' + bud t <= pnd t p + bud' t)%nat ->
  (forall t, cop p' t = cop p t) ->
  (forall t n, naming p' t n -> naming p t n) ->
  (forall n, p' = FindBlk n -> lookup (log s) n = None) ->
  (forall t cs, p = AdvCb t cs -> exists cs', p' = AdvCb t cs') ->
  Inv bud' (mksys (topics s) (groups s) (head s) (cbs s) (upd (thr s) i p') (log s ++ opt e)).
Proof.
  intros I N NE HL HT HB HC HN HF HA.
  assert (NEU : forall x, e = Some x -> neutral x) by (intros; now apply NE).
  assert (AL : adv_list (log s ++ opt e) = adv_list (log s)).
  { destruct e; cbn; [apply neutral_adv; auto|now rewrite app_nil_r]. }
  assert (PU : forall t, pubs (log s ++ opt e) t = pubs (log s) t).
  { intro t. destruct e; cbn; [apply pubs_snoc_not, neutral_pub; auto|now rewrite app_nil_r]. }
  assert (LK : forall n, lookup (log s ++ opt e) n = lookup (log s) n).
  { intro n. destruct e; cbn; [apply neutral_lookup; auto|now rewrite app_nil_r]. }
  assert (IN : forall x, In x (log s ++ opt e) -> neutral x \/ In x (log s)).
  { intros x X. apply in_app_iff in X as [X|X]; auto. destruct e; [|contradiction]. destruct X as [<-|[]]. auto. }
  eapply inv_thr with (w := fun q => q) (e := e) (p := p) (i := i); try exact I; try exact N; cbn [thr log topics groups head cbs]; try exact HL; try exact HT; try reflexivity.
  - apply wakes_id.
  - apply upd_id.
  - intros j q J Q Tq. destruct e as [e|]; cbn [opt]; [|now rewrite app_nil_r].
    destruct (NE _ eq_refl) as (Ne & _ & NC). apply T_frame; auto.
    + intros o ->. apply J, NC with o. reflexivity.
    + intros t (j' & m & ->). contradiction.
    + intros g (t & ->). contradiction.
  - intros x X. now apply NE.
  - intro t. rewrite AL. specialize (HB t). lia.
  - intros j n J. rewrite LK. destruct (Nat.eq_dec j i) as [->|J0].
    + rewrite (upd_same _ _ _ _ _ N) in J. inversion J; subst. left. auto.
    + rewrite upd_other in J by auto. destruct (v_find _ _ I _ _ J) as [K|(k & t & cs & K)]; [auto|right].
      destruct (Nat.eq_dec k i) as [->|K0].
      * rewrite N in K. inversion K; subst. destruct (HA _ _ eq_refl) as [cs' ->]. exists i, t, cs'. eapply upd_same; eauto.
      * exists k, t, cs. now rewrite upd_other.
  - apply I.
  - intros t x X. eapply topic_frame with (s := s) (i := i) (p := p) (p' := p') (x := x) (w := fun q => q); cbn [thr log]; try reflexivity; try exact N; auto.
    + apply wakes_id.
    + apply upd_id.
    + intros g G. apply IN in G as [G|G]; [contradiction|auto].
    + now apply (v_topic _ _ I).
  - pose proof (v_adv _ _ I) as A. constructor; cbn [thr log topics head]; rewrite ?AL; try apply A.
    intros j q t n x J K X. destruct (Nat.eq_dec j i) as [->|J0].
    + rewrite (upd_same _ _ _ _ _ N) in J. inversion J; subst. eapply a_pend; eauto.
    + rewrite upd_other in J by auto. eapply a_pend; eauto.
  - apply I.
  - intros g r G. rewrite (v_grp _ _ I _ _ G). destruct e; cbn; [symmetry; apply neutral_note; auto|now rewrite app_nil_r].
  - intros c C. apply IN in C as [C|C]; [contradiction|]. now apply (v_cbs _ _ I).
Qed.

(** ** Steps that change the shared state *)
Lemma cop_held p t m : cop p t = Some m -> In (LTopic t) (held p).
Proof. destruct p; cbn; try discriminate. destruct (Nat.eqb_spec t0 t); [subst; auto|discriminate]. Qed.
Lemma alone bud s i p t : Inv bud s -> nth_error (thr s) i = Some p -> In (LTopic t) (held p) ->
  forall j q, j <> i -> nth_error (thr s) j = Some q -> ~ In (LTopic t) (held q).
Proof. intros I N L j q J Q H. apply J. eapply (v_excl _ _ I); eauto. Qed.
Lemma topic_get bud s t : Inv bud s -> (t < length bufs)%nat -> exists x, nth_error (topics s) t = Some x.
Proof.
  intros I L. destruct (nth_error (topics s) t) eqn:E; [eauto|]. apply nth_error_None in E. rewrite (v_len _ _ I) in E. lia.
Qed.

Lemma s32_succ n : s32 (s32 n + 1) = s32 (n + 1).
Proof.
  apply sN_mod; [lia|]. unfold s32, sN.
  replace ((n + 2 ^ (32 - 1)) mod 2 ^ 32 - 2 ^ (32 - 1) + 1) with ((n + 2 ^ (32 - 1)) mod 2 ^ 32 + (1 - 2 ^ (32 - 1))) by lia.
  rewrite Zplus_mod_idemp_l. f_equal. lia.
Qed.
Lemma overlay_nil c : overlay c [] = c. Proof. reflexivity. Qed.
Lemma upd_app A (a : list A) b l x : (upd (a ++ b :: l) (length a) x) = a ++ x :: l.
Proof. induction a; cbn; [reflexivity|now f_equal]. Qed.
Lemma firstn_S A (l : list A) k x : nth_error l k = Some x -> firstn (S k) l = firstn k l ++ [x].
Proof. revert k. induction l; intros [|k] H; cbn in *; try discriminate; [now inversion H|]. f_equal. now apply IHl. Qed.
Lemma skipn_S A (l : list A) k : (k < length l)%nat -> exists x, skipn k l = x :: skipn (S k) l.
Proof. revert k. induction l; intros [|k] H; cbn in *; try lia; [eauto|]. apply IHl. lia. Qed.
Lemma overlay_step c msg k b : nth_error msg k = Some b -> (k < length c)%nat ->
  upd (overlay c (firstn k msg)) k b = overlay c (firstn (S k) msg).
Proof.
  intros N L. assert (K : (k < length msg)%nat) by (apply nth_error_Some; congruence).
  rewrite (firstn_S _ _ _ _ N). unfold overlay. rewrite app_length, firstn_length. replace (Nat.min k (length msg)) with k by lia.
  destruct (skipn_S _ c k L) as [y ->]. cbn [length]. rewrite Nat.add_1_r, <- app_assoc. cbn [app].
  replace k with (length (firstn k msg)) at 3 by (rewrite firstn_length; lia). apply upd_app.
Qed.

Lemma first_nth A (l : list A) i x : nth_error l i = Some x -> nth_error (upd l i x) i = Some x.
Proof. apply upd_same. Qed.

(** The other topics, when topic [t] is changed by thread [i] and the others are untouched. *)
Lemma lseg_upd ts t x x' : nth_error ts t = Some x -> next x' = next x -> forall l cur, lseg ts cur l -> lseg (upd ts t x') cur l.
Proof.
  intros N E. induction l as [|a l IH]; intros cur H; cbn [lseg] in *; [auto|]. destruct H as (-> & y & Y & H). split; [auto|].
  destruct (Nat.eq_dec a t) as [->|].
  - rewrite N in Y. inversion Y; subst. exists x'. split; [eapply upd_same; eauto|]. rewrite E. auto.
  - exists y. rewrite upd_other by auto. auto.
Qed.
Lemma lseg_out ts t x' : forall l cur, lseg ts cur l -> ~ In t l -> lseg (upd ts t x') cur l.
Proof.
  induction l as [|a l IH]; intros cur H NI; cbn [lseg In] in *; [auto|]. destruct H as (-> & y & Y & H). split; [auto|].
  exists y. rewrite upd_other by (intro; apply NI; auto). split; [auto|]. apply IH; auto.
Qed.

Lemma adv_upd s s' t x x' : adv_ok s -> nth_error (topics s) t = Some x -> topics s' = upd (topics s) t x' ->
  next x' = next x -> tname x' = tname x -> head s' = head s -> adv_list (log s') = adv_list (log s) ->
  (forall j q t n, nth_error (thr s') j = Some q -> naming q t n -> exists q0 j0, nth_error (thr s) j0 = Some q0 /\ naming q0 t n) ->
  adv_ok s'.
Proof.
  intros A X ET EN EM EH EL HN. constructor; rewrite ?ET, ?EL, ?EH.
  - eapply lseg_upd; eauto. apply A.
  - intros t' n y I Y. rewrite upd_nth in Y. destruct (Nat.eqb_spec t' t).
    + subst. rewrite X in Y. inversion Y; subst. rewrite EM. eapply a_names; eauto.
    + eapply a_names; eauto.
  - intros t' y Y I. rewrite upd_nth in Y. destruct (Nat.eqb_spec t' t).
    + subst. rewrite X in Y. inversion Y; subst. rewrite EN. eapply a_next; eauto.
    + eapply a_next; eauto.
  - intros j q t' n y J Nq Y. destruct (HN _ _ _ _ J Nq) as (q0 & j0 & J0 & N0). rewrite upd_nth in Y. destruct (Nat.eqb_spec t' t).
    + subst. rewrite X in Y. inversion Y; subst. rewrite EM. eapply a_pend; eauto.
    + eapply a_pend; eauto.
Qed.

Lemma naming_upd s i p p' w j q t n : wakes w -> nth_error (thr s) i = Some p -> (forall t n, naming p' t n -> naming p t n) ->
  nth_error (upd (map w (thr s)) i p') j = Some q -> naming q t n -> exists q0 j0, nth_error (thr s) j0 = Some q0 /\ naming q0 t n.
Proof.
  intros W N H J K. eapply thr_upd in J as [[-> ->]|(J & q0 & Q & ->)]; [| |exact N].
  - exists p, i. auto.
  - exists q0, j. split; [auto|]. eapply waked_naming; eauto.
Qed.
Lemma find_upd bud s i p p' w h' : Inv bud s -> wakes w -> nth_error (thr s) i = Some p ->
  (forall n, p' <> FindBlk n) -> (forall t cs, p <> AdvCb t cs) -> (forall n, lookup h' n = lookup (log s) n) ->
  forall j n, nth_error (upd (map w (thr s)) i p') j = Some (FindBlk n) ->
    lookup h' n = None \/ exists j t cs, nth_error (upd (map w (thr s)) i p') j = Some (AdvCb t cs).
Proof.
  intros I W N NF NA L j n J. rewrite L. eapply thr_upd in J as [[-> E]|(J & q & Q & E)]; [| |exact N]; [now symmetry in E; apply NF in E|].
  symmetry in E. eapply waked_findblk in E; [|apply W]. subst. destruct (v_find _ _ I _ _ Q) as [F|(k & t & cs & F)]; [auto|].
  right. exists k, t, cs. destruct (Nat.eq_dec k i) as [->|].
  - rewrite N in F. inversion F; subst. now destruct (NA t cs).
  - rewrite upd_other, nth_error_map, F by auto. cbn. f_equal. eapply waked_advcb; [apply W|reflexivity].
Qed.

Ltac keep I := try exact (v_glen _ _ I); try exact (v_grp _ _ I); try exact (v_cbs _ _ I); try exact (v_len _ _ I).

Lemma step_copy bud s i t msg k b x : Inv bud s -> nth_error (thr s) i = Some (PubCopy t msg k) ->
  nth_error (topics s) t = Some x -> nth_error msg k = Some b -> 
  Inv bud (goto (set_topic s t (mktopic (upd (buf x) k b) (tname x) (published x) (watchers x) (next x) (messages x))) i (PubCopy t msg (S k))).
Proof.
  intros I N X B. pose proof (v_T _ _ I _ _ N) as (A & L & K). assert (KL : (k < length msg)%nat) by (apply nth_error_Some; congruence).
  pose proof (v_topic _ _ I _ _ X) as O. pose proof (alone _ _ _ _ t I N (or_introl eq_refl)) as AL.
  unfold goto, set_topic, set_thr.
  eapply inv_thr with (w := fun q => q) (e := None) (p := PubCopy t msg k) (i := i) (p' := PubCopy t msg (S k)) (bud := bud);
    try exact I; try exact N; cbn [thr log topics groups head cbs opt]; rewrite ?app_nil_r; try reflexivity; keep I.
  - apply wakes_id.
  - apply upd_id.
  - intros l Hl. left. exact Hl.
  - cbn [T]. split; [exact A|]. split; [exact L|]. lia.
  - intros j q J Q TQ. exact TQ.
  - discriminate.
  - rewrite upd_id. apply (find_upd bud s i _ _ _ _ I wakes_id N); try discriminate. reflexivity.
  - rewrite upd_length. apply I.
  - intros t' y Y. rewrite upd_nth in Y. destruct (Nat.eqb_spec t' t) as [->|NT].
    + rewrite X in Y. inversion Y; subst y; clear Y. constructor; cbn [buf published messages watchers thr log]; try apply O.
      * rewrite upd_length. apply O.
      * intros j q m J C. destruct (Nat.eq_dec j i) as [->|J0].
        -- rewrite (upd_same _ _ _ _ _ N) in J. inversion J; subst. cbn [cop] in C. rewrite Nat.eqb_refl in C. inversion C; subst m.
           rewrite (to_cop _ _ _ O i _ (firstn k msg) N) by (cbn; now rewrite Nat.eqb_refl). apply overlay_step; auto.
           assert (E : length (overlay (contents bufs (log s) t) (firstn k msg)) = length (nth t bufs [])).
           { rewrite <- (to_cop _ _ _ O i _ (firstn k msg) N) by (cbn; now rewrite Nat.eqb_refl). apply O. }
           unfold overlay in E. rewrite app_length, skipn_length, firstn_length in E. lia.
        -- rewrite upd_other in J by auto. exfalso. apply (AL _ _ J0 J). eapply cop_held; eauto.
      * intro Q. exfalso. specialize (Q i (PubCopy t msg (S k))). rewrite (upd_same _ _ _ _ _ N) in Q. specialize (Q eq_refl). cbn in Q.
        now rewrite Nat.eqb_refl in Q.
    + eapply topic_frame with (s := s) (i := i) (p := PubCopy t msg k) (p' := PubCopy t msg (S k)) (x := y) (w := fun q => q);
        cbn [thr log]; try reflexivity; auto.
      * apply wakes_id.
      * apply upd_id.
      * cbn [cop]. destruct (Nat.eqb_spec t t'); [congruence|reflexivity].
      * now apply (v_topic _ _ I).
  - eapply adv_upd with (s := s) (t := t) (x := x); try exact X; try reflexivity; try exact (v_adv _ _ I). cbn [thr]. intros j q t' n J Q.
    rewrite upd_id in J. eapply naming_upd; [apply wakes_id|exact N| |exact J|exact Q]. intros ? ? [H|H]; discriminate.
Qed.

Lemma step_publish bud s i t msg k x : Inv bud s -> nth_error (thr s) i = Some (PubCopy t msg k) ->
  nth_error (topics s) t = Some x -> nth_error msg k = None ->
  let s0 := set_topic s t (mktopic (buf x) (tname x) true (watchers x) (next x) (s32 (messages x + 1))) in
  Inv bud (say (goto (broadcast s0 (wake_topic t)) i (PubWatch t (watchers x))) (EPub i t msg)).
Proof.
  intros I N X B. pose proof (v_T _ _ I _ _ N) as (A & L & K). assert (KL : k = length msg) by (apply nth_error_None in B; lia).
  pose proof (v_topic _ _ I _ _ X) as O. pose proof (alone _ _ _ _ t I N (or_introl eq_refl)) as AL.
  assert (PT : pubs (log s ++ [EPub i t msg]) t = pubs (log s) t ++ [msg]).
  { rewrite pubs_app. cbn. now rewrite Nat.eqb_refl. }
  assert (PO : forall t', t' <> t -> pubs (log s ++ [EPub i t msg]) t' = pubs (log s) t').
  { intros t' H. apply pubs_snoc_not. intros j m E. inversion E; congruence. }
  assert (BU : buf x = overlay (contents bufs (log s) t) msg).
  { rewrite (to_cop _ _ _ O i _ msg N); [reflexivity|]. cbn. rewrite Nat.eqb_refl. f_equal. apply firstn_all2. lia. }
  unfold say, goto, broadcast, set_topic, set_thr; cbn [thr log topics groups head cbs]; cbv zeta.
  eapply inv_thr with (w := wake_topic t) (e := Some (EPub i t msg)) (p := PubCopy t msg k) (i := i) (p' := PubWatch t (watchers x)) (bud := bud);
    try exact I; try exact N; cbn [thr log topics groups head cbs opt]; try reflexivity; keep I.
  - apply wakes_topic.
  - intros l Hl. left. exact Hl.
  - cbn [T]. destruct A as [_ (c & a & E & NC)]. exists msg, a, c, []. split; [split|].
    + rewrite E, <- app_assoc. reflexivity.
    + rewrite app_nil_r. exact NC.
    + intros g G. left. apply (to_wat _ _ _ O). rewrite E. apply in_app_iff in G as [G|G]; apply in_app_iff; cbn; auto.
  - intros j q J Q TQ. apply T_wake_topic; auto. eapply AL; eauto.
  - intros e E. inversion E; subst. cbn [event_ok]. destruct A as [_ A]. auto.
  - intro u. unfold adv_list. rewrite flat_map_app. cbn. rewrite app_nil_r. lia.
  - apply (find_upd bud s i _ _ _ _ I (wakes_topic t) N); try discriminate. intro n. unfold lookup. now rewrite fold_left_app.
  - rewrite upd_length. apply I.
  - intros t' y Y. rewrite upd_nth in Y. destruct (Nat.eqb_spec t' t) as [->|NT].
    + rewrite X in Y. inversion Y; subst y; clear Y. constructor; cbn [buf published messages watchers thr log].
      * apply O.
      * rewrite PT. destruct (pubs (log s) t); reflexivity.
      * rewrite PT, app_length, (to_msg _ _ _ O). cbn [length].
        rewrite Nat2Z.inj_add. apply s32_succ.
      * intros g G. apply (to_wat _ _ _ O). apply in_app_iff in G as [G|[G|[]]]; [auto|discriminate].
      * intros j q m J C. eapply thr_upd in J as [[-> ->]|(J & q0 & Q & ->)]; [discriminate| |exact N].
        rewrite (waked_cop _ _ _ (wakes_topic t q0)) in C. exfalso. apply (AL _ _ J Q). eapply cop_held; eauto.
      * intros _. rewrite BU, contents_app. cbn. rewrite Nat.eqb_refl. reflexivity.
    + eapply topic_frame with (s := s) (i := i) (p := PubCopy t msg k) (p' := PubWatch t (watchers x)) (x := y) (w := wake_topic t);
        cbn [thr log]; try reflexivity; auto.
      * apply wakes_topic.
      * cbn [cop]. destruct (Nat.eqb_spec t t'); [congruence|reflexivity].
      * intros g G. apply in_app_iff in G as [G|[G|[]]]; [auto|discriminate].
      * now apply (v_topic _ _ I).
  - eapply adv_upd with (s := s) (t := t) (x := x); try exact X; try reflexivity; try exact (v_adv _ _ I); cbn [thr log].
    + unfold adv_list. rewrite flat_map_app. cbn. now rewrite app_nil_r.
    + intros j q t' n J Q. eapply naming_upd; [apply wakes_topic|exact N| |exact J|exact Q]. intros ? ? [H|H]; discriminate.
  - intros g r G. rewrite (v_grp _ _ I _ _ G). unfold last_notified. now rewrite fold_left_app.
  - intros c C. apply (v_cbs _ _ I). apply in_app_iff in C as [C|[C|[]]]; [auto|discriminate].
Qed.

Lemma keep_topics bud s s' i p p' w : Inv bud s -> nth_error (thr s) i = Some p -> wakes w -> thr s' = upd (map w (thr s)) i p' ->
  topics s' = topics s -> head s' = head s -> (forall t, pubs (log s') t = pubs (log s) t) ->
  (forall g t, In (EWatch g t) (log s') -> In (EWatch g t) (log s)) -> adv_list (log s') = adv_list (log s) ->
  (forall t, cop p' t = cop p t) -> (forall t n, naming p' t n -> naming p t n) ->
  (forall t x, nth_error (topics s') t = Some x -> topic_ok s' t x) /\ adv_ok s'.
Proof.
  intros I N W ET TS HS PU EW EA EC EN. split.
  - intros t x X. rewrite TS in X. eapply topic_frame with (s := s) (i := i) (p := p) (p' := p') (x := x) (w := w); auto. now apply (v_topic _ _ I).
  - pose proof (v_adv _ _ I) as A. constructor; rewrite ?TS, ?HS, ?EA; try apply A.
    intros j q t n x J K X. rewrite ET in J. destruct (naming_upd _ _ _ _ _ _ _ _ _ W N EN J K) as (q0 & j0 & J0 & N0). eapply a_pend; eauto.
Qed.

Lemma step_pubacq bud s i t msg : Inv bud s -> nth_error (thr s) i = Some (PubAcq t msg) -> locked (LTopic t) (thr s) = false ->
  Inv bud (goto s i (PubCopy t msg 0)).
Proof.
  intros I N LK. pose proof (v_T _ _ I _ _ N) as (A & L). rewrite locked_false in LK.
  unfold goto, set_thr.
  eapply inv_thr with (w := fun q => q) (e := None) (p := PubAcq t msg) (i := i) (p' := PubCopy t msg 0) (bud := bud);
    try exact I; try exact N; cbn [thr log topics groups head cbs opt]; rewrite ?app_nil_r; try reflexivity; keep I.
  - apply wakes_id.
  - apply upd_id.
  - intros l [<-|[]]. right. now apply locked_false.
  - cbn [T]. split; [exact A|]. split; [exact L|]. lia.
  - intros j q J Q TQ. exact TQ.
  - discriminate.
  - rewrite upd_id. apply (find_upd bud s i _ _ _ _ I wakes_id N); try discriminate. reflexivity.
  - intros t' y Y. pose proof (v_topic _ _ I _ _ Y) as O. destruct (Nat.eq_dec t' t) as [->|NT].
    + assert (Q : buf y = contents bufs (log s) t).
      { apply O. intros j q J. destruct (cop q t) eqn:E; [|reflexivity]. apply cop_held in E. now apply LK in J. }
      constructor; cbn [thr log]; try apply O.
      * intros j q m J C. destruct (Nat.eq_dec j i) as [->|J0].
        -- rewrite (upd_same _ _ _ _ _ N) in J. inversion J; subst. cbn [cop] in C. rewrite Nat.eqb_refl in C. inversion C; subst m. exact Q.
        -- rewrite upd_other in J by auto. eapply (to_cop _ _ _ O); eauto.
      * intros _. exact Q.
    + eapply topic_frame with (s := s) (i := i) (p := PubAcq t msg) (p' := PubCopy t msg 0) (x := y) (w := fun q => q);
        cbn [thr log]; try reflexivity; auto.
      * apply wakes_id.
      * apply upd_id.
      * cbn [cop]. destruct (Nat.eqb_spec t t'); [congruence|reflexivity].
  - pose proof (v_adv _ _ I) as AD. constructor; cbn [thr log topics head]; try apply AD.
    intros j q t' n x J K X. rewrite upd_id in J.
    destruct (naming_upd s i (PubAcq t msg) (PubCopy t msg 0) (fun q => q) j q t' n) as (q0 & j0 & J0 & N0); auto using wakes_id.
    { intros ? ? [H|H]; discriminate. }
    eapply a_pend; eauto.
Qed.

Lemma step_notify bud s i t g ws : Inv bud s -> nth_error (thr s) i = Some (PubGroup t g ws) ->
  Inv bud (say (goto (broadcast (set_group s g (Some t)) (wake_group g)) i (PubWatch t ws)) (ENotify g t)).
Proof.
  intros I N. pose proof (v_T _ _ I _ _ N) as A.
  unfold say, goto, broadcast, set_group, set_thr; cbn [thr log topics groups head cbs].
  destruct (keep_topics bud s (mksys (topics s) (upd (groups s) g (Some t)) (head s) (cbs s)
     (upd (map (wake_group g) (thr s)) i (PubWatch t ws)) (log s ++ [ENotify g t])) i (PubGroup t g ws) (PubWatch t ws) (wake_group g)) as [TO AD];
    auto using wakes_group; cbn [thr log].
  { intro u. apply pubs_snoc_not. intros j m; discriminate. }
  { intros g' t' G. apply in_app_iff in G as [G|[G|[]]]; [auto|discriminate]. }
  { unfold adv_list. rewrite flat_map_app. cbn. now rewrite app_nil_r. }
  { intros ? ? [H|H]; discriminate. }
  eapply inv_thr with (w := wake_group g) (e := Some (ENotify g t)) (p := PubGroup t g ws) (i := i) (p' := PubWatch t ws) (bud := bud);
    try exact I; try exact N; cbn [thr log topics groups head cbs opt]; try reflexivity; keep I; try exact TO; try exact AD.
  - apply wakes_group.
  - intros l [<-|[]]. left. cbn. auto.
  - cbn [T] in *. destruct A as (msg & a & c1 & c2 & [E NC] & W). exists msg, a, c1, (c2 ++ [ENotify g t]). split; [split|].
    + rewrite E. now rewrite <- !app_assoc; cbn; rewrite <- app_assoc.
    + intros o H. rewrite app_assoc in H. apply in_app_iff in H as [H|[H|[]]]; [now apply NC in H|discriminate].
    + intros g' G. destruct (W g' G) as [[->|H]|H]; auto; right; apply in_app_iff; cbn; auto.
  - intros j q J Q TQ. now apply T_wake_group.
  - intros e E. inversion E; subst. exact Logic.I.
  - intro u. unfold adv_list. rewrite flat_map_app. cbn. rewrite app_nil_r. lia.
  - apply (find_upd bud s i _ _ _ _ I (wakes_group g) N); try discriminate. intro n. unfold lookup. now rewrite fold_left_app.
  - rewrite upd_length. apply I.
  - intros g' r G. rewrite upd_nth in G. unfold last_notified. rewrite fold_left_app. cbn. fold (last_notified (log s) g').
    rewrite (Nat.eqb_sym g g'). destruct (g' =? g)%nat; [destruct (nth_error (groups s) g'); inversion G; reflexivity|]. apply (v_grp _ _ I _ _ G).
  - intros c C. apply (v_cbs _ _ I). apply in_app_iff in C as [C|[C|[]]]; [auto|discriminate].
Qed.

Lemma step_watch bud s i g t x : Inv bud s -> nth_error (thr s) i = Some (WatchIn g t) -> nth_error (topics s) t = Some x ->
  Inv bud (say (goto (set_topic s t (mktopic (buf x) (tname x) (published x) (g :: watchers x) (next x) (messages x))) i Idle) (EWatch g t)).
Proof.
  intros I N X. pose proof (v_topic _ _ I _ _ X) as O.
  assert (PO : forall t', pubs (log s ++ [EWatch g t]) t' = pubs (log s) t').
  { intros t'. apply pubs_snoc_not. intros j m E. discriminate. }
  unfold say, goto, set_topic, set_thr; cbn [thr log topics groups head cbs].
  eapply inv_thr with (w := fun q => q) (e := Some (EWatch g t)) (p := WatchIn g t) (i := i) (p' := Idle) (bud := bud);
    try exact I; try exact N; cbn [thr log topics groups head cbs opt]; try reflexivity; keep I.
  - apply wakes_id.
  - apply upd_id.
  - intros l [].
  - intros j q J Q TQ. apply T_frame; auto; try discriminate; [intros ? (? & ? & ?)|intros ? [? ?]]; discriminate.
  - intros e E. inversion E; subst. exact Logic.I.
  - intro u. unfold adv_list. rewrite flat_map_app. cbn. rewrite app_nil_r. lia.
  - rewrite upd_id. apply (find_upd bud s i _ _ _ _ I wakes_id N); try discriminate. intro n. unfold lookup. now rewrite fold_left_app.
  - rewrite upd_length. apply I.
  - intros t' y Y. rewrite upd_nth in Y. destruct (Nat.eqb_spec t' t) as [->|NT].
    + rewrite X in Y. inversion Y; subst y; clear Y.
      assert (O' : topic_ok {| topics := topics s; groups := groups s; head := head s; cbs := cbs s; thr := upd (thr s) i Idle; log := log s |} t x).
      { eapply topic_frame with (s := s) (i := i) (p := WatchIn g t) (p' := Idle) (x := x) (w := fun q => q); cbn [thr log]; try reflexivity; auto.
        - apply wakes_id. 
        - apply upd_id. }
      destruct O' as [O1 O2 O3 O4 O5 O6]. cbn [thr log] in *.
      constructor; cbn [buf published messages watchers thr log]; unfold contents; rewrite ?PO; auto.
      intros g' G. apply in_app_iff in G as [G|[G|[]]]; [right; auto|]. inversion G. left. reflexivity.
    + eapply topic_frame with (s := s) (i := i) (p := WatchIn g t) (p' := Idle) (x := y) (w := fun q => q); cbn [thr log]; try reflexivity; auto.
      * apply wakes_id. 
      * apply upd_id.
      * intros g' G. apply in_app_iff in G as [G|[G|[]]]; [auto|inversion G; congruence].
      * now apply (v_topic _ _ I).
  - eapply adv_upd with (s := s) (t := t) (x := x); try exact X; try reflexivity; try exact (v_adv _ _ I); cbn [thr log].
    + unfold adv_list. rewrite flat_map_app. cbn. now rewrite app_nil_r.
    + intros j q t' n J Q. rewrite upd_id in J. eapply naming_upd; [apply wakes_id|exact N| |exact J|exact Q]. intros ? ? [H|H]; discriminate.
  - intros g' r G. rewrite (v_grp _ _ I _ _ G). unfold last_notified. now rewrite fold_left_app.
  - intros c C. apply (v_cbs _ _ I). apply in_app_iff in C as [C|[C|[]]]; [auto|discriminate].
Qed.

Lemma step_reg bud s i c : Inv bud s -> nth_error (thr s) i = Some (RegIn c) -> Inv bud (say (goto (set_cbs s (c :: cbs s)) i Idle) (EReg c)).
Proof.
  intros I N. unfold say, goto, set_cbs, set_thr; cbn [thr log topics groups head cbs].
  destruct (keep_topics bud s (mksys (topics s) (groups s) (head s) (c :: cbs s) (upd (thr s) i Idle) (log s ++ [EReg c])) i (RegIn c) Idle (fun q => q)) as [TO AD];
    auto using wakes_id; cbn [thr log].
  { apply upd_id. }
  { intro u. apply pubs_snoc_not. intros j m; discriminate. }
  { intros g' t' G. apply in_app_iff in G as [G|[G|[]]]; [auto|discriminate]. }
  { unfold adv_list. rewrite flat_map_app. cbn. now rewrite app_nil_r. }
  { intros ? ? [H|H]; discriminate. }
  eapply inv_thr with (w := fun q => q) (e := Some (EReg c)) (p := RegIn c) (i := i) (p' := Idle) (bud := bud);
    try exact I; try exact N; cbn [thr log topics groups head cbs opt]; try reflexivity; keep I; try exact TO; try exact AD.
  - apply wakes_id.
  - apply upd_id.
  - intros l [].
  - intros j q J Q TQ. apply T_frame; auto; try discriminate; [intros ? (? & ? & ?)|intros ? [? ?]]; discriminate.
  - intros e E. inversion E; subst. exact Logic.I.
  - intro u. unfold adv_list. rewrite flat_map_app. cbn. rewrite app_nil_r. lia.
  - rewrite upd_id. apply (find_upd bud s i _ _ _ _ I wakes_id N); try discriminate. intro n. unfold lookup. now rewrite fold_left_app.
  - intros g' r G. rewrite (v_grp _ _ I _ _ G). unfold last_notified. now rewrite fold_left_app.
  - intros c' C. apply in_app_iff in C as [C|[C|[]]]; [right; now apply (v_cbs _ _ I)|]. inversion C. left. reflexivity.
Qed.

Lemma step_advdone bud s i t : Inv bud s -> nth_error (thr s) i = Some (AdvCb t []) ->
  Inv bud (say (goto (broadcast s wake_bus) i Idle) (EAdvDone i t)).
Proof.
  intros I N. pose proof (v_T _ _ I _ _ N) as A. unfold say, goto, broadcast, set_thr; cbn [thr log topics groups head cbs].
  destruct (keep_topics bud s (mksys (topics s) (groups s) (head s) (cbs s) (upd (map wake_bus (thr s)) i Idle) (log s ++ [EAdvDone i t])) i (AdvCb t []) Idle wake_bus) as [TO AD];
    auto using wakes_bus; cbn [thr log].
  { intro u. apply pubs_snoc_not. intros j m; discriminate. }
  { intros g' t' G. apply in_app_iff in G as [G|[G|[]]]; [auto|discriminate]. }
  { unfold adv_list. rewrite flat_map_app. cbn. now rewrite app_nil_r. }
  { intros ? ? [H|H]; discriminate. }
  eapply inv_thr with (w := wake_bus) (e := Some (EAdvDone i t)) (p := AdvCb t []) (i := i) (p' := Idle) (bud := bud);
    try exact I; try exact N; cbn [thr log topics groups head cbs opt]; try reflexivity; keep I; try exact TO; try exact AD.
  - apply wakes_bus.
  - intros l [].
  - intros j q J Q TQ. now apply T_wake_bus.
  - intros e E. inversion E; subst. cbn [T event_ok] in *. destruct A as (nm & a & c1 & c2 & AB & W). exists nm, a, c1, c2. split; [exact AB|].
    intros c G. destruct (W c G) as [[]|]; auto.
  - intro u. unfold adv_list. rewrite flat_map_app. cbn. rewrite app_nil_r. lia.
  - intros j n J. exfalso. eapply thr_upd in J as [[-> E]|(J & q & Q & E)]; [discriminate| |exact N]. destruct q; discriminate.
  - intros g' r G. rewrite (v_grp _ _ I _ _ G). unfold last_notified. now rewrite fold_left_app.
  - intros c' C. apply (v_cbs _ _ I). apply in_app_iff in C as [C|[C|[]]]; [auto|discriminate].
Qed.

Lemma pend_nth t : forall ths i p, nth_error ths i = Some p -> (pnd t p <= pend t ths)%nat.
Proof.
  induction ths as [|q ths IH]; intros [|i] p H; cbn in *; try discriminate.
  - inversion H; subst. lia.
  - specialize (IH _ _ H). unfold pend in IH. lia.
Qed.
Lemma pend_two t : forall ths i j p q, nth_error ths i = Some p -> nth_error ths j = Some q -> i <> j -> (pnd t p + pnd t q <= pend t ths)%nat.
Proof.
  induction ths as [|r ths IH]; intros [|i] [|j] p q H K N; cbn [nth_error] in *; try discriminate; try lia; cbn [pend fold_right]; fold (pend t ths).
  - inversion H; subst. pose proof (pend_nth t _ _ _ K). lia.
  - inversion K; subst. pose proof (pend_nth t _ _ _ H). lia.
  - specialize (IH i j p q H K ltac:(lia)). lia.
Qed.
Lemma naming_pnd p t n : naming p t n -> pnd t p = 1%nat.
Proof. intros [->| ->]; cbn; now rewrite Nat.eqb_refl. Qed.

Section Budget.
Variables (bud : nat -> nat).
Hypothesis Hbud : forall t, (bud t <= 1)%nat.

Lemma pending_alone s i p t : Inv bud s -> nth_error (thr s) i = Some p -> pnd t p = 1%nat ->
  ~ In t (map fst (adv_list (log s))) /\ forall j q, j <> i -> nth_error (thr s) j = Some q -> pnd t q = O.
Proof.
  intros I N P. pose proof (v_cnt _ _ I t) as C. specialize (Hbud t). split.
  - intro H. apply (count_occ_In Nat.eq_dec) in H. pose proof (pend_nth t _ _ _ N). lia.
  - intros j q J Q. pose proof (pend_two t _ _ _ _ _ N Q ltac:(auto)). lia.
Qed.

Lemma step_advname s i t name x : Inv bud s -> nth_error (thr s) i = Some (AdvName t name) -> nth_error (topics s) t = Some x ->
  Inv bud (goto (set_topic s t (mktopic (buf x) (firstn NAME_MAX name) (published x) (watchers x) (next x) (messages x))) i (AdvAcq t name)).
Proof.
  intros I N X. pose proof (v_T _ _ I _ _ N) as A. pose proof (v_adv _ _ I) as AD.
  destruct (pending_alone _ _ _ t I N) as [NI PA]; [cbn; now rewrite Nat.eqb_refl|].
  unfold goto, set_topic, set_thr; cbn [thr log topics groups head cbs].
  eapply inv_thr with (w := fun q => q) (e := None) (p := AdvName t name) (i := i) (p' := AdvAcq t name) (bud := bud);
    try exact I; try exact N; cbn [thr log topics groups head cbs opt]; rewrite ?app_nil_r; try reflexivity; keep I.
  - apply wakes_id.
  - apply upd_id.
  - intros l [].
  - exact A.
  - intros j q J Q TQ. exact TQ.
  - discriminate.
  - rewrite upd_id. apply (find_upd bud s i _ _ _ _ I wakes_id N); try discriminate. reflexivity.
  - rewrite upd_length. apply I.
  - intros t' y Y. rewrite upd_nth in Y. destruct (Nat.eqb_spec t' t) as [->|NT].
    + rewrite X in Y. inversion Y; subst y; clear Y. 
      eapply topic_frame with (s := s) (i := i) (p := AdvName t name) (p' := AdvAcq t name) (x := x) (w := fun q => q); cbn [thr log]; try reflexivity; auto.
      * apply wakes_id. 
      * apply upd_id.
      * now apply (v_topic _ _ I).
    + eapply topic_frame with (s := s) (i := i) (p := AdvName t name) (p' := AdvAcq t name) (x := y) (w := fun q => q); cbn [thr log]; try reflexivity; auto.
      * apply wakes_id. 
      * apply upd_id.
      * now apply (v_topic _ _ I).
  - constructor; cbn [thr log topics head].
    + eapply lseg_upd; [exact X|reflexivity|apply AD].
    + intros t' n y H Y. rewrite upd_other in Y; [eapply a_names; eauto|]. intros ->. apply NI. now apply (in_map fst) in H.
    + intros t' y Y H. rewrite upd_nth in Y. destruct (Nat.eqb_spec t' t) as [->|]; [|eapply a_next; eauto].
      rewrite X in Y. inversion Y; subst. cbn. eapply a_next; eauto.
    + intros j q t' n y J K Y. destruct (Nat.eq_dec j i) as [->|J0].
      * rewrite (upd_same _ _ _ _ _ N) in J. inversion J; subst. destruct K as [K|K]; inversion K; subst.
        rewrite (upd_same _ _ _ _ _ X) in Y. inversion Y; subst. reflexivity.
      * rewrite upd_other in J by auto. rewrite upd_other in Y; [eapply a_pend; eauto|]. intros ->.
        apply naming_pnd in K. rewrite (PA _ _ J0 J) in K. discriminate.
Qed.

Lemma step_advlink s i t name x : Inv bud s -> nth_error (thr s) i = Some (AdvLink t name) -> nth_error (topics s) t = Some x ->
  let nxt := match head s with Some h => Some h | None => next x end in
  Inv bud (say (goto (set_head (set_topic s t (mktopic (buf x) (tname x) (published x) (watchers x) nxt (messages x))) (Some t))
                     i (AdvCb t (cbs s))) (EAdv i t name)).
Proof.
  intros I N X. pose proof (v_T _ _ I _ _ N) as A. pose proof (v_adv _ _ I) as AD.
  destruct (pending_alone _ _ _ t I N) as [NI PA]; [cbn; now rewrite Nat.eqb_refl|].
  assert (AL : adv_list (log s ++ [EAdv i t name]) = (t, name) :: adv_list (log s)).
  { unfold adv_list. rewrite flat_map_app. cbn. rewrite rev_app_distr. reflexivity. }
  assert (PO : forall t', pubs (log s ++ [EAdv i t name]) t' = pubs (log s) t').
  { intros t'. apply pubs_snoc_not. intros j m E. discriminate. }
  assert (WO : forall g t', In (EWatch g t') (log s ++ [EAdv i t name]) -> In (EWatch g t') (log s)).
  { intros g t' H. apply in_app_iff in H as [H|[H|[]]]; [auto|discriminate]. }
  cbv zeta. set (nxt := match head s with Some h => Some h | None => next x end).
  assert (NX : nxt = head s). { unfold nxt. destruct (head s); [reflexivity|]. eapply a_next; eauto. }
  unfold say, goto, set_head, set_topic, set_thr; cbn [thr log topics groups head cbs].
  eapply inv_thr with (w := fun q => q) (e := Some (EAdv i t name)) (p := AdvLink t name) (i := i) (p' := AdvCb t (cbs s)) (bud := bud);
    try exact I; try exact N; cbn [thr log topics groups head cbs opt]; try reflexivity; keep I.
  - apply wakes_id.
  - apply upd_id.
  - intros l H. left. exact H.
  - cbn [T]. destruct A as [_ (c & a & E & NC)]. exists name, a, c, []. split; [split|].
    + rewrite E, <- app_assoc. reflexivity.
    + rewrite app_nil_r. exact NC.
    + intros c0 G. left. apply (v_cbs _ _ I). rewrite E. apply in_app_iff in G as [G|G]; apply in_app_iff; cbn; auto.
  - intros j q J Q TQ. apply T_frame; auto; try discriminate; [intros ? (? & ? & ?)|intros ? [? ?]]; discriminate.
  - intros e E. inversion E; subst. destruct A as [_ A]. exact A.
  - intro u. rewrite AL. cbn [map fst count_occ pnd]. destruct (Nat.eq_dec t u) as [->|NE]; [rewrite Nat.eqb_refl; lia|].
    destruct (Nat.eqb_spec t u); [congruence|lia].
  - intros j n J. right. exists i, t, (cbs s). eapply upd_same; eauto.
  - rewrite upd_length. apply I.
  - intros t' y Y. rewrite upd_nth in Y. destruct (Nat.eqb_spec t' t) as [->|NT].
    + rewrite X in Y. inversion Y; subst y; clear Y.
      eapply topic_frame with (s := s) (i := i) (p := AdvLink t name) (p' := AdvCb t (cbs s)) (x := x) (w := fun q => q); cbn [thr log]; try reflexivity; auto.
      * apply wakes_id. 
      * apply upd_id.
      * now apply (v_topic _ _ I).
    + eapply topic_frame with (s := s) (i := i) (p := AdvLink t name) (p' := AdvCb t (cbs s)) (x := y) (w := fun q => q); cbn [thr log]; try reflexivity; auto.
      * apply wakes_id. 
      * apply upd_id.
      * now apply (v_topic _ _ I).
  - constructor; cbn [thr log topics head]; rewrite ?AL; cbn [map fst lseg In].
    + split; [reflexivity|]. eexists. split; [eapply upd_same; exact X|]. cbn [next]. rewrite NX. apply lseg_out; [apply AD|exact NI].
    + intros t' n y [H|H] Y.
      * inversion H; subst. rewrite (upd_same _ _ _ _ _ X) in Y. inversion Y; subst. cbn. eapply a_pend; eauto. right. reflexivity.
      * rewrite upd_other in Y; [eapply a_names; eauto|]. intros ->. apply NI. now apply (in_map fst) in H.
    + intros t' y Y H. rewrite upd_other in Y by auto. eapply a_next; eauto.
    + intros j q t' n y J K Y. destruct (Nat.eq_dec j i) as [->|J0].
      * rewrite (upd_same _ _ _ _ _ N) in J. inversion J; subst. destruct K as [K|K]; discriminate.
      * rewrite upd_other in J by auto. rewrite upd_other in Y; [eapply a_pend; eauto|]. intros ->.
        apply naming_pnd in K. rewrite (PA _ _ J0 J) in K. discriminate.
  - intros g' r G. rewrite (v_grp _ _ I _ _ G). unfold last_notified. now rewrite fold_left_app.
  - intros c C. apply (v_cbs _ _ I). apply in_app_iff in C as [C|[C|[]]]; [auto|discriminate].
Qed.

(** ** Lookup *)
Fixpoint first_named (l : list (nat * str)) (name : str) : option nat :=
  match l with [] => None | (t, n) :: l => if list_eq_dec Z.eq_dec (firstn NAME_MAX n) name then Some t else first_named l name end.
Lemma lookup_first h name : lookup h name = first_named (adv_list h) name.
Proof.
  induction h as [|e h IH] using rev_ind; [reflexivity|]. unfold lookup, adv_list in *. rewrite fold_left_app, flat_map_app, rev_app_distr, IH.
  destruct e; reflexivity.
Qed.
Lemma walk ts name : forall al cur fuel, lseg ts cur (map fst al) -> (forall t n x, In (t, n) al -> nth_error ts t = Some x -> tname x = firstn NAME_MAX n) ->
  (length al <= fuel)%nat -> topic_by_name fuel ts cur name = Some (first_named al name).
Proof.
  induction al as [|[t n] al IH]; intros cur fuel S NM L; cbn [map fst lseg first_named] in *.
  - subst. now destruct fuel.
  - destruct S as (-> & x & X & S). destruct fuel; [cbn in L; lia|]. cbn [topic_by_name]. rewrite X. unfold str_eqb.
    rewrite (NM t n x) by (cbn; auto). destruct (list_eq_dec Z.eq_dec name (firstn NAME_MAX n)) as [E|E], (list_eq_dec Z.eq_dec (firstn NAME_MAX n) name); try congruence.
    apply IH; [auto| |cbn in L; lia]. intros; eapply NM; cbn; eauto.
Qed.
Lemma lseg_in ts : forall l cur, lseg ts cur l -> forall t, In t l -> (t < length ts)%nat.
Proof.
  induction l as [|a l IH]; intros cur S t H; [destruct H|]. destruct S as (_ & x & X & S). destruct H as [->|H]; [|eauto].
  apply nth_error_Some. congruence.
Qed.
Lemma find_ok s name : Inv bud s -> topic_by_name (S (length (topics s))) (topics s) (head s) name = Some (lookup (log s) name).
Proof.
  intro I. rewrite lookup_first. pose proof (v_adv _ _ I) as A. apply walk; [apply A|apply A|].
  rewrite <- (map_length fst). apply le_S. rewrite <- (seq_length (length (topics s)) 0). apply NoDup_incl_length.
  - apply (NoDup_count_occ Nat.eq_dec). intro t. pose proof (v_cnt _ _ I t). pose proof (Hbud t). cbn beta in *. eapply Nat.le_trans; [|eassumption]. eapply Nat.le_trans; [|eassumption]. apply Nat.le_add_l.
  - intros t H. apply in_seq. pose proof (lseg_in _ _ _ (a_seg _ A) _ H). lia.
Qed.
End Budget.
End Inv.
