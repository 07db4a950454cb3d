(** Proofs about the LRU cache and the anchor position cache. *)
From Coq Require Import NArith List Lia PeanoNat Sorted Bool.
From Verif Require Import LruModel LruSpec.
Import ListNotations.

Fixpoint chain (nxt : nat -> option nat) (p : option nat) (l : list nat) : Prop :=
  match l with
  | [] => p = None
  | x :: l => p = Some x /\ chain nxt (nxt x) l
  end.

Lemma upd_eq {A} (f : nat -> A) i v : upd f i v i = v.
Proof. unfold upd. now rewrite Nat.eqb_refl. Qed.
Lemma upd_neq {A} (f : nat -> A) i j v : i <> j -> upd f i v j = f j.
Proof. intro H. unfold upd. now rewrite (proj2 (Nat.eqb_neq i j) H). Qed.

Lemma chain_upd nxt i v l : forall p, ~ In i l -> chain nxt p l -> chain (upd nxt i v) p l.
Proof.
  induction l as [|x l IH]; intros p N C; [exact C|]. destruct C as [-> C]. split; [reflexivity|].
  rewrite upd_neq by (intros ->; apply N; now left). apply IH; [|exact C]. intro; apply N; now right.
Qed.

(** predecessor of the end of [l], or [prev] *)
Definition lastp (prev : option nat) (l : list nat) : option nat :=
  fold_left (fun _ x => Some x) l prev.
Lemma lastp_app prev l x : lastp prev (l ++ [x]) = Some x.
Proof. unfold lastp. now rewrite fold_left_app. Qed.

Lemma to_tail_spec nxt l : forall fuel prev cur z, chain nxt (Some cur) (l ++ [z]) -> length l < fuel ->
  to_tail fuel nxt prev cur = Ok (lastp prev l, z).
Proof.
  induction l as [|x l IH]; intros fuel prev cur z C F; (destruct fuel as [|fuel]; [cbn in F; lia|]).
  - destruct C as [E C]. inversion E; subst. cbn. cbn in C. now rewrite C.
  - destruct C as [E C]. inversion E; subst. cbn [to_tail].
    destruct (nxt x) as [c|] eqn:Ex.
    + rewrite (IH fuel (Some x) c z C); [reflexivity|]. cbn in F. lia.
    + destruct l; cbn in C; destruct C; discriminate.
Qed.

Lemma chain_cut nxt l a z : forall p, NoDup (l ++ [a; z]) -> chain nxt p (l ++ [a; z]) ->
  chain (upd nxt a None) p (l ++ [a]).
Proof.
  induction l as [|x l IH]; intros p ND C.
  - destruct C as [-> _]. split; [reflexivity|]. cbn. now rewrite upd_eq.
  - destruct C as [-> C]. inversion ND; subst. split; [reflexivity|].
    rewrite upd_neq; [now apply IH|]. intros ->. apply H1. apply in_or_app. right; now left.
Qed.

(** unlinking [e] after the non-empty prefix [l ++ [a]] *)
Lemma chain_unlink nxt l a e r : forall p, NoDup (l ++ a :: e :: r) -> chain nxt p (l ++ a :: e :: r) ->
  chain (upd nxt a (nxt e)) p (l ++ a :: r).
Proof.
  induction l as [|x l IH]; intros p ND C.
  - destruct C as [-> [E C]]. split; [reflexivity|]. rewrite upd_eq.
    cbn in ND. inversion ND; subst. apply chain_upd; [|exact C]. intro; apply H1; now right.
  - destruct C as [-> C]. inversion ND; subst. split; [reflexivity|].
    rewrite upd_neq; [now apply IH|]. intros ->. apply H1. apply in_or_app. right; now left.
Qed.

Lemma search_spec c k l : forall fuel prev cur, chain (next c) cur l -> length l < fuel ->
  (Forall (fun e => key c e <> k) l /\ search fuel c k prev cur = Ok (lastp prev l, None)) \/
  (exists A e B, l = A ++ e :: B /\ Forall (fun e => key c e <> k) A /\ key c e = k /\
     search fuel c k prev cur = Ok (lastp prev A, Some e)).
Proof.
  induction l as [|x l IH]; intros fuel prev cur C F; (destruct fuel as [|fuel]; [cbn in F; lia|]).
  - cbn in C. subst. left. split; [constructor|reflexivity].
  - destruct C as [-> C]. cbn [search]. destruct (N.eqb_spec (key c x) k) as [E|NE].
    + right. exists [], x, l. repeat split; auto.
    + cbn in F. destruct (IH fuel (Some x) _ C ltac:(lia)) as [[HF HS]|(A & e & B & -> & HF & HE & HS)].
      * left. split; [now constructor|exact HS].
      * right. exists (x :: A), e, B. repeat split; auto.
Qed.

(** Representation invariant: [L] used entries (most recent first), [F] free entries. *)
Record Rep (n : nat) (c : cache) (L F : list nat) : Prop := {
  rep_used : chain (next c) (used_list c) L;
  rep_free : chain (next c) (free_list c) F;
  rep_nodup : NoDup (L ++ F);
  rep_all : forall e, In e (L ++ F) <-> e < n }.

Lemma chain_seq n nxt : forall m s, s + m = n ->
  (forall i, nxt i = if Nat.ltb (S i) n then Some (S i) else None) ->
  chain nxt (if Nat.eqb m 0 then None else Some s) (seq s m).
Proof.
  induction m as [|m IH]; intros s E H; [reflexivity|].
  cbn [Nat.eqb seq chain]. split; [reflexivity|]. rewrite H.
  specialize (IH (S s) ltac:(lia) H). destruct m as [|m].
  - cbn [Nat.eqb seq chain]. destruct (Nat.ltb_spec (S s) n); [lia|reflexivity].
  - cbn [Nat.eqb] in IH. destruct (Nat.ltb_spec (S s) n); [exact IH|lia].
Qed.

Lemma init_rep n : 0 < n -> exists c, cache_init n = Ok c /\ Rep n c [] (seq 0 n).
Proof.
  intro H. destruct n as [|n]; [lia|]. eexists. split; [reflexivity|]. split.
  - reflexivity.
  - cbn [free_list next]. apply (chain_seq (S n) _ (S n) 0); [lia|]. reflexivity.
  - apply seq_NoDup.
  - intro e. cbn [app]. rewrite in_seq. lia.
Qed.

Lemma NoDup_app_inv {A} (l1 l2 : list A) : NoDup (l1 ++ l2) -> NoDup l1 /\ NoDup l2 /\ (forall x, In x l1 -> ~ In x l2).
Proof.
  induction l1 as [|a l1 IH]; cbn; intro H.
  - repeat split; auto. constructor.
  - inversion H; subst. destruct (IH H3) as (H4 & H5 & H6). repeat split; auto.
    + constructor; auto. intro; apply H2. apply in_or_app; auto.
    + intros x [->|Hx]; auto. intro; apply H2; apply in_or_app; auto.
Qed.

Lemma rep_len n c L F : Rep n c L F -> length L + length F = n.
Proof.
  intros R. rewrite <- app_length.
  assert (P : length (L ++ F) = length (seq 0 n)).
  { apply Nat.le_antisymm.
    - apply NoDup_incl_length; [apply (rep_nodup _ _ _ _ R)|].
      intros x Hx. apply (rep_all _ _ _ _ R) in Hx. apply in_seq. lia.
    - apply NoDup_incl_length; [apply seq_NoDup|].
      intros x Hx. apply in_seq in Hx. apply (rep_all _ _ _ _ R). lia. }
  rewrite P. apply seq_length.
Qed.

Lemma alloc_free_rep n fuel c k L e F : Rep n c L (e :: F) ->
  exists c', cache_entry_allocate fuel c k = Ok (c', e) /\ Rep n c' (e :: L) F /\
             key c' = upd (key c) e k.
Proof.
  intros [U FR ND AL]. destruct FR as [E FR]. unfold cache_entry_allocate. rewrite E.
  eexists. split; [reflexivity|]. split; [|reflexivity].
  destruct (NoDup_app_inv _ _ ND) as (NL & NF & DJ). inversion NF; subst.
  split; cbn [push_used used_list free_list next].
  - split; [reflexivity|]. rewrite upd_eq. apply chain_upd; [|exact U]. intro Hin. apply (DJ _ Hin). now left.
  - apply chain_upd; auto.
  - apply NoDup_Add with (a := e) (l := L ++ F); [apply Add_head|]. split.
    + apply NoDup_remove_1 in ND. exact ND.
    + apply NoDup_remove_2 in ND. exact ND.
  - intro x. rewrite <- AL. cbn. rewrite !in_app_iff. cbn. tauto.
Qed.

Lemma alloc_full_rep n fuel c k L z : Rep n c (L ++ [z]) [] -> L <> [] -> n <= fuel ->
  exists c', cache_entry_allocate fuel c k = Ok (c', z) /\ Rep n c' (z :: L) [] /\
             key c' = upd (key c) z k.
Proof.
  intros R NE HF. pose proof (rep_len _ _ _ _ R) as LEN. destruct R as [U FR ND AL].
  cbn in FR. unfold cache_entry_allocate. rewrite FR.
  rewrite app_length in LEN; cbn in LEN.
  destruct (used_list c) as [cur|] eqn:EU; [|destruct L; destruct U; discriminate].
  rewrite (to_tail_spec _ L fuel None cur z U) by lia.
  destruct (exists_last NE) as (L' & a & ->). rewrite lastp_app.
  eexists. split; [reflexivity|]. split; [|reflexivity].
  rewrite app_nil_r in ND. rewrite <- app_assoc in ND, U. cbn in ND, U.
  split; cbn [push_used used_list free_list next].
  - split; [reflexivity|]. rewrite upd_eq. apply chain_upd.
    + intro Hin. apply NoDup_rev in ND. rewrite rev_app_distr in ND. cbn in ND.
      inversion ND; subst. apply H1. rewrite in_app_iff in Hin. cbn in Hin. cbn.
      destruct Hin as [Hin|[<-|[]]]; [right; now apply in_rev in Hin|now left].
    + apply chain_cut with z; assumption.
  - reflexivity.
  - rewrite app_nil_r. apply NoDup_Add with (a := z) (l := L' ++ [a]); [apply Add_head|]. 
    replace (L' ++ [a; z]) with ((L' ++ [a]) ++ z :: []) in ND by now rewrite <- app_assoc.
    split.
    + apply NoDup_remove_1 in ND. now rewrite app_nil_r in ND.
    + apply NoDup_remove_2 in ND. now rewrite app_nil_r in ND.
  - intro x. rewrite <- AL. rewrite !app_nil_r. cbn. rewrite !in_app_iff. cbn. tauto.
Qed.

Lemma get_rep n fuel c k L F : Rep n c L F -> n < fuel ->
  (Forall (fun e => key c e <> k) L /\ cache_entry_get fuel c k = Ok (c, None)) \/
  (exists A e B c', L = A ++ e :: B /\ Forall (fun e => key c e <> k) A /\ key c e = k /\
     cache_entry_get fuel c k = Ok (c', Some e) /\ Rep n c' (e :: A ++ B) F /\ key c' = key c).
Proof.
  intros R HF. pose proof (rep_len _ _ _ _ R) as LEN. destruct R as [U FR ND AL]. unfold cache_entry_get.
  destruct (search_spec c k L fuel None (used_list c) U ltac:(lia)) as [[H1 H2]|(A & e & B & -> & H1 & H2 & H3)].
  - left. rewrite H2. now split.
  - right. rewrite H3. destruct A as [|a0 A0] eqn:EA.
    + exists [], e, B, c. split; [reflexivity|]. split; [exact H1|]. split; [exact H2|]. split; [reflexivity|].
      split; [|reflexivity]. split; assumption.
    + destruct (exists_last (l := a0 :: A0) ltac:(discriminate)) as (A' & a & EA').
      rewrite EA' in *. clear EA EA' a0 A0. rewrite lastp_app.
      exists (A' ++ [a]), e, B. eexists. split; [reflexivity|]. split; [exact H1|]. split; [exact H2|].
      split; [reflexivity|]. split; [|reflexivity].
      destruct (NoDup_app_inv _ _ ND) as (NL & NF & DJ).
      rewrite <- !app_assoc in *. cbn [app] in *.
      assert (NE : a <> e /\ ~ In e A' /\ ~ In e B).
      { repeat split.
        - intros ->. apply NoDup_remove_2 in NL. apply NL. apply in_or_app. right; now left.
        - intro Hi. replace (A' ++ a :: e :: B) with ((A' ++ [a]) ++ e :: B) in NL by now rewrite <- app_assoc.
          apply NoDup_remove_2 in NL. apply NL. rewrite !in_app_iff. auto.
        - intro Hi. replace (A' ++ a :: e :: B) with ((A' ++ [a]) ++ e :: B) in NL by now rewrite <- app_assoc.
          apply NoDup_remove_2 in NL. apply NL. rewrite !in_app_iff. auto. }
      destruct NE as (NE1 & NE2 & NE3).
      split; cbn [used_list free_list next key].
      * split; [reflexivity|]. rewrite upd_eq. apply chain_upd.
        -- rewrite in_app_iff. cbn. firstorder.
        -- apply chain_unlink; [exact NL|exact U].
      * apply chain_upd; [|apply chain_upd; [|exact FR]].
        -- apply DJ. rewrite in_app_iff. right; right; now left.
        -- apply DJ. rewrite in_app_iff. right; now left.
      * rewrite <- ?app_assoc in ND. cbn [app] in ND. replace (A' ++ a :: e :: B ++ F) with ((A' ++ [a]) ++ e :: (B ++ F)) in ND
          by (rewrite <- !app_assoc; reflexivity).
        cbn. constructor.
        -- apply (NoDup_remove_2 (A' ++ [a]) (B ++ F) e) in ND. rewrite <- ?app_assoc in *. cbn in *. rewrite <- ?app_assoc. exact ND.
        -- apply (NoDup_remove_1 (A' ++ [a]) (B ++ F) e) in ND. rewrite <- ?app_assoc in *. cbn in *. rewrite <- ?app_assoc. exact ND.
      * intro x. rewrite <- AL. cbn. rewrite !in_app_iff. cbn. rewrite !in_app_iff. cbn. tauto.
Qed.

(** * History invariant *)

Record HInv (n : nat) (c : cache) (tr : list event) (L F : list nat) : Prop := {
  h_rep : Rep n c L F;
  h_sorted : StronglySorted (more_recent tr) L;
  h_used : forall e, In e L <-> age tr e <> None;
  h_key : forall e, In e L -> current_key tr e = Some (key c e);
  h_nokey : forall e, ~ In e L -> current_key tr e = None }.

Lemma more_recent_other ev tr a b : uses ev a = false -> uses ev b = false ->
  more_recent tr a b -> more_recent (ev :: tr) a b.
Proof.
  intros Ha Hb (i & j & E1 & E2 & L). exists (S i), (S j). cbn. rewrite Ha, Hb, E1, E2. cbn. repeat split. lia.
Qed.
Lemma more_recent_front ev tr a b : uses ev a = true -> uses ev b = false -> age tr b <> None ->
  more_recent (ev :: tr) a b.
Proof.
  intros Ha Hb N. destruct (age tr b) as [j|] eqn:E; [|congruence].
  exists 0, (S j). cbn. rewrite Ha, Hb, E. cbn. repeat split. lia.
Qed.

Lemma ssorted_map tr tr' l : (forall a b, In a l -> In b l -> more_recent tr a b -> more_recent tr' a b) ->
  StronglySorted (more_recent tr) l -> StronglySorted (more_recent tr') l.
Proof.
  intros H S. induction S as [|a l S IH F]; [constructor|]. constructor.
  - apply IH. intros; apply H; auto; now right.
  - rewrite Forall_forall in *. intros x Hx. apply H; auto; [now left|now right].
Qed.

Lemma ssorted_remove {R : nat -> nat -> Prop} A e B : StronglySorted R (A ++ e :: B) -> StronglySorted R (A ++ B).
Proof.
  induction A as [|a A IH]; cbn; intro S; inversion S; subst; [assumption|].
  constructor; auto. rewrite Forall_forall in *. intros x Hx. apply H2. rewrite in_app_iff in *. cbn. tauto.
Qed.

(** An event using [e] puts it in front of the others. *)
Lemma sorted_front ev tr e M : (forall x, uses ev x = Nat.eqb e x) ->
  StronglySorted (more_recent tr) M -> ~ In e M -> (forall x, In x M -> age tr x <> None) ->
  StronglySorted (more_recent (ev :: tr)) (e :: M).
Proof.
  intros U S NI AG.
  assert (NU : forall x, In x M -> uses ev x = false).
  { intros x Hx. rewrite U. apply Nat.eqb_neq. intros ->. contradiction. }
  constructor.
  - apply ssorted_map with tr; [|exact S]. intros a b Ha Hb. apply more_recent_other; auto.
  - apply Forall_forall. intros x Hx. apply more_recent_front; auto. rewrite U. apply Nat.eqb_refl.
Qed.

Lemma age_cons_use ev tr e x : (forall y, uses ev y = Nat.eqb e y) ->
  (age (ev :: tr) x <> None <-> (x = e \/ age tr x <> None)).
Proof.
  intro U. cbn. rewrite U. destruct (Nat.eqb_spec e x) as [->|NE].
  - split; [now left|intros; discriminate].
  - split; intro H.
    + right. intro Z. rewrite Z in H. now apply H.
    + destruct H as [H|H]; [congruence|]. now destruct (age tr x).
Qed.

Lemma step_hinv n fuel c tr L F o : 2 <= n -> n < fuel -> HInv n c tr L F ->
  exists c' ev L' F', step fuel c o = Ok (c', ev) /\ HInv n c' (ev :: tr) L' F' /\
  match o with
  | OAlloc k => exists e, ev = EAlloc k e /\ e < n /\
       (age tr e = None \/
        ((forall e', e' < n -> age tr e' <> None) /\ forall e', e' < n -> e' <> e -> more_recent tr e' e))
  | OGet k => exists r, ev = EGet k r /\
       match r with
       | Some e => current_key tr e = Some k /\
                   forall e', e' <> e -> current_key tr e' = Some k -> more_recent tr e e'
       | None => forall e, current_key tr e <> Some k
       end
  end.
Proof.
  intros Hn Hf [R S U K NK]. destruct o as [k|k].
  - (* alloc *)
    destruct F as [|e F].
    + pose proof (rep_len _ _ _ _ R) as LEN. cbn in LEN.
      assert (NEL : L <> []) by (intros ->; cbn in LEN; lia).
      destruct (exists_last NEL) as (L' & z & ->).
      assert (NEL' : L' <> []) by (intros ->; cbn in LEN; lia).
      destruct (alloc_full_rep n fuel c k L' z R NEL' ltac:(lia)) as (c' & E & R' & KE).
      exists c', (EAlloc k z), (z :: L'), []. unfold step. rewrite E. split; [reflexivity|].
      assert (ND : NoDup (L' ++ [z])) by (pose proof (rep_nodup _ _ _ _ R) as X; now rewrite app_nil_r in X).
      assert (NZ : ~ In z L') by (apply NoDup_remove_2 in ND; now rewrite app_nil_r in ND).
      assert (UZ : forall x, uses (EAlloc k z) x = Nat.eqb z x) by reflexivity.
      split; [split|].
      * exact R'.
      * apply sorted_front; auto.
        -- apply ssorted_remove in S. now rewrite app_nil_r in S.
        -- intros x Hx. apply U. apply in_or_app. now left.
      * intro x. rewrite (age_cons_use _ tr z x UZ). rewrite <- (U x). rewrite in_app_iff. cbn. intuition.
      * intros x Hx. rewrite KE. cbn. destruct (Nat.eqb_spec z x) as [->|NE].
        -- now rewrite upd_eq.
        -- rewrite upd_neq by exact NE. apply K. destruct Hx; [congruence|]. apply in_or_app. now left.
      * intros x Hx. cbn. destruct (Nat.eqb_spec z x) as [->|NE]; [exfalso; apply Hx; now left|].
        apply NK. rewrite in_app_iff. cbn. intros [H|[H|[]]]; [apply Hx; now right|congruence].
      * exists z. split; [reflexivity|].
        assert (AL : forall e', e' < n -> In e' (L' ++ [z])).
        { intros e' He. apply (rep_all _ _ _ _ R) in He. now rewrite app_nil_r in He. }
        split; [apply (rep_all _ _ _ _ R); rewrite app_nil_r; apply in_or_app; right; now left|].
        right. split; [intros e' He; apply U, AL, He|].
        intros e' He NE. specialize (AL e' He). apply in_app_or in AL. destruct AL as [AL|[->|[]]]; [|congruence].
        clear - S AL. induction L' as [|a L' IH]; [destruct AL|]. cbn in S. inversion S; subst.
        destruct AL as [->|AL]; [|now apply IH]. rewrite Forall_forall in H2. apply H2. apply in_or_app. right; now left.
    + destruct (alloc_free_rep n fuel c k L e F R) as (c' & E & R' & KE).
      exists c', (EAlloc k e), (e :: L), F. unfold step. rewrite E. split; [reflexivity|].
      destruct (NoDup_app_inv _ _ (rep_nodup _ _ _ _ R)) as (NL & NF & DJ).
      assert (NZ : ~ In e L) by (intro H; apply (DJ _ H); now left).
      assert (UZ : forall x, uses (EAlloc k e) x = Nat.eqb e x) by reflexivity.
      split; [split|].
      * exact R'.
      * apply sorted_front; auto. intros x Hx. now apply U.
      * intro x. rewrite (age_cons_use _ tr e x UZ). rewrite <- (U x). cbn. intuition.
      * intros x Hx. rewrite KE. cbn. destruct (Nat.eqb_spec e x) as [->|NE].
        -- now rewrite upd_eq.
        -- rewrite upd_neq by exact NE. apply K. destruct Hx; [congruence|assumption].
      * intros x Hx. cbn. destruct (Nat.eqb_spec e x) as [->|NE]; [exfalso; apply Hx; now left|].
        apply NK. intro; apply Hx; now right.
      * exists e. split; [reflexivity|]. split; [apply (rep_all _ _ _ _ R); apply in_or_app; right; now left|].
        left. destruct (age tr e) eqn:EA; [|reflexivity]. exfalso. apply NZ, U. congruence.
  - (* get *)
    destruct (get_rep n fuel c k L F R Hf) as [[H1 H2]|(A & e & B & c' & -> & H1 & H2 & H3 & R' & KE)].
    + exists c, (EGet k None), L, F. unfold step. rewrite H2. split; [reflexivity|].
      assert (NU : forall x, uses (EGet k None) x = false) by reflexivity.
      split; [split|]; auto.
      * apply ssorted_map with tr; [|exact S]. intros a b _ _. apply more_recent_other; auto.
      * intro x. rewrite (U x). cbn. destruct (age tr x); cbn; intuition congruence.
      * exists None. split; [reflexivity|]. intros e E. rewrite Forall_forall in H1.
        destruct (in_dec Nat.eq_dec e L) as [I|I]; [|rewrite NK in E by exact I; discriminate].
        rewrite K in E by exact I. inversion E. now apply (H1 e I).
    + exists c', (EGet k (Some e)), (e :: A ++ B), F. unfold step. rewrite H3. split; [reflexivity|].
      destruct (NoDup_app_inv _ _ (rep_nodup _ _ _ _ R)) as (NL & NF & DJ).
      assert (NZ : ~ In e (A ++ B)) by now apply NoDup_remove_2 in NL.
      assert (UZ : forall x, uses (EGet k (Some e)) x = Nat.eqb e x) by reflexivity.
      assert (II : forall x, In x (e :: A ++ B) <-> In x (A ++ e :: B)).
      { intro x. cbn. rewrite !in_app_iff. cbn. tauto. }
      split; [split|].
      * exact R'.
      * apply sorted_front; auto.
        -- now apply ssorted_remove in S.
        -- intros x Hx. apply U. apply II. now right.
      * intro x. rewrite (age_cons_use _ tr e x UZ). rewrite <- (U x), <- II. cbn. intuition.
      * intros x Hx. rewrite KE. cbn. apply K, II, Hx.
      * intros x Hx. cbn. apply NK. now rewrite <- II.
      * exists (Some e). split; [reflexivity|].
        assert (IE : In e (A ++ e :: B)) by (apply in_or_app; right; now left).
        split; [rewrite (K e IE); now rewrite H2|].
        intros e' NE E'. destruct (in_dec Nat.eq_dec e' (A ++ e :: B)) as [I|I]; [|rewrite NK in E' by exact I; discriminate].
        rewrite K in E' by exact I. inversion E' as [E'']. apply in_app_or in I. destruct I as [I|[I|I]]; [|congruence|].
        -- rewrite Forall_forall in H1. now destruct (H1 e' I).
        -- clear - S I. induction A as [|a A IH]; cbn in S; inversion S; subst; [|now apply IH].
           rewrite Forall_forall in H2. now apply H2.
Qed.

Lemma init_hinv n : 0 < n -> exists c, cache_init n = Ok c /\ HInv n c [] [] (seq 0 n).
Proof.
  intro H. destruct (init_rep n H) as (c & E & R). exists c. split; [exact E|].
  split; auto; cbn; try constructor; try tauto; try congruence.
Qed.

Lemma run_from_hinv n fuel : 2 <= n -> n < fuel -> forall ops c tr L F, HInv n c tr L F ->
  exists c' tr' L' F', run_from fuel c tr ops = Ok (c', tr') /\ HInv n c' tr' L' F'.
Proof.
  intros Hn Hf. induction ops as [|o ops IH]; intros c tr L F H.
  - exists c, tr, L, F. now split.
  - destruct (step_hinv n fuel c tr L F o Hn Hf H) as (c' & ev & L' & F' & E & H' & _).
    cbn [run_from]. rewrite E. now apply (IH c' (ev :: tr) L' F').
Qed.

Lemma run_hinv n fuel ops : 2 <= n -> n < fuel ->
  exists c tr L F, run fuel n ops = Ok (c, tr) /\ HInv n c tr L F.
Proof.
  intros Hn Hf. unfold run. destruct (init_hinv n ltac:(lia)) as (c & E & H). rewrite E.
  now apply (run_from_hinv n fuel Hn Hf ops c [] [] (seq 0 n)).
Qed.

Lemma lru_total_l n fuel ops : 2 <= n -> n < fuel -> exists c tr, run fuel n ops = Ok (c, tr).
Proof. intros Hn Hf. destruct (run_hinv n fuel ops Hn Hf) as (c & tr & _ & _ & E & _). eauto. Qed.

Lemma lru_alloc_l n fuel ops c tr k : 2 <= n -> n < fuel -> run fuel n ops = Ok (c, tr) ->
  exists c' e, cache_entry_allocate fuel c k = Ok (c', e) /\ e < n /\
    (age tr e = None \/
     ((forall e', e' < n -> age tr e' <> None) /\ (forall e', e' < n -> e' <> e -> more_recent tr e' e))).
Proof.
  intros Hn Hf E. destruct (run_hinv n fuel ops Hn Hf) as (c0 & tr0 & L & F & E0 & H).
  rewrite E in E0. inversion E0; subst c0 tr0.
  destruct (step_hinv n fuel c tr L F (OAlloc k) Hn Hf H) as (c' & ev & L' & F' & E1 & _ & e & -> & He & P).
  unfold step in E1. destruct (cache_entry_allocate fuel c k) as [[c1 e1]| |]; try discriminate.
  inversion E1; subst. exists c', e. repeat split; auto.
Qed.

Lemma lru_get_l n fuel ops c tr k : 2 <= n -> n < fuel -> run fuel n ops = Ok (c, tr) ->
  exists c' r, cache_entry_get fuel c k = Ok (c', r) /\
    match r with
    | Some e => current_key tr e = Some k /\
                forall e', e' <> e -> current_key tr e' = Some k -> more_recent tr e e'
    | None => forall e, current_key tr e <> Some k
    end.
Proof.
  intros Hn Hf E. destruct (run_hinv n fuel ops Hn Hf) as (c0 & tr0 & L & F & E0 & H).
  rewrite E in E0. inversion E0; subst c0 tr0.
  destruct (step_hinv n fuel c tr L F (OGet k) Hn Hf H) as (c' & ev & L' & F' & E1 & _ & r & -> & P).
  unfold step in E1. destruct (cache_entry_get fuel c k) as [[c1 e1]| |]; try discriminate.
  inversion E1; subst. exists c', r. split; auto.
Qed.

(** The entries never returned are exactly those still to be handed out. *)
Lemma lru_unused_first_l n fuel ops c tr e : 2 <= n -> n < fuel -> run fuel n ops = Ok (c, tr) ->
  current_key tr e = None <-> age tr e = None.
Proof.
  intros Hn Hf E. destruct (run_hinv n fuel ops Hn Hf) as (c0 & tr0 & L & F & E0 & H).
  rewrite E in E0. inversion E0; subst c0 tr0. destruct H as [R S U K NK].
  split; intro Z.
  - destruct (age tr e) eqn:EA; [|reflexivity]. rewrite K in Z; [discriminate|]. apply U. congruence.
  - apply NK. rewrite U. congruence.
Qed.

(** Capacity one: evicting the only entry links it to itself. *)
Lemma lru_capacity_one_l : forall fuel, exists c tr,
  run (S fuel) 1 [OAlloc 1%N; OAlloc 2%N] = Ok (c, tr) /\ forall f, cache_entry_get f c 3%N = Diverge.
Proof.
  intro fuel. eexists. eexists. split; [reflexivity|].
  intro f. unfold cache_entry_get. cbn [used_list push_used].
  match goal with |- context [search _ ?c _ _ _] => set (C := c) end.
  assert (Q : forall f p, search f C 3%N p (Some 0) = Diverge).
  { clear f. induction f as [|f IH]; intro p; [reflexivity|]. cbn [search].
    change (key C 0) with 2%N. change (N.eqb 2 3) with false. change (next C 0) with (Some 0). apply IH. }
  now rewrite Q.
Qed.

(** * Anchor cache *)

(** Invariant after a history [h] (newest first). *)
Record AInv (a : acache) (h : list aop) (L F : list nat) : Prop := {
  a_rep : Rep CACHE_ENTRIES (lru a) L F;
  a_keys : NoDup (map (key (lru a)) L);
  a_content : forall e, In e L -> last_msg h (key (lru a) e) = Some (content a e) }.

Lemma nodup_map_upd (f : nat -> N) L e k : NoDup (map f L) -> ~ In e L -> ~ In k (map f L) ->
  NoDup (map (upd f e k) (e :: L)) /\ map (upd f e k) L = map f L.
Proof.
  intros ND NI NK. assert (E : map (upd f e k) L = map f L).
  { apply map_ext_in. intros x Hx. apply upd_neq. intros ->. contradiction. }
  split; [|exact E]. cbn [map]. rewrite E, upd_eq. now constructor.
Qed.

Lemma nodup_map_move (f : nat -> N) A e B : NoDup (map f (A ++ e :: B)) -> NoDup (map f (e :: A ++ B)).
Proof.
  rewrite map_app. cbn [map]. intro H. rewrite map_app. constructor.
  - now apply NoDup_remove_2 in H.
  - now apply NoDup_remove_1 in H.
Qed.

(** One step. [L'] is described relative to [L] so that positions can be tracked. *)
Lemma amsg_inv fuel a h L F m : CACHE_ENTRIES < fuel -> AInv a h L F ->
  exists a' L' F', anchor_on_msg fuel a m = Ok a' /\ AInv a' (AMsg m :: h) L' F' /\
    ((exists A e B, L = A ++ e :: B /\ L' = e :: A ++ B /\ key (lru a) e = anchor_addr m /\ key (lru a') = key (lru a))
     \/ (~ In (anchor_addr m) (map (key (lru a)) L) /\ exists e, ~ In e L /\ L' = e :: L /\ key (lru a') = upd (key (lru a)) e (anchor_addr m))
     \/ (~ In (anchor_addr m) (map (key (lru a)) L) /\ length L = CACHE_ENTRIES /\ exists L0 z, L = L0 ++ [z] /\ L' = z :: L0 /\ key (lru a') = upd (key (lru a)) z (anchor_addr m))).
Proof.
  intros Hf [R ND CT]. unfold anchor_on_msg.
  destruct (get_rep _ fuel (lru a) (anchor_addr m) L F R Hf) as [[H1 H2]|(A & e & B & c' & -> & H1 & H2 & H3 & R' & KE)].
  - rewrite H2.
    assert (NK : ~ In (anchor_addr m) (map (key (lru a)) L)).
    { rewrite in_map_iff. intros (x & E & Hx). rewrite Forall_forall in H1. now apply (H1 x). }
    destruct F as [|e F].
    + pose proof (rep_len _ _ _ _ R) as LEN. cbn [length] in LEN. rewrite Nat.add_0_r in LEN.
      assert (NEL : L <> []) by (intros ->; cbn in LEN; unfold CACHE_ENTRIES in LEN; lia).
      destruct (exists_last NEL) as (L0 & z & ->).
      assert (NEL' : L0 <> []) by (intros ->; cbn in LEN; unfold CACHE_ENTRIES in LEN; lia).
      destruct (alloc_full_rep _ fuel _ (anchor_addr m) L0 z R NEL' ltac:(lia)) as (c' & E & R' & KE).
      rewrite E. eexists. exists (z :: L0), []. split; [reflexivity|].
      assert (NDL : NoDup (L0 ++ [z])) by (pose proof (rep_nodup _ _ _ _ R) as X; now rewrite app_nil_r in X).
      assert (NZ : ~ In z L0) by (apply NoDup_remove_2 in NDL; now rewrite app_nil_r in NDL).
      assert (NK0 : ~ In (anchor_addr m) (map (key (lru a)) L0)).
      { intro X. apply NK. rewrite map_app, in_app_iff. now left. }
      assert (ND0 : NoDup (map (key (lru a)) L0)).
      { rewrite map_app in ND. apply NoDup_app_inv in ND. apply ND. }
      destruct (nodup_map_upd (key (lru a)) L0 z (anchor_addr m) ND0 NZ NK0) as [Q1 Q2].
      split.
      * split; cbn [lru content].
        -- exact R'.
        -- rewrite KE. exact Q1.
        -- intros x Hx. rewrite KE. destruct (Nat.eq_dec z x) as [->|NE].
           ++ rewrite !upd_eq. cbn. now rewrite N.eqb_refl.
           ++ rewrite !upd_neq by exact NE. destruct Hx as [Hx|Hx]; [congruence|].
              cbn. destruct (N.eqb_spec (anchor_addr m) (key (lru a) x)) as [Z|_].
              ** exfalso. apply NK0. rewrite Z. now apply in_map.
              ** apply CT. apply in_or_app. now left.
      * right. right. split; [exact NK|]. split; [exact LEN|]. exists L0, z. cbn [lru]. auto.
    + destruct (alloc_free_rep _ fuel _ (anchor_addr m) L e F R) as (c' & E & R' & KE).
      rewrite E. eexists. exists (e :: L), F. split; [reflexivity|].
      destruct (NoDup_app_inv _ _ (rep_nodup _ _ _ _ R)) as (NL & NF & DJ).
      assert (NZ : ~ In e L) by (intro H; apply (DJ _ H); now left).
      destruct (nodup_map_upd (key (lru a)) L e (anchor_addr m) ND NZ NK) as [Q1 Q2].
      split.
      * split; cbn [lru content].
        -- exact R'.
        -- rewrite KE. exact Q1.
        -- intros x Hx. rewrite KE. destruct (Nat.eq_dec e x) as [->|NE].
           ++ rewrite !upd_eq. cbn. now rewrite N.eqb_refl.
           ++ rewrite !upd_neq by exact NE. destruct Hx as [Hx|Hx]; [congruence|].
              cbn. destruct (N.eqb_spec (anchor_addr m) (key (lru a) x)) as [Z|_].
              ** exfalso. apply NK. rewrite Z. now apply in_map.
              ** now apply CT.
      * right. left. split; [exact NK|]. exists e. cbn [lru]. auto.
  - rewrite H3. eexists. exists (e :: A ++ B), F. split; [reflexivity|].
    assert (NL : NoDup (A ++ e :: B)).
    { destruct (NoDup_app_inv _ _ (rep_nodup _ _ _ _ R)) as (X & _). exact X. }
    assert (NZ : ~ In e (A ++ B)) by now apply NoDup_remove_2 in NL.
    pose proof (nodup_map_move _ _ _ _ ND) as NDM. split.
    + split; cbn [lru content].
      * exact R'.
      * rewrite KE. exact NDM.
      * intros x Hx. rewrite KE. destruct (Nat.eq_dec e x) as [->|NE].
        -- rewrite upd_eq. cbn. rewrite H2. now rewrite N.eqb_refl.
        -- rewrite upd_neq by exact NE. destruct Hx as [Hx|Hx]; [congruence|]. cbn.
           destruct (N.eqb_spec (anchor_addr m) (key (lru a) x)) as [Z|_].
           ++ exfalso. cbn [map] in NDM. inversion NDM; subst. apply H4. rewrite H2, Z. now apply in_map.
           ++ apply CT. rewrite in_app_iff in *. cbn. tauto.
    + left. exists A, e, B. cbn [lru]. auto.
Qed.

Lemma alookup_inv fuel a h L F addr : CACHE_ENTRIES < fuel -> AInv a h L F ->
  exists a' L' r, anchor_position_cache_get fuel a addr = Ok (a', r) /\
    AInv a' (ALookup addr :: h) L' F /\ content a' = content a /\ key (lru a') = key (lru a) /\
    ((exists A e B, L = A ++ e :: B /\ L' = e :: A ++ B /\ key (lru a) e = addr /\ r = Some e) \/
     (~ In addr (map (key (lru a)) L) /\ L' = L /\ r = None)).
Proof.
  intros Hf [R ND CT]. unfold anchor_position_cache_get.
  destruct (get_rep _ fuel (lru a) addr L F R Hf) as [[H1 H2]|(A & e & B & c' & -> & H1 & H2 & H3 & R' & KE)].
  - rewrite H2. eexists. exists L, None. split; [reflexivity|]. split; [|split; [|split]]; auto.
    + split; cbn; auto.
    + right. split; [|auto]. rewrite in_map_iff. intros (x & E & Hx). rewrite Forall_forall in H1. now apply (H1 x).
  - rewrite H3. eexists. exists (e :: A ++ B), (Some e). split; [reflexivity|]. split; [|split; [|split]]; auto.
    + split; cbn [lru content]; auto.
      * rewrite KE. now apply nodup_map_move.
      * intros x Hx. rewrite KE. cbn. apply CT. cbn in Hx. rewrite in_app_iff in *. cbn. tauto.
    + left. exists A, e, B. auto.
Qed.

Lemma ainit_inv : exists a, anchor_cache_init = Ok a /\ AInv a [] [] (seq 0 CACHE_ENTRIES).
Proof.
  unfold anchor_cache_init. destruct (init_rep CACHE_ENTRIES ltac:(unfold CACHE_ENTRIES; lia)) as (c & E & R).
  rewrite E. eexists. split; [reflexivity|]. split; cbn; auto; try constructor; tauto.
Qed.

Lemma astep_inv fuel a h L F o : CACHE_ENTRIES < fuel -> AInv a h L F ->
  exists a' L' F', astep fuel a o = Ok a' /\ AInv a' (o :: h) L' F'.
Proof.
  intros Hf H. destruct o as [m|addr]; cbn [astep].
  - destruct (amsg_inv fuel a h L F m Hf H) as (a' & L' & F' & E & H' & _). exists a', L', F'. auto.
  - destruct (alookup_inv fuel a h L F addr Hf H) as (a' & L' & r & E & H' & _). rewrite E. exists a', L', F. auto.
Qed.

Lemma arun_from_app fuel l1 l2 : forall a, arun_from fuel a (l1 ++ l2) =
  match arun_from fuel a l1 with Ok a => arun_from fuel a l2 | UB => UB | Diverge => Diverge end.
Proof.
  induction l1 as [|o l1 IH]; intro a; [reflexivity|]. cbn [app arun_from].
  destruct (astep fuel a o); auto.
Qed.

Lemma arun_from_inv fuel : CACHE_ENTRIES < fuel -> forall ops a h L F, AInv a h L F ->
  exists a' L' F', arun_from fuel a ops = Ok a' /\ AInv a' (rev ops ++ h) L' F'.
Proof.
  intros Hf. induction ops as [|o ops IH]; intros a h L F H.
  - exists a, L, F. now split.
  - destruct (astep_inv fuel a h L F o Hf H) as (a' & L' & F' & E & H').
    cbn [arun_from rev]. rewrite E, <- app_assoc. cbn. now apply (IH a' (o :: h) L' F').
Qed.

Lemma arun_inv fuel ops : CACHE_ENTRIES < fuel ->
  exists a L F, arun fuel ops = Ok a /\ AInv a (rev ops) L F.
Proof.
  intros Hf. unfold arun. destruct ainit_inv as (a & E & H). rewrite E.
  destruct (arun_from_inv fuel Hf ops a [] _ _ H) as (a' & L & F & E' & H').
  rewrite app_nil_r in H'. eauto 6.
Qed.

Lemma lookup_inv fuel a h L F addr : CACHE_ENTRIES < fuel -> AInv a h L F ->
  exists r, anchor_lookup fuel a addr = Ok r /\
   ((In addr (map (key (lru a)) L) /\ exists m, r = Some m /\ last_msg h addr = Some m) \/
    (~ In addr (map (key (lru a)) L) /\ r = None)).
Proof.
  intros Hf H. destruct (alookup_inv fuel a h L F addr Hf H) as (a' & L' & r & E & H' & EC & EK & [C|C]).
  - destruct C as (A & e & B & -> & -> & K & ->).
    unfold anchor_lookup. rewrite E. eexists. split; [reflexivity|]. left.
    assert (IE : In e (A ++ e :: B)) by (apply in_or_app; right; now left).
    split; [rewrite <- K; now apply in_map|]. exists (content a e). cbn. rewrite EC. split; [reflexivity|].
    rewrite <- K. apply (a_content _ _ _ _ H e IE).
  - destruct C as (NI & -> & ->). unfold anchor_lookup. rewrite E. eexists. split; [reflexivity|]. right. auto.
Qed.

(** Never a wrong or stale position. *)
Lemma anchor_sound_l fuel ops addr : CACHE_ENTRIES < fuel ->
  exists a r, arun fuel ops = Ok a /\ anchor_lookup fuel a addr = Ok r /\
    (r = None \/ (r <> None /\ r = last_msg (rev ops) addr)).
Proof.
  intro Hf. destruct (arun_inv fuel ops Hf) as (a & L & F & E & H).
  destruct (lookup_inv fuel a _ L F addr Hf H) as (r & E' & [(_ & m & -> & HM)|(_ & ->)]).
  - exists a, (Some m). repeat split; auto. right. split; [discriminate|]. now rewrite HM.
  - exists a, None. repeat split; auto.
Qed.

(** Tracking the position of an address in the list of used entries: everything in front
    of it was mentioned since. *)
Definition Near (a : acache) (L : list nat) (addr : N) (O : list N) : Prop :=
  exists A e B, L = A ++ e :: B /\ key (lru a) e = addr /\ incl (map (key (lru a)) A) O.

Lemma split_unique (f : nat -> N) : forall A1 e1 B1 A2 e2 B2, A1 ++ e1 :: B1 = A2 ++ e2 :: B2 -> 
  f e1 <> f e2 -> (exists C, A2 = A1 ++ e1 :: C /\ B1 = C ++ e2 :: B2) \/ (exists C, A1 = A2 ++ e2 :: C /\ B2 = C ++ e1 :: B1).
Proof.
  induction A1 as [|x A1 IH]; intros e1 B1 A2 e2 B2 E NE.
  - destruct A2 as [|y A2]; cbn in E; inversion E; subst.
    + congruence.
    + left. exists A2. auto.
  - destruct A2 as [|y A2]; cbn in E; inversion E; subst.
    + right. exists A1. auto.
    + destruct (IH _ _ _ _ _ H1 NE) as [(C & -> & ->)|(C & -> & ->)].
      * left. exists C. auto.
      * right. exists C. auto.
Qed.

Lemma near_move a a' A e B addr O : key (lru a') = key (lru a) ->
  Near a (A ++ e :: B) addr O -> Near a' (e :: A ++ B) addr (key (lru a) e :: O).
Proof.
  intros EK (A1 & e1 & B1 & E & K & I).
  destruct (N.eq_dec (key (lru a) e) addr) as [Z|NZ].
  - exists [], e, (A ++ B). rewrite EK. repeat split; auto. intros x [].
  - destruct (split_unique (key (lru a)) _ _ _ _ _ _ (eq_sym E) ltac:(congruence)) as [(C & -> & ->)|(C & -> & ->)].
    + (* the target is before e *)
      exists (e :: A1), e1, (C ++ B). rewrite EK, <- app_assoc. cbn. repeat split; auto.
      intros x [<-|Hx]; [now left|right; now apply I].
    + exists (e :: A ++ C), e1, B1. rewrite EK. cbn. rewrite <- app_assoc. repeat split; auto.
      intros x [<-|Hx]; [now left|right]. apply I. rewrite map_app in *. cbn.
      apply in_app_or in Hx. apply in_or_app. cbn. tauto.
Qed.

Definition distinct (l : list N) : nat := length (nodup N.eq_dec l).

Lemma incl_distinct l O : NoDup l -> incl l O -> length l <= distinct O.
Proof.
  intros ND I. unfold distinct. apply NoDup_incl_length; [exact ND|].
  intros x Hx. apply nodup_In. now apply I.
Qed.

Lemma distinct_cons x l : distinct l <= distinct (x :: l).
Proof. unfold distinct. cbn. destruct (in_dec N.eq_dec x l); cbn; lia. Qed.

Lemma astep_near fuel a h L F o addr O : CACHE_ENTRIES < fuel -> AInv a h L F -> Near a L addr O ->
  op_addr o <> addr -> distinct (op_addr o :: O) < CACHE_ENTRIES ->
  exists a' L' F', astep fuel a o = Ok a' /\ AInv a' (o :: h) L' F' /\ Near a' L' addr (op_addr o :: O).
Proof.
  intros Hf H N NA D. destruct o as [m|ad]; cbn [op_addr] in *; cbn [astep].
  - destruct (amsg_inv fuel a h L F m Hf H) as (a' & L' & F' & E & H' & C). exists a', L', F'. split; [exact E|]. split; [exact H'|].
    destruct C as [C|[C|C]].
    + destruct C as (A & e & B & -> & -> & K & EK). rewrite <- K. now apply near_move.
    + destruct C as (NI & e & NE & -> & EK). destruct N as (A & e1 & B & -> & K & I).
      exists (e :: A), e1, B. rewrite EK.
      assert (X : forall y, In y (A ++ e1 :: B) -> upd (key (lru a)) e (anchor_addr m) y = key (lru a) y).
      { intros y Hy. apply upd_neq. intros ->. contradiction. }
      split; [reflexivity|]. split; [rewrite X; [exact K|apply in_or_app; right; now left]|].
      cbn [map]. rewrite upd_eq. intros x [<-|Hx]; [now left|right]. apply I.
      rewrite in_map_iff in *. destruct Hx as (y & <- & Hy). exists y. split; [|exact Hy].
      symmetry. apply X. apply in_or_app. now left.
    + destruct C as (NI & LEN & L0 & z & -> & -> & EK). destruct N as (A & e1 & B & EL & K & I).
      assert (NZ : ~ In z L0).
      { pose proof (rep_nodup _ _ _ _ (a_rep _ _ _ _ H)) as X. apply NoDup_app_inv in X. destruct X as (X & _).
        apply NoDup_remove_2 in X. now rewrite app_nil_r in X. }
      destruct B as [|b B].
      * (* the target is the oldest entry: too many others *)
        exfalso. change (A ++ [e1]) with (A ++ [e1]) in EL. apply app_inj_tail in EL. destruct EL as [-> ->].
        assert (ND : NoDup (anchor_addr m :: map (key (lru a)) A)).
        { constructor.
          - intro X. apply NI. rewrite map_app, in_app_iff. now left.
          - pose proof (a_keys _ _ _ _ H) as X. rewrite map_app in X. now apply NoDup_app_inv in X. }
        apply incl_distinct with (O := anchor_addr m :: O) in ND.
        -- cbn [length] in ND. rewrite map_length in ND. rewrite app_length in LEN. cbn in LEN. lia.
        -- intros x [<-|Hx]; [now left|right; now apply I].
      * destruct (exists_last (l := b :: B) ltac:(discriminate)) as (B' & z' & EB). rewrite EB in EL.
        replace (A ++ e1 :: B' ++ [z']) with ((A ++ e1 :: B') ++ [z']) in EL by (rewrite <- app_assoc; reflexivity).
        apply app_inj_tail in EL. destruct EL as [-> <-].
        exists (z :: A), e1, B'. rewrite EK.
        assert (X : forall y, In y (A ++ e1 :: B') -> upd (key (lru a)) z (anchor_addr m) y = key (lru a) y).
        { intros y Hy. apply upd_neq. intros ->. contradiction. }
        split; [reflexivity|]. split; [rewrite X; [exact K|apply in_or_app; right; now left]|].
        cbn [map]. rewrite upd_eq. intros x [<-|Hx]; [now left|right]. apply I.
        rewrite in_map_iff in *. destruct Hx as (y & <- & Hy). exists y. split; [|exact Hy].
        symmetry. apply X. apply in_or_app. now left.
  - destruct (alookup_inv fuel a h L F ad Hf H) as (a' & L' & r & E & H' & EC & EK & C). rewrite E.
    exists a', L', F. split; [reflexivity|]. split; [exact H'|]. destruct C as [C|C].
    + destruct C as (A & e & B & -> & -> & K & _). rewrite <- K. now apply near_move.
    + destruct C as (NI & -> & _). destruct N as (A & e1 & B & -> & K & I).
      exists A, e1, B. rewrite EK. repeat split; auto. intros x Hx. right. now apply I.
Qed.

Lemma arun_near fuel addr : CACHE_ENTRIES < fuel -> forall ops a h L F O, AInv a h L F -> Near a L addr O ->
  Forall (fun o => op_addr o <> addr) ops -> distinct (map op_addr (rev ops) ++ O) < CACHE_ENTRIES ->
  exists a' L' F', arun_from fuel a ops = Ok a' /\ AInv a' (rev ops ++ h) L' F' /\ In addr (map (key (lru a')) L').
Proof.
  intro Hf. induction ops as [|o ops IH]; intros a h L F O H N FA D.
  - exists a, L, F. split; [reflexivity|]. split; [exact H|]. destruct N as (A & e & B & -> & <- & _). apply in_map.
    apply in_or_app. right; now left.
  - inversion FA; subst. cbn [rev] in D. rewrite map_app, <- app_assoc in D. cbn in D.
    assert (D1 : distinct (op_addr o :: O) < CACHE_ENTRIES).
    { eapply Nat.le_lt_trans; [|exact D]. unfold distinct. apply NoDup_incl_length; [apply NoDup_nodup|].
      intros x Hx. apply nodup_In in Hx. apply nodup_In. apply in_or_app. now right. }
    destruct (astep_near fuel a h L F o addr O Hf H N H2 D1) as (a' & L' & F' & E & H' & N').
    cbn [arun_from rev]. rewrite E, <- app_assoc. cbn.
    now apply (IH a' (o :: h) L' F' (op_addr o :: O)).
Qed.

(** Positions heard recently are available. *)
Lemma anchor_recent_l fuel ops0 m ops1 : CACHE_ENTRIES < fuel ->
  Forall (fun o => op_addr o <> anchor_addr m) ops1 -> distinct (map op_addr (rev ops1)) < CACHE_ENTRIES ->
  exists a, arun fuel (ops0 ++ AMsg m :: ops1) = Ok a /\
            anchor_lookup fuel a (anchor_addr m) = Ok (Some m).
Proof.
  intros Hf FA D. unfold arun. destruct ainit_inv as (a0 & E0 & H0). rewrite E0.
  rewrite arun_from_app. destruct (arun_from_inv fuel Hf ops0 a0 [] _ _ H0) as (a1 & L1 & F1 & E1 & H1).
  rewrite E1. rewrite app_nil_r in H1. cbn [arun_from astep].
  destruct (amsg_inv fuel a1 _ L1 F1 m Hf H1) as (a2 & L2 & F2 & E2 & H2 & C). rewrite E2.
  assert (N : Near a2 L2 (anchor_addr m) []).
  { destruct C as [C|[C|C]].
    - destruct C as (A & e & B & -> & -> & K & EK). exists [], e, (A ++ B). rewrite EK. repeat split; auto. intros x [].
    - destruct C as (NI & e & NE & -> & EK). exists [], e, L1. rewrite EK, upd_eq. repeat split; auto. intros x [].
    - destruct C as (NI & LEN & L0 & z & -> & -> & EK). exists [], z, L0. rewrite EK, upd_eq. repeat split; auto. intros x []. }
  destruct (arun_near fuel (anchor_addr m) Hf ops1 a2 _ L2 F2 [] H2 N FA) as (a3 & L3 & F3 & E3 & H3 & I3).
  { now rewrite app_nil_r. }
  exists a3. split; [exact E3|].
  destruct (lookup_inv fuel a3 _ L3 F3 (anchor_addr m) Hf H3) as (r & E' & [(_ & m' & -> & HM)|(NI & _)]); [|contradiction].
  rewrite E'. f_equal. rewrite <- HM. clear - FA.
  assert (G : Forall (fun o => op_addr o <> anchor_addr m) (rev ops1)).
  { apply Forall_forall. intros x Hx. apply in_rev in Hx. rewrite Forall_forall in FA. now apply FA. }
  induction G as [|o l HO G IH]; cbn.
  - now rewrite N.eqb_refl.
  - destruct o as [m1|ad]; cbn in *; [|exact IH].
    destruct (N.eqb_spec (anchor_addr m1) (anchor_addr m)); [contradiction|exact IH].
Qed.

(** A successful lookup also refreshes. *)
Lemma anchor_refresh_l fuel ops0 addr ops1 a0 m : CACHE_ENTRIES < fuel ->
  arun fuel ops0 = Ok a0 -> anchor_lookup fuel a0 addr = Ok (Some m) ->
  Forall (fun o => op_addr o <> addr) ops1 -> distinct (map op_addr (rev ops1)) < CACHE_ENTRIES ->
  exists a, arun fuel (ops0 ++ ALookup addr :: ops1) = Ok a /\ anchor_lookup fuel a addr = Ok (Some m).
Proof.
  intros Hf E1 EL FA D. destruct (arun_inv fuel ops0 Hf) as (a1 & L1 & F1 & E1' & H1).
  rewrite E1 in E1'. inversion E1'; subst a1. unfold arun in *.
  destruct anchor_cache_init as [ai| |]; try discriminate. rewrite arun_from_app, E1. cbn [arun_from astep].
  destruct (alookup_inv fuel a0 _ L1 F1 addr Hf H1) as (a2 & L2 & r & E2 & H2 & EC & EK & C). rewrite E2.
  unfold anchor_lookup in EL. rewrite E2 in EL. injection EL as EL'.
  destruct C as [C|(_ & _ & ->)]; [|discriminate].
  destruct C as (A & e & B & -> & -> & K & ->). cbn in EL'. injection EL' as EM. rewrite EC in EM.
  assert (N : Near a2 (e :: A ++ B) addr []).
  { exists [], e, (A ++ B). rewrite EK. repeat split; auto. intros x []. }
  destruct (arun_near fuel addr Hf ops1 a2 _ _ F1 [] H2 N FA) as (a3 & L3 & F3 & E3 & H3 & I3).
  { now rewrite app_nil_r. }
  exists a3. split; [exact E3|].
  destruct (lookup_inv fuel a3 _ L3 F3 addr Hf H3) as (r & E' & [(_ & m' & -> & HM)|(NI & _)]); [|contradiction].
  rewrite E'. f_equal. rewrite <- HM.
  assert (HL : last_msg (rev ops0) addr = Some m).
  { rewrite <- K, <- EM. apply (a_content _ _ _ _ H1). apply in_or_app. right; now left. }
  clear - FA HL.
  assert (G : Forall (fun o => op_addr o <> addr) (rev ops1)).
  { apply Forall_forall. intros x Hx. apply in_rev in Hx. rewrite Forall_forall in FA. now apply FA. }
  induction G as [|o l HO G IH]; cbn.
  - exact HL.
  - destruct o as [m1|ad]; cbn in *; [|exact IH].
    destruct (N.eqb_spec (anchor_addr m1) addr); [contradiction|exact IH].
Qed.

(** The pointer handed out is not protected: after five other anchors it shows another anchor. *)
Definition mk (a p : N) : anchor_msg := {| anchor_addr := a; anchor_pos := p |}.
Lemma anchor_pointer_l : exists a a' e,
  arun 10 [AMsg (mk 1 11)] = Ok a /\
  anchor_position_cache_get 10 a 1 = Ok (a', Some e) /\ content a' e = mk 1 11 /\
  exists a'', arun_from 10 a' [AMsg (mk 2 22); AMsg (mk 3 33); AMsg (mk 4 44); AMsg (mk 5 55); AMsg (mk 6 66)] = Ok a''
   /\ content a'' e = mk 6 66.
Proof. do 3 eexists. split; [reflexivity|]. split; [reflexivity|]. split; [reflexivity|]. eexists. split; reflexivity. Qed.

Lemma distinct_addrs_rev ops : distinct (map op_addr (rev ops)) = distinct_addrs ops.
Proof.
  unfold distinct, distinct_addrs. apply Nat.le_antisymm; apply NoDup_incl_length; try apply NoDup_nodup;
  intros x Hx; apply nodup_In; apply nodup_In in Hx; rewrite in_map_iff in *;
  destruct Hx as (y & E & Hy); exists y; (split; [exact E|]); now apply in_rev in Hy || (apply in_rev; now rewrite rev_involutive).
Qed.

Lemma anchor_recent_l' fuel ops0 m ops1 : CACHE_ENTRIES < fuel ->
  Forall (fun o => op_addr o <> anchor_addr m) ops1 -> distinct_addrs ops1 < 5 ->
  exists a, arun fuel (ops0 ++ AMsg m :: ops1) = Ok a /\
            anchor_lookup fuel a (anchor_addr m) = Ok (Some m).
Proof. intros Hf FA D. apply anchor_recent_l; auto. rewrite distinct_addrs_rev. exact D. Qed.

Lemma anchor_refresh_l' fuel ops0 addr ops1 a0 m : CACHE_ENTRIES < fuel ->
  arun fuel ops0 = Ok a0 -> anchor_lookup fuel a0 addr = Ok (Some m) ->
  Forall (fun o => op_addr o <> addr) ops1 -> distinct_addrs ops1 < 5 ->
  exists a, arun fuel (ops0 ++ ALookup addr :: ops1) = Ok a /\ anchor_lookup fuel a addr = Ok (Some m).
Proof. intros Hf E EL FA D. eapply anchor_refresh_l; eauto. rewrite distinct_addrs_rev. exact D. Qed.
