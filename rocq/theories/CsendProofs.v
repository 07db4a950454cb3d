From Coq Require Import ZArith List String Lia DecimalString DecimalZ Decimal DecimalFacts.
From Verif Require Import CsendModel CsendSpec.
Import ListNotations.
Open Scope string_scope.
Open Scope list_scope.

Lemma tree_ind2 : forall K (P : tree K -> Prop), (forall v, P (Val v)) ->
  (forall items, (forall k c, In (k, c) items -> P c) -> P (Dict items)) -> forall t, P t.
Proof.
  intros K P V D. fix IH 1. intros [v|items]; [apply V|]. apply D. induction items as [|[k c] items IHi]; intros k' c' I.
  - destruct I.
  - destruct I as [E|I]; [injection E as <- <-; apply IH|exact (IHi k' c' I)].
Qed.

Section Put.
Context {A : Type}.
Lemma put_in : forall k (a : A) d k' a', In (k', a') (put k a d) -> (k' = k /\ a' = a) \/ In (k', a') d.
Proof.
  induction d as [|[k1 a1] d IH]; cbn; intros k' a' I.
  - destruct I as [E|[]]. inversion E; auto.
  - destruct (string_dec k1 k) as [->|]; destruct I as [E|I]; try (inversion E; subst); auto.
    destruct (IH _ _ I); auto.
Qed.
Lemma put_new : forall k (a : A) d, ~ In k (map fst d) -> put k a d = d ++ [(k, a)].
Proof.
  induction d as [|[k1 a1] d IH]; cbn; intro N; [reflexivity|]. destruct (string_dec k1 k); [tauto|]. rewrite IH; tauto.
Qed.
Lemma put_keys : forall k (a : A) d k', In k' (map fst (put k a d)) <-> k' = k \/ In k' (map fst d).
Proof.
  induction d as [|[k1 a1] d IH]; cbn; intro k'; [intuition|]. destruct (string_dec k1 k) as [->|]; cbn; [intuition|].
  rewrite IH. intuition.
Qed.
Lemma put_nodup : forall k (a : A) d, NoDup (map fst d) -> NoDup (map fst (put k a d)).
Proof.
  induction d as [|[k1 a1] d IH]; cbn; intro N; [constructor; [tauto|constructor]|]. inversion N; subst.
  destruct (string_dec k1 k) as [->|]; cbn; constructor; auto. rewrite put_keys. intuition congruence.
Qed.
Lemma lookup_in : forall k (d : list (string * A)) a, lookup k d = Some a -> In (k, a) d.
Proof.
  induction d as [|[k1 a1] d IH]; cbn; intros a L; [discriminate|]. destruct (string_dec k1 k) as [->|]; auto.
  injection L as ->. auto.
Qed.
Lemma lookup_none : forall k (d : list (string * A)), lookup k d = None -> ~ In k (map fst d).
Proof.
  induction d as [|[k1 a1] d IH]; cbn; intros L; [tauto|]. destruct (string_dec k1 k); [discriminate|]. intuition.
Qed.
Lemma remove_in : forall k (d : list (string * A)) k' a, NoDup (map fst d) ->
  (In (k', a) (remove k d) <-> In (k', a) d /\ k' <> k).
Proof.
  induction d as [|[k1 a1] d IH]; cbn; intros k' a N; [tauto|]. inversion N; subst. destruct (string_dec k1 k) as [->|].
  - split.
    + intro I. split; auto. intros ->. apply H1. apply (in_map fst) in I. exact I.
    + intros ([E|I] & NE); [congruence|exact I].
  - cbn. rewrite (IH k' a H2). split; [|tauto]. intros [E|I]; [|tauto]. split; [auto|]. inversion E; subst; auto.
Qed.
End Put.

Definition step (d : list (string * tree string)) (kv : key * tree key) :=
  match kv with (k, c) => put (str k) (keys_to_str c) d end.
Lemma keys_dict : forall items, keys_to_str (Dict items) = Dict (fold_left step items []).
Proof. reflexivity. Qed.
Lemma fold_in : forall items acc k c', In (k, c') (fold_left step items acc) ->
  In (k, c') acc \/ exists k0 c, In (k0, c) items /\ k = str k0 /\ c' = keys_to_str c.
Proof.
  induction items as [|[k0 c0] items IH]; cbn; intros acc k c' I; [auto|]. destruct (IH _ _ _ I) as [J|(k1 & c1 & J & E)].
  - unfold step in J. apply put_in in J. destruct J as [(-> & ->)|J]; [right; exists k0, c0; auto|auto].
  - right. exists k1, c1. auto.
Qed.
Lemma fold_nodup : forall items acc, NoDup (map fst acc) -> NoDup (map fst (fold_left step items acc)).
Proof. induction items as [|[k0 c0] items IH]; cbn; intros acc N; [exact N|]. apply IH. apply put_nodup. exact N. Qed.
Lemma fold_distinct : forall items acc, NoDup (map fst acc ++ map (fun kc => str (fst kc)) items) ->
  fold_left step items acc = acc ++ map (fun kc => (str (fst kc), keys_to_str (snd kc))) items.
Proof.
  induction items as [|[k0 c0] items IH]; cbn; intros acc N; [symmetry; apply List.app_nil_r|].
  assert (NI : ~ In (str k0) (map fst acc)).
  { intro I. apply NoDup_remove_2 in N. apply N. apply in_or_app. auto. }
  rewrite put_new by exact NI. rewrite IH.
  - rewrite <- app_assoc. reflexivity.
  - rewrite map_app. cbn. rewrite <- app_assoc. exact N.
Qed.

Lemma keys_sound : forall t path v, at_path (keys_to_str t) path v -> exists kp, at_path t kp v /\ map str kp = path.
Proof.
  intro t. induction t as [w|items IH] using tree_ind2; intros path v A.
  - inversion A; subst. exists []. split; [constructor|reflexivity].
  - rewrite keys_dict in A. inversion A as [|? k c p ? I B]; subst. apply fold_in in I. destruct I as [[]|(k0 & c0 & I & -> & ->)].
    destruct (IH _ _ I _ _ B) as (kp & C & <-). exists (k0 :: kp). split; [|reflexivity]. econstructor; eauto.
Qed.
Lemma keys_complete : forall t kp v, distinct t -> at_path t kp v -> at_path (keys_to_str t) (map str kp) v.
Proof.
  intros t kp v D A. revert D. induction A as [|items k c kp v I A IH]; intro D; [constructor|].
  inversion D as [|? N S]; subst. rewrite keys_dict, fold_distinct by exact N. cbn. econstructor.
  - apply (in_map (fun kc => (str (fst kc), keys_to_str (snd kc)))) in I. exact I.
  - apply IH. eapply S; eauto.
Qed.

(** Every dictionary that comes out has distinct keys. *)
Inductive nodups : tree string -> Prop :=
| nodups_val v : nodups (Val v)
| nodups_dict items : NoDup (map fst items) -> (forall k c, In (k, c) items -> nodups c) -> nodups (Dict items).
Lemma keys_nodups : forall t, nodups (keys_to_str t).
Proof.
  intro t. induction t as [w|items IH] using tree_ind2; [constructor|]. rewrite keys_dict. constructor.
  - apply fold_nodup. constructor.
  - intros k c I. apply fold_in in I. destruct I as [[]|(k0 & c0 & I & -> & ->)]. eauto.
Qed.
Lemma nodup_in : forall A (d : list (string * A)) k a b, NoDup (map fst d) -> In (k, a) d -> In (k, b) d -> a = b.
Proof.
  induction d as [|[k1 a1] d IH]; cbn; intros k a b N I J; [tauto|]. inversion N; subst.
  destruct I as [E|I], J as [F|J].
  - congruence.
  - inversion E; subst. exfalso. apply H1. apply (in_map fst) in J. exact J.
  - inversion F; subst. exfalso. apply H1. apply (in_map fst) in I. exact I.
  - eauto.
Qed.

(** The chunks together are the configuration. *)
Lemma split_exact : forall config chunks path v, nodups (Dict config) -> config_split config = Some chunks ->
  ((exists c, In c chunks /\ at_path c path v) <-> at_path (Dict config) path v).
Proof.
  intros config chunks path v N S. inversion N as [|? ND SUB]; subst. unfold config_split in S.
  destruct (lookup "actuator" config) as [[w|acts]|] eqn:L; [discriminate| |]; injection S as <-.
  - apply lookup_in in L. split.
    + intros (c & I & A). apply in_app_or in I. destruct I as [I|[<-|[]]].
      * apply in_map_iff in I. destruct I as ([n c1] & <- & I). inversion A as [|? ? ? ? ? J B]; subst.
        destruct J as [E|[]]. injection E as <- <-. inversion B as [|? ? ? ? ? J C]; subst. destruct J as [E|[]].
        injection E as <- <-. econstructor; [exact L|]. econstructor; eauto.
      * inversion A as [|? ? ? ? ? J B]; subst. apply remove_in in J; [|exact ND]. econstructor; [apply J|exact B].
    + intro A. inversion A as [|? k c p ? I B]; subst. destruct (string_dec k "actuator") as [->|NE].
      * rewrite (nodup_in _ _ _ _ _ ND I L) in B. inversion B as [|? n c1 q ? J C]; subst.
        exists (Dict [("actuator", Dict [(n, c1)])]). split.
        -- apply in_or_app. left. apply in_map_iff. exists (n, c1). auto.
        -- econstructor; [left; reflexivity|]. econstructor; [left; reflexivity|exact C].
      * exists (Dict (remove "actuator" config)). split; [apply in_or_app; right; left; reflexivity|].
        econstructor; [|exact B]. apply remove_in; auto.
  - split; [intros (c & [<-|[]] & A); exact A|]. intro A. eexists. split; [left; reflexivity|exact A].
Qed.
(** What one chunk holds. *)
Lemma chunk_of : forall config acts i c, NoDup (map fst config) -> lookup "actuator" config = Some (Dict acts) ->
  nth_error (map (fun nc => Dict [("actuator", Dict [nc])]) acts ++ [Dict (remove "actuator" config)]) i = Some c ->
  forall path v, at_path c path v ->
  (exists n q c1, path = "actuator" :: n :: q /\ nth_error acts i = Some (n, c1)) \/
  (exists k q, path = k :: q /\ k <> "actuator" /\ i = List.length acts).
Proof.
  intros config acts i c ND L E path v A. destruct (Nat.lt_ge_cases i (List.length acts)) as [LT|GE].
  - rewrite nth_error_app1 in E by (rewrite map_length; exact LT). rewrite nth_error_map in E.
    destruct (nth_error acts i) as [[n c1]|]; [|discriminate]. cbn in E. injection E as <-.
    inversion A as [|? ? ? ? ? J B]; subst. destruct J as [F|[]]. injection F as <- <-.
    inversion B as [|? ? ? ? ? J C]; subst. destruct J as [F|[]]. injection F as <- <-. left. eauto.
  - rewrite nth_error_app2 in E by (rewrite map_length; exact GE). rewrite map_length in E.
    destruct (i - List.length acts)%nat as [|m] eqn:M; [|destruct m; discriminate]. injection E as <-.
    inversion A as [|? ? ? ? ? J B]; subst. apply remove_in in J; [|exact ND]. right. do 2 eexists. repeat split; [apply J|lia].
Qed.
Lemma split_once : forall config chunks i j ci cj path v w, nodups (Dict config) -> config_split config = Some chunks ->
  nth_error chunks i = Some ci -> nth_error chunks j = Some cj -> at_path ci path v -> at_path cj path w -> i = j.
Proof.
  intros config chunks i j ci cj path v w N S I J A B. inversion N as [|? ND SUB]; subst. unfold config_split in S.
  destruct (lookup "actuator" config) as [[u|acts]|] eqn:L; [discriminate| |]; injection S as <-.
  - destruct (chunk_of _ _ _ _ ND L I _ _ A) as [(n & q & c1 & -> & E)|(k & q & -> & NE & ->)];
      destruct (chunk_of _ _ _ _ ND L J _ _ B) as [(n' & q' & c2 & F & E')|(k' & q' & F & NE' & ->)];
      try congruence.
    injection F as <- <-. pose proof (SUB _ _ (lookup_in _ _ _ L)) as NA. inversion NA as [|? NA1 _]; subst.
    assert (X : nth_error (map fst acts) i = Some n) by (rewrite nth_error_map, E; reflexivity).
    assert (Y : nth_error (map fst acts) j = Some n) by (rewrite nth_error_map, E'; reflexivity).
    rewrite NoDup_nth_error in NA1. apply NA1; [apply nth_error_Some; congruence|congruence].
  - destruct i as [|[|]], j as [|[|]]; try discriminate; reflexivity.
Qed.
Lemma split_small : forall config chunks c n n' p p' v w, config_split config = Some chunks -> In c chunks ->
  at_path c ("actuator" :: n :: p) v -> at_path c ("actuator" :: n' :: p') w -> nodups (Dict config) -> n = n'.
Proof.
  intros config chunks c n n' p p' v w S I A B N. inversion N as [|? ND _]; subst. unfold config_split in S.
  destruct (lookup "actuator" config) as [[u|acts]|] eqn:L; [discriminate| |]; injection S as <-.
  - apply In_nth_error in I. destruct I as (i & I).
    destruct (chunk_of _ _ _ _ ND L I _ _ A) as [(m & q & c1 & F & E)|(k & q & F & NE & _)]; [|congruence].
    destruct (chunk_of _ _ _ _ ND L I _ _ B) as [(m' & q' & c2 & F' & E')|(k & q' & F' & NE & _)]; congruence.
  - destruct I as [<-|[]]. inversion A as [|? ? ? ? ? J _]; subst. apply lookup_none in L. apply (in_map fst) in J. tauto.
Qed.

(** The calls. *)
Lemma send_shape : forall file calls, send_config_file file = Some calls ->
  exists config chunks, keys_to_str file = Dict config /\ config_split config = Some chunks /\
    calls = map CreateDriver (match lookup "actuator" config with Some (Dict acts) => map fst acts | _ => [] end)
            ++ map ConfigUpdate chunks.
Proof.
  intros file calls S. unfold send_config_file in S. destruct (keys_to_str file) as [|config]; [discriminate|].
  destruct (config_split config) as [chunks|] eqn:E; [|discriminate]. injection S as <-. eauto 6.
Qed.
Lemma update_in : forall names chunks c, In (ConfigUpdate c) (map CreateDriver names ++ map ConfigUpdate chunks) <-> In c chunks.
Proof.
  intros. rewrite in_app_iff, !in_map_iff. split; [intros [(x & E & _)|(x & E & I)]; congruence|]. intro I. right. eauto.
Qed.
Lemma update_nth : forall names chunks i c,
  nth_error (map CreateDriver names ++ map ConfigUpdate chunks) i = Some (ConfigUpdate c) ->
  exists j, i = (List.length names + j)%nat /\ nth_error chunks j = Some c.
Proof.
  intros names chunks i c E. destruct (Nat.lt_ge_cases i (List.length names)) as [LT|GE].
  - rewrite nth_error_app1 in E by (rewrite map_length; exact LT). rewrite nth_error_map in E. destruct (nth_error names i); discriminate.
  - rewrite nth_error_app2, map_length, nth_error_map in E by (rewrite map_length; exact GE).
    exists (i - List.length names)%nat. split; [lia|]. destruct (nth_error chunks _); [|discriminate]. cbn in E. congruence.
Qed.
Lemma create_in : forall names chunks n, In (CreateDriver n) (map CreateDriver names ++ map ConfigUpdate chunks) <-> In n names.
Proof.
  intros. rewrite in_app_iff, !in_map_iff. split; [intros [(x & E & I)|(x & E & I)]; congruence|]. intro I. left. eauto.
Qed.

Lemma int_text : forall a b, str (KInt a) = str (KInt b) -> a = b.
Proof.
  intros a b E. cbn in E.
  assert (F : forall z, NilZero.int_of_string (NilZero.string_of_int (Z.to_int z)) = Some (Z.to_int z)).
  { intro z. apply NilZero.isi; destruct z as [|p|p]; cbn; try discriminate; intro Q; injection Q as Q;
      exact (DecimalPos.Unsigned.to_uint_nonnil p Q). }
  pose proof (F a) as X. rewrite E, F in X. injection X as X. apply (f_equal Z.of_int) in X. rewrite !DecimalZ.of_to in X. auto.
Qed.

(** Keys that are no texts. *)
Lemma int_reads : forall z, NilZero.int_of_string (str (KInt z)) = Some (Z.to_int z).
Proof.
  intro z. cbn. apply NilZero.isi; destruct z as [|p|p]; cbn; try discriminate; intro Q; injection Q as Q;
    exact (DecimalPos.Unsigned.to_uint_nonnil p Q).
Qed.
Lemma key_text : forall a b, (forall s, a <> KText s) -> (forall s, b <> KText s) -> str a = str b -> a = b.
Proof.
  intros a b NA NB E.
  assert (X : NilZero.int_of_string (str a) = NilZero.int_of_string (str b)) by (rewrite E; reflexivity).
  destruct a as [s|z|[|]|]; [destruct (NA s eq_refl)| | | |]; (destruct b as [s|z'|[|]|]; [destruct (NB s eq_refl)| | | |]);
    try reflexivity; try discriminate E; rewrite ?int_reads in X; try discriminate X.
  f_equal. apply int_text. exact E.
Qed.
