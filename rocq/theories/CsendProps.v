(** C117: the tool that sends the configuration file to the master board sends the values of the file, each once, and
    creates the drivers first. *)
From Coq Require Import ZArith List String Lia.
From Verif Require Import CsendModel CsendSpec CsendProofs.
Import ListNotations.
Open Scope string_scope.
Open Scope list_scope.

(** Nothing is sent that is not in the file, for any file. *)
Theorem csend_sound : forall file calls c path v, send_config_file file = Some calls -> In (ConfigUpdate c) calls ->
  at_path c path v -> exists keys, at_path file keys v /\ map str keys = path.
Proof.
  intros file calls c path v S I A. destruct (send_shape _ _ S) as (config & chunks & K & SP & ->). apply update_in in I.
  apply keys_sound. rewrite K. apply (split_exact config chunks path v); [rewrite <- K; apply keys_nodups|exact SP|]. eauto.
Qed.
Print Assumptions csend_sound.

(** Every value of the file is sent under its path, if no two keys of a dictionary are the same text. *)
Theorem csend_complete_partial : forall file calls keys v, send_config_file file = Some calls -> distinct file ->
  at_path file keys v -> exists c, In (ConfigUpdate c) calls /\ at_path c (map str keys) v.
Proof.
  intros file calls keys v S D A. destruct (send_shape _ _ S) as (config & chunks & K & SP & ->).
  apply keys_complete in A; [|exact D]. rewrite K in A.
  apply (split_exact config chunks _ v) in A; [|rewrite <- K; apply keys_nodups|exact SP]. destruct A as (c & I & A).
  exists c. split; [apply update_in; exact I|exact A].
Qed.
Print Assumptions csend_complete_partial.

(** No path is sent in two messages: what the board has at the end does not depend on the order of the messages. *)
Theorem csend_once : forall file calls i j ci cj path v w, send_config_file file = Some calls ->
  nth_error calls i = Some (ConfigUpdate ci) -> nth_error calls j = Some (ConfigUpdate cj) ->
  at_path ci path v -> at_path cj path w -> i = j.
Proof.
  intros file calls i j ci cj path v w S I J A B. destruct (send_shape _ _ S) as (config & chunks & K & SP & ->).
  apply update_nth in I, J. destruct I as (i' & -> & I), J as (j' & -> & J).
  assert (N : nodups (Dict config)) by (rewrite <- K; apply keys_nodups).
  rewrite (split_once _ _ _ _ _ _ _ _ _ N SP I J A B). reflexivity.
Qed.
Print Assumptions csend_once.

(** Within a message a path has one value. *)
Theorem csend_one_value : forall file calls c path v w, send_config_file file = Some calls -> In (ConfigUpdate c) calls ->
  at_path c path v -> at_path c path w -> v = w.
Proof.
  intros file calls c path v w S I A B. destruct (send_shape _ _ S) as (config & chunks & K & SP & ->). apply update_in in I.
  assert (N : nodups (Dict config)) by (rewrite <- K; apply keys_nodups).
  assert (A' : at_path (Dict config) path v) by (apply (split_exact config chunks path v); eauto).
  assert (B' : at_path (Dict config) path w) by (apply (split_exact config chunks path w); eauto).
  clear - N A' B'. revert w B'. induction A' as [|items k c p v I A IH]; intros w B; inversion B as [|? ? ? ? ? J C]; subst; [reflexivity|].
  inversion N as [|? ND SUB]; subst. rewrite (nodup_in _ _ _ _ _ ND J I) in C. apply IH; [eapply SUB; eauto|exact C].
Qed.
Print Assumptions csend_one_value.

(** A message holds the configuration of one actuator at most. *)
Theorem csend_small : forall file calls c n n' p p' v w, send_config_file file = Some calls -> In (ConfigUpdate c) calls ->
  at_path c ("actuator" :: n :: p) v -> at_path c ("actuator" :: n' :: p') w -> n = n'.
Proof.
  intros file calls c n n' p p' v w S I A B. destruct (send_shape _ _ S) as (config & chunks & K & SP & ->). apply update_in in I.
  eapply split_small; eauto. rewrite <- K. apply keys_nodups.
Qed.
Print Assumptions csend_small.

(** When the values of an actuator are sent, its driver has been created, before all messages and only once. *)
Theorem csend_driver_first : forall file l1 l2 c n p v, send_config_file file = Some (l1 ++ ConfigUpdate c :: l2) ->
  at_path c ("actuator" :: n :: p) v -> In (CreateDriver n) l1.
Proof.
  intros file l1 l2 c n p v S A. destruct (send_shape _ _ S) as (config & chunks & K & SP & E).
  assert (N : nodups (Dict config)) by (rewrite <- K; apply keys_nodups).
  assert (IC : In c chunks).
  { eapply update_in. rewrite <- E. apply in_or_app. right. left. reflexivity. }
  assert (A' : at_path (Dict config) ("actuator" :: n :: p) v) by (apply (split_exact config chunks _ v); eauto).
  inversion A' as [|? ? d ? ? I B]; subst. inversion B as [|acts ? e ? ? J C]; subst. inversion N as [|? ND _]; subst.
  destruct (lookup "actuator" config) as [d|] eqn:L.
  2: { apply lookup_none in L. apply (in_map fst) in I. tauto. }
  apply lookup_in in L. rewrite (nodup_in _ _ _ _ _ ND L I) in E.
  assert (X : In (CreateDriver n) (l1 ++ ConfigUpdate c :: l2)).
  { rewrite E. apply create_in. apply (in_map fst) in J. exact J. }
  assert (Y : nth_error (l1 ++ ConfigUpdate c :: l2) (List.length l1) = Some (ConfigUpdate c))
    by (rewrite nth_error_app2, PeanoNat.Nat.sub_diag by lia; reflexivity).
  rewrite E in Y. apply update_nth in Y. destruct Y as (j & LEN & _).
  apply (in_map fst) in J. cbn in J. apply In_nth_error in J. destruct J as (i & J).
  assert (LT : (i < List.length (map fst acts))%nat) by (apply nth_error_Some; congruence).
  assert (Z : nth_error (l1 ++ ConfigUpdate c :: l2) i = Some (CreateDriver n)).
  { rewrite E, nth_error_app1 by (rewrite map_length; exact LT). rewrite nth_error_map, J. reflexivity. }
  rewrite nth_error_app1 in Z by lia. eapply nth_error_In; eauto.
Qed.
Print Assumptions csend_driver_first.
Theorem csend_driver_once : forall file calls i j n, send_config_file file = Some calls ->
  nth_error calls i = Some (CreateDriver n) -> nth_error calls j = Some (CreateDriver n) -> i = j.
Proof.
  intros file calls i j n S I J. destruct (send_shape _ _ S) as (config & chunks & K & SP & ->).
  assert (N : nodups (Dict config)) by (rewrite <- K; apply keys_nodups).
  set (names := match lookup "actuator" config with Some (Dict acts) => map fst acts | _ => [] end) in *.
  assert (ND : NoDup names).
  { unfold names. destruct (lookup "actuator" config) as [[|acts]|] eqn:L; [constructor| |constructor].
    inversion N as [|? _ SUB]; subst. pose proof (SUB _ _ (lookup_in _ _ _ L)) as M. inversion M. assumption. }
  assert (F : forall i, nth_error (map CreateDriver names ++ map ConfigUpdate chunks) i = Some (CreateDriver n) ->
              nth_error names i = Some n).
  { intros k E. destruct (PeanoNat.Nat.lt_ge_cases k (List.length names)) as [LT|GE].
    - rewrite nth_error_app1, nth_error_map in E by (rewrite map_length; exact LT). destruct (nth_error names k); [|discriminate].
      cbn in E. congruence.
    - rewrite nth_error_app2, nth_error_map in E by (rewrite map_length; exact GE). destruct (nth_error chunks _); discriminate. }
  apply F in I, J. rewrite NoDup_nth_error in ND. apply ND; [apply nth_error_Some; congruence|congruence].
Qed.
Print Assumptions csend_driver_once.

(** Keys that are numbers, truth values or null stay distinct, and texts stay what they are: only a text can become the
    same as another key. *)
Theorem csend_number_keys :
  (forall a b, (forall s, a <> KText s) -> (forall s, b <> KText s) -> str a = str b -> a = b) /\
  (forall s, str (KText s) = s).
Proof. split; [exact key_text|reflexivity]. Qed.
Print Assumptions csend_number_keys.

(** The tool sends unless the file or its entry "actuator" is no dictionary. *)
Theorem csend_sends : forall items, distinct (Dict items) ->
  (forall k v, In (k, Val v) items -> str k <> "actuator") -> exists calls, send_config_file (Dict items) = Some calls.
Proof.
  intros items D H. inversion D as [|? N _]; subst. unfold send_config_file. rewrite keys_dict, fold_distinct by exact N. cbn [app].
  unfold config_split. destruct (lookup "actuator" _) as [[v|acts]|] eqn:L; eauto. exfalso. apply lookup_in in L.
  apply in_map_iff in L. destruct L as ([k c] & E & I). cbn in E. injection E as E1 E2. destruct c as [w|]; [|discriminate].
  exact (H k w I E1).
Qed.
Print Assumptions csend_sends.

Lemma distinct_forall : forall items, NoDup (map (fun kc => str (fst kc)) items) ->
  Forall (fun kc => distinct (snd kc)) items -> distinct (Dict items).
Proof. intros items N F. constructor; [exact N|]. intros k c I. rewrite Forall_forall in F. exact (F _ I). Qed.
Ltac is_distinct :=
  repeat first [apply distinct_val | apply distinct_forall; [cbn; repeat (constructor; [cbn; intuition discriminate|]); constructor|]
               | apply Forall_nil | apply Forall_cons; [cbn [snd]|]].

(** A file with two actuators, one of them named by a number, and another section. *)
Definition file1 : tree key :=
  Dict [(KText "master", Dict [(KText "gain", Val 7)]);
        (KText "actuator", Dict [(KText "arm", Dict [(KText "kp", Val 1); (KInt 2, Val 3)]); (KInt 12, Dict [(KText "kp", Val 5)])])].
Example csend_example : distinct file1 /\
  send_config_file file1 = Some
    [CreateDriver "arm"; CreateDriver "12";
     ConfigUpdate (Dict [("actuator", Dict [("arm", Dict [("kp", Val 1); ("2", Val 3)])])]);
     ConfigUpdate (Dict [("actuator", Dict [("12", Dict [("kp", Val 5)])])]);
     ConfigUpdate (Dict [("master", Dict [("gain", Val 7)])])] /\
  at_path file1 [KText "actuator"; KText "arm"; KInt 2] 3.
Proof.
  split; [|split; [reflexivity|]].
  - unfold file1. is_distinct.
  - econstructor; [right; left; reflexivity|]. econstructor; [left; reflexivity|]. econstructor; [right; left; reflexivity|]. constructor.
Qed.

(** Without the condition a value is lost: 1 and "1" in the same dictionary become one key. *)
Theorem csend_collision_refuted : exists file calls keys v, send_config_file file = Some calls /\ at_path file keys v /\
  ~ exists c, In (ConfigUpdate c) calls /\ at_path c (map str keys) v.
Proof.
  exists (Dict [(KInt 1, Val 5); (KText "1", Val 6)]), [ConfigUpdate (Dict [("1", Val 6)])], [KInt 1], 5%Z.
  split; [reflexivity|]. split; [econstructor; [left; reflexivity|constructor]|].
  intros (c & [E|[]] & A). injection E as <-. inversion A as [|? ? ? ? ? I B]; subst. destruct I as [E|[]]. inversion E; subst.
  inversion B.
Qed.
Print Assumptions csend_collision_refuted.

(** An entry "actuator:" with nothing below stops the tool, and the rest of the file is not sent either. *)
Theorem csend_no_actuators_refuted : exists items none, distinct (Dict items) /\ In (KText "actuator", Val none) items /\
  at_path (Dict items) [KText "master"; KText "gain"] 7 /\ send_config_file (Dict items) = None.
Proof.
  exists [(KText "actuator", Val 0); (KText "master", Dict [(KText "gain", Val 7)])], 0%Z. split.
  - is_distinct.
  - split; [left; reflexivity|]. split; [|reflexivity]. econstructor; [right; left; reflexivity|].
    econstructor; [left; reflexivity|constructor].
Qed.
Print Assumptions csend_no_actuators_refuted.
