(** C115, C116: properties of the parameter editor of the studio with the parameter server of a board. *)
From Coq Require Import ZArith List Bool Lia.
From Verif Require Import CBase Buf ParamModel ParamSpec StudModel StudSpec StudProofs.
Import ListNotations.
Local Open Scope Z_scope.

(** ** C115: the parameters shown *)

(** If every parameter of the board has a value (of a type that can be sent) and no answer is lost, the list fetched has
    each parameter of the board exactly once, with its full name and the value it has. *)
Theorem stud_fetch_complete : forall hist h, is_tree hist h -> (forall p, param_within hist p 0 -> visible hist p) ->
  exists l es, NoDup l /\ (forall p, In p l <-> param_within hist p 0) /\ Forall2 (entry_of h) l es /\
    forall answers, (length l <= answers)%nat -> fetch h answers = OK es.
Proof. exact fetch_complete. Qed.
Print Assumptions stud_fetch_complete.

(** In general it is a beginning of that list: up to the first parameter without a value, or the first lost answer. *)
Theorem stud_fetch_partial : forall hist h answers, is_tree hist h -> exists l es k,
  NoDup l /\ (forall p, In p l <-> param_within hist p 0) /\ fetch h answers = OK es /\
  Forall2 (entry_of h) (firstn k l) es /\ Forall (visible hist) (firstn k l) /\ (k <= length l)%nat /\
  (k = answers \/ k = length l \/ exists p, nth_error l k = Some p /\ ~ visible hist p).
Proof. exact fetch_prefix. Qed.
Print Assumptions stud_fetch_partial.

(** /k = 7 (scalar), /a/n = 5 (integer), /a/b = true. *)
Definition ex_hist : list op :=
  [ODeclNs None [47]; ODeclNs (Some 0%nat) [97]; ODecl 0 [107] (DScalar (Some 7)); ODecl 1 [110] (DInt (Some 5)); ODecl 1 [98] (DBool (Some true))].
Example stud_tree_example : exists h, is_tree ex_hist h /\ (forall p, param_within ex_hist p 0 -> visible ex_hist p) /\
  fetch h 10 = OK [([47; 107], RReal 7); ([47; 97; 47; 98], RBoolean true); ([47; 97; 47; 110], RInteger 5)].
Proof.
  eexists. split; [|split].
  - split; [vm_compute; reflexivity|]. split; [split; repeat constructor; cbn; intuition discriminate|]. split; [|eexists; reflexivity].
    split; [|split; [|split]].
    + intros [|[|[|]]] m id H; cbn in H; inversion H; subst; cbn; unfold slash; intuition discriminate.
    + intros [|[|[|[|]]]] m id d H; cbn in H; inversion H; subst; cbn; unfold slash; intuition discriminate.
    + intros [|[|[|]]] [|[|[|]]] m id H H'; cbn in *; try discriminate; try reflexivity; congruence.
    + intros [|[|[|[|]]]] [|[|[|[|]]]] m id d d' H H'; cbn in *; try discriminate; try reflexivity; congruence.
  - intros p (m & id & d & D & _). destruct p as [|[|[|[|p]]]]; cbn in D; try discriminate; inversion D; subst.
    + exists O, [107], (DScalar (Some 7)), (ODecl 0 [107] (DScalar (Some 7))). split; [reflexivity|]. split; [exact I|].
      exists [ODeclNs None [47]; ODeclNs (Some 0%nat) [97]], [ODecl 1 [110] (DInt (Some 5)); ODecl 1 [98] (DBool (Some true))].
      split; [reflexivity|]. split; [apply (as_default [ODeclNs None [47]; ODeclNs (Some 0%nat) [97]]); reflexivity|].
      intros [|? [|? [|]]] o' b2 E A; inversion E; subst; inversion A.
    + exists 1%nat, [110], (DInt (Some 5)), (ODecl 1 [110] (DInt (Some 5))). split; [reflexivity|]. split; [exact I|].
      exists [ODeclNs None [47]; ODeclNs (Some 0%nat) [97]; ODecl 0 [107] (DScalar (Some 7))], [ODecl 1 [98] (DBool (Some true))].
      split; [reflexivity|]. split; [apply (as_default [ODeclNs None [47]; ODeclNs (Some 0%nat) [97]; ODecl 0 [107] (DScalar (Some 7))]); reflexivity|].
      intros [|? [|]] o' b2 E A; inversion E; subst; inversion A.
    + exists 1%nat, [98], (DBool (Some true)), (ODecl 1 [98] (DBool (Some true))). split; [reflexivity|]. split; [exact I|].
      exists [ODeclNs None [47]; ODeclNs (Some 0%nat) [97]; ODecl 0 [107] (DScalar (Some 7)); ODecl 1 [110] (DInt (Some 5))], [].
      split; [reflexivity|]. split; [apply (as_default [ODeclNs None [47]; ODeclNs (Some 0%nat) [97]; ODecl 0 [107] (DScalar (Some 7)); ODecl 1 [110] (DInt (Some 5))]); reflexivity|].
      intros [|? [|]] o' b2 E A; inversion E.
  - vm_compute. reflexivity.
Qed.

(** A parameter without a value hides all those after it, which have one. *)
Theorem stud_hidden_refuted : exists hist h p, run hist = OK h /\ param_within hist p 0 /\ shows h p (RInteger 5) /\
  forall answers, fetch h answers = OK [].
Proof.
  exists [ODeclNs None [47]; ODecl 0 [107] (DInt (Some 5)); ODecl 0 [110] (DScalar None)]. eexists. exists O.
  split; [vm_compute; reflexivity|]. split; [exists O, [107], (DInt (Some 5)); split; [reflexivity|constructor]|]. split; [reflexivity|].
  intros [|n]; reflexivity.
Qed.
Print Assumptions stud_hidden_refuted.

(** The tree shown has at the path of each name its value, if no name is the beginning of another. *)
Theorem stud_tree : forall l d d', fill d l = Some d' ->
  (forall a b, In a l -> In b l -> nested_paths (split (fst a)) (split (fst b)) -> a = b) -> NoDup l ->
  forall e, In e l -> nested_get d' (split (fst e)) = Some (Entry (snd e)).
Proof. exact fill_get. Qed.
Print Assumptions stud_tree.
(** The path of a parameter in the tree gives back its name. *)
Theorem stud_path_name : forall name, path_of (split name) = name.
Proof. exact split_join. Qed.
Print Assumptions stud_path_name.
Example stud_tree_filled : exists d, fill (Level []) [([47; 107], RReal 7); ([47; 97; 47; 98], RBoolean true); ([47; 97; 47; 110], RInteger 5)] = Some d /\
  nested_get d [[]; [97]; [98]] = Some (Entry (RBoolean true)) /\ split [47; 97; 47; 98] = [[]; [97]; [98]].
Proof. eexists. split; [vm_compute; reflexivity|]. split; reflexivity. Qed.
(** A parameter with the name of a namespace beside it ends the thread that fetches. *)
Theorem stud_clash_refuted : exists hist h es, run hist = OK h /\ ids_distinct hist /\ fetch h 10 = OK es /\ length es = 2%nat /\
  fill (Level []) es = None.
Proof.
  exists [ODeclNs None [47]; ODeclNs (Some 0%nat) [97]; ODecl 0 [97] (DScalar (Some 7)); ODecl 1 [107] (DInt (Some 5))]. do 2 eexists.
  split; [vm_compute; reflexivity|]. split; [|split; [vm_compute; reflexivity|split; reflexivity]]. split; [|split; [|split]].
  + intros [|[|[|]]] m id H; cbn in H; inversion H; subst; cbn; unfold slash; intuition discriminate.
  + intros [|[|[|]]] m id d H; cbn in H; inversion H; subst; cbn; unfold slash; intuition discriminate.
  + intros [|[|[|]]] [|[|[|]]] m id H H'; cbn in *; try discriminate; try reflexivity; congruence.
  + intros [|[|[|]]] [|[|[|]]] m id d d' H H'; cbn in *; try discriminate; try reflexivity; congruence.
Qed.
Print Assumptions stud_clash_refuted.

(** ** C116: editing *)

(** Editing a shown number sets that parameter to the number entered, and no other parameter changes. *)
Theorem stud_edit_number_partial : forall int_of float_of hist h name v p m id d text w,
  run hist = OK h -> entry_of h p (name, v) -> nth_error (par_decls hist) p = Some (m, id, d) ->
  (exists i, v = RInteger i) /\ (exists j, int_of text = Some j /\ - 2 ^ 31 < j < 2 ^ 31 - 1 /\ w = RInteger j) \/
  (exists x, v = RReal x) /\ (exists y, float_of text = Some y /\ w = RReal y) ->
  exists h', edit int_of float_of h name v text = OK h' /\ shows h' p w /\
    forall q k, q <> p -> parameter_read h' q k = parameter_read h q k.
Proof.
  intros int_of float_of hist h name v p m id d text w R (FN & PF & S) D C. cbn [fst snd] in *.
  pose proof (shows_decl hist h p v m id d R D S) as K. unfold edit.
  destruct C as [((i & ->) & j & E & B & ->)|((x & ->) & y & E & ->)]; destruct K as (o & ->); cbn [type_of value_to_uavcan]; rewrite E.
  - assert (RA : remote_arg (DInt o) (RInteger j) = Some (AInt j)).
    { cbn [remote_arg]. replace (- 2 ^ 31 <=? j) with true by lia. replace (j <=? 2 ^ 31 - 1) with true by lia. reflexivity. }
    assert (X : ~ extreme (RInteger j)) by (intros [X|X]; inversion X; lia).
    rewrite (assign_found hist h name p m id (DInt o) _ _ R PF D RA X).
    destruct (set_ok hist h p m id _ _ _ R D RA) as (h' & R'); [discriminate|]. exists h'. split; [exact R'|]. split.
    + cbn [shows]. rewrite (set_read _ _ _ _ _ R') by discriminate. reflexivity.
    + intros q k Q. eapply set_others; eauto.
  - assert (RA : remote_arg (DScalar o) (RReal y) = Some (AScalar y)) by reflexivity.
    assert (X : ~ extreme (RReal y)) by (intros [X|X]; inversion X).
    rewrite (assign_found hist h name p m id (DScalar o) _ _ R PF D RA X).
    destruct (set_ok hist h p m id _ _ _ R D RA) as (h' & R'); [discriminate|]. exists h'. split; [exact R'|]. split.
    + cbn [shows]. rewrite (set_read _ _ _ _ _ R') by discriminate. reflexivity.
    + intros q k Q. eapply set_others; eauto.
Qed.
Print Assumptions stud_edit_number_partial.
Example stud_edit_example : exists h, run ex_hist = OK h /\ entry_of h 1 ([47; 97; 47; 110], RInteger 5) /\
  nth_error (par_decls ex_hist) 1 = Some (1%nat, [110], DInt (Some 5)).
Proof. eexists. split; [vm_compute; reflexivity|]. split; [|reflexivity]. split; [vm_compute; reflexivity|]. split; vm_compute; reflexivity. Qed.

(** A text that is not a number changes nothing. *)
Theorem stud_edit_not_a_number : forall int_of float_of h name v text,
  (exists i, v = RInteger i) /\ int_of text = None \/ (exists x, v = RReal x) /\ float_of text = None ->
  edit int_of float_of h name v text = OK h.
Proof. intros int_of float_of h name v text [((i & ->) & E)|((x & ->) & E)]; unfold edit; cbn [type_of value_to_uavcan]; rewrite E; reflexivity. Qed.
Print Assumptions stud_edit_not_a_number.

(** Whatever is entered for a boolean, "False" or "0" included, sets it to true; only the empty text sets it to false. *)
Theorem stud_edit_bool_refuted : forall int_of float_of hist h name b p m id d text,
  run hist = OK h -> entry_of h p (name, RBoolean b) -> nth_error (par_decls hist) p = Some (m, id, d) ->
  exists h', edit int_of float_of h name (RBoolean b) text = OK h' /\
    shows h' p (RBoolean (match text with [] => false | _ => true end)) /\
    forall q k, q <> p -> parameter_read h' q k = parameter_read h q k.
Proof.
  intros int_of float_of hist h name b p m id d text R (FN & PF & S) D. cbn [fst snd] in *.
  pose proof (shows_decl hist h p _ m id d R D S) as (o & ->). unfold edit. cbn [type_of value_to_uavcan].
  set (w := match text with [] => false | _ => true end).
  assert (RA : remote_arg (DBool o) (RBoolean w) = Some (ABool w)) by reflexivity.
  assert (X : ~ extreme (RBoolean w)) by (intros [X|X]; inversion X).
  rewrite (assign_found hist h name p m id (DBool o) _ _ R PF D RA X).
  destruct (set_ok hist h p m id _ _ _ R D RA) as (h' & R'); [discriminate|]. exists h'. split; [exact R'|]. split.
  - cbn [shows]. rewrite (set_read _ _ _ _ _ R') by discriminate. reflexivity.
  - intros q k Q. eapply set_others; eauto.
Qed.
Print Assumptions stud_edit_bool_refuted.
Example stud_edit_false : exists h h', run ex_hist = OK h /\ entry_of h 2 ([47; 97; 47; 98], RBoolean true) /\
  edit (fun _ => None) (fun _ => None) h [47; 97; 47; 98] (RBoolean true) [70; 97; 108; 115; 101] = OK h' /\
  parameter_read h' 2 KBool = OK (GBool true).
Proof.
  do 2 eexists. split; [vm_compute; reflexivity|]. split; [|split; [vm_compute; reflexivity|vm_compute; reflexivity]].
  split; [vm_compute; reflexivity|]. split; vm_compute; reflexivity.
Qed.

(** A text too long for the parameter stops the board on an assertion. *)
Theorem stud_edit_text_refuted : exists hist h text, run hist = OK h /\ entry_of h 0 ([47; 107], RString [97]) /\
  edit (fun _ => None) (fun _ => None) h [47; 107] (RString [97]) text = ASSERT.
Proof.
  exists [ODeclNs None [47]; ODecl 0 [107] (DStr [0; 0; 0] (Some [97]))]. eexists. exists [97; 98; 99; 100].
  split; [vm_compute; reflexivity|]. split; [|vm_compute; reflexivity]. split; [vm_compute; reflexivity|]. split; [vm_compute; reflexivity|].
  do 2 eexists. split; vm_compute; reflexivity.
Qed.
Print Assumptions stud_edit_text_refuted.
