(** Property theorems for C17, C18, C19, C50 and C59 (lib/parameter/parameter.c, the parameter enumeration of
    the UWB beacon, the remote parameter servers). *)
From Coq Require Import ZArith List Bool Arith Lia.
From Verif Require Import CBase Buf ParamModel ParamSpec ParamProofs ParamProofs2.
Import ListNotations.
Local Open Scope Z_scope.

(** ** C17: change notification *)

(** After any history of calls, the counter of a namespace is the number of parameters of its subtree set
    since they were last got, and "contains changed" says whether there is one. *)
Theorem param_changed_exact : forall hist h r, run hist = OK h -> (r < length (ns_decls hist))%nat ->
  Z.of_nat (length (par_decls hist)) < 2 ^ 31 ->
  exists x l, nth_error (nss h) r = Some x /\ changed_params hist r l /\ ncnt x = Z.of_nat (length l) /\
    namespace_contains_changed h r = OK (match l with [] => false | _ => true end).
Proof. exact changed_exact. Qed.
Print Assumptions param_changed_exact.

(** The same for one parameter. *)
Theorem param_changed_flag : forall hist h p b, run hist = OK h -> parameter_changed h p = OK b ->
  (b = true <-> unread hist p).
Proof.
  intros hist h p b R H. unfold parameter_changed in H. destruct (nth_error (pars h) p) as [x|] eqn:F; [|discriminate].
  inversion H; subst. exact (i_chg _ _ (inv_run _ _ R) _ _ F).
Qed.
Print Assumptions param_changed_flag.

(** Threads: whatever the schedule, once every thread is done with its calls the counters are again the
    numbers of changed parameters. *)
Theorem param_changed_threads : forall hist h0 ths sched h' ths' r x, run hist = OK h0 -> Forall calls_only ths ->
  sys_run (h0, ths) sched = OK (h', ths') -> Forall (fun l => l = []) ths' ->
  nth_error (nss h') r = Some x -> Z.of_nat (length (par_decls hist)) < 2 ^ 31 ->
  exists l, flagged h' r l /\ ncnt x = Z.of_nat (length l) /\ (namespace_contains_changed h' r = OK true <-> l <> []).
Proof. exact threads_exact. Qed.
Print Assumptions param_changed_threads.

(** The steps of the threads are those of the functions. *)
Theorem param_set_is_its_steps : forall hist h p a, run hist = OK h -> (p < length (par_decls hist))%nat ->
  solo h (length (ns_decls hist) + 3) (prog_set p a) = parameter_set h p a.
Proof. exact solo_set. Qed.
Print Assumptions param_set_is_its_steps.
Theorem param_get_is_its_steps : forall hist h p k, run hist = OK h -> (p < length (par_decls hist))%nat ->
  solo h (length (ns_decls hist) + 3) (prog_get p k) = try (h, _) := parameter_get h p k in OK h.
Proof. exact solo_get. Qed.
Print Assumptions param_get_is_its_steps.

(** A tree: / (0) with a (1) and b (2), a/c (3); parameters a/c/x (0), b/x (1), y (2), a/s (3). *)
Definition ex_tree : list op :=
  [ODeclNs None [47]; ODeclNs (Some 0%nat) [97]; ODeclNs (Some 0%nat) [98]; ODeclNs (Some 1%nat) [99];
   ODecl 3 [120] (DScalar None); ODecl 2 [120] (DInt (Some 5)); ODecl 0 [121] (DBool None); ODecl 1 [115] (DStr (repeat 0 8) None)].
Definition ex_hist : list op :=
  ex_tree ++ [OSet 0 (AScalar 17); OGet 1 KInt; OSet 2 (ABool true); ORead 2 KBool; OSet 0 (AScalar 18);
              OSet 3 (AStr [104; 101; 108; 108; 111] 5); OGet 3 (KStr 8)].
Example param_changed_example : exists h, run ex_hist = OK h /\
  map (namespace_contains_changed h) [0; 1; 2; 3]%nat = [OK true; OK true; OK false; OK true] /\
  map ncnt (nss h) = [2; 1; 0; 1].
Proof. eexists. split; [vm_compute; reflexivity|]. split; reflexivity. Qed.
Example param_threads_example : exists h h' ths',
  run ex_tree = OK h /\ Forall calls_only [prog_set 0 (AScalar 1); prog_get 1 KInt; prog_set 0 (AScalar 2)] /\
  sys_run (h, [prog_set 0 (AScalar 1); prog_get 1 KInt; prog_set 0 (AScalar 2)]) [0; 2; 1; 2; 0; 1; 2; 1; 2; 1; 2; 2; 0; 0; 0]%nat = OK (h', ths') /\
  Forall (fun l => l = []) ths' /\ map ncnt (nss h') = [1; 1; 0; 1].
Proof. do 3 eexists. repeat (split; [vm_compute; repeat constructor|]). vm_compute; reflexivity. Qed.

(** With threads, "contains changed" may be reported while no parameter is changed: a get that comes between
    the flag and the counter brings the counter to -1, and it is compared as an unsigned number. *)
Theorem param_contains_changed_transient_refuted : exists hist h p a k sched h' ths',
  run hist = OK h /\ sys_run (h, [prog_set p a; prog_get p k]) sched = OK (h', ths') /\
  namespace_contains_changed h' 0 = OK true /\ flagged h' 0 [].
Proof.
  exists [ODeclNs None [47]; ODecl 0 [120] (DInt None)]. eexists. exists O, (AInt 3), KInt, [0; 0; 1; 1]%nat. do 2 eexists.
  split; [vm_compute; reflexivity|]. split; [vm_compute; reflexivity|]. split; [reflexivity|].
  split; [constructor|]. intro q. split; [intros []|]. intros (x & X & C & _).
  destruct q as [|[|q]]; cbn in X; inversion X; subst; discriminate.
Qed.
Print Assumptions param_contains_changed_transient_refuted.

(** With threads, a parameter reported as changed may not be gettable yet: [defined] is set last, and the get
    fails an assertion. *)
Theorem param_changed_then_get_refuted : exists hist h p a k sched h' ths',
  run hist = OK h /\ sys_run (h, [prog_set p a]) sched = OK (h', ths') /\
  parameter_changed h' p = OK true /\ parameter_get h' p k = ASSERT.
Proof.
  exists [ODeclNs None [47]; ODecl 0 [120] (DInt None)]. eexists. exists O, (AInt 3), KInt, [0; 0]%nat. do 2 eexists.
  split; [vm_compute; reflexivity|]. split; [vm_compute; reflexivity|]. split; reflexivity.
Qed.
Print Assumptions param_changed_then_get_refuted.

(** ** C59: a read returns the last value set *)
Theorem param_read_last : forall hist h p o k, run hist = OK h -> last_assignment hist p o -> k <> KStr 0 ->
  parameter_read h p k = match expected (dim_of hist p) o k with Some g => OK g | None => ASSERT end.
Proof. exact read_last. Qed.
Print Assumptions param_read_last.
Theorem param_read_unassigned : forall hist h p k, run hist = OK h -> (forall o, ~ last_assignment hist p o) ->
  (p < length (par_decls hist))%nat -> parameter_read h p k = ASSERT.
Proof. exact read_unassigned. Qed.
Print Assumptions param_read_unassigned.
Example param_read_example : exists h, run ex_hist = OK h /\
  last_assignment ex_hist 3 (OSet 3 (AStr [104; 101; 108; 108; 111] 5)) /\
  parameter_read h 3 (KStr 4) = OK (GStr [104; 101; 108; 0] 5) /\ parameter_read h 0 KScalar = OK (GScalar 18) /\
  parameter_read h 1 KInt = OK (GInt 5) /\ parameter_read h 1 KBool = ASSERT.
Proof.
  eexists. split; [vm_compute; reflexivity|]. split; [|repeat split].
  exists (ex_tree ++ [OSet 0 (AScalar 17); OGet 1 KInt; OSet 2 (ABool true); ORead 2 KBool; OSet 0 (AScalar 18)]), [OGet 3 (KStr 8)].
  split; [reflexivity|]. split; [constructor|]. intros [|? [|]] o' b2 E A; inversion E; subst; inversion A.
Qed.

(** ** C18: lookup *)
Theorem param_find_exact : forall hist h n path comps last, run hist = OK h -> ids_ok hist -> (n < length (ns_decls hist))%nat ->
  ~ In 0 path -> components path (comps ++ [last]) ->
  match parameter_find h n path with
  | OK (Some p) => names hist n comps last p
  | OK None => forall p, ~ names hist n comps last p
  | _ => False
  end.
Proof. exact find_exact. Qed.
Print Assumptions param_find_exact.
Theorem param_namespace_find_exact : forall hist h n path comps, run hist = OK h -> ids_ok hist -> (n < length (ns_decls hist))%nat ->
  ~ In 0 path -> comps <> [] -> components path comps ->
  match namespace_find h n path with
  | OK (Some m) => leads (ns_decls hist) n comps m
  | OK None => forall m, ~ leads (ns_decls hist) n comps m
  | _ => False
  end.
Proof. exact nsfind_exact. Qed.
Print Assumptions param_namespace_find_exact.
(** A path names at most one parameter, and every path has components. *)
Theorem param_path_unique : forall hist n comps last p q, names hist n comps last p -> names hist n comps last q -> p = q.
Proof. exact names_unique. Qed.
Print Assumptions param_path_unique.
Theorem param_path_components : forall path, exists comps last, components path (comps ++ [last]).
Proof. intro path. destruct (components_exist path) as (c & l & H & _). eauto. Qed.
Print Assumptions param_path_components.
Example param_find_example : exists h, run ex_hist = OK h /\ ids_ok ex_hist /\
  components [97; 47; 47; 99; 47; 120] ([[97]; []; [99]] ++ [[120]]) /\
  parameter_find h 0 [97; 47; 47; 99; 47; 120] = OK (Some 0%nat) /\
  parameter_find h 0 [97; 47; 120] = OK None /\ namespace_find h 0 [97; 47; 99] = OK (Some 3%nat).
Proof.
  eexists. split; [vm_compute; reflexivity|]. split; [|split; [|repeat split]].
  - split; repeat constructor; cbn; intuition discriminate.
  - split; [reflexivity|]. repeat constructor; cbn; unfold slash; intuition discriminate.
Qed.

(** The lookup with explicit length (used on names received in MessagePack) reads outside of an identifier if
    the name contains a null byte. *)
Theorem param_find_embedded_nul_refuted : exists hist h n path,
  run hist = OK h /\ ids_ok hist /\ (n < length (ns_decls hist))%nat /\ parameter_find h n path = BAD.
Proof.
  exists [ODeclNs None [47]; ODecl 0 [120] (DInt None)]. eexists. exists O, [120; 0; 5]. split; [vm_compute; reflexivity|].
  split; [split; repeat constructor; cbn; intuition discriminate|]. split; [cbn; lia|reflexivity].
Qed.
Print Assumptions param_find_embedded_nul_refuted.

(** ** C19: enumeration *)
Theorem param_enumeration : forall hist h root, run hist = OK h -> (root < length (ns_decls hist))%nat ->
  exists l, NoDup l /\ (forall p, In p l <-> param_within hist p root) /\
    forall k, 0 <= k -> find_by_index h root k = OK (nth_error l (Z.to_nat k)).
Proof. exact enumeration. Qed.
Print Assumptions param_enumeration.
Theorem param_full_name_resolves : forall hist h root rid p, run hist = OK h -> ids_ok hist -> ids_distinct hist ->
  nth_error (ns_decls hist) root = Some (None, rid) -> param_within hist p root ->
  exists name, full_name h p = OK name /\ parameter_find h root name = OK (Some p).
Proof. exact full_name_found. Qed.
Print Assumptions param_full_name_resolves.
Example param_enumeration_example : exists h, run ex_hist = OK h /\
  map (find_by_index h 0) [0; 1; 2; 3; 4] = [OK (Some 2%nat); OK (Some 1%nat); OK (Some 3%nat); OK (Some 0%nat); OK None] /\
  full_name h 0 = OK [47; 97; 47; 99; 47; 120].
Proof. eexists. split; [vm_compute; reflexivity|]. split; reflexivity. Qed.
Example param_full_name_hypotheses : ids_ok ex_hist /\ ids_distinct ex_hist /\
  nth_error (ns_decls ex_hist) 0 = Some (None, [47]) /\ param_within ex_hist 0 0.
Proof.
  split; [split; repeat constructor; cbn; intuition discriminate|]. split; [|split; [reflexivity|]].
  - unfold ids_distinct. split; [|split; [|split]].
    + intros [|[|[|[|[|]]]]] m id H; cbn in H; inversion H; subst; cbn; unfold slash; intuition discriminate.
    + intros [|[|[|[|[|]]]]] m id d H; cbn in H; inversion H; subst; cbn; unfold slash; intuition discriminate.
    + intros [|[|[|[|[|]]]]] [|[|[|[|[|]]]]] m id H H'; cbn in *; try discriminate; try reflexivity; congruence.
    + intros [|[|[|[|[|]]]]] [|[|[|[|[|]]]]] m id d d' H H'; cbn in *; try discriminate; try reflexivity; congruence.
  - exists 3%nat, [120], (DScalar None). split; [reflexivity|]. eapply within_up; [reflexivity|]. eapply within_up; [reflexivity|]. constructor.
Qed.
(** Two parameters with the same name at the same place: the full name of one resolves to the other. *)
Theorem param_full_name_clash_refuted : exists hist h root rid p name q, run hist = OK h /\ ids_ok hist /\
  nth_error (ns_decls hist) root = Some (None, rid) /\ param_within hist p root /\
  full_name h p = OK name /\ parameter_find h root name = OK (Some q) /\ p <> q.
Proof.
  exists [ODeclNs None [47]; ODecl 0 [120] (DInt None); ODecl 0 [120] (DInt None)]. eexists. exists O, [47], O. do 2 eexists.
  split; [vm_compute; reflexivity|]. split; [split; repeat constructor; cbn; intuition discriminate|].
  split; [reflexivity|]. split; [exists O, [120], (DInt None); split; [reflexivity|constructor]|].
  split; [reflexivity|]. split; [reflexivity|]. discriminate.
Qed.
Print Assumptions param_full_name_clash_refuted.

(** ** C50: remote access *)

(** A remote write sets the parameter with that path if the types match, and does nothing otherwise. *)
Theorem param_remote_write : forall hist h root name comps last v, run hist = OK h -> ids_ok hist -> (root < length (ns_decls hist))%nat ->
  ~ In 0 name -> components name (comps ++ [last]) -> ~ extreme v ->
  ((forall p, ~ names hist root comps last p) -> assign_value h root name v = OK h) /\
  (forall p m id d, names hist root comps last p -> nth_error (par_decls hist) p = Some (m, id, d) ->
     assign_value h root name v = match remote_arg d v with Some a => run_op h (OSet p a) | None => OK h end).
Proof. exact remote_write. Qed.
Print Assumptions param_remote_write.
Theorem param_remote_write_succeeds : forall hist h p m id d v a, run hist = OK h -> nth_error (par_decls hist) p = Some (m, id, d) ->
  remote_arg d v = Some a -> (forall buf o s, d = DStr buf o -> v = RString s -> (length s <= length buf)%nat) ->
  exists h', run_op h (OSet p a) = OK h'.
Proof. exact remote_write_succeeds. Qed.
Print Assumptions param_remote_write_succeeds.
(** The value read back is the one written (the first three characters for strings), and nothing else changes. *)
Theorem param_remote_read_back_partial : forall hist h root name comps last v p m id d a h',
  run hist = OK h -> ids_ok hist -> (root < length (ns_decls hist))%nat ->
  ~ In 0 name -> components name (comps ++ [last]) -> ~ extreme v ->
  names hist root comps last p -> nth_error (par_decls hist) p = Some (m, id, d) -> remote_arg d v = Some a ->
  assign_value h root name v = OK h' ->
  read_value h' root name = OK (match v with RString s => RString (c_str (firstn 3 s)) | _ => v end) /\
  forall q k, q <> p -> parameter_read h' q k = parameter_read h q k.
Proof. exact remote_read_back. Qed.
Print Assumptions param_remote_read_back_partial.
Example param_remote_example : exists h h', run ex_hist = OK h /\ ids_ok ex_hist /\
  names ex_hist 0 [[]; [98]] [120] 1 /\ assign_value h 0 [47; 98; 47; 120] (RInteger (-7)) = OK h' /\
  read_value h' 0 [47; 98; 47; 120] = OK (RInteger (-7)) /\ assign_value h 0 [47; 98; 47; 120] (RReal 3) = OK h.
Proof.
  do 2 eexists. split; [vm_compute; reflexivity|]. split; [split; repeat constructor; cbn; intuition discriminate|].
  split; [|split; [vm_compute; reflexivity|split; reflexivity]].
  split; [discriminate|]. exists 2%nat. split.
  - constructor. eapply leads_down; [discriminate| |constructor]. split; [reflexivity|].
    intros [|[|[|[|[|]]]]] H; cbn in H; try discriminate; lia.
  - split; [eexists; reflexivity|]. intros [|[|[|[|[|]]]]] [d H]; cbn in H; try discriminate; lia.
Qed.
(** The smallest and the largest 32-bit integers are refused. *)
Theorem param_remote_extremes_refuted : forall v, extreme v -> exists hist h root name p m id d,
  run hist = OK h /\ ids_ok hist /\ names hist root [] name p /\ nth_error (par_decls hist) p = Some (m, id, d) /\
  remote_arg d v <> None /\ assign_value h root name v = OK h /\ read_value h root name = OK (RInteger 5).
Proof.
  intros v X. exists [ODeclNs None [47]; ODecl 0 [120] (DInt (Some 5))]. eexists. exists O, [120], O. do 3 eexists.
  split; [vm_compute; reflexivity|]. split; [split; repeat constructor; cbn; intuition discriminate|].
  split; [|split; [reflexivity|]].
  - split; [discriminate|]. exists O. split; [constructor|]. split; [eexists; reflexivity|].
    intros [|[|]] [d H]; cbn in H; try discriminate; lia.
  - destruct X as [-> | ->]; repeat split; vm_compute; discriminate.
Qed.
Print Assumptions param_remote_extremes_refuted.
(** A string of four characters or more is not read back: the size of a pointer is used as buffer size. *)
Theorem param_remote_string_refuted : exists hist h root name p buf o s h',
  run hist = OK h /\ names hist root [] name p /\ nth_error (par_decls hist) p = Some (O, name, DStr buf o) /\
  (length s < length buf)%nat /\ assign_value h root name (RString s) = OK h' /\ read_value h' root name <> OK (RString s).
Proof.
  exists [ODeclNs None [47]; ODecl 0 [120] (DStr (repeat 0 8) None)]. eexists. exists O, [120], O, (repeat 0 8), None, [97; 98; 99; 100]. eexists.
  split; [vm_compute; reflexivity|]. split.
  - split; [discriminate|]. exists O. split; [constructor|]. split; [eexists; reflexivity|].
    intros [|[|]] [d H]; cbn in H; try discriminate; lia.
  - split; [reflexivity|]. split; [cbn; lia|]. split; [vm_compute; reflexivity|]. vm_compute. discriminate.
Qed.
Print Assumptions param_remote_string_refuted.
(** A remote string longer than the parameter stops the board on an assertion. *)
Theorem param_remote_long_string_refuted : exists hist h root name v,
  run hist = OK h /\ ids_ok hist /\ assign_value h root name v = ASSERT.
Proof.
  exists [ODeclNs None [47]; ODecl 0 [120] (DStr [0; 0] None)]. eexists. exists O, [120], (RString [97; 98; 99]).
  split; [vm_compute; reflexivity|]. split; [split; repeat constructor; cbn; intuition discriminate|reflexivity].
Qed.
Print Assumptions param_remote_long_string_refuted.
