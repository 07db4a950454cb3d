(** Property theorems for C98 and C99 (printing of the parameters as YAML, commands of the shell that show and
    set parameters). *)
From Coq Require Import String ZArith List Bool Arith Lia.
From Verif Require Import CBase Buf ParamModel ParamSpec ParamProofs ParamProofs2 ShowModel ShowSpec ShowProofs ShowProofs2.
Import ListNotations.
Local Open Scope Z_scope.

(** ** C98: the text printed *)

(** Whatever the history of the parameters, the text printed for a namespace is read back as one entry for each
    parameter of the namespace, at its place, with its last value. Nothing is changed. *)
Theorem print_reads_back : forall ftoa malloc hist h r, run hist = OK h -> Forall plain_op hist ->
  (forall x, ~ In 10 (ftoa x)) -> (r < length (ns_decls hist))%nat ->
  exists text es l, parameter_print ftoa malloc h r = OK (h, text) /\ read_yaml text = Some es /\
    NoDup l /\ (forall p, In p l <-> param_within hist p r) /\
    Forall2 (fun p e => located hist r p (fst e) /\ shown ftoa (malloc p) hist p (snd e)) l es.
Proof. intros. now apply print_reads_back_proof. Qed.
Print Assumptions print_reads_back.

(** Every integer is printed as a number that reads as it. *)
Theorem print_integer : forall i, read_int (itoa i) = Some i.
Proof. intro i. apply itoa_reads. Qed.
Print Assumptions print_integer.

(** The tree of the unit test of the library, with every type; numbers printed as one letter. *)
Definition ex_print : list op :=
  [ODeclNs None []; ODecl 0 (lit "i") (DInt (Some (-42))); ODecl 0 (lit "b") (DBool (Some true));
   ODeclNs (Some 0%nat) (lit "sub1"); ODecl 1 (lit "s") (DStr (repeat 0 10) (Some (lit "abcd"))); ODecl 1 (lit "unset") (DScalar None);
   ODeclNs (Some 1%nat) (lit "deep"); ODecl 2 (lit "v") (DVec [1; 2; 3] true);
   ODeclNs (Some 0%nat) (lit "sub2"); ODecl 3 (lit "w") (DVar [33; 44; 0; 0] (Some 2%nat));
   OSet 0 (AInt 1024)].
Definition letter (x : Z) : str := [97 + x mod 26].
Example ex_print_ok : exists h text, run ex_print = OK h /\ Forall plain_op ex_print /\ (forall x, ~ In 10 (letter x)) /\
  parameter_print letter (fun _ => true) h 0 = OK (h, text) /\
  read_yaml text = Some [([lit "b"], lit "true"); ([lit "i"], lit "1024"); ([lit "sub2"; lit "w"], lit "[h, s]");
                         ([lit "sub1"; lit "unset"], lit "~"); ([lit "sub1"; lit "s"], [34] ++ lit "abcd" ++ [34]);
                         ([lit "sub1"; lit "deep"; lit "v"], lit "[b, c, d]")].
Proof.
  eexists. eexists. split; [vm_compute; reflexivity|]. split.
  { repeat constructor; cbn; try discriminate; try lia; intuition discriminate. }
  split. { intros x [E|[]]. pose proof (Z.mod_pos_bound x 26). lia. }
  split; [vm_compute; reflexivity|]; vm_compute; reflexivity.
Qed.

(** A string is printed as it is: one with an end of line makes the text of another tree, with other
    parameters. The condition on the strings is needed. *)
Theorem print_injection_refuted : exists hist1 hist2 h1 h2 text,
  run hist1 = OK h1 /\ run hist2 = OK h2 /\ length (par_decls hist1) = 1%nat /\ length (par_decls hist2) = 2%nat /\
  parameter_print letter (fun _ => true) h1 0 = OK (h1, text) /\ parameter_print letter (fun _ => true) h2 0 = OK (h2, text).
Proof.
  exists [ODeclNs None []; ODecl 0 (lit "a") (DStr (repeat 0 16) (Some ([34; 10] ++ lit "b: " ++ [34])))],
         [ODeclNs None []; ODecl 0 (lit "b") (DStr (repeat 0 16) (Some [])); ODecl 0 (lit "a") (DStr (repeat 0 16) (Some []))].
  do 3 eexists. split; [vm_compute; reflexivity|]. split; [vm_compute; reflexivity|].
  split; [reflexivity|]. split; [reflexivity|]. split; [vm_compute; reflexivity|]; vm_compute; reflexivity.
Qed.
Print Assumptions print_injection_refuted.

(** ** C99: the commands of the shell *)

(** [config_tree] never fails, and does to the parameters exactly what a get of each parameter that has a value
    and is not a vector does. *)
Theorem config_tree_is_gets : forall ftoa hist h root, run hist = OK h -> (root < length (ns_decls hist))%nat ->
  exists gs h' text, config_tree ftoa h root [] = OK (h', text) /\ run (hist ++ gs) = OK h' /\ Forall is_get gs /\
    forall p, (exists k, In (OGet p k) gs) <-> param_within hist p root /\ showable hist p /\ exists o, last_assignment hist p o.
Proof. exact config_tree_gets. Qed.
Print Assumptions config_tree_is_gets.
(** The same with a path: the namespaces inside of the one named, not its own parameters. *)
Theorem config_subtree_is_gets : forall ftoa hist h root path comps n, run hist = OK h -> ids_ok hist -> (root < length (ns_decls hist))%nat ->
  ~ In 0 path -> comps <> [] -> components path comps -> leads (ns_decls hist) root comps n ->
  exists gs h' text, config_tree ftoa h root [path] = OK (h', text) /\ run (hist ++ gs) = OK h' /\ Forall is_get gs /\
    forall p, (exists k, In (OGet p k) gs) <->
      (exists m id, nth_error (ns_decls hist) m = Some (Some n, id) /\ param_within hist p m) /\ showable hist p /\ exists o, last_assignment hist p o.
Proof. exact config_subtree_gets. Qed.
Print Assumptions config_subtree_is_gets.

(** So the values are kept, *)
Theorem config_tree_keeps_values : forall ftoa hist h root h' text p k, run hist = OK h -> (root < length (ns_decls hist))%nat ->
  config_tree ftoa h root [] = OK (h', text) -> (p < length (par_decls hist))%nat -> k <> KStr 0 -> parameter_read h' p k = parameter_read h p k.
Proof.
  intros ftoa hist h root h' text p k R Hr E Hp Hk. destruct (config_tree_gets ftoa hist h root R Hr) as (gs & h2 & t & E2 & R2 & G & _).
  rewrite E in E2. inversion E2; subst h2 t; clear E2. pose proof (inv_run _ _ R) as I. pose proof (inv_run _ _ R2) as I2.
  rewrite <- (inv_length _ _ I) in Hp. destruct (lt_nth _ _ _ Hp) as [x X]. destruct (pdefined x) eqn:DF.
  - destruct (i_def _ _ I _ _ X DF) as [o LA]. rewrite (read_last _ _ _ _ k R LA Hk).
    assert (LA2 : last_assignment (hist ++ gs) p o) by now apply gets_last.
    rewrite (read_last _ _ _ _ k R2 LA2 Hk). unfold dim_of. now rewrite (proj2 (gets_decls hist gs G)).
  - assert (N : forall o, ~ last_assignment hist p o) by (intros o LA; destruct (i_val _ _ I _ _ _ X LA); congruence).
    rewrite (inv_length _ _ I) in Hp.
    rewrite (read_unassigned _ _ _ k R N) by exact Hp. apply (read_unassigned _ _ _ k R2).
    + intros o LA. apply gets_last in LA; [|exact G]. now apply N in LA.
    + now rewrite (proj2 (gets_decls hist gs G)).
Qed.
Print Assumptions config_tree_keeps_values.
(** but the changes not yet seen by the rest of the robot are lost. *)
Theorem config_tree_loses_changes : forall ftoa hist h root h' text p, run hist = OK h -> (root < length (ns_decls hist))%nat ->
  config_tree ftoa h root [] = OK (h', text) -> param_within hist p root -> showable hist p ->
  parameter_changed h' p = OK false.
Proof.
  intros ftoa hist h root h' text p R Hr E W S. destruct (config_tree_gets ftoa hist h root R Hr) as (gs & h2 & t & E2 & R2 & G & Q).
  rewrite E in E2. inversion E2; subst h2 t; clear E2. pose proof (inv_run _ _ R) as I. pose proof (inv_run _ _ R2) as I2.
  destruct W as (m & id & d & D & W). assert (Hp : (p < length (pars h'))%nat).
  { rewrite (inv_length _ _ I2), (proj2 (gets_decls hist gs G)). apply nth_error_Some. congruence. }
  destruct (lt_nth _ _ _ Hp) as [y Y]. unfold parameter_changed. rewrite Y. f_equal.
  destruct (pchanged y) eqn:C; [|reflexivity]. exfalso. pose proof (proj1 (i_chg _ _ I2 _ _ Y) C) as U.
  pose proof (i_cd _ _ I2 _ _ Y C) as DF. destruct (i_def _ _ I2 _ _ Y DF) as [o LA]. apply gets_last in LA; [|exact G].
  assert (GK : exists k, In (OGet p k) gs).
  { apply Q. split; [exists m, id, d; auto|]. split; [exact S|eauto]. }
  destruct GK as [k GK]. destruct U as (a & o' & b & EQ & A & NB).
  assert (IB : exists b1, b = b1 ++ gs \/ exists g1, gs = g1 ++ o' :: b).
  { clear - EQ. revert a EQ. induction hist as [|c hist IH]; intros a EQ.
    - exists []. right. exists a. exact EQ.
    - destruct a as [|a0 a]; cbn in EQ; inversion EQ; subst.
      + exists hist. now left.
      + now apply (IH a). }
  destruct IB as [b1 [->|[g1 ->]]].
  - apply (NB k). apply in_or_app. now right.
  - apply Forall_app in G as [_ G]. inversion G as [|? ? O]; subst. destruct o'; try easy; inversion A.
Qed.
Print Assumptions config_tree_loses_changes.

(** A command that only shows must not change what the others see: false. A gain is set, the configuration is
    shown, and the controller, which asks whether its namespace contains changes, is never told. *)
Definition ex_gain : list op :=
  [ODeclNs None []; ODeclNs (Some 0%nat) (lit "control"); ODecl 1 (lit "kp") (DScalar (Some 1)); OGet 0 KScalar; OSet 0 (AScalar 2)].
Theorem config_tree_readonly_refuted : exists h h' text, run ex_gain = OK h /\ namespace_contains_changed h 1 = OK true /\
  config_tree letter h 0 [] = OK (h', text) /\ namespace_contains_changed h' 1 = OK false.
Proof. do 3 eexists. split; [vm_compute; reflexivity|]. split; [reflexivity|]. split; [vm_compute; reflexivity|]; vm_compute; reflexivity. Qed.
Print Assumptions config_tree_readonly_refuted.
(** The printer of the library does not have this effect, on the same history. *)
Example print_readonly : exists h text, run ex_gain = OK h /\ parameter_print letter (fun _ => true) h 0 = OK (h, text) /\
  namespace_contains_changed h 1 = OK true.
Proof. do 2 eexists. split; [vm_compute; reflexivity|]. split; [vm_compute; reflexivity|reflexivity]. Qed.
(** A parameter of the namespace asked for is not shown. *)
Theorem config_tree_subtree_refuted : exists hist h text, run hist = OK h /\ param_within hist 0 1 /\ showable hist 0 /\
  config_tree letter h 0 [lit "control"] = OK (h, text) /\ text = lit "This tree is empty." ++ [13; 10].
Proof.
  exists ex_gain. do 2 eexists. split; [vm_compute; reflexivity|]. split; [exists 1%nat, (lit "kp"), (DScalar (Some 1)); split; [reflexivity|constructor]|].
  split; [exists 1%nat, (lit "kp"), (DScalar (Some 1)); split; [reflexivity|exact I]|]. split; [vm_compute; reflexivity|]; vm_compute; reflexivity.
Qed.
Print Assumptions config_tree_subtree_refuted.
(** A string of fifty characters or more is cut. *)
Theorem config_tree_long_string_refuted : exists hist1 hist2 h1 h2 h1' h2' text, run hist1 = OK h1 /\ run hist2 = OK h2 /\
  parameter_read h1 0 (KStr 60) <> parameter_read h2 0 (KStr 60) /\
  config_tree letter h1 0 [] = OK (h1', text) /\ config_tree letter h2 0 [] = OK (h2', text).
Proof.
  exists [ODeclNs None []; ODecl 0 (lit "s") (DStr (repeat 0 64) (Some (repeat 97 49 ++ [98])))],
         [ODeclNs None []; ODecl 0 (lit "s") (DStr (repeat 0 64) (Some (repeat 97 49 ++ [99])))].
  do 5 eexists. split; [vm_compute; reflexivity|]. split; [vm_compute; reflexivity|].
  split; [vm_compute; discriminate|]. split; [vm_compute; reflexivity|]; vm_compute; reflexivity.
Qed.
Print Assumptions config_tree_long_string_refuted.

(** [config_set] gives the value asked for, to the parameter named and to no other, *)
Theorem config_set_asked : forall atof hist h root path comps last text p m id d a, run hist = OK h -> ids_ok hist -> (root < length (ns_decls hist))%nat ->
  ~ In 0 path -> components path (comps ++ [last]) -> names hist root comps last p -> nth_error (par_decls hist) p = Some (m, id, d) ->
  asked atof d text a ->
  exists h', config_set atof h root [path; text] = OK (h', []) /\ run (hist ++ [OSet p a]) = OK h'.
Proof. exact config_set_asked_proof. Qed.
Print Assumptions config_set_asked.
(** and for a text that is no value of the type, an unknown parameter or a wrong number of arguments, nothing is
    changed and the user is told. *)
Theorem config_set_senseless : forall atof hist h root path comps last text p m id d, run hist = OK h -> ids_ok hist -> (root < length (ns_decls hist))%nat ->
  ~ In 0 path -> components path (comps ++ [last]) -> names hist root comps last p -> nth_error (par_decls hist) p = Some (m, id, d) ->
  senseless atof d text ->
  exists msg, config_set atof h root [path; text] = OK (h, msg) /\ msg <> [].
Proof. exact config_set_senseless_proof. Qed.
Print Assumptions config_set_senseless.
Theorem config_set_unknown : forall atof hist h root path comps last text, run hist = OK h -> ids_ok hist -> (root < length (ns_decls hist))%nat ->
  ~ In 0 path -> components path (comps ++ [last]) -> (forall p, ~ names hist root comps last p) ->
  exists msg, config_set atof h root [path; text] = OK (h, msg) /\ msg <> [].
Proof. exact config_set_unknown_proof. Qed.
Print Assumptions config_set_unknown.
Theorem config_set_usage : forall atof h root args, length args <> 2%nat ->
  exists msg, config_set atof h root args = OK (h, msg) /\ msg <> [].
Proof.
  intros atof h root args H. destruct args as [|a [|b [|c args]]]; try (eexists; split; [reflexivity|discriminate]). easy.
Qed.
Print Assumptions config_set_usage.

Definition no_number (_ : str) : option Z := None.
Example ex_config_set : exists h h', run ex_print = OK h /\ ids_ok ex_print /\ names ex_print 0 [[]] (lit "i") 0 /\
  components (lit "/i") ([[]] ++ [lit "i"]) /\ asked no_number (DInt (Some (-42))) (lit "-17") (AInt (-17)) /\
  senseless no_number (DInt (Some (-42))) (lit "abc") /\
  config_set no_number h 0 [lit "/i"; lit "-17"] = OK (h', []) /\ parameter_read h' 0 KInt = OK (GInt (-17)).
Proof.
  do 2 eexists. split; [vm_compute; reflexivity|]. split; [split; repeat constructor; cbn; intuition discriminate|].
  split; [|split; [|split; [|split; [|split; [vm_compute; reflexivity|]]]]].
  - split; [discriminate|]. exists O. split; [repeat constructor|]. split; [eexists; reflexivity|].
    intros [|[|[|[|[|[|[|]]]]]]] [d H]; cbn in H; try discriminate; lia.
  - split; [reflexivity|]. repeat constructor; cbn; unfold slash; intuition discriminate.
  - split; [reflexivity|lia].
  - cbn. intros c r E. inversion E; subst. repeat split; try reflexivity; discriminate.
  - vm_compute. reflexivity.
Qed.

(** A number followed by something else is accepted. *)
Theorem config_set_garbage_refuted : exists h h', run ex_print = OK h /\ read_int (lit "12abc") = None /\
  config_set no_number h 0 [lit "/i"; lit "12abc"] = OK (h', []) /\ parameter_read h' 0 KInt = OK (GInt 12).
Proof. do 2 eexists. split; [vm_compute; reflexivity|]. split; [reflexivity|]. split; [vm_compute; reflexivity|]; vm_compute; reflexivity. Qed.
Print Assumptions config_set_garbage_refuted.
(** A string longer than the parameter stops the robot on an assertion; a number too large for 32 bits is
    undefined. *)
Theorem config_set_long_string_refuted : exists h, run ex_print = OK h /\
  config_set no_number h 0 [lit "/sub1/s"; lit "hello world"] = ASSERT /\
  config_set no_number h 0 [lit "/i"; lit "2147483648"] = BAD.
Proof. eexists. split; [vm_compute; reflexivity|]. split; [vm_compute; reflexivity|]; vm_compute; reflexivity. Qed.
Print Assumptions config_set_long_string_refuted.
