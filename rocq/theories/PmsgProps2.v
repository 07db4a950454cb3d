(** All that the loader of parameters accepts and refuses, and what a save reports. *)
From Coq Require Import ZArith List Bool Arith Lia ZifyBool.
From Verif Require Import CBase Buf CmpModel CmpSpec CmpProofs ParamModel ParamSpec ParamProofs ParamProofs2 PmsgModel PmsgSpec PmsgProofs PmsgProofs2 PmsgLoadSpec PmsgProps PmsgProofs3 PmsgProofs4 PmsgProofs5 PmsgProofs6.
Import ListNotations.
Local Open Scope Z_scope.

(** C82. A configuration, followed by anything, is loaded: 0 is returned, the assignments it spells, and no
    others, are made in order, and exactly its bytes are read. Identifiers without null characters. *)
Theorem pmsg_load_accepts cap i2f hist h root sets bs rest :
  run hist = OK h -> ids_ok hist -> values_fit cap hist -> (root < length (ns_decls hist))%nat ->
  loadable cap i2f hist false root sets bs -> blen (bs ++ rest) < 2 ^ 32 ->
  exists h' c, run (hist ++ map oset sets) = OK h' /\
    parameter_msgpack_read cap i2f h root (bs ++ rest) = RDONE 0 h' c /\ index c = blen bs.
Proof.
  intros R IO V Hr D L. destruct (read_loadable cap i2f hist h root sets bs rest R IO V Hr D L) as (h' & R' & E).
  eexists h', _. split; [exact R'|]. split; [exact E|reflexivity].
Qed.

(** C82. Whatever the buffer holds, a load that returns has returned 0, -1 or 1; it has only made assignments of
    values of the types of the parameters. It returned 0 only if the buffer starts with a configuration: then the
    assignments are those of the configuration. *)
Theorem pmsg_load_reports cap i2f hist h root buf r h' c :
  run hist = OK h -> ids_ok hist -> (root < length (ns_decls hist))%nat ->
  Forall (fun x => 0 <= x < 256) buf -> blen buf + 8 < 2 ^ 32 ->
  parameter_msgpack_read cap i2f h root buf = RDONE r h' c ->
  (r = 0 \/ r = -1 \/ r = 1) /\
  exists sets, run (hist ++ map oset sets) = OK h' /\
    (r = 0 -> exists bs rest, buf = bs ++ rest /\ index c = blen bs /\ loadable cap i2f hist true root sets bs).
Proof. intros R IO Hr B L E. exact (load_sound cap i2f hist h root buf r h' c R IO Hr B L E). Qed.

(** C82. A buffer that starts with no configuration is not loaded with success. *)
Theorem pmsg_load_refuses cap i2f hist h root buf r h' c :
  run hist = OK h -> ids_ok hist -> (root < length (ns_decls hist))%nat ->
  Forall (fun x => 0 <= x < 256) buf -> blen buf + 8 < 2 ^ 32 ->
  (forall sets bs rest, buf = bs ++ rest -> ~ loadable cap i2f hist true root sets bs) ->
  parameter_msgpack_read cap i2f h root buf = RDONE r h' c -> r = -1 \/ r = 1.
Proof.
  intros R IO Hr B L N E. destruct (load_sound cap i2f hist h root buf r h' c R IO Hr B L E) as ([->|Hr'] & sets & _ & Z); [|exact Hr'].
  destruct (Z eq_refl) as (bs & rest & Eb & _ & D). exact (False_ind _ (N _ _ _ Eb D)).
Qed.

(** C82. The beginning of a configuration is not loaded with success: when any byte of what a successful load
    reads is missing, the load returns -1. *)
Theorem pmsg_load_truncated cap i2f h root buf h' c j :
  Forall (fun x => 0 <= x < 256) buf -> blen buf + 8 < 2 ^ 32 ->
  parameter_msgpack_read cap i2f h root buf = RDONE 0 h' c -> Z.of_nat j < index c ->
  exists h2 c2, parameter_msgpack_read cap i2f h root (firstn j buf) = RDONE (-1) h2 c2.
Proof. exact (load_cut cap i2f h root buf h' c j). Qed.

(** C82. A tree is saved without access outside of the buffer, whatever its size. If no error is reported, the
    buffer holds, for every defined parameter of the tree, its identifier followed by its value. *)
Theorem pmsg_save_reports room hist h root buf :
  run hist = OK h -> writable room hist -> blen buf + room < 2 ^ 32 -> (root < length (ns_decls hist))%nat ->
  exists buf' ok, parameter_msgpack_write h root buf = Some (buf', ok) /\ length buf' = length buf /\
    (ok = true -> forall p x, nth_error (pars h) p = Some x -> param_within hist p root -> parameter_defined h p = OK true ->
       value_typed (pval x) -> string_short (pval x) ->
       exists a bs pre post, buf' = pre ++ bs ++ post /\ saved_entry hist p a bs /\
         exists h', parameter_set h p a = OK h' /\ forall k, parameter_read h' p k = parameter_read h p k).
Proof.
  intros R W L Hr. destruct (write_saves room hist h root buf R W L Hr) as (buf' & ok & E & LB & S). exists buf', ok.
  split; [exact E|]. split; [exact LB|]. intros -> p x X PW D T SS. unfold parameter_defined in D. rewrite X in D. injection D as D.
  destruct (S eq_refl p x X PW D T SS) as (bs & a & b & SE & Eb). exists (arg_of (pval x)), bs, a, b. split; [exact Eb|]. split; [exact SE|].
  destruct SE as (m & id & d & hd & vb & Dp & _ & EN & _). destruct (set_ok _ _ _ _ _ _ _ _ R Dp EN) as (x' & h' & X' & K & ST).
  rewrite X in X'. injection X' as <-. exists h'. split; [exact ST|]. intro k.
  assert (R' : run (hist ++ map oset [(p, arg_of (pval x))]) = OK h').
  { cbn [map]. now apply (run_app_op hist h). }
  assert (Lp : (p < length (pars h'))%nat).
  { rewrite (inv_length _ _ (inv_run _ _ R')), par_decls_osets, <- (inv_length _ _ (inv_run _ _ R)). apply nth_error_Some. congruence. }
  destruct (lt_nth _ _ _ Lp) as [y Y]. unfold parameter_read. rewrite X, Y.
  destruct (sets_effect _ _ R _ _ R' _ _ Y) as [(a' & v & [Ia|[]] & Sa & Da)|[No _]]; [|exfalso; eapply No; now left].
  injection Ia as <-. destruct (kinds_run _ _ R' _ _ Y) as (m' & id' & d' & Dp' & K'). rewrite par_decls_osets, Dp in Dp'. inversion Dp'; subst.
  eapply (load_store v x d' d'); eauto. destruct d'; cbn; auto.
Qed.

(** ** Examples and refutations *)

(** A configuration for the tree of the target: a path, an unknown parameter, a boolean for a string, an integer
    for a float in a child. *)
Definition ex_config : list Z :=
  [0x84; 0xA3; 97; 47; 121; 7; 0xA2; 122; 122; 0xC0; 0xA1; 115; 0xC3; 0xA1; 97; 0x81; 0xA1; 120; 3].
Lemma ex_run : run ex_target = OK (ex_heap ex_target). Proof. vm_compute; reflexivity. Qed.
Lemma ex_ids : ids_ok ex_target. Proof. split; cbn; repeat constructor; cbn; intuition lia. Qed.
Example pmsg_loadable : loadable 64 (fun x => x) ex_target false 0 [(1%nat, AInt 7); (0%nat, AScalar 3)] ex_config.
Proof.
  exists 4%nat, [0x84], (tl ex_config). split; [apply (mh_fix 4); lia|]. split; [|reflexivity].
  assert (N0 : (0 < length (ns_decls ex_target))%nat) by (cbn; lia). assert (N1 : (1 < length (ns_decls ex_target))%nat) by (cbn; lia).
  apply (lo_set 64 (fun x => x) ex_target false 0 3 [97; 47; 121] [0xA3] 1 1 [121] (DInt None) (AInt 7) [7]);
    [apply (sh_fix 3); lia|cbn; lia|apply (find_means _ _ ex_run ex_ids 0 _ 1 N0); vm_compute; reflexivity|reflexivity| |].
  { constructor; [apply (ie_pos 7); lia|cbn; lia|lia]. }
  apply (lo_unknown 64 (fun x => x) ex_target false 0 2 [122; 122] [0xA2] [0xC0]);
    [apply (sh_fix 2); lia|cbn; lia|apply (find_nomeans _ _ ex_run ex_ids 0 _ N0); vm_compute; reflexivity|cbn; intuition lia|constructor|].
  apply (lo_misfit 64 (fun x => x) ex_target false 0 1 [115] [0xA1] 2 0 [115] (DStr [0; 0; 0; 0] (Some [111])) [0xC3]);
    [apply (sh_fix 1); lia|cbn; lia|apply (find_means _ _ ex_run ex_ids 0 _ 2 N0); vm_compute; reflexivity|reflexivity|apply (sc_bool true)| |].
  { intros a A. inversion A as [| | |? ? s hd L Sh E1 E2 E3| |]. inversion Sh as [Hn Eh|Hn Eh|Hn Eh|Hn Eh]; rewrite <- Eh in E3; apply (f_equal (List.hd 0)) in E3; cbn [app List.hd] in E3; [cbn in L; unfold blen in *; lia|discriminate..]. }
  apply (lo_child 64 (fun x => x) ex_target false 0 0 [97] [0xA1] [[97]] 1 1 [0x81] [(0%nat, AScalar 3)] [0xA1; 120; 3] [] []);
    [apply (sh_fix 1); lia|cbn; lia|split; [reflexivity|constructor; [cbn; unfold slash; intuition lia|constructor]]| |apply (mh_fix 1); lia| |constructor].
  { apply (leads_down _ _ _ 1%nat); [easy| |constructor]. split; [reflexivity|]. intros [|[|[|j]]] H; cbn in H; try discriminate; lia. }
  apply (lo_set 64 (fun x => x) ex_target false 1 0 [120] [0xA1] 0 1 [120] (DScalar None) (AScalar 3) [3]);
    [apply (sh_fix 1); lia|cbn; lia|apply (find_means _ _ ex_run ex_ids 1 _ 0 N1); vm_compute; reflexivity|reflexivity| |constructor].
  constructor. apply (nu_int (fun x => x) 3); [apply (ie_pos 3); lia|lia].
Qed.
Example pmsg_config_loads :
  match parameter_msgpack_read 64 (fun x => x) (ex_heap ex_target) 0 (ex_config ++ [1; 2]) with
  | RDONE r h c => r = 0 /\ index c = 19 /\ parameter_read h 1 KInt = OK (GInt 7) /\ parameter_read h 0 KScalar = OK (GScalar 3)
  | _ => False
  end /\
  match parameter_msgpack_read 64 (fun x => x) (ex_heap ex_target) 0 (firstn 18 ex_config) with RDONE r _ _ => r = -1 | _ => False end.
Proof. vm_compute. auto. Qed.
Example pmsg_values_fit : values_fit 64 ex_target /\ writable 16 ex_source.
Proof. split; [|split; [lia|split]]; cbn; repeat constructor; cbn; lia. Qed.
(** Saved in 64 bytes without error; in 20 bytes the error is reported. *)
Example pmsg_save_example :
  match parameter_msgpack_write (ex_heap ex_source) 0 (repeat 0 64), parameter_msgpack_write (ex_heap ex_source) 0 (repeat 0 20) with
  | Some (_, a), Some (b, c) => a = true /\ c = false /\ length b = 20%nat
  | _, _ => False
  end.
Proof. vm_compute. auto. Qed.

(** A null character in an identifier makes the loader look at a byte after the end of the identifier of a
    parameter (parameter.c 77). *)
Theorem pmsg_null_id_refuted :
  exists hist h buf, run hist = OK h /\ ids_ok hist /\ Forall (fun x => 0 <= x < 256) buf /\
    parameter_msgpack_read 64 (fun x => x) h 0 buf = RUB.
Proof.
  exists ex_target, (ex_heap ex_target), [0x81; 0xA3; 115; 0; 0; 0xC0].
  split; [exact ex_run|]. split; [exact ex_ids|]. split; [repeat constructor; lia|]. vm_compute; reflexivity.
Qed.

(** The load of a configuration that is refused is not undone: what comes before the error is assigned. *)
Theorem pmsg_load_not_atomic_refuted :
  exists hist h buf, run hist = OK h /\ ids_ok hist /\ Forall (fun x => 0 <= x < 256) buf /\
    match parameter_msgpack_read 64 (fun x => x) h 0 buf with
    | RDONE r h' _ => r = -1 /\ parameter_defined h 1 = OK false /\ parameter_read h' 1 KInt = OK (GInt 7)
    | _ => False
    end.
Proof.
  exists ex_target, (ex_heap ex_target), (firstn 18 ex_config).
  split; [exact ex_run|]. split; [exact ex_ids|]. split; [repeat constructor; lia|]. vm_compute. auto.
Qed.

Print Assumptions pmsg_load_accepts.
Print Assumptions pmsg_load_reports.
Print Assumptions pmsg_load_refuses.
Print Assumptions pmsg_load_truncated.
Print Assumptions pmsg_save_reports.
Print Assumptions pmsg_null_id_refuted.
Print Assumptions pmsg_load_not_atomic_refuted.
