(** C113, C114: properties of the upload of a configuration to the motor boards (tools/motor_config_loader.py with the
    parameter server of the boards). *)
From Coq Require Import ZArith List Bool Lia.
From Verif Require Import CBase Buf ParamModel ParamSpec UplModel UplSpec UplProofs UplProofs2.
Import ListNotations.
Local Open Scope Z_scope.

(** ** C113: the parameters generated from a configuration *)

(** One parameter for each value of the file, at the path of its keys; none else. *)
Theorem upl_parameters : forall config u v, In (u, v) (parameters_from_config config) <->
  exists path, value_at (Dict config) path v /\ u = url path.
Proof. exact params_exact. Qed.
Print Assumptions upl_parameters.
(** No parameter is generated twice. *)
Theorem upl_parameters_once : forall config, tidy (Dict config) -> NoDup (map fst (parameters_from_config config)).
Proof. exact params_nodup. Qed.
Print Assumptions upl_parameters_once.
(** Different values have different paths. *)
Theorem upl_paths_distinct : forall config path path' v v', tidy (Dict config) -> value_at (Dict config) path v ->
  value_at (Dict config) path' v' -> url path = url path' -> path = path'.
Proof. intros. apply url_inj; auto; apply path_slash; eapply value_path_ok; eauto. Qed.
Print Assumptions upl_paths_distinct.

(** {a: {k: 1.0, n: 3}, b: true} *)
Definition ex_config : list (str * yaml) :=
  [([97], Dict [([107], Leaf (PyFloat 1065353216)); ([110], Leaf (PyInt 3))]); ([98], Leaf (PyBool true))].
Example upl_parameters_example : tidy (Dict ex_config) /\
  parameters_from_config ex_config = [([47; 97; 47; 107], PyFloat 1065353216); ([47; 97; 47; 110], PyInt 3); ([47; 98], PyBool true)].
Proof.
  split; [|reflexivity].
  assert (K : forall c, 96 < c -> key_ok [c]) by (intros c C; split; [discriminate|]; split; intros [E|[]]; unfold slash in *; lia).
  constructor; [repeat constructor; cbn; intuition discriminate|]. intros k c [E|[E|[]]]; inversion E; subst; (split; [apply K; lia|]).
  - constructor; [repeat constructor; cbn; intuition discriminate|]. intros k c [E'|[E'|[]]]; inversion E'; subst; (split; [apply K; lia|constructor]).
  - constructor.
Qed.
(** A key with a slash can give the same parameter twice. *)
Theorem upl_parameters_slash_refuted : exists config, ~ NoDup (map fst (parameters_from_config config)) /\ NoDup (map fst config).
Proof.
  exists [([97], Dict [([107], Leaf (PyInt 1))]); ([97; 47; 107], Leaf (PyInt 2))]. split.
  - intro N. inversion N; subst. apply H1. left. reflexivity.
  - repeat constructor; cbn; intuition discriminate.
Qed.
Print Assumptions upl_parameters_slash_refuted.

(** ** C114: what is on the boards after the upload *)

(** When the upload has finished, each parameter of a board that has a value of its type in the file has that value;
    every other parameter of the board reads as before. Any number of boards, any file. *)
Theorem upl_applied : forall fates saves net configs net' saved b c hist h,
  upload_config fates saves net configs = OK (net', Finished, saved) -> NoDup (map fst configs) -> In (b, c) configs ->
  tidy (Dict c) -> is_board net b hist h ->
  exists h', board b net' = Some h' /\
    (forall path v p m id d, value_at (Dict c) path v -> param_at hist path p ->
       nth_error (par_decls hist) p = Some (m, id, d) -> fits d v -> has_value h' p v) /\
    (forall q k, (forall path v m id d, value_at (Dict c) path v -> param_at hist path q ->
       nth_error (par_decls hist) q = Some (m, id, d) -> ~ fits d v) -> parameter_read h' q k = parameter_read h q k).
Proof. exact applied. Qed.
Print Assumptions upl_applied.

(** When the upload has finished, every value of the file was for a parameter that its board has: a misspelt name is not
    passed over. *)
Theorem upl_known : forall fates saves net configs net' saved b c hist h path v,
  upload_config fates saves net configs = OK (net', Finished, saved) -> NoDup (map fst configs) -> In (b, c) configs ->
  tidy (Dict c) -> is_board net b hist h -> value_at (Dict c) path v -> exists p, param_at hist path p.
Proof. exact known. Qed.
Print Assumptions upl_known.

(** Boards that are not in the file are not touched. *)
Theorem upl_other_boards : forall fates saves net configs net' saved b h,
  upload_config fates saves net configs = OK (net', Finished, saved) -> ~ In b (map fst configs) ->
  board b net = Some h -> board b net' = Some h.
Proof.
  intros fates saves net configs net' saved b h U N B. apply upload_finished in U. destruct U as (U & _). apply send_steps in U.
  destruct U as (_ & U). destruct (U b h B) as (h' & B' & S).
  assert (E : for_board b (requests configs) = []).
  { clear - N. induction configs as [|(b', c') configs IH]; [reflexivity|]. unfold requests. cbn [flat_map fst snd].
    rewrite for_board_app, for_board_pair. destruct (str_eqb b' b) eqn:E; [apply str_eqb_spec in E; subst; exfalso; apply N; left; reflexivity|].
    cbn [app]. apply IH. intro H. apply N. right; exact H. }
  rewrite E in S. inversion S; subst. exact B'.
Qed.
Print Assumptions upl_other_boards.

(** It finishes only if every request was answered, and then all boards were asked to save. *)
Theorem upl_answered : forall fates saves net configs net' saved,
  upload_config fates saves net configs = OK (net', Finished, saved) ->
  (forall n, (n < length (requests configs))%nat -> fates n = Answered) /\
  forall b, In b saved <-> In b (map fst configs) /\ saves b = true.
Proof.
  intros fates saves net configs net' saved U. apply upload_finished in U. destruct U as (U & ->). apply send_steps in U.
  split; [apply U|]. intro b. apply filter_In.
Qed.
Print Assumptions upl_answered.

(** It finishes if nothing is lost and each value of the file is for a parameter of its type. *)
Theorem upl_completes : forall fates saves net configs hists, (forall n, fates n = Answered) ->
  (forall b c, In (b, c) configs -> tidy (Dict c) /\ (exists h, is_board net b (hists b) h) /\
     forall path v, value_at (Dict c) path v -> exists p m id d, param_at (hists b) path p /\
       nth_error (par_decls (hists b)) p = Some (m, id, d) /\ fits d v) ->
  exists net', upload_config fates saves net configs = OK (net', Finished, filter saves (map fst configs)).
Proof. exact completes. Qed.
Print Assumptions upl_completes.

(** A board with the scalars /a/k (initially 7) and /s, the integer /a/n and the boolean /b. *)
Definition ex_board : list op :=
  [ODeclNs None [47]; ODeclNs (Some 0%nat) [97]; ODecl 1 [107] (DScalar (Some 7)); ODecl 1 [110] (DInt None); ODecl 0 [98] (DBool None);
   ODecl 0 [115] (DScalar None)].
Example upl_example : exists h, run ex_board = OK h /\ is_board [([1], h); ([2], h)] [2] ex_board h /\
  param_at ex_board [[97]; [107]] 0 /\ value_at (Dict ex_config) [[97]; [107]] (PyFloat 1065353216) /\
  fits (DScalar (Some 7)) (PyFloat 1065353216) /\
  exists net' h', upload_config (fun _ => Answered) (fun _ => true) [([1], h); ([2], h)] [([2], ex_config)] = OK (net', Finished, [[2]]) /\
    board [1] net' = Some h /\ board [2] net' = Some h' /\ has_value h' 0 (PyFloat 1065353216) /\ has_value h' 1 (PyInt 3) /\
    has_value h' 2 (PyBool true) /\ parameter_read h' 3 KScalar = ASSERT.
Proof.
  eexists. split; [vm_compute; reflexivity|]. split; [|split; [|split; [|split]]].
  - split; [reflexivity|]. split; [vm_compute; reflexivity|]. split; [split; repeat constructor; cbn; intuition discriminate|]. cbn. lia.
  - exists [[97]], [107]. split; [reflexivity|]. split; [discriminate|]. exists 1%nat. split.
    + eapply leads_down; [discriminate| |constructor]. split; [reflexivity|]. intros [|[|[|]]] H; cbn in H; try discriminate; lia.
    + split; [eexists; reflexivity|]. intros [|[|[|[|[|]]]]] [d H]; cbn in H; try discriminate; lia.
  - econstructor; [left; reflexivity|]. econstructor; [left; reflexivity|]. constructor.
  - constructor.
  - do 2 eexists. split; [vm_compute; reflexivity|]. split; [reflexivity|]. split; [reflexivity|]. repeat split.
Qed.

(** A value of the file may not be applied although the upload finishes: "k: 3" for a scalar is sent as an integer, the
    board ignores it and answers with the value it has. *)
Theorem upl_integer_for_scalar_refuted : forall i, exists hist h configs net',
  run hist = OK h /\ configs = [([2], [([107], Leaf (PyInt i))])] /\ par_decls hist = [(O, [107], DScalar (Some 7))] /\
  param_at hist [[107]] 0 /\
  upload_config (fun _ => Answered) (fun _ => true) [([2], h)] configs = OK (net', Finished, [[2]]) /\
  exists h', board [2] net' = Some h' /\ parameter_read h' 0 KScalar = OK (GScalar 7).
Proof.
  intro i. exists [ODeclNs None [47]; ODecl 0 [107] (DScalar (Some 7))]. do 3 eexists. split; [vm_compute; reflexivity|].
  split; [reflexivity|]. split; [reflexivity|]. split; [|split; [reflexivity|eexists; split; reflexivity]].
  exists [], [107]. split; [reflexivity|]. split; [discriminate|]. exists O. split; [constructor|].
  split; [eexists; reflexivity|]. intros [|[|]] [d H]; cbn in H; try discriminate; lia.
Qed.
Print Assumptions upl_integer_for_scalar_refuted.

(** The same for a scalar without a value yet: the program waits for ever. *)
Theorem upl_integer_for_undefined_refuted : forall i, exists hist h net',
  run hist = OK h /\ par_decls hist = [(O, [107], DScalar None)] /\
  upload_config (fun _ => Answered) (fun _ => true) [([2], h)] [([2], [([107], Leaf (PyInt i))])] = OK (net', Blocked, []).
Proof.
  intro i. exists [ODeclNs None [47]; ODecl 0 [107] (DScalar None)]. do 2 eexists. split; [vm_compute; reflexivity|].
  split; reflexivity.
Qed.
Print Assumptions upl_integer_for_undefined_refuted.

(** One lost message is enough for the program to wait for ever, with the boards not saved, even when all the values are
    on the board. *)
Theorem upl_lost_answer_refuted : exists h net' h', run ex_board = OK h /\
  upload_config (fun n => match n with 2%nat => AnswerLost | _ => Answered end) (fun _ => true) [([2], h)] [([2], ex_config)] =
    OK (net', Blocked, []) /\ board [2] net' = Some h' /\
  has_value h' 0 (PyFloat 1065353216) /\ has_value h' 1 (PyInt 3) /\ has_value h' 2 (PyBool true).
Proof. do 3 eexists. split; [vm_compute; reflexivity|]. split; [vm_compute; reflexivity|]. split; [reflexivity|]. repeat split. Qed.
Print Assumptions upl_lost_answer_refuted.

(** The program ends normally even if no board has saved its parameters: the answers to the save requests are not waited
    for. *)
Theorem upl_unsaved_refuted : forall fates saves net configs net' saved,
  upload_config fates saves net configs = OK (net', Finished, saved) ->
  upload_config fates (fun _ => false) net configs = OK (net', Finished, []).
Proof.
  intros fates saves net configs net' saved U. unfold upload_config in *. destruct (forallb _ configs); [|discriminate].
  destruct (send_all fates 0 net (requests configs)) as [(n1, o)| |]; cbn [rbind] in *; try discriminate.
  destruct o; inversion U; subst. do 2 f_equal. unfold save_all. clear. induction (map fst configs); [reflexivity|assumption].
Qed.
Print Assumptions upl_unsaved_refuted.

(** A text in the file stops the upload half-way: the values before it are on the board, not saved, those after are not. *)
Theorem upl_text_refuted : exists h net' h', run ex_board = OK h /\
  upload_config (fun _ => Answered) (fun _ => true) [([2], h)]
    [([2], [([98], Leaf (PyBool true)); ([109], Leaf PyOther); ([115], Leaf (PyFloat 9))])] = OK (net', Raised, []) /\
  board [2] net' = Some h' /\ has_value h' 2 (PyBool true) /\ ~ has_value h' 3 (PyFloat 9).
Proof.
  do 3 eexists. split; [vm_compute; reflexivity|]. split; [vm_compute; reflexivity|]. split; [reflexivity|]. split; [reflexivity|].
  vm_compute. discriminate.
Qed.
Print Assumptions upl_text_refuted.
