(** What the lamps and the starter should do. *)
From Coq Require Import ZArith List Bool.
From Verif Require Import PanelModel.
Import ListNotations.
Local Open Scope Z_scope.

(** Orders to the lamps. *)
Inductive order := Set_ (o : output) | Clear (o : output) | Toggle (o : output).
Definition obey (p : panel) (r : order) : panel :=
  match r with Set_ o => control_panel_set p o | Clear o => control_panel_clear p o | Toggle o => control_panel_toggle p o end.
(** The lamp [o] after the orders, off at first. *)
Definition lamp (o : output) (l : list order) : bool :=
  fold_left (fun on r => match r with Set_ q => if output_eqb q o then true else on | Clear q => if output_eqb q o then false else on
                                    | Toggle q => if output_eqb q o then negb on else on end) l false.
(** The last number written to the file of a lamp. *)
Fixpoint last_written (o : output) (l : list (output * Z)) : option Z :=
  match l with
  | [] => None
  | (q, v) :: l => match last_written o l with Some w => Some w | None => if output_eqb q o then Some v else None end
  end.
(** A lamp with files that open, and the highest brightness that is read. *)
Definition usable (d : option led_dir) (m : Z) : Prop := exists n, d = Some (mkDir (Some n) true) /\ m = match n with Some v => v | None => 0 end.
Definition connected (o : output) : Prop := o <> LED_YELLOW /\ o <> LED_GREEN.

(** Handles held by the inputs. *)
Definition handles (g : option gpio_input) : list nat :=
  match g with
  | None => []
  | Some g => match chip g with Some c => [c] | None => [] end ++ match line g with Some l => [l] | None => [] end
  end.
Definition held (w : gpio_world) : list nat := handles (inputs w BUTTON_YELLOW) ++ handles (inputs w BUTTON_GREEN) ++ handles (inputs w STARTER).
Definition world_start : gpio_world := mkWorld 0 [] (fun _ => None).
Definition opening (l : list (input * option gpio_answer)) : gpio_world := fold_left (fun w x => open_input w (fst x) (snd x)) l world_start.
Definition works (a : gpio_answer) : bool := chip_opens a && line_found a && line_input a.

(** The starter has been in place for a second, or the match has started. *)
Definition armed (s : starter) : bool := match s with Released => false | Arming ms => 1000 <=? ms | Go => true end.
