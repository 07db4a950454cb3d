(** Model of master-firmware/src/control_panel.cpp, gpio_input.cpp and gpio_input.h, and of the waiting functions of strategy.cpp. *)
From Coq Require Import ZArith List Bool.
Import ListNotations.
Local Open Scope Z_scope.

(** control_panel.h:6-21 *)
Inductive input := BUTTON_YELLOW | BUTTON_GREEN | STARTER.
Inductive output := LED_READY | LED_DEBUG | LED_ERROR | LED_POWER | LED_COMM | LED_BUS | LED_YELLOW | LED_GREEN.
Definition output_eqb (a b : output) : bool :=
  match a, b with
  | LED_READY, LED_READY | LED_DEBUG, LED_DEBUG | LED_ERROR, LED_ERROR | LED_POWER, LED_POWER | LED_COMM, LED_COMM | LED_BUS, LED_BUS
  | LED_YELLOW, LED_YELLOW | LED_GREEN, LED_GREEN => true
  | _, _ => false
  end.
Definition input_eqb (a b : input) : bool :=
  match a, b with BUTTON_YELLOW, BUTTON_YELLOW | BUTTON_GREEN, BUTTON_GREEN | STARTER, STARTER => true | _, _ => false end.

(** * Outputs *)

(** What open_led finds for a path: the file max_brightness, absent ([None]) or with the number that is read from it (0 if there is none,
    control_panel.cpp:28), and whether the file brightness can be opened. *)
Record led_dir := mkDir { max_file : option (option Z); brightness_opens : bool }.
(** control_panel.cpp:26-30. The file is left out: an entry exists only with an open file (:96-102). *)
Record led_info := mkLed { max_brightness : Z; out_status : bool }.
(** led_infos (:32), and the numbers written to the brightness files, oldest first. *)
Record panel := mkPanel { leds : output -> option led_info; written : list (output * Z) }.
Definition panel_start : panel := mkPanel (fun _ => None) [].

(** control_panel.cpp:52-69 *)
Definition set_output (s : panel) (out : output) (value : bool) : panel :=
  match leds s out with
  | None => s
  | Some i =>
      let msg := (if value then 1 else 0) * (max_brightness i - 1) in
      mkPanel (fun o => if output_eqb o out then Some (mkLed (max_brightness i) value) else leds s o) (written s ++ [(out, msg)])
  end.
(** control_panel.cpp:71-108. [None]: the path is empty. *)
Definition open_led (s : panel) (led_num : output) (path : option led_dir) : panel :=
  match path with
  | None => s
  | Some d =>
      match max_file d with
      | None => s
      | Some n =>
          if brightness_opens d then
            let i := mkLed (match n with Some v => v | None => 0 end) false in
            set_output (mkPanel (fun o => if output_eqb o led_num then Some i else leds s o) (written s)) led_num false
          else s
      end
  end.
(** control_panel.cpp:126-134: the LEDs. [flags] is the directory of the flag of each. *)
Definition init_leds (flags : output -> option led_dir) (s : panel) : panel :=
  let s := open_led s LED_READY (flags LED_READY) in
  let s := open_led s LED_DEBUG (flags LED_DEBUG) in
  let s := open_led s LED_ERROR (flags LED_ERROR) in
  let s := open_led s LED_POWER (flags LED_POWER) in
  let s := open_led s LED_COMM (flags LED_COMM) in
  open_led s LED_BUS (flags LED_BUS).
(** control_panel.cpp:157-160, 162-165, 167-176 *)
Definition control_panel_set (s : panel) (out : output) : panel := set_output s out true.
Definition control_panel_clear (s : panel) (out : output) : panel := set_output s out false.
Definition control_panel_toggle (s : panel) (out : output) : panel :=
  match leds s out with
  | None => s
  | Some i => set_output s out (negb (out_status i))
  end.

(** * Inputs *)

(** gpio_input.h:7-10: handles of libgpiod, numbered in the order they were obtained. *)
Record gpio_input := mkGpio { chip : option nat; line : option nat }.
Definition gpio_default : gpio_input := mkGpio None None.
(** The handles obtained so far, those that were given back, and gpio_inputs (control_panel.cpp:33). *)
Record gpio_world := mkWorld { obtained : nat; returned : list nat; inputs : input -> option gpio_input }.
Definition give_back (w : gpio_world) (h : option nat) : gpio_world :=
  match h with Some h => mkWorld (obtained w) (returned w ++ [h]) (inputs w) | None => w end.
(** gpio_input.cpp:4-15 *)
Definition gpio_destroy (w : gpio_world) (g : gpio_input) : gpio_world := give_back (give_back w (line g)) (chip g).
(** gpio_input.h:33-41: the new object and what is left of the other. *)
Definition gpio_move_construct (other : gpio_input) : gpio_input * gpio_input := (mkGpio (chip other) (line other), gpio_default).
(** gpio_input.h:43-48: the object and the other afterwards. *)
Definition gpio_move_assign (g other : gpio_input) : gpio_input * gpio_input := (mkGpio (chip other) (line other), mkGpio (chip g) (line g)).
(** What libgpiod answers for a chip and a line. *)
Record gpio_answer := mkAnswer { chip_opens : bool; line_found : bool; line_input : bool }.
Definition obtain (w : gpio_world) : gpio_world * nat := (mkWorld (S (obtained w)) (returned w) (inputs w), obtained w).
(** gpio_input.cpp:25-49: the local object is destroyed when the function returns; on success the optional was constructed from it by moving. *)
Definition gpio_open (w : gpio_world) (a : gpio_answer) : gpio_world * option gpio_input :=
  let result := gpio_default in
  if negb (chip_opens a) then (gpio_destroy w result, None) else
  let (w, c) := obtain w in
  let result := mkGpio (Some c) (line result) in
  if negb (line_found a) then (gpio_destroy w result, None) else
  let (w, l) := obtain w in
  let result := mkGpio (chip result) (Some l) in
  if negb (line_input a) then (gpio_destroy w result, None) else
  let (moved, rest) := gpio_move_construct result in
  (gpio_destroy w rest, Some moved).
(** control_panel.cpp:110-124: gpio_inputs[input_num] is created empty if there is none; the local optional is destroyed at the end. [None]: no flag. *)
Definition open_input (w : gpio_world) (n : input) (flag : option gpio_answer) : gpio_world :=
  match flag with
  | None => w
  | Some a =>
      match gpio_open w a with
      | (w, None) => w
      | (w, Some res) =>
          let old := match inputs w n with Some g => g | None => gpio_default end in
          let (g, res) := gpio_move_assign old res in
          gpio_destroy (mkWorld (obtained w) (returned w) (fun i => if input_eqb i n then Some g else inputs w i)) res
      end
  end.
(** control_panel.cpp:139-149 and gpio_input.cpp:17-23; [level] is what gpiod_line_get_value answers. *)
Definition control_panel_read (w : gpio_world) (level : nat -> Z) (n : input) : bool :=
  match inputs w n with
  | None => false
  | Some g => match line g with None => false | Some l => level l =? 1 end
  end.
(** control_panel.cpp:151-155 *)
Definition control_panel_button_is_pressed (n : input) : bool := false.

(** * Waiting *)

(** strategy.cpp:78-106 wait_for_starter, one reading of the starter per step: in the first loop, in the second one with
    starter_armed_time_ms (simplified: it does not wrap), and after the return. *)
Inductive starter := Released | Arming (ms : Z) | Go.
Definition STARTER_MIN_ARMED_TIME_MS : Z := 1000.
Definition starter_step (s : starter * panel) (reading : bool) : starter * panel :=
  let (st, p) := s in
  match st with
  | Released => if reading then (Released, p) else (Arming 0, p)
  | Arming ms =>
      if reading then ((if STARTER_MIN_ARMED_TIME_MS <=? ms then Go else Released), p)
      else
        let ms := ms + 10 in
        (Arming ms, if STARTER_MIN_ARMED_TIME_MS <=? ms then control_panel_set p LED_READY else p)
  | Go => (Go, p)
  end.
Definition wait_for_starter (p : panel) (readings : list bool) : starter * panel :=
  fold_left starter_step readings (Released, control_panel_clear p LED_READY).

(** strategy.cpp:50-76 wait_for_color_selection for at most [fuel] rounds of its loop; [None]: it has not returned. *)
Inductive color := YELLOW | BLUE.
Fixpoint wait_for_color_selection (fuel : nat) (p : panel) : option (color * panel) :=
  match fuel with
  | O => None
  | S fuel =>
      if negb (control_panel_button_is_pressed BUTTON_YELLOW) && negb (control_panel_button_is_pressed BUTTON_GREEN) then
        let p := control_panel_set (control_panel_set p LED_YELLOW) LED_GREEN in
        let p := control_panel_clear (control_panel_clear p LED_YELLOW) LED_GREEN in
        wait_for_color_selection fuel p
      else if control_panel_button_is_pressed BUTTON_GREEN
      then Some (YELLOW, control_panel_set (control_panel_clear p LED_YELLOW) LED_GREEN)
      else Some (BLUE, control_panel_clear (control_panel_set p LED_YELLOW) LED_GREEN)
  end.
