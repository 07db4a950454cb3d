(** Navigation as the user sees it: a stack of pages. *)
From Coq Require Import ZArith List Bool.
From Verif Require Import CRes MenuModel.
Import ListNotations.

Inductive gui_event := Back | Button (i : nat) | Other | Timer.
(** The link of a page's [i]-th button. *)
Definition link (pages : page -> kind) (p : page) (i : nat) : option page :=
  match pages p with MenuPage l => match nth_error l i with Some (Some q) => Some q | _ => None end | Leaf _ => None end.
(** The user's view: back leaves a page, unless it is the first; a button with a link enters a page. *)
Definition navigate (pages : page -> kind) (st : list page) (e : gui_event) : list page :=
  match e, st with
  | Back, p :: q :: st => q :: st
  | Button i, p :: st => match link pages p i with Some q => q :: p :: st | None => p :: st end
  | _, st => st
  end.
(** What the menu does with an event: the back button answers if it is enabled, a button of a menu if it exists. *)
Definition react (pages : page -> kind) (m : menu) (e : gui_event) : res menu :=
  match e with
  | Back => if back_enabled m then back_event pages m else OK m
  | Button i => match cur m with Some p => match link pages p i, buttons m p i with Some _, Some h => button_event pages m h | Some _, None => BAD | None, _ => OK m end | None => BAD end
  | Other => match cur m with Some _ => OK m | None => BAD end
  | Timer => on_timer pages m
  end.
Fixpoint reacts (pages : page -> kind) (m : menu) (l : list gui_event) : res menu :=
  match l with [] => OK m | e :: l => try m := react pages m e in reacts pages m l end.
(** No page leads back to itself. *)
Definition acyclic (pages : page -> kind) : Prop := exists rank : page -> nat, forall p i q, link pages p i = Some q -> rank p < rank q.
(** The timer runs in a thread of its own: it may come between the parts of switch_to_page. *)
Definition timer_between (pages : page -> kind) (m : menu) (p : page) : res menu :=
  try m := on_timer pages (delete_container m) in
  try m := switch_back_button (switch_page m p) p in OK (switch_contents pages m p).
