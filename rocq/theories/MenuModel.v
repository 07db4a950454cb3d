(** Model of the menus of the screen: master-firmware/src/gui/Menu.cpp, MenuPage.cpp, MenuPage.h and Page.h, and the pages of gui.cpp.
    The widgets of ugfx are handles; drawing is left out. *)
From Coq Require Import ZArith List Bool.
From Verif Require Import CRes.
Import ListNotations.

(** Pages are numbered. A MenuPage links to up to six pages (MenuPage.cpp:3-22); other pages have widgets of their own, created in on_enter. *)
Definition page := nat.
Inductive kind := MenuPage (next_page : list (option page)) | Leaf (widgets : nat).
Definition handle := nat.
(** Menu.h:6-12, Page.h:5-6 and MenuPage.h:8-9: the page ([None]: nullptr), history_previous of each page ([None]: not set), the handles kept by
    each page ([None]: not set); and the widgets in the container, the number of the next one, whether the back button is enabled and the title. *)
Record menu := mkMenu { cur : option page; history_previous : page -> option (option page); buttons : page -> nat -> option handle;
                        alive : list handle; fresh : handle; back_enabled : bool; title : option page }.
(** Menu.cpp:4-13 *)
Definition menu_start : menu := mkMenu None (fun _ => None) (fun _ _ => None) [] 0 false None.
Definition set_alive (m : menu) (l : list handle) : menu := mkMenu (cur m) (history_previous m) (buttons m) l (fresh m) (back_enabled m) (title m).
(** gwinButtonCreate and the like in the container, kept in the [i]-th handle of the page. *)
Definition create (m : menu) (p : page) (i : nat) : menu :=
  mkMenu (cur m) (history_previous m) (fun q j => if Nat.eqb q p && Nat.eqb j i then Some (fresh m) else buttons m q j)
         (fresh m :: alive m) (S (fresh m)) (back_enabled m) (title m).

Section Pages.
Variable pages : page -> kind.
(** MenuPage.cpp:24-45: a button for each page that is linked; on_enter of the other pages. *)
Fixpoint create_links (m : menu) (p : page) (i : nat) (l : list (option page)) : menu :=
  match l with
  | [] => m
  | None :: l => create_links m p (S i) l
  | Some _ :: l => create_links (create m p i) p (S i) l
  end.
Fixpoint create_widgets (m : menu) (p : page) (i n : nat) : menu :=
  match n with O => m | S n => create_widgets (create m p i) p (S i) n end.
Definition on_enter (m : menu) (p : page) : menu :=
  match pages p with MenuPage l => create_links m p 0 l | Leaf n => create_widgets m p 0 n end.
(** Menu.cpp:28-31 (destroying a container destroys what is in it), 15-26 *)
Definition delete_container (m : menu) : menu := set_alive m [].
(** Menu.cpp:33-46 in its parts, as another thread can see them: lines 35-36, 37, 39-43 and 44-45. [BAD]: a page that is not there or a
    history that was never set. *)
Definition switch_page (m : menu) (p : page) : menu :=
  mkMenu (Some p) (history_previous m) (buttons m) (alive m) (fresh m) (back_enabled m) (title m).
Definition switch_back_button (m : menu) (p : page) : res menu :=
  match history_previous m p with
  | None => BAD
  | Some prev => OK (mkMenu (cur m) (history_previous m) (buttons m) (alive m) (fresh m) (match prev with Some _ => true | None => false end) (title m))
  end.
Definition switch_contents (m : menu) (p : page) : menu :=
  let m := on_enter m p in mkMenu (cur m) (history_previous m) (buttons m) (alive m) (fresh m) (back_enabled m) (Some p).
Definition switch_to_page (m : menu) (newpage : option page) : res menu :=
  let m := delete_container m in
  match newpage with
  | None => BAD
  | Some p => try m := switch_back_button (switch_page m p) p in OK (switch_contents m p)
  end.
(** Menu.cpp:48-51 *)
Definition pop_page (m : menu) : res menu :=
  match cur m with
  | None => BAD
  | Some p => match history_previous m p with None => BAD | Some prev => switch_to_page m prev end
  end.
(** Menu.cpp:58-62, Page.h:27-30 *)
Definition set_previous_page (m : menu) (p : page) (q : option page) : menu :=
  mkMenu (cur m) (fun x => if Nat.eqb x p then Some q else history_previous m x) (buttons m) (alive m) (fresh m) (back_enabled m) (title m).
Definition enter_page (m : menu) (newpage : page) : res menu := switch_to_page (set_previous_page m newpage (cur m)) (Some newpage).
(** MenuPage.cpp:47-60: the buttons from number [i] on. [BAD]: a button that was never set is compared. *)
Fixpoint on_button (m : menu) (p : page) (h : handle) (i : nat) (l : list (option page)) : res menu :=
  match l with
  | [] => OK m
  | None :: l => on_button m p h (S i) l
  | Some q :: l =>
      match buttons m p i with
      | None => BAD
      | Some b => if Nat.eqb h b then try m := enter_page m q in on_button m p h (S i) l else on_button m p h (S i) l
      end
  end.
(** Menu.cpp:74-82: an event of the back button, and one of another button. What the other pages do with their buttons is left out. *)
Definition back_event (m : menu) : res menu := pop_page m.
Definition button_event (m : menu) (h : handle) : res menu :=
  match cur m with
  | None => BAD
  | Some p => match pages p with MenuPage l => on_button m p h 0 l | Leaf _ => OK m end
  end.
(** Menu.cpp:53-56: pages other than menus write to their widgets, here to all of them (PositionPage.h:44-58, ScorePage.h:45-68, ActuatorPage.h:179-218; simplified: some write to none or to their labels only).
    [BAD]: a widget that was never created or was destroyed. *)
Fixpoint touch (m : menu) (p : page) (i n : nat) : bool :=
  match n with
  | O => true
  | S n => match buttons m p i with Some h => existsb (Nat.eqb h) (alive m) && touch m p (S i) n | None => false end
  end.
Definition on_timer (m : menu) : res menu :=
  match cur m with
  | None => BAD
  | Some p => match pages p with MenuPage _ => OK m | Leaf n => if touch m p 0 n then OK m else BAD end
  end.
End Pages.

(** gui.cpp:27-65: 0 is the root, 1 the base menu, 2 the score, 3 the actuators, 4 the actions, 5 and 6 position and movement,
    7 to 12 the actuators and from 13 on the [n] actions, of which six are linked. *)
Definition gui_pages (n : nat) (p : page) : kind :=
  match p with
  | 0 => MenuPage [Some 1; Some 2; Some 3; Some 4; None; None]
  | 1 => MenuPage [Some 5; Some 6; None; None; None; None]
  | 2 => Leaf 1
  | 3 => MenuPage [Some 7; Some 8; Some 9; Some 10; Some 11; Some 12]
  | 4 => MenuPage (map (fun i => if Nat.leb (S i) n then Some (13 + i) else None) (seq 0 6))
  | 5 => Leaf 1
  | 6 => Leaf 5
  | _ => if Nat.ltb p 13 then Leaf 8 else Leaf 1
  end.
