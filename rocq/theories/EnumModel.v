(** Model of master-firmware/src/can/bus_enumerator.c.

    A string is the list of its characters without the terminator. The used part of each array is a
    list; [None] stands for undefined behaviour (access outside the array) or an endless loop. *)
From Coq Require Import ZArith List Bool Arith.
Import ListNotations.
Local Open Scope Z_scope.

Definition name := list Z.

(** strcmp: sign of the comparison, on unsigned characters. *)
Fixpoint strcmp (a b : name) : comparison :=
  match a, b with
  | [], [] => Eq
  | [], _ :: _ => Lt
  | _ :: _, [] => Gt
  | x :: a, y :: b => match Z.compare x y with Eq => strcmp a b | c => c end
  end.

(** bus_enumerator.h:24-26 *)
Definition CAN_ID_NOT_SET := 0xFF.
Definition STRING_ID_NOT_FOUND := 0xFE.

(** bus_enumerator.h:28-33; drivers are opaque pointers. *)
Record entry := { e_str_id : name; e_can_id : Z; e_driver : Z }.

(** bus_enumerator.h:41-47: the entries in use of the two arrays, which both have [buffer_len] slots. *)
Record enumerator := { str_to_can : list entry; can_to_str : list entry; buffer_len : nat }.

(** bus_enumerator.c:5-12 *)
Definition midpoint (min max : nat) : nat :=
  if Nat.ltb min max then Nat.div (min + max) 2 else min.

(** bus_enumerator.c:16-30 and 35-49: binary search; [c] is the comparison of the key with an entry.
    Outer [None]: array access beyond the entries, or more rounds than [fuel]. *)
Fixpoint search_loop (fuel : nat) (c : entry -> comparison) (l : list entry) (imin imax : nat)
  : option (option nat) :=
  match fuel with
  | O => None
  | S fuel =>
      if Nat.ltb imin imax then
        let imid := midpoint imin imax in
        match nth_error l imid with
        | None => None
        | Some e => match c e with
                    | Eq => Some (Some imid)
                    | Gt => search_loop fuel c l (imid + 1) imax
                    | Lt => search_loop fuel c l imin imid
                    end
        end
      else Some None
  end.

Definition index_by_str_id (en : enumerator) (s : name) : option (option nat) :=
  search_loop (S (length (str_to_can en))) (fun e => strcmp s (e_str_id e)) (str_to_can en)
              0 (length (str_to_can en)).
Definition index_by_can_id (en : enumerator) (id : Z) : option (option nat) :=
  search_loop (S (length (can_to_str en))) (fun e => Z.compare id (e_can_id e)) (can_to_str en)
              0 (length (can_to_str en)).

(** bus_enumerator.c:66-76 and 101-111: position of the insertion. *)
Fixpoint insert_loop (fuel : nat) (c : entry -> comparison) (l : list entry) (imin imax : nat)
  : option nat :=
  match fuel with
  | O => None
  | S fuel =>
      if Nat.eqb imin imax then Some imin
      else
        let imid := midpoint imin imax in
        match nth_error l imid with
        | None => None
        | Some e => match c e with
                    | Gt => insert_loop fuel c l (imid + 1) imax
                    | _ => insert_loop fuel c l imin imid
                    end
        end
  end.

(** memmove of the tail by one slot, and write of the freed slot (bus_enumerator.c:78-84, 113-119). *)
Definition insert_at (l : list entry) (i : nat) (e : entry) : list entry := firstn i l ++ e :: skipn i l.

(** bus_enumerator.c:52-61 *)
Definition enumerator_init (len : nat) : enumerator :=
  {| str_to_can := []; can_to_str := []; buffer_len := len |}.

(** bus_enumerator.c:63-88 *)
Definition add_node (en : enumerator) (s : name) (driver : Z) : option enumerator :=
  if Nat.ltb (length (str_to_can en)) (buffer_len en) then
    match insert_loop (S (length (str_to_can en))) (fun e => strcmp s (e_str_id e)) (str_to_can en)
                      0 (length (str_to_can en)) with
    | None => None
    | Some i => Some {| str_to_can := insert_at (str_to_can en) i
                          {| e_str_id := s; e_can_id := CAN_ID_NOT_SET; e_driver := driver |};
                        can_to_str := can_to_str en; buffer_len := buffer_len en |}
    end
  else Some en.

Fixpoint replace_nth (l : list entry) (i : nat) (e : entry) : list entry :=
  match l, i with
  | [], _ => []
  | _ :: l, O => e :: l
  | x :: l, S i => x :: replace_nth l i e
  end.

(** bus_enumerator.c:90-123. Inserting in a full [can_to_str] writes behind the buffer. *)
Definition update_node_info (en : enumerator) (s : name) (can_id : Z) : option enumerator :=
  match index_by_str_id en s with
  | None => None
  | Some None => Some en
  | Some (Some index) =>
      match nth_error (str_to_can en) index with
      | None => None
      | Some e =>
          if e_can_id e =? CAN_ID_NOT_SET then
            let e' := {| e_str_id := e_str_id e; e_can_id := can_id; e_driver := e_driver e |} in
            match insert_loop (S (length (can_to_str en))) (fun e => Z.compare can_id (e_can_id e))
                              (can_to_str en) 0 (length (can_to_str en)) with
            | None => None
            | Some i =>
                if Nat.ltb (length (can_to_str en)) (buffer_len en) then
                  Some {| str_to_can := replace_nth (str_to_can en) index e';
                          can_to_str := insert_at (can_to_str en) i e';
                          buffer_len := buffer_len en |}
                else None
            end
          else Some en
      end
  end.

(** bus_enumerator.c:125-128 *)
Definition total_nodes_count (en : enumerator) : nat := length (str_to_can en).
(** bus_enumerator.c:130-140 *)
Definition discovered_nodes_count (en : enumerator) : nat :=
  length (filter (fun e => negb (e_can_id e =? CAN_ID_NOT_SET)) (str_to_can en)).

Definition entry_at (l : list entry) (i : option (option nat)) : option (option entry) :=
  match i with
  | None => None
  | Some None => Some None
  | Some (Some i) => match nth_error l i with None => None | Some e => Some (Some e) end
  end.

(** bus_enumerator.c:142-152 *)
Definition get_can_id (en : enumerator) (s : name) : option Z :=
  option_map (fun r => match r with Some e => e_can_id e | None => STRING_ID_NOT_FOUND end)
             (entry_at (str_to_can en) (index_by_str_id en s)).
(** bus_enumerator.c:154-164; the inner [None] is NULL. *)
Definition get_driver (en : enumerator) (s : name) : option (option Z) :=
  option_map (option_map e_driver) (entry_at (str_to_can en) (index_by_str_id en s)).
(** bus_enumerator.c:166-176 *)
Definition get_driver_by_can_id (en : enumerator) (id : Z) : option (option Z) :=
  option_map (option_map e_driver) (entry_at (can_to_str en) (index_by_can_id en id)).
(** bus_enumerator.c:178-188 *)
Definition get_str_id (en : enumerator) (id : Z) : option (option name) :=
  option_map (option_map e_str_id) (entry_at (can_to_str en) (index_by_can_id en id)).

(** Histories. *)
Inductive event := Add (s : name) (driver : Z) | Announce (s : name) (can_id : Z).

Definition estep (en : enumerator) (ev : event) : option enumerator :=
  match ev with
  | Add s d => add_node en s d
  | Announce s c => update_node_info en s c
  end.
Fixpoint erun (en : enumerator) (h : list event) : option enumerator :=
  match h with
  | [] => Some en
  | ev :: h => match estep en ev with Some en => erun en h | None => None end
  end.
