(** Model of uwb-beacon-firmware/src/lru_cache.c and of the anchor position cache built on it
    (uwb-beacon-firmware/src/anchor_position_cache.c).

    Entries are identified by their index in the [entries] array; pointers are [option nat]
    ([None] is NULL). The [next] and [key] members of the entries are functions from indices. *)
From Coq Require Import NArith List.
Import ListNotations.

(** Outcome of a C function: normal result, undefined behaviour (here: NULL dereference or
    out-of-bounds access), or a loop that did not finish within the given number of rounds. *)
Inductive outcome (A : Type) := Ok (a : A) | UB | Diverge.
Arguments Ok {A} a. Arguments UB {A}. Arguments Diverge {A}.

(** lru_cache.h:17-26 ([cache_entry_t] members as maps, [cache_t] members). *)
Record cache := mkCache {
  free_list : option nat;
  used_list : option nat;
  next : nat -> option nat;
  key : nat -> N }.

Definition upd {A} (f : nat -> A) (i : nat) (v : A) : nat -> A :=
  fun j => if Nat.eqb i j then v else f j.

(** lru_cache.c:4-16. [entries[-1]] is accessed if the count is zero. The initial keys are
    irrelevant (uninitialised memory), we take 0. *)
Definition cache_init (entries_count : nat) : outcome cache :=
  match entries_count with
  | O => UB
  | S _ => Ok {| free_list := Some 0;
                 used_list := None;
                 next := fun i => if Nat.ltb (S i) entries_count then Some (S i) else None;
                 key := fun _ => 0%N |}
  end.

(** lru_cache.c:31-34: [while (cur->next != NULL)], at most [fuel] evaluations of the condition. *)
Fixpoint to_tail (fuel : nat) (nxt : nat -> option nat) (prev : option nat) (cur : nat)
  : outcome (option nat * nat) :=
  match fuel with
  | O => Diverge
  | S fuel => match nxt cur with
              | None => Ok (prev, cur)
              | Some c => to_tail fuel nxt (Some cur) c
              end
  end.

(** lru_cache.c:43-47 *)
Definition push_used (c : cache) (ret : nat) (k : N) : cache :=
  {| free_list := free_list c;
     used_list := Some ret;
     next := upd (next c) ret (used_list c);
     key := upd (key c) ret k |}.

(** lru_cache.c:18-48 *)
Definition cache_entry_allocate (fuel : nat) (c : cache) (k : N) : outcome (cache * nat) :=
  match free_list c with
  | Some ret =>
      Ok (push_used {| free_list := next c ret; used_list := used_list c;
                       next := next c; key := key c |} ret k, ret)
  | None =>
      match used_list c with
      | None => UB  (* cur->next with cur == NULL *)
      | Some cur =>
          match to_tail fuel (next c) None cur with
          | Ok (prev, cur) =>
              let nxt := match prev with Some p => upd (next c) p None | None => next c end in
              Ok (push_used {| free_list := None; used_list := used_list c;
                               next := nxt; key := key c |} cur k, cur)
          | UB => UB
          | Diverge => Diverge
          end
      end
  end.

(** lru_cache.c:56-59: [while (current != NULL && current->key != key)]. *)
Fixpoint search (fuel : nat) (c : cache) (k : N) (prev current : option nat)
  : outcome (option nat * option nat) :=
  match fuel with
  | O => Diverge
  | S fuel => match current with
              | None => Ok (prev, None)
              | Some e => if N.eqb (key c e) k then Ok (prev, Some e)
                          else search fuel c k (Some e) (next c e)
              end
  end.

(** lru_cache.c:50-69 *)
Definition cache_entry_get (fuel : nat) (c : cache) (k : N) : outcome (cache * option nat) :=
  match search fuel c k None (used_list c) with
  | Ok (prev, current) =>
      match current, prev with
      | Some e, Some p =>
          let n1 := upd (next c) p (next c e) in
          Ok ({| free_list := free_list c; used_list := Some e;
                 next := upd n1 e (used_list c); key := key c |}, current)
      | _, _ => Ok (c, current)
      end
  | UB => UB
  | Diverge => Diverge
  end.

(** Histories of calls on one cache and their results. *)
Inductive op := OAlloc (k : N) | OGet (k : N).
Inductive event := EAlloc (k : N) (e : nat) | EGet (k : N) (r : option nat).

Definition step (fuel : nat) (c : cache) (o : op) : outcome (cache * event) :=
  match o with
  | OAlloc k => match cache_entry_allocate fuel c k with
                | Ok (c, e) => Ok (c, EAlloc k e) | UB => UB | Diverge => Diverge end
  | OGet k => match cache_entry_get fuel c k with
              | Ok (c, r) => Ok (c, EGet k r) | UB => UB | Diverge => Diverge end
  end.

(** Final state and the events so far, newest first. *)
Fixpoint run_from (fuel : nat) (c : cache) (tr : list event) (ops : list op)
  : outcome (cache * list event) :=
  match ops with
  | [] => Ok (c, tr)
  | o :: ops => match step fuel c o with
                | Ok (c, e) => run_from fuel c (e :: tr) ops
                | UB => UB | Diverge => Diverge end
  end.
Definition run (fuel n : nat) (ops : list op) : outcome (cache * list event) :=
  match cache_init n with
  | Ok c => run_from fuel c [] ops | UB => UB | Diverge => Diverge end.

(** * Anchor position cache *)

(** anchor_position_cache.c:7 *)
Definition CACHE_ENTRIES : nat := 5.

(** anchor_position_msg_t: the address and an opaque position. *)
Record anchor_msg := { anchor_addr : N; anchor_pos : N }.

(** The cache and the contents the payload pointers point to: entry [i] has payload
    [anchor_positions_cache_entries_content[i]] (anchor_position_cache.c:79-86). *)
Record acache := { lru : cache; content : nat -> anchor_msg }.

(** anchor_position_cache.c:79-86, static storage is zero-initialised. *)
Definition anchor_cache_init : outcome acache :=
  match cache_init CACHE_ENTRIES with
  | Ok c => Ok {| lru := c; content := fun _ => {| anchor_addr := 0; anchor_pos := 0 |} |}
  | UB => UB | Diverge => Diverge
  end.

(** anchor_position_cache.c:36-51, one message, under the semaphore. *)
Definition anchor_on_msg (fuel : nat) (a : acache) (m : anchor_msg) : outcome acache :=
  match cache_entry_get fuel (lru a) (anchor_addr m) with
  | Ok (c, Some e) => Ok {| lru := c; content := upd (content a) e m |}
  | Ok (c, None) =>
      match cache_entry_allocate fuel c (anchor_addr m) with
      | Ok (c, e) => Ok {| lru := c; content := upd (content a) e m |}
      | UB => UB | Diverge => Diverge
      end
  | UB => UB | Diverge => Diverge
  end.

(** anchor_position_cache.c:64-77: returns a pointer to the payload, i.e. the entry index. *)
Definition anchor_position_cache_get (fuel : nat) (a : acache) (addr : N)
  : outcome (acache * option nat) :=
  match cache_entry_get fuel (lru a) addr with
  | Ok (c, r) => Ok ({| lru := c; content := content a |}, r)
  | UB => UB | Diverge => Diverge
  end.

Inductive aop := AMsg (m : anchor_msg) | ALookup (addr : N).

Definition astep (fuel : nat) (a : acache) (o : aop) : outcome acache :=
  match o with
  | AMsg m => anchor_on_msg fuel a m
  | ALookup addr => match anchor_position_cache_get fuel a addr with
                    | Ok (a, _) => Ok a | UB => UB | Diverge => Diverge end
  end.
Fixpoint arun_from (fuel : nat) (a : acache) (ops : list aop) : outcome acache :=
  match ops with
  | [] => Ok a
  | o :: ops => match astep fuel a o with
                | Ok a => arun_from fuel a ops | UB => UB | Diverge => Diverge end
  end.
Definition arun (fuel : nat) (ops : list aop) : outcome acache :=
  match anchor_cache_init with
  | Ok a => arun_from fuel a ops | UB => UB | Diverge => Diverge end.

(** What the caller sees when dereferencing the returned pointer at once. *)
Definition anchor_lookup (fuel : nat) (a : acache) (addr : N) : outcome (option anchor_msg) :=
  match anchor_position_cache_get fuel a addr with
  | Ok (a, r) => Ok (option_map (content a) r) | UB => UB | Diverge => Diverge end.
