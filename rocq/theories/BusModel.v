(** Model of the message bus lib/msgbus/messagebus.c, with threads.

    Topics, watch groups and callbacks are numbered: a number stands for the address of the C object. All the
    topics have been through messagebus_topic_init before (their buffers are given), and the bus through
    messagebus_init. A thread is given by its program counter [pc]: where it is in which call. One step is one
    statement; the copy of a message is done byte by byte. A mutex is locked iff some thread is between the
    statements that acquire and release it. A thread waiting on a condition variable goes on only after a
    broadcast (no spurious wake-up), and then takes the mutex again (ChibiOS chCondWait,
    lib/msgbus/examples/chibios/port.c 22-27). *)
From Coq Require Import ZArith List Bool Arith.
From Verif Require Import CBase.
Import ListNotations.
Local Open Scope Z_scope.

Definition str := list Z.
(** messagebus.h 10. *)
Definition NAME_MAX : nat := 64.

(** messagebus.h 16-27 ([buffer_len] is the length of [buf]; [metadata] is not used by the bus). *)
Record topic := mktopic {
  buf : list Z; tname : str; published : bool; watchers : list nat; next : option nat; messages : Z }.

(** The calls. *)
Inductive op :=
| OPublish (t : nat) (msg : list Z)
| ORead (t : nat) (len : nat)
| OWait (t : nat) (len : nat)
| OWatch (g t : nat)
| OGroupWait (g : nat)
| OAdvertise (t : nat) (name : str)
| OFind (name : str)
| OFindBlocking (name : str)
| ORegister (c : nat)
| OStats (t : nat).

(** Where a thread is. The name carried by [AdvAcq] and [AdvLink] is the one given to the call, for the record. *)
Inductive pc :=
| Idle
| PubAcq (t : nat) (msg : list Z)                          (* line 91 *)
| PubCopy (t : nat) (msg : list Z) (k : nat)               (* 93-96, [k] bytes copied *)
| PubWatch (t : nat) (ws : list nat)                       (* 99-100 and 106, groups still to notify *)
| PubGroup (t g : nat) (ws : list nat)                     (* 101-103 *)
| ReadAcq (t len : nat)                                    (* 114 *)
| ReadTest (t len : nat)                                   (* 116 *)
| ReadCopy (wait : bool) (t len : nat) (out : list Z)      (* 118 and 131, [out] copied so far *)
| ReadRel (t len : nat) (res : option (list Z))            (* 121 *)
| WaitAcq (t len : nat)                                    (* 128 *)
| WaitHold (t len : nat)                                   (* 129 *)
| WaitBlk (t len : nat)                                    (* waiting *)
| WaitRe (t len : nat)                                     (* woken up *)
| WatchAcq (g t : nat)                                     (* 146 *)
| WatchAcq2 (g t : nat)                                    (* 147 *)
| WatchIn (g t : nat)                                      (* 149-155 *)
| GwAcq (g : nat)                                          (* 162 *)
| GwHold (g : nat)                                         (* 163 *)
| GwBlk (g : nat)
| GwRe (g : nat)
| GwIn (g : nat)                                           (* 165-169 *)
| AdvName (t : nat) (name : str)                           (* 34-35 *)
| AdvAcq (t : nat) (name : str)                            (* 37 *)
| AdvLink (t : nat) (name : str)                           (* 39-42 *)
| AdvCb (t : nat) (cs : list nat)                          (* 44-50, callbacks still to call *)
| FindAcq (blocking : bool) (name : str)                   (* 57 and 70 *)
| FindIn (blocking : bool) (name : str)                    (* 59-63 and 72-82 *)
| FindBlk (name : str)
| FindRe (name : str)
| RegAcq (c : nat)                                         (* 179 *)
| RegIn (c : nat)                                          (* 180-186 *)
| StatAcq (t : nat)                                        (* 191 *)
| StatIn (t : nat).                                        (* 192-193 *)

(** What happens, in order: recorded to state the properties, not used by the code. *)
Inductive event :=
| ECall (i : nat) (o : op)
| EPub (i t : nat) (msg : list Z)
| EPubDone (i : nat) (t : nat)
| ERefused (i t : nat)
| ENotify (g t : nat)
| ERead (i t len : nat) (res : option (list Z))
| EWait (i t len : nat) (out : list Z)
| EWatch (g t : nat)
| EGroup (i g : nat) (res : option nat)
| EBlock (i : nat)
| EAdv (i t : nat) (name : str)
| EAdvDone (i t : nat)
| ECallback (c t : nat)
| EFind (i : nat) (name : str) (res : option nat)
| EReg (c : nat)
| EStats (i t : nat) (n : Z).

Record sys := mksys {
  topics : list topic; groups : list (option nat); head : option nat; cbs : list nat; thr : list pc; log : list event }.

(** Bad: access outside of a buffer. Hang: endless walk through the list of topics. *)
Inductive outcome := Next (s : sys) | Bad | Hang.

Inductive lock := LBus | LTopic (t : nat) | LGroup (g : nat).
Definition lock_eqb (a b : lock) : bool :=
  match a, b with
  | LBus, LBus => true
  | LTopic t, LTopic t' => (t =? t')%nat
  | LGroup g, LGroup g' => (g =? g')%nat
  | _, _ => false
  end.
(** The mutexes a thread owns. *)
Definition held (p : pc) : list lock :=
  match p with
  | PubCopy t _ _ | PubWatch t _ | ReadTest t _ | ReadCopy _ t _ _ | ReadRel t _ _ | WaitHold t _
  | WatchAcq2 _ t | StatIn t => [LTopic t]
  | PubGroup t g _ | WatchIn g t => [LTopic t; LGroup g]
  | GwHold g | GwIn g => [LGroup g]
  | AdvLink _ _ | AdvCb _ _ | FindIn _ _ | RegIn _ => [LBus]
  | _ => []
  end.
Definition locked (l : lock) (ths : list pc) : bool :=
  existsb (fun p => existsb (lock_eqb l) (held p)) ths.

Fixpoint upd {A} (l : list A) (i : nat) (x : A) : list A :=
  match l, i with
  | [], _ => []
  | _ :: l, O => x :: l
  | y :: l, S i => y :: upd l i x
  end.

Definition set_thr (s : sys) (ths : list pc) : sys := mksys (topics s) (groups s) (head s) (cbs s) ths (log s).
Definition set_topic (s : sys) (t : nat) (x : topic) : sys :=
  mksys (upd (topics s) t x) (groups s) (head s) (cbs s) (thr s) (log s).
Definition set_group (s : sys) (g : nat) (x : option nat) : sys :=
  mksys (topics s) (upd (groups s) g x) (head s) (cbs s) (thr s) (log s).
Definition set_head (s : sys) (x : option nat) : sys := mksys (topics s) (groups s) x (cbs s) (thr s) (log s).
Definition set_cbs (s : sys) (x : list nat) : sys := mksys (topics s) (groups s) (head s) x (thr s) (log s).
Definition say (s : sys) (e : event) : sys := mksys (topics s) (groups s) (head s) (cbs s) (thr s) (log s ++ [e]).
Definition goto (s : sys) (i : nat) (p : pc) : sys := set_thr s (upd (thr s) i p).

(** messagebus_condvar_broadcast for the condition variables of a topic, of a group and of the bus. *)
Definition wake_topic (t : nat) (p : pc) : pc :=
  match p with WaitBlk t' len => if (t' =? t)%nat then WaitRe t' len else p | _ => p end.
Definition wake_group (g : nat) (p : pc) : pc :=
  match p with GwBlk g' => if (g' =? g)%nat then GwRe g' else p | _ => p end.
Definition wake_bus (p : pc) : pc := match p with FindBlk n => FindRe n | _ => p end.
Definition broadcast (s : sys) (f : pc -> pc) : sys := set_thr s (map f (thr s)).

(** strcmp(name, t->name) == 0. *)
Definition str_eqb (a b : str) : bool := if list_eq_dec Z.eq_dec a b then true else false.
(** messagebus.c 4-14. More steps than there are topics means an endless walk. *)
Fixpoint topic_by_name (fuel : nat) (ts : list topic) (cur : option nat) (name : str) : option (option nat) :=
  match cur with
  | None => Some None
  | Some t =>
      match fuel, nth_error ts t with
      | S fuel, Some x => if str_eqb name (tname x) then Some (Some t) else topic_by_name fuel ts (next x) name
      | _, _ => None
      end
  end.

(** A thread that acquires mutex [l]: goes on with [p] if it is free, otherwise does not move. *)
Definition acquire (s : sys) (i : nat) (l : lock) (p : pc) : outcome :=
  Next (if locked l (thr s) then s else goto s i p).

(** One step of thread [i]. Line numbers: see [pc]. *)
Definition step (s : sys) (i : nat) : outcome :=
  match nth_error (thr s) i with
  | None => Next s
  | Some p =>
      match p with
      | Idle | WaitBlk _ _ | GwBlk _ | FindBlk _ => Next s
      | PubAcq t msg => acquire s i (LTopic t) (PubCopy t msg 0)
      | PubCopy t msg k =>
          match nth_error (topics s) t with
          | None => Bad
          | Some x =>
              match nth_error msg k with
              | Some b =>
                  if (k <? length (buf x))%nat then
                    Next (goto (set_topic s t (mktopic (upd (buf x) k b) (tname x) (published x) (watchers x) (next x) (messages x)))
                               i (PubCopy t msg (S k)))
                  else Bad
              | None =>
                  let s := set_topic s t (mktopic (buf x) (tname x) true (watchers x) (next x) (s32 (messages x + 1))) in
                  Next (say (goto (broadcast s (wake_topic t)) i (PubWatch t (watchers x))) (EPub i t msg))
              end
          end
      | PubWatch t [] => Next (say (goto s i Idle) (EPubDone i t))
      | PubWatch t (g :: ws) => acquire s i (LGroup g) (PubGroup t g ws)
      | PubGroup t g ws =>
          Next (say (goto (broadcast (set_group s g (Some t)) (wake_group g)) i (PubWatch t ws)) (ENotify g t))
      | ReadAcq t len => acquire s i (LTopic t) (ReadTest t len)
      | ReadTest t len =>
          match nth_error (topics s) t with
          | None => Bad
          | Some x => Next (goto s i (if published x then ReadCopy false t len [] else ReadRel t len None))
          end
      | ReadCopy w t len out =>
          match nth_error (topics s) t with
          | None => Bad
          | Some x =>
              if (length out <? len)%nat then
                match nth_error (buf x) (length out) with
                | Some b => Next (goto s i (ReadCopy w t len (out ++ [b])))
                | None => Bad
                end
              else if w : bool then Next (say (goto s i Idle) (EWait i t len out))
              else Next (goto s i (ReadRel t len (Some out)))
          end
      | ReadRel t len res => Next (say (goto s i Idle) (ERead i t len res))
      | WaitAcq t len => acquire s i (LTopic t) (WaitHold t len)
      | WaitHold t len => Next (say (goto s i (WaitBlk t len)) (EBlock i))
      | WaitRe t len => acquire s i (LTopic t) (ReadCopy true t len [])
      | WatchAcq g t => acquire s i (LTopic t) (WatchAcq2 g t)
      | WatchAcq2 g t => acquire s i (LGroup g) (WatchIn g t)
      | WatchIn g t =>
          match nth_error (topics s) t with
          | None => Bad
          | Some x =>
              Next (say (goto (set_topic s t (mktopic (buf x) (tname x) (published x) (g :: watchers x) (next x) (messages x)))
                              i Idle) (EWatch g t))
          end
      | GwAcq g => acquire s i (LGroup g) (GwHold g)
      | GwHold g => Next (say (goto s i (GwBlk g)) (EBlock i))
      | GwRe g => acquire s i (LGroup g) (GwIn g)
      | GwIn g =>
          match nth_error (groups s) g with
          | None => Bad
          | Some r => Next (say (goto s i Idle) (EGroup i g r))
          end
      | AdvName t name =>
          match nth_error (topics s) t with
          | None => Bad
          | Some x =>
              Next (goto (set_topic s t (mktopic (buf x) (firstn NAME_MAX name) (published x) (watchers x) (next x) (messages x)))
                         i (AdvAcq t name))
          end
      | AdvAcq t name => acquire s i LBus (AdvLink t name)
      | AdvLink t name =>
          match nth_error (topics s) t with
          | None => Bad
          | Some x =>
              let nxt := match head s with Some h => Some h | None => next x end in
              Next (say (goto (set_head (set_topic s t (mktopic (buf x) (tname x) (published x) (watchers x) nxt (messages x))) (Some t))
                              i (AdvCb t (cbs s))) (EAdv i t name))
          end
      | AdvCb t [] => Next (say (goto (broadcast s wake_bus) i Idle) (EAdvDone i t))
      | AdvCb t (c :: cs) => Next (say (goto s i (AdvCb t cs)) (ECallback c t))
      | FindAcq b name => acquire s i LBus (FindIn b name)
      | FindIn b name =>
          match topic_by_name (S (length (topics s))) (topics s) (head s) name with
          | None => Hang
          | Some r =>
              match b, r with
              | true, None => Next (goto s i (FindBlk name))
              | _, _ => Next (say (goto s i Idle) (EFind i name r))
              end
          end
      | FindRe name => acquire s i LBus (FindIn true name)
      | RegAcq c => acquire s i LBus (RegIn c)
      | RegIn c => Next (say (goto (set_cbs s (c :: cbs s)) i Idle) (EReg c))
      | StatAcq t => acquire s i (LTopic t) (StatIn t)
      | StatIn t =>
          match nth_error (topics s) t with
          | None => Bad
          | Some x => Next (say (goto s i Idle) (EStats i t (messages x)))
          end
      end
  end.

(** Thread [i] makes a call (if it is not in one already). The test of line 87 is done here. *)
Definition call (s : sys) (i : nat) (o : op) : outcome :=
  match nth_error (thr s) i with
  | Some Idle =>
      let s := say s (ECall i o) in
      match o with
      | OPublish t msg =>
          match nth_error (topics s) t with
          | None => Bad
          | Some x => Next (if (length (buf x) <? length msg)%nat then say s (ERefused i t) else goto s i (PubAcq t msg))
          end
      | ORead t len => Next (goto s i (ReadAcq t len))
      | OWait t len => Next (goto s i (WaitAcq t len))
      | OWatch g t => Next (goto s i (WatchAcq g t))
      | OGroupWait g => Next (goto s i (GwAcq g))
      | OAdvertise t name => Next (goto s i (AdvName t name))
      | OFind name => Next (goto s i (FindAcq false name))
      | OFindBlocking name => Next (goto s i (FindAcq true name))
      | ORegister c => Next (goto s i (RegAcq c))
      | OStats t => Next (goto s i (StatAcq t))
      end
  | _ => Next s
  end.

(** The scheduler: each item lets a thread do a step or begin a call. *)
Inductive move := Run (i : nat) | Call (i : nat) (o : op).
Definition do_move (s : sys) (m : move) : outcome := match m with Run i => step s i | Call i o => call s i o end.
Definition run (s : sys) (ms : list move) : outcome :=
  fold_left (fun r m => match r with Next s => do_move s m | _ => r end) ms (Next s).

(** [n] threads, topics with the given buffers, [g] watch groups. *)
Definition init (n : nat) (buffers : list (list Z)) (g : nat) : sys :=
  mksys (map (fun b => mktopic b [] false [] None 0) buffers) (repeat None g) None [] (repeat Idle n) [].
