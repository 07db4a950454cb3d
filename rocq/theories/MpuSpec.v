(** The memory protection unit of ARMv7-M (Architecture Reference Manual, B3.5). *)
From Coq Require Import ZArith List Bool.
From Verif Require Import MpuModel.
Import ListNotations.
Local Open Scope Z_scope.

Inductive access := Read | Write | Fetch.

(** Fields of a region: enable bit, size 2^(SIZE+1), base rounded down to the size, access bits and execute-never bit. Subregions are not disabled
    when bits 8 to 15 are zero. *)
Definition enabled (u : unit_regs) (i : Z) : bool := Z.testbit (rasr u i) 0.
Definition log_size (u : unit_regs) (i : Z) : Z := (rasr u i / 2) mod 32 + 1.
Definition covers (u : unit_regs) (i a : Z) : bool :=
  enabled u i && (a / 2 ^ log_size u i =? rbar u i / 2 ^ log_size u i).
Definition ap_field (u : unit_regs) (i : Z) : Z := (rasr u i / 2 ^ 24) mod 8.
Definition xn (u : unit_regs) (i : Z) : bool := Z.testbit (rasr u i) 28.
Definition subregions (u : unit_regs) (i : Z) : Z := (rasr u i / 2 ^ 8) mod 256.

Definition may_read (ap : Z) (priv : bool) : bool := if priv then negb ((ap =? 0) || (ap =? 4)) else (ap =? 2) || (ap =? 3) || (ap =? 6) || (ap =? 7).
Definition may_write (ap : Z) (priv : bool) : bool := if priv then (ap =? 1) || (ap =? 2) || (ap =? 3) else (ap =? 3).
Definition region_allows (u : unit_regs) (i : Z) (priv : bool) (k : access) : bool :=
  match k with
  | Read => may_read (ap_field u i) priv
  | Write => may_write (ap_field u i) priv
  | Fetch => may_read (ap_field u i) priv && negb (xn u i)
  end.
(** The region with the highest number decides; without any, privileged code has the default memory map if CTRL allows it. *)
Fixpoint decides (u : unit_regs) (a : Z) (l : list Z) : option Z :=
  match l with [] => None | i :: l => if covers u i a then Some i else decides u a l end.
Definition numbers : list Z := [7; 6; 5; 4; 3; 2; 1; 0].
(** [default] is the default memory map. *)
Definition allowed (default : Z -> access -> bool) (u : unit_regs) (priv : bool) (k : access) (a : Z) : bool :=
  if Z.testbit (ctrl u) 0 then
    match decides u a numbers with
    | Some i => region_allows u i priv k
    | None => priv && Z.testbit (ctrl u) 2 && default a k
    end
  else default a k.

(** What the permissions of the interface mean: for privileged and other code. *)
Definition granted (ap : access_permission) (executable priv : bool) (k : access) : bool :=
  let read := match ap with AP_NO_NO | AP_RESERVED => false | AP_RW_NO | AP_RO_NO => priv | _ => true end in
  match k with
  | Read => read
  | Write => match ap with AP_RW_NO | AP_RW_RO => priv | AP_RW_RW => true | _ => false end
  | Fetch => read && executable
  end.
(** Calls of mpu_configure_region for the regions between the two of mpu_init. *)
Record request := mkRequest { q_region : Z; q_addr : Z; q_len : Z; q_ap : access_permission; q_exec : bool }.
Definition proper (q : request) : Prop := 1 <= q_region q <= 6 /\ 0 <= q_addr q < 2 ^ 32 /\ 5 <= q_len q <= 32.
Fixpoint configure_all (u : unit_regs) (l : list request) : option unit_regs :=
  match l with
  | [] => Some u
  | q :: l => match mpu_configure_region u (q_region q) (q_addr q) (q_len q) (q_ap q) (q_exec q) with Some u => configure_all u l | None => None end
  end.
(** Calls of any function of the interface. *)
Inductive call := Configure (q : request) | Enable | Disable.
Fixpoint calls (u : unit_regs) (l : list call) : option unit_regs :=
  match l with
  | [] => Some u
  | Configure q :: l => match mpu_configure_region u (q_region q) (q_addr q) (q_len q) (q_ap q) (q_exec q) with Some u => calls u l | None => None end
  | Enable :: l => calls (mpu_enable u) l
  | Disable :: l => calls (mpu_disable u) l
  end.
(** As the header asks: region 0 to 7, address of 32 bits, length of 32 bytes to 4 GB. *)
Definition fits (c : call) : Prop :=
  match c with Configure q => 0 <= q_region q < 8 /\ 0 <= q_addr q < 2 ^ 32 /\ 5 <= q_len q <= 32 | _ => True end.
(** The last configuration of a region, and the last of Enable and Disable ([true] from the start, after mpu_init). *)
Definition last_request (l : list call) (i : Z) : option request :=
  fold_left (fun r c => match c with Configure q => if q_region q =? i then Some q else r | _ => r end) l None.
Definition running (l : list call) : bool := fold_left (fun b c => match c with Configure _ => b | Enable => true | Disable => false end) l true.
(** The two requests of mpu_init: the first 32 bytes closed to all, and the RAM without execution. *)
Definition init_calls : list call := [Configure (mkRequest 7 0 5 AP_NO_NO false); Configure (mkRequest 0 (2 ^ 29) 29 AP_RW_RW false)].
(** The block of a request: 2^length bytes, from the multiple of 2^length below the address. *)
Definition inside (q : request) (a : Z) : bool := a / 2 ^ q_len q =? q_addr q / 2 ^ q_len q.
(** The request that decides on an address: of the highest region which has it inside. *)
Fixpoint decider (l : list call) (a : Z) (regions : list Z) : option request :=
  match regions with
  | [] => None
  | i :: regions => match last_request l i with Some q => if inside q a then Some q else decider l a regions | None => decider l a regions end
  end.
Definition answer (default : Z -> access -> bool) (l : list call) (priv : bool) (k : access) (a : Z) : bool :=
  if running l then
    match decider l a numbers with Some q => granted (q_ap q) (q_exec q) priv k | None => priv && default a k end
  else default a k.
