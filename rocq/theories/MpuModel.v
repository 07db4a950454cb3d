(** Model of lib/arm-cortex-tools/mpu.c: the registers of the memory protection unit. The masks are those of the core_cm4.h of CMSIS. The barriers and the
    bits of SCB->SHCSR, which only choose the exception of a fault, are left out. *)
From Coq Require Import ZArith List Bool.
Import ListNotations.
Local Open Scope Z_scope.

(** The unit: CTRL, the selected region (RNR) and the pair RBAR, RASR of each of its 8 regions. *)
Record unit_regs := mkUnit { ctrl : Z; rnr : Z; rbar : Z -> Z; rasr : Z -> Z }.
Definition with_reg (f : Z -> Z) (r v : Z) : Z -> Z := fun x => if x =? r then v else f x.
(** Writing RBAR with its VALID bit (4) selects the region in its bits 0 to 3; writing RASR sets the selected region. *)
Definition write_rbar (u : unit_regs) (v : Z) : unit_regs :=
  let r := if Z.testbit v 4 then v mod 16 else rnr u in
  mkUnit (ctrl u) r (with_reg (rbar u) r (v - v mod 32)) (rasr u).
Definition write_rasr (u : unit_regs) (v : Z) : unit_regs := mkUnit (ctrl u) (rnr u) (rbar u) (with_reg (rasr u) (rnr u) v).

(** mpu.h:12-20 *)
Inductive access_permission := AP_NO_NO | AP_RW_NO | AP_RW_RO | AP_RW_RW | AP_RESERVED | AP_RO_NO | AP_RO_RO.
Definition ap_value (ap : access_permission) : Z :=
  match ap with AP_NO_NO => 0 | AP_RW_NO => 1 | AP_RW_RO => 2 | AP_RW_RW => 3 | AP_RESERVED => 4 | AP_RO_NO => 5 | AP_RO_RO => 6 end.

(** mpu.c:8-11, 13-16 *)
Definition mpu_enable (u : unit_regs) : unit_regs := mkUnit (Z.lor (ctrl u) 1) (rnr u) (rbar u) (rasr u).
Definition mpu_disable (u : unit_regs) : unit_regs := mkUnit (Z.ldiff (ctrl u) 1) (rnr u) (rbar u) (rasr u).
(** mpu.c:18-45. [None]: the assertion of line 22 stops the system. [addr] is a 32-bit address and [len] a size_t. *)
Definition mpu_configure_region (u : unit_regs) (region addr len : Z) (ap : access_permission) (executable : bool) : option unit_regs :=
  if len <? 5 then None else
  let region := Z.land region 15 in
  let addr := Z.land addr (2 ^ 32 - 32) in
  let rasr := if executable then 0 else 2 ^ 28 in
  let rasr := rasr + Z.shiftl (ap_value ap) 24 in
  let rasr := (rasr + Z.shiftl (len - 1) 1) mod 2 ^ 32 in
  let rasr := rasr + 1 in
  Some (write_rasr (write_rbar u (addr + region + 16)) rasr).
(** mpu.c:18-39: the unit between the two writes of lines 39 and 40, as an interrupt sees it there. *)
Definition mpu_configure_between (u : unit_regs) (region addr : Z) : unit_regs :=
  write_rbar u (Z.land addr (2 ^ 32 - 32) + Z.land region 15 + 16).
(** mpu.c:47-68 *)
Definition mpu_init (u : unit_regs) : option unit_regs :=
  let u := mkUnit (Z.lor (ctrl u) 4) (rnr u) (rbar u) (rasr u) in
  match mpu_configure_region u 7 0 5 AP_NO_NO false with
  | None => None
  | Some u =>
      match mpu_configure_region u 0 (2 ^ 29) 29 AP_RW_RW false with
      | None => None
      | Some u => Some (mpu_enable u)
      end
  end.
