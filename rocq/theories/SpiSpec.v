(** SPI mode 0 and the sensor at the other end of the wires. *)
From Coq Require Import ZArith QArith List Bool Arith.
From Verif Require Import SpiModel.
Import ListNotations.
Local Open Scope Z_scope.

Definition byte (b : Z) : Prop := 0 <= b < 256.
(** The bits of a byte, most significant first, and back. *)
Definition bits_of (b : Z) : list bool := map (fun k => Z.testbit b k) [7; 6; 5; 4; 3; 2; 1; 0].
Definition bits (l : list Z) : list bool := flat_map bits_of l.
Definition number (l : list bool) : Z := fold_left (fun n b => 2 * n + Z.b2z b) l 0.

(** A transfer, event after event: one clock pulse per bit; the bit is on MOSI before the clock rises, MISO is read while the clock is high. *)
Definition pulse (bs : bool * bool) : list event := [Mosi (fst bs); Sck true; Miso (snd bs); Sck false].
Definition transfer (sent read : list bool) : list event := flat_map pulse (combine sent read).

(** A device on the bus. While selected it takes the level of MOSI when the clock rises, and shows the next bit of its answer when it falls. Its
    answer may depend on all the messages it got before. *)
Record device := mkDev { sel : bool; clk : bool; mosi : bool; shown : list bool; got : list bool; messages : list (list bool) }.
Section Device.
Variable me : nat.
Variable answer : list (list bool) -> list bool.
Definition dev_step (d : device) (e : event) : device :=
  match e with
  | Mosi b => mkDev (sel d) (clk d) b (shown d) (got d) (messages d)
  | Sck b =>
      let d' := mkDev (sel d) b (mosi d) (shown d) (got d) (messages d) in
      if negb (sel d) then d'
      else if negb (clk d) && b then mkDev (sel d) b (mosi d) (shown d) (got d ++ [mosi d]) (messages d)
      else if clk d && negb b then mkDev (sel d) b (mosi d) (tl (shown d)) (got d) (messages d)
      else d'
  | Cs i b =>
      if negb (Nat.eqb i me) then d
      else if negb b then mkDev true (clk d) (mosi d) (answer (messages d)) [] (messages d)
      else if sel d then mkDev false (clk d) (mosi d) (shown d) [] (messages d ++ [got d]) else d
  | _ => d
  end.
(** The device after a history (latest first). *)
Definition dev (h : history) : device := fold_right (fun e d => dev_step d e) (mkDev false false false [] [] []) h.
End Device.
(** Two devices on one bus: the selected one drives MISO. *)
Definition bus (answer0 answer1 : list (list bool) -> list bool) : world := fun h =>
  if sel (dev 0 answer0 h) then hd false (shown (dev 0 answer0 h))
  else if sel (dev 1 answer1 h) then hd false (shown (dev 1 answer1 h)) else false.

(** The bus is quiet: nobody selected, the clock low. The messages that device n got, and its way to answer. *)
Definition quiet (a0 a1 : list (list bool) -> list bool) (h : history) : Prop :=
  sel (dev 0 a0 h) = false /\ clk (dev 0 a0 h) = false /\ sel (dev 1 a1 h) = false /\ clk (dev 1 a1 h) = false.
Definition msgs (a0 a1 : list (list bool) -> list bool) (n : nat) (h : history) : list (list bool) := if Nat.eqb n 0 then messages (dev 0 a0 h) else messages (dev 1 a1 h).
Definition ans (a0 a1 : list (list bool) -> list bool) (n : nat) : list (list bool) -> list bool := if Nat.eqb n 0 then a0 else a1.

(** Rounding: never swaps two numbers and keeps the whole numbers of up to 24 bits (true of binary32). *)
Definition rounding (rnd : Q -> Q) : Prop :=
  (forall a b, (a <= b)%Q -> (rnd a <= rnd b)%Q) /\ (forall n, Z.abs n <= 2 ^ 24 -> (rnd (inject_Z n) == inject_Z n)%Q).
