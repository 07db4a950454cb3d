(** What messages with a header are for: what is on the wire, and what a receiver makes of it. *)
From Coq Require Import ZArith List Bool.
From Verif Require Import CBase MprotoModel.
Import ListNotations.
Local Open Scope Z_scope.

(** One part of a message: the size of the contents on five bytes, a tag and a number with its low byte first; then
    the contents. *)
Definition le32 (n : Z) (bs : list Z) : Prop :=
  exists a b c d, bs = [a; b; c; d] /\ 0 <= a < 256 /\ 0 <= b < 256 /\ 0 <= c < 256 /\ 0 <= d < 256 /\
    n = a + 2 ^ 8 * b + 2 ^ 16 * c + 2 ^ 24 * d.
Definition part (contents : list Z) (bs : list Z) : Prop :=
  exists s, le32 (Z.of_nat (length contents)) s /\ bs = 13 :: s ++ contents.
Definition message (h b : list Z) (bs : list Z) : Prop :=
  exists p q, part h p /\ part b q /\ bs = p ++ q.

(** The encoder of a type accepts [v] and its bytes are [bs]. *)
Definition encodes {A} (c : codec A) (v : A) (bs : list Z) : Prop :=
  snd (enc c v) = true /\ concat (fst (enc c v)) = bs.
(** The decoder of a type gives back what was encoded. *)
Definition faithful {A} (c : codec A) (v : A) : Prop :=
  forall bs, encodes c v bs -> dec c bs = Some v.

(** [bus'] is [bus] but for one topic, the first one called [n], that now holds [v]. *)
Definition delivered (bus bus' : list topic) (n : str) (v : obj) : Prop :=
  exists pre t post, bus = pre ++ t :: post /\ name t = n /\ Forall (fun u => name u <> n) pre /\
    bus' = pre ++ mktopic (name t) (buffer_len t) (metadata t) (Some v) :: post.

(** A codec for the examples: a number and a list of bytes, at most 250 of them, written as they are with their
    number in front. *)
Definition plain_bytes : codec obj :=
  mkcodec (fun v => ([[len v]; v], len v <=? 250))
          (fun bs => match bs with n :: v => if n =? len v then Some v else None | [] => None end).
Definition plain_header : codec (Z * str) :=
  mkcodec (fun v => ([[fst v]; snd v], true))
          (fun bs => match bs with n :: v => if len v <? 65 then Some (n, v) else None | [] => None end).
