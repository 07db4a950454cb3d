(** Model of master-firmware/src/msgbus_protobuf.c: topic messages with a header, for UDP or a log.

    A message is: the size of the header (a MessageSize), the header (a TopicHeader), the size of the body (a
    MessageSize) and the body (the contents of the topic), each encoded by nanopb. nanopb itself is not in /repo
    (an empty submodule): a type of messages is given by what nanopb does with it, see [codec]. MessageSize is the
    exception, its encoding is concrete: protocol.proto 8-10 has one required fixed32 field of number 1, so the
    five bytes are the tag 0x0d and the number, low byte first.

    Contents are given by their fields (a list of numbers), so the padding of the C structures is left out. A
    memory is a list of bytes that starts at the address given by the caller. A topic carries a name, what its
    metadata points to, and what it holds. *)
From Coq Require Import ZArith List Bool.
From Verif Require Import CBase.
Import ListNotations.
Local Open Scope Z_scope.

Definition str := list Z.
Definition obj := list Z.
Definition len {A} (l : list A) : Z := Z.of_nat (length l).

(** What nanopb does with a message type. [enc v]: the chunks pb_encode writes for [v], and whether it gets to the
    end of them without an error of its own. [dec bs]: what pb_decode makes of a stream of exactly these bytes,
    [None] for an error. *)
Record codec (A : Type) := mkcodec { enc : A -> list (list Z) * bool; dec : list Z -> option A }.
Arguments mkcodec {A}. Arguments enc {A}. Arguments dec {A}.

(** topic_metadata_t, msgbus_protobuf.h 17-21 (the watcher is in the bus model), and the size of the C structure
    of the type, which the topic has as its buffer_len. *)
Record meta := mkmeta { fields : codec obj; msgid : Z }.
(** messagebus_topic_t, lib/msgbus/include/msgbus/messagebus.h 16-27. [metadata] is [None] for NULL. [content] is
    [None] until the first publication. *)
Record topic := mktopic { name : str; buffer_len : Z; metadata : option meta; content : option obj }.

(** [BAD]: the code accesses memory outside of an object, or through NULL. *)
Inductive outcome (A : Type) := BAD | OK (a : A).
Arguments BAD {A}. Arguments OK {A}.

(** MessageSize_size (generated by nanopb from protocol.proto 8-10): tag and 4 bytes. *)
Definition SIZE_LEN : Z := 5.
(** The encoding of a MessageSize. *)
Definition size_bytes (n : Z) : list Z := [13; n mod 256; n / 256 mod 256; n / 65536 mod 256; n / 16777216 mod 256].
(** pb_decode of a MessageSize from a stream of five bytes. No other five bytes are one: the field takes all of
    them, and it is required. *)
Definition size_dec (bs : list Z) : option Z :=
  match bs with
  | [t; a; b; c; d] => if t =? 13 then Some (a + 256 * b + 65536 * c + 16777216 * d) else None
  | _ => None
  end.

(** Write [bs] at [off]. *)
Definition put (m : list Z) (off : Z) (bs : list Z) : list Z :=
  firstn (Z.to_nat off) m ++ bs ++ skipn (Z.to_nat off + length bs) m.

(** pb_ostream_from_buffer(&buf[off], room) then pb_encode: a chunk that does not fit ends the encoding with an
    error. Gives the memory, the bytes written and the result. [BAD] if a chunk goes past the end of the memory. *)
Fixpoint write_chunks (m : list Z) (off room : Z) (cs : list (list Z)) : outcome (list Z * Z * bool) :=
  match cs with
  | [] => OK (m, 0, true)
  | c :: r =>
    if room <? len c then OK (m, 0, false)
    else if len m <? off + len c then BAD
    else match write_chunks (put m off c) (off + len c) (room - len c) r with
         | OK (m', w, b) => OK (m', len c + w, b)
         | BAD => BAD
         end
  end.
Definition pb_encode (m : list Z) (off room : Z) (e : list (list Z) * bool) : outcome (list Z * Z * bool) :=
  match write_chunks m off room (fst e) with
  | OK (m', w, b) => OK (m', w, b && snd e)
  | BAD => BAD
  end.

(** pb_istream_from_buffer(buf + off, n): the bytes of the stream, [BAD] when it goes past the end of the memory.
    nanopb reads a stream as it needs it; a decoding that stops on an error before it gets past the end is counted
    as [BAD] all the same. *)
Definition stream (m : list Z) (off n : Z) : outcome (list Z) :=
  if len m <? off + n then BAD else OK (firstn (Z.to_nat n) (skipn (Z.to_nat off) m)).

Section Proto.
(** What nanopb does with a TopicHeader: a message number and a name (protocol.proto 12-15). *)
Variable header : codec (Z * str).

(** encode_topic_header, 99-136: [m] is the memory from [buf] on. 109: the name of a topic has at most 64
    characters and header.name has room for 65, so strncpy copies it whole. Line 115 computes max_len before the
    test of 116; it is not used when the test fails. *)
Definition encode_topic_header (t : topic) (m : list Z) (buf_len : Z) : outcome (Z * list Z) :=
  match metadata t with
  | None => BAD
  | Some md =>
    if buf_len <? SIZE_LEN then OK (0, m)
    else match pb_encode m SIZE_LEN (buf_len - SIZE_LEN) (enc header (msgid md, name t)) with
         | BAD => BAD
         | OK (m1, _, false) => OK (0, m1)
         | OK (m1, w, true) =>
           match pb_encode m1 0 SIZE_LEN ([size_bytes (u32 w)], true) with
           | BAD => BAD
           | OK (m2, _, false) => OK (0, m2)
           | OK (m2, _, true) => OK (SIZE_LEN + u32 w, m2)
           end
         end
  end.

(** encode_topic_body, 138-176: [off] is where its buffer starts in the memory. 157: the read asks for
    scratch_len bytes, and messagebus_topic_read (lib/msgbus/messagebus.c 111-124) copies that many from the buffer
    of the topic once something was published, however long that buffer is. *)
Definition encode_topic_body (t : topic) (m : list Z) (off buf_len scratch_len : Z) : outcome (Z * list Z) :=
  if scratch_len <? buffer_len t then OK (0, m)
  else if buf_len <? SIZE_LEN then OK (0, m)
  else match content t with
       | None => OK (0, m)
       | Some v =>
         if buffer_len t <? scratch_len then BAD else
         match metadata t with
         | None => BAD
         | Some md =>
           match pb_encode m (off + SIZE_LEN) (buf_len - SIZE_LEN) (enc (fields md) v) with
           | BAD => BAD
           | OK (m1, _, false) => OK (0, m1)
           | OK (m1, w, true) =>
             match pb_encode m1 off SIZE_LEN ([size_bytes (u32 w)], true) with
             | BAD => BAD
             | OK (m2, _, false) => OK (0, m2)
             | OK (m2, _, true) => OK (u32 w + SIZE_LEN, m2)
             end
           end
         end
       end.

(** messagebus_encode_topic_message, 24-46: what is returned, and the memory after. *)
Definition messagebus_encode_topic_message (t : topic) (m : list Z) (buf_len scratch_len : Z) : outcome (Z * list Z) :=
  match encode_topic_header t m buf_len with
  | BAD => BAD
  | OK (header_len, m1) =>
    if header_len =? 0 then OK (0, m1)
    else match encode_topic_body t m1 header_len (buf_len - header_len) scratch_len with
         | BAD => BAD
         | OK (body_len, m2) => if body_len =? 0 then OK (0, m2) else OK (header_len + body_len, m2)
         end
  end.

(** strcmp(a, b) == 0 (names have no terminator here). *)
Definition same (a b : str) : bool := if list_eq_dec Z.eq_dec a b then true else false.

(** messagebus_find_topic (lib/msgbus/messagebus.c 55-66): the first topic of the name in the list of the bus. *)
Fixpoint find (bus : list topic) (n : str) : option topic :=
  match bus with
  | [] => None
  | t :: r => if same (name t) n then Some t else find r n
  end.
(** messagebus_topic_publish to that topic with its own buffer_len as length (96): never refused. *)
Definition set_content (t : topic) (v : obj) : topic := mktopic (name t) (buffer_len t) (metadata t) (Some v).
Fixpoint publish (bus : list topic) (n : str) (v : obj) : list topic :=
  match bus with
  | [] => []
  | t :: r => if same (name t) n then set_content t v :: r else t :: publish r n v
  end.

(** The static obj_buffer, 90. *)
Definition OBJ_LEN : Z := 1024.

(** messagebus_inject_encoded_message, 48-97: the bus after. The length given by the caller is not used (55). The
    sizes are 32 bits numbers and so are the offsets on the target (79, 86). 92: pb_decode writes all the fields of
    the structure, starting with their defaults, so a type larger than obj_buffer overflows it. *)
Definition messagebus_inject_encoded_message (bus : list topic) (m : list Z) (l : Z) : outcome (list topic) :=
  match stream m 0 SIZE_LEN with
  | BAD => BAD
  | OK s0 =>
    match size_dec s0 with
    | None => OK bus
    | Some hs =>
      match stream m SIZE_LEN hs with
      | BAD => BAD
      | OK s1 =>
        match dec header s1 with
        | None => OK bus
        | Some (_, n) =>
          match find bus n with
          | None => OK bus
          | Some t =>
            match stream m (SIZE_LEN + hs) SIZE_LEN with
            | BAD => BAD
            | OK s2 =>
              match size_dec s2 with
              | None => OK bus
              | Some ms =>
                match stream m (2 * SIZE_LEN + hs) ms with
                | BAD => BAD
                | OK s3 =>
                  match metadata t with
                  | None => BAD
                  | Some md =>
                    if OBJ_LEN <? buffer_len t then BAD
                    else match dec (fields md) s3 with
                         | None => OK bus
                         | Some v => OK (publish bus n v)
                         end
                  end
                end
              end
            end
          end
        end
      end
    end
  end.
End Proto.
