(** What a proxy delivers, from the history (oldest first) alone. *)
From Coq Require Import ZArith List Bool String Ascii.
From Verif Require Import EnumModel EnumSpec BusModel ProxyModel.
Import ListNotations.

(** The characters of a string. *)
Definition text (s : string) : name := map (fun c => Z.of_N (N_of_ascii c)) (list_ascii_of_string s).

Section Spec.
Variable message : Type.
Variable topic_name : name -> name.
Variable translate : message -> option (list Z).
Variable cap : nat.
Definition enum_events (h : list (pevent message)) : list EnumModel.event := flat_map (fun e => match e with Enum ev => [ev] | _ => [] end) h.
(** A node registered in the history has the number [src]. *)
Definition sender (h : list (pevent message)) (src : Z) (board : name) : Prop := exists d, node_has_id cap (enum_events h) board d src.
(** [delivers past h l]: the history [h] that follows [past] puts the messages [l] on the topics named in it. *)
Inductive delivers : list (pevent message) -> list (pevent message) -> list (name * list Z) -> Prop :=
| d_end past : delivers past [] []
| d_enum past ev h l : delivers (past ++ [Enum ev]) h l -> delivers past (Enum ev :: h) l
| d_unknown past src m h l : (forall board, ~ sender past src board) -> delivers (past ++ [Msg src m]) h l -> delivers past (Msg src m :: h) l
| d_untranslated past src m h l : translate m = None -> delivers (past ++ [Msg src m]) h l -> delivers past (Msg src m :: h) l
| d_known past src m h l board x : sender past src board -> translate m = Some x -> delivers (past ++ [Msg src m]) h l ->
    delivers past (Msg src m :: h) ((topic_name board, x) :: l).
End Spec.

(** What the calls to the bus publish: the name under which the topic was advertised before, and the message. [None]: publication on a topic that
    was not advertised. *)
Fixpoint published (adv : list (nat * name)) (ops : list op) : option (list (name * list Z)) :=
  match ops with
  | [] => Some []
  | OAdvertise t n :: ops => published ((t, n) :: adv) ops
  | OPublish t m :: ops =>
      match List.find (fun a => Nat.eqb (fst a) t) adv, published adv ops with
      | Some (_, n), Some l => Some ((n, m) :: l)
      | _, _ => None
      end
  | _ :: _ => None
  end.
Definition adverts (ops : list op) : list (nat * name) := flat_map (fun o => match o with OAdvertise t n => [(t, n)] | _ => [] end) ops.
