(** DeflateSpec: what is asked of a compressor, in terms of the format
    (InflateSpec). *)
From Coq Require Import ZArith List Arith.
From Verif Require Import Base DeflateModel.
Import ListNotations.

(** The data of a message: the pieces that are put, in order. *)
Fixpoint message_data (l : list request) : list Z :=
  match l with
  | [] => []
  | RPut piece :: l => piece ++ message_data l
  | _ :: l => message_data l
  end.

(** Calls that do not throw: bytes, and levels 0 to 9. *)
Definition request_ok (r : request) : Prop :=
  match r with
  | RPut piece => Forall (fun b => (0 <= b < 256)%Z) piece
  | RFlush _ => True
  | RLevel level => level <= 9
  end.
