(** What a channel carries, as a list of tokens. *)
From Coq Require Import ZArith List Bool.
From Verif Require Import EqFilterModel.
Import ListNotations.
Local Open Scope Z_scope.

Inductive token := Byte (b : Z) | MsgEnd | SeriesEnd.

(** The tokens an event puts on channel [ch]. *)
Definition tokens_of (ch : bool) (e : eevent) : list token :=
  match e with
  | EPut c d me => if Bool.eqb c ch then map Byte d ++ (if me then [MsgEnd] else []) else []
  | ESeriesEnd c => if Bool.eqb c ch then [SeriesEnd] else []
  end.
Definition stream (ch : bool) (h : list eevent) : list token := flat_map (tokens_of ch) h.

(** A channel has been used for one complete series: it carries whole messages (a message is bytes
    followed by a message end) followed by one series end. *)
Definition message_tokens (m : list Z) : list token := map Byte m ++ [MsgEnd].
Definition one_series (ch : bool) (h : list eevent) : Prop :=
  exists ms, stream ch h = flat_map message_tokens ms ++ [SeriesEnd].
