(** ChannelSpec: which routes are configured after a history of calls, as
    plain counters, and how often a message must reach a place. *)
From Coq Require Import ZArith List Arith Bool.
From Verif Require Import ChannelModel.
Import ListNotations.

Definition route_dec : forall a b : chan * (nat * chan), {a = b} + {a <> b}.
Proof. repeat decide equality. Defined.
Definition dflt_dec : forall a b : nat * option chan, {a = b} + {a <> b}.
Proof. repeat decide equality. Defined.

(** How many times the route from [c] to [o] at [d] is configured after the
    calls [l] (latest call first): each AddRoute adds one, each RemoveRoute
    takes one away if there is one, initialization clears. *)
Fixpoint active {M} (l : list (call M)) (c : chan) (d : nat) (o : chan) : nat :=
  match l with
  | [] => 0
  | AddRoute c' d' o' :: l =>
      if route_dec (c', (d', o')) (c, (d, o)) then S (active l c d o) else active l c d o
  | RemoveRoute c' d' o' :: l =>
      if route_dec (c', (d', o')) (c, (d, o)) then pred (active l c d o) else active l c d o
  | Initialize :: _ => 0
  | _ :: l => active l c d o
  end.

Fixpoint dactive {M} (l : list (call M)) (d : nat) (o : option chan) : nat :=
  match l with
  | [] => 0
  | AddDefault d' o' :: l =>
      if dflt_dec (d', o') (d, o) then S (dactive l d o) else dactive l d o
  | RemoveDefault d' o' :: l =>
      if dflt_dec (d', o') (d, o) then pred (dactive l d o) else dactive l d o
  | Initialize :: _ => 0
  | _ :: l => dactive l d o
  end.

(** The number of copies that must reach channel [o] at [d] of a message sent
    on channel [c]. *)
Definition routed {M} (l : list (call M)) (c : chan) : Prop := exists d o, active l c d o <> 0.

Definition copies_due {M} (l : list (call M)) (c : chan) (d : nat) (o : chan) (n : nat) : Prop :=
  (routed l c -> n = active l c d o)
  /\ (~ routed l c ->
      n = dactive l d (Some o) + if list_eq_dec Z.eq_dec o c then dactive l d None else 0).

(** The number of deliveries among [ds] that go there. *)
Definition copies {M} (ds : list (delivery M)) (d : nat) (o : chan) : nat :=
  length (filter (fun x => (d_to x =? d) && chan_eqb (d_chan x) o) ds).

(** Nobody refuses. *)
Definition willing : list bool := [].

(** Send, and send again as long as somebody refuses: the deliveries that were
    accepted, in order. *)
Fixpoint insist {M} (tries : nat) (s : sw) (c : chan) (m : M) (a : list bool)
  : option (sw * list (delivery M)) :=
  match tries with
  | O => None
  | S n =>
    let '(s, ds, a) := put s c m a in
    if s_blocked s
    then match insist n s c m a with Some (s, ds') => Some (s, ds ++ ds') | None => None end
    else Some (s, ds)
  end.
