(** ChannelModel: ChannelSwitch (channels.cpp:101-313, channels.h:57-134).

    Destinations are numbers (the addresses of the attached objects), channel
    names are strings over any alphabet (lists of integers).  What a
    destination answers is not modelled: [answers] lists, in the order in
    which they are asked, whether each delivery is refused for now (the
    nonzero or true result of ChannelPut2, ChannelFlush and
    ChannelMessageSeriesEnd); when the list is used up the answer is that the
    delivery was accepted. *)
From Coq Require Import ZArith List Arith Bool.
Import ListNotations.

Definition chan := list Z.
Definition chan_eqb (a b : chan) : bool := if list_eq_dec Z.eq_dec a b then true else false.

(** ChannelSwitchTypedefs (channels.h:57-69): the multimap of routes, with
    entries of equal key in the order of their insertion (std::multimap), and
    the list of default routes, whose channel may be missing. *)
Definition route := (nat * chan)%type.
Definition dflt := (nat * option chan)%type.

(** The switch and its iterator (channels.h:73-93 and 127-131).  The iterator
    is kept as the routes it has still to visit. *)
Record sw : Type := mksw
  { s_map : list (chan * route); s_def : list dflt; s_it : list route; s_blocked : bool }.

(** ChannelSwitch::ChannelSwitch() (channels.h:99). *)
Definition sw_new : sw := mksw [] [] [] false.

(** What arrives: the destination, the channel there, and what is sent.
    [kind] tells put, flush and series end apart and stands for their
    arguments. *)
Record delivery (M : Type) : Type := mkd { d_to : nat; d_chan : chan; d_what : M }.
Arguments mkd {M} _ _ _.
Arguments d_to {M} _.
Arguments d_chan {M} _.
Arguments d_what {M} _.

(** ChannelRouteIterator::Reset, Destination and Channel
    (channels.cpp:101-143): the routes of the channel, or the default routes
    when it has none; a default route without a channel of its own uses the
    name it is asked for. *)
Definition it_reset (s : sw) (c : chan) : list route :=
  match filter (fun e => chan_eqb (fst e) c) (s_map s) with
  | [] => map (fun e => (fst e, match snd e with Some o => o | None => c end)) (s_def s)
  | l => map snd l
  end.

(** The loop that ChannelPut2, ChannelFlush and ChannelMessageSeriesEnd share
    (channels.cpp:160-171, 193-204, 219-230).  Result: routes left, deliveries
    accepted, blocked, answers left. *)
Fixpoint send {M} (it : list route) (m : M) (answers : list bool)
  : list route * list (delivery M) * bool * list bool :=
  match it with
  | [] => ([], [], false, answers)
  | (d, c) :: it' =>
    match answers with
    | true :: answers' => (it, [], true, answers')
    | _ =>
      let '(r, ds, b, a) := send it' m (tl answers) in (r, mkd d c m :: ds, b, a)
    end
  end.

(** ChannelPut2, ChannelFlush, ChannelMessageSeriesEnd
    (channels.cpp:150-232). *)
Definition put {M} (s : sw) (c : chan) (m : M) (answers : list bool)
  : sw * list (delivery M) * list bool :=
  let it := if s_blocked s then s_it s else it_reset s c in
  let '(r, ds, b, a) := send it m answers in
  (mksw (s_map s) (s_def s) r b, ds, a).

(** ChannelPutModifiable2 (channels.cpp:249-264): a channel with a single
    route is served directly, without looking at m_blocked. *)
Definition put_modifiable {M} (s : sw) (c : chan) (m : M) (answers : list bool)
  : sw * list (delivery M) * list bool :=
  match it_reset s c with
  | [r] =>
    match answers with
    | true :: a => (s, [], a)
    | _ => (s, [mkd (fst r) (snd r) m], tl answers)
    end
  | _ => put s c m answers
  end.

(** Remove the first element that satisfies [p] (the erase loops). *)
Fixpoint erase {A} (p : A -> bool) (l : list A) : list A :=
  match l with
  | [] => []
  | x :: t => if p x then t else x :: erase p t
  end.

(** AddDefaultRoute, RemoveDefaultRoute (channels.cpp:266-294), the forms with
    and without a channel. *)
Definition dflt_eqb (d : nat) (o : option chan) (e : dflt) : bool :=
  (fst e =? d) && match o, snd e with
                  | None, None => true
                  | Some x, Some y => chan_eqb y x
                  | _, _ => false
                  end.
Definition add_default (s : sw) (d : nat) (o : option chan) : sw :=
  mksw (s_map s) (s_def s ++ [(d, o)]) (s_it s) (s_blocked s).
Definition remove_default (s : sw) (d : nat) (o : option chan) : sw :=
  mksw (s_map s) (erase (dflt_eqb d o) (s_def s)) (s_it s) (s_blocked s).

(** AddRoute, RemoveRoute (channels.cpp:296-313). *)
Definition add_route (s : sw) (c : chan) (d : nat) (o : chan) : sw :=
  mksw (s_map s ++ [(c, (d, o))]) (s_def s) (s_it s) (s_blocked s).
Definition remove_route (s : sw) (c : chan) (d : nat) (o : chan) : sw :=
  mksw (erase (fun e => chan_eqb (fst e) c && ((fst (snd e) =? d) && chan_eqb (snd (snd e)) o)) (s_map s))
       (s_def s) (s_it s) (s_blocked s).

(** IsolatedInitialize (channels.cpp:175-181). *)
Definition sw_initialize (s : sw) : sw := mksw [] [] (s_it s) false.

(** The calls. *)
Inductive call (M : Type) : Type :=
| AddDefault (d : nat) (o : option chan)
| RemoveDefault (d : nat) (o : option chan)
| AddRoute (c : chan) (d : nat) (o : chan)
| RemoveRoute (c : chan) (d : nat) (o : chan)
| Initialize
| Send (c : chan) (m : M)
| SendModifiable (c : chan) (m : M).
Arguments AddDefault {M} _ _.
Arguments RemoveDefault {M} _ _.
Arguments AddRoute {M} _ _ _.
Arguments RemoveRoute {M} _ _ _.
Arguments Initialize {M}.
Arguments Send {M} _ _.
Arguments SendModifiable {M} _ _.

Definition step {M} (s : sw) (a : list bool) (k : call M) : sw * list (delivery M) * list bool :=
  match k with
  | AddDefault d o => (add_default s d o, [], a)
  | RemoveDefault d o => (remove_default s d o, [], a)
  | AddRoute c d o => (add_route s c d o, [], a)
  | RemoveRoute c d o => (remove_route s c d o, [], a)
  | Initialize => (sw_initialize s, [], a)
  | Send c m => put s c m a
  | SendModifiable c m => put_modifiable s c m a
  end.

Fixpoint run {M} (s : sw) (a : list bool) (l : list (call M)) : sw * list (list (delivery M)) * list bool :=
  match l with
  | [] => (s, [], a)
  | k :: l =>
    let '(s, ds, a) := step s a k in
    let '(s, r, a) := run s a l in
    (s, ds :: r, a)
  end.
