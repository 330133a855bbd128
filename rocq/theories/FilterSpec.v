(** What buffered filters, padding and digest verification should do. *)
From Coq Require Import ZArith List Bool Arith.
From Verif Require Import Base Blocks HashModel FilterModel.
Import ListNotations.
Local Open Scope nat_scope.

(** What is delivered: the first piece, data in the middle (in any number of non-empty pieces that are
    multiples of the block size), the last piece (and whether the first had been delivered), end, flush. *)
Inductive sevent := SFirst (d : list Z) | SMid (d : list Z) | SLast (d : list Z) (done : bool) | SEnd (m : Z) | SFlush.

Section Buffered.
  Variables f b l : nat.   (* firstSize, blockSize, lastSize *)
  (** Of [n] bytes after the first piece, this many can be released: as many blocks as leave [l] bytes. *)
  Definition release (n : nat) : nat := if n <? b + l then 0 else (n - l) / b * b.
  (** The state: was the first piece delivered; what is held back. *)
  Definition spec_put (st : bool * list Z) (d : list Z) (messageEnd : Z) : list sevent * (bool * list Z) :=
    let '(done, p) := st in
    let '(es1, done, p) :=
      if length d =? 0 then ([], done, p)
      else
        let p := p ++ d in
        let '(es, done, p) := if negb done && (f <=? length p) then ([SFirst (firstn f p)], true, skipn f p) else ([], done, p) in
        if done then let k := release (length p) in (es ++ [SMid (firstn k p)], done, skipn k p) else (es, done, p) in
    if (messageEnd =? 0)%Z then (es1, (done, p))
    else (es1 ++ (if negb done && (f =? 0) then [SFirst []] else []) ++ [SLast p done; SEnd messageEnd], (false, [])).
  Definition spec_flush (st : bool * list Z) (hard : bool) : list sevent * (bool * list Z) :=
    let '(done, p) := st in
    if hard && done then let k := length p / b * b in ([SMid (firstn k p); SFlush], (done, skipn k p)) else ([SFlush], st).
  Definition spec_wstep (st : bool * list Z) (op : wop) : list sevent * (bool * list Z) :=
    match op with WPut d e _ => spec_put st d e | WFlush h => spec_flush st h end.
  Fixpoint spec_wrun (st : bool * list Z) (ops : list wop) : list sevent * (bool * list Z) :=
    match ops with
    | [] => ([], st)
    | op :: r => let '(es, st1) := spec_wstep st op in let '(es', st2) := spec_wrun st1 r in (es ++ es', st2)
    end.

  Definition next_ok (e : fstep) : Prop := exists m d, fst e = ENext m d /\ d <> [] /\ length d mod b = 0.
  Definition next_data (e : fstep) : list Z := match fst e with ENext _ d => d | _ => [] end.
  (** The virtual calls made deliver exactly this.  If LastPut throws, the object is left with [P done]. *)
  Inductive delivers (P : bool -> fw -> Prop) : list fstep -> list sevent -> Prop :=
  | d_nil : delivers P [] []
  | d_first : forall d s es ss, delivers P es ss -> delivers P ((EFirst d, s) :: es) (SFirst d :: ss)
  | d_mid : forall ns d es ss, Forall next_ok ns -> concat (map next_data ns) = d -> delivers P es ss -> delivers P (ns ++ es) (SMid d :: ss)
  | d_last : forall d done s es ss, P done s -> delivers P es ss -> delivers P ((ELast d, s) :: es) (SLast d done :: ss)
  | d_end : forall m s es ss, delivers P es ss -> delivers P ((EEnd m, s) :: es) (SEnd m :: ss)
  | d_flush : forall s es ss, delivers P es ss -> delivers P ((EFlush, s) :: es) (SFlush :: ss).

  (** One message: first piece if there is enough, then the middle, then the last piece. *)
  Definition tail_length (n : nat) : nat := if n <=? l then n else l + (n - l) mod b.
  Definition message_events (D : list Z) (messageEnd : Z) (evs : list event) : Prop :=
    if length D <? f then evs = [ELast D; EEnd messageEnd]
    else
      let R := skipn f D in
      let k := length R - tail_length (length R) in
      exists mids, evs = EFirst (firstn f D) :: mids ++ [ELast (skipn k R); EEnd messageEnd] /\
        Forall (fun e => exists m d, e = ENext m d /\ d <> [] /\ length d mod b = 0) mids /\
        concat (map (fun e => match e with ENext _ d => d | _ => [] end) mids) = firstn k R.
End Buffered.

(** Calls without message end, then one with it. *)
Definition message_ops (ds : list (list Z * bool)) (last : list Z * bool) (messageEnd : Z) : list wop :=
  map (fun p => WPut (fst p) 0 (snd p)) ds ++ [WPut (fst last) messageEnd (snd last)].
Definition message_data (ds : list (list Z * bool)) (last : list Z * bool) : list Z := concat (map fst ds) ++ fst last.

(** Bytes sent on, and how a list of calls went: all but the last returned, the last ended with [r]. *)
Fixpoint obytes (os : list oitem) : list Z := match os with OPut d :: r => d ++ obytes r | OEnd _ :: r => obytes r | [] => [] end.
Definition all_items (xs : list (list oitem * outcome)) : list oitem := concat (map fst xs).
Definition all_bytes (xs : list (list oitem * outcome)) : list Z := obytes (all_items xs).
Definition ended (xs : list (list oitem * outcome)) (r : outcome) : Prop :=
  exists ys o, xs = ys ++ [(o, r)] /\ Forall (fun x => snd x = Returns) ys.

(** A message as put into a filter: the pieces before the last, the last, and a nonzero messageEnd. *)
Record message := mkMsg { ms_ds : list (list Z * bool); ms_last : list Z * bool; ms_end : Z }.
Definition ms_ops (m : message) : list wop := message_ops (ms_ds m) (ms_last m) (ms_end m).
Definition ms_data (m : message) : list Z := message_data (ms_ds m) (ms_last m).

(** A transformation that may be called on any multiples of its block size: splitting does not matter. *)
Record stream_ok {C} (o : stream C) (ok : C -> Prop) : Prop := {
  sk_step : forall c d, ok c -> bytes d -> length d mod so_s o = 0 ->
    let '(c', out) := so_process o c d in ok c' /\ bytes out /\ length out = length d;
  sk_nil : forall c, ok c -> so_process o c [] = (c, []);
  sk_app : forall c x y, ok c -> bytes x -> bytes y -> length x mod so_s o = 0 -> length y mod so_s o = 0 ->
    so_process o c (x ++ y) = let '(c1, o1) := so_process o c x in let '(c2, o2) := so_process o c1 y in (c2, o1 ++ o2)
}.
(** Encryption and decryption: [R c c'] means that the two objects are in step. *)
Record cipher_pair {C1 C2} (e : stream C1) (d : stream C2) (ok1 : C1 -> Prop) (ok2 : C2 -> Prop) (R : C1 -> C2 -> Prop) : Prop := {
  cp_enc : stream_ok e ok1;
  cp_dec : stream_ok d ok2;
  cp_s : so_s d = so_s e;
  cp_minlast : so_minlast d = so_minlast e;
  cp_fwd : so_fwd e = true /\ so_fwd d = false;
  cp_rel : forall c c', R c c' -> ok1 c /\ ok2 c';
  cp_inv : forall c c' x, R c c' -> bytes x -> length x mod so_s e = 0 ->
    snd (so_process d c' (snd (so_process e c x))) = x /\ R (fst (so_process e c x)) (fst (so_process d c' (snd (so_process e c x))))
}.
(** The special last block (ciphertext stealing): same length, inverted. *)
Definition last_pair {C1 C2} (e : stream C1) (d : stream C2) (R : C1 -> C2 -> Prop) : Prop :=
  forall c c' t, R c c' -> bytes t -> so_minlast e <= length t -> length t < so_minlast e + so_s e ->
    exists c1 o c2, so_last e c false t = Some (c1, o) /\ length o = length t /\ bytes o /\ so_last d c' false o = Some (c2, t).
(** The attached transformation offers room for a block, and the optimal size leaves room for one. *)
Definition room {C} (o : stream C) (ok : C -> Prop) (opt : nat) (space : nat -> nat) : Prop :=
  (forall n, so_s o <= space n) /\ (forall c, ok c -> so_s o + so_used o c <= opt).

(** Messages sent through an encrypting filter and, in any split, through a decrypting filter. *)
Fixpoint sessions {C1 C2} (h1 : handler C1) (h2 : handler C2) (want : list Z -> list Z) (st1 : fw * C1) (st2 : fw * C2) (ms : list message) : Prop :=
  match ms with
  | [] => True
  | m :: r =>
    let '(xs, st1') := filter_run h1 st1 (ms_ops m) in
    ended xs Returns /\
    forall m', ms_data m' = all_bytes xs -> ms_end m' <> 0%Z ->
      let '(ys, st2') := filter_run h2 st2 (ms_ops m') in
      ended ys Returns /\ all_bytes ys = want (ms_data m) /\ sessions h1 h2 want st1' st2' r
  end.

(** After LastPut threw, the object goes on from an empty queue. *)
Definition resumes (f b l : nat) (done : bool) (s : fw) : Prop :=
  forall ops, delivers b (fun _ _ => True) (fst (fw_run s ops)) (fst (spec_wrun f b l (done, []) ops)).
Definition event_data (e : event) : list Z := match e with EFirst d | ENext _ d | ELast d => d | _ => [] end.

(** A history of messages given to a HashVerificationFilter: [spec] holds of each; [stop]: only until one throws. *)
Fixpoint verifies {T} (h : handler (@hv T)) (stop : bool) (spec : message -> list (list oitem * outcome) -> bool -> Prop)
    (st : fw * @hv T) (ms : list message) : Prop :=
  match ms with
  | [] => True
  | m :: r =>
    let '(xs, st') := filter_run h st (ms_ops m) in
    spec m xs (hv_verified (snd st')) /\ ((stop = true -> ended xs Returns) -> verifies h stop spec st' r)
  end.
(** Accepted or not, and what is sent on. *)
Definition judged (fl : hvflags) (good : Prop) (xs : list (list oitem * outcome)) (verified : bool) : Prop :=
  good /\ verified = true /\ ended xs Returns \/
  ~ good /\ verified = false /\ ended xs (if throw_exception fl then Throws else Returns).
Definition opt (b : bool) (l : list Z) : list Z := if b then l else [].
Definition at_end_spec (fl : hvflags) (n : nat) (hash : list Z -> list Z) (m : message) (xs : list (list oitem * outcome)) (verified : bool) : Prop :=
  let D := ms_data m in let k := length D - n in
  judged fl (n <= length D /\ skipn k D = firstn n (hash (firstn k D))) xs verified /\
  all_bytes xs = opt (put_message fl) (firstn k D) ++ opt (put_hash fl) (skipn k D) ++ opt (put_result fl) [if verified then 1%Z else 0%Z].
Definition at_begin_spec (fl : hvflags) (n : nat) (hash : list Z -> list Z) (m : message) (xs : list (list oitem * outcome)) (verified : bool) : Prop :=
  let D := ms_data m in
  judged fl (firstn n D = firstn n (hash (skipn n D))) xs verified /\
  all_bytes xs = opt (put_hash fl) (firstn n D) ++ opt (put_message fl) (skipn n D) ++ opt (put_result fl) [if verified then 1%Z else 0%Z].

(** Valid paddings of the last block. *)
Definition valid_padding (pad : padding) (s : nat) (blk d : list Z) : Prop :=
  match pad with
  | PKCS_PADDING => exists k, 1 <= k <= s /\ blk = d ++ repeat (Z.of_nat k) k
  | ONE_AND_ZEROS_PADDING => exists k, blk = d ++ 128%Z :: repeat 0%Z k
  | W3C_PADDING => exists fill, blk = d ++ fill ++ [Z.of_nat (length fill + 1)]
  | _ => False
  end.
Definition is_padding (pad : padding) : bool := match pad with NO_PADDING | ZEROS_PADDING => false | _ => true end.
