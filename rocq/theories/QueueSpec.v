(** Specification of a byte queue and of a message queue: plain byte strings. *)
From Coq Require Import ZArith List Bool Arith.
From Verif Require Import Base QueueModel.
Import ListNotations.
Local Open Scope Z_scope.

(** An abstract byte queue: the bytes in order, of which the last [undoable] come from the most recent
    LazyPut and can still be taken back. *)
Record aqueue := mkA { content : list Z; undoable : nat }.

Definition take (n : Z) (l : list Z) : list Z := firstn (Z.to_nat n) l.
Definition drop (n : Z) (l : list Z) : list Z := skipn (Z.to_nat n) l.

(** Removing the first [n] bytes. *)
Definition removed (a : aqueue) (n : Z) : aqueue :=
  mkA (drop n (content a)) (Nat.min (undoable a) (length (drop n (content a)))).

(** [spec_step a op r a']: operation [op] on [a] may answer [r] and leave [a']. *)
Definition spec_step (a : aqueue) (op : qop) (r : qres) (a' : aqueue) : Prop :=
  let s := content a in
  match op with
  | QPut d => r = RUnit /\ a' = mkA (s ++ d) 0
  | QPutSpace want d _ =>
      exists k, r = RCount (Z.of_nat k) /\ (k <= length d)%nat /\ (d <> [] -> (0 < k)%nat) /\
        a' = mkA (s ++ firstn k d) 0
  | QLazyPut _ d => r = RUnit /\ a' = mkA (s ++ d) (length d)
  | QUndoLazyPut n =>
      if Nat.ltb (undoable a) n then r = RInvalidArgument /\ a' = a
      else r = RUnit /\ a' = mkA (firstn (length s - n) s) (undoable a - n)
  | QFinalize => r = RUnit /\ a' = mkA s 0
  | QGetByte => r = RByte (hd_error s) /\ a' = removed a 1
  | QGet n => r = RBytes (take n s) (Z.of_nat (length (take n s))) /\ a' = removed a n
  | QGetNB n k =>
      (* some prefix is delivered; all of it when the target never blocks *)
      exists m, 0 <= m <= n /\ (k = None -> m = n) /\
        r = RBytes (take m s) (Z.of_nat (length (take m s))) /\ a' = removed a m
  | QUnget d => r = RUnit /\ a' = mkA (d ++ s) (undoable a)
  | QClear | QInit _ => r = RUnit /\ a' = mkA [] 0
  | QCurrentSize => r = RCount (Z.of_nat (length s)) /\ a' = a
  | QIsEmpty => r = RBool (Nat.eqb (length s) 0) /\ a' = a
  | QPeekByte => r = RByte (hd_error s) /\ a' = a
  | QPeek n => r = RBytes (take n s) (Z.of_nat (length (take n s))) /\ a' = a
  | QCopyRange p n =>
      let out := take n (drop p s) in r = RBytes out (Z.of_nat (length out)) /\ a' = a
  | QAt i => r = (match nth_error s (Z.to_nat i) with Some b => RByte (Some b) | None => RUndefined end)
             /\ a' = a
  | QSpy => (* a prefix, not empty unless the queue is *)
      exists n, r = RBytes (take n s) (Z.of_nat (length (take n s))) /\ 0 <= n /\
        (s <> [] -> 0 < n) /\ a' = a
  end.

Definition spec_pstep (s : aqueue * aqueue) (op : pop) (r : qres) (s' : aqueue * aqueue) : Prop :=
  let '(a, b) := s in
  match op with
  | P1 o => exists a', spec_step a o r a' /\ s' = (a', b)
  | P2 o => exists b', spec_step b o r b' /\ s' = (a, b')
  | PAssign => r = RUnit /\ s' = (mkA (content b) 0, b)
  | PSwap => r = RUnit /\ s' = (b, a)
  | PEqual => exists e, r = RBool e /\ (e = true <-> content a = content b) /\ s' = s
  end.

Inductive spec_run : aqueue * aqueue -> list pop -> list qres -> Prop :=
| spec_nil : forall s, spec_run s [] []
| spec_cons : forall s op r s' ops rs,
    spec_pstep s op r s' -> spec_run s' ops rs -> spec_run s (op :: ops) (r :: rs).

Definition empty_aqueue := mkA [] 0.

(** Arguments the C++ types allow. Re-initialising with NodeSize 0 is excluded (see the refuted theorem). *)
Definition lword (n : Z) : Prop := 0 <= n < 2 ^ 64.
Definition ok_qop (op : qop) : Prop :=
  match op with
  | QGet n | QGetNB n _ | QPeek n | QAt n => lword n
  | QCopyRange p m => lword p /\ lword m
  | QInit (Some n) => (n <> 0)%nat
  | _ => True
  end.
Definition ok_pop (op : pop) : Prop :=
  match op with P1 o | P2 o => ok_qop o | _ => True end.
(** Abstract message queue: complete messages waiting (the first one may already be partly read) and
    the message being written. *)
Record amq := mkAM { done : list (list Z); open : list Z }.
Definition amq_current (a : amq) : list Z := match done a with m :: _ => m | [] => open a end.
Definition amq_set (a : amq) (l : list Z) : amq :=
  match done a with _ :: r => mkAM (l :: r) (open a) | [] => mkAM [] l end.

Definition spec_mstep (a : amq) (op : mop) (r : mres) (a' : amq) : Prop :=
  let cur := amq_current a in
  match op with
  | MPut d e => r = MUnit /\
      a' = (if e then mkAM (done a ++ [open a ++ d]) [] else mkAM (done a) (open a ++ d))
  | MSeriesEnd => r = MUnit /\ a' = a
  | MInit _ => r = MUnit /\ a' = mkAM [] []
  | MGet n => r = MBytes (take n cur) (Z.of_nat (length (take n cur))) /\ a' = amq_set a (drop n cur)
  | MNext => match done a with
             | [] :: rest => r = MBool true /\ a' = mkAM rest (open a)
             | _ => r = MBool false /\ a' = a
             end
  | MMax => r = MNum (Z.of_nat (length cur)) /\ a' = a
  | MTotal => r = MNum (Z.of_nat (length (concat (done a) ++ open a))) /\ a' = a
  | MCount => r = MNum (Z.of_nat (length (done a))) /\ a' = a
  | MCopyRange p n => let out := take n (drop p cur) in
      r = MBytes out (Z.of_nat (length out)) /\ a' = a
  | MCopyMessages c => r = MMsgs (firstn (Z.to_nat c) (done a)) /\ a' = a
  | MSpy => exists n, r = MBytes (take n cur) (Z.of_nat (length (take n cur))) /\ 0 <= n /\
      (cur <> [] -> 0 < n) /\ a' = a
  | MSeriesCount | MInSeries => a' = a   (* the answer is the subject of a separate property *)
  end.

Inductive spec_mrun : amq -> list mop -> list mres -> Prop :=
| spec_mnil : forall a, spec_mrun a [] []
| spec_mcons : forall a op r a' ops rs,
    spec_mstep a op r a' -> spec_mrun a' ops rs -> spec_mrun a (op :: ops) (r :: rs).

Definition ok_mop (op : mop) : Prop :=
  match op with
  | MGet n => lword n
  | MCopyRange p n => lword p /\ lword n /\ lword (p + n)
  | MInit (Some n) => (n <> 0)%nat
  | _ => True
  end.
