(** Model of ByteQueue (queue.cpp, queue.h) and MessageQueue (mqueue.cpp, mqueue.h).
    Transcribed function by function.  Pointers are replaced by list positions: the singly linked
    list of nodes is a Coq list whose last element is the tail node.  The bytes of a freshly
    allocated buffer are unspecified in C++; they are zero here and no theorem depends on them. *)
From Coq Require Import ZArith List Bool Arith.
From Verif Require Import Base.
Import ListNotations.
Local Open Scope Z_scope.

(** lword is a 64-bit unsigned integer (config_int.h:lword). *)
Definition lmod (x : Z) : Z := x mod 2 ^ 64.
Definition LWORD_MAX : Z := 2 ^ 64 - 1.

(* ---------------------------------------------------------------- ByteQueueNode, queue.cpp:17-134 *)

(** queue.cpp:130-133: m_buf, m_head, m_tail. *)
Record node := mkNode { nbuf : list Z; nhd : nat; ntl : nat }.

(** queue.cpp:20-28: constructor. *)
Definition node_new (maxSize : nat) : node := mkNode (repeat 0 maxSize) 0 0.
(** queue.cpp:30 *)
Definition node_max (n : node) : nat := length (nbuf n).
(** queue.cpp:32-35 *)
Definition node_size (n : node) : nat := (ntl n - nhd n)%nat.
(** queue.cpp:37-40 *)
Definition node_usedup (n : node) : bool := Nat.eqb (nhd n) (node_max n).
(** queue.cpp:42-45 *)
Definition node_clear (n : node) : node := mkNode (nbuf n) 0 0.
(** memcpy of [d] to offset [o] of a buffer. *)
Definition blit (o : nat) (d buf : list Z) : list Z :=
  firstn o buf ++ d ++ skipn (o + length d) buf.
(** queue.cpp:47-56: Put; returns the node and the number of bytes taken.  [begin] is non-null here. *)
Definition node_put (n : node) (d : list Z) : node * nat :=
  let l := Nat.min (length d) (node_max n - ntl n) in
  (mkNode (blit (ntl n) (firstn l d) (nbuf n)) (nhd n) (ntl n + l), l).
(** The [len] bytes from m_buf+m_head+off. *)
Definition node_bytes (n : node) (off len : nat) : list Z := firstn len (skipn (nhd n + off) (nbuf n)).
(** queue.cpp:58-65: Peek(byte&). *)
Definition node_peek (n : node) : option Z :=
  if Nat.eqb (ntl n) (nhd n) then None else Some (nth (nhd n) (nbuf n) 0).
(** queue.cpp:88-93: Get(byte&). *)
Definition node_get (n : node) : node * option Z :=
  match node_peek n with
  | None => (n, None)
  | Some b => (mkNode (nbuf n) (S (nhd n)) (ntl n), Some b)
  end.
(** queue.cpp:110-116: TransferTo with a limit; returns the node and the bytes delivered. *)
Definition node_transfer (n : node) (transferMax : Z) : node * list Z :=
  let len := Z.to_nat (Z.min (Z.of_nat (node_size n)) transferMax) in
  (mkNode (nbuf n) (nhd n + len) (ntl n), node_bytes n 0 len).
(** queue.cpp:125-128: operator[]. *)
Definition node_at (n : node) (i : nat) : Z := nth (nhd n + i) (nbuf n) 0.

(* ---------------------------------------------------------------- ByteQueue *)

(** queue.h:200-215: m_head..m_tail as a list, m_lazyString/m_lazyLength as the list of the lazy bytes,
    m_nodeSize, m_lazyStringModifiable, m_autoNodeSize. *)
Record queue := mkQ { qnodes : list node; qlazy : list Z; qnsize : nat; qlazymod : bool; qauto : bool }.

(** queue.cpp:14: s_maxAutoNodeSize = 16*1024. *)
Definition maxAutoNodeSize : nat := Nat.pow 2 14.

(** queue.cpp:138-154: constructor and SetNodeSize. *)
Definition setNodeSize_size (nodeSize : nat) : nat := if Nat.eqb nodeSize 0 then 256%nat else nodeSize.
Definition q_new (nodeSize : nat) : queue :=
  let s := setNodeSize_size nodeSize in
  mkQ [node_new s] [] s false (Nat.eqb nodeSize 0).

Definition qhead (q : queue) : node := hd (node_new 0) (qnodes q).
Definition qtail (q : queue) : node := last (qnodes q) (node_new 0).
Definition set_head (q : queue) (n : node) : queue :=
  mkQ (n :: tl (qnodes q)) (qlazy q) (qnsize q) (qlazymod q) (qauto q).
Definition set_nodes (q : queue) (l : list node) : queue :=
  mkQ l (qlazy q) (qnsize q) (qlazymod q) (qauto q).

(** queue.cpp:200-208 *)
Definition q_size (q : queue) : Z :=
  fold_left (fun s n => s + Z.of_nat (node_size n)) (qnodes q) 0 + Z.of_nat (length (qlazy q)).
(** queue.cpp:210-213 *)
Definition q_isempty (q : queue) : bool :=
  Nat.eqb (length (qnodes q)) 1 && Nat.eqb (node_size (qhead q)) 0 && Nat.eqb (length (qlazy q)) 0.
(** queue.cpp:215-227 *)
Definition q_clear (q : queue) : queue :=
  mkQ [node_clear (qhead q)] [] (qnsize q) (qlazymod q) (qauto q).
(** queue.cpp:194-198: IsolatedInitialize; the parameter NodeSize defaults to 256. *)
Definition q_init (nodeSizeParam : option nat) (q : queue) : queue :=
  let s := match nodeSizeParam with Some n => n | None => 256%nat end in
  q_clear (mkQ (qnodes q) (qlazy q) s (qlazymod q) (qauto q)).

(** queue.cpp:241-245: the do-while loop that doubles m_nodeSize; [None] when out of fuel. *)
Fixpoint grow (fuel : nat) (ns len : nat) : option nat :=
  match fuel with
  | O => None
  | S f =>
    let ns' := (ns * 2)%nat in
    if Nat.ltb ns' len && Nat.ltb ns' maxAutoNodeSize then grow f ns' len else Some ns'
  end.
Definition grow_fuel : nat := 20.

(** queue.cpp:236-251: the loop of Put2, on the list of nodes; [None]: does not terminate. *)
Fixpoint put_loop (fuel : nat) (nodes : list node) (ns : nat) (auto : bool) (d : list Z)
  : option (list node * nat) :=
  match fuel with
  | O => None
  | S f =>
    let '(t, len) := node_put (last nodes (node_new 0)) d in
    let nodes' := removelast nodes ++ [t] in
    if Nat.ltb len (length d) then
      let d' := skipn len d in
      match (if auto && Nat.ltb ns maxAutoNodeSize then grow grow_fuel ns (length d') else Some ns) with
      | None => None
      | Some ns' => put_loop f (nodes' ++ [node_new (Nat.max ns' (length d'))]) ns' auto d'
      end
    else Some (nodes', ns)
  end.

(** queue.cpp:229-254 Put2 after the lazy string has been dealt with. The loop runs at most twice, as
    a new node is at least as large as the remaining data. *)
Definition put_raw (q : queue) (d : list Z) : option queue :=
  match put_loop 3 (qnodes q) (qnsize q) (qauto q) d with
  | None => None
  | Some (nodes, ns) => Some (mkQ nodes (qlazy q) ns (qlazymod q) (qauto q))
  end.
(** queue.cpp:303-309: m_lazyLength becomes 0 before Put is called, so Put does not recurse further. *)
Definition q_finalize (q : queue) : option queue :=
  match qlazy q with
  | [] => Some q
  | d => put_raw (mkQ (qnodes q) [] (qnsize q) (qlazymod q) (qauto q)) d
  end.
(** queue.cpp:229-254 *)
Definition q_put (q : queue) (d : list Z) : option queue :=
  match q_finalize q with
  | None => None
  | Some q1 => put_raw q1 d
  end.

(** queue.cpp:256-269: CleanupUsedNodes on the list of nodes (the last node is m_tail). *)
Fixpoint cleanup (l : list node) : list node :=
  match l with
  | [] => []
  | n :: rest =>
    match rest with
    | [] => if Nat.eqb (node_size n) 0 then [node_clear n] else [n]
    | _ :: _ => if node_usedup n then cleanup rest
                else (if Nat.eqb (node_size n) 0 then node_clear n else n) :: rest
    end
  end.

(** queue.cpp:271-284: LazyPut of a string that is not the queue's own put space. *)
Definition q_lazyput (q : queue) (modifiable : bool) (d : list Z) : option queue :=
  match q_finalize q with
  | None => None
  | Some q1 => Some (mkQ (qnodes q1) d (qnsize q1) modifiable (qauto q1))
  end.
(** queue.cpp:295-301: UndoLazyPut; [None]: InvalidArgument thrown. *)
Definition q_undo (q : queue) (size : nat) : option queue :=
  if Nat.ltb (length (qlazy q)) size then None
  else Some (mkQ (qnodes q) (firstn (length (qlazy q) - size) (qlazy q)) (qnsize q) (qlazymod q) (qauto q)).

(** queue.cpp:311-327: Get(byte&). *)
Definition q_getbyte (q : queue) : queue * option Z :=
  match node_get (qhead q) with
  | (n, Some b) =>
    let q1 := set_head q n in
    ((if node_usedup n then set_nodes q1 (cleanup (qnodes q1)) else q1), Some b)
  | (_, None) =>
    match qlazy q with
    | b :: r => (mkQ (qnodes q) r (qnsize q) (qlazymod q) (qauto q), Some b)
    | [] => (q, None)
    end
  end.
(** queue.cpp:335-346: Peek(byte&). *)
Definition q_peekbyte (q : queue) : option Z :=
  match node_peek (qhead q) with
  | Some b => Some b
  | None => match qlazy q with b :: _ => Some b | [] => None end
  end.

(** queue.cpp:361-362: the loop over the nodes in the blocking TransferTo2; returns the nodes, the
    bytes delivered and bytesLeft. *)
Fixpoint transfer_nodes (l : list node) (bytesLeft : Z) : list node * list Z * Z :=
  match l with
  | [] => ([], [], bytesLeft)
  | n :: rest =>
    if bytesLeft =? 0 then (n :: rest, [], 0)
    else
      let '(n', out) := node_transfer n bytesLeft in
      let '(rest', out', lft) := transfer_nodes rest (bytesLeft - Z.of_nat (length out)) in
      (n' :: rest', out ++ out', lft)
  end.
(** queue.cpp:354-379: TransferTo2, blocking.  The target is any sink that takes what it is given;
    returns the queue, the bytes delivered and transferBytes. *)
Definition q_transfer (q : queue) (transferBytes : Z) : queue * list Z * Z :=
  let '(nodes1, out, lft) := transfer_nodes (qnodes q) transferBytes in
  let nodes2 := cleanup nodes1 in
  let len := Z.to_nat (Z.min lft (Z.of_nat (length (qlazy q)))) in
  (mkQ nodes2 (skipn len (qlazy q)) (qnsize q) (qlazymod q) (qauto q),
   out ++ firstn len (qlazy q), transferBytes - (lft - Z.of_nat len)).

(* ---------------------------------------------------------------- ByteQueue::Walker *)

(** queue.h:189-195; [wnodes] are the nodes from m_node on. *)
Record walker := mkW { wnodes : list node; wpos : Z; woff : nat; wlazy : list Z; wqueue : queue }.
(** queue.cpp:507-516 *)
Definition w_new (q : queue) : walker := mkW (qnodes q) 0 0 (qlazy q) q.
(** queue.h:175-176 *)
Definition w_maxretrievable (w : walker) : Z := lmod (q_size (wqueue w) - wpos w).
(** queue.h:173 *)
Definition w_position (w : walker) : Z := wpos w.

(** queue.cpp:548-569: the loop over the nodes.  The target takes its first [k] Put2 calls and blocks
    on the next one ([None]: never blocks); a call that blocks is not counted as transferred.
    Returns the walker fields, the bytes accepted, bytesLeft, the remaining number of accepted calls
    and whether the function jumped to [done]. *)
Definition target := option nat.
Definition t_put (k : target) : option target :=
  match k with None => Some None | Some O => None | Some (S m) => Some (Some m) end.
Fixpoint w_loop (l : list node) (pos : Z) (off : nat) (bytesLeft : Z) (k : target)
  : list node * Z * nat * list Z * Z * target * bool :=
  match l with
  | [] => ([], pos, off, [], bytesLeft, k, false)
  | n :: rest =>
    let len := Z.to_nat (Z.min bytesLeft (Z.of_nat (node_size n - off))) in
    match t_put k with
    | None => (n :: rest, pos, off, [], bytesLeft, k, true)
    | Some k' =>
      let out := node_bytes n off len in
      let pos' := pos + Z.of_nat len in
      let lft' := bytesLeft - Z.of_nat len in
      if lft' =? 0 then (n :: rest, pos', (off + len)%nat, out, lft', k', true)
      else
        let '(r, p, o, out', lf, k'', d) := w_loop rest pos' 0 lft' k' in
        (r, p, o, out ++ out', lf, k'', d)
    end
  end.
(** queue.cpp:541-585: Walker::TransferTo2; returns the walker, bytes accepted, transferBytes. *)
Definition w_transfer (w : walker) (transferBytes : Z) (k : target) : walker * list Z * Z :=
  let '(r, p, o, out, lft, k', done) := w_loop (wnodes w) (wpos w) (woff w) transferBytes k in
  if done then (mkW r p o (wlazy w) (wqueue w), out, transferBytes - lft)
  else if negb (lft =? 0) && negb (Nat.eqb (length (wlazy w)) 0) then
    let len := Z.to_nat (Z.min lft (Z.of_nat (length (wlazy w)))) in
    match t_put k' with
    | None => (mkW r p o (wlazy w) (wqueue w), out, transferBytes - lft)
    | Some _ => (mkW r p o (skipn len (wlazy w)) (wqueue w), out ++ firstn len (wlazy w),
                 transferBytes - (lft - Z.of_nat len))
    end
  else (mkW r p o (wlazy w) (wqueue w), out, transferBytes - lft).

(** queue.cpp:380-386: TransferTo2, non-blocking: walk, then Skip what was accepted
    (cryptlib.cpp:574-582: Skip is a blocking transfer to a bit bucket). *)
Definition q_transfer_nb (q : queue) (transferBytes : Z) (k : target) : queue * list Z * Z :=
  let '(_, out, tb) := w_transfer (w_new q) transferBytes k in
  let '(q', _, _) := q_transfer q tb in
  (q', out, tb).

(** queue.cpp:389-398: CopyRangeTo2; returns the bytes copied and the new value of [begin].  The
    subtraction and the addition are modulo 2^64. *)
Definition q_copyrange2 (q : queue) (begin end_ : Z) : list Z * Z :=
  let '(w1, _, _) := w_transfer (w_new q) begin None in
  let '(_, out, tb) := w_transfer w1 (lmod (end_ - begin)) None in
  (out, lmod (begin + tb)).
(** cryptlib.h:2031-2032: CopyRangeTo(target, position, copyMax); returns the bytes and the count. *)
Definition q_copyrange (q : queue) (position copyMax : Z) : list Z * Z :=
  let '(out, i) := q_copyrange2 q position (lmod (position + copyMax)) in
  (out, lmod (i - position)).
(** queue.cpp:348-352: Peek(byte*, size_t) through CopyTo (cryptlib.h:2018-2019). *)
Definition q_peek (q : queue) (peekMax : Z) : list Z := fst (q_copyrange q 0 peekMax).

(** queue.cpp:405-422: Unget. *)
Definition q_unget (q : queue) (d : list Z) : queue :=
  let h := qhead q in
  let len := Nat.min (length d) (nhd h) in
  let rest := (length d - len)%nat in
  let h' := mkNode (blit (nhd h - len) (skipn rest d) (nbuf h)) (nhd h - len) (ntl h) in
  let q1 := set_head q h' in
  if Nat.ltb 0 rest then set_nodes q1 (fst (node_put (node_new rest) (firstn rest d)) :: qnodes q1)
  else q1.

(** queue.cpp:424-434: Spy; the contiguous bytes returned. *)
Definition q_spy (q : queue) : list Z :=
  let h := qhead q in
  if Nat.eqb (node_size h) 0 && Nat.ltb 0 (length (qlazy q)) then qlazy q
  else node_bytes h 0 (node_size h).

(** queue.cpp:436-454: CreatePutSpace; returns the queue and the size of the space. *)
Definition q_putspace (q : queue) (size : nat) : option (queue * nat) :=
  match q_finalize q with
  | None => None
  | Some q1 =>
    let t := qtail q1 in
    let q2 := if Nat.eqb (ntl t) (node_max t)
              then set_nodes q1 (qnodes q1 ++ [node_new (Nat.max (qnsize q1) size)]) else q1 in
    Some (q2, (node_max (qtail q2) - ntl (qtail q2))%nat)
  end.
(** The caller stores [d] in the put space (at m_tail->m_buf + m_tail->m_tail). *)
Definition q_store (q : queue) (d : list Z) : queue :=
  let t := qtail q in
  set_nodes q (removelast (qnodes q) ++ [mkNode (blit (ntl t) d (nbuf t)) (nhd t) (ntl t)]).
(** queue.cpp:52-54, 271-277: Put or LazyPut of the put space itself: no copy is made, the tail index
    moves over the bytes already in place.  The number of bytes is at most the space. *)
Definition q_put_inplace (q : queue) (len : nat) : queue :=
  let t := qtail q in
  set_nodes q (removelast (qnodes q) ++ [mkNode (nbuf t) (nhd t) (ntl t + len)]).

(** queue.cpp:162-178: CopyFrom (copy constructor, and operator= of a different queue 456-461);
    m_lazyStringModifiable is lft as it was. *)
Definition q_copyfrom (old_mod : bool) (copy : queue) : option queue :=
  q_put (mkQ (qnodes copy) [] (qnsize copy) old_mod (qauto copy)) (qlazy copy).

(** queue.cpp:518-522: Walker::Get(byte&). *)
Definition w_getbyte (w : walker) : walker * option Z :=
  let '(w', out, _) := w_transfer w 1 None in
  (w', match out with b :: _ => Some b | [] => None end).
(** queue.cpp:463-478: operator==; [None]: the loop ran out of fuel. *)
Fixpoint eq_loop (fuel : nat) (w1 w2 : walker) : option bool :=
  match fuel with
  | O => None
  | S f =>
    let '(w1', b1) := w_getbyte w1 in
    match b1 with
    | None => Some true
    | Some x =>
      let '(w2', b2) := w_getbyte w2 in
      match b2 with
      | None => Some true
      | Some y => if x =? y then eq_loop f w1' w2' else Some false
      end
    end
  end.
Definition q_eq (q1 q2 : queue) : option bool :=
  if q_size q1 =? q_size q2 then eq_loop (S (Z.to_nat (q_size q1))) (w_new q1) (w_new q2)
  else Some false.

(** queue.cpp:480-492: operator[]; [None]: read outside the lazy string. *)
Fixpoint at_nodes (l : list node) (index : Z) (lazy : list Z) : option Z :=
  match l with
  | [] => if index <? Z.of_nat (length lazy) then Some (nth (Z.to_nat index) lazy 0) else None
  | n :: rest => if index <? Z.of_nat (node_size n) then Some (node_at n (Z.to_nat index))
                 else at_nodes rest (index - Z.of_nat (node_size n)) lazy
  end.
Definition q_at (q : queue) (index : Z) : option Z := at_nodes (qnodes q) index (qlazy q).

(* ---------------------------------------------------------------- operations as data *)

Inductive qop :=
| QPut (d : list Z)                     (* Put(d) *)
| QPutSpace (want : nat) (d : list Z) (lazy : bool)
    (* CreatePutSpace(want); as much of d as fits is stored there, then Put or LazyPut of it *)
| QLazyPut (modifiable : bool) (d : list Z)
| QUndoLazyPut (n : nat)
| QFinalize
| QGetByte
| QGet (n : Z)                          (* TransferTo / Get(byte-star, n) / Skip: blocking *)
| QGetNB (n : Z) (k : target)           (* TransferTo2 non-blocking *)
| QUnget (d : list Z)
| QClear
| QInit (nodeSize : option nat)
| QCurrentSize | QIsEmpty | QPeekByte
| QPeek (n : Z)
| QCopyRange (position copyMax : Z)
| QAt (i : Z)
| QSpy.

Inductive qres :=
| RUnit | RCount (n : Z) | RBool (b : bool) | RByte (b : option Z)
| RBytes (l : list Z) (n : Z)
| RInvalidArgument                      (* exception *)
| RUndefined                            (* read outside the queue *)
| RDiverges.                            (* the call never returns *)

Definition ret_put (q : queue) (o : option queue) (r : qres) : queue * qres :=
  match o with Some q' => (q', r) | None => (q, RDiverges) end.

Definition q_step (q : queue) (op : qop) : queue * qres :=
  match op with
  | QPut d => ret_put q (q_put q d) RUnit
  | QPutSpace want d lazy =>
      match q_putspace q want with
      | None => (q, RDiverges)
      | Some (q1, space) =>
          let d' := firstn space d in
          (q_put_inplace (q_store q1 d') (length d'), RCount (Z.of_nat (length d')))
      end
  | QLazyPut m d => ret_put q (q_lazyput q m d) RUnit
  | QUndoLazyPut n => match q_undo q n with Some q' => (q', RUnit) | None => (q, RInvalidArgument) end
  | QFinalize => ret_put q (q_finalize q) RUnit
  | QGetByte => let '(q', r) := q_getbyte q in (q', RByte r)
  | QGet n => let '(q', out, tb) := q_transfer q n in (q', RBytes out tb)
  | QGetNB n k => let '(q', out, tb) := q_transfer_nb q n k in (q', RBytes out tb)
  | QUnget d => (q_unget q d, RUnit)
  | QClear => (q_clear q, RUnit)
  | QInit n => (q_init n q, RUnit)
  | QCurrentSize => (q, RCount (q_size q))
  | QIsEmpty => (q, RBool (q_isempty q))
  | QPeekByte => (q, RByte (q_peekbyte q))
  | QPeek n => (q, RBytes (q_peek q n) (Z.of_nat (length (q_peek q n))))
  | QCopyRange p m => let '(out, n) := q_copyrange q p m in (q, RBytes out n)
  | QAt i => (q, match q_at q i with Some b => RByte (Some b) | None => RUndefined end)
  | QSpy => (q, RBytes (q_spy q) (Z.of_nat (length (q_spy q))))
  end.

(** Two queues, to exercise assignment, swap and comparison as well. *)
Inductive pop :=
| P1 (op : qop) | P2 (op : qop)
| PAssign                               (* q1 = q2 *)
| PSwap                                 (* q1.swap(q2), queue.cpp:494-503 *)
| PEqual.                               (* q1 == q2 *)
Definition p_step (s : queue * queue) (op : pop) : (queue * queue) * qres :=
  let '(a, b) := s in
  match op with
  | P1 o => let '(a', r) := q_step a o in ((a', b), r)
  | P2 o => let '(b', r) := q_step b o in ((a, b'), r)
  | PAssign => match q_copyfrom (qlazymod a) b with Some a' => ((a', b), RUnit) | None => (s, RDiverges) end
  | PSwap => ((b, a), RUnit)
  | PEqual => (s, match q_eq a b with Some e => RBool e | None => RDiverges end)
  end.
Fixpoint p_run (s : queue * queue) (ops : list pop) : list qres :=
  match ops with
  | [] => []
  | op :: rest => let '(s', r) := p_step s op in r :: p_run s' rest
  end.

(* ---------------------------------------------------------------- MessageQueue *)

(** mqueue.h:91-93.  m_lengths holds lwords, m_messageCounts unsigned ints. *)
Record mqueue := mkMQ { mq_q : queue; mq_lengths : list Z; mq_counts : list Z }.
(** mqueue.cpp:11-14 *)
Definition mq_new (nodeSize : nat) : mqueue := mkMQ (q_new nodeSize) [0] [0].
(** Add to the last element of a deque. *)
Fixpoint add_back (x : Z) (l : list Z) : list Z :=
  match l with [] => [] | [a] => [a + x] | a :: r => a :: add_back x r end.
Definition front (l : list Z) : Z := hd 0 l.
(** mqueue.h:35-46; the lword and unsigned additions are not reduced (bounded by memory). *)
Definition mq_put (m : mqueue) (d : list Z) (messageEnd : bool) : option mqueue :=
  match q_put (mq_q m) d with
  | None => None
  | Some q' =>
    let l1 := add_back (Z.of_nat (length d)) (mq_lengths m) in
    Some (if messageEnd then mkMQ q' (l1 ++ [0]) (add_back 1 (mq_counts m))
          else mkMQ q' l1 (mq_counts m))
  end.
(** mqueue.h:49-50 *)
Definition mq_seriesend (m : mqueue) : mqueue := mkMQ (mq_q m) (mq_lengths m) (mq_counts m ++ [0]).
(** mqueue.h:33-34 *)
Definition mq_init (ns : option nat) (m : mqueue) : mqueue := mkMQ (q_init ns (mq_q m)) [0] [0].
(** mqueue.h:52-69 *)
Definition mq_maxretrievable (m : mqueue) : Z := front (mq_lengths m).
Definition mq_anyretrievable (m : mqueue) : bool := 0 <? front (mq_lengths m).
Definition mq_totalbytes (m : mqueue) : Z := q_size (mq_q m).
Definition mq_nmessages (m : mqueue) : Z := Z.of_nat (length (mq_lengths m)) - 1.
Definition mq_nmessages_series (m : mqueue) : Z := front (mq_counts m).
Definition mq_nseries (m : mqueue) : Z := Z.of_nat (length (mq_counts m)) - 1.
(** mqueue.cpp:16-22 *)
Definition mq_copyrange2 (m : mqueue) (begin end_ : Z) : list Z * Z :=
  if mq_maxretrievable m <=? begin then ([], begin)
  else q_copyrange2 (mq_q m) begin (Z.min (mq_maxretrievable m) end_).
(** cryptlib.h:2031-2032 *)
Definition mq_copyrange (m : mqueue) (position copyMax : Z) : list Z * Z :=
  let '(out, i) := mq_copyrange2 m position (lmod (position + copyMax)) in
  (out, lmod (i - position)).
(** mqueue.cpp:24-30, blocking. *)
Definition mq_transfer (m : mqueue) (transferBytes : Z) : mqueue * list Z * Z :=
  let t := Z.min (mq_maxretrievable m) transferBytes in
  let '(q', out, tb) := q_transfer (mq_q m) t in
  (mkMQ q' ((front (mq_lengths m) - tb) :: tl (mq_lengths m)) (mq_counts m), out, tb).
(** mqueue.cpp:32-43 *)
Definition mq_next (m : mqueue) : mqueue * bool :=
  if (0 <? mq_nmessages m) && negb (mq_anyretrievable m) then
    (mkMQ (mq_q m) (tl (mq_lengths m))
       (if (front (mq_counts m) =? 0) && Nat.ltb 1 (length (mq_counts m)) then tl (mq_counts m)
        else mq_counts m), true)
  else (m, false).
(** mqueue.cpp:45-57: CopyMessagesTo; the messages delivered to the target, in order.  The target
    receives a message end after each when auto signal propagation is not 0. *)
Fixpoint copy_messages (w : walker) (lengths : list Z) (count : Z) : list (list Z) :=
  match lengths with
  | [] => []
  | l :: rest =>
    match rest with
    | [] => []
    | _ :: _ =>
      if 0 <? count then
        let '(w', out, _) := w_transfer w l None in out :: copy_messages w' rest (count - 1)
      else []
    end
  end.
Definition mq_copymessages (m : mqueue) (count : Z) : list (list Z) :=
  copy_messages (w_new (mq_q m)) (mq_lengths m) count.
(** mqueue.cpp:59-63 *)
Definition mq_swap (a b : mqueue) : mqueue * mqueue :=
  (mkMQ (mq_q b) (mq_lengths b) (mq_counts a), mkMQ (mq_q a) (mq_lengths a) (mq_counts b)).
(** mqueue.cpp:65-70 *)
Definition mq_spy (m : mqueue) : list Z :=
  firstn (Z.to_nat (mq_maxretrievable m)) (q_spy (mq_q m)).

Inductive mop :=
| MPut (d : list Z) (messageEnd : bool)
| MSeriesEnd
| MInit (ns : option nat)
| MGet (n : Z)
| MNext
| MMax | MTotal | MCount
| MCopyRange (position copyMax : Z)
| MCopyMessages (count : Z)
| MSpy
| MSeriesCount | MInSeries.
Inductive mres :=
| MUnit | MNum (n : Z) | MBool (b : bool) | MBytes (l : list Z) (n : Z) | MMsgs (l : list (list Z))
| MDiverges.
Definition m_step (m : mqueue) (op : mop) : mqueue * mres :=
  match op with
  | MPut d e => match mq_put m d e with Some m' => (m', MUnit) | None => (m, MDiverges) end
  | MSeriesEnd => (mq_seriesend m, MUnit)
  | MInit ns => (mq_init ns m, MUnit)
  | MGet n => let '(m', out, tb) := mq_transfer m n in (m', MBytes out tb)
  | MNext => let '(m', b) := mq_next m in (m', MBool b)
  | MMax => (m, MNum (mq_maxretrievable m))
  | MTotal => (m, MNum (mq_totalbytes m))
  | MCount => (m, MNum (mq_nmessages m))
  | MCopyRange p c => let '(out, n) := mq_copyrange m p c in (m, MBytes out n)
  | MCopyMessages c => (m, MMsgs (mq_copymessages m c))
  | MSpy => (m, MBytes (mq_spy m) (Z.of_nat (length (mq_spy m))))
  | MSeriesCount => (m, MNum (mq_nseries m))
  | MInSeries => (m, MNum (mq_nmessages_series m))
  end.
Fixpoint m_run (m : mqueue) (ops : list mop) : list mres :=
  match ops with
  | [] => []
  | op :: rest => let '(m', r) := m_step m op in r :: m_run m' rest
  end.
