(** Model of EqualityComparisonFilter (mqueue.cpp:74-171, mqueue.h:96-160), built with
    throwIfNotEqual = false, blocking input, two distinct named channels.  Data on other channels is
    passed on unchanged (mqueue.cpp:91-92) and is left out. *)
From Coq Require Import ZArith List Bool Arith.
From Verif Require Import Base QueueModel.
Import ListNotations.
Local Open Scope Z_scope.

(** mqueue.h:150-156: m_q[2], m_mismatchDetected; [eout] is what the attachment has received. *)
Record ecf := mkE { eqa : mqueue; eqb : mqueue; emis : bool; eout : list Z }.
Definition ecf_new (nodeSize : nat) : ecf := mkE (mq_new nodeSize) (mq_new nodeSize) false [].

Definition beqlist (a b : list Z) : bool :=
  if list_eq_dec Z.eq_dec a b then true else false.

(** cryptlib.cpp:604-612: AnyMessages. *)
Definition mq_anymessages (m : mqueue) : bool := negb (mq_nmessages m =? 0).

(** mqueue.cpp:102-112: compare incoming bytes with the other queue; [None] on mismatch, otherwise the
    remaining input and the other queue.  The outer option is the fuel. *)
Fixpoint ecf_compare (fuel : nat) (d : list Z) (q2 : mqueue) : option (option (list Z * mqueue)) :=
  match fuel with
  | O => None
  | S f =>
    if Nat.ltb 0 (length d) && mq_anyretrievable q2 then
      let data := mq_spy q2 in
      let len := Nat.min (length data) (length d) in
      if beqlist (firstn len d) (firstn len data) then
        ecf_compare f (skipn len d) (fst (fst (mq_transfer q2 (Z.of_nat len))))
      else Some None
    else Some (Some (d, q2))
  end.

(** mqueue.cpp:164-171 *)
Definition ecf_mismatch (s : ecf) (qa qb : mqueue) : ecf := mkE qa qb true (eout s ++ [0]).

(** mqueue.cpp:84-133 with q1 the channel's own queue and q2 the other; the result says whether there
    was a mismatch. [None]: no termination. *)
Definition ecf_put_q (q1 q2 : mqueue) (d : list Z) (messageEnd : bool) : option (mqueue * mqueue * bool) :=
  if mq_anymessages q2 && (mq_maxretrievable q2 <? Z.of_nat (length d)) then Some (q1, q2, true)
  else
    match ecf_compare (S (length d)) d q2 with
    | None => None
    | Some None => Some (q1, q2, true)   (* q2 has been partly read; it is not used any more *)
    | Some (Some (rest, q2')) =>
      match mq_put q1 rest false with
      | None => None
      | Some q1' =>
        if messageEnd then
          if mq_anyretrievable q2' then Some (q1', q2', true)
          else if mq_anymessages q2' then Some (q1', fst (mq_next q2'), false)
          else if 0 <? mq_nseries q2' then Some (q1', q2', true)
          else match mq_put q1' [] true with
               | None => None
               | Some q1'' => Some (q1'', q2', false)
               end
        else Some (q1', q2', false)
      end
    end.

(** [ch = false]: first channel. *)
Definition ecf_put (s : ecf) (ch : bool) (d : list Z) (messageEnd : bool) : option ecf :=
  if emis s then Some s
  else
    let '(q1, q2) := if ch then (eqb s, eqa s) else (eqa s, eqb s) in
    match ecf_put_q q1 q2 d messageEnd with
    | None => None
    | Some (q1', q2', mis) =>
      let '(a, b) := if ch then (q2', q1') else (q1', q2') in
      Some (if mis then ecf_mismatch s a b else mkE a b false (eout s))
    end.

(** mqueue.cpp:135-162 *)
Definition ecf_series (s : ecf) (ch : bool) : ecf :=
  if emis s then s
  else
    let '(q1, q2) := if ch then (eqb s, eqa s) else (eqa s, eqb s) in
    if mq_anyretrievable q2 || mq_anymessages q2 then ecf_mismatch s (eqa s) (eqb s)
    else if 0 <? mq_nseries q2 then mkE (eqa s) (eqb s) false (eout s ++ [1])
    else let q1' := mq_seriesend q1 in
         if ch then mkE (eqa s) q1' false (eout s) else mkE q1' (eqb s) false (eout s).

Inductive eevent :=
| EPut (ch : bool) (d : list Z) (messageEnd : bool)
| ESeriesEnd (ch : bool).
Definition ecf_step (s : ecf) (e : eevent) : option ecf :=
  match e with
  | EPut ch d me => ecf_put s ch d me
  | ESeriesEnd ch => Some (ecf_series s ch)
  end.
Fixpoint ecf_run (s : ecf) (h : list eevent) : option ecf :=
  match h with
  | [] => Some s
  | e :: r => match ecf_step s e with None => None | Some s' => ecf_run s' r end
  end.
