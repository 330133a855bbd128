(** Secret sharing and information dispersal: ida.cpp, ida.h. *)
From Coq Require Import ZArith List Bool Arith.
From Verif Require Import Base Gf32Model InterpModel.
Import ListNotations.

(* ---------------------------------------------------------------- PaddingRemover *)
(** ida.h:162-178, PaddingRemover: m_possiblePadding, m_zeroCount *)
Record padrm := PadRm { pr_possible : bool; pr_zeros : nat }.
Definition padrm_init : padrm := PadRm false 0.
(** length of the longest all-zero prefix: FindIfNot(begin, end, 0) - begin *)
Fixpoint zero_run (s : list Z) : nat :=
  match s with
  | c :: r => if (c =? 0)%Z then S (zero_run r) else O
  | [] => O
  end.
(** ida.cpp:400-408, the part of Put2 that looks at what is left of the buffer; returns the state and the bytes passed on.
    [x] is one past the last byte that is not zero. *)
Definition padrm_tail (st : padrm) (s : list Z) : padrm * list Z :=
  let x := (length s - zero_run (rev s))%nat in
  if negb (Nat.eqb x 0) && (nth (x - 1) s 0 =? 1)%Z
  then (PadRm true (length s - x), firstn (x - 1) s)
  else (st, s).
(** ida.cpp:378-416, PaddingRemover::Put2, blocking, with messageEnd = 0. The loop of line 394 leaves m_zeroCount wrapped around;
    it is set again before it is next read, so the model puts 0 there. *)
Definition padrm_put (st : padrm) (s : list Z) : padrm * list Z :=
  if pr_possible st then
    let len := zero_run s in
    let zeros := (pr_zeros st + len)%nat in
    match skipn len s with
    | [] => (PadRm true zeros, [])
    | c :: r => let '(st1, o) := padrm_tail (PadRm false 0) r in (st1, 1%Z :: repeat 0%Z zeros ++ c :: o)
    end
  else padrm_tail st s.
(** The same call with messageEnd not 0. Line 413 passes [begin, length] on a second time: [begin] may have been moved by
    lines 389 and 396 while [length] was not, which reads past the buffer: [None]. The flag says whether the end of the
    message was passed on: the return of line 391 forgets it. *)
Definition padrm_put_end (st : padrm) (s : list Z) : option (padrm * list Z * bool) :=
  if pr_possible st && Nat.eqb (length (skipn (zero_run s) s)) 0 then Some (fst (padrm_put st s), [], false)
  else if pr_possible st then None
  else Some (PadRm false (pr_zeros (fst (padrm_put st s))), snd (padrm_put st s) ++ s, true).

(** a history of Put2 calls without the end of the message *)
Fixpoint padrm_run (st : padrm) (ps : list (list Z)) : padrm * list Z :=
  match ps with [] => (st, []) | p :: r => let '(st1, o) := padrm_put st p in let '(st2, o2) := padrm_run st1 r in (st2, o ++ o2) end.

(* ---------------------------------------------------------------- MessageQueue *)
(** mqueue.h:25-97: the messages, oldest first; the last one is still open. The ByteQueue below is the subject of C01-C05. *)
Definition mq := list (list Z).
Definition mq_new : mq := [[]].
Fixpoint mq_put (q : mq) (s : list Z) : mq :=
  match q with
  | [] => [s]
  | [m] => [m ++ s]
  | m :: r => m :: mq_put r s
  end.
Definition mq_end (q : mq) : mq := q ++ [[]].
Definition mq_front (q : mq) : list Z := hd [] q.
Definition mq_messages (q : mq) : nat := (length q - 1)%nat.
(** GetWord32 (cryptlib.cpp:785-825): up to four bytes of the first message, filled up with zeros *)
Definition mq_word (q : mq) : Z := be_val (firstn 4 (mq_front q ++ repeat 0%Z 4)).
Definition mq_skip4 (q : mq) : mq := match q with m :: r => skipn 4 m :: r | [] => [] end.
(** mqueue.cpp:37-48 GetNextMessage *)
Definition mq_next (q : mq) : mq := match q with [] :: m :: r => m :: r | _ => q end.

(* ---------------------------------------------------------------- RawIDA *)
(** What is sent to the attached transformation; [None] is the default channel. *)
Inductive ida_ev :=
| IData (c : option Z) (s : list Z)
| IEnd (c : option Z).
(** Which class: RawIDA itself, SecretRecovery or InformationRecovery with its m_pad *)
Inductive ida_kind := KRaw | KSecret (pad : bool) | KInfo (pad : bool).
(** ida.h:53-64. The input channels with their queues stand for m_inputChannelMap, m_inputChannelIds and m_inputQueues;
    m_lastMapPosition only caches a look-up; m_w, m_v, m_u and m_outputToInput only store what [ida_word] computes.
    [ia_queue] is InformationRecovery::m_queue, [ia_prop] the automatic signal propagation. *)
Record ida := Ida { ia_thr : nat; ia_in : list (Z * mq); ia_ready : nat; ia_fin : nat; ia_outs : list Z; ia_oq : list (list Z); ia_queue : list Z; ia_prop : Z }.
(** ida.cpp:23-54, IsolatedInitialize on a new object with these output channels; a threshold of 0 is refused there *)
Definition ida_init (thr : nat) (outs : list Z) : ida := Ida thr [] 0 0 outs (repeat [] (length outs)) [] (-1).

Fixpoint index_of (c : Z) (l : list Z) : option nat :=
  match l with
  | [] => None
  | a :: r => if (a =? c)%Z then Some O else match index_of c r with Some i => Some (S i) | None => None end
  end.
(** ida.cpp:131-145 and 183-195: the word for output channel o from the words of the input channels *)
Definition ida_word (thr : nat) (ids ys : list Z) (o : Z) : Z :=
  match index_of o ids with
  | Some i => nth i ys 0%Z
  | None => gf_bulk_at ys (gf_prep_at o ids (gf_prep_w ids thr) thr) thr
  end.
(** ida.cpp:177-180: does the queue count as ready for the next round? *)
Definition mq_ready (finished : bool) (q : mq) : bool :=
  if finished then Nat.ltb 0 (length (mq_front q)) else Nat.ltb 0 (mq_messages q) || Nat.leb 4 (length (mq_front q)).
Definition count {A : Type} (f : A -> bool) (l : list A) : nat := length (filter f l).
(** ida.cpp:169-196: the loop; returns the queues, the count of ready channels and one row of output words per round. *)
Fixpoint ida_loop (fuel : nat) (finished : bool) (thr : nat) (outs : list Z) (ins : list (Z * mq)) (ready : nat) : option (list (Z * mq) * nat * list (list Z)) :=
  if negb (if finished then Nat.ltb 0 ready else Nat.eqb ready thr) then Some (ins, ready, []) else
  match fuel with
  | O => None
  | S k =>
      let ids := map fst ins in
      let ys := map (fun p => mq_word (snd p)) ins in
      let ins1 := map (fun p => (fst p, mq_skip4 (snd p))) ins in
      let row := map (ida_word thr ids ys) outs in
      match ida_loop k finished thr outs ins1 (count (fun p => mq_ready finished (snd p)) ins1) with
      | None => None
      | Some (ins2, r2, rows) => Some (ins2, r2, row :: rows)
      end
  end.
(** the bytes PutWord32 adds to the j-th output queue *)
Definition column (j : nat) (rows : list (list Z)) : list Z := concat (map (fun row => be_bytes 4 (nth j row 0%Z)) rows).

Section Kind.
  (** how a ByteQueue cuts its bytes when it hands them over: one piece per node *)
  Variable cut : list Z -> list (list Z).
  (** a new PaddingRemover that gets these pieces and is thrown away *)
  Fixpoint padrm_all (st : padrm) (ps : list (list Z)) : list Z :=
    match ps with
    | [] => []
    | p :: r => let '(st1, o) := padrm_put st p in o ++ padrm_all st1 r
    end.
  (** FlushOutputQueues: ida.cpp:225-229, 291-297 and 352-364. The subtractions of lines 294 and 361 cannot wrap around: the
      function is called only when a row of words has just been added. *)
  Definition ida_flush (k : ida_kind) (a : ida) : ida * list ida_ev :=
    match k with
    | KRaw => (Ida (ia_thr a) (ia_in a) (ia_ready a) (ia_fin a) (ia_outs a) (repeat [] (length (ia_outs a))) (ia_queue a) (ia_prop a),
               map (fun p => IData (Some (fst p)) (snd p)) (combine (ia_outs a) (ia_oq a)))
    | KSecret pad =>
        let q := hd [] (ia_oq a) in
        let n := if pad then (length q - 4)%nat else length q in
        (Ida (ia_thr a) (ia_in a) (ia_ready a) (ia_fin a) (ia_outs a) (skipn n q :: tl (ia_oq a)) (ia_queue a) (ia_prop a), [IData None (firstn n q)])
    | KInfo pad =>
        let q := ia_queue a ++ concat (map (fun i => concat (map (fun j => firstn 1 (skipn i (nth j (ia_oq a) []))) (seq 0 (length (ia_outs a))))) (seq 0 (length (hd [] (ia_oq a))))) in
        let n := if pad then (length q - 4 * ia_thr a)%nat else length q in
        (Ida (ia_thr a) (ia_in a) (ia_ready a) (ia_fin a) (ia_outs a) (map (fun o => skipn (length (hd [] (ia_oq a))) o) (ia_oq a)) (skipn n q) (ia_prop a), [IData None (firstn n q)])
    end.
  (** OutputMessageEnds: ida.cpp:231-238, 299-309 and 366-376 *)
  Definition ida_ends (k : ida_kind) (a : ida) : ida * list ida_ev :=
    let ends := if (ia_prop a =? 0)%Z then [] else [IEnd None] in
    match k with
    | KRaw => (a, if (ia_prop a =? 0)%Z then [] else map (fun c => IEnd (Some c)) (ia_outs a))
    | KSecret true =>
        (Ida (ia_thr a) (ia_in a) (ia_ready a) (ia_fin a) (ia_outs a) ([] :: tl (ia_oq a)) (ia_queue a) (ia_prop a), IData None (padrm_all padrm_init (cut (hd [] (ia_oq a)))) :: ends)
    | KInfo true =>
        (Ida (ia_thr a) (ia_in a) (ia_ready a) (ia_fin a) (ia_outs a) (ia_oq a) [] (ia_prop a), IData None (padrm_all padrm_init (cut (ia_queue a))) :: ends)
    | _ => (a, ends)
    end.
  (** TransferAllTo (cryptlib.cpp:636-718): complete messages with their ends, then what is left *)
  Fixpoint mq_all (c : Z) (q : mq) : list ida_ev :=
    match q with
    | [] => []
    | [m] => if Nat.eqb (length m) 0 then [] else [IData (Some c) m]
    | m :: r => (if Nat.eqb (length m) 0 then [] else [IData (Some c) m]) ++ IEnd (Some c) :: mq_all c r
    end.
  (** ida.cpp:164-223, ProcessInputQueues. Lines 217-221 hand what is left in the input queues to the attached
      transformation, not to this object. *)
  Definition ida_process (k : ida_kind) (a : ida) : option (ida * list ida_ev) :=
    let finished := Nat.eqb (ia_fin a) (ia_thr a) in
    match ida_loop (S (list_sum (map (fun p => length (mq_front (snd p))) (ia_in a)))) finished (ia_thr a) (ia_outs a) (ia_in a) (ia_ready a) with
    | None => None
    | Some (ins, ready, rows) =>
        let oq := map (fun p => snd p ++ column (fst p) rows) (combine (seq 0 (length (ia_oq a))) (ia_oq a)) in
        let a1 := Ida (ia_thr a) ins ready (ia_fin a) (ia_outs a) oq (ia_queue a) (ia_prop a) in
        let '(a2, e2) := if Nat.ltb 0 (length (ia_outs a)) && Nat.ltb 0 (length (hd [] oq)) then ida_flush k a1 else (a1, []) in
        if finished then
          let '(a3, e3) := ida_ends k a2 in
          Some (Ida (ia_thr a) [] 0 0 (ia_outs a) (ia_oq a3) (ia_queue a3) (ia_prop a),
                e2 ++ e3 ++ concat (map (fun p => mq_all (fst p) (mq_next (snd p))) ins))
        else Some (a2, e2)
    end.
  Definition ida_set_ready (a : ida) (r : nat) : ida := Ida (ia_thr a) (ia_in a) r (ia_fin a) (ia_outs a) (ia_oq a) (ia_queue a) (ia_prop a).
  Definition ida_set_queue (a : ida) (i : nat) (f : mq -> mq) : ida :=
    Ida (ia_thr a) (map (fun p => if Nat.eqb (fst p) i then (fst (snd p), f (snd (snd p))) else snd p) (combine (seq 0 (length (ia_in a))) (ia_in a))) (ia_ready a) (ia_fin a) (ia_outs a) (ia_oq a) (ia_queue a) (ia_prop a).
  Definition ida_set_fin (a : ida) (n : nat) : ida := Ida (ia_thr a) (ia_in a) (ia_ready a) n (ia_outs a) (ia_oq a) (ia_queue a) (ia_prop a).
  (** ida.cpp:56-82, InsertInputChannel: the index, or the threshold when there is no room *)
  Definition ida_insert (a : ida) (c : Z) : ida * nat :=
    match index_of c (map fst (ia_in a)) with
    | Some i => (a, i)
    | None =>
        if Nat.eqb (length (ia_in a)) (ia_thr a) then (a, ia_thr a)
        else (Ida (ia_thr a) (ia_in a ++ [(c, mq_new)]) (ia_ready a) (ia_fin a) (ia_outs a) (ia_oq a) (ia_queue a) (ia_prop a), length (ia_in a))
    end.
  Definition ida_queue (a : ida) (i : nat) : mq := snd (nth i (ia_in a) (0%Z, mq_new)).
  (** ida.cpp:93-123, ChannelData *)
  Definition ida_data (k : ida_kind) (a : ida) (c : Z) (s : list Z) (fin : bool) : option (ida * list ida_ev) :=
    let '(a, i) := ida_insert a c in
    if Nat.ltb i (ia_thr a) then
      let size := length (mq_front (ida_queue a i)) in
      let a1 := ida_set_queue a i (fun q => mq_put q s) in
      let r1 :=
        if Nat.ltb size 4 && Nat.leb 4 (size + length s) then
          let a2 := ida_set_ready a1 (S (ia_ready a1)) in
          if Nat.eqb (ia_ready a2) (ia_thr a2) then ida_process k a2 else Some (a2, [])
        else Some (a1, []) in
      match r1 with
      | None => None
      | Some (a3, e3) =>
          if fin then
            let a4 := ida_set_queue a3 i mq_end in
            if Nat.eqb (mq_messages (ida_queue a4 i)) 1 then
              let a5 := ida_set_fin a4 (S (ia_fin a4)) in
              if Nat.eqb (ia_fin a5) (ia_thr a5) then
                let a6 := ida_set_ready a5 (count (fun p => Nat.ltb 0 (length (mq_front (snd p)))) (ia_in a5)) in
                match ida_process k a6 with
                | None => None
                | Some (a7, e7) => Some (a7, e3 ++ e7)
                end
              else Some (a5, e3)
            else Some (a4, e3)
          else Some (a3, e3)
      end
    else Some (a, []).
  (** ida.cpp:125-129, InputBuffered *)
  Definition ida_buffered (a : ida) (c : Z) : nat :=
    match index_of c (map fst (ia_in a)) with
    | Some i => length (mq_front (ida_queue a i))
    | None => 0%nat
    end.
  (** a history of ChannelData calls *)
  Fixpoint ida_run (k : ida_kind) (a : ida) (calls : list (Z * list Z * bool)) : option (ida * list ida_ev) :=
    match calls with
    | [] => Some (a, [])
    | (c, s, fin) :: r =>
        match ida_data k a c s fin with
        | None => None
        | Some (a1, e1) => match ida_run k a1 r with None => None | Some (a2, e2) => Some (a2, e1 ++ e2) end
        end
    end.
  Definition ida_set_prop (a : ida) (p : Z) : ida := Ida (ia_thr a) (ia_in a) (ia_ready a) (ia_fin a) (ia_outs a) (ia_oq a) (ia_queue a) p.

  (* -------------------------------------------------------------- SecretSharing *)
  (** The random generator: [rnd i n] is what the i-th call of GenerateBlock returns for n bytes. *)
  Variable rnd : nat -> nat -> list Z.
  Definition secret_channel : Z := 4294967295.
  (** m_ida, m_pad and the number of calls of the generator *)
  Record sshare := SShare { sh_ida : ida; sh_pad : bool; sh_calls : nat }.
  (** ida.cpp:259-263: one random block for each of the channels from i on *)
  Fixpoint share_random (a : ida) (calls i n len : nat) : option (ida * list ida_ev) :=
    match n with
    | O => Some (a, [])
    | S m =>
        match ida_data KRaw a (Z.of_nat i) (rnd calls len) false with
        | None => None
        | Some (a1, e1) => match share_random a1 (S calls) (S i) m len with None => None | Some (a2, e2) => Some (a2, e1 ++ e2) end
        end
    end.
  (** ida.cpp:255-266: the loop over pieces of at most [size] bytes *)
  Fixpoint share_loop (fuel : nat) (s : sshare) (size : nat) (msg : list Z) : option (sshare * list ida_ev) :=
    match msg with
    | [] => Some (s, [])
    | _ =>
        match fuel with
        | O => None
        | S k =>
            let len := Nat.min (length msg) size in
            match ida_data KRaw (sh_ida s) secret_channel (firstn len msg) false with
            | None => None
            | Some (a1, e1) =>
                let n := (ia_thr a1 - 1)%nat in
                match share_random a1 (sh_calls s) 0 n len with
                | None => None
                | Some (a2, e2) =>
                    match share_loop k (SShare a2 (sh_pad s) (sh_calls s + n)) size (skipn len msg) with
                    | None => None
                    | Some (s3, e3) => Some (s3, e1 ++ e2 ++ e3)
                    end
                end
            end
        end
    end.
  (** SecretSharing::Put2 without the end of the message *)
  Definition share_put (s : sshare) (msg : list Z) : option (sshare * list ida_ev) := share_loop (length msg) s (Nat.min 256 (length msg)) msg.
  (** ida.cpp:274-275: zeros until the queue of the secret is empty *)
  Fixpoint share_zeros (fuel : nat) (s : sshare) : option (sshare * list ida_ev) :=
    if Nat.ltb 0 (ida_buffered (sh_ida s) secret_channel) then
      match fuel with
      | O => None
      | S k =>
          match share_put s [0%Z] with
          | None => None
          | Some (s1, e1) => match share_zeros k s1 with None => None | Some (s2, e2) => Some (s2, e1 ++ e2) end
          end
      end
    else Some (s, []).
  Fixpoint share_ends (a : ida) (i n : nat) : option (ida * list ida_ev) :=
    match n with
    | O => Some (a, [])
    | S m =>
        match ida_data KRaw a (Z.of_nat i) [] true with
        | None => None
        | Some (a1, e1) => match share_ends a1 (S i) m with None => None | Some (a2, e2) => Some (a2, e1 ++ e2) end
        end
    end.
  (** ida.cpp:248-283, SecretSharing::Put2, blocking *)
  Definition share_put2 (s : sshare) (msg : list Z) (messageEnd : Z) : option (sshare * list ida_ev) :=
    match share_put s msg with
    | None => None
    | Some (s1, e1) =>
        if (messageEnd =? 0)%Z then Some (s1, e1) else
        let s1 := SShare (ida_set_prop (sh_ida s1) (messageEnd - 1)) (sh_pad s1) (sh_calls s1) in
        let r :=
          if sh_pad s1 then
            match share_put s1 [1%Z] with
            | None => None
            | Some (s2, e2) => match share_zeros 4 s2 with None => None | Some (s3, e3) => Some (s3, e2 ++ e3) end
            end
          else Some (s1, []) in
        match r with
        | None => None
        | Some (s2, e2) =>
            match ida_data KRaw (sh_ida s2) secret_channel [] true with
            | None => None
            | Some (a3, e3) =>
                match share_ends a3 0 (ia_thr a3 - 1) with
                | None => None
                | Some (a4, e4) => Some (SShare a4 (sh_pad s2) (sh_calls s2), e1 ++ e2 ++ e3 ++ e4)
                end
            end
        end
    end.
  (** a history of Put2 calls *)
  Fixpoint share_run (s : sshare) (calls : list (list Z * Z)) : option (sshare * list ida_ev) :=
    match calls with
    | [] => Some (s, [])
    | (msg, e) :: r =>
        match share_put2 s msg e with
        | None => None
        | Some (s1, e1) => match share_run s1 r with None => None | Some (s2, e2) => Some (s2, e1 ++ e2) end
        end
    end.
  (** the shares are channels 0 .. n-1 (ida.cpp:49-54) *)
  Definition share_init (thr n : nat) (pad : bool) : sshare := SShare (ida_init thr (map Z.of_nat (seq 0 n))) pad 0.
  (** SecretRecovery: ida.cpp:285-289, the one output channel is the secret's *)
  Definition recovery_init (thr : nat) : ida := ida_init thr [secret_channel].

  (* -------------------------------------------------------------- InformationDispersal *)
  (** m_ida, m_pad, m_nextChannel *)
  Record disperse := Disperse { di_ida : ida; di_pad : bool; di_next : nat }.
  Definition disperse_init (thr n : nat) (pad : bool) : disperse := Disperse (ida_init thr (map Z.of_nat (seq 0 n))) pad 0.
  (** ida.cpp:325-332: the bytes go to the channels in turn *)
  Fixpoint disperse_put (d : disperse) (msg : list Z) : option (disperse * list ida_ev) :=
    match msg with
    | [] => Some (d, [])
    | b :: r =>
        match ida_data KRaw (di_ida d) (Z.of_nat (di_next d)) [b] false with
        | None => None
        | Some (a1, e1) =>
            match disperse_put (Disperse a1 (di_pad d) (if Nat.eqb (S (di_next d)) (ia_thr a1) then 0 else S (di_next d))) r with
            | None => None
            | Some (d2, e2) => Some (d2, e1 ++ e2)
            end
        end
    end.
  (** ida.cpp:320-344, InformationDispersal::Put2, blocking *)
  Definition disperse_put2 (d : disperse) (msg : list Z) (messageEnd : Z) : option (disperse * list ida_ev) :=
    match disperse_put d msg with
    | None => None
    | Some (d1, e1) =>
        if (messageEnd =? 0)%Z then Some (d1, e1) else
        let d1 := Disperse (ida_set_prop (di_ida d1) (messageEnd - 1)) (di_pad d1) (di_next d1) in
        match (if di_pad d1 then disperse_put d1 [1%Z] else Some (d1, [])) with
        | None => None
        | Some (d2, e2) =>
            match share_ends (di_ida d2) 0 (ia_thr (di_ida d2)) with
            | None => None
            | Some (a3, e3) => Some (Disperse a3 (di_pad d2) (di_next d2), e1 ++ e2 ++ e3)
            end
        end
    end.
  (** a history of Put2 calls *)
  Fixpoint disperse_run (d : disperse) (calls : list (list Z * Z)) : option (disperse * list ida_ev) :=
    match calls with
    | [] => Some (d, [])
    | (msg, e) :: r =>
        match disperse_put2 d msg e with
        | None => None
        | Some (d1, e1) => match disperse_run d1 r with None => None | Some (d2, e2) => Some (d2, e1 ++ e2) end
        end
    end.
  (** InformationRecovery: ida.cpp:346-350, output channels 0 .. thr-1 *)
  Definition info_recovery_init (thr : nat) : ida := ida_init thr (map Z.of_nat (seq 0 thr)).
End Kind.
