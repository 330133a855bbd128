(** Model of FilterWithBufferedInput with its BlockQueue, of StreamTransformationFilter, HashFilter and
    HashVerificationFilter (filters.cpp, filters.h).

    Sizes are natural numbers (overflow of size_t is left out); input is blocking (a non-blocking call
    throws BlockingInputOnly before anything happens, filters.cpp:349-350); the attached transformation
    takes everything at once. *)
From Coq Require Import ZArith List Bool Arith.
From Verif Require Import Base Blocks Mem HashModel ModesModel.
Import ListNotations.
Local Open Scope nat_scope.

(* -------------------------------------------------------------------- BlockQueue *)

(** filters.h:431-447: m_buffer, m_blockSize, m_maxBlocks, m_size, m_begin (as an offset into m_buffer). *)
Record bq := mkBQ { bq_buf : list Z; bq_bs : nat; bq_max : nat; bq_size : nat; bq_begin : nat }.
Definition bq_cap (q : bq) : nat := length (bq_buf q).
(** filters.cpp:249-256; New leaves the memory unspecified, the model writes zeros. *)
Definition bq_reset (bs max : nat) : bq := mkBQ (repeat 0%Z (bs * max)) bs max 0 0.
(** filters.cpp:258-270; [None]: the null pointer.  The block is what the pointer points to. *)
Definition bq_get_block (q : bq) : option (list Z) * bq :=
  if bq_bs q <=? bq_size q then
    let b := bq_begin q + bq_bs q in
    (Some (firstn (bq_bs q) (skipn (bq_begin q) (bq_buf q))),
     mkBQ (bq_buf q) (bq_bs q) (bq_max q) (bq_size q - bq_bs q) (if b =? bq_cap q then 0 else b))
  else (None, q).
(** filters.cpp:272-281: the bytes, whose number is the new numberOfBytes *)
Definition bq_contig (q : bq) (n : nat) : list Z * bq :=
  let n := Nat.min n (Nat.min (bq_cap q - bq_begin q) (bq_size q)) in
  let b := bq_begin q + n in
  let size := bq_size q - n in
  (firstn n (skipn (bq_begin q) (bq_buf q)),
   mkBQ (bq_buf q) (bq_bs q) (bq_max q) size (if (size =? 0) || (b =? bq_cap q) then 0 else b)).
(** filters.cpp:283-295 with an output buffer of CurrentSize() bytes: null (nothing is done) if that is 0. *)
Definition bq_get_all (q : bq) : list Z * bq :=
  if bq_size q =? 0 then ([], q)
  else
    let '(a, q1) := bq_contig q (bq_max q * bq_bs q) in
    (a ++ firstn (bq_size q1) (skipn (bq_begin q1) (bq_buf q1)), mkBQ (bq_buf q1) (bq_bs q1) (bq_max q1) 0 (bq_begin q1)).
(** filters.cpp:297-310 *)
Definition bq_put (q : bq) (d : list Z) : bq :=
  if length d =? 0 then q
  else
    let e := if bq_size q <? bq_cap q - bq_begin q then bq_begin q + bq_size q else bq_begin q + bq_size q - bq_cap q in
    let len := Nat.min (length d) (bq_cap q - e) in
    let buf := write e (firstn len d) (bq_buf q) in
    let buf := if len <? length d then write 0 (skipn len d) buf else buf in
    mkBQ buf (bq_bs q) (bq_max q) (bq_size q + length d) (bq_begin q).

(* -------------------------------------------------------------------- FilterWithBufferedInput *)

(** filters.h:449-451 *)
Record fw := mkFW { fw_first : nat; fw_bs : nat; fw_last : nat; fw_done : bool; fw_q : bq }.
(** The virtual functions called, with their data; [EEnd]: Output(1, NULL, 0, messageEnd); [EFlush]: FlushDerived. *)
Inductive event := EFirst (d : list Z) | ENext (modifiable : bool) (d : list Z) | ELast (d : list Z) | EEnd (messageEnd : Z) | EFlush.
(** A call of a virtual function together with this class's fields at that moment (what is left of the
    object if the function throws). *)
Definition fstep := (event * fw)%type.
(** filters.cpp:317-324; the sizes are valid. *)
Definition fw_new (f b l : nat) : fw := mkFW f b l false (bq_reset 1 f).
Definition set_q (s : fw) (q : bq) : fw := mkFW (fw_first s) (fw_bs s) (fw_last s) (fw_done s) q.

(** filters.cpp:373-379 *)
Fixpoint fw_loop1 (fuel : nat) (s : fw) (n : nat) : list fstep * fw * nat :=
  match fuel with
  | O => ([], s, n)
  | S k =>
    if (fw_last s <? n) && (0 <? bq_size (fw_q s)) then
      let '(d, q) := bq_contig (fw_q s) (n - fw_last s) in
      let s' := set_q s q in
      let '(es, s2, n2) := fw_loop1 k s' (n - length d) in ((ENext true d, s') :: es, s2, n2)
    else ([], s, n)
  end.
(** filters.cpp:391-395 *)
Fixpoint fw_loop2 (fuel : nat) (s : fw) (n : nat) : list fstep * fw * nat :=
  match fuel with
  | O => ([], s, n)
  | S k =>
    if (fw_bs s + fw_last s <=? n) && (fw_bs s <=? bq_size (fw_q s)) then
      match bq_get_block (fw_q s) with
      | (Some d, q) => let s' := set_q s q in
                       let '(es, s2, n2) := fw_loop2 k s' (n - fw_bs s) in ((ENext true d, s') :: es, s2, n2)
      | (None, _) => ([], s, n)
      end
    else ([], s, n)
  end.
(** filters.cpp:356-368: the first block is complete.  GetContigousBlocks takes m_firstSize by reference. *)
Definition fw_put_first (s : fw) (inp : list Z) (n : nat) : list fstep * fw * list Z * nat :=
  let len := fw_first s - bq_size (fw_q s) in
  let '(d, q) := bq_contig (bq_put (fw_q s) (firstn len inp)) (fw_first s) in
  let f := length d in
  ([(EFirst d, mkFW f (fw_bs s) (fw_last s) (fw_done s) q)],
   mkFW f (fw_bs s) (fw_last s) true (bq_reset (fw_bs s) ((2 * fw_bs s + fw_last s - 2) / fw_bs s)),
   skipn len inp, n - f).
(** filters.cpp:372-387 *)
Definition fw_put_stream (s : fw) (inp : list Z) (n : nat) (modifiable : bool) : list fstep * fw * list Z * nat :=
  let '(es, s, n) := fw_loop1 (bq_size (fw_q s)) s n in
  if fw_last s <? n then
    let len := n - fw_last s in
    (es ++ [(ENext modifiable (firstn len inp), s)], s, skipn len inp, n - len)
  else (es, s, inp, n).
(** filters.cpp:388-413 *)
Definition fw_put_blocks (s : fw) (inp : list Z) (n : nat) (modifiable : bool) : list fstep * fw * list Z * nat :=
  let '(es, s, n) := fw_loop2 (bq_size (fw_q s)) s n in
  let '(es', s, inp, n) :=
    if (fw_bs s + fw_last s <=? n) && (0 <? bq_size (fw_q s)) then
      let len := fw_bs s - bq_size (fw_q s) in
      match bq_get_block (bq_put (fw_q s) (firstn len inp)) with
      | (Some d, q) => let s' := set_q s q in ([(ENext true d, s')], s', skipn len inp, n - fw_bs s)
      | (None, _) => ([], s, inp, n)
      end
    else ([], s, inp, n) in
  if fw_bs s + fw_last s <=? n then
    let len := (n - fw_last s) / fw_bs s * fw_bs s in
    (es ++ es' ++ [(ENext modifiable (firstn len inp), s)], s, skipn len inp, n - len)
  else (es ++ es', s, inp, n).
(** filters.cpp:352-417: length != 0 *)
Definition fw_put_data (s : fw) (inp : list Z) (modifiable : bool) : list fstep * fw :=
  let n := bq_size (fw_q s) + length inp in
  let '(es1, s, inp, n) := if negb (fw_done s) && (fw_first s <=? n) then fw_put_first s inp n else ([], s, inp, n) in
  let '(es2, s, inp, n) :=
    if fw_done s then if fw_bs s =? 1 then fw_put_stream s inp n modifiable else fw_put_blocks s inp n modifiable
    else ([], s, inp, n) in
  (es1 ++ es2, set_q s (bq_put (fw_q s) (firstn (n - bq_size (fw_q s)) inp))).
(** filters.cpp:419-434 *)
Definition fw_message_end (s : fw) (messageEnd : Z) : list fstep * fw :=
  let es := if negb (fw_done s) && (fw_first s =? 0) then [(EFirst [], s)] else [] in
  let '(temp, q) := bq_get_all (fw_q s) in
  let s1 := set_q s q in
  let s2 := mkFW (fw_first s) (fw_bs s) (fw_last s) false (bq_reset 1 (fw_first s)) in
  (es ++ [(ELast temp, s1); (EEnd messageEnd, s2)], s2).
(** filters.cpp:347-436 *)
Definition fw_put (s : fw) (inp : list Z) (messageEnd : Z) (modifiable : bool) : list fstep * fw :=
  let '(es1, s) := if length inp =? 0 then ([], s) else fw_put_data s inp modifiable in
  let '(es2, s) := if (messageEnd =? 0)%Z then ([], s) else fw_message_end s messageEnd in
  (es1 ++ es2, s).
(** filters.cpp:443-447 *)
Fixpoint fw_force2 (fuel : nat) (s : fw) : list fstep * fw :=
  match fuel with
  | O => ([], s)
  | S k =>
    if fw_bs s <=? bq_size (fw_q s) then
      match bq_get_block (fw_q s) with
      | (Some d, q) => let s' := set_q s q in let '(es, s2) := fw_force2 k s' in ((ENext true d, s') :: es, s2)
      | (None, _) => ([], s)
      end
    else ([], s)
  end.
(** filters.cpp:448-453 *)
Fixpoint fw_force1 (fuel : nat) (s : fw) : list fstep * fw :=
  match fuel with
  | O => ([], s)
  | S k =>
    if 0 <? bq_size (fw_q s) then
      let '(d, q) := bq_contig (fw_q s) (bq_size (fw_q s)) in
      let s' := set_q s q in let '(es, s2) := fw_force1 k s' in ((ENext true d, s') :: es, s2)
    else ([], s)
  end.
(** filters.cpp:438-454: ForceNextPut *)
Definition fw_force (s : fw) : list fstep * fw :=
  if fw_done s then
    if 1 <? fw_bs s then fw_force2 (bq_size (fw_q s)) s else fw_force1 (bq_size (fw_q s)) s
  else ([], s).
(** filters.cpp:335-345: IsolatedFlush *)
Definition fw_flush (s : fw) (hard : bool) : list fstep * fw :=
  let '(es, s) := if hard then fw_force s else ([], s) in (es ++ [(EFlush, s)], s).

Inductive wop := WPut (d : list Z) (messageEnd : Z) (modifiable : bool) | WFlush (hard : bool).
Definition fw_step (s : fw) (op : wop) : list fstep * fw :=
  match op with WPut d e m => fw_put s d e m | WFlush h => fw_flush s h end.
Fixpoint fw_run (s : fw) (ops : list wop) : list fstep * fw :=
  match ops with
  | [] => ([], s)
  | op :: r => let '(es, s1) := fw_step s op in let '(es', s2) := fw_run s1 r in (es ++ es', s2)
  end.

(** A derived class: its state, what a virtual function does to it, what it sends to the attached
    transformation, and whether it returns, throws, or reads memory it may not read. *)
Inductive outcome := Returns | Throws | Undefined.
Inductive oitem := OPut (d : list Z) | OEnd (messageEnd : Z).
Definition handler T := T -> event -> T * list oitem * outcome.
(** Running the calls in order up to the first that does not return; [Some s]: the base class's fields then. *)
Fixpoint exec {T} (h : handler T) (t : T) (es : list fstep) : T * list oitem * outcome * option fw :=
  match es with
  | [] => (t, [], Returns, None)
  | (e, s) :: r =>
    let '(t', o, res) := h t e in
    match res with
    | Returns => let '(t2, o2, res2, x) := exec h t' r in (t2, o ++ o2, res2, x)
    | _ => (t', o, res, Some s)
    end
  end.
(** One call of the filter: base class fields, derived state, output, outcome. *)
Definition filter_step {T} (h : handler T) (st : fw * T) (op : wop) : (fw * T) * (list oitem * outcome) :=
  let '(s, t) := st in
  let '(es, s') := fw_step s op in
  let '(t', o, res, x) := exec h t es in
  ((match x with Some sx => sx | None => s' end, t'), (o, res)).
Fixpoint filter_run {T} (h : handler T) (st : fw * T) (ops : list wop) : list (list oitem * outcome) * (fw * T) :=
  match ops with
  | [] => ([], st)
  | op :: r => let '(st1, x) := filter_step h st op in let '(xs, st2) := filter_run h st1 r in (x :: xs, st2)
  end.

(* -------------------------------------------------------------------- StreamTransformationFilter *)

(** cryptlib.h StreamTransformation: MandatoryBlockSize, MinLastBlockSize, IsForwardTransformation,
    ProcessData, ProcessLastBlock (the flag: output to the input's place; [None]: an exception), GetOptimalBlockSizeUsed. *)
Record stream C := mkSO {
  so_s : nat; so_minlast : nat; so_fwd : bool;
  so_process : C -> list Z -> C * list Z; so_last : C -> bool -> list Z -> option (C * list Z); so_used : C -> nat
}.
Arguments so_s {C}. Arguments so_minlast {C}. Arguments so_fwd {C}. Arguments so_process {C}. Arguments so_last {C}. Arguments so_used {C}.
(** cryptlib.cpp:217-231: ProcessLastBlock unless overridden, called with outLength = inLength *)
Definition default_last {C} (s : nat) (process : C -> list Z -> C * list Z) (c : C) (inplace : bool) (d : list Z) : option (C * list Z) :=
  if length d =? s then Some (process c d) else if length d =? 0 then Some (c, []) else None.

(** filters.h:470-489 *)
Inductive padding := NO_PADDING | ZEROS_PADDING | PKCS_PADDING | ONE_AND_ZEROS_PADDING | W3C_PADDING.
Section StreamFilter.
  Context {C : Type} (o : stream C).
  Variable pad : padding.
  Variable opt : nat.             (* m_optimalBufferSize *)
  Variable space : nat -> nat.    (* the bufferSize HelpCreatePutSpace returns, given the remaining length *)

  (** filters.cpp:622-630 *)
  Definition last_block_size : nat :=
    if 0 <? so_minlast o then so_minlast o
    else if (1 <? so_s o) && negb (so_fwd o) && match pad with NO_PADDING | ZEROS_PADDING => false | _ => true end then so_s o
    else 0.
  (** filters.cpp:632-655: the combinations refused with InvalidArgument *)
  Definition padding_allowed : bool :=
    ((1 <? so_s o) && (so_minlast o =? 0)) || match pad with NO_PADDING | ZEROS_PADDING => true | _ => false end.
  Definition sf_new : fw := fw_new 0 (so_s o) last_block_size.

  (** filters.cpp:663-687 *)
  Fixpoint sf_multiple (fuel : nat) (c : C) (d : list Z) : C * list oitem :=
    match fuel with
    | O => (c, [])
    | S k =>
      if length d =? 0 then (c, [])
      else
        let len := space (length d) in
        let len := if len <? length d then
                     let len := if len =? opt then len - so_used o c else len in len / so_s o * so_s o
                   else length d in
        let '(c1, out) := so_process o c (firstn len d) in
        let '(c2, outs) := sf_multiple k c1 (skipn len d) in (c2, OPut out :: outs)
    end.
  (** filters.cpp:757-782: the block handed to the cipher in the forward direction *)
  Definition pad_block (d : list Z) : list Z :=
    let s := so_s o in
    match pad with
    | PKCS_PADDING => d ++ repeat (Z.of_nat (s - length d) mod 256)%Z (s - length d)
    | W3C_PADDING => d ++ repeat 0%Z (s - length d - 1) ++ [(Z.of_nat (s - length d) mod 256)%Z]
    | _ => d ++ 128%Z :: repeat 0%Z (s - length d - 1)
    end.
  (** FindIfNot(first, last, v) == last *)
  Definition all_equal (v : Z) (l : list Z) : bool := forallb (fun x => Z.eqb x v) l.
  (** filters.cpp:811-812: while (length > 1 && space[length-1] == 0) --length; *)
  Fixpoint strip_zeros (blk : list Z) (length : nat) : nat :=
    match length with
    | O => O
    | S k => if (1 <? length) && (nth k blk 0 =? 0)%Z then strip_zeros blk k else length
    end.
  (** filters.cpp:790-818: the length of the data in the last decrypted block; [None]: InvalidCiphertext *)
  Definition unpad_length (blk : list Z) : option nat :=
    let s := so_s o in
    match pad with
    | PKCS_PADDING =>
      let p := nth (s - 1) blk 0%Z in
      if (p <? 1)%Z || (Z.of_nat s <? p)%Z || negb (all_equal p (skipn (s - Z.to_nat p) blk)) then None
      else Some (s - Z.to_nat p)
    | W3C_PADDING =>
      let p := nth (s - 1) blk 0%Z in
      if (p <? 1)%Z || (Z.of_nat s <? p)%Z then None else Some (s - Z.to_nat p)
    | _ =>
      let len := strip_zeros blk s in
      if negb (nth (len - 1) blk 0 =? 128)%Z then None else Some (len - 1)
    end.
  (** filters.cpp:695-823: LastPut (IsLastBlockSpecial() is false); the zero padded block is processed in place
      (line 763), other last blocks to another buffer (line 777). *)
  Definition sf_last (c : C) (d : list Z) : C * list oitem * outcome :=
    let put r := match r with Some (c', out) => (c', [OPut out], Returns) | None => (c, [], Throws) end in
    match pad with
    | NO_PADDING | ZEROS_PADDING =>
      if length d =? 0 then (c, [], Returns)
      else
        let zeros := match pad with ZEROS_PADDING => true | _ => false end in
        if so_fwd o && zeros && ((so_minlast o =? 0) || (length d <? so_minlast o)) then
          let bs := Nat.max (so_minlast o) (so_s o) in put (so_last o c true (d ++ repeat 0%Z (bs - length d)))
        else if so_minlast o =? 0 then (c, [], Throws)
        else put (so_last o c false d)
    | _ =>
      if so_fwd o then
        let '(c', out) := so_process o c (pad_block d) in (c', [OPut out], Returns)
      else if negb (length d =? so_s o) then (c, [], Throws)
      else
        let '(c', blk) := so_process o c d in
        match unpad_length blk with
        | None => (c', [], Throws)
        | Some n => (c', [OPut (firstn n blk)], Returns)
        end
    end.
  (** FirstPut (filters.cpp:657-661) only enlarges m_optimalBufferSize, which is arbitrary here. *)
  Definition sf_handler : handler C := fun c e =>
    match e with
    | EFirst _ | EFlush => (c, [], Returns)
    | ENext true d => let '(c', out) := so_process o c d in (c', [OPut out], Returns)
    | ENext false d => let '(c', out) := sf_multiple (length d) c d in (c', out, Returns)
    | ELast d => sf_last c d
    | EEnd m => (c, [OEnd m], Returns)
    end.
End StreamFilter.

(** The block modes as the filter sees them: cryptlib.h:1086-1160 (MandatoryBlockSize, MinLastBlockSize, no
    GetOptimalBlockSizeUsed), modes.h:271-352.  ProcessData works in place here; modes.h:309, 340:
    ciphertext stealing has MinLastBlockSize = BlockSize() + 1 and its own ProcessLastBlock. *)
Definition zero_mem : mem := fun _ => 0%Z.
Definition ecb_stream (E : list Z -> list Z) (bs : nat) (fwd : bool) : stream unit :=
  let process (c : unit) d := (c, load (ecb_process E bs (store zero_mem 0 d) 0 0 (length d)) 0 (length d)) in
  mkSO unit bs 0 fwd process (default_last bs process) (fun _ => 0).
Definition cbc_enc_process (E : list Z -> list Z) (bs : nat) (reg d : list Z) : list Z * list Z :=
  let '(m, reg') := cbc_encrypt E bs (store zero_mem 0 d) reg 0 0 (length d) in (reg', load m 0 (length d)).
Definition cbc_dec_process (D : list Z -> list Z) (bs : nat) (reg d : list Z) : list Z * list Z :=
  let '(m, reg') := cbc_decrypt D bs (store zero_mem 0 d) reg 0 0 (length d) in (reg', load m 0 (length d)).
Definition cbc_enc_stream (E : list Z -> list Z) (bs : nat) : stream (list Z) :=
  mkSO _ bs 0 true (cbc_enc_process E bs) (default_last bs (cbc_enc_process E bs)) (fun _ => 0).
Definition cbc_dec_stream (D : list Z -> list Z) (bs : nat) : stream (list Z) :=
  mkSO _ bs 0 false (cbc_dec_process D bs) (default_last bs (cbc_dec_process D bs)) (fun _ => 0).
Definition cts_enc_stream (E : list Z -> list Z) (bs : nat) : stream (list Z) :=
  mkSO _ bs (bs + 1) true (cbc_enc_process E bs)
    (fun reg inplace d =>
       let out := if inplace : bool then 0%Z else Z.of_nat (length d) in
       match cts_encrypt_last E bs (store zero_mem 0 d) reg None out 0 (length d) with
       | Some (m, reg') => Some (reg', load m out (length d))
       | None => None end) (fun _ => 0).
Definition cts_dec_stream (D : list Z -> list Z) (bs : nat) : stream (list Z) :=
  mkSO _ bs (bs + 1) false (cbc_dec_process D bs)
    (fun reg inplace d =>
       let out := if inplace : bool then 0%Z else Z.of_nat (length d) in
       Some (reg, load (cts_decrypt_last D bs (store zero_mem 0 d) reg out 0 (length d)) out (length d))) (fun _ => 0).

(* -------------------------------------------------------------------- HashFilter, HashVerificationFilter *)

Section HashFilters.
  Context {T : Type} (o : hobj T).
  (** filters.cpp:867-884: HashFilter::Put2; m_digestSize = [n]. *)
  Definition hf_put (putMessage : bool) (n : nat) (s : T) (d : list Z) (messageEnd : Z) : T * list oitem * outcome :=
    let out1 := if putMessage then [OPut d] else [] in
    match (if length d =? 0 then Some s else ho_update o s d) with
    | None => (s, out1, Throws)
    | Some s1 =>
      if (messageEnd =? 0)%Z then (s1, out1, Returns)
      else if ho_dsize o <? n then (s1, out1, Throws)
      else let '(s2, dig) := ho_final o s1 n in (s2, out1 ++ [OPut dig; OEnd messageEnd], Returns)
    end.
  Fixpoint hf_run (putMessage : bool) (n : nat) (s : T) (ops : list (list Z * Z)) : T * list oitem * outcome :=
    match ops with
    | [] => (s, [], Returns)
    | (d, e) :: r =>
      let '(s1, o1, res) := hf_put putMessage n s d e in
      match res with
      | Returns => let '(s2, o2, res2) := hf_run putMessage n s1 r in (s2, o1 ++ o2, res2)
      | _ => (s1, o1, res)
      end
    end.

  (** filters.h HashVerificationFilter::Flags *)
  Record hvflags := mkHVF { at_begin : bool; put_message : bool; put_hash : bool; put_result : bool; throw_exception : bool }.
  (** m_hashModule, m_expectedHash, m_verified *)
  Record hv := mkHV { hv_s : T; hv_expected : list Z; hv_verified : bool }.
  Variable fl : hvflags.
  Variable n : nat.   (* m_digestSize *)
  (** filters.cpp:898-907 *)
  Definition hv_new : fw := fw_new (if at_begin fl then n else 0) 1 (if at_begin fl then 0 else n).
  (** TruncatedVerify(p, n) on a buffer of [length d] bytes *)
  Definition hv_verify (s : T) (d : list Z) (len : nat) : option (T * bool) * outcome :=
    match ho_verify o s d len with
    | None => (None, Throws)
    | Some r => if length d <? len then (None, Undefined) else (Some r, Returns)
    end.
  (** filters.cpp:927-946 *)
  Definition hv_last (t : hv) (d : list Z) : hv * list oitem * outcome :=
    let finish s verified out :=
      let t' := mkHV s (hv_expected t) verified in
      let out := out ++ (if put_result fl then [OPut [if verified then 1%Z else 0%Z]] else []) in
      (t', out, if throw_exception fl && negb verified then Throws else Returns) in
    if at_begin fl then
      match hv_verify (hv_s t) (hv_expected t) n with
      | (Some (s, v), _) => finish s v []
      | (None, res) => (t, [], res)
      end
    else
      let out := if put_hash fl then [OPut d] else [] in
      if length d =? n then
        match hv_verify (hv_s t) d (length d) with
        | (Some (s, v), _) => finish s v out
        | (None, res) => (t, [], res)
        end
      else finish (hv_s t) false out.
  (** filters.cpp:909-918, 920-925 *)
  Definition hv_handler : handler hv := fun t e =>
    match e with
    | EFirst d =>
      if at_begin fl then (mkHV (hv_s t) d (hv_verified t), if put_hash fl then [OPut d] else [], Returns)
      else (t, [], Returns)
    | ENext _ d =>
      match ho_update o (hv_s t) d with
      | None => (t, [], Throws)
      | Some s => (mkHV s (hv_expected t) (hv_verified t), if put_message fl then [OPut d] else [], Returns)
      end
    | ELast d => hv_last t d
    | EEnd m => (t, [OEnd m], Returns)
    | EFlush => (t, [], Returns)
    end.
End HashFilters.
