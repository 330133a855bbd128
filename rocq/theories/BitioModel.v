(** BitioModel: BitReverse and the bit reader and writer of the deflate code
    (misc.h:2348-2362, zinflate.cpp:25-58, zdeflate.cpp:24-92).
    unsigned long has 64 bits. *)
From Coq Require Import ZArith List Bool.
From Verif Require Import Base.
Import ListNotations.
Open Scope Z_scope.

(** ByteReverse(word32) (misc.h:2255-2278, the last branch) and
    BitReverse(word32) (misc.h:2348-2362). *)
Definition byte_reverse32 (v : Z) : Z :=
  let v := Z.lor (Z.shiftr (Z.land v 4278255360) 8) (Z.shiftl (Z.land v 16711935) 8 mod 2 ^ 32) in
  Z.lor (Z.shiftl v 16 mod 2 ^ 32) (Z.shiftr v 16).

Definition bit_reverse32 (v : Z) : Z :=
  let v := Z.lor (Z.shiftr (Z.land v 2863311530) 1) (Z.shiftl (Z.land v 1431655765) 1 mod 2 ^ 32) in
  let v := Z.lor (Z.shiftr (Z.land v 3435973836) 2) (Z.shiftl (Z.land v 858993459) 2 mod 2 ^ 32) in
  let v := Z.lor (Z.shiftr (Z.land v 4042322160) 4) (Z.shiftl (Z.land v 252645135) 4 mod 2 ^ 32) in
  byte_reverse32 v.

(** LowFirstBitReader: m_buffer, m_bitsBuffered, and what m_store holds. *)
Record reader : Type := mkrd { r_buf : Z; r_cnt : nat; r_rest : list Z }.

(** FillBuffer (zinflate.cpp:25-37); one byte per turn of the loop, which the
    number of bytes left bounds. *)
Fixpoint fill_loop (rest : list Z) (buf : Z) (cnt len : nat) : reader * bool :=
  if (cnt <? len)%nat
  then match rest with
       | [] => (mkrd buf cnt [], false)
       | b :: rest => fill_loop rest (Z.lor buf (Z.shiftl b (Z.of_nat cnt) mod 2 ^ 64)) (cnt + 8) len
       end
  else (mkrd buf cnt rest, true).
Definition fill_buffer (r : reader) (len : nat) : reader * bool :=
  fill_loop (r_rest r) (r_buf r) (r_cnt r) len.

(** PeekBits (zinflate.cpp:39-44): the result of FillBuffer is not looked at. *)
Definition peek_bits (r : reader) (len : nat) : reader * Z :=
  let r := fst (fill_buffer r len) in
  (r, Z.land (r_buf r) (Z.shiftl 1 (Z.of_nat len) - 1)).

(** SkipBits (zinflate.cpp:46-51).  Its callers fill the buffer first, so that the
    subtraction does not go below zero; here it would stop at zero. *)
Definition skip_bits (r : reader) (len : nat) : reader :=
  mkrd (Z.shiftr (r_buf r) (Z.of_nat len)) (r_cnt r - len) (r_rest r).

(** GetBits (zinflate.cpp:53-58). *)
Definition get_bits (r : reader) (len : nat) : reader * Z :=
  let (r, v) := peek_bits r len in (skip_bits r len, v).

(** LowFirstBitWriter: m_buffer, m_bitsBuffered, m_outputBuffer up to
    m_bytesBuffered, and what went to the attached transformation; m_counting
    and m_bitCount. *)
Record writer : Type := mkwr
  { w_buf : Z; w_cnt : nat; w_pend : list Z; w_sent : list Z; w_counting : bool; w_count : Z }.

(** The loop of PutBits (zdeflate.cpp:53-63). *)
Fixpoint put_loop (fuel : nat) (buf : Z) (cnt : nat) (pend sent : list Z) : Z * nat * list Z * list Z :=
  match fuel with
  | O => (buf, cnt, pend, sent)
  | S fuel =>
    if (8 <=? cnt)%nat
    then let pend := pend ++ [buf mod 256] in
         if (length pend =? 256)%nat
         then put_loop fuel (Z.shiftr buf 8) (cnt - 8) [] (sent ++ pend)
         else put_loop fuel (Z.shiftr buf 8) (cnt - 8) pend sent
    else (buf, cnt, pend, sent)
  end.

(** PutBits (zdeflate.cpp:44-65). *)
Definition put_bits (w : writer) (value : Z) (len : nat) : writer :=
  if w_counting w
  then mkwr (w_buf w) (w_cnt w) (w_pend w) (w_sent w) true ((w_count w + Z.of_nat len) mod 2 ^ 64)
  else
    let buf := Z.lor (w_buf w) (Z.shiftl value (Z.of_nat (w_cnt w)) mod 2 ^ 64) in
    let cnt := (w_cnt w + len)%nat in
    match put_loop cnt buf cnt (w_pend w) (w_sent w) with
    | (buf, cnt, pend, sent) => mkwr buf cnt pend sent false (w_count w)
    end.

(** FlushBitBuffer (zdeflate.cpp:67-85). *)
Definition flush_bits (w : writer) : writer :=
  if w_counting w
  then mkwr (w_buf w) (w_cnt w) (w_pend w) (w_sent w) true
            ((w_count w + (if (0 <? w_cnt w)%nat then 8 else 0)) mod 2 ^ 64)
  else
    let sent := w_sent w ++ w_pend w in
    if (0 <? w_cnt w)%nat
    then mkwr 0 0 [] (sent ++ [w_buf w mod 256]) false (w_count w)
    else mkwr (w_buf w) (w_cnt w) [] sent false (w_count w).

(** The constructor (zdeflate.cpp:24-28). *)
Definition writer_new : writer := mkwr 0 0 [] [] false 0.
