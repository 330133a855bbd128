(** Model of IteratedHashBase / IteratedHash (iterhash.cpp, iterhash.h), HMAC_Base (hmac.cpp) and of
    digest verification (cryptlib.cpp:406-419, misc.cpp:217-262).
    The host is little-endian; the hash word type has [ha_W] bytes (4 or 8).  The compression function
    is a parameter. *)
From Coq Require Import ZArith List Bool Arith.
From Verif Require Import Base Blocks.
Import ListNotations.
Local Open Scope Z_scope.

(** iterhash.h:129-190: T_HashWordType, T_BlockSize, T_Endianness, Transform, InitState, DIGESTSIZE. *)
Record hashalg := mkHA {
  ha_W : nat; ha_B : nat; ha_big : bool;
  ha_compress : list Z -> list Z -> list Z;  (* state words, 'endian corrected' data words *)
  ha_iv : list Z;
  ha_dsize : nat
}.

(** Range of the word type, in bits. *)
Definition ha_N (a : hashalg) : Z := 8 * Z.of_nat (ha_W a).
Definition ha_M (a : hashalg) : Z := 2 ^ ha_N a.

(** m_countLo, m_countHi (iterhash.h:113), m_state, m_data (as bytes in memory order). *)
Record ihash := mkIH { ih_lo : Z; ih_hi : Z; ih_state : list Z; ih_data : list Z }.

(** iterhash.h:46,193: construction; m_data is uninitialised in C++, zero here. *)
Definition ih_new (a : hashalg) : ihash := mkIH 0 0 (ha_iv a) (repeat 0 (ha_B a)).

(** The words read from memory on a little-endian host. *)
Definition words_le (W : nat) (l : list Z) : list Z := map le_val (blocks W l).
(** misc.h ByteReverse on an array of W-byte words (byteCount is a multiple of W). *)
Definition byte_reverse (W : nat) (l : list Z) : list Z := concat (map (@rev Z) (blocks W l)).
(** misc.h ConditionalByteReverse, value written to memory as bytes: native (little-endian) order
    when the requested order is little-endian, reversed otherwise. *)
Definition put_word (a : hashalg) (x : Z) : list Z :=
  if ha_big a then rev (le_bytes (ha_W a) x) else le_bytes (ha_W a) x.

(** iterhash.cpp:90-132: HashMultipleBlocks, one iteration: [input] are the bytes of the block.
    Without byte reversal the block is used in place; with it, the reversed block is left in m_data.
    Returns state and data.  The branches for a misaligned word pointer are dead: both callers pass
    an aligned pointer. *)
Definition ih_one (a : hashalg) (st data input : list Z) : list Z * list Z :=
  if ha_big a then
    let d := byte_reverse (ha_W a) input in (ha_compress a st (words_le (ha_W a) d), d)
  else (ha_compress a st (words_le (ha_W a) input), data).

(** iterhash.cpp:99-131: the do-while loop; called with at least one block.  Returns the leftover. *)
Fixpoint ih_multiple (fuel : nat) (a : hashalg) (st data input : list Z) : list Z * list Z * list Z :=
  match fuel with
  | O => (st, data, input)
  | S f =>
    let '(st1, d1) := ih_one a st data (firstn (ha_B a) input) in
    let rem := skipn (ha_B a) input in
    if Nat.leb (ha_B a) (length rem) then ih_multiple f a st1 d1 rem else (st1, d1, rem)
  end.

(** iterhash.h:106-107: HashBlock(dataBuf). *)
Definition ih_hashblock (a : hashalg) (st data : list Z) : list Z * list Z := ih_one a st data data.

(** iterhash.cpp:67-75: the loop for unaligned input: copy the block to m_data first. *)
Fixpoint ih_unaligned (fuel : nat) (a : hashalg) (st data input : list Z) : list Z * list Z * list Z :=
  match fuel with
  | O => (st, data, input)
  | S f =>
    let '(st1, d1) := ih_hashblock a st (write 0 (firstn (ha_B a) input) data) in
    let rem := skipn (ha_B a) input in
    if Nat.leb (ha_B a) (length rem) then ih_unaligned f a st1 d1 rem else (st1, d1, rem)
  end.

(** iterhash.cpp:53-80: the part of Update after the left over data, for input that is not m_data
    itself.  [aligned] is IsAligned<T>(input). *)
Definition ih_bulk (a : hashalg) (aligned : bool) (st data input : list Z) : list Z * list Z :=
  let '(st1, d1, rem) :=
    if Nat.leb (ha_B a) (length input) then
      if aligned then ih_multiple (length input) a st data input else ih_unaligned (length input) a st data input
    else (st, data, input) in
  (st1, write 0 rem d1).

(** iterhash.cpp:18-23: the counter update; [false]: HashInputTooLong is thrown (the counters keep
    their new values).  [len] is a size_t. *)
Definition ih_count (a : hashalg) (h : ihash) (len : Z) : Z * Z * bool :=
  let lo := (ih_lo h + len) mod ha_M a in
  let hi1 := if lo <? ih_lo h then (ih_hi h + 1) mod ha_M a else ih_hi h in
  let hi := (hi1 + len / ha_M a) mod ha_M a in
  (lo, hi, negb ((hi <? ih_hi h) || negb (len / 2 ^ (2 * ha_N a) =? 0))).

(** iterhash.cpp:26: num = ModPowerOf2(oldCountLo, blockSize) = oldCountLo & (blockSize-1). *)
Definition ih_num (a : hashalg) (h : ihash) : nat := Z.to_nat (Z.land (ih_lo h) (Z.of_nat (ha_B a) - 1)).

(** iterhash.cpp:13-80: Update.  The second component is [false] when the call throws. *)
Definition ih_update (a : hashalg) (h : ihash) (aligned : bool) (input : list Z) : ihash * bool :=
  if Nat.eqb (length input) 0 then (h, true)
  else
    let '(lo, hi, ok) := ih_count a h (Z.of_nat (length input)) in
    if ok then
      let num := ih_num a h in
      if negb (Nat.eqb num 0) then
        if Nat.leb (ha_B a) (num + length input) then
          let d1 := write num (firstn (ha_B a - num) input) (ih_data h) in
          let '(st2, d2) := ih_hashblock a (ih_state h) d1 in
          let '(st3, d3) := ih_bulk a aligned st2 d2 (skipn (ha_B a - num) input) in
          (mkIH lo hi st3 d3, true)
        else (mkIH lo hi (ih_state h) (write num input (ih_data h)), true)
      else
        let '(st3, d3) := ih_bulk a aligned (ih_state h) (ih_data h) input in
        (mkIH lo hi st3 d3, true)
    else (mkIH lo hi (ih_state h) (ih_data h), false).

(** iterhash.cpp:82-88: CreateUpdateSpace returns m_data + num and blockSize - num.  The caller stores
    [d] there. *)
Definition ih_space (a : hashalg) (h : ihash) : nat := (ha_B a - ih_num a h)%nat.
Definition ih_store (a : hashalg) (h : ihash) (d : list Z) : ihash :=
  mkIH (ih_lo h) (ih_hi h) (ih_state h) (write (ih_num a h) d (ih_data h)).
(** Update called on the first [len] bytes of the update space, [len <= blockSize - num].
    iterhash.cpp:31-51: the memcpy copies m_data onto itself; 55-59: with num = 0 a complete block is
    hashed in place; 79: nothing is copied because input is m_data (or nothing is left). *)
Definition ih_update_inplace (a : hashalg) (h : ihash) (len : nat) : ihash * bool :=
  if Nat.eqb len 0 then (h, true)
  else
    let '(lo, hi, ok) := ih_count a h (Z.of_nat len) in
    if ok then
      if Nat.leb (ha_B a) (ih_num a h + len) then
        let '(st2, d2) := ih_hashblock a (ih_state h) (ih_data h) in (mkIH lo hi st2 d2, true)
      else (mkIH lo hi (ih_state h) (ih_data h), true)
    else (mkIH lo hi (ih_state h) (ih_data h), false).

(** iterhash.cpp:134-150: PadLastBlock with padFirst = 0x80. *)
Definition ih_pad (a : hashalg) (h : ihash) (lastBlockSize : nat) : list Z * list Z :=
  let num := ih_num a h in
  let d1 := write num [128] (ih_data h) in
  let num1 := S num in
  if Nat.leb num1 lastBlockSize then (ih_state h, write num1 (repeat 0 (lastBlockSize - num1)) d1)
  else
    let d2 := write num1 (repeat 0 (ha_B a - num1)) d1 in
    let '(st3, d3) := ih_hashblock a (ih_state h) d2 in
    (st3, write 0 (repeat 0 lastBlockSize) d3).

(** iterhash.h:97-100 *)
Definition ih_bitlo (a : hashalg) (h : ihash) : Z := Z.shiftl (ih_lo h) 3 mod ha_M a.
Definition ih_bithi (a : hashalg) (h : ihash) : Z :=
  (Z.shiftr (ih_lo h) (ha_N a - 3) + Z.shiftl (ih_hi h) 3 mod ha_M a) mod ha_M a.

(** iterhash.cpp:152-156 *)
Definition ih_restart (a : hashalg) (h : ihash) : ihash := mkIH 0 0 (ha_iv a) (ih_data h).

(** iterhash.cpp:158-186: TruncatedFinal; [None]: InvalidArgument (nothing changes).  [aligned] is
    IsAligned<HashWordType>(digest).  order is 1 for big-endian, 0 for little-endian. *)
Definition ih_final (a : hashalg) (h : ihash) (aligned : bool) (size : nat) : ihash * option (list Z) :=
  if Nat.ltb (ha_dsize a) size then (h, None)
  else
    let order := if ha_big a then 1%nat else 0%nat in
    let n := (ha_B a / ha_W a)%nat in
    let '(st1, d1) := ih_pad a h (ha_B a - 2 * ha_W a) in
    let d2 := write ((n - 2 + order) * ha_W a) (put_word a (ih_bitlo a h)) d1 in
    let d3 := write ((n - 1 - order) * ha_W a) (put_word a (ih_bithi a h)) d2 in
    let '(st4, d4) := ih_hashblock a st1 d3 in
    let out := if aligned && Nat.eqb (size mod ha_W a) 0
               then flat_map (put_word a) (firstn (size / ha_W a) st4)
               else firstn size (flat_map (put_word a) (firstn (ha_dsize a / ha_W a) st4)) in
    (ih_restart a (mkIH (ih_lo h) (ih_hi h) st4 d4), Some out).

(* ---------------------------------------------------------------- histories *)

Inductive hop :=
| HUpdate (aligned : bool) (d : list Z)
| HSpace (d : list Z)             (* CreateUpdateSpace, store as much of d as fits, Update with it *)
| HScribble (d : list Z)          (* CreateUpdateSpace, store as much of d as fits, no Update *)
| HFinal (aligned : bool) (size : nat)
| HRestart.
Inductive hout := ODone | OTooLong | ODigest (l : list Z) | OInvalid.

Definition ih_step (a : hashalg) (h : ihash) (op : hop) : ihash * hout :=
  match op with
  | HUpdate al d => let '(h', ok) := ih_update a h al d in (h', if ok then ODone else OTooLong)
  | HSpace d =>
      let d' := firstn (ih_space a h) d in
      let '(h', ok) := ih_update_inplace a (ih_store a h d') (length d') in
      (h', if ok then ODone else OTooLong)
  | HScribble d => (ih_store a h (firstn (ih_space a h) d), ODone)
  | HFinal al size =>
      let '(h', o) := ih_final a h al size in (h', match o with Some x => ODigest x | None => OInvalid end)
  | HRestart => (ih_restart a h, ODone)
  end.
Fixpoint ih_run (a : hashalg) (h : ihash) (ops : list hop) : list hout :=
  match ops with
  | [] => []
  | op :: r => let '(h', o) := ih_step a h op in o :: ih_run a h' r
  end.

Definition ih_exec (a : hashalg) (h : ihash) (ops : list hop) : ihash :=
  fold_left (fun h op => fst (ih_step a h op)) ops h.

(* ---------------------------------------------------------------- HMAC *)

(** A hash object as HMAC sees it (cryptlib.h HashTransformation): Update, TruncatedFinal, Restart,
    BlockSize, DigestSize.  Update gives [None] when it throws. *)
Record hobj (S : Type) := mkHO {
  ho_update : S -> list Z -> option S;
  ho_final : S -> nat -> S * list Z;
  ho_restart : S -> S;
  ho_bsize : nat; ho_dsize : nat
}.
Arguments ho_update {S}. Arguments ho_final {S}. Arguments ho_restart {S}.
Arguments ho_bsize {S}. Arguments ho_dsize {S}.

(** hmac.h:41-42,75: m_hash, m_buf as ipad, opad and inner hash, m_innerHashKeyed. *)
Record hmac (S : Type) := mkHM { hm_hash : S; hm_ipad : list Z; hm_opad : list Z; hm_keyed : bool }.
Arguments mkHM {S}. Arguments hm_hash {S}. Arguments hm_ipad {S}. Arguments hm_opad {S}. Arguments hm_keyed {S}.

Section Hmac.
  Context {S : Type} (o : hobj S).

  (** hmac.h:23; the object is used only after a key has been set. *)
  Definition hm_new (s : S) : hmac S := mkHM s [] [] false.

  (** hmac.cpp:54-61 *)
  Definition hm_restart (m : hmac S) : hmac S :=
    if hm_keyed m then mkHM (ho_restart o (hm_hash m)) (hm_ipad m) (hm_opad m) false else m.

  (** hmac.cpp:11-44: UncheckedSetKey; [None]: an exception (block size 0, or the hash throws). *)
  Definition hm_setkey (m : hmac S) (key : list Z) : option (hmac S) :=
    let m1 := hm_restart m in
    if Nat.eqb (ho_bsize o) 0 then None
    else
      let r := if Nat.leb (length key) (ho_bsize o) then Some (hm_hash m1, key)
               else match ho_update o (hm_hash m1) key with
                    | None => None
                    | Some s1 => Some (ho_final o s1 (ho_dsize o))
                    end in
      match r with
      | None => None
      | Some (s2, k) =>
        let k0 := k ++ repeat 0 (ho_bsize o - length k) in
        Some (mkHM s2 (map (fun b => Z.lxor b 54) k0) (map (fun b => Z.lxor b 92) k0) (hm_keyed m1))
      end.

  (** hmac.cpp:46-52 *)
  Definition hm_keyinner (m : hmac S) : option (hmac S) :=
    match ho_update o (hm_hash m) (hm_ipad m) with
    | None => None
    | Some s1 => Some (mkHM s1 (hm_ipad m) (hm_opad m) true)
    end.

  Definition hm_ensure (m : hmac S) : option (hmac S) := if hm_keyed m then Some m else hm_keyinner m.

  (** hmac.cpp:63-68 *)
  Definition hm_update (m : hmac S) (d : list Z) : option (hmac S) :=
    match hm_ensure m with
    | None => None
    | Some m1 =>
      match ho_update o (hm_hash m1) d with
      | None => None
      | Some s => Some (mkHM s (hm_ipad m1) (hm_opad m1) (hm_keyed m1))
      end
    end.

  (** hmac.cpp:70-86; the outer option is an exception thrown by the hash, the inner one InvalidArgument
      for a size above the digest size. *)
  Definition hm_final (m : hmac S) (size : nat) : option (hmac S * option (list Z)) :=
    if Nat.ltb (ho_dsize o) size then Some (m, None)
    else
      match hm_ensure m with
      | None => None
      | Some m1 =>
        let '(s1, inner) := ho_final o (hm_hash m1) (ho_dsize o) in
        match ho_update o s1 (hm_opad m1) with
        | None => None
        | Some s2 =>
          match ho_update o s2 inner with
          | None => None
          | Some s3 =>
            let '(s4, mac) := ho_final o s3 size in
            Some (mkHM s4 (hm_ipad m1) (hm_opad m1) false, Some mac)
          end
        end
      end.
End Hmac.

Inductive mop := MUpdate (d : list Z) | MFinal (size : nat) | MRestart | MSetKey (key : list Z).
Inductive mout := MODone | MOTag (l : list Z) | MOInvalid.
Definition hm_step {S} (o : hobj S) (m : hmac S) (op : mop) : option (hmac S * mout) :=
  match op with
  | MUpdate d => match hm_update o m d with Some m' => Some (m', MODone) | None => None end
  | MFinal n => match hm_final o m n with
                | Some (m', Some t) => Some (m', MOTag t)
                | Some (m', None) => Some (m', MOInvalid)
                | None => None
                end
  | MRestart => Some (hm_restart o m, MODone)
  | MSetKey k => match hm_setkey o m k with Some m' => Some (m', MODone) | None => None end
  end.
Fixpoint hm_run {S} (o : hobj S) (m : hmac S) (ops : list mop) : option (list mout) :=
  match ops with
  | [] => Some []
  | op :: r =>
    match hm_step o m op with
    | None => None
    | Some (m', x) => match hm_run o m' r with Some l => Some (x :: l) | None => None end
    end
  end.

(** The iterated hash as a hash object (input pointers aligned; the chunking theorem shows that
    alignment is not observable). *)
Definition ih_obj (a : hashalg) : hobj ihash := {|
  ho_update := fun h d => let '(h', ok) := ih_update a h true d in if ok then Some h' else None;
  ho_final := fun h n => let '(h', o) := ih_final a h true n in (h', match o with Some x => x | None => [] end);
  ho_restart := ih_restart a;
  ho_bsize := ha_B a; ho_dsize := ha_dsize a |}.

(* ---------------------------------------------------------------- verification *)

(** misc.cpp:226-233 (64-bit platforms): words of 8 bytes are xored and accumulated. Both buffers have
    at least [count] bytes; the lists here are the remaining buffers. *)
Fixpoint vb_words (fuel : nat) (buf mask : list Z) (count : nat) (acc : Z) : Z * list Z * list Z * nat :=
  match fuel with
  | O => (acc, buf, mask, count)
  | S f =>
    if Nat.leb 8 count then
      vb_words f (skipn 8 buf) (skipn 8 mask) (count - 8)
        (Z.lor acc (Z.lxor (le_val (firstn 8 buf)) (le_val (firstn 8 mask))))
    else (acc, buf, mask, count)
  end.
(** misc.cpp:254-255 *)
Fixpoint vb_tail (n : nat) (buf mask : list Z) (acc : Z) : Z :=
  match n, buf, mask with
  | S n', b :: buf', m :: mask' => vb_tail n' buf' mask' (Z.lor acc (Z.lxor b m))
  | _, _, _ => acc
  end.
Definition b8 (x : Z) : Z := Z.land x 255.
(** misc.cpp:218-262.  [acc8] is assigned a 64-bit value that fits 32 bits. *)
Definition verify_bufs (buf mask : list Z) (count : nat) : bool :=
  let '(acc64, buf', mask', c) := vb_words count buf mask count 0 in
  let a0 := Z.lor (Z.shiftr acc64 32) (Z.land acc64 (2 ^ 32 - 1)) in
  let acc8 := Z.lor (Z.lor (Z.lor (b8 a0) (b8 (Z.shiftr a0 8))) (b8 (Z.shiftr a0 16))) (b8 (Z.shiftr a0 24)) in
  vb_tail c buf' mask' acc8 =? 0.

(** cryptlib.cpp:406-413: TruncatedVerify; [None]: InvalidArgument. *)
Definition ho_verify {S} (o : hobj S) (s : S) (digest : list Z) (len : nat) : option (S * bool) :=
  if Nat.ltb (ho_dsize o) len then None
  else let '(s', calc) := ho_final o s len in Some (s', verify_bufs calc digest len).
