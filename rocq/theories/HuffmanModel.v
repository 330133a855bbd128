(** HuffmanModel: HuffmanDecoder (zinflate.cpp:60-220) and HuffmanEncoder
    (zdeflate.cpp:199-235).
    Code lengths are [nat]; code_t is 32 bits. nCodes is an unsigned int, so
    the counters in blCount do not wrap and are plain integers here. *)
From Coq Require Import ZArith List Bool.
From Verif Require Import Base BitioModel.
Import ListNotations.
Open Scope Z_scope.

(** std::max_element (zinflate.cpp:85, zdeflate.cpp:202). *)
Definition max_bits (lens : list nat) : nat := fold_right Nat.max 0%nat lens.

(** blCount (zinflate.cpp:94-98, zdeflate.cpp:206-210). *)
Definition bl_count (lens : list nat) : list Z :=
  fold_left (fun t l => upd l (nth l t 0 + 1) t) lens (repeat 0 (max_bits lens + 1)).

(** The starting codes in the decoder (zinflate.cpp:101-114): entries 2 to
    m_maxCodeBits of nextCode, or an exception. *)
Fixpoint dec_starts (bl : list Z) (code : Z) (i k : nat) : option (list Z) :=
  match k with
  | O => Some []
  | S k =>
    let code1 := (code + nth (i - 1) bl 0) mod 2 ^ 32 in
    if code >? code1 then None
    else let code2 := Z.shiftl code1 1 mod 2 ^ 32 in
         if code1 >? code2 then None
         else match dec_starts bl code2 (S i) k with
              | Some l => Some (code2 :: l)
              | None => None
              end
  end.

(** The same in the encoder (zdeflate.cpp:212-219), without the checks. *)
Fixpoint enc_starts (bl : list Z) (code : Z) (i k : nat) : list Z :=
  match k with
  | O => []
  | S k => let code := Z.shiftl ((code + nth (i - 1) bl 0) mod 2 ^ 32) 1 mod 2 ^ 32 in
           code :: enc_starts bl code (S i) k
  end.

(** nextCode; entry 0 is never used. *)
Definition next_code (starts : list Z) : list Z := 0 :: 0 :: starts.

(** One row of m_codeToValue: code, len, value. *)
Record info : Type := mkinfo { i_code : Z; i_len : nat; i_value : nat }.

(** NormalizeCode (zinflate.cpp:60-63). *)
Definition normalize (code : Z) (len : nat) : Z := Z.shiftl code (Z.of_nat (32 - len)) mod 2 ^ 32.

(** zinflate.cpp:125-138. *)
Fixpoint dec_rows (next : list Z) (i : nat) (lens : list nat) : list info :=
  match lens with
  | [] => []
  | O :: lens => dec_rows next (S i) lens
  | len :: lens =>
    mkinfo (normalize (nth len next 0) len) len i
    :: dec_rows (upd len ((nth len next 0 + 1) mod 2 ^ 32) next) (S i) lens
  end.

(** std::sort with CodeInfo::operator< (zinflate.cpp:139): insertion sort.  The
    codes of a complete set are different, so that any sort gives this. *)
Fixpoint insert (x : info) (l : list info) : list info :=
  match l with
  | [] => [x]
  | y :: t => if i_code x <? i_code y then x :: l else y :: insert x t
  end.
Definition sort_rows (l : list info) : list info := fold_right insert [] l.

(** LookupEntry (zinflate.h:69-82): begin and end are positions in
    m_codeToValue. *)
Inductive entry : Type :=
| EEmpty
| EValue (value len : nat)
| EBlock (begin len : nat)
| ERange (begin end_ : nat).

Record decoder : Type := mkdec
  { d_max : nat; d_cbits : nat; d_rows : list info; d_cache : list entry }.

(** HuffmanDecoder::Initialize (zinflate.cpp:65-154). *)
Definition dec_init (lens : list nat) : option decoder :=
  match lens with
  | [] => None
  | _ =>
    let m := max_bits lens in
    if (32 <? m)%nat then None
    else if (m =? 0)%nat then None
    else
      let bl := bl_count lens in
      match dec_starts bl 0 2 (m - 1) with
      | None => None
      | Some starts =>
        let code := last starts 0 in
        let room := (2 ^ Z.of_nat m - nth m bl 0) mod 2 ^ 64 in
        if code >? room then None
        else if negb (m =? 1)%nat && (code <? room) then None
        else
          let cb := Nat.min 9 m in
          Some (mkdec m cb (sort_rows (dec_rows (next_code starts) 0 lens)) (repeat EEmpty (2 ^ cb)))
      end
  end.

(** std::upper_bound with CodeLessThan: how many rows come before the first
    one with a greater code. *)
Fixpoint upper_bound (rows : list info) (v : Z) : nat :=
  match rows with
  | [] => O
  | r :: rows => if v <? i_code r then O else S (upper_bound rows v)
  end.

Definition dummy : info := mkinfo 0 0 0.

(** m_normalizedCacheMask (zinflate.cpp:143-144). *)
Definition ncache_mask (d : decoder) : Z :=
  normalize (Z.shiftl 1 (Z.of_nat (d_cbits d)) - 1) (d_cbits d).

(** FillCacheEntry (zinflate.cpp:156-181).  [None]: the position before the
    first row is read. *)
Definition fill_entry (d : decoder) (ncode : Z) : option entry :=
  let nc := Z.land ncode (ncache_mask d) in
  match upper_bound (d_rows d) nc with
  | O => None
  | S b =>
    let r := nth b (d_rows d) dummy in
    if (i_len r <=? d_cbits d)%nat then Some (EValue (i_value r) (i_len r))
    else match upper_bound (d_rows d) ((nc + (2 ^ 32 - 1 - ncache_mask d)) mod 2 ^ 32) with
         | O => None
         | S z => if (i_len r =? i_len (nth z (d_rows d) dummy))%nat then Some (EBlock b (i_len r))
                  else Some (ERange b (S z))
         end
  end.

(** HuffmanDecoder::Decode(code_t, value_t &) (zinflate.cpp:183-208).  Returns
    the decoder (its cache changes), the value and the length; [None] if a row
    that is not there is read. *)
Definition decode (d : decoder) (code : Z) : option (decoder * nat * nat) :=
  let x := Z.to_nat (Z.land code (Z.shiftl 1 (Z.of_nat (d_cbits d)) - 1)) in
  let ncode := bit_reverse32 code in
  let go e cache :=
    let d := mkdec (d_max d) (d_cbits d) (d_rows d) cache in
    let row i := match nth_error (d_rows d) i with
                 | Some r => Some (d, i_value r, i_len r)
                 | None => None end in
    match e with
    | EEmpty => None
    | EValue v l => Some (d, v, l)
    | EBlock b l =>
      row (b + Z.to_nat (Z.shiftr (Z.shiftl ncode (Z.of_nat (d_cbits d)) mod 2 ^ 32)
                                  (Z.of_nat (32 - (l - d_cbits d)))))%nat
    | ERange b z =>
      match upper_bound (firstn (z - b) (skipn b (d_rows d))) ncode with
      | O => None
      | S k => row (b + k)%nat
      end
    end in
  match nth_error (d_cache d) x with
  | None => None
  | Some EEmpty =>
    match fill_entry d ncode with
    | Some e => go e (upd x e (d_cache d))
    | None => None
    end
  | Some e => go e (d_cache d)
  end.

(** HuffmanDecoder::Decode(LowFirstBitReader &, value_t &)
    (zinflate.cpp:210-220): [Some (_, _, None)] is the answer false. *)
Definition decode_symbol (d : decoder) (r : reader) : option (decoder * reader * option nat) :=
  let r := fst (fill_buffer r (d_max d)) in
  match decode d (r_buf r mod 2 ^ 32) with
  | None => None
  | Some (d, v, len) =>
    if (r_cnt r <? len)%nat then Some (d, r, None)
    else Some (d, skip_bits r len, Some v)
  end.

(** HuffmanEncoder::Initialize (zdeflate.cpp:199-229): m_valueToCode, pairs of
    code and len. *)
Fixpoint enc_rows (next : list Z) (lens : list nat) : list (Z * nat) :=
  match lens with
  | [] => []
  | O :: lens => (0, O) :: enc_rows next lens
  | len :: lens =>
    (Z.shiftr (bit_reverse32 (nth len next 0)) (Z.of_nat (32 - len)), len)
    :: enc_rows (upd len ((nth len next 0 + 1) mod 2 ^ 32) next) lens
  end.
Definition enc_init (lens : list nat) : list (Z * nat) :=
  let m := max_bits lens in
  if (m =? 0)%nat then []
  else enc_rows (next_code (enc_starts (bl_count lens) 0 2 (m - 1))) lens.

(** HuffmanEncoder::Encode (zdeflate.cpp:231-235). *)
Definition encode_symbol (enc : list (Z * nat)) (w : writer) (v : nat) : writer :=
  put_bits w (fst (nth v enc (0, O))) (snd (nth v enc (0, O))).
