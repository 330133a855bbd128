(** Model of the class Integer of integer.cpp, on top of the word arrays of WordsModel.

    An object is its sign and its register, the array [reg]; functions that write an object return it.
    Simplifications: the arguments of one call are distinct objects, except where a function compares pointers
    (its [same] argument); counts of words and bits are unbounded, so size_t and unsigned int do not wrap;
    memory that New or resize leaves uninitialised is always overwritten before it is read and does not appear. *)
From Coq Require Import ZArith List Bool Arith.
From Verif Require Import Base AsnModel WordsModel.
Import ListNotations.
Local Open Scope Z_scope.

Record integer := mkInt { neg : bool; reg : list Z }.

(** What a call can do: return, throw Integer::DivideByZero, throw another exception, or write past a buffer;
    [RStuck]: the model ran out of fuel. *)
Inductive res (A : Type) := ROk (a : A) | RDivideByZero | RThrow | RMemory | RStuck.
Arguments ROk {A} a. Arguments RDivideByZero {A}. Arguments RThrow {A}. Arguments RMemory {A}. Arguments RStuck {A}.
Definition rbind {A B} (r : res A) (f : A -> res B) : res B :=
  match r with ROk a => f a | RDivideByZero => RDivideByZero | RThrow => RThrow | RMemory => RMemory | RStuck => RStuck end.

(** integer.cpp:2950-2964, RoundupSizeTable and RoundupSize. BitPrecision(n-1), the number of bits of n-1, is log2_up n. *)
Definition roundup (n : nat) : nat :=
  if (n <=? 8)%nat then nth n [2; 2; 2; 4; 4; 8; 8; 8; 8]%nat 0%nat
  else if (n <=? 16)%nat then 16%nat
  else if (n <=? 32)%nat then 32%nat
  else if (n <=? 64)%nat then 64%nat
  else (2 ^ Nat.log2_up n)%nat.

(** integer.cpp:2966-2970, Integer(); 4912-4945, Zero, One, Two. *)
Definition int_zero : integer := mkInt false [0; 0].
Definition int_one : integer := mkInt false [1; 0].
Definition int_two : integer := mkInt false [2; 0].

(** secblock.h:1179-1188, CleanGrow. *)
Definition clean_grow (l : list Z) (n : nat) : list Z := l ++ repeat 0 (n - length l).
(** Writing the array [x] at the start of the array [d]. *)
Definition store (d x : list Z) : list Z := x ++ skipn (length x) d.

(** integer.cpp:3350-3353, WordCount. *)
Definition word_count (x : integer) : nat := count_words (reg x) (length (reg x)).
(** integer.cpp:2972-2976, the copy constructor. *)
Definition copy (x : integer) : integer := mkInt (neg x) (firstn (roundup (word_count x)) (reg x)).
(** integer.cpp:3099-3109, operator= on an object whose register has [n] words. *)
Definition assign (n : nat) (t : integer) : integer :=
  if negb (n =? length (reg t))%nat || (at_ (reg t) (length (reg t) / 2) =? 0) then copy t else t.
(** integer.cpp:3180-3185, Integer(word value, size_t length). *)
Definition of_word (v : Z) (n : nat) : integer := mkInt false (v :: repeat 0 (roundup n - 1)).
(** integer.cpp:3094-3097, operator!; integer.h:335-347, IsZero, IsPositive. *)
Definition is_zero (x : integer) : bool := if neg x then false else (at_ (reg x) 0 =? 0) && (word_count x =? 0)%nat.
Definition is_positive (x : integer) : bool := negb (neg x) && negb (is_zero x).
(** integer.cpp:4385-4389, Negate. *)
Definition negate (x : integer) : integer := if negb (is_zero x) then mkInt (negb (neg x)) (reg x) else x.
(** integer.cpp:3159-3164, operator-. *)
Definition int_opp (x : integer) : integer := negate (copy x).
(** integer.cpp:3166-3171, AbsoluteValue. *)
Definition int_abs (x : integer) : integer := mkInt false (reg (copy x)).
(** integer.cpp:4391-4417, PositiveCompare and Compare. *)
Definition positive_compare (x t : integer) : Z :=
  let n := word_count x in let m := word_count t in
  if negb (n =? m)%nat then (if (m <? n)%nat then 1 else -1) else w_cmp (reg x) (reg t) n.
Definition compare (x t : integer) : Z :=
  if negb (neg x) then (if negb (neg t) then positive_compare x t else 1)
  else (if negb (neg t) then -1 else - positive_compare x t).

Section Int.
Variable w : Z.
Notation wn := (Z.to_nat w).

(** integer.cpp:2978-2983, Integer(Sign, lword): [v] is below 2^64. *)
Definition of_lword (s : bool) (v : Z) : integer := mkInt s [wd w v; wd w (Z.shiftr v w)].
(** integer.cpp:2985-2997, Integer(signed long): [v] is above -2^63. *)
Definition of_long (v : Z) : integer :=
  if v >=? 0 then mkInt false [wd w v; wd w (Z.shiftr v w)] else mkInt true [wd w (- v); wd w (Z.shiftr (- v) w)].

(** misc.h:1153-1166, BitsToWords, BytesToWords. *)
Definition bits_to_words (n : nat) : nat := ((n + wn - 1) / wn)%nat.
Definition bytes_to_words (n : nat) : nat := ((n + wn / 8 - 1) / (wn / 8))%nat.

(** integer.cpp:3355-3371, ByteCount and BitCount. *)
Definition byte_count (x : integer) : nat :=
  let n := word_count x in
  if (n =? 0)%nat then 0%nat else ((n - 1) * (wn / 8) + Z.to_nat (byte_precision w (at_ (reg x) (n - 1))))%nat.
Definition bit_count (x : integer) : nat :=
  let n := word_count x in
  if (n =? 0)%nat then 0%nat else ((n - 1) * wn + Z.to_nat (bit_precision w (at_ (reg x) (n - 1))))%nat.
(** integer.cpp:3111-3118, GetBit. *)
Definition get_bit (x : integer) (n : nat) : bool :=
  if (n / wn <? length (reg x))%nat then Z.odd (Z.shiftr (at_ (reg x) (n / wn)) (Z.of_nat (n mod wn))) else false.
(** integer.cpp:3120-3132, SetBit. *)
Definition set_bit (x : integer) (n : nat) (v : bool) : integer :=
  let i := (n / wn)%nat in let m := wd w (Z.shiftl 1 (Z.of_nat (n mod wn))) in
  if v then let r := clean_grow (reg x) (roundup (bits_to_words (n + 1))) in mkInt (neg x) (upd i (Z.lor (at_ r i) m) r)
  else if (i <? length (reg x))%nat then mkInt (neg x) (upd i (Z.land (at_ (reg x) i) (base w - 1 - m)) (reg x)) else x.
(** integer.cpp:3134-3141, GetByte. *)
Definition get_byte (x : integer) (n : nat) : Z :=
  let ws := (wn / 8)%nat in
  if (n / ws <? length (reg x))%nat then Z.shiftr (at_ (reg x) (n / ws)) (Z.of_nat (n mod ws) * 8) mod 256 else 0.
(** integer.cpp:3087-3092, Power2. *)
Definition power2 (e : nat) : integer := set_bit (of_word 0 (bits_to_words (e + 1))) e true.

(** integer.cpp:3804-3906, And, Or and Xor of two different objects. *)
Fixpoint map2 (f : Z -> Z -> Z) (a b : list Z) : list Z :=
  match a, b with x :: a, y :: b => f x y :: map2 f a b | _, _ => [] end.
Definition int_and (x t : integer) : integer := mkInt false (map2 Z.land (reg x) (reg t)).
Definition merge (f : Z -> Z -> Z) (a b : list Z) : list Z :=
  if (length b <=? length a)%nat then store a (map2 f a b) else store b (map2 f b a).
Definition int_or (x t : integer) : integer := mkInt false (merge Z.lor (reg x) (reg t)).
Definition int_xor (x t : integer) : integer := mkInt false (merge Z.lxor (reg x) (reg t)).

(** integer.cpp:3916-3943, PositiveAdd into a register [d]. *)
Definition positive_add (d a b : list Z) : list Z :=
  let '(r, carry) :=
    if (length b <? length a)%nat then
      let '(x, c) := w_add w (firstn (length b) a) b in
      let '(y, c) := w_inc w (skipn (length b) a) c in (store d (x ++ y), c)
    else if (length a =? length b)%nat then
      let '(x, c) := w_add w a b in (store d x, c)
    else
      let '(x, c) := w_add w a (firstn (length a) b) in
      let '(y, c) := w_inc w (skipn (length a) b) c in (store d (x ++ y), c) in
  if negb (carry =? 0) then let r' := clean_grow r (2 * length r) in upd (length r' / 2) 1 r' else r.
(** integer.cpp:3945-3982, PositiveSubtract into a register [d]: the sign and the register. *)
Definition even_up (n : nat) : nat := (n + n mod 2)%nat.
Definition positive_sub (d a b : list Z) : integer :=
  let n := even_up (count_words a (length a)) in
  let m := even_up (count_words b (length b)) in
  if (m <? n)%nat then
    let '(x, c) := w_sub w (firstn m a) (firstn m b) in
    let '(y, _) := w_dec w (sub_ m (n - m) a) c in mkInt false (store d (x ++ y))
  else if (n =? m)%nat then
    if w_cmp a b n >=? 0 then mkInt false (store d (fst (w_sub w (firstn n a) (firstn n b))))
    else mkInt true (store d (fst (w_sub w (firstn n b) (firstn n a))))
  else
    let '(x, c) := w_sub w (firstn n b) (firstn n a) in
    let '(y, _) := w_dec w (sub_ n (m - n) b) c in mkInt true (store d (x ++ y)).
(** integer.cpp:3990-4011, Plus, with the destination register; 4013-4034, operator+=, is Plus into the grown register. *)
Definition plus_into (d : list Z) (x b : integer) : integer :=
  if negb (neg x) then
    if negb (neg b) then mkInt false (positive_add d (reg x) (reg b)) else positive_sub d (reg x) (reg b)
  else
    if negb (neg b) then positive_sub d (reg b) (reg x) else mkInt true (positive_add d (reg x) (reg b)).
Definition plus (x b : integer) : integer := plus_into (reg (of_word 0 (Nat.max (length (reg x)) (length (reg b))))) x b.
Definition plus_eq (x b : integer) : integer :=
  let r := clean_grow (reg x) (length (reg b)) in plus_into r (mkInt (neg x) r) b.
(** integer.cpp:4036-4057, Minus, and 4059-4080, operator-=. *)
Definition minus_into (d : list Z) (x b : integer) : integer :=
  if negb (neg x) then
    if negb (neg b) then positive_sub d (reg x) (reg b) else mkInt false (positive_add d (reg x) (reg b))
  else
    if negb (neg b) then mkInt true (positive_add d (reg x) (reg b)) else positive_sub d (reg b) (reg x).
Definition minus (x b : integer) : integer := minus_into (reg (of_word 0 (Nat.max (length (reg x)) (length (reg b))))) x b.
Definition minus_eq (x b : integer) : integer :=
  let r := clean_grow (reg x) (length (reg b)) in minus_into r (mkInt (neg x) r) b.
(** integer.cpp:3763-3782, operator++, and 3784-3801, operator--. *)
Definition inc_mag (r : list Z) : list Z :=
  let '(x, c) := w_inc w r 1 in
  if negb (c =? 0) then let r' := clean_grow x (2 * length x) in upd (length r' / 2) 1 r' else x.
Definition incr (x : integer) : integer :=
  if negb (neg x) then mkInt false (inc_mag (reg x))
  else let y := mkInt true (fst (w_dec w (reg x) 1)) in
       if (word_count y =? 0)%nat then assign (length (reg y)) int_zero else y.
Definition decr (x : integer) : integer :=
  if neg x then mkInt true (inc_mag (reg x))
  else let '(r, c) := w_dec w (reg x) 1 in
       if negb (c =? 0) then assign (length r) (int_opp int_one) else mkInt false r.
(** integer.cpp:4082-4092, operator<<=. *)
Definition shl (x : integer) (n : nat) : integer :=
  let wc := word_count x in let sw := (n / wn)%nat in let sb := (n mod wn)%nat in
  let r := clean_grow (reg x) (roundup (wc + bits_to_words n)) in
  let r := shl_words r (wc + sw) sw in
  let k := (wc + bits_to_words sb)%nat in
  mkInt (neg x) (put sw (fst (shl_bits w (sub_ sw k r) (Z.of_nat sb))) r).
(** integer.cpp:4094-4106, operator>>=. *)
Definition shr (x : integer) (n : nat) : integer :=
  let wc := word_count x in let sw := (n / wn)%nat in let sb := (n mod wn)%nat in
  let r := shr_words (reg x) wc sw in
  let r := if (sw <? wc)%nat then store r (shr_bits w (firstn (wc - sw) r) (Z.of_nat sb)) else r in
  let y := mkInt (neg x) r in
  if neg y && (word_count y =? 0)%nat then assign (length r) int_zero else y.
(** integer.cpp:4166-4177, PositiveMultiply; [same]: both factors are the same object. *)
Definition positive_multiply (same : bool) (a b : integer) : integer :=
  let n := roundup (word_count a) in let m := roundup (word_count b) in
  mkInt false (store (repeat 0 (roundup (n + m))) (w_asym w same (firstn n (reg a)) (firstn m (reg b)))).
(** integer.cpp:4179-4191, Multiply and Times; integer.h:634, Squared. *)
Definition times_ (same : bool) (a b : integer) : integer :=
  let p := positive_multiply same a b in if negb (Bool.eqb (negb (neg a)) (negb (neg b))) then negate p else p.
Definition times (a b : integer) : integer := times_ false a b.
Definition squared (a : integer) : integer := times_ true a a.
(** integer.cpp:4215-4242, PositiveDivide: remainder and quotient; the objects they are written to were empty. *)
Definition positive_divide (a b : integer) : res (integer * integer) :=
  let n := word_count a in let m := word_count b in
  if (m =? 0)%nat then RDivideByZero
  else if (n <? m)%nat then ROk (mkInt false (reg (assign 2 a)), int_zero)
  else
    let n := even_up n in let m := even_up m in
    match w_divide w 3 (firstn n (reg a)) (firstn m (reg b)) with
    | None => RStuck
    | Some (r, q) => ROk (mkInt false (store (repeat 0 (roundup m)) r), mkInt false (store (repeat 0 (roundup (n - m + 2))) q))
    end.
(** integer.cpp:4244-4260, Divide. *)
Definition divide (a b : integer) : res (integer * integer) :=
  rbind (positive_divide a b) (fun rq =>
    let '(r, q) := rq in
    let '(r, q) :=
      if neg a then
        let q := negate q in
        if negb (is_zero r) then (assign (length (reg r)) (minus (int_abs b) r), decr q) else (r, q)
      else (r, q) in
    ROk (r, if neg b then negate q else q)).
(** integer.cpp:4290-4302, DividedBy and Modulo. *)
Definition divided_by (a b : integer) : res integer := rbind (divide a b) (fun rq => ROk (snd rq)).
Definition modulo (a b : integer) : res integer := rbind (divide a b) (fun rq => ROk (fst rq)).
(** integer.cpp:4262-4288, DivideByPowerOf2: remainder and quotient. *)
Definition divide_pow2 (a : integer) (n : nat) : integer * integer :=
  let q := shr (assign 2 a) n in
  let wc := bits_to_words n in
  let r := if (wc <=? word_count a)%nat then
             let x := firstn wc (reg a) in
             let x := if negb (n mod wn =? 0)%nat then upd (wc - 1) (at_ x (wc - 1) mod wd w (Z.shiftl 1 (Z.of_nat (n mod wn)))) x else x in
             mkInt false (store (repeat 0 (roundup wc)) x)
           else mkInt false (firstn (roundup (word_count a)) (reg a)) in
  if neg a && negb (is_zero r) then (assign (length (reg r)) (minus (power2 n) r), decr q) else (r, q).
(** integer.cpp:4312, 4322-4326: long division by one word, from the top word down. *)
Fixpoint word_div (d : Z) (i : nat) (a : list Z) (r : Z) (q : list Z) : Z * list Z :=
  match i with
  | O => (r, q)
  | S i => let v := at_ a i + base w * r in word_div d i a (v mod d) (upd i (wd w (v / d)) q)
  end.
(** integer.cpp:4304-4338, Divide by a word: remainder and quotient. misc.h:1214-1236, IsPowerOf2. *)
Definition divide_word (a : integer) (d : Z) : res (Z * integer) :=
  if d =? 0 then RDivideByZero
  else if Z.land d (d - 1) =? 0 then
    ROk (Z.land (at_ (reg a) 0) (d - 1), shr (copy a) (Z.to_nat (bit_precision w d - 1)))
  else
    let n := word_count a in
    let '(r, q) := word_div d n (reg a) 0 (repeat 0 (roundup n)) in
    if negb (neg a) then ROk (r, mkInt false q)
    else let q := mkInt true q in
         if negb (r =? 0) then ROk (wd w (d - r), decr q) else ROk (r, q).
(** integer.cpp:4348-4383, Modulo by a word. *)
Definition modulo_word (a : integer) (d : Z) : res Z :=
  if d =? 0 then RDivideByZero
  else
    let n := word_count a in
    let r := if negb (Z.land d (d - 1) =? 0) then
               if 5 <? d then fst (word_div d n (reg a) 0 [])
               else dw w (fold_right Z.add 0 (firstn n (reg a))) mod d
             else Z.land (at_ (reg a) 0) (d - 1) in
    ROk (if neg a && negb (r =? 0) then d - r else r).

(** integer.cpp:3380-3410, Decode of the bytes [l] (inputLen of them, at least one). *)
Fixpoint strip (b : Z) (l : list Z) : list Z :=
  match l with x :: r => if x =? b then strip b r else l | [] => [] end.
Definition put_byte (k : nat) (b : Z) (r : list Z) : list Z :=
  let ws := (wn / 8)%nat in let i := (k / ws)%nat in
  upd i (Z.lor (at_ r i) (wd w (Z.shiftl b (Z.of_nat (k mod ws) * 8)))) r.
Fixpoint fill (l : list Z) (r : list Z) : list Z :=
  match l with [] => r | b :: l => fill l (put_byte (length l) b r) end.
Fixpoint fill_ff (k n : nat) (r : list Z) : list Z :=
  match n with O => r | S n => fill_ff (S k) n (put_byte k 255 r) end.
Definition decode (signed : bool) (l : list Z) : integer :=
  let s := signed && negb (Z.land (hd 0 l) 128 =? 0) in
  let l := strip (if s then 255 else 0) l in
  let r := fill l (repeat 0 (roundup (bytes_to_words (length l)))) in
  mkInt s (if s then w_twos w (fill_ff (length l) (length r * (wn / 8) - length l) r) else r).
(** integer.cpp:3427-3447, Encode. *)
Fixpoint encode_u (n : nat) (x : integer) : list Z := match n with O => [] | S k => get_byte x k :: encode_u k x end.
Definition encode (signed : bool) (n : nat) (x : integer) : list Z :=
  if negb signed || negb (neg x) then encode_u n x
  else encode_u n (plus (power2 (8 * Nat.max (byte_count x) n)) x).
(** integer.cpp:3412-3424, MinEncodedSize. *)
Definition min_encoded_size (signed : bool) (x : integer) : nat :=
  let n := Nat.max 1 (byte_count x) in
  let n := if signed && negb (neg x) && negb (Z.land (get_byte x (n - 1)) 128 =? 0) then S n else n in
  if negb signed then n
  else if neg x && (compare x (int_opp (power2 (n * 8 - 1))) <? 0) then S n else n.

(** integer.cpp:3449-3454, DEREncode; 3463-3470, BERDecode: the contents of the object, read when there is one byte at least
    (the byte [b] that Decode tests is uninitialised when there is none). *)
Definition int_der (x : integer) : list Z := der_wrap INTEGER (encode true (min_encoded_size true x) x).
Definition int_contents (b : Z) (d : src) : option (integer * src) :=
  match s_frames d with
  | Some l :: _ =>
    if s_count d <? l then None
    else let '(c, d') := s_getn l d in
         Some (match c with
               | [] => if Z.land b 128 =? 0 then int_zero else mkInt true (w_twos w (fill_ff 0 (2 * (wn / 8)) [0; 0]))
               | _ => decode true c end, d')
  | _ => None
  end.
Definition int_ber (b : Z) (s : src) : option (integer * src) :=
  bind1 (ber_open INTEGER s) (fun d => bind (int_contents b d) (fun x d => bind1 (ber_close d) (fun s => Some (x, s)))).
(** integer.cpp:3472-3477, DEREncodeAsOctetString; 3479-3486, BERDecodeAsOctetString. Decode refuses a source that holds less (3383-3384). *)
Definition int_der_octets (n : nat) (x : integer) : list Z := der_wrap OCTET_STRING (encode false n x).
Definition octets_contents (n : Z) (d : src) : option (integer * src) :=
  match s_frames d with
  | Some l :: _ =>
    if negb (l =? n) then None
    else if s_count d <? n then None
    else let '(c, d') := s_getn n d in Some (decode false c, d')
  | _ => None
  end.
Definition int_ber_octets (n : Z) (s : src) : option (integer * src) :=
  bind1 (ber_open OCTET_STRING s) (fun d => bind (octets_contents n d) (fun x d => bind1 (ber_close d) (fun s => Some (x, s)))).
(** integer.cpp:3496-3503, OpenPGPEncode; 3512-3518, OpenPGPDecode, of a whole string. misc.h:1140-1143, BitsToBytes. *)
Definition pgp_encode (x : integer) : list Z :=
  let n := (bit_count x mod Z.to_nat 65536)%nat in be_bytes 2 (Z.of_nat n) ++ encode false ((n + 7) / 8) x.
Definition pgp_decode (l : list Z) : res integer :=
  if (length l <? 2)%nat then RThrow
  else let n := Z.to_nat (be_val (firstn 2 l)) in let k := ((n + 7) / 8)%nat in
       if (length (skipn 2 l) <? k)%nat then RThrow else ROk (decode false (firstn k (skipn 2 l))).

(** integer.cpp:4419-4435, SquareRoot. *)
Fixpoint sqrt_loop (fuel : nat) (a y : integer) : res integer :=
  match fuel with
  | O => RStuck
  | S n => let x := y in
           rbind (divided_by a x) (fun q =>
           let y := shr (plus x q) 1 in
           if compare y x <? 0 then sqrt_loop n a y else ROk x)
  end.
Definition square_root (fuel : nat) (a : integer) : res integer :=
  if negb (is_positive a) then ROk int_zero
  else sqrt_loop fuel a (power2 ((bit_count a + 1) / 2)).

(** integer.cpp:4506-4513, the odd-modulus branch of InverseModNext. The work space has four times the modulus's words and
    AlmostInverse copies the operand into its upper half (2856-2858): a longer register writes past its end. *)
Definition inverse_odd (x m : integer) : res integer :=
  let n := length (reg m) in
  if (2 * n <? length (reg x))%nat then RMemory
  else match almost_inverse w (firstn n (reg x)) (reg m) with
       | None => RStuck
       | Some (r, k) => ROk (mkInt false (div_pow2_mod w (Z.to_nat k) r (reg m)))
       end.
(** integer.cpp:4492-4514, InverseModNext (after [x] is reduced); the recursive call has an odd modulus. *)
Definition inverse_next (x m : integer) : res integer :=
  if negb (get_bit m 0) then
    if is_zero m || negb (get_bit x 0) then ROk int_zero
    else if compare x int_one =? 0 then ROk int_one
    else rbind (modulo m x) (fun t =>
         rbind (inverse_odd t x) (fun u =>
         if is_zero u then ROk int_zero
         else divided_by (plus (times m (minus x u)) int_one) x))
  else inverse_odd x m.
(** integer.cpp:4477-4490, InverseMod. *)
Definition inverse_mod (x m : integer) : res integer :=
  if neg x then rbind (modulo x m) (fun t => inverse_next t m)
  else if compare x m >=? 0 then rbind (modulo x m) (fun t => inverse_next t m)
  else inverse_next x m.
End Int.
