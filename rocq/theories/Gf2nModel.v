(** PolynomialMod2 of gf2n.cpp: polynomials over GF(2) held in an array of words.

    A polynomial is its register, a [list Z] of words, least significant first; [w] is WORD_BITS.  Simplifications: the
    counters the source keeps in int or unsigned int are unbounded, so the degrees are those below 2^31; operations are
    given for objects at different addresses (as the library's own callers use them); [RMemory] is an access outside the
    register, [RDivideByZero] the exception. *)
From Coq Require Import ZArith List Bool Arith.
From Verif Require Import Base AsnModel WordsModel IntegerModel.
Import ListNotations.
Local Open Scope Z_scope.

Section Gf2n.
Variable w : Z.
Notation wn := (Z.to_nat w).

(** gf2n.cpp:64-74, the constructor from a word and a length in bits. *)
Definition pm_of_word (value : Z) (bits : nat) : list Z :=
  match bits_to_words w bits with O => [] | S k => value :: repeat 0 k end.
(** gf2n.cpp:91-98, AllOnes; misc.h Crop keeps the low bits. *)
Definition pm_all_ones (bits : nat) : list Z :=
  let r := repeat (base w - 1) (bits_to_words w bits) in
  if (bits mod wn =? 0)%nat then r
  else upd (length r - 1) (Z.land (at_ r (length r - 1)) (2 ^ Z.of_nat (bits mod wn) - 1)) r.
(** gf2n.cpp:100-112, SetBit. *)
Definition pm_set_bit (r : list Z) (n : nat) (value : bool) : list Z :=
  let i := (n / wn)%nat in let m := wd w (Z.shiftl 1 (Z.of_nat (n mod wn))) in
  if value then let r := clean_grow r (i + 1) in upd i (Z.lor (at_ r i) m) r
  else if (i <? length r)%nat then upd i (Z.land (at_ r i) (base w - 1 - m)) r else r.
(** gf2n.h:134-135, GetCoefficient, with GetBit and operator[]. *)
Definition pm_coef (r : list Z) (i : nat) : bool :=
  if (i / wn <? length r)%nat then Z.odd (Z.shiftr (at_ r (i / wn)) (Z.of_nat (i mod wn))) else false.
(** gf2n.cpp:129-134, Monomial. *)
Definition pm_monomial (i : nat) : list Z := pm_set_bit (pm_of_word 0 (i + 1)) i true.
(** gf2n.cpp:136-151, Trinomial; [RThrow] is InvalidArgument. *)
Definition pm_trinomial (t0 t1 t2 : nat) : res (list Z) :=
  if (t0 <? t1)%nat || (t0 <? t2)%nat then RThrow
  else ROk (pm_set_bit (pm_set_bit (pm_set_bit (pm_of_word 0 (t0 + 1)) t0 true) t1 true) t2 true).
(** gf2n.cpp:257-260 and 271-278, WordCount and BitCount (CoefficientCount, gf2n.h:132). *)
Definition pm_bit_count (r : list Z) : nat :=
  let n := count_words r (length r) in
  if (n =? 0)%nat then 0%nat else ((n - 1) * wn + Z.to_nat (bit_precision w (at_ r (n - 1))))%nat.
(** gf2n.cpp:295-300, operator^=; gf2n.h defines += and -= by it. *)
Definition pm_xor_eq (r t : list Z) : list Z :=
  let r := clean_grow r (length t) in store r (map2 Z.lxor r t).
(** gf2n.cpp:302-318, Xor; every word of the zeroed result is written. *)
Definition pm_xor (a b : list Z) : list Z :=
  if (length a <=? length b)%nat then map2 Z.lxor a b ++ skipn (length a) b else map2 Z.lxor a b ++ skipn (length b) a.
(** gf2n.cpp:320-325, And. *)
Definition pm_and (a b : list Z) : list Z := map2 Z.land a b.

(** SecBlock::Grow (secblock.h:1160-1168): the added words are not initialised and hold [junk]. *)
Definition pm_grow (junk : Z) (r : list Z) (n : nat) : list Z := r ++ repeat junk (n - length r).
(** gf2n.cpp:399-468, operator<<=. *)
Definition pm_shl (junk : Z) (r : list Z) (n : nat) : list Z :=
  match r with
  | [] => []
  | _ :: _ =>
    if (n =? 1)%nat then
      let '(x, carry) := shl_loop w 0 1 r in
      if carry =? 0 then x else let y := pm_grow junk x (length x + 1) in upd (length y - 1) carry y
    else
      let sw := (n / wn)%nat in let sb := (n mod wn)%nat in
      let '(x, carry) := if (sb =? 0)%nat then (r, 0) else shl_loop w 0 (Z.of_nat sb) r in
      let y := if carry =? 0 then pm_grow junk x (length x + sw)
               else upd (length x) carry (pm_grow junk x (length x + sw + (if (sb =? 0)%nat then 0 else 1))) in
      if (sw =? 0)%nat then y else repeat 0 sw ++ firstn (length y - sw) y
  end.
(** gf2n.cpp:470-504, operator>>=.  The bound reg.size()-shiftWords of the copying loop is unsigned: when it is
    negative the loop runs past the end of the register. *)
Definition pm_shr (r : list Z) (n : nat) : res (list Z) :=
  match r with
  | [] => ROk []
  | _ :: _ =>
    let sw := (n / wn)%nat in let sb := (n mod wn)%nat in
    let x := if (sb =? 0)%nat then r else fst (shr_loop w (Z.of_nat sb) r) in
    if (sw =? 0)%nat then ROk x
    else if (sw <=? length x)%nat then ROk (skipn sw x ++ repeat 0 sw)
    else RMemory
  end.

(** gf2n.cpp:331-337, the loop of Times, from i = k - 1 down to 0.  XorWords is given the size of *this and writes that
    many words of the result. *)
Fixpoint pm_times_loop (junk : Z) (a b : list Z) (k : nat) (r : list Z) : res (list Z) :=
  match k with
  | O => ROk r
  | S i =>
    let r := pm_shl junk r 1 in
    if pm_coef b i then
      if (length a <=? length r)%nat then pm_times_loop junk a b i (store r (map2 Z.lxor r a)) else RMemory
    else pm_times_loop junk a b i r
  end.
(** gf2n.cpp:327-338, Times. *)
Definition pm_times (junk : Z) (a b : list Z) : res (list Z) :=
  pm_times_loop junk a b (pm_bit_count b) (pm_of_word 0 (pm_bit_count a + pm_bit_count b)).

(** gf2n.cpp:342, the squares of the polynomials of degree below 4. *)
Definition pm_square_map : list Z := [0; 1; 4; 5; 16; 17; 20; 21; 64; 65; 68; 69; 80; 81; 84; 85].
(** gf2n.cpp:350-351 ([h] = 0) and 353-354 ([h] = WORD_BITS/2): one word of the result; the loop variable j is 8 * k. *)
Definition pm_square_half (u h : Z) : Z :=
  fold_left (fun acc k => let j := 8 * Z.of_nat k in
    Z.lor acc (wd w (Z.shiftl (at_ pm_square_map (Z.to_nat (Z.shiftr u (j / 2 + h) mod 16))) j))) (seq 0 (wn / 8)) 0.
(** gf2n.cpp:340-358, Squared. *)
Definition pm_squared (a : list Z) : list Z := flat_map (fun u => [pm_square_half u 0; pm_square_half u (w / 2)]) a.

(** gf2n.cpp:518-523, operator!. *)
Definition pm_is_zero (r : list Z) : bool := forallb (fun x => x =? 0) r.
(** gf2n.cpp:525-538, Equals. *)
Definition pm_equals (a b : list Z) : bool :=
  let n := Nat.min (length a) (length b) in
  forallb (fun i => at_ a i =? at_ b i) (seq 0 n) && forallb (fun x => x =? 0) (skipn n a) && forallb (fun x => x =? 0) (skipn n b).

(** gf2n.cpp:373-382, the loop of Divide, from i = k - 1 down to 0; the pair is remainder, quotient. *)
Fixpoint pm_divide_loop (junk : Z) (dividend divisor : list Z) (degree k : nat) (rem quo : list Z) : list Z * list Z :=
  match k with
  | O => (rem, quo)
  | S i =>
    let rem := pm_shl junk rem 1 in
    let rem := upd 0 (Z.lor (at_ rem 0) (Z.b2z (pm_coef dividend i))) rem in
    if pm_coef rem degree
    then pm_divide_loop junk dividend divisor degree i (pm_xor_eq rem divisor) (pm_set_bit quo i true)
    else pm_divide_loop junk dividend divisor degree i rem quo
  end.
(** gf2n.cpp:360-383, Divide, and 385-397, DividedBy and Modulo. *)
Definition pm_divide (junk : Z) (dividend divisor : list Z) : res (list Z * list Z) :=
  if pm_is_zero divisor then RDivideByZero
  else
    let degree := (pm_bit_count divisor - 1)%nat in
    let rem := repeat 0 (bits_to_words w (degree + 1)) in
    let quo := if (pm_bit_count divisor <=? pm_bit_count dividend)%nat
               then repeat 0 (bits_to_words w (pm_bit_count dividend - pm_bit_count divisor + 1)) else [] in
    ROk (pm_divide_loop junk dividend divisor degree (pm_bit_count dividend) rem quo).
Definition pm_divided_by (junk : Z) (a b : list Z) : res (list Z) := rbind (pm_divide junk a b) (fun rq => ROk (snd rq)).
Definition pm_modulo (junk : Z) (a b : list Z) : res (list Z) := rbind (pm_divide junk a b) (fun rq => ROk (fst rq)).
End Gf2n.
