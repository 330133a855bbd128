(** GF2NT of gf2n.cpp: reduction, squaring and multiplication in the field of polynomials modulo a trinomial x^t0 + x^t1 + 1.

    Registers are those of [Gf2nModel].  An array index is a [Z], so that one below zero (in the source, one that wraps
    around) is outside the array like one beyond its end; [RMemory] is an access outside the array.  Simplifications: the
    degrees are unbounded; the third exponent is 0, as the constructor asserts; [result] is the returned value. *)
From Coq Require Import ZArith List Bool Arith.
From Verif Require Import Base AsnModel WordsModel IntegerModel Gf2nModel.
Import ListNotations.
Local Open Scope Z_scope.

Section Gf2nt.
Variable w : Z.

(** b[idx] ^= v *)
Definition gt_xor (idx v : Z) (b : list Z) : res (list Z) :=
  if (0 <=? idx) && (idx <? Z.of_nat (length b)) then ROk (upd (Z.to_nat idx) (Z.lxor (at_ b (Z.to_nat idx)) v) b) else RMemory.
(** gf2n.cpp:867-873 with [s] = t0, 875-881 with [s] = t0-t1: word [temp] of index [i], shifted down by [s] bits. *)
Definition gt_fold (s i temp : Z) (b : list Z) : res (list Z) :=
  if s mod w =? 0 then gt_xor (i - s / w) temp b
  else rbind (gt_xor (i - s / w) (Z.shiftr temp (s mod w)) b) (fun b =>
       gt_xor (i - s / w - 1) (wd w (Z.shiftl temp (w - s mod w))) b).
(** gf2n.cpp:862-882, the loop over the words from the top down to word [n] = BitsToWords(t0); [k] are left. *)
Fixpoint gt_loop (t0 t1 : Z) (n k : nat) (b : list Z) : res (list Z) :=
  match k with
  | O => ROk b
  | S k => let i := Z.of_nat (n + k) in let temp := at_ b (n + k) in
           rbind (gt_fold t0 i temp b) (fun b => rbind (gt_fold (t0 - t1) i temp b) (gt_loop t0 t1 n k))
  end.
(** gf2n.cpp:884-902, the bits of word [i] from t0 % WORD_BITS on. *)
Definition gt_last (t0 t1 : Z) (i : nat) (b : list Z) : res (list Z) :=
  let mask := 2 ^ (t0 mod w) - 1 in
  let temp := Z.ldiff (at_ b i) mask in
  let b := upd i (Z.land (at_ b i) mask) b in
  let d := t0 - t1 in
  rbind (gt_xor (Z.of_nat i - t0 / w) (Z.shiftr temp (t0 mod w)) b) (fun b =>
  if d mod w =? 0 then gt_xor (Z.of_nat i - d / w) temp b
  else rbind (gt_xor (Z.of_nat i - d / w) (Z.shiftr temp (d mod w)) b) (fun b =>
       if d mod w >? t0 mod w then gt_xor (Z.of_nat i - d / w - 1) (wd w (Z.shiftl temp (w - d mod w))) b else ROk b)).
(** gf2n.cpp:855-907, Reduced.  Of an empty array the loop starts at the index 2^n - 1 (size_t) and reads it. *)
Definition gt_reduced (junk : Z) (t0 t1 : nat) (a : list Z) : res (list Z) :=
  if Z.of_nat t0 - Z.of_nat t1 <? w then rbind (pm_trinomial w t0 t1 0) (fun m => pm_modulo w junk a m)
  else
    let n := bits_to_words w t0 in
    if (length a =? 0)%nat then RMemory
    else
      rbind (gt_loop (Z.of_nat t0) (Z.of_nat t1) n (length a - n) a) (fun b =>
      rbind (if (n <=? length a)%nat && negb (Z.of_nat t0 mod w =? 0) then gt_last (Z.of_nat t0) (Z.of_nat t1) (n - 1) b else ROk b) (fun b =>
      ROk (firstn n b ++ repeat 0 (n - length b)))).
(** gf2n.h:347-348, Square. *)
Definition gt_square (junk : Z) (t0 t1 : nat) (a : list Z) : res (list Z) := gt_reduced junk t0 t1 (pm_squared w a).

(** gf2n.cpp:834-846, the loop of Multiply: bit [k] - 1 is next; [n] is the number of words of r, [md] the modulus. *)
Fixpoint gt_mul_loop (m n : nat) (md a b : list Z) (k : nat) (r : list Z) : list Z :=
  match k with
  | O => r
  | S i =>
    let top := pm_coef w r (m - 1) in
    let r := fst (shl_bits w r 1) in
    let r := if top then store r (map2 Z.lxor r (firstn n md)) else r in
    let r := if pm_coef w b i then store r (map2 Z.lxor r (firstn (Nat.min (length a) n) a)) else r in
    gt_mul_loop m n md a b i r
  end.
(** gf2n.cpp:829-853, Multiply: XorWords reads [n] words of the modulus; misc.h Crop keeps the low bits. *)
Definition gt_multiply (t0 t1 : nat) (a b : list Z) : res (list Z) :=
  rbind (pm_trinomial w t0 t1 0) (fun md =>
  let n := bits_to_words w t0 in
  if (length md <? n)%nat then RMemory
  else
    let r := gt_mul_loop t0 n md a b t0 (repeat 0 n) in
    ROk (if Z.of_nat t0 mod w =? 0 then r else upd (n - 1) (Z.land (at_ r (n - 1)) (2 ^ (Z.of_nat t0 mod w) - 1)) r)).
End Gf2nt.
