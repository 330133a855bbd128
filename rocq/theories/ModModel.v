(** Model of the functions built on Integer: Gcd, the word inverse, ModularArithmetic and MontgomeryRepresentation. *)
From Coq Require Import ZArith List Bool Arith.
From Verif Require Import Base WordsModel IntegerModel ModSpec.
Import ListNotations.
Local Open Scope Z_scope.

Section Mod.
Variable w : Z.
Notation wn := (Z.to_nat w).

(** algebra.cpp:56-68, AbstractEuclideanDomain::Gcd, on integers (algebra.h:315-374, EuclideanDomainOf<Integer>; integer.cpp:4472-4475, Integer::Gcd):
    [g0] and [g1] are g[i0] and g[i1]. *)
Fixpoint gcd_loop (fuel : nat) (g0 g1 : integer) : res integer :=
  match fuel with
  | O => RStuck
  | S n => if compare g1 int_zero =? 0 then ROk g0
           else rbind (modulo w g0 g1) (fun t => gcd_loop n g1 t)
  end.
Definition int_gcd (fuel : nat) (a b : integer) : res integer := gcd_loop fuel (copy b) (copy a).
(** nbtheory.h:153-154, RelativelyPrime; 160-161, LCM. *)
Definition relatively_prime (fuel : nat) (a b : integer) : res bool := rbind (int_gcd fuel a b) (fun g => ROk (compare g int_one =? 0)).
Definition int_lcm (fuel : nat) (a b : integer) : res integer :=
  rbind (int_gcd fuel a b) (fun g => rbind (divided_by w a g) (fun q => ROk (times w q b))).
(** integer.cpp:4516-4541, InverseMod by a word. *)
Fixpoint inv_word_loop (fuel : nat) (m g0 g1 v0 v1 : Z) : res Z :=
  match fuel with
  | O => RStuck
  | S n => if g1 =? 0 then ROk 0
           else if g1 =? 1 then ROk v1
           else let y := g0 / g1 in let g0 := g0 mod g1 in let v0 := wd w (v0 + wd w (y * v1)) in
           if g0 =? 0 then ROk 0
           else if g0 =? 1 then ROk (wd w (m - v0))
           else let y := g1 / g0 in let g1 := g1 mod g0 in let v1 := wd w (v1 + wd w (y * v0)) in
           inv_word_loop n m g0 g1 v0 v1
  end.
Definition inverse_word (fuel : nat) (x : integer) (m : Z) : res Z :=
  rbind (modulo_word w x m) (fun g1 => inv_word_loop fuel m m g1 0 1).

(** modarith.h:54-55, ModularArithmetic(const Integer &modulus): [mod_ m] is m_modulus, a copy; [len_ m] is the number of words of
    m_result, that of the argument's register. The words of m_result beyond those of the modulus stay zero, and so does its
    sign. m_result1 is assigned from a temporary, which leaves it a copy (operator= keeps the register of the temporary only
    when it is the one a copy would have). *)
Record modarith := mkMod { mod_ : integer; len_ : nat }.
Definition make_mod (m : integer) : modarith := mkMod (copy m) (length (reg m)).
Definition in_result (ma : modarith) (r : list Z) : integer := mkInt false (store (repeat 0 (len_ ma)) r).
Definition same_size (a m : integer) : bool := (length (reg a) =? length (reg m))%nat.

(** integer.cpp:4574-4583, Half. *)
Definition ma_half (ma : modarith) (a : integer) : integer :=
  let m := mod_ ma in
  if same_size a m then in_result ma (div_pow2_mod w 1 (reg a) (reg m))
  else copy (if negb (get_bit w a 0) then shr w (copy a) 1 else shr w (plus w a m) 1).
(** integer.cpp:4588-4592 and 4608-4612: a sum of words reduced once. *)
Definition add_words (a b m : list Z) : list Z :=
  let '(r, c) := w_add w a b in
  if negb (c =? 0) || (w_cmp r m (length a) >=? 0) then fst (w_sub w r m) else r.
(** integer.cpp:4585-4603, Add. *)
Definition ma_add (ma : modarith) (a b : integer) : integer :=
  let m := mod_ ma in
  if same_size a m && same_size b m then in_result ma (add_words (reg a) (reg b) (reg m))
  else let r := copy (plus w a b) in if compare r m >=? 0 then minus_eq w r m else r.
(** integer.cpp:4605-4623, Accumulate. *)
Definition ma_accumulate (ma : modarith) (a b : integer) : integer :=
  let m := mod_ ma in
  if same_size a m && same_size b m then mkInt (neg a) (add_words (reg a) (reg b) (reg m))
  else let a := plus_eq w a b in if compare a m >=? 0 then minus_eq w a m else a.
(** integer.cpp:4629-4630 and 4647-4648: a difference of words, with the modulus added back after a borrow. *)
Definition sub_words (a b m : list Z) : list Z :=
  let '(r, c) := w_sub w a b in if negb (c =? 0) then fst (w_add w r m) else r.
(** integer.cpp:4625-4641, Subtract. *)
Definition ma_subtract (ma : modarith) (a b : integer) : integer :=
  let m := mod_ ma in
  if same_size a m && same_size b m then in_result ma (sub_words (reg a) (reg b) (reg m))
  else let r := copy (minus w a b) in if neg r then plus_eq w r m else r.
(** integer.cpp:4643-4658, Reduce. *)
Definition ma_reduce (ma : modarith) (a b : integer) : integer :=
  let m := mod_ ma in
  if same_size a m && same_size b m then mkInt (neg a) (sub_words (reg a) (reg b) (reg m))
  else let a := minus_eq w a b in if neg a then plus_eq w a m else a.
(** integer.cpp:4660-4670, Inverse. An operand longer than the modulus is outside the arrays. *)
Definition ma_inverse (ma : modarith) (a : integer) : res integer :=
  let m := mod_ ma in let n := length (reg a) in
  if is_zero a then ROk a
  else if (length (reg m) <? n)%nat then RMemory
  else let '(lo, c) := w_sub w (firstn n (reg m)) (reg a) in
       let hi := skipn n (reg m) in
       ROk (in_result ma (lo ++ if negb (c =? 0) then fst (w_dec w hi 1) else hi)).
(** modarith.h:190-198, Multiply and Square; 210-211, MultiplicativeInverse; 213-219, Divide: m_result1 is assigned the value. *)
Definition ma_multiply (ma : modarith) (a b : integer) : res integer := rbind (modulo w (times w a b) (mod_ ma)) (fun r => ROk (copy r)).
Definition ma_square (ma : modarith) (a : integer) : res integer := rbind (modulo w (squared w a) (mod_ ma)) (fun r => ROk (copy r)).
Definition ma_mult_inverse (ma : modarith) (a : integer) : res integer := rbind (inverse_mod w a (mod_ ma)) (fun r => ROk (copy r)).
Definition ma_divide (ma : modarith) (a b : integer) : res integer :=
  rbind (ma_mult_inverse ma b) (fun i => ma_multiply ma a i).

(** integer.cpp:4694-4703, MontgomeryRepresentation(m): throws for an even modulus; [inv_] is m_u. *)
Record montgomery := mkMont { arith_ : modarith; inv_ : list Z }.
Definition make_mont (m : integer) : res montgomery :=
  let ma := make_mod m in
  if negb (get_bit w (mod_ ma) 0) then RThrow else ROk (mkMont ma (w_inv w (reg (mod_ ma)))).
(** integer.cpp:4705-4731 (Multiply, Square), 4736-4744 (ConvertOut): the array T zero-filled to twice the words of the modulus, reduced
    into m_result. With more words the count passed to SetWords wraps around. *)
Definition mont_finish (mo : montgomery) (t : list Z) : res integer :=
  let m := reg (mod_ (arith_ mo)) in let n := length m in
  if (2 * n <? length t)%nat then RMemory
  else ROk (in_result (arith_ mo) (mont_reduce w (t ++ repeat 0 (2 * n - length t)) m (inv_ mo))).
Definition mont_multiply (mo : montgomery) (same : bool) (a b : integer) : res integer := mont_finish mo (w_asym w same (reg a) (reg b)).
Definition mont_square (mo : montgomery) (a : integer) : res integer := mont_finish mo (w_squ w (reg a)).
Definition mont_convert_out (mo : montgomery) (a : integer) : res integer := mont_finish mo (reg a).
(** modarith.h:313-314, ConvertIn; 318-319, MultiplicativeIdentity. *)
Definition mont_convert_in (mo : montgomery) (a : integer) : res integer :=
  let m := mod_ (arith_ mo) in modulo w (shl w (copy a) (wn * length (reg m))) m.
Definition mont_identity (mo : montgomery) : res integer :=
  let m := mod_ (arith_ mo) in rbind (modulo w (power2 w (wn * length (reg m))) m) (fun r => ROk (copy r)).
(** integer.cpp:4746-4767, MultiplicativeInverse. *)
Definition mont_inverse (mo : montgomery) (a : integer) : res integer :=
  let m := reg (mod_ (arith_ mo)) in let n := length m in
  if (2 * n <? length (reg a))%nat then RMemory
  else let r := mont_reduce w (reg a ++ repeat 0 (2 * n - length (reg a))) m (inv_ mo) in
       match almost_inverse w r m with
       | None => RStuck
       | Some (r, k) =>
         let nb := w * Z.of_nat n in
         ROk (in_result (arith_ mo) (if k >? nb then div_pow2_mod w (Z.to_nat (k - nb)) r m else mul_pow2_mod w (Z.to_nat (nb - k)) r m))
       end.

(** User code that evaluates an expression of the ring with either class, storing the result of every call in an Integer variable (integer.cpp:2972-2976). *)
Definition rmap {A B} (f : A -> B) (r : res A) : res B := rbind r (fun a => ROk (f a)).
Fixpoint mont_eval (mo : montgomery) (e : expr) : res integer :=
  match e with
  | EIn a => mont_convert_in mo a
  | EOne => mont_identity mo
  | EAdd a b => rbind (mont_eval mo a) (fun a => rbind (mont_eval mo b) (fun b => ROk (copy (ma_add (arith_ mo) a b))))
  | ESub a b => rbind (mont_eval mo a) (fun a => rbind (mont_eval mo b) (fun b => ROk (copy (ma_subtract (arith_ mo) a b))))
  | ENeg a => rbind (mont_eval mo a) (fun a => rmap copy (ma_inverse (arith_ mo) a))
  | EMul a b => rbind (mont_eval mo a) (fun a => rbind (mont_eval mo b) (fun b => rmap copy (mont_multiply mo false a b)))
  | ESqr a => rbind (mont_eval mo a) (fun a => rmap copy (mont_square mo a))
  | EInv a => rbind (mont_eval mo a) (fun a => rmap copy (mont_inverse mo a))
  end.
Definition mont_compute (m : integer) (e : expr) : res integer :=
  rbind (make_mont m) (fun mo => rbind (mont_eval mo e) (fun a => mont_convert_out mo a)).
(** modarith.h:115-124: ConvertIn of ModularArithmetic is a % modulus and ConvertOut the identity. *)
Fixpoint ma_eval (ma : modarith) (e : expr) : res integer :=
  match e with
  | EIn a => modulo w a (mod_ ma)
  | EOne => ROk int_one
  | EAdd a b => rbind (ma_eval ma a) (fun a => rbind (ma_eval ma b) (fun b => ROk (copy (ma_add ma a b))))
  | ESub a b => rbind (ma_eval ma a) (fun a => rbind (ma_eval ma b) (fun b => ROk (copy (ma_subtract ma a b))))
  | ENeg a => rbind (ma_eval ma a) (fun a => rmap copy (ma_inverse ma a))
  | EMul a b => rbind (ma_eval ma a) (fun a => rbind (ma_eval ma b) (fun b => rmap copy (ma_multiply ma a b)))
  | ESqr a => rbind (ma_eval ma a) (fun a => rmap copy (ma_square ma a))
  | EInv a => rbind (ma_eval ma a) (fun a => rmap copy (ma_mult_inverse ma a))
  end.
End Mod.
