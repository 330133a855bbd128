(** Model of number-theoretic functions of nbtheory.cpp on Integer objects.

    Simplifications: a variable that is assigned a result holds the object the operator returned, whatever its register was before; unsigned int counters do
    not wrap around; [fuel] bounds the rounds of a loop, and a run that exceeds it is [RStuck]; CRYPTOPP_ASSERT is compiled out. *)
From Coq Require Import ZArith List Bool Arith.
From Verif Require Import Base WordsModel IntegerModel ModModel AlgebraModel.
Import ListNotations.
Local Open Scope Z_scope.

Definition of_option {A} (o : option A) : res A := match o with Some a => ROk a | None => RStuck end.

Section Nb.
Variable w : Z.

(** nbtheory.cpp:526-529, CRT. *)
Definition crt (xp p xq q u : integer) : res integer :=
  rbind (modulo w (times w u (minus w xq xp)) q) (fun t => ROk (plus w (times w p t) xp)).
(** nbtheory.cpp:625-648, ModularRoot with exponents; nbtheory.h:226-227, ModularExponentiation. *)
Definition modular_root (fuel : nat) (a dp dq p q u : integer) : res integer :=
  rbind (modulo w a p) (fun ap => rbind (of_option (a_exp_b_mod_c w fuel ap dp p)) (fun p2 =>
  rbind (modulo w a q) (fun aq => rbind (of_option (a_exp_b_mod_c w fuel aq dq q)) (fun q2 => crt p2 p q2 q u)))).
(** nbtheory.cpp:650-661, ModularRoot with the public exponent; nbtheory.h:168-169, EuclideanMultiplicativeInverse. *)
Definition modular_root_of (fuel : nat) (a e p q : integer) : res integer :=
  rbind (inverse_mod w e (minus w p int_one)) (fun dp => rbind (inverse_mod w e (minus w q int_one)) (fun dq =>
  rbind (inverse_mod w p q) (fun u => modular_root fuel a dp dq p q u))).

(** The first one bit from position [i] on: the loops of nbtheory.cpp:90-92 and 786-788. *)
Fixpoint first_bit (n : nat) (x : integer) (i : nat) : res nat :=
  match n with O => RStuck | S k => if get_bit w x i then ROk i else first_bit k x (S i) end.
(** nbtheory.cpp:777-805, Jacobi. *)
Fixpoint jacobi_loop (fuel : nat) (a b : integer) (result : Z) : res Z :=
  match fuel with
  | O => RStuck
  | S f =>
    if is_zero a then ROk (if compare b int_one =? 0 then result else 0)
    else
      rbind (first_bit (S (bit_count w a)) a 0) (fun i => let a := shr w a i in
      rbind (modulo_word w b 8) (fun b8 =>
      let result := if Nat.odd i && ((b8 =? 3) || (b8 =? 5)) then - result else result in
      rbind (modulo_word w a 4) (fun a4 => rbind (modulo_word w b 4) (fun b4 =>
      let result := if (a4 =? 3) && (b4 =? 3) then - result else result in
      rbind (modulo w b a) (fun r => jacobi_loop f r a result)))))
  end.
Definition jacobi (fuel : nat) (a b : integer) : res Z := rbind (modulo w a b) (fun r => jacobi_loop fuel r b 1).

Definition lit (v : Z) : integer := of_long w v.
(** nbtheory.cpp:69-76, IsFermatProbablePrime. *)
Definition is_fermat_probable_prime (fuel : nat) (n b : integer) : res bool :=
  if compare n (lit 3) <=? 0 then ROk ((compare n (lit 2) =? 0) || (compare n (lit 3) =? 0))
  else rbind (of_option (a_exp_b_mod_c w fuel b (minus w n int_one) n)) (fun r => ROk (compare r int_one =? 0)).
(** nbtheory.cpp:99-107, the squarings of IsStrongProbablePrime: [k] rounds remain. *)
Fixpoint square_until (k : nat) (z n nm1 : integer) : res bool :=
  match k with
  | O => ROk false
  | S j => rbind (modulo w (squared w z) n) (fun z =>
           if compare z nm1 =? 0 then ROk true else if compare z int_one =? 0 then ROk false else square_until j z n nm1)
  end.
(** nbtheory.cpp:78-109, IsStrongProbablePrime. *)
Definition is_strong_probable_prime (fuel : nat) (n b : integer) : res bool :=
  if compare n (lit 3) <=? 0 then ROk ((compare n (lit 2) =? 0) || (compare n (lit 3) =? 0))
  else if negb (get_bit w n 0) && negb (compare n (lit 2) =? 0) then ROk false
  else rbind (int_gcd w fuel b n) (fun g =>
    if negb (compare g int_one =? 0) then ROk false
    else
      let nm1 := minus w n int_one in
      rbind (first_bit (S (bit_count w nm1)) nm1 0) (fun a =>
      rbind (of_option (a_exp_b_mod_c w fuel b (shr w nm1 a) n)) (fun z =>
      if (compare z int_one =? 0) || (compare z nm1 =? 0) then ROk true else square_until (a - 1) z n nm1))).

(** integer.cpp:3520-3532, Randomize of [nbits] bits from the next block of the generator; misc.h:1133-1139, Crop. *)
Definition randomize_bits (nbits : nat) (block : list Z) : integer :=
  decode w false (match block with [] => [] | b :: t => b mod 2 ^ Z.of_nat (nbits mod 8) :: t end).
(** integer.cpp:3534-3549, Randomize in a range. The generator is the list of blocks it still returns, of the length asked for (nbits/8 + 1). *)
Fixpoint randomize_loop (range : integer) (nbits : nat) (blocks : list (list Z)) : res (integer * list (list Z)) :=
  match blocks with
  | [] => RStuck
  | b :: rest => let r := randomize_bits nbits b in if compare r range >? 0 then randomize_loop range nbits rest else ROk (r, rest)
  end.
Definition randomize (lo hi : integer) (blocks : list (list Z)) : res (integer * list (list Z)) :=
  if compare lo hi >? 0 then RThrow
  else let range := minus w hi lo in
       rbind (randomize_loop range (bit_count w range) blocks) (fun rb => ROk (plus_eq w (fst rb) lo, snd rb)).
(** nbtheory.cpp:111-126, RabinMillerTest. *)
Fixpoint rabin_miller_loop (fuel rounds : nat) (n : integer) (blocks : list (list Z)) : res bool :=
  match rounds with
  | O => ROk true
  | S k => rbind (randomize (lit 2) (minus w n (lit 2)) blocks) (fun bb =>
           rbind (is_strong_probable_prime fuel n (fst bb)) (fun ok => if negb ok then ROk false else rabin_miller_loop fuel k n (snd bb)))
  end.
Definition rabin_miller_test (fuel rounds : nat) (n : integer) (blocks : list (list Z)) : res bool :=
  if compare n (lit 3) <=? 0 then ROk ((compare n (lit 2) =? 0) || (compare n (lit 3) =? 0)) else rabin_miller_loop fuel rounds n blocks.

(** nbtheory.cpp:553-559: q and r such that p-1 is q times 2^r. *)
Fixpoint halve_even (fuel : nat) (q : integer) (r : nat) : res (integer * nat) :=
  match fuel with O => RStuck | S f => if get_bit w q 0 then ROk (q, r) else halve_even f (shr w q 1) (S r) end.
(** nbtheory.cpp:561-563: a number whose Jacobi symbol is -1. *)
Fixpoint non_residue (fuel : nat) (n p : integer) (f2 : nat) : res integer :=
  match fuel with O => RStuck | S f => rbind (jacobi f2 n p) (fun j => if j =? -1 then ROk n else non_residue f (incr w n) p f2) end.
(** nbtheory.cpp:574-581: squares [b] until it is one, at most [r] times; [None] when the count reaches [r]. *)
Fixpoint order2 (fuel : nat) (b p : integer) (m r : nat) : res (option nat) :=
  match fuel with
  | O => RStuck
  | S f => let m := S m in rbind (modulo w (squared w b) p) (fun b =>
           if (m =? r)%nat then ROk None else if compare b int_one =? 0 then ROk (Some m) else order2 f b p m r)
  end.
(** nbtheory.cpp:583-585. *)
Fixpoint square_n (k : nat) (t p : integer) : res integer :=
  match k with O => ROk t | S j => rbind (modulo w (squared w t) p) (fun t => square_n j t p) end.
(** nbtheory.cpp:571-590, the loop of ModularSquareRoot. *)
Fixpoint tonelli (fuel : nat) (x y b p : integer) (r : nat) : res integer :=
  match fuel with
  | O => RStuck
  | S f =>
    if compare b int_one =? 0 then ROk x
    else rbind (order2 (S r) b p 0 r) (fun om =>
      match om with
      | None => ROk int_zero
      | Some m =>
        rbind (square_n (r - m - 1) y p) (fun t =>
        rbind (modulo w (squared w t) p) (fun y =>
        rbind (modulo w (times w x t) p) (fun x =>
        rbind (modulo w (times w b y) p) (fun b => tonelli f x y b p m))))
      end)
  end.
(** nbtheory.cpp:545-595, ModularSquareRoot. *)
Definition modular_square_root (fuel : nat) (a p : integer) : res integer :=
  rbind (modulo_word w p 4) (fun p4 =>
  if p4 =? 3 then rbind (divided_by w (plus w p int_one) (lit 4)) (fun e => of_option (a_exp_b_mod_c w fuel a e p))
  else
    rbind (halve_even fuel (minus w p int_one) 0) (fun qr => let q := fst qr in let r := snd qr in
    rbind (non_residue fuel (lit 2) p fuel) (fun n =>
    rbind (of_option (a_exp_b_mod_c w fuel n q p)) (fun y =>
    rbind (divided_by w (minus w q int_one) (lit 2)) (fun e =>
    rbind (of_option (a_exp_b_mod_c w fuel a e p)) (fun x =>
    rbind (modulo w (squared w x) p) (fun x2 => rbind (modulo w (times w x2 a) p) (fun b =>
    rbind (modulo w (times w a x) p) (fun x => tonelli fuel x y b p r))))))))).

(** nbtheory.cpp:597-623, SolveModularQuadraticEquation: the two roots, or none. *)
Definition solve_quadratic (fuel : nat) (a b c p : integer) : res (option (integer * integer)) :=
  rbind (modulo w (minus w (squared w b) (times w (times w (lit 4) a) c)) p) (fun d =>
  rbind (jacobi fuel d p) (fun j =>
  if j =? 0 then
    rbind (inverse_mod w (plus w a a) p) (fun t => rbind (modulo w (times w (int_opp b) t) p) (fun r => ROk (Some (r, r))))
  else if j =? 1 then
    rbind (modular_square_root fuel d p) (fun s => rbind (inverse_mod w (plus w a a) p) (fun t =>
    rbind (modulo w (times w (minus w s b) t) p) (fun r1 => rbind (modulo w (times w (minus w (int_opp s) b) t) p) (fun r2 => ROk (Some (r1, r2))))))
  else ROk None)).

(** nbtheory.cpp:821-837: the bits of [e] below position [i], from the highest down. *)
Fixpoint lucas_loop (mo : montgomery) (e : integer) (i : nat) (p two v v1 : integer) : res integer :=
  match i with
  | O => ROk v
  | S i =>
    rbind (mont_multiply w mo false v v1) (fun vv =>
    if get_bit w e i then
      let v := copy (ma_subtract w (arith_ mo) vv p) in
      rbind (mont_square w mo v1) (fun s => lucas_loop mo e i p two v (copy (ma_subtract w (arith_ mo) s two)))
    else
      let v1 := copy (ma_subtract w (arith_ mo) vv p) in
      rbind (mont_square w mo v) (fun s => lucas_loop mo e i p two (copy (ma_subtract w (arith_ mo) s two)) v1))
  end.
(** nbtheory.cpp:807-839, Lucas. *)
Definition lucas (e pin n : integer) : res integer :=
  let i := bit_count w e in
  if (i =? 0)%nat then ROk int_two
  else rbind (make_mont w n) (fun mo =>
    rbind (modulo w pin n) (fun pn => rbind (mont_convert_in w mo pn) (fun p => rbind (mont_convert_in w mo int_two) (fun two =>
    rbind (mont_square w mo p) (fun s => rbind (lucas_loop mo e (i - 1) p two p (copy (ma_subtract w (arith_ mo) s two))) (fun v =>
    mont_convert_out w mo v)))))).
End Nb.
