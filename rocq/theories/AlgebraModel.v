(** Model of the multi-exponentiation algorithms of algebra.cpp, over any class derived from AbstractGroup.

    Elements are values of a type [T]; [add], [dbl], [neg] and [zero] are the virtual functions Add, Double, Inverse and Identity,
    [fast] is InversionIsFast and [asg x] is the object that holds [x] after an assignment. [dflt] is a default-constructed element.
    Exponents are Integer objects. Simplifications: bit positions and counts are unbounded; references returned by the virtual
    functions are values. *)
From Coq Require Import ZArith List Bool Arith.
From Verif Require Import Base WordsModel IntegerModel ModModel.
Import ListNotations.
Local Open Scope Z_scope.

Section Alg.
Variable w : Z.
Notation wn := (Z.to_nat w).

(** algebra.cpp:210-256, WindowSlider. *)
Record slider := mkSlider { s_exp : integer; s_size : nat; s_begin : nat; s_window : Z; s_fast : bool; s_negate : bool; s_first : bool; s_done : bool }.
(** algebra.cpp:212-222, the constructor with windowSizeIn = 0. *)
Definition window_size (n : nat) : nat :=
  if (n <=? 17)%nat then 1%nat else if (n <=? 24)%nat then 2%nat else if (n <=? 70)%nat then 3%nat else if (n <=? 197)%nat then 4%nat
  else if (n <=? 539)%nat then 5%nat else if (n <=? 1434)%nat then 6%nat else 7%nat.
Definition make_slider (e : integer) (fast : bool) : slider := mkSlider (copy e) (window_size (bit_count w (copy e))) 0 0 fast false true false.
(** algebra.cpp:229-237, the search for the next bit that is set, from [k] on; [None]: there is none. At most [fuel] bits are passed. *)
Fixpoint skip_zeros (fuel : nat) (e : integer) (len k : nat) : option nat :=
  if get_bit w e k then Some k
  else if (len <=? k)%nat then None
  else match fuel with O => None | S f => skip_zeros f e len (S k) end.
(** algebra.cpp:224-250, FindNextWindow. The remainder modulo a power of two is a word (see [modulo_word]); the divisor is not zero. *)
Definition find_next (s : slider) : slider :=
  let len := (word_count (s_exp s) * wn)%nat in
  match skip_zeros len (s_exp s) len (if s_first s then 0 else s_size s)%nat with
  | None => mkSlider (s_exp s) (s_size s) (s_begin s) (s_window s) (s_fast s) (s_negate s) false true
  | Some k =>
    let e := shr w (s_exp s) k in
    let win := match modulo_word w e (2 ^ Z.of_nat (s_size s)) with ROk r => r | _ => 0 end in
    if s_fast s && get_bit w e (s_size s)
    then mkSlider (plus_eq w e (shl w (copy int_one) (s_size s))) (s_size s) (s_begin s + k) (2 ^ Z.of_nat (s_size s) - win) (s_fast s) true false (s_done s)
    else mkSlider e (s_size s) (s_begin s + k) win (s_fast s) false false (s_done s)
  end.

Section Group.
Variable T : Type.
Variables (add : T -> T -> T) (dbl neg asg : T -> T) (zero dflt : T) (fast : bool).
(** algebra.cpp:27-30, Accumulate. *)
Definition accumulate (a b : T) : T := asg (add a b).
Definition elt (l : list T) (i : nat) : T := nth i l dflt.

(** algebra.cpp:265-272: one exponent and its buckets. *)
Definition start (e : integer) : slider * list T :=
  let s := find_next (make_slider e fast) in (s, repeat zero (2 ^ (s_size s - 1))).
(** algebra.cpp:283-292: one exponent at bit position [pos], where [g] is the base doubled [pos] times. *)
Definition visit (pos : nat) (g : T) (sb : slider * list T) : slider * list T :=
  let '(s, b) := sb in
  if negb (s_done s) && (pos =? s_begin s)%nat then
    let k := Z.to_nat (s_window s / 2) in
    (find_next s, upd k (accumulate (elt b k) (if s_negate s then neg g else g)) b)
  else sb.
(** algebra.cpp:278-302, the loop over bit positions. *)
Fixpoint scan (fuel : nat) (pos : nat) (g : T) (l : list (slider * list T)) : option (list (slider * list T)) :=
  match fuel with
  | O => None
  | S f => let l := map (visit pos g) l in
           if existsb (fun sb => negb (s_done (fst sb))) l then scan f (S pos) (asg (dbl g)) l else Some l
  end.
(** algebra.cpp:310-314: buckets [j+1] down to 1, added up; the accumulated bucket and the result. *)
Fixpoint collapse (j : nat) (b : list T) (acc r : T) : T * T :=
  match j with
  | O => (acc, r)
  | S k => let acc := accumulate (elt b j) acc in collapse k b acc (accumulate r acc)
  end.
(** algebra.cpp:304-319, the result for one exponent. *)
Definition finish (b : list T) : T :=
  let n := length b in
  let r := asg (elt b (n - 1)) in
  if (1 <? n)%nat then
    let '(acc, r) := collapse (n - 2) b (elt b (n - 1)) r in
    asg (add (dbl r) (accumulate (elt b 0) acc))
  else r.
(** algebra.cpp:258-321, SimultaneousMultiply; 91-96, ScalarMultiply. [None]: out of fuel. *)
Definition simultaneous (fuel : nat) (base : T) (es : list integer) : option (list T) :=
  option_map (map (fun sb => finish (snd sb))) (scan fuel 0 (asg base) (map start es)).
Definition scalar_multiply (fuel : nat) (base : T) (e : integer) : option T := option_map (fun l => hd dflt l) (simultaneous fuel base [e]).

(** algebra.cpp:104-132: the table of combinations of x and y. An instruction stores in entry [k] the double of an entry or the sum of two. *)
Inductive entry := Dbl (k i : nat) | Add (k i j : nat).
Definition exec (t : list T) (i : entry) : list T :=
  match i with Dbl k i => upd k (asg (dbl (elt t i))) t | Add k i j => upd k (asg (add (elt t i) (elt t j))) t end.
(** [from], [from] + [step], ... below [to] *)
Fixpoint for_ (fuel from step to : nat) : list nat :=
  match fuel with O => [] | S f => if (from <? to)%nat then from :: for_ f (from + step) step to else [] end.
Definition table_prog (v : nat) : list entry :=
  let n := (2 ^ v)%nat in let m := (n * n)%nat in
  if (v =? 1)%nat then [Add 3 1 n]
  else [Dbl 2 1; Dbl (2 * n) n]
    ++ map (fun i => Add i (i - 2) 2) (for_ m 3 2 n)
    ++ concat (map (fun i => map (fun j => Add j (j - n) n) (for_ m (i + n) n m)) (for_ m 1 2 n))
    ++ map (fun i => Add i (i - 2 * n) (2 * n)) (for_ m (3 * n) (2 * n) m)
    ++ concat (map (fun i => map (fun j => Add j (j - 1) 1) (for_ m (i + 2) 2 (i + n))) (for_ m n (2 * n) m)).
Definition table (v : nat) (x y : T) : list T :=
  let n := (2 ^ v)%nat in fold_left exec (table_prog v) (upd n (asg y) (upd 1 (asg x) (repeat dflt (n * n)))).
(** algebra.cpp:148-154: both powers even. [before] and [after] count doublings. *)
Fixpoint halve (fuel : nat) (p1 p2 : Z) (before after : nat) : Z * Z * nat * nat :=
  match fuel with
  | O => (p1, p2, before, after)
  | S f => if (negb (p1 =? 0) || negb (p2 =? 0)) && Z.even p1 && Z.even p2 then halve f (p1 / 2) (p2 / 2) (before - 1) (S after) else (p1, p2, before, after)
  end.
Fixpoint doubles (n : nat) (r : T) : T := match n with O => r | S k => doubles k (asg (dbl r)) end.
(** algebra.cpp:139-173, the loop from bit [i - 1] down; [res]: the result, none yet the first time. *)
Fixpoint cascade_loop (i : nat) (v : nat) (t : list T) (e1 e2 : integer) (p1 p2 : Z) (prev : nat) (res : option T) : T :=
  match i with
  | O => match res with Some r => r | None => dflt end
  | S i =>
    let p1 := 2 * p1 + b2z (get_bit w e1 i) in
    let p2 := 2 * p2 + b2z (get_bit w e2 i) in
    let n := 2 ^ Z.of_nat v in
    if (i =? 0)%nat || (2 * p1 >=? n) || (2 * p2 >=? n) then
      let '(p1, p2, before, after) := halve v p1 p2 (prev - i) 0 in
      let k := Z.to_nat (Z.shiftl p2 (Z.of_nat v) + p1) in
      let r := match res with
               | None => asg (elt t k)
               | Some r => let r := doubles before r in if negb (p1 =? 0) || negb (p2 =? 0) then accumulate r (elt t k) else r
               end in
      cascade_loop i v t e1 e2 0 0 i (Some (doubles after r))
    else cascade_loop i v t e1 e2 p1 p2 prev res
  end.
(** algebra.cpp:98-177, CascadeScalarMultiply. *)
Definition cascade (x : T) (e1 : integer) (y : T) (e2 : integer) : T :=
  let len := Nat.max (bit_count w e1) (bit_count w e2) in
  if (len =? 0)%nat then zero
  else let v := if (len <=? 46)%nat then 1%nat else if (len <=? 260)%nat then 2%nat else 3%nat in
       cascade_loop len v (table v x y) e1 e2 0 0 (len - 1) None.

(** algebra.cpp:186-206, GeneralCascadeMultiplication of three pairs or more. [heap] stands for std::push_heap followed by std::pop_heap, and for
    std::make_heap followed by std::pop_heap: it rearranges the pairs. *)
Definition pairs : Type := list (T * integer).
Variable heap : pairs -> pairs.
Fixpoint general_loop (fuel f2 : nat) (l : pairs) : option T :=
  match fuel with
  | O => None
  | S f =>
    let b := hd (dflt, int_zero) l in let z := last l (dflt, int_zero) in
    if is_zero (snd b) then scalar_multiply f2 (fst z) (snd z)
    else match divide w (snd z) (snd b) with
         | ROk (r, q) =>
           let s := if compare q int_one =? 0 then Some (fst z) else scalar_multiply f2 (fst z) q in
           match s with
           | None => None
           | Some s => general_loop f f2 (heap ((accumulate (fst b) s, snd b) :: removelast (tl l) ++ [(fst z, r)]))
           end
         | _ => None
         end
  end.
(** algebra.cpp:179-208, GeneralCascadeMultiplication. *)
Definition general (fuel f2 : nat) (l : pairs) : option T :=
  match l with
  | [(x, e)] => scalar_multiply f2 x e
  | [(x, e1); (y, e2)] => Some (cascade x e1 y e2)
  | _ => general_loop fuel f2 (heap l)
  end.
End Group.

(** The multiplicative group of residues: algebra.h:131-168, MultiplicativeGroupT over ModularArithmetic (modarith.h:190-198) or
    MontgomeryRepresentation; InversionIsFast is false (algebra.h:67). A call that fails (the proofs show there is none) yields zero.
    Elements are assigned with operator= (integer.cpp:3099-3109), which leaves a copy. *)
Definition or_mont (r : res montgomery) (ma : modarith) : montgomery := match r with ROk x => x | _ => mkMont ma [] end.
Definition or0 (r : res integer) : integer := match r with ROk x => x | _ => int_zero end.
Definition ring_simultaneous (fuel : nat) (ma : modarith) (base : integer) (es : list integer) : option (list integer) :=
  simultaneous integer (fun a b => or0 (ma_multiply w ma a b)) (fun a => or0 (ma_square w ma a)) (fun a => or0 (ma_mult_inverse w ma a)) copy int_one int_zero false fuel base es.
Definition ring_cascade (ma : modarith) (x e1 y e2 : integer) : integer :=
  cascade integer (fun a b => or0 (ma_multiply w ma a b)) (fun a => or0 (ma_square w ma a)) copy int_one int_zero x e1 y e2.
Definition mont_simultaneous (fuel : nat) (mo : montgomery) (base : integer) (es : list integer) : option (list integer) :=
  simultaneous integer (fun a b => or0 (mont_multiply w mo false a b)) (fun a => or0 (mont_square w mo a)) (fun a => or0 (mont_inverse w mo a)) copy (or0 (mont_identity w mo)) int_zero false fuel base es.
Definition mont_cascade (mo : montgomery) (x e1 y e2 : integer) : integer :=
  cascade integer (fun a b => or0 (mont_multiply w mo false a b)) (fun a => or0 (mont_square w mo a)) copy (or0 (mont_identity w mo)) int_zero x e1 y e2.
(** integer.cpp:4671-4693, ModularArithmetic::CascadeExponentiate and SimultaneousExponentiate; algebra.cpp:323-328, Exponentiate. *)
Definition simultaneous_exponentiate (fuel : nat) (ma : modarith) (base : integer) (es : list integer) : option (list integer) :=
  if get_bit w (mod_ ma) 0 then
    let mo := or_mont (make_mont w (mod_ ma)) ma in
    option_map (map (fun r => or0 (mont_convert_out w mo r))) (mont_simultaneous fuel mo (or0 (mont_convert_in w mo base)) es)
  else ring_simultaneous fuel ma base es.
Definition exponentiate (fuel : nat) (ma : modarith) (base e : integer) : option integer :=
  option_map (fun l => hd int_zero l) (simultaneous_exponentiate fuel ma base [e]).
Definition cascade_exponentiate (ma : modarith) (x e1 y e2 : integer) : integer :=
  if get_bit w (mod_ ma) 0 then
    let mo := or_mont (make_mont w (mod_ ma)) ma in
    or0 (mont_convert_out w mo (mont_cascade mo (or0 (mont_convert_in w mo x)) e1 (or0 (mont_convert_in w mo y)) e2))
  else ring_cascade ma x e1 y e2.
(** integer.cpp:4463-4470, a_exp_b_mod_c. *)
Definition a_exp_b_mod_c (fuel : nat) (x e m : integer) : option integer := exponentiate fuel (make_mod m) x e.
End Alg.
