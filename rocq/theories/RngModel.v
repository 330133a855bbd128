(** Model of the RandomNumberGenerator helpers of cryptlib.cpp and cryptlib.h, of LC_RNG and of X917RNG with a deterministic time vector.

    Simplifications: the generator behind GenerateWord32 is the list of 32-bit words its four-byte blocks make in memory; a run that asks for more of them than
    there are is [RStuck]. The clock of X917RNG is not modelled, so a time vector is always given; the cipher is a parameter. *)
From Coq Require Import ZArith List Bool Arith.
From Verif Require Import Base AsnModel IntegerModel ModesModel.
Import ListNotations.
Local Open Scope Z_scope.

(** misc.h:1131-1137, Crop on a word of [w] bits. *)
Definition crop (w v bits : Z) : Z := if bits <? w then Z.land v (2 ^ bits - 1) else v.

(** cryptlib.cpp:290-294: the loop of GenerateWord32. *)
Fixpoint word32_loop (range bits : Z) (words : list Z) : res (Z * list Z) :=
  match words with
  | [] => RStuck
  | v :: rest => let value := crop 32 v bits in if value >? range then word32_loop range bits rest else ROk (value, rest)
  end.
(** cryptlib.cpp:283-297, GenerateWord32. *)
Definition generate_word32 (min max : Z) (words : list Z) : res (Z * list Z) :=
  let range := (max - min) mod 2 ^ 32 in
  rbind (word32_loop range (bit_precision 32 range) words) (fun vr => ROk ((fst vr + min) mod 2 ^ 32, snd vr)).

(** std::iter_swap of the first element of [l] and the one at [i]. *)
Definition iter_swap {A} (l : list A) (i : nat) : list A :=
  match l, nth_error l i with x :: _, Some y => upd 0 y (upd i x l) | _, _ => l end.
(** cryptlib.h:1515-1520, Shuffle: [l] are the [n] elements from begin to end. *)
Fixpoint shuffle_loop {A} (n : nat) (l : list A) (words : list Z) : res (list A * list Z) :=
  match n with
  | O => ROk ([], words)
  | S k => rbind (generate_word32 0 ((Z.of_nat n - 1) mod 2 ^ 32) words) (fun iw =>
           if fst iw <? Z.of_nat n then
             let l := iter_swap l (Z.to_nat (fst iw)) in
             rbind (shuffle_loop k (skipn 1 l) (snd iw)) (fun r => ROk (firstn 1 l ++ fst r, snd r))
           else RMemory)
  end.
Definition shuffle {A} (l : list A) (words : list Z) : res (list A * list Z) := shuffle_loop (length l) l words.

(** rng.cpp:25-30: the constants of LC_RNG. *)
Definition LC_M := 2147483647.
Definition LC_Q := 44488.
Definition LC_A := 48271.
Definition LC_R := 3399.
(** rng.cpp:42-49: one step of the seed. [a] and [r] are promoted to int, the words make the arithmetic unsigned and modulo 2^32, and the result is then
    converted to a signed 64-bit number. *)
Definition lc_step (seed : Z) : Z :=
  let hi := seed / LC_Q in
  let lo := seed mod LC_Q in
  let test := (((LC_A * lo) mod 2 ^ 32) - ((LC_R * hi) mod 2 ^ 32)) mod 2 ^ 32 in
  if test >? 0 then test mod 2 ^ 32 else (test + LC_M) mod 2 ^ 32.
(** rng.cpp:51: the byte put out; misc.h:1000, GETBYTE. *)
Definition getbyte (x y : Z) : Z := Z.shiftr x (8 * y) mod 256.
Definition lc_byte (seed : Z) : Z := Z.lxor (Z.lxor (Z.lxor (getbyte seed 0) (getbyte seed 1)) (getbyte seed 2)) (getbyte seed 3).
(** rng.cpp:38-53, LC_RNG::GenerateBlock: the bytes and the seed left. *)
Fixpoint lc_generate (size : nat) (seed : Z) : list Z * Z :=
  match size with
  | O => ([], seed)
  | S k => let seed := lc_step seed in let '(out, last) := lc_generate k seed in (lc_byte seed :: out, last)
  end.

(** rng.h:60-100: the state of X917RNG: the seed vector V, the block last put out, the time vector. *)
Record x917 := mkX917 { x_seed : list Z; x_last : list Z; x_time : list Z }.
(** memcmp(a, b, n) == 0 on strings of the same length. *)
Fixpoint list_eqb (a b : list Z) : bool :=
  match a, b with [], [] => true | x :: a', y :: b' => (x =? y) && list_eqb a' b' | _, _ => false end.

Section X917.
Variable E : list Z -> list Z.
Variable bs : nat.
(** rng.cpp:96-131, GenerateIntoBufferedTransformation: [size] bytes; each round puts out at most a block. RThrow is the failure of the continuous test. *)
Fixpoint x917_loop (fuel : nat) (size : nat) (s : x917) : res (list Z * x917) :=
  match size, fuel with
  | O, _ => ROk ([], s)
  | _, O => RStuck
  | _, S k =>
      let datetime := E (x_time s) in
      let time := inc_counter (x_time s) bs in
      let r := E (xorl (x_seed s) datetime) in
      if list_eqb (x_last s) r then RThrow
      else let n := Nat.min bs size in
           rbind (x917_loop k (size - n) (mkX917 (E (xorl r datetime)) r time)) (fun os => ROk (firstn n r ++ fst os, snd os))
  end.
Definition x917_generate (size : nat) (s : x917) : res (list Z * x917) := x917_loop size size s.
(** rng.cpp:60-94, the constructor: it puts out one block, into m_lastBlock itself, so the next block must differ from it. [last] is what m_lastBlock held. *)
Definition x917_new (seed last time : list Z) : res x917 :=
  rbind (x917_generate bs (mkX917 seed last time)) (fun os => ROk (snd os)).
End X917.
