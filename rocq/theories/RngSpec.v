(** What the random number helpers must do. *)
From Coq Require Import ZArith List Permutation.
From Verif Require Import Base RngModel NbSpec.
Import ListNotations.
Local Open Scope Z_scope.

(** The generator's words. *)
Definition words32 (ws : list Z) : Prop := Forall (fun v => 0 <= v < 2 ^ 32) ws.
(** The value a word gives when a number up to [range] is asked for: as many low bits as [range] has. *)
Definition low_bits (range v : Z) : Z := v mod 2 ^ Z.of_nat (bit_length range).
(** The words that choose a permutation of n elements: the k-th is below n-k. *)
Definition shuffle_words (n : nat) (ws : list Z) : Prop := length ws = n /\ forall k, (k < n)%nat -> 0 <= nth k ws 0 < Z.of_nat (n - k).

(** The multiplicative congruential generator of Park and Miller. *)
Definition park_miller (seed : Z) : Z := (48271 * seed) mod (2 ^ 31 - 1).
Fixpoint iterate {A} (f : A -> A) (n : nat) (x : A) : A := match n with O => x | S k => iterate f k (f x) end.

(** ANSI X9.17: with I = E(DT), R = E(I xor V), V' = E(R xor I); the time vector is a counter. The blocks R_0, R_1, ... *)
Fixpoint x917_blocks (E : list Z -> list Z) (bs : nat) (v : list Z) (dt : Z) (n : nat) : list (list Z) :=
  match n with
  | O => []
  | S k => let i := E (be_bytes bs dt) in let r := E (xorl i v) in r :: x917_blocks E bs (E (xorl r i)) (dt + 1) k
  end.
(** No block equals the one before it. *)
Fixpoint no_repeat (last : list Z) (bl : list (list Z)) : Prop := match bl with [] => True | b :: t => last <> b /\ no_repeat b t end.
