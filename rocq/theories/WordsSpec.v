(** What a word array means. *)
From Coq Require Import ZArith List Bool Arith.
Import ListNotations.
Local Open Scope Z_scope.

(** The number the digits stand for, least significant digit first. *)
Fixpoint wval (w : Z) (l : list Z) : Z :=
  match l with [] => 0 | x :: r => x + 2 ^ w * wval w r end.
(** Every digit fits in a word. *)
Definition words (w : Z) (l : list Z) : Prop := Forall (fun x => 0 <= x < 2 ^ w) l.
(** The word sizes the library is built with (config_int.h). *)
Definition word_bits (w : Z) : Prop := w = 32 \/ w = 64.
(** The sizes RoundupSize can return and the multiplication recursion can halve. *)
Definition pow2_size (n : nat) : Prop := exists k, (1 <= k)%nat /\ n = (2 ^ k)%nat.
