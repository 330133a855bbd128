(** Specification of number-theoretic functions. *)
From Coq Require Import ZArith Znumtheory List.
From Verif Require Import Base.
Import ListNotations.
Local Open Scope Z_scope.

(** The Legendre symbol of [a] modulo the odd prime [p]: 0 for a multiple of [p], 1 for another square, -1 for a non-square. *)
Definition legendre (a p s : Z) : Prop :=
  (s = 0 /\ (p | a)) \/ (s = 1 /\ ~ (p | a) /\ exists x, (x * x) mod p = a mod p) \/ (s = -1 /\ ~ exists x, (x * x) mod p = a mod p).
(** The product of a list. *)
Definition product (l : list Z) : Z := fold_right Z.mul 1 l.
(** The Jacobi symbol of [a] over [b]: the product of the Legendre symbols over the prime factors of [b], with their multiplicities. *)
Definition jacobi_symbol (a b s : Z) : Prop :=
  exists ps ss, Forall prime ps /\ product ps = b /\ Forall2 (legendre a) ps ss /\ s = product ss.

(** The sequence V_k(p, 1) of Lucas. *)
Definition lucas_sequence (p : Z) (v : nat -> Z) : Prop := v 0%nat = 2 /\ v 1%nat = p /\ forall k, v (S (S k)) = p * v (S k) - v k.

(** What a random number generator returns: blocks of [n] bytes. *)
Definition blocks_of (n : nat) (blocks : list (list Z)) : Prop := Forall (fun b => length b = n /\ Forall (fun x => 0 <= x < 256) b) blocks.
(** The number a block of bytes gives when [bits] random bits are asked for. *)
Definition draw (bits : nat) (block : list Z) : Z := be_val block mod 2 ^ Z.of_nat bits.
(** The number of bits of a number that is not negative. *)
Definition bit_length (v : Z) : nat := if v =? 0 then 0%nat else Z.to_nat (Z.log2 v + 1).

(** Fermat's condition and the strong (Miller) condition on [n] with base [b]: with n-1 = 2^s q and q odd, b^q is one or one of b^q, b^2q, ..., b^(2^(s-1) q) is -1. *)
Definition fermat_condition (n b : Z) : Prop := b ^ (n - 1) mod n = 1.
Definition strong_condition (n b : Z) : Prop :=
  exists s q, n - 1 = 2 ^ Z.of_nat s * q /\ q mod 2 = 1 /\ (b ^ q mod n = 1 \/ exists i, (i < s)%nat /\ b ^ (2 ^ Z.of_nat i * q) mod n = n - 1).
