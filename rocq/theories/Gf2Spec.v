(** Polynomials over GF(2) as non-negative integers: bit i is the coefficient of x^i; addition is Z.lxor. *)
From Coq Require Import ZArith.
Local Open Scope Z_scope.

(** The product: the sum of a * x^i over the bits i of b. *)
Fixpoint pmul_pos (a : Z) (b : positive) : Z :=
  match b with
  | xH => a
  | xO c => 2 * pmul_pos a c
  | xI c => Z.lxor a (2 * pmul_pos a c)
  end.
Definition pmul (a b : Z) : Z := match b with Zpos p => pmul_pos a p | _ => 0 end.
(** Congruence modulo f. *)
Definition pcong (f a b : Z) : Prop := exists q, 0 <= q /\ Z.lxor a b = pmul q f.
