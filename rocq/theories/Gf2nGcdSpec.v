(** Divisibility of polynomials over GF(2). *)
From Coq Require Import ZArith.
From Verif Require Import Gf2Spec.
Local Open Scope Z_scope.
Definition pdivides (d a : Z) : Prop := exists q, 0 <= q /\ a = pmul q d.
(** [g] is a greatest common divisor of [a] and [b] (0 if both are 0); over GF(2) there is only one. *)
Definition is_pgcd (g a b : Z) : Prop := pdivides g a /\ pdivides g b /\ forall d, 0 <= d -> pdivides d a -> pdivides d b -> pdivides d g.
