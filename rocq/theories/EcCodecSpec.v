(** Points of y^2 = x^3 + a x + b over the integers modulo a prime, and the contracts of the square root functions. *)
From Coq Require Import ZArith Znumtheory.
Open Scope Z_scope.

(** A point of the curve, with coordinates reduced. *)
Definition curve_point (p a b : Z) (P : option (Z * Z)) : Prop :=
  match P with None => True | Some (x, y) => 0 <= x < p /\ 0 <= y < p /\ (y * y) mod p = (x * x * x + a * x + b) mod p end.
(** The Jacobi symbol is 1 on the squares that are not 0; roots are found of all squares. *)
Definition roots_ok (p : Z) (jacobi msqrt : Z -> Z) : Prop :=
  (forall v, 0 <= v < p -> (jacobi v = 1 <-> v <> 0 /\ exists r, (r * r) mod p = v)) /\
  (forall v, 0 <= v < p -> (exists r, (r * r) mod p = v) -> 0 <= msqrt v < p /\ (msqrt v * msqrt v) mod p = v).
