(** Polynomials over a ring by their coefficients, lowest first. *)
From Coq Require Import ZArith List.
From Verif Require Import Gf32Model.
Import ListNotations.
(** c0 + c1 x + c2 x^2 + ... *)
Fixpoint peval {F : Type} (zero : F) (add mul : F -> F -> F) (c : list F) (x : F) : F :=
  match c with
  | [] => zero
  | a :: r => add a (mul x (peval zero add mul r x))
  end.
(** over GF(2^32) *)
Definition gf_eval (c : list Z) (x : Z) : Z := peval 0%Z gf_add (gf_mul gf_modulus) c x.
