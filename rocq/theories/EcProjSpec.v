(** Projective coordinates and repeated doubling of a point. *)
From Verif Require Import EcSpec.

Section EcProjSpec.
Variable F : Type.
Variables (f0 : F) (fadd fsub fmul : F -> F -> F) (fopp : F -> F).
Local Infix "*" := fmul.

(** (X, Y, Z) stands for (X / Z^2, Y / Z^3), and for infinity if Z is 0. *)
Definition stands_for (X Y Z : F) (P : option (F * F)) : Prop :=
  match P with None => Z = f0 | Some (x, y) => Z <> f0 /\ X = x * (Z * Z) /\ Y = y * (Z * Z * Z) end.
(** R is 2^n P. *)
Inductive doubled (a b : F) (P : option (F * F)) : nat -> option (F * F) -> Prop :=
  | doubled_0 : doubled a b P 0 P
  | doubled_S n Q R : doubled a b P n Q -> is_sum F fadd fsub fmul fopp a b Q Q R -> doubled a b P (S n) R.
End EcProjSpec.
