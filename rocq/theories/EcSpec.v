(** The elliptic curve y^2 = x^3 + a x + b over a field and the sum of two of its points by chord and tangent. *)
From Coq Require Import Field_theory.

Section EcSpec.
Variable F : Type.
Variables (f0 f1 : F) (fadd fsub fmul fdiv : F -> F -> F) (fopp finv : F -> F).
Local Infix "+" := fadd. Local Infix "-" := fsub. Local Infix "*" := fmul.

(** A field in which 1 + 1 is not 0. *)
Definition odd_field : Prop := field_theory f0 f1 fadd fmul fsub fopp fdiv finv eq /\ f1 + f1 <> f0.
(** The point at infinity is [None]. *)
Definition on_curve (a b : F) (P : option (F * F)) : Prop :=
  match P with None => True | Some (x, y) => y * y = x * x * x + a * x + b end.
(** The line y = l x + m meets the curve in x1, x2 and x3, counted with multiplicity. *)
Definition meets (a b l m x1 x2 x3 : F) : Prop :=
  forall x, x * x * x + a * x + b - (l * x + m) * (l * x + m) = (x - x1) * (x - x2) * (x - x3).
(** Infinity is neutral; points reflected in the x axis add to infinity; otherwise the sum is the reflection of the third
    point of the line through the two (of the tangent if they are the same). *)
Definition is_sum (a b : F) (P Q R : option (F * F)) : Prop :=
  match P, Q with
  | None, _ => R = Q
  | _, None => R = P
  | Some (x1, y1), Some (x2, y2) =>
    (x1 = x2 /\ y2 = fopp y1 /\ R = None) \/
    (~ (x1 = x2 /\ y2 = fopp y1) /\ exists l m x3 y3, R = Some (x3, y3) /\
      meets a b l m x1 x2 x3 /\ y1 = l * x1 + m /\ y2 = l * x2 + m /\ fopp y3 = l * x3 + m)
  end.
End EcSpec.
