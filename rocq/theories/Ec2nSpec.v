(** The elliptic curve y^2 + x y = x^3 + a x^2 + b over a field of characteristic two and the sum of two of its points. *)
From Coq Require Import Field_theory.

Section Ec2nSpec.
Variable F : Type.
Variables (f0 f1 : F) (fadd fsub fmul fdiv : F -> F -> F) (fopp finv : F -> F).
Local Infix "+" := fadd. Local Infix "-" := fsub. Local Infix "*" := fmul.

(** A field in which 1 + 1 is 0. *)
Definition even_field : Prop := field_theory f0 f1 fadd fmul fsub fopp fdiv finv eq /\ f1 + f1 = f0.
(** The point at infinity is [None]. *)
Definition on_curve2 (a b : F) (P : option (F * F)) : Prop :=
  match P with None => True | Some (x, y) => y * y + x * y = x * x * x + a * x * x + b end.
(** The negative of a point: the other point of the curve with the same x. *)
Definition neg2 (P : option (F * F)) : option (F * F) := match P with None => None | Some (x, y) => Some (x, x + y) end.
(** The line y = l x + m meets the curve in x1, x2 and x3, counted with multiplicity. *)
Definition meets2 (a b l m x1 x2 x3 : F) : Prop :=
  forall x, x * x * x + a * x * x + b - ((l * x + m) * (l * x + m) + x * (l * x + m)) = (x - x1) * (x - x2) * (x - x3).
(** Infinity is neutral; a point and its negative add to infinity; otherwise the sum is the negative of the third point of
    the line through the two (of the tangent if they are the same). *)
Definition is_sum2 (a b : F) (P Q R : option (F * F)) : Prop :=
  match P, Q with
  | None, _ => R = Q
  | _, None => R = P
  | Some (x1, y1), Some (x2, y2) =>
    (Q = neg2 P /\ R = None) \/
    (Q <> neg2 P /\ exists l m x3, R = neg2 (Some (x3, l * x3 + m)) /\
      meets2 a b l m x1 x2 x3 /\ y1 = l * x1 + m /\ y2 = l * x2 + m)
  end.
End Ec2nSpec.
