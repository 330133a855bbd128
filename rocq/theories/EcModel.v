(** ECP: points of the elliptic curve y^2 = x^3 + a x + b and their addition, ecp.cpp.

    The field is a carrier with its operations, as ECP uses only the virtual operations of ModularArithmetic; that these
    are the arithmetic of integers modulo p is the subject of C73 and not repeated.  The functions return references: to one of
    their arguments, to a constant, or to the object's member m_R, which they overwrite; an argument may itself be such a
    reference to m_R.  A reference is therefore a [ref], and every read of it goes to the current m_R. *)
From Coq Require Import Bool.

Section Ec.
Variable F : Type.
Variables (f0 : F) (fadd fsub fmul fdiv : F -> F -> F) (fopp : F -> F) (feqb : F -> F -> bool).

(** ecpoint.h:19-36, ECPPoint. *)
Record point := mkPoint { identity : bool; px : F; py : F }.
Inductive ref := Own (p : point) | Res.
Definition deref (mR : point) (r : ref) : point := match r with Own p => p | Res => mR end.

(** ecp.cpp:240-250, Identity: a default-constructed point (ecpoint.h:25). *)
Definition ecp_identity : ref := Own (mkPoint true f0 f0).
(** ecp.cpp:226-238, Equal. *)
Definition ecp_equal (p q : point) : bool :=
  if identity p && identity q then true
  else if identity p && negb (identity q) then false
  else if negb (identity p) && identity q then false
  else feqb (px p) (px q) && feqb (py p) (py q).
(** ecp.cpp:252-263, Inverse.  The result is the reference returned and the new m_R. *)
Definition ecp_inverse (mR : point) (P : ref) : ref * point :=
  if identity (deref mR P) then (P, mR)
  else
    let mR := mkPoint false (px mR) (py mR) in
    let mR := mkPoint (identity mR) (px (deref mR P)) (py mR) in
    let mR := mkPoint (identity mR) (px mR) (fopp (py (deref mR P))) in
    (Res, mR).
(** ecp.cpp:282-296, Double; Double and Square of the field are given by its sum and product. *)
Definition ecp_double (a : F) (mR : point) (P : ref) : ref * point :=
  if identity (deref mR P) || feqb (py (deref mR P)) f0 then (ecp_identity, mR)
  else
    let t := fmul (px (deref mR P)) (px (deref mR P)) in
    let t := fadd (fadd (fadd t t) t) a in
    let t := fdiv t (fadd (py (deref mR P)) (py (deref mR P))) in
    let x := fsub (fsub (fmul t t) (px (deref mR P))) (px (deref mR P)) in
    let mR := mkPoint (identity mR) (px mR) (fsub (fmul t (fsub (px (deref mR P)) x)) (py (deref mR P))) in
    let mR := mkPoint (identity mR) x (py mR) in
    let mR := mkPoint false (px mR) (py mR) in
    (Res, mR).
(** ecp.cpp:265-280, Add. *)
Definition ecp_add (a : F) (mR : point) (P Q : ref) : ref * point :=
  if identity (deref mR P) then (Q, mR)
  else if identity (deref mR Q) then (P, mR)
  else if feqb (px (deref mR P)) (px (deref mR Q)) then
    if feqb (py (deref mR P)) (py (deref mR Q)) then ecp_double a mR P else (ecp_identity, mR)
  else
    let t := fsub (py (deref mR Q)) (py (deref mR P)) in
    let t := fdiv t (fsub (px (deref mR Q)) (px (deref mR P))) in
    let x := fsub (fsub (fmul t t) (px (deref mR P))) (px (deref mR Q)) in
    let mR := mkPoint (identity mR) (px mR) (fsub (fmul t (fsub (px (deref mR P)) x)) (py (deref mR P))) in
    let mR := mkPoint (identity mR) x (py mR) in
    let mR := mkPoint false (px mR) (py mR) in
    (Res, mR).
End Ec.
Arguments mkPoint {F}. Arguments identity {F}. Arguments px {F}. Arguments py {F}. Arguments Own {F}. Arguments Res {F}. Arguments deref {F}.
