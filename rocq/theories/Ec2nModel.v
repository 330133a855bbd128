(** EC2N: points of the elliptic curve y^2 + x y = x^3 + a x^2 + b over a field of characteristic two, ec2n.cpp.

    The field is a carrier with its operations, as EC2N uses only the virtual operations of GF2NP.  Points, references and
    the member m_R that the functions overwrite are those of [EcModel]. *)
From Coq Require Import Bool.
From Verif Require Import EcModel.

Section Ec2n.
Variable F : Type.
Variables (f0 : F) (fadd fmul fdiv : F -> F -> F) (feqb : F -> F -> bool).
Local Notation point := (point F).
Local Notation ref := (ref F).

(** ec2n.cpp:197-207, Identity. *)
Definition e2_identity : ref := Own (mkPoint true f0 f0).
(** ec2n.cpp:181-195, Equal. *)
Definition e2_equal (p q : point) : bool :=
  if identity p && identity q then true
  else if identity p && negb (identity q) then false
  else if negb (identity p) && identity q then false
  else feqb (px p) (px q) && feqb (py p) (py q).
(** ec2n.cpp:209-220, Inverse. *)
Definition e2_inverse (mR : point) (P : ref) : ref * point :=
  if identity (deref mR P) then (P, mR)
  else
    let mR := mkPoint false (px mR) (py mR) in
    let mR := mkPoint (identity mR) (px mR) (fadd (px (deref mR P)) (py (deref mR P))) in
    let mR := mkPoint (identity mR) (px (deref mR P)) (py mR) in
    (Res, mR).
(** ec2n.cpp:244-261, Double; IsUnit of the field (gf2n.h:317-318) is "not zero". *)
Definition e2_double (a : F) (mR : point) (P : ref) : ref * point :=
  if identity (deref mR P) then (P, mR)
  else if feqb (px (deref mR P)) f0 then (e2_identity, mR)
  else
    let t := fdiv (py (deref mR P)) (px (deref mR P)) in
    let t := fadd t (px (deref mR P)) in
    let mR := mkPoint (identity mR) (px mR) (fmul (px (deref mR P)) (px (deref mR P))) in
    let mR := mkPoint (identity mR) (fmul t t) (py mR) in
    let mR := mkPoint (identity mR) (fadd (px mR) t) (py mR) in
    let mR := mkPoint (identity mR) (fadd (px mR) a) (py mR) in
    let mR := mkPoint (identity mR) (px mR) (fadd (py mR) (fmul t (px mR))) in
    let mR := mkPoint (identity mR) (px mR) (fadd (py mR) (px mR)) in
    let mR := mkPoint false (px mR) (py mR) in
    (Res, mR).
(** ec2n.cpp:222-242, Add. *)
Definition e2_add (a : F) (mR : point) (P Q : ref) : ref * point :=
  if identity (deref mR P) then (Q, mR)
  else if identity (deref mR Q) then (P, mR)
  else if e2_equal (deref mR P) (deref mR Q) then e2_double a mR P
  else if feqb (px (deref mR P)) (px (deref mR Q)) && feqb (py (deref mR P)) (fadd (px (deref mR Q)) (py (deref mR Q))) then (e2_identity, mR)
  else
    let t := fadd (py (deref mR P)) (py (deref mR Q)) in
    let t := fdiv t (fadd (px (deref mR P)) (px (deref mR Q))) in
    let x := fmul t t in
    let x := fadd x t in
    let x := fadd x (px (deref mR Q)) in
    let x := fadd x a in
    let mR := mkPoint (identity mR) (px mR) (fadd (py (deref mR P)) (fmul t x)) in
    let x := fadd x (px (deref mR P)) in
    let mR := mkPoint (identity mR) (px mR) (fadd (py mR) x) in
    let mR := mkPoint (identity mR) x (py mR) in
    let mR := mkPoint false (px mR) (py mR) in
    (Res, mR).
End Ec2n.
