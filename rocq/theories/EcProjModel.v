(** The parts of ECP::SimultaneousMultiply that work on projective coordinates: ProjectiveDoubling and ParallelInvert, ecp.cpp.

    The field is a carrier with its operations, as in [EcModel]. *)
From Coq Require Import List Bool.
From Verif Require Import EcModel.
Import ListNotations.

Section EcProj.
Variable F : Type.
Variables (f0 f1 : F) (fadd fsub fmul : F -> F -> F) (finv fhalf : F -> F) (feqb : F -> F -> bool).

(** ecp.cpp:332-378, the members P.x, P.y, P.z, sixteenY4 and aZ4 of ProjectiveDoubling; the others are temporaries. *)
Record pd := mkPd { pX : F; pY : F; pZ : F; sixteenY4 : F; aZ4 : F }.
(** ecp.cpp:335-351, the constructor. *)
Definition pd_init (a : F) (Q : point F) : pd :=
  if identity Q then mkPd f1 f1 f0 f1 f0 else mkPd (px Q) (py Q) f1 f1 a.
(** ecp.cpp:353-371, Double; Double and Square of the field are given by its sum and product. *)
Definition pd_double (d : pd) : pd :=
  let twoY := fadd (pY d) (pY d) in
  let z := fmul (pZ d) twoY in
  let fourY2 := fmul twoY twoY in
  let S := fmul fourY2 (pX d) in
  let aZ4 := fmul (aZ4 d) (sixteenY4 d) in
  let M := fmul (pX d) (pX d) in
  let M := fadd (fadd (fadd M M) M) aZ4 in
  let x := fmul M M in
  let x := fsub x S in
  let x := fsub x S in
  let S := fsub S x in
  let y := fmul M S in
  let sixteenY4 := fmul fourY2 fourY2 in
  let y := fsub y (fhalf sixteenY4) in
  mkPd x y z sixteenY4 aZ4.

(** ecp.cpp:304-309, the products of neighbours, the last element alone if the number is odd. *)
Fixpoint pairs_mul (l : list F) : list F :=
  match l with x :: y :: r => fmul x y :: pairs_mul r | _ => l end.
(** ecp.cpp:313-328, the inverses of neighbours from the inverse of their product. *)
Fixpoint pairs_back (l v : list F) : list F :=
  match l, v with
  | x :: y :: r, i :: v' => if feqb i f0 then finv x :: finv y :: pairs_back r v' else fmul y i :: fmul x i :: pairs_back r v'
  | _ :: nil, i :: _ => [i]
  | _, _ => []
  end.
(** ecp.cpp:296-330, ParallelInvert; the recursion is on a vector of (n + 1) / 2 elements, the fuel is the length. *)
Fixpoint par_inv (fuel : nat) (l : list F) : list F :=
  match fuel, l with
  | S fuel', x :: y :: r => pairs_back l (par_inv fuel' (pairs_mul l))
  | S _, [x] => [finv x]
  | _, _ => l
  end.
Definition parallel_invert (l : list F) : list F := par_inv (length l) l.
End EcProj.
Arguments pX {F}. Arguments pY {F}. Arguments pZ {F}. Arguments sixteenY4 {F}. Arguments aZ4 {F}. Arguments mkPd {F}.
