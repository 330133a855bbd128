(** Encoding of ECP points and VerifyPoint, ecp.cpp.

    Integers are their values (C35 to C39); Jacobi, ModularSquareRoot and IsPrime are parameters, whose contracts (C44, C75, C74)
    are hypotheses of the theorems.  A point is [None] if its flag identity is set.  The decoders are those that read an array,
    with encodedPointLen its length. *)
From Coq Require Import ZArith List Bool.
From Verif Require Import Base.
Import ListNotations.
Open Scope Z_scope.

Section EcCodec.
(** The modulus, the curve and MaxElementByteLength of the field (modarith.h:248-249). *)
Variables (p a b : Z) (len : nat).
Variables (jacobi msqrt : Z -> Z) (is_prime : bool).

(** ecp.h:90-91, EncodedPointSize. *)
Definition enc_size (compressed : bool) : nat := 1 + (if compressed then 1 else 2) * len.
(** ecp.cpp:158-174, EncodePoint; NullStore gives zeros. *)
Definition encode_point (compressed : bool) (P : option (Z * Z)) : list Z :=
  match P with
  | None => repeat 0 (enc_size compressed)
  | Some (x, y) =>
    if compressed then 2 + y mod 2 :: be_bytes len x
    else 4 :: be_bytes len x ++ be_bytes len y
  end.
(** ecp.cpp:99-156, DecodePoint; [None] is the result false. *)
Definition decode_point (l : list Z) : option (option (Z * Z)) :=
  match l with
  | [] => None
  | type :: r =>
    if type =? 0 then Some None
    else if (type =? 2) || (type =? 3) then
      if negb (length l =? enc_size true)%nat then None
      else if negb is_prime then None
      else
        let x := be_val (firstn len r) in
        let y := ((x * x + a) * x + b) mod p in
        if negb (jacobi y =? 1) then None
        else
          let y := msqrt y in
          let y := if negb (Z.land type 1 =? y mod 2) then p - y else y in
          Some (Some (x, y))
    else if type =? 4 then
      if negb (length l =? enc_size false)%nat then None
      else Some (Some (be_val (firstn len r), be_val (firstn len (skipn len r))))
    else None
  end.
(** ecp.cpp:218-225, VerifyPoint. *)
Definition verify_point (P : option (Z * Z)) : bool :=
  match P with
  | None => true
  | Some (x, y) => negb (x <? 0) && (x <? p) && negb (y <? 0) && (y <? p) && (Z.rem ((x * x + a) * x + b - y * y) p =? 0)
  end.
End EcCodec.
