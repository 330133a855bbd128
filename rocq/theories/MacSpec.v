(** Specification of CMAC (NIST SP 800-38B) and CBC-MAC. *)
From Coq Require Import ZArith List Bool Arith.
From Verif Require Import Base Blocks.
Import ListNotations.
Local Open Scope Z_scope.

(** The CBC chain over a list of blocks, from an all-zero block. *)
Definition chain (e : list Z -> list Z) (B : nat) (bs : list (list Z)) : list Z :=
  fold_left (fun c b => e (xorl c b)) bs (repeat 0 B).

(** The polynomial that x^(8B) is replaced by, low terms only (SP 800-38B for 64 and 128 bits; for the
    wide blocks the polynomials x^256+x^10+x^5+x^2+1, x^512+x^8+x^5+x^2+1, x^1024+x^19+x^6+x+1). *)
Definition cmac_poly (B : nat) : option Z :=
  if Nat.eqb B 8 then Some (2 ^ 4 + 2 ^ 3 + 2 + 1)
  else if Nat.eqb B 16 then Some (2 ^ 7 + 2 ^ 2 + 2 + 1)
  else if Nat.eqb B 32 then Some (2 ^ 10 + 2 ^ 5 + 2 ^ 2 + 1)
  else if Nat.eqb B 64 then Some (2 ^ 8 + 2 ^ 5 + 2 ^ 2 + 1)
  else if Nat.eqb B 128 then Some (2 ^ 19 + 2 ^ 6 + 2 + 1)
  else None.
(** Multiplication by x of the polynomial whose coefficients are the bits of [k] (first bit of the string
    is the highest coefficient), modulo x^(8B) + p. *)
Definition dbl (B : nat) (p : Z) (k : list Z) : list Z :=
  let v := 2 * be_val k in
  be_bytes B (if v <? 2 ^ (8 * Z.of_nat B) then v else Z.lxor v (2 ^ (8 * Z.of_nat B) + p)).

(** SP 800-38B: [n] complete blocks come before the last one, which is complete, incomplete, or empty if
    the message is empty. *)
Definition cmac_spec (e : list Z -> list Z) (B : nat) (p : Z) (m : list Z) : list Z :=
  let k1 := dbl B p (e (repeat 0 B)) in
  let k2 := dbl B p k1 in
  let n := ((length m - 1) / B)%nat in
  let lastb := skipn (n * B) m in
  let masked := if Nat.eqb (length lastb) B then xorl lastb k1
                else xorl (lastb ++ [128] ++ repeat 0 (B - length lastb - 1)) k2 in
  chain e B (blocks B (firstn (n * B) m) ++ [masked]).

(** CBC-MAC of the message padded with zeros to a multiple of the block size. *)
Definition cbcmac_spec (e : list Z -> list Z) (B : nat) (m : list Z) : list Z :=
  chain e B (blocks B (m ++ repeat 0 ((B - length m mod B) mod B))).
