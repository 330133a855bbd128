(** PolynomialMod2::Gcd and InverseMod (gf2n.cpp) through the Euclidean algorithms of algebra.cpp.

    The loops take a fuel argument; [RStuck] is running out of it, which the proofs exclude where they say so. *)
From Coq Require Import ZArith List Bool Arith.
From Verif Require Import Base WordsModel IntegerModel Gf2nModel.
Import ListNotations.
Local Open Scope Z_scope.

Section GcdModel.
Variable w : Z.
(** gf2n.cpp:183-205, Zero and One. *)
Definition pm_zero : list Z := [].
Definition pm_one : list Z := pm_of_word w 1 (Z.to_nat w).
(** gf2n.h:230, IsUnit. *)
Definition pm_is_unit (a : list Z) : bool := pm_equals a pm_one.

(** algebra.cpp:61-65, the loop of AbstractEuclideanDomain::Gcd with g[i0], g[i1]; algebra.h:322-326 and 364-365,
    EuclideanDomainOf. *)
Fixpoint pm_gcd_loop (junk : Z) (fuel : nat) (g0 g1 : list Z) : res (list Z) :=
  match fuel with
  | O => RStuck
  | S f => if pm_equals g1 pm_zero then ROk g0 else rbind (pm_modulo w junk g0 g1) (fun r => pm_gcd_loop junk f g1 r)
  end.
(** gf2n.cpp:593-596, Gcd; algebra.cpp:56-68. *)
Definition pm_gcd (junk : Z) (a b : list Z) : res (list Z) := pm_gcd_loop junk (S (pm_bit_count w a)) b a.

(** algebra.h:401-402, QuotientRing::Equal against Identity. *)
Definition pm_ring_zero (junk : Z) (m a : list Z) : res bool :=
  rbind (pm_modulo w junk (pm_xor a pm_zero) m) (fun r => ROk (pm_equals r pm_zero)).
(** algebra.cpp:77-85, the loop of QuotientRing::MultiplicativeInverse with g[i0], g[i1], v[i0], v[i1]. *)
Fixpoint pm_inverse_loop (junk : Z) (m : list Z) (fuel : nat) (g0 g1 v0 v1 : list Z) : res (list Z * list Z) :=
  match fuel with
  | O => RStuck
  | S f =>
    rbind (pm_ring_zero junk m g1) (fun z =>
    if z then ROk (g0, v0)
    else rbind (pm_divide w junk g0 g1) (fun ry =>
         rbind (pm_times w junk v1 (snd ry)) (fun p => pm_inverse_loop junk m f g1 (fst ry) v1 (pm_xor v0 p))))
  end.
(** gf2n.cpp:598-602, InverseMod; algebra.cpp:70-88. *)
Definition pm_inverse_mod (junk : Z) (a m : list Z) : res (list Z) :=
  rbind (pm_inverse_loop junk m (S (S (pm_bit_count w a))) m a pm_zero pm_one) (fun gv =>
  if pm_is_unit (fst gv) then pm_divided_by w junk (snd gv) (fst gv) else ROk pm_zero).
End GcdModel.
