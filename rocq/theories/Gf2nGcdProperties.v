(** C98, continued: PolynomialMod2::Gcd and InverseMod. *)
From Coq Require Import ZArith List Lia Bool Arith.
From Verif Require Import Base WordsSpec WordsModel WordsProofs IntegerModel IntegerProofs Gf2Spec Gf2Proofs Gf2nModel Gf2nProofs Gf2nGcdModel Gf2nGcdSpec Gf2nGcdProofs.
Import ListNotations.
Local Open Scope Z_scope.

(** Gcd returns the greatest common divisor. *)
Theorem C98_gcd w junk a b : word_bits w -> words w a -> words w b ->
  exists g, pm_gcd w junk a b = ROk g /\ words w g /\ is_pgcd (wval w g) (wval w a) (wval w b).
Proof. intros Hw Ha Hb. pose proof (word_bits_big w Hw). apply gcd_spec; auto. Qed.
Example C98_gcd_case : pm_gcd 64 77 [9; 0] [15; 0; 0] = ROk [3; 0] /\ pm_gcd 64 77 [] [6] = ROk [6].
Proof. split; reflexivity. Qed.

(** InverseMod of a polynomial of at most the degree of the modulus: an inverse if there is one, otherwise zero; and no
    memory outside the registers is touched on the way. *)
Theorem C98_inverse_mod_partial w junk a m : word_bits w -> words w a -> words w m -> wval w m <> 0 -> wval w a < 2 ^ (Z.log2 (wval w m) + 1) ->
  exists x, pm_inverse_mod w junk a m = ROk x /\ words w x /\
    (pcong (wval w m) (pmul (wval w x) (wval w a)) 1 \/
     wval w x = 0 /\ forall y, 0 <= y -> ~ pcong (wval w m) (pmul y (wval w a)) 1).
Proof. intros Hw Ha Hm N L. pose proof (word_bits_big w Hw). apply inverse_spec; auto. Qed.
Example C98_inverse_mod_partial_case : pm_inverse_mod 64 77 [83; 0] [283] = ROk [202] /\ pmul 202 83 = Z.lxor 1 (pmul 61 283) /\ pm_inverse_mod 64 77 [3] [5] = ROk [].
Proof. repeat split. Qed.
(** The missing part is false: a polynomial of higher degree than the modulus is reported to have no inverse. *)
Theorem C98_inverse_mod_unreduced_refuted w junk : word_bits w ->
  exists a m y, words w a /\ words w m /\ 0 <= y /\ pcong (wval w m) (pmul y (wval w a)) 1 /\ wval w m = 7 /\ pm_inverse_mod w junk a m = ROk pm_zero.
Proof.
  intros [-> | ->]; exists [8], [7], 1; (split; [repeat constructor; discriminate|]); (split; [repeat constructor; discriminate|]); (split; [lia|]); (split; [exists 3; split; [lia|reflexivity]|]); split; reflexivity.
Qed.
(** A zero modulus is refused. *)
Theorem C98_inverse_mod_zero w junk a m : word_bits w -> words w m -> wval w m = 0 -> pm_inverse_mod w junk a m = RDivideByZero.
Proof.
  intros Hw Hm Z0. pose proof (word_bits_big w Hw). unfold pm_inverse_mod. cbn [pm_inverse_loop]. unfold pm_ring_zero, pm_modulo at 1, pm_divide at 1. rewrite (is_zero_spec w) by auto. rewrite Z0. reflexivity.
Qed.

Print Assumptions C98_gcd.
Print Assumptions C98_inverse_mod_partial.
Print Assumptions C98_inverse_mod_unreduced_refuted.
Print Assumptions C98_inverse_mod_zero.
