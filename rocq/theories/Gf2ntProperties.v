(** C99: multiplication and squaring in GF2NT. *)
From Coq Require Import ZArith List Lia Bool Arith.
From Verif Require Import Base WordsSpec WordsModel WordsProofs IntegerModel IntegerProofs Gf2Spec Gf2Proofs Gf2nModel Gf2nProofs Gf2nSquareProofs Gf2nGcdModel Gf2ntModel Gf2ntProofs.
Import ListNotations.
Local Open Scope Z_scope.

(** Reduced gives the remainder modulo the trinomial: congruent and of lower degree; no memory outside the arrays is
    touched.  An operand with an empty register is excluded when t0 - t1 is WORD_BITS or more. *)
Theorem C99_reduced_partial w junk t0 t1 a : word_bits w -> words w a -> (0 < t1 < t0)%nat ->
  Z.of_nat t0 - Z.of_nat t1 < w \/ a <> [] ->
  exists r, gt_reduced w junk t0 t1 a = ROk r /\ words w r /\
    pcong (2 ^ Z.of_nat t0 + 2 ^ Z.of_nat t1 + 1) (wval w a) (wval w r) /\ 0 <= wval w r < 2 ^ Z.of_nat t0.
Proof.
  intros Hw Ha Ht N. pose proof (word_bits_big w Hw). destruct (reduced_spec w Hw junk t0 t1 a Ha Ht N) as (r & E & Wr & C & L). exists r. pose proof (V_bound w r Wr). repeat split; auto; lia.
Qed.
Example C99_reduced_partial_case : gt_reduced 32 77 70 3 [0; 0; 64; 0; 1] = ROk [9; 2 ^ 29 + 2 ^ 26; 0] /\
  Z.lxor (wval 32 [0; 0; 64; 0; 1]) (wval 32 [9; 2 ^ 29 + 2 ^ 26; 0]) = pmul (2 ^ 58 + 1) (2 ^ 70 + 2 ^ 3 + 1).
Proof. split; reflexivity. Qed.

(** Square gives the square modulo the trinomial. *)
Theorem C99_square_partial w junk t0 t1 a : word_bits w -> words w a -> (0 < t1 < t0)%nat ->
  Z.of_nat t0 - Z.of_nat t1 < w \/ a <> [] ->
  exists r, gt_square w junk t0 t1 a = ROk r /\ words w r /\
    pcong (2 ^ Z.of_nat t0 + 2 ^ Z.of_nat t1 + 1) (pmul (wval w a) (wval w a)) (wval w r) /\ 0 <= wval w r < 2 ^ Z.of_nat t0.
Proof.
  intros Hw Ha Ht N. pose proof (word_bits_big w Hw). destruct (square_spec w Hw junk t0 t1 a Ha Ht N) as (r & E & Wr & C & L). exists r. pose proof (V_bound w r Wr). repeat split; auto; lia.
Qed.
Example C99_square_partial_case : gt_square 64 77 233 74 [0; 0; 0; 2 ^ 40] = ROk [0; 2 ^ 8; 2 ^ 18; 2 ^ 39] /\ gt_square 64 77 5 2 [30] = ROk [19].
Proof. split; reflexivity. Qed.

(** The excluded case fails: the zero of the class, PolynomialMod2::Zero(), has an empty register, and squaring it reads
    outside an array (SolveQuadraticEquation does so first thing in a field of even degree, gf2n.cpp:653-658). *)
Theorem C99_square_zero_memory_refuted w junk t0 t1 : word_bits w -> (0 < t1 < t0)%nat -> w <= Z.of_nat t0 - Z.of_nat t1 ->
  wval w pm_zero = 0 /\ gt_square w junk t0 t1 pm_zero = RMemory.
Proof. intros Hw Ht L. split; [reflexivity|]. unfold gt_square, gt_reduced. rewrite (proj2 (Z.ltb_ge _ _)) by lia. reflexivity. Qed.
Example C99_square_zero_memory_refuted_case : gt_square 64 77 100 15 pm_zero = RMemory /\ gt_square 64 77 100 15 [0] = ROk [0; 0].
Proof. split; reflexivity. Qed.

(** Multiply gives the product of two field elements, whatever the lengths of their registers. *)
Theorem C99_multiply w t0 t1 a b : word_bits w -> words w a -> words w b -> (0 < t1 < t0)%nat ->
  wval w a < 2 ^ Z.of_nat t0 -> wval w b < 2 ^ Z.of_nat t0 ->
  exists r, gt_multiply w t0 t1 a b = ROk r /\ words w r /\
    pcong (2 ^ Z.of_nat t0 + 2 ^ Z.of_nat t1 + 1) (pmul (wval w a) (wval w b)) (wval w r) /\ 0 <= wval w r < 2 ^ Z.of_nat t0.
Proof.
  intros Hw Ha Hb Ht La Lb. pose proof (word_bits_big w Hw). destruct (multiply_spec w Hw t0 t1 a b Ha Hb Ht La Lb) as (r & E & Wr & C & L). exists r. pose proof (V_bound w r Wr). split; auto. split; auto. split; [|lia]. apply pcong_sym. auto.
Qed.
Example C99_multiply_case : gt_multiply 64 233 74 [0; 0; 0; 2 ^ 40] [2; 0; 0; 2 ^ 40; 0] = ROk [1; 2 ^ 8 + 2 ^ 10; 2 ^ 18; 2 ^ 39] /\ gt_multiply 64 5 2 [30] [] = ROk [0].
Proof. split; reflexivity. Qed.

Print Assumptions C99_multiply.
Print Assumptions C99_reduced_partial.
Print Assumptions C99_square_partial.
Print Assumptions C99_square_zero_memory_refuted.
