(** C98: PolynomialMod2 computes with polynomials over GF(2).

    The polynomial a register stands for is the number [wval w] of its words (WordsSpec), bit i being the coefficient of
    x^i; the sum of two polynomials is [Z.lxor], the product [pmul] (Gf2Spec), the degree of a non-zero one [Z.log2].
    [junk] is whatever the words hold that a growing register takes over uninitialised. *)
From Coq Require Import ZArith List Lia Bool Arith.
From Verif Require Import Base WordsSpec WordsModel WordsProofs IntegerModel IntegerProofs Gf2Spec Gf2Proofs Gf2nModel Gf2nProofs Gf2nSquareProofs.
Import ListNotations.
Local Open Scope Z_scope.

(** Reading: coefficients, the number of coefficients, comparison with zero and with another polynomial. *)
Theorem C98_read w a b : word_bits w -> words w a -> words w b ->
  (forall i, pm_coef w a i = Z.testbit (wval w a) (Z.of_nat i)) /\
  Z.of_nat (pm_bit_count w a) = (if wval w a =? 0 then 0 else Z.log2 (wval w a) + 1) /\
  pm_is_zero a = (wval w a =? 0) /\
  pm_equals a b = (wval w a =? wval w b).
Proof.
  intros Hw Ha Hb. pose proof (word_bits_big w Hw). split; [|split; [|split]].
  - intros i. apply coef_spec; auto.
  - apply bc_spec; auto.
  - apply (is_zero_spec w); auto.
  - apply (equals_spec w); auto.
Qed.
Example C98_read_case : pm_coef 64 [5; 1; 0] 64 = true /\ pm_bit_count 64 [5; 1; 0] = 65%nat /\ pm_equals [5; 1; 0] [5; 1] = true /\ pm_equals [5; 1; 0] [5] = false.
Proof. repeat split. Qed.

(** Writing one coefficient changes that coefficient and no other. *)
Theorem C98_set_bit w a n v : word_bits w -> words w a ->
  words w (pm_set_bit w a n v) /\
  (forall i, Z.testbit (wval w (pm_set_bit w a n v)) (Z.of_nat i) = if (i =? n)%nat then v else Z.testbit (wval w a) (Z.of_nat i)).
Proof.
  intros Hw Ha. pose proof (word_bits_big w Hw). destruct v.
  - destruct (set_spec w a n Ha) as [s1 s2]. split; auto. intros i. rewrite s2, Z.setbit_eqb by lia. destruct (Nat.eqb_spec i n) as [->|N]; [rewrite Z.eqb_refl; reflexivity|]. destruct (Z.eqb_spec (Z.of_nat n) (Z.of_nat i)); [lia|reflexivity].
  - destruct (clear_spec w a n Ha) as [s1 s2]. split; auto. intros i. rewrite s2, Z.clearbit_eqb by lia. destruct (Nat.eqb_spec i n) as [->|N]; [rewrite Z.eqb_refl; apply andb_false_r|]. destruct (Z.eqb_spec (Z.of_nat n) (Z.of_nat i)); [lia|apply andb_true_r].
Qed.
Example C98_set_bit_case : pm_set_bit 64 [3] 130 true = [3; 0; 4] /\ pm_set_bit 64 [3] 1 false = [1].
Proof. split; reflexivity. Qed.

(** The constructors. *)
Theorem C98_constructors w : word_bits w ->
  (forall v n, 0 <= v < 2 ^ w -> (0 < n)%nat -> words w (pm_of_word w v n) /\ wval w (pm_of_word w v n) = v) /\
  (forall n, words w (pm_all_ones w n) /\ wval w (pm_all_ones w n) = 2 ^ Z.of_nat n - 1) /\
  (forall i, words w (pm_monomial w i) /\ wval w (pm_monomial w i) = 2 ^ Z.of_nat i) /\
  (forall t0 t1 t2, (t1 < t0)%nat -> (t2 < t1)%nat ->
    exists r, pm_trinomial w t0 t1 t2 = ROk r /\ words w r /\ wval w r = 2 ^ Z.of_nat t0 + 2 ^ Z.of_nat t1 + 2 ^ Z.of_nat t2).
Proof.
  intros Hw. pose proof (word_bits_big w Hw). split; [|split; [|split]].
  - intros v n Hv Hn. destruct (of_word_spec w v n Hv) as (o1 & _ & o3). auto.
  - intros n. apply all_ones_spec; auto.
  - intros i. apply monomial_spec; auto.
  - intros. apply trinomial_spec; auto.
Qed.
Example C98_constructors_case : pm_trinomial 64 65 1 0 = ROk [3; 2] /\ pm_all_ones 64 66 = [2 ^ 64 - 1; 3] /\ pm_trinomial 64 3 4 0 = RThrow.
Proof. repeat split. Qed.

(** Sums and the coefficientwise product. *)
Theorem C98_xor_and w a b : word_bits w -> words w a -> words w b ->
  (words w (pm_xor a b) /\ wval w (pm_xor a b) = Z.lxor (wval w a) (wval w b)) /\
  (words w (pm_xor_eq a b) /\ wval w (pm_xor_eq a b) = Z.lxor (wval w a) (wval w b)) /\
  (words w (pm_and a b) /\ wval w (pm_and a b) = Z.land (wval w a) (wval w b)).
Proof.
  intros Hw Ha Hb. pose proof (word_bits_big w Hw). split; [apply xor_spec; auto|]. split; [|apply and_spec; auto]. destruct (xor_eq_spec w a b Ha Hb) as (x1 & _ & x3). auto.
Qed.
Example C98_xor_and_case : pm_xor [6] [3; 1] = [5; 1] /\ pm_xor_eq [6] [3; 1] = [5; 1] /\ pm_and [6; 9] [3] = [2].
Proof. repeat split. Qed.

(** Shifting left multiplies by x^n, whatever the fresh words held. *)
Theorem C98_shift_left w junk a n : word_bits w -> words w a ->
  words w (pm_shl w junk a n) /\ wval w (pm_shl w junk a n) = pmul (wval w a) (2 ^ Z.of_nat n).
Proof. intros Hw Ha. pose proof (word_bits_big w Hw). destruct (shl_spec w junk a n Ha) as (s1 & s2 & _). rewrite pmul_pow2 by lia. auto. Qed.
Example C98_shift_left_case : pm_shl 64 77 [2 ^ 63 + 1] 65 = [0; 2; 1] /\ pm_shl 64 77 [2 ^ 63 + 1] 1 = [2; 1].
Proof. split; reflexivity. Qed.

(** Shifting right drops the n lowest coefficients, when the register has at least n / WORD_BITS words. *)
Theorem C98_shift_right_partial w a n : word_bits w -> words w a -> (n / Z.to_nat w <= length a)%nat \/ a = [] ->
  exists x, pm_shr w a n = ROk x /\ words w x /\ wval w x = Z.shiftr (wval w a) (Z.of_nat n).
Proof. intros Hw Ha L. pose proof (word_bits_big w Hw). rewrite Z.shiftr_div_pow2 by lia. apply shr_spec; auto. Qed.
Example C98_shift_right_partial_case : pm_shr 64 [0; 2; 1] 65 = ROk [2 ^ 63 + 1; 0; 0] /\ pm_shr 64 [7] 64 = ROk [0].
Proof. split; reflexivity. Qed.
(** The missing part is false: every larger shift of a polynomial that has a register accesses memory outside it. *)
Theorem C98_shift_right_memory_refuted w a n : (length a < n / Z.to_nat w)%nat -> a <> [] -> pm_shr w a n = RMemory.
Proof. apply shr_outside. Qed.
Example C98_shift_right_memory_case : pm_shr 64 [1] 128 = RMemory.
Proof. reflexivity. Qed.

(** The product, when the left operand's register fits the result, as it does when its top word is not zero. *)
Theorem C98_times_partial w junk a b : word_bits w -> words w a -> words w b ->
  (length a <= bits_to_words w (pm_bit_count w a + pm_bit_count w b))%nat \/ a = [] \/ at_ a (length a - 1) <> 0 ->
  exists x, pm_times w junk a b = ROk x /\ words w x /\ wval w x = pmul (wval w a) (wval w b).
Proof. intros Hw Ha Hb L. pose proof (word_bits_big w Hw). apply times_spec; auto. destruct L as [L|L]; auto. apply top_used; auto. Qed.
Example C98_times_partial_case : pm_times 64 77 [2 ^ 63 + 1; 3] [5; 2] = ROk [2 ^ 63 + 5; 15; 7] /\ at_ [2 ^ 63 + 1; 3] (2 - 1) <> 0.
Proof. split; [reflexivity|discriminate]. Qed.
(** The missing part is false: multiplying a remainder the class computed itself writes past the end of the product. *)
Theorem C98_times_memory_refuted w junk : word_bits w ->
  exists a m r, words w a /\ words w m /\ pm_modulo w junk a m = ROk r /\ words w r /\ pm_times w junk r [1] = RMemory.
Proof.
  intros [-> | ->]; exists [1; 0; 1], [0; 0; 1], [1; 0; 0]; (split; [repeat constructor; discriminate|]); (split; [repeat constructor; discriminate|]); (split; [reflexivity|]); (split; [repeat constructor; discriminate|]); reflexivity.
Qed.

(** The square. *)
Theorem C98_squared w a : word_bits w -> words w a -> words w (pm_squared w a) /\ wval w (pm_squared w a) = pmul (wval w a) (wval w a).
Proof. intros Hw Ha. pose proof (word_bits_big w Hw). destruct (squared_spec w Hw a Ha) as (s1 & _ & s3). auto. Qed.
Example C98_squared_case : pm_squared 64 [2 ^ 63 + 11] = [69; 2 ^ 62].
Proof. reflexivity. Qed.

(** Quotient and remainder: dividend = quotient * divisor + remainder with the remainder of lower degree, and they are
    the only such pair; dividing by zero throws. *)
Theorem C98_divide w junk a b : word_bits w -> words w a -> words w b -> wval w b <> 0 ->
  exists r q, pm_divide w junk a b = ROk (r, q) /\ words w r /\ words w q /\
    wval w a = Z.lxor (pmul (wval w q) (wval w b)) (wval w r) /\ 0 <= wval w r < 2 ^ Z.log2 (wval w b) /\
    (forall q' r', 0 <= q' -> wval w a = Z.lxor (pmul q' (wval w b)) r' -> 0 <= r' < 2 ^ Z.log2 (wval w b) -> q' = wval w q /\ r' = wval w r).
Proof.
  intros Hw Ha Hb N. pose proof (word_bits_big w Hw). destruct (divide_spec w Hw junk a b Ha Hb N) as (r & q & E & Wr & Wq & V1 & V2). exists r, q. pose proof (V_bound w _ Hb). pose proof (V_bound w _ Wq).
  split; [exact E|]. split; [exact Wr|]. split; [exact Wq|]. split; [exact V1|]. split; [exact V2|].
  intros q' r' Hq' E' Hr'. apply (pdiv_unique (wval w b)); auto; [lia|lia|]. rewrite <- V1, <- E'. reflexivity.
Qed.
Theorem C98_divide_by_zero w junk a b : word_bits w -> words w b -> wval w b = 0 ->
  pm_divide w junk a b = RDivideByZero /\ pm_divided_by w junk a b = RDivideByZero /\ pm_modulo w junk a b = RDivideByZero.
Proof.
  intros Hw Hb Z0. pose proof (word_bits_big w Hw). assert (E : pm_divide w junk a b = RDivideByZero) by (unfold pm_divide; rewrite (is_zero_spec w) by auto; rewrite Z0; reflexivity). unfold pm_divided_by, pm_modulo. rewrite E. repeat split.
Qed.
Example C98_divide_case : pm_divide 64 77 [2 ^ 63 + 1; 3] [7] = ROk ([1], [2 ^ 63]) /\ pm_divide 64 77 [3] [0; 1] = ROk ([3; 0], []) /\ pm_modulo 64 77 [3] [0; 0] = RDivideByZero.
Proof. repeat split. Qed.

Print Assumptions C98_read.
Print Assumptions C98_set_bit.
Print Assumptions C98_constructors.
Print Assumptions C98_xor_and.
Print Assumptions C98_shift_left.
Print Assumptions C98_shift_right_partial.
Print Assumptions C98_shift_right_memory_refuted.
Print Assumptions C98_times_partial.
Print Assumptions C98_times_memory_refuted.
Print Assumptions C98_squared.
Print Assumptions C98_divide.
Print Assumptions C98_divide_by_zero.
