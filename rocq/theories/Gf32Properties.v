(** C56: the arithmetic of GF(2^32). The specification is Gf2Spec: polynomials over GF(2) and congruence modulo a polynomial. *)
From Coq Require Import ZArith List Bool Lia.
From Verif Require Import Gf2Spec Gf2Proofs Gf32Model Gf32Proofs Gf32FieldProofs Gf32InvProofs.
Import ListNotations.
Local Open Scope Z_scope.

(** Multiply, in either compiled form and for every modulus word m, returns the one 32-bit word that is congruent to the polynomial product modulo x^32 + m. *)
Theorem C56_multiply_is_product_mod_f : forall m a b, 0 <= m < 2 ^ 32 -> 0 <= a < 2 ^ 32 -> 0 <= b < 2 ^ 32 ->
  0 <= gf_mul m a b < 2 ^ 32 /\ pcong (2 ^ 32 + m) (gf_mul m a b) (pmul a b) /\ gf_mul_rot m a b = gf_mul m a b /\
  (forall r, 0 <= r < 2 ^ 32 -> pcong (2 ^ 32 + m) r (pmul a b) -> r = gf_mul m a b).
Proof.
  intros m a b Hm Ha Hb. destruct (gf_mul_spec m Hm a b Ha Hb) as [R C]. split; [exact R|]. split; [exact C|]. split; [apply gf_mul_rot_eq; auto|].
  intros r Hr Hc. apply (gf_unique m Hm); auto. apply pcong_trans with (pmul a b); [apply (gfp_pos m Hm)|exact Hc|]. apply pcong_sym. exact C.
Qed.
Example C56_multiply_example : gf_mul 141 2147483648 6 = 407 /\ gf_mul_rot 141 2147483648 6 = 407 /\ gf_mul 141 3 3 = 5. Proof. vm_compute. auto. Qed.

(** The ring laws, for every modulus. *)
Theorem C56_ring : forall m a b c, 0 <= m < 2 ^ 32 -> 0 <= a < 2 ^ 32 -> 0 <= b < 2 ^ 32 -> 0 <= c < 2 ^ 32 ->
  gf_mul m a b = gf_mul m b a /\ gf_mul m (gf_mul m a b) c = gf_mul m a (gf_mul m b c) /\
  gf_mul m a (gf_add b c) = gf_add (gf_mul m a b) (gf_mul m a c) /\ gf_mul m a 1 = a /\ gf_mul m a 0 = 0 /\ gf_add a a = 0.
Proof.
  intros m a b c Hm Ha Hb Hc. unfold gf_add. split; [apply mul_comm; auto|]. split; [apply mul_assoc; auto|]. split; [apply mul_add; auto|]. split; [apply mul_1_r; auto|]. split; [apply mul_0_r; auto|apply Z.lxor_nilpotent].
Qed.
Example C56_ring_example : gf_mul 141 (gf_mul 141 4000000001 3000000019) 77 = gf_mul 141 4000000001 (gf_mul 141 3000000019 77). Proof. vm_compute. reflexivity. Qed.

(** With the default modulus every non-zero element has exactly one inverse, MultiplicativeInverse terminates and returns it, and division undoes multiplication. *)
Theorem C56_inverse : forall a, 0 < a < 2 ^ 32 -> exists v, gf_inv gf_modulus a = Some v /\ 0 < v < 2 ^ 32 /\ gf_mul gf_modulus a v = 1 /\ (forall w, 0 <= w < 2 ^ 32 -> gf_mul gf_modulus a w = 1 -> w = v).
Proof.
  intros a Ha. assert (Wa : word a) by (unfold word; lia). destruct (field_inverse a Wa ltac:(lia)) as (b & Hb & E). destruct (gf_inv_spec 141 a H141 Wa b Hb E) as (v & V1 & V2 & V3). exists v. split; [exact V1|].
  assert (U : forall w, word w -> gf_mul 141 a w = 1 -> w = v).
  { intros w Hw Ew. rewrite <- (mul_1_r 141 H141 w Hw), <- V3. rewrite (mul_comm 141 H141 a v), <- (mul_assoc 141 H141), (mul_comm 141 H141 (gf_mul 141 w v)), <- (mul_assoc 141 H141), Ew by (auto; apply mul_word; auto; exact H141). apply mul_1_l; [exact H141|exact V2]. }
  split; [|split; [exact V3|exact U]]. destruct V2 as [V2 V2']. split; [|exact V2']. destruct (Z.eq_dec v 0) as [->|N]; [|lia]. rewrite (mul_0_r 141 H141 a Wa) in V3. discriminate.
Qed.
Example C56_inverse_example : gf_inv 141 2 = Some 2147483718 /\ gf_mul 141 2 2147483718 = 1 /\ gf_inv 141 4294967295 = Some 398602933 /\ gf_inv 141 0 = Some 0.
Proof. vm_compute. auto. Qed.

Theorem C56_no_zero_divisors : forall a b, 0 <= a < 2 ^ 32 -> 0 <= b < 2 ^ 32 -> gf_mul gf_modulus a b = 0 -> a = 0 \/ b = 0.
Proof.
  intros a b Ha Hb E. destruct (Z.eq_dec a 0) as [->|N]; [auto|]. right. destruct (field_inverse a Ha N) as (v & Hv & Ev). change gf_modulus with 141 in E.
  rewrite <- (mul_1_l 141 H141 b Hb), <- Ev. rewrite (mul_comm 141 H141 a v), (mul_assoc 141 H141), E by auto. apply mul_0_r; auto. exact H141.
Qed.
Example C56_no_zero_divisors_example : gf_mul 141 65537 65537 <> 0. Proof. vm_compute. discriminate. Qed.

Theorem C56_divide : forall a b, 0 <= a < 2 ^ 32 -> 0 < b < 2 ^ 32 -> exists q, gf_divide gf_modulus a b = Some q /\ 0 <= q < 2 ^ 32 /\ gf_mul gf_modulus q b = a /\ gf_divide gf_modulus (gf_mul gf_modulus a b) b = Some a.
Proof.
  intros a b Ha Hb. destruct (C56_inverse b Hb) as (v & V1 & V2 & V3 & _). assert (Wa : word a) by exact Ha. assert (Wb : word b) by (unfold word; lia). assert (Wv : word v) by (unfold word; lia).
  change gf_modulus with 141 in *. unfold gf_divide. rewrite V1. exists (gf_mul 141 a v). split; [reflexivity|]. split; [apply mul_word; auto; exact H141|]. split.
  - rewrite (mul_assoc 141 H141), (mul_comm 141 H141 v b), V3 by auto. apply mul_1_r; auto. exact H141.
  - rewrite (mul_assoc 141 H141), V3 by auto. rewrite mul_1_r; auto. exact H141.
Qed.
Example C56_divide_example : gf_divide 141 5 3 = Some 3. Proof. vm_compute. reflexivity. Qed.

(** For any other modulus MultiplicativeInverse still inverts exactly what can be inverted: it terminates with an inverse whenever one exists. *)
Theorem C56_inverse_any_modulus : forall m a b, 0 <= m < 2 ^ 32 -> 0 <= a < 2 ^ 32 -> 0 <= b < 2 ^ 32 -> gf_mul m a b = 1 -> gf_inv m a = Some b.
Proof.
  intros m a b Hm Ha Hb E. destruct (gf_inv_spec m a Hm Ha b Hb E) as (v & V1 & V2 & V3). rewrite V1. f_equal.
  rewrite <- (mul_1_r m Hm v V2), <- E. rewrite <- (mul_assoc m Hm), (mul_comm m Hm v a), V3 by auto. apply mul_1_l; auto.
Qed.
Example C56_inverse_any_modulus_example : gf_mul 1 7 3067833782 = 1 /\ gf_inv 1 7 = Some 3067833782. Proof. vm_compute. auto. Qed.

Print Assumptions C56_multiply_is_product_mod_f.
Print Assumptions C56_ring.
Print Assumptions C56_inverse.
Print Assumptions C56_no_zero_divisors.
Print Assumptions C56_divide.
Print Assumptions C56_inverse_any_modulus.
