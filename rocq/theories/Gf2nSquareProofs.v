(** Proofs about PolynomialMod2::Squared and the constructors of PolynomialMod2. *)
From Coq Require Import ZArith List Lia Bool Arith.
From Verif Require Import Base AsnModel AsnProofs WordsModel WordsSpec WordsProofs WordsLongDivProofs IntegerModel IntegerSpec IntegerProofs IntegerBitProofs Gf2Spec Gf2Proofs Gf2nModel Gf2nProofs.
Import ListNotations.
Local Open Scope Z_scope.

Definition sq (a : Z) : Z := pmul a a.
Lemma sq_nonneg a : 0 <= a -> 0 <= sq a. Proof. apply pmul_nonneg. Qed.
Lemma sq_bin a x : 0 <= a -> sq (2 * a + Z.b2z x) = 4 * sq a + Z.b2z x.
Proof.
  intros Ha. unfold sq. assert (0 <= Z.b2z x <= 1) by (destruct x; cbn; lia). rewrite pmul_bin_r by auto. rewrite (pmul_comm (2 * a + Z.b2z x) a) by lia. rewrite pmul_bin_r by auto.
  destruct x; cbn [Z.b2z].
  - rewrite <- lxor_double. change (2 * a + 1) with (2 * a + Z.b2z true). replace (Z.lxor (2 * a) (2 * (2 * pmul a a))) with (2 * Z.lxor a (2 * pmul a a) + Z.b2z false) by (rewrite <- lxor_double; cbn; lia). rewrite lxor_bin. rewrite <- Z.lxor_assoc, Z.lxor_nilpotent, Z.lxor_0_l. cbn [xorb Z.b2z]. lia.
  - rewrite !Z.lxor_0_l. lia.
Qed.
(** Squaring spreads the bits, so it is additive over disjoint parts. *)
Lemma sq_split k : forall a b, 0 <= a < 2 ^ Z.of_nat k -> 0 <= b -> sq (a + 2 ^ Z.of_nat k * b) = sq a + 4 ^ Z.of_nat k * sq b.
Proof.
  induction k as [|k IH]; intros a b Ha Hb.
  - change (2 ^ Z.of_nat 0) with 1 in *. change (4 ^ Z.of_nat 0) with 1. assert (a = 0) by lia. subst. rewrite !Z.mul_1_l, !Z.add_0_l. reflexivity.
  - destruct (zbin_split a ltac:(lia)) as (a' & x & Pa & ->). rewrite !Nat2Z.inj_succ, !Z.pow_succ_r in * by lia. assert (0 <= Z.b2z x) by (destruct x; cbn; lia). replace (2 * a' + Z.b2z x + 2 * 2 ^ Z.of_nat k * b) with (2 * (a' + 2 ^ Z.of_nat k * b) + Z.b2z x) by ring. pose proof (Z.pow_pos_nonneg 2 (Z.of_nat k)). rewrite !sq_bin by nia. rewrite IH by lia. ring.
Qed.
Lemma sq_bound k : forall a, 0 <= a < 2 ^ Z.of_nat k -> 0 <= sq a < 4 ^ Z.of_nat k.
Proof.
  induction k as [|k IH]; intros a Ha.
  - change (2 ^ Z.of_nat 0) with 1 in *. assert (a = 0) by lia. subst. cbn. lia.
  - destruct (zbin_split a ltac:(lia)) as (a' & x & Pa & ->). rewrite !Nat2Z.inj_succ, !Z.pow_succ_r in * by lia. assert (0 <= Z.b2z x <= 1) by (destruct x; cbn; lia). rewrite sq_bin by lia. specialize (IH a' ltac:(lia)). lia.
Qed.
Lemma sq_map n : 0 <= n < 16 -> at_ pm_square_map (Z.to_nat n) = sq n.
Proof.
  intros H. assert (C : n = 0 \/ n = 1 \/ n = 2 \/ n = 3 \/ n = 4 \/ n = 5 \/ n = 6 \/ n = 7 \/ n = 8 \/ n = 9 \/ n = 10 \/ n = 11 \/ n = 12 \/ n = 13 \/ n = 14 \/ n = 15) by lia.
  repeat (destruct C as [->|C]; [reflexivity|]). subst. reflexivity.
Qed.
Lemma lor_disjoint a b k : 0 <= k -> 0 <= a < 2 ^ k -> 0 <= b -> Z.lor a (b * 2 ^ k) = a + b * 2 ^ k.
Proof.
  intros Hk Ha Hb. assert (L : Z.land a (b * 2 ^ k) = 0); [|rewrite Z.add_nocarry_lxor, Z.lxor_lor by auto; reflexivity].
  apply Z.bits_inj'. intros i Hi. rewrite Z.land_spec, Z.bits_0. destruct (Z.lt_ge_cases i k). - rewrite Z.mul_pow2_bits_low by lia. apply andb_false_r. - rewrite <- (Z.mod_small a (2 ^ k) Ha), Z.mod_pow2_bits_high by lia. reflexivity.
Qed.

(** Quotient and remainder are unique. *)
Lemma pdiv_unique f q q' r r' : 0 < f -> 0 <= q -> 0 <= q' -> 0 <= r < 2 ^ Z.log2 f -> 0 <= r' < 2 ^ Z.log2 f -> Z.lxor (pmul q f) r = Z.lxor (pmul q' f) r' -> q = q' /\ r = r'.
Proof.
  intros Hf Hq Hq' Hr Hr' E. assert (X : Z.lxor (pmul q f) (pmul q' f) = Z.lxor r r') by (apply Z.lxor_eq; rewrite lxor_comm4, E; apply Z.lxor_nilpotent). assert (0 <= Z.lxor q q') by (apply Z.lxor_nonneg; tauto). rewrite <- pmul_lxor_l in X by lia.
  assert (R : r = r') by (apply (pcong_unique f); auto; exists (Z.lxor q q'); auto). split; auto. rewrite R, Z.lxor_nilpotent in X. apply Z.lxor_eq. destruct (Z.eq_dec (Z.lxor q q') 0) as [|N]; auto. destruct (pmul_pos_pos (Z.lxor q q') f ltac:(lia) Hf). lia.
Qed.

Section Sq.
Variable w : Z.
Context {Hbig : bigw w}.
Hypothesis Hwb : word_bits w.
Notation B := (base w).
Notation V := (wval w).
Notation W := (words w).
Notation P := (WordsProofs.P w).
Notation wn := (Z.to_nat w).

Lemma half_step u h k : 0 <= u -> 0 <= h -> Z.shiftr u (8 * Z.of_nat k / 2 + h) mod 16 = (Z.shiftr u h / 2 ^ (4 * Z.of_nat k)) mod 16.
Proof.
  intros Hu Hh. replace (8 * Z.of_nat k / 2) with (4 * Z.of_nat k) by (replace (8 * Z.of_nat k) with (4 * Z.of_nat k * 2) by ring; rewrite Z.div_mul; lia). rewrite Z.add_comm, <- Z.shiftr_shiftr by lia. rewrite (Z.shiftr_div_pow2 (Z.shiftr u h)) by lia. reflexivity.
Qed.
Lemma half_loop u h : 0 <= u -> 0 <= h -> forall k, (k <= wn / 8)%nat ->
  fold_left (fun acc k => let j := 8 * Z.of_nat k in Z.lor acc (wd w (Z.shiftl (at_ pm_square_map (Z.to_nat (Z.shiftr u (j / 2 + h) mod 16))) j))) (seq 0 k) 0 = sq (Z.shiftr u h mod 2 ^ (4 * Z.of_nat k)).
Proof.
  intros Hu Hh. induction k as [|k IH]; intros Hk. { cbn [seq fold_left]. change (2 ^ (4 * Z.of_nat 0)) with 1. rewrite Z.mod_1_r. reflexivity. }
  rewrite seq_S, fold_left_app, IH by lia. cbn [fold_left Nat.add]. cbv zeta. rewrite half_step by auto. set (v := Z.shiftr u h). assert (Pv : 0 <= v) by (apply Z.shiftr_nonneg; auto). clearbody v. pose proof (Z.pow_pos_nonneg 2 (4 * Z.of_nat k) ltac:(lia) ltac:(lia)) as P4.
  set (n := (v / 2 ^ (4 * Z.of_nat k)) mod 16). assert (En : (v / 2 ^ (4 * Z.of_nat k)) mod 16 = n) by reflexivity. assert (Hn : 0 <= n < 16) by (apply Z.mod_pos_bound; lia). rewrite sq_map by auto.
  pose proof (sq_bound 4 n ltac:(change (2 ^ Z.of_nat 4) with 16; lia)) as S4. change (4 ^ Z.of_nat 4) with 256 in S4. pose proof (Z.mod_pos_bound v _ P4) as M. pose proof (sq_bound (4 * k) (v mod 2 ^ (4 * Z.of_nat k)) ltac:(replace (Z.of_nat (4 * k)) with (4 * Z.of_nat k) by lia; auto)) as SB.
  assert (F : 4 ^ Z.of_nat (4 * k) = 2 ^ (8 * Z.of_nat k)) by (change 4 with (2 ^ 2); rewrite <- Z.pow_mul_r by lia; f_equal; lia). rewrite F in SB.
  assert (Q : sq n * 2 ^ (8 * Z.of_nat k) < B). { assert (K : 8 * Z.of_nat k + 8 <= w) by (destruct Hwb as [Q|Q]; rewrite Q in Hk |- *; [change (Z.to_nat 32 / 8)%nat with 4%nat in Hk|change (Z.to_nat 64 / 8)%nat with 8%nat in Hk]; lia). unfold base. apply Z.lt_le_trans with (2 ^ (8 * Z.of_nat k + 8)); [|apply Z.pow_le_mono_r; lia]. rewrite Z.pow_add_r by lia. pose proof (Z.pow_pos_nonneg 2 (8 * Z.of_nat k) ltac:(lia) ltac:(lia)). change (2 ^ 8) with 256. nia. }
  rewrite Z.shiftl_mul_pow2 by lia. rewrite (wd_small w) by (split; [pose proof (Z.pow_pos_nonneg 2 (8 * Z.of_nat k) ltac:(lia) ltac:(lia)); nia|auto]). rewrite lor_disjoint by lia. rewrite <- F. rewrite (Z.mul_comm (sq n)).
  assert (K4 : 4 * Z.of_nat k = Z.of_nat (4 * k)) by lia. clearbody n. rewrite K4 in *. rewrite <- sq_split by lia. f_equal. replace (4 * Z.of_nat (S k)) with (Z.of_nat (4 * k) + 4) by lia. rewrite Z.pow_add_r by lia. change (2 ^ 4) with 16. rewrite Z.rem_mul_r, En by lia. reflexivity.
Qed.
Lemma half_spec u h : 0 <= u -> 0 <= h -> pm_square_half w u h = sq (Z.shiftr u h mod 2 ^ (w / 2)).
Proof.
  intros Hu Hh. unfold pm_square_half. rewrite half_loop by (auto; lia). do 2 f_equal. f_equal. destruct Hwb as [-> | ->]; reflexivity.
Qed.
Lemma squared_spec a : W a -> W (pm_squared w a) /\ length (pm_squared w a) = (2 * length a)%nat /\ V (pm_squared w a) = pmul (V a) (V a).
Proof.
  induction a as [|u a IH]; intros H. { split; [constructor|]. split; reflexivity. }
  apply (W_cons w) in H. destruct H as [Hu H]. destruct (IH H) as (I1 & I2 & I3). unfold pm_squared in *. cbn [flat_map app]. rewrite !half_spec by (try (apply Z.div_pos; pose proof (Hw w)); lia). pose proof (Hw w).
  assert (W2 : w = 2 * (w / 2)) by (destruct Hwb as [-> | ->]; reflexivity). set (h := Z.to_nat (w / 2)). assert (Eh : w / 2 = Z.of_nat h) by (unfold h; lia). rewrite Eh in *. clearbody h.
  assert (BB : B = 4 ^ Z.of_nat h) by (unfold base; rewrite W2; change 4 with (2 ^ 2); rewrite <- Z.pow_mul_r by lia; reflexivity). pose proof (Z.pow_pos_nonneg 2 (Z.of_nat h) ltac:(lia) ltac:(lia)) as P2.
  assert (B2 : B = 2 ^ Z.of_nat h * 2 ^ Z.of_nat h) by (rewrite <- Z.pow_add_r by lia; unfold base; f_equal; lia).
  set (lo := Z.shiftr u 0 mod 2 ^ Z.of_nat h). set (hi := Z.shiftr u (Z.of_nat h) mod 2 ^ Z.of_nat h). assert (Hlo : 0 <= lo < 2 ^ Z.of_nat h) by (apply Z.mod_pos_bound; lia). assert (Hhi : 0 <= hi < 2 ^ Z.of_nat h) by (apply Z.mod_pos_bound; lia).
  assert (U : u = lo + 2 ^ Z.of_nat h * hi). { unfold lo, hi. rewrite Z.shiftr_0_r, Z.shiftr_div_pow2 by lia. rewrite (Z.mod_small (u / _)) by (split; [apply Z.div_pos; lia|apply Z.div_lt_upper_bound; lia]). rewrite Z.add_comm. apply Z.div_mod. lia. }
  pose proof (sq_bound h lo Hlo). pose proof (sq_bound h hi Hhi). split; [apply (W_cons w); split; [lia|]; apply (W_cons w); split; [lia|]; exact I1|]. split; [cbn [length]; rewrite I2; lia|].
  rewrite !V_cons, I3. fold (sq (V a)). fold (sq (u + B * V a)). pose proof (V_bound w _ H).
  assert (S1 : sq (u + B * V a) = sq u + B * B * sq (V a)). { pose proof (sq_split (h + h) u (V a)) as X. rewrite Nat2Z.inj_add, !Z.pow_add_r, <- !B2, <- !BB in X by lia. apply X; lia. }
  rewrite S1. rewrite U, sq_split, <- BB by lia. ring.
Qed.

Lemma monomial_spec i : W (pm_monomial w i) /\ V (pm_monomial w i) = 2 ^ Z.of_nat i.
Proof. unfold pm_monomial. destruct (of_word0 w (i + 1)) as (o1 & _ & o3). destruct (set_spec w (pm_of_word w 0 (i + 1)) i o1) as (s1 & s2). split; auto. rewrite s2, o3, setbit_add, Z.bits_0 by lia. lia. Qed.
Lemma trinomial_spec t0 t1 t2 : (t1 < t0)%nat -> (t2 < t1)%nat -> exists r, pm_trinomial w t0 t1 t2 = ROk r /\ W r /\ V r = 2 ^ Z.of_nat t0 + 2 ^ Z.of_nat t1 + 2 ^ Z.of_nat t2.
Proof.
  intros H1 H2. unfold pm_trinomial. destruct (Nat.ltb_spec t0 t1); [lia|]. destruct (Nat.ltb_spec t0 t2); [lia|]. cbn [orb]. eexists. split; [reflexivity|].
  destruct (of_word0 w (t0 + 1)) as (o1 & _ & o3). set (a := pm_of_word w 0 (t0 + 1)) in *. destruct (set_spec w a t0 o1) as (s1 & s2). set (b := pm_set_bit w a t0 true) in *. clearbody b. rewrite o3, setbit_add, Z.bits_0, Z.add_0_l in s2 by lia.
  destruct (set_spec w b t1 s1) as (u1 & u2). set (c := pm_set_bit w b t1 true) in *. clearbody c. rewrite s2, setbit_add, Z.pow2_bits_false in u2 by lia. destruct (set_spec w c t2 u1) as (v1 & v2). split; [exact v1|]. rewrite v2, setbit_add by lia.
  assert (T : Z.testbit (V c) (Z.of_nat t2) = false); [|rewrite T, u2; reflexivity]. rewrite u2. assert (E : 2 ^ Z.of_nat t0 + 2 ^ Z.of_nat t1 = (2 ^ (Z.of_nat t0 - Z.of_nat t1) + 1) * 2 ^ Z.of_nat t1) by (rewrite Z.mul_add_distr_r, <- Z.pow_add_r by lia; replace (Z.of_nat t0 - Z.of_nat t1 + Z.of_nat t1) with (Z.of_nat t0) by lia; ring). rewrite E. apply Z.mul_pow2_bits_low. lia.
Qed.
Lemma all_ones_spec n : W (pm_all_ones w n) /\ V (pm_all_ones w n) = 2 ^ Z.of_nat n - 1.
Proof.
  unfold pm_all_ones. cbv zeta. destruct (btw_split w n) as [T1 T2]. pose proof (pow_n w n) as PN. destruct (n_split w n) as [_ L]. set (q := (n / wn)%nat) in *. set (m := (n mod wn)%nat) in *. rewrite T2 in T1. clearbody q m. pose proof (B_pos w). pose proof (Hw w).
  assert (R : forall k, W (repeat (B - 1) k) /\ V (repeat (B - 1) k) = P k - 1). { induction k as [|k [I1 I2]]; [split; [constructor|rewrite P_0; reflexivity]|]. cbn [repeat]. split; [apply (W_cons w); split; [lia|auto]|]. rewrite V_cons, I2, P_S. ring. }
  rewrite T1, PN. destruct (Nat.eqb_spec m 0) as [M|M]. { rewrite M. rewrite Nat.add_0_r. destruct (R q) as [R1 R2]. split; auto. rewrite R2. change (2 ^ Z.of_nat 0) with 1. lia. }
  rewrite repeat_length. replace (q + 1 - 1)%nat with q by lia. destruct (R (q + 1)%nat) as [R1 R2]. set (r := repeat (B - 1) (q + 1)) in *. assert (A : at_ r q = B - 1) by (unfold r, at_; rewrite (nth_indep _ 0 (B - 1)) by (rewrite repeat_length; lia); apply nth_repeat). assert (Lr : length r = (q + 1)%nat) by apply repeat_length. clearbody r.
  assert (Q : Z.land (B - 1) (2 ^ Z.of_nat m - 1) = 2 ^ Z.of_nat m - 1). { rewrite Z.land_comm. replace (B - 1) with (Z.ones w) by (rewrite Z.ones_equiv; unfold base; lia). rewrite Z.land_ones by lia. apply Z.mod_small. pose proof (p2 (Z.of_nat m) ltac:(lia)). assert (2 ^ Z.of_nat m < 2 ^ w) by (apply Z.pow_lt_mono_r; lia). lia. }
  pose proof (p2 (Z.of_nat m) ltac:(lia)). assert (2 ^ Z.of_nat m < B) by (apply Z.pow_lt_mono_r; lia). rewrite A, Q. split; [apply (W_upd w); auto; lia|]. rewrite V_upd by lia. rewrite A, R2, Nat.add_1_r, P_S. ring.
Qed.
End Sq.
