(** Proofs about PolynomialMod2::Gcd and InverseMod. *)
From Coq Require Import ZArith List Lia Bool Arith.
From Verif Require Import Base AsnModel WordsModel WordsSpec WordsProofs IntegerModel IntegerSpec IntegerProofs IntegerBitProofs Gf2Spec Gf2Proofs Gf2nModel Gf2nProofs Gf2nSquareProofs Gf2nGcdModel Gf2nGcdSpec.
Import ListNotations.
Local Open Scope Z_scope.

Lemma pdiv_0 d : pdivides d 0. Proof. exists 0. split; [lia|]. rewrite pmul_0_l. reflexivity. Qed.
Lemma pdiv_refl a : 0 <= a -> pdivides a a. Proof. intros. exists 1. split; [lia|]. rewrite pmul_1_l by auto. reflexivity. Qed.
Lemma pdiv_lxor d a b : 0 <= d -> pdivides d a -> pdivides d b -> pdivides d (Z.lxor a b).
Proof. intros Hd (p & Hp & ->) (q & Hq & ->). exists (Z.lxor p q). split; [apply Z.lxor_nonneg; tauto|]. rewrite pmul_lxor_l by auto. reflexivity. Qed.
Lemma pdiv_mul d a c : 0 <= d -> 0 <= c -> pdivides d a -> pdivides d (pmul c a).
Proof. intros Hd Hc (p & Hp & ->). exists (pmul c p). split; [apply pmul_nonneg; auto|]. rewrite pmul_assoc by auto. reflexivity. Qed.
Lemma pdiv_one g : 0 <= g -> pdivides g 1 -> g = 1.
Proof.
  intros Hg (q & Hq & E). destruct (Z.eq_dec g 0) as [->|N]; [rewrite pmul_0_r in E; lia|]. destruct (Z.eq_dec q 0) as [->|M]; [rewrite pmul_0_l in E; lia|]. destruct (pmul_pos_pos q g ltac:(lia) ltac:(lia)) as [_ L]. rewrite <- E in L. change (Z.log2 1) with 0 in L.
  pose proof (Z.log2_nonneg q). pose proof (Z.log2_nonneg g). assert (G0 : Z.log2 g = 0) by lia. pose proof (Z.log2_spec g ltac:(lia)) as S. rewrite G0 in S. cbn in S. lia.
Qed.

Section Gcd.
Variable w : Z.
Context {Hbig : bigw w}.
Hypothesis Hwb : word_bits w.
Notation V := (wval w).
Notation W := (words w).

Lemma one_spec : W (pm_one w) /\ V (pm_one w) = 1.
Proof. unfold pm_one. pose proof (Hw w). pose proof (B_pos w). destruct (of_word_spec w 1 (Z.to_nat w)) as (o1 & _ & o3); [assert (2 ^ 1 <= base w) by (unfold base; apply Z.pow_le_mono_r; lia); lia|]. split; auto. apply o3. lia. Qed.
Lemma eq_zero a : W a -> pm_equals a pm_zero = (V a =? 0).
Proof. intros H. rewrite (equals_spec w) by (auto; apply (W_nil w)). reflexivity. Qed.
Lemma modulo_spec junk a b : W a -> W b -> V b <> 0 -> exists r q, pm_modulo w junk a b = ROk r /\ W r /\ 0 <= q /\ V a = Z.lxor (pmul q (V b)) (V r) /\ 0 <= V r < 2 ^ Z.log2 (V b).
Proof.
  intros Ha Hb N. destruct (divide_spec w Hwb junk a b Ha Hb N) as (r & q & E & Wr & Wq & V1 & V2). exists r, (V q). unfold pm_modulo. rewrite E. cbn [rbind fst]. pose proof (V_bound w _ Wq). repeat (split; auto); lia.
Qed.
Lemma lxor_move a b c : a = Z.lxor b c -> c = Z.lxor a b.
Proof. intros ->. rewrite (Z.lxor_comm b c), Z.lxor_assoc, Z.lxor_nilpotent, Z.lxor_0_r. reflexivity. Qed.
Lemma bc_mono a b : W a -> W b -> V b <> 0 -> V a < 2 ^ Z.log2 (V b) -> (pm_bit_count w a < pm_bit_count w b)%nat.
Proof.
  intros Ha Hb N L. pose proof (bc_spec w Hwb a Ha) as A. pose proof (bc_spec w Hwb b Hb) as Bq. pose proof (V_bound w _ Ha). pose proof (V_bound w _ Hb). pose proof (Z.log2_nonneg (V b)). destruct (Z.eqb_spec (V b) 0); [lia|]. destruct (Z.eqb_spec (V a) 0); [lia|]. pose proof (Z.log2_lt_pow2 (V a) (Z.log2 (V b)) ltac:(lia)). lia.
Qed.
Lemma gcd_loop junk : forall f g0 g1, W g0 -> W g1 -> (pm_bit_count w g1 < f)%nat -> exists g, pm_gcd_loop w junk f g0 g1 = ROk g /\ W g /\ is_pgcd (V g) (V g0) (V g1).
Proof.
  induction f as [|f IH]; intros g0 g1 H0 H1 L; [lia|]. cbn [pm_gcd_loop]. rewrite eq_zero by auto. pose proof (V_bound w _ H0). pose proof (V_bound w _ H1). destruct (Z.eqb_spec (V g1) 0) as [Z0|Z0].
  - exists g0. split; auto. split; auto. rewrite Z0. split; [apply pdiv_refl; lia|]. split; [apply pdiv_0|]. auto.
  - destruct (modulo_spec junk g0 g1 H0 H1 Z0) as (r & q & E & Wr & Pq & V1 & V2). rewrite E. cbn [rbind]. pose proof (bc_mono r g1 Wr H1 Z0 ltac:(lia)). destruct (IH g1 r H1 Wr ltac:(lia)) as (g & Eg & Wg & D1 & D2 & D3). exists g. split; auto. split; auto. pose proof (V_bound w _ Wg).
    split; [rewrite V1; apply pdiv_lxor; [lia| |auto]; apply pdiv_mul; auto; lia|]. split; auto. intros d Hd K0 K1. apply D3; auto. rewrite (lxor_move _ _ _ V1). apply pdiv_lxor; auto. apply pdiv_mul; auto.
Qed.
Lemma gcd_spec junk a b : W a -> W b -> exists g, pm_gcd w junk a b = ROk g /\ W g /\ is_pgcd (V g) (V a) (V b).
Proof. intros Ha Hb. destruct (gcd_loop junk (S (pm_bit_count w a)) b a Hb Ha ltac:(lia)) as (g & E & Wg & D1 & D2 & D3). exists g. repeat (split; auto). Qed.

(** ** The inverse *)
Lemma times_loop_ok junk a b : W a -> W b -> forall k r x, W r -> V r = pmul (V a) (Z.shiftr (V b) (Z.of_nat k)) -> pm_times_loop w junk a b k r = ROk x -> W x /\ V x = pmul (V a) (V b).
Proof.
  intros Ha Hb. pose proof (V_bound w _ Hb). induction k as [|i IH]; intros r x Hr E X; cbn [pm_times_loop] in X.
  - injection X as <-. auto.
  - destruct (shl_spec w junk r 1 Hr) as (s1 & s2 & s3). change (2 ^ Z.of_nat 1) with 2 in s2. set (r1 := pm_shl w junk r 1) in *. clearbody r1. rewrite coef_spec in X by auto.
    assert (Q : pmul (V a) (Z.shiftr (V b) (Z.of_nat i)) = Z.lxor (if Z.testbit (V b) (Z.of_nat i) then V a else 0) (V r1)). { rewrite shiftr_S, pmul_bin_r by (apply Z.shiftr_nonneg; lia). f_equal. lia. }
    destruct (Z.testbit (V b) (Z.of_nat i)).
    + destruct (Nat.leb_spec (length a) (length r1)); [|discriminate]. destruct (xor_store w r1 a s1 Ha ltac:(lia)) as (x1 & x2 & x3). apply (IH _ _ x1 ltac:(rewrite x3, Q; apply Z.lxor_comm) X).
    + apply (IH _ _ s1 ltac:(rewrite Q, Z.lxor_0_l; reflexivity) X).
Qed.
Lemma times_ok junk a b x : W a -> W b -> pm_times w junk a b = ROk x -> W x /\ V x = pmul (V a) (V b).
Proof.
  intros Ha Hb E. unfold pm_times in E. destruct (of_word0 w (pm_bit_count w a + pm_bit_count w b)) as (o1 & o2 & o3). apply (times_loop_ok junk a b Ha Hb _ _ x o1) in E; auto. rewrite o3. pose proof (bc_bound w Hwb b Hb). rewrite Z.shiftr_div_pow2, Z.div_small by lia. reflexivity.
Qed.
Lemma ring_zero junk m a : W m -> W a -> V m <> 0 -> exists z, pm_ring_zero w junk m a = ROk z /\ (z = true -> pdivides (V m) (V a)) /\ (z = false -> ~ pdivides (V m) (V a)).
Proof.
  intros Hm Ha N. unfold pm_ring_zero. destruct (xor_spec w a pm_zero Ha (W_nil w)) as [x1 x2]. change (V pm_zero) with 0 in x2. rewrite Z.lxor_0_r in x2. destruct (modulo_spec junk (pm_xor a pm_zero) m x1 Hm N) as (r & q & E & Wr & Pq & V1 & V2). rewrite E. cbn [rbind]. rewrite eq_zero by auto. rewrite x2 in V1. pose proof (V_bound w _ Hm). exists (V r =? 0). split; auto. split; intros Z0.
  - apply Z.eqb_eq in Z0. exists q. split; auto. rewrite V1, Z0, Z.lxor_0_r. reflexivity.
  - apply Z.eqb_neq in Z0. intros (q' & Pq' & E'). apply Z0. pose proof (Z.pow_pos_nonneg 2 (Z.log2 (V m)) ltac:(lia) (Z.log2_nonneg _)). destruct (pdiv_unique (V m) q q' (V r) 0) as [_ ?]; auto; try lia. rewrite <- V1, E', Z.lxor_0_r. reflexivity.
Qed.
Lemma inverse_loop junk m a : W m -> W a -> V m <> 0 -> V a < 2 ^ (Z.log2 (V m) + 1) -> forall f g0 g1 v0 v1 g v, W g0 -> W g1 -> W v0 -> W v1 ->
  (forall d, 0 <= d -> pdivides d (V g0) -> pdivides d (V g1) -> pdivides d (V m) /\ pdivides d (V a)) ->
  pcong (V m) (pmul (V v0) (V a)) (V g0) -> pcong (V m) (pmul (V v1) (V a)) (V g1) ->
  V g1 < 2 ^ Z.log2 (V m) \/ (V g0 = V m /\ V g1 = V a) ->
  pm_inverse_loop w junk m f g0 g1 v0 v1 = ROk (g, v) ->
  W g /\ W v /\ pdivides (V g) (V m) /\ pdivides (V g) (V a) /\ pcong (V m) (pmul (V v) (V a)) (V g).
Proof.
  intros Hm Ha Nm La. pose proof (V_bound w _ Hm) as Bm. pose proof (V_bound w _ Ha) as Ba. pose proof (Z.log2_nonneg (V m)) as Lm.
  induction f as [|f IH]; intros g0 g1 v0 v1 g v H0 H1 K0 K1 D C0 C1 S X; cbn [pm_inverse_loop] in X; [discriminate|]. pose proof (V_bound w _ H0) as B0. pose proof (V_bound w _ H1) as B1. pose proof (V_bound w _ K0) as BK0. pose proof (V_bound w _ K1) as BK1.
  destruct (ring_zero junk m g1 Hm H1 Nm) as (z & Ez & T & F). rewrite Ez in X. cbn [rbind] in X. destruct z.
  - injection X as <- <-. specialize (T eq_refl). split; auto. split; auto. destruct (D (V g0)) as [D1 D2]; [lia|apply pdiv_refl; lia| |auto]. destruct S as [S|[S1 S2]]; [|rewrite S1; auto].
    destruct T as (q & Pq & E). destruct (Z.eq_dec (V g1) 0) as [->|N]; [apply pdiv_0|]. exfalso. destruct (Z.eq_dec q 0) as [->|Nq]; [rewrite pmul_0_l in E; lia|]. destruct (pmul_pos_pos q (V m) ltac:(lia) ltac:(lia)) as [_ L]. rewrite <- E in L. pose proof (Z.log2_nonneg q). pose proof (Z.log2_lt_pow2 (V g1) (Z.log2 (V m)) ltac:(lia)). lia.
  - specialize (F eq_refl). assert (N1 : V g1 <> 0) by (intros E; apply F; rewrite E; apply pdiv_0). destruct (divide_spec w Hwb junk g0 g1 H0 H1 N1) as (r & y & E & Wr & Wy & V1 & V2). rewrite E in X. cbn [rbind fst snd] in X. destruct (pm_times w junk v1 y) as [p| | | |] eqn:Tm; try discriminate. cbn [rbind] in X. destruct (times_ok junk v1 y p K1 Wy Tm) as [Wp Vp].
    destruct (xor_spec w v0 p K0 Wp) as [x1 x2]. pose proof (V_bound w _ Wy) as By. pose proof (lxor_move _ _ _ V1) as Rq. apply (IH g1 r v1 (pm_xor v0 p) g v); auto.
    + intros d Hd P1 P2. apply D; auto. rewrite V1. apply pdiv_lxor; auto. apply pdiv_mul; auto. lia.
    + rewrite x2, Vp, pmul_lxor_l by lia. rewrite Rq. apply pcong_lxor; [lia|exact C0|]. rewrite (pmul_comm (V v1)) by lia. pose proof (pmul_nonneg (V v1) (V a) ltac:(lia)). rewrite pmul_assoc by lia. rewrite (pmul_comm (V y) (pmul _ _)), (pmul_comm (V y) (V g1)) by lia. apply pcong_mul_l; auto; lia.
    + left. apply Z.lt_le_trans with (2 ^ Z.log2 (V g1)); [lia|]. apply Z.pow_le_mono_r; [lia|]. destruct S as [S|[S1 S2]]; [pose proof (Z.log2_lt_pow2 (V g1) (Z.log2 (V m)) ltac:(lia)); lia|]. rewrite S2 in *. pose proof (Z.log2_lt_pow2 (V a) (Z.log2 (V m) + 1) ltac:(lia)). lia.
Qed.
Lemma inverse_ok junk a m x : W a -> W m -> V m <> 0 -> V a < 2 ^ (Z.log2 (V m) + 1) -> pm_inverse_mod w junk a m = ROk x ->
  W x /\ (pcong (V m) (pmul (V x) (V a)) 1 \/ V x = 0 /\ forall y, 0 <= y -> ~ pcong (V m) (pmul y (V a)) 1).
Proof.
  intros Ha Hm N La X. unfold pm_inverse_mod in X. destruct (pm_inverse_loop w junk m _ m a pm_zero (pm_one w)) as [[g v]| | | |] eqn:E; try discriminate. cbn [rbind fst snd] in X. destruct one_spec as [o1 o2]. pose proof (V_bound w _ Hm) as Bm. pose proof (V_bound w _ Ha) as Ba.
  apply (inverse_loop junk m a Hm Ha N La) in E; auto.
  - destruct E as (Wg & Wv & D1 & D2 & C). unfold pm_is_unit in X. rewrite (equals_spec w), o2 in X by auto. pose proof (V_bound w _ Wg) as Bg. pose proof (V_bound w _ Wv) as Bv. destruct (Z.eqb_spec (V g) 1) as [G1|G1].
    + unfold pm_divided_by in X. destruct (divide_spec w Hwb junk v g Wv Wg ltac:(lia)) as (r & q & E2 & Wr & Wq & V1 & V2). rewrite E2 in X. cbn [rbind snd] in X. injection X as <-. split; auto. left. rewrite G1 in *. change (2 ^ Z.log2 1) with 1 in V2. rewrite pmul_1_r in V1. assert (R0 : V r = 0) by lia. rewrite R0, Z.lxor_0_r in V1. rewrite <- V1. exact C.
    + injection X as <-. split; [apply (W_nil w)|]. right. split; auto. intros y Hy (q & Hq & Q). apply G1. apply pdiv_one; [lia|]. pose proof (lxor_move _ _ _ (eq_sym Q)) as R. rewrite R. apply pdiv_lxor; [lia| |]; apply pdiv_mul; auto; lia.
  - apply (W_nil w).
  - change (V pm_zero) with 0. rewrite pmul_0_l. apply pcong_sym, pcong_f. lia.
  - rewrite o2, pmul_1_l by lia. apply pcong_refl.
Qed.
(** ** The inverse never leaves its registers *)
Lemma pmul_bound a b n k : 0 <= n -> 0 <= k -> 0 <= a < 2 ^ n -> 0 <= b < 2 ^ k -> 0 <= pmul a b < 2 ^ (n + k).
Proof.
  intros Hn Hk Ha Hb. split; [apply pmul_nonneg; lia|]. destruct (Z.eq_dec a 0) as [->|Na]; [rewrite pmul_0_l; apply Z.pow_pos_nonneg; lia|]. destruct (Z.eq_dec b 0) as [->|Nb]; [rewrite pmul_0_r; apply Z.pow_pos_nonneg; lia|].
  destruct (pmul_pos_pos a b ltac:(lia) ltac:(lia)) as [P1 L]. apply Z.log2_lt_pow2; auto. pose proof (proj1 (Z.log2_lt_pow2 a n ltac:(lia)) ltac:(lia)). pose proof (proj1 (Z.log2_lt_pow2 b k ltac:(lia)) ltac:(lia)). lia.
Qed.
Lemma shl_len junk r : W r -> V r * 2 < WordsProofs.P w (length r) -> length (pm_shl w junk r 1) = length r.
Proof.
  intros H L. rewrite shl_junk by auto. destruct r as [|u r0] eqn:R; [reflexivity|]. rewrite <- R in *. clear R. pose proof (wn_pos w). rewrite Nat.div_small, Nat.mod_small by lia. cbn [repeat app]. pose proof (Hw w). change (Z.of_nat 1) with 1. destruct (shl_bits_spec w r 1 ltac:(lia) H) as (h1 & h2 & h3 & h4). destruct (shl_bits w r 1) as [x c]. cbn [fst snd] in *. change (2 ^ 1) with 2 in *.
  destruct (Z.eqb_spec c 0) as [Z0|Z0]; [exact h2|]. exfalso. pose proof (V_bound w _ h1). pose proof (P_pos w (length r)). nia.
Qed.
Lemma btw_P n : 2 ^ Z.of_nat n <= WordsProofs.P w (bits_to_words w n).
Proof.
  pose proof (wn_pos w) as WP. pose proof (Hw w). rewrite (P_pow2 w). apply Z.pow_le_mono_r; [lia|]. unfold bits_to_words. pose proof (Nat.div_mod (n + Z.to_nat w - 1) (Z.to_nat w) ltac:(lia)) as D. pose proof (Nat.mod_upper_bound (n + Z.to_nat w - 1) (Z.to_nat w) ltac:(lia)). set (q := ((n + Z.to_nat w - 1) / Z.to_nat w)%nat) in *. clearbody q. nia.
Qed.
Lemma btw_mono a b : (a <= b)%nat -> (bits_to_words w a <= bits_to_words w b)%nat.
Proof. intros H. pose proof (wn_pos w). unfold bits_to_words. apply Nat.div_le_mono; lia. Qed.
Lemma times_loop_len junk a b l : W a -> W b -> (forall k, 2 * pmul (V a) (Z.shiftr (V b) (Z.of_nat (S k))) < WordsProofs.P w l) -> forall k r x, W r -> length r = l -> V r = pmul (V a) (Z.shiftr (V b) (Z.of_nat k)) -> pm_times_loop w junk a b k r = ROk x -> length x = l.
Proof.
  intros Ha Hb Hl. pose proof (V_bound w _ Hb). induction k as [|i IH]; intros r x Hr Lr E X; cbn [pm_times_loop] in X.
  - injection X as <-. auto.
  - destruct (shl_spec w junk r 1 Hr) as (s1 & s2 & s3). change (2 ^ Z.of_nat 1) with 2 in s2. pose proof (Hl i) as Li. assert (SL : length (pm_shl w junk r 1) = l) by (rewrite shl_len; auto; rewrite Lr; lia). set (r1 := pm_shl w junk r 1) in *. clearbody r1. rewrite coef_spec in X by auto.
    assert (Q : pmul (V a) (Z.shiftr (V b) (Z.of_nat i)) = Z.lxor (if Z.testbit (V b) (Z.of_nat i) then V a else 0) (V r1)). { rewrite shiftr_S, pmul_bin_r by (apply Z.shiftr_nonneg; lia). f_equal. lia. }
    destruct (Z.testbit (V b) (Z.of_nat i)).
    + destruct (Nat.leb_spec (length a) (length r1)); [|discriminate]. destruct (xor_store w r1 a s1 Ha ltac:(lia)) as (x1 & x2 & x3). apply (IH _ _ x1 ltac:(lia) ltac:(rewrite x3, Q; apply Z.lxor_comm) X).
    + apply (IH _ _ s1 SL ltac:(rewrite Q, Z.lxor_0_l; reflexivity) X).
Qed.
Lemma times_len junk a b x : W a -> W b -> pm_times w junk a b = ROk x -> length x = bits_to_words w (pm_bit_count w a + pm_bit_count w b).
Proof.
  intros Ha Hb E. unfold pm_times in E. destruct (of_word0 w (pm_bit_count w a + pm_bit_count w b)) as (o1 & o2 & o3). pose proof (bc_bound w Hwb a Ha) as BA. pose proof (bc_bound w Hwb b Hb) as BB.
  apply (times_loop_len junk a b (bits_to_words w (pm_bit_count w a + pm_bit_count w b)) Ha Hb) in E; auto.
  - intros k. eapply Z.lt_le_trans; [|apply btw_P]. rewrite <- pmul_double_r by (apply Z.shiftr_nonneg; lia). rewrite Nat2Z.inj_add. apply pmul_bound; try lia. assert (0 <= Z.shiftr (V b) (Z.of_nat (S k))) by (apply Z.shiftr_nonneg; lia). pose proof (shiftr_S (V b) k) as S. assert (0 <= Z.b2z (Z.testbit (V b) (Z.of_nat k))) by (destruct (Z.testbit (V b) (Z.of_nat k)); cbn; lia).
    assert (Z.shiftr (V b) (Z.of_nat k) <= V b); [|lia]. rewrite Z.shiftr_div_pow2 by lia. pose proof (Z.pow_pos_nonneg 2 (Z.of_nat k) ltac:(lia) ltac:(lia)). apply Z.div_le_upper_bound; [lia|nia].
  - rewrite o3. rewrite Z.shiftr_div_pow2, Z.div_small by lia. reflexivity.
Qed.
Lemma bc_product a b p : W a -> W b -> W p -> V a <> 0 -> V b <> 0 -> V p = pmul (V a) (V b) -> (pm_bit_count w p + 1 = pm_bit_count w a + pm_bit_count w b)%nat /\ V p <> 0.
Proof.
  intros Ha Hb Hp Na Nb E. pose proof (V_bound w _ Ha). pose proof (V_bound w _ Hb). destruct (pmul_pos_pos (V a) (V b) ltac:(lia) ltac:(lia)) as [P1 L]. rewrite <- E in P1, L. pose proof (bc_spec w Hwb a Ha) as A. pose proof (bc_spec w Hwb b Hb) as Bq. pose proof (bc_spec w Hwb p Hp) as C.
  destruct (Z.eqb_spec (V a) 0); [lia|]. destruct (Z.eqb_spec (V b) 0); [lia|]. destruct (Z.eqb_spec (V p) 0); lia.
Qed.
Lemma bc_le_log a n : W a -> 0 <= n -> V a < 2 ^ n -> Z.of_nat (pm_bit_count w a) <= n.
Proof.
  intros Ha Hn L. pose proof (V_bound w _ Ha). rewrite bc_spec by auto. destruct (Z.eqb_spec (V a) 0); [lia|]. pose proof (proj1 (Z.log2_lt_pow2 (V a) n ltac:(lia)) L). lia.
Qed.
(** Adding something of smaller degree. *)
Lemma bc_lxor a b c : W a -> W b -> W c -> (pm_bit_count w a < pm_bit_count w b)%nat -> V c = Z.lxor (V a) (V b) -> pm_bit_count w c = pm_bit_count w b /\ V c <> 0.
Proof.
  intros Ha Hb Hc L E. pose proof (bc_bound w Hwb a Ha) as BA. pose proof (bc_bound w Hwb b Hb) as BB. pose proof (bc_spec w Hwb b Hb) as Sb. pose proof (V_bound w _ Hb). destruct (Z.eqb_spec (V b) 0) as [|Nb]; [lia|]. pose proof (Z.log2_nonneg (V b)).
  assert (T : Z.testbit (V c) (Z.log2 (V b)) = true). { rewrite E, Z.lxor_spec, Z.bit_log2 by lia. rewrite <- (Z.mod_small (V a) (2 ^ Z.of_nat (pm_bit_count w a)) BA), Z.mod_pow2_bits_high by lia. reflexivity. }
  assert (Nc : V c <> 0) by (intros Q; rewrite Q, Z.bits_0 in T; discriminate). split; auto. pose proof (V_bound w _ Hc).
  assert (U : V c < 2 ^ Z.of_nat (pm_bit_count w b)). { rewrite E. assert (2 ^ Z.of_nat (pm_bit_count w a) <= 2 ^ Z.of_nat (pm_bit_count w b)) by (apply Z.pow_le_mono_r; lia). apply (lxor_range (Z.of_nat (pm_bit_count w b))); lia. }
  pose proof (bc_le_log c (Z.of_nat (pm_bit_count w b)) Hc ltac:(lia) U). pose proof (bc_spec w Hwb c Hc) as Sc. destruct (Z.eqb_spec (V c) 0); [lia|].
  assert (Z.log2 (V b) <= Z.log2 (V c)); [|lia]. destruct (Z.le_gt_cases (Z.log2 (V b)) (Z.log2 (V c))); auto. rewrite Z.bits_above_log2 in T by lia. discriminate.
Qed.
Lemma inverse_total junk m : W m -> V m <> 0 -> forall f g0 g1 v0 v1, W g0 -> W g1 -> W v0 -> W v1 -> (pm_bit_count w g1 < f)%nat ->
  (pm_bit_count w g1 <= pm_bit_count w g0)%nat -> V v1 <> 0 -> (pm_bit_count w v0 <= pm_bit_count w v1)%nat -> (pm_bit_count w v0 < pm_bit_count w v1 \/ pm_bit_count w g1 < pm_bit_count w g0)%nat ->
  (length v0 <= bits_to_words w (pm_bit_count w v0 + 1))%nat -> (length v1 <= bits_to_words w (pm_bit_count w v1 + 1))%nat ->
  exists g v, pm_inverse_loop w junk m f g0 g1 v0 v1 = ROk (g, v).
Proof.
  intros Hm Nm. induction f as [|f IH]; intros g0 g1 v0 v1 H0 H1 K0 K1 Lf Lg Nv Lv St T0 T1; [lia|]. cbn [pm_inverse_loop].
  destruct (ring_zero junk m g1 Hm H1 Nm) as (z & Ez & T & F). rewrite Ez. cbn [rbind]. destruct z; [eauto|]. specialize (F eq_refl). assert (N1 : V g1 <> 0) by (intros E; apply F; rewrite E; apply pdiv_0).
  destruct (divide_spec w Hwb junk g0 g1 H0 H1 N1) as (r & y & E & Wr & Wy & V1 & V2). rewrite E. cbn [rbind fst snd]. pose proof (bc_mono r g1 Wr H1 N1 ltac:(lia)) as LR.
  assert (Ny : V y <> 0). { intros Q. rewrite Q, pmul_0_l, Z.lxor_0_l in V1. pose proof (bc_spec w Hwb g0 H0) as A. pose proof (bc_spec w Hwb r Wr) as A'. rewrite V1 in A. lia. }
  assert (G : (pm_bit_count w g0 = pm_bit_count w y + pm_bit_count w g1 - 1)%nat).
  { pose proof (V_bound w _ Wy). pose proof (V_bound w _ H1). pose proof (bc_spec w Hwb y Wy) as Sy. pose proof (bc_spec w Hwb g1 H1) as S1. destruct (Z.eqb_spec (V y) 0); [lia|]. destruct (Z.eqb_spec (V g1) 0); [lia|]. destruct (pmul_pos_pos (V y) (V g1) ltac:(lia) ltac:(lia)) as [P1 L]. pose proof (Z.log2_nonneg (V y)). pose proof (Z.log2_nonneg (V g1)).
    assert (LG : Z.log2 (V g0) = Z.log2 (V y) + Z.log2 (V g1)).
    { apply Z.log2_unique; [lia|]. destruct (Z.log2_spec _ P1) as [M1 M2]. rewrite L in M1, M2. unfold Z.succ in *. set (e := Z.log2 (V y) + Z.log2 (V g1)) in *. rewrite V1. set (p := pmul (V y) (V g1)) in *. assert (V r < 2 ^ e) by (apply Z.lt_le_trans with (2 ^ Z.log2 (V g1)); [lia|apply Z.pow_le_mono_r; unfold e; lia]). assert (0 <= e) by (unfold e; lia). assert (2 ^ e <= 2 ^ (e + 1)) by (apply Z.pow_le_mono_r; lia).
      assert (N0 : 0 <= Z.lxor p (V r)) by (apply Z.lxor_nonneg; lia). assert (Tb : Z.testbit (Z.lxor p (V r)) e = true). { rewrite Z.lxor_spec. assert (Tp : Z.testbit p e = true) by (rewrite <- L; apply Z.bit_log2; lia). rewrite Tp. rewrite <- (Z.mod_small (V r) (2 ^ e)), Z.mod_pow2_bits_high by lia. reflexivity. }
      clearbody p e. split; [destruct (Z.le_gt_cases (2 ^ e) (Z.lxor p (V r))) as [|Q]; auto; rewrite <- (Z.mod_small (Z.lxor p (V r)) (2 ^ e)), Z.mod_pow2_bits_high in Tb by lia; discriminate|]. apply (lxor_range (e + 1)); lia. }
    assert (V g0 <> 0) by (intros Q; rewrite Q in LG; pose proof (bc_spec w Hwb g0 H0) as A; rewrite Q in A; cbn in A; lia). pose proof (bc_spec w Hwb g0 H0) as A. destruct (Z.eqb_spec (V g0) 0); lia. }
  pose proof (bc_spec w Hwb v1 K1) as Sv. pose proof (Z.log2_nonneg (V v1)). destruct (Z.eqb_spec (V v1) 0); [lia|]. pose proof (bc_spec w Hwb y Wy) as Sy. pose proof (Z.log2_nonneg (V y)). destruct (Z.eqb_spec (V y) 0); [lia|].
  destruct (times_spec w Hwb junk v1 y K1 Wy) as (p & Ep & Wp & Vp); [eapply Nat.le_trans; [exact T1|]; apply btw_mono; lia|]. rewrite Ep. cbn [rbind].
  destruct (bc_product v1 y p K1 Wy Wp Nv Ny Vp) as [Cp Np]. pose proof (times_len junk v1 y p K1 Wy Ep) as Lp. destruct (xor_spec w v0 p K0 Wp) as [x1 x2].
  destruct (bc_lxor v0 p (pm_xor v0 p) K0 Wp x1 ltac:(lia) x2) as [C1 C2]. apply IH; auto; try lia.
  rewrite C1. assert (LX : length (pm_xor v0 p) = Nat.max (length v0) (length p)) by (unfold pm_xor; destruct (Nat.leb_spec (length v0) (length p)); rewrite app_length, map2_len, skipn_length; lia). rewrite LX. replace (pm_bit_count w p + 1)%nat with (pm_bit_count w v1 + pm_bit_count w y)%nat by lia. apply Nat.max_lub; [|lia]. eapply Nat.le_trans; [exact T0|]. apply btw_mono. lia.
Qed.
Lemma inverse_spec junk a m : W a -> W m -> V m <> 0 -> V a < 2 ^ (Z.log2 (V m) + 1) -> exists x, pm_inverse_mod w junk a m = ROk x /\ W x /\ (pcong (V m) (pmul (V x) (V a)) 1 \/ V x = 0 /\ forall y, 0 <= y -> ~ pcong (V m) (pmul y (V a)) 1).
Proof.
  intros Ha Hm N La. assert (X : exists x, pm_inverse_mod w junk a m = ROk x); [|destruct X as (x & X); exists x; split; auto; apply (inverse_ok junk a m x); auto].
  destruct one_spec as [o1 o2]. pose proof (bc_spec w Hwb _ o1) as S1. rewrite o2 in S1. cbn in S1. pose proof (Z.log2_nonneg (V m)). pose proof (bc_le_log a (Z.log2 (V m) + 1) Ha ltac:(lia) La). pose proof (bc_spec w Hwb m Hm) as Sm. destruct (Z.eqb_spec (V m) 0); [lia|].
  assert (L1 : (length (pm_one w) <= bits_to_words w (pm_bit_count w (pm_one w) + 1))%nat) by (destruct Hwb as [-> | ->]; cbv; lia).
  destruct (inverse_total junk m Hm N (S (S (pm_bit_count w a))) m a pm_zero (pm_one w)) as (g & v & E); [auto|auto|apply (W_nil w)|auto|lia|lia|lia|change (pm_bit_count w pm_zero) with 0%nat; lia|left; change (pm_bit_count w pm_zero) with 0%nat; lia|apply Nat.le_0_l|auto|].
  unfold pm_inverse_mod. rewrite E. cbn [rbind fst snd]. destruct (pm_is_unit w g) eqn:U; [|eauto].
  assert (Q : W g /\ W v /\ pdivides (V g) (V m) /\ pdivides (V g) (V a) /\ pcong (V m) (pmul (V v) (V a)) (V g)).
  { pose proof (V_bound w _ Hm). pose proof (V_bound w _ Ha). apply (inverse_loop junk m a Hm Ha N La) in E; auto; [apply (W_nil w)|change (V pm_zero) with 0; rewrite pmul_0_l; apply pcong_sym, pcong_f; lia|rewrite o2, pmul_1_l by lia; apply pcong_refl]. }
  destruct Q as (Wg & Wv & _). unfold pm_is_unit in U. rewrite (equals_spec w), o2 in U by auto. apply Z.eqb_eq in U. unfold pm_divided_by. destruct (divide_spec w Hwb junk v g Wv Wg ltac:(lia)) as (r & q & E2 & _). rewrite E2. cbn [rbind]. eauto.
Qed.
End Gcd.
