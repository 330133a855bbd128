(** Proofs about GF2NT::Reduced and Square. *)
From Coq Require Import ZArith List Lia Bool Arith.
From Verif Require Import Base AsnModel AsnProofs WordsModel WordsSpec WordsProofs IntegerModel IntegerSpec IntegerProofs IntegerBitProofs Gf2Spec Gf2Proofs Gf2nModel Gf2nProofs Gf2nSquareProofs Gf2nGcdProofs Gf2ntModel.
Import ListNotations.
Local Open Scope Z_scope.

Lemma lxor_mod2 a b n : 0 <= n -> Z.lxor a b mod 2 ^ n = Z.lxor (a mod 2 ^ n) (b mod 2 ^ n).
Proof.
  intros H. apply Z.bits_inj'. intros k Hk. rewrite Z.lxor_spec. destruct (Z.ltb_spec k n).
  - rewrite !Z.mod_pow2_bits_low, Z.lxor_spec by lia. reflexivity.
  - rewrite !Z.mod_pow2_bits_high by lia. reflexivity.
Qed.
(** Disjoint bits: the sum is the exclusive or. *)
Lemma add_lxor a b n : 0 <= n -> 0 <= a < 2 ^ n -> 0 <= b -> a + b * 2 ^ n = Z.lxor a (b * 2 ^ n).
Proof.
  intros Hn Ha Hb. apply Z.add_nocarry_lxor. apply Z.bits_inj'. intros k Hk. rewrite Z.land_spec, Z.bits_0. destruct (Z.ltb_spec k n).
  - rewrite Z.mul_pow2_bits_low by lia. apply andb_false_r.
  - rewrite <- (Z.mod_small a (2 ^ n)) by lia. rewrite Z.mod_pow2_bits_high by lia. reflexivity.
Qed.
Lemma mul_lxor a b n : 0 <= n -> Z.lxor a b * 2 ^ n = Z.lxor (a * 2 ^ n) (b * 2 ^ n).
Proof. intros. rewrite <- !Z.shiftl_mul_pow2 by auto. apply Z.shiftl_lxor. Qed.

Section Gt.
Variable w : Z.
Context {Hbig : bigw w}.
Hypothesis Hwb : word_bits w.
Notation B := (base w).
Notation V := (wval w).
Notation W := (words w).
Notation P := (WordsProofs.P w).
Notation wn := (Z.to_nat w).

Lemma w_pos : 2 <= w. Proof. destruct Hwb; lia. Qed.
Lemma gt_xor_spec idx v b : W b -> 0 <= v < B -> 0 <= idx < Z.of_nat (length b) ->
  exists x, gt_xor idx v b = ROk x /\ W x /\ length x = length b /\ V x = Z.lxor (V b) (v * 2 ^ (w * idx)).
Proof.
  intros H Hv Hi. unfold gt_xor. rewrite (proj2 (Z.leb_le 0 idx)), (proj2 (Z.ltb_lt idx _)) by lia. cbn [andb]. eexists. split; [reflexivity|].
  pose proof (W_at w b (Z.to_nat idx) H) as A. assert (WU : W (upd (Z.to_nat idx) (Z.lxor (at_ b (Z.to_nat idx)) v) b)) by (apply (W_upd w); auto; apply (lxor_w w); auto).
  split; auto. split; [apply upd_len|]. pose proof w_pos as WP. pose proof (V_bound w b H). set (i := Z.to_nat idx) in *. assert (EI : idx = Z.of_nat i) by (unfold i; lia). rewrite EI in *. assert (Li : (i < length b)%nat) by lia. clearbody i.
  assert (N0 : 0 <= v * 2 ^ (w * Z.of_nat i)) by (apply Z.mul_nonneg_nonneg; [lia|]; apply Z.pow_nonneg; lia).
  apply (V_ext w); auto. { apply lxor_nonneg'; lia. } intros q t Ht. rewrite Z.lxor_spec.
  assert (S : Z.testbit (v * 2 ^ (w * Z.of_nat i)) (w * Z.of_nat q + t) = if (q =? i)%nat then Z.testbit v t else false).
  { destruct (Nat.eqb_spec q i) as [->|N]. - rewrite Z.mul_pow2_bits by nia. f_equal. lia.
    - destruct (Nat.lt_ge_cases q i). + rewrite Z.mul_pow2_bits_low by nia. reflexivity. + rewrite Z.mul_pow2_bits by nia. rewrite <- (Z.mod_small v (2 ^ w)) by (unfold base in Hv; lia). apply Z.mod_pow2_bits_high. nia. }
  rewrite S, <- (at_testbit w) by auto. destruct (Nat.eqb_spec q i) as [->|N].
  - replace (at_ (upd i (Z.lxor (at_ b i) v) b) i) with (Z.lxor (at_ b i) v). { apply Z.lxor_spec. } unfold at_. generalize (Z.lxor (nth i b 0) v). clear -Li. revert i Li. induction b; intros [|i] L x; cbn [length] in L; try lia; cbn [upd nth]; auto. apply IHb. lia.
  - rewrite xorb_false_r. f_equal. unfold at_. generalize (Z.lxor (nth i b 0) v). clear -N. revert i q N. induction b; intros [|i] [|q] N x; cbn [upd nth]; auto; try congruence.
Qed.
Lemma shiftr_w v k : 0 <= v < B -> 0 <= k -> 0 <= Z.shiftr v k < B.
Proof. intros Hv Hk. rewrite Z.shiftr_div_pow2 by auto. assert (0 < 2 ^ k) by (apply Z.pow_pos_nonneg; lia). split; [apply Z.div_pos; lia|]. apply Z.div_lt_upper_bound; nia. Qed.
Lemma wd_w v : 0 <= wd w v < B.
Proof. unfold wd. apply Z.mod_pos_bound. unfold base. apply Z.pow_pos_nonneg; pose proof w_pos; lia. Qed.
(** A word shifted down by k bits, 0 < k < w, is the two parts the code writes. *)
Lemma split_word v k m : 0 <= v < B -> 0 < k < w -> 0 <= m ->
  Z.lxor (Z.shiftr v k * 2 ^ (m + w)) (wd w (Z.shiftl v (w - k)) * 2 ^ m) = v * 2 ^ (m + w - k).
Proof.
  intros Hv Hk Hm. assert (P1 : 0 < 2 ^ k) by (apply Z.pow_pos_nonneg; lia). assert (P2 : 0 < 2 ^ (w - k)) by (apply Z.pow_pos_nonneg; lia).
  assert (BE : B = 2 ^ k * 2 ^ (w - k)) by (unfold base; rewrite <- Z.pow_add_r by lia; f_equal; lia).
  replace (v * 2 ^ (m + w - k)) with (v * 2 ^ (w - k) * 2 ^ m) by (rewrite <- Z.mul_assoc, <- Z.pow_add_r by lia; do 2 f_equal; lia).
  replace (2 ^ (m + w)) with (2 ^ w * 2 ^ m) by (rewrite Z.add_comm, Z.pow_add_r by lia; reflexivity). rewrite Z.mul_assoc, <- mul_lxor by auto. f_equal.
  rewrite Z.lxor_comm, <- add_lxor; [|lia|apply wd_w|apply shiftr_w; [auto|lia]].
  unfold wd. rewrite Z.shiftl_mul_pow2, Z.shiftr_div_pow2 by lia. change (base w) with B. rewrite BE, Z.mul_mod_distr_r by lia. change (2 ^ w) with B. rewrite BE. pose proof (Z.div_mod v (2 ^ k) ltac:(lia)). nia.
Qed.
Lemma gt_fold_spec s i temp b : W b -> 0 <= temp < B -> w <= s -> s <= w * i -> i <= Z.of_nat (length b) ->
  exists x, gt_fold w s i temp b = ROk x /\ W x /\ length x = length b /\ V x = Z.lxor (V b) (temp * 2 ^ (w * i - s)).
Proof.
  intros H Ht Hs Hi Hl. pose proof w_pos as WP. unfold gt_fold. pose proof (Z.div_mod s w ltac:(lia)) as DM. pose proof (Z.mod_pos_bound s w ltac:(lia)) as MB. assert (1 <= s / w) by (apply Z.div_le_lower_bound; lia). set (q := s / w) in *. set (k := s mod w) in *. clearbody q k.
  destruct (Z.eqb_spec k 0) as [K|K].
  - destruct (gt_xor_spec (i - q) temp b H Ht) as (x & E & X1 & X2 & X3); [nia|]. exists x. split; auto. split; auto. split; auto. rewrite X3. do 3 f_equal. nia.
  - assert (q + 1 <= i) by nia. destruct (gt_xor_spec (i - q) (Z.shiftr temp k) b H (shiftr_w temp k Ht ltac:(lia))) as (x & E & X1 & X2 & X3); [nia|]. rewrite E. cbn [rbind].
    destruct (gt_xor_spec (i - q - 1) (wd w (Z.shiftl temp (w - k))) x X1 (wd_w _)) as (y & F & Y1 & Y2 & Y3); [lia|]. exists y. split; auto. split; auto. split; [lia|]. rewrite Y3, X3, Z.lxor_assoc. f_equal.
    replace (w * (i - q)) with (w * (i - q - 1) + w) by ring. rewrite split_word by (auto; nia). do 2 f_equal. nia.
Qed.

Section Tri.
Variables t0 t1 : Z.
Hypothesis Ht1 : 0 < t1.
Hypothesis Hd : w <= t0 - t1.
Notation f := (2 ^ t0 + 2 ^ t1 + 1).
Lemma f_lxor : f = Z.lxor (Z.lxor (2 ^ t0) (2 ^ t1)) 1.
Proof.
  pose proof w_pos as WP. assert (T1 : 2 ^ t1 = 2 ^ (t1 - 1) * 2 ^ 1) by (rewrite <- Z.pow_add_r by lia; f_equal; lia). assert (0 < 2 ^ (t1 - 1)) by (apply Z.pow_pos_nonneg; lia). assert (2 ^ t1 < 2 ^ t0) by (apply Z.pow_lt_mono_r; lia).
  rewrite Z.lxor_assoc, (Z.lxor_comm (2 ^ t1)). assert (E : Z.lxor 1 (2 ^ t1) = 1 + 2 ^ t1). { rewrite T1. symmetry. apply add_lxor; cbn; lia. } rewrite E, Z.lxor_comm.
  pose proof (add_lxor (1 + 2 ^ t1) 1 t0 ltac:(lia)) as G. rewrite !Z.mul_1_l in G. rewrite <- G; [lia| |lia]. split; [lia|]. assert (T0 : 2 ^ t0 = 2 ^ (t0 - t1) * 2 ^ t1) by (rewrite <- Z.pow_add_r by lia; f_equal; lia). assert (2 ^ 1 <= 2 ^ (t0 - t1)) by (apply Z.pow_le_mono_r; lia). change (2 ^ 1) with 2 in *. nia.
Qed.
Lemma fold_cong q a : 0 <= q -> 0 <= a -> pcong f (Z.lxor a (q * 2 ^ t0)) (Z.lxor (Z.lxor a q) (q * 2 ^ t1)).
Proof.
  intros Hq Ha. exists q. split; auto. pose proof w_pos as WP. rewrite f_lxor. assert (0 <= 2 ^ t0 /\ 0 <= 2 ^ t1) as [? ?] by (split; apply Z.pow_nonneg; lia). rewrite !pmul_lxor_r, !pmul_pow2, pmul_1_r by (try lia; apply lxor_nonneg'; auto).
  apply Z.bits_inj'. intros k Hk. rewrite !Z.lxor_spec. repeat match goal with |- context [Z.testbit ?x k] => destruct (Z.testbit x k) end; reflexivity.
Qed.
Lemma f_pos : 0 < f. Proof. pose proof w_pos as WP. assert (0 < 2 ^ t0 /\ 0 < 2 ^ t1) as [? ?] by (split; apply Z.pow_pos_nonneg; lia). lia. Qed.

Lemma gt_loop_spec n : t0 <= w * Z.of_nat n -> forall k b, W b -> (n + k <= length b)%nat \/ k = 0%nat ->
  exists x, gt_loop w t0 t1 n k b = ROk x /\ W x /\ length x = length b /\ pcong f (V b mod P (n + k)) (V x mod P n).
Proof.
  intros Hn. pose proof w_pos as WP.
  induction k as [|k IH]; intros b H L; cbn [gt_loop]. { exists b. rewrite Nat.add_0_r. split; auto. split; auto. split; auto. apply pcong_refl. }
  destruct L as [L|L]; [|lia]. set (i := (n + k)%nat) in *. pose proof (W_at w b i H) as A. set (temp := at_ b i) in *.
  assert (EV : V b mod P (n + S k) = Z.lxor (V b mod P i) (temp * 2 ^ (w * Z.of_nat i))).
  { rewrite !(V_mod_P w) by (auto; lia). replace (n + S k)%nat with (S i) by lia. rewrite V_firstn_S by lia. fold temp. rewrite (P_pow2 w), Z.mul_comm. pose proof (V_bound w _ (W_firstn w i b H)) as BF. rewrite firstn_length, Nat.min_l, (P_pow2 w) in BF by lia. apply add_lxor; [nia|auto|lia]. }
  assert (t0 <= w * Z.of_nat i) by nia. clearbody temp.
  destruct (gt_fold_spec t0 (Z.of_nat i) temp b H A ltac:(lia) ltac:(lia) ltac:(lia)) as (x & E & X1 & X2 & X3). rewrite E. cbn [rbind].
  destruct (gt_fold_spec (t0 - t1) (Z.of_nat i) temp x X1 A ltac:(lia) ltac:(lia) ltac:(lia)) as (y & F & Y1 & Y2 & Y3). rewrite F. cbn [rbind].
  destruct (IH y Y1) as (z & Q & Z1 & Z2 & Z3); [left; lia|]. exists z. split; auto. split; auto. split; [lia|]. eapply pcong_trans; [apply f_pos| |exact Z3]. rewrite EV. fold i. rewrite Y3, X3. rewrite (P_pow2 w), !lxor_mod2 by nia.
  assert (T : forall s, w <= s -> s <= w * Z.of_nat i -> (temp * 2 ^ (w * Z.of_nat i - s)) mod 2 ^ (w * Z.of_nat i) = temp * 2 ^ (w * Z.of_nat i - s)).
  { intros s S1 S2. apply Z.mod_small. assert (0 < 2 ^ (w * Z.of_nat i - s)) by (apply Z.pow_pos_nonneg; lia). split; [nia|]. apply Z.lt_le_trans with (2 ^ w * 2 ^ (w * Z.of_nat i - s)); [unfold base in A; nia|]. rewrite <- Z.pow_add_r by lia. apply Z.pow_le_mono_r; lia. }
  rewrite !T by lia. set (q := temp * 2 ^ (w * Z.of_nat i - t0)). assert (0 <= q) by (unfold q; assert (0 < 2 ^ (w * Z.of_nat i - t0)) by (apply Z.pow_pos_nonneg; lia); nia).
  replace (temp * 2 ^ (w * Z.of_nat i)) with (q * 2 ^ t0) by (unfold q; rewrite <- Z.mul_assoc, <- Z.pow_add_r by lia; do 2 f_equal; lia).
  replace (temp * 2 ^ (w * Z.of_nat i - (t0 - t1))) with (q * 2 ^ t1) by (unfold q; rewrite <- Z.mul_assoc, <- Z.pow_add_r by lia; do 2 f_equal; lia).
  apply fold_cong; auto. apply Z.mod_pos_bound. apply Z.pow_pos_nonneg; nia.
Qed.

Lemma gt_last_spec i b : W b -> (i < length b)%nat -> t0 mod w <> 0 -> Z.of_nat i = t0 / w ->
  exists x, gt_last w t0 t1 i b = ROk x /\ W x /\ length x = length b /\ pcong f (V b mod P (S i)) (V x mod P (S i)) /\ V x mod P (S i) < 2 ^ t0.
Proof.
  intros H L K0 Ei. pose proof w_pos as WP. unfold gt_last. cbv zeta. pose proof (W_at w b i H) as A.
  pose proof (Z.div_mod t0 w ltac:(lia)) as DM. pose proof (Z.mod_pos_bound t0 w ltac:(lia)) as MB. rewrite <- Ei in *. set (k := t0 mod w) in *. clearbody k. clear Ei. replace (Z.of_nat i - Z.of_nat i) with 0 by lia.
  assert (EV : V b mod P (S i) = V b mod P i + P i * at_ b i). { rewrite !(V_mod_P w) by (auto; lia). apply V_firstn_S. lia. }
  set (x := at_ b i) in *. assert (P1 : 0 < 2 ^ k) by (apply Z.pow_pos_nonneg; lia). set (h := x / 2 ^ k).
  assert (BE : B = 2 ^ (w - k) * 2 ^ k) by (unfold base; rewrite <- Z.pow_add_r by lia; f_equal; lia).
  assert (Hh : 0 <= h < 2 ^ (w - k)). { unfold h. split; [apply Z.div_pos; lia|]. apply Z.div_lt_upper_bound; lia. }
  pose proof (Z.div_mod x (2 ^ k) ltac:(lia)) as XD. fold h in XD. pose proof (Z.mod_pos_bound x (2 ^ k) ltac:(lia)) as XM.
  replace (2 ^ k - 1) with (Z.ones k) by (rewrite Z.ones_equiv; lia). rewrite Z.land_ones by lia.
  assert (TE : Z.ldiff x (Z.ones k) = h * 2 ^ k). { rewrite Z.ldiff_ones_r, Z.shiftl_mul_pow2, Z.shiftr_div_pow2 by lia. reflexivity. } rewrite TE.
  assert (TB : 0 <= h * 2 ^ k < B) by (rewrite BE; nia).
  assert (SH : forall j, 0 <= j <= k -> Z.shiftr (h * 2 ^ k) j = h * 2 ^ (k - j)). { intros j Hj. rewrite Z.shiftr_div_pow2 by lia. replace k with (k - j + j) at 1 by lia. rewrite Z.pow_add_r, Z.mul_assoc by lia. apply Z.div_mul. assert (0 < 2 ^ j) by (apply Z.pow_pos_nonneg; lia). lia. }
  rewrite (SH k), Z.sub_diag, Z.mul_1_r by lia. set (b1 := upd i (x mod 2 ^ k) b). assert (W1 : W b1) by (apply (W_upd w); auto; nia). assert (L1 : length b1 = length b) by apply upd_len.
  assert (V1 : V b1 mod P (S i) = V b mod P i + P i * (x mod 2 ^ k)).
  { rewrite (V_mod_P w) by (auto; lia). rewrite V_firstn_S by lia. f_equal.
    - rewrite (V_mod_P w) by (auto; lia). f_equal. unfold b1. generalize (x mod 2 ^ k). clear. revert i. induction b; intros [|i] y; cbn [upd firstn]; auto. f_equal. apply IHb.
    - f_equal. unfold b1, at_. generalize (x mod 2 ^ k). clear -L. revert i L. induction b; intros [|i] L y; cbn [length] in L; try lia; cbn [upd nth]; auto. apply IHb. lia. }
  assert (PE : P i * 2 ^ k = 2 ^ t0) by (rewrite (P_pow2 w), <- Z.pow_add_r by nia; f_equal; lia). pose proof (P_pos w i) as PP. pose proof (Z.mod_pos_bound (V b) (P i) PP) as VM.
  assert (R1 : 0 <= V b1 mod P (S i) < 2 ^ t0) by (rewrite V1, <- PE; nia).
  assert (EV' : V b mod P (S i) = Z.lxor (V b1 mod P (S i)) (h * 2 ^ t0)). { rewrite <- add_lxor by lia. rewrite EV, V1, <- PE. rewrite XD at 1. ring. }
  assert (HB : 0 <= h < B) by (rewrite BE; nia). assert (HP : P (S i) = 2 ^ (t0 + (w - k))) by (rewrite (P_pow2 w); f_equal; lia).
  destruct (gt_xor_spec 0 h b1 W1 HB ltac:(lia)) as (b2 & E2 & W2 & L2 & V2). rewrite E2. cbn [rbind]. rewrite Z.mul_0_r, Z.mul_1_r in V2. clear E2.
  assert (FIN : forall b3, V b3 = Z.lxor (V b2) (h * 2 ^ t1) -> pcong f (V b mod P (S i)) (V b3 mod P (S i)) /\ V b3 mod P (S i) < 2 ^ t0).
  { intros b3 V3. assert (H1 : 0 <= h < 2 ^ t0). { split; [lia|]. apply Z.lt_le_trans with (2 ^ (w - k)); [lia|]. apply Z.pow_le_mono_r; lia. }
    assert (H2 : 0 <= h * 2 ^ t1 < 2 ^ t0). { assert (0 < 2 ^ t1) by (apply Z.pow_pos_nonneg; lia). split; [nia|]. apply Z.lt_le_trans with (2 ^ (w - k) * 2 ^ t1); [nia|]. rewrite <- Z.pow_add_r by lia. apply Z.pow_le_mono_r; lia. }
    assert (LE : 2 ^ t0 <= P (S i)) by (rewrite HP; apply Z.pow_le_mono_r; lia).
    assert (M3 : V b3 mod P (S i) = Z.lxor (Z.lxor (V b1 mod P (S i)) h) (h * 2 ^ t1)). { rewrite V3, V2, HP, !lxor_mod2 by lia. rewrite <- HP. rewrite (Z.mod_small h), (Z.mod_small (h * 2 ^ t1)) by lia. reflexivity. }
    rewrite M3, EV'. split; [apply fold_cong; lia|]. apply lxor_range; [lia| |auto]. apply lxor_range; [lia|auto|auto]. }
  set (d := t0 - t1) in *. pose proof (Z.div_mod d w ltac:(lia)) as DD. pose proof (Z.mod_pos_bound d w ltac:(lia)) as DB. assert (1 <= d / w) by (apply Z.div_le_lower_bound; lia). set (q := d / w) in *. set (e := d mod w) in *. assert (T1 : t1 = t0 - d) by (unfold d; lia). clearbody q e d.
  assert (QI : q <= Z.of_nat i) by nia. assert (QW : 0 <= w * (Z.of_nat i - q)) by nia. assert (TQ : t1 = k + w * (Z.of_nat i - q) - e) by nia.
  destruct (Z.eqb_spec e 0) as [EZ|EZ].
  - destruct (gt_xor_spec (Z.of_nat i - q) (h * 2 ^ k) b2 W2 TB ltac:(lia)) as (b3 & E3 & W3 & L3 & V3). exists b3. split; auto. split; auto. split; [lia|]. apply FIN. rewrite V3. f_equal. rewrite <- Z.mul_assoc, <- Z.pow_add_r by lia. do 2 f_equal. lia.
  - destruct (gt_xor_spec (Z.of_nat i - q) (Z.shiftr (h * 2 ^ k) e) b2 W2 (shiftr_w _ e TB ltac:(lia)) ltac:(lia)) as (b3 & E3 & W3 & L3 & V3). rewrite E3. cbn [rbind]. rewrite Z.gtb_ltb. destruct (Z.ltb_spec k e) as [KE|KE].
    + assert (q < Z.of_nat i) by nia. assert (QW2 : w * (Z.of_nat i - q) = w * (Z.of_nat i - q - 1) + w) by ring. assert (0 <= w * (Z.of_nat i - q - 1)) by nia. destruct (gt_xor_spec (Z.of_nat i - q - 1) (wd w (Z.shiftl (h * 2 ^ k) (w - e))) b3 W3 (wd_w _) ltac:(lia)) as (b4 & E4 & W4 & L4 & V4). exists b4. split; auto. split; auto. split; [lia|]. apply FIN. rewrite V4, V3, Z.lxor_assoc. f_equal.
      rewrite QW2, split_word by (auto; lia). rewrite <- Z.mul_assoc, <- Z.pow_add_r by lia. do 2 f_equal. lia.
    + exists b3. split; auto. split; auto. split; [lia|]. apply FIN. rewrite V3, SH by lia. f_equal. rewrite <- Z.mul_assoc, <- Z.pow_add_r by lia. do 2 f_equal. lia.
Qed.
End Tri.

Lemma V_low n b : W b -> V (firstn n b ++ repeat 0 (n - length b)) = V b mod P n.
Proof.
  intros H. rewrite V_app, V_repeat0, Z.mul_0_r, Z.add_0_r. destruct (Nat.le_gt_cases n (length b)) as [L|L]; [symmetry; apply (V_mod_P w); auto|].
  rewrite firstn_all2 by lia. symmetry. apply Z.mod_small. pose proof (V_bound w b H). rewrite !(P_pow2 w) in *. pose proof w_pos as WP. assert (2 ^ (w * Z.of_nat (length b)) <= 2 ^ (w * Z.of_nat n)) by (apply Z.pow_le_mono_r; nia). lia.
Qed.
Lemma reduced_spec junk t0 t1 a : W a -> (0 < t1 < t0)%nat -> Z.of_nat t0 - Z.of_nat t1 < w \/ a <> [] ->
  exists r, gt_reduced w junk t0 t1 a = ROk r /\ W r /\ pcong (2 ^ Z.of_nat t0 + 2 ^ Z.of_nat t1 + 1) (V a) (V r) /\ V r < 2 ^ Z.of_nat t0.
Proof.
  intros H Ht NE. pose proof w_pos as WP. unfold gt_reduced. destruct (Z.ltb_spec (Z.of_nat t0 - Z.of_nat t1) w) as [S|S].
  - destruct (trinomial_spec w t0 t1 0 ltac:(lia) ltac:(lia)) as (m & E & Wm & Vm). rewrite E. cbn [rbind]. change (2 ^ Z.of_nat 0) with 1 in Vm.
    assert (0 < 2 ^ Z.of_nat t0 /\ 0 < 2 ^ Z.of_nat t1) as [? ?] by (split; apply Z.pow_pos_nonneg; lia). destruct (modulo_spec w Hwb junk a m H Wm ltac:(lia)) as (r & q & F & Wr & Hq & EQ & R). exists r. split; auto. split; auto. rewrite <- Vm. split.
    + exists q. split; auto. rewrite EQ, Z.lxor_assoc, Z.lxor_nilpotent, Z.lxor_0_r. reflexivity.
    + replace (Z.log2 (V m)) with (Z.of_nat t0) in R; [lia|]. symmetry. rewrite Vm. apply Z.log2_unique; [lia|]. unfold Z.succ. rewrite Z.pow_add_r by lia. change (2 ^ 1) with 2. assert (2 ^ Z.of_nat t1 * 2 <= 2 ^ Z.of_nat t0). { change 2 with (2 ^ 1) at 2. rewrite <- Z.pow_add_r by lia. apply Z.pow_le_mono_r; lia. } assert (2 ^ 1 <= 2 ^ Z.of_nat t1) by (apply Z.pow_le_mono_r; lia). change (2 ^ 1) with 2 in *. lia.
  - destruct NE as [NE|NE]; [lia|]. destruct (Nat.eqb_spec (length a) 0) as [L0|L0]. { destruct a; [congruence|cbn in L0; lia]. }
    set (n := bits_to_words w t0). pose proof (Z.div_mod (Z.of_nat t0) w ltac:(lia)) as DM. pose proof (Z.mod_pos_bound (Z.of_nat t0) w ltac:(lia)) as MB.
    assert (HN : Z.of_nat n = Z.of_nat t0 / w + (if Z.of_nat t0 mod w =? 0 then 0 else 1)).
    { unfold n, bits_to_words. rewrite Nat2Z.inj_div, Z2Nat.id by lia. replace (Z.of_nat (t0 + wn - 1)) with (Z.of_nat t0 + w - 1) by lia. symmetry. destruct (Z.eqb_spec (Z.of_nat t0 mod w) 0); [apply Z.div_unique_pos with (w - 1); lia|apply Z.div_unique_pos with (Z.of_nat t0 mod w - 1); lia]. }
    assert (Hn : Z.of_nat t0 <= w * Z.of_nat n) by (rewrite HN; destruct (Z.of_nat t0 mod w =? 0) eqn:Z0; [apply Z.eqb_eq in Z0|]; nia).
    pose proof (f_pos (Z.of_nat t0) (Z.of_nat t1) ltac:(lia) S) as FP.
    destruct (gt_loop_spec (Z.of_nat t0) (Z.of_nat t1) ltac:(lia) S n Hn (length a - n) a H) as (b & E & Wb & Lb & Cb); [lia|]. rewrite E. cbn [rbind]. clear E.
    assert (EA : V a mod P (n + (length a - n)) = V a). { apply Z.mod_small. pose proof (V_bound w a H). rewrite !(P_pow2 w) in *. assert (2 ^ (w * Z.of_nat (length a)) <= 2 ^ (w * Z.of_nat (n + (length a - n)))) by (apply Z.pow_le_mono_r; nia). lia. } rewrite EA in Cb.
    assert (FIN : forall c, W c -> pcong (2 ^ Z.of_nat t0 + 2 ^ Z.of_nat t1 + 1) (V b mod P n) (V c mod P n) -> V c mod P n < 2 ^ Z.of_nat t0 ->
      exists r, rbind (ROk c) (fun b => ROk (firstn n b ++ repeat 0 (n - length b))) = ROk r /\ W r /\ pcong (2 ^ Z.of_nat t0 + 2 ^ Z.of_nat t1 + 1) (V a) (V r) /\ V r < 2 ^ Z.of_nat t0).
    { intros c Wc C1 C2. cbn [rbind]. eexists. split; [reflexivity|]. split; [apply W_app; split; [apply (W_firstn w); auto|apply (W_repeat0 w)]|]. rewrite V_low by auto. split; auto. eapply pcong_trans; [exact FP|exact Cb|exact C1]. }
    destruct (Nat.leb_spec n (length a)) as [LE|LE]; cbn [andb].
    + destruct (Z.eqb_spec (Z.of_nat t0 mod w) 0) as [Z0|Z0]; cbn [negb].
      * apply FIN; auto. { apply pcong_refl. } pose proof (Z.mod_pos_bound (V b) (P n) (P_pos w n)). rewrite (P_pow2 w) in *. replace (w * Z.of_nat n) with (Z.of_nat t0) in * by nia. lia.
      * destruct (gt_last_spec (Z.of_nat t0) (Z.of_nat t1) ltac:(lia) S (n - 1) b Wb ltac:(lia) Z0 ltac:(lia)) as (c & E & Wc & Lc & C1 & C2). replace (Datatypes.S (n - 1)) with n in * by lia. rewrite E. apply FIN; auto.
    + apply FIN; auto. { apply pcong_refl. } apply Z.le_lt_trans with (V b). { apply Z.mod_le; [pose proof (V_bound w b Wb); lia|apply (P_pos w)]. } pose proof (V_bound w b Wb). apply Z.lt_le_trans with (P (length b)); [lia|]. rewrite (P_pow2 w). apply Z.pow_le_mono_r; [lia|]. destruct (Z.of_nat t0 mod w =? 0); nia.
Qed.
Lemma square_spec junk t0 t1 a : W a -> (0 < t1 < t0)%nat -> Z.of_nat t0 - Z.of_nat t1 < w \/ a <> [] ->
  exists r, gt_square w junk t0 t1 a = ROk r /\ W r /\ pcong (2 ^ Z.of_nat t0 + 2 ^ Z.of_nat t1 + 1) (pmul (V a) (V a)) (V r) /\ V r < 2 ^ Z.of_nat t0.
Proof.
  intros H Ht NE. destruct (squared_spec w Hwb a H) as (s1 & s2 & s3). rewrite <- s3. apply reduced_spec; auto. destruct NE as [NE|NE]; auto. right. intros Q. rewrite Q in s2. destruct a; [congruence|cbn in s2; lia].
Qed.

(** ** Multiply *)
Lemma xor_low n r t : W r -> W t -> length r = n -> W (store r (map2 Z.lxor r (firstn n t))) /\ length (store r (map2 Z.lxor r (firstn n t))) = n /\ V (store r (map2 Z.lxor r (firstn n t))) = Z.lxor (V r) (V t mod P n).
Proof.
  intros H Ht L. assert (LF : (length (firstn n t) <= length r)%nat) by (rewrite firstn_length; lia). destruct (xor_store w r (firstn n t) H (W_firstn w n t Ht) LF) as (x1 & x2 & x3). split; auto. split; [lia|]. rewrite x3. f_equal.
  rewrite <- (V_low n t Ht), V_app, V_repeat0. lia.
Qed.
Lemma firstn_min {A} n (l : list A) : firstn (Nat.min (length l) n) l = firstn n l.
Proof. destruct (Nat.le_gt_cases n (length l)); [rewrite Nat.min_r by auto; reflexivity|]. rewrite Nat.min_l, !firstn_all2 by lia. reflexivity. Qed.
Lemma mul_loop_spec m n md a b : (0 < m)%nat -> 2 ^ Z.of_nat m <= P n -> W md -> W a -> W b -> 2 ^ Z.of_nat m <= V md < 2 ^ (Z.of_nat m + 1) -> V a < 2 ^ Z.of_nat m ->
  forall k r, W r -> length r = n -> V r < 2 ^ Z.of_nat m -> pcong (V md) (V r) (pmul (V a) (Z.shiftr (V b) (Z.of_nat k))) ->
  let x := gt_mul_loop w m n md a b k r in W x /\ length x = n /\ V x < 2 ^ Z.of_nat m /\ pcong (V md) (V x) (pmul (V a) (V b)).
Proof.
  intros Hm HP Wm Wa Wb Hf Ha. pose proof w_pos as WP. pose proof (V_bound w a Wa) as Ba. pose proof (V_bound w b Wb) as Bb. pose proof (P_pos w n) as PP. assert (M0 : 0 < 2 ^ Z.of_nat m) by (apply Z.pow_pos_nonneg; lia).
  induction k as [|i IH]; intros r Wr Lr Br C x; unfold x; cbn [gt_mul_loop]. { split; auto. }
  pose proof (V_bound w r Wr) as Nr. rewrite (coef_spec w), (coef_spec w) by auto.
  destruct (shl_bits_spec w r 1 ltac:(lia) Wr) as (s1 & s2 & s3 & s4). set (r1 := fst (shl_bits w r 1)) in *. set (c := snd (shl_bits w r 1)) in *. clearbody r1 c. rewrite Lr in *. change (2 ^ 1) with 2 in *.
  assert (V1 : V r1 = (2 * V r) mod P n). { pose proof (V_bound w r1 s1) as N1. rewrite s2 in N1. apply Z.mod_unique_pos with c; lia. }
  set (r2 := if Z.testbit (V r) (Z.of_nat (m - 1)) then store r1 (map2 Z.lxor r1 (firstn n md)) else r1).
  assert (S2 : W r2 /\ length r2 = n /\ 0 <= V r2 < 2 ^ Z.of_nat m /\ pcong (V md) (V r2) (2 * V r)).
  { unfold r2. destruct (Z.testbit (V r) (Z.of_nat (m - 1))) eqn:T.
    - destruct (xor_low n r1 md s1 Wm s2) as (x1 & x2 & x3). split; auto. split; auto.
      assert (Q : 0 <= Z.lxor (2 * V r) (V md) < 2 ^ Z.of_nat m).
      { apply lxor_top; try lia.
        - rewrite Z.pow_add_r by lia. change (2 ^ 1) with 2. lia.
        - replace (Z.of_nat m) with (Z.succ (Z.of_nat (m - 1))) by lia. rewrite Z.double_bits_succ. auto.
        - replace (Z.of_nat m) with (Z.log2 (V md)); [apply Z.bit_log2; lia|]. apply Z.log2_unique; lia. }
      assert (E : V (store r1 (map2 Z.lxor r1 (firstn n md))) = Z.lxor (2 * V r) (V md)). { rewrite x3, V1. rewrite (P_pow2 w) in *. rewrite <- lxor_mod2 by nia. apply Z.mod_small. lia. }
      rewrite E. split; auto. exists 1. split; [lia|]. rewrite pmul_1_l by lia. rewrite (Z.lxor_comm (2 * V r) (V md)), Z.lxor_assoc, Z.lxor_nilpotent, Z.lxor_0_r. reflexivity.
    - split; auto. split; auto. assert (B2 : 2 * V r < 2 ^ Z.of_nat m). { replace (Z.of_nat m) with (Z.of_nat (m - 1) + 1) by lia. rewrite Z.pow_add_r by lia. change (2 ^ 1) with 2. assert (V r < 2 ^ Z.of_nat (m - 1)); [|lia]. apply Z.nle_gt. intros G. assert (L2 : Z.log2 (V r) = Z.of_nat (m - 1)). { apply Z.log2_unique; [lia|]. replace (Z.succ (Z.of_nat (m - 1))) with (Z.of_nat m) by lia. lia. } assert (0 < 2 ^ Z.of_nat (m - 1)) by (apply Z.pow_pos_nonneg; lia). pose proof (Z.bit_log2 (V r) ltac:(lia)) as BT. rewrite L2, T in BT. discriminate. }
      rewrite V1, Z.mod_small by lia. split; [lia|]. apply pcong_refl. }
  clearbody r2. destruct S2 as (W2 & L2 & B2 & C2).
  set (r3 := if Z.testbit (V b) (Z.of_nat i) then store r2 (map2 Z.lxor r2 (firstn (Nat.min (length a) n) a)) else r2).
  assert (S3 : W r3 /\ length r3 = n /\ V r3 = Z.lxor (V r2) (if Z.testbit (V b) (Z.of_nat i) then V a else 0)).
  { unfold r3. destruct (Z.testbit (V b) (Z.of_nat i)); [|rewrite Z.lxor_0_r; auto]. rewrite firstn_min. destruct (xor_low n r2 a W2 Wa L2) as (x1 & x2 & x3). split; auto. split; auto. rewrite x3, Z.mod_small by lia. reflexivity. }
  clearbody r3. destruct S3 as (W3 & L3 & V3). apply IH; auto.
  - rewrite V3. apply lxor_range; [lia|lia|]. destruct (Z.testbit (V b) (Z.of_nat i)); lia.
  - rewrite V3, (shiftr_S (V b)), pmul_bin_r by (apply Z.shiftr_nonneg; lia). rewrite (Z.lxor_comm (V r2)). apply pcong_lxor; [lia|apply pcong_refl|]. eapply pcong_trans; [lia|exact C2|]. apply pcong_double; auto; [lia|lia|]. apply pmul_nonneg. lia.
Qed.
Lemma multiply_spec t0 t1 a b : W a -> W b -> (0 < t1 < t0)%nat -> V a < 2 ^ Z.of_nat t0 -> V b < 2 ^ Z.of_nat t0 ->
  exists r, gt_multiply w t0 t1 a b = ROk r /\ W r /\ pcong (2 ^ Z.of_nat t0 + 2 ^ Z.of_nat t1 + 1) (V r) (pmul (V a) (V b)) /\ V r < 2 ^ Z.of_nat t0.
Proof.
  intros Wa Wb Ht Ha Hb. pose proof w_pos as WP. unfold gt_multiply. destruct (trinomial_spec w t0 t1 0 ltac:(lia) ltac:(lia)) as (md & E & Wm & Vm). rewrite E. cbn [rbind]. change (2 ^ Z.of_nat 0) with 1 in Vm.
  assert (0 < 2 ^ Z.of_nat t1) by (apply Z.pow_pos_nonneg; lia). assert (T1 : 2 ^ Z.of_nat t1 * 2 <= 2 ^ Z.of_nat t0). { change 2 with (2 ^ 1) at 2. rewrite <- Z.pow_add_r by lia. apply Z.pow_le_mono_r; lia. } assert (2 ^ 1 <= 2 ^ Z.of_nat t1) by (apply Z.pow_le_mono_r; lia). change (2 ^ 1) with 2 in *.
  assert (Hf : 2 ^ Z.of_nat t0 <= V md < 2 ^ (Z.of_nat t0 + 1)) by (rewrite Z.pow_add_r by lia; change (2 ^ 1) with 2; lia).
  set (n := bits_to_words w t0). pose proof (Z.div_mod (Z.of_nat t0) w ltac:(lia)) as DM. pose proof (Z.mod_pos_bound (Z.of_nat t0) w ltac:(lia)) as MB.
  assert (HN : Z.of_nat n = Z.of_nat t0 / w + (if Z.of_nat t0 mod w =? 0 then 0 else 1)).
  { unfold n, bits_to_words. rewrite Nat2Z.inj_div, Z2Nat.id by lia. replace (Z.of_nat (t0 + wn - 1)) with (Z.of_nat t0 + w - 1) by lia. symmetry. destruct (Z.eqb_spec (Z.of_nat t0 mod w) 0); [apply Z.div_unique_pos with (w - 1); lia|apply Z.div_unique_pos with (Z.of_nat t0 mod w - 1); lia]. }
  assert (HP : 2 ^ Z.of_nat t0 <= P n) by apply (btw_P w).
  destruct (Nat.ltb_spec (length md) n) as [L|L].
  { exfalso. pose proof (V_bound w md Wm) as BM. rewrite (P_pow2 w) in BM. assert (Z.of_nat t0 < w * Z.of_nat (length md)) by (apply (Z.pow_lt_mono_r_iff 2); nia). destruct (Z.of_nat t0 mod w =? 0); nia. }
  destruct (mul_loop_spec t0 n md a b ltac:(lia) HP Wm Wa Wb Hf Ha t0 (repeat 0 n) (W_repeat0 w n) (repeat_length _ _)) as (x1 & x2 & x3 & x4).
  { rewrite V_repeat0. lia. } { rewrite V_repeat0. pose proof (V_bound w b Wb). rewrite Z.shiftr_div_pow2, Z.div_small by lia. rewrite pmul_0_r. apply pcong_refl. }
  set (x := gt_mul_loop _ _ _ _ _ _ _ _) in *. clearbody x. rewrite <- Vm. eexists. split; [reflexivity|].
  assert (EX : (if Z.of_nat t0 mod w =? 0 then x else upd (n - 1) (Z.land (at_ x (n - 1)) (2 ^ (Z.of_nat t0 mod w) - 1)) x) = x).
  { destruct (Z.eqb_spec (Z.of_nat t0 mod w) 0) as [Z0|Z0]; auto. set (k := Z.of_nat t0 mod w) in *. replace (2 ^ k - 1) with (Z.ones k) by (rewrite Z.ones_equiv; lia). rewrite Z.land_ones by lia. pose proof (Z.div_pos (Z.of_nat t0) w ltac:(lia) ltac:(lia)).
    assert (N1 : length x = Datatypes.S (n - 1)) by lia. pose proof (V_split1 w (n - 1) x N1) as VS. pose proof (V_bound w _ (W_firstn w (n - 1) x x1)) as BF. pose proof (W_at w x (n - 1) x1) as A.
    assert (PE : P (n - 1) * 2 ^ k = 2 ^ Z.of_nat t0) by (rewrite (P_pow2 w), <- Z.pow_add_r by nia; f_equal; nia). pose proof (P_pos w (n - 1)).
    rewrite Z.mod_small by nia. clear -x2 N1. unfold at_. revert x N1 x2. generalize (n - 1)%nat. intros j x N1 _. assert (Lj : (j < length x)%nat) by lia. clear N1. revert j Lj. induction x; intros [|j] Lj; cbn [length] in Lj; try lia; cbn [upd nth]; auto. f_equal. apply IHx. lia. }
  rewrite EX. auto.
Qed.
End Gt.
