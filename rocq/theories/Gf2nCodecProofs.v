(** Proofs about PolynomialMod2::GetByte, SetByte, Encode and Decode. *)
From Coq Require Import ZArith List Lia Bool Arith.
From Verif Require Import Base AsnModel AsnProofs WordsModel WordsSpec WordsProofs IntegerModel IntegerSpec IntegerProofs IntegerBitProofs IntegerCodecProofs Gf2nModel Gf2nProofs Gf2nCodecModel.
Import ListNotations.
Local Open Scope Z_scope.

Section Codec.
Variable w : Z.
Context {Hbig : bigw w}.
Hypothesis Hwb : word_bits w.
Notation B := (base w).
Notation V := (wval w).
Notation W := (words w).
Notation wn := (Z.to_nat w).

Lemma ws_8 : w = 8 * Z.of_nat (wn / 8) /\ (1 <= wn / 8)%nat.
Proof. destruct Hwb as [-> | ->]; split; reflexivity || (cbv; lia). Qed.
Lemma get_byte_spec r n : W r -> pm_get_byte w r n = (V r / 256 ^ Z.of_nat n) mod 256.
Proof.
  intros X1. unfold pm_get_byte. destruct ws_8 as [Hws Hws1]. set (ws := (wn / 8)%nat) in *. clearbody ws.
  pose proof (Nat.div_mod n ws ltac:(lia)) as DM. pose proof (Nat.mod_upper_bound n ws ltac:(lia)) as MB. set (i := (n / ws)%nat) in *. set (j := (n mod ws)%nat) in *. clearbody i j.
  assert (G : Z.shiftr (at_ r i) (Z.of_nat j * 8) mod 256 = (V r / 256 ^ Z.of_nat n) mod 256).
  { change 256 with (2 ^ 8) at 1 3. change 256 with (2 ^ 8). rewrite <- Z.pow_mul_r by lia. apply Z.bits_inj'. intros k Hk. destruct (Z.ltb_spec k 8).
    - rewrite !Z.mod_pow2_bits_low by lia. rewrite Z.shiftr_spec, Z.div_pow2_bits by lia. rewrite (at_testbit w) by (auto; lia). f_equal. nia.
    - rewrite !Z.mod_pow2_bits_high by lia. reflexivity. }
  destruct (Nat.leb_spec (length r) i) as [L|L]; [|exact G]. rewrite <- G. unfold at_. rewrite nth_overflow by auto. rewrite Z.shiftr_0_l. reflexivity.
Qed.
Lemma encode_spec n r : W r -> pm_encode w n r = be_bytes n (V r).
Proof. intros H. induction n; cbn [pm_encode]; [reflexivity|]. rewrite be_bytes_S, IHn. f_equal. apply get_byte_spec; auto. Qed.

Lemma decode_fill : forall n bt r, (n <= length bt)%nat -> pm_decode_loop w n bt r = (fill w (firstn n bt) r, skipn n bt).
Proof.
  induction n; intros [|b bt] r L; cbn [length] in L; try lia; try reflexivity. cbn [pm_decode_loop firstn skipn fill]. rewrite IHn by lia. unfold put_byte. rewrite firstn_length, Nat.min_l by lia. reflexivity.
Qed.
Lemma decode_spec bt n : bytes bt -> (n <= length bt)%nat ->
  exists r, pm_decode w bt n = ROk (r, skipn n bt) /\ W r /\ V r = be_val (firstn n bt).
Proof.
  intros H L. unfold pm_decode. destruct (Nat.ltb_spec (length bt) n); [lia|]. rewrite decode_fill by auto. eexists. split; [reflexivity|].
  assert (HF : bytes (firstn n bt)) by (apply Forall_forall; intros x Hx; unfold bytes in H; rewrite Forall_forall in H; apply H; rewrite <- (firstn_skipn n bt); apply in_or_app; auto).
  destruct (fill_spec w Hwb (firstn n bt) (repeat 0 (bytes_to_words w n)) (W_repeat0 w _) HF) as (f1 & f2 & f3).
  - rewrite firstn_length, repeat_length, Nat.min_l by auto. destruct ws_8. unfold bytes_to_words. pose proof (Nat.div_mod (n + wn / 8 - 1) (wn / 8) ltac:(lia)). pose proof (Nat.mod_upper_bound (n + wn / 8 - 1) (wn / 8) ltac:(lia)). lia.
  - rewrite V_repeat0. apply Z.mod_0_l. pose proof (p256 (length (firstn n bt))). lia.
  - split; auto. rewrite f3, V_repeat0. lia.
Qed.

Lemma sb_word x v j : 0 <= x < B -> 0 <= v < 256 -> 0 <= j -> j + 8 <= w ->
  let y := Z.lor (Z.land x (B - 1 - wd w (Z.shiftl 255 j))) (wd w (Z.shiftl v j)) in
  0 <= y < B /\ forall t, 0 <= t < w -> Z.testbit y t = if (j <=? t) && (t <? j + 8) then Z.testbit v (t - j) else Z.testbit x t.
Proof.
  intros Hx Hv Hj Hjw y. assert (P0 : 0 < 2 ^ j) by (apply Z.pow_pos_nonneg; lia). assert (BE : B = 2 ^ (w - j - 8) * (256 * 2 ^ j)). { change 256 with (2 ^ 8). unfold base. rewrite <- !Z.pow_add_r by lia. f_equal. lia. } assert (0 < 2 ^ (w - j - 8)) by (apply Z.pow_pos_nonneg; lia).
  assert (S : forall u, 0 <= u < 256 -> wd w (Z.shiftl u j) = Z.shiftl u j /\ 0 <= Z.shiftl u j < B). { intros u Hu. rewrite Z.shiftl_mul_pow2 by lia. assert (0 <= u * 2 ^ j < B) by (rewrite BE; nia). split; auto. unfold wd. apply Z.mod_small; auto. }
  destruct (S 255 ltac:(lia)) as [E1 R1]. destruct (S v Hv) as [E2 R2]. unfold y. rewrite E1, E2.
  assert (C : B - 1 - Z.shiftl 255 j = Z.ldiff (Z.ones w) (Z.shiftl 255 j)). { rewrite <- Z.sub_nocarry_ldiff; [rewrite Z.ones_equiv; unfold base; lia|]. apply Z.ldiff_ones_r_low; [lia|]. destruct (Z.eq_dec (Z.shiftl 255 j) 0) as [->|]; [cbn; lia|]. apply Z.log2_lt_pow2; [lia|]. apply R1. }
  rewrite C. split.
  - split. { apply Z.lor_nonneg. split; [apply Z.land_nonneg; lia|lia]. } destruct (Z.eq_dec (Z.lor (Z.land x (Z.ldiff (Z.ones w) (Z.shiftl 255 j))) (Z.shiftl v j)) 0) as [->|N]; [lia|].
    assert (0 <= Z.land x (Z.ldiff (Z.ones w) (Z.shiftl 255 j))) by (apply Z.land_nonneg; lia). assert (0 <= Z.lor (Z.land x (Z.ldiff (Z.ones w) (Z.shiftl 255 j))) (Z.shiftl v j)) by (apply Z.lor_nonneg; lia).
    unfold base. apply Z.log2_lt_pow2; [lia|]. rewrite Z.log2_lor by lia. assert (forall z, 0 <= z < B -> Z.log2 z < w). { intros z Hz. destruct (Z.eq_dec z 0) as [->|]; [cbn; lia|]. apply Z.log2_lt_pow2; [lia|]. apply Hz. }
    apply Z.max_lub_lt; [|auto]. eapply Z.le_lt_trans; [apply Z.log2_land; [lia|]|]. { rewrite <- C. lia. } eapply Z.le_lt_trans; [apply Z.le_min_l|]. auto.
  - intros t Ht. rewrite Z.lor_spec, Z.land_spec, Z.ldiff_spec, Z.testbit_ones_nonneg, !Z.shiftl_spec by lia. rewrite (proj2 (Z.ltb_lt t w)) by lia. cbn [andb].
    destruct (Z.leb_spec j t) as [L|L]; cbn [andb]. 2: { rewrite !(Z.testbit_neg_r _ (t - j)) by lia. cbn. rewrite andb_true_r, orb_false_r. reflexivity. }
    change 255 with (Z.ones 8). rewrite Z.testbit_ones_nonneg by lia. destruct (Z.ltb_spec t (j + 8)), (Z.ltb_spec (t - j) 8); try lia; cbn [negb]. { rewrite andb_false_r. reflexivity. }
    rewrite andb_true_r. replace (Z.testbit v (t - j)) with false; [apply orb_false_r|]. symmetry. destruct (Z.eq_dec v 0) as [->|]; [apply Z.bits_0|]. apply Z.bits_above_log2; [lia|]. apply Z.lt_le_trans with 8; [apply Z.log2_lt_pow2; lia|lia].
Qed.
Lemma set_byte_spec r n v : W r -> 0 <= v < 256 -> W (pm_set_byte w r n v) /\
  forall k, 0 <= k -> Z.testbit (V (pm_set_byte w r n v)) k = if (8 * Z.of_nat n <=? k) && (k <? 8 * Z.of_nat n + 8) then Z.testbit v (k - 8 * Z.of_nat n) else Z.testbit (V r) k.
Proof.
  intros H Hv. unfold pm_set_byte. cbv zeta. destruct ws_8 as [E8 G8]. unfold bytes_to_words. set (ws := (wn / 8)%nat) in *. clearbody ws.
  assert (LG : (n / ws < (n + 1 + ws - 1) / ws)%nat). { replace (n + 1 + ws - 1)%nat with (n + 1 * ws)%nat by lia. rewrite Nat.div_add by lia. lia. }
  set (g := clean_grow r _). assert (Wg : W g) by (apply (W_grow w); auto). assert (Lg : (n / ws < length g)%nat) by (unfold g; rewrite grow_len; lia). assert (Vg : V g = V r) by apply V_grow. rewrite <- Vg. clearbody g. clear H LG Vg.
  pose proof (Nat.div_mod n ws ltac:(lia)) as DM. pose proof (Nat.mod_upper_bound n ws ltac:(lia)) as MB. set (i := (n / ws)%nat) in *. set (j := (n mod ws)%nat) in *. clearbody i j.
  pose proof (W_at w g i Wg) as A. destruct (sb_word (at_ g i) v (8 * Z.of_nat j) A Hv ltac:(lia) ltac:(lia)) as [Y1 Y2]. cbv zeta in Y1, Y2.
  assert (AU : forall q x l, (q < length l)%nat -> at_ (upd q x l) q = x) by (unfold at_; clear; induction q; intros x [|y l] L; cbn [length] in L; try lia; cbn [upd nth]; auto; apply IHq; lia).
  assert (AN : forall q x l p, p <> q -> at_ (upd q x l) p = at_ l p) by (unfold at_; clear; induction q; intros x [|y l] [|p] L; cbn [upd nth]; try congruence; auto; apply IHq; congruence).
  rewrite AU by auto. set (z := Z.land (at_ g i) _) in *. set (y := Z.lor z _) in *.
  assert (UU : upd i y (upd i z g) = upd i y g). { clearbody y z. clear. revert i. induction g; intros [|i]; cbn [upd]; auto. f_equal. apply IHg. }
  rewrite UU. assert (WU : W (upd i y g)) by (apply (W_upd w); auto). split; auto. intros k Hk.
  assert (Hw0 : 0 < w) by lia. pose proof (Z.div_mod k w ltac:(lia)) as KD. pose proof (Z.mod_pos_bound k w Hw0) as KM. assert (0 <= k / w) by (apply Z.div_pos; lia). set (q := Z.to_nat (k / w)). set (t := k mod w) in *. assert (K : k = w * Z.of_nat q + t) by (unfold q; lia). clearbody q t. clear KD. rewrite K.
  rewrite <- !(at_testbit w) by auto. destruct (Nat.eq_dec q i) as [->|N].
  - rewrite AU by auto. rewrite Y2 by auto. replace (8 * Z.of_nat n) with (w * Z.of_nat i + 8 * Z.of_nat j) by nia. destruct (Z.leb_spec (8 * Z.of_nat j) t), (Z.leb_spec (w * Z.of_nat i + 8 * Z.of_nat j) (w * Z.of_nat i + t)); try lia; cbn [andb]; auto. destruct (Z.ltb_spec t (8 * Z.of_nat j + 8)), (Z.ltb_spec (w * Z.of_nat i + t) (w * Z.of_nat i + 8 * Z.of_nat j + 8)); try lia; auto. f_equal. lia.
  - rewrite AN by auto. replace ((8 * Z.of_nat n <=? w * Z.of_nat q + t) && (w * Z.of_nat q + t <? 8 * Z.of_nat n + 8)) with false; auto. symmetry. apply andb_false_iff. rewrite Z.leb_gt, Z.ltb_ge. destruct (Nat.lt_ge_cases q i); [left|right]; nia.
Qed.
End Codec.
