From Coq Require Import ZArith List Bool Lia Znumtheory.
From Verif Require Import Gf2Spec Gf2Proofs Gf32Model.
Import ListNotations.
Local Open Scope Z_scope.

Lemma W32 : 2 ^ 32 = 4294967296. Proof. reflexivity. Qed.
Lemma word_lxor : forall n a b, 0 <= n -> 0 <= a < 2 ^ n -> 0 <= b < 2 ^ n -> 0 <= Z.lxor a b < 2 ^ n.
Proof.
  intros n a b Hn Ha Hb. split; [apply lxor_nonneg'; lia|]. destruct (Z.eq_dec (Z.lxor a b) 0) as [->|N]; [apply Z.pow_pos_nonneg; lia|].
  pose proof (lxor_nonneg' a b ltac:(lia) ltac:(lia)). apply Z.log2_lt_pow2; [lia|]. eapply Z.le_lt_trans; [apply Z.log2_lxor; lia|].
  destruct (Z.eq_dec n 0) as [->|Nn]; [change (2 ^ 0) with 1 in *; assert (a = 0) by lia; assert (b = 0) by lia; subst; cbn in N; lia|].
  apply Z.max_lub_lt; [destruct (Z.eq_dec a 0) as [->|Na]|destruct (Z.eq_dec b 0) as [->|Nb]]; try (cbn; lia); apply Z.log2_lt_pow2; lia.
Qed.
Lemma lxor_disj : forall n a b, 0 <= n -> 0 <= a < 2 ^ n -> 0 <= b -> Z.lxor (b * 2 ^ n) a = b * 2 ^ n + a.
Proof.
  intros n a b Hn Ha Hb. apply Z.bits_inj'. intros i Hi. rewrite Z.lxor_spec. destruct (Z_lt_le_dec i n) as [L|L].
  - rewrite Z.mul_pow2_bits_low by lia. rewrite xorb_false_l. rewrite <- (Z.mod_pow2_bits_low (b * 2 ^ n + a) n i) by lia. rewrite Z.add_comm, Z.mod_add, Z.mod_small by lia. reflexivity.
  - assert (A : Z.testbit a i = false) by (rewrite <- (Z.mod_small a (2 ^ n)) by lia; apply Z.mod_pow2_bits_high; lia).
    rewrite A, xorb_false_r. replace i with (i - n + n) by lia. rewrite <- !Z.div_pow2_bits by lia. rewrite Z.div_add_l, Z.div_mul, (Z.div_small a) by lia. rewrite Z.add_0_r. reflexivity.
Qed.
Lemma lxor_bin_disj : forall b x, 0 <= b -> 2 * b + Z.b2z x = Z.lxor (2 * b) (Z.b2z x).
Proof. intros. pose proof (lxor_disj 1 (Z.b2z x) b ltac:(lia) ltac:(destruct x; cbn; lia) H) as E. change (2 ^ 1) with 2 in E. replace (2 * b) with (b * 2) by lia. auto. Qed.

Lemma top_bit : forall a, 0 <= a < 2 ^ 32 -> negb (Z.land a 2147483648 =? 0) = (2 ^ 31 <=? a).
Proof.
  intros a Ha. change 2147483648 with (2 ^ 31). assert (E : Z.land a (2 ^ 31) = if 2 ^ 31 <=? a then 2 ^ 31 else 0).
  { apply Z.bits_inj'. intros i Hi. rewrite Z.land_spec, Z.pow2_bits_eqb by lia.
    assert (B : Z.testbit a 31 = (2 ^ 31 <=? a)).
    { rewrite Z.testbit_odd, Z.shiftr_div_pow2 by lia. destruct (Z.leb_spec (2 ^ 31) a); [replace (a / 2 ^ 31) with 1; [reflexivity|]|rewrite Z.div_small by lia; reflexivity].
      rewrite W32 in Ha. change (2 ^ 31) with 2147483648 in *. apply (Z.div_unique a 2147483648 1 (a - 2147483648)); lia. }
    destruct (Z.eqb_spec 31 i) as [<-|N].
    - rewrite B, andb_true_r. destruct (2 ^ 31 <=? a); [rewrite Z.pow2_bits_true by lia|rewrite Z.bits_0]; reflexivity.
    - rewrite andb_false_r. destruct (2 ^ 31 <=? a); [rewrite Z.pow2_bits_false by lia|rewrite Z.bits_0]; reflexivity. }
  rewrite E. destruct (2 ^ 31 <=? a); reflexivity.
Qed.
Lemma land2 : forall x, 0 <= x -> Z.land x 2 = 2 * Z.b2z (Z.testbit x 1).
Proof.
  intros x Hx. change 2 with (2 ^ 1) at 1. apply Z.bits_inj'. intros i Hi. rewrite Z.land_spec, Z.pow2_bits_eqb by lia.
  destruct (Z.eqb_spec 1 i) as [<-|N].
  - rewrite andb_true_r. destruct (Z.testbit x 1); reflexivity.
  - rewrite andb_false_r. destruct (Z.testbit x 1); cbn [Z.b2z]; [change (2 * 1) with (2 ^ 1); rewrite Z.pow2_bits_false by lia|rewrite Z.bits_0]; reflexivity.
Qed.
Lemma land1 : forall x, Z.land x 1 = Z.b2z (Z.odd x).
Proof. intros x. change 1 with (Z.ones 1). rewrite Z.land_ones by lia. change (2 ^ 1) with 2. rewrite Zmod_odd. destruct (Z.odd x); reflexivity. Qed.

Section Mul.
  Variable m : Z.
  Hypothesis Hm : 0 <= m < 2 ^ 32.
  Definition gfp : Z := 2 ^ 32 + m.
  Lemma gfp_pos : 0 < gfp. Proof. unfold gfp. pose proof (Z.pow_pos_nonneg 2 32). lia. Qed.
  Lemma gfp_log : Z.log2 gfp = 32. Proof. apply Z.log2_unique; [lia|]. unfold gfp. change (2 ^ Z.succ 32) with (2 ^ 32 + 2 ^ 32). lia. Qed.
  Lemma gfp_x32 : pcong gfp (2 ^ 32) m.
  Proof. exists 1. split; [lia|]. rewrite pmul_1_l by (pose proof gfp_pos; lia). unfold gfp. pose proof (lxor_disj 32 m 1 ltac:(lia) Hm ltac:(lia)) as E. rewrite Z.mul_1_l in E. exact E. Qed.
  Lemma shl_range : forall r, 0 <= gf_shl r < 2 ^ 32. Proof. intros. apply Z.mod_pos_bound. reflexivity. Qed.
  Lemma shl_cong : forall r, 0 <= r < 2 ^ 32 -> pcong gfp (Z.lxor (gf_shl r) (if 2 ^ 31 <=? r then m else 0)) (2 * r).
  Proof.
    intros r Hr. pose proof gfp_pos as HP. destruct (Z.leb_spec (2 ^ 31) r) as [L|L].
    - assert (E : 2 * r = Z.lxor (gf_shl r) (2 ^ 32)).
      { unfold gf_shl. assert (D : 2 * r / 2 ^ 32 = 1) by (change (2 ^ 31) with 2147483648 in L; rewrite W32 in *; symmetry; apply (Z.div_unique (2 * r) 4294967296 1 (2 * r - 4294967296)); lia).
        pose proof (Z.div_mod (2 * r) (2 ^ 32) ltac:(rewrite W32; lia)) as Q. rewrite D in Q. rewrite Z.lxor_comm. 
        pose proof (lxor_disj 32 ((2 * r) mod 2 ^ 32) 1 ltac:(lia) ltac:(apply Z.mod_pos_bound; reflexivity) ltac:(lia)) as X. rewrite Z.mul_1_l in X. rewrite X. lia. }
      rewrite E. apply pcong_lxor; auto; [apply pcong_refl; auto|apply pcong_sym; auto; apply gfp_x32].
    - rewrite Z.lxor_0_r. unfold gf_shl. rewrite Z.mod_small by (change (2 ^ 31) with 2147483648 in L; rewrite W32 in *; lia). apply pcong_refl.
  Qed.
  Lemma shiftr31 : forall r, 0 <= r < 2 ^ 32 -> Z.shiftr r 31 = Z.b2z (2 ^ 31 <=? r).
  Proof.
    intros r Hr. rewrite Z.shiftr_div_pow2 by lia. rewrite W32 in Hr. change (2 ^ 31) with 2147483648. destruct (Z.leb_spec 2147483648 r); cbn [Z.b2z]; [symmetry; apply (Z.div_unique r _ 1 (r - 2147483648)); lia|apply Z.div_small; lia].
  Qed.
  Definition gf_xa (a : Z) : Z := Z.lxor (gf_shl a) (if 2 ^ 31 <=? a then m else 0).
  Lemma xa_range : forall a, 0 <= gf_xa a < 2 ^ 32.
  Proof. intros. unfold gf_xa. apply word_lxor; [lia|apply shl_range|destruct (2 ^ 31 <=? a); rewrite W32 in *; lia]. Qed.
  Lemma table_at : forall a (t u : bool), 0 <= a < 2 ^ 32 -> gf_at (gf_table m a) (2 * Z.b2z t + Z.b2z u) = Z.lxor (if t then gf_xa a else 0) (if u then m else 0).
  Proof.
    intros a t u Ha. unfold gf_at, gf_table, gf_xa. rewrite top_bit by auto. destruct (2 ^ 31 <=? a), t, u; cbn [Z.b2z Z.mul Z.add Pos.mul Pos.add Z.to_nat Pos.to_nat Pos.iter_op Nat.add nth]; rewrite ?Z.lxor_0_r, ?Z.lxor_0_l; try reflexivity.
    - rewrite Z.lxor_assoc, Z.lxor_nilpotent, Z.lxor_0_r. reflexivity.
    - apply Z.lxor_comm.
    - apply Z.lxor_comm.
  Qed.
  Lemma gf_step : forall a r (t : bool), 0 <= a < 2 ^ 32 -> 0 <= r < 2 ^ 32 ->
    let r' := Z.lxor (gf_shl r) (gf_at (gf_table m a) (2 * Z.b2z t + Z.shiftr r 31)) in
    0 <= r' < 2 ^ 32 /\ pcong gfp r' (Z.lxor (2 * r) (if t then gf_xa a else 0)).
  Proof.
    intros a r t Ha Hr r'. unfold r'. rewrite shiftr31, table_at by auto. pose proof (shl_range r) as S1. pose proof (xa_range a) as S2. pose proof gfp_pos. split.
    - apply word_lxor; auto; [lia|]. apply word_lxor; [lia|destruct t; rewrite W32 in *; lia|destruct (2 ^ 31 <=? r); rewrite W32 in *; lia].
    - rewrite (Z.lxor_comm (if t then _ else _)), <- Z.lxor_assoc. apply pcong_lxor; auto; [apply shl_cong; auto|apply pcong_refl; auto].
  Qed.
  Lemma bit1_shift : forall b i, 0 <= i -> Z.testbit (Z.shiftr b i) 1 = Z.odd (Z.shiftr b (i + 1)).
  Proof. intros. rewrite Z.shiftr_spec by lia. rewrite <- Z.bit0_odd, Z.shiftr_spec by lia. f_equal. lia. Qed.
  Lemma gf_loop_spec : forall a b n r, 0 <= a < 2 ^ 32 -> 0 <= b -> 0 <= r < 2 ^ 32 -> pcong gfp r (pmul (gf_xa a) (Z.shiftr b (Z.of_nat n + 1))) ->
    let r' := gf_mul_loop (gf_table m a) b n r in 0 <= r' < 2 ^ 32 /\ pcong gfp r' (pmul (gf_xa a) (Z.shiftr b 1)).
  Proof.
    intros a b n r Ha Hb. revert r. pose proof (xa_range a) as HX. pose proof gfp_pos as HP.
    induction n as [|n IH]; intros r Hr HC; cbn [gf_mul_loop].
    - auto.
    - rewrite land2 by (apply Z.shiftr_nonneg; auto). destruct (gf_step a r (Z.testbit (Z.shiftr b (Z.of_nat n)) 1) Ha Hr) as [S1 S2]. apply IH; [exact S1|].
      eapply pcong_trans; [exact HP|exact S2|]. rewrite bit1_shift by lia. set (s := Z.shiftr b (Z.of_nat n + 1)).
      assert (Hs : 0 <= s) by (apply Z.shiftr_nonneg; auto).
      assert (Es : s = 2 * Z.shiftr b (Z.of_nat (S n) + 1) + Z.b2z (Z.odd s)).
      { replace (Z.of_nat (S n) + 1) with (Z.of_nat n + 1 + 1) by lia. rewrite <- Z.shiftr_shiftr by lia. fold s. change (Z.shiftr s 1) with (Z.div2 s). apply Z.div2_odd. }
      rewrite Es at 2. rewrite pmul_bin_r by (apply Z.shiftr_nonneg; auto). rewrite Z.lxor_comm. apply pcong_lxor; auto; [apply pcong_refl; auto|]. apply pcong_double; auto; try lia. apply pmul_nonneg. lia.
  Qed.
  Theorem gf_mul_spec : forall a b, 0 <= a < 2 ^ 32 -> 0 <= b < 2 ^ 32 -> 0 <= gf_mul m a b < 2 ^ 32 /\ pcong gfp (gf_mul m a b) (pmul a b).
  Proof.
    intros a b Ha Hb. pose proof (xa_range a) as HX. pose proof gfp_pos as HP. unfold gf_mul. cbv zeta.
    assert (I : 0 <= gf_at (gf_table m a) (Z.land (Z.shiftr b 30) 2) < 2 ^ 32 /\ pcong gfp (gf_at (gf_table m a) (Z.land (Z.shiftr b 30) 2)) (pmul (gf_xa a) (Z.shiftr b (Z.of_nat 30 + 1)))).
    { rewrite land2 by (apply Z.shiftr_nonneg; lia). pose proof (table_at a (Z.testbit (Z.shiftr b 30) 1) false Ha) as T. cbn [Z.b2z] in T. rewrite Z.add_0_r, Z.lxor_0_r in T. rewrite T.
      rewrite bit1_shift by lia. change (30 + 1) with 31. change (Z.of_nat 30 + 1) with 31. rewrite shiftr31 by auto. destruct (2 ^ 31 <=? b); cbn [Z.b2z Z.odd]; [rewrite pmul_1_r|rewrite pmul_0_r; split; [rewrite W32; lia|]]; [split; auto|]; apply pcong_refl; auto. }
    destruct I as [I1 I2]. destruct (gf_loop_spec a b 30 _ Ha ltac:(lia) I1 I2) as [L1 L2]. set (r := gf_mul_loop _ _ _ _) in *. clearbody r. clear I1 I2.
    assert (Eb : b = 2 * Z.shiftr b 1 + Z.b2z (Z.odd b)) by (change (Z.shiftr b 1) with (Z.div2 b); apply Z.div2_odd).
    assert (Hs : 0 <= Z.shiftr b 1) by (apply Z.shiftr_nonneg; lia).
    assert (C : pcong gfp (Z.lxor r (if Z.odd b then a else 0)) (pmul a b)).
    { rewrite Eb at 2. rewrite pmul_bin_r by auto. rewrite Z.lxor_comm. apply pcong_lxor; auto; [apply pcong_refl; auto|]. eapply pcong_trans; [exact HP|exact L2|].
      rewrite <- pmul_double_l by auto. apply pcong_mul_l; auto; try lia. apply shl_cong. auto. }
    rewrite land1. destruct (Z.odd b); cbn [Z.b2z Z.eqb negb]; [split; [apply word_lxor; auto; lia|auto]|rewrite Z.lxor_0_r in C; auto].
  Qed.
  Lemma gf_unique : forall a b, 0 <= a < 2 ^ 32 -> 0 <= b < 2 ^ 32 -> pcong gfp a b -> a = b.
  Proof. intros a b Ha Hb C. apply (pcong_unique gfp gfp_pos a b); auto; rewrite gfp_log; auto. Qed.
  (* ---------------- the branch with rotates *)
  Definition rotr (i b : Z) : Z := b / 2 ^ i + (b mod 2 ^ i) * 2 ^ (32 - i).
  Lemma lor_disj : forall n a b, 0 <= n -> 0 <= a < 2 ^ n -> 0 <= b -> Z.lor (b * 2 ^ n) a = b * 2 ^ n + a.
  Proof.
    intros n a b Hn Ha Hb. rewrite <- (lxor_disj n a b Hn Ha Hb). apply Z.bits_inj'. intros i Hi. rewrite Z.lor_spec, Z.lxor_spec. destruct (Z_lt_le_dec i n).
    - rewrite Z.mul_pow2_bits_low by lia. destruct (Z.testbit a i); reflexivity.
    - replace (Z.testbit a i) with false; [destruct (Z.testbit (b * 2 ^ n) i); reflexivity|]. symmetry. rewrite <- (Z.mod_small a (2 ^ n)) by lia. apply Z.mod_pow2_bits_high. lia.
  Qed.
  Lemma rotr30_spec : forall b, 0 <= b < 2 ^ 32 -> gf_rotr30 b = rotr 30 b.
  Proof.
    intros b Hb. unfold gf_rotr30, rotr. rewrite Z.shiftr_div_pow2 by lia. change (32 - 30) with 2. change (2 ^ 32) with (2 ^ 30 * 2 ^ 2). change (b * 4) with (b * 2 ^ 2).
    rewrite Z.mul_mod_distr_r by discriminate. rewrite Z.lor_comm, lor_disj; [lia|lia| |apply Z.mod_pos_bound; reflexivity].
    split; [apply Z.div_pos; [lia|reflexivity]|]. apply Z.div_lt_upper_bound; [reflexivity|]. change (2 ^ 30 * 2 ^ 2) with (2 ^ 32). lia.
  Qed.
  Lemma rotl1_rotr : forall b i, 0 <= b < 2 ^ 32 -> 0 <= i < 31 -> gf_rotl1 (rotr (i + 1) b) = rotr i b.
  Proof.
    intros b i Hb Hi. unfold gf_rotl1, rotr. rewrite Z.shiftr_div_pow2 by lia.
    assert (P1 : 0 < 2 ^ i) by (apply Z.pow_pos_nonneg; lia). assert (P2 : 0 < 2 ^ (31 - i)) by (apply Z.pow_pos_nonneg; lia).
    assert (E1 : 2 ^ (i + 1) = 2 ^ i * 2) by (rewrite Z.pow_add_r by lia; reflexivity).
    assert (E2 : 2 ^ (32 - (i + 1)) = 2 ^ (31 - i)) by (f_equal; lia). assert (E3 : 2 ^ (32 - i) = 2 ^ (31 - i) * 2) by (replace (32 - i) with (31 - i + 1) by lia; rewrite Z.pow_add_r by lia; reflexivity).
    assert (E4 : 2 ^ 32 = 2 ^ i * 2 ^ (31 - i) * 2) by (rewrite <- Z.pow_add_r by lia; replace (i + (31 - i)) with 31 by lia; reflexivity).
    assert (E5 : 2 ^ 31 = 2 ^ i * 2 ^ (31 - i)) by (rewrite <- Z.pow_add_r by lia; f_equal; lia).
    rewrite E2, E3. set (p := 2 ^ i) in *. set (q := 2 ^ (31 - i)) in *. rewrite E1.
    (* b = (hi * 2 + t) * p + lo *)
    pose proof (Z.div_mod b p ltac:(lia)) as D1. pose proof (Z.mod_pos_bound b p P1) as B1. pose proof (Z.div_mod (b / p) 2 ltac:(lia)) as D2. pose proof (Z.mod_pos_bound (b / p) 2 ltac:(lia)) as B2.
    assert (Ed : b / (p * 2) = b / p / 2) by (rewrite Z.div_div by lia; reflexivity).
    assert (Em : b mod (p * 2) = p * (b / p mod 2) + b mod p) by (rewrite Z.rem_mul_r by lia; lia).
    rewrite Ed, Em. set (lo := b mod p) in *. set (h := b / p) in *. set (t := h mod 2) in *. set (hi := h / 2) in *.
    assert (Hhi : 0 <= hi < q). { split; [apply Z.div_pos; [apply Z.div_pos; lia|lia]|]. apply Z.div_lt_upper_bound; [lia|]. apply Z.div_lt_upper_bound; [lia|]. rewrite E4 in Hb. lia. }
    assert (Q1 : (hi + (p * t + lo) * q) * 2 = (hi * 2 + lo * (q * 2)) + t * 2 ^ 32) by (rewrite E4; lia).
    assert (R1 : 0 <= hi * 2 + lo * (q * 2) < 2 ^ 32) by (rewrite E4; nia).
    rewrite Q1, Z.mod_add by (rewrite W32; lia). rewrite (Z.mod_small _ _ R1).
    assert (Q2 : (hi + (p * t + lo) * q) / 2 ^ 31 = t). { symmetry. apply (Z.div_unique _ _ t (hi + lo * q)); rewrite E5; nia. }
    rewrite Q2. replace (hi * 2 + lo * (q * 2)) with ((hi + lo * q) * 2 ^ 1) by (change (2 ^ 1) with 2; lia). rewrite lor_disj by (change (2 ^ 1) with 2; nia). change (2 ^ 1) with 2. lia.
  Qed.
  Lemma rotr_bit1 : forall b i, 0 <= b < 2 ^ 32 -> 0 <= i < 31 -> Z.land (rotr i b) 2 = Z.land (Z.shiftr b i) 2.
  Proof.
    intros b i Hb Hi. unfold rotr. assert (P1 : 0 < 2 ^ i) by (apply Z.pow_pos_nonneg; lia). pose proof (Z.mod_pos_bound b (2 ^ i) P1). assert (0 <= b / 2 ^ i) by (apply Z.div_pos; lia).
    assert (0 < 2 ^ (32 - i)) by (apply Z.pow_pos_nonneg; lia).
    rewrite Z.shiftr_div_pow2 by lia. rewrite !land2 by nia. do 2 f_equal.
    rewrite <- (Z.mod_pow2_bits_low (_ + _) 2 1), <- (Z.mod_pow2_bits_low (b / 2 ^ i) 2 1) by lia. f_equal.
    replace (32 - i) with (30 - i + 2) by lia. rewrite Z.pow_add_r by lia. rewrite Z.mul_assoc, Z.mod_add by discriminate. reflexivity.
  Qed.
  Lemma rot_loop_spec : forall t b n r, 0 <= b < 2 ^ 32 -> (n <= 30)%nat -> gf_rot_loop t (rotr (Z.of_nat n) b) n r = (gf_mul_loop t b n r, rotr 0 b).
  Proof.
    intros t b n. induction n as [|n IH]; intros r Hb Hn; [reflexivity|]. cbn [gf_rot_loop gf_mul_loop]. cbv zeta.
    replace (Z.of_nat (S n)) with (Z.of_nat n + 1) by lia. rewrite rotl1_rotr by (auto; lia). rewrite rotr_bit1 by (auto; lia). apply IH; [auto|lia].
  Qed.
  Lemma gf_mul_rot_eq : forall a b, 0 <= b < 2 ^ 32 -> gf_mul_rot m a b = gf_mul m a b.
  Proof.
    intros a b Hb. unfold gf_mul_rot, gf_mul. cbv zeta. rewrite rotr30_spec by auto. change 30 with (Z.of_nat 30) at 1. rewrite rot_loop_spec by (auto; lia). rewrite (rotr_bit1 b 30) by (auto; lia).
    unfold rotr. change (2 ^ 0) with 1. rewrite Z.div_1_r, Z.mod_1_r, Z.mul_0_l, Z.add_0_r. reflexivity.
  Qed.
End Mul.
