From Coq Require Import ZArith List Bool Lia.
From Verif Require Import Gf2Spec Gf2Proofs Gf32Model Gf32Proofs Gf32FieldProofs.
Import ListNotations.
Local Open Scope Z_scope.

Lemma log2_word : forall n a, 0 <= n -> 0 < a -> (a < 2 ^ n <-> Z.log2 a < n). Proof. intros. symmetry. rewrite <- Z.log2_lt_pow2 by lia. tauto. Qed.
Lemma lxor_log_lt : forall a b, 0 < a -> 0 <= b -> (b = 0 \/ Z.log2 b < Z.log2 a) -> 0 < Z.lxor a b /\ Z.log2 (Z.lxor a b) = Z.log2 a.
Proof.
  intros a b Ha Hb [->|L]; [rewrite Z.lxor_0_r; auto|]. assert (E : Z.testbit (Z.lxor a b) (Z.log2 a) = true) by (rewrite Z.lxor_spec, Z.bit_log2, Z.bits_above_log2 by lia; reflexivity).
  pose proof (lxor_nonneg' a b ltac:(lia) Hb). assert (N : Z.lxor a b <> 0) by (intros Q; rewrite Q, Z.bits_0 in E; discriminate). split; [lia|].
  apply Z.log2_bits_unique; [exact E|]. intros k Hk. rewrite Z.lxor_spec, !Z.bits_above_log2 by lia. reflexivity.
Qed.
Lemma lxor_log_eq : forall a b, 0 < a -> 0 < b -> Z.log2 a = Z.log2 b -> Z.lxor a b < 2 ^ Z.log2 a.
Proof.
  intros a b Ha Hb L. destruct (Z.eq_dec (Z.lxor a b) 0) as [->|N]; [apply Z.pow_pos_nonneg; [lia|apply Z.log2_nonneg]|]. pose proof (lxor_nonneg' a b ltac:(lia) ltac:(lia)).
  apply Z.log2_lt_pow2; [lia|]. assert (K : Z.log2 (Z.lxor a b) <= Z.log2 a) by (etransitivity; [apply Z.log2_lxor; lia|lia]).
  destruct (Z.eq_dec (Z.log2 (Z.lxor a b)) (Z.log2 a)) as [E|E]; [|lia]. exfalso. assert (B : Z.testbit (Z.lxor a b) (Z.log2 a) = true) by (rewrite <- E; apply Z.bit_log2; lia).
  rewrite Z.lxor_spec, Z.bit_log2 in B by lia. rewrite L, Z.bit_log2 in B by lia. discriminate.
Qed.
Lemma log2_lt_lt : forall a b, 0 < a -> 0 < b -> Z.log2 a < Z.log2 b -> a < b.
Proof. intros. destruct (Z_lt_le_dec a b); auto. pose proof (Z.log2_le_mono b a). lia. Qed.
Lemma gf_cond : forall g0 g1, 0 < g0 -> 0 < g1 -> (g1 <? g0) || ((Z.lxor g0 g1 <? g0) && (Z.lxor g0 g1 <? g1)) = (Z.log2 g1 <=? Z.log2 g0).
Proof.
  intros g0 g1 H0 H1. destruct (Z.leb_spec (Z.log2 g1) (Z.log2 g0)) as [L|L].
  - destruct (Z.ltb_spec g1 g0) as [Q|Q]; [reflexivity|]. assert (E : Z.log2 g0 = Z.log2 g1) by (pose proof (Z.log2_le_mono g0 g1 Q); lia).
    pose proof (lxor_log_eq g0 g1 H0 H1 E) as X. pose proof (Z.log2_spec g0 H0) as S0. pose proof (Z.log2_spec g1 H1) as S1. rewrite <- E in S1.
    rewrite (proj2 (Z.ltb_lt _ g0)), (proj2 (Z.ltb_lt _ g1)) by lia. reflexivity.
  - pose proof (log2_lt_lt g0 g1 H0 H1 L) as Q. rewrite (proj2 (Z.ltb_ge g1 g0)) by lia. rewrite Z.lxor_comm. destruct (lxor_log_lt g1 g0 H1 ltac:(lia) (or_intror L)) as [P1 P2].
    rewrite (proj2 (Z.ltb_ge _ g0)); [reflexivity|]. pose proof (log2_lt_lt g0 (Z.lxor g1 g0) H0 P1). lia.
Qed.
Lemma shl_small : forall v, 0 <= v -> (v = 0 \/ Z.log2 v < 31) -> gf_shl v = 2 * v.
Proof. intros v Hv H. unfold gf_shl. apply Z.mod_small. split; [lia|]. destruct H as [->|H]; [reflexivity|]. destruct (Z.eq_dec v 0) as [->|N]; [reflexivity|]. apply (log2_word 31) in H; [|lia|lia]. change (2 ^ 32) with (2 * 2 ^ 31). lia. Qed.
Lemma gf_align_spec : forall fuel g0 g2 v2, 0 < g0 -> 0 < g2 -> 0 <= v2 -> Z.log2 g2 <= Z.log2 g0 -> Z.log2 g0 <= 31 -> Z.log2 v2 + (Z.log2 g0 - Z.log2 g2) <= 31 -> Z.log2 g0 - Z.log2 g2 < Z.of_nat fuel ->
  gf_align fuel g0 g2 v2 = Some (g2 * 2 ^ (Z.log2 g0 - Z.log2 g2), v2 * 2 ^ (Z.log2 g0 - Z.log2 g2)).
Proof.
  induction fuel as [|k IH]; intros g0 g2 v2 H0 H2 Hv L1 L2 L3 LF; [lia|]. cbn [gf_align]. destruct (Z.eq_dec (Z.log2 g2) (Z.log2 g0)) as [E|E].
  - pose proof (lxor_log_eq g0 g2 H0 H2 ltac:(lia)) as X. pose proof (Z.log2_spec g2 H2). rewrite E in *. rewrite (proj2 (Z.leb_gt _ _)) by lia. rewrite Z.sub_diag, !Z.mul_1_r. reflexivity.
  - destruct (lxor_log_lt g0 g2 H0 ltac:(lia)) as [P1 P2]; [lia|]. pose proof (log2_lt_lt g2 (Z.lxor g0 g2) H2 P1 ltac:(lia)). rewrite (proj2 (Z.leb_le _ _)) by lia.
    rewrite !shl_small by lia. assert (D : Z.log2 (2 * g2) = Z.log2 g2 + 1) by (rewrite Z.log2_double; lia).
    assert (Dv : Z.log2 (2 * v2) <= Z.log2 v2 + 1). { destruct (Z.eq_dec v2 0) as [->|N]; [cbn; lia|]. rewrite Z.log2_double; lia. }
    rewrite IH by lia. rewrite D. replace (Z.log2 g0 - Z.log2 g2) with (Z.succ (Z.log2 g0 - (Z.log2 g2 + 1))) by lia. rewrite Z.pow_succ_r by lia. do 2 f_equal; lia.
Qed.
Lemma log2_mul_pow2_le : forall v d, 0 <= v -> 0 <= d -> Z.log2 (v * 2 ^ d) <= Z.log2 v + d.
Proof. intros v d Hv Hd. destruct (Z.eq_dec v 0) as [->|N]; [cbn; pose proof (Z.log2_nonneg 0); lia|]. rewrite Z.log2_mul_pow2 by lia. lia. Qed.
Lemma pmul_ge2 : forall s g, 0 <= s -> 2 <= g -> pmul s g <> 1.
Proof.
  intros s g Hs Hg E. destruct (Z.eq_dec s 0) as [->|N]; [rewrite pmul_0_l in E; discriminate|]. destruct (pmul_pos_pos s g ltac:(lia) ltac:(lia)) as [_ P]. rewrite E in P. cbn in P.
  pose proof (Z.log2_nonneg s). assert (1 <= Z.log2 g) by (change 1 with (Z.log2 2); apply Z.log2_le_mono; lia). lia.
Qed.

Section Inv.
  Variables m a : Z.
  Hypothesis Hm : 0 <= m < 2 ^ 32.
  Hypothesis Ha : word a.
  Local Notation f := (gfp m).
  Lemma fpos' : 0 < f. Proof. apply gfp_pos. auto. Qed.
  Definition coprime2 (g h : Z) : Prop := exists s t, 0 <= s /\ 0 <= t /\ Z.lxor (pmul s g) (pmul t h) = 1.
  Lemma coprime2_sym : forall g h, coprime2 g h -> coprime2 h g. Proof. intros g h (s & t & S1 & T1 & E). exists t, s. rewrite Z.lxor_comm. auto. Qed.
  Lemma coprime2_step : forall g h d, 0 <= g -> 0 <= h -> 0 <= d -> coprime2 g h -> coprime2 (Z.lxor g (h * 2 ^ d)) h.
  Proof.
    intros g h d Hg Hh Hd (s & t & S1 & T1 & E). assert (PD : 0 <= 2 ^ d) by (apply Z.pow_nonneg; lia). pose proof (pmul_nonneg s (2 ^ d) S1) as PS.
    exists s, (Z.lxor t (pmul s (2 ^ d))). split; [exact S1|]. split; [apply lxor_nonneg'; auto|].
    rewrite pmul_lxor_r by nia. rewrite pmul_lxor_l by auto. rewrite <- (pmul_pow2 h d Hd). rewrite (pmul_comm h (2 ^ d)) by auto. rewrite <- pmul_assoc by auto.
    rewrite (Z.lxor_comm (pmul t h)), lxor_cancel. exact E.
  Qed.
  Definition Inv (g0 v0 g1 v1 : Z) : Prop :=
    0 < g0 /\ Z.log2 g0 <= 31 /\ 2 <= g1 /\ Z.log2 g1 <= 31 /\ 0 <= v0 /\ 0 <= v1 /\ Z.log2 v0 + Z.log2 g1 <= 32 /\ Z.log2 v1 + Z.log2 g0 <= 32 /\
    pcong f g0 (pmul v0 a) /\ pcong f g1 (pmul v1 a) /\ coprime2 g0 g1.
  Lemma inv_round : forall g0 v0 g1 v1, 2 <= g0 -> Inv g0 v0 g1 v1 -> Z.log2 g1 <= Z.log2 g0 ->
    exists d, 0 <= d /\ gf_align 33 g0 g1 v1 = Some (g1 * 2 ^ d, v1 * 2 ^ d) /\ Inv (Z.lxor g0 (g1 * 2 ^ d)) (Z.lxor v0 (v1 * 2 ^ d)) g1 v1 /\ Z.log2 (Z.lxor g0 (g1 * 2 ^ d)) < Z.log2 g0.
  Proof.
    intros g0 v0 g1 v1 G2 (I1 & I2 & I3 & I4 & I5 & I6 & I7 & I8 & I9 & I10 & I11) L. pose proof fpos' as HF. pose proof (word_nonneg a Ha) as Ha0.
    assert (L1 : 1 <= Z.log2 g1) by (change 1 with (Z.log2 2); apply Z.log2_le_mono; lia).
    assert (L0 : 1 <= Z.log2 g0) by (change 1 with (Z.log2 2); apply Z.log2_le_mono; lia).
    set (d := Z.log2 g0 - Z.log2 g1). exists d. assert (Hd : 0 <= d) by (unfold d; lia). split; [exact Hd|]. split; [apply gf_align_spec; unfold d in *; lia|].
    assert (PD : 0 < 2 ^ d) by (apply Z.pow_pos_nonneg; lia). assert (P1 : 0 < g1 * 2 ^ d) by nia. assert (E1 : Z.log2 (g1 * 2 ^ d) = Z.log2 g0) by (rewrite Z.log2_mul_pow2 by lia; unfold d; lia).
    pose proof (coprime2_step g0 g1 d ltac:(lia) ltac:(lia) Hd I11) as C. set (h := Z.lxor g0 (g1 * 2 ^ d)) in *.
    assert (Hh : 0 <= h) by (apply lxor_nonneg'; lia).
    assert (Nh : h <> 0). { intros Z0. destruct C as (s & t & S1 & T1 & E). rewrite Z0, pmul_0_r, Z.lxor_0_l in E. apply (pmul_ge2 t g1 T1 I3 E). }
    assert (Lh : Z.log2 h < Z.log2 g0) by (apply Z.log2_lt_pow2; [lia|apply lxor_log_eq; lia]).
    assert (Lv : Z.log2 (Z.lxor v0 (v1 * 2 ^ d)) + Z.log2 g1 <= 32).
    { pose proof (log2_mul_pow2_le v1 d I6 Hd) as Q. assert (Z.log2 (Z.lxor v0 (v1 * 2 ^ d)) <= Z.max (Z.log2 v0) (Z.log2 (v1 * 2 ^ d))) by (apply Z.log2_lxor; nia). unfold d in *. lia. }
    split; [|exact Lh]. unfold Inv. split; [lia|]. split; [lia|]. split; [lia|]. split; [lia|]. split; [apply lxor_nonneg'; nia|]. split; [lia|]. split; [exact Lv|]. split; [lia|]. split; [|split; [exact I10|exact C]].
    rewrite pmul_lxor_l by auto. unfold h. apply pcong_lxor; auto. rewrite <- (pmul_pow2 g1 d Hd), <- (pmul_pow2 v1 d Hd). rewrite (pmul_comm v1 (2 ^ d)) by lia. rewrite pmul_assoc by lia.
    rewrite (pmul_comm g1 (2 ^ d)) by lia. apply pcong_mul; auto; try lia; [apply pmul_nonneg; lia|apply pcong_refl].
  Qed.
  Lemma inv_swap : forall g0 v0 g1 v1, 2 <= g0 -> Inv g0 v0 g1 v1 -> Inv g1 v1 g0 v0.
  Proof. unfold Inv. intros g0 v0 g1 v1 G (I1 & I2 & I3 & I4 & I5 & I6 & I7 & I8 & I9 & I10 & I11). pose proof (coprime2_sym _ _ I11). split; [lia|]. tauto. Qed.
  Lemma inv_loop_spec : forall fuel g0 v0 g1 v1, Inv g0 v0 g1 v1 -> Z.log2 g0 + Z.log2 g1 < Z.of_nat fuel ->
    exists v, gf_inv_loop fuel g0 v0 g1 v1 = Some v /\ word v /\ pcong f 1 (pmul v a).
  Proof.
    induction fuel as [|k IH]; intros g0 v0 g1 v1 HI HF; [pose proof (Z.log2_nonneg g0); pose proof (Z.log2_nonneg g1); lia|]. cbn [gf_inv_loop].
    destruct (Z.eqb_spec g0 1) as [->|N].
    - exists v0. split; [reflexivity|]. destruct HI as (I1 & I2 & I3 & I4 & I5 & I6 & I7 & I8 & I9 & I10 & I11). split; [|exact I9].
      assert (1 <= Z.log2 g1) by (change 1 with (Z.log2 2); apply Z.log2_le_mono; lia). unfold word. split; [exact I5|]. destruct (Z.eq_dec v0 0) as [->|Nv]; [reflexivity|]. apply log2_word; lia.
    - assert (G0 : 2 <= g0) by (destruct HI; lia). assert (G1 : 2 <= g1) by (destruct HI as (_ & _ & X & _); exact X). rewrite gf_cond by lia. destruct (Z.leb_spec (Z.log2 g1) (Z.log2 g0)) as [L|L].
      + destruct (inv_round g0 v0 g1 v1 G0 HI L) as (d & Hd & E & HI' & Q). rewrite E. apply IH; [exact HI'|]. lia.
      + destruct (inv_round g1 v1 g0 v0 G1 (inv_swap _ _ _ _ G0 HI) ltac:(lia)) as (d & Hd & E & HI' & Q). rewrite E. apply IH; [exact HI'|]. lia.
  Qed.
  Lemma gf_norm_spec : forall fuel g v, 0 < g -> Z.log2 g <= 31 -> 0 <= v -> Z.log2 v + (31 - Z.log2 g) <= 31 -> 31 - Z.log2 g < Z.of_nat fuel ->
    gf_norm fuel g v = Some (g * 2 ^ (31 - Z.log2 g), v * 2 ^ (31 - Z.log2 g)).
  Proof.
    induction fuel as [|k IH]; intros g v Hg L Hv Lv LF; [lia|]. cbn [gf_norm]. rewrite top_bit by (split; [lia|apply log2_word; lia]). destruct (Z.leb_spec (2 ^ 31) g) as [Q|Q].
    - assert (E : Z.log2 g = 31) by (apply Z.log2_le_pow2 in Q; lia). rewrite E, !Z.mul_1_r. reflexivity.
    - apply (log2_word 31) in Q; [|lia|lia]. rewrite !shl_small by lia. assert (D : Z.log2 (2 * g) = Z.log2 g + 1) by (rewrite Z.log2_double; lia).
      assert (Dv : Z.log2 (2 * v) <= Z.log2 v + 1). { destruct (Z.eq_dec v 0) as [->|N]; [cbn; lia|]. rewrite Z.log2_double; lia. }
      rewrite IH by lia. rewrite D. replace (31 - Z.log2 g) with (Z.succ (31 - (Z.log2 g + 1))) by lia. rewrite Z.pow_succ_r by lia. do 2 f_equal; lia.
  Qed.
  Lemma gf_inv_spec : forall b, word b -> gf_mul m a b = 1 -> exists v, gf_inv m a = Some v /\ word v /\ gf_mul m a v = 1.
  Proof.
    intros b Hb E. pose proof fpos' as HF. pose proof (word_nonneg a Ha) as Ha0. unfold gf_inv. destruct (Z.leb_spec a 1) as [L|L].
    - exists a. split; [reflexivity|]. split; [exact Ha|]. assert (C : a = 0 \/ a = 1) by lia. destruct C as [C|C]; rewrite C in *.
      + rewrite (mul_comm m Hm), (mul_0_r m Hm) in E by (auto; unfold word; rewrite W32; lia). discriminate.
      + apply mul_1_r; auto.
    - assert (La : 1 <= Z.log2 a) by (change 1 with (Z.log2 2); apply Z.log2_le_mono; lia). assert (La2 : Z.log2 a <= 31) by (apply (log2_word 32) in Ha as Q0 || (destruct Ha as [_ Q0]; apply (log2_word 32) in Q0; lia)).
      rewrite gf_norm_spec by (try lia; change (Z.log2 1) with 0; lia). set (d := 31 - Z.log2 a) in *. assert (PD : 0 < 2 ^ d) by (apply Z.pow_pos_nonneg; lia).
      rewrite (shl_small (1 * 2 ^ d)) by (rewrite Z.mul_1_l; try lia; right; rewrite Z.log2_pow2; lia). rewrite Z.lxor_0_l.
      assert (P2 : 2 * (1 * 2 ^ d) = 2 ^ (d + 1)) by (rewrite Z.pow_add_r by lia; change (2 ^ 1) with 2; lia). rewrite P2.
      assert (LG : Z.log2 (a * 2 ^ d) = 31) by (rewrite Z.log2_mul_pow2 by lia; unfold d; lia).
      set (g := a * 2 ^ d) in *. assert (Hg : 0 < g) by (unfold g; nia). pose proof (Z.log2_spec g Hg) as SG. rewrite LG in SG. change (Z.succ 31) with 32 in SG. change (2 ^ 31) with 2147483648 in SG.
      assert (Eg0 : Z.lxor m (gf_shl g) = Z.lxor f (a * 2 ^ (d + 1))).
      { assert (X1 : a * 2 ^ (d + 1) = Z.lxor (2 ^ 32) (gf_shl g)).
        { assert (D1 : 2 * g / 2 ^ 32 = 1) by (rewrite W32 in *; symmetry; apply (Z.div_unique (2 * g) 4294967296 1 (2 * g - 4294967296)); lia).
          pose proof (Z.div_mod (2 * g) (2 ^ 32) ltac:(rewrite W32; lia)) as Q. rewrite D1 in Q. unfold gf_shl.
          pose proof (lxor_disj 32 ((2 * g) mod 2 ^ 32) 1 ltac:(lia) ltac:(apply Z.mod_pos_bound; reflexivity) ltac:(lia)) as X. rewrite Z.mul_1_l in X. rewrite X. rewrite Z.pow_add_r by lia. change (2 ^ 1) with 2. unfold g in *. lia. }
        assert (X2 : f = Z.lxor (2 ^ 32) m) by (pose proof (lxor_disj 32 m 1 ltac:(lia) Hm ltac:(lia)) as X; rewrite Z.mul_1_l in X; rewrite X; reflexivity).
        rewrite X1, X2. rewrite lxor_comm4, Z.lxor_nilpotent, Z.lxor_0_l. reflexivity. }
      assert (CP : coprime2 f a).
      { destruct (mul_cong m Hm a b Ha Hb) as (q & Hq & Eq). rewrite E in Eq. exists q, b. split; [exact Hq|]. split; [apply word_nonneg; auto|]. rewrite <- Eq. rewrite (pmul_comm b a) by (auto; apply word_nonneg; auto). rewrite Z.lxor_assoc, Z.lxor_nilpotent, Z.lxor_0_r. reflexivity. }
      pose proof (coprime2_step f a (d + 1) ltac:(lia) Ha0 ltac:(lia) CP) as CQ. rewrite <- Eg0 in CQ. set (g0 := Z.lxor m (gf_shl g)) in *.
      assert (R0 : 0 <= g0 < 2 ^ 32) by (apply word_lxor; [lia|exact Hm|apply shl_range]).
      assert (N0 : g0 <> 0). { intros Z0. destruct CQ as (s & t & S1 & T1 & Q). rewrite Z0, pmul_0_r, Z.lxor_0_l in Q. apply (pmul_ge2 t a T1 ltac:(lia) Q). }
      assert (LG0 : Z.log2 g0 <= 31) by (destruct R0 as [Ra Rb]; apply (log2_word 32) in Rb; lia).
      destruct (inv_loop_spec 64 g0 (2 ^ (d + 1)) a 1) as (v & V1 & V2 & V3).
      + unfold Inv. split; [lia|]. split; [lia|]. split; [lia|]. split; [lia|]. split; [apply Z.pow_nonneg; lia|]. split; [lia|]. split; [rewrite Z.log2_pow2; unfold d; lia|]. split; [change (Z.log2 1) with 0; lia|].
        split; [|split; [rewrite pmul_1_l by auto; apply pcong_refl|exact CQ]].
        rewrite Eg0, (pmul_comm (2 ^ (d + 1)) a), pmul_pow2 by (try lia; apply Z.pow_nonneg; lia). apply pcong_trans with (Z.lxor 0 (a * 2 ^ (d + 1))); auto; [apply pcong_lxor; auto; [apply pcong_f; auto|apply pcong_refl]|rewrite Z.lxor_0_l; apply pcong_refl].
      + lia.
      + exists v. split; [exact V1|]. split; [exact V2|]. apply (gf_unique m Hm); [apply mul_word; auto|apply word_1|]. apply pcong_trans with (pmul a v); auto; [apply mul_cong; auto|]. rewrite pmul_comm by (auto; apply word_nonneg; auto). apply pcong_sym. exact V3.
  Qed.
End Inv.
