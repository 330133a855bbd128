From Coq Require Import ZArith Lia Bool.
From Verif Require Import Gf2Spec.
Local Open Scope Z_scope.

Lemma zbin_ind : forall P : Z -> Prop, P 0 -> (forall a (x : bool), 0 <= a -> P a -> P (2 * a + Z.b2z x)) -> forall a, 0 <= a -> P a.
Proof.
  intros P P0 PS a Ha. destruct a as [|p|p]; [exact P0| |lia]. clear Ha. induction p as [p IH|p IH|].
  - exact (PS (Zpos p) true ltac:(lia) IH).
  - pose proof (PS (Zpos p) false ltac:(lia) IH) as Q. cbn [Z.b2z] in Q. rewrite Z.add_0_r in Q. exact Q.
  - exact (PS 0 true ltac:(lia) P0).
Qed.
Lemma zbin_split : forall a, 0 <= a -> exists b (x : bool), 0 <= b /\ a = 2 * b + Z.b2z x.
Proof. intros a Ha. exists (a / 2), (Z.odd a). split; [apply Z.div_pos; lia|]. rewrite <- Z.div2_div. apply Z.div2_odd. Qed.

Lemma lxor_bin : forall a b x y, Z.lxor (2 * a + Z.b2z x) (2 * b + Z.b2z y) = 2 * Z.lxor a b + Z.b2z (xorb x y).
Proof.
  intros. apply Z.bits_inj'. intros n Hn. rewrite Z.lxor_spec. destruct (Z.eq_dec n 0) as [->|N].
  - rewrite !Z.testbit_0_r. reflexivity.
  - replace n with (Z.succ (n - 1)) by lia. rewrite !Z.testbit_succ_r by lia. rewrite Z.lxor_spec. reflexivity.
Qed.
Lemma lxor_double : forall a b, Z.lxor (2 * a) (2 * b) = 2 * Z.lxor a b.
Proof. intros. pose proof (lxor_bin a b false false) as H. cbn [Z.b2z xorb] in H. rewrite !Z.add_0_r in H. exact H. Qed.
Lemma lxor_nonneg' : forall a b, 0 <= a -> 0 <= b -> 0 <= Z.lxor a b.
Proof. intros. apply Z.lxor_nonneg. tauto. Qed.
Lemma lxor_comm4 : forall a b c d, Z.lxor (Z.lxor a b) (Z.lxor c d) = Z.lxor (Z.lxor a c) (Z.lxor b d).
Proof. intros. rewrite !Z.lxor_assoc. f_equal. rewrite <- !Z.lxor_assoc. f_equal. apply Z.lxor_comm. Qed.

Lemma pmul_0_r : forall a, pmul a 0 = 0. Proof. reflexivity. Qed.
Lemma pmul_1_r : forall a, pmul a 1 = a. Proof. reflexivity. Qed.
Lemma pmul_bin_r : forall a b x, 0 <= b -> pmul a (2 * b + Z.b2z x) = Z.lxor (if x then a else 0) (2 * pmul a b).
Proof.
  intros a b x Hb. destruct b as [|p|p]; [| |lia].
  - destruct x; cbn [Z.b2z]; [change (2 * 0 + 1) with 1|change (2 * 0 + 0) with 0]; rewrite ?pmul_1_r, ?pmul_0_r, Z.mul_0_r, ?Z.lxor_0_r; reflexivity.
  - destruct x; cbn [Z.b2z]; [change (2 * Zpos p + 1) with (Zpos (xI p))|change (2 * Zpos p + 0) with (Zpos (xO p))]; cbn [pmul pmul_pos]; [reflexivity|rewrite Z.lxor_0_l; reflexivity].
Qed.
Lemma pmul_double_r : forall a b, 0 <= b -> pmul a (2 * b) = 2 * pmul a b.
Proof. intros a b Hb. pose proof (pmul_bin_r a b false Hb) as H. cbn [Z.b2z] in H. rewrite Z.add_0_r, Z.lxor_0_l in H. exact H. Qed.
Lemma pmul_nonneg : forall a b, 0 <= a -> 0 <= pmul a b.
Proof.
  intros a b Ha. destruct b as [|p|p]; try (cbn [pmul]; lia). cbn [pmul]. induction p as [p IH|p IH|]; cbn [pmul_pos]; [apply lxor_nonneg'; lia|lia|exact Ha].
Qed.
Lemma pmul_0_l : forall b, pmul 0 b = 0.
Proof. intros b. destruct b as [|p|p]; try reflexivity. cbn [pmul]. induction p as [p IH|p IH|]; cbn [pmul_pos]; rewrite ?IH; reflexivity. Qed.
Lemma pmul_lxor_r : forall a b c, 0 <= b -> 0 <= c -> pmul a (Z.lxor b c) = Z.lxor (pmul a b) (pmul a c).
Proof.
  intros a b c Hb. revert c. revert b Hb. apply (zbin_ind (fun b => forall c, 0 <= c -> pmul a (Z.lxor b c) = Z.lxor (pmul a b) (pmul a c))).
  - intros c _. rewrite Z.lxor_0_l, pmul_0_r, Z.lxor_0_l. reflexivity.
  - intros b x Hb IH c Hc. destruct (zbin_split c Hc) as (d & y & Hd & ->). rewrite lxor_bin, !pmul_bin_r by (auto; apply lxor_nonneg'; auto). rewrite IH by auto.
    rewrite <- lxor_double, lxor_comm4. f_equal. destruct x, y; cbn [xorb]; rewrite ?Z.lxor_nilpotent, ?Z.lxor_0_r, ?Z.lxor_0_l; reflexivity.
Qed.
Lemma pmul_lxor_l : forall a b c, 0 <= c -> pmul (Z.lxor a b) c = Z.lxor (pmul a c) (pmul b c).
Proof.
  intros a b. apply (zbin_ind (fun c => pmul (Z.lxor a b) c = Z.lxor (pmul a c) (pmul b c))).
  - rewrite !pmul_0_r. reflexivity.
  - intros c x Hc IH. rewrite !pmul_bin_r by auto. rewrite IH, <- lxor_double, lxor_comm4. f_equal. destruct x; [reflexivity|]. reflexivity.
Qed.
Lemma pmul_double_l : forall a b, 0 <= b -> pmul (2 * a) b = 2 * pmul a b.
Proof.
  intros a. apply (zbin_ind (fun b => pmul (2 * a) b = 2 * pmul a b)).
  - rewrite !pmul_0_r. reflexivity.
  - intros b x Hb IH. rewrite !pmul_bin_r by auto. rewrite IH, <- lxor_double. f_equal. destruct x; reflexivity.
Qed.
Lemma pmul_1_l : forall a, 0 <= a -> pmul 1 a = a.
Proof.
  apply (zbin_ind (fun a => pmul 1 a = a)); [reflexivity|]. intros a x Ha IH. rewrite pmul_bin_r, IH by auto.
  pose proof (lxor_bin 0 a x false) as H. rewrite xorb_false_r, Z.lxor_0_l in H. cbn [Z.b2z] in H. rewrite Z.add_0_r, Z.mul_0_r, Z.add_0_l in H. rewrite <- H. destruct x; reflexivity.
Qed.
Lemma pmul_comm : forall a b, 0 <= a -> 0 <= b -> pmul a b = pmul b a.
Proof.
  intros a b Ha. revert b. revert a Ha. apply (zbin_ind (fun a => forall b, 0 <= b -> pmul a b = pmul b a)).
  - intros b _. rewrite pmul_0_l. reflexivity.
  - intros a x Ha IH b Hb. rewrite pmul_bin_r by auto. rewrite <- (IH b Hb).
    assert (E : 2 * a + Z.b2z x = Z.lxor (Z.b2z x) (2 * a)).
    { pose proof (lxor_bin 0 a x false) as H. rewrite xorb_false_r, Z.lxor_0_l in H. cbn [Z.b2z] in H. rewrite Z.add_0_r, Z.mul_0_r, Z.add_0_l in H. auto. }
    rewrite E, pmul_lxor_l, pmul_double_l by auto. f_equal. destruct x; cbn [Z.b2z]; [apply pmul_1_l; auto|apply pmul_0_l].
Qed.
Lemma pmul_assoc : forall a b c, 0 <= b -> 0 <= c -> pmul (pmul a b) c = pmul a (pmul b c).
Proof.
  intros a b c Hb. revert c. apply (zbin_ind (fun c => pmul (pmul a b) c = pmul a (pmul b c))); [reflexivity|].
  intros c x Hc IH. pose proof (pmul_nonneg b c Hb). rewrite !pmul_bin_r, IH by auto. rewrite pmul_lxor_r, pmul_double_r by (auto; destruct x; lia). destruct x; reflexivity.
Qed.
Lemma pmul_pow2 : forall a k, 0 <= k -> pmul a (2 ^ k) = a * 2 ^ k.
Proof.
  intros a k Hk. revert k Hk. apply natlike_ind; [rewrite Z.mul_1_r; reflexivity|]. intros k Hk IH. rewrite Z.pow_succ_r, pmul_double_r, IH by (auto; apply Z.pow_nonneg; lia). lia.
Qed.
Lemma pmul_pos_pos : forall a b, 0 < a -> 0 < b -> 0 < pmul a b /\ Z.log2 (pmul a b) = Z.log2 a + Z.log2 b.
Proof.
  intros a b Ha Hb. assert (H : b = 0 \/ (0 < pmul a b /\ Z.log2 (pmul a b) = Z.log2 a + Z.log2 b)); [|destruct H; [lia|exact H]].
  assert (Hb0 : 0 <= b) by lia. clear Hb. revert b Hb0. apply (zbin_ind (fun b => b = 0 \/ (0 < pmul a b /\ Z.log2 (pmul a b) = Z.log2 a + Z.log2 b))); [auto|].
  intros b x Hb [->|[IH1 IH2]].
  - destruct x; cbn [Z.b2z]; [right|left; reflexivity]. change (2 * 0 + 1) with 1. rewrite pmul_1_r. change (Z.log2 1) with 0. lia.
  - destruct (Z.eq_dec b 0) as [->|Nb]; [rewrite pmul_0_r in IH1; lia|]. right. rewrite pmul_bin_r by auto. set (q := pmul a b) in *.
    assert (Lq : Z.log2 (2 * q) = Z.log2 q + 1) by (rewrite Z.log2_double; lia).
    assert (Lb : Z.log2 (2 * b + Z.b2z x) = Z.log2 b + 1).
    { destruct x; cbn [Z.b2z]; [rewrite Z.log2_succ_double; lia|rewrite Z.add_0_r, Z.log2_double; lia]. }
    destruct x.
    2:{ rewrite Z.lxor_0_l, Lb, Lq. lia. }
    pose proof (Z.log2_nonneg b). assert (Lx : Z.log2 (Z.lxor a (2 * q)) = Z.log2 q + 1).
    { apply Z.log2_bits_unique; [rewrite Z.lxor_spec, (Z.bits_above_log2 a) by lia; rewrite <- Lq, Z.bit_log2 by lia; reflexivity|].
      intros m Hm. rewrite Z.lxor_spec, !Z.bits_above_log2 by lia. reflexivity. }
    split; [|lia]. assert (N : Z.lxor a (2 * q) <> 0) by (intros E; rewrite E in Lx; cbn in Lx; pose proof (Z.log2_nonneg q); lia). pose proof (lxor_nonneg' a (2 * q) ltac:(lia) ltac:(lia)). lia.
Qed.

(* ---------------------------------------------------------------- congruence *)
Lemma lxor_eq0 : forall a b, Z.lxor a b = 0 -> a = b. Proof. intros a b. apply Z.lxor_eq. Qed.
Lemma lxor_cancel : forall a b c, Z.lxor (Z.lxor a b) (Z.lxor b c) = Z.lxor a c.
Proof. intros. rewrite Z.lxor_assoc. f_equal. rewrite <- Z.lxor_assoc, Z.lxor_nilpotent, Z.lxor_0_l. reflexivity. Qed.
Section Cong.
  Variable f : Z.
  Hypothesis Hf : 0 < f.
  Lemma pcong_refl : forall a, pcong f a a. Proof. intros. exists 0. rewrite Z.lxor_nilpotent, pmul_0_l. split; [lia|reflexivity]. Qed.
  Lemma pcong_sym : forall a b, pcong f a b -> pcong f b a. Proof. intros a b (q & Hq & E). exists q. rewrite Z.lxor_comm. auto. Qed.
  Lemma pcong_trans : forall a b c, pcong f a b -> pcong f b c -> pcong f a c.
  Proof.
    intros a b c (q & Hq & E) (r & Hr & E2). exists (Z.lxor q r). split; [apply lxor_nonneg'; auto|]. rewrite pmul_lxor_l by lia. rewrite <- E, <- E2, lxor_cancel. reflexivity.
  Qed.
  Lemma pcong_lxor : forall a b c d, pcong f a b -> pcong f c d -> pcong f (Z.lxor a c) (Z.lxor b d).
  Proof.
    intros a b c d (q & Hq & E) (r & Hr & E2). exists (Z.lxor q r). split; [apply lxor_nonneg'; auto|]. rewrite pmul_lxor_l by lia. rewrite <- E, <- E2. apply lxor_comm4.
  Qed.
  Lemma pcong_mul_l : forall a b c, 0 <= a -> 0 <= b -> 0 <= c -> pcong f a b -> pcong f (pmul a c) (pmul b c).
  Proof.
    intros a b c Ha Hb Hc (q & Hq & E). exists (pmul c q). split; [apply pmul_nonneg; auto|]. rewrite <- pmul_lxor_l by auto. rewrite E.
    pose proof (pmul_nonneg q f Hq). rewrite (pmul_assoc c q f) by lia. apply pmul_comm; auto.
  Qed.
  Lemma pcong_mul : forall a b c d, 0 <= a -> 0 <= b -> 0 <= c -> 0 <= d -> pcong f a b -> pcong f c d -> pcong f (pmul a c) (pmul b d).
  Proof.
    intros a b c d Ha Hb Hc Hd H1 H2. apply pcong_trans with (pmul b c); [apply pcong_mul_l; auto|]. rewrite (pmul_comm b c), (pmul_comm b d) by auto. apply pcong_mul_l; auto.
  Qed.
  Lemma pcong_double : forall a b, 0 <= a -> 0 <= b -> pcong f a b -> pcong f (2 * a) (2 * b).
  Proof. intros a b Ha Hb (q & Hq & E). exists (2 * q). split; [lia|]. rewrite lxor_double, E, pmul_double_l by lia. reflexivity. Qed.
  Lemma pcong_f : pcong f f 0. Proof. exists 1. split; [lia|]. rewrite Z.lxor_0_r, pmul_1_l by lia. reflexivity. Qed.
  Lemma pcong_unique : forall a b, 0 <= a < 2 ^ Z.log2 f -> 0 <= b < 2 ^ Z.log2 f -> pcong f a b -> a = b.
  Proof.
    intros a b Ha Hb (q & Hq & E). apply lxor_eq0. destruct (Z.eq_dec q 0) as [->|N]; [rewrite E; apply pmul_0_l|].
    destruct (pmul_pos_pos q f ltac:(lia) Hf) as [P1 P2]. exfalso. pose proof (Z.log2_nonneg q). pose proof (Z.log2_nonneg f).
    assert (L : Z.log2 (Z.lxor a b) < Z.log2 f).
    { destruct (Z.eq_dec (Z.log2 f) 0) as [Z0|Z0]; [rewrite Z0 in *; change (2 ^ 0) with 1 in *; assert (a = 0) by lia; assert (b = 0) by lia; subst; rewrite <- E in P1; cbn in P1; lia|].
      eapply Z.le_lt_trans; [apply Z.log2_lxor; lia|]. apply Z.max_lub_lt.
      - destruct (Z.eq_dec a 0) as [->|Na]; [cbn; lia|]. apply Z.log2_lt_pow2; lia.
      - destruct (Z.eq_dec b 0) as [->|Nb]; [cbn; lia|]. apply Z.log2_lt_pow2; lia. }
    rewrite E, P2 in L. lia.
  Qed.
End Cong.
