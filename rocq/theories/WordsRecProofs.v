(** Proofs about the recursive products, squares, low and high halves, and the asymmetric product. *)
From Coq Require Import ZArith List Bool Arith Lia Permutation.
From Verif Require Import Base AsnModel AsnProofs WordsSpec WordsModel WordsProofs WordsMulProofs.
Import ListNotations.
Local Open Scope Z_scope.

Lemma pow2_cases : forall k, (1 <= k)%nat -> (2 ^ k <= 16)%nat -> (k = 1 \/ k = 2 \/ k = 3 \/ k = 4)%nat.
Proof.
  intros k H1 H2. destruct (Nat.leb_spec k 4); [lia|]. assert (2 ^ 5 <= 2 ^ k)%nat by (apply Nat.pow_le_mono_r; lia). change (2 ^ 5)%nat with 32%nat in *. lia.
Qed.
Lemma pow2_half : forall k, (1 <= k)%nat -> (2 ^ k / 2 = 2 ^ (k - 1))%nat /\ (2 ^ k = 2 * 2 ^ (k - 1))%nat.
Proof.
  intros k H. assert (E : (2 ^ k = 2 * 2 ^ (k - 1))%nat) by (replace k with (S (k - 1)) at 1 by lia; apply Nat.pow_succ_r'). split; auto.
  rewrite E, Nat.mul_comm. apply Nat.div_mul. lia.
Qed.

Section Rec.
Variable w : Z.
Context {Hbig : bigw w}.
Notation B := (base w).
Notation V := (wval w).
Notation W := (words w).
Notation P := (P w).

Lemma p_mul_spec : forall k X Y, (1 <= k)%nat -> (2 ^ k <= 16)%nat -> W X -> W Y -> length X = (2 ^ k)%nat -> length Y = (2 ^ k)%nat ->
  let R := p_mul w (2 ^ k / 4) X Y in W R /\ length R = (2 * 2 ^ k)%nat /\ V R = V X * V Y.
Proof.
  intros k X Y H1 H2 HX HY LX LY. destruct (pow2_cases k H1 H2) as [E|[E|[E|E]]]; subst k.
  - apply (run_mul_spec w 2 mul_2); [apply mul_2_ok|..]; auto.
  - apply (run_mul_spec w 4 mul_4); [apply mul_4_ok|..]; auto.
  - apply (run_mul_spec w 8 mul_8); [apply mul_8_ok|..]; auto.
  - apply (run_mul_spec w 16 mul_16); [apply mul_16_ok|..]; auto.
Qed.
Lemma p_squ_spec : forall k X, (1 <= k)%nat -> (2 ^ k <= 16)%nat -> W X -> length X = (2 ^ k)%nat ->
  let R := p_squ w (2 ^ k / 4) X in W R /\ length R = (2 * 2 ^ k)%nat /\ V R = V X * V X.
Proof.
  intros k X H1 H2 HX LX. destruct (pow2_cases k H1 H2) as [E|[E|[E|E]]]; subst k.
  - apply (run_squ_spec w 2 squ_2); [apply squ_2_ok|..]; auto.
  - apply (run_squ_spec w 4 squ_4); [apply squ_4_ok|..]; auto.
  - apply (run_squ_spec w 8 squ_8); [apply squ_8_ok|..]; auto.
  - apply (run_squ_spec w 16 squ_16); [apply squ_16_ok|..]; auto.
Qed.
Lemma p_bot_spec : forall k X Y, (1 <= k)%nat -> (2 ^ k <= 16)%nat -> W X -> W Y -> length X = (2 ^ k)%nat -> length Y = (2 ^ k)%nat ->
  let R := p_bot w (2 ^ k / 4) X Y in W R /\ length R = (2 ^ k)%nat /\ V R = (V X * V Y) mod P (2 ^ k).
Proof.
  intros k X Y H1 H2 HX HY LX LY. destruct (pow2_cases k H1 H2) as [E|[E|[E|E]]]; subst k.
  - apply (run_bot_spec w 2 bot_2); [apply bot_2_ok|..]; auto.
  - apply (run_bot_spec w 4 bot_4); [apply bot_4_ok|..]; auto.
  - apply (run_bot_spec w 8 bot_8); [apply bot_8_ok|..]; auto.
  - apply (run_bot_spec w 16 bot_16); [apply bot_16_ok|..]; auto.
Qed.
Lemma p_top_spec : forall k X Y Lw, (1 <= k)%nat -> (2 ^ k <= 16)%nat -> W X -> W Y -> length X = (2 ^ k)%nat -> length Y = (2 ^ k)%nat ->
  Lw = (V X * V Y / P (2 ^ k - 1)) mod B ->
  let R := p_top w (2 ^ k / 4) X Y Lw in W R /\ length R = (2 ^ k)%nat /\ V R = (V X * V Y) / P (2 ^ k).
Proof.
  intros k X Y Lw H1 H2 HX HY LX LY HL. destruct (pow2_cases k H1 H2) as [E|[E|[E|E]]]; subst k.
  - change (p_top w (2 ^ 1 / 4) X Y Lw) with (skipn 2 (run_mul w 2 mul_2 X Y)). destruct (run_mul_spec w 2 mul_2 X Y ltac:(apply mul_2_ok) HX HY LX LY) as (A & E & C).
    cbv zeta. split; [apply W_skipn; auto|]. split; [rewrite skipn_length; cbv zeta in E; rewrite E; reflexivity|]. rewrite <- C. symmetry. apply (V_div_P w); auto. cbv zeta in E. rewrite E. cbn. lia.
  - apply (run_top_spec w 4 top_4); [apply top_4_ok|..]; auto; try lia.
  - apply (run_top_spec w 8 top_8); [apply top_8_ok|..]; auto; try lia.
  - apply (run_top_spec w 16 top_16); [apply top_16_ok|..]; auto; try lia.
Qed.

Lemma lo_spec : forall n X, W X -> (n <= length X)%nat -> W (lo n X) /\ length (lo n X) = n.
Proof. intros. unfold lo. split; [apply W_firstn; auto|]. rewrite firstn_length. lia. Qed.
Lemma hi_spec : forall n X, W X -> (n <= length X)%nat -> W (hi n X) /\ length (hi n X) = (length X - n)%nat.
Proof. intros. unfold hi. split; [apply W_skipn; auto|]. apply skipn_length. Qed.
Lemma lohi : forall n X, (n <= length X)%nat -> V X = V (lo n X) + P n * V (hi n X).
Proof. intros. apply (V_firstn_skipn w). auto. Qed.

Lemma abs_diff_spec : forall n X, W X -> length X = (2 * n)%nat ->
  W (fst (abs_diff w n X)) /\ length (fst (abs_diff w n X)) = n /\ V (fst (abs_diff w n X)) = Z.abs (V (lo n X) - V (hi n X)) /\
  snd (abs_diff w n X) = (V (hi n X) <? V (lo n X)).
Proof.
  intros n X HX LX. destruct (lo_spec n X HX ltac:(lia)) as [A1 A2]. destruct (hi_spec n X HX ltac:(lia)) as [B1 B2]. rewrite LX in B2. replace (2 * n - n)%nat with n in B2 by lia.
  unfold abs_diff. rewrite (w_cmp_full' w) by auto. cbn [fst snd]. rewrite Z.ltb_compare, (Z.compare_antisym (V (lo n X)) (V (hi n X))).
  destruct (Z.compare_spec (V (lo n X)) (V (hi n X))); cbn [Z.gtb Z.compare CompOpp].
  - destruct (w_sub_spec w (hi n X) (lo n X)) as (S1 & S2 & _); auto; try congruence. destruct (w_sub_exact w (hi n X) (lo n X)) as [S3 _]; auto; try congruence; try lia. rewrite S3. split; auto. split; [congruence|]. split; auto. lia.
  - destruct (w_sub_spec w (hi n X) (lo n X)) as (S1 & S2 & _); auto; try congruence. destruct (w_sub_exact w (hi n X) (lo n X)) as [S3 _]; auto; try congruence; try lia. rewrite S3. split; auto. split; [congruence|]. split; auto. lia.
  - destruct (w_sub_spec w (lo n X) (hi n X)) as (S1 & S2 & _); auto; try congruence. destruct (w_sub_exact w (lo n X) (hi n X)) as [S3 _]; auto; try congruence; try lia. rewrite S3. split; auto. split; [congruence|]. split; auto. lia.
Qed.
(** The product of the differences. *)
Lemma diff_prod : forall a0 a1 b0 b1, (a0 - a1) * (b0 - b1) = (if Bool.eqb (a1 <? a0) (b1 <? b0) then 1 else -1) * (Z.abs (a0 - a1) * Z.abs (b0 - b1)).
Proof.
  intros. destruct (Z.ltb_spec a1 a0), (Z.ltb_spec b1 b0); cbn [Bool.eqb]; rewrite ?(Z.abs_eq (a0 - a1)), ?(Z.abs_eq (b0 - b1)), ?(Z.abs_neq (a0 - a1)), ?(Z.abs_neq (b0 - b1)) by lia; ring.
Qed.

Ltac addp X Y H := let H1 := fresh H "w" in let H2 := fresh H "l" in let H3 := fresh H "c" in let H4 := fresh H "v" in
  destruct (w_add_spec w X Y) as (H1 & H2 & H3 & H4); [auto|auto|lia|]; let r := fresh "r" in let k := fresh "k" in destruct (w_add w X Y) as [r k]; cbn [fst snd] in H1, H2, H3, H4.

Lemma rec_mul_spec : forall f k X Y, (1 <= k)%nat -> (k <= f + 4)%nat -> W X -> W Y -> length X = (2 ^ k)%nat -> length Y = (2 ^ k)%nat ->
  W (rec_mul w f X Y) /\ length (rec_mul w f X Y) = (2 * 2 ^ k)%nat /\ V (rec_mul w f X Y) = V X * V Y.
Proof.
  induction f; intros k X Y Hk Hf HX HY LX LY.
  { cbn [rec_mul]. rewrite LX. assert (2 ^ k <= 16)%nat by (change 16%nat with (2 ^ 4)%nat; apply Nat.pow_le_mono_r; lia). rewrite (proj2 (Nat.leb_le _ _) H). apply p_mul_spec; auto. }
  cbn [rec_mul]. rewrite LX. destruct (Nat.leb_spec (2 ^ k) 16) as [L|L]; [apply p_mul_spec; auto|].
  assert (K5 : (5 <= k)%nat). { destruct (Nat.leb_spec 5 k); auto. assert (2 ^ k <= 2 ^ 4)%nat by (apply Nat.pow_le_mono_r; lia). change (2 ^ 4)%nat with 16%nat in *. lia. }
  destruct (pow2_half k Hk) as [E1 E2]. rewrite E1. set (n := (2 ^ (k - 1))%nat) in *.
  assert (N0 : (0 < n)%nat) by (unfold n; pose proof (Nat.pow_nonzero 2 (k - 1)); lia).
  destruct (abs_diff_spec n X HX ltac:(lia)) as (A1 & A2 & A3 & A4). destruct (abs_diff_spec n Y HY ltac:(lia)) as (D1 & D2 & D3 & D4).
  destruct (abs_diff w n X) as [da fa]. destruct (abs_diff w n Y) as [db fb]. cbn [fst snd] in *.
  destruct (lo_spec n X HX ltac:(lia)) as [X01 X02]. destruct (hi_spec n X HX ltac:(lia)) as [X11 X12]. destruct (lo_spec n Y HY ltac:(lia)) as [Y01 Y02]. destruct (hi_spec n Y HY ltac:(lia)) as [Y11 Y12].
  destruct (IHf (k - 1)%nat (hi n X) (hi n Y) ltac:(lia) ltac:(lia) X11 Y11 ltac:(fold n; lia) ltac:(fold n; lia)) as (Q1 & Q2 & Q3). fold n in Q2. set (r23 := rec_mul w f (hi n X) (hi n Y)) in *.
  destruct (IHf (k - 1)%nat da db ltac:(lia) ltac:(lia) A1 D1 ltac:(fold n; lia) ltac:(fold n; lia)) as (T1 & T2 & T3). fold n in T2. set (t := rec_mul w f da db) in *.
  destruct (IHf (k - 1)%nat (lo n X) (lo n Y) ltac:(lia) ltac:(lia) X01 Y01 ltac:(fold n; lia) ltac:(fold n; lia)) as (R1 & R2 & R3). fold n in R2. set (r01 := rec_mul w f (lo n X) (lo n Y)) in *.
  clearbody r23 t r01. destruct (lo_spec n r01 R1 ltac:(lia)) as [Ra Rb]. destruct (hi_spec n r01 R1 ltac:(lia)) as [Rc Rd]. destruct (lo_spec n r23 Q1 ltac:(lia)) as [Qa Qb]. destruct (hi_spec n r23 Q1 ltac:(lia)) as [Qc Qd].
  pose proof (lohi n r01 ltac:(lia)) as R4. pose proof (lohi n r23 ltac:(lia)) as Q4. pose proof (lohi n X ltac:(lia)) as X4. pose proof (lohi n Y ltac:(lia)) as Y4.
  set (r0 := lo n r01) in *. set (r1 := hi n r01) in *. set (r2 := lo n r23) in *. set (r3 := hi n r23) in *. clearbody r0 r1 r2 r3.
  assert (Rd' : length r1 = n) by lia. assert (Qd' : length r3 = n) by lia.
  destruct (w_add_spec w r2 r1) as (a1 & a2 & a3 & a4); auto; try lia. destruct (w_add w r2 r1) as [s2 c2]. cbn [fst snd] in *.
  destruct (w_add_spec w s2 r0) as (b1 & b2 & b3 & b4); auto; try lia. destruct (w_add w s2 r0) as [s1 k1]. cbn [fst snd] in *.
  destruct (w_add_spec w s2 r3) as (e1 & e2 & e3 & e4); auto; try lia. destruct (w_add w s2 r3) as [s3 k2]. cbn [fst snd] in *.
  rewrite Qb in a4. rewrite a2, Qb in b4, e4.
  pose proof (diff_prod (V (lo n X)) (V (hi n X)) (V (lo n Y)) (V (hi n Y))) as DP. rewrite <- A3, <- D3, <- A4, <- D4, <- T3 in DP.
  set (X0 := V (lo n X)) in *. set (X1 := V (hi n X)) in *. set (Y0 := V (lo n Y)) in *. set (Y1 := V (hi n Y)) in *.
  assert (W13 : W (s1 ++ s3)) by (apply W_app; auto). assert (L13 : length (s1 ++ s3) = (2 * n)%nat) by (rewrite app_length; lia).
  assert (V13 : V (s1 ++ s3) = V s1 + P n * V s3) by (rewrite V_app; f_equal; f_equal; f_equal; lia).
  assert (PP : P (2 * n) = P n * P n) by (replace (2 * n)%nat with (n + n)%nat by lia; apply P_add).
  assert (Mid : exists r12 c3, (if Bool.eqb fa fb then let '(x, k) := w_sub w (s1 ++ s3) t in (x, c2 + k2 - k) else let '(x, k) := w_add w (s1 ++ s3) t in (x, c2 + k2 + k)) = (r12, c3) /\
     W r12 /\ length r12 = (2 * n)%nat /\ -1 <= c3 <= 3 /\ V r12 + P n * P n * c3 + P n * (c2 + k1) = (V r0 + P n * V r1) + (V r2 + P n * V r3) - (X0 - X1) * (Y0 - Y1) + (V r1 + P n * V r2)).
  { rewrite DP. destruct (Bool.eqb fa fb).
    - destruct (w_sub_spec w (s1 ++ s3) t) as (u1 & u2 & u3 & u4); auto; try lia. destruct (w_sub w (s1 ++ s3) t) as [x kk]. cbn [fst snd] in *. exists x, (c2 + k2 - kk). split; auto. split; auto. split; [lia|]. split; [lia|].
      rewrite L13, V13, PP in u4. nia.
    - destruct (w_add_spec w (s1 ++ s3) t) as (u1 & u2 & u3 & u4); auto; try lia. destruct (w_add w (s1 ++ s3) t) as [x kk]. cbn [fst snd] in *. exists x, (c2 + k2 + kk). split; auto. split; auto. split; [lia|]. split; [lia|].
      rewrite L13, V13, PP in u4. nia. }
  destruct Mid as (r12 & c3 & M1 & M2 & M3 & M4 & M5). rewrite M1. clear M1.
  destruct (lo_spec n r12 M2 ltac:(lia)) as [U1 U2]. destruct (hi_spec n r12 M2 ltac:(lia)) as [U3 U4]. pose proof (lohi n r12 ltac:(lia)) as U5.
  set (m1 := lo n r12) in *. set (m2 := hi n r12) in *. clearbody m1 m2. pose proof (B_big w) as HB. change (2 ^ 32) with 4294967296 in HB.
  rewrite (wd_small w (c2 + k1)) by lia. destruct (w_inc_spec w m2 (c2 + k1) U3 ltac:(intros ->; cbn in U4; lia) ltac:(lia)) as (v1 & v2 & v3 & v4). destruct (w_inc w m2 (c2 + k1)) as [m2' k3]. cbn [fst snd] in *.
  replace (length m2) with n in v4 by lia.
  assert (Eq : V m1 + P n * V m2' + P n * P n * (c3 + k3) = X0 * Y1 + X1 * Y0 + (V r1 + P n * V r2)) by (clear - M5 U5 v4 R3 Q3 R4 Q4; nia).
  pose proof (V_bound w m1 U1) as Bm1. pose proof (V_bound w m2' v1) as Bm2. rewrite U2 in Bm1. replace (length m2') with n in Bm2 by lia. pose proof (P_pos w n) as PN.
  pose proof (V_bound w (lo n X) X01) as BX0. pose proof (V_bound w (hi n X) X11) as BX1. pose proof (V_bound w (lo n Y) Y01) as BY0. pose proof (V_bound w (hi n Y) Y11) as BY1. fold X0 in BX0. fold X1 in BX1. fold Y0 in BY0. fold Y1 in BY1.
  pose proof (V_bound w r1 Rc) as Br1. pose proof (V_bound w r2 Qa) as Br2.
  assert (C3 : 0 <= c3 + k3).
  { assert (0 <= X0 * Y1 + X1 * Y0) by (apply Z.add_nonneg_nonneg; apply Z.mul_nonneg_nonneg; lia). clear - Eq H PN Bm1 Bm2 Br1 Br2.
    assert (0 <= P n * V r2) by (apply Z.mul_nonneg_nonneg; lia). assert (V m1 + P n * V m2' < P n * P n) by nia. assert (0 < P n * P n) by nia. nia. }
  rewrite (wd_small w (c3 + k3)) by lia. destruct (w_inc_spec w r3 (c3 + k3) Qc ltac:(intros ->; cbn in Qd'; lia) ltac:(lia)) as (z1 & z2 & z3 & z4). destruct (w_inc w r3 (c3 + k3)) as [r3' k4]. cbn [fst snd] in *.
  rewrite Qd' in z4. split. { repeat (apply W_app; split; auto). } split. { rewrite !app_length. lia. }
  rewrite !V_app. rewrite Rb, U2. replace (length m2') with n by lia.
  assert (Tot : V r0 + P n * (V m1 + P n * (V m2' + P n * (V r3' + P n * k4))) = V X * V Y).
  { rewrite z4, X4, Y4. transitivity (V r0 + P n * (V m1 + P n * V m2' + P n * P n * (c3 + k3)) + P n * P n * P n * V r3); [ring|]. rewrite Eq.
    transitivity ((V r0 + P n * V r1) + P n * (X0 * Y1 + X1 * Y0) + P n * P n * (V r2 + P n * V r3)); [ring|]. rewrite <- R4, <- Q4, R3, Q3. ring. }
  assert (K0 : k4 = 0).
  { pose proof (V_bound w X HX) as BX. pose proof (V_bound w Y HY) as BY. replace (length X) with (2 * n)%nat in BX by lia. replace (length Y) with (2 * n)%nat in BY by lia. rewrite PP in BX, BY.
    pose proof (V_bound w r3' z1) as B3. pose proof (V_bound w r0 Ra) as B0. rewrite Rb in B0.
    assert (V X * V Y < P n * P n * (P n * P n)) by (clear - BX BY; nia). assert (Z4 : 0 < P n * P n * (P n * P n)) by (clear - PN; nia).
    assert (P n * P n * (P n * P n) * k4 <= V X * V Y). { rewrite <- Tot. clear - B0 Bm1 Bm2 B3 PN z3. assert (0 <= P n * (V m1 + P n * (V m2' + P n * V r3'))) by (repeat (apply Z.mul_nonneg_nonneg || apply Z.add_nonneg_nonneg); lia).
      transitivity (V r0 + P n * (V m1 + P n * (V m2' + P n * V r3')) + P n * P n * (P n * P n) * k4); [lia|]. apply Z.eq_le_incl. ring. }
    clear - H H0 Z4 z3. nia. }
  rewrite <- Tot, K0. ring.
Qed.
Lemma fuel_ok : forall k, (k <= 2 ^ k + 4)%nat.
Proof. intros. pose proof (Nat.pow_gt_lin_r 2 k ltac:(lia)). lia. Qed.
Theorem w_mul_spec : forall k X Y, (1 <= k)%nat -> W X -> W Y -> length X = (2 ^ k)%nat -> length Y = (2 ^ k)%nat ->
  W (w_mul w X Y) /\ length (w_mul w X Y) = (2 * 2 ^ k)%nat /\ V (w_mul w X Y) = V X * V Y.
Proof. intros. unfold w_mul. rewrite H2. apply (rec_mul_spec _ k); auto using fuel_ok. Qed.

Lemma rec_squ_spec : forall f k X, (1 <= k)%nat -> (k <= f + 4)%nat -> W X -> length X = (2 ^ k)%nat ->
  W (rec_squ w f X) /\ length (rec_squ w f X) = (2 * 2 ^ k)%nat /\ V (rec_squ w f X) = V X * V X.
Proof.
  induction f; intros k X Hk Hf HX LX.
  { cbn [rec_squ]. rewrite LX. assert (2 ^ k <= 16)%nat by (change 16%nat with (2 ^ 4)%nat; apply Nat.pow_le_mono_r; lia). rewrite (proj2 (Nat.leb_le _ _) H). apply p_squ_spec; auto. }
  cbn [rec_squ]. rewrite LX. destruct (Nat.leb_spec (2 ^ k) 16) as [L|L]; [apply p_squ_spec; auto|].
  assert (K5 : (5 <= k)%nat). { destruct (Nat.leb_spec 5 k); auto. assert (2 ^ k <= 2 ^ 4)%nat by (apply Nat.pow_le_mono_r; lia). change (2 ^ 4)%nat with 16%nat in *. lia. }
  destruct (pow2_half k Hk) as [E1 E2]. rewrite E1. set (n := (2 ^ (k - 1))%nat) in *.
  assert (N0 : (0 < n)%nat) by (unfold n; pose proof (Nat.pow_nonzero 2 (k - 1)); lia).
  destruct (lo_spec n X HX ltac:(lia)) as [X01 X02]. destruct (hi_spec n X HX ltac:(lia)) as [X11 X12].
  destruct (IHf (k - 1)%nat (lo n X) ltac:(lia) ltac:(lia) X01 ltac:(fold n; lia)) as (R1 & R2 & R3). fold n in R2. set (r01 := rec_squ w f (lo n X)) in *.
  destruct (IHf (k - 1)%nat (hi n X) ltac:(lia) ltac:(lia) X11 ltac:(fold n; lia)) as (Q1 & Q2 & Q3). fold n in Q2. set (r23 := rec_squ w f (hi n X)) in *.
  destruct (rec_mul_spec f (k - 1)%nat (lo n X) (hi n X) ltac:(lia) ltac:(lia) X01 X11 ltac:(fold n; lia) ltac:(fold n; lia)) as (T1 & T2 & T3). fold n in T2. set (t := rec_mul w f (lo n X) (hi n X)) in *.
  clearbody r23 t r01. destruct (lo_spec n r01 R1 ltac:(lia)) as [Ra Rb]. destruct (hi_spec n r01 R1 ltac:(lia)) as [Rc Rd]. destruct (lo_spec n r23 Q1 ltac:(lia)) as [Qa Qb]. destruct (hi_spec n r23 Q1 ltac:(lia)) as [Qc Qd].
  pose proof (lohi n r01 ltac:(lia)) as R4. pose proof (lohi n r23 ltac:(lia)) as Q4. pose proof (lohi n X ltac:(lia)) as X4.
  set (r0 := lo n r01) in *. set (r1 := hi n r01) in *. set (r2 := lo n r23) in *. set (r3 := hi n r23) in *. clearbody r0 r1 r2 r3.
  assert (Rd' : length r1 = n) by lia. assert (Qd' : length r3 = n) by lia. set (X0 := V (lo n X)) in *. set (X1 := V (hi n X)) in *.
  assert (W12 : W (r1 ++ r2)) by (apply W_app; auto). assert (L12 : length (r1 ++ r2) = (2 * n)%nat) by (rewrite app_length; lia).
  assert (V12 : V (r1 ++ r2) = V r1 + P n * V r2) by (rewrite V_app; f_equal; f_equal; f_equal; lia).
  assert (PP : P (2 * n) = P n * P n) by (replace (2 * n)%nat with (n + n)%nat by lia; apply P_add).
  destruct (w_add_spec w (r1 ++ r2) t) as (a1 & a2 & a3 & a4); auto; try lia. destruct (w_add w (r1 ++ r2) t) as [s c1]. cbn [fst snd] in *.
  destruct (w_add_spec w s t) as (b1 & b2 & b3 & b4); auto; try lia. destruct (w_add w s t) as [u c2]. cbn [fst snd] in *.
  rewrite a2, L12, PP in b4. rewrite L12, PP, V12 in a4. pose proof (B_big w) as HB. change (2 ^ 32) with 4294967296 in HB.
  rewrite (wd_small w (c1 + c2)) by lia. destruct (w_inc_spec w r3 (c1 + c2) Qc ltac:(intros ->; cbn in Qd'; lia) ltac:(lia)) as (z1 & z2 & z3 & z4). destruct (w_inc w r3 (c1 + c2)) as [r3' k4]. cbn [fst snd] in *.
  rewrite Qd' in z4. split. { repeat (apply W_app; split; auto). } split. { rewrite !app_length. lia. }
  rewrite !V_app. rewrite Rb. replace (length u) with (2 * n)%nat by lia. rewrite PP. pose proof (P_pos w n) as PN.
  assert (Tot : V r0 + P n * (V u + P n * P n * (V r3' + P n * k4)) = V X * V X).
  { rewrite z4, X4. transitivity (V r0 + P n * (V u + P n * P n * c2 + P n * P n * c1) + P n * P n * P n * V r3); [ring|]. rewrite b4.
    transitivity (V r0 + P n * ((V s + P n * P n * c1) + V t) + P n * P n * P n * V r3); [ring|]. rewrite a4, T3.
    transitivity ((V r0 + P n * V r1) + P n * (2 * (X0 * X1)) + P n * P n * (V r2 + P n * V r3)); [ring|]. rewrite <- R4, <- Q4, R3, Q3. ring. }
  assert (K0 : k4 = 0).
  { pose proof (V_bound w X HX) as BX. replace (length X) with (2 * n)%nat in BX by lia. rewrite PP in BX.
    pose proof (V_bound w r3' z1) as B3. pose proof (V_bound w r0 Ra) as B0. pose proof (V_bound w u b1) as Bu.
    assert (V X * V X < P n * P n * (P n * P n)) by (clear - BX; nia). assert (Z4 : 0 < P n * P n * (P n * P n)) by (clear - PN; nia).
    assert (P n * P n * (P n * P n) * k4 <= V X * V X). { rewrite <- Tot. clear - B0 B3 Bu PN z3. assert (0 <= P n * (V u + P n * P n * V r3')) by (repeat (apply Z.mul_nonneg_nonneg || apply Z.add_nonneg_nonneg); lia).
      transitivity (V r0 + P n * (V u + P n * P n * V r3') + P n * P n * (P n * P n) * k4); [lia|]. apply Z.eq_le_incl. ring. }
    clear - H H0 Z4 z3. nia. }
  rewrite <- Tot, K0. ring.
Qed.
Theorem w_squ_spec : forall k X, (1 <= k)%nat -> W X -> length X = (2 ^ k)%nat ->
  W (w_squ w X) /\ length (w_squ w X) = (2 * 2 ^ k)%nat /\ V (w_squ w X) = V X * V X.
Proof. intros. unfold w_squ. rewrite H1. apply (rec_squ_spec _ k); auto using fuel_ok. Qed.

(** A sum modulo the weight of its length. *)
Lemma w_add_mod : forall A C n, W A -> W C -> length A = n -> length C = n -> W (fst (w_add w A C)) /\ length (fst (w_add w A C)) = n /\ V (fst (w_add w A C)) = (V A + V C) mod P n.
Proof.
  intros A C n H1 H2 L1 L2. destruct (w_add_spec w A C) as (X1 & X2 & X3 & X4); auto; try lia. split; auto. split; [lia|]. rewrite L1 in X4. pose proof (V_bound w _ X1) as Bd. rewrite X2, L1 in Bd.
  apply Z.mod_unique with (snd (w_add w A C)); [lia|]. lia.
Qed.
Lemma rec_bot_spec : forall f k X Y, (1 <= k)%nat -> (k <= f + 4)%nat -> W X -> W Y -> length X = (2 ^ k)%nat -> length Y = (2 ^ k)%nat ->
  W (rec_bot w f X Y) /\ length (rec_bot w f X Y) = (2 ^ k)%nat /\ V (rec_bot w f X Y) = (V X * V Y) mod P (2 ^ k).
Proof.
  induction f; intros k X Y Hk Hf HX HY LX LY.
  { cbn [rec_bot]. rewrite LX. assert (2 ^ k <= 16)%nat by (change 16%nat with (2 ^ 4)%nat; apply Nat.pow_le_mono_r; lia). rewrite (proj2 (Nat.leb_le _ _) H). apply p_bot_spec; auto. }
  cbn [rec_bot]. rewrite LX. destruct (Nat.leb_spec (2 ^ k) 16) as [L|L]; [apply p_bot_spec; auto|].
  assert (K5 : (5 <= k)%nat). { destruct (Nat.leb_spec 5 k); auto. assert (2 ^ k <= 2 ^ 4)%nat by (apply Nat.pow_le_mono_r; lia). change (2 ^ 4)%nat with 16%nat in *. lia. }
  destruct (pow2_half k Hk) as [E1 E2]. rewrite E1. set (n := (2 ^ (k - 1))%nat) in *.
  assert (N0 : (0 < n)%nat) by (unfold n; pose proof (Nat.pow_nonzero 2 (k - 1)); lia).
  destruct (lo_spec n X HX ltac:(lia)) as [X01 X02]. destruct (hi_spec n X HX ltac:(lia)) as [X11 X12]. destruct (lo_spec n Y HY ltac:(lia)) as [Y01 Y02]. destruct (hi_spec n Y HY ltac:(lia)) as [Y11 Y12].
  destruct (rec_mul_spec f (k - 1)%nat (lo n X) (lo n Y) ltac:(lia) ltac:(lia) X01 Y01 ltac:(fold n; lia) ltac:(fold n; lia)) as (R1 & R2 & R3). fold n in R2. set (r01 := rec_mul w f (lo n X) (lo n Y)) in *.
  destruct (IHf (k - 1)%nat (hi n X) (lo n Y) ltac:(lia) ltac:(lia) X11 Y01 ltac:(fold n; lia) ltac:(fold n; lia)) as (Q1 & Q2 & Q3). fold n in Q2, Q3. set (t := rec_bot w f (hi n X) (lo n Y)) in *.
  destruct (IHf (k - 1)%nat (lo n X) (hi n Y) ltac:(lia) ltac:(lia) X01 Y11 ltac:(fold n; lia) ltac:(fold n; lia)) as (S1 & S2 & S3). fold n in S2, S3. set (u := rec_bot w f (lo n X) (hi n Y)) in *.
  clearbody r01 t u. destruct (lo_spec n r01 R1 ltac:(lia)) as [Ra Rb]. destruct (hi_spec n r01 R1 ltac:(lia)) as [Rc Rd]. pose proof (lohi n r01 ltac:(lia)) as R4. pose proof (lohi n X ltac:(lia)) as X4. pose proof (lohi n Y ltac:(lia)) as Y4.
  destruct (w_add_mod (hi n r01) t n Rc Q1 ltac:(lia) ltac:(lia)) as (a1 & a2 & a3). set (s := fst (w_add w (hi n r01) t)) in *. clearbody s.
  destruct (w_add_mod s u n a1 S1 ltac:(lia) ltac:(lia)) as (b1 & b2 & b3). set (s' := fst (w_add w s u)) in *. clearbody s'.
  cbv zeta. split; [apply W_app; auto|]. split; [rewrite app_length; lia|]. rewrite V_app, Rb, b3, a3, Q3, S3. pose proof (P_pos w n) as PN.
  pose proof (V_bound w _ Ra) as B0. rewrite Rb in B0.
  replace (P (2 ^ k)) with (P n * P n) by (rewrite <- P_add; f_equal; lia).
  rewrite !Zplus_mod_idemp_r, Zplus_mod_idemp_l.
  set (m := V (hi n r01) + V (hi n X) * V (lo n Y) + V (lo n X) * V (hi n Y)).
  apply Z.mod_unique with (m / P n + V (hi n X) * V (hi n Y)). { left. pose proof (Z.mod_pos_bound m (P n) PN). nia. }
  rewrite X4, Y4. pose proof (Z.div_mod m (P n) ltac:(lia)) as DM.
  transitivity (V (lo n X) * V (lo n Y) + P n * (V (hi n X) * V (lo n Y) + V (lo n X) * V (hi n Y)) + P n * P n * (V (hi n X) * V (hi n Y))); [ring|].
  rewrite <- R3, R4. transitivity (V (lo n r01) + P n * m + P n * P n * (V (hi n X) * V (hi n Y))); [unfold m; ring|]. rewrite DM at 1. ring.
Qed.
Theorem w_bot_spec : forall k X Y, (1 <= k)%nat -> W X -> W Y -> length X = (2 ^ k)%nat -> length Y = (2 ^ k)%nat ->
  W (w_bot w X Y) /\ length (w_bot w X Y) = (2 ^ k)%nat /\ V (w_bot w X Y) = (V X * V Y) mod P (2 ^ k).
Proof. intros. unfold w_bot. rewrite H2. apply (rec_bot_spec _ k); auto using fuel_ok. Qed.
End Rec.
