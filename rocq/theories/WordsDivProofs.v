(** Proofs about Divide and the routines it calls. *)
From Coq Require Import ZArith List Bool Arith Lia.
From Verif Require Import Base AsnModel AsnProofs WordsSpec WordsModel WordsProofs WordsMulProofs WordsRecProofs WordsAsymProofs.
Import ListNotations.
Local Open Scope Z_scope.

Lemma d32_bound be a0 a1 a2 B0 B1 Q : 0 < be -> 0 <= a0 < be -> 0 <= a1 < be -> 0 <= a2 < be -> 0 <= B0 < be -> be <= 2 * B1 -> B1 + 1 < be ->
  Q = (a2 * be + a1) / (B1 + 1) -> a0 + a1 * be + a2 * be * be < (B0 + B1 * be) * be ->
  0 <= Q < be /\ 0 <= a0 + a1 * be + a2 * be * be - Q * (B0 + B1 * be) < 4 * (B0 + B1 * be).
Proof.
  intros Hb H0 H1 H2 HB HB1 HB2 HQ Ha. assert (A2 : a2 <= B1) by nia.
  pose proof (Z.div_mod (a2 * be + a1) (B1 + 1) ltac:(lia)) as DM. rewrite <- HQ in DM. pose proof (Z.mod_pos_bound (a2 * be + a1) (B1 + 1) ltac:(lia)) as MB. set (m := (a2 * be + a1) mod (B1 + 1)) in *. clearbody m.
  assert (Q0 : 0 <= Q) by (rewrite HQ; apply Z.div_pos; nia). assert (Q1 : Q < be) by (rewrite HQ; apply Z.div_lt_upper_bound; nia). clear HQ.
  split; [lia|]. assert (E : a0 + a1 * be + a2 * be * be = a0 + be * ((B1 + 1) * Q + m)) by (rewrite <- DM; ring). rewrite E. clear Ha E DM.
  replace (a0 + be * ((B1 + 1) * Q + m) - Q * (B0 + B1 * be)) with (a0 + be * m + Q * (be - B0)) by ring. split; [nia|].
  assert (be * m <= be * B1) by nia. assert (Q * (be - B0) <= (be - 1) * be) by nia. assert ((be - 1) * be <= (2 * B1 - 1) * be) by nia. nia.
Qed.
Lemma d32_bound_pre be a0 a1 a2 B0 : 4 < be -> 0 <= a0 < be -> 0 <= a1 < be -> 0 <= a2 < be -> 0 <= B0 < be ->
  0 <= a0 + a1 * be + a2 * be * be - a2 * (B0 + (be - 1) * be) < 4 * (B0 + (be - 1) * be).
Proof.
  intros. replace (a0 + a1 * be + a2 * be * be - a2 * (B0 + (be - 1) * be)) with (a0 + a1 * be + a2 * (be - B0)) by ring. assert (0 <= a2 * (be - B0) <= (be - 1) * be) by nia. assert (0 <= a1 * be <= (be - 1) * be) by nia. nia.
Qed.
Lemma mid_mod be v : 0 < be -> (v mod (be * be)) / be = (v / be) mod be.
Proof. intros. rewrite Z.rem_mul_r by lia. rewrite (Z.mul_comm be ((v / be) mod be)), Z.div_add by lia. rewrite Z.div_small by (apply Z.mod_pos_bound; lia). lia. Qed.
Lemma low_mod be v : 0 < be -> (v mod (be * be)) mod be = v mod be.
Proof. intros. rewrite Z.rem_mul_r by lia. rewrite (Z.mul_comm be ((v / be) mod be)), Z.mod_add by lia. apply Z.mod_mod. lia. Qed.

Section Div.
Variable w : Z.
Context {Hbig : bigw w}.
Notation B := (base w).
Notation V := (wval w).
Notation W := (words w).
Notation P := (P w).

Lemma sub3 a0 a1 a2 s0 h s1 : 0 <= a0 < B -> 0 <= a1 < B -> 0 <= a2 < B -> 0 <= s0 < B -> 
  0 <= a0 + a1 * B + a2 * B * B - (s0 + B * (h + s1)) < B * B * B ->
  let u := dw w (a0 - s0) in let v := dw w (dw w (dw w (a1 - h) - as_borrow w u) - s1) in
  let r0 := lowh w u in let r1 := lowh w v in let r2 := wd w (a2 + highh w v) in
  0 <= r0 < B /\ 0 <= r1 < B /\ 0 <= r2 < B /\ r0 + r1 * B + r2 * B * B = a0 + a1 * B + a2 * B * B - (s0 + B * (h + s1)).
Proof.
  intros H0 H1 H2 Hs Hr u v r0 r1 r2. pose proof (B_big w) as HB. change (2 ^ 32) with 4294967296 in HB. assert (Bp : 0 < B) by lia.
  assert (Ev : v = (a1 - h - as_borrow w u - s1) mod (B * B)). { unfold v, dw. rewrite Zminus_mod_idemp_l. replace ((a1 - h) mod (B * B) - as_borrow w u - s1) with ((a1 - h) mod (B * B) - (as_borrow w u + s1)) by ring. rewrite Zminus_mod_idemp_l. f_equal. ring. }
  assert (Eb : as_borrow w u = b2z (a0 <? s0) /\ r0 = a0 - s0 + B * b2z (a0 <? s0)).
  { unfold r0, as_borrow, lowh, highh, u, dw. destruct (Z.ltb_spec a0 s0); cbn [b2z].
    - assert (EE : (a0 - s0) mod (B * B) = a0 - s0 + B * B) by (symmetry; apply Z.mod_unique with (-1); nia). rewrite EE.
      assert (E2 : (a0 - s0 + B * B) / B = B - 1) by (symmetry; apply Z.div_unique with (a0 - s0 + B); lia). rewrite E2. assert (E3 : (a0 - s0 + B * B) mod B = a0 - s0 + B) by (symmetry; apply Z.mod_unique with (B - 1); lia). rewrite E3.
      split; [|lia]. unfold wd. symmetry. apply Z.mod_unique with (-1); lia.
    - rewrite (Z.mod_small (a0 - s0) (B * B)) by nia. rewrite Z.div_small, Z.mod_small by lia. split; [|lia]. unfold wd. rewrite Z.mod_small; lia. }
  destruct Eb as [Eb E0]. rewrite Eb in Ev. set (bo := b2z (a0 <? s0)) in *. assert (Bb : 0 <= bo <= 1) by (unfold bo; apply b2z_range).
  assert (R0 : 0 <= r0 < B) by (apply Z.mod_pos_bound; auto). 
  set (x := a1 - h - bo - s1) in *.
  assert (E1 : r1 = x mod B) by (unfold r1, lowh; rewrite Ev; apply low_mod; auto).
  assert (E2 : r2 = (a2 + x / B) mod B). { unfold r2, wd, highh. rewrite Ev, mid_mod by auto. rewrite Zplus_mod_idemp_r. reflexivity. }
  assert (R1 : 0 <= r1 < B) by (rewrite E1; apply Z.mod_pos_bound; auto). assert (R2 : 0 <= r2 < B) by (rewrite E2; apply Z.mod_pos_bound; auto).
  split; auto. split; auto. split; auto. clearbody r0 r1 r2. clear Ev Eb u v.
  assert (Ex : x = r1 + B * (x / B)) by (rewrite E1; pose proof (Z.div_mod x B ltac:(lia)); lia). set (xd := x / B) in *. clearbody xd.
  assert (T : a0 + a1 * B + a2 * B * B - (s0 + B * (h + s1)) = r0 + r1 * B + (a2 + xd) * B * B). { transitivity (r0 + B * x + a2 * B * B); [rewrite E0; unfold x; ring|]. rewrite Ex at 1. ring. }
  rewrite T in *. assert (Hx : 0 <= a2 + xd < B) by (clear - Hr R0 R1 Bp; nia). rewrite E2, Z.mod_small by lia. reflexivity.
Qed.

Lemma d32_fix_spec B0 B1 : 0 <= B0 < B -> 0 < B1 < B -> forall fuel a0 a1 a2 Q m, 0 <= a0 < B -> 0 <= a1 < B -> 0 <= a2 < B ->
  m = (a0 + a1 * B + a2 * B * B) / (B0 + B1 * B) -> m <= Z.of_nat fuel -> 0 <= Q -> Q + m < B ->
  exists r0 r1, d32_fix w fuel a0 a1 a2 B0 B1 Q = Some (r0, r1, 0, Q + m) /\ 0 <= r0 < B /\ 0 <= r1 < B /\ r0 + r1 * B = (a0 + a1 * B + a2 * B * B) mod (B0 + B1 * B).
Proof.
  intros HB0 HB1. pose proof (B_big w) as HB. change (2 ^ 32) with 4294967296 in HB. set (D := B0 + B1 * B) in *. assert (D0 : B <= D < B * B) by (unfold D; nia). 
  induction fuel; intros a0 a1 a2 Q m H0 H1 H2 Hm Hf HQ HQm.
  - assert (Am : 0 <= m) by (rewrite Hm; apply Z.div_pos; nia). assert (m = 0) by lia. assert (LT : a0 + a1 * B + a2 * B * B < D) by (pose proof (Z.div_mod (a0 + a1 * B + a2 * B * B) D ltac:(lia)) as DM; pose proof (Z.mod_pos_bound (a0 + a1 * B + a2 * B * B) D ltac:(lia)); rewrite <- Hm, H in DM; lia).
    assert (a2 = 0) by nia. subst a2. cbn [d32_fix]. assert (C : (a1 >? B1) || (a1 =? B1) && (a0 >=? B0) = false).
    { rewrite Z.gtb_ltb, Z.geb_leb. apply orb_false_iff. split; [apply Z.ltb_ge; unfold D in LT; nia|]. destruct (Z.eqb_spec a1 B1); auto. subst a1. cbn [andb]. apply Z.leb_gt. unfold D in LT. nia. }
    rewrite Z.eqb_refl. cbn [negb orb]. rewrite C. exists a0, a1. split; [rewrite H, Z.add_0_r; reflexivity|]. split; auto. split; auto. rewrite Z.mod_small; nia.
  - cbn [d32_fix].
    destruct (negb (a2 =? 0) || (a1 >? B1) || (a1 =? B1) && (a0 >=? B0)) eqn:C.
    + assert (GE : D <= a0 + a1 * B + a2 * B * B).
      { rewrite Z.gtb_ltb, Z.geb_leb in C. apply orb_true_iff in C. destruct C as [C|C]; [apply orb_true_iff in C; destruct C as [C|C]|].
        - apply negb_true_iff, Z.eqb_neq in C. nia.
        - apply Z.ltb_lt in C. unfold D. nia.
        - apply andb_true_iff in C. destruct C as [C1 C2]. apply Z.eqb_eq in C1. apply Z.leb_le in C2. unfold D. subst a1. nia. }
      pose proof (sub3 a0 a1 a2 B0 0 B1 H0 H1 H2 HB0) as S3. replace (B0 + B * (0 + B1)) with D in S3 by (unfold D; ring). specialize (S3 ltac:(split; [lia|nia])). cbv zeta in S3.
      assert (Z0 : dw w (a1 - 0) = dw w a1) by (f_equal; lia). rewrite Z0 in S3. 
      assert (Eu : forall b, dw w (dw w (dw w a1 - b) - B1) = dw w (dw w (a1 - B1) - b)). { intros. unfold dw. rewrite !Zminus_mod_idemp_l. f_equal. replace (a1 mod (B * B) - b - B1) with (a1 mod (B * B) - (b + B1)) by ring. replace ((a1 mod (B * B) - (b + B1))) with (a1 mod (B * B) + (- (b + B1))) by ring. apply (f_equal (fun x => x mod (B * B))) || idtac. rewrite (Z.mod_small a1 (B * B)) by nia. ring. }
      rewrite Eu in S3. destruct S3 as (s0 & s1 & s2 & s3).
      set (x0 := lowh w (dw w (a0 - B0))) in *. set (x1 := lowh w (dw w (dw w (a1 - B1) - as_borrow w (dw w (a0 - B0))))) in *. set (x2 := wd w (a2 + highh w (dw w (dw w (a1 - B1) - as_borrow w (dw w (a0 - B0)))))) in *. clearbody x0 x1 x2.
      assert (Em : (x0 + x1 * B + x2 * B * B) / D = m - 1). { rewrite s3, Hm. replace (a0 + a1 * B + a2 * B * B - D) with (a0 + a1 * B + a2 * B * B + (-1) * D) by ring. rewrite Z.div_add by lia. lia. }
      assert (Er : (x0 + x1 * B + x2 * B * B) mod D = (a0 + a1 * B + a2 * B * B) mod D). { rewrite s3. replace (a0 + a1 * B + a2 * B * B - D) with (a0 + a1 * B + a2 * B * B + (-1) * D) by ring. apply Z.mod_add. lia. }
      assert (0 <= m - 1) by (rewrite <- Em; apply Z.div_pos; nia).
      rewrite (wd_small w (Q + 1)) by lia.
      destruct (IHfuel x0 x1 x2 (Q + 1) (m - 1)) as (r0 & r1 & R1 & R2 & R3 & R4); auto; try lia.
      exists r0, r1. rewrite R1. split; [do 2 f_equal; lia|]. split; auto. split; auto. rewrite R4. auto.
    + apply orb_false_iff in C. destruct C as [C C3]. apply orb_false_iff in C. destruct C as [C1 C2]. apply negb_false_iff, Z.eqb_eq in C1. subst a2. rewrite Z.gtb_ltb in C2. apply Z.ltb_ge in C2.
      assert (LT : a0 + a1 * B + 0 * B * B < D). { destruct (Z.eqb_spec a1 B1); cbn [andb] in C3. - rewrite Z.geb_leb in C3. apply Z.leb_gt in C3. unfold D. nia. - unfold D. nia. }
      assert (m = 0) by (rewrite Hm; apply Z.div_small; nia). exists a0, a1. split; [rewrite H, Z.add_0_r; reflexivity|]. split; auto. split; auto. rewrite Z.mod_small; nia.
Qed.

(** DivideThreeWordsByTwo with a normalised divisor. *)
Lemma d32_spec fuel a0 a1 a2 B0 B1 : (3 <= fuel)%nat -> 0 <= a0 < B -> 0 <= a1 < B -> 0 <= a2 < B -> 0 <= B0 < B -> 0 <= B1 < B -> B <= 2 * B1 ->
  a0 + a1 * B + a2 * B * B < (B0 + B1 * B) * B ->
  exists r0 r1 q, d32 w fuel a0 a1 a2 B0 B1 = Some (r0, r1, 0, q) /\ 0 <= r0 < B /\ 0 <= r1 < B /\ 0 <= q < B /\
    q = (a0 + a1 * B + a2 * B * B) / (B0 + B1 * B) /\ r0 + r1 * B = (a0 + a1 * B + a2 * B * B) mod (B0 + B1 * B).
Proof.
  intros Hf H0 H1 H2 HB0 HB1 HN Ha. pose proof (B_big w) as HB. change (2 ^ 32) with 4294967296 in HB. unfold d32.
  set (Q := if (B1 >? 0) && negb (wd w (B1 + 1) =? 0) then wd w ((a2 * B + a1) / wd w (B1 + 1)) else if wd w (B1 + 1) =? 0 then a2 else wd w ((a1 * B + a0) / B0)).
  set (D := B0 + B1 * B) in *. assert (D0 : B <= D) by (unfold D; nia). set (a := a0 + a1 * B + a2 * B * B) in *.
  assert (HQ : 0 <= Q < B /\ 0 <= a - Q * D < 4 * D).
  { unfold Q. rewrite Z.gtb_ltb. destruct (Z.ltb_spec 0 B1); [|lia]. cbn [andb]. destruct (Z.eq_dec (B1 + 1) B).
    - assert (E : wd w (B1 + 1) = 0) by (unfold wd; rewrite e; apply Z.mod_same; lia). rewrite E. cbn [Z.eqb negb]. split; auto. assert (EB : B1 = B - 1) by lia. unfold a, D. rewrite EB. apply d32_bound_pre; auto; lia.
    - rewrite (wd_small w (B1 + 1)) by lia. destruct (Z.eqb_spec (B1 + 1) 0); [lia|]. cbn [negb].
      destruct (d32_bound B a0 a1 a2 B0 B1 _ ltac:(lia) H0 H1 H2 HB0 HN ltac:(lia) eq_refl Ha) as [X1 X2]. rewrite wd_small by lia. auto. }
  destruct HQ as [Q1 Q2]. clearbody Q.
  assert (DB : D < B * B) by (unfold D; nia).
  assert (Pl : B0 * Q = lowh w (B0 * Q) + B * highh w (B0 * Q)) by (unfold lowh, highh; pose proof (Z.div_mod (B0 * Q) B ltac:(lia)); lia).
  pose proof (sub3 a0 a1 a2 (lowh w (B0 * Q)) (highh w (B0 * Q)) (B1 * Q) H0 H1 H2 ltac:(apply Z.mod_pos_bound; lia)) as S3.
  assert (EQD : lowh w (B0 * Q) + B * (highh w (B0 * Q) + B1 * Q) = Q * D) by (transitivity (lowh w (B0 * Q) + B * highh w (B0 * Q) + B * (B1 * Q)); [ring|]; rewrite <- Pl; unfold D; ring).
  rewrite EQD in S3. clear EQD.
  fold a in S3. specialize (S3 ltac:(split; [lia|nia])). cbv zeta in S3. destruct S3 as (s0 & s1 & s2 & s3).
  set (x0 := lowh w (dw w (a0 - lowh w (B0 * Q)))) in *. 
  set (v := dw w (dw w (dw w (a1 - highh w (B0 * Q)) - as_borrow w (dw w (a0 - lowh w (B0 * Q)))) - B1 * Q)) in *. cbv zeta. fold x0. fold v. set (x1 := lowh w v) in *. set (x2 := wd w (a2 + highh w v)) in *. clearbody x0 x1 x2.
  assert (Em : (x0 + x1 * B + x2 * B * B) / D = a / D - Q). { rewrite s3. replace (a - Q * D) with (a + (- Q) * D) by ring. rewrite Z.div_add by lia. lia. }
  assert (Er : (x0 + x1 * B + x2 * B * B) mod D = a mod D). { rewrite s3. replace (a - Q * D) with (a + (- Q) * D) by ring. apply Z.mod_add. lia. }
  assert (L4 : (x0 + x1 * B + x2 * B * B) / D < 4) by (apply Z.div_lt_upper_bound; lia).
  assert (LB : a / D < B) by (apply Z.div_lt_upper_bound; lia). assert (L0 : 0 <= a / D) by (apply Z.div_pos; unfold a; nia).
  destruct (d32_fix_spec B0 B1 HB0 ltac:(lia) fuel x0 x1 x2 Q _ s0 s1 s2 eq_refl) as (r0 & r1 & R1 & R2 & R3 & R4); fold D; try lia.
  exists r0, r1, (a / D). fold D in R1, R4. rewrite R1. split; [do 2 f_equal; lia|]. split; auto. split; auto. split; [lia|]. split; auto. rewrite R4. auto.
Qed.

(** AtomicDivide: the divisor is one more than a normalised two-word value, stored modulo the two-word range. *)
Lemma atomic_divide_spec fuel a0 a1 a2 a3 b0 b1 tb : (3 <= fuel)%nat -> 0 <= a0 < B -> 0 <= a1 < B -> 0 <= a2 < B -> 0 <= a3 < B -> 0 <= b0 < B -> 0 <= b1 < B ->
  B * B <= 2 * tb -> tb < B * B -> b0 + b1 * B = (tb + 1) mod (B * B) -> a2 + a3 * B <= tb ->
  exists q0 q1, atomic_divide w fuel [a0; a1; a2; a3] [b0; b1] = Some (q0, q1) /\ 0 <= q0 < B /\ 0 <= q1 < B /\
    q0 + q1 * B = (a0 + a1 * B + (a2 + a3 * B) * B * B) / (tb + 1).
Proof.
  intros Hf H0 H1 H2 H3 Hb0 Hb1 HN HT Eb Ha. pose proof (B_big w) as HB. change (2 ^ 32) with 4294967296 in HB. unfold atomic_divide, at_. cbn [nth].
  destruct (Z.eq_dec (tb + 1) (B * B)) as [ET|ET].
  - rewrite ET, Z.mod_same in Eb by nia. assert (b0 = 0 /\ b1 = 0) as [-> ->] by nia. cbn [Z.eqb andb]. exists a2, a3. split; auto. split; auto. split; auto. rewrite ET.
    apply Z.div_unique with (a0 + a1 * B); [nia|]. ring.
  - rewrite Z.mod_small in Eb by lia. assert (Hb1n : B <= 2 * b1).
    { assert (0 <= b1) by lia. assert (Ev : exists h, B = 2 * h) by (exists (2 ^ (w - 1)); unfold base; rewrite <- (Z.pow_1_r 2) at 2; rewrite <- Z.pow_add_r; pose proof (Hw w); try lia; f_equal; lia). destruct Ev as [h Eh]. destruct (Z_le_gt_dec h b1); [lia|]. exfalso. assert (b1 * B <= (h - 1) * B) by (apply Z.mul_le_mono_nonneg_r; lia). assert (B * B = 2 * (h * B)) by (rewrite Eh at 1; ring). lia. }
    assert (Z0 : (b0 =? 0) && (b1 =? 0) = false) by (destruct (Z.eqb_spec b1 0); [lia|]; apply andb_false_r). rewrite Z0.
    destruct (d32_spec fuel a1 a2 a3 b0 b1 Hf H1 H2 H3 Hb0 Hb1 Hb1n) as (r0 & r1 & q1 & R1 & R2 & R3 & R4 & R5 & R6). { rewrite Eb. nia. }
    rewrite R1. rewrite Eb in R5, R6. pose proof (Z.mod_pos_bound (a1 + a2 * B + a3 * B * B) (tb + 1) ltac:(nia)) as MB. rewrite <- R6 in MB.
    destruct (d32_spec fuel a0 r0 r1 b0 b1 Hf H0 R2 R3 Hb0 Hb1 Hb1n) as (s0 & s1 & q0 & S1 & S2 & S3 & S4 & S5 & S6). { rewrite Eb. nia. }
    rewrite S1. exists q0, q1. split; auto. split; auto. split; auto. rewrite Eb in S5, S6.
    pose proof (Z.div_mod (a1 + a2 * B + a3 * B * B) (tb + 1) ltac:(nia)) as D1. rewrite <- R5, <- R6 in D1.
    pose proof (Z.div_mod (a0 + r0 * B + r1 * B * B) (tb + 1) ltac:(nia)) as D2. pose proof (Z.mod_pos_bound (a0 + r0 * B + r1 * B * B) (tb + 1) ltac:(nia)) as M2. rewrite <- S5 in D2.
    apply Z.div_unique with ((a0 + r0 * B + r1 * B * B) mod (tb + 1)); [left; auto|].
    transitivity (a0 + B * (a1 + a2 * B + a3 * B * B)); [ring|]. rewrite D1. transitivity ((tb + 1) * q1 * B + (a0 + r0 * B + r1 * B * B)); [ring|]. rewrite D2 at 1. ring.
Qed.
(** ** The long division *)
Lemma win_shape N R : W R -> length R = (N + 2)%nat -> V R < P N * B -> exists r x, R = r ++ [x; 0] /\ length r = N /\ W r /\ 0 <= x < B /\ V R = V r + P N * x.
Proof.
  intros HR LR HV. exists (firstn N R), (at_ R N). pose proof (V_firstn_skipn w N R ltac:(lia)) as E. assert (LS : length (skipn N R) = 2%nat) by (rewrite skipn_length; lia). pose proof (W_skipn w N R HR) as WS.
  assert (AT : at_ R N = at_ (skipn N R) 0) by (unfold at_; rewrite nth_skipn_add, Nat.add_0_r; reflexivity). rewrite AT. rewrite <- (firstn_skipn N R) at 1.
  destruct (skipn N R) as [|x [|y [|]]] eqn:S; try discriminate. unfold at_. cbn [nth]. apply W_cons in WS. destruct WS as [Bx WS]. apply W_cons in WS. destruct WS as [By _].
  pose proof (V_bound w _ (W_firstn w N R HR)) as Bd. rewrite !V_cons, V_nil in E. pose proof (P_pos w N). assert (y = 0). { destruct (Z.eq_dec y 0); auto. exfalso. assert (0 <= P N * x) by (apply Z.mul_nonneg_nonneg; lia). assert (P N * B * 1 <= P N * B * y) by (apply Z.mul_le_mono_nonneg_l; [apply Z.mul_nonneg_nonneg; lia|lia]). lia. } subst y.
  split; [auto|]. split; [rewrite firstn_length; lia|]. split; [apply W_firstn; auto|]. split; auto. lia.
Qed.
Lemma V_two r x : V (r ++ [x; 0]) = V r + P (length r) * x.
Proof. rewrite V_app, !V_cons, V_nil. lia. Qed.
Lemma W_two r x : W r -> 0 <= x < B -> W (r ++ [x; 0]).
Proof. intros. apply W_app. split; auto. apply W_cons. split; auto. apply W_cons. split; [pose proof (B_pos w); lia|apply W_nil]. Qed.
Lemma cmp_win r x TB : W r -> W TB -> length r = length TB -> 0 <= x < B -> (negb (x =? 0) || (w_cmp (r ++ [x; 0]) TB (length TB) >=? 0)) = (V TB <=? V r + P (length TB) * x).
Proof.
  intros. pose proof (V_bound w _ H0) as B0. pose proof (V_bound w _ H) as B1. pose proof (P_pos w (length TB)).
  rewrite (w_cmp_spec w) by (try (apply W_two; auto); auto; rewrite ?app_length; cbn [length]; lia). rewrite fa_eq by auto. rewrite (firstn_all2 TB) by lia.
  destruct (Z.eqb_spec x 0); cbn [negb orb].
  - subst x. rewrite Z.mul_0_r, Z.add_0_r. destruct (Z.compare_spec (V r) (V TB)); destruct (Z.leb_spec (V TB) (V r)); cbn; lia || reflexivity.
  - symmetry. apply Z.leb_le. nia.
Qed.
Lemma sub_win r x TB : W r -> W TB -> length r = length TB -> 0 <= x < B -> V TB <= V r + P (length TB) * x ->
  let '(y, k) := w_sub w r TB in W y /\ length y = length TB /\ 0 <= x - k < B /\ V y + P (length TB) * (x - k) = V r + P (length TB) * x - V TB.
Proof.
  intros Hr HT L Hx H. destruct (w_sub_spec w r TB Hr HT L) as (a1 & a2 & a3 & a4). pose proof (w_sub_borrow w r TB Hr HT L) as BR. destruct (w_sub w r TB) as [y k]. cbn [fst snd] in *.
  split; auto. split; [lia|]. rewrite L in a4. split; [|nia]. destruct (Z.ltb_spec (V r) (V TB)); cbn [b2z] in BR; [|lia]. assert (x <> 0) by nia. lia.
Qed.
Lemma correct_loop_spec TB : W TB -> 0 < V TB -> forall fuel r x q0 q1 m, W r -> length r = length TB -> 0 <= x < B -> 0 <= q0 < B -> 0 <= q1 < B ->
  m = (V r + P (length TB) * x) / V TB -> m <= Z.of_nat fuel -> q0 + q1 * B + m < B * B ->
  exists r' q0' q1', correct_loop w fuel (r ++ [x; 0]) TB q0 q1 = Some (r' ++ [0; 0], q0', q1') /\ W r' /\ length r' = length TB /\ 0 <= q0' < B /\ 0 <= q1' < B /\
    q0' + q1' * B = q0 + q1 * B + m /\ V r' = (V r + P (length TB) * x) mod V TB.
Proof.
  intros HT T0. pose proof (V_bound w _ HT) as BT. pose proof (P_pos w (length TB)) as PP. pose proof (B_big w) as HB. change (2 ^ 32) with 4294967296 in HB. set (N := length TB) in *.
  induction fuel; intros r x q0 q1 m Hr Lr Hx H0 H1 Hm Hf HQ; cbn [correct_loop]; fold N.
  - pose proof (V_bound w _ Hr) as Br. assert (0 <= m) by (rewrite Hm; apply Z.div_pos; nia). assert (m = 0) by lia.
    assert (LT : V r + P N * x < V TB) by (pose proof (Z.div_mod (V r + P N * x) (V TB) ltac:(lia)) as DM; pose proof (Z.mod_pos_bound (V r + P N * x) (V TB) T0); rewrite <- Hm in DM; nia).
    assert (AT : at_ (r ++ [x; 0]) N = x) by (unfold at_; rewrite app_nth2 by lia; rewrite Lr, Nat.sub_diag; reflexivity). rewrite AT.
    unfold N. rewrite (cmp_win r x TB) by auto. fold N. destruct (Z.leb_spec (V TB) (V r + P N * x)); [lia|]. assert (x = 0) by nia. subst x.
    exists r, q0, q1. split; auto. split; auto. split; auto. split; auto. split; auto. split; [lia|]. rewrite Z.mod_small; lia.
  - pose proof (V_bound w _ Hr) as Br.
    assert (AT : at_ (r ++ [x; 0]) N = x) by (unfold at_; rewrite app_nth2 by lia; rewrite Lr, Nat.sub_diag; reflexivity). rewrite AT.
    unfold N at 1. rewrite (cmp_win r x TB) by auto. fold N. destruct (Z.leb_spec (V TB) (V r + P N * x)) as [LE|LT].
    + unfold lo, hi. rewrite fa_eq, sa_eq by auto. pose proof (sub_win r x TB Hr HT Lr Hx LE) as SW. destruct (w_sub w r TB) as [y k]. destruct SW as (y1 & y2 & y3 & y4). fold N in y2, y4.
      assert (EU : upd N (wd w (x - k)) (y ++ [x; 0]) = y ++ [x - k; 0]). { rewrite wd_small by lia. clear - y2. revert y2. generalize N. induction y; intros n <-; cbn [length app upd]; auto. f_equal. apply IHy. reflexivity. }
      rewrite EU.
      assert (Em : (V y + P N * (x - k)) / V TB = m - 1). { rewrite y4, Hm. replace (V r + P N * x - V TB) with (V r + P N * x + (-1) * V TB) by ring. rewrite Z.div_add by lia. lia. }
      assert (Er : (V y + P N * (x - k)) mod V TB = (V r + P N * x) mod V TB). { rewrite y4. replace (V r + P N * x - V TB) with (V r + P N * x + (-1) * V TB) by ring. apply Z.mod_add. lia. }
      pose proof (V_bound w _ y1) as By. assert (0 <= m - 1) by (rewrite <- Em; apply Z.div_pos; nia).
      assert (EQ : 0 <= wd w (q0 + 1) < B /\ 0 <= wd w (q1 + b2z (wd w (q0 + 1) =? 0)) < B /\ wd w (q0 + 1) + wd w (q1 + b2z (wd w (q0 + 1) =? 0)) * B = q0 + q1 * B + 1).
      { destruct (Z.eq_dec (q0 + 1) B) as [E|E].
        - assert (E1 : wd w (q0 + 1) = 0) by (unfold wd; rewrite E; apply Z.mod_same; lia). rewrite E1. cbn [Z.eqb b2z]. rewrite (wd_small w (q1 + 1)) by nia. split; [lia|]. split; nia.
        - rewrite (wd_small w (q0 + 1)) by lia. destruct (Z.eqb_spec (q0 + 1) 0); [lia|]. cbn [b2z]. rewrite Z.add_0_r, (wd_small w q1) by lia. split; [lia|]. split; lia. }
      destruct EQ as (E1 & E2 & E3).
      destruct (IHfuel y (x - k) _ _ (m - 1) y1 y2 y3 E1 E2 ltac:(lia) ltac:(lia) ltac:(lia)) as (r' & q0' & q1' & R1 & R2 & R3 & R4 & R5 & R6 & R7).
      exists r', q0', q1'. rewrite R1. split; auto. split; auto. split; auto. split; auto. split; auto. split; [lia|]. rewrite R7. auto.
    + assert (x = 0) by nia. subst x. assert (m = 0) by (rewrite Hm; apply Z.div_small; lia). exists r, q0, q1. split; auto. split; auto. split; auto. split; auto. split; auto. split; [lia|]. rewrite Z.mod_small; lia.
Qed.
Lemma correct_estimate_spec fuel R TB q0 q1 n : (3 <= fuel)%nat -> (1 <= n)%nat -> W R -> W TB -> length TB = (2 * n)%nat -> length R = (2 * n + 2)%nat -> 0 < V TB -> 0 <= q0 < B -> 0 <= q1 < B ->
  0 <= V R - (q0 + q1 * B) * V TB < 4 * V TB -> V R < V TB * (B * B) ->
  exists r q0' q1', correct_estimate w fuel R TB q0 q1 = Some (r ++ [0; 0], q0', q1') /\ W r /\ length r = (2 * n)%nat /\ 0 <= q0' < B /\ 0 <= q1' < B /\
    q0' + q1' * B = V R / V TB /\ V r = V R mod V TB.
Proof.
  intros Hf Hn HR HT LT LR T0 H0 H1 He Hr. pose proof (B_big w) as HB. change (2 ^ 32) with 4294967296 in HB. unfold correct_estimate.
  assert (WQ : W [q0; q1]) by (repeat (apply W_cons; split; auto); apply W_nil).
  destruct (w_asym_spec w 1 n false [q0; q1] TB ltac:(lia) Hn WQ HT ltac:(discriminate)) as (M1 & M2 & M3). { left. split; auto. }
  set (T := w_asym w false [q0; q1] TB) in *. clearbody T. cbn [length] in M2. rewrite !V_cons, V_nil, Z.mul_0_r, Z.add_0_r in M3. rewrite (Z.mul_comm B q1) in M3.
  destruct (w_sub_spec w R T HR M1 ltac:(lia)) as (s1 & s2 & _ & _). destruct (w_sub_exact w R T HR M1 ltac:(lia) ltac:(lia)) as [s3 _]. destruct (w_sub w R T) as [x bo]. cbn [fst snd] in *.
  pose proof (V_bound w _ HT) as BT. rewrite LT in BT.
  destruct (win_shape (2 * n) x s1 ltac:(lia)) as (r & y & E1 & E2 & E3 & E4 & E5). { rewrite s3, M3. pose proof (P_pos w (2 * n)). nia. }
  subst x. rewrite s3, M3 in E5.
  assert (Em : (V r + P (2 * n) * y) / V TB = V R / V TB - (q0 + q1 * B)). { rewrite <- E5. replace (V R - (q0 + q1 * B) * V TB) with (V R + (- (q0 + q1 * B)) * V TB) by ring. rewrite Z.div_add by lia. lia. }
  assert (Er : (V r + P (2 * n) * y) mod V TB = V R mod V TB). { rewrite <- E5. replace (V R - (q0 + q1 * B) * V TB) with (V R + (- (q0 + q1 * B)) * V TB) by ring. apply Z.mod_add. lia. }
  assert (L4 : (V r + P (2 * n) * y) / V TB < 4) by (rewrite <- E5; apply Z.div_lt_upper_bound; lia).
  assert (LB : V R / V TB < B * B) by (apply Z.div_lt_upper_bound; lia).
  rewrite <- LT in Em, Er, L4.
  destruct (correct_loop_spec TB HT T0 fuel r y q0 q1 _ E3 ltac:(lia) E4 H0 H1 eq_refl ltac:(lia) ltac:(lia)) as (r' & q0' & q1' & R1 & R2 & R3 & R4 & R5 & R6 & R7).
  exists r', q0', q1'. split; auto. split; auto. split; [lia|]. split; auto. split; auto. split; [lia|]. rewrite R7. auto.
Qed.

(** One step: the estimate from the top four words and its correction. *)
Lemma est_bound X A4 r' tb b' q : 0 < X -> 0 <= r' < X -> 0 <= b' < X -> 0 < tb -> 0 <= A4 -> q = A4 / (tb + 1) -> q <= 2 * tb ->
  0 <= A4 * X + r' - q * (tb * X + b') < 4 * (tb * X + b').
Proof.
  intros HX Hr Hb Ht HA Hq HQ. pose proof (Z.div_mod A4 (tb + 1) ltac:(lia)) as DM. pose proof (Z.mod_pos_bound A4 (tb + 1) ltac:(lia)) as MB. rewrite <- Hq in DM. assert (Q0 : 0 <= q) by (rewrite Hq; apply Z.div_pos; lia). set (m := A4 mod (tb + 1)) in *. clearbody m.
  assert (E : A4 * X + r' - q * (tb * X + b') = m * X + r' + q * (X - b')) by (rewrite DM; ring). rewrite E. clear E. split; [nia|].
  assert (m * X <= tb * X) by nia. assert (q * (X - b') <= (2 * tb) * X) by nia. assert (X <= tb * X) by nia. lia.
Qed.
End Div.
