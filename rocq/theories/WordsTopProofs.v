(** Proofs about the high half of a product and the product of operands of different sizes. *)
From Coq Require Import ZArith List Bool Arith Lia.
From Verif Require Import Base AsnModel AsnProofs WordsSpec WordsModel WordsProofs WordsMulProofs WordsRecProofs.
Import ListNotations.
Local Open Scope Z_scope.

Section Top.
Variable w : Z.
Context {Hbig : bigw w}.
Notation B := (base w).
Notation V := (wval w).
Notation W := (words w).
Notation P := (P w).

Lemma top_low p Tot L0 L1 x0 c1 c2 c3 : 0 < p -> 0 <= L0 < p -> 0 <= x0 < p -> Tot = x0 + p * c1 + p * p * c2 + p * p * p * c3 -> L0 + p * L1 = Tot mod (p * p) ->
  L0 = x0 /\ exists q, c1 = L1 + p * q.
Proof.
  intros Hp B0 Bx E EL. pose proof (Z.div_mod Tot (p * p) ltac:(nia)) as DM. rewrite <- EL in DM. set (Q := Tot / (p * p)) in *. clearbody Q.
  assert (H0 : L0 = x0).
  { assert (G : L0 mod p = x0 mod p) by (replace L0 with (x0 + (c1 + p * c2 + p * p * c3 - L1 - p * Q) * p) by (rewrite E in DM; lia); apply Z.mod_add; lia). rewrite !Z.mod_small in G by lia. auto. }
  split; auto. exists (Q - c2 - p * c3). rewrite H0, E in DM. apply (Z.mul_reg_l _ _ p); lia.
Qed.
Lemma hi_len (n : nat) (l : list Z) : length l = (2 * n)%nat -> length (hi n l) = (length l - n)%nat -> length (hi n l) = n.
Proof. lia. Qed.
Lemma quot_bit p t2 r0 x1 d : 0 < p -> 0 <= t2 < p -> 0 <= r0 < p -> 0 <= x1 < p -> t2 = x1 + r0 - p * d -> (d = 0 /\ r0 <= t2) \/ (d = 1 /\ t2 < r0).
Proof. intros. assert (d = 0 \/ d = 1) as [->| ->] by nia; [left|right]; lia. Qed.

(** MultiplyTop: given the low half, the high half of the product. *)
Theorem w_top_spec : forall k L X Y, (1 <= k)%nat -> W X -> W Y -> W L -> length X = (2 ^ k)%nat -> length Y = (2 ^ k)%nat -> length L = (2 ^ k)%nat ->
  V L = (V X * V Y) mod P (2 ^ k) ->
  W (w_top w L X Y) /\ length (w_top w L X Y) = (2 ^ k)%nat /\ V (w_top w L X Y) = (V X * V Y) / P (2 ^ k).
Proof.
  intros k L X Y Hk HX HY HL LX LY LL EL. unfold w_top. rewrite LX. set (N := (2 ^ k)%nat) in *.
  assert (N0 : (0 < N)%nat) by (unfold N; pose proof (Nat.pow_nonzero 2 k); lia).
  destruct (Nat.leb_spec N 16) as [Sm|Sm].
  { apply p_top_spec; auto. replace (at_ L (N - 1)) with (V L / P (N - 1)).
    - rewrite EL. fold N. replace (P N) with (P (S (N - 1))) by (f_equal; lia). rewrite (P_S w). rewrite (Z.mul_comm B). pose proof (P_pos w (N - 1)). pose proof (B_pos w).
      rewrite Z.rem_mul_r by lia. rewrite (Z.mul_comm (P (N - 1))), Z.div_add by lia. rewrite Z.div_small by (apply Z.mod_pos_bound; lia). reflexivity.
    - rewrite (V_split1 w (N - 1) L) by lia. rewrite (Z.mul_comm (P (N - 1))), Z.div_add by (pose proof (P_pos w (N - 1)); lia).
      rewrite Z.div_small; [lia|]. pose proof (V_bound w (firstn (N - 1) L) (W_firstn w _ _ HL)) as Q. rewrite firstn_length, Nat.min_l in Q by lia. auto. }
  assert (K5 : (5 <= k)%nat). { destruct (Nat.leb_spec 5 k); auto. assert (2 ^ k <= 2 ^ 4)%nat by (apply Nat.pow_le_mono_r; lia). change (2 ^ 4)%nat with 16%nat in *. lia. }
  destruct (pow2_half k Hk) as [E1 E2]. cbv zeta. set (n := (2 ^ (k - 1))%nat) in *. fold N in E1, E2. rewrite E1. assert (n0 : (0 < n)%nat) by lia.
  destruct (abs_diff_spec w n X HX ltac:(lia)) as (A1 & A2 & A3 & A4). destruct (abs_diff_spec w n Y HY ltac:(lia)) as (D1 & D2 & D3 & D4).
  destruct (abs_diff w n X) as [da fa]. destruct (abs_diff w n Y) as [db fb]. cbn [fst snd] in *.
  destruct (lo_spec w n X HX ltac:(lia)) as [X01 X02]. destruct (hi_spec w n X HX ltac:(lia)) as [X11 X12]. destruct (lo_spec w n Y HY ltac:(lia)) as [Y01 Y02]. destruct (hi_spec w n Y HY ltac:(lia)) as [Y11 Y12].
  destruct (w_mul_spec w (k - 1)%nat da db ltac:(lia) A1 D1 ltac:(fold n; lia) ltac:(fold n; lia)) as (T1 & T2 & T3). fold n in T2. set (t := w_mul w da db) in *.
  destruct (w_mul_spec w (k - 1)%nat (hi n X) (hi n Y) ltac:(lia) X11 Y11 ltac:(fold n; lia) ltac:(fold n; lia)) as (R1 & R2 & R3). fold n in R2. set (r := w_mul w (hi n X) (hi n Y)) in *.
  clearbody t r. destruct (lo_spec w n t T1 ltac:(lia)) as [Ta Tb]. destruct (hi_spec w n t T1 ltac:(lia)) as [Tc Td]. destruct (lo_spec w n r R1 ltac:(lia)) as [Ra Rb]. destruct (hi_spec w n r R1 ltac:(lia)) as [Rc Rd].
  destruct (lo_spec w n L HL ltac:(lia)) as [La Lb]. destruct (hi_spec w n L HL ltac:(lia)) as [Lc Ld].
  apply hi_len in Td; [|exact T2]. apply hi_len in Rd; [|exact R2]. apply hi_len in Ld; [|lia].
  pose proof (lohi w n t ltac:(lia)) as T4. pose proof (lohi w n r ltac:(lia)) as R4. pose proof (lohi w n X ltac:(lia)) as X4. pose proof (lohi w n Y ltac:(lia)) as Y4. pose proof (lohi w n L ltac:(lia)) as L4.
  set (t0 := lo n t) in *. set (t1 := hi n t) in *. set (r0 := lo n r) in *. set (r1 := hi n r) in *. set (L0 := lo n L) in *. set (L1 := hi n L) in *. clearbody t0 t1 r0 r1 L0 L1.
  pose proof (diff_prod (V (lo n X)) (V (hi n X)) (V (lo n Y)) (V (hi n Y))) as DP. rewrite <- A3, <- D3, <- A4, <- D4, <- T3 in DP.
  pose proof (V_bound w _ X01) as BX0. pose proof (V_bound w _ X11) as BX1. pose proof (V_bound w _ Y01) as BY0. pose proof (V_bound w _ Y11) as BY1.
  set (X0 := V (lo n X)) in *. set (X1 := V (hi n X)) in *. set (Y0 := V (lo n Y)) in *. set (Y1 := V (hi n Y)) in *.
  clearbody X0 X1 Y0 Y1.
  assert (PP : P N = P n * P n) by (rewrite E2; replace (2 * n)%nat with (n + n)%nat by lia; apply P_add). pose proof (P_pos w n) as PN.
  pose proof (B_big w) as HB. change (2 ^ 32) with 4294967296 in HB.
  set (sg := if Bool.eqb fa fb then 1 else -1) in *.
  (* x1 is the high half of X0*Y0 *)
  set (x0 := (X0 * Y0) mod P n). set (x1 := (X0 * Y0) / P n). assert (Ex : X0 * Y0 = x0 + P n * x1) by (unfold x0, x1; rewrite (Z.div_mod (X0 * Y0) (P n)) at 1 by lia; ring).
  assert (Bx0 : 0 <= x0 < P n) by (apply Z.mod_pos_bound; auto). assert (Bx1 : 0 <= x1 < P n). { rewrite X02 in BX0. rewrite Y02 in BY0. unfold x1. clear - BX0 BY0 PN. split; [apply Z.div_pos; nia|apply Z.div_lt_upper_bound; nia]. }
  assert (Mid : X0 * Y1 + X1 * Y0 = x0 + P n * x1 + (V r0 + P n * V r1) - sg * (V t0 + P n * V t1)) by (rewrite <- Ex, <- R4, <- T4, R3, <- DP; ring).
  set (Tot := V X * V Y) in *.
  assert (TotE : Tot = x0 + P n * (x1 + x0 + V r0 - sg * V t0) + P n * P n * (x1 + V r1 - sg * V t1 + V r0) + P n * P n * P n * V r1).
  { unfold Tot. rewrite X4, Y4. transitivity (X0 * Y0 + P n * (X0 * Y1 + X1 * Y0) + P n * P n * (X1 * Y1)); [ring|]. rewrite Mid, <- R3, R4, Ex. ring. }
  pose proof (V_bound w _ La) as BL0. pose proof (V_bound w _ Lc) as BL1. rewrite Lb in BL0. rewrite Ld in BL1.
  rewrite PP, L4 in EL. destruct (top_low _ _ _ _ _ _ _ _ PN BL0 Bx0 TotE EL) as [EL0 [q Eq]].
  destruct (w_sub_spec w L1 L0) as (a1 & a2 & a3 & a4); auto; try lia. destruct (w_sub w L1 L0) as [s c2]. cbn [fst snd] in *. rewrite Ld in a4.
  pose proof (V_bound w _ Ra) as Br0. pose proof (V_bound w _ Rc) as Br1. pose proof (V_bound w _ Ta) as Bt0. pose proof (V_bound w _ Tc) as Bt1. rewrite Rb in Br0. rewrite Tb in Bt0. rewrite Rd in Br1. rewrite Td in Bt1.
  (* the middle column *)
  assert (Step : exists u c2' c3 c, (if Bool.eqb fa fb then let '(t2, k0) := w_add w s t0 in let '(t3, k') := w_sub w t2 t1 in (t3, c2 - k0, b2z (w_cmp t2 r0 n =? -1) - k', b2z (w_cmp t2 r0 n =? -1))
      else let '(t2, k0) := w_sub w s t0 in let '(t3, k') := w_add w t2 t1 in (t3, c2 + k0, b2z (w_cmp t2 r0 n =? -1) + k', b2z (w_cmp t2 r0 n =? -1))) = (u, c2', c3, c) /\
     W u /\ length u = n /\ c2' + c = q /\ -2 <= q <= 3 /\ -1 <= c3 <= 2 /\ V u + P n * c3 = V r0 + x1 - sg * V t1).
  { assert (Core : forall t2 c2', W t2 -> length t2 = n -> V L1 - V L0 + sg * V t0 = V t2 - P n * c2' -> c2' + b2z (w_cmp t2 r0 n =? -1) = q /\ V t2 = V r0 + x1 - P n * b2z (w_cmp t2 r0 n =? -1)).
    { intros t2 c2' W2 LL2 E. rewrite (w_cmp_full' w) by (auto; lia). pose proof (V_bound w _ W2) as B2. rewrite LL2 in B2.
      assert (G : V t2 = x1 + V r0 - P n * (q - c2')) by (clear - E Eq EL0; rewrite Z.mul_sub_distr_l; lia).
      destruct (quot_bit _ _ _ _ _ PN B2 Br0 Bx1 G) as [[Q2 Q3]|[Q2 Q3]]; rewrite Q2 in G; destruct (Z.compare_spec (V t2) (V r0)); cbn [Z.eqb b2z Pos.eqb]; clear - Q2 Q3 G H; split; lia. }
    unfold sg in *. destruct (Bool.eqb fa fb).
    - destruct (w_add_spec w s t0) as (b1 & b2 & b3 & b4); auto; try lia. destruct (w_add w s t0) as [t2 k0]. cbn [fst snd] in *. replace (length s) with n in b4 by lia.
      destruct (Core t2 (c2 - k0) b1 ltac:(lia) ltac:(rewrite Z.mul_sub_distr_l; lia)) as [C1 C2]. set (c := b2z (w_cmp t2 r0 n =? -1)) in *. assert (Bc : 0 <= c <= 1) by (unfold c; apply b2z_range).
      destruct (w_sub_spec w t2 t1) as (d1 & d2 & d3 & d4); auto; try lia. destruct (w_sub w t2 t1) as [t3 k']. cbn [fst snd] in *. replace (length t2) with n in d4 by lia.
      exists t3, (c2 - k0), (c - k'), c. split; auto. split; auto. split; [lia|]. split; auto. split; [lia|]. split; [lia|]. rewrite Z.mul_sub_distr_l; lia.
    - destruct (w_sub_spec w s t0) as (b1 & b2 & b3 & b4); auto; try lia. destruct (w_sub w s t0) as [t2 k0]. cbn [fst snd] in *. replace (length s) with n in b4 by lia.
      destruct (Core t2 (c2 + k0) b1 ltac:(lia) ltac:(rewrite Z.mul_add_distr_l; lia)) as [C1 C2]. set (c := b2z (w_cmp t2 r0 n =? -1)) in *. assert (Bc : 0 <= c <= 1) by (unfold c; apply b2z_range).
      destruct (w_add_spec w t2 t1) as (d1 & d2 & d3 & d4); auto; try lia. destruct (w_add w t2 t1) as [t3 k']. cbn [fst snd] in *. replace (length t2) with n in d4 by lia.
      exists t3, (c2 + k0), (c + k'), c. split; auto. split; auto. split; [lia|]. split; auto. split; [lia|]. split; [lia|]. rewrite Z.mul_add_distr_l; lia. }
  destruct Step as (u & c2' & c3 & c & S1 & S2 & S3 & S4 & S5 & S6 & S7).
  rewrite S1. cbv beta iota. rewrite S4.
  assert (un : u <> []) by (intros ->; cbn in S3; lia).
  assert (Adj : exists v c3', (if q >=? 0 then let '(t2, k0) := w_inc w u (wd w q) in (t2, c3 + k0) else let '(t2, k0) := w_dec w u (wd w (- q)) in (t2, c3 - k0)) = (v, c3') /\
     W v /\ length v = n /\ -2 <= c3' <= 3 /\ V v + P n * c3' = V r0 + x1 - sg * V t1 + q).
  { rewrite Z.geb_leb. destruct (Z.leb_spec 0 q).
    - rewrite wd_small by lia. destruct (w_inc_spec w u q S2 un ltac:(lia)) as (b1 & b2 & b3 & b4). destruct (w_inc w u q) as [v k0]. cbn [fst snd] in *. rewrite S3 in b4. exists v, (c3 + k0). split; auto. split; auto. split; [lia|]. split; [lia|]. rewrite Z.mul_add_distr_l; lia.
    - rewrite wd_small by lia. destruct (w_dec_spec w u (- q) S2 un ltac:(lia)) as (b1 & b2 & b3 & b4). destruct (w_dec w u (- q)) as [v k0]. cbn [fst snd] in *. rewrite S3 in b4. exists v, (c3 - k0). split; auto. split; auto. split; [lia|]. split; [lia|]. rewrite Z.mul_sub_distr_l; lia. }
  destruct Adj as (v & c3' & V1 & V2 & V3 & V4 & V5). rewrite V1.
  destruct (w_add_spec w v r1) as (b1 & b2 & b3 & b4); auto; try lia. destruct (w_add w v r1) as [o k0]. cbn [fst snd] in *. rewrite V3 in b4, b2.
  assert (Col : V o + P n * (c3' + k0) = V r0 + x1 + V r1 - sg * V t1 + q) by (rewrite Z.mul_add_distr_l; lia). pose proof (V_bound w _ b1) as Bo. rewrite b2 in Bo.
  assert (C3 : 0 <= c3' + k0).
  { assert (0 <= X0 * Y1 + X1 * Y0) by (apply Z.add_nonneg_nonneg; apply Z.mul_nonneg_nonneg; lia).
    assert (P n * (V o + P n * (c3' + k0) - V r0) = X0 * Y1 + X1 * Y0 + x1 - V L1) by (rewrite Mid, Col; replace (V L1) with (x1 + x0 + V r0 - sg * V t0 - P n * q) by (clear - Eq; lia); ring).
    assert (0 <= V o + P n * (c3' + k0) - V r0) by (clear - H H0 Bx1 BL1 PN; nia). clear - H1 Bo Br0 PN. nia. }
  rewrite (wd_small w (c3' + k0)) by lia. destruct (w_inc_spec w r1 (c3' + k0) Rc ltac:(intros ->; cbn in Rd; lia) ltac:(lia)) as (z1 & z2 & z3 & z4). destruct (w_inc w r1 (c3' + k0)) as [r1' k4]. cbn [fst snd] in *.
  replace (length r1) with n in z4 by lia. split; [apply W_app; auto|]. split; [rewrite app_length; lia|]. rewrite V_app, b2. pose proof (V_bound w _ z1) as Bz. replace (length r1') with n in Bz by lia.
  assert (TD : Tot / P N = V o + P n * (V r1' + P n * k4)).
  { symmetry. apply Z.div_unique with (V L0 + P n * V L1). { left. rewrite PP. clear - BL0 BL1 PN. nia. } rewrite PP, z4, TotE, Eq, EL0. transitivity (x0 + P n * V L1 + P n * P n * (V o + P n * (c3' + k0)) + P n * P n * P n * V r1); [|ring]. rewrite Col. ring. }
  assert (k4 = 0); [|subst k4; rewrite TD; ring].
  assert (Tot / P N < P n * P n). { rewrite PP. apply Z.div_lt_upper_bound; [clear - PN; nia|]. pose proof (V_bound w X HX) as BX. pose proof (V_bound w Y HY) as BY. rewrite LX, PP in BX. rewrite LY, PP in BY. unfold Tot. clear - BX BY. nia. }
  rewrite TD in H. clear - H Bz Bo PN z3. nia.
Qed.
End Top.
