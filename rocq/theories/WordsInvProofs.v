(** Proofs about inverses modulo powers of two, Montgomery reduction and scaling by powers of two. *)
From Coq Require Import ZArith List Bool Arith Lia.
From Verif Require Import Base AsnModel AsnProofs WordsSpec WordsModel WordsProofs WordsMulProofs WordsRecProofs WordsTopProofs WordsAsymProofs WordsDivProofs WordsLongDivProofs.
Import ListNotations.
Local Open Scope Z_scope.

Lemma odd_8 A : A mod 2 = 1 -> exists t, (A mod 8) * A = 1 + 8 * t.
Proof.
  intros H. exists (((A mod 8) * A) / 8). pose proof (Z.div_mod (A mod 8 * A) 8 ltac:(lia)) as D. rewrite D at 1.
  enough ((A mod 8 * A) mod 8 = 1) by lia. rewrite Z.mul_mod_idemp_l by lia. rewrite Z.mul_mod by lia.
  pose proof (Z.mod_pos_bound A 8 ltac:(lia)). assert (E : (A mod 8) mod 2 = 1) by (rewrite <- Znumtheory.Zmod_div_mod; try lia; exists 4; lia).
  set (r := A mod 8) in *. assert (r = 1 \/ r = 3 \/ r = 5 \/ r = 7) as [-> |[-> |[-> | ->]]]; [|reflexivity..].
  assert (r = 0 \/ r = 1 \/ r = 2 \/ r = 3 \/ r = 4 \/ r = 5 \/ r = 6 \/ r = 7) as [Q|[Q|[Q|[Q|[Q|[Q|[Q|Q]]]]]]] by lia; rewrite Q in E; cbn in E; lia.
Qed.
Lemma mod_1_mult a m : 1 < m -> a mod m = 1 <-> exists t, a = 1 + m * t.
Proof.
  intros H. split.
  - intros E. exists (a / m). pose proof (Z.div_mod a m ltac:(lia)). lia.
  - intros [t ->]. rewrite Z.mul_comm, Z.mod_add by lia. apply Z.mod_small. lia.
Qed.

Section Inv.
Variable w : Z.
Context {Hbig : bigw w}.
Notation B := (base w).
Notation V := (wval w).
Notation W := (words w).
Notation P := (P w).

Lemma inv_loop_spec A : forall fuel i R, 3 <= i -> w <= i * 2 ^ Z.of_nat fuel -> 0 <= R < B -> (exists t, R * A = 1 + 2 ^ (Z.min i w) * t) ->
  0 <= inv_loop w fuel i R A < B /\ exists t, inv_loop w fuel i R A * A = 1 + B * t.
Proof.
  pose proof (Hw w). pose proof (B_pos w) as HB.
  induction fuel; intros i R Hi Hf HR [t Ht]; cbn [inv_loop].
  - split; auto. change (2 ^ Z.of_nat 0) with 1 in Hf. exists t. rewrite Z.min_r in Ht by lia. exact Ht.
  - destruct (Z.ltb_spec i w). 2:{ split; auto. exists t. rewrite Z.min_r in Ht by lia. exact Ht. }
    rewrite Z.min_l in Ht by lia. apply IHfuel; [lia| |apply (wd_range w)|].
    { rewrite Nat2Z.inj_succ, Z.pow_succ_r in Hf by lia. lia. }
    unfold wd. rewrite Zmult_mod_idemp_r. 
    assert (E : exists s, (R * (2 - (R * A) mod B)) mod B = R * (2 - R * A) + B * s).
    { exists (- ((R * (2 - R * A)) / B) ). rewrite <- Zmult_mod_idemp_r, Zminus_mod_idemp_r, Zmult_mod_idemp_r. pose proof (Z.div_mod (R * (2 - R * A)) B ltac:(lia)). lia. }
    destruct E as [s Es]. rewrite Es.
    assert (D : exists d, 2 ^ (i * 2) = 2 ^ Z.min (i * 2) w * d) by (exists (2 ^ (i * 2 - Z.min (i * 2) w)); rewrite <- Z.pow_add_r by lia; f_equal; lia). destruct D as [d Ed].
    assert (D2 : exists d, B = 2 ^ Z.min (i * 2) w * d) by (exists (2 ^ (w - Z.min (i * 2) w)); unfold base; rewrite <- Z.pow_add_r by lia; f_equal; lia). destruct D2 as [d' Ed'].
    exists (- (d * t * t) + d' * s * A). 
    assert (E2 : 2 ^ (i * 2) = 2 ^ i * 2 ^ i) by (rewrite <- Z.pow_add_r by lia; f_equal; lia). set (m := 2 ^ Z.min (i * 2) w) in *. 
    transitivity ((R * A) * (2 - R * A) + B * s * A); [ring|]. rewrite Ht, Ed'. transitivity (1 - 2 ^ i * 2 ^ i * t * t + m * d' * s * A); [ring|]. rewrite <- E2, Ed. ring.
Qed.
(** AtomicInverseModPower2. *)
Lemma atomic_inverse_spec A : A mod 2 = 1 -> 0 <= atomic_inverse w A < B /\ exists t, atomic_inverse w A * A = 1 + B * t.
Proof.
  intros H. pose proof (Hw w). pose proof (B_big w) as HB. change (2 ^ 32) with 4294967296 in HB. unfold atomic_inverse. apply inv_loop_spec; try lia.
  - rewrite Z2Nat.id by lia. assert (w < 2 ^ w) by (apply Z.pow_gt_lin_r; lia). lia.
  - pose proof (Z.mod_pos_bound A 8 ltac:(lia)). lia.
  - rewrite Z.min_l by lia. change (2 ^ 3) with 8. apply odd_8; auto.
Qed.

Lemma rec_inv_spec : forall fuel k A, (1 <= k)%nat -> (k <= fuel)%nat -> W A -> length A = (2 ^ k)%nat -> at_ A 0 mod 2 = 1 ->
  W (rec_inv w fuel A) /\ length (rec_inv w fuel A) = (2 ^ k)%nat /\ exists t, V (rec_inv w fuel A) * V A = 1 + P (2 ^ k) * t.
Proof.
  pose proof (B_big w) as HB. change (2 ^ 32) with 4294967296 in HB.
  assert (Base2 : forall A, W A -> length A = 2%nat -> at_ A 0 mod 2 = 1 ->
    let R := (let T := [atomic_inverse w (at_ A 0); 0] in let t2 := p_bot w 0 T A in let t2 := w_twos w t2 in let t2 := fst (w_inc w t2 2) in p_bot w 0 T t2) in
    W R /\ length R = 2%nat /\ exists t, V R * V A = 1 + P 2 * t).
  { intros A HA LA HO. destruct (atomic_inverse_spec (at_ A 0) HO) as [I1 [t It]]. set (T := [atomic_inverse w (at_ A 0); 0]). cbv zeta.
    assert (WT : W T) by (repeat (apply W_cons; split; [lia|]); apply W_nil). assert (LT : length T = 2%nat) by reflexivity. assert (VT : V T = atomic_inverse w (at_ A 0)) by (unfold T; rewrite !V_cons, V_nil; lia).
    destruct (p_bot_spec w 1 T A ltac:(lia) ltac:(cbn; lia) WT HA LT LA) as (b1 & b2 & b3). change (2 ^ 1 / 4)%nat with 0%nat in *. change (2 ^ 1)%nat with 2%nat in *. set (x := p_bot w 0 T A) in *.
    destruct (w_twos_spec w x b1 ltac:(intros E; rewrite E in b2; discriminate)) as (c1 & c2 & c3). rewrite b2 in c2, c3. set (y := w_twos w x) in *.
    destruct (w_inc_spec w y 2 c1 ltac:(intros E; rewrite E in c2; discriminate) ltac:(lia)) as (d1 & d2 & d3 & d4). destruct (w_inc w y 2) as [z cy]. cbn [fst snd] in *. rewrite c2 in d2, d4.
    destruct (p_bot_spec w 1 T z ltac:(lia) ltac:(cbn; lia) WT d1 LT ltac:(cbn; lia)) as (e1 & e2 & e3). change (2 ^ 1 / 4)%nat with 0%nat in *. change (2 ^ 1)%nat with 2%nat in *.
    split; auto. split; auto. rewrite e3. pose proof (P_pos w 2) as PP.
    assert (VA : exists a', V A = at_ A 0 + B * a'). { exists (at_ A 1). destruct (two_list A LA) as (u & v & ->). rewrite (V_pair w). unfold at_. cbn [nth]. ring. } destruct VA as [a' VA].
    set (i := atomic_inverse w (at_ A 0)) in *. assert (EI : exists s, i * V A = 1 + B * s) by (exists (t + i * a'); rewrite VA; transitivity (i * at_ A 0 + B * (i * a')); [ring|]; rewrite It; ring). destruct EI as [s Es].
    assert (Ez : exists q, V z = 2 - i * V A + P 2 * q).
    { rewrite VT in b3. exists (- ((- V x) / P 2) - cy + (i * V A) / P 2).
      pose proof (Z.div_mod (- V x) (P 2) ltac:(lia)) as D1. rewrite <- c3 in D1. pose proof (Z.div_mod (i * V A) (P 2) ltac:(lia)) as D2. rewrite <- b3 in D2. clear - d4 D1 D2. lia. } destruct Ez as [q Ez].
    rewrite VT. pose proof (Z.div_mod (i * V z) (P 2) ltac:(lia)) as D3. exists (- (s * s) + q * (i * V A) - ((i * V z) / P 2) * V A).
    replace ((i * V z) mod P 2) with (i * V z - P 2 * ((i * V z) / P 2)) by lia. rewrite Z.mul_sub_distr_r. rewrite Ez at 1.
    transitivity ((i * V A) * (2 - i * V A) + P 2 * (q * (i * V A)) - P 2 * (i * V z / P 2) * V A); [ring|]. rewrite Es at 1 2. rewrite (P_2 w). ring. }
  induction fuel; intros k A Hk Hf HA LA HO; [lia|].
  cbn [rec_inv]. rewrite LA. destruct (Nat.eqb_spec (2 ^ k) 2) as [E|E].
  { rewrite E in *. apply Base2; auto. }
  assert (K2 : (2 <= k)%nat). { destruct k as [|[|]]; try lia. cbn in E. lia. } destruct (pow2_half k Hk) as [E1 E2]. rewrite E1. set (n := (2 ^ (k - 1))%nat) in *. assert (n0 : (0 < n)%nat) by (unfold n; pose proof (Nat.pow_nonzero 2 (k - 1)); lia).
  destruct (lo_spec w n A HA ltac:(lia)) as [A01 A02]. destruct (hi_spec w n A HA ltac:(lia)) as [A11 A12]. pose proof (lohi w n A ltac:(lia)) as A4.
  assert (HO' : at_ (lo n A) 0 mod 2 = 1) by (unfold lo; rewrite at_firstn by lia; auto).
  destruct (IHfuel (k - 1)%nat (lo n A) ltac:(lia) ltac:(lia) A01 ltac:(fold n; lia) HO') as (I1 & I2 & t & It). fold n in I2, It. set (r0 := rec_inv w fuel (lo n A)) in *. clearbody r0.
  set (t0 := 1 :: repeat 0 (n - 1)). assert (Wt0 : W t0) by (apply W_cons; split; [lia|apply (W_repeat0 w)]). assert (Lt0 : length t0 = n) by (unfold t0; cbn [length]; rewrite repeat_length; lia). assert (Vt0 : V t0 = 1) by (unfold t0; rewrite V_cons, V_repeat0; lia).
  pose proof (P_pos w n) as PN. assert (P1 : 1 < P n). { pose proof (P_mono w 1 n ltac:(lia)). rewrite P_1 in H. lia. }
  assert (M1 : (V r0 * V (lo n A)) mod P n = 1) by (apply mod_1_mult; eauto).
  destruct (w_top_spec w (k - 1)%nat t0 r0 (lo n A) ltac:(lia) I1 A01 Wt0 ltac:(fold n; lia) ltac:(fold n; lia) ltac:(fold n; lia)) as (u1 & u2 & u3). { fold n. rewrite Vt0, M1. reflexivity. } fold n in u2, u3. set (r1 := w_top w t0 r0 (lo n A)) in *. clearbody r1.
  destruct (w_bot_spec w (k - 1)%nat r0 (hi n A) ltac:(lia) I1 A11 ltac:(fold n; lia) ltac:(fold n; lia)) as (v1 & v2 & v3). fold n in v2, v3. set (x := w_bot w r0 (hi n A)) in *. clearbody x.
  destruct (w_add_mod w r1 x n u1 v1 u2 v2) as (a1 & a2 & a3). set (y := fst (w_add w r1 x)) in *. clearbody y.
  destruct (w_twos_spec w y a1 ltac:(intros Q; rewrite Q in a2; cbn in a2; lia)) as (c1 & c2 & c3). rewrite a2 in c2, c3. set (z := w_twos w y) in *. clearbody z.
  destruct (w_bot_spec w (k - 1)%nat r0 z ltac:(lia) I1 c1 ltac:(fold n; lia) ltac:(fold n; lia)) as (d1 & d2 & d3). fold n in d2, d3. set (q := w_bot w r0 z) in *. clearbody q.
  split; [apply W_app; auto|]. split; [rewrite app_length; lia|]. rewrite V_app, I2, A4.
  assert (PP : P (2 ^ k) = P n * P n) by (rewrite E2; replace (2 * n)%nat with (n + n)%nat by lia; apply P_add). rewrite PP.
  set (a0 := V (lo n A)) in *. set (a1' := V (hi n A)) in *.
  assert (T1 : V r1 = t). { rewrite u3, It. symmetry. apply Z.div_unique with 1; lia. }
  (* everything modulo P n *)
  pose proof (Z.div_mod (V r0 * V z) (P n) ltac:(lia)) as D1. rewrite <- d3 in D1. pose proof (Z.div_mod (- V y) (P n) ltac:(lia)) as D2. rewrite <- c3 in D2. pose proof (Z.div_mod (V r1 + V x) (P n) ltac:(lia)) as D3. rewrite <- a3 in D3. pose proof (Z.div_mod (V r0 * a1') (P n) ltac:(lia)) as D4. rewrite <- v3 in D4.
  set (k1 := V r0 * V z / P n) in *. set (k2 := - V y / P n) in *. set (k3 := (V r1 + V x) / P n) in *. set (k4 := V r0 * a1' / P n) in *.
  assert (S : exists s, t + V r0 * a1' + V q * a0 = P n * s).
  { assert (Vq : V q = V r0 * V z - P n * k1) by lia. assert (Vz : V z = - V y - P n * k2) by lia. assert (Vy : V y = V r1 + V x - P n * k3) by lia. assert (Vx : V x = V r0 * a1' - P n * k4) by lia.
    exists (V r0 * a1' * 0 - t * (t + V r0 * a1') - k1 * a0 + (1 + P n * t) * (k4 + k3 - k2)).
    rewrite Vq, Z.mul_sub_distr_r. replace (V r0 * V z * a0) with ((V r0 * a0) * V z) by ring. rewrite It, Vz, Vy, Vx, T1. ring. }
  destruct S as [s Es]. exists (s + V q * a1').
  transitivity (V r0 * a0 + P n * (V r0 * a1' + V q * a0) + P n * P n * (V q * a1')); [ring|]. rewrite It. transitivity (1 + P n * (t + V r0 * a1' + V q * a0) + P n * P n * (V q * a1')); [ring|]. rewrite Es. ring.
Qed.
(** RecursiveInverseModPower2. *)
Theorem w_inv_spec : forall k A, (1 <= k)%nat -> W A -> length A = (2 ^ k)%nat -> at_ A 0 mod 2 = 1 ->
  W (w_inv w A) /\ length (w_inv w A) = (2 ^ k)%nat /\ exists t, V (w_inv w A) * V A = 1 + P (2 ^ k) * t.
Proof. intros. unfold w_inv. apply rec_inv_spec; auto. rewrite H1. pose proof (Nat.pow_gt_lin_r 2 k ltac:(lia)). lia. Qed.

(** MontgomeryReduce. *)
Theorem mont_reduce_spec : forall k X M U, (1 <= k)%nat -> W X -> W M -> W U -> length X = (2 * 2 ^ k)%nat -> length M = (2 ^ k)%nat -> length U = (2 ^ k)%nat ->
  V X < V M * P (2 ^ k) -> (exists t, V U * V M = 1 + P (2 ^ k) * t) ->
  W (mont_reduce w X M U) /\ length (mont_reduce w X M U) = (2 ^ k)%nat /\ V (mont_reduce w X M U) < V M /\ exists q, V (mont_reduce w X M U) * P (2 ^ k) = V X + q * V M.
Proof.
  intros k X M U Hk HX HM HU LX LM LU HV [t Ht]. unfold mont_reduce. rewrite LM. set (n := (2 ^ k)%nat) in *. pose proof (P_pos w n) as PN.
  destruct (lo_spec w n X HX ltac:(lia)) as [X01 X02]. destruct (hi_spec w n X HX ltac:(lia)) as [X11 X12]. pose proof (lohi w n X ltac:(lia)) as X4.
  destruct (w_bot_spec w k (lo n X) U Hk X01 HU ltac:(fold n; lia) ltac:(fold n; lia)) as (b1 & b2 & b3). fold n in b2, b3. set (R := w_bot w (lo n X) U) in *. clearbody R.
  pose proof (V_bound w _ X01) as B0. rewrite X02 in B0. pose proof (V_bound w _ X11) as B1. replace (length (hi n X)) with n in B1 by lia. pose proof (V_bound w _ b1) as BR. rewrite b2 in BR. pose proof (V_bound w _ HM) as BM. rewrite LM in BM.
  pose proof (Z.div_mod (V (lo n X) * V U) (P n) ltac:(lia)) as DM. rewrite <- b3 in DM. set (j := V (lo n X) * V U / P n) in *. clearbody j.
  assert (ERM : exists s, V R * V M = V (lo n X) + P n * s). { exists (V (lo n X) * t - j * V M). replace (V R) with (V (lo n X) * V U - P n * j) by lia. transitivity (V (lo n X) * (V U * V M) - P n * (j * V M)); [ring|]. rewrite Ht. ring. }
  destruct ERM as [s Es].
  destruct (w_top_spec w k (lo n X) R M Hk b1 HM X01 ltac:(fold n; lia) ltac:(fold n; lia) ltac:(fold n; lia)) as (c1 & c2 & c3). { fold n. rewrite Es, (Z.mul_comm (P n)), Z.mod_add by lia. symmetry. apply Z.mod_small. lia. }
  fold n in c2, c3. set (T := w_top w (lo n X) R M) in *. clearbody T. assert (VT : V T = s) by (rewrite c3, Es; symmetry; apply Z.div_unique with (V (lo n X)); lia).
  assert (HX1 : V (hi n X) < V M) by nia. assert (s < V M). { assert (V R * V M < P n * V M + P n) by nia. nia. }
  destruct (w_sub_spec w (hi n X) T X11 c1 ltac:(lia)) as (d1 & d2 & d3 & d4). pose proof (w_sub_borrow w (hi n X) T X11 c1 ltac:(lia)) as BO. destruct (w_sub w (hi n X) T) as [D bo]. cbn [fst snd] in *.
  destruct (w_add_spec w D M d1 HM ltac:(lia)) as (e1 & e2 & e3 & e4). destruct (w_add w D M) as [D' cy]. cbn [fst snd] in *. assert (LD : length D = n) by lia. replace (length (hi n X)) with n in d4 by lia. rewrite LD in e2, e4. clear d2.
  assert (VU : P n * V (hi n X) - P n * s = V X - V R * V M) by (rewrite Es, X4; ring). pose proof (V_bound w _ e1) as Be. replace (length D') with n in Be by lia. pose proof (V_bound w _ d1) as Bd. rewrite LD in Bd. pose proof (V_bound w _ c1) as BT0.
  destruct (Z.ltb_spec (V (hi n X)) (V T)) as [L|L]; cbn [b2z] in BO; subst bo; cbn [Z.eqb].
  - split; auto. split; [lia|]. assert (EV : V D' = V (hi n X) - s + V M). { assert (V D' + P n * cy = V (hi n X) - s + P n + V M) by lia. assert (cy = 1) by nia. subst cy. lia. }
    split; [lia|]. exists (P n - V R). rewrite EV. transitivity ((P n * V (hi n X) - P n * s) + P n * V M); [ring|]. rewrite VU. ring.
  - split; auto. split; [lia|]. assert (EV : V D = V (hi n X) - s) by lia. rewrite EV. split; [lia|]. exists (- V R). transitivity (P n * V (hi n X) - P n * s); [ring|]. rewrite VU. ring.
Qed.

Lemma at0_parity A : W A -> (0 < length A)%nat -> at_ A 0 mod 2 = V A mod 2.
Proof.
  intros HA L. destruct A as [|a r]; [cbn in L; lia|]. rewrite V_cons. unfold at_. cbn [nth]. assert (E : B = 2 * 2 ^ (w - 1)) by (unfold base; rewrite <- Z.pow_succ_r by (pose proof (Hw w); lia); f_equal; lia).
  rewrite E. replace (a + 2 * 2 ^ (w - 1) * V r) with (a + (2 ^ (w - 1) * V r) * 2) by ring. rewrite Z.mod_add by lia. reflexivity.
Qed.
(** DivideByPower2Mod. *)
Theorem div_pow2_mod_spec : forall k R M, W R -> W M -> length R = length M -> (0 < length M)%nat -> V M mod 2 = 1 -> V R < V M ->
  W (div_pow2_mod w k R M) /\ length (div_pow2_mod w k R M) = length M /\ V (div_pow2_mod w k R M) < V M /\ exists q, V (div_pow2_mod w k R M) * 2 ^ Z.of_nat k = V R + q * V M.
Proof.
  induction k; intros R M HR HM L LM HO HV; cbn [div_pow2_mod]. { split; auto. split; auto. split; auto. exists 0. change (2 ^ Z.of_nat 0) with 1. lia. }
  pose proof (Hw w) as Hww. pose proof (V_bound w _ HR) as BR. pose proof (V_bound w _ HM) as BM. rewrite L in BR. rewrite Nat2Z.inj_succ, Z.pow_succ_r by lia.
  rewrite (at0_parity R HR) by lia. destruct (Z.eqb_spec (V R mod 2) 0) as [E|E].
  - destruct (shr_bits_spec w R 1 ltac:(lia) HR) as (s1 & s2 & s3). change (2 ^ 1) with 2 in s3. assert (VR : V R = 2 * V (shr_bits w R 1)) by (rewrite s3; pose proof (Z.div_mod (V R) 2 ltac:(lia)); lia).
    destruct (IHk (shr_bits w R 1) M s1 HM ltac:(lia) LM HO ltac:(lia)) as (I1 & I2 & I3 & q & Iq). split; auto. split; auto. split; auto. exists (2 * q). transitivity (2 * (V (div_pow2_mod w k (shr_bits w R 1) M) * 2 ^ Z.of_nat k)); [ring|]. rewrite Iq. lia.
  - destruct (w_add_spec w R M HR HM L) as (a1 & a2 & a3 & a4). destruct (w_add w R M) as [Sm cy]. cbn [fst snd] in *.
    destruct (shr_bits_spec w Sm 1 ltac:(lia) a1) as (s1 & s2 & s3). change (2 ^ 1) with 2 in s3. set (T := shr_bits w Sm 1) in *. clearbody T. rewrite L in *. set (N := length M) in *.
    assert (TE : exists h, V R + V M = 2 * h). { exists ((V R + V M) / 2). pose proof (Z.div_mod (V R + V M) 2 ltac:(lia)). assert ((V R + V M) mod 2 = 0); [|lia]. rewrite Z.add_mod, HO by lia. assert (V R mod 2 = 1) by (pose proof (Z.mod_pos_bound (V R) 2 ltac:(lia)); lia). rewrite H0. reflexivity. }
    destruct TE as [h Eh]. assert (PE : P N = 2 * (P (N - 1) * 2 ^ (w - 1))). { replace N with (S (N - 1)) at 1 by lia. rewrite P_S. replace B with (2 * 2 ^ (w - 1)) by (unfold base; rewrite <- Z.pow_succ_r by lia; f_equal; lia). ring. }
    pose proof (P_pos w (N - 1)) as PP. assert (p2 : 0 < 2 ^ (w - 1)) by (apply Z.pow_pos_nonneg; lia). set (hp := P (N - 1) * 2 ^ (w - 1)) in *. assert (hp0 : 0 < hp) by (unfold hp; nia).
    assert (VT : V T = h - hp * cy). { rewrite s3. symmetry. apply Z.div_unique with 0; [lia|]. rewrite PE in a4. lia. }
    pose proof (V_bound w _ a1) as BS. rewrite a2 in BS. assert (BT : 0 <= V T < hp) by (rewrite s3; split; [apply Z.div_pos; lia|apply Z.div_lt_upper_bound; lia]).
    pose proof (V_split1 w (N - 1) T ltac:(lia)) as SP. pose proof (V_bound w _ (W_firstn w (N - 1) T s1)) as BF. rewrite firstn_length, Nat.min_l in BF by lia. pose proof (W_at w T (N - 1) s1) as BA.
    assert (TOP : at_ T (N - 1) < 2 ^ (w - 1)) by (unfold hp in BT; nia).
    assert (SH : wd w (Z.shiftl cy (w - 1)) = cy * 2 ^ (w - 1)). { rewrite Z.shiftl_mul_pow2 by lia. apply wd_small. assert (B = 2 * 2 ^ (w - 1)) by (unfold base; rewrite <- Z.pow_succ_r by lia; f_equal; lia). nia. }
    rewrite SH. assert (WD : 0 <= at_ T (N - 1) + cy * 2 ^ (w - 1) < B). { assert (B = 2 * 2 ^ (w - 1)) by (unfold base; rewrite <- Z.pow_succ_r by lia; f_equal; lia). nia. } rewrite wd_small by lia.
    set (T' := upd (N - 1) (at_ T (N - 1) + cy * 2 ^ (w - 1)) T). assert (WT' : W T') by (apply W_upd; auto). assert (LT' : length T' = N) by (unfold T'; rewrite upd_len; lia).
    assert (VT' : V T' = h). { unfold T'. rewrite V_upd by lia. rewrite VT. unfold hp. ring. }
    destruct (IHk T' M WT' HM LT' LM HO ltac:(lia)) as (I1 & I2 & I3 & q & Iq). split; auto. split; auto. split; auto. exists (2 * q + 1). transitivity (2 * (V (div_pow2_mod w k T' M) * 2 ^ Z.of_nat k)); [ring|]. rewrite Iq, VT'. lia.
Qed.
(** MultiplyByPower2Mod. *)
Theorem mul_pow2_mod_spec : forall k R M, W R -> W M -> length R = length M -> V R < V M ->
  W (mul_pow2_mod w k R M) /\ length (mul_pow2_mod w k R M) = length M /\ V (mul_pow2_mod w k R M) = (V R * 2 ^ Z.of_nat k) mod V M.
Proof.
  induction k; intros R M HR HM L HV; cbn [mul_pow2_mod]; pose proof (V_bound w _ HR) as BR. { split; auto. split; auto. change (2 ^ Z.of_nat 0) with 1. rewrite Z.mul_1_r, Z.mod_small; lia. }
  pose proof (Hw w) as Hww. pose proof (V_bound w _ HM) as BM. rewrite L in BR.
  destruct (shl_bits_spec w R 1 ltac:(lia) HR) as (s1 & s2 & s3 & s4). destruct (shl_bits w R 1) as [x c]. cbn [fst snd] in *. change (2 ^ 1) with 2 in *.
  assert (LX : length x = length M) by lia. rewrite LX. rewrite (w_cmp_full' w) by auto. pose proof (V_bound w _ s1) as Bx. rewrite LX in Bx. rewrite L in s4.
  set (R' := if negb (c =? 0) || (match V x ?= V M with Eq => 0 | Lt => -1 | Gt => 1 end >=? 0) then fst (w_sub w x M) else x).
  assert (RS : W R' /\ length R' = length M /\ V R' < V M /\ exists q, V R' = 2 * V R + q * V M).
  { destruct (w_sub_spec w x M s1 HM LX) as (d1 & d2 & d3 & d4). rewrite LX in *. pose proof (V_bound w _ d1) as Bd. rewrite d2 in Bd. pose proof (w_sub_borrow w x M s1 HM LX) as BO.
    assert (C : negb (c =? 0) || (match V x ?= V M with Eq => 0 | Lt => -1 | Gt => 1 end >=? 0) = (V M <=? 2 * V R)).
    { destruct (Z.eqb_spec c 0); cbn [negb orb]; [|symmetry; apply Z.leb_le; nia]. subst c. replace (2 * V R) with (V x) by lia. destruct (Z.compare_spec (V x) (V M)); destruct (Z.leb_spec (V M) (V x)); cbn; lia || reflexivity. }
    unfold R'. rewrite C. destruct (Z.leb_spec (V M) (2 * V R)).
    - split; auto. split; [lia|]. assert (V (fst (w_sub w x M)) = 2 * V R - V M). { rewrite BO in d4. destruct (Z.ltb_spec (V x) (V M)); cbn [b2z] in d4; assert (c = 0 \/ c = 1) as [-> | ->] by lia; nia. } split; [lia|]. exists (-1). lia.
    - split; auto. split; auto. assert (c = 0) by nia. subst c. split; [lia|]. exists 0. lia. }
  destruct RS as (r1 & r2 & r3 & q & rq). destruct (IHk R' M r1 HM r2 r3) as (I1 & I2 & I3). split; auto. split; auto. rewrite I3, rq, Nat2Z.inj_succ, Z.pow_succ_r by lia.
  rewrite Z.mul_add_distr_r. replace (q * V M * 2 ^ Z.of_nat k) with (q * 2 ^ Z.of_nat k * V M) by ring. rewrite Z.mod_add by lia. f_equal. ring.
Qed.
End Inv.
