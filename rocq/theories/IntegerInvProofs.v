(** Proofs about SquareRoot, Gcd and the modular inverses. *)
From Coq Require Import ZArith List Bool Arith Lia Znumtheory Zpow_facts.
From Verif Require Import Base WordsSpec WordsModel WordsProofs WordsRecProofs WordsAsymProofs WordsInvProofs WordsAlmostProofs IntegerModel IntegerSpec IntegerProofs IntegerBitProofs IntegerDivProofs ModSpec ModModel.
Import ListNotations.
Local Open Scope Z_scope.

(** ** Newton's iteration for the square root *)
Lemma newton_ge a x : 0 <= a -> 0 < x -> Z.sqrt a <= (x + a / x) / 2.
Proof.
  intros Ha Hx. pose proof (Z.sqrt_spec a Ha) as [S1 _]. set (s := Z.sqrt a) in *. apply Z.div_le_lower_bound; [lia|].
  assert (2 * s - x <= a / x); [|lia]. apply Z.div_le_lower_bound; auto. pose proof (Z.square_nonneg (s - x)). nia.
Qed.
Lemma newton_lt a x : 0 <= a -> Z.sqrt a < x -> (x + a / x) / 2 < x.
Proof.
  intros Ha Hx. pose proof (Z.sqrt_spec a Ha) as [S1 S2]. pose proof (Z.sqrt_nonneg a). set (s := Z.sqrt a) in *. apply Z.div_lt_upper_bound; [lia|].
  assert (a / x < x); [|lia]. apply Z.div_lt_upper_bound; nia.
Qed.

Section Int.
Variable w : Z.
Hypothesis Hwb : word_bits w.
Local Instance Hbig : bigw w := word_bits_big w Hwb.
Notation B := (base w).
Notation V := (wval w).
Notation W := (words w).
Notation P := (P w).
Notation valid := (valid w).
Notation ival := (ival w).
Notation is_int := (is_int w).

Lemma sqrt_loop_spec va : 0 < va -> forall fuel a y vy, is_int a va -> is_int y vy -> Z.sqrt va <= vy -> 0 < vy -> (Z.to_nat vy < fuel)%nat ->
  exists r, sqrt_loop w fuel a y = ROk r /\ is_int r (Z.sqrt va).
Proof.
  intros Hva. induction fuel; intros a y vy Ha Hy L P0 F; [lia|]. cbn [sqrt_loop].
  destruct (divided_by_int w a y va vy Hwb Ha Hy ltac:(lia)) as (q & E & Hq). rewrite E. cbn [rbind]. rewrite Z.sgn_pos, Z.mul_1_l, Z.abs_eq in Hq by lia.
  pose proof (shr_int w _ _ 1 (plus_int w _ _ _ _ Hy Hq)) as Hs. change (2 ^ Z.of_nat 1) with 2 in Hs. assert (0 <= va / vy) by (apply Z.div_pos; lia). rewrite Z.quot_div_nonneg in Hs by lia.
  rewrite (compare_int w _ _ _ _ Hs Hy). pose proof (newton_ge va vy ltac:(lia) P0) as G.
  assert (SP : 0 < Z.sqrt va) by (apply Z.sqrt_pos; auto).
  destruct (Z.compare_spec ((vy + va / vy) / 2) vy) as [C|C|C]; cbn [Z.ltb Z.compare].
  - exists y. split; auto. replace (Z.sqrt va) with vy; auto. destruct (Z.eq_dec (Z.sqrt va) vy); auto. pose proof (newton_lt va vy ltac:(lia) ltac:(lia)). lia.
  - apply (IHfuel a _ _ Ha Hs); lia.
  - exists y. split; auto. replace (Z.sqrt va) with vy; auto. destruct (Z.eq_dec (Z.sqrt va) vy); auto. pose proof (newton_lt va vy ltac:(lia) ltac:(lia)). lia.
Qed.
Lemma is_positive_int x v : is_int x v -> is_positive x = (0 <? v).
Proof.
  intros H. unfold is_positive. rewrite (is_zero_int w x v H). destruct H as [(H1 & H2 & H3) <-]. unfold IntegerSpec.ival. pose proof (V_bound w _ H1).
  destruct (neg x); cbn [negb andb]; [specialize (H3 eq_refl)|]; destruct (Z.ltb_spec 0 (-1 * V (reg x))), (Z.ltb_spec 0 (1 * V (reg x))), (Z.eqb_spec (1 * V (reg x)) 0); try reflexivity; lia.
Qed.
Theorem square_root_int a va : is_int a va -> exists fuel0, forall fuel, (fuel0 <= fuel)%nat -> exists r, square_root w fuel a = ROk r /\ is_int r (if va <=? 0 then 0 else Z.sqrt va).
Proof.
  intros Ha. set (y := power2 w ((bit_count w a + 1) / 2)). pose proof (power2_int w ((bit_count w a + 1) / 2)) as Hy. fold y in Hy.
  set (vy := 2 ^ Z.of_nat ((bit_count w a + 1) / 2)) in *. exists (S (Z.to_nat vy)). intros fuel F. unfold square_root. rewrite (is_positive_int a va Ha).
  destruct (Z.leb_spec va 0) as [L|L]; destruct (Z.ltb_spec 0 va) as [G|G]; try lia; cbn [negb]. { exists int_zero. split; auto. apply (zero_int w). }
  fold y. pose proof (bit_count_int w a va Hwb Ha) as BC. destruct (Z.eqb_spec va 0); [lia|]. rewrite Z.abs_eq in BC by lia.
  assert (0 < vy) by (apply Z.pow_pos_nonneg; lia).
  apply (sqrt_loop_spec va G fuel a y vy Ha Hy); [|auto|lia].
  assert (va <= vy * vy). { pose proof (Z.log2_spec va G) as [_ U]. unfold vy. rewrite <- Z.pow_add_r by lia. etransitivity; [apply Z.lt_le_incl, U|]. apply Z.pow_le_mono_r; [lia|].
    pose proof (Nat.div_mod (bit_count w a + 1) 2 ltac:(lia)). pose proof (Nat.mod_upper_bound (bit_count w a + 1) 2 ltac:(lia)). lia. }
  pose proof (Z.sqrt_le_mono _ _ H0). rewrite Z.sqrt_square in H1 by lia. auto.
Qed.

Lemma wc_le_V x y : valid x -> valid y -> V (reg x) <= V (reg y) -> (word_count x <= word_count y)%nat.
Proof. intros (H1 & _) (G1 & _) L. apply (wc_le w); auto. destruct (wc_spec w (reg y) G1) as (_ & _ & C & _). fold (word_count y) in C. lia. Qed.
Lemma modulo_len a b r : valid a -> valid b -> ival b <> 0 -> modulo w a b = ROk r -> (length (reg r) <= length (reg b))%nat.
Proof.
  intros Ha Hb NZ E. unfold modulo, divide in E. destruct (positive_divide_full w a b (ival a) (ival b) Hwb (conj Ha eq_refl) (conj Hb eq_refl)) as [[Z0 _]|(_ & r0 & q0 & E0 & R0 & Q0 & L0)]; [congruence|].
  rewrite E0 in E. cbn [rbind] in E. destruct (neg a); [|cbn in E; injection E as <-; auto]. rewrite (is_zero_int w _ _ R0) in E. destruct (Z.eqb_spec (Z.abs (ival a) mod Z.abs (ival b)) 0) as [Y|Y]; cbn [rbind negb fst] in E; injection E as <-; auto.
  pose proof (minus_int w _ _ _ _ (abs_int w b _ (conj Hb eq_refl)) R0) as M. pose proof (Z.mod_pos_bound (Z.abs (ival a)) (Z.abs (ival b)) ltac:(lia)) as MB.
  rewrite (assign_copy w), (copy_len w) by apply M. apply roundup_le; [apply Hb|]. destruct M as [M1 M2]. pose proof (ival_abs w _ M1) as A1. pose proof (ival_abs w _ Hb) as A2.
  etransitivity; [apply (wc_le_V _ b M1 Hb); lia|]. destruct (wc_spec w (reg b) (proj1 Hb)) as (C & _). exact C.
Qed.

(** ** Inverses *)
Lemma odd_coprime_pow M k : M mod 2 = 1 -> 0 <= k -> Z.gcd M (2 ^ k) = 1.
Proof.
  intros HM Hk. apply Zgcd_1_rel_prime. apply rel_prime_Zpower_r; auto. apply Zgcd_1_rel_prime. rewrite Z.gcd_comm. rewrite <- Z.gcd_mod by lia. rewrite HM. reflexivity.
Qed.
Lemma mod1_of x m q : 1 < m -> x = 1 + m * q -> x mod m = 1.
Proof. intros Hm ->. rewrite Z.mul_comm, Z.mod_add, Z.mod_small; lia. Qed.
Lemma odd_V x v : is_int x v -> get_bit w x 0 = Z.odd v.
Proof. intros H. rewrite (get_bit_int w x v 0 H). change (Z.of_nat 0) with 0. rewrite Z.bit0_odd. destruct (Z.abs_spec v) as [[_ ->]|[_ ->]]; auto. apply Z.odd_opp. Qed.
Lemma odd_mod v : Z.odd v = true -> v mod 2 = 1.
Proof. intros H. rewrite Zmod_odd, H. reflexivity. Qed.
Lemma nonneg_V x v : is_int x v -> 0 <= v -> V (reg x) = v.
Proof. intros [H <-] L. rewrite <- (ival_abs w x H). lia. Qed.
Lemma inverse_odd_int x m vx vm : is_int x vx -> is_int m vm -> 0 <= vx < vm -> 1 < vm -> vm mod 2 = 1 -> (length (reg x) <= 2 * length (reg m))%nat ->
  exists r vr, inverse_odd w x m = ROk r /\ is_int r vr /\ inverse_of vx vm vr.
Proof.
  intros Hx Hm L1 L2 O LX. pose proof (nonneg_V x vx Hx ltac:(lia)) as VX. pose proof (nonneg_V m vm Hm ltac:(lia)) as VM. destruct Hx as [(X1 & X2 & X3) _]. destruct Hm as [(M1 & M2 & M3) _].
  unfold inverse_odd. destruct (Nat.ltb_spec (2 * length (reg m)) (length (reg x))); [lia|]. pose proof (V_bound w _ M1) as BM.
  destruct (V_fits w (length (reg m)) (reg x) X1 ltac:(lia)) as [F1 _]. rewrite VX in F1. pose proof (pow2_ge2 _ M2) as L2'. destruct (pow2_even _ M2) as [PE _].
  destruct (almost_inverse_spec w (firstn (length (reg m)) (reg x)) (reg m) (W_firstn w _ _ X1) M1) as (R & k & E & K0 & WR & LR & C1 & C2).
  { rewrite Nat.even_spec. exists (length (reg m) / 2)%nat. pose proof (Nat.div_mod (length (reg m)) 2 ltac:(lia)). lia. } { auto. } { rewrite firstn_length. lia. } { rewrite VM; auto. } { lia. } { lia. }
  rewrite E. rewrite F1, VM in *. pose proof (V_bound w _ WR) as BR. destruct (Z.eq_dec (Z.gcd vx vm) 1) as [G|G].
  - specialize (C1 G). destruct C1 as [C1 [q C3]]. assert (NE : V R <> vm). { intros Q. rewrite Q in C3. assert (D : (vm | 2 ^ k)). { exists (vx - q). lia. } pose proof (odd_coprime_pow vm k O K0) as GG. apply Z.divide_gcd_iff in D; lia. }
    destruct (div_pow2_mod_spec w (Z.to_nat k) R (reg m) WR M1 LR ltac:(lia) ltac:(rewrite VM; auto) ltac:(lia)) as (D1 & D2 & D3 & q' & D4). rewrite Z2Nat.id in D4 by auto. set (r := div_pow2_mod w (Z.to_nat k) R (reg m)) in *. clearbody r.
    exists (mkInt false r), (V r). split; auto. split; [apply pos_int; auto; rewrite D2; auto|]. rewrite VM in *.
    assert (DV : (vm | vx * V r - 1)). { apply Z.gauss with (2 ^ k). - exists (q + vx * q'). transitivity (vx * (V r * 2 ^ k) - 2 ^ k); [ring|]. rewrite D4. transitivity (vx * V R + vx * q' * vm - 2 ^ k); [ring|]. rewrite C3. ring. - apply odd_coprime_pow; auto. }
    destruct DV as [z Hz]. split; [|congruence]. intros _. assert (MD : (vx * V r) mod vm = 1) by (apply (mod1_of _ _ z); lia). split; auto. pose proof (V_bound w _ D1). split; [|lia].
    destruct (Z.eq_dec (V r) 0) as [Z0|]; [|lia]. rewrite Z0, Z.mul_0_r, Z.mod_0_l in MD by lia. lia.
  - destruct (C2 G) as [-> ->]. change (Z.to_nat 0) with 0%nat. cbn [div_pow2_mod]. exists (mkInt false (repeat 0 (length (reg m)))), 0. split; auto. split; [apply pos_int; [apply (W_repeat0 w)|rewrite repeat_length; auto|apply V_repeat0]|]. split; congruence.
Qed.
Lemma inverse_next_int x m vx vm : is_int x vx -> is_int m vm -> 0 <= vx < vm -> 1 < vm -> (length (reg x) <= 2 * length (reg m))%nat ->
  exists r vr, inverse_next w x m = ROk r /\ is_int r vr /\ inverse_of vx vm vr.
Proof.
  intros Hx Hm L1 L2 LX. unfold inverse_next. rewrite (odd_V m vm Hm), (odd_V x vx Hx). destruct (Z.odd vm) eqn:OM; cbn [negb]. { apply inverse_odd_int; auto. apply odd_mod; auto. }
  rewrite (is_zero_int w m vm Hm). destruct (Z.eqb_spec vm 0) as [|_]; [lia|]. cbn [orb].
  destruct (Z.odd vx) eqn:OX; cbn [negb].
  2: { exists int_zero, 0. split; auto. split; [apply (zero_int w)|]. split; auto. intros G. exfalso. assert (D : (2 | Z.gcd vx vm)). { apply Z.gcd_greatest; apply Z.mod_divide; try lia; rewrite Zmod_odd; [rewrite OX|rewrite OM]; reflexivity. } rewrite G in D. apply Z.divide_1_r in D. lia. }
  rewrite (compare_int w x int_one vx 1 Hx (one_int w)). destruct (Z.compare_spec vx 1) as [C|C|C]; cbn [Z.eqb].
  - exists int_one, 1. split; auto. split; [apply (one_int w)|]. subst vx. split; [intros _; split; [lia|rewrite Z.mul_1_l, Z.mod_small; lia]|]. intros G. exfalso. apply G. rewrite Z.gcd_comm. apply Z.gcd_1_r.
  - assert (vx = 0) by lia. subst. discriminate.
  - destruct (modulo_int w m x vm vx Hwb Hm Hx ltac:(lia)) as (t & Et & Ht). rewrite Z.abs_eq in Ht by lia. pose proof (modulo_len m x t (proj1 Hm) (proj1 Hx) ltac:(rewrite (proj2 Hx); lia) Et) as LT. rewrite Et. cbn [rbind].
    pose proof (Z.mod_pos_bound vm vx ltac:(lia)). destruct (inverse_odd_int t x _ _ Ht Hx ltac:(lia) ltac:(lia) (odd_mod _ OX) ltac:(lia)) as (u & vu & Eu & Hu & I1 & I2). rewrite Eu. cbn [rbind]. rewrite (is_zero_int w u vu Hu).
    rewrite Z.gcd_mod in I1, I2 by lia. destruct (Z.eq_dec (Z.gcd vx vm) 1) as [G|G].
    + destruct (I1 G) as [B1 B2]. destruct (Z.eqb_spec vu 0); [lia|].
      pose proof (plus_int w _ _ _ _ (times_int w _ _ _ _ Hm (minus_int w _ _ _ _ Hx Hu)) (one_int w)) as Hn.
      destruct (divided_by_int w _ x _ vx Hwb Hn Hx ltac:(lia)) as (q & Eq & Hq). rewrite Eq. rewrite Z.sgn_pos, Z.mul_1_l, Z.abs_eq in Hq by lia.
      rewrite Z.mul_mod_idemp_l in B2 by lia. pose proof (Z.div_mod (vm * vu) vx ltac:(lia)) as DM. rewrite B2 in DM. set (z := vm * vu / vx) in *.
      assert (EE : vm * (vx - vu) + 1 = (vm - z) * vx) by (rewrite Z.mul_sub_distr_l, DM; ring). rewrite EE, Z.div_mul in Hq by lia.
      exists q, (vm - z). split; auto. split; auto. split; [|congruence]. intros _.
      assert (RB : 0 < (vm - z) * vx < vm * vx) by (rewrite <- EE; nia). split; [nia|]. apply (mod1_of _ _ (vx - vu)); [lia|]. lia.
    + rewrite (I2 G). cbn. exists int_zero, 0. split; auto. split; [apply (zero_int w)|]. split; congruence.
Qed.
Lemma inverse_of_mod x m r : 0 < m -> inverse_of (x mod m) m r -> inverse_of x m r.
Proof.
  intros Hm [H1 H2]. assert (G : Z.gcd (x mod m) m = Z.gcd x m) by (rewrite Z.gcd_mod by lia; apply Z.gcd_comm). rewrite G in *. split; auto. intros E. destruct (H1 E) as [A1 A2]. split; auto. rewrite Z.mul_mod_idemp_l in A2 by lia. auto.
Qed.
Theorem inverse_mod_int x m vx vm : is_int x vx -> is_int m vm -> 1 < vm -> (0 <= vx < vm -> (length (reg x) <= 2 * length (reg m))%nat) ->
  exists r vr, inverse_mod w x m = ROk r /\ is_int r vr /\ inverse_of vx vm vr.
Proof.
  intros Hx Hm L2 LX. unfold inverse_mod. rewrite (is_int_neg w _ _ Hx), (compare_int w _ _ _ _ Hx Hm).
  assert (RED : exists r vr, rbind (modulo w x m) (fun t => inverse_next w t m) = ROk r /\ is_int r vr /\ inverse_of vx vm vr).
  { destruct (modulo_int w x m vx vm Hwb Hx Hm ltac:(lia)) as (t & Et & Ht). rewrite Z.abs_eq in Ht by lia. pose proof (modulo_len x m t (proj1 Hx) (proj1 Hm) ltac:(rewrite (proj2 Hm); lia) Et) as LT. rewrite Et. cbn [rbind].
    destruct (inverse_next_int t m _ _ Ht Hm (Z.mod_pos_bound vx vm ltac:(lia)) L2 ltac:(lia)) as (r & vr & E & Hr & I). exists r, vr. split; auto. split; auto. apply inverse_of_mod; auto; lia. }
  destruct (Z.ltb_spec vx 0); auto. destruct (Z.compare_spec vx vm); auto. cbn. apply inverse_next_int; auto; lia.
Qed.

(** ** Greatest common divisors *)
Lemma gcd_loop_int : forall fuel g0 g1 v0 v1, is_int g0 v0 -> is_int g1 v1 -> (Z.to_nat (Z.abs v1) < fuel)%nat ->
  exists r vr, gcd_loop w fuel g0 g1 = ROk r /\ is_int r vr /\ Z.abs vr = Z.gcd v0 v1 /\ (0 <= v0 -> 0 <= v1 -> 0 <= vr).
Proof.
  induction fuel; intros g0 g1 v0 v1 H0 H1 F; [lia|]. cbn [gcd_loop]. rewrite (compare_int w _ _ _ _ H1 (zero_int w)).
  assert (STEP : v1 <> 0 -> exists r vr, rbind (modulo w g0 g1) (fun t => gcd_loop w fuel g1 t) = ROk r /\ is_int r vr /\ Z.abs vr = Z.gcd v0 v1 /\ (0 <= v0 -> 0 <= v1 -> 0 <= vr)).
  { intros N. destruct (modulo_int w g0 g1 v0 v1 Hwb H0 H1 N) as (t & E & Ht). rewrite E. cbn [rbind]. pose proof (Z.mod_pos_bound v0 (Z.abs v1) ltac:(lia)).
    destruct (IHfuel g1 t _ _ H1 Ht ltac:(lia)) as (r & vr & Er & Hr & G & S). exists r, vr. split; auto. split; auto. split; [|intros; apply S; lia].
    rewrite G. rewrite <- (Z.gcd_abs_l v1). rewrite Z.gcd_comm, Z.gcd_mod by lia. rewrite Z.gcd_abs_l. apply Z.gcd_comm. }
  destruct (Z.compare_spec v1 0) as [->|L|L]; cbn [Z.eqb]; [|apply STEP; lia|apply STEP; lia]. exists g0, v0. split; auto. split; auto. split; auto. symmetry. apply Z.gcd_0_r.
Qed.
Theorem int_gcd_int a b va vb fuel : is_int a va -> is_int b vb -> (Z.to_nat (Z.abs va) < fuel)%nat ->
  exists r vr, int_gcd w fuel a b = ROk r /\ is_int r vr /\ Z.abs vr = Z.gcd va vb /\ (0 <= va -> 0 <= vb -> 0 <= vr).
Proof.
  intros Ha Hb F. destruct (gcd_loop_int fuel _ _ _ _ (copy_int w _ _ Hb) (copy_int w _ _ Ha) F) as (r & vr & E & H & G & S). exists r, vr. rewrite Z.gcd_comm in G. auto.
Qed.

(** ** The inverse modulo a word *)
Lemma inv_word_loop_spec x m : 1 < m < B -> forall fuel g0 g1 v0 v1 q0 q1, 1 < g0 <= m -> 0 <= g1 < g0 -> 0 <= v0 -> 0 < v1 -> g0 * v1 + g1 * v0 = m -> x * v1 = g1 + m * q1 -> x * v0 = - g0 + m * q0 -> Z.gcd g0 g1 = Z.gcd x m ->
  (Z.to_nat g1 < fuel)%nat -> exists r, inv_word_loop w fuel m g0 g1 v0 v1 = ROk r /\ inverse_of x m r.
Proof.
  intros Hm. induction fuel; intros g0 g1 v0 v1 q0 q1 G0 G1 V0 V1 I X1 X0 GG F; [lia|]. cbn [inv_word_loop].
  assert (ZERO : forall g, 1 < g -> Z.gcd x m = g -> exists r, ROk 0 = ROk r /\ inverse_of x m r) by (intros g A1 A2; exists 0; split; auto; split; [rewrite A2; lia|auto]).
  destruct (Z.eqb_spec g1 0) as [E|N]. { subst g1. rewrite Z.gcd_0_r, Z.abs_eq in GG by lia. apply (ZERO g0); lia. }
  destruct (Z.eqb_spec g1 1) as [E|N1]. { subst g1. exists v1. split; auto. split; [|rewrite <- GG, Z.gcd_1_r; congruence]. intros _. split; [|apply (mod1_of _ _ q1); lia]. split; auto. nia. }
  set (y := g0 / g1). pose proof (Z.div_mod g0 g1 ltac:(lia)) as DM. fold y in DM. pose proof (Z.mod_pos_bound g0 g1 ltac:(lia)) as MB. set (h0 := g0 mod g1) in *.
  assert (YP : 0 < y) by (apply Z.div_str_pos; lia). assert (I' : h0 * v1 + g1 * (v0 + y * v1) = m) by (rewrite <- I, DM; ring).
  assert (YV : 0 < y * v1) by (apply Z.mul_pos_pos; auto). assert (UB : v0 + y * v1 < m) by (clear - I' YV V0 MB V1 N N1 G1; nia). rewrite (wd_small w (y * v1)) by lia. rewrite (wd_small w (v0 + y * v1)) by lia. set (u0 := v0 + y * v1) in *.
  assert (U0 : 0 < u0) by (unfold u0; lia). assert (X0' : x * u0 = - h0 + m * (q0 + y * q1)). { unfold u0. rewrite Z.mul_add_distr_l, X0. replace (x * (y * v1)) with (y * (x * v1)) by ring. rewrite X1. transitivity (- (g0 - g1 * y) + m * (q0 + y * q1)); [ring|]. f_equal. lia. }
  assert (GG' : Z.gcd g1 h0 = Z.gcd x m) by (rewrite <- GG; unfold h0; rewrite Z.gcd_comm, Z.gcd_mod by lia; apply Z.gcd_comm).
  destruct (Z.eqb_spec h0 0) as [E|N2]. { rewrite E, Z.gcd_0_r, Z.abs_eq in GG' by lia. apply (ZERO g1); lia. }
  destruct (Z.eqb_spec h0 1) as [E|N3]. { rewrite (wd_small w (m - u0)) by lia. exists (m - u0). split; auto. split; [|rewrite <- GG', E, Z.gcd_1_r; congruence]. intros _. split; [lia|]. apply (mod1_of _ _ (x - (q0 + y * q1))); [lia|]. rewrite Z.mul_sub_distr_l, X0', E. ring. }
  set (z := g1 / h0). pose proof (Z.div_mod g1 h0 ltac:(lia)) as DM2. fold z in DM2. pose proof (Z.mod_pos_bound g1 h0 ltac:(lia)) as MB2. set (h1 := g1 mod h0) in *.
  assert (ZP : 0 < z) by (apply Z.div_str_pos; lia). assert (I2 : h0 * (v1 + z * u0) + h1 * u0 = m) by (rewrite <- I', DM2; ring).
  assert (ZV : 0 < z * u0) by (apply Z.mul_pos_pos; auto). assert (UB2 : v1 + z * u0 < m) by (clear - I2 ZV V1 MB MB2 U0 N2 N3; nia). rewrite (wd_small w (z * u0)) by lia. rewrite (wd_small w (v1 + z * u0)) by lia.
  apply (IHfuel h0 h1 u0 (v1 + z * u0) (q0 + y * q1) (q1 + z * (q0 + y * q1))); try lia.
  - rewrite Z.mul_add_distr_l, X1. replace (x * (z * u0)) with (z * (x * u0)) by ring. rewrite X0'. transitivity (g1 - h0 * z + m * (q1 + z * (q0 + y * q1))); [ring|]. f_equal. lia.
  - rewrite <- GG'. unfold h1. rewrite Z.gcd_comm, Z.gcd_mod by lia. apply Z.gcd_comm.
Qed.
Theorem inverse_word_int x vx m fuel : is_int x vx -> 1 < m < B -> (Z.of_nat (length (reg x)) <= B) -> (Z.to_nat m < fuel)%nat -> exists r, inverse_word w fuel x m = ROk r /\ inverse_of vx m r.
Proof.
  intros Hx Hm HL F. unfold inverse_word. rewrite (modulo_word_int w x vx m) by (auto; lia). cbn [rbind]. pose proof (Z.mod_pos_bound vx m ltac:(lia)).
  destruct (inv_word_loop_spec (vx mod m) m Hm fuel m (vx mod m) 0 1 1 0) as (r & E & I); try lia. { rewrite Z.gcd_comm. reflexivity. }
  exists r. split; auto. apply inverse_of_mod; auto; lia.
Qed.
End Int.
