(** Proofs about the RSA trapdoor function. *)
From Coq Require Import ZArith Znumtheory List Bool Arith Lia.
From Verif Require Import Base AsnModel WordsModel WordsSpec WordsProofs IntegerModel IntegerSpec IntegerProofs IntegerBitProofs IntegerDivProofs IntegerCodecProofs IntegerInvProofs
  ModModel ModSpec ModProofs AlgebraModel AlgebraSpec AlgebraProofs AlgebraModProofs NumberTheory NbModel NbSpec NbProofs NbRootProofs NbRandomProofs RsaModel RsaSpec.
Import ListNotations.
Local Open Scope Z_scope.

(** ** The exponents *)
Section Num.
Variable m : rsa_numbers.
Hypothesis He : rsa_equations m.
Notation n := (n_ m). Notation e := (e_ m). Notation d := (d_ m). Notation p := (p_ m). Notation q := (q_ m). Notation dp := (dp_ m). Notation dq := (dq_ m). Notation u := (u_ m).
Lemma mod_of_lcm a l k : 0 < k -> (k | l) -> 0 < l -> a mod l = 1 -> a mod k = 1 mod k.
Proof. intros K [c ->] L E. rewrite <- E. symmetry. rewrite Z.mul_comm in *. destruct (Z.eq_dec c 0); [subst; lia|]. assert (0 < c) by nia. rewrite Z.rem_mul_r by lia. rewrite (Z.mul_comm k), Z.mod_add by lia. apply Z.mod_mod. lia. Qed.
Lemma lcm_pos : 0 < Z.lcm (p - 1) (q - 1).
Proof. destruct He as (E1 & (P1 & _) & (Q1 & _) & _). pose proof (Z.lcm_nonneg (p - 1) (q - 1)). destruct (Z.eq_dec (Z.lcm (p - 1) (q - 1)) 0) as [Z0|]; [|lia]. apply Z.lcm_eq_0 in Z0. lia. Qed.
Lemma ed_p : (e * d) mod (p - 1) = 1 mod (p - 1).
Proof. destruct He as (E1 & (P1 & _) & (Q1 & _) & _ & _ & ED & _). apply (mod_of_lcm _ (Z.lcm (p - 1) (q - 1))); auto using lcm_pos; [lia|apply Z.divide_lcm_l]. Qed.
Lemma ed_q : (e * d) mod (q - 1) = 1 mod (q - 1).
Proof. destruct He as (E1 & (P1 & _) & (Q1 & _) & _ & _ & ED & _). apply (mod_of_lcm _ (Z.lcm (p - 1) (q - 1))); auto using lcm_pos; [lia|apply Z.divide_lcm_r]. Qed.
Lemma edp : (e * dp) mod (p - 1) = 1 mod (p - 1).
Proof. pose proof ed_p. destruct He as (E1 & (P1 & _) & (Q1 & _) & _ & _ & ED & -> & _). rewrite Z.mul_mod_idemp_r by lia. auto. Qed.
Lemma edq : (e * dq) mod (q - 1) = 1 mod (q - 1).
Proof. pose proof ed_q. destruct He as (E1 & (P1 & _) & (Q1 & _) & _ & _ & ED & _ & -> & _). rewrite Z.mul_mod_idemp_r by lia. auto. Qed.
Lemma ed_odd : e mod 2 = 1 /\ d mod 2 = 1 /\ dp mod 2 = 1 /\ dq mod 2 = 1 /\ n mod 2 = 1.
Proof.
  pose proof ed_p as EP. destruct He as (E1 & (P1 & P2) & (Q1 & Q2) & E & D & ED & F1 & F2 & _).
  assert (P3 : exists a, p - 1 = 2 * a /\ 0 < a) by (exists (p / 2); pose proof (Z.div_mod p 2 ltac:(lia)); lia). assert (Q3 : exists a, q - 1 = 2 * a /\ 0 < a) by (exists (q / 2); pose proof (Z.div_mod q 2 ltac:(lia)); lia).
  destruct P3 as (a & Pa & Pa0). destruct Q3 as (b & Qb & Qb0).
  assert (M : (e * d) mod 2 = 1). { pose proof lcm_pos. change 1 with (1 mod 2). apply (mod_of_lcm _ (Z.lcm (p - 1) (q - 1))); auto; [lia|]. apply Z.divide_trans with (p - 1); [exists a; lia|apply Z.divide_lcm_l]. }
  rewrite Z.mul_mod in M by lia. pose proof (Z.mod_pos_bound e 2 ltac:(lia)). pose proof (Z.mod_pos_bound d 2 ltac:(lia)).
  assert (EO : e mod 2 = 1). { destruct (Z.eq_dec (e mod 2) 1); auto. replace (e mod 2) with 0 in M by lia. discriminate. }
  assert (DO : d mod 2 = 1). { destruct (Z.eq_dec (d mod 2) 1); auto. replace (d mod 2) with 0 in M by lia. rewrite Z.mul_0_r in M. discriminate. }
  split; auto. split; auto. rewrite F1, F2, Pa, Qb. rewrite !Z.rem_mul_r, DO by lia. split; [|split].
  - rewrite (Z.mul_comm 2), Z.mod_add by lia. reflexivity.
  - rewrite (Z.mul_comm 2), Z.mod_add by lia. reflexivity.
  - rewrite E1, Z.mul_mod, P2, Q2 by lia. reflexivity.
Qed.
Lemma n_big : 2 < n /\ p < n /\ q < n.
Proof. destruct He as (E1 & (P1 & P2) & (Q1 & Q2) & _). assert (p <> 2) by (intros Q; rewrite Q in P2; discriminate). nia. Qed.
Lemma coprime_pq : Z.gcd p q = 1.
Proof. destruct He as (_ & (P1 & _) & _ & _ & _ & _ & _ & _ & _ & _ & U1 & U). rewrite Z.gcd_comm. apply (unit_coprime q p u); auto. Qed.
End Num.
Lemma rsa_exponent m x : rsa_key m -> eqm (n_ m) (x ^ (e_ m * d_ m)) x.
Proof.
  intros (Pp & Pq & He). pose proof (ed_p m He). pose proof (ed_q m He). pose proof (coprime_pq m He). destruct He as (-> & (P1 & _) & (Q1 & _) & E & D & _).
  apply eqm_product; try lia; auto; apply rsa_prime; auto; nia.
Qed.

Section Rsa.
Variable w : Z.
Hypothesis Hwb : word_bits w.
Local Instance Hbig : bigw w := word_bits_big w Hwb.
Notation is_int := (is_int w).

Lemma gt_int x y vx vy : is_int x vx -> is_int y vy -> gt_ x y = (vy <? vx).
Proof. apply (cmp_gt w Hwb). Qed.
Lemma lt_int x y vx vy : is_int x vx -> is_int y vy -> lt_ x y = (vx <? vy).
Proof. intros Hx Hy. unfold lt_. rewrite (compare_int w _ _ _ _ Hx Hy). destruct (Z.compare_spec vx vy); symmetry; [apply Z.ltb_ge|apply Z.ltb_lt|apply Z.ltb_ge]; lia. Qed.
Lemma eq_int x y vx vy : is_int x vx -> is_int y vy -> eq_ x y = (vx =? vy).
Proof. apply (cmp_eq w Hwb). Qed.
Lemma odd_int x v : is_int x v -> is_odd w x = Z.odd v. Proof. apply (odd_V w Hwb). Qed.
Lemma odd_is v : Z.odd v = true <-> v mod 2 = 1. Proof. rewrite Zmod_odd. destruct (Z.odd v); split; intros; auto; discriminate. Qed.
Lemma positive_int x v : is_int x v -> is_positive x = (0 <? v).
Proof. intros H. unfold is_positive. rewrite (is_int_neg w _ _ H), (is_zero_int w _ _ H). destruct (Z.ltb_spec v 0), (Z.eqb_spec v 0), (Z.ltb_spec 0 v); auto; lia. Qed.
Lemma validate_public_int n e vn ve : is_int n vn -> is_int e ve -> validate_public w n e = true <-> 1 < vn /\ vn mod 2 = 1 /\ 1 < ve < vn /\ ve mod 2 = 1.
Proof.
  intros Hn He. unfold validate_public. rewrite !(gt_int _ _ _ _ Hn (one_int w)), !(gt_int _ _ _ _ He (one_int w)), (lt_int _ _ _ _ He Hn), (odd_int _ _ Hn), (odd_int _ _ He). rewrite !andb_true_iff, !Z.ltb_lt, !odd_is. tauto.
Qed.
Definition quick (m : rsa_numbers) : Prop :=
  (1 < n_ m /\ n_ m mod 2 = 1 /\ 1 < e_ m < n_ m /\ e_ m mod 2 = 1) /\ (1 < p_ m < n_ m /\ p_ m mod 2 = 1) /\ (1 < q_ m < n_ m /\ q_ m mod 2 = 1) /\ (1 < d_ m < n_ m /\ d_ m mod 2 = 1) /\
  (1 < dp_ m < p_ m /\ dp_ m mod 2 = 1) /\ (1 < dq_ m < q_ m /\ dq_ m mod 2 = 1) /\ 0 < u_ m < p_ m.
Lemma validate_0_int k m : holds w k m -> validate_0 w k = true <-> quick m.
Proof.
  intros (Hn & He & Hd & Hp & Hq & Hdp & Hdq & Hu). unfold validate_0, quick. rewrite !andb_true_iff, (validate_public_int _ _ _ _ Hn He).
  rewrite (gt_int _ _ _ _ Hp (one_int w)), (gt_int _ _ _ _ Hq (one_int w)), (gt_int _ _ _ _ Hd (one_int w)), (gt_int _ _ _ _ Hdp (one_int w)), (gt_int _ _ _ _ Hdq (one_int w)), (positive_int _ _ Hu).
  rewrite (odd_int _ _ Hp), (odd_int _ _ Hq), (odd_int _ _ Hd), (odd_int _ _ Hdp), (odd_int _ _ Hdq).
  rewrite (lt_int _ _ _ _ Hp Hn), (lt_int _ _ _ _ Hq Hn), (lt_int _ _ _ _ Hd Hn), (lt_int _ _ _ _ Hdp Hp), (lt_int _ _ _ _ Hdq Hq), (lt_int _ _ _ _ Hu Hp). rewrite !Z.ltb_lt, !odd_is. tauto.
Qed.
Lemma equations_quick m : rsa_equations m -> quick m.
Proof.
  intros He. pose proof (ed_odd m He) as (O1 & O2 & O3 & O4 & O5). pose proof (n_big m He) as (N1 & N2 & N3). destruct He as (E1 & (P1 & P2) & (Q1 & Q2) & E & D & ED & F1 & F2 & F3 & F4 & U & _).
  assert (dp_ m < p_ m) by (rewrite F1; pose proof (Z.mod_pos_bound (d_ m) (p_ m - 1) ltac:(lia)); lia). assert (dq_ m < q_ m) by (rewrite F2; pose proof (Z.mod_pos_bound (d_ m) (q_ m - 1) ltac:(lia)); lia).
  unfold quick. intuition lia.
Qed.
Lemma lcm_int fuel a b va vb : is_int a va -> is_int b vb -> 0 < va -> 0 < vb -> (Z.to_nat va < fuel)%nat -> exists r, int_lcm w fuel a b = ROk r /\ is_int r (Z.lcm va vb).
Proof.
  intros Ha Hb A B F. unfold int_lcm. destruct (int_gcd_int w Hwb a b va vb fuel Ha Hb ltac:(lia)) as (g & vg & E & Hg & G & S). rewrite E. cbn [rbind]. specialize (S ltac:(lia) ltac:(lia)). rewrite Z.abs_eq in G by auto. subst vg.
  assert (N : 0 < Z.gcd va vb). { destruct (Z.eq_dec (Z.gcd va vb) 0) as [Q|]; [|lia]. apply Z.gcd_eq_0_l in Q. lia. }
  destruct (divided_by_int w a g va _ Hwb Ha Hg ltac:(lia)) as (x & Ex & Hx). rewrite Ex. cbn [rbind]. rewrite Z.sgn_pos, Z.mul_1_l, Z.abs_eq in Hx by lia. eexists. split; [reflexivity|].
  pose proof (times_int w _ _ _ _ Hx Hb) as T. replace (Z.lcm va vb) with (va / Z.gcd va vb * vb); auto.
  unfold Z.lcm. destruct (Z.gcd_divide_l va vb) as [c Hc]. destruct (Z.gcd_divide_r va vb) as [c' Hc']. clear - A B N Hc Hc'. generalize dependent (Z.gcd va vb). intros g' N Hc Hc'. rewrite Hc, Hc', !Z.div_mul by lia. assert (0 <= c') by nia. assert (0 <= c) by nia. rewrite Z.abs_eq by nia. ring.
Qed.
Theorem validate_1_int fuel k m : holds w k m -> (Z.to_nat (p_ m) < fuel)%nat -> exists b, validate_1 w fuel k = ROk b /\ (b = true <-> rsa_equations m).
Proof.
  intros Hk F. pose proof (validate_0_int k m Hk) as V0. destruct Hk as (Hn & He & Hd & Hp & Hq & Hdp & Hdq & Hu). unfold validate_1. destruct (validate_0 w k) eqn:E0; cbn [and_then].
  2: { exists false. split; auto. split; [discriminate|]. intros H. apply equations_quick in H. apply V0 in H. discriminate. }
  pose proof (proj1 V0 eq_refl) as Q. clear V0. destruct Q as ((N1 & N2 & E1 & E2) & (P1 & P2) & (Q1 & Q2) & (D1 & D2) & (DP1 & DP2) & (DQ1 & DQ2) & U).
  rewrite (eq_int _ _ _ _ (times_int w _ _ _ _ Hp Hq) Hn). destruct (Z.eqb_spec (p_ m * q_ m) (n_ m)) as [EN|EN]; cbn [and_then].
  2: { exists false. split; auto. split; [discriminate|]. intros (H & _). congruence. }
  pose proof (minus_int w _ _ _ _ Hp (one_int w)) as Hp1. pose proof (minus_int w _ _ _ _ Hq (one_int w)) as Hq1.
  destruct (lcm_int fuel _ _ _ _ Hp1 Hq1 ltac:(lia) ltac:(lia) ltac:(lia)) as (l & -> & Hl). cbn [rbind]. assert (LP : 0 < Z.lcm (p_ m - 1) (q_ m - 1)). { pose proof (Z.lcm_nonneg (p_ m - 1) (q_ m - 1)). destruct (Z.eq_dec (Z.lcm (p_ m - 1) (q_ m - 1)) 0) as [Z0|]; [|lia]. apply Z.lcm_eq_0 in Z0. lia. }
  destruct (modulo_pos w Hwb _ l _ _ (times_int w _ _ _ _ He Hd) Hl LP) as (t & -> & Ht). cbn [rbind]. rewrite (eq_int _ _ _ _ Ht (one_int w)). destruct (Z.eqb_spec ((e_ m * d_ m) mod Z.lcm (p_ m - 1) (q_ m - 1)) 1) as [ED|ED]; cbn [and_then].
  2: { exists false. split; auto. split; [discriminate|]. intros (_ & _ & _ & _ & _ & H & _). congruence. }
  destruct (modulo_pos w Hwb _ _ _ _ Hd Hp1 ltac:(lia)) as (rp & -> & Hrp). cbn [rbind]. destruct (modulo_pos w Hwb _ _ _ _ Hd Hq1 ltac:(lia)) as (rq & -> & Hrq). cbn [rbind].
  rewrite (eq_int _ _ _ _ Hdp Hrp), (eq_int _ _ _ _ Hdq Hrq). destruct (Z.eqb_spec (dp_ m) (d_ m mod (p_ m - 1))) as [R1|R1]; cbn [andb].
  2: { cbn [and_then]. exists false. split; auto. split; [discriminate|]. intros (_ & _ & _ & _ & _ & _ & H & _). congruence. }
  destruct (Z.eqb_spec (dq_ m) (d_ m mod (q_ m - 1))) as [R2|R2]; cbn [and_then].
  2: { exists false. split; auto. split; [discriminate|]. intros (_ & _ & _ & _ & _ & _ & _ & H & _). congruence. }
  destruct (modulo_pos w Hwb _ _ _ _ (times_int w _ _ _ _ Hu Hq) Hp ltac:(lia)) as (ru & -> & Hru). cbn [rbind]. rewrite (eq_int _ _ _ _ Hru (one_int w)). eexists. split; [reflexivity|]. rewrite Z.eqb_eq. unfold rsa_equations. intuition lia.
Qed.

Theorem apply_int fuel n e x vn ve v : is_int n vn -> is_int e ve -> is_int x v -> 1 < vn -> vn mod 2 = 1 -> 1 < ve < vn -> ve mod 2 = 1 -> ve < 2 ^ (Z.of_nat fuel - 1) ->
  exists r, apply_function w fuel n e x = ROk r /\ is_int r (v ^ ve mod vn).
Proof.
  intros Hn He Hx N1 N2 E1 E2 F. unfold apply_function. rewrite (proj2 (validate_public_int _ _ _ _ Hn He)) by auto. apply (exp_pos w Hwb); auto. lia.
Qed.
Lemma exponentiate_int fuel n x e vn v ve : is_int n vn -> 1 < vn -> is_int x v -> is_int e ve -> 0 <= ve < 2 ^ (Z.of_nat fuel - 1) -> exists r, of_option (exponentiate w fuel (make_mod n) x e) = ROk r /\ is_int r (v ^ ve mod vn).
Proof. intros. apply (exp_pos w Hwb fuel x e n v ve vn); auto. Qed.

(** ** Blinding *)
Lemma blinding_int n vn : is_int n vn -> 2 < vn -> forall rounds blocks, blinding_blocks vn blocks -> (length blocks < rounds)%nat ->
  (blinding w rounds (make_mod n) n blocks = RStuck /\ Forall (fun b => ~ blinds vn b) blocks) \/
  exists r rinv post vr vi, blinding w rounds (make_mod n) n blocks = ROk (r, rinv, post) /\ is_int r vr /\ is_int rinv vi /\ (vr * vi) mod vn = 1.
Proof.
  intros Hn N2. pose proof (make_ok w Hwb n vn Hn ltac:(lia)) as Hok. induction rounds as [|k IH]; intros blocks F L; [lia|]. cbn [blinding]. unfold blinding_blocks in F. pose proof (minus_int w _ _ _ _ Hn (one_int w)) as Hm.
  pose proof (randomize_exact w Hwb int_one _ 1 (vn - 1) blocks (one_int w) Hm ltac:(lia)) as RE. replace (vn - 1 - 1) with (vn - 2) in RE by ring. cbv zeta in RE. destruct (RE F) as [[G ->]|(pre & b & post & r & Eb & G & D & -> & Hr & LR)].
  - left. split; auto. eapply Forall_impl; [|exact G]. intros c Hc [Q _]. cbv beta in Hc. lia.
  - cbn [rbind fst snd]. set (v := 1 + draw (bit_length (vn - 2)) b) in *. assert (V0 : 0 < v < vn) by (unfold v; pose proof (Z.mod_pos_bound (be_val b) (2 ^ Z.of_nat (bit_length (vn - 2))) ltac:(apply Z.pow_pos_nonneg; lia)); unfold draw in *; lia).
    assert (LL : (length (reg r) <= 2 * length (reg (mod_ (make_mod n))))%nat).
    { pose proof (LR ltac:(lia) (mod_ (make_mod n)) vn (proj1 Hok) ltac:(lia)) as Q. destruct (proj1 Hok) as [(_ & P2 & _) _]. apply pow2_ge2 in P2. cbn [reg int_one length] in Q. lia. }
    destruct (ma_mult_inverse_int w Hwb (make_mod n) vn Hok r v Hr ltac:(auto)) as (ri & vi & -> & Hi & I1 & I2). cbn [rbind]. rewrite (is_zero_int w _ _ (proj1 Hi)).
    assert (PRE : Forall (fun c => ~ blinds vn c) pre) by (eapply Forall_impl; [|exact G]; intros c Hc [Q _]; cbv beta in Hc; lia).
    destruct (Z.eq_dec (Z.gcd v vn) 1) as [G1|G1].
    + destruct (I1 G1) as [B1 B2]. destruct (Z.eqb_spec vi 0); [lia|]. right. exists r, ri, post, v, vi. split; auto. split; auto. split; [apply Hi|auto].
    + rewrite (I2 G1). cbn [Z.eqb]. assert (FP : blinding_blocks vn post) by (unfold blinding_blocks, blocks_of in *; rewrite Eb, Forall_app in F; destruct F as [_ F]; inversion F; auto).
      destruct (IH post FP) as [[E A]|E]; [rewrite Eb, app_length in L; cbn [length] in L; lia|left|right; auto]. split; auto. rewrite Eb. apply Forall_app. split; auto. constructor; auto. intros [_ Q]. contradiction.
Qed.

(** ** The inverse *)
(** Whatever the root computation returns, a result is an e-th root of the argument modulo n. *)
Theorem inverse_checked root fuel k m blocks x vx y : holds w k m -> (forall a va r, is_int a va -> root a = ROk r -> exists v, is_int r v) -> is_int x vx -> blinding_blocks (n_ m) blocks -> e_ m < 2 ^ (Z.of_nat fuel - 1) ->
  calculate_inverse_by w root fuel k blocks x = ROk y -> exists v, is_int y v /\ 0 <= v < n_ m /\ v ^ e_ m mod n_ m = vx.
Proof.
  intros Hk Hroot Hx F L E. unfold calculate_inverse_by in E. destruct (validate_0 w k) eqn:V0; [|discriminate]. apply (validate_0_int k m Hk) in V0. destruct V0 as ((N1 & N2 & E1 & E2) & _). destruct Hk as (Hn & He & _).
  assert (N3 : 2 < n_ m) by (destruct (Z.eq_dec (n_ m) 2) as [Q|]; [rewrite Q in N2; discriminate|lia]). pose proof (make_ok w Hwb (k_n k) (n_ m) Hn ltac:(lia)) as Hok.
  destruct (blinding_int (k_n k) (n_ m) Hn N3 (S (length blocks)) blocks F ltac:(lia)) as [[Eb _]|(r & ri & post & vr & vi & Eb & Hr & Hi & Hv)]; rewrite Eb in E; [discriminate|]. cbn [rbind fst snd] in E.
  destruct (exponentiate_int fuel (k_n k) r (k_e k) (n_ m) vr (e_ m) Hn ltac:(lia) Hr He ltac:(lia)) as (re & Er & Hre). rewrite Er in E. cbn [rbind] in E.
  destruct (ma_multiply_int w Hwb (make_mod (k_n k)) (n_ m) Hok re x _ _ Hre Hx) as (rx & Ex & Hrx & _). rewrite Ex in E. cbn [rbind] in E.
  destruct (root rx) as [y0| | | |] eqn:Ey0; try discriminate. cbn [rbind] in E. destruct (Hroot rx _ y0 Hrx Ey0) as (v0 & Hy0).
  destruct (ma_multiply_int w Hwb (make_mod (k_n k)) (n_ m) Hok y0 ri _ _ Hy0 Hi) as (y1 & Ey1 & Hy1 & R1 & _). rewrite Ey1 in E. cbn [rbind] in E.
  destruct (exponentiate_int fuel (k_n k) y1 (k_e k) (n_ m) _ (e_ m) Hn ltac:(lia) Hy1 He ltac:(lia)) as (c & Ec & Hc). rewrite Ec in E. cbn [rbind] in E.
  rewrite (eq_int _ _ _ _ Hc Hx) in E. destruct (Z.eqb_spec (((v0 * vi) mod n_ m) ^ e_ m mod n_ m) vx) as [Q|Q]; cbn [negb] in E; [|discriminate]. injection E as <-. eexists. split; [exact Hy1|]. split; auto.
Qed.
Theorem inverse_int fuel k m blocks x vx : holds w k m -> rsa_key m -> is_int x vx -> 0 <= vx < n_ m -> blinding_blocks (n_ m) blocks -> n_ m < 2 ^ (Z.of_nat fuel - 1) ->
  (calculate_inverse w fuel k blocks x = RStuck /\ Forall (fun b => ~ blinds (n_ m) b) blocks) \/
  exists y, calculate_inverse w fuel k blocks x = ROk y /\ is_int y (vx ^ d_ m mod n_ m).
Proof.
  intros Hk Key Hx Rx F L. pose proof Key as (Pp & Pq & Eq). pose proof (n_big m Eq) as (N1 & N2 & N3). pose proof (equations_quick m Eq) as QK. unfold calculate_inverse, calculate_inverse_by. rewrite (proj2 (validate_0_int k m Hk) QK).
  pose proof (edp m Eq) as EP. pose proof (edq m Eq) as EQ. pose proof (coprime_pq m Eq) as CP. pose proof Hk as (Hn & He & Hd & Hp & Hq & Hdp & Hdq & Hu). pose proof (make_ok w Hwb (k_n k) (n_ m) Hn ltac:(lia)) as Hok.
  destruct QK as ((_ & _ & E1 & _) & _ & _ & (D1 & _) & (DP & _) & (DQ & _) & U). pose proof Eq as (EN & _ & _ & _ & _ & _ & _ & _ & _ & _ & _ & UQ).
  destruct (blinding_int (k_n k) (n_ m) Hn N1 (S (length blocks)) blocks F ltac:(lia)) as [[-> A]|(r & ri & post & vr & vi & -> & Hr & Hi & Hv)]; [left; split; auto|right]. cbn [rbind fst snd].
  destruct (exponentiate_int fuel (k_n k) r (k_e k) (n_ m) vr (e_ m) Hn ltac:(lia) Hr He ltac:(lia)) as (re & -> & Hre). cbn [rbind].
  destruct (ma_multiply_int w Hwb (make_mod (k_n k)) (n_ m) Hok re x _ _ Hre Hx) as (rx & -> & Hrx & _). cbn [rbind].
  destruct (modular_root_int w Hwb fuel rx (k_dq k) (k_dp k) (k_q k) (k_p k) (k_u k) _ (dq_ m) (dp_ m) (q_ m) (p_ m) (u_ m) (e_ m) Hrx Hdq Hdp Hq Hp Hu Pq Pp) as (y0 & v0 & -> & Hy0 & _ & R0 & _); auto; try lia.
  { intros Q. rewrite <- Q, Z.gcd_diag in CP. lia. }
  cbn [rbind]. replace (q_ m * p_ m) with (n_ m) in R0 by (rewrite EN; ring).
  destruct (ma_multiply_int w Hwb (make_mod (k_n k)) (n_ m) Hok y0 ri _ _ Hy0 Hi) as (y1 & -> & Hy1 & R1 & _). cbn [rbind].
  destruct (exponentiate_int fuel (k_n k) y1 (k_e k) (n_ m) _ (e_ m) Hn ltac:(lia) Hy1 He ltac:(lia)) as (c & -> & Hc). cbn [rbind].
  set (y := (v0 * vi) mod n_ m) in *.
  assert (YE : eqm (n_ m) (y ^ e_ m) vx).
  { eapply eqm_trans; [apply eqm_pow, eqm_mod|]. rewrite Z.pow_mul_l. eapply eqm_trans; [apply eqm_mul; [exact R0|apply eqm_refl]|]. eapply eqm_trans; [apply eqm_mul; [apply eqm_mod|apply eqm_refl]|].
    eapply eqm_trans; [apply eqm_mul; [apply eqm_mul; [apply eqm_mod|apply eqm_refl]|apply eqm_refl]|]. replace (vr ^ e_ m * vx * vi ^ e_ m) with ((vr * vi) ^ e_ m * vx) by (rewrite Z.pow_mul_l; ring).
    replace vx with (1 * vx) at 2 by ring. apply eqm_mul; [|apply eqm_refl]. assert (Q : eqm (n_ m) (vr * vi) 1) by (unfold eqm; rewrite Hv, Z.mod_small; lia). eapply eqm_trans; [apply eqm_pow, Q|]. rewrite Z.pow_1_l by lia. apply eqm_refl. }
  rewrite (eq_int _ _ _ _ Hc Hx). destruct (Z.eqb_spec (y ^ e_ m mod n_ m) vx) as [Q|Q]; [|elim Q; unfold eqm in YE; rewrite YE; apply Z.mod_small; auto]. cbn [negb]. exists y1. split; auto.
  replace (vx ^ d_ m mod n_ m) with y; auto. rewrite <- (Z.mod_small y (n_ m)) by auto. change (eqm (n_ m) y (vx ^ d_ m)). eapply eqm_trans; [apply eqm_sym, (rsa_exponent m y Key)|]. rewrite Z.pow_mul_r by lia. apply eqm_pow, YE.
Qed.

(** ** Recovering the factors *)
Lemma split_int fuel n vn : is_int n vn -> 1 < vn -> forall a va j s, is_int a va -> 0 <= va < vn -> va <> 1 -> forall o, split_loop w fuel (make_mod n) n a j s = ROk o ->
  match o with None => True | Some b => exists vb, is_int b vb /\ 0 <= vb < vn /\ vb <> 1 /\ vb <> vn - 1 /\ (vb * vb) mod vn = 1 end.
Proof.
  intros Hn N1. pose proof (make_ok w Hwb n vn Hn ltac:(lia)) as Hok. induction fuel as [|f IH]; intros a va j s Ha R NE o E; [discriminate|]. cbn [split_loop] in E.
  rewrite (eq_int _ _ _ _ Ha (minus_int w _ _ _ _ Hn (one_int w))) in E. destruct (Z.eqb_spec va (vn - 1)) as [Q|Q]; [injection E as <-; exact I|].
  destruct (ma_square_int w Hwb (make_mod n) vn Hok a va Ha) as (b & Eb & Hb & Rb & _). rewrite Eb in E. cbn [rbind] in E. rewrite (eq_int _ _ _ _ Hb (one_int w)) in E. destruct (Z.eqb_spec ((va * va) mod vn) 1) as [Q1|Q1].
  - injection E as <-. exists va. auto.
  - destruct (S j =? s)%nat; [discriminate|]. eapply IH; [exact Hb|exact Rb|exact Q1|exact E].
Qed.
Lemma base_int fuel n vn r vr : is_int n vn -> 1 < vn -> is_int r vr -> 0 <= vr < 2 ^ (Z.of_nat fuel - 1) -> forall rounds i vi s, is_int i vi -> forall a, base_loop w rounds fuel (make_mod n) n r i s = ROk a ->
  exists va, is_int a va /\ 0 <= va < vn /\ va <> 1 /\ va <> vn - 1 /\ (va * va) mod vn = 1.
Proof.
  intros Hn N1 Hr L. induction rounds as [|k IH]; intros i vi s Hi a E; [discriminate|]. cbn [base_loop] in E.
  destruct (exponentiate_int fuel n i r vn vi vr Hn N1 Hi Hr L) as (c & Ec & Hc). rewrite Ec in E. cbn [rbind] in E. rewrite (eq_int _ _ _ _ Hc (one_int w)) in E. destruct (Z.eqb_spec (vi ^ vr mod vn) 1) as [Q|Q].
  - eapply IH; [apply (incr_int w); exact Hi|exact E].
  - destruct (split_loop w fuel (make_mod n) n c 0 s) as [o| | | |] eqn:Es; try discriminate. cbn [rbind] in E. pose proof (split_int fuel n vn Hn N1 c _ 0%nat s Hc ltac:(apply Z.mod_pos_bound; lia) Q o Es) as S. destruct o as [b|].
    + injection E as <-. exact S.
    + eapply IH; [apply (incr_int w); exact Hi|exact E].
Qed.
Theorem initialize_int fuel n e d vn ve vd k : is_int n vn -> is_int e ve -> is_int d vd -> 1 < vn -> 0 < ve -> 0 < vd -> 1 < vd * ve -> Z.max vn (vd * ve) < Z.of_nat fuel -> initialize w fuel n e d = ROk k ->
  exists m, holds w k m /\ n_ m = vn /\ e_ m = ve /\ d_ m = vd /\ p_ m * q_ m = vn /\ 1 < p_ m < vn /\ 1 < q_ m < vn /\ dp_ m = vd mod (p_ m - 1) /\ dq_ m = vd mod (q_ m - 1) /\ inverse_of (q_ m) (p_ m) (u_ m).
Proof.
  intros Hn He Hd N1 E0 D0 DE L E. unfold initialize in E. destruct (negb (is_odd w n) || negb (is_odd w e) || negb (is_odd w d)); [discriminate|].
  pose proof (decr_int w _ _ (times_int w _ _ _ _ Hd He)) as Hr. destruct (halve_even_int w Hwb fuel _ _ 0 Hr ltac:(lia)) as (r & vr & j & Eh & Hr' & R0 & _ & Er). rewrite Eh in E. cbn [rbind fst snd] in E.
  assert (RL : 0 <= vr < 2 ^ (Z.of_nat fuel - 1)). { pose proof (lt_pow2 (Z.of_nat fuel - 1) ltac:(lia)). assert (1 <= 2 ^ Z.of_nat j) by (pose proof (Z.pow_pos_nonneg 2 (Z.of_nat j)); lia). nia. }
  destruct (base_loop w fuel fuel (make_mod n) n r (lit w 2) (0 + j)) as [a| | | |] eqn:Eb; try discriminate. cbn [rbind] in E.
  destruct (base_int fuel n vn r vr Hn N1 Hr' RL fuel _ 2 _ (lit_int w Hwb 2 ltac:(lia)) a Eb) as (va & Ha & Ra & A1 & A2 & A3).
  pose proof (minus_int w _ _ _ _ Ha (one_int w)) as Ha1. destruct (int_gcd_int w Hwb _ n _ vn fuel Ha1 Hn ltac:(lia)) as (p & vp & Ep & Hp & G & S). rewrite Ep in E. cbn [rbind] in E.
  assert (A0 : va <> 0). { intros ->. rewrite Z.mod_0_l in A3 by lia. discriminate. } specialize (S ltac:(lia) ltac:(lia)). rewrite Z.abs_eq in G by auto. subst vp.
  set (g := Z.gcd (va - 1) vn) in *. destruct (Z.gcd_divide_l (va - 1) vn) as [c Hc]. destruct (Z.gcd_divide_r (va - 1) vn) as [c' Hc']. fold g in Hc, Hc'.
  assert (G0 : 0 < g) by (destruct (Z.eq_dec g 0) as [Q|]; [rewrite Q in Hc'|]; lia). assert (G1 : g < vn) by (pose proof (Z.divide_pos_le g (va - 1) ltac:(lia) (ex_intro _ c Hc)); lia).
  assert (G2 : 1 < g). { destruct (Z.eq_dec g 1) as [Q|]; [|lia]. exfalso. assert (D : (vn | va + 1)). { apply (Z.gauss vn (va - 1) (va + 1)); [|rewrite Z.gcd_comm; exact Q]. replace ((va - 1) * (va + 1)) with (va * va - 1) by ring. apply Z.mod_divide; [lia|]. rewrite Zminus_mod, A3, (Z.mod_small 1) by lia. apply Z.mod_0_l. lia. }
    apply Z.divide_pos_le in D; lia. }
  destruct (divided_by_int w n p vn g Hwb Hn Hp ltac:(lia)) as (q & Eq & Hq). rewrite Eq in E. cbn [rbind] in E. rewrite Z.sgn_pos, Z.mul_1_l, Z.abs_eq in Hq by lia. assert (VQ : vn / g = c') by (rewrite Hc'; apply Z.div_mul; lia). rewrite VQ in Hq. assert (CP : 1 < c' < vn) by (clear - Hc' G0 G1 G2; nia).
  destruct (modulo_pos w Hwb _ _ _ _ Hd (minus_int w _ _ _ _ Hp (one_int w)) ltac:(lia)) as (dp & Edp & Hdp). rewrite Edp in E. cbn [rbind] in E. destruct (modulo_pos w Hwb _ _ _ _ Hd (minus_int w _ _ _ _ Hq (one_int w)) ltac:(lia)) as (dq & Edq & Hdq). rewrite Edq in E. cbn [rbind] in E.
  destruct (inverse_mod_int w Hwb q p c' g Hq Hp G2) as (u & vu & Eu & Hu & I). { intros R. apply (quotient_len w Hwb n p vn g q Hn Hp); auto; try lia. nia. }
  rewrite Eu in E. cbn [rbind] in E. injection E as <-. exists (mkNum vn ve vd g c' (vd mod (g - 1)) (vd mod (c' - 1)) vu). unfold holds. cbn [k_n k_e k_d k_p k_q k_dp k_dq k_u n_ e_ d_ p_ q_ dp_ dq_ u_].
  split; [split; [auto|split; [auto|split; [auto|split; [auto|split; [auto|split; [auto|split; auto]]]]]]|]. do 3 (split; [reflexivity|]). split; [lia|]. split; [auto|]. split; [auto|]. do 2 (split; [reflexivity|]). exact I.
Qed.

(** ** Key generation *)
Theorem generate_int fuel e p q ve vp vq : is_int e ve -> is_int p vp -> is_int q vq -> 2 < vp -> 2 < vq -> prime vp -> prime vq -> 0 < ve -> Z.gcd ve (vp - 1) = 1 -> Z.gcd ve (vq - 1) = 1 -> (Z.to_nat vp < fuel)%nat ->
  (forall l, int_lcm w fuel (minus w p int_one) (minus w q int_one) = ROk l -> (length (reg e) <= 2 * length (reg l))%nat) -> (length (reg q) <= 2 * length (reg p))%nat ->
  exists o, generate_from w fuel e p q = ROk o /\ (o = None <-> vp = vq) /\ forall k, o = Some k -> exists m, holds w k m /\ n_ m = vp * vq /\ e_ m = ve /\ p_ m = vp /\ q_ m = vq /\
    (0 < d_ m < n_ m /\ (ve * d_ m) mod Z.lcm (vp - 1) (vq - 1) = 1) /\ dp_ m = d_ m mod (vp - 1) /\ dq_ m = d_ m mod (vq - 1) /\ 0 < u_ m < vp /\ (u_ m * vq) mod vp = 1.
Proof.
  intros He Hp Hq P2 Q2 Pp Pq E0 G1 G2 F Ll Lq. unfold generate_from. pose proof (minus_int w _ _ _ _ Hp (one_int w)) as Hp1. pose proof (minus_int w _ _ _ _ Hq (one_int w)) as Hq1.
  destruct (lcm_int fuel _ _ _ _ Hp1 Hq1 ltac:(lia) ltac:(lia) ltac:(lia)) as (l & El & Hl). specialize (Ll l El). rewrite El. cbn [rbind].
  assert (LP : 1 < Z.lcm (vp - 1) (vq - 1)). { pose proof (Z.divide_lcm_l (vp - 1) (vq - 1)) as D. pose proof (Z.lcm_nonneg (vp - 1) (vq - 1)). destruct (Z.eq_dec (Z.lcm (vp - 1) (vq - 1)) 0) as [Q|Q]; [apply Z.lcm_eq_0 in Q; lia|]. apply Z.divide_pos_le in D; lia. }
  destruct (inverse_mod_int w Hwb e l ve _ He Hl LP ltac:(auto)) as (d & vd & -> & Hd & I1 & _). cbn [rbind].
  assert (GL : Z.gcd ve (Z.lcm (vp - 1) (vq - 1)) = 1).
  { apply Zgcd_1_rel_prime. assert (R : rel_prime ve ((vp - 1) * (vq - 1))) by (apply rel_prime_mult; apply Zgcd_1_rel_prime; auto). apply rel_prime_sym. eapply rel_prime_div; [apply rel_prime_sym; exact R|]. apply Z.lcm_least; [exists (vq - 1); ring|exists (vp - 1); ring]. }
  destruct (I1 GL) as [D1 D2]. destruct (modulo_pos w Hwb _ _ _ _ Hd Hp1 ltac:(lia)) as (dp & -> & Hdp). cbn [rbind]. destruct (modulo_pos w Hwb _ _ _ _ Hd Hq1 ltac:(lia)) as (dq & -> & Hdq). cbn [rbind].
  destruct (inverse_mod_int w Hwb q p vq vp Hq Hp ltac:(lia) ltac:(auto)) as (u & vu & -> & Hu & I2 & I3). cbn [rbind]. eexists. split; [reflexivity|]. rewrite (is_zero_int w _ _ Hu).
  assert (GPQ : Z.gcd vq vp = 1 <-> vp <> vq). { split; [intros G Q; rewrite Q, Z.gcd_diag in G; lia|intros Q; apply primes_coprime; auto]. }
  assert (LB : Z.lcm (vp - 1) (vq - 1) < vp * vq). { assert (D : (Z.lcm (vp - 1) (vq - 1) | (vp - 1) * (vq - 1))) by (apply Z.lcm_least; [exists (vq - 1); ring|exists (vp - 1); ring]). apply Z.divide_pos_le in D; nia. }
  destruct (Z.eq_dec vp vq) as [Q|Q].
  - rewrite (I3 ltac:(tauto)). cbn [Z.eqb]. split; [tauto|discriminate].
  - destruct (I2 (proj2 GPQ Q)) as [U1 U2]. destruct (Z.eqb_spec vu 0); [lia|]. split; [split; [discriminate|tauto]|]. intros k K. injection K as <-. exists (mkNum (vp * vq) ve vd vp vq (vd mod (vp - 1)) (vd mod (vq - 1)) vu).
    unfold holds. cbn [k_n k_e k_d k_p k_q k_dp k_dq k_u n_ e_ d_ p_ q_ dp_ dq_ u_]. pose proof (times_int w _ _ _ _ Hp Hq) as Hn. split; [split; [auto|split; [auto|split; [auto|split; [auto|split; [auto|split; [auto|split; auto]]]]]]|].
    do 4 (split; [reflexivity|]). split; [split; [lia|auto]|]. do 2 (split; [reflexivity|]). split; auto. rewrite Z.mul_comm. auto.
Qed.

(** ** The ISO 9796-2 variant *)
Theorem iso_int fuel k m blocks x vx : holds w k m -> rsa_key m -> is_int x vx -> 0 <= vx < n_ m -> vx mod 16 = 12 -> blinding_blocks (n_ m) blocks -> n_ m < 2 ^ (Z.of_nat fuel - 1) ->
  (calculate_inverse_iso w fuel k blocks x = RStuck /\ Forall (fun b => ~ blinds (n_ m) b) blocks) \/
  exists y v r, calculate_inverse_iso w fuel k blocks x = ROk y /\ is_int y v /\ 0 <= v <= n_ m / 2 /\ apply_function_iso w fuel (k_n k) (k_e k) y = ROk r /\ is_int r vx.
Proof.
  intros Hk Key Hx Rx M F L. pose proof Key as (_ & _ & Eq). pose proof (n_big m Eq) as (N1 & _). pose proof (ed_odd m Eq) as (OE & _ & _ & _ & ON). pose proof Hk as (Hn & He & _). pose proof Eq as (_ & _ & _ & E1 & D1 & _).
  unfold calculate_inverse_iso. destruct (inverse_int fuel k m blocks x vx Hk Key Hx Rx F L) as [[-> A]|(t & -> & Ht)]; [left; auto|right]. cbn [rbind]. set (v := vx ^ d_ m mod n_ m) in *. assert (Rv : 0 <= v < n_ m) by (apply Z.mod_pos_bound; lia).
  pose proof (minus_int w _ _ _ _ Hn Ht) as Hu. rewrite (lt_int _ _ _ _ Hu Ht).
  assert (VE : eqm (n_ m) (v ^ e_ m) vx). { eapply eqm_trans; [apply eqm_pow, eqm_mod|]. rewrite <- Z.pow_mul_r by lia. rewrite (Z.mul_comm (d_ m)). apply rsa_exponent. auto. }
  assert (X0 : vx <> 0) by (intros Q; rewrite Q in M; discriminate).
  assert (AP : forall y vy, is_int y vy -> eqm (n_ m) (vy ^ e_ m) vx \/ eqm (n_ m) (vy ^ e_ m) (n_ m - vx) -> exists r, apply_function_iso w fuel (k_n k) (k_e k) y = ROk r /\ is_int r vx).
  { intros y vy Hy C. unfold apply_function_iso. destruct (apply_int fuel (k_n k) (k_e k) y (n_ m) (e_ m) vy Hn He Hy) as (c & -> & Hc); auto; try lia. cbn [rbind]. destruct C as [C|C]; unfold eqm in C; rewrite C, Z.mod_small in Hc by lia; rewrite (mod_word_pow2 w Hwb _ _ 16 Hc) by auto; cbn [rbind].
    - rewrite M. cbn [Z.eqb Pos.eqb]. eauto.
    - destruct (Z.eqb_spec ((n_ m - vx) mod 16) 12) as [Q|Q].
      + exfalso. rewrite Zminus_mod, M in Q. pose proof (Z.mod_pos_bound (n_ m) 16 ltac:(lia)) as B. rewrite (Z.div_mod (n_ m) 16) in ON by lia. replace (16 * (n_ m / 16) + n_ m mod 16) with (n_ m mod 16 + (8 * (n_ m / 16)) * 2) in ON by ring. rewrite Z.mod_add in ON by lia. set (r := n_ m mod 16) in *. clearbody r. clear - ON B Q.
        assert (C : r = 8). { destruct (Z_lt_ge_dec r 12). rewrite <- (Z.mod_add (r - 12) 1 16), Z.mod_small in Q; lia. rewrite Z.mod_small in Q; lia. } rewrite C in ON. discriminate ON.
      + eexists. split; [reflexivity|]. replace vx with (n_ m - (n_ m - vx)) by ring. apply (minus_int w); auto. }
  destruct (Z.ltb_spec (n_ m - v) v) as [C|C].
  - destruct (AP _ _ Hu) as (r & Er & Hr).
    { right. assert (P : eqm (n_ m) ((n_ m - v) ^ e_ m) (- v ^ e_ m)). { rewrite <- (Z.pow_opp_odd v (e_ m)). apply eqm_pow. unfold eqm. rewrite <- (Z.mod_add (- v) 1 (n_ m)) by lia. f_equal. ring. apply Zmod_odd_equiv || (apply Z.odd_spec, odd_is; auto). }
      eapply eqm_trans; [exact P|]. replace (- v ^ e_ m) with (0 - v ^ e_ m) by ring. apply eqm_sub; [|exact VE]. unfold eqm. rewrite Z.mod_0_l, Z.mod_same; lia. }
    exists (minus w (k_n k) t), (n_ m - v), r. split; auto. split; auto. split; auto. split; [lia|]. apply Z.div_le_lower_bound; lia.
  - destruct (AP _ _ Ht (or_introl VE)) as (r & Er & Hr). exists t, v, r. split; auto. split; auto. split; auto. split; [lia|]. apply Z.div_le_lower_bound; lia.
Qed.
End Rsa.
