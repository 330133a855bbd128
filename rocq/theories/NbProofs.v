(** Proofs about the number-theoretic functions. *)
From Coq Require Import ZArith Znumtheory List Bool Arith Lia.
From Verif Require Import Base WordsModel WordsSpec WordsProofs IntegerModel IntegerSpec IntegerProofs IntegerBitProofs IntegerDivProofs IntegerCodecProofs IntegerInvProofs
  ModModel ModSpec ModProofs AlgebraModel AlgebraSpec AlgebraProofs AlgebraModProofs NumberTheory Reciprocity NbModel NbSpec.
Import ListNotations.
Local Open Scope Z_scope.

Lemma cong_eqm m a b : m <> 0 -> cong m a b <-> eqm m a b.
Proof. intros H. rewrite eqm_div by auto. reflexivity. Qed.
Lemma coprime_dvd p q a : Z.gcd p q = 1 -> (p | a) -> (q | a) -> (p * q | a).
Proof.
  intros G [k ->] D. rewrite Z.mul_comm in D. apply Z.gauss in D; [|rewrite Z.gcd_comm; auto]. destruct D as [j ->]. exists j. ring.
Qed.
Lemma eqm_product p q a b : p <> 0 -> q <> 0 -> Z.gcd p q = 1 -> eqm p a b -> eqm q a b -> eqm (p * q) a b.
Proof. intros P Q G Hp Hq. apply eqm_div in Hp; [|auto]. apply eqm_div in Hq; [|auto]. apply eqm_div; [nia|]. now apply coprime_dvd. Qed.
Lemma primes_coprime p q : prime p -> prime q -> p <> q -> Z.gcd p q = 1.
Proof. intros Hp Hq N. apply Zgcd_1_rel_prime. apply prime_rel_prime; auto. intros D. apply prime_div_prime in D; auto. Qed.
(** The heart of RSA. *)
Lemma rsa_prime p x k : prime p -> 0 < k -> k mod (p - 1) = 1 mod (p - 1) -> eqm p (x ^ k) x.
Proof.
  intros Hp K E. pose proof (prime_gt1 p Hp) as P1. destruct (Zdivide_dec p x) as [D|N].
  - assert (Z0 : eqm p x 0) by (apply (dvd_eqm p Hp); auto). eapply eqm_trans; [apply eqm_pow, Z0|]. rewrite Z.pow_0_l by lia. now apply eqm_sym.
  - assert (exists j, 0 <= j /\ k = 1 + (p - 1) * j) as (j & Hj & ->).
    { assert (D : (p - 1 | k - 1)) by (apply (eqm_div (p - 1)); [lia|exact E]). destruct D as [j D]. exists j. split; [|lia]. nia. }
    rewrite Z.pow_add_r, Z.pow_1_r, Z.pow_mul_r by nia. replace x with (x * 1) at 3 by ring. apply eqm_mul; [apply eqm_refl|].
    eapply eqm_trans; [apply eqm_pow, (fermat p Hp x N)|]. rewrite Z.pow_1_l by lia. apply eqm_refl.
Qed.

Section Nb.
Variable w : Z.
Hypothesis Hwb : word_bits w.
Local Instance Hbig : bigw w := word_bits_big w Hwb.
Notation is_int := (is_int w).

Lemma modulo_pos a b va vb : is_int a va -> is_int b vb -> 0 < vb -> exists r, modulo w a b = ROk r /\ is_int r (va mod vb).
Proof. intros Ha Hb P. destruct (modulo_int w a b va vb Hwb Ha Hb ltac:(lia)) as (r & E & H). exists r. rewrite Z.abs_eq in H by lia. auto. Qed.
Lemma exp_pos fuel x e m v ve vm : is_int m vm -> 1 < vm -> is_int x v -> is_int e ve -> 0 <= ve < 2 ^ (Z.of_nat fuel - 1) ->
  exists r, of_option (a_exp_b_mod_c w fuel x e m) = ROk r /\ is_int r (v ^ ve mod vm).
Proof.
  intros Hm Lm Hx He Hv. destruct fuel as [|f]; [rewrite Z.pow_neg_r in Hv by lia; lia|].
  destruct (a_exp_spec w Hwb f x e m v ve vm) as (r & E & Hr); auto; [replace (Z.of_nat (S f) - 1) with (Z.of_nat f) in Hv by lia; lia|].
  rewrite E. exists r. auto.
Qed.
Lemma lt_pow2 n : 0 <= n -> n < 2 ^ n. Proof. intros. apply Z.pow_gt_lin_r; lia. Qed.
Lemma exp_big fuel x e m v ve vm : is_int m vm -> 1 < vm -> is_int x v -> is_int e ve -> 0 <= ve < Z.of_nat fuel ->
  exists r, of_option (a_exp_b_mod_c w fuel x e m) = ROk r /\ is_int r (v ^ ve mod vm).
Proof. intros. apply exp_pos; auto. pose proof (lt_pow2 (Z.of_nat fuel - 1) ltac:(lia)). lia. Qed.

(** ** CRT and ModularRoot *)
Theorem crt_int xp p xq q u vxp vp vxq vq vu : is_int xp vxp -> is_int p vp -> is_int xq vxq -> is_int q vq -> is_int u vu -> 0 < vp -> 0 < vq -> (vu * vp) mod vq = 1 mod vq ->
  exists r v, crt w xp p xq q u = ROk r /\ is_int r v /\ eqm vp v vxp /\ eqm vq v vxq /\ (0 <= vxp < vp -> 0 <= v < vp * vq).
Proof.
  intros Hxp Hp Hxq Hq Hu P Q U. destruct (modulo_pos _ q _ vq (times_int w _ _ _ _ Hu (minus_int w _ _ _ _ Hxq Hxp)) Hq Q) as (t & E & Ht). unfold crt. rewrite E. cbn [rbind].
  eexists _, _. split; [reflexivity|]. split; [apply (plus_int w); [apply (times_int w); eauto|eauto]|]. pose proof (Z.mod_pos_bound (vu * (vxq - vxp)) vq Q) as B. split; [|split].
  - unfold eqm. rewrite Z.add_comm, (Z.mul_comm vp), Z.mod_add by lia. reflexivity.
  - replace vxq with ((vxq - vxp) + vxp) at 2 by ring. apply eqm_add; [|apply eqm_refl]. eapply eqm_trans; [apply eqm_mul; [apply eqm_refl|apply eqm_mod]|].
    replace (vp * (vu * (vxq - vxp))) with ((vu * vp) * (vxq - vxp)) by ring. replace (vxq - vxp) with (1 * (vxq - vxp)) at 2 by ring. apply eqm_mul; [exact U|apply eqm_refl].
  - intros X. nia.
Qed.
Lemma unit_coprime p q u : 1 < q -> (u * p) mod q = 1 -> Z.gcd p q = 1.
Proof. intros Q E. rewrite Z.mul_comm in E. eapply unit_gcd; eauto. Qed.
Theorem modular_root_int fuel a dp dq p q u va vdp vdq vp vq vu ve : is_int a va -> is_int dp vdp -> is_int dq vdq -> is_int p vp -> is_int q vq -> is_int u vu ->
  prime vp -> prime vq -> vp <> vq -> 0 < vdp -> 0 < vdq -> 0 < ve -> (ve * vdp) mod (vp - 1) = 1 mod (vp - 1) -> (ve * vdq) mod (vq - 1) = 1 mod (vq - 1) -> (vu * vp) mod vq = 1 ->
  vdp < 2 ^ (Z.of_nat fuel - 1) -> vdq < 2 ^ (Z.of_nat fuel - 1) ->
  exists r v, modular_root w fuel a dp dq p q u = ROk r /\ is_int r v /\ 0 <= v < vp * vq /\ v ^ ve mod (vp * vq) = va mod (vp * vq) /\ eqm vp v (va ^ vdp) /\ eqm vq v (va ^ vdq).
Proof.
  intros Ha Hdp Hdq Hp Hq Hu Pp Pq N D1 D2 E0 E1 E2 U F1 F2. pose proof (prime_gt1 vp Pp). pose proof (prime_gt1 vq Pq). unfold modular_root.
  destruct (modulo_pos a p va vp Ha Hp ltac:(lia)) as (ap & -> & Hap). cbn [rbind]. destruct (exp_pos fuel ap dp p _ vdp vp Hp ltac:(lia) Hap Hdp ltac:(lia)) as (p2 & -> & Hp2). cbn [rbind].
  destruct (modulo_pos a q va vq Ha Hq ltac:(lia)) as (aq & -> & Haq). cbn [rbind]. destruct (exp_pos fuel aq dq q _ vdq vq Hq ltac:(lia) Haq Hdq ltac:(lia)) as (q2 & -> & Hq2). cbn [rbind].
  destruct (crt_int p2 p q2 q u _ vp _ vq vu Hp2 Hp Hq2 Hq Hu ltac:(lia) ltac:(lia)) as (r & v & E & Hr & C1 & C2 & B); [rewrite U, Z.mod_small; lia|].
  exists r, v. split; auto. split; auto. split; [apply B, Z.mod_pos_bound; lia|].
  assert (G1 : eqm vp v (va ^ vdp)). { eapply eqm_trans; [exact C1|]. eapply eqm_trans; [apply eqm_mod|]. apply eqm_pow, eqm_mod. }
  assert (G2 : eqm vq v (va ^ vdq)). { eapply eqm_trans; [exact C2|]. eapply eqm_trans; [apply eqm_mod|]. apply eqm_pow, eqm_mod. }
  split; [|auto]. apply eqm_product; [lia|lia|apply primes_coprime; auto| |].
  - eapply eqm_trans; [apply eqm_pow, G1|]. rewrite <- Z.pow_mul_r by lia. apply rsa_prime; auto; [nia|]. rewrite Z.mul_comm. auto.
  - eapply eqm_trans; [apply eqm_pow, G2|]. rewrite <- Z.pow_mul_r by lia. apply rsa_prime; auto; [nia|]. rewrite Z.mul_comm. auto.
Qed.

(** ** The Jacobi symbol *)
Lemma mod_word_pow2 a va d : is_int a va -> d = 4 \/ d = 8 \/ d = 16 -> modulo_word w a d = ROk (va mod d).
Proof.
  intros Ha Hd. unfold modulo_word. assert (T : Z.land d (d - 1) =? 0 = true) by (destruct Hd as [V|[V|V]]; subst d; reflexivity).
  destruct (Z.eqb_spec d 0); [lia|]. rewrite T. cbn [negb]. f_equal.
  assert (R : Z.land (at_ (reg a) 0) (d - 1) = Z.abs va mod d).
  { destruct Ha as [Hv Hva]. pose proof (ival_abs w a Hv) as AA. rewrite Hva in AA. rewrite AA. destruct Hv as (A1 & A2 & A3). apply pow2_test in T; [|lia]. apply (pow2_mod w); auto.
    pose proof (B_big w). lia. }
  rewrite R, (is_int_neg w _ _ Ha), abs_mod by lia. pose proof (Z.mod_pos_bound va d ltac:(lia)). destruct (Z.ltb_spec va 0); cbn [andb]; auto.
  destruct (Z.eqb_spec (va mod d) 0) as [E|E]; cbn [negb]. { rewrite E. reflexivity. } destruct (Z.eqb_spec (d - va mod d) 0); cbn [negb]; lia.
Qed.
Lemma first_bit_int n : forall x v i, is_int x v -> 0 < v -> v mod 2 ^ Z.of_nat i = 0 -> v < 2 ^ Z.of_nat (i + n) ->
  exists j, first_bit w n x i = ROk j /\ v = 2 ^ Z.of_nat j * (v / 2 ^ Z.of_nat j) /\ (v / 2 ^ Z.of_nat j) mod 2 = 1 /\ (i <= j)%nat.
Proof.
  induction n as [|n IH]; intros x v i Hx Hv M L; [rewrite Nat.add_0_r, Z.mod_small in *; lia|]. cbn [first_bit]. rewrite (get_bit_int w x v i Hx), Z.abs_eq by lia.
  assert (P2 : 0 < 2 ^ Z.of_nat i) by (apply Z.pow_pos_nonneg; lia).
  assert (E0 : v = 2 ^ Z.of_nat i * (v / 2 ^ Z.of_nat i)) by (pose proof (Z.div_mod v (2 ^ Z.of_nat i) ltac:(lia)); lia).
  pose proof (Z.testbit_true v (Z.of_nat i) ltac:(lia)) as T. destruct (Z.testbit v (Z.of_nat i)).
  - exists i. split; auto. split; auto. split; [apply T; auto|lia].
  - destruct (IH x v (S i)) as (j & E & H1 & H2 & H3); auto; [|replace (S i + n)%nat with (i + S n)%nat by lia; auto|exists j; split; auto; split; auto; split; auto; lia].
    assert (M2 : (v / 2 ^ Z.of_nat i) mod 2 = 0). { pose proof (Z.mod_pos_bound (v / 2 ^ Z.of_nat i) 2 ltac:(lia)). destruct (Z.eq_dec ((v / 2 ^ Z.of_nat i) mod 2) 1) as [Q|Q]; [apply T in Q; discriminate|lia]. }
    apply Z.mod_divide in M2; [|lia]. destruct M2 as [k K]. rewrite Nat2Z.inj_succ, Z.pow_succ_r by lia. apply Z.mod_divide; [lia|]. exists k. rewrite E0, K. ring.
Qed.
Lemma bit_count_bound x v : is_int x v -> 0 < v -> v < 2 ^ Z.of_nat (bit_count w x).
Proof. intros Hx Hv. rewrite (bit_count_int w x v Hwb Hx). destruct (Z.eqb_spec v 0); [lia|]. rewrite Z.abs_eq by lia. apply Z.log2_spec. auto. Qed.
Lemma first_bit_pos x v : is_int x v -> 0 < v -> exists j, first_bit w (S (bit_count w x)) x 0 = ROk j /\ v = 2 ^ Z.of_nat j * (v / 2 ^ Z.of_nat j) /\ (v / 2 ^ Z.of_nat j) mod 2 = 1.
Proof.
  intros Hx Hv. destruct (first_bit_int (S (bit_count w x)) x v 0 Hx Hv) as (j & E & H1 & H2 & _); [apply Z.mod_1_r| |exists j; auto].
  pose proof (bit_count_bound x v Hx Hv). rewrite Nat.add_0_l, Nat2Z.inj_succ, Z.pow_succ_r by lia. lia.
Qed.
Lemma shr_pos x v j : is_int x v -> 0 <= v -> is_int (shr w x j) (v / 2 ^ Z.of_nat j).
Proof. intros Hx Hv. pose proof (shr_int w x v j Hx) as H. rewrite Z.quot_div_nonneg in H; auto. apply Z.pow_pos_nonneg; lia. Qed.
Lemma chi8_pow b j : chi8 b ^ Z.of_nat j = if Nat.odd j then chi8 b else 1.
Proof.
  assert (S : chi8 b * chi8 b = 1) by (unfold chi8; destruct (_ || _); reflexivity).
  enough (chi8 b ^ Z.of_nat j = (if Nat.odd j then chi8 b else 1) /\ chi8 b ^ Z.of_nat (Datatypes.S j) = (if Nat.odd (Datatypes.S j) then chi8 b else 1)) by tauto.
  induction j as [|j [I1 I2]]; [split; [reflexivity|apply Z.pow_1_r]|]. split; [auto|]. rewrite !Nat2Z.inj_succ, !Z.pow_succ_r in * by lia. rewrite I1. cbn [Nat.odd Nat.even negb]. unfold Nat.odd. cbn [Nat.even].
  destruct (Nat.even j); cbn [negb]; [rewrite Z.mul_1_r; auto|]. rewrite S. ring.
Qed.
Lemma jac_pow a ps j : Forall oddprime ps -> jac (a ^ Z.of_nat j) ps = jac a ps ^ Z.of_nat j.
Proof. intros F. induction j as [|j IH]; [apply jac_one; auto|]. rewrite Nat2Z.inj_succ, !Z.pow_succ_r, jac_mul, IH by (auto; lia). reflexivity. Qed.
Theorem jacobi_loop_int fuel : forall a b va ps res, is_int a va -> is_int b (zprod ps) -> Forall oddprime ps -> 0 <= va < Z.of_nat fuel ->
  jacobi_loop w fuel a b res = ROk (res * jac va ps).
Proof.
  induction fuel as [|f IH]; intros a b va ps r Ha Hb F L; [lia|]. cbn [jacobi_loop]. rewrite (is_zero_int w a va Ha). destruct (Z.eqb_spec va 0) as [->|N].
  - rewrite (compare_int w _ _ _ _ Hb (one_int w)). destruct (Z.compare_spec (zprod ps) 1) as [E|E|E]; cbn [Z.eqb].
    + rewrite (prod_one ps F E). cbn. rewrite Z.mul_1_r. reflexivity.
    + rewrite jac_zero by (auto; lia). rewrite Z.mul_0_r. reflexivity.
    + rewrite jac_zero by (auto; lia). rewrite Z.mul_0_r. reflexivity.
  - destruct (first_bit_pos a va Ha ltac:(lia)) as (j & -> & Ev & Om). cbn [rbind]. set (m := va / 2 ^ Z.of_nat j) in *. assert (Hm : is_int (shr w a j) m) by (apply shr_pos; auto; lia).
    assert (P2 : 0 < 2 ^ Z.of_nat j) by (apply Z.pow_pos_nonneg; lia). assert (M0 : 0 < m) by nia. assert (Mv : m <= va) by nia. destruct (oddprod ps F) as [B0 B1].
    rewrite (mod_word_pow2 b _ 8 Hb), (mod_word_pow2 _ _ 4 Hm), (mod_word_pow2 b _ 4 Hb) by auto. cbn [rbind].
    destruct (modulo_pos b _ _ m Hb Hm M0) as (t & -> & Ht). cbn [rbind]. destruct (odd_factors m M0 Om) as (qs & Fq & Eq). rewrite <- Eq in Hm.
    rewrite (IH t _ _ qs _ Ht Hm Fq). 2:{ pose proof (Z.mod_pos_bound (zprod ps) m M0). lia. }
    f_equal. rewrite <- Eq, jac_mod by auto. rewrite Ev at 1. fold m. rewrite jac_mul, jac_pow, jac_two, chi8_pow by auto. rewrite <- Eq. rewrite jac_reciprocity by auto. rewrite Eq.
    unfold rs, chi8. destruct (Nat.odd j), ((zprod ps mod 8 =? 3) || (zprod ps mod 8 =? 5)), (m mod 4 =? 3), (zprod ps mod 4 =? 3); cbn [andb]; ring.
Qed.
Theorem jacobi_int fuel a b va ps : is_int a va -> is_int b (zprod ps) -> Forall oddprime ps -> zprod ps < Z.of_nat fuel -> jacobi w fuel a b = ROk (jac va ps).
Proof.
  intros Ha Hb F L. destruct (oddprod ps F) as [B0 B1]. unfold jacobi. destruct (modulo_pos a b va _ Ha Hb B0) as (t & -> & Ht). cbn [rbind].
  pose proof (Z.mod_pos_bound va _ B0). rewrite (jacobi_loop_int fuel t b _ ps 1 Ht Hb F) by lia. rewrite jac_mod by auto. f_equal. ring.
Qed.
Lemma leg_legendre a p s : oddprime p -> legendre a p s <-> s = leg a p.
Proof.
  intros Ho. pose proof (oddprime_pos p Ho) as P2. assert (D : (p | a) <-> a mod p = 0) by (split; [apply Z.mod_divide; lia|apply Z.mod_divide; lia]).
  assert (Z0 : a mod p = 0 <-> leg a p = 0). { unfold leg. destruct (Z.eqb_spec (a mod p) 0); [tauto|]. destruct (gsign_pm p a) as [E|E]; rewrite E; split; lia. }
  assert (R : a mod p <> 0 -> (exists x, (x * x) mod p = a mod p) <-> leg a p = 1) by (intros; now apply leg_residue).
  assert (X0 : a mod p = 0 -> exists x, (x * x) mod p = a mod p) by (intros ->; exists 0; reflexivity). pose proof (leg_vals a p) as V. unfold legendre. rewrite D. split.
  - intros [[-> H]|[(-> & H1 & H2)|[-> H]]]; [symmetry; tauto|symmetry; apply R; auto|].
    destruct (Z.eq_dec (a mod p) 0) as [Q|Q]; [elim H; auto|]. destruct V as [V|[V|V]]; [tauto| |auto]. elim H. apply R; auto.
  - intros ->. destruct V as [V|[V|V]]; rewrite V; [left; tauto|right; left|right; right].
    + assert (a mod p <> 0) by (rewrite Z0; lia). split; auto. split; auto. apply R; auto.
    + assert (Q : a mod p <> 0) by (rewrite Z0; lia). split; auto. rewrite (R Q). lia.
Qed.
Lemma product_zprod l : product l = zprod l. Proof. reflexivity. Qed.
Lemma odd_prime_factors ps : Forall prime ps -> zprod ps mod 2 = 1 -> Forall oddprime ps.
Proof.
  induction 1 as [|p ps Hp F IH]; intros O; constructor; rewrite zprod_cons, Zmult_mod in O;
  pose proof (Z.mod_pos_bound p 2 ltac:(lia)); pose proof (Z.mod_pos_bound (zprod ps) 2 ltac:(lia));
  assert (V : p mod 2 = 0 \/ p mod 2 = 1) by lia; assert (U : zprod ps mod 2 = 0 \/ zprod ps mod 2 = 1) by lia; destruct V as [V|V], U as [U|U]; rewrite V, U in O; try discriminate O.
  - split; auto.
  - auto.
Qed.
Theorem jacobi_symbol_int fuel a b va vb : is_int a va -> is_int b vb -> 0 < vb -> vb mod 2 = 1 -> vb < Z.of_nat fuel -> exists s, jacobi w fuel a b = ROk s /\ forall s', jacobi_symbol va vb s' <-> s' = s.
Proof.
  intros Ha Hb B0 B1 L. destruct (odd_factors vb B0 B1) as (ps & F & <-). exists (jac va ps). split; [apply jacobi_int; auto|]. intros s'. split.
  - intros (qs & ss & Fq & Eq & F2 & ->). rewrite product_zprod in *. assert (Fo : Forall oddprime qs) by (apply odd_prime_factors; auto; rewrite Eq; auto).
    assert (J : ROk (jac va qs) = ROk (jac va ps)). { rewrite <- (jacobi_int fuel a b va ps), <- (jacobi_int fuel a b va qs); auto; rewrite Eq; auto. } injection J as <-.
    clear -F2 Fo. revert Fo. induction F2 as [|p s qs ss H F2 IH]; intros Fo; [reflexivity|]. inversion Fo; subst. rewrite zprod_cons, jac_cons, IH by auto. f_equal. apply leg_legendre; auto.
  - intros ->. exists ps, (map (leg va) ps). split; [eapply Forall_impl; [|exact F]; intros p H; apply H|]. split; auto. split; auto.
    clear -F. induction F; cbn [map]; constructor; auto. apply leg_legendre; auto.
Qed.

(** ** Probable primes *)
Lemma cmp_eq x y vx vy : is_int x vx -> is_int y vy -> (compare x y =? 0) = (vx =? vy).
Proof. intros Hx Hy. rewrite (compare_int w _ _ _ _ Hx Hy). destruct (Z.compare_spec vx vy), (Z.eqb_spec vx vy); auto; lia. Qed.
Lemma cmp_le x y vx vy : is_int x vx -> is_int y vy -> (compare x y <=? 0) = (vx <=? vy).
Proof. intros Hx Hy. rewrite (compare_int w _ _ _ _ Hx Hy). destruct (Z.compare_spec vx vy), (Z.leb_spec vx vy); auto; lia. Qed.
Lemma cmp_gt x y vx vy : is_int x vx -> is_int y vy -> (compare x y >? 0) = (vy <? vx).
Proof. intros Hx Hy. rewrite (compare_int w _ _ _ _ Hx Hy). destruct (Z.compare_spec vx vy), (Z.ltb_spec vy vx); auto; lia. Qed.
Lemma lit_int v : 0 <= v < 2 ^ 32 -> is_int (lit w v) v.
Proof.
  intros H. unfold lit, of_long. destruct (Z.geb_spec v 0); [|lia]. pose proof (B_big w) as BB. assert (V1 : wd w v = v) by (apply wd_small; lia).
  assert (V2 : wd w (Z.shiftr v w) = 0). { rewrite Z.shiftr_div_pow2 by (pose proof (Hw w); lia). rewrite Z.div_small; [reflexivity|]. unfold base in BB. lia. }
  rewrite V1, V2. apply pos_int; [apply (small_W w); auto|exists 1%nat; auto|]. rewrite !V_cons, V_nil. ring.
Qed.
Lemma small_prime n : prime n -> n <= 3 -> n = 2 \/ n = 3.
Proof. intros [H _] L. lia. Qed.
Theorem fermat_test fuel n b vn vb : is_int n vn -> is_int b vb -> prime vn -> 1 < vb < vn - 1 \/ vn <= 3 -> vn <= Z.of_nat fuel -> is_fermat_probable_prime w fuel n b = ROk true.
Proof.
  intros Hn Hb Pn R L. unfold is_fermat_probable_prime. rewrite (cmp_le _ _ _ _ Hn (lit_int 3 ltac:(lia))). destruct (Z.leb_spec vn 3).
  - rewrite (cmp_eq _ _ _ _ Hn (lit_int 2 ltac:(lia))), (cmp_eq _ _ _ _ Hn (lit_int 3 ltac:(lia))). destruct (small_prime vn) as [E|E]; auto; subst; reflexivity.
  - destruct (exp_big fuel b _ n vb _ vn Hn ltac:(lia) Hb (minus_int w _ _ _ _ Hn (one_int w)) ltac:(lia)) as (r & -> & Hr). cbn [rbind]. rewrite (cmp_eq _ _ _ _ Hr (one_int w)).
    assert (E : eqm vn (vb ^ (vn - 1)) 1). { apply fermat; auto. intros D. apply (dvd_small vn) in D; lia. } unfold eqm in E. rewrite E, Z.mod_small by lia. reflexivity.
Qed.
Lemma square_until_prime k : forall z n nm1 vz vn, is_int z vz -> is_int n vn -> is_int nm1 (vn - 1) -> prime vn -> 3 < vn -> 0 <= vz < vn -> vz <> 1 -> vz <> vn - 1 ->
  eqm vn (vz ^ (2 ^ Z.of_nat (S k))) 1 -> square_until w k z n nm1 = ROk true.
Proof.
  induction k as [|k IH]; intros z n nm1 vz vn Hz Hn Hm Pn L3 R N1 N2 E.
  - exfalso. change (2 ^ Z.of_nat 1) with 2 in E. rewrite Z.pow_2_r in E. destruct (sqrt_one vn Pn vz E) as [Q|Q].
    + apply eqm_small in Q; lia.
    + assert (Q' : eqm vn vz (vn - 1)). { eapply eqm_trans; [exact Q|]. unfold eqm. rewrite <- (Z.mod_add (-1) 1 vn) by lia. f_equal. ring. } apply eqm_small in Q'; lia.
  - cbn [square_until]. destruct (modulo_pos _ n _ vn (squared_int w _ _ Hz) Hn ltac:(lia)) as (t & -> & Ht). cbn [rbind]. rewrite (cmp_eq _ _ _ _ Ht Hm), (cmp_eq _ _ _ _ Ht (one_int w)).
    destruct (Z.eqb_spec ((vz * vz) mod vn) (vn - 1)) as [Q|Q]; [reflexivity|]. destruct (Z.eqb_spec ((vz * vz) mod vn) 1) as [Q1|Q1].
    + exfalso. destruct (sqrt_one vn Pn vz) as [S|S]; [unfold eqm; rewrite Q1, Z.mod_small; lia|apply eqm_small in S; lia|].
      assert (Q' : eqm vn vz (vn - 1)). { eapply eqm_trans; [exact S|]. unfold eqm. rewrite <- (Z.mod_add (-1) 1 vn) by lia. f_equal. ring. } apply eqm_small in Q'; lia.
    + apply (IH t n nm1 _ vn Ht Hn Hm Pn L3); auto; [apply Z.mod_pos_bound; lia|]. eapply eqm_trans; [apply eqm_pow, eqm_mod|]. eapply eqm_trans; [|exact E].
      rewrite <- Z.pow_2_r, <- Z.pow_mul_r by (try apply Z.pow_nonneg; lia). rewrite (Nat2Z.inj_succ (S k)), (Z.pow_succ_r 2 (Z.of_nat (S k))) by lia. apply eqm_refl.
Qed.
Lemma prime_odd n : prime n -> 2 < n -> n mod 2 = 1.
Proof.
  intros Pn L. pose proof (Z.mod_pos_bound n 2 ltac:(lia)). destruct (Z.eq_dec (n mod 2) 0) as [E|E]; [|lia]. apply Z.mod_divide in E; [|lia]. apply prime_div_prime in E; auto; [lia|apply prime_2].
Qed.
Theorem strong_test fuel n b vn vb : is_int n vn -> is_int b vb -> prime vn -> 1 < vb < vn - 1 \/ vn <= 3 -> vn <= Z.of_nat fuel -> is_strong_probable_prime w fuel n b = ROk true.
Proof.
  intros Hn Hb Pn R L. unfold is_strong_probable_prime. rewrite (cmp_le _ _ _ _ Hn (lit_int 3 ltac:(lia))). destruct (Z.leb_spec vn 3).
  - rewrite (cmp_eq _ _ _ _ Hn (lit_int 2 ltac:(lia))), (cmp_eq _ _ _ _ Hn (lit_int 3 ltac:(lia))). destruct (small_prime vn) as [E|E]; auto; subst; reflexivity.
  - assert (R' : 1 < vb < vn - 1) by lia. clear R. assert (Nd : ~ (vn | vb)) by (intros D; apply (dvd_small vn) in D; lia).
    rewrite (get_bit_int w n vn 0 Hn), Z.abs_eq by lia. change (Z.of_nat 0) with 0. rewrite Z.bit0_odd. pose proof (prime_odd vn Pn ltac:(lia)) as On. rewrite Zmod_odd in On. destruct (Z.odd vn) eqn:Od; [|lia]. cbn [negb andb].
    destruct (int_gcd_int w Hwb b n vb vn fuel Hb Hn ltac:(lia)) as (g & vg & -> & Hg & G & Gp). cbn [rbind]. rewrite (cmp_eq _ _ _ _ Hg (one_int w)).
    assert (G1 : Z.gcd vb vn = 1). { rewrite Z.gcd_comm. apply Zgcd_1_rel_prime, prime_rel_prime; auto. } rewrite G1 in G. assert (vg = 1) as -> by (specialize (Gp ltac:(lia) ltac:(lia)); lia). cbn [Z.eqb Pos.eqb negb].
    set (nm1 := minus w n int_one). assert (Hm : is_int nm1 (vn - 1)) by (apply (minus_int w); [auto|apply (one_int w)]).
    destruct (first_bit_pos nm1 _ Hm ltac:(lia)) as (j & -> & E1 & E2). cbn [rbind]. set (m := (vn - 1) / 2 ^ Z.of_nat j) in *. assert (Hs : is_int (shr w nm1 j) m) by (apply shr_pos; auto; lia).
    assert (P2 : 0 < 2 ^ Z.of_nat j) by (apply Z.pow_pos_nonneg; lia). assert (M0 : 0 < m) by nia. assert (m <= vn - 1) by nia.
    destruct (exp_big fuel b _ n vb m vn Hn ltac:(lia) Hb Hs ltac:(lia)) as (z & -> & Hz). cbn [rbind]. rewrite (cmp_eq _ _ _ _ Hz (one_int w)), (cmp_eq _ _ _ _ Hz Hm).
    destruct (Z.eqb_spec (vb ^ m mod vn) 1) as [Q|Q]; [reflexivity|]. destruct (Z.eqb_spec (vb ^ m mod vn) (vn - 1)) as [Q1|Q1]; [reflexivity|]. cbn [orb].
    assert (J : (1 <= j)%nat). { destruct j; [|lia]. exfalso. change (2 ^ Z.of_nat 0) with 1 in E1. rewrite Zmod_odd in E2. assert (m = vn - 1) by lia. rewrite H1 in E2. rewrite Z.odd_sub, Od in E2. discriminate E2. }
    apply (square_until_prime (j - 1) z n nm1 _ vn Hz Hn Hm Pn); auto; [apply Z.mod_pos_bound; lia|]. replace (S (j - 1)) with j by lia. eapply eqm_trans; [apply eqm_pow, eqm_mod|]. rewrite <- Z.pow_mul_r by lia. replace (m * 2 ^ Z.of_nat j) with (vn - 1) by lia. apply fermat; auto.
Qed.
End Nb.
