(** The probable-prime tests compute their conditions. *)
From Coq Require Import ZArith Znumtheory List Bool Arith Lia.
From Verif Require Import Base WordsModel WordsSpec WordsProofs IntegerModel IntegerSpec IntegerProofs IntegerBitProofs IntegerDivProofs IntegerInvProofs
  ModModel ModSpec ModProofs AlgebraModel AlgebraModProofs NumberTheory NbModel NbSpec NbProofs.
Import ListNotations.
Local Open Scope Z_scope.
Lemma two_adic s t q r : 2 ^ Z.of_nat s * q = 2 ^ Z.of_nat t * r -> q mod 2 = 1 -> r mod 2 = 1 -> s = t /\ q = r.
Proof.
  revert t. induction s as [|s IH]; intros [|t] E Q R.
  - split; auto. change (2 ^ Z.of_nat 0) with 1 in E. lia.
  - exfalso. change (2 ^ Z.of_nat 0) with 1 in E. rewrite Nat2Z.inj_succ, Z.pow_succ_r in E by lia. rewrite Z.mul_1_l in E. rewrite E, <- Z.mul_assoc, Z.mul_comm, Z.mod_mul in Q by lia. discriminate.
  - exfalso. change (2 ^ Z.of_nat 0) with 1 in E. rewrite Nat2Z.inj_succ, Z.pow_succ_r in E by lia. rewrite Z.mul_1_l in E. rewrite <- E, <- Z.mul_assoc, Z.mul_comm, Z.mod_mul in R by lia. discriminate.
  - rewrite !Nat2Z.inj_succ, !Z.pow_succ_r in E by lia. destruct (IH t) as [-> ->]; auto. nia.
Qed.
Section Nb.
Variable w : Z.
Hypothesis Hwb : word_bits w.
Local Instance Hbig : bigw w := word_bits_big w Hwb.
Notation is_int := (is_int w).
Lemma square_until_int n nm1 vn : is_int n vn -> is_int nm1 (vn - 1) -> 2 < vn -> forall k z vz, is_int z vz -> vz ^ 2 mod vn <> vn - 1 \/ True ->
  exists r, square_until w k z n nm1 = ROk r /\ (r = true <-> exists i, (1 <= i <= k)%nat /\ vz ^ (2 ^ Z.of_nat i) mod vn = vn - 1).
Proof.
  intros Hn Hm L. assert (P1 : forall k, 1 ^ k mod vn <> vn - 1). { intros k. destruct (Z.neg_nonneg_cases k). rewrite Z.pow_neg_r, Z.mod_0_l; lia. rewrite Z.pow_1_l, Z.mod_small; lia. }
  assert (SQ : forall v i, (v ^ 2) ^ (2 ^ Z.of_nat i) = v ^ (2 ^ Z.of_nat (S i))) by (intros v i; rewrite <- Z.pow_mul_r by (try apply Z.pow_nonneg; lia); f_equal; rewrite Nat2Z.inj_succ, Z.pow_succ_r; lia).
  induction k as [|k IH]; intros z vz Hz _. { exists false. split; auto. split; [discriminate|]. intros (i & ? & _). lia. }
  cbn [square_until]. destruct (modulo_pos w Hwb _ n _ vn (squared_int w _ _ Hz) Hn ltac:(lia)) as (t & -> & Ht). cbn [rbind]. rewrite (cmp_eq w Hwb _ _ _ _ Ht Hm), (cmp_eq w Hwb _ _ _ _ Ht (one_int w)).
  assert (PM : forall i, ((vz * vz) mod vn) ^ (2 ^ Z.of_nat i) mod vn = vz ^ (2 ^ Z.of_nat (S i)) mod vn). { intros i. rewrite <- SQ. apply (eqm_pow vn). rewrite Z.pow_2_r. apply eqm_mod. }
  destruct (Z.eqb_spec ((vz * vz) mod vn) (vn - 1)) as [Q|Q].
  { exists true. split; auto. split; auto. intros _. exists 1%nat. split; [lia|]. change (2 ^ Z.of_nat 1) with 2. rewrite Z.pow_2_r. auto. }
  destruct (Z.eqb_spec ((vz * vz) mod vn) 1) as [Q1|Q1].
  { exists false. split; auto. split; [discriminate|]. intros (i & Hi & E). exfalso. destruct i as [|i]; [lia|]. rewrite <- PM, Q1 in E. exact (P1 _ E). }
  destruct (IH t _ Ht (or_intror I)) as (r & -> & Hr). exists r. split; auto. rewrite Hr. split.
  - intros (i & Hi & E). exists (S i). split; [lia|]. rewrite <- PM. auto.
  - intros (i & Hi & E). destruct i as [|i]; [lia|]. destruct i as [|i]. { change (2 ^ Z.of_nat 1) with 2 in E. rewrite Z.pow_2_r in E. contradiction. } exists (S i). split; [lia|]. rewrite PM. auto.
Qed.
Theorem strong_exact fuel n b vn vb : is_int n vn -> is_int b vb -> 3 < vn -> vn mod 2 = 1 -> 1 < vb < vn -> vn <= Z.of_nat fuel -> exists r, is_strong_probable_prime w fuel n b = ROk r /\ (r = true <-> strong_condition vn vb).
Proof.
  intros Hn Hb L3 On R L. unfold is_strong_probable_prime. rewrite (cmp_le w Hwb _ _ _ _ Hn (lit_int w Hwb 3 ltac:(lia))). destruct (Z.leb_spec vn 3); [lia|].
  rewrite (get_bit_int w n vn 0 Hn), Z.abs_eq by lia. change (Z.of_nat 0) with 0. rewrite Z.bit0_odd. pose proof On as On'. rewrite Zmod_odd in On'. destruct (Z.odd vn) eqn:Od; [|lia]. cbn [negb andb].
  destruct (int_gcd_int w Hwb b n vb vn fuel Hb Hn ltac:(lia)) as (g & vg & -> & Hg & G & Gp). cbn [rbind]. rewrite (cmp_eq w Hwb _ _ _ _ Hg (one_int w)). specialize (Gp ltac:(lia) ltac:(lia)). rewrite Z.abs_eq in G by auto. subst vg.
  set (nm1 := minus w n int_one). assert (Hm : is_int nm1 (vn - 1)) by (apply (minus_int w); [auto|apply (one_int w)]).
  destruct (first_bit_pos w Hwb nm1 _ Hm ltac:(lia)) as (j & Ej & E1 & E2). set (m := (vn - 1) / 2 ^ Z.of_nat j) in *. assert (P2 : 0 < 2 ^ Z.of_nat j) by (apply Z.pow_pos_nonneg; lia). assert (M0 : 0 < m) by nia. assert (ML : m <= vn - 1) by nia.
  assert (SC : strong_condition vn vb <-> vb ^ m mod vn = 1 \/ exists i, (i < j)%nat /\ vb ^ (2 ^ Z.of_nat i * m) mod vn = vn - 1).
  { split.
    - intros (s & q & F1 & F2 & F3). rewrite F1 in E1. destruct (two_adic s j q m E1 F2 E2) as [-> ->]. auto.
    - intros F. exists j, m. auto. }
  destruct (Z.eqb_spec (Z.gcd vb vn) 1) as [G1|G1]; cbn [negb].
  2: { exists false. split; auto. split; [discriminate|]. intros H'. exfalso. apply G1. apply SC in H'.
       assert (U : exists k, 0 < k /\ (vb ^ k) ^ 2 mod vn = 1).
       { destruct H' as [Q|(i & _ & Q)]; [exists m|exists (2 ^ Z.of_nat i * m)].
         - split; auto. rewrite Z.pow_2_r, Z.mul_mod, Q by lia. rewrite Z.mod_small; lia.
         - assert (0 < 2 ^ Z.of_nat i) by (apply Z.pow_pos_nonneg; lia). split; [nia|]. rewrite Z.pow_2_r, Z.mul_mod, Q by lia. replace ((vn - 1) * (vn - 1)) with (1 + (vn - 2) * vn) by ring. rewrite Z.mod_add, Z.mod_small; lia. }
       destruct U as (k & K & U). apply (unit_coprime vb vn (vb ^ (k - 1) * vb ^ k)); [lia|]. etransitivity; [|exact U]. f_equal. assert (PK : vb ^ k = vb ^ (k - 1) * vb) by (replace k with (k - 1 + 1) at 1 by ring; rewrite Z.pow_add_r, Z.pow_1_r by lia; reflexivity). rewrite Z.pow_2_r, PK. ring. }
  rewrite Ej. cbn [rbind]. assert (Hs : is_int (shr w nm1 j) m) by (apply (shr_pos w Hwb); auto; lia).
  destruct (exp_big w Hwb fuel b _ n vb m vn Hn ltac:(lia) Hb Hs ltac:(lia)) as (z & -> & Hz). cbn [rbind]. rewrite (cmp_eq w Hwb _ _ _ _ Hz (one_int w)), (cmp_eq w Hwb _ _ _ _ Hz Hm).
  assert (J : (1 <= j)%nat). { destruct j; [|lia]. exfalso. change (2 ^ Z.of_nat 0) with 1 in E1. assert (QQ : m = vn - 1) by lia. rewrite QQ, Zminus_mod, On in E2. discriminate E2. }
  destruct (Z.eqb_spec (vb ^ m mod vn) 1) as [Q|Q]; cbn [orb]. { exists true. split; auto. split; auto. intros _. apply SC. auto. }
  destruct (Z.eqb_spec (vb ^ m mod vn) (vn - 1)) as [Q1|Q1]. { exists true. split; auto. split; auto. intros _. apply SC. right. exists 0%nat. split; [lia|]. change (2 ^ Z.of_nat 0) with 1. rewrite Z.mul_1_l. auto. }
  destruct (square_until_int n nm1 vn Hn Hm ltac:(lia) (j - 1) z _ Hz (or_intror I)) as (r & -> & Hr). exists r. split; auto. rewrite Hr, SC.
  assert (PM : forall i, (vb ^ m mod vn) ^ (2 ^ Z.of_nat i) mod vn = vb ^ (2 ^ Z.of_nat i * m) mod vn). { intros i. rewrite (Z.mul_comm _ m), Z.pow_mul_r by (try apply Z.pow_nonneg; lia). apply (eqm_pow vn), eqm_mod. }
  split.
  - intros (i & Hi & E). right. exists i. split; [lia|]. rewrite <- PM. auto.
  - intros [E|(i & Hi & E)]; [contradiction|]. destruct i as [|i]. { change (2 ^ Z.of_nat 0) with 1 in E. rewrite Z.mul_1_l in E. contradiction. } exists (S i). split; [lia|]. rewrite PM. auto.
Qed.
Theorem fermat_exact fuel n b vn vb : is_int n vn -> is_int b vb -> 3 < vn -> vn <= Z.of_nat fuel -> exists r, is_fermat_probable_prime w fuel n b = ROk r /\ (r = true <-> fermat_condition vn vb).
Proof.
  intros Hn Hb L3 L. unfold is_fermat_probable_prime. rewrite (cmp_le w Hwb _ _ _ _ Hn (lit_int w Hwb 3 ltac:(lia))). destruct (Z.leb_spec vn 3); [lia|].
  destruct (exp_big w Hwb fuel b _ n vb _ vn Hn ltac:(lia) Hb (minus_int w _ _ _ _ Hn (one_int w)) ltac:(lia)) as (r & -> & Hr). cbn [rbind]. rewrite (cmp_eq w Hwb _ _ _ _ Hr (one_int w)). eexists. split; [reflexivity|]. apply Z.eqb_eq.
Qed.
Theorem modular_root_of_int fuel a e p q va ve vp vq : is_int a va -> is_int e ve -> is_int p vp -> is_int q vq -> prime vp -> prime vq -> vp <> vq -> 2 < vp -> 2 < vq -> 0 < ve -> Z.gcd ve (vp - 1) = 1 -> Z.gcd ve (vq - 1) = 1 ->
  (length (reg e) <= 2 * length (reg (minus w p int_one)))%nat -> (length (reg e) <= 2 * length (reg (minus w q int_one)))%nat -> (length (reg p) <= 2 * length (reg q))%nat -> vp < 2 ^ (Z.of_nat fuel - 1) -> vq < 2 ^ (Z.of_nat fuel - 1) ->
  exists r v, modular_root_of w fuel a e p q = ROk r /\ is_int r v /\ 0 <= v < vp * vq /\ v ^ ve mod (vp * vq) = va mod (vp * vq).
Proof.
  intros Ha He Hp Hq Pp Pq N P2 Q2 E0 G1 G2 L1 L2 L3 F1 F2. unfold modular_root_of.
  destruct (inverse_mod_int w Hwb e _ ve _ He (minus_int w _ _ _ _ Hp (one_int w)) ltac:(lia) ltac:(auto)) as (dp & vdp & -> & Hdp & I1 & _). cbn [rbind]. destruct (I1 G1) as [D1 D2].
  destruct (inverse_mod_int w Hwb e _ ve _ He (minus_int w _ _ _ _ Hq (one_int w)) ltac:(lia) ltac:(auto)) as (dq & vdq & -> & Hdq & I2 & _). cbn [rbind]. destruct (I2 G2) as [D3 D4].
  destruct (inverse_mod_int w Hwb p q vp vq Hp Hq ltac:(lia) ltac:(auto)) as (u & vu & -> & Hu & I3 & _). cbn [rbind]. destruct I3 as [D5 D6]. { apply primes_coprime; auto. }
  destruct (modular_root_int w Hwb fuel a dp dq p q u va vdp vdq vp vq vu ve Ha Hdp Hdq Hp Hq Hu Pp Pq N) as (r & v & E & Hr & R & V & _); try lia. { rewrite D2, Z.mod_small; lia. } { rewrite D4, Z.mod_small; lia. } { rewrite Z.mul_comm. auto. }
  exists r, v. auto.
Qed.
End Nb.
