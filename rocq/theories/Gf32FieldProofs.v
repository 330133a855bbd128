From Coq Require Import ZArith List Bool Lia Znumtheory.
From Verif Require Import Gf2Spec Gf2Proofs Gf32Model Gf32Proofs.
Import ListNotations.
Local Open Scope Z_scope.

Definition word (a : Z) : Prop := 0 <= a < 2 ^ 32.
Lemma word_nonneg : forall a, word a -> 0 <= a. Proof. unfold word. lia. Qed.
Lemma word_1 : word 1. Proof. unfold word. rewrite W32. lia. Qed.
Lemma word_add : forall a b, word a -> word b -> word (Z.lxor a b). Proof. intros. apply word_lxor; auto. lia. Qed.

Section Ring.
  Variable m : Z.
  Hypothesis Hm : 0 <= m < 2 ^ 32.
  Local Notation mul := (gf_mul m).
  Local Notation f := (gfp m).
  Lemma mul_word : forall a b, word a -> word b -> word (mul a b). Proof. intros. apply gf_mul_spec; auto. Qed.
  Lemma mul_cong : forall a b, word a -> word b -> pcong f (mul a b) (pmul a b). Proof. intros. apply gf_mul_spec; auto. Qed.
  Lemma fpos : 0 < f. Proof. apply gfp_pos. auto. Qed.
  Hint Resolve mul_word mul_cong fpos word_nonneg word_1 word_add pcong_refl pmul_nonneg : gf.
  Lemma mul_comm : forall a b, word a -> word b -> mul a b = mul b a.
  Proof. intros a b Ha Hb. apply (gf_unique m Hm); [apply mul_word; auto|apply mul_word; auto|]. apply pcong_trans with (pmul a b); auto with gf. rewrite pmul_comm by auto with gf. apply pcong_sym; auto with gf. Qed.
  Lemma mul_assoc : forall a b c, word a -> word b -> word c -> mul (mul a b) c = mul a (mul b c).
  Proof.
    intros a b c Ha Hb Hc. apply (gf_unique m Hm); [apply mul_word; auto with gf|apply mul_word; auto with gf|].
    apply pcong_trans with (pmul (mul a b) c); auto with gf. apply pcong_trans with (pmul (pmul a b) c); auto with gf; [apply pcong_mul_l; auto with gf|].
    rewrite pmul_assoc by auto with gf. apply pcong_sym. apply pcong_trans with (pmul a (mul b c)); auto with gf. apply pcong_mul; auto with gf.
  Qed.
  Lemma mul_add : forall a b c, word a -> word b -> word c -> mul a (Z.lxor b c) = Z.lxor (mul a b) (mul a c).
  Proof.
    intros a b c Ha Hb Hc. apply (gf_unique m Hm); [apply mul_word; auto with gf|apply word_add; auto with gf|].
    apply pcong_trans with (pmul a (Z.lxor b c)); auto with gf. rewrite pmul_lxor_r by auto with gf. apply pcong_sym. apply pcong_lxor; auto with gf.
  Qed.
  Lemma mul_1_r : forall a, word a -> mul a 1 = a.
  Proof. intros a Ha. apply (gf_unique m Hm); auto; [apply mul_word; auto with gf|]. apply pcong_trans with (pmul a 1); auto with gf. Qed.
  Lemma mul_0_r : forall a, word a -> mul a 0 = 0.
  Proof. intros a Ha. assert (word 0) by (unfold word; rewrite W32; lia). apply (gf_unique m Hm); auto; [apply mul_word; auto with gf|]. apply pcong_trans with (pmul a 0); auto with gf. Qed.
  Lemma mul_1_l : forall a, word a -> mul 1 a = a. Proof. intros. rewrite mul_comm by auto with gf. apply mul_1_r. auto. Qed.
  Fixpoint gpow (a : Z) (n : nat) : Z := match n with O => 1 | S k => mul a (gpow a k) end.
  Lemma gpow_word : forall a n, word a -> word (gpow a n). Proof. induction n; cbn [gpow]; intros; [apply word_1|apply mul_word; auto]. Qed.
  Lemma gpow_add : forall a n k, word a -> gpow a (n + k) = mul (gpow a n) (gpow a k).
  Proof. intros a n k Ha. pose proof (fun j => gpow_word a j Ha) as P. induction n as [|n IH]; cbn [gpow Nat.add]; [symmetry; apply mul_1_l; auto|]. rewrite IH, mul_assoc; auto. Qed.
  Lemma gpow_mul : forall a n k, word a -> gpow a (n * k) = gpow (gpow a k) n.
  Proof. intros a n k Ha. induction n as [|n IH]; cbn [gpow Nat.mul]; [reflexivity|]. rewrite gpow_add, IH by auto. reflexivity. Qed.
  Lemma gpow_1 : forall n, gpow 1 n = 1. Proof. induction n as [|n IH]; cbn [gpow]; [reflexivity|]. rewrite IH. apply mul_1_l, word_1. Qed.
  (** binary exponentiation, to compute with *)
  Fixpoint gexp (a : Z) (p : positive) : Z := match p with xH => a | xO q => let s := gexp a q in mul s s | xI q => let s := gexp a q in mul a (mul s s) end.
  Lemma gexp_spec : forall a p, word a -> gexp a p = gpow a (Pos.to_nat p).
  Proof.
    intros a p Ha. induction p as [p IH|p IH|]; cbn [gexp]; cbv zeta; rewrite ?IH.
    - replace (Pos.to_nat p~1) with (S (Pos.to_nat p + Pos.to_nat p)) by lia. cbn [gpow]. rewrite gpow_add by auto. reflexivity.
    - replace (Pos.to_nat p~0) with (Pos.to_nat p + Pos.to_nat p)%nat by lia. rewrite gpow_add by auto. reflexivity.
    - change (Pos.to_nat 1) with 1%nat. cbn [gpow]. symmetry. apply mul_1_r. auto.
  Qed.
End Ring.

Lemma prime_trial : forall n k, 1 < n -> n < (k + 1) * (k + 1) -> 0 <= k -> (forall d, 2 <= d <= k -> n mod d <> 0) -> prime n.
Proof.
  intros n k Hn Hk Hk0 H. apply prime_alt. split; [exact Hn|]. intros d Hd [c E]. assert (Hc : 1 < c) by nia.
  destruct (Z_le_gt_dec d k) as [L|L]; [apply (H d); [lia|]; rewrite E; apply Z.mod_mul; lia|].
  destruct (Z_le_gt_dec c k) as [L2|L2]; [apply (H c); [lia|]; rewrite E, Z.mul_comm; apply Z.mod_mul; lia|]. nia.
Qed.
Definition trial_ok (n k : Z) : bool := forallb (fun i => negb (n mod (Z.of_nat i + 2) =? 0)) (seq 0 (Z.to_nat (k - 1))).
Lemma trial_prime : forall n k, 1 < n -> n < (k + 1) * (k + 1) -> 0 <= k -> trial_ok n k = true -> prime n.
Proof.
  intros n k H1 H2 H3 T. apply (prime_trial n k H1 H2 H3). intros d Hd E. unfold trial_ok in T. rewrite forallb_forall in T. specialize (T (Z.to_nat (d - 2))).
  rewrite in_seq in T. specialize (T ltac:(lia)). replace (Z.of_nat (Z.to_nat (d - 2)) + 2) with d in T by lia. rewrite E in T. discriminate.
Qed.
Lemma gf_primes : Forall prime [3; 5; 17; 257; 65537].
Proof. apply Forall_cons; [|apply Forall_cons; [|apply Forall_cons; [|apply Forall_cons; [|apply Forall_cons; [|apply Forall_nil]]]]]; [apply (trial_prime 3 1)|apply (trial_prime 5 2)|apply (trial_prime 17 4)|apply (trial_prime 257 16)|apply (trial_prime 65537 256)]; (lia || (vm_compute; reflexivity)). Qed.

Local Notation M := (gf_mul 141).
Lemma H141 : 0 <= 141 < 2 ^ 32. Proof. rewrite W32. lia. Qed.
Lemma gexp_facts : gexp 141 3 4294967295 = 1 /\ gexp 141 3 1431655765 <> 1 /\ gexp 141 3 858993459 <> 1 /\ gexp 141 3 252645135 <> 1 /\ gexp 141 3 16711935 <> 1 /\ gexp 141 3 65535 <> 1.
Proof. split; [vm_compute; reflexivity|]. split; [vm_compute; discriminate|]. split; [vm_compute; discriminate|]. split; [vm_compute; discriminate|]. split; vm_compute; discriminate. Qed.

Lemma NoDup_map_in : forall (A B : Type) (g : A -> B) l, (forall x y, In x l -> In y l -> g x = g y -> x = y) -> NoDup l -> NoDup (map g l).
Proof.
  intros A B g l. induction l as [|x l IH]; intros Inj ND; cbn [map]; [constructor|]. inversion ND as [|? ? N1 N2]; subst. constructor.
  - intros C. apply in_map_iff in C. destruct C as (y & E & Hy). assert (y = x) by (apply Inj; cbn; auto). subst. auto.
  - apply IH; auto. intros a b Ha Hb. apply Inj; cbn; auto.
Qed.
Section Order.
  Variable N : nat.
  Hypothesis HN : Z.of_nat N = 4294967295.
  Local Notation P := (gpow 141 3).
  Lemma w3 : word 3. Proof. unfold word. rewrite W32. lia. Qed.
  Lemma P_word : forall n, word (P n). Proof. intros. apply gpow_word; [exact H141|exact w3]. Qed.
  Lemma P_add : forall i j, P (i + j) = M (P i) (P j). Proof. intros. apply gpow_add; [exact H141|exact w3]. Qed.
  Lemma P_mul : forall i j, P j = 1 -> P (i * j) = 1.
  Proof. intros i j E. rewrite gpow_mul by (exact H141 || exact w3). rewrite E. apply gpow_1. exact H141. Qed.
  Lemma P_at : forall p n, Z.of_nat n = Zpos p -> P n = gexp 141 3 p.
  Proof. intros p n E. rewrite (gexp_spec 141 H141 3 p w3). f_equal. lia. Qed.
  Lemma P_N : P N = 1. Proof. rewrite (P_at 4294967295 N HN). apply gexp_facts. Qed.
  Lemma P_ord_q : forall q, Z.of_nat q = 1431655765 \/ Z.of_nat q = 858993459 \/ Z.of_nat q = 252645135 \/ Z.of_nat q = 16711935 \/ Z.of_nat q = 65535 -> P q <> 1.
  Proof. pose proof gexp_facts as (_ & F1 & F2 & F3 & F4 & F5). intros q [E|[E|[E|[E|E]]]]; rewrite (P_at _ q E); assumption. Qed.
  Lemma P_ord : forall d, (0 < d < N)%nat -> P d <> 1.
  Proof.
    intros d Hd E. destruct (Nat.gcd_bezout_pos d N ltac:(lia)) as (u & v & B). set (g := Nat.gcd d N) in *.
    assert (Eg : P g = 1). { pose proof (P_mul u d E) as E1. rewrite B, P_add, (P_mul v N P_N), (mul_1_r 141 H141) in E1 by apply P_word. exact E1. }
    destruct (Nat.gcd_divide_r d N) as [c Hc]. fold g in Hc. assert (Gd : (g <= d)%nat) by (apply Nat.divide_pos_le; [lia|apply Nat.gcd_divide_l]).
    assert (C1 : (1 < c)%nat) by nia.
    assert (R : forall p q, prime p -> p * q = 4294967295 -> (q = 1431655765 \/ q = 858993459 \/ q = 252645135 \/ q = 16711935 \/ q = 65535) -> rel_prime (Z.of_nat c) p).
    { intros p q Hp Hpq Hq. pose proof (prime_ge_2 p Hp). destruct (Zdivide_dec p (Z.of_nat c)) as [[k K]|D].
      - exfalso. assert (0 < k) by nia. assert (X : p * (k * Z.of_nat g) = p * q) by (rewrite Hpq, <- HN, Hc, Nat2Z.inj_mul, K; ring). assert (Y : Z.of_nat (Z.to_nat k * g) = q) by (rewrite Nat2Z.inj_mul, Z2Nat.id by lia; nia).
        apply (P_ord_q (Z.to_nat k * g)); [rewrite Y; exact Hq|]. apply P_mul. exact Eg.
      - apply rel_prime_sym, prime_rel_prime; auto. }
    pose proof gf_primes as GP. rewrite Forall_forall in GP. pose proof (GP 3 ltac:(cbn; tauto)) as Q1. pose proof (GP 5 ltac:(cbn; tauto)) as Q2. pose proof (GP 17 ltac:(cbn; tauto)) as Q3. pose proof (GP 257 ltac:(cbn; tauto)) as Q4. pose proof (GP 65537 ltac:(cbn; tauto)) as Q5.
    assert (RP : rel_prime (Z.of_nat c) (3 * (5 * (17 * (257 * 65537))))).
    { apply rel_prime_mult; [apply (R 3 1431655765); [assumption|reflexivity|lia]|]. apply rel_prime_mult; [apply (R 5 858993459); [assumption|reflexivity|lia]|].
      apply rel_prime_mult; [apply (R 17 252645135); [assumption|reflexivity|lia]|]. apply rel_prime_mult; [apply (R 257 16711935); [assumption|reflexivity|lia]|apply (R 65537 65535); [assumption|reflexivity|lia]]. }
    change (3 * (5 * (17 * (257 * 65537)))) with 4294967295 in RP. rewrite <- HN in RP. destruct RP as [_ _ X]. specialize (X (Z.of_nat c) (Z.divide_refl _)).
    assert (Y : (Z.of_nat c | 1)) by (apply X; exists (Z.of_nat g); rewrite Hc, Nat2Z.inj_mul; ring). apply Z.divide_1_r_nonneg in Y; lia.
  Qed.
  Lemma P_inv : forall i, (i <= N)%nat -> M (P i) (P (N - i)) = 1.
  Proof. intros i Hi. rewrite <- P_add. replace (i + (N - i))%nat with N by lia. apply P_N. Qed.
  Lemma P_inj_lt : forall i j, (i < j)%nat -> (j < N)%nat -> P i <> P j.
  Proof.
    intros i j L1 L2 E. apply (P_ord (j - i)); [lia|]. pose proof (P_inv i ltac:(lia)) as V. rewrite E, <- P_add in V. replace (j + (N - i))%nat with (j - i + N)%nat in V by lia.
    rewrite P_add, P_N, (mul_1_r 141 H141) in V by apply P_word. exact V.
  Qed.
  Lemma P_inj : forall i j, (i < N)%nat -> (j < N)%nat -> P i = P j -> i = j.
  Proof. intros i j Hi Hj E. destruct (lt_eq_lt_dec i j) as [[L|L]|L]; auto; exfalso; [apply (P_inj_lt i j L Hj E)|apply (P_inj_lt j i L Hi); auto]. Qed.
  Lemma P_pos : forall i, (i <= N)%nat -> P i <> 0.
  Proof.
    intros i Hi E. pose proof (P_inv i Hi) as V. rewrite E in V. assert (word 0) by (unfold word; rewrite W32; lia). rewrite (mul_comm 141 H141), (mul_0_r 141 H141) in V by (auto; apply P_word). discriminate.
  Qed.
  Lemma P_surj : forall a, word a -> a <> 0 -> exists i, (i < N)%nat /\ P i = a.
  Proof.
    intros a Ha Na. set (L := map P (seq 0 N)). set (R := map Z.of_nat (seq 1 N)).
    assert (I : incl R L).
    { apply NoDup_length_incl.
      - unfold L. apply NoDup_map_in; [|apply seq_NoDup]. intros i j Hi Hj. rewrite in_seq in Hi, Hj. apply P_inj; lia.
      - unfold L, R. rewrite !map_length, !seq_length. lia.
      - intros x Hx. unfold L in Hx. rewrite in_map_iff in Hx. destruct Hx as (i & <- & Hi). rewrite in_seq in Hi. pose proof (P_word i) as W. pose proof (P_pos i ltac:(lia)). unfold word in W. rewrite W32 in W.
        unfold R. apply in_map_iff. exists (Z.to_nat (P i)). split; [lia|]. apply in_seq. lia. }
    assert (X : In a L). { apply I. unfold R. apply in_map_iff. exists (Z.to_nat a). unfold word in Ha. rewrite W32 in Ha. split; [lia|]. apply in_seq. lia. }
    unfold L in X. apply in_map_iff in X. destruct X as (i & E & Hi). rewrite in_seq in Hi. exists i. split; [lia|auto].
  Qed.
  Lemma field_inverse_N : forall a, word a -> a <> 0 -> exists b, word b /\ M a b = 1.
  Proof. intros a Ha Na. destruct (P_surj a Ha Na) as (i & Hi & <-). exists (P (N - i)). split; [apply P_word|apply P_inv; lia]. Qed.
End Order.
Lemma field_inverse : forall a, word a -> a <> 0 -> exists b, word b /\ M a b = 1.
Proof. apply (field_inverse_N (Z.to_nat 4294967295)). apply Z2Nat.id. lia. Qed.
