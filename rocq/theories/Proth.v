(** Proth's theorem, for the primes of the examples. *)
From Coq Require Import ZArith Znumtheory Zpow_facts List Lia.
From Verif Require Import NumberTheory.
Local Open Scope Z_scope.

Lemma two_part a : 0 < a -> exists j s, 0 <= j /\ a = 2 ^ j * s /\ s mod 2 = 1 /\ 0 < s.
Proof.
  intros P. remember (Z.to_nat a) as n eqn:E. revert a P E. induction n as [n IH] using (well_founded_induction Wf_nat.lt_wf). intros a P ->.
  pose proof (Z.div_mod a 2 ltac:(lia)) as D. destruct (Z.eq_dec (a mod 2) 0) as [Z|Z].
  - destruct (IH (Z.to_nat (a / 2)) ltac:(lia) (a / 2) ltac:(lia) eq_refl) as (j & s & J & Ea & S & Q). exists (j + 1), s. rewrite Z.pow_add_r by lia. lia.
  - pose proof (Z.mod_pos_bound a 2 ltac:(lia)). exists 0, a. rewrite Z.pow_0_r. lia.
Qed.
Lemma prime_factor n : 1 < n -> exists r, prime r /\ (r | n) /\ (r * r <= n \/ prime n).
Proof.
  intros P. remember (Z.to_nat n) as k eqn:E. revert n P E. induction k as [k IH] using (well_founded_induction Wf_nat.lt_wf). intros n P ->.
  destruct (prime_dec n) as [Hp|Hp]; [exists n; split; [auto|]; split; [apply Z.divide_refl|auto]|].
  destruct (not_prime_divide n P Hp) as (a & A & (b & B)). assert (Hb : 1 < b) by nia. set (c := Z.min a b). assert (Hc : 1 < c /\ c * c <= n /\ (c | n)).
  { unfold c. destruct (Z.min_spec a b) as [(C & ->)|(C & ->)]; (split; [lia|]); split; try nia; [exists b; lia|exists a; lia]. }
  destruct Hc as (C1 & C2 & C3). destruct (IH (Z.to_nat c) ltac:(nia) c C1 eq_refl) as (r & R1 & R2 & _). exists r. split; auto. split; [eapply Z.divide_trans; eauto|]. left. pose proof (Z.divide_pos_le r c ltac:(lia) R2). destruct R1. nia.
Qed.
Lemma pow_odd_minus_one p c s : eqm p c (-1) -> s mod 2 = 1 -> 0 < s -> eqm p (c ^ s) (-1).
Proof.
  intros C S P. eapply eqm_trans; [apply eqm_pow, C|]. replace s with (1 + 2 * (s / 2)) by (pose proof (Z.div_mod s 2 ltac:(lia)); lia). rewrite Z.pow_add_r, Z.pow_mul_r by (try lia; pose proof (Z.div_pos s 2); lia). change ((-1) ^ 2) with 1. rewrite Z.pow_1_l by (pose proof (Z.div_pos s 2); lia). apply eqm_refl.
Qed.
Theorem proth n k m a : n = k * 2 ^ m + 1 -> 1 <= m -> 0 < k < 2 ^ m -> Zpow_mod a ((n - 1) / 2) n = n - 1 -> prime n.
Proof.
  intros En M K W. assert (P2 : 2 ^ m = 2 * 2 ^ (m - 1)) by (rewrite <- Z.pow_succ_r by lia; f_equal; lia). pose proof (Z.pow_pos_nonneg 2 (m - 1) ltac:(lia) ltac:(lia)) as Q1. assert (N1 : 2 < n) by nia.
  rewrite Zpow_mod_correct in W by lia. assert (Eh : (n - 1) / 2 = k * 2 ^ (m - 1)) by (replace (n - 1) with (k * 2 ^ (m - 1) * 2) by nia; apply Z.div_mul; lia). rewrite Eh in W.
  destruct (prime_factor n ltac:(lia)) as (r & R1 & R2 & [R3|R3]); auto. exfalso. pose proof (prime_gt1 r R1) as Rg.
  assert (Wr : eqm r (a ^ (k * 2 ^ (m - 1))) (-1)). { apply (eqm_dvd r n); auto; [lia|]. unfold eqm. rewrite W. rewrite <- (Z.mod_small (n - 1) n) at 1 by lia. apply eqm_div; [lia|]. exists 1. lia. }
  assert (Rodd : r <> 2). { intros ->. destruct R2 as (b & Hb). nia. }
  assert (NPM : ~ eqm r 1 (-1)). { intros X. apply eqm_div in X; [|lia]. change (1 - -1) with 2 in X. apply Z.divide_pos_le in X; lia. }
  assert (Na : ~ (r | a)). { intros D. assert (X : eqm r (a ^ (k * 2 ^ (m - 1))) 0). { apply eqm_div; [lia|]. rewrite Z.sub_0_r. replace (k * 2 ^ (m - 1)) with (1 + (k * 2 ^ (m - 1) - 1)) by lia. rewrite Z.pow_add_r by nia. rewrite Z.pow_1_r. apply Z.divide_mul_l. auto. }
    assert (Y : eqm r (-1) 0) by (eapply eqm_trans; [apply eqm_sym, Wr|exact X]). apply eqm_div in Y; [|lia]. apply Z.divide_opp_r in Y. change (- (-1 - 0)) with 1 in Y. apply Z.divide_pos_le in Y; lia. }
  pose proof (fermat r R1 a Na) as Fm. destruct (two_part (r - 1) ltac:(lia)) as (j & s & J & Er & S & Sp).
  destruct (Z.le_gt_cases m j) as [C|C].
  - assert (2 ^ m <= 2 ^ j) by (apply Z.pow_le_mono_r; lia). assert (2 ^ m + 1 <= r) by nia. assert (n < (2 ^ m + 1) * (2 ^ m + 1)) by nia. nia.
  - assert (X : eqm r ((a ^ (k * 2 ^ (m - 1))) ^ s) (-1)) by (apply pow_odd_minus_one; auto). apply NPM. eapply eqm_trans; [|exact X]. apply eqm_sym. rewrite <- Z.pow_mul_r by (try lia; nia).
    replace (k * 2 ^ (m - 1) * s) with ((r - 1) * (k * 2 ^ (m - 1 - j))). 2: { rewrite Er. replace (2 ^ (m - 1)) with (2 ^ j * 2 ^ (m - 1 - j)) by (rewrite <- Z.pow_add_r by lia; f_equal; lia). ring. }
    pose proof (Z.pow_pos_nonneg 2 (m - 1 - j) ltac:(lia) ltac:(lia)). rewrite Z.pow_mul_r by nia. eapply eqm_trans; [apply eqm_pow, Fm|]. rewrite Z.pow_1_l by nia. apply eqm_refl.
Qed.
