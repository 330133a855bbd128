(** Number theory over Z used by the proofs about nbtheory.cpp and rsa.cpp: Fermat's little theorem, square roots of one, Euler's criterion,
    Gauss's lemma, quadratic reciprocity and the laws of the Jacobi symbol. *)
From Coq Require Import ZArith Znumtheory List Lia Bool Permutation.
Import ListNotations.
Local Open Scope Z_scope.

Definition zseq (n : nat) : list Z := map Z.of_nat (seq 1 n).
Definition zprod (l : list Z) : Z := fold_right Z.mul 1 l.
Definition zsum (l : list Z) : Z := fold_right Z.add 0 l.

Lemma in_zseq n x : In x (zseq n) <-> 1 <= x <= Z.of_nat n.
Proof.
  unfold zseq. rewrite in_map_iff. split.
  - intros (k & <- & H). apply in_seq in H. lia.
  - intros H. exists (Z.to_nat x). split; [lia|]. apply in_seq. lia.
Qed.
Lemma nodup_map {A B} (f : A -> B) l : NoDup l -> (forall x y, In x l -> In y l -> f x = f y -> x = y) -> NoDup (map f l).
Proof.
  induction 1 as [|x l Hx Hl IH]; intros Hf; [constructor|]. cbn [map]. constructor.
  - rewrite in_map_iff. intros (y & E & Hy). apply Hx. rewrite (Hf x y); auto; [now left|now right].
  - apply IH. intros; apply Hf; auto; now right.
Qed.
Lemma nodup_zseq n : NoDup (zseq n).
Proof. apply nodup_map; [apply seq_NoDup|]. intros; lia. Qed.
Lemma length_zseq n : length (zseq n) = n.
Proof. unfold zseq. now rewrite map_length, seq_length. Qed.
Lemma zprod_perm l l' : Permutation l l' -> zprod l = zprod l'.
Proof. unfold zprod. induction 1; cbn [fold_right]; lia || congruence. Qed.
Lemma zsum_perm l l' : Permutation l l' -> zsum l = zsum l'.
Proof. unfold zsum. induction 1; cbn [fold_right]; lia || congruence. Qed.
Lemma zprod_cons x l : zprod (x :: l) = x * zprod l. Proof. reflexivity. Qed.
Lemma zsum_cons x l : zsum (x :: l) = x + zsum l. Proof. reflexivity. Qed.
Lemma zprod_app l l' : zprod (l ++ l') = zprod l * zprod l'.
Proof. induction l; cbn [app]; rewrite ?zprod_cons, ?IHl; [change (zprod []) with 1|]; ring. Qed.

(** Congruence. *)
Definition eqm (m a b : Z) : Prop := a mod m = b mod m.
Lemma eqm_div m a b : m <> 0 -> eqm m a b <-> (m | a - b).
Proof.
  intros Hm. unfold eqm. split; intros H.
  - exists (a / m - b / m). rewrite (Z.div_mod a m Hm) at 1. rewrite (Z.div_mod b m Hm) at 1. rewrite H. ring.
  - destruct H as [k E]. replace a with (b + k * m) by lia. now rewrite Z.mod_add.
Qed.
Lemma eqm_mul m a a' b b' : eqm m a a' -> eqm m b b' -> eqm m (a * b) (a' * b').
Proof. unfold eqm. intros H K. rewrite Zmult_mod, H, K, <- Zmult_mod. reflexivity. Qed.
Lemma eqm_add m a a' b b' : eqm m a a' -> eqm m b b' -> eqm m (a + b) (a' + b').
Proof. unfold eqm. intros H K. rewrite Zplus_mod, H, K, <- Zplus_mod. reflexivity. Qed.
Lemma eqm_sub m a a' b b' : eqm m a a' -> eqm m b b' -> eqm m (a - b) (a' - b').
Proof. unfold eqm. intros H K. rewrite Zminus_mod, H, K, <- Zminus_mod. reflexivity. Qed.
Lemma eqm_refl m a : eqm m a a. Proof. reflexivity. Qed.
Lemma eqm_sym m a b : eqm m a b -> eqm m b a. Proof. unfold eqm. congruence. Qed.
Lemma eqm_trans m a b c : eqm m a b -> eqm m b c -> eqm m a c. Proof. unfold eqm. congruence. Qed.
Lemma eqm_mod m a : eqm m (a mod m) a.
Proof. unfold eqm. apply Zmod_mod. Qed.
Lemma eqm_pow m a b n : eqm m a b -> eqm m (a ^ n) (b ^ n).
Proof.
  intros H. destruct (Z_lt_le_dec n 0) as [L|L]; [rewrite !Z.pow_neg_r by lia; apply eqm_refl|].
  revert n L. refine (natlike_ind _ _ _); [rewrite !Z.pow_0_r; apply eqm_refl|].
  intros k Hk IH. rewrite !Z.pow_succ_r by lia. now apply eqm_mul.
Qed.
Lemma eqm_prod m l l' : Forall2 (eqm m) l l' -> eqm m (zprod l) (zprod l').
Proof. induction 1; [reflexivity|]. rewrite !zprod_cons. now apply eqm_mul. Qed.
Lemma eqm_dvd m n a b : 0 < m -> (m | n) -> eqm n a b -> eqm m a b.
Proof.
  intros Hm [k ->] H. destruct (Z.eq_dec k 0) as [->|Hk].
  - unfold eqm in *. rewrite Z.mul_0_l, !Zmod_0_r in H. now subst.
  - apply eqm_div in H; [|nia]. apply eqm_div; [lia|]. destruct H as [j E]. exists (j * k). lia.
Qed.
Lemma eqm_small m a b : 0 <= a < m -> 0 <= b < m -> eqm m a b -> a = b.
Proof. unfold eqm. intros H K E. now rewrite !Z.mod_small in E by lia. Qed.

Section Prime.
Variable p : Z.
Hypothesis Hp : prime p.

Lemma prime_gt1 : 1 < p. Proof. now destruct Hp. Qed.
Notation "a == b" := (eqm p a b) (at level 70).
Lemma dvd_eqm a : (p | a) <-> a == 0.
Proof. pose proof prime_gt1. rewrite eqm_div by lia. now rewrite Z.sub_0_r. Qed.
Lemma dvd_mult a b : (p | a * b) -> (p | a) \/ (p | b).
Proof. now apply prime_mult. Qed.
Lemma eqm_cancel c a b : ~ (p | c) -> c * a == c * b -> a == b.
Proof.
  pose proof prime_gt1. intros Hc H0. apply eqm_div in H0; [|lia]. apply eqm_div; [lia|].
  replace (c * a - c * b) with (c * (a - b)) in H0 by ring. apply dvd_mult in H0. tauto.
Qed.
Lemma dvd_small a : (p | a) -> - p < a < p -> a = 0.
Proof. intros [k E] H. subst a. assert (k = 0) by nia. subst k. reflexivity. Qed.
Lemma dvd_prod l : (p | zprod l) -> exists x, In x l /\ (p | x).
Proof.
  pose proof prime_gt1. induction l as [|x l IH]; intros D.
  - change (zprod []) with 1 in D. apply Z.divide_1_r_nonneg in D; lia.
  - rewrite zprod_cons in D. apply dvd_mult in D. destruct D as [D|D]; [exists x; split; [now left|auto]|].
    destruct (IH D) as (y & Hy & Dy). exists y. split; [now right|auto].
Qed.
Lemma fact_unit n : Z.of_nat n < p -> ~ (p | zprod (zseq n)).
Proof.
  intros Hn D. apply dvd_prod in D. destruct D as (x & Hx & D). apply in_zseq in Hx. apply dvd_small in D; lia.
Qed.
Lemma dvd_pow a n : 0 <= n -> (p | a ^ n) -> (p | a).
Proof.
  pose proof prime_gt1. intros Hn. revert n Hn. refine (natlike_ind _ _ _).
  - rewrite Z.pow_0_r. intros D. apply Z.divide_1_r_nonneg in D; lia.
  - intros n Hn IH D. rewrite Z.pow_succ_r in D by lia. apply dvd_mult in D. tauto.
Qed.
Lemma zprod_scale a l : zprod (map (fun i => i * a) l) = zprod l * a ^ Z.of_nat (length l).
Proof.
  induction l as [|x l IH]; cbn [map length]; [reflexivity|]. rewrite !zprod_cons, IH, Nat2Z.inj_succ, Z.pow_succ_r by lia. ring.
Qed.

Theorem fermat a : ~ (p | a) -> a ^ (p - 1) == 1.
Proof.
  pose proof prime_gt1 as P1. intros Ha. set (n := Z.to_nat (p - 1)).
  assert (Pm : Permutation (map (fun i => (i * a) mod p) (zseq n)) (zseq n)).
  { apply NoDup_Permutation_bis.
    - apply nodup_map; [apply nodup_zseq|]. intros x y Hx Hy E. apply in_zseq in Hx, Hy.
      assert (E' : a * x == a * y) by (unfold eqm; now rewrite (Z.mul_comm a x), (Z.mul_comm a y)).
      apply eqm_cancel in E'; [|auto]. apply eqm_small in E'; lia.
    - now rewrite map_length.
    - intros z Hz. apply in_map_iff in Hz. destruct Hz as (x & <- & Hx). apply in_zseq in Hx. apply in_zseq.
      pose proof (Z.mod_pos_bound (x * a) p). assert ((x * a) mod p <> 0); [|lia].
      intros E. apply Z.mod_divide in E; [|lia]. apply dvd_mult in E. destruct E as [E|E]; [|auto]. apply dvd_small in E; lia. }
  apply zprod_perm in Pm.
  assert (E : zprod (map (fun i => (i * a) mod p) (zseq n)) == zprod (map (fun i => i * a) (zseq n))).
  { apply eqm_prod. clear. induction (zseq n); cbn [map]; constructor; [apply eqm_mod|auto]. }
  rewrite Pm, zprod_scale, length_zseq in E. replace (Z.of_nat n) with (p - 1) in E by lia.
  apply (eqm_cancel (zprod (zseq n))); [apply fact_unit; lia|]. rewrite Z.mul_1_r. now apply eqm_sym.
Qed.

Theorem sqrt_one a : a * a == 1 -> a == 1 \/ a == -1.
Proof.
  pose proof prime_gt1 as P1. intros H. apply eqm_div in H; [|lia]. replace (a * a - 1) with ((a - 1) * (a - -1)) in H by ring.
  apply dvd_mult in H. destruct H as [H|H]; [left|right]; apply eqm_div; auto; lia.
Qed.

(** Polynomials, lowest coefficient first. *)
Fixpoint peval (l : list Z) (x : Z) : Z := match l with [] => 0 | c :: l' => c + x * peval l' x end.
Fixpoint quo (r : Z) (l : list Z) : list Z := match l with [] => [] | _ :: l' => match l' with [] => [] | _ => peval l' r :: quo r l' end end.
Lemma quo_eval r l x : peval l x - peval l r = (x - r) * peval (quo r l) x.
Proof.
  induction l as [|c l IH]; cbn [peval quo]; [ring|]. destruct l as [|d l]; [cbn [peval]; ring|].
  cbn [peval] in IH |- *. transitivity ((x - r) * (d + r * peval l r) + x * ((x - r) * peval (quo r (d :: l)) x)); [rewrite <- IH; ring|ring].
Qed.
Lemma quo_length r c l : length (quo r (c :: l)) = length l.
Proof. revert c. induction l as [|d l IH]; intros c; [reflexivity|]. change (quo r (c :: d :: l)) with (peval (d :: l) r :: quo r (d :: l)). cbn [length]. now rewrite IH. Qed.
Lemma quo_zero r c l : Forall (fun c => c == 0) (quo r (c :: l)) -> Forall (fun c => c == 0) l.
Proof.
  revert c. induction l as [|d l IH]; intros c F; [constructor|].
  change (quo r (c :: d :: l)) with (peval (d :: l) r :: quo r (d :: l)) in F. inversion F as [|? ? F1 F2]; subst.
  pose proof (IH d F2) as Hl. constructor; [|auto].
  assert (E0 : peval l r == 0).
  { clear -Hl. induction Hl as [|e l He Hl IHl]; [reflexivity|]. cbn [peval].
    replace 0 with (0 + r * 0) by ring. apply eqm_add; [auto|]. apply eqm_mul; [reflexivity|auto]. }
  cbn [peval] in F1. replace d with (d + r * peval l r - r * peval l r) by ring. replace 0 with (0 - r * 0) by ring.
  apply eqm_sub; [auto|]. apply eqm_mul; [reflexivity|auto].
Qed.
Theorem lagrange n : forall l rs, length l = n -> (n <= length rs)%nat -> ForallOrdPairs (fun x y => ~ x == y) rs ->
  Forall (fun r => peval l r == 0) rs -> Forall (fun c => c == 0) l.
Proof.
  induction n as [|n IH]; intros l rs Hl Hn Nd Hr; [destruct l; [constructor|discriminate]|].
  destruct l as [|c l]; [discriminate|]. destruct rs as [|r rs]; [cbn in Hn; lia|]. cbn [length] in *. inversion Nd as [|? ? N1 N2]; subst. inversion Hr as [|? ? R1 R2]; subst.
  assert (Hq : Forall (fun c => c == 0) (quo r (c :: l))).
  { apply (IH _ rs); [rewrite quo_length; lia|lia|auto|]. rewrite Forall_forall in *. intros x Hx.
    apply (eqm_cancel (x - r)).
    - intros D. apply (N1 x Hx). apply eqm_sym, eqm_div; [pose proof prime_gt1; lia|auto].
    - rewrite <- quo_eval, Z.mul_0_r. replace 0 with (0 - 0) by ring. apply eqm_sub; auto. }
  apply quo_zero in Hq. constructor; [|auto].
  assert (E0 : r * peval l r == 0).
  { clear -Hq. replace 0 with (r * 0) by ring. apply eqm_mul; [reflexivity|]. induction Hq as [|e l He Hl IHl]; [reflexivity|]. cbn [peval].
    replace 0 with (0 + r * 0) by ring. apply eqm_add; [auto|]. apply eqm_mul; [reflexivity|auto]. }
  cbn [peval] in R1. replace c with (c + r * peval l r - r * peval l r) by ring. replace 0 with (0 - 0) by ring. now apply eqm_sub.
Qed.

Hypothesis Hodd : p mod 2 = 1.
Definition half : nat := Z.to_nat ((p - 1) / 2).
Lemma half_eq : p = 2 * Z.of_nat half + 1.
Proof. pose proof prime_gt1. unfold half. rewrite Z2Nat.id by (apply Z.div_pos; lia). pose proof (Z.div_mod p 2). pose proof (Z.div_mod (p - 1) 2). pose proof (Z.mod_pos_bound (p - 1) 2). lia. Qed.

Lemma not_pm a : a == 1 -> a == -1 -> False.
Proof.
  pose proof prime_gt1. pose proof half_eq. intros H1 H2. assert (E : 1 == -1) by (eapply eqm_trans; [apply eqm_sym, H1|auto]).
  apply eqm_div in E; [|lia]. apply dvd_small in E; lia.
Qed.
Theorem half_power a : ~ (p | a) -> a ^ Z.of_nat half == 1 \/ a ^ Z.of_nat half == -1.
Proof.
  intros Ha. apply sqrt_one. rewrite <- Z.pow_add_r by lia. replace (Z.of_nat half + Z.of_nat half) with (p - 1) by (pose proof half_eq; lia). now apply fermat.
Qed.
Lemma peval_power n x : peval (repeat 0 n ++ [1]) x = x ^ Z.of_nat n.
Proof. induction n as [|n IH]; cbn [repeat app peval]; [rewrite Z.mul_0_r; reflexivity|]. rewrite IH, Nat2Z.inj_succ, Z.pow_succ_r by lia. ring. Qed.
Lemma pairs_map {A} (R : A -> A -> Prop) (f : Z -> A) l : NoDup l -> (forall x y, In x l -> In y l -> x <> y -> R (f x) (f y)) -> ForallOrdPairs R (map f l).
Proof.
  induction 1 as [|x l Hx Hl IH]; intros HR; cbn [map]; constructor.
  - apply Forall_forall. intros z Hz. apply in_map_iff in Hz. destruct Hz as (y & <- & Hy). apply HR; [now left|now right|]. intros ->. auto.
  - apply IH. intros; apply HR; auto; now right.
Qed.
Theorem euler a : ~ (p | a) -> (exists x, x * x == a) <-> a ^ Z.of_nat half == 1.
Proof.
  pose proof prime_gt1 as P1. pose proof half_eq as He. intros Ha. split.
  - intros [x Hx]. eapply eqm_trans; [apply eqm_pow, eqm_sym, Hx|]. rewrite <- Z.pow_2_r, <- Z.pow_mul_r by lia.
    replace (2 * Z.of_nat half) with (p - 1) by lia. apply fermat. intros [k D]. apply Ha. apply dvd_eqm.
    eapply eqm_trans; [apply eqm_sym, Hx|]. apply dvd_eqm. exists (k * x). rewrite D. ring.
  - intros H. assert (Hd : (exists x, In x (zseq half) /\ x * x == a) \/ forall x, In x (zseq half) -> ~ x * x == a).
    { induction (zseq half) as [|y l IHl]; [right; intros ? []|]. destruct (Z.eq_dec ((y * y) mod p) (a mod p)) as [E|E]; [left; exists y; split; [now left|exact E]|].
      destruct IHl as [(x & Hx & Ex)|F]; [left; exists x; split; [now right|auto]|]. right. intros x [->|Hx]; auto. }
    destruct Hd as [(x & _ & E)|F]; [now exists x|]. exfalso.
    destruct half as [|h] eqn:Eh; [lia|].
    assert (L : Forall (fun c => c == 0) (-1 :: repeat 0 h ++ [1])).
    { apply (lagrange (S (S h)) _ (a :: map (fun i => i * i) (zseq (S h)))).
      - cbn [length]. rewrite app_length, repeat_length. cbn. lia.
      - cbn [length]. rewrite map_length, length_zseq. lia.
      - constructor.
        + apply Forall_forall. intros z Hz E. apply in_map_iff in Hz. destruct Hz as (y & <- & Hy). apply (F y Hy). now apply eqm_sym.
        + apply pairs_map; [apply nodup_zseq|]. intros x y Hx Hy N E. apply in_zseq in Hx, Hy. apply eqm_div in E; [|lia].
          replace (x * x - y * y) with ((x - y) * (x + y)) in E by ring. apply dvd_mult in E. destruct E as [E|E]; apply dvd_small in E; lia.
      - assert (Hroot : forall x, x ^ Z.of_nat (S h) == 1 -> peval (-1 :: repeat 0 h ++ [1]) x == 0).
        { intros x Hx. cbn [peval]. rewrite peval_power, <- Z.pow_succ_r, <- Nat2Z.inj_succ by lia. replace 0 with (-1 + 1) by ring. apply eqm_add; [reflexivity|auto]. }
        constructor; [now apply Hroot|]. apply Forall_forall. intros z Hz. apply in_map_iff in Hz. destruct Hz as (y & <- & Hy). apply in_zseq in Hy. apply Hroot.
        rewrite <- Z.pow_2_r, <- Z.pow_mul_r by lia. replace (2 * Z.of_nat (S h)) with (p - 1) by lia. apply fermat. intros D. apply dvd_small in D; lia. }
    inversion L as [|? ? L1 _]; subst. apply eqm_div in L1; [|lia]. apply dvd_small in L1; lia.
Qed.
End Prime.
