(** Proofs about random integers, square roots modulo a prime, quadratic equations and Lucas sequences. *)
From Coq Require Import ZArith Znumtheory List Bool Arith Lia.
From Verif Require Import Base WordsModel WordsSpec WordsProofs IntegerModel IntegerSpec IntegerProofs IntegerBitProofs IntegerDivProofs IntegerCodecProofs IntegerInvProofs
  ModModel ModSpec ModProofs AlgebraModel AlgebraSpec AlgebraProofs AlgebraModProofs NumberTheory Reciprocity NbModel NbSpec NbProofs.
Import ListNotations.
Local Open Scope Z_scope.

(** ** Number theory *)
Lemma non_residue_exists p : oddprime p -> exists n, 1 < n < p /\ leg n p = -1.
Proof.
  intros Ho. pose proof Ho as [Hp O]. pose proof (oddprime_pos p Ho). pose proof (half_eq p Hp O) as He. destruct (half p) as [|h] eqn:Eh; [lia|].
  assert (D : (exists n, In n (zseq (Z.to_nat (p - 1))) /\ leg n p = -1) \/ (forall n, In n (zseq (Z.to_nat (p - 1))) -> leg n p = 1)).
  { assert (A : forall x, In x (zseq (Z.to_nat (p - 1))) -> leg x p = 1 \/ leg x p = -1).
    { intros x Hx. apply in_zseq in Hx. destruct (leg_vals x p) as [E|[E|E]]; auto. exfalso. unfold leg in E. destruct (Z.eqb_spec (x mod p) 0) as [Q|Q]; [rewrite Z.mod_small in Q; lia|]. destruct (gsign_pm p x); lia. }
    induction (zseq (Z.to_nat (p - 1))) as [|y l IH]; [right; intros ? []|]. destruct (A y ltac:(now left)) as [E|E]; [|left; exists y; split; [now left|auto]].
    destruct IH as [(n & Hn & En)|IH]; [intros; apply A; now right|left; exists n; split; [now right|auto]|]. right. intros n [<-|Hn]; auto. }
  destruct D as [(n & Hn & En)|D].
  - apply in_zseq in Hn. exists n. split; auto. assert (n <> 1) by (intros ->; rewrite leg_one in En by auto; discriminate). lia.
  - exfalso. assert (L : Forall (fun c => eqm p c 0) (-1 :: repeat 0 h ++ [1])).
    { apply (lagrange p Hp (S (S h)) _ (zseq (Z.to_nat (p - 1)))).
      - cbn [length]. rewrite app_length, repeat_length. cbn. lia.
      - rewrite length_zseq. lia.
      - rewrite <- map_id. apply pairs_map; [apply nodup_zseq|]. intros x y Hx Hy N E. apply in_zseq in Hx, Hy. apply eqm_small in E; lia.
      - apply Forall_forall. intros x Hx. cbn [peval]. rewrite peval_power, <- Z.pow_succ_r, <- Nat2Z.inj_succ by lia. replace 0 with (-1 + 1) at 1 by ring. apply eqm_add; [apply eqm_refl|].
        rewrite <- Eh. eapply eqm_trans; [apply eqm_sym, leg_euler; auto|]. rewrite D by auto. apply eqm_refl. }
    inversion L as [|? ? L1 _]; subst. apply eqm_div in L1; [|lia]. apply dvd_small in L1; lia.
Qed.
Lemma eqm_m1 p x : 1 < p -> 0 <= x < p -> eqm p x 1 <-> x = 1.
Proof. intros P R. split; [intros E; apply eqm_small in E; lia|intros ->; apply eqm_refl]. Qed.
Lemma pow_2S b k : (b * b) ^ 2 ^ Z.of_nat k = b ^ 2 ^ Z.of_nat (S k).
Proof. rewrite <- Z.pow_2_r, <- Z.pow_mul_r by (try apply Z.pow_nonneg; lia). rewrite Nat2Z.inj_succ, Z.pow_succ_r by lia. reflexivity. Qed.
Lemma pow_add2 b i j : (b ^ 2 ^ Z.of_nat i) ^ 2 ^ Z.of_nat j = b ^ 2 ^ Z.of_nat (i + j).
Proof. rewrite <- Z.pow_mul_r by (apply Z.pow_nonneg; lia). rewrite <- Z.pow_add_r by lia. do 2 f_equal. lia. Qed.

(** ** The Lucas sequence *)
Section Seq.
Variables (P : Z) (V : nat -> Z).
Hypothesis HV : lucas_sequence P V.
Lemma lucas_inv k : V (S k) * V (S k) - P * (V k * V (S k)) + V k * V k = 4 - P * P.
Proof. destruct HV as (H0 & H1 & H2). induction k as [|k IH]; [rewrite H0, H1; ring|]. rewrite H2. nia. Qed.
Lemma lucas_double k : V (2 * k) = V k * V k - 2 /\ V (2 * k + 1) = V k * V (S k) - P.
Proof.
  destruct HV as (H0 & H1 & H2). induction k as [|k [I1 I2]].
  - cbn [Nat.mul Nat.add]. rewrite H0, H1. split; ring.
  - replace (2 * S k)%nat with (S (S (2 * k))) by lia. replace (S (S (2 * k)) + 1)%nat with (S (S (S (2 * k)))) by lia. replace (2 * k + 1)%nat with (S (2 * k)) in I2 by lia.
    assert (E : V (S (S (2 * k))) = V (S k) * V (S k) - 2). { rewrite H2, I1, I2. pose proof (lucas_inv k). nia. }
    split; auto. rewrite H2, E, I2, H2. ring.
Qed.
End Seq.

Section Nb.
Variable w : Z.
Hypothesis Hwb : word_bits w.
Local Instance Hbig : bigw w := word_bits_big w Hwb.
Notation is_int := (is_int w).

(** ** Random integers *)
Lemma randomize_bits_int nbits block : bytes block -> exists v, is_int (randomize_bits w nbits block) v /\ 0 <= v.
Proof.
  intros H. unfold randomize_bits. set (l := match block with [] => [] | b :: t => b mod 2 ^ Z.of_nat (nbits mod 8) :: t end).
  assert (Hl : bytes l). { destruct H as [|b t Hb Ht]; [constructor|]. constructor; auto. unfold byte in *. pose proof (Nat.mod_upper_bound nbits 8 ltac:(lia)).
    assert (0 < 2 ^ Z.of_nat (nbits mod 8) <= 2 ^ 8) by (split; [apply Z.pow_pos_nonneg; lia|apply Z.pow_le_mono_r; lia]). pose proof (Z.mod_pos_bound b (2 ^ Z.of_nat (nbits mod 8)) ltac:(lia)). change (2 ^ 8) with 256 in *. lia. }
  exists (be_val l). split; [apply (decode_u w Hwb); auto|]. apply be_val_bounds. auto.
Qed.
Lemma randomize_loop_int range vr nbits n : forall blocks, is_int range vr -> blocks_of n blocks ->
  randomize_loop w range nbits blocks = RStuck \/
  exists r v rest, randomize_loop w range nbits blocks = ROk (r, rest) /\ is_int r v /\ 0 <= v <= vr /\ blocks_of n rest /\ exists b, bytes b /\ r = randomize_bits w nbits b.
Proof.
  intros blocks Hr. induction blocks as [|b rest IH]; intros F; [left; reflexivity|]. inversion F as [|? ? [F1 F2] F3]; subst. cbn [randomize_loop].
  destruct (randomize_bits_int nbits b F2) as (v & Hv & V0). rewrite (cmp_gt w Hwb _ _ _ _ Hv Hr). destruct (Z.ltb_spec vr v); [apply IH; auto|].
  right. exists (randomize_bits w nbits b), v, rest. split; auto. split; auto. split; [lia|]. split; auto. exists b. auto.
Qed.
Lemma randomize_int lo hi vl vh n blocks : is_int lo vl -> is_int hi vh -> vl <= vh -> blocks_of n blocks ->
  randomize w lo hi blocks = RStuck \/
  exists r v rest, randomize w lo hi blocks = ROk (r, rest) /\ is_int r v /\ vl <= v <= vh /\ blocks_of n rest /\ exists x nb b, bytes b /\ x = randomize_bits w nb b /\ is_int x (v - vl) /\ r = plus_eq w x lo.
Proof.
  intros Hl Hh L F. unfold randomize. rewrite (cmp_gt w Hwb _ _ _ _ Hl Hh). destruct (Z.ltb_spec vh vl); [lia|].
  destruct (randomize_loop_int _ _ (bit_count w (minus w hi lo)) n blocks (minus_int w _ _ _ _ Hh Hl) F) as [->|(r & v & rest & -> & Hr & B & Fr & b & Hb & Er)]; [left; reflexivity|right].
  cbn [rbind fst snd]. exists (plus_eq w r lo), (v + vl), rest. split; auto. split; [apply (plus_eq_int w); auto|]. split; [lia|]. split; auto. exists r, (bit_count w (minus w hi lo)), b. split; auto. split; auto. split; auto. replace (v + vl - vl) with v by ring. auto.
Qed.
Lemma rabin_miller_prime fuel rounds : forall n vn k blocks, is_int n vn -> prime vn -> 3 < vn -> vn <= Z.of_nat fuel -> blocks_of k blocks ->
  rabin_miller_loop w fuel rounds n blocks = ROk true \/ rabin_miller_loop w fuel rounds n blocks = RStuck.
Proof.
  induction rounds as [|rounds IH]; intros n vn k blocks Hn Pn L3 L F; [left; reflexivity|]. cbn [rabin_miller_loop].
  assert (P5 : 5 <= vn). { destruct (Z.eq_dec vn 4) as [->|]; [|lia]. exfalso. pose proof (prime_odd 4 Pn ltac:(lia)) as Q. discriminate Q. }
  destruct (randomize_int (lit w 2) (minus w n (lit w 2)) 2 (vn - 2) k blocks (lit_int w Hwb 2 ltac:(lia)) (minus_int w _ _ _ _ Hn (lit_int w Hwb 2 ltac:(lia))) ltac:(lia) F) as [->|(r & v & rest & -> & Hr & B & Fr & _)]; [right; reflexivity|].
  cbn [rbind fst snd]. rewrite (strong_test w Hwb fuel n r vn v Hn Hr Pn) by lia. cbn [rbind negb]. eapply IH; eauto.
Qed.

(** ** Square roots modulo a prime *)
Lemma halve_even_int fuel : forall q vq r, is_int q vq -> 0 < vq < Z.of_nat fuel ->
  exists q' vq' j, halve_even w fuel q r = ROk (q', (r + j)%nat) /\ is_int q' vq' /\ 0 < vq' /\ vq' mod 2 = 1 /\ vq = vq' * 2 ^ Z.of_nat j.
Proof.
  induction fuel as [|f IH]; intros q vq r Hq L; [lia|]. cbn [halve_even]. rewrite (get_bit_int w q vq 0 Hq), Z.abs_eq by lia. change (Z.of_nat 0) with 0. rewrite Z.bit0_odd. destruct (Z.odd vq) eqn:O.
  - exists q, vq, 0%nat. rewrite Nat.add_0_r. split; auto. split; auto. split; [lia|]. split; [rewrite Zmod_odd, O; auto|]. change (2 ^ Z.of_nat 0) with 1. ring.
  - assert (M : vq mod 2 = 0) by (rewrite Zmod_odd, O; auto). pose proof (Z.div_mod vq 2 ltac:(lia)) as D. rewrite M in D.
    destruct (IH (shr w q 1) (vq / 2) (S r)) as (q' & vq' & j & E & H1 & H2 & H3 & H4); [apply (shr_pos w Hwb q vq 1); auto; lia|lia|].
    exists q', vq', (S j). split; [rewrite E; do 2 f_equal; lia|]. split; auto. split; auto. split; auto. rewrite Nat2Z.inj_succ, Z.pow_succ_r by lia. lia.
Qed.
Lemma zprod_one p : zprod [p] = p. Proof. cbn. ring. Qed.
Lemma jac_single a p : jac a [p] = leg a p. Proof. unfold jac. cbn. ring. Qed.
Lemma jacobi_prime fuel a p va vp : is_int a va -> is_int p vp -> oddprime vp -> vp < Z.of_nat fuel -> jacobi w fuel a p = ROk (leg va vp).
Proof.
  intros Ha Hp O L. rewrite (jacobi_int w Hwb fuel a p va [vp]); [rewrite jac_single; auto|auto|rewrite zprod_one; auto|constructor; [exact O|constructor]|rewrite zprod_one; auto].
Qed.
Lemma non_residue_int fuel : forall n p vn vp target f2, is_int n vn -> is_int p vp -> oddprime vp -> vp < Z.of_nat f2 -> leg target vp = -1 -> vn <= target -> target - vn < Z.of_nat fuel ->
  exists r vr, non_residue w fuel n p f2 = ROk r /\ is_int r vr /\ leg vr vp = -1.
Proof.
  induction fuel as [|f IH]; intros n p vn vp target f2 Hn Hp O L2 T L L'; [lia|]. cbn [non_residue]. rewrite (jacobi_prime f2 n p vn vp Hn Hp O L2). cbn [rbind].
  destruct (Z.eqb_spec (leg vn vp) (-1)) as [E|E]; [exists n, vn; auto|]. assert (vn <> target) by congruence. apply (IH _ p (vn + 1) vp target f2); auto; [apply (incr_int w); auto|lia|lia].
Qed.

Section Root.
Variables (p : integer) (vp : Z).
Hypothesis Hpi : is_int p vp.
Hypothesis Hop : oddprime vp.
Let Hpp : prime vp := proj1 Hop.
Notation "x == y" := (eqm vp x y) (at level 70).
Lemma p2 : 2 < vp. Proof. apply oddprime_pos, Hop. Qed.
Lemma mul_mod a b va vb : is_int a va -> is_int b vb -> exists r v, modulo w (times w a b) p = ROk r /\ is_int r v /\ 0 <= v < vp /\ v == va * vb.
Proof.
  intros Ha Hb. pose proof p2. destruct (modulo_pos w Hwb _ p _ vp (times_int w _ _ _ _ Ha Hb) Hpi ltac:(lia)) as (r & E & Hr). exists r, ((va * vb) mod vp). split; auto. split; auto. split; [apply Z.mod_pos_bound; lia|apply eqm_mod].
Qed.
Lemma sqr_mod a va : is_int a va -> exists r v, modulo w (squared w a) p = ROk r /\ is_int r v /\ 0 <= v < vp /\ v == va * va.
Proof.
  intros Ha. pose proof p2. destruct (modulo_pos w Hwb _ p _ vp (squared_int w _ _ Ha) Hpi ltac:(lia)) as (r & E & Hr). exists r, ((va * va) mod vp). split; auto. split; auto. split; [apply Z.mod_pos_bound; lia|apply eqm_mod].
Qed.
Lemma order2_some k : forall fuel b vb m r, is_int b vb -> 0 <= vb < vp -> vb <> 1 -> vb ^ 2 ^ Z.of_nat k == 1 -> (m + k < r)%nat -> (k <= fuel)%nat ->
  exists j, order2 w fuel b p m r = ROk (Some (m + S j)%nat) /\ (S j <= k)%nat /\ vb ^ 2 ^ Z.of_nat j == -1.
Proof.
  pose proof p2 as P2. induction k as [|k IH]; intros fuel b vb m r Hb R N E M F.
  - exfalso. change (2 ^ Z.of_nat 0) with 1 in E. rewrite Z.pow_1_r in E. apply eqm_m1 in E; lia.
  - destruct fuel as [|f]; [lia|]. cbn [order2]. destruct (sqr_mod b vb Hb) as (b' & v & -> & Hb' & R' & Ev). cbn [rbind]. destruct (Nat.eqb_spec (S m) r); [lia|]. rewrite (cmp_eq w Hwb _ _ _ _ Hb' (one_int w)).
    destruct (Z.eqb_spec v 1) as [->|Nv].
    + exists 0%nat. split; [f_equal; f_equal; lia|]. split; [lia|]. change (2 ^ Z.of_nat 0) with 1. rewrite Z.pow_1_r. destruct (sqrt_one vp Hpp vb) as [Q|Q]; [now apply eqm_sym| |auto]. apply eqm_m1 in Q; lia.
    + destruct (IH f b' v (S m) r Hb' R' Nv) as (j & Ej & Lj & Sj); [|lia|lia|].
      { eapply eqm_trans; [apply eqm_pow, Ev|]. rewrite pow_2S. auto. }
      exists (S j). split; [rewrite Ej; do 2 f_equal; lia|]. split; [lia|]. rewrite <- pow_2S. eapply eqm_trans; [apply eqm_pow, eqm_sym, Ev|]. auto.
Qed.
Lemma order2_none k : forall fuel b vb m r, is_int b vb -> (forall j, (1 <= j < k)%nat -> ~ vb ^ 2 ^ Z.of_nat j == 1) -> (m + k = r)%nat -> (1 <= k)%nat -> (k <= fuel)%nat ->
  order2 w fuel b p m r = ROk None.
Proof.
  pose proof p2 as P2. induction k as [|k IH]; intros fuel b vb m r Hb N M K F; [lia|]. destruct fuel as [|f]; [lia|]. cbn [order2]. destruct (sqr_mod b vb Hb) as (b' & v & -> & Hb' & R' & Ev). cbn [rbind].
  destruct (Nat.eqb_spec (S m) r); [reflexivity|]. rewrite (cmp_eq w Hwb _ _ _ _ Hb' (one_int w)). destruct (Z.eqb_spec v 1) as [->|Nv].
  - exfalso. apply (N 1%nat); [lia|]. change (2 ^ Z.of_nat 1) with 2. rewrite Z.pow_2_r. now apply eqm_sym.
  - apply (IH f b' v (S m) r Hb'); [|lia|lia|lia]. intros j Hj E. apply (N (S j)); [lia|]. rewrite <- pow_2S. eapply eqm_trans; [apply eqm_pow, eqm_sym, Ev|]. auto.
Qed.
Lemma square_n_int k : forall t vt, is_int t vt -> exists r v, square_n w k t p = ROk r /\ is_int r v /\ v == vt ^ 2 ^ Z.of_nat k.
Proof.
  induction k as [|k IH]; intros t vt Ht.
  - exists t, vt. split; auto. split; auto. change (2 ^ Z.of_nat 0) with 1. rewrite Z.pow_1_r. apply eqm_refl.
  - cbn [square_n]. destruct (sqr_mod t vt Ht) as (t' & v & -> & Ht' & R' & Ev). cbn [rbind]. destruct (IH t' v Ht') as (r & vr & E & Hr & Er). exists r, vr. split; auto. split; auto.
    eapply eqm_trans; [exact Er|]. eapply eqm_trans; [apply eqm_pow, Ev|]. rewrite pow_2S. apply eqm_refl.
Qed.
Theorem tonelli_root va fuel : forall x y b r vx vy vb, is_int x vx -> is_int y vy -> is_int b vb -> 0 <= vx < vp -> 0 <= vb < vp ->
  vx * vx == va * vb -> vb ^ 2 ^ Z.of_nat r == 1 -> vy ^ 2 ^ Z.of_nat r == -1 -> (S r < fuel)%nat ->
  exists s v, tonelli w fuel x y b p (S r) = ROk s /\ is_int s v /\ 0 <= v < vp /\ v * v == va.
Proof.
  pose proof p2 as P2. induction fuel as [|f IH]; intros x y b r vx vy vb Hx Hy Hb Rx Rb I1 I2 I3 F; [lia|]. cbn [tonelli]. rewrite (cmp_eq w Hwb _ _ _ _ Hb (one_int w)). destruct (Z.eqb_spec vb 1) as [->|Nb].
  - exists x, vx. rewrite Z.mul_1_r in I1. auto.
  - destruct (order2_some r (S (S r)) b vb 0 (S r) Hb Rb Nb I2 ltac:(lia) ltac:(lia)) as (j & -> & Lj & Ej). cbn [rbind]. replace (0 + S j)%nat with (S j) by lia.
    destruct (square_n_int (S r - S j - 1) y vy Hy) as (t & vt & -> & Ht & Et). cbn [rbind]. destruct (sqr_mod t vt Ht) as (y' & vy' & -> & Hy' & Ry' & Ey'). cbn [rbind].
    destruct (mul_mod x t vx vt Hx Ht) as (x' & vx' & -> & Hx' & Rx' & Ex'). cbn [rbind]. destruct (mul_mod b y' vb vy' Hb Hy') as (b' & vb' & -> & Hb' & Rb' & Eb'). cbn [rbind].
    assert (Sy : vy' ^ 2 ^ Z.of_nat j == -1).
    { eapply eqm_trans; [apply eqm_pow, Ey'|]. rewrite pow_2S. eapply eqm_trans; [apply eqm_pow, Et|]. rewrite pow_add2. replace (S r - S j - 1 + S j)%nat with r by lia. auto. }
    apply (IH x' y' b' j vx' vy' vb'); auto; [| |lia].
    + eapply eqm_trans; [apply eqm_mul; exact Ex'|]. replace (vx * vt * (vx * vt)) with (vx * vx * (vt * vt)) by ring. eapply eqm_trans; [apply eqm_mul; [exact I1|apply eqm_sym, Ey']|].
      rewrite <- Z.mul_assoc. apply eqm_mul; [apply eqm_refl|]. now apply eqm_sym.
    + eapply eqm_trans; [apply eqm_pow, Eb'|]. rewrite Z.pow_mul_l. change 1 with (-1 * -1). apply eqm_mul; auto.
Qed.
Theorem square_root_mod fuel a va : is_int a va -> vp < Z.of_nat fuel - 1 ->
  exists s v, modular_square_root w fuel a p = ROk s /\ is_int s v /\ 0 <= v < vp /\ ((exists x, x * x == va) -> v * v == va) /\ (vp mod 4 = 1 -> (~ exists x, x * x == va) -> v = 0).
Proof.
  pose proof p2 as P2. intros Ha L. unfold modular_square_root. rewrite (mod_word_pow2 w Hwb p vp 4 Hpi) by auto. cbn [rbind].
  pose proof (half_eq vp Hpp (proj2 Hop)) as He. set (h := Z.of_nat (half vp)) in *.
  assert (EU : forall x, x * x == va -> va == 0 \/ va ^ h == 1). { intros x Hx. destruct (Zdivide_dec vp va) as [D|D]; [left; apply (dvd_eqm vp Hpp); auto|right]. apply (euler vp Hpp (proj2 Hop) va D). exists x; auto. }
  destruct (odd_mod4 vp (proj2 Hop)) as [M4|M4]; rewrite M4; cbn [Z.eqb Pos.eqb].
  - destruct (halve_even_int fuel _ _ 0 (minus_int w _ _ _ _ Hpi (one_int w)) ltac:(lia)) as (q & vq & j & -> & Hq & Q0 & Qo & Eq). cbn [rbind fst snd]. rewrite Nat.add_0_l.
    assert (J : (1 <= j)%nat). { destruct j; [|lia]. exfalso. change (2 ^ Z.of_nat 0) with 1 in Eq. pose proof (Z.div_mod vp 4 ltac:(lia)). pose proof (Z.div_mod vq 2 ltac:(lia)). lia. }
    assert (Qh : vq * 2 ^ Z.of_nat (j - 1) = h). { replace j with (S (j - 1)) in Eq by lia. rewrite Nat2Z.inj_succ, Z.pow_succ_r in Eq by lia. lia. }
    assert (J2 : Z.of_nat j < vp). { pose proof (lt_pow2 (Z.of_nat j) ltac:(lia)). nia. }
    destruct (non_residue_exists vp Hop) as (nr & Rn & En).
    destruct (non_residue_int fuel _ p 2 vp nr fuel (lit_int w Hwb 2 ltac:(lia)) Hpi Hop ltac:(lia) En ltac:(lia) ltac:(lia)) as (n & vn & -> & Hn & Ln). cbn [rbind].
    destruct (exp_big w Hwb fuel n q p vn vq vp Hpi ltac:(lia) Hn Hq ltac:(nia)) as (y & -> & Hy). cbn [rbind].
    destruct (divided_by_int w _ _ _ 2 Hwb (minus_int w _ _ _ _ Hq (one_int w)) (lit_int w Hwb 2 ltac:(lia)) ltac:(lia)) as (e & -> & He'). cbn [rbind]. change (Z.sgn 2) with 1 in He'. change (Z.abs 2) with 2 in He'. rewrite Z.mul_1_l in He'.
    set (ve := (vq - 1) / 2) in *. assert (Ee : vq = 2 * ve + 1). { pose proof (Z.div_mod (vq - 1) 2 ltac:(lia)). pose proof (Z.mod_pos_bound (vq - 1) 2 ltac:(lia)). pose proof (Z.div_mod vq 2 ltac:(lia)). lia. }
    destruct (exp_big w Hwb fuel a e p va ve vp Hpi ltac:(lia) Ha He' ltac:(nia)) as (x & -> & Hx). cbn [rbind]. set (vx := va ^ ve mod vp) in *. assert (Ex : vx == va ^ ve) by apply eqm_mod.
    destruct (sqr_mod x vx Hx) as (x2 & vx2 & -> & Hx2 & _ & Ex2). cbn [rbind]. destruct (mul_mod x2 a vx2 va Hx2 Ha) as (b & vb & -> & Hb & Rb & Eb). cbn [rbind]. destruct (mul_mod a x va vx Ha Hx) as (x1 & vx1 & -> & Hx1 & Rx1 & Ex1). cbn [rbind].
    assert (Eb' : vb == va ^ vq).
    { eapply eqm_trans; [exact Eb|]. rewrite Ee, Z.pow_add_r, Z.pow_1_r, Z.pow_mul_r by lia. apply eqm_mul; [|apply eqm_refl]. eapply eqm_trans; [exact Ex2|]. rewrite Z.pow_2_r, Z.pow_mul_l. apply eqm_mul; exact Ex. }
    assert (Eh : vb ^ 2 ^ Z.of_nat (j - 1) == va ^ h). { eapply eqm_trans; [apply eqm_pow, Eb'|]. rewrite <- Z.pow_mul_r, Qh by (try apply Z.pow_nonneg; lia). apply eqm_refl. }
    assert (NONE : ~ va ^ h == 1 -> tonelli w fuel x1 (y) b p j = ROk int_zero).
    { intros Nh. destruct fuel as [|f]; [lia|]. cbn [tonelli]. rewrite (cmp_eq w Hwb _ _ _ _ Hb (one_int w)). destruct (Z.eqb_spec vb 1) as [E1|E1].
      - exfalso. apply Nh. eapply eqm_trans; [apply eqm_sym, Eh|]. rewrite E1, Z.pow_1_l by (apply Z.pow_nonneg; lia). apply eqm_refl.
      - rewrite (order2_none j (S j) b vb 0 j Hb); auto. intros i Hi E. apply Nh. eapply eqm_trans; [apply eqm_sym, Eh|]. replace (j - 1)%nat with (i + (j - 1 - i))%nat by lia. rewrite <- pow_add2. eapply eqm_trans; [apply eqm_pow, E|].
        rewrite Z.pow_1_l by (apply Z.pow_nonneg; lia). apply eqm_refl. }
    destruct (Z.eq_dec (va ^ h mod vp) (1 mod vp)) as [S1|S1].
    + destruct (tonelli_root va fuel x1 y b (j - 1) vx1 _ vb Hx1 Hy Hb Rx1 Rb) as (s & v & E & Hs & Rs & Es).
      * eapply eqm_trans; [apply eqm_mul; exact Ex1|]. replace (va * vx * (va * vx)) with (va * (vx * vx * va)) by ring. apply eqm_mul; [apply eqm_refl|]. apply eqm_sym. eapply eqm_trans; [exact Eb|]. apply eqm_mul; [exact Ex2|apply eqm_refl].
      * eapply eqm_trans; [exact Eh|exact S1].
      * eapply eqm_trans; [apply eqm_pow, eqm_mod|]. rewrite <- Z.pow_mul_r, Qh by (try apply Z.pow_nonneg; lia). eapply eqm_trans; [apply eqm_sym, leg_euler; auto|]. rewrite Ln. apply eqm_refl.
      * lia.
      * replace (S (j - 1)) with j in E by lia. exists s, v. split; auto. split; auto. split; auto. split; auto. intros _ N. elim N. exists v. auto.
    + rewrite NONE by auto. exists int_zero, 0. split; auto. split; [apply (zero_int w)|]. split; [lia|]. split; [|auto]. intros [x0 Hx0]. destruct (EU x0 Hx0) as [Q|Q]; [|contradiction]. now apply eqm_sym.
  - destruct (divided_by_int w _ _ _ 4 Hwb (plus_int w _ _ _ _ Hpi (one_int w)) (lit_int w Hwb 4 ltac:(lia)) ltac:(lia)) as (e & -> & He'). cbn [rbind]. change (Z.sgn 4) with 1 in He'. change (Z.abs 4) with 4 in He'. rewrite Z.mul_1_l in He'.
    set (ve := (vp + 1) / 4) in *. assert (Ee : vp + 1 = 4 * ve). { pose proof (Z.div_mod (vp + 1) 4 ltac:(lia)). pose proof (Z.mod_pos_bound (vp + 1) 4 ltac:(lia)). pose proof (Z.div_mod vp 4 ltac:(lia)). lia. }
    destruct (exp_big w Hwb fuel a e p va ve vp Hpi ltac:(lia) Ha He' ltac:(lia)) as (s & -> & Hs). eexists s, _. split; [reflexivity|]. split; [exact Hs|]. split; [apply Z.mod_pos_bound; lia|]. split; [|lia].
    intros [x0 Hx0]. eapply eqm_trans; [apply eqm_mul; apply eqm_mod|]. rewrite <- Z.pow_add_r by lia. replace (ve + ve) with (h + 1) by lia. rewrite Z.pow_add_r, Z.pow_1_r by lia. destruct (EU x0 Hx0) as [Q|Q].
    + eapply eqm_trans; [apply eqm_mul; [apply eqm_refl|exact Q]|]. rewrite Z.mul_0_r. now apply eqm_sym.
    + eapply eqm_trans; [apply eqm_mul; [exact Q|apply eqm_refl]|]. rewrite Z.mul_1_l. apply eqm_refl.
Qed.
End Root.

(** ** Quadratic equations *)
Lemma positive_add_len d a b : words w a -> words w b -> length d = Nat.max (length a) (length b) -> (length (positive_add w d a b) <= 2 * length d)%nat.
Proof.
  intros Wa Wb L. unfold positive_add. pose proof (B_big w) as HB. change (2 ^ 32) with 4294967296 in HB.
  assert (G : forall (r : list Z) (c : Z), length r = length d -> (length (if negb (Z.eqb c 0) then let r' := clean_grow r (2 * length r) in upd (length r' / 2) 1%Z r' else r) <= 2 * length d)%nat).
  { intros r c E. destruct (negb (Z.eqb c 0)); [|lia]. cbv zeta. rewrite upd_length. unfold clean_grow. rewrite app_length, repeat_length. lia. }
  assert (ST : forall x, (length x <= length d)%nat -> length (store d x) = length d) by (intros x Hx; unfold store; rewrite app_length, skipn_length; lia).
  destruct (Nat.ltb_spec (length b) (length a)) as [C|C]; [|destruct (Nat.eqb_spec (length a) (length b)) as [E|E]].
  - destruct (w_add_spec w (firstn (length b) a) b (W_firstn w _ a Wa) Wb ltac:(rewrite firstn_length; lia)) as (_ & a2 & a3 & _). destruct (w_add w (firstn (length b) a) b) as [x c]. cbn [fst snd] in a2, a3.
    destruct (w_inc_spec w (skipn (length b) a) c (W_skipn w _ a Wa) ltac:(apply nonnil; rewrite skipn_length; lia) ltac:(lia)) as (_ & b2 & _). destruct (w_inc w (skipn (length b) a) c) as [y c']. cbn [fst] in b2. apply G, ST. rewrite app_length, a2, b2, firstn_length, skipn_length. lia.
  - destruct (w_add_spec w a b Wa Wb E) as (_ & a2 & _). destruct (w_add w a b) as [x c]. cbn [fst] in a2. apply G, ST. lia.
  - destruct (w_add_spec w a (firstn (length a) b) Wa (W_firstn w _ b Wb) ltac:(rewrite firstn_length; lia)) as (_ & a2 & a3 & _). destruct (w_add w a (firstn (length a) b)) as [x c]. cbn [fst snd] in a2, a3.
    destruct (w_inc_spec w (skipn (length a) b) c (W_skipn w _ b Wb) ltac:(apply nonnil; rewrite skipn_length; lia) ltac:(lia)) as (_ & b2 & _). destruct (w_inc w (skipn (length a) b) c) as [y c']. cbn [fst] in b2. apply G, ST. rewrite app_length, a2, b2, skipn_length. lia.
Qed.
Lemma plus_same_len a va : is_int a va -> 0 <= va -> (length (reg (plus w a a)) <= 2 * length (reg a))%nat.
Proof.
  intros Ha A. destruct (dest_ok w a a (proj1 Ha) (proj1 Ha)) as (_ & _ & D3 & _). unfold plus, plus_into. destruct (neg a) eqn:N.
  - exfalso. destruct Ha as [(W1 & _ & V3) E]. unfold IntegerSpec.ival in E. rewrite N in E. specialize (V3 N). pose proof (V_bound w _ W1). lia.
  - cbn [negb reg]. eapply Nat.le_trans; [apply positive_add_len; [apply Ha|apply Ha|exact D3]|]. rewrite D3. lia.
Qed.
Theorem quadratic fuel a b c p va vb vc vp : is_int a va -> is_int b vb -> is_int c vc -> is_int p vp -> oddprime vp -> ~ (vp | va) -> (length (reg a) <= length (reg p))%nat -> vp < Z.of_nat fuel - 1 ->
  exists o, solve_quadratic w fuel a b c p = ROk o /\
    match o with
    | None => forall x, (va * x * x + vb * x + vc) mod vp <> 0
    | Some (r1, r2) => exists v1 v2, is_int r1 v1 /\ is_int r2 v2 /\ forall x, (va * x * x + vb * x + vc) mod vp = 0 <-> x mod vp = v1 \/ x mod vp = v2
    end.
Proof.
  intros Ha Hb Hc Hp Ho Na La L. pose proof Ho as [Hpp O2]. pose proof (oddprime_pos vp Ho) as P2. unfold solve_quadratic.
  pose proof (minus_int w _ _ _ _ (squared_int w _ _ Hb) (times_int w _ _ _ _ (times_int w _ _ _ _ (lit_int w Hwb 4 ltac:(lia)) Ha) Hc)) as Hd0.
  destruct (modulo_pos w Hwb _ p _ vp Hd0 Hp ltac:(lia)) as (d & -> & Hd). cbn [rbind]. set (D := vb * vb - 4 * va * vc) in *. set (vd := D mod vp) in *. assert (Ed : eqm vp vd D) by apply eqm_mod.
  rewrite (jacobi_prime fuel d p vd vp Hd Hp Ho ltac:(lia)). cbn [rbind].
  assert (N2 : ~ (vp | 2 * va)). { intros Q. apply (dvd_mult vp Hpp) in Q. destruct Q as [Q|Q]; auto. apply Z.divide_pos_le in Q; lia. }
  assert (N4 : ~ (vp | 4 * va)). { intros Q. replace (4 * va) with (2 * (2 * va)) in Q by ring. apply (dvd_mult vp Hpp) in Q. destruct Q as [Q|Q]; auto. apply Z.divide_pos_le in Q; lia. }
  assert (INV : exists t vt, inverse_mod w (plus w a a) p = ROk t /\ is_int t vt /\ eqm vp (2 * va * vt) 1).
  { destruct (inverse_mod_int w Hwb (plus w a a) p (va + va) vp (plus_int w _ _ _ _ Ha Ha) Hp ltac:(lia)) as (t & vt & E & Ht & I1 & _).
    - intros R. pose proof (plus_same_len a va Ha ltac:(lia)). lia.
    - exists t, vt. split; auto. split; auto. destruct I1 as [_ I1]; [|unfold eqm; rewrite (Z.mod_small 1 vp) by lia; rewrite <- I1; f_equal; ring].
      replace (va + va) with (2 * va) by ring. apply Zgcd_1_rel_prime, rel_prime_sym, prime_rel_prime; auto. }
  assert (SQ : forall x, (va * x * x + vb * x + vc) mod vp = 0 <-> eqm vp ((2 * va * x + vb) * (2 * va * x + vb)) D).
  { intros x. assert (ID : (2 * va * x + vb) * (2 * va * x + vb) = 4 * va * (va * x * x + vb * x + vc) + D) by (unfold D; ring). rewrite ID. split.
    - intros E. replace D with (4 * va * 0 + D) at 2 by ring. apply eqm_add; [|apply eqm_refl]. apply eqm_mul; [apply eqm_refl|]. unfold eqm. rewrite E, Z.mod_0_l by lia. auto.
    - intros E. apply eqm_div in E; [|lia]. replace (4 * va * (va * x * x + vb * x + vc) + D - D) with (4 * va * (va * x * x + vb * x + vc)) in E by ring. apply (dvd_mult vp Hpp) in E. destruct E as [E|E]; [contradiction|]. apply Z.mod_divide in E; auto. lia. }
  assert (LIN : forall x vt s, eqm vp (2 * va * vt) 1 -> eqm vp (2 * va * x + vb) s <-> x mod vp = ((s - vb) * vt) mod vp).
  { intros x vt s I. split; intros E.
    - assert (Q : eqm vp (2 * va * x) (s - vb)) by (replace (2 * va * x) with (2 * va * x + vb - vb) by ring; apply eqm_sub; [auto|apply eqm_refl]).
      change (eqm vp x ((s - vb) * vt)). eapply eqm_trans; [|apply eqm_mul; [exact Q|apply eqm_refl]]. replace (2 * va * x * vt) with (2 * va * vt * x) by ring. replace x with (1 * x) at 1 by ring. apply eqm_mul; [now apply eqm_sym|apply eqm_refl].
    - change (eqm vp x ((s - vb) * vt)) in E. replace s with (1 * (s - vb) + vb) by ring. apply eqm_add; [|apply eqm_refl]. eapply eqm_trans; [apply eqm_mul; [apply eqm_refl|exact E]|]. replace (2 * va * ((s - vb) * vt)) with (2 * va * vt * (s - vb)) by ring. apply eqm_mul; [exact I|apply eqm_refl]. }
  destruct (leg_vals vd vp) as [EJ|[EJ|EJ]]; rewrite EJ; cbn [Z.eqb Pos.eqb].
  - assert (Z0 : vd = 0). { apply eq_sym in EJ. apply (leg_legendre vd vp 0 Ho) in EJ. destruct EJ as [(_ & Q)|[(Q & _)|(Q & _)]]; [|discriminate|discriminate]. apply dvd_small in Q; auto. pose proof (Z.mod_pos_bound D vp ltac:(lia)). unfold vd. lia. }
    destruct INV as (t & vt & -> & Ht & It). cbn [rbind]. destruct (modulo_pos w Hwb _ p _ vp (times_int w _ _ _ _ (opp_int w _ _ Hb) Ht) Hp ltac:(lia)) as (r & -> & Hr). cbn [rbind]. eexists. split; [reflexivity|]. cbv beta iota.
    exists ((- vb * vt) mod vp), ((- vb * vt) mod vp). split; auto. split; auto. intros x. rewrite SQ. rewrite Z0 in Ed. pose proof (LIN x vt 0 It) as LI. replace (0 - vb) with (- vb) in LI by ring. rewrite <- LI. split; [intros E; left|intros [E|E]].
    + eapply eqm_trans in E; [|apply eqm_refl]. assert (Q : eqm vp ((2 * va * x + vb) * (2 * va * x + vb)) 0) by (eapply eqm_trans; [exact E|apply eqm_sym, Ed]). apply (dvd_eqm vp Hpp) in Q. apply (dvd_eqm vp Hpp). apply (dvd_mult vp Hpp) in Q. tauto.
    + eapply eqm_trans; [apply eqm_mul; exact E|]. rewrite Z.mul_0_l. exact Ed.
    + eapply eqm_trans; [apply eqm_mul; exact E|]. rewrite Z.mul_0_l. exact Ed.
  - apply eq_sym in EJ. apply (leg_legendre vd vp 1 Ho) in EJ. destruct EJ as [(Q & _)|[(_ & _ & x0 & Hx0)|(Q & _)]]; [discriminate| |discriminate].
    destruct (square_root_mod p vp Hp Ho fuel d vd Hd L) as (s & vs & -> & Hs & Rs & Es & _). cbn [rbind]. specialize (Es (ex_intro _ x0 Hx0)).
    destruct INV as (t & vt & -> & Ht & It). cbn [rbind]. destruct (modulo_pos w Hwb _ p _ vp (times_int w _ _ _ _ (minus_int w _ _ _ _ Hs Hb) Ht) Hp ltac:(lia)) as (r1 & -> & Hr1). cbn [rbind].
    destruct (modulo_pos w Hwb _ p _ vp (times_int w _ _ _ _ (minus_int w _ _ _ _ (opp_int w _ _ Hs) Hb) Ht) Hp ltac:(lia)) as (r2 & -> & Hr2). cbn [rbind]. eexists. split; [reflexivity|]. cbv beta iota.
    eexists _, _. split; [exact Hr1|]. split; [exact Hr2|]. intros x. rewrite SQ, <- (LIN x vt vs It), <- (LIN x vt (- vs) It).
    assert (ED : eqm vp (vs * vs) D) by (eapply eqm_trans; [exact Es|exact Ed]). split; [intros E|intros [E|E]].
    + assert (Q : (vp | (2 * va * x + vb - vs) * (2 * va * x + vb - - vs))). { replace ((2 * va * x + vb - vs) * (2 * va * x + vb - - vs)) with ((2 * va * x + vb) * (2 * va * x + vb) - vs * vs) by ring. apply eqm_div; [lia|]. eapply eqm_trans; [exact E|apply eqm_sym, ED]. }
      apply (dvd_mult vp Hpp) in Q. destruct Q as [Q|Q]; [left|right]; (apply eqm_div; [lia|exact Q]).
    + eapply eqm_trans; [apply eqm_mul; exact E|]. exact ED.
    + eapply eqm_trans; [apply eqm_mul; exact E|]. replace (- vs * - vs) with (vs * vs) by ring. exact ED.
  - apply eq_sym in EJ. apply (leg_legendre vd vp (-1) Ho) in EJ. destruct EJ as [(Q & _)|[(Q & _)|(_ & Q)]]; [discriminate|discriminate|]. exists None. split; auto. cbv beta iota. intros x E. apply SQ in E. apply Q. exists (2 * va * x + vb). eapply eqm_trans; [exact E|apply eqm_sym, Ed].
Qed.

(** ** Lucas *)
Section Luc.
Variables (mo : montgomery) (vm : Z).
Hypothesis Hmo : mont_ok w mo vm.
Notation ma := (arith_ mo).
Notation R := (WordsProofs.P w (length (reg (mod_ (arith_ mo))))).
Notation mrep := (mrep w mo vm).
Notation elem := (elem w ma vm).
Let HA := okA w mo vm Hmo.
Lemma sub_step a va t vt x y : is_int a va -> 0 <= va < vm -> cong vm (va * R) (x * R * R) -> elem t vt -> cong vm vt (y * R) -> mrep (copy (ma_subtract w ma a t)) (x - y).
Proof.
  intros Ha Ra Ca (Ht & Rt & Lt) Ct. exists ((va - vt) mod vm). split; [apply (copy_elem w Hwb ma vm HA); [apply (ma_subtract_int w Hwb ma vm HA); auto|apply Z.mod_pos_bound; lia]|].
  eapply cong_trans; [apply cong_mod; lia|]. rewrite Z.mul_sub_distr_r. apply cong_sub; auto. apply (cancelR w Hwb mo vm Hmo). auto.
Qed.
Lemma mul_sub x y t a b c : mrep x a -> mrep y b -> mrep t c -> exists r, mont_multiply w mo false x y = ROk r /\ mrep (copy (ma_subtract w ma r t)) (a * b - c).
Proof.
  intros (vx & Hx & Cx) (vy & Hy & Cy) (vt & Ht & Ct). destruct (mont_multiply_int w Hwb mo vm Hmo false x y vx vy Hx Hy ltac:(discriminate)) as (r & vr & E & Hr & Rr & C). exists r. split; auto. eapply sub_step; eauto.
  eapply cong_trans; [exact C|]. replace (a * b * R * R) with (a * R * (b * R)) by ring. apply cong_mul; auto.
Qed.
Lemma sqr_sub x t a c : mrep x a -> mrep t c -> exists r, mont_square w mo x = ROk r /\ mrep (copy (ma_subtract w ma r t)) (a * a - c).
Proof.
  intros (vx & Hx & Cx) (vt & Ht & Ct). destruct (mont_square_int w Hwb mo vm Hmo x vx Hx) as (r & vr & E & Hr & Rr & C). exists r. split; auto. eapply sub_step; eauto.
  eapply cong_trans; [exact C|]. replace (a * a * R * R) with (a * R * (a * R)) by ring. apply cong_mul; auto.
Qed.
Theorem lucas_loop_int P V e ve p two : lucas_sequence P V -> is_int e ve -> 0 <= ve -> mrep p P -> mrep two 2 -> forall i v v1, mrep v (V (Z.to_nat (ve / 2 ^ Z.of_nat i))) -> mrep v1 (V (S (Z.to_nat (ve / 2 ^ Z.of_nat i)))) ->
  exists r, lucas_loop w mo e i p two v v1 = ROk r /\ mrep r (V (Z.to_nat ve)).
Proof.
  intros HV He E0 Hp H2 i. induction i as [|i IH]; intros v v1 Hv Hv1.
  - exists v. split; auto. change (2 ^ Z.of_nat 0) with 1 in Hv. rewrite Z.div_1_r in Hv. auto.
  - cbn [lucas_loop]. rewrite Nat2Z.inj_succ, Z.pow_succ_r, (Z.mul_comm 2) in Hv, Hv1 by lia. rewrite <- Z.div_div in Hv, Hv1 by (try apply Z.pow_nonzero; lia). set (k2 := ve / 2 ^ Z.of_nat i) in *.
    assert (K2 : 0 <= k2) by (apply Z.div_pos; [lia|apply Z.pow_pos_nonneg; lia]). set (k := Z.to_nat (k2 / 2)) in *. pose proof (lucas_double P V HV k) as (D1 & D2). pose proof (lucas_double P V HV (S k)) as (D3 & _).
    destruct (mul_sub v v1 p _ _ _ Hv Hv1 Hp) as (vv & -> & Hvv). cbn [rbind]. rewrite <- D2 in Hvv.
    rewrite (get_bit_int w e ve i He), Z.abs_eq by lia. rewrite Z.testbit_odd, Z.shiftr_div_pow2 by lia. fold k2. pose proof (Z.div_mod k2 2 ltac:(lia)) as DM. rewrite Zmod_odd in DM. assert (KZ : Z.of_nat k = k2 / 2) by (unfold k; apply Z2Nat.id; apply Z.div_pos; lia). destruct (Z.odd k2) eqn:O.
    + assert (EK : Z.to_nat k2 = (2 * k + 1)%nat) by lia. destruct (sqr_sub v1 two _ _ Hv1 H2) as (s & -> & Hs). cbn [rbind]. rewrite <- D3 in Hs. apply IH; rewrite EK; auto. replace (S (2 * k + 1)) with (2 * S k)%nat by lia. auto.
    + assert (EK : Z.to_nat k2 = (2 * k)%nat) by lia. destruct (sqr_sub v two _ _ Hv H2) as (s & -> & Hs). cbn [rbind]. rewrite <- D1 in Hs. apply IH; rewrite EK; auto. replace (S (2 * k)) with (2 * k + 1)%nat by lia. auto.
Qed.
End Luc.
Lemma two_int : is_int int_two 2.
Proof. change int_two with (of_word 2 0). apply (of_word_int w). pose proof (B_big w). change (2 ^ 32) with 4294967296 in *. lia. Qed.
Lemma mrep_cong mo vm x a b : cong vm a b -> mrep w mo vm x a -> mrep w mo vm x b.
Proof. intros C (v & Hv & Cv). exists v. split; auto. eapply cong_trans; [exact Cv|]. apply cong_mul; [auto|apply cong_refl]. Qed.
Lemma conv_in mo vm x v : mont_ok w mo vm -> is_int x v -> exists r, mont_convert_in w mo x = ROk r /\ mrep w mo vm r v.
Proof. intros Hmo H. destruct (mont_eval_int w Hwb mo vm Hmo (EIn x) v (sem_in _ _ x v H)) as (r & vr & E & Hr & Cr). cbn [mont_eval] in E. exists r. split; auto. exists vr. auto. Qed.
Theorem lucas_int e p n ve P vn V : is_int e ve -> is_int p P -> is_int n vn -> 0 <= ve -> 1 < vn -> vn mod 2 = 1 -> lucas_sequence P V ->
  exists r v, lucas w e p n = ROk r /\ is_int r v /\ v mod vn = V (Z.to_nat ve) mod vn /\ (0 < ve -> 0 <= v < vn).
Proof.
  intros He Hp Hn E0 N1 O HV. pose proof HV as (V0 & V1 & V2). unfold lucas. pose proof (bit_count_int w e ve Hwb He) as B. rewrite Z.abs_eq in B by lia. destruct (Z.eqb_spec ve 0) as [->|NE].
  - destruct (Nat.eqb_spec (bit_count w e) 0) as [Eb|Eb]; [|lia]. exists int_two, 2. split; auto. split; [apply two_int|]. change (Z.to_nat 0) with 0%nat. rewrite V0. split; auto. lia.
  - pose proof (Z.log2_nonneg ve). destruct (Nat.eqb_spec (bit_count w e) 0) as [Eb|Eb]; [lia|].
    destruct (make_mont_int w Hwb n vn Hn N1) as [(_ & mo & -> & _ & Hmo)|[E _]]; [|lia]. cbn [rbind].
    destruct (modulo_pos w Hwb p n P vn Hp Hn ltac:(lia)) as (pn & -> & Hpn). cbn [rbind]. destruct (conv_in mo vn pn _ Hmo Hpn) as (pm & -> & Hpm). cbn [rbind]. apply (mrep_cong mo vn pm _ P (cong_mod vn P ltac:(lia))) in Hpm.
    destruct (conv_in mo vn int_two 2 Hmo two_int) as (tm & -> & Htm). cbn [rbind]. destruct (sqr_sub mo vn Hmo pm tm P 2 Hpm Htm) as (s & -> & Hs). cbn [rbind].
    assert (EI : Z.of_nat (bit_count w e - 1) = Z.log2 ve) by lia. assert (E1 : ve / 2 ^ Z.of_nat (bit_count w e - 1) = 1). { rewrite EI. pose proof (Z.log2_spec ve ltac:(lia)) as [L1 L2]. rewrite Z.pow_succ_r in L2 by lia. symmetry. apply Z.div_unique with (r := ve - 2 ^ Z.log2 ve); lia. }
    destruct (lucas_loop_int mo vn Hmo P V e ve pm tm HV He E0 Hpm Htm (bit_count w e - 1) pm (copy (ma_subtract w (arith_ mo) s tm))) as (r & -> & Hr).
    + rewrite E1. change (Z.to_nat 1) with 1%nat. rewrite V1. auto.
    + rewrite E1. change (S (Z.to_nat 1)) with 2%nat. rewrite V2, V1, V0. auto.
    + cbn [rbind]. destruct Hr as (v & Hv & Cv). destruct (mont_out_int w Hwb mo vn Hmo r v Hv) as (t & vt & Et & Ht & Rt & Ct). exists t, vt. split; auto. split; auto. split; auto. apply cong_eq; [lia|]. apply (cancelR w Hwb mo vn Hmo). eapply cong_trans; eauto.
Qed.
End Nb.
