(** Proofs about multiplication and division of Integer. *)
From Coq Require Import ZArith List Lia Bool Arith.
From Verif Require Import Base AsnModel AsnProofs WordsModel WordsSpec WordsProofs WordsAsymProofs WordsLongDivProofs IntegerModel IntegerSpec IntegerProofs IntegerBitProofs.
Import ListNotations.
Local Open Scope Z_scope.

Section Int.
Variable w : Z.
Context {Hbig : bigw w}.
Notation B := (base w).
Notation V := (wval w).
Notation W := (words w).
Notation P := (WordsProofs.P w).
Notation valid := (IntegerSpec.valid w).
Notation ival := (IntegerSpec.ival w).
Notation is_int := (IntegerSpec.is_int w).
Notation wn := (Z.to_nat w).

(** ** Multiplication *)
Lemma positive_multiply_spec (same : bool) a b : valid a -> valid b -> (same = true -> a = b) ->
  W (reg (positive_multiply w same a b)) /\ pow2_size (length (reg (positive_multiply w same a b))) /\ V (reg (positive_multiply w same a b)) = V (reg a) * V (reg b).
Proof.
  intros (A1 & A2 & _) (B1 & B2 & _) Hs. unfold positive_multiply, word_count. destruct (wc_spec w (reg a) A1) as (C1 & C2 & _). destruct (wc_spec w (reg b) B1) as (D1 & D2 & _).
  set (n := roundup (count_words (reg a) _)). set (m := roundup (count_words (reg b) _)). assert (n <= length (reg a))%nat by (apply roundup_le; auto). assert (m <= length (reg b))%nat by (apply roundup_le; auto).
  destruct (V_firstn_ge w (reg a) n A1 (roundup_ge _)) as [E1 _]. destruct (V_firstn_ge w (reg b) m B1 (roundup_ge _)) as [E2 _]. pose proof (roundup_pow (count_words (reg a) (length (reg a)))) as (i & I1 & I2). pose proof (roundup_pow (count_words (reg b) (length (reg b)))) as (j & J1 & J2). fold n in I2. fold m in J2.
  assert (S0 : same = true -> firstn n (reg a) = firstn m (reg b)) by (intros Q; specialize (Hs Q); subst b; reflexivity). clearbody n m. cbn [reg].
  assert (G : W (w_asym w same (firstn n (reg a)) (firstn m (reg b))) /\ length (w_asym w same (firstn n (reg a)) (firstn m (reg b))) = (n + m)%nat /\ V (w_asym w same (firstn n (reg a)) (firstn m (reg b))) = V (reg a) * V (reg b)).
  { assert (La : length (firstn n (reg a)) = n) by (rewrite firstn_length; lia). assert (Lb : length (firstn m (reg b)) = m) by (rewrite firstn_length; lia).
    assert (exists k q, (1 <= k)%nat /\ (1 <= q)%nat /\ (n = 2 ^ k /\ m = 2 ^ k * q \/ m = 2 ^ k /\ n = 2 ^ k * q)%nat) as (k & q & K1 & K2 & K3).
    { destruct (le_lt_dec i j) as [L|L].
      - exists i, (2 ^ (j - i))%nat. split; auto. split; [pose proof (Nat.pow_nonzero 2 (j - i)); lia|]. left. split; auto. rewrite <- Nat.pow_add_r. rewrite J2. f_equal. lia.
      - exists j, (2 ^ (i - j))%nat. split; auto. split; [pose proof (Nat.pow_nonzero 2 (i - j)); lia|]. right. split; auto. rewrite <- Nat.pow_add_r. rewrite I2. f_equal. lia. }
    pose proof (w_asym_spec w k q same (firstn n (reg a)) (firstn m (reg b)) K1 K2 (W_firstn w n _ A1) (W_firstn w m _ B1) S0) as Q. rewrite La, Lb in Q. specialize (Q K3). rewrite E1, E2 in Q. exact Q. }
  destruct G as (g1 & g2 & g3). set (p := w_asym _ _ _ _) in *. clearbody p. split; [apply W_store; auto; apply (W_repeat0 w)|]. split; [rewrite firstn_store; rewrite repeat_length; [apply roundup_pow|rewrite g2; apply roundup_ge]|]. rewrite V_store0. exact g3.
Qed.
Lemma times__int same a b va vb : is_int a va -> is_int b vb -> (same = true -> a = b) -> is_int (times_ w same a b) (va * vb).
Proof.
  intros [Ha <-] [Hb <-] Hs. destruct (positive_multiply_spec same a b Ha Hb Hs) as (p1 & p2 & p3). unfold times_. set (p := positive_multiply w same a b) in *.
  assert (IP : is_int p (V (reg a) * V (reg b))) by (unfold p, positive_multiply in *; cbn [reg] in *; apply pos_int; auto). clearbody p. unfold IntegerSpec.ival.
  pose proof (negate_int w _ _ IP) as IN. destruct (neg a), (neg b); cbn [negb Bool.eqb].
  - replace (-1 * V (reg a) * (-1 * V (reg b))) with (V (reg a) * V (reg b)) by ring. exact IP.
  - replace (-1 * V (reg a) * (1 * V (reg b))) with (- (V (reg a) * V (reg b))) by ring. exact IN.
  - replace (1 * V (reg a) * (-1 * V (reg b))) with (- (V (reg a) * V (reg b))) by ring. exact IN.
  - rewrite !Z.mul_1_l. exact IP.
Qed.
Lemma times_int a b va vb : is_int a va -> is_int b vb -> is_int (times w a b) (va * vb).
Proof. intros. apply times__int; auto. discriminate. Qed.
Lemma squared_int a va : is_int a va -> is_int (squared w a) (va * va).
Proof. intros. apply times__int; auto. Qed.

(** ** Sizes of registers *)
Lemma roundup_mono n m : (n <= m)%nat -> (roundup n <= roundup m)%nat.
Proof. intros. apply roundup_le; [apply roundup_pow|]. pose proof (roundup_ge m). lia. Qed.
Lemma copy_len x : valid x -> length (reg (copy x)) = roundup (word_count x).
Proof. intros (H1 & H2 & _). unfold copy. cbn [reg]. rewrite firstn_length. destruct (wc_spec w (reg x) H1) as (C1 & _). pose proof (roundup_le _ _ H2 C1). unfold word_count. lia. Qed.
Lemma pow2_half n m : pow2_size n -> pow2_size m -> (n <= m)%nat -> (m / 2 < n)%nat -> n = m.
Proof.
  intros (i & Hi & ->) (j & Hj & ->) L G. destruct (Nat.eq_dec i j) as [->|N]; auto. exfalso. assert (i < j)%nat. { destruct (Nat.leb_spec j i); [|lia]. pose proof (Nat.pow_le_mono_r 2 j i ltac:(lia) H). exfalso. apply N, (Nat.pow_inj_r 2); lia. }
  destruct j; [lia|]. rewrite Nat.pow_succ_r', Nat.mul_comm, Nat.div_mul in G by lia. pose proof (Nat.pow_le_mono_r 2 i j ltac:(lia) ltac:(lia)). lia.
Qed.
(** operator= leaves a copy. *)
Lemma assign_copy n x : valid x -> assign n x = copy x.
Proof.
  intros (H1 & H2 & H3). unfold assign. destruct (negb _ || _) eqn:E; auto. apply orb_false_iff in E. destruct E as [_ E]. apply Z.eqb_neq in E.
  destruct (wc_spec w (reg x) H1) as (C1 & _ & _ & _ & _ & C6). fold (word_count x) in C1, C6.
  assert (L : (length (reg x) / 2 < word_count x)%nat). { destruct (Nat.ltb_spec (length (reg x) / 2) (word_count x)) as [|G]; auto. exfalso. apply E. replace (length (reg x) / 2)%nat with (word_count x + (length (reg x) / 2 - word_count x))%nat by lia.
    unfold at_. rewrite <- nth_skipn_add, C6. apply nth_repeat. }
  assert (R : roundup (word_count x) = length (reg x)). { apply pow2_half; auto using roundup_pow. apply roundup_le; auto. pose proof (roundup_ge (word_count x)). lia. }
  unfold copy. rewrite R, firstn_all. destruct x; reflexivity.
Qed.
(** ** Division *)
Lemma positive_divide_full a b va vb : word_bits w -> is_int a va -> is_int b vb ->
  (vb = 0 /\ positive_divide w a b = RDivideByZero) \/
  (vb <> 0 /\ exists r q, positive_divide w a b = ROk (r, q) /\ is_int r (Z.abs va mod Z.abs vb) /\ is_int q (Z.abs va / Z.abs vb) /\ (length (reg r) <= length (reg b))%nat).
Proof.
  intros Hwb [Ha Ea] [Hb Eb]. pose proof (ival_abs w a Ha) as AA. pose proof (ival_abs w b Hb) as AB. rewrite Ea in AA. rewrite Eb in AB. rewrite AA, AB. pose proof Ha as (A1 & A2 & _). pose proof Hb as (B1 & B2 & _). unfold positive_divide, word_count.
  destruct (wc_spec w (reg a) A1) as (C1 & C2 & C3 & C4 & C5 & C6). destruct (wc_spec w (reg b) B1) as (D1 & D2 & D3 & D4 & D5 & D6). set (n0 := count_words (reg a) _) in *. set (m0 := count_words (reg b) _) in *. pose proof (V_bound w _ A1). pose proof (V_bound w _ B1).
  destruct (Nat.eqb_spec m0 0) as [M|M]. { left. apply D5 in M. split; [lia|reflexivity]. }
  right. assert (VB : V (reg b) <> 0) by (intros Q; apply M, D5; auto). split; [lia|].
  destruct (Nat.ltb_spec n0 m0) as [L|L].
  - assert (V (reg a) < V (reg b)) by (specialize (D4 M); pose proof (P_mono w n0 (m0 - 1) ltac:(lia)); lia). exists (mkInt false (reg (assign 2 a))), int_zero. split; auto. rewrite Z.mod_small, Z.div_small by lia. split; [|split; [apply (zero_int w)|cbn [reg]; rewrite assign_copy, copy_len by auto; apply roundup_le; auto; unfold word_count; fold n0; lia]].
    destruct (assign_int w 2 a va (conj Ha Ea)) as [(Q1 & Q2 & Q3) Q4]. apply pos_int; auto. rewrite <- AA, <- Q4. symmetry. apply (ival_abs w). exact (conj Q1 (conj Q2 Q3)).
  - destruct (even_up_spec n0 (length (reg a)) C1 (proj1 (pow2_even _ A2))) as (E1 & E2 & E3). destruct (even_up_spec m0 (length (reg b)) D1 (proj1 (pow2_even _ B2))) as (F1 & F2 & F3). set (n := even_up n0) in *. set (m := even_up m0) in *.
    destruct (V_firstn_ge w (reg a) n A1 ltac:(unfold n0 in *; lia)) as [G1 _]. destruct (V_firstn_ge w (reg b) m B1 ltac:(unfold m0 in *; lia)) as [G2 _].
    assert (NM : (m <= n)%nat). { destruct (le_lt_dec m n); auto. pose proof (even_lt n m E3 F3 ltac:(lia)). lia. }
    pose proof (Nat.div_mod n 2 ltac:(lia)) as N2. pose proof (Nat.div_mod m 2 ltac:(lia)) as M2. rewrite E3, Nat.add_0_r in N2. rewrite F3, Nat.add_0_r in M2.
    destruct (count_words_spec w (length (reg b)) (reg b) ltac:(lia)) as (_ & _ & D7). fold m0 in D7. specialize (D7 M).
    destruct (w_divide_spec w 3 (m / 2) (n / 2) (firstn n (reg a)) (firstn m (reg b)) Hwb ltac:(lia) (W_firstn w _ _ A1) (W_firstn w _ _ B1)) as (R & Q & S1 & S2 & S3 & S4 & S5 & S6 & S7).
    { rewrite firstn_length; lia. } { rewrite firstn_length; lia. } { lia. }
    { rewrite !at_firstn by lia. rewrite <- M2. assert (T : m0 = m \/ (m0 - 1 = m - 2)%nat) by lia. destruct T as [T|T]; [left; rewrite <- T; auto|right; rewrite <- T; auto]. }
    rewrite S1. rewrite G1, G2 in *. rewrite <- M2 in S4. rewrite <- N2, <- M2 in S5. eexists _, _. split; [reflexivity|]. split; [|split]; [apply pos_int|apply pos_int|].
    + apply W_store; auto. apply (W_repeat0 w). + rewrite firstn_store; rewrite repeat_length; [apply roundup_pow|rewrite S4; apply roundup_ge]. + rewrite V_store0. auto.
    + apply W_store; auto. apply (W_repeat0 w). + rewrite firstn_store; rewrite repeat_length; [apply roundup_pow|rewrite S5; apply roundup_ge]. + rewrite V_store0. auto.
    + cbn [reg]. rewrite firstn_store; rewrite repeat_length; [apply roundup_le; auto; lia|rewrite S4; apply roundup_ge].
Qed.
Lemma positive_divide_spec a b va vb : word_bits w -> is_int a va -> is_int b vb ->
  (vb = 0 /\ positive_divide w a b = RDivideByZero) \/
  (vb <> 0 /\ exists r q, positive_divide w a b = ROk (r, q) /\ is_int r (Z.abs va mod Z.abs vb) /\ is_int q (Z.abs va / Z.abs vb)).
Proof. intros Hwb Ha Hb. destruct (positive_divide_full a b va vb Hwb Ha Hb) as [L|(N & r & q & E & R & Q & _)]; [left; auto|right]. split; auto. exists r, q. auto. Qed.
Lemma is_int_neg x v : is_int x v -> neg x = (v <? 0).
Proof. intros [H <-]. apply (ival_neg w). auto. Qed.
Lemma divide_int a b va vb : word_bits w -> is_int a va -> is_int b vb -> vb <> 0 ->
  exists r q vr vq, divide w a b = ROk (r, q) /\ is_int r vr /\ is_int q vq /\ va = vq * vb + vr /\ 0 <= vr < Z.abs vb.
Proof.
  intros Hwb Ha Hb NZ. destruct (positive_divide_spec a b va vb Hwb Ha Hb) as [[Q _]|(_ & r & q & E & Hr & Hq)]; [lia|]. unfold divide. rewrite E. cbn [rbind]. rewrite (is_int_neg _ _ Ha), (is_int_neg _ _ Hb).
  assert (PA : 0 < Z.abs vb) by lia. pose proof (Z.div_mod (Z.abs va) (Z.abs vb) ltac:(lia)) as DM. pose proof (Z.mod_pos_bound (Z.abs va) (Z.abs vb) PA) as MB. set (x := Z.abs va / Z.abs vb) in *. set (y := Z.abs va mod Z.abs vb) in *. clearbody x y. clear E.
  assert (Fin : forall r q vr vq, is_int r vr -> is_int q vq -> va = vq * Z.abs vb + vr -> 0 <= vr < Z.abs vb -> exists r0 q0 vr0 vq0, ROk (r, if vb <? 0 then negate q else q) = ROk (r0, q0) /\ is_int r0 vr0 /\ is_int q0 vq0 /\ va = vq0 * vb + vr0 /\ 0 <= vr0 < Z.abs vb).
  { intros r1 q1 vr vq K1 K2 K3 K4. exists r1. destruct (Z.ltb_spec vb 0).
    - exists (negate q1), vr, (- vq). split; auto. split; auto. split; [apply (negate_int w); auto|]. split; auto. rewrite K3, Z.abs_neq by lia. ring.
    - exists q1, vr, vq. split; auto. split; auto. split; auto. split; auto. rewrite K3, Z.abs_eq by lia. ring. }
  destruct (Z.ltb_spec va 0).
  - rewrite (is_zero_int w _ _ Hr). destruct (Z.eqb_spec y 0) as [Y|Y]; cbn [negb].
    + apply Fin with (vr := y) (vq := - x); auto. apply (negate_int w); auto. lia.
    + apply Fin with (vr := Z.abs vb - y) (vq := - x - 1). { apply (assign_int w), (minus_int w); auto. apply (abs_int w). auto. } { apply (decr_int w), (negate_int w); auto. } { rewrite Z.abs_neq in DM at 1 by lia. lia. } lia.
  - apply Fin with (vr := y) (vq := x); auto. rewrite Z.abs_eq in DM at 1 by lia. lia.
Qed.
Lemma divide_zero a b va : word_bits w -> is_int a va -> is_int b 0 -> divide w a b = RDivideByZero.
Proof. intros Hwb Ha Hb. destruct (positive_divide_spec a b va 0 Hwb Ha Hb) as [[_ E]|[Q _]]; [|lia]. unfold divide. rewrite E. reflexivity. Qed.
Lemma euclid_unique b q r q' r' : b <> 0 -> q * b + r = q' * b + r' -> 0 <= r < Z.abs b -> 0 <= r' < Z.abs b -> q = q' /\ r = r'.
Proof.
  intros Hb E H1 H2. assert (D : (q - q') * b = r' - r) by lia. assert (q = q'). { destruct (Z.eq_dec q q'); auto. exfalso. assert (Z.abs b <= Z.abs ((q - q') * b)) by (rewrite Z.abs_mul; nia). lia. } subst. lia.
Qed.
Lemma modulo_int a b va vb : word_bits w -> is_int a va -> is_int b vb -> vb <> 0 -> exists r, modulo w a b = ROk r /\ is_int r (va mod Z.abs vb).
Proof.
  intros Hwb Ha Hb NZ. destruct (divide_int a b va vb Hwb Ha Hb NZ) as (r & q & vr & vq & E & Hr & Hq & K1 & K2). unfold modulo. rewrite E. exists r. split; auto.
  replace (va mod Z.abs vb) with vr; auto. apply Z.mod_unique_pos with (vq * Z.sgn vb); auto. rewrite K1. f_equal. transitivity (vq * (Z.abs vb * Z.sgn vb)); [rewrite Z.abs_sgn; reflexivity|ring].
Qed.
Lemma divided_by_int a b va vb : word_bits w -> is_int a va -> is_int b vb -> vb <> 0 -> exists q, divided_by w a b = ROk q /\ is_int q (Z.sgn vb * (va / Z.abs vb)).
Proof.
  intros Hwb Ha Hb NZ. destruct (divide_int a b va vb Hwb Ha Hb NZ) as (r & q & vr & vq & E & Hr & Hq & K1 & K2). unfold divided_by. rewrite E. exists q. split; auto.
  replace (Z.sgn vb * (va / Z.abs vb)) with vq; auto. assert (D : va / Z.abs vb = vq * Z.sgn vb). { symmetry. apply Z.div_unique_pos with vr; auto. rewrite K1. f_equal. transitivity (vq * (Z.abs vb * Z.sgn vb)); [rewrite Z.abs_sgn; reflexivity|ring]. }
  rewrite D. destruct (Z.sgn_spec vb) as [[_ ->]|[[? ->]|[_ ->]]]; lia.
Qed.

(** ** Division by a power of two *)
Lemma quot_floor v d : 0 < d -> v / d = if (v <? 0) && negb (v mod d =? 0) then Z.quot v d - 1 else Z.quot v d.
Proof.
  intros Hd. destruct (Z.ltb_spec v 0); cbn [andb].
  - assert (Q : Z.quot v d = - ((- v) / d)). { rewrite <- (Z.opp_involutive v) at 1. rewrite Z.quot_opp_l, Z.quot_div_nonneg by lia. reflexivity. }
    rewrite Q. destruct (Z.eqb_spec (v mod d) 0) as [E|E]; cbn [negb]. { rewrite (Z.div_opp_l_z v) by lia. lia. } rewrite (Z.div_opp_l_nz v) by lia. lia.
  - rewrite Z.quot_div_nonneg by lia. reflexivity.
Qed.
Lemma abs_mod v d : 0 < d -> Z.abs v mod d = if (v <? 0) && negb (v mod d =? 0) then d - v mod d else v mod d.
Proof.
  intros Hd. destruct (Z.ltb_spec v 0); cbn [andb]; [|rewrite Z.abs_eq by lia; reflexivity]. rewrite Z.abs_neq by lia. destruct (Z.eqb_spec (v mod d) 0) as [E|E]; cbn [negb]. - rewrite Z.mod_opp_l_z; lia. - rewrite Z.mod_opp_l_nz; lia.
Qed.
Lemma low_bits_spec a n : W a -> (bits_to_words w n <= length a)%nat -> let wc := bits_to_words w n in let x := firstn wc a in
  let y := if negb (n mod wn =? 0)%nat then upd (wc - 1) (at_ x (wc - 1) mod wd w (Z.shiftl 1 (Z.of_nat (n mod wn)))) x else x in
  W y /\ length y = wc /\ V y = V a mod 2 ^ Z.of_nat n.
Proof.
  intros H L. cbv zeta. destruct (btw_split w n) as [T1 T2]. rewrite (pow_n w n). pose proof (wn_pos w). pose proof (Nat.mod_upper_bound n wn ltac:(lia)) as MB. set (sw := (n / wn)%nat) in *. set (sb := (n mod wn)%nat) in *. clearbody sw sb.
  assert (LF : length (firstn (bits_to_words w n) a) = bits_to_words w n) by (rewrite firstn_length; lia). pose proof (P_pos w sw) as PS. destruct (Nat.eqb_spec sb 0) as [E|E]; cbn [negb].
  - split; [apply W_firstn; auto|]. split; auto. rewrite E. change (2 ^ Z.of_nat 0) with 1. rewrite Z.mul_1_r. rewrite V_mod_P by (auto; lia). f_equal. f_equal. lia.
  - assert (EW : bits_to_words w n = S sw) by lia. rewrite EW in *. replace (S sw - 1)%nat with sw by lia. rewrite at_firstn by lia. destruct (mask_word w sb ltac:(lia)) as [-> M]. pose proof (Z.mod_pos_bound (at_ a sw) (2 ^ Z.of_nat sb) ltac:(lia)) as MM.
    split; [apply W_upd; [apply W_firstn; auto|lia]|]. split; [rewrite upd_len; auto|]. rewrite V_upd by lia. rewrite V_firstn_S, at_firstn by lia. rewrite (Z.rem_mul_r (V a)) by lia. rewrite V_mod_P, V_div_P by (auto; lia).
    assert (SK : V (skipn sw a) = at_ a sw + B * V (skipn (S sw) a)). { destruct (skipn sw a) as [|u r] eqn:Q; [apply (f_equal (@length Z)) in Q; rewrite skipn_length in Q; cbn in Q; lia|]. rewrite V_cons. f_equal. { replace sw with (sw + 0)%nat by lia. rewrite <- at_skipn, Q. reflexivity. } f_equal. f_equal. replace (S sw) with (1 + sw)%nat by lia. rewrite <- skipn_skipn_add, Q. reflexivity. }
    rewrite SK. rewrite (pow_split w (Z.of_nat sb)) by lia. replace (at_ a sw + 2 ^ Z.of_nat sb * 2 ^ (w - Z.of_nat sb) * V (skipn (S sw) a)) with (at_ a sw + (2 ^ (w - Z.of_nat sb) * V (skipn (S sw) a)) * 2 ^ Z.of_nat sb) by ring. rewrite Z_mod_plus_full. ring.
Qed.
Lemma divide_pow2_int a va n : is_int a va -> is_int (fst (divide_pow2 w a n)) (va mod 2 ^ Z.of_nat n) /\ is_int (snd (divide_pow2 w a n)) (va / 2 ^ Z.of_nat n).
Proof.
  intros Ha. pose proof (p2 (Z.of_nat n) ltac:(lia)) as PP. assert (HQ : is_int (shr w (assign 2 a) n) (Z.quot va (2 ^ Z.of_nat n))) by (apply shr_int; auto; apply (assign_int w); auto).
  unfold divide_pow2. set (q := shr w (assign 2 a) n) in *. set (r := if (bits_to_words w n <=? word_count a)%nat then _ else _).
  assert (HR : is_int r (Z.abs va mod 2 ^ Z.of_nat n)).
  { destruct Ha as [Hv <-]. rewrite (ival_abs w) by auto. destruct Hv as (A1 & A2 & _). destruct (wc_spec w (reg a) A1) as (C1 & C2 & C3 & C4 & C5 & _). change (count_words (reg a) (length (reg a))) with (word_count a) in *. pose proof (V_bound w _ A1). unfold r. destruct (Nat.leb_spec (bits_to_words w n) (word_count a)) as [L|L].
    - destruct (low_bits_spec (reg a) n A1 ltac:(lia)) as (l1 & l2 & l3). cbv zeta in l1, l2, l3. apply pos_int.
      + apply W_store; auto. apply (W_repeat0 w). + rewrite firstn_store; rewrite repeat_length; [apply roundup_pow|rewrite l2; apply roundup_ge]. + rewrite V_store0. exact l3.
    - assert (RL : (roundup (word_count a) <= length (reg a))%nat) by (apply roundup_le; auto). apply pos_int; [apply W_firstn; auto|rewrite firstn_length, Nat.min_l by auto; apply roundup_pow|].
      destruct (V_firstn_ge w (reg a) (roundup (word_count a)) A1 (roundup_ge _)) as [-> _]. symmetry. apply Z.mod_small. split; [lia|]. destruct (btw_split w n) as [T1 T2]. rewrite (pow_n w n). pose proof (P_mono w (word_count a) (n / wn)) as M.
      assert (word_count a <= n / wn)%nat by (destruct (n mod wn =? 0)%nat; lia). specialize (M H0). pose proof (p2 (Z.of_nat (n mod wn)) ltac:(apply Nat2Z.is_nonneg)). pose proof (P_pos w (n / wn)). nia. }
  clearbody r q. rewrite (is_int_neg _ _ Ha), (is_zero_int w _ _ HR). rewrite quot_floor by auto.
  assert (Q1 : (Z.abs va mod 2 ^ Z.of_nat n =? 0) = (va mod 2 ^ Z.of_nat n =? 0)). { rewrite abs_mod by auto. pose proof (Z.mod_pos_bound va _ PP). destruct (Z.eqb_spec (va mod 2 ^ Z.of_nat n) 0) as [E|E]; [rewrite E, andb_false_r; reflexivity|]. destruct (va <? 0); cbn [andb negb]; [apply Z.eqb_neq; lia|apply Z.eqb_neq; auto]. }
  rewrite Q1. rewrite abs_mod in HR by auto. destruct ((va <? 0) && negb (va mod 2 ^ Z.of_nat n =? 0)); cbn [fst snd]; auto.
  split; [|apply (decr_int w); auto]. apply (assign_int w). replace (va mod 2 ^ Z.of_nat n) with (2 ^ Z.of_nat n - (2 ^ Z.of_nat n - va mod 2 ^ Z.of_nat n)) by ring. apply (minus_int w); auto. apply (power2_int w).
Qed.

(** ** Division by a word *)
Lemma skipn_upd (x : Z) : forall i q, (i < length q)%nat -> skipn i (upd i x q) = x :: skipn (S i) q.
Proof. induction i; intros [|u q] L; cbn [length] in L; try lia; [reflexivity|]. cbn [upd]. change (skipn (S i) (u :: upd i x q)) with (skipn i (upd i x q)). rewrite IHi by lia. reflexivity. Qed.
Lemma word_div_spec d : 0 < d < B -> forall i a r q, W a -> (i <= length a)%nat -> 0 <= r < d ->
  fst (word_div w d i a r q) = (V (firstn i a) + P i * r) mod d /\
  ((i <= length q)%nat -> W q -> W (snd (word_div w d i a r q)) /\ length (snd (word_div w d i a r q)) = length q /\ skipn i (snd (word_div w d i a r q)) = skipn i q /\ V (firstn i (snd (word_div w d i a r q))) = (V (firstn i a) + P i * r) / d).
Proof.
  intros Hd. induction i; intros a r q Wa La Hr; cbn [word_div].
  - cbn [fst snd firstn]. rewrite V_nil, P_0, Z.mul_1_l, Z.add_0_l. rewrite Z.mod_small, Z.div_small by auto. auto.
  - pose proof (W_at w a i Wa) as A. set (v := at_ a i + B * r). assert (Hv : 0 <= v < B * d) by (unfold v; pose proof (B_pos w); nia). pose proof (Z.mod_pos_bound v d ltac:(lia)) as MB. pose proof (Z.div_mod v d ltac:(lia)) as DM.
    assert (DB : 0 <= v / d < B) by (split; [apply Z.div_pos; lia|apply Z.div_lt_upper_bound; lia]). destruct (IHi a (v mod d) (upd i (wd w (v / d)) q) Wa ltac:(lia) MB) as [I1 I2]. clear IHi. set (res := word_div w d i a _ _) in *. clearbody res.
    assert (E : V (firstn (S i) a) + P (S i) * r = V (firstn i a) + P i * (v mod d) + (P i * (v / d)) * d) by (rewrite V_firstn_S, P_S by lia; unfold v in *; nia).
    rewrite E. rewrite Z_mod_plus_full, Z_div_plus_full by lia. split; [exact I1|]. intros Lq Wq. rewrite upd_len in I2. destruct I2 as (J1 & J2 & J3 & J4); [lia|apply W_upd; auto; apply (wd_range w)|].
    split; auto. split; auto.
    assert (SK : skipn i (snd res) = v / d :: skipn (S i) q). { rewrite J3. rewrite wd_small by auto. apply skipn_upd. lia. }
    split; [replace (S i) with (1 + i)%nat by lia; rewrite <- skipn_skipn_add, SK; reflexivity|]. rewrite V_firstn_S by lia. rewrite J4. f_equal. replace i with (i + 0)%nat at 2 by lia. rewrite <- at_skipn, SK. rewrite at_0. reflexivity.
Qed.
Lemma pow2_test d : 0 < d -> (Z.land d (d - 1) =? 0) = true <-> d = 2 ^ Z.log2 d.
Proof.
  intros Hd. pose proof (Z.log2_spec d Hd) as L. pose proof (Z.log2_nonneg d). set (k := Z.log2 d) in *. clearbody k. unfold Z.succ in L. rewrite Z.pow_add_r in L by lia. change (2 ^ 1) with 2 in L. rewrite Z.eqb_eq. split.
  - intros E. destruct (Z.eq_dec d (2 ^ k)) as [|N]; auto. exfalso. assert (T : Z.testbit (Z.land d (d - 1)) k = true).
    { rewrite Z.land_spec. assert (G : forall x, 2 ^ k <= x < 2 ^ k * 2 -> Z.testbit x k = true). { intros x Hx. rewrite Z.testbit_true by lia. replace (x / 2 ^ k) with 1; [reflexivity|]. apply Z.div_unique_pos with (x - 2 ^ k); lia. } rewrite !G by lia. reflexivity. }
    rewrite E, Z.bits_0 in T. discriminate.
  - intros ->. replace (2 ^ k - 1) with (Z.ones k) by (rewrite Z.ones_equiv; lia). rewrite Z.land_ones by lia. apply Z.mod_same. pose proof (p2 k ltac:(lia)). lia.
Qed.
Lemma pow2_mod a d : W a -> 0 < d < B -> d = 2 ^ Z.log2 d -> Z.land (at_ a 0) (d - 1) = V a mod d.
Proof.
  intros Wa Hd E. pose proof (Z.log2_nonneg d). set (k := Z.log2 d) in *. clearbody k. subst d. replace (2 ^ k - 1) with (Z.ones k) by (rewrite Z.ones_equiv; lia). rewrite Z.land_ones by lia. rewrite (at_val w) by auto. rewrite P_0, Z.div_1_r.
  assert (k < w) by (apply (Z.pow_lt_mono_r_iff 2); unfold base in Hd; pose proof (Hw w); lia). rewrite (pow_split w k) by (pose proof (Hw w); lia). rewrite Z.rem_mul_r by (pose proof (p2 k); pose proof (p2 (w - k)); lia). rewrite Z.mul_comm, Z_mod_plus_full. apply Z.mod_mod. lia.
Qed.
Lemma bp_log2 d : word_bits w -> 0 < d < 2 ^ w -> bit_precision w d = Z.log2 d + 1.
Proof. intros Hwb Hd. destruct (bp_spec w d Hwb Hd) as [b1 b2]. assert (Z.log2 d = bit_precision w d - 1); [|lia]. apply Z.log2_unique; [lia|]. replace (Z.succ (bit_precision w d - 1)) with (bit_precision w d) by lia. auto. Qed.
Lemma divide_word_pow2 a va d : word_bits w -> is_int a va -> 0 < d < B -> d = 2 ^ Z.log2 d ->
  exists q, divide_word w a d = ROk (Z.abs va mod d, q) /\ is_int q (Z.quot va d).
Proof.
  intros Hwb Ha Hd E. unfold divide_word. destruct (Z.eqb_spec d 0); [lia|]. rewrite (proj2 (pow2_test d ltac:(lia)) E). eexists. split.
  - rewrite (pow2_mod (reg a) d) by (auto; apply Ha). destruct Ha as [Hv <-]. rewrite (ival_abs w) by auto. reflexivity.
  - rewrite E at 2. rewrite bp_log2 by (auto; unfold base in Hd; lia). replace (Z.log2 d + 1 - 1) with (Z.log2 d) by lia. rewrite <- (Z2Nat.id (Z.log2 d)) at 2 by apply Z.log2_nonneg. apply (shr_int w); auto. apply (copy_int w). auto.
Qed.
Lemma divide_word_gen a va d : word_bits w -> is_int a va -> 0 < d < B -> d <> 2 ^ Z.log2 d ->
  exists q, divide_word w a d = ROk (va mod d, q) /\ is_int q (va / d).
Proof.
  intros Hwb Ha Hd E. unfold divide_word. destruct (Z.eqb_spec d 0) as [D0|_]; [lia|]. destruct (Z.land d (d - 1) =? 0) eqn:T. { apply pow2_test in T; lia. }
  pose proof (is_int_neg _ _ Ha) as HN. destruct Ha as [Hv Hva]. pose proof (ival_abs w a Hv) as AA. rewrite Hva in AA. destruct Hv as (A1 & A2 & A3). destruct (wc_spec w (reg a) A1) as (C1 & C2 & C3 & _). change (count_words (reg a) (length (reg a))) with (word_count a) in *. set (n := word_count a) in *.
  destruct (word_div_spec d Hd n (reg a) 0 (repeat 0 (roundup n)) A1 C1 ltac:(lia)) as [D1 D2]. rewrite C2, Z.mul_0_r, Z.add_0_r, <- AA in *. destruct D2 as (D2 & D3 & D4 & D5); [rewrite repeat_length; apply roundup_ge|apply (W_repeat0 w)|]. rewrite repeat_length in D3.
  destruct (word_div w d n (reg a) 0 (repeat 0 (roundup n))) as [r q]. cbn [fst snd] in *.
  assert (VQ : V q = Z.abs va / d). { rewrite (V_firstn_skipn w n q) by (rewrite D3; apply roundup_ge). rewrite D4, D5. assert (S0 : V (skipn n (repeat 0 (roundup n))) = 0); [|lia]. pose proof (V_fits w n (repeat 0 (roundup n)) (W_repeat0 w _)) as [_ Q]; auto. rewrite V_repeat0. apply P_pos. exact Hbig. }
  assert (PL : pow2_size (length q)) by (rewrite D3; apply roundup_pow). rewrite HN. destruct (Z.ltb_spec va 0) as [L|L]; cbn [negb].
  - pose proof (Z.mod_pos_bound va d ltac:(lia)) as MB. rewrite abs_mod in D1 by lia. pose proof (quot_floor va d ltac:(lia)) as QF. assert (QQ : Z.quot va d = - (Z.abs va / d)). { rewrite Z.abs_neq by lia. rewrite <- (Z.opp_involutive va) at 1. rewrite Z.quot_opp_l, Z.quot_div_nonneg by lia. reflexivity. }
    destruct (Z.ltb_spec va 0); [|lia]. cbn [andb] in *.
    assert (NZ : V q = 0 -> va mod d <> 0). { intros V0 M0. rewrite V0 in VQ. symmetry in VQ. apply Z.div_small_iff in VQ; [|lia]. assert (va = - d * 0 \/ 0 < Z.abs va < d) as [Q|Q] by lia; [lia|]. rewrite <- (Z.opp_involutive va) in M0. rewrite Z.mod_opp_l_nz in M0 by (try rewrite Z.mod_small by lia; lia). rewrite Z.mod_small in M0 by lia. lia. }
    destruct (Z.eqb_spec (va mod d) 0) as [M0|M0]; cbn [negb] in *.
    + destruct (Z.eqb_spec r 0) as [R0|R0]; [|lia]. cbn [negb]. eexists. split; [rewrite D1; reflexivity|]. rewrite QF, QQ. apply mk_int; auto; [rewrite VQ; ring|]. intros _ Q. apply NZ; lia.
    + destruct (Z.eqb_spec r 0) as [R0|R0]; [lia|]. cbn [negb]. eexists. split; [rewrite wd_small by lia; f_equal; f_equal; lia|]. rewrite QF, QQ.
      destruct (Z.eq_dec (V q) 0) as [V0|V0].
      * (* decrementing a negative zero still gives -1 *)
        assert (q = repeat 0 (length q)) as -> by (apply (V_zero w); auto). unfold decr. cbn [neg reg]. set (z := repeat 0 (length q)). assert (Wz : W z) by apply (W_repeat0 w). assert (Lz : length z = length q) by apply repeat_length. destruct (inc_mag_spec w z Wz ltac:(rewrite Lz; auto)) as (i1 & i2 & i3). apply mk_int; auto; [|lia]. rewrite i3. unfold z. rewrite V_repeat0. lia.
      * apply (decr_int w). apply mk_int; auto; [rewrite VQ; ring|]. intros _ Q. lia.
  - rewrite Z.abs_eq in * by lia. eexists. split; [rewrite D1; reflexivity|]. apply pos_int; auto.
Qed.
Lemma sum_words d l : 0 < d -> B mod d = 1 mod d -> fold_right Z.add 0 l mod d = V l mod d.
Proof.
  intros Hd HB. induction l; [reflexivity|]. cbn [fold_right]. rewrite V_cons. rewrite Z.add_mod, IHl, <- Z.add_mod by lia. rewrite (Z.add_mod a (B * V l)), (Z.mul_mod B), HB, <- Z.mul_mod, Z.mul_1_l, <- Z.add_mod by lia. reflexivity.
Qed.
Lemma sum_bound l : W l -> 0 <= fold_right Z.add 0 l <= Z.of_nat (length l) * (B - 1).
Proof. induction l; intros H; cbn [fold_right length]; [lia|]. apply W_cons in H. destruct H as [H1 H2]. specialize (IHl H2). rewrite Nat2Z.inj_succ. nia. Qed.
Lemma modulo_word_int a va d : word_bits w -> is_int a va -> 0 < d < B -> Z.of_nat (length (reg a)) <= B -> modulo_word w a d = ROk (va mod d).
Proof.
  intros Hwb Ha Hd HL. unfold modulo_word. destruct (Z.eqb_spec d 0); [lia|]. f_equal. set (r := if negb (Z.land d (d - 1) =? 0) then _ else _).
  assert (R : r = Z.abs va mod d).
  { destruct Ha as [Hv Hva]. pose proof (ival_abs w a Hv) as AA. rewrite Hva in AA. rewrite AA. destruct Hv as (A1 & A2 & A3). unfold r. clear r. destruct (wc_spec w (reg a) A1) as (C1 & C2 & C3 & _). change (count_words (reg a) (length (reg a))) with (word_count a) in *. destruct (Z.land d (d - 1) =? 0) eqn:T; cbn [negb].
    - apply pow2_test in T; [|lia]. apply pow2_mod; auto.
    - destruct (Z.ltb_spec 5 d).
      + destruct (word_div_spec d Hd (word_count a) (reg a) 0 [] A1 C1 ltac:(lia)) as [D1 _]. rewrite D1, C2, Z.mul_0_r, Z.add_0_r. reflexivity.
      + assert (D35 : d = 3 \/ d = 5). { assert (d = 1 \/ d = 2 \/ d = 3 \/ d = 4 \/ d = 5) as [->|[->|[->|[->| ->]]]] by lia; try discriminate; auto. }
        unfold dw. rewrite (Z.mod_small _ (B * B)). 2: { pose proof (sum_bound _ (W_firstn w (word_count a) _ A1)) as SB. rewrite firstn_length, Nat.min_l in SB by auto. split; [lia|]. pose proof (B_pos w). apply Z.le_lt_trans with (Z.of_nat (word_count a) * (B - 1)); [lia|]. nia. }
        rewrite sum_words, C2; [reflexivity|lia|]. unfold base. destruct Hwb as [-> | ->], D35 as [-> | ->]; reflexivity. }
  rewrite R, (is_int_neg _ _ Ha). rewrite abs_mod by lia. pose proof (Z.mod_pos_bound va d ltac:(lia)). destruct (Z.ltb_spec va 0); cbn [andb]; auto. destruct (Z.eqb_spec (va mod d) 0) as [E|E]; cbn [negb]. { rewrite E. reflexivity. } destruct (Z.eqb_spec (d - va mod d) 0); cbn [negb]; lia.
Qed.
End Int.
