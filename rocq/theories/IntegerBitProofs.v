(** Proofs about the bit operations of Integer. *)
From Coq Require Import ZArith List Lia Bool Arith.
From Verif Require Import Base AsnModel AsnProofs WordsModel WordsSpec WordsProofs WordsLongDivProofs IntegerModel IntegerSpec IntegerProofs.
Import ListNotations.
Local Open Scope Z_scope.

Section Int.
Variable w : Z.
Context {Hbig : bigw w}.
Notation B := (base w).
Notation V := (wval w).
Notation W := (words w).
Notation P := (WordsProofs.P w).
Notation valid := (IntegerSpec.valid w).
Notation ival := (IntegerSpec.ival w).
Notation is_int := (IntegerSpec.is_int w).
Notation wn := (Z.to_nat w).

Lemma wn_pos : (32 <= wn)%nat. Proof. pose proof (Hw w). lia. Qed.
Lemma btw_split n : bits_to_words w n = (n / wn + bits_to_words w (n mod wn))%nat /\ bits_to_words w (n mod wn) = (if (n mod wn =? 0)%nat then 0 else 1)%nat.
Proof.
  pose proof wn_pos. assert (N : wn <> 0%nat) by lia. unfold bits_to_words. pose proof (Nat.mod_upper_bound n wn N) as M. assert (A : ((n mod wn + wn - 1) / wn = if (n mod wn =? 0)%nat then 0 else 1)%nat).
  { destruct (Nat.eqb_spec (n mod wn) 0) as [E|E]. - rewrite E. apply Nat.div_small. lia. - symmetry. apply (Nat.div_unique _ _ _ (n mod wn - 1)); lia. }
  split; auto. rewrite (Nat.div_mod n wn N) at 1. replace (wn * (n / wn) + n mod wn + wn - 1)%nat with (n mod wn + wn - 1 + (n / wn) * wn)%nat by lia. rewrite Nat.div_add by auto. lia.
Qed.
Lemma pow_n n : 2 ^ Z.of_nat n = P (n / wn) * 2 ^ Z.of_nat (n mod wn).
Proof. pose proof wn_pos. pose proof (Hw w). rewrite (P_pow2 w), <- Z.pow_add_r; [|apply Z.mul_nonneg_nonneg; [lia|apply Nat2Z.is_nonneg]|apply Nat2Z.is_nonneg]. f_equal. rewrite (Nat.div_mod n wn) at 1 by lia. rewrite Nat2Z.inj_add, Nat2Z.inj_mul, Z2Nat.id by lia. lia. Qed.

Lemma sub_split k n l : (k + n <= length l)%nat -> W l -> l = firstn k l ++ sub_ k n l ++ skipn (k + n) l.
Proof. intros H _. unfold sub_. rewrite Nat.add_comm. rewrite <- skipn_skipn_add. rewrite firstn_skipn. symmetry. apply firstn_skipn. Qed.

Lemma shl_int x v n : is_int x v -> is_int (shl w x n) (v * 2 ^ Z.of_nat n).
Proof.
  intros [(X1 & X2 & X3) <-]. unfold shl, word_count. destruct (wc_spec w (reg x) X1) as (C1 & C2 & C3 & C4 & C5 & _). set (wc := count_words _ _) in *. set (sw := (n / wn)%nat). set (sb := (n mod wn)%nat).
  destruct (btw_split n) as [T1 T2]. fold sw sb in T1, T2. pose proof (pow_n n) as PN. fold sw sb in PN. pose proof wn_pos. assert (Hsb : (sb < wn)%nat) by (apply Nat.mod_upper_bound; lia). clearbody sw sb.
  pose proof (V_bound w _ X1) as BX. set (k := (wc + bits_to_words w sb)%nat) in *. set (r0 := clean_grow (reg x) (roundup (wc + bits_to_words w n))).
  assert (W0 : W r0) by (apply W_grow; auto). assert (V0 : V r0 = V (reg x)) by apply V_grow. assert (L0 : length r0 = Nat.max (length (reg x)) (roundup (wc + bits_to_words w n))) by apply grow_len. pose proof (roundup_ge (wc + bits_to_words w n)).
  assert (P0 : pow2_size (length r0)) by (rewrite L0; apply pow2_max; auto using roundup_pow). clearbody r0.
  destruct (shl_words_spec w r0 (wc + sw) sw W0 ltac:(lia) ltac:(lia)) as (s1 & s2 & s3). replace (wc + sw - sw)%nat with wc in s3 by lia. destruct (V_fits w wc r0 W0 ltac:(lia)) as [s4 _]. destruct (V_fits w (wc + sw) r0 W0) as [_ s5]; [pose proof (P_mono w wc (wc + sw) ltac:(lia)); lia|].
  rewrite s4, s5, V0, Z.mul_0_r, Z.add_0_r in s3. set (r1 := shl_words r0 (wc + sw) sw) in *. clearbody r1.
  assert (Lk : (sw + k <= length r1)%nat) by (unfold k; lia). pose proof (sub_split sw k r1 Lk s1) as SP. assert (Ls : length (sub_ sw k r1) = k) by (unfold sub_; rewrite firstn_length, skipn_length; lia). assert (Ws : W (sub_ sw k r1)) by (apply W_firstn, W_skipn; auto).
  assert (F0 : V (firstn sw r1) = 0) by (rewrite <- V_mod_P by (auto; lia); rewrite s3, Z.mul_comm; apply Z.mod_mul; pose proof (P_pos w sw); lia).
  assert (F1 : V (skipn sw r1) = V (reg x)) by (rewrite <- V_div_P by (auto; lia); rewrite s3, Z.mul_comm; apply Z.div_mul; pose proof (P_pos w sw); lia).
  destruct (V_fits w k (skipn sw r1) (W_skipn w sw r1 s1)) as [F2 F3]; [pose proof (P_mono w wc k ltac:(lia)); lia|]. rewrite skipn_skipn_add in F3. fold (sub_ sw k r1) in F2. rewrite F1 in F2.
  destruct (shl_bits_spec w (sub_ sw k r1) (Z.of_nat sb) ltac:(lia) Ws) as (h1 & h2 & h3 & h4). set (y := fst (shl_bits w _ _)) in *. set (c := snd (shl_bits w _ _)) in *. clearbody y c. rewrite Ls in *. rewrite F2 in h4.
  assert (Hc : c = 0). { destruct (Nat.eqb_spec sb 0) as [E|E]; [rewrite E in h3; change (2 ^ Z.of_nat 0) with 1 in h3; lia|].
    pose proof (V_bound w _ h1). rewrite h2 in *. assert (2 ^ Z.of_nat sb <= B) by (unfold base; apply Z.pow_le_mono_r; lia). replace k with (S wc) in * by (unfold k; lia). rewrite P_S in *. pose proof (p2 (Z.of_nat sb) ltac:(lia)). assert (V (reg x) * 2 ^ Z.of_nat sb < B * P wc) by nia. assert (0 < B * P wc) by (pose proof (P_pos w wc); pose proof (B_pos w); nia). nia. }
  assert (Wp : W (put sw y r1)) by (unfold put; apply W_app; split; [apply W_firstn; auto|apply W_app; split; auto; apply W_skipn; auto]).
  assert (Lp : length (put sw y r1) = length r0) by (unfold put; rewrite !app_length, firstn_length, skipn_length, h2; lia).
  assert (Vp : V (put sw y r1) = V (reg x) * 2 ^ Z.of_nat n).
  { unfold put. rewrite !V_app, F0, h2, firstn_length, Nat.min_l by lia. rewrite (Nat.add_comm sw k), F3. rewrite PN. transitivity (P sw * (V y + P k * c)); [rewrite Hc; ring|]. rewrite h4. ring. }
  apply mk_int; auto; [rewrite Lp; auto| |].
  - rewrite Vp. unfold IntegerSpec.ival. ring.
  - intros E. specialize (X3 E). unfold IntegerSpec.ival. rewrite E. pose proof (p2 (Z.of_nat n) ltac:(lia)). nia.
Qed.
Lemma quot_sign (s : bool) a b : 0 < b -> 0 <= a -> Z.quot ((if s then -1 else 1) * a) b = (if s then -1 else 1) * (a / b).
Proof. intros Hb Ha. destruct s. - replace (-1 * a) with (- a) by ring. rewrite Z.quot_opp_l by lia. rewrite Z.quot_div_nonneg by lia. ring. - rewrite !Z.mul_1_l. apply Z.quot_div_nonneg; lia. Qed.
Lemma shr_int x v n : is_int x v -> is_int (shr w x n) (Z.quot v (2 ^ Z.of_nat n)).
Proof.
  intros [(X1 & X2 & X3) <-]. unfold shr. change (word_count x) with (count_words (reg x) (length (reg x))). destruct (wc_spec w (reg x) X1) as (C1 & C2 & C3 & C4 & C5 & _). set (wc := count_words _ _) in *. set (sw := (n / wn)%nat). set (sb := (n mod wn)%nat).
  pose proof (pow_n n) as PN. fold sw sb in PN. pose proof wn_pos. assert (Hsb : (sb < wn)%nat) by (apply Nat.mod_upper_bound; lia). clearbody sw sb. pose proof (V_bound w _ X1) as BX. pose proof (P_pos w sw) as PS. pose proof (p2 (Z.of_nat sb) ltac:(lia)) as PB.
  set (r := if (sw <? wc)%nat then _ else _).
  assert (R : W r /\ length r = length (reg x) /\ V r = V (reg x) / 2 ^ Z.of_nat n).
  { unfold r. clear r. rewrite PN, <- Z.div_div by lia. destruct (V_firstn_ge w (reg x) wc X1 ltac:(unfold wc; lia)) as [_ Z0]. destruct (Nat.ltb_spec sw wc) as [L|L].
    - destruct (shr_words_spec w (reg x) wc sw X1 ltac:(lia) ltac:(lia)) as (s1 & s2 & s3). rewrite Z0, Z.mul_0_r, Z.add_0_r in s3.
      assert (VS : V (sub_ sw (wc - sw) (reg x)) = V (reg x) / P sw). { rewrite V_div_P by (auto; lia). unfold sub_. destruct (V_fits w (wc - sw) (skipn sw (reg x)) (W_skipn w sw _ X1)) as [Q _]; auto. rewrite <- V_div_P by (auto; lia). apply Z.div_lt_upper_bound; auto. rewrite <- P_add. replace (sw + (wc - sw))%nat with wc by lia. auto. }
      rewrite VS in s3. set (r1 := shr_words (reg x) wc sw) in *. clearbody r1. destruct (V_fits w (wc - sw) r1 s1) as [Q1 Q2]. { rewrite s3. apply Z.div_lt_upper_bound; auto. rewrite <- P_add. replace (sw + (wc - sw))%nat with wc by lia. auto. }
      destruct (shr_bits_spec w (firstn (wc - sw) r1) (Z.of_nat sb) ltac:(lia) (W_firstn w _ _ s1)) as (h1 & h2 & h3). rewrite firstn_length, Nat.min_l in h2 by lia.
      split; [apply W_store; auto|]. split; [rewrite firstn_store; lia|]. rewrite V_store_zero by (rewrite h2; auto). rewrite h3, Q1, s3. reflexivity.
    - assert (Q : V (reg x) / P sw = 0) by (apply Z.div_small; pose proof (P_mono w wc sw ltac:(lia)); lia). rewrite Q, Z.div_0_l by lia.
      unfold shr_words. cbv zeta. rewrite Nat.min_r by lia. rewrite Nat.sub_diag. change (sub_ wc 0 (reg x)) with (@nil Z). cbn [app]. split; [apply W_app; split; [apply (W_repeat0 w)|apply W_skipn; auto]|]. split; [rewrite app_length, repeat_length, skipn_length; lia|].
      rewrite V_app, V_repeat0, Z0. lia. }
  clearbody r. destruct R as (R1 & R2 & R3). pose proof (p2 (Z.of_nat n) ltac:(lia)). unfold IntegerSpec.ival. rewrite quot_sign by lia. rewrite <- R3.
  unfold word_count. cbn [neg reg]. destruct (wc_spec w r R1) as (_ & _ & _ & _ & D5 & _). 
  destruct (Nat.eqb_spec (count_words r (length r)) 0) as [E|E].
  - destruct (neg x) eqn:N; cbn [andb].
    + apply D5 in E. rewrite E. apply (assign_int w), (zero_int w).
    + apply pos_int; auto; [rewrite R2; auto|lia].
  - rewrite andb_false_r. apply mk_int; auto; [rewrite R2; auto|]. intros S1 Q. rewrite S1 in Q. apply E, D5. lia.
Qed.

(** ** Single bits and bytes *)
Lemma at_val l i : W l -> at_ l i = (V l / P i) mod B.
Proof.
  intros H. destruct (le_lt_dec (length l) i) as [L|L].
  - unfold at_. rewrite nth_overflow by auto. rewrite Z.div_small; [symmetry; apply Z.mod_0_l; pose proof (B_pos w); lia|]. pose proof (V_bound w _ H). pose proof (P_mono w (length l) i L). lia.
  - rewrite V_div_P by (auto; lia). replace i with (i + 0)%nat at 1 by lia. rewrite <- at_skipn. pose proof (W_skipn w i l H) as Q. destruct (skipn i l) as [|a r] eqn:E; [apply (f_equal (@length Z)) in E; rewrite skipn_length in E; cbn in E; lia|].
    rewrite at_0, V_cons. apply W_cons in Q. rewrite Z.mul_comm, Z_mod_plus_full, Z.mod_small; tauto.
Qed.
Lemma at_testbit l i j : W l -> 0 <= j < w -> Z.testbit (at_ l i) j = Z.testbit (V l) (w * Z.of_nat i + j).
Proof. intros H Hj. pose proof (Hw w). rewrite at_val, (P_pow2 w) by auto. unfold base. rewrite Z.mod_pow2_bits_low by lia. rewrite Z.div_pow2_bits by nia. f_equal. lia. Qed.
Lemma get_bit_int x v n : is_int x v -> get_bit w x n = Z.testbit (Z.abs v) (Z.of_nat n).
Proof.
  intros [Hx <-]. rewrite ival_abs by auto. destruct Hx as (X1 & X2 & X3). pose proof wn_pos. pose proof (Hw w). unfold get_bit. set (i := (n / wn)%nat). assert (Hj : (n mod wn < wn)%nat) by (apply Nat.mod_upper_bound; lia).
  assert (E : Z.of_nat n = w * Z.of_nat i + Z.of_nat (n mod wn)). { rewrite (Nat.div_mod n wn) at 1 by lia. fold i. rewrite Nat2Z.inj_add, Nat2Z.inj_mul, Z2Nat.id by lia. reflexivity. }
  assert (G : Z.odd (Z.shiftr (at_ (reg x) i) (Z.of_nat (n mod wn))) = Z.testbit (V (reg x)) (Z.of_nat n)). { rewrite <- Z.bit0_odd, Z.shiftr_spec by lia. rewrite Z.add_0_l, at_testbit, E by (auto; lia). reflexivity. }
  destruct (Nat.ltb_spec i (length (reg x))) as [L|L]; [exact G|]. rewrite <- G. unfold at_. rewrite nth_overflow by auto. rewrite Z.shiftr_0_l. reflexivity.
Qed.

Lemma setbit_add a n : 0 <= n -> Z.setbit a n = a + (if Z.testbit a n then 0 else 2 ^ n).
Proof.
  intros Hn. destruct (Z.testbit a n) eqn:E.
  - rewrite Z.add_0_r. apply Z.bits_inj'. intros k Hk. rewrite Z.setbit_eqb by lia. destruct (Z.eqb_spec n k) as [<-|]; cbn [orb]; auto.
  - unfold Z.setbit. rewrite Z.shiftl_1_l. assert (L : Z.land a (2 ^ n) = 0); [|rewrite Z.add_nocarry_lxor, Z.lxor_lor by auto; reflexivity]. apply Z.bits_inj'. intros k Hk. rewrite Z.land_spec, Z.bits_0, Z.pow2_bits_eqb by lia. destruct (Z.eqb_spec n k) as [<-|]; [rewrite E|rewrite andb_false_r]; auto.
Qed.
Lemma clearbit_sub a n : 0 <= n -> Z.clearbit a n = a - (if Z.testbit a n then 2 ^ n else 0).
Proof.
  intros Hn. destruct (Z.testbit a n) eqn:E.
  - unfold Z.clearbit. rewrite Z.shiftl_1_l. symmetry. apply Z.sub_nocarry_ldiff. apply Z.bits_inj'. intros k Hk. rewrite Z.ldiff_spec, Z.bits_0, Z.pow2_bits_eqb by lia. destruct (Z.eqb_spec n k) as [<-|]; [rewrite E|]; auto.
  - rewrite Z.sub_0_r. apply Z.bits_inj'. intros k Hk. rewrite Z.clearbit_eqb by lia. destruct (Z.eqb_spec n k) as [<-|]; cbn [negb]; [rewrite E|rewrite andb_true_r]; auto.
Qed.
Lemma land_compl a j : 0 <= a < B -> 0 <= j < w -> Z.land a (B - 1 - 2 ^ j) = Z.clearbit a j.
Proof.
  intros Ha Hj. assert (E : B - 1 - 2 ^ j = Z.ldiff (Z.ones w) (2 ^ j)).
  { unfold base. rewrite <- Z.sub_nocarry_ldiff; [rewrite Z.ones_equiv; lia|]. apply Z.bits_inj'. intros k Hk. rewrite Z.ldiff_spec, Z.bits_0, Z.pow2_bits_eqb by lia. destruct (Z.eqb_spec j k) as [<-|]; auto. rewrite Z.ones_spec_low by lia. reflexivity. }
  rewrite E. apply Z.bits_inj'. intros k Hk. rewrite Z.land_spec, Z.ldiff_spec, Z.pow2_bits_eqb, Z.clearbit_eqb by lia. destruct (Z.ltb_spec k w).
  - rewrite Z.ones_spec_low by lia. reflexivity.
  - rewrite (testbit_above w a k) by (auto; lia). reflexivity.
Qed.
Lemma n_split n : Z.of_nat n = w * Z.of_nat (n / wn) + Z.of_nat (n mod wn) /\ (n mod wn < wn)%nat.
Proof. pose proof wn_pos. pose proof (Hw w). split; [|apply Nat.mod_upper_bound; lia]. rewrite (Nat.div_mod n wn) at 1 by lia. rewrite Nat2Z.inj_add, Nat2Z.inj_mul, Z2Nat.id by lia. reflexivity. Qed.
Lemma mask_word j : (j < wn)%nat -> wd w (Z.shiftl 1 (Z.of_nat j)) = 2 ^ Z.of_nat j /\ 0 < 2 ^ Z.of_nat j < B.
Proof. intros H. rewrite Z.shiftl_1_l. assert (0 < 2 ^ Z.of_nat j < B) by (split; [apply p2; lia|apply Z.pow_lt_mono_r; lia]). split; auto. apply wd_small. lia. Qed.
Lemma set_true r n : W r -> (n / wn < length r)%nat -> let r' := upd (n / wn) (Z.lor (at_ r (n / wn)) (wd w (Z.shiftl 1 (Z.of_nat (n mod wn))))) r in
  W r' /\ length r' = length r /\ V r' = Z.setbit (V r) (Z.of_nat n).
Proof.
  intros H L. cbv zeta. destruct (n_split n) as [N1 N2]. pose proof (pow_n n) as PN. set (i := (n / wn)%nat) in *. set (j := (n mod wn)%nat) in *. clearbody i j. destruct (mask_word j N2) as [-> M]. pose proof (W_at w r i H) as A.
  split; [apply W_upd; auto; apply lor_range; unfold base in *; try lia; pose proof (Hw w); lia|]. split; [apply upd_len|]. rewrite V_upd by auto.
  assert (E : Z.lor (at_ r i) (2 ^ Z.of_nat j) = Z.setbit (at_ r i) (Z.of_nat j)) by (unfold Z.setbit; rewrite Z.shiftl_1_l; reflexivity). rewrite E, !setbit_add by lia. rewrite at_testbit, <- N1 by (auto; pose proof (Hw w); lia). rewrite PN. destruct (Z.testbit (V r) (Z.of_nat n)); ring.
Qed.
Lemma setbit_pos a n : 0 <= a -> 0 <= n -> 0 < Z.setbit a n.
Proof. intros. rewrite setbit_add by auto. destruct (Z.testbit a n) eqn:E; [|pose proof (p2 n H0); lia]. destruct (Z.eq_dec a 0) as [->|]; [rewrite Z.bits_0 in E; discriminate|lia]. Qed.
Lemma set_bit_int x v n : is_int x v -> is_int (set_bit w x n true) ((if v <? 0 then -1 else 1) * Z.setbit (Z.abs v) (Z.of_nat n)).
Proof.
  intros [Hx <-]. rewrite ival_abs, <- ival_neg by auto. destruct Hx as (X1 & X2 & X3). unfold set_bit. set (r := clean_grow (reg x) (roundup (bits_to_words w (n + 1)))).
  assert (L : (n / wn < length r)%nat). { unfold r. rewrite grow_len. pose proof (roundup_ge (bits_to_words w (n + 1))). assert (n / wn < bits_to_words w (n + 1))%nat; [|lia]. unfold bits_to_words. pose proof wn_pos. replace (n + 1 + wn - 1)%nat with (n + 1 * wn)%nat by lia. rewrite Nat.div_add by lia. lia. }
  assert (W0 : W r) by (apply W_grow; auto). destruct (set_true r n W0 L) as (s1 & s2 & s3). cbv zeta in s1, s2, s3. assert (VR : V r = V (reg x)) by apply V_grow. rewrite VR in s3. pose proof (V_bound w _ X1). pose proof (setbit_pos (V (reg x)) (Z.of_nat n) ltac:(lia) ltac:(lia)).
  apply mk_int; auto; [rewrite s2; unfold r; rewrite grow_len; apply pow2_max; auto using roundup_pow|rewrite s3; reflexivity|]. intros ->. lia.
Qed.
Lemma clear_bit_int x v n : is_int x v -> (v < 0 -> Z.abs v <> 2 ^ Z.of_nat n) -> is_int (set_bit w x n false) ((if v <? 0 then -1 else 1) * Z.clearbit (Z.abs v) (Z.of_nat n)).
Proof.
  intros [Hx <-] Hz. pose proof (ival_neg w x Hx) as HN. rewrite ival_abs in * by auto. rewrite <- HN. destruct Hx as (X1 & X2 & X3). pose proof (V_bound w _ X1) as BX. unfold set_bit. destruct (n_split n) as [N1 N2]. pose proof (pow_n n) as PN. pose proof (p2 (Z.of_nat n) ltac:(lia)) as PP.
  assert (NZ : neg x = true -> Z.clearbit (V (reg x)) (Z.of_nat n) <> 0).
  { intros E. specialize (X3 E). rewrite E in HN. symmetry in HN. apply Z.ltb_lt in HN. specialize (Hz HN). rewrite clearbit_sub by lia. destruct (Z.testbit (V (reg x)) (Z.of_nat n)); lia. }
  assert (E0 : 0 <= Z.clearbit (V (reg x)) (Z.of_nat n)) by (apply Z.ldiff_nonneg; auto; lia).
  destruct (Nat.ltb_spec (n / wn) (length (reg x))) as [L|L].
  - set (i := (n / wn)%nat) in *. set (j := (n mod wn)%nat) in *. clearbody i j. destruct (mask_word j N2) as [-> M]. pose proof (W_at w (reg x) i X1) as A. rewrite land_compl by (auto; pose proof (Hw w); lia).
    assert (C0 : 0 <= Z.clearbit (at_ (reg x) i) (Z.of_nat j) < B). { rewrite clearbit_sub by lia. destruct (Z.testbit (at_ (reg x) i) (Z.of_nat j)) eqn:Q; [|lia]. split; [|lia]. assert (0 <= Z.clearbit (at_ (reg x) i) (Z.of_nat j)) by (apply Z.ldiff_nonneg; left; lia). rewrite clearbit_sub, Q in * by lia. lia. }
    apply mk_int; [apply W_upd; auto|rewrite upd_len; auto| |intros E; specialize (NZ E); rewrite E; lia]. f_equal. rewrite V_upd by auto. rewrite !clearbit_sub by lia. rewrite at_testbit, <- N1 by (auto; pose proof (Hw w); lia). rewrite PN. destruct (Z.testbit (V (reg x)) (Z.of_nat n)); ring.
  - assert (T : Z.testbit (V (reg x)) (Z.of_nat n) = false). { rewrite N1, <- at_testbit by (auto; pose proof (Hw w); lia). unfold at_. rewrite nth_overflow by auto. apply Z.bits_0. }
    rewrite clearbit_sub, T, Z.sub_0_r by lia. split; [repeat split; auto|reflexivity].
Qed.
Lemma power2_int e : is_int (power2 w e) (2 ^ Z.of_nat e).
Proof. unfold power2. pose proof (of_word_int w 0 (bits_to_words w (e + 1)) ltac:(pose proof (B_pos w); lia)) as H. apply (set_bit_int _ _ e) in H. cbn [Z.ltb Z.compare Z.abs] in H. rewrite setbit_add, Z.bits_0, Z.mul_1_l, Z.add_0_l in H by lia. exact H. Qed.
Lemma bit_count_int x v : word_bits w -> is_int x v -> Z.of_nat (bit_count w x) = (if v =? 0 then 0 else Z.log2 (Z.abs v) + 1).
Proof.
  intros Hwb [Hx E]. pose proof (ival_abs w x Hx) as HA. rewrite E in HA. destruct Hx as (X1 & X2 & X3). unfold bit_count, word_count. destruct (wc_spec w (reg x) X1) as (C1 & C2 & C3 & C4 & C5 & _). set (n := count_words _ _) in *. pose proof (V_bound w _ X1).
  destruct (Nat.eqb_spec n 0) as [N|N]. { apply C5 in N. destruct (Z.eqb_spec v 0); [reflexivity|lia]. }
  assert (v <> 0) by (intros ->; apply N, C5; lia). destruct (Z.eqb_spec v 0); [lia|]. rewrite HA.
  assert (T : V (reg x) = V (firstn (n - 1) (reg x)) + P (n - 1) * at_ (reg x) (n - 1)). { rewrite <- C2 at 1. replace n with (S (n - 1)) at 1 by lia. apply V_firstn_S. lia. }
  pose proof (V_bound w _ (W_firstn w (n - 1) _ X1)) as BF. rewrite firstn_length, Nat.min_l in BF by lia. pose proof (W_at w (reg x) (n - 1) X1) as A. specialize (C4 N). assert (A0 : 0 < at_ (reg x) (n - 1)) by (pose proof (P_pos w (n - 1)); nia).
  destruct (bp_spec w (at_ (reg x) (n - 1)) Hwb ltac:(unfold base in A; lia)) as [b1 b2]. set (k := bit_precision w _) in *. clearbody k. pose proof (Hw w). rewrite Nat2Z.inj_add, Nat2Z.inj_mul, !Z2Nat.id by lia.
  assert (L : Z.log2 (V (reg x)) = w * Z.of_nat (n - 1) + (k - 1)); [|lia]. pose proof (Z.mul_nonneg_nonneg w (Z.of_nat (n - 1)) ltac:(lia) ltac:(lia)). apply Z.log2_unique; [lia|]. rewrite T. unfold Z.succ. replace (w * Z.of_nat (n - 1) + (k - 1) + 1) with (w * Z.of_nat (n - 1) + k) by lia. rewrite !Z.pow_add_r by lia. rewrite <- !(P_pow2 w). pose proof (P_pos w (n - 1)). split; nia.
Qed.
Lemma get_byte_int x v n : word_bits w -> is_int x v -> get_byte w x n = (Z.abs v / 256 ^ Z.of_nat n) mod 256.
Proof.
  intros Hwb [Hx E]. pose proof (ival_abs w x Hx) as HA. rewrite E in HA. rewrite HA. destruct Hx as (X1 & X2 & X3). unfold get_byte. set (ws := (wn / 8)%nat). assert (Hws : w = 8 * Z.of_nat ws /\ (1 <= ws)%nat) by (unfold ws; destruct Hwb as [-> | ->]; split; reflexivity || (cbv; lia)). clearbody ws. destruct Hws as [Hws Hws1].
  pose proof (Nat.div_mod n ws ltac:(lia)) as DM. pose proof (Nat.mod_upper_bound n ws ltac:(lia)) as MB. set (i := (n / ws)%nat) in *. set (j := (n mod ws)%nat) in *. clearbody i j.
  assert (G : Z.shiftr (at_ (reg x) i) (Z.of_nat j * 8) mod 256 = (V (reg x) / 256 ^ Z.of_nat n) mod 256).
  { change 256 with (2 ^ 8) at 1 3. change 256 with (2 ^ 8). rewrite <- Z.pow_mul_r by lia. apply Z.bits_inj'. intros k Hk. destruct (Z.ltb_spec k 8).
    - rewrite !Z.mod_pow2_bits_low by lia. rewrite Z.shiftr_spec, Z.div_pow2_bits by lia. rewrite at_testbit by (auto; lia). f_equal. subst n w. lia.
    - rewrite !Z.mod_pow2_bits_high by lia. reflexivity. }
  destruct (Nat.ltb_spec i (length (reg x))) as [L|L]; [exact G|]. rewrite <- G. unfold at_. rewrite nth_overflow by auto. rewrite Z.shiftr_0_l. reflexivity.
Qed.
Lemma byte_prec_spec v : word_bits w -> 0 < v < 2 ^ w -> let n := byte_precision w v in 1 <= n <= w / 8 /\ 256 ^ (n - 1) <= v < 256 ^ n.
Proof.
  intros Hwb Hv. unfold byte_precision. destruct (Z.eqb_spec v 0); [lia|].
  assert (H : exists k, w = 2 ^ Z.of_nat k * 8 /\ (k <= Z.to_nat w)%nat) by (destruct Hwb as [-> | ->]; [exists 2%nat|exists 3%nat]; split; try reflexivity; lia). destruct H as [k [H1 H2]].
  destruct (prec_loop_spec k (Z.to_nat w) 8 v 0 w) as (A & Bd & C & D); try lia; auto. { apply Z.divide_0_r. }
  cbv zeta. set (h := prec_loop _ _ _ _ _) in *. clearbody h. destruct A as [q ->]. rewrite Z.div_mul by lia. change 256 with (2 ^ 8). rewrite <- !Z.pow_mul_r by lia.
  replace (8 * q) with (q * 8) by ring. replace (8 * (q - 1)) with (q * 8 - 8) by ring. rewrite H1, Z.div_mul by lia. split; [lia|]. split; auto. destruct D as [D|D]; auto. replace (q * 8 - 8) with 0 by lia. change (2 ^ 0) with 1. lia.
Qed.
Lemma byte_count_int x v : word_bits w -> is_int x v -> let n := Z.of_nat (byte_count w x) in (v = 0 -> n = 0) /\ (v <> 0 -> 1 <= n /\ 256 ^ (n - 1) <= Z.abs v < 256 ^ n).
Proof.
  intros Hwb [Hx E]. pose proof (ival_abs w x Hx) as HA. rewrite E in HA. destruct Hx as (X1 & X2 & X3). unfold byte_count, word_count. destruct (wc_spec w (reg x) X1) as (C1 & C2 & C3 & C4 & C5 & _). set (n := count_words _ _) in *. pose proof (V_bound w _ X1).
  destruct (Nat.eqb_spec n 0) as [N|N]. { apply C5 in N. split; [reflexivity|]. intros. lia. }
  assert (v <> 0) by (intros ->; apply N, C5; lia). cbv zeta. split; [intros; lia|]. intros _. rewrite HA.
  assert (T : V (reg x) = V (firstn (n - 1) (reg x)) + P (n - 1) * at_ (reg x) (n - 1)). { rewrite <- C2 at 1. replace n with (S (n - 1)) at 1 by lia. apply V_firstn_S. lia. }
  pose proof (V_bound w _ (W_firstn w (n - 1) _ X1)) as BF. rewrite firstn_length, Nat.min_l in BF by lia. pose proof (W_at w (reg x) (n - 1) X1) as A. specialize (C4 N). assert (A0 : 0 < at_ (reg x) (n - 1)) by (pose proof (P_pos w (n - 1)); nia).
  destruct (byte_prec_spec (at_ (reg x) (n - 1)) Hwb ltac:(unfold base in A; lia)) as [b1 b2]. set (k := byte_precision w _) in *. clearbody k. pose proof (Hw w).
  assert (Hws : w = 8 * Z.of_nat (wn / 8)) by (destruct Hwb as [-> | ->]; reflexivity). set (ws := (wn / 8)%nat) in *. clearbody ws. rewrite Nat2Z.inj_add, Nat2Z.inj_mul, !Z2Nat.id by lia.
  assert (PE : P (n - 1) = 256 ^ (Z.of_nat (n - 1) * Z.of_nat ws)). { rewrite (P_pow2 w), Hws. change 256 with (2 ^ 8). rewrite <- Z.pow_mul_r by (try apply Z.mul_nonneg_nonneg; lia). f_equal. lia. }
  pose proof (Z.mul_nonneg_nonneg (Z.of_nat (n - 1)) (Z.of_nat ws) ltac:(lia) ltac:(lia)). split; [lia|]. rewrite T. rewrite <- Z.add_sub_assoc, !Z.pow_add_r by lia. rewrite <- PE. pose proof (P_pos w (n - 1)). split; nia.
Qed.

(** ** And, Or, Xor *)
Lemma V_ext l v : W l -> 0 <= v -> (forall i j, 0 <= j < w -> Z.testbit (at_ l i) j = Z.testbit v (w * Z.of_nat i + j)) -> V l = v.
Proof.
  intros H Hv Q. apply Z.bits_inj'. intros k Hk. pose proof (Hw w). pose proof (Z.mod_pos_bound k w ltac:(lia)). pose proof (Z.div_pos k w ltac:(lia) ltac:(lia)).
  assert (E : k = w * Z.of_nat (Z.to_nat (k / w)) + k mod w) by (rewrite Z2Nat.id by lia; apply Z.div_mod; lia). rewrite E, <- at_testbit by auto. apply Q. auto.
Qed.
Lemma map2_len f : forall a b, length (map2 f a b) = Nat.min (length a) (length b).
Proof. induction a; destruct b; cbn; auto. Qed.
Lemma map2_at f : forall a b i, (i < length a)%nat -> (i < length b)%nat -> at_ (map2 f a b) i = f (at_ a i) (at_ b i).
Proof. induction a; destruct b; intros i H1 H2; cbn in H1, H2; try lia. destruct i; [reflexivity|]. cbn [map2]. rewrite !at_S. apply IHa; lia. Qed.
Lemma W_map2 f : (forall a b, 0 <= a < B -> 0 <= b < B -> 0 <= f a b < B) -> forall a b, W a -> W b -> W (map2 f a b).
Proof. intros Hf. induction a; destruct b; intros H1 H2; cbn [map2]; try constructor; apply W_cons in H1; apply W_cons in H2; [apply Hf|apply IHa]; tauto. Qed.
Lemma land_w a b : 0 <= a < B -> 0 <= b < B -> 0 <= Z.land a b < B. Proof. unfold base. pose proof (Hw w). intros. apply land_range; lia. Qed.
Lemma lor_w a b : 0 <= a < B -> 0 <= b < B -> 0 <= Z.lor a b < B. Proof. unfold base. pose proof (Hw w). intros. apply lor_range; lia. Qed.
Lemma lxor_w a b : 0 <= a < B -> 0 <= b < B -> 0 <= Z.lxor a b < B. Proof. unfold base. pose proof (Hw w). intros. apply lxor_range; lia. Qed.
Lemma and_int x t a b : is_int x a -> is_int t b -> is_int (int_and x t) (Z.land (Z.abs a) (Z.abs b)).
Proof.
  intros [Hx <-] [Ht <-]. rewrite !ival_abs by auto. destruct Hx as (X1 & X2 & X3). destruct Ht as (T1 & T2 & T3). assert (WM : W (map2 Z.land (reg x) (reg t))) by (apply W_map2; auto; apply land_w).
  unfold int_and. apply pos_int; auto. { rewrite map2_len. destruct (Nat.min_spec (length (reg x)) (length (reg t))) as [[_ ->]|[_ ->]]; auto. }
  pose proof (V_bound w _ X1). apply V_ext; auto; [apply Z.land_nonneg; lia|]. intros i j Hj. rewrite Z.land_spec, <- !at_testbit by auto.
  destruct (le_lt_dec (length (reg x)) i) as [L|L]; [|destruct (le_lt_dec (length (reg t)) i) as [L2|L2]].
  - unfold at_. rewrite (nth_overflow (reg x)), (nth_overflow (map2 _ _ _)) by (rewrite ?map2_len; lia). rewrite Z.bits_0. reflexivity.
  - unfold at_. rewrite (nth_overflow (reg t)), (nth_overflow (map2 _ _ _)) by (rewrite ?map2_len; lia). rewrite Z.bits_0, andb_false_r. reflexivity.
  - rewrite map2_at by auto. apply Z.land_spec.
Qed.
Lemma merge_spec f g a b : (forall a b, 0 <= a < B -> 0 <= b < B -> 0 <= f a b < B) -> (forall x y k, 0 <= k -> Z.testbit (f x y) k = g (Z.testbit x k) (Z.testbit y k)) -> (forall c, g c false = c) -> (forall c, g false c = c) -> (forall c d, g c d = g d c) ->
  (forall x y, 0 <= x -> 0 <= y -> 0 <= f x y) -> W a -> W b -> W (merge f a b) /\ length (merge f a b) = Nat.max (length a) (length b) /\ V (merge f a b) = f (V a) (V b).
Proof.
  intros Hf Hg G1 G2 G3 G4 Wa Wb. pose proof (V_bound w _ Wa). pose proof (V_bound w _ Wb).
  assert (Q : forall a b, W a -> W b -> (length b <= length a)%nat -> W (store a (map2 f a b)) /\ length (store a (map2 f a b)) = length a /\ forall i j, 0 <= j < w -> Z.testbit (at_ (store a (map2 f a b)) i) j = g (Z.testbit (at_ a i) j) (Z.testbit (at_ b i) j)).
  { clear - Hf Hg G1 G2. intros a b Wa Wb L. assert (LM : length (map2 f a b) = length b) by (rewrite map2_len; lia). split; [apply W_store; auto; apply W_map2; auto|]. split; [apply firstn_store; lia|]. intros i j Hj. unfold store. destruct (le_lt_dec (length b) i) as [L2|L2].
    - rewrite at_app2, LM, at_skipn by lia. replace (length b + (i - length b))%nat with i by lia. unfold at_ at 3. rewrite nth_overflow by lia. rewrite Z.bits_0. auto.
    - rewrite at_app1, map2_at, Hg by lia. reflexivity. }
  unfold merge. destruct (Nat.leb_spec (length b) (length a)) as [L|L].
  - destruct (Q a b Wa Wb L) as (q1 & q2 & q3). split; auto. split; [lia|]. apply V_ext; auto; [apply G4; lia|]. intros i j Hj. pose proof (Hw w). rewrite q3, Hg, !at_testbit by (auto; nia). reflexivity.
  - destruct (Q b a Wb Wa ltac:(lia)) as (q1 & q2 & q3). split; auto. split; [lia|]. apply V_ext; auto; [apply G4; lia|]. intros i j Hj. pose proof (Hw w). rewrite q3, Hg, !at_testbit by (auto; nia). apply G3.
Qed.
Lemma or_int x t a b : is_int x a -> is_int t b -> is_int (int_or x t) (Z.lor (Z.abs a) (Z.abs b)).
Proof.
  intros [Hx <-] [Ht <-]. rewrite !ival_abs by auto. destruct Hx as (X1 & X2 & X3). destruct Ht as (T1 & T2 & T3).
  destruct (merge_spec Z.lor orb (reg x) (reg t)) as (m1 & m2 & m3); auto using lor_w; [intros; apply Z.lor_spec|apply orb_false_r|apply orb_comm|intros; apply Z.lor_nonneg; auto|].
  apply pos_int; auto. rewrite m2. apply pow2_max; auto.
Qed.
Lemma xor_int x t a b : is_int x a -> is_int t b -> is_int (int_xor x t) (Z.lxor (Z.abs a) (Z.abs b)).
Proof.
  intros [Hx <-] [Ht <-]. rewrite !ival_abs by auto. destruct Hx as (X1 & X2 & X3). destruct Ht as (T1 & T2 & T3).
  destruct (merge_spec Z.lxor xorb (reg x) (reg t)) as (m1 & m2 & m3); auto using lxor_w; [intros; apply Z.lxor_spec|apply xorb_false_r|apply xorb_false_l|apply xorb_comm|intros; apply Z.lxor_nonneg; tauto|].
  apply pos_int; auto. rewrite m2. apply pow2_max; auto.
Qed.
End Int.
