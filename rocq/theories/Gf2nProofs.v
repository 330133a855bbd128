(** Proofs about PolynomialMod2. *)
From Coq Require Import ZArith List Lia Bool Arith.
From Verif Require Import Base AsnModel AsnProofs WordsModel WordsSpec WordsProofs WordsLongDivProofs IntegerModel IntegerSpec IntegerProofs IntegerBitProofs Gf2Spec Gf2Proofs Gf2nModel.
Import ListNotations.
Local Open Scope Z_scope.

Section Pm.
Variable w : Z.
Context {Hbig : bigw w}.
Hypothesis Hwb : word_bits w.
Notation B := (base w).
Notation V := (wval w).
Notation W := (words w).
Notation P := (WordsProofs.P w).
Notation wn := (Z.to_nat w).

Lemma of_word_spec v n : 0 <= v < B -> W (pm_of_word w v n) /\ length (pm_of_word w v n) = bits_to_words w n /\ ((0 < n)%nat -> V (pm_of_word w v n) = v).
Proof.
  intros Hv. unfold pm_of_word. destruct (bits_to_words w n) as [|k] eqn:E.
  - split; [apply (W_nil w)|]. split; [reflexivity|]. intros Hn. exfalso. unfold bits_to_words in E. pose proof (wn_pos w). assert (1 <= (n + wn - 1) / wn)%nat by (apply Nat.div_le_lower_bound; lia). lia.
  - split; [apply (W_cons w); split; [auto|apply (W_repeat0 w)]|]. split; [cbn [length]; rewrite repeat_length; reflexivity|]. intros _. rewrite V_cons, V_repeat0. lia.
Qed.
Lemma of_word0 n : W (pm_of_word w 0 n) /\ length (pm_of_word w 0 n) = bits_to_words w n /\ V (pm_of_word w 0 n) = 0.
Proof. unfold pm_of_word. destruct (bits_to_words w n) as [|k]; [repeat split; constructor|]. pose proof (B_pos w). split; [apply (W_cons w); split; [lia|apply (W_repeat0 w)]|]. split; [cbn [length]; rewrite repeat_length; reflexivity|]. rewrite V_cons, V_repeat0. lia. Qed.
Lemma coef_spec r n : W r -> pm_coef w r n = Z.testbit (V r) (Z.of_nat n).
Proof.
  intros H. unfold pm_coef. destruct (n_split w n) as [E L]. assert (G : Z.odd (Z.shiftr (at_ r (n / wn)) (Z.of_nat (n mod wn))) = Z.testbit (V r) (Z.of_nat n)). { rewrite <- Z.bit0_odd, Z.shiftr_spec by lia. rewrite Z.add_0_l, (at_testbit w), E by (auto; lia). reflexivity. }
  destruct (Nat.ltb_spec (n / wn) (length r)) as [Q|Q]; [exact G|]. rewrite <- G. unfold at_. rewrite nth_overflow by auto. rewrite Z.shiftr_0_l. reflexivity.
Qed.
Lemma set_spec r n : W r -> W (pm_set_bit w r n true) /\ V (pm_set_bit w r n true) = Z.setbit (V r) (Z.of_nat n).
Proof.
  intros H. unfold pm_set_bit. set (g := clean_grow r (n / wn + 1)). assert (Wg : W g) by (apply (W_grow w); auto). assert (Lg : (n / wn < length g)%nat) by (unfold g; rewrite grow_len; lia). assert (Vg : V g = V r) by apply V_grow.
  destruct (set_true w g n Wg Lg) as (s1 & s2 & s3). cbv zeta in s1, s2, s3. rewrite Vg in s3. split; auto.
Qed.
Lemma clear_spec r n : W r -> W (pm_set_bit w r n false) /\ V (pm_set_bit w r n false) = Z.clearbit (V r) (Z.of_nat n).
Proof.
  intros H. unfold pm_set_bit. destruct (n_split w n) as [N1 N2]. pose proof (pow_n w n) as PN. set (i := (n / wn)%nat) in *. set (j := (n mod wn)%nat) in *. clearbody i j. destruct (mask_word w j N2) as [-> M]. pose proof (W_at w r i H) as A. pose proof (Hw w).
  rewrite clearbit_sub by lia. destruct (Nat.ltb_spec i (length r)) as [L|L].
  - rewrite (land_compl w) by lia. assert (C : 0 <= Z.clearbit (at_ r i) (Z.of_nat j) < B). { rewrite <- (land_compl w) by lia. apply (land_w w); lia. }
    split; [apply (W_upd w); auto|]. rewrite V_upd by auto. rewrite clearbit_sub by lia. rewrite (at_testbit w), <- N1 by (auto; lia). rewrite PN. destruct (Z.testbit (V r) (Z.of_nat n)); ring.
  - split; auto. rewrite N1, <- at_testbit by (auto; lia). unfold at_. rewrite nth_overflow by auto. rewrite Z.bits_0. lia.
Qed.
Lemma bc_spec r : W r -> Z.of_nat (pm_bit_count w r) = (if V r =? 0 then 0 else Z.log2 (V r) + 1).
Proof.
  intros X1. unfold pm_bit_count. destruct (wc_spec w r X1) as (C1 & C2 & C3 & C4 & C5 & _). set (n := count_words _ _) in *. pose proof (V_bound w _ X1).
  destruct (Nat.eqb_spec n 0) as [N|N]. { apply C5 in N. rewrite N. reflexivity. }
  destruct (Z.eqb_spec (V r) 0) as [E0|E0]; [tauto|].
  assert (T : V r = V (firstn (n - 1) r) + P (n - 1) * at_ r (n - 1)). { rewrite <- C2 at 1. replace n with (S (n - 1)) at 1 by lia. apply V_firstn_S. lia. }
  pose proof (V_bound w _ (W_firstn w (n - 1) _ X1)) as BF. rewrite firstn_length, Nat.min_l in BF by lia. pose proof (W_at w r (n - 1) X1) as A. specialize (C4 N). assert (A0 : 0 < at_ r (n - 1)) by (pose proof (P_pos w (n - 1)); nia).
  destruct (bp_spec w (at_ r (n - 1)) Hwb ltac:(unfold base in A; lia)) as [b1 b2]. set (k := bit_precision w _) in *. clearbody k. pose proof (Hw w). rewrite Nat2Z.inj_add, Nat2Z.inj_mul, !Z2Nat.id by lia.
  assert (L : Z.log2 (V r) = w * Z.of_nat (n - 1) + (k - 1)); [|lia]. pose proof (Z.mul_nonneg_nonneg w (Z.of_nat (n - 1)) ltac:(lia) ltac:(lia)). apply Z.log2_unique; [lia|]. rewrite T. unfold Z.succ. replace (w * Z.of_nat (n - 1) + (k - 1) + 1) with (w * Z.of_nat (n - 1) + k) by lia. rewrite !Z.pow_add_r by lia. rewrite <- !(P_pow2 w). pose proof (P_pos w (n - 1)). split; nia.
Qed.
Lemma bc_bound r : W r -> 0 <= V r < 2 ^ Z.of_nat (pm_bit_count w r).
Proof.
  intros H. pose proof (V_bound w _ H). rewrite bc_spec by auto. destruct (Z.eqb_spec (V r) 0) as [->|N]; [cbn; lia|]. split; [lia|]. apply Z.log2_spec. lia.
Qed.
Lemma is_zero_spec r : W r -> pm_is_zero r = (V r =? 0).
Proof.
  intros H. unfold pm_is_zero. destruct (Z.eqb_spec (V r) 0) as [E|E].
  - rewrite (V_zero w r H E). apply forallb_forall. intros x Hx. apply repeat_spec in Hx. subst. reflexivity.
  - apply not_true_is_false. intros F. apply E. rewrite forallb_forall in F. clear E. induction r as [|x r IH]; [reflexivity|]. apply (W_cons w) in H. rewrite V_cons, IH by (tauto || (intros y Hy; apply F; right; auto)). specialize (F x (or_introl eq_refl)). lia.
Qed.
Lemma equals_spec a b : W a -> W b -> pm_equals a b = (V a =? V b).
Proof.
  intros Ha Hb. unfold pm_equals. set (n := Nat.min (length a) (length b)).
  change (forallb (fun x => x =? 0) (skipn n a)) with (pm_is_zero (skipn n a)). change (forallb (fun x => x =? 0) (skipn n b)) with (pm_is_zero (skipn n b)). rewrite !is_zero_spec by (apply (W_skipn w); auto).
  assert (Da : V (skipn n a) = V a / P n) by (symmetry; apply (V_div_P w); auto; unfold n; lia). assert (Db : V (skipn n b) = V b / P n) by (symmetry; apply (V_div_P w); auto; unfold n; lia). rewrite Da, Db. apply eq_true_iff_eq. rewrite !andb_true_iff, !Z.eqb_eq, forallb_forall. split.
  - intros [[F Fa] Fb]. assert (E : firstn n a = firstn n b). { apply (nth_ext _ _ 0 0); [rewrite !firstn_length; unfold n; lia|]. intros i Hi. rewrite firstn_length in Hi. specialize (F i ltac:(apply in_seq; lia)). apply Z.eqb_eq in F. pose proof (at_firstn a n i ltac:(lia)) as Q1. pose proof (at_firstn b n i ltac:(lia)) as Q2. unfold at_ in *. congruence. }
    rewrite (V_firstn_skipn w n a), (V_firstn_skipn w n b), Da, Db, Fa, Fb, E by (unfold n; lia). reflexivity.
  - intros E. split; [split|].
    + intros i _. apply Z.eqb_eq. rewrite !(at_val w) by auto. rewrite E. reflexivity.
    + destruct (Nat.min_spec (length a) (length b)) as [[L Q]|[L Q]]; fold n in Q.
      * apply Z.div_small. rewrite Q. apply (V_bound w); auto.
      * rewrite E. apply Z.div_small. rewrite Q. apply (V_bound w); auto.
    + destruct (Nat.min_spec (length a) (length b)) as [[L Q]|[L Q]]; fold n in Q.
      * rewrite <- E. apply Z.div_small. rewrite Q. apply (V_bound w); auto.
      * apply Z.div_small. rewrite Q. apply (V_bound w); auto.
Qed.
Lemma merge_xor a b : W a -> W b -> W (merge Z.lxor a b) /\ length (merge Z.lxor a b) = Nat.max (length a) (length b) /\ V (merge Z.lxor a b) = Z.lxor (V a) (V b).
Proof. intros. apply (merge_spec w Z.lxor xorb); auto; [apply (lxor_w w)|intros; apply Z.lxor_spec|apply xorb_false_r|apply xorb_false_l|apply xorb_comm|intros; apply Z.lxor_nonneg; tauto]. Qed.
Lemma xor_store r t : W r -> W t -> (length t <= length r)%nat -> W (store r (map2 Z.lxor r t)) /\ length (store r (map2 Z.lxor r t)) = length r /\ V (store r (map2 Z.lxor r t)) = Z.lxor (V r) (V t).
Proof. intros Hr Ht L. destruct (merge_xor r t Hr Ht) as (m1 & m2 & m3). unfold merge in *. destruct (Nat.leb_spec (length t) (length r)); [|lia]. rewrite m2. repeat split; auto. lia. Qed.
Lemma xor_eq_spec r t : W r -> W t -> W (pm_xor_eq r t) /\ length (pm_xor_eq r t) = Nat.max (length r) (length t) /\ V (pm_xor_eq r t) = Z.lxor (V r) (V t).
Proof. intros Hr Ht. unfold pm_xor_eq. cbv zeta. destruct (xor_store (clean_grow r (length t)) t) as (x1 & x2 & x3); auto; [apply (W_grow w); auto|rewrite grow_len; lia|]. rewrite V_grow in x3. rewrite grow_len in x2. auto. Qed.
Lemma map2_comm a : forall b, map2 Z.lxor a b = map2 Z.lxor b a.
Proof. induction a as [|x a IH]; intros [|y b]; cbn [map2]; auto. rewrite IH, Z.lxor_comm. reflexivity. Qed.
Lemma xor_spec a b : W a -> W b -> W (pm_xor a b) /\ V (pm_xor a b) = Z.lxor (V a) (V b).
Proof.
  intros Ha Hb. unfold pm_xor. destruct (Nat.leb_spec (length a) (length b)).
  - destruct (xor_store b a Hb Ha ltac:(lia)) as (x1 & x2 & x3). unfold store in *. rewrite map2_len, Nat.min_r in x1, x3 by lia. rewrite (map2_comm b a) in x1, x3. rewrite (Z.lxor_comm (V b)) in x3. auto.
  - destruct (xor_store a b Ha Hb ltac:(lia)) as (x1 & x2 & x3). unfold store in *. rewrite map2_len, Nat.min_r in x1, x3 by lia. auto.
Qed.
Lemma and_spec a b : W a -> W b -> W (pm_and a b) /\ V (pm_and a b) = Z.land (V a) (V b).
Proof.
  intros Ha Hb. unfold pm_and. assert (WM : W (map2 Z.land a b)) by (apply (W_map2 w); auto; apply (land_w w)). split; auto. pose proof (V_bound w _ Ha). pose proof (V_bound w _ Hb).
  apply (V_ext w); auto. { apply Z.land_nonneg. lia. } intros i j Hj. rewrite Z.land_spec, <- !at_testbit by auto. destruct (Nat.ltb_spec i (Nat.min (length a) (length b))) as [L|L].
  - rewrite map2_at by lia. apply Z.land_spec.
  - unfold at_ at 1. rewrite nth_overflow by (rewrite map2_len; lia). rewrite Z.bits_0. destruct (Nat.ltb_spec i (length a)); [assert (E : at_ b i = 0) by (unfold at_; apply nth_overflow; lia)|assert (E : at_ a i = 0) by (unfold at_; apply nth_overflow; lia)]; rewrite E, Z.bits_0; [rewrite andb_false_r|]; reflexivity.
Qed.

(** ** Shifts *)
Lemma shl_junk junk r n : pm_shl w junk r n = match r with [] => [] | _ => repeat 0 (n / wn) ++ (let '(x, c) := shl_bits w r (Z.of_nat (n mod wn)) in if c =? 0 then x else x ++ [c]) end.
Proof.
  destruct r as [|u r0] eqn:R; [reflexivity|]. rewrite <- R. unfold pm_shl. replace (match r with [] => [] | _ => _ end) with (if (n =? 1)%nat
    then let '(x, carry) := shl_loop w 0 1 r in if carry =? 0 then x else let y := pm_grow junk x (length x + 1) in upd (length y - 1) carry y
    else let sw := (n / wn)%nat in let sb := (n mod wn)%nat in let '(x, carry) := if (sb =? 0)%nat then (r, 0) else shl_loop w 0 (Z.of_nat sb) r in
      let y := if carry =? 0 then pm_grow junk x (length x + sw) else upd (length x) carry (pm_grow junk x (length x + sw + (if (sb =? 0)%nat then 0 else 1))) in
      if (sw =? 0)%nat then y else repeat 0 sw ++ firstn (length y - sw) y) by (rewrite R; reflexivity).
  assert (U : forall (x y : list Z) c, upd (length x) c (x ++ junk :: y) = x ++ c :: y). { intros x y c. induction x as [|z x IH]; cbn; [reflexivity|]. f_equal. exact IH. }
  pose proof (wn_pos w) as WP. destruct (Nat.eqb_spec n 1) as [->|N1].
  - rewrite Nat.div_small, Nat.mod_small by lia. change (repeat 0 0) with (@nil Z). cbn [app]. unfold shl_bits. change (Z.of_nat 1) with 1. cbn [Z.eqb]. destruct (shl_loop w 0 1 r) as [x c]. try rewrite R. destruct (c =? 0); [reflexivity|]. unfold pm_grow. replace (length x + 1 - length x)%nat with 1%nat by lia. cbn [repeat]. cbv zeta. rewrite app_length. cbn [length]. replace (length x + 1 - 1)%nat with (length x) by lia. apply U.
  - cbv zeta. set (sw := (n / wn)%nat). set (sb := (n mod wn)%nat). assert (E : (if (sb =? 0)%nat then (r, 0) else shl_loop w 0 (Z.of_nat sb) r) = shl_bits w r (Z.of_nat sb)). { unfold shl_bits. destruct (Nat.eqb_spec sb 0) as [->|Q]; [reflexivity|]. destruct (Z.eqb_spec (Z.of_nat sb) 0); [lia|reflexivity]. }
    assert (C0 : sb = 0%nat -> snd (shl_bits w r (Z.of_nat sb)) = 0) by (intros ->; reflexivity). rewrite E. clearbody sw sb. clear E. destruct (shl_bits w r (Z.of_nat sb)) as [x c]. cbn [snd] in C0.
    assert (Y : (if c =? 0 then pm_grow junk x (length x + sw) else upd (length x) c (pm_grow junk x (length x + sw + (if (sb =? 0)%nat then 0 else 1)))) = (if c =? 0 then x else x ++ [c]) ++ repeat junk sw).
    { unfold pm_grow. destruct (Z.eqb_spec c 0) as [Z0|Z0]; [f_equal; f_equal; lia|]. destruct (Nat.eqb_spec sb 0) as [Q|Q]; [tauto|]. replace (length x + sw + 1 - length x)%nat with (S sw) by lia. cbn [repeat]. rewrite U, <- app_assoc. reflexivity. }
    rewrite Y. set (z := if c =? 0 then x else x ++ [c]). clearbody z. destruct (Nat.eqb_spec sw 0) as [->|Q]; [cbn [repeat app]; apply app_nil_r|]. f_equal. rewrite app_length, repeat_length. replace (length z + sw - sw)%nat with (length z + 0)%nat by lia. rewrite firstn_app_2. cbn [firstn]. apply app_nil_r.
Qed.
Lemma shl_spec junk r n : W r -> W (pm_shl w junk r n) /\ V (pm_shl w junk r n) = V r * 2 ^ Z.of_nat n /\ (length r <= length (pm_shl w junk r n))%nat.
Proof.
  intros H. rewrite shl_junk. destruct r as [|u r0] eqn:R; [split; [apply (W_nil w)|]; split; [reflexivity|cbn; lia]|]. rewrite <- R in *. clear R. destruct (n_split w n) as [_ L]. rewrite (pow_n w n). set (sw := (n / wn)%nat). set (sb := (n mod wn)%nat) in *. clearbody sw sb. pose proof (Hw w).
  destruct (shl_bits_spec w r (Z.of_nat sb) ltac:(lia) H) as (h1 & h2 & h3 & h4). destruct (shl_bits w r (Z.of_nat sb)) as [x c]. cbn [fst snd] in *.
  assert (2 ^ Z.of_nat sb <= B) by (unfold base; apply Z.pow_le_mono_r; lia).
  assert (Q : W (if c =? 0 then x else x ++ [c]) /\ V (if c =? 0 then x else x ++ [c]) = V r * 2 ^ Z.of_nat sb /\ (length r <= length (if (c =? 0)%Z then x else x ++ [c]))%nat).
  { destruct (Z.eqb_spec c 0) as [Z0|Z0]; [split; auto; split; [rewrite <- h4, Z0; lia|lia]|]. split; [apply (W_app w); split; auto; apply (W_cons w); split; [lia|apply W_nil]|]. split; [|rewrite app_length; lia]. rewrite V_app, h2, V_cons, V_nil, <- h4. lia. }
  destruct Q as (Q1 & Q2 & Q3). split; [apply (W_app w); split; auto; apply (W_repeat0 w)|]. split; [|rewrite app_length; lia]. rewrite V_app, V_repeat0, repeat_length, Q2. ring.
Qed.
Lemma shr_spec r n : W r -> (n / wn <= length r)%nat \/ r = [] -> exists x, pm_shr w r n = ROk x /\ W x /\ V x = V r / 2 ^ Z.of_nat n.
Proof.
  intros H L. destruct r as [|u r0] eqn:R. { exists []. split; [reflexivity|]. split; [apply (W_nil w)|]. rewrite V_nil. symmetry. apply Z.div_0_l. apply Z.pow_nonzero; lia. }
  destruct L as [L|L]; [|discriminate]. rewrite <- R in *. assert (E : pm_shr w r n = let sw := (n / wn)%nat in let sb := (n mod wn)%nat in let x := shr_bits w r (Z.of_nat sb) in if (sw =? 0)%nat then ROk x else if (sw <=? length x)%nat then ROk (skipn sw x ++ repeat 0 sw) else RMemory).
  { rewrite R. unfold pm_shr. cbv zeta. unfold shr_bits. destruct (Nat.eqb_spec (n mod wn) 0) as [->|Q]; [reflexivity|]. destruct (Z.eqb_spec (Z.of_nat (n mod wn)) 0); [lia|reflexivity]. }
  rewrite E. cbv zeta. clear E R. destruct (n_split w n) as [_ L2]. rewrite (pow_n w n). set (sw := (n / wn)%nat) in *. set (sb := (n mod wn)%nat) in *. clearbody sw sb. pose proof (Hw w).
  destruct (shr_bits_spec w r (Z.of_nat sb) ltac:(lia) H) as (h1 & h2 & h3). set (x := shr_bits w r (Z.of_nat sb)) in *. clearbody x. pose proof (P_pos w sw). pose proof (p2 (Z.of_nat sb) ltac:(lia)).
  destruct (Nat.eqb_spec sw 0) as [->|Q]. { exists x. split; auto. split; auto. rewrite P_0, Z.mul_1_l. auto. }
  destruct (Nat.leb_spec sw (length x)); [|lia]. exists (skipn sw x ++ repeat 0 sw). split; auto. split; [apply (W_app w); split; [apply (W_skipn w); auto|apply (W_repeat0 w)]|]. rewrite V_app, V_repeat0, Z.mul_0_r, Z.add_0_r, <- V_div_P by (auto; lia). rewrite h3, Z.div_div by lia. f_equal. ring.
Qed.
Lemma shr_outside r n : (length r < n / wn)%nat -> r <> [] -> pm_shr w r n = RMemory.
Proof.
  intros L N. destruct r as [|u r0] eqn:R; [congruence|]. rewrite <- R in *. unfold pm_shr. rewrite R. rewrite <- R. cbv zeta.
  assert (F : forall s q, length (fst (shr_loop w s q)) = length q). { intros s q. induction q as [|v q IH]; [reflexivity|]. cbn [shr_loop]. destruct (shr_loop w s q) as [x c]. cbn [fst length] in *. auto. }
  destruct (Nat.eqb_spec (n / wn) 0); [lia|]. destruct (Nat.leb_spec (n / wn) (length (if (n mod wn =? 0)%nat then r else fst (shr_loop w (Z.of_nat (n mod wn)) r)))) as [Q|Q]; [|reflexivity]. exfalso. destruct (n mod wn =? 0)%nat; [|rewrite F in Q]; lia.
Qed.

(** ** Product *)
Lemma shiftr_S v i : Z.shiftr v (Z.of_nat i) = 2 * Z.shiftr v (Z.of_nat (S i)) + Z.b2z (Z.testbit v (Z.of_nat i)).
Proof.
  rewrite <- (Z.add_0_l (Z.of_nat i)) at 2. rewrite <- Z.shiftr_spec by lia. replace (Z.of_nat (S i)) with (Z.of_nat i + 1) by lia. rewrite <- Z.shiftr_shiftr by lia. change (Z.shiftr (Z.shiftr v (Z.of_nat i)) 1) with (Z.div2 (Z.shiftr v (Z.of_nat i))). rewrite Z.bit0_odd. apply Z.div2_odd.
Qed.
Lemma times_loop junk a b : W a -> W b -> forall k r, W r -> (length a <= length r)%nat -> V r = pmul (V a) (Z.shiftr (V b) (Z.of_nat k)) ->
  exists x, pm_times_loop w junk a b k r = ROk x /\ W x /\ V x = pmul (V a) (V b).
Proof.
  intros Ha Hb. pose proof (V_bound w _ Hb). induction k as [|i IH]; intros r Hr L E; cbn [pm_times_loop].
  - exists r. auto.
  - destruct (shl_spec junk r 1 Hr) as (s1 & s2 & s3). change (2 ^ Z.of_nat 1) with 2 in s2. set (r1 := pm_shl w junk r 1) in *. clearbody r1. rewrite coef_spec by auto.
    assert (Q : pmul (V a) (Z.shiftr (V b) (Z.of_nat i)) = Z.lxor (if Z.testbit (V b) (Z.of_nat i) then V a else 0) (V r1)). { rewrite shiftr_S, pmul_bin_r by (apply Z.shiftr_nonneg; lia). f_equal. lia. }
    destruct (Z.testbit (V b) (Z.of_nat i)).
    + destruct (Nat.leb_spec (length a) (length r1)); [|lia]. destruct (xor_store r1 a s1 Ha ltac:(lia)) as (x1 & x2 & x3). apply IH; [auto|lia|]. rewrite x3, Q. apply Z.lxor_comm.
    + apply IH; [auto|lia|]. rewrite Q. apply eq_sym, Z.lxor_0_l.
Qed.
Lemma times_spec junk a b : W a -> W b -> (length a <= bits_to_words w (pm_bit_count w a + pm_bit_count w b))%nat ->
  exists x, pm_times w junk a b = ROk x /\ W x /\ V x = pmul (V a) (V b).
Proof.
  intros Ha Hb L. unfold pm_times. destruct (of_word0 (pm_bit_count w a + pm_bit_count w b)) as (o1 & o2 & o3). apply times_loop; auto; [lia|]. rewrite o3. pose proof (bc_bound b Hb). rewrite Z.shiftr_div_pow2, Z.div_small by lia. reflexivity.
Qed.
(** A register whose top word is used is never too long. *)
Lemma top_used a b : W a -> (a = [] \/ at_ a (length a - 1) <> 0) -> (length a <= bits_to_words w (pm_bit_count w a + b))%nat.
Proof.
  intros Ha T. destruct a as [|u a0] eqn:R; [cbn; lia|]. destruct T as [T|T]; [discriminate|]. rewrite <- R in *. assert (N : (1 <= length a)%nat) by (rewrite R; cbn; lia). clear R. pose proof (bc_bound a Ha) as BB. pose proof (wn_pos w) as WP. pose proof (Hw w).
  assert (LB : P (length a - 1) <= V a). { rewrite <- (firstn_all a) at 2. replace (length a) with (S (length a - 1)) at 2 by lia. rewrite V_firstn_S by lia. pose proof (V_bound w _ (W_firstn w (length a - 1) _ Ha)). pose proof (W_at w a (length a - 1) Ha). pose proof (P_pos w (length a - 1)). nia. }
  rewrite (P_pow2 w) in LB. assert (Q : w * Z.of_nat (length a - 1) < Z.of_nat (pm_bit_count w a)) by (apply (Z.pow_lt_mono_r_iff 2); lia).
  unfold bits_to_words. apply Nat.div_le_lower_bound; [lia|]. assert (Z.of_nat wn = w) by lia. nia.
Qed.

(** ** Quotient and remainder *)
Lemma lxor_top a b d : 0 <= d -> 0 <= a < 2 ^ (d + 1) -> 0 <= b < 2 ^ (d + 1) -> Z.testbit a d = true -> Z.testbit b d = true -> 0 <= Z.lxor a b < 2 ^ d.
Proof.
  intros Hd Ha Hb Ta Tb. assert (N : 0 <= Z.lxor a b) by (apply Z.lxor_nonneg; tauto). split; auto. destruct (Z.eq_dec (Z.lxor a b) 0) as [->|Z0]; [apply Z.pow_pos_nonneg; lia|]. apply Z.log2_lt_pow2; [lia|].
  destruct (Z.lt_ge_cases (Z.log2 (Z.lxor a b)) d) as [|G]; auto. exfalso. pose proof (Z.bit_log2 (Z.lxor a b) ltac:(lia)) as T. rewrite Z.lxor_spec in T. destruct (Z.eq_dec (Z.log2 (Z.lxor a b)) d) as [E|E]; [rewrite E, Ta, Tb in T; discriminate|].
  assert (Q : forall c, 0 <= c < 2 ^ (d + 1) -> Z.testbit c (Z.log2 (Z.lxor a b)) = false). { intros c Hc. rewrite <- (Z.mod_small c (2 ^ (d + 1)) Hc). apply Z.mod_pow2_bits_high. lia. } rewrite !Q in T by auto. discriminate.
Qed.
Lemma lor_bit a (x : bool) : 0 <= a -> Z.lor (2 * a) (Z.b2z x) = 2 * a + Z.b2z x.
Proof.
  intros Ha. apply Z.bits_inj'. intros k Hk. rewrite Z.lor_spec. destruct (Z.eq_dec k 0) as [->|N].
  - rewrite Z.testbit_even_0, Z.testbit_0_r by lia. destruct x; reflexivity.
  - replace k with (Z.succ (k - 1)) by lia. rewrite Z.testbit_even_succ, Z.testbit_succ_r by lia. destruct x; cbn [Z.b2z]; [|rewrite Z.bits_0, orb_false_r; reflexivity]. change 1 with (2 * 0 + Z.b2z true) at 2. rewrite Z.testbit_succ_r, Z.bits_0, orb_false_r by lia. reflexivity.
Qed.
Lemma put_bit r (x : bool) v : W r -> (1 <= length r)%nat -> V r = 2 * v -> 0 <= v -> W (upd 0 (Z.lor (at_ r 0) (Z.b2z x)) r) /\ length (upd 0 (Z.lor (at_ r 0) (Z.b2z x)) r) = length r /\ V (upd 0 (Z.lor (at_ r 0) (Z.b2z x)) r) = 2 * v + Z.b2z x.
Proof.
  intros H L E Hv. pose proof (W_at w r 0 H) as A. pose proof (Hw w). pose proof (B_pos w). assert (B1 : 0 <= Z.b2z x < B) by (assert (2 ^ 1 <= B) by (unfold base; apply Z.pow_le_mono_r; lia); destruct x; cbn; lia).
  split; [apply (W_upd w); auto; apply (lor_w w); auto|]. split; [apply upd_len|]. rewrite V_upd by lia. rewrite P_0.
  assert (D : exists a, 0 <= a /\ at_ r 0 = 2 * a). { destruct r as [|u r0]; [cbn in L; lia|]. rewrite at_0 in *. rewrite V_cons in E. assert (BE : B = 2 * 2 ^ (w - 1)) by (unfold base; rewrite <- Z.pow_succ_r by lia; f_equal; lia). exists (v - 2 ^ (w - 1) * V r0). nia. }
  destruct D as (a & Pa & Ea). rewrite Ea, lor_bit by auto. lia.
Qed.
Lemma setbit_shift q i : 0 <= q -> Z.setbit (q * 2 ^ Z.of_nat (S i)) (Z.of_nat i) = (2 * q + 1) * 2 ^ Z.of_nat i.
Proof.
  intros Hq. replace (Z.of_nat (S i)) with (Z.of_nat i + 1) by lia. rewrite setbit_add by lia. rewrite Z.mul_pow2_bits_low by lia. rewrite Z.pow_add_r by lia. ring.
Qed.
Lemma divide_loop junk a b d : W a -> W b -> 2 ^ Z.of_nat d <= V b < 2 ^ (Z.of_nat d + 1) -> forall k rem quo q, W rem -> (1 <= length rem)%nat -> W quo -> 0 <= V rem < 2 ^ Z.of_nat d -> 0 <= q -> V quo = q * 2 ^ Z.of_nat k ->
  Z.shiftr (V a) (Z.of_nat k) = Z.lxor (pmul q (V b)) (V rem) ->
  let '(r', q') := pm_divide_loop w junk a b d k rem quo in W r' /\ W q' /\ 0 <= V r' < 2 ^ Z.of_nat d /\ V a = Z.lxor (pmul (V q') (V b)) (V r').
Proof.
  intros Ha Hb Db. assert (Tb : Z.testbit (V b) (Z.of_nat d) = true). { rewrite <- (Z.log2_unique (V b) (Z.of_nat d)); [apply Z.bit_log2; pose proof (p2 (Z.of_nat d) ltac:(lia)); lia|lia|unfold Z.succ; lia]. } pose proof (V_bound w _ Hb) as Pb.
  induction k as [|i IH]; intros rem quo q Hr Lr Hq Br Pq Eq Ea; cbn [pm_divide_loop].
  - split; auto. split; auto. split; auto. change (2 ^ Z.of_nat 0) with 1 in Eq. rewrite Z.mul_1_r in Eq. rewrite Eq. exact Ea.
  - destruct (shl_spec junk rem 1 Hr) as (s1 & s2 & s3). change (2 ^ Z.of_nat 1) with 2 in s2. set (r1 := pm_shl w junk rem 1) in *. clearbody r1. rewrite !coef_spec with (r := a) by auto. set (t := Z.testbit (V a) (Z.of_nat i)).
    destruct (put_bit r1 t (V rem) s1 ltac:(lia) ltac:(lia) ltac:(lia)) as (u1 & u2 & u3). set (r2 := upd 0 _ r1) in *. clearbody r2. rewrite coef_spec by auto.
    assert (B2 : 0 <= V r2 < 2 ^ (Z.of_nat d + 1)) by (rewrite u3, Z.pow_add_r by lia; destruct t; cbn [Z.b2z]; lia).
    pose proof (pmul_nonneg q (V b) Pq) as PN.
    assert (Q : Z.shiftr (V a) (Z.of_nat i) = Z.lxor (2 * pmul q (V b)) (V r2)). { rewrite shiftr_S. fold t. rewrite Ea, u3. pose proof (lxor_bin (pmul q (V b)) (V rem) false t) as X. cbn [Z.b2z xorb] in X. rewrite Z.add_0_r in X. rewrite X. destruct t; reflexivity. }
    destruct (Z.testbit (V r2) (Z.of_nat d)) eqn:T.
    + destruct (xor_eq_spec r2 b u1 Hb) as (x1 & x2 & x3). destruct (set_spec quo i Hq) as (y1 & y2). apply (IH _ _ (2 * q + 1)); auto; try lia.
      * rewrite x3. apply lxor_top; auto; lia.
      * rewrite y2, Eq. apply setbit_shift. auto.
      * rewrite x3, Q. assert (M : pmul (2 * q + 1) (V b) = Z.lxor (V b) (2 * pmul q (V b))). { rewrite (pmul_comm (2 * q + 1)) by lia. change 1 with (Z.b2z true). rewrite pmul_bin_r by lia. rewrite (pmul_comm (V b)) by lia. reflexivity. }
        rewrite M. rewrite (Z.lxor_comm (V b)), Z.lxor_assoc. f_equal. rewrite (Z.lxor_comm (V r2)), <- Z.lxor_assoc, Z.lxor_nilpotent. symmetry. apply Z.lxor_0_l.
    + apply (IH _ _ (2 * q)); auto; try lia.
      * split; [lia|]. destruct (Z.lt_ge_cases (V r2) (2 ^ Z.of_nat d)) as [|G]; auto. exfalso. rewrite <- (Z.log2_unique (V r2) (Z.of_nat d)) in T; [|lia|unfold Z.succ; lia]. rewrite Z.bit_log2 in T by (pose proof (p2 (Z.of_nat d) ltac:(lia)); lia). discriminate.
      * rewrite Eq. replace (Z.of_nat (S i)) with (Z.of_nat i + 1) by lia. rewrite Z.pow_add_r by lia. ring.
      * rewrite Q, pmul_double_l by lia. reflexivity.
Qed.
Lemma divide_spec junk a b : W a -> W b -> V b <> 0 -> exists r q, pm_divide w junk a b = ROk (r, q) /\ W r /\ W q /\ V a = Z.lxor (pmul (V q) (V b)) (V r) /\ 0 <= V r < 2 ^ Z.log2 (V b).
Proof.
  intros Ha Hb N. unfold pm_divide. rewrite is_zero_spec by auto. destruct (Z.eqb_spec (V b) 0); [lia|]. cbv zeta. pose proof (bc_spec b Hb) as C. destruct (Z.eqb_spec (V b) 0); [lia|]. pose proof (V_bound w _ Hb). pose proof (Z.log2_nonneg (V b)). set (d := (pm_bit_count w b - 1)%nat). assert (D : Z.of_nat d = Z.log2 (V b)) by lia. pose proof (Z.log2_spec (V b) ltac:(lia)) as LS.
  set (rem := repeat 0 (bits_to_words w (d + 1))). set (quo := if (pm_bit_count w b <=? pm_bit_count w a)%nat then _ else _). pose proof (wn_pos w).
  assert (Lr : (1 <= length rem)%nat) by (unfold rem; rewrite repeat_length; unfold bits_to_words; apply Nat.div_le_lower_bound; lia). assert (Vr : V rem = 0) by apply V_repeat0. assert (Wr : W rem) by apply (W_repeat0 w).
  assert (Q : W quo /\ V quo = 0) by (unfold quo; destruct (_ <=? _)%nat; [split; [apply (W_repeat0 w)|apply V_repeat0]|split; [apply (W_nil w)|reflexivity]]). destruct Q as [Wq Vq]. clearbody rem quo. pose proof (bc_bound a Ha) as BA.
  pose proof (divide_loop junk a b d Ha Hb ltac:(rewrite D; unfold Z.succ in LS; lia) (pm_bit_count w a) rem quo 0 Wr Lr Wq) as X. destruct (pm_divide_loop w junk a b d (pm_bit_count w a) rem quo) as [r' q']. rewrite D in X. destruct X as (X1 & X2 & X3 & X4); [rewrite Vr; pose proof (p2 (Z.log2 (V b)) ltac:(lia)); lia|lia|rewrite Vq; lia| |].
  - rewrite Vr, pmul_0_l. rewrite Z.shiftr_div_pow2, Z.div_small by lia. reflexivity.
  - exists r', q'. auto.
Qed.
End Pm.
