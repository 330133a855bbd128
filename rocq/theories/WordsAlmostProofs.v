(** Proofs about AlmostInverse. *)
From Coq Require Import ZArith List Bool Arith Lia Znumtheory Zpow_facts.
From Verif Require Import Base AsnModel AsnProofs WordsSpec WordsModel WordsProofs WordsMulProofs WordsRecProofs WordsAsymProofs WordsDivProofs WordsLongDivProofs WordsInvProofs.
Import ListNotations.
Local Open Scope Z_scope.

Lemma tz_spec : forall fuel v, 0 < v < 2 ^ Z.of_nat fuel -> 0 <= tz_loop fuel v < Z.of_nat fuel /\ exists o, v = 2 ^ tz_loop fuel v * o /\ o mod 2 = 1.
Proof.
  induction fuel; intros v Hv. { change (2 ^ Z.of_nat 0) with 1 in Hv. lia. }
  rewrite Nat2Z.inj_succ, Z.pow_succ_r in Hv by lia. cbn [tz_loop]. pose proof (Z.div_mod v 2 ltac:(lia)) as D. pose proof (Z.mod_pos_bound v 2 ltac:(lia)).
  destruct (Z.eqb_spec (v mod 2) 0) as [E|E].
  - destruct (IHfuel (v / 2) ltac:(lia)) as [I1 (o & I2 & I3)]. split; [lia|]. exists o. split; auto. rewrite Z.pow_add_r by lia. change (2 ^ 1) with 2. lia.
  - split; [lia|]. exists v. split; [change (2 ^ 0) with 1; lia|]. lia.
Qed.

Lemma upd_past {A} (v : A) : forall n l, (length l <= n)%nat -> upd n v l = l.
Proof. induction n; destruct l; cbn [upd length]; intros; auto; try lia. f_equal. apply IHn. lia. Qed.

Section Almost.
Variable w : Z.
Context {Hbig : bigw w}.
Notation B := (base w).
Notation V := (wval w).
Notation W := (words w).
Notation P := (P w).

Lemma V_small n l : W l -> (n <= length l)%nat -> V l < P n -> V (firstn n l) = V l /\ skipn n l = repeat 0 (length l - n).
Proof.
  intros H L E. pose proof (V_firstn_skipn w n l L) as S. pose proof (V_bound w _ (W_firstn w n l H)) as B1. pose proof (V_bound w _ (W_skipn w n l H)) as B2. pose proof (P_pos w n).
  assert (Z0 : V (skipn n l) = 0) by nia. split; [lia|]. pose proof (V_zero w _ (W_skipn w n l H) Z0) as Q. rewrite skipn_length in Q. auto.
Qed.
Lemma V_small' n l : W l -> (n <= length l)%nat -> V (skipn n l) = 0 -> V l < P n.
Proof. intros H L E. rewrite (V_firstn_skipn w n l L), E. pose proof (V_bound w _ (W_firstn w n l H)) as Q. rewrite firstn_length, Nat.min_l in Q by auto. lia. Qed.
Lemma at_rep n i : at_ (repeat 0 n) i = 0.
Proof. unfold at_. revert i. induction n; destruct i; cbn; auto. Qed.
Lemma at_above n l i : W l -> (n <= length l)%nat -> V l < P n -> (n <= i)%nat -> at_ l i = 0.
Proof.
  intros H L E I. destruct (V_small n l H L E) as [_ S]. replace i with (n + (i - n))%nat by lia. rewrite <- at_skipn, S. apply at_rep.
Qed.
Lemma P_lt_inv a b : P a < P b -> (a < b)%nat.
Proof. intros H. destruct (Nat.leb_spec b a); auto. pose proof (P_mono w b a H0). lia. Qed.
(** The carry out of the low words goes to the next one, if any. *)
Lemma carry_store l x t n : W l -> W x -> (n <= length l)%nat -> length x = n -> V l < P n -> 0 <= t < B -> V x + P n * t < P (length l) ->
  let y := x ++ skipn n l in let l' := upd n (wd w (at_ y n + t)) y in
  W l' /\ length l' = length l /\ V l' = V x + P n * t /\ (t = 0 -> V l' < P n) /\ V l' < P (n + 2) /\ (t <> 0 -> (n < length l)%nat).
Proof.
  intros Wl Wx L Lx Vl Ht HV y l'. destruct (V_small n l Wl L Vl) as [_ S]. pose proof (P_pos w n). pose proof (B_big w) as HB. change (2 ^ 32) with 4294967296 in HB. pose proof (V_bound w _ Wx) as Bx. rewrite Lx in Bx.
  assert (Y : y = x ++ repeat 0 (length l - n)) by (unfold y; rewrite S; auto). assert (WY : W y) by (rewrite Y; apply W_app; split; auto; apply (W_repeat0 w)). assert (LY : length y = length l) by (rewrite Y, app_length, repeat_length; lia).
  assert (A0 : at_ y n = 0) by (rewrite Y, at_app2 by lia; apply at_rep). assert (VY : V y = V x) by (rewrite Y, V_app, V_repeat0; lia).
  assert (P2 : P (n + 2) = P n * (B * B)) by (rewrite P_add, (P_2 w); auto).
  destruct (Nat.eq_dec n (length l)) as [E|E].
  - assert (T0 : t = 0) by (rewrite <- E in HV; nia). assert (EL : l' = y). { unfold l'. apply upd_past. lia. }
    rewrite EL. split; auto. split; auto. rewrite VY, T0, Z.mul_0_r, Z.add_0_r. split; auto. split; [lia|]. split; [rewrite P2; clear - Bx HB H; assert (P n * 1 <= P n * (B * B)) by (apply Z.mul_le_mono_nonneg_l; nia); lia|lia].
  - unfold l'. rewrite A0, Z.add_0_l, wd_small by lia. split; [apply W_upd; auto|]. split; [rewrite upd_len; auto|]. rewrite V_upd by lia. rewrite A0, VY, Z.sub_0_r. split; auto. split; [intros ->; lia|]. split; [rewrite P2; clear - Bx HB H Ht; assert (P n * (1 + t) <= P n * (B * B)) by (apply Z.mul_le_mono_nonneg_l; nia); lia|lia].
Qed.

Lemma even_wc_zero fuel n X : W X -> (n <= length X)%nat -> Nat.even n = true -> (n <= 2 * fuel)%nat -> (even_word_count fuel X n =? 0)%nat = (V (firstn n X) =? 0).
Proof.
  intros HX L E F. destruct (even_wc_spec w fuel n X L E F) as (E1 & E2 & E3 & E4). set (m := even_word_count fuel X n) in *. rewrite E3. pose proof (B_pos w).
  destruct (Nat.eqb_spec m 0) as [Z|Z]. { rewrite Z. symmetry. apply Z.eqb_refl. }
  symmetry. apply Z.eqb_neq. intros Q. pose proof (V_zero w _ (W_firstn w m X HX) Q) as R. specialize (E4 Z). assert (2 <= m)%nat by (destruct m as [|[|]]; try discriminate; lia).
  assert (forall i, (i < m)%nat -> at_ X i = 0) by (intros i Hi; rewrite <- (at_firstn X m) by auto; rewrite R; apply at_rep). destruct E4 as [E4|E4]; apply E4; apply H1; lia.
Qed.

(** while (!t): shifting f down by whole words. *)
Lemma ai_words_spec N fg MV : Nat.even fg = true -> (2 <= fg <= N)%nat -> Nat.even N = true -> MV < P N -> forall fuel f c bc k, W f -> W c -> length f = N -> length c = N -> V f < P fuel -> V f < P fg -> V c < P bc -> Nat.even bc = true -> (2 <= bc <= N)%nat -> V c * V f <= MV ->
  if V f =? 0 then ai_words w fuel f c fg bc k = Some None
  else exists f' c' bc' j, ai_words w fuel f c fg bc k = Some (Some (f', c', bc', k + w * j)) /\ 0 <= j /\ W f' /\ W c' /\ length f' = N /\ length c' = N /\ at_ f' 0 <> 0 /\
    V f = V f' * 2 ^ (w * j) /\ V c' = V c * 2 ^ (w * j) /\ V c' < P bc' /\ (bc <= bc' <= N)%nat /\ Nat.even bc' = true.
Proof.
  intros Efg Hfg EN HM. pose proof (B_big w) as HB. change (2 ^ 32) with 4294967296 in HB. pose proof (Hw w) as Hww.
  assert (Fast : forall f, W f -> length f = N -> V f < P fg -> V (firstn fg f) = V f) by (intros; apply V_small; auto; lia).
  assert (Lo : forall f, W f -> length f = N -> V f = at_ f 0 + B * V (skipn 1 f)). { intros f Hf Lf. destruct f; [cbn in Lf; lia|]. rewrite V_cons. reflexivity. }
  assert (Done : forall f c bc k, W f -> W c -> length f = N -> length c = N -> V c < P bc -> (2 <= bc <= N)%nat -> Nat.even bc = true -> at_ f 0 <> 0 ->
     exists f' c' bc' j, Some (Some (f, c, bc, k)) = Some (Some (f', c', bc', k + w * j)) /\ 0 <= j /\ W f' /\ W c' /\ length f' = N /\ length c' = N /\ at_ f' 0 <> 0 /\
    V f = V f' * 2 ^ (w * j) /\ V c' = V c * 2 ^ (w * j) /\ V c' < P bc' /\ (bc <= bc' <= N)%nat /\ Nat.even bc' = true).
  { intros. exists f, c, bc, 0. rewrite Z.mul_0_r, Z.add_0_r, Z.pow_0_r. repeat (split; auto); lia. }
  induction fuel; intros f c bc k Wf Wc Lf Lc F1 F2 C1 Ebc Hbc Hcf.
  - rewrite P_0 in F1. pose proof (V_bound w _ Wf). assert (Z0 : V f = 0) by lia. rewrite Z0, Z.eqb_refl. pose proof (V_zero w _ Wf Z0) as ZF. cbn [ai_words]. rewrite ZF at 1. rewrite at_rep, Z.eqb_refl.
    rewrite even_wc_zero by (auto; lia). rewrite Fast by auto. rewrite Z0. reflexivity.
  - cbn [ai_words]. pose proof (V_bound w _ Wf) as Bf. pose proof (Lo f Wf Lf) as EL. rewrite even_wc_zero by (auto; lia). rewrite Fast by auto.
    destruct (Z.eqb_spec (V f) 0) as [Z0|Z0]. { pose proof (V_zero w _ Wf Z0) as ZF. rewrite ZF at 1. rewrite at_rep. reflexivity. }
    destruct (Z.eqb_spec (at_ f 0) 0) as [A0|A0]; [|apply Done; auto].
    rewrite A0, Z.add_0_l in EL. pose proof (W_skipn w 1 f Wf) as Wsk.
    destruct (V_small fg f Wf ltac:(lia) F2) as [Q1 Q2].
    destruct (shr_words_spec w f fg 1 Wf ltac:(lia) ltac:(lia)) as (s1 & s2 & s3). rewrite Q2, V_repeat0, Z.mul_0_r, Z.add_0_r in s3.
    assert (VS : V (sub_ 1 (fg - 1) f) = V (skipn 1 f)). { unfold sub_. apply V_small; auto; [rewrite skipn_length; lia|]. replace fg with (S (fg - 1)) in F2 at 1 by lia. rewrite P_S in F2. nia. }
    rewrite VS in s3. set (f1 := shr_words f fg 1) in *. clearbody f1. rewrite <- s3 in EL.
    pose proof (V_bound w _ Wc) as Bc. pose proof (V_bound w _ s1) as Bf1.
    set (bc1 := if at_ c (bc - 1) =? 0 then bc else (bc + 2)%nat).
    assert (VC : V c * B <= MV). { assert (B * 1 <= V f) by (rewrite EL; apply Z.mul_le_mono_nonneg_l; lia). assert (V c * B <= V c * V f) by (apply Z.mul_le_mono_nonneg_l; lia). lia. }
    assert (HB1 : (bc <= bc1 <= N)%nat /\ Nat.even bc1 = true /\ V c * B < P bc1 /\ V c < P (bc1 - 1)).
    { unfold bc1. destruct (Z.eqb_spec (at_ c (bc - 1)) 0) as [A1|A1].
      - assert (V c < P (bc - 1)). { destruct (V_small bc c Wc ltac:(lia) C1) as [Q3 _]. pose proof (V_split1 w (bc - 1) (firstn bc c) ltac:(rewrite firstn_length; lia)) as SP. rewrite at_firstn, A1 in SP by lia. rewrite Q3, firstn_firstn, Nat.min_l in SP by lia. rewrite SP. pose proof (V_bound w _ (W_firstn w (bc - 1) c Wc)) as Q. rewrite firstn_length, Nat.min_l in Q by lia. lia. }
        split; [lia|]. split; auto. split; auto. replace bc with (S (bc - 1)) at 1 by lia. rewrite P_S. nia.
      - assert (P (bc - 1) <= V c). { destruct (V_small bc c Wc ltac:(lia) C1) as [Q3 _]. pose proof (V_split1 w (bc - 1) (firstn bc c) ltac:(rewrite firstn_length; lia)) as SP. rewrite at_firstn in SP by lia. rewrite Q3, firstn_firstn, Nat.min_l in SP by lia. pose proof (V_bound w _ (W_firstn w (bc - 1) c Wc)). pose proof (W_at w c (bc - 1) Wc). pose proof (P_pos w (bc - 1)). nia. }
        assert (bc < N)%nat. { apply P_lt_inv. replace bc with (S (bc - 1)) by lia. rewrite P_S. nia. }
        assert (exists a, bc = 2 * a)%nat by (apply Nat.even_spec; auto). assert (exists a, N = 2 * a)%nat by (apply Nat.even_spec; auto). destruct H1 as [a1 ->]. destruct H2 as [a2 ->].
        split; [lia|]. split. { apply Nat.even_spec. exists (a1 + 1)%nat. lia. } rewrite P_add, (P_2 w). split; [nia|]. pose proof (P_mono w (2 * a1) (2 * a1 + 2 - 1) ltac:(lia)). lia. }
    destruct HB1 as (HB1 & HB2 & HB3 & HB4).
    destruct (shl_words_spec w c bc1 1 Wc ltac:(lia) ltac:(lia)) as (t1 & t2 & t3). rewrite P_1 in t3.
    destruct (V_small (bc1 - 1) c Wc ltac:(lia) HB4) as [Q3 _]. assert (C2 : V c < P bc1) by (pose proof (P_mono w (bc1 - 1) bc1 ltac:(lia)); lia). destruct (V_small bc1 c Wc ltac:(lia) C2) as [_ Q4]. rewrite Q3, Q4, V_repeat0, Z.mul_0_r, Z.add_0_r in t3. set (c1 := shl_words c bc1 1) in *. clearbody c1.
    assert (F1' : V f1 < P fuel) by (rewrite P_S in F1; nia). assert (F2' : V f1 < P fg) by nia.
    specialize (IHfuel f1 c1 bc1 (k + w) s1 t1 ltac:(lia) ltac:(lia) F1' F2' ltac:(lia) HB2 ltac:(lia)). 
    assert (Hcf' : V c1 * V f1 <= MV) by (rewrite t3; rewrite EL in Hcf; lia). specialize (IHfuel Hcf').
    assert (N1 : V f1 <> 0) by nia. apply Z.eqb_neq in N1. rewrite N1 in IHfuel. destruct IHfuel as (f' & c' & bc' & j & I1 & I2 & I3 & I4 & I5 & I6 & I7 & I8 & I9 & I10 & I11 & I12).
    exists f', c', bc', (j + 1). split; [rewrite I1; replace (k + w + w * j) with (k + w * (j + 1)) by ring; reflexivity|]. split; [lia|]. split; auto. split; auto. split; auto. split; auto. split; auto.
    assert (EP : 2 ^ (w * (j + 1)) = B * 2 ^ (w * j)) by (unfold base; rewrite <- Z.pow_add_r by nia; f_equal; ring). rewrite EP.
    split; [rewrite EL, I8; ring|]. split; [rewrite I9, t3; ring|]. split; auto. split; [lia|auto].
Qed.

(** The relation between the four numbers. *)
Definition airel (A M b c f g k : Z) (s : bool) : Prop :=
  b * g + c * f = M /\ (exists q, A * b = (if s then -1 else 1) * f * 2 ^ k + M * q) /\ (exists q, A * c = - (if s then -1 else 1) * g * 2 ^ k + M * q) /\ Z.gcd f g = Z.gcd A M.
Lemma gcd_odd_pow a g i : 0 <= i -> g mod 2 = 1 -> Z.gcd (a * 2 ^ i) g = Z.gcd a g.
Proof.
  intros Hi Hg. rewrite Z.mul_comm. assert (R : rel_prime (2 ^ i) g).
  { apply rel_prime_sym, rel_prime_Zpower_r; auto. apply Zgcd_1_rel_prime. rewrite Z.gcd_comm. assert (E : g = 1 + (g / 2) * 2) by (pose proof (Z.div_mod g 2 ltac:(lia)); lia). rewrite E, Z.gcd_add_mult_diag_r. reflexivity. }
  apply Z.gcd_unique; [apply Z.gcd_nonneg|apply Z.divide_mul_r, Z.gcd_divide_l|apply Z.gcd_divide_r|].
  intros q Q1 Q2. apply Z.gcd_greatest; auto. apply (Gauss q (2 ^ i)); auto. apply (rel_prime_div g); auto. apply rel_prime_sym; auto.
Qed.
Lemma airel_shift A M b c f g k s i : 0 <= i -> 0 <= k -> g mod 2 = 1 -> airel A M b c (f * 2 ^ i) g k s -> airel A M b (c * 2 ^ i) f g (k + i) s.
Proof.
  intros Hi Hk Hg (r1 & (q2 & r2) & (q3 & r3) & r4). unfold airel. rewrite Z.pow_add_r by lia. split; [rewrite <- r1; ring|]. split; [exists q2; rewrite r2; ring|]. split; [exists (q3 * 2 ^ i); rewrite Z.mul_assoc, r3; ring|]. rewrite <- r4. symmetry. apply gcd_odd_pow; auto.
Qed.
Lemma airel_swap A M b c f g k s : airel A M b c f g k s -> airel A M c b g f k (negb s).
Proof.
  intros (r1 & (q2 & r2) & (q3 & r3) & r4). unfold airel. split; [rewrite <- r1; ring|]. split; [exists q3; rewrite r3; destruct s; cbn [negb]; ring|]. split; [exists q2; rewrite r2; destruct s; cbn [negb]; ring|]. rewrite Z.gcd_comm. auto.
Qed.
Lemma airel_sub A M b c f g k s : airel A M b c f g k s -> airel A M (b + c) c (f - g) g k s.
Proof.
  intros (r1 & (q2 & r2) & (q3 & r3) & r4). unfold airel. split; [rewrite <- r1; ring|]. split; [exists (q2 + q3); rewrite Z.mul_add_distr_l, r2, r3; ring|]. split; [exists q3; auto|]. rewrite <- r4. rewrite Z.gcd_comm, Z.gcd_sub_diag_r, Z.gcd_comm. auto.
Qed.

(** f[0] >> i = 1, f[1] = 0 and nothing above: f is the power of two. *)
Lemma is_one_test N fg f i o : (2 <= fg <= N)%nat -> Nat.even fg = true -> W f -> length f = N -> V f < P fg -> at_ f 0 = 2 ^ i * o -> 0 <= i < w -> 0 < o ->
  ((Z.shiftr (at_ f 0) i =? 1) && (at_ f 1 =? 0) && (even_word_count fg (skipn 2 f) (fg - 2) =? 0)%nat) = (V f =? 2 ^ i).
Proof.
  intros Hfg E Wf Lf Vf Ei Hi Ho. pose proof (p2 i ltac:(lia)) as Pi. rewrite Z.shiftr_div_pow2 by lia. rewrite Ei at 1. rewrite Z.mul_comm, Z.div_mul by lia.
  assert (E' : Nat.even (fg - 2) = true). { apply Nat.even_spec in E. destruct E as [a ->]. apply Nat.even_spec. exists (a - 1)%nat. lia. }
  rewrite even_wc_zero; [|apply W_skipn; auto|rewrite skipn_length; lia|auto|lia].
  assert (EV : V f = at_ f 0 + B * (at_ f 1 + B * V (skipn 2 f))). { destruct f as [|x [|y f]]; cbn [length] in Lf; try lia. rewrite !V_cons. reflexivity. }
  assert (ES : V (firstn (fg - 2) (skipn 2 f)) = V (skipn 2 f)). { apply V_small; [apply W_skipn; auto|rewrite skipn_length; lia|]. replace fg with (2 + (fg - 2))%nat in Vf by lia. rewrite P_add, (P_2 w) in Vf. pose proof (B_pos w). pose proof (W_at w f 0 Wf). pose proof (W_at w f 1 Wf). pose proof (V_bound w _ (W_skipn w 2 f Wf)). assert (B * B * V (skipn 2 f) < B * B * P (fg - 2)) by nia. apply Z.mul_lt_mono_pos_l in H3; auto. nia. }
  rewrite ES. pose proof (W_at w f 0 Wf) as R0. pose proof (W_at w f 1 Wf) as R1. pose proof (V_bound w _ (W_skipn w 2 f Wf)) as R2. pose proof (B_pos w).
  assert (PB : 2 ^ i < B) by (unfold base; apply Z.pow_lt_mono_r; lia).
  destruct (Z.eqb_spec o 1) as [O1|O1]; [destruct (Z.eqb_spec (at_ f 1) 0) as [A1|A1]; [destruct (Z.eqb_spec (V (skipn 2 f)) 0) as [S1|S1]|]|]; cbn [andb]; symmetry; (apply Z.eqb_eq || apply Z.eqb_neq).
  - rewrite EV, A1, S1, Ei, O1. ring.
  - nia.
  - assert (0 < at_ f 1) by lia. nia.
  - intros Q. assert (at_ f 0 < at_ f 0 + 1) by lia. assert (2 ^ i * 2 <= at_ f 0) by (rewrite Ei; apply Z.mul_le_mono_nonneg_l; lia). nia.
Qed.

Lemma sub_low n f g : W f -> W g -> length f = length g -> (n <= length f)%nat -> V f < P n -> V g < P n -> V g <= V f ->
  let f' := fst (w_sub w (firstn n f) (firstn n g)) ++ skipn n f in W f' /\ length f' = length f /\ V f' = V f - V g.
Proof.
  intros Wf Wg L Ln Hf Hg Hle f'. destruct (V_small n f Wf Ln Hf) as [F1 F2]. destruct (V_small n g Wg ltac:(lia) Hg) as [G1 _].
  assert (LL : length (firstn n f) = length (firstn n g)) by (rewrite !firstn_length; lia).
  pose proof (w_sub_spec w (firstn n f) (firstn n g) (W_firstn w n f Wf) (W_firstn w n g Wg) LL) as S. destruct (w_sub_exact w (firstn n f) (firstn n g) (W_firstn w n f Wf) (W_firstn w n g Wg) LL ltac:(lia)) as [S1 _].
  unfold f'. destruct (w_sub w (firstn n f) (firstn n g)) as [x u]. cbn [fst snd] in *. destruct S as (a1 & a2 & _). split; [apply W_app; split; auto; apply W_skipn; auto|].
  split; [rewrite app_length, a2, firstn_length, skipn_length; lia|]. rewrite V_app, F2, V_repeat0, S1. lia.
Qed.
Lemma top2 n f : W f -> (2 <= n <= length f)%nat -> V f < P n -> Z.lor (at_ f (n - 2)) (at_ f (n - 1)) = 0 -> V f < P (n - 2).
Proof.
  intros Wf Hn Vf E. apply Z.lor_eq_0_iff in E. destruct E as [E1 E2]. destruct (V_small n f Wf ltac:(lia) Vf) as [F1 _]. rewrite <- F1. clear F1 Vf.
  replace n with (S (S (n - 2))) at 1 by lia. rewrite V_firstn_S by lia. rewrite V_firstn_S by lia. replace (S (n - 2)) with (n - 1)%nat by lia. rewrite E1, E2. pose proof (V_bound w _ (W_firstn w (n - 2) f Wf)) as Q. rewrite firstn_length, Nat.min_l in Q by lia. lia.
Qed.

Lemma even_add2 n : Nat.even n = true -> Nat.even (n + 2) = true.
Proof. intros H. apply Nat.even_spec in H. destruct H as [a ->]. apply Nat.even_spec. exists (a + 1)%nat. lia. Qed.
Lemma even_sub2 n : Nat.even n = true -> (2 <= n)%nat -> Nat.even (n - 2) = true.
Proof. intros H L. apply Nat.even_spec in H. destruct H as [a ->]. apply Nat.even_spec. exists (a - 1)%nat. lia. Qed.
Lemma even_lt a b : Nat.even a = true -> Nat.even b = true -> (a < b)%nat -> (a + 2 <= b)%nat.
Proof. intros H1 H2 L. apply Nat.even_spec in H1, H2. destruct H1 as [x ->], H2 as [y ->]. lia. Qed.

Lemma shl_low n c i : W c -> (n <= length c)%nat -> V c < P n -> 0 <= i < w -> V c * 2 ^ i < P (length c) -> Nat.even n = true -> Nat.even (length c) = true -> (2 <= n)%nat ->
  let x := fst (shl_bits w (firstn n c) i) in let t := snd (shl_bits w (firstn n c) i) in
  let y := x ++ skipn n c in let c' := upd n (wd w (at_ y n + t)) y in let n' := if t =? 0 then n else (n + 2)%nat in
  W c' /\ length c' = length c /\ V c' = V c * 2 ^ i /\ V c' < P n' /\ (n <= n' <= length c)%nat /\ Nat.even n' = true.
Proof.
  intros Wc L Vc Hi Hv En Ec H2 x t y c' n'. destruct (shl_bits_spec w (firstn n c) i Hi (W_firstn w n c Wc)) as (a1 & a2 & a3 & a4). fold x in a1, a2, a4. fold t in a3, a4. rewrite firstn_length, Nat.min_l in a2, a4 by auto. destruct (V_small n c Wc L Vc) as [F1 _]. rewrite F1 in a4.
  assert (Ht : 0 <= t < B). { split; [lia|]. assert (2 ^ i < B) by (unfold base; apply Z.pow_lt_mono_r; lia). lia. }
  destruct (carry_store c x t n Wc a1 L a2 Vc Ht ltac:(lia)) as (c1 & c2 & c3 & c4 & c5 & c6). fold y c' in c1, c2, c3, c4, c5. rewrite a4 in c3. split; auto. split; auto. split; auto. unfold n'. destruct (Z.eqb_spec t 0) as [T|T]; [split; auto|].
  split; auto. split; [|apply even_add2; auto]. pose proof (even_lt n (length c) En Ec (c6 T)). lia.
Qed.
Lemma add_low n b c : W b -> W c -> length b = length c -> (n <= length b)%nat -> V b < P n -> V c < P n -> V b + V c < P (length b) -> Nat.even n = true -> Nat.even (length b) = true ->
  let x := fst (w_add w (firstn n b) (firstn n c)) in let t := snd (w_add w (firstn n b) (firstn n c)) in
  let y := x ++ skipn n b in let b' := upd n (wd w (at_ y n + t)) y in let n' := if t =? 0 then n else (n + 2)%nat in
  W b' /\ length b' = length b /\ V b' = V b + V c /\ V b' < P n' /\ (n <= n' <= length b)%nat /\ Nat.even n' = true.
Proof.
  intros Wb Wc Lc L Vb Vc Hv En Eb x t y b' n'. assert (LL : length (firstn n b) = length (firstn n c)) by (rewrite !firstn_length; lia).
  destruct (w_add_spec w (firstn n b) (firstn n c) (W_firstn w n b Wb) (W_firstn w n c Wc) LL) as (a1 & a2 & a3 & a4). fold x in a1, a2, a4. fold t in a3, a4. rewrite firstn_length, Nat.min_l in a2, a4 by auto. destruct (V_small n b Wb L Vb) as [F1 _]. destruct (V_small n c Wc ltac:(lia) Vc) as [G1 _]. rewrite F1, G1 in a4.
  assert (Ht : 0 <= t < B) by (pose proof (B_big w) as HB; change (2 ^ 32) with 4294967296 in HB; lia).
  destruct (carry_store b x t n Wb a1 L a2 Vb Ht ltac:(lia)) as (c1 & c2 & c3 & c4 & c5 & c6). fold y b' in c1, c2, c3, c4, c5. rewrite a4 in c3. split; auto. split; auto. split; auto. unfold n'. destruct (Z.eqb_spec t 0) as [T|T]; [split; auto|].
  split; auto. split; [|apply even_add2; auto]. pose proof (even_lt n (length b) En Eb (c6 T)). lia.
Qed.

Definition aipost (A : Z) (M : list Z) (r : option (list Z * Z)) : Prop :=
  exists R k, r = Some (R, k) /\ 0 <= k /\ W R /\ length R = length M /\
    (Z.gcd A (V M) = 1 -> V R <= V M /\ exists q, A * V R = 2 ^ k + V M * q) /\ (Z.gcd A (V M) <> 1 -> R = repeat 0 (length M) /\ k = 0).

Lemma one_of_pow f1 i : 0 <= i -> (f1 * 2 ^ i =? 2 ^ i) = (f1 =? 1).
Proof. intros. pose proof (p2 i ltac:(lia)). destruct (Z.eqb_spec f1 1) as [->|]; [apply Z.eqb_eq; lia|apply Z.eqb_neq; nia]. Qed.

Lemma ai_tail A M fg bc2 k2 b3 c3 f3 g3 s3 : W M -> Nat.even (length M) = true -> (2 <= bc2 <= length M)%nat -> (2 <= fg <= length M)%nat -> Nat.even bc2 = true -> Nat.even fg = true ->
  W b3 -> W c3 -> W f3 -> W g3 -> length b3 = length M -> length c3 = length M -> length f3 = length M -> length g3 = length M -> V b3 < P bc2 -> V c3 < P bc2 -> V f3 < P fg -> V g3 <= V f3 -> V f3 mod 2 = 1 -> V g3 mod 2 = 1 ->
  airel A (V M) (V b3) (V c3) (V f3) (V g3) k2 s3 -> 
  let fg' := if Z.lor (at_ f3 (fg - 2)) (at_ f3 (fg - 1)) =? 0 then (fg - 2)%nat else fg in
  let f4 := fst (w_sub w (firstn fg' f3) (firstn fg' g3)) ++ skipn fg' f3 in
  let x := fst (w_add w (firstn bc2 b3) (firstn bc2 c3)) in let t := snd (w_add w (firstn bc2 b3) (firstn bc2 c3)) in
  let y := x ++ skipn bc2 b3 in
  let b4 := upd bc2 (wd w (at_ y bc2 + t)) y in
  let bc4 := if t =? 0 then bc2 else (bc2 + 2)%nat in
  W b4 /\ W f4 /\ length b4 = length M /\ length f4 = length M /\ V b4 < P bc4 /\ V c3 < P bc4 /\ V f4 < P fg' /\ V g3 < P fg' /\ (2 <= bc4 <= length M)%nat /\ (2 <= fg' <= length M)%nat /\ Nat.even bc4 = true /\ Nat.even fg' = true /\
  V f4 mod 2 = 0 /\ airel A (V M) (V b4) (V c3) (V f4) (V g3) k2 s3 /\ V f4 = V f3 - V g3 /\ 1 <= V g3.
Proof.
  intros WM EM Hbc2 Hfg Ebc Efg Wb3 Wc3 Wf3 Wg3 Lb3 Lc3 Lf3 Lg3 Vb3 Vc3 Vf3 Hle Of3 Og3 Rel3 fg' f4 x t y b4 bc4. pose proof (V_bound w _ Wf3) as Bf3. pose proof (V_bound w _ Wg3) as Bg3. pose proof (V_bound w _ Wb3) as Bb3. pose proof (V_bound w _ Wc3) as Bc3. pose proof (V_bound w _ WM) as BM.
  assert (Hfg' : (2 <= fg' <= length M)%nat /\ Nat.even fg' = true /\ V f3 < P fg').
  { unfold fg'. destruct (Z.eqb_spec (Z.lor (at_ f3 (fg - 2)) (at_ f3 (fg - 1))) 0) as [Q|Q]; [|split; [lia|split; auto]]. apply top2 in Q; auto; [|lia]. split; [|split; auto; apply even_sub2; auto; lia].
    split; [|lia]. destruct (Nat.eq_dec fg 2) as [->|]; [|apply Nat.even_spec in Efg; destruct Efg as [a ->]; lia]. change (2 - 2)%nat with 0%nat in Q. rewrite P_0 in Q. assert (V f3 = 0) by lia. rewrite H in Of3. discriminate. }
  destruct Hfg' as (H1 & H2 & H3). clearbody fg'.
  destruct (sub_low fg' f3 g3 Wf3 Wg3 ltac:(lia) ltac:(lia) H3 ltac:(lia) Hle) as (e1 & e2 & e3). fold f4 in e1, e2, e3. clearbody f4.
  apply airel_sub in Rel3. assert (G1 : 1 <= V g3) by (destruct (Z.eq_dec (V g3) 0) as [Q|Q]; [rewrite Q in Og3; discriminate|lia]). assert (BC : V b3 + V c3 < P (length b3)). { rewrite Lb3. destruct Rel3 as [R1 _]. assert (0 <= V c3 * (V f3 - V g3)) by (apply Z.mul_nonneg_nonneg; lia). assert ((V b3 + V c3) * 1 <= (V b3 + V c3) * V g3) by (apply Z.mul_le_mono_nonneg_l; lia). lia. }
  destruct (add_low bc2 b3 c3 Wb3 Wc3 ltac:(lia) ltac:(lia) Vb3 Vc3 BC Ebc ltac:(rewrite Lb3; auto)) as (g1 & g2 & g4 & g5 & g6 & g7). fold x t y b4 bc4 in g1, g2, g4, g5, g6, g7. clearbody b4 bc4. clear x t y.
  assert (Efin : V f4 mod 2 = 0). { rewrite e3, Zminus_mod, Of3, Og3. reflexivity. }
  rewrite <- g4, <- e3 in Rel3. rewrite Lb3 in g2, g6.
  assert (Vc4 : V c3 < P bc4) by (pose proof (P_mono w bc2 bc4 ltac:(lia)); lia).
  repeat (split; [solve [auto | lia]|]). auto.
Qed.

Lemma ai_loop_spec A M : W M -> Nat.even (length M) = true -> forall fuel b c f g bc fg k s m,
  W b -> W c -> W f -> W g -> length b = length M -> length c = length M -> length f = length M -> length g = length M ->
  V b < P bc -> V c < P bc -> V f < P fg -> V g < P fg -> (2 <= bc <= length M)%nat -> (2 <= fg <= length M)%nat -> Nat.even bc = true -> Nat.even fg = true ->
  V g mod 2 = 1 -> 0 <= k -> airel A (V M) (V b) (V c) (V f) (V g) k s -> (V f = 0 -> V g <> 1) ->
  0 <= m -> V f * V g < 2 ^ m -> (V f mod 2 = 0 /\ m + 1 <= Z.of_nat fuel \/ m + 2 <= Z.of_nat fuel) ->
  aipost A M (ai_loop w fuel M b c f g bc fg k s).
Proof.
  intros WM EM. induction fuel; intros b c f g bc fg k s m Wb Wc Wf Wg Lb Lc Lf Lg Vb Vc Vf Vg Hbc Hfg Ebc Efg Og Hk Rel Hz Hm Hfgm Hfuel. { destruct Hfuel; lia. }
  pose proof (V_bound w _ WM) as BM. pose proof (V_bound w _ Wb) as Bb. pose proof (V_bound w _ Wc) as Bc. pose proof (V_bound w _ Wf) as Bf. pose proof (V_bound w _ Wg) as Bg.
  assert (Cf : V c * V f <= V M). { destruct Rel as [R1 _]. nia. }
  pose proof (ai_words_spec (length M) fg (V M) Efg Hfg EM ltac:(lia) fg f c bc k Wf Wc Lf Lc Vf Vf Vc Ebc Hbc Cf) as AW.
  cbn [ai_loop]. destruct (Z.eqb_spec (V f) 0) as [F0|F0].
  { rewrite AW. exists (repeat 0 (length M)), 0. split; auto. split; [lia|]. split; [apply (W_repeat0 w)|]. split; [apply repeat_length|].
    destruct Rel as (_ & _ & _ & R4). rewrite F0, Z.gcd_0_l, Z.abs_eq in R4 by lia. specialize (Hz F0). split; [intros; lia|auto]. }
  destruct AW as (f1 & c1 & bc1 & j & E1 & J & Wf1 & Wc1 & Lf1 & Lc1 & N0 & Vf1 & Vc1 & Cb1 & Hb1 & Eb1). rewrite E1. clear E1.
  pose proof (Hw w) as Hww. assert (HWJ : 0 <= w * j) by (apply Z.mul_nonneg_nonneg; lia). pose proof (p2 (w * j) HWJ) as PJ. pose proof (V_bound w _ Wf1) as Bf1. pose proof (V_bound w _ Wc1) as Bc1.
  rewrite Vf1 in Rel. apply airel_shift in Rel; auto. rewrite <- Vc1 in Rel. set (k1 := k + w * j) in *. assert (Hk1 : 0 <= k1) by (unfold k1; lia).
  set (i := trailing_zeros w (at_ f1 0)). 
  assert (Hi : 0 <= i < w /\ exists o, at_ f1 0 = 2 ^ i * o /\ o mod 2 = 1).
  { unfold i, trailing_zeros. pose proof (W_at w f1 0 Wf1). destruct (tz_spec (Z.to_nat w) (at_ f1 0)) as [T1 T2]; [rewrite Z2Nat.id by lia; unfold base in H; lia|]. rewrite Z2Nat.id in T1 by lia. auto. }
  destruct Hi as [Hi (o & Ho1 & Ho2)]. clearbody i. pose proof (p2 i ltac:(lia)) as PI.
  assert (Ho : 0 < o). { pose proof (W_at w f1 0 Wf1). assert (X : 0 < 2 ^ i * o) by lia. clear - X PI. nia. }
  assert (Vf1fg : V f1 < P fg). { assert (V f1 * 1 <= V f1 * 2 ^ (w * j)) by (apply Z.mul_le_mono_nonneg_l; lia). lia. }
  rewrite (is_one_test (length M) fg f1 i o Hfg Efg Wf1 Lf1 Vf1fg Ho1 Hi Ho).
  (* f1 = F * 2^i, F odd *)
  assert (HF : exists F, V f1 = F * 2 ^ i /\ F mod 2 = 1 /\ V f1 / 2 ^ i = F /\ 0 < F).
  { assert (E : V f1 = at_ f1 0 + B * V (skipn 1 f1)) by (destruct f1; [cbn in Lf1; lia|]; rewrite V_cons; reflexivity). rewrite (pow_split w i ltac:(lia)), Ho1 in E. pose proof (V_bound w _ (W_skipn w 1 f1 Wf1)) as Q.
    pose proof (p2 (w - i) ltac:(lia)). assert (E2 : 2 ^ (w - i) = 2 * 2 ^ (w - i - 1)) by (rewrite <- Z.pow_succ_r by lia; f_equal; lia).
    exists (o + 2 ^ (w - i) * V (skipn 1 f1)). split; [rewrite E; ring|]. split. { replace (o + 2 ^ (w - i) * V (skipn 1 f1)) with (o + (2 ^ (w - i - 1) * V (skipn 1 f1)) * 2) by (rewrite E2; ring). rewrite Z_mod_plus_full. auto. }
    split; [|clear - Ho Q H; nia]. rewrite E. replace (2 ^ i * o + 2 ^ i * 2 ^ (w - i) * V (skipn 1 f1)) with ((o + 2 ^ (w - i) * V (skipn 1 f1)) * 2 ^ i) by ring. apply Z.div_mul. lia. }
  destruct HF as (F & HF1 & HF2 & HF3 & HF4).
  rewrite HF1, one_of_pow by lia. destruct (Z.eqb_spec F 1) as [F1|F1].
  { (* found *)
    destruct Rel as (R1 & (q & R2) & R3 & R4). rewrite HF1, F1, Z.mul_1_l in R1, R2. assert (G1 : 1 <= V g) by (destruct (Z.eq_dec (V g) 0) as [Q|Q]; [rewrite Q in Og; discriminate|lia]).
    assert (Hb : V b <= V M) by (clear - R1 G1 Bb Bc1 PI; nia).
    exists (if s then fst (w_sub w M b) else b), (k1 + i). split; auto. split; [lia|]. destruct (w_sub_spec w M b WM Wb ltac:(lia)) as (s1 & s2 & _). destruct (w_sub_exact w M b WM Wb ltac:(lia) Hb) as (s3 & _).
    split; [destruct s; auto|]. split; [destruct s; lia|].
    assert (G : Z.gcd A (V M) = 1). { rewrite <- R4, HF1, F1. rewrite gcd_odd_pow by (lia || auto). apply Z.gcd_1_l. }
    split; [|intros; lia]. intros _. rewrite Z.pow_add_r by lia. destruct s; [rewrite s3; split; [lia|]; exists (A - q); rewrite Z.mul_sub_distr_l, R2; ring|]. split; auto. exists q. rewrite R2. ring. }
  (* shift *)
  destruct (shr_bits_spec w (firstn fg f1) i Hi (W_firstn w fg f1 Wf1)) as (h1 & h2 & h3). destruct (V_small fg f1 Wf1 ltac:(lia) Vf1fg) as [K1 K2]. rewrite K1, HF3 in h3. rewrite firstn_length, Nat.min_l in h2 by lia.
  set (f2 := shr_bits w (firstn fg f1) i ++ skipn fg f1). assert (Wf2 : W f2) by (apply W_app; split; auto; apply W_skipn; auto). assert (Lf2 : length f2 = length M) by (unfold f2; rewrite app_length, h2, skipn_length; lia). assert (Vf2 : V f2 = F) by (unfold f2; rewrite V_app, K2, V_repeat0; lia). clearbody f2.
  rewrite HF1 in Rel. apply airel_shift in Rel; auto; [|lia].
  assert (CF : V c1 * 2 ^ i < P (length c1)). { rewrite Lc1. destruct Rel as [R1 _]. clear - R1 BM Bb Bg HF4 PI Bc1. nia. }
  destruct (shl_low bc1 c1 i Wc1 ltac:(lia) Cb1 Hi CF Eb1 ltac:(rewrite Lc1; auto) ltac:(lia)) as (d1 & d2 & d3 & d4 & d5 & d6). rewrite (surjective_pairing (shl_bits w (firstn bc1 c1) i)). cbv beta iota.
  set (c2 := upd bc1 _ _) in d1, d2, d3, d4 |- *. set (bc2 := if snd (shl_bits w (firstn bc1 c1) i) =? 0 then bc1 else (bc1 + 2)%nat) in d4, d5, d6 |- *. clearbody c2 bc2. rewrite <- d3 in Rel. rewrite Lc1 in d2, d5. set (k2 := k1 + i) in *. assert (Hk2 : 0 <= k2) by (unfold k2; lia). clearbody k2 k1.
  assert (Vb2 : V b < P bc2) by (pose proof (P_mono w bc bc2 ltac:(lia)); lia).
  assert (HFfg : F < P fg) by (clear - HF1 Vf1fg PI HF4; nia). assert (Bc2 : 0 <= V c2) by (pose proof (V_bound w _ d1); lia).
  assert (HmF : 0 <= V g /\ F * V g < 2 ^ m /\ (V f mod 2 = 0 -> 1 <= m /\ F * V g < 2 ^ (m - 1))).
  { assert (Hg00 : 0 <= V g) by lia. split; [lia|]. assert (FF : V f = F * (2 ^ i * 2 ^ (w * j))) by (rewrite Vf1, HF1; ring). split. { assert (F * 1 <= F * (2 ^ i * 2 ^ (w * j))) by (apply Z.mul_le_mono_nonneg_l; clear - PI PJ HF4; nia). clear - H FF Hfgm Hg00. nia. }
    intros E0. assert (Z.even (V f) = true) by (rewrite Zeven_mod, E0; reflexivity). assert (D2 : exists u, 2 ^ i * 2 ^ (w * j) = 2 * u /\ 0 < u).
    { rewrite <- Z.pow_add_r by lia. destruct (Z.eq_dec (i + w * j) 0) as [Q|Q]; [exfalso; rewrite <- Z.pow_add_r, Q, Z.pow_0_r, Z.mul_1_r in FF by lia; rewrite FF in E0; lia|]. exists (2 ^ (i + w * j - 1)). split; [rewrite <- Z.pow_succ_r by lia; f_equal; lia|apply p2; lia]. }
    destruct D2 as (u & D3 & D4). rewrite D3 in FF. assert (G1 : 1 <= V g) by (destruct (Z.eq_dec (V g) 0) as [Q|Q]; [rewrite Q in Og; discriminate|lia]).
    assert (M1 : 1 <= m). { destruct (Z.eq_dec m 0) as [->|]; [|lia]. change (2 ^ 0) with 1 in Hfgm. clear - Hfgm FF D4 HF4 G1. nia. }
    split; auto. assert (E2 : 2 ^ m = 2 * 2 ^ (m - 1)) by (rewrite <- Z.pow_succ_r by lia; f_equal; lia). rewrite E2 in Hfgm. clear - Hfgm FF D4 HF4 G1. assert (F * V g * 1 <= F * V g * u) by (apply Z.mul_le_mono_nonneg_l; nia). nia. }
  clear Hfgm. destruct HmF as (Hg0 & HmF & HmE).
  (* common tail *)
  assert (Tail : forall b3 c3 f3 g3 s3, W b3 -> W c3 -> W f3 -> W g3 -> length b3 = length M -> length c3 = length M -> length f3 = length M -> length g3 = length M -> V b3 < P bc2 -> V c3 < P bc2 -> V f3 < P fg -> V g3 <= V f3 -> V f3 mod 2 = 1 -> V g3 mod 2 = 1 ->
     airel A (V M) (V b3) (V c3) (V f3) (V g3) k2 s3 -> V f3 * V g3 = F * V g -> (V f3 = V g3 -> V g3 <> 1) ->
     aipost A M (let fgLen := if Z.lor (at_ f3 (fg - 2)) (at_ f3 (fg - 1)) =? 0 then (fg - 2)%nat else fg in
        let f := fst (w_sub w (firstn fgLen f3) (firstn fgLen g3)) ++ skipn fgLen f3 in
        let '(x, t) := w_add w (firstn bc2 b3) (firstn bc2 c3) in
        let b := x ++ skipn bc2 b3 in
        let b := upd bc2 (wd w (at_ b bc2 + t)) b in
        let bcLen := if t =? 0 then bc2 else (bc2 + 2)%nat in
        ai_loop w fuel M b c3 f g3 bcLen fgLen k2 s3)).
  { clear Rel. clear - Hbig WM EM IHfuel HmF HmE Hk2 Hm Hfuel d6 d5 Hfg Efg Hb1 Hbc. intros b3 c3 f3 g3 s3 Wb3 Wc3 Wf3 Wg3 Lb3 Lc3 Lf3 Lg3 Vb3 Vc3 Vf3 Hle Of3 Og3 Rel3 Eprod Hne.
    destruct (ai_tail A M fg bc2 k2 b3 c3 f3 g3 s3 WM EM ltac:(lia) Hfg d6 Efg Wb3 Wc3 Wf3 Wg3 Lb3 Lc3 Lf3 Lg3 Vb3 Vc3 Vf3 Hle Of3 Og3 Rel3) as (u1 & u2 & u3 & u4 & u5 & u6 & u7 & u8 & u9 & u10 & u11 & u12 & u13 & u14 & u15 & u16).
    cbv zeta. rewrite (surjective_pairing (w_add w (firstn bc2 b3) (firstn bc2 c3))). cbv beta iota.
    set (fg' := if Z.lor (at_ f3 (fg - 2)) (at_ f3 (fg - 1)) =? 0 then (fg - 2)%nat else fg) in *. set (f4 := _ ++ skipn fg' f3) in *. set (b4 := upd bc2 _ _) in *. set (bc4 := if snd (w_add w (firstn bc2 b3) (firstn bc2 c3)) =? 0 then bc2 else (bc2 + 2)%nat) in *. clearbody b4 bc4 f4 fg'.
    assert (Pf : V f4 * V g3 <= F * V g) by (rewrite u15, <- Eprod; clear - u16 Hle; nia).
    assert (Hz4 : V f4 = 0 -> V g3 <> 1) by (intros; apply Hne; lia). clear - Hbig IHfuel HmF HmE Hk2 Hm Hfuel Pf Hz4 u1 u2 u3 u4 u5 u6 u7 u8 u9 u10 u11 u12 u13 u14 Wc3 Wg3 Lc3 Lg3 Og3.
    destruct Hfuel as [[Hf1 Hf2]|Hf2].
    - destruct (HmE Hf1) as [M1 M2]. apply (IHfuel b4 c3 f4 g3 bc4 fg' k2 s3 (m - 1)); auto; clear IHfuel; try lia.
    - apply (IHfuel b4 c3 f4 g3 bc4 fg' k2 s3 m); auto; clear IHfuel; try lia. }
  pose proof (w_cmp_spec w fg f2 g Wf2 Wg ltac:(lia) ltac:(lia)) as CMP. destruct (V_small fg f2 Wf2 ltac:(lia) ltac:(lia)) as [Kf _]. destruct (V_small fg g Wg ltac:(lia) ltac:(lia)) as [Kg _]. rewrite Kf, Kg, Vf2 in CMP.
  assert (SW : (w_cmp f2 g fg =? -1) = (F <? V g)). { destruct (Z.ltb_spec F (V g)) as [Q|Q]. - rewrite CMP, (proj2 (Z.compare_lt_iff F (V g)) Q). reflexivity. - rewrite CMP. destruct (F ?= V g) eqn:QQ; try reflexivity. apply (proj1 (Z.compare_lt_iff F (V g))) in QQ. clear - Q QQ. lia. }
  cbv zeta. rewrite SW. destruct (Z.ltb_spec F (V g)) as [Q|Q]; cbv beta iota.
  - rewrite xorb_true_r. apply airel_swap in Rel. assert (E1 : V g * V f2 = F * V g) by (rewrite Vf2; ring). rewrite <- Vf2 in Rel. apply (Tail c2 b g f2 (negb s)); auto; try (rewrite Vf2; auto); clear - Q; lia.
  - rewrite xorb_false_r. rewrite <- Vf2 in Rel. apply (Tail b c2 f2 g s); auto; try (rewrite Vf2; auto); clear - Q F1; lia.
Qed.

Theorem almost_inverse_spec A M : W A -> W M -> Nat.even (length M) = true -> (2 <= length M)%nat -> (length A <= length M)%nat -> V M mod 2 = 1 -> 1 < V M -> V A < V M ->
  aipost (V A) M (almost_inverse w A M).
Proof.
  intros WA WM EM LM LA OM HM HAM. unfold almost_inverse. destruct (even_wc_spec w (length M) (length M) M ltac:(lia) EM ltac:(lia)) as (E1 & E2 & E3 & E4). set (fg := even_word_count (length M) M (length M)) in *.
  pose proof (V_bound w _ WA) as BA. pose proof (V_bound w _ WM) as BM. pose proof (Hw w) as Hww. pose proof (B_big w) as HB. change (2 ^ 32) with 4294967296 in HB.
  rewrite firstn_all in E3. pose proof (V_bound w _ (W_firstn w fg M WM)) as Bfg. rewrite firstn_length, Nat.min_l, <- E3 in Bfg by lia.
  assert (Hfg : (2 <= fg)%nat). { destruct fg as [|[|]]; [rewrite P_0 in Bfg; lia|discriminate|lia]. }
  assert (V1 : V (1 :: repeat 0 (length M - 1)) = 1) by (rewrite V_cons, V_repeat0; lia).
  assert (VA' : V (A ++ repeat 0 (length M - length A)) = V A) by (rewrite V_app, V_repeat0; lia).
  assert (P2 : 1 < P 2) by (rewrite (P_2 w); nia).
  apply (ai_loop_spec (V A) M WM EM _ _ _ _ _ _ _ _ _ (2 * Z.of_nat (length M) * w)); auto.
  - apply W_cons. split; [lia|apply (W_repeat0 w)].
  - apply (W_repeat0 w).
  - apply W_app. split; auto. apply (W_repeat0 w).
  - cbn [length]. rewrite repeat_length. lia.
  - apply repeat_length.
  - rewrite app_length, repeat_length. lia.
  - rewrite V1. auto.
  - rewrite V_repeat0. lia.
  - rewrite VA'. lia.
  - lia.
  - lia.
  - rewrite V1, V_repeat0, VA'. unfold airel. split; [ring|]. split; [exists 0; rewrite Z.pow_0_r; ring|]. split; [exists 1; rewrite Z.pow_0_r; ring|auto].
  - intros _. lia.
  - nia.
  - rewrite VA'. replace (2 * Z.of_nat (length M) * w) with (w * Z.of_nat (length M) + w * Z.of_nat (length M)) by ring. rewrite Z.pow_add_r, <- (P_pow2 w) by nia. nia.
  - right. rewrite Nat2Z.inj_add, !Nat2Z.inj_mul, Z2Nat.id by lia. lia.
Qed.

End Almost.
