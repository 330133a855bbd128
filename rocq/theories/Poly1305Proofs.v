(** Proofs about the Poly1305 model. *)
From Coq Require Import ZArith List Bool Arith Lia.
From Verif Require Import Base Blocks HashModel Poly1305Model Poly1305Spec.
Import ListNotations.
Local Open Scope Z_scope.
Local Opaque le_val le_bytes.

Notation W := 4294967296.

Lemma testbit_31 : forall x, 0 <= x < W -> Z.testbit x 31 = (2147483648 <=? x).
Proof.
  intros x H. pose proof (Z.shiftr_spec x 31 0 ltac:(lia)) as E. rewrite Z.add_0_l in E. rewrite <- E, Z.bit0_odd, Z.shiftr_div_pow2 by lia.
  change (2 ^ 31) with 2147483648. destruct (Z.leb_spec 2147483648 x).
  - assert (x / 2147483648 = 1) as ->; auto. symmetry. apply Z.div_unique with (x - 2147483648); lia.
  - rewrite Z.div_small by lia. reflexivity.
Qed.
Lemma shiftr_31 : forall x, 0 <= x < W -> Z.shiftr x 31 = Z.b2z (Z.testbit x 31).
Proof.
  intros x H. rewrite testbit_31, Z.shiftr_div_pow2 by lia. change (2 ^ 31) with 2147483648.
  destruct (Z.leb_spec 2147483648 x); cbn.
  - symmetry. apply Z.div_unique with (x - 2147483648); lia.
  - apply Z.div_small; lia.
Qed.
(** The branch-free comparison. *)
Lemma ctc_spec : forall a b, 0 <= a < W -> 0 <= b < W -> ctc a b = if a <? b then 1 else 0.
Proof.
  intros a b Ha Hb. unfold ctc, w32. change (2 ^ 32) with W.
  pose proof (Z.mod_pos_bound (a - b) W ltac:(lia)) as Hd.
  rewrite shiftr_31.
  2:{ apply (lxor_range 32); try lia. apply (lor_range 32); try lia; apply (lxor_range 32); lia. }
  rewrite Z.lxor_spec, Z.lor_spec, !Z.lxor_spec, !testbit_31 by lia.
  assert (D : (a - b) mod W = if a <? b then a - b + W else a - b).
  { destruct (Z.ltb_spec a b).
    - symmetry. apply Z.mod_unique with (-1); lia.
    - apply Z.mod_small; lia. }
  rewrite D. destruct (Z.ltb_spec a b);
  destruct (Z.leb_spec 2147483648 a); destruct (Z.leb_spec 2147483648 b);
  match goal with |- context [Z.leb _ (?x)] => destruct (Z.leb_spec 2147483648 x) end; cbn; lia.
Qed.

Lemma w32_small : forall x, 0 <= x < W -> w32 x = x.
Proof. intros. apply Z.mod_small. exact H. Qed.
Lemma w64_small : forall x, 0 <= x < W * W -> w64 x = x.
Proof. intros. apply Z.mod_small. exact H. Qed.
Lemma w32_bound : forall x, 0 <= w32 x < W.
Proof. intros. apply Z.mod_pos_bound. reflexivity. Qed.
(** Splitting a 64-bit word into its halves. *)
Lemma halves : forall x, 0 <= x < W * W -> exists lo hi, w32 x = lo /\ Z.shiftr x 32 = hi /\ x = lo + W * hi /\ 0 <= lo < W /\ 0 <= hi < W.
Proof.
  intros x H. exists (x mod W), (x / W). rewrite Z.shiftr_div_pow2 by lia. change (2 ^ 32) with W.
  pose proof (Z.div_mod x W ltac:(lia)). pose proof (Z.mod_pos_bound x W ltac:(lia)).
  repeat split; try lia.
Qed.
Lemma getw_bound : forall p i, bytes p -> 0 <= getw p i < W.
Proof.
  intros p i H. pose proof (le_val_bounds (firstn 4 (skipn i p)) ltac:(apply bytes_firstn, bytes_skipn, H)) as B.
  fold (getw p i) in B. split; [lia|]. eapply Z.lt_le_trans; [apply B|].
  change W with (256 ^ 4). apply Z.pow_le_mono_r; [lia|]. rewrite firstn_length. lia.
Qed.
Definition qval (q : quad) : Z := q0 q + W * q1 q + W ^ 2 * q2 q + W ^ 3 * q3 q.
Definition lval (h : limbs) : Z := l0 h + W * l1 h + W ^ 2 * l2 h + W ^ 3 * l3 h + W ^ 4 * l4 h.
Lemma getw_16 : forall p, (16 <= length p)%nat -> le_val (firstn 16 p) = qval (get_quad p).
Proof.
  intros p H. unfold get_quad, qval, getw. cbn [q0 q1 q2 q3].
  assert (E : firstn 16 p = firstn 4 p ++ firstn 4 (skipn 4 p) ++ firstn 4 (skipn 8 p) ++ firstn 4 (skipn 12 p)).
  { change 16%nat with (4 + (4 + (4 + 4)))%nat. rewrite !firstn_add, !skipn_skipn_add. reflexivity. }
  rewrite E, !le_val_app, !firstn_length, !skipn_length. cbn [skipn].
  replace (Nat.min 4 (length p)) with 4%nat by lia. replace (Nat.min 4 (length p - 4)) with 4%nat by lia.
  replace (Nat.min 4 (length p - 8)) with 4%nat by lia.
  change (256 ^ Z.of_nat 4) with W. ring.
Qed.

Record hok (h : limbs) : Prop := {
  ok0 : 0 <= l0 h < W; ok1 : 0 <= l1 h < W; ok2 : 0 <= l2 h < W; ok3 : 0 <= l3 h < W; ok4 : 0 <= l4 h <= 4 }.
Record rok (r : quad) : Prop := {
  rk0 : 0 <= q0 r < 268435456;
  rk1 : exists t, q1 r = 4 * t /\ 0 <= t < 67108864;
  rk2 : exists t, q2 r = 4 * t /\ 0 <= t < 67108864;
  rk3 : exists t, q3 r = 4 * t /\ 0 <= t < 67108864 }.

Lemma s_of_r : forall t, 0 <= t < 67108864 -> w32 (4 * t + Z.shiftr (4 * t) 2) = 5 * t.
Proof.
  intros t H. rewrite Z.shiftr_div_pow2 by lia. change (2 ^ 2) with 4. replace (4 * t / 4) with t by (rewrite Z.mul_comm, Z.div_mul; lia).
  rewrite w32_small; lia.
Qed.
Lemma mul_le_bound : forall a b A B, 0 <= a <= A -> 0 <= b <= B -> 0 <= a * b <= A * B.
Proof. intros. split; [apply Z.mul_nonneg_nonneg; lia|apply Z.mul_le_mono_nonneg; lia]. Qed.

Lemma sum5 : forall a b c d e, 0 <= a <= 4294967295 * 335544315 -> 0 <= b <= 4294967295 * 335544315 ->
  0 <= c <= 4294967295 * 335544315 -> 0 <= d <= 4294967295 * 335544315 -> 0 <= e <= 6 * 335544315 ->
  w64 (a + b + c + d + e) = a + b + c + d + e /\ 0 <= a + b + c + d + e <= 4 * (4294967295 * 335544315) + 6 * 335544315.
Proof. intros. split; [apply w64_small|]; lia. Qed.
Lemma sum4 : forall a b c d, 0 <= a <= 4294967295 * 335544315 -> 0 <= b <= 4294967295 * 335544315 ->
  0 <= c <= 4294967295 * 335544315 -> 0 <= d <= 4294967295 * 335544315 ->
  w64 (a + b + c + d) = a + b + c + d /\ 0 <= a + b + c + d <= 4 * (4294967295 * 335544315).
Proof. intros. split; [apply w64_small|]; lia. Qed.
Ltac nm E y := match goal with |- ?P (let x := ?e in @?b x) => let H := fresh in remember e as y eqn:E; change (P (b y)); cbv beta end.

Ltac inl := match goal with |- ?P (let x := ?e in @?b x) => change (P (b e)); cbv beta end.
Ltac word0 d lo hi :=
  let E := fresh "E" in nm E d; rewrite w64_small in E by lia;
  let L := fresh "L" in let S' := fresh "S" in let V := fresh "V" in
  destruct (halves d ltac:(lia)) as (lo & hi & L & S' & V & ? & ?); rewrite ?L, ?S';
  match goal with |- ?P (let x := ?e in @?b x) => change (P (b e)); cbv beta end.
Ltac word d lo hi := word0 d lo hi.

Definition block_post (T : Z) (h' : limbs) : Prop := hok h' /\ exists k, lval h' = T - k * P1305.

Lemma hash_block_spec : forall h r input pad, hok h -> rok r -> bytes input -> (16 <= length input)%nat -> pad = 0 \/ pad = 1 ->
  block_post ((lval h + le_val (firstn 16 input) + pad * W ^ 4) * qval r) (hash_block h r input pad).
Proof.
  intros [a0 a1 a2 a3 a4] [r0 r1 r2 r3] input pad [H0 H1 H2 H3 H4] [R0 (t1 & T1 & R1) (t2 & T2 & R2) (t3 & T3 & R3)] Hb Hl Hp.
  cbn [l0 l1 l2 l3 l4 q0 q1 q2 q3] in *. subst r1 r2 r3.
  rewrite getw_16 by auto. unfold qval at 1, get_quad. cbn [q0 q1 q2 q3].
  pose proof (getw_bound input 0 Hb) as B0. pose proof (getw_bound input 4 Hb) as B1.
  pose proof (getw_bound input 8 Hb) as B2. pose proof (getw_bound input 12 Hb) as B3.
  cbv beta iota delta [hash_block l0 l1 l2 l3 l4 q0 q1 q2 q3].
  revert B0 B1 B2 B3. generalize (getw input 0) (getw input 4) (getw input 8) (getw input 12). intros m0 m1 m2 m3 M0 M1 M2 M3.
  do 4 match goal with |- ?P (let x := ?e in @?b x) => change (P (b e)); cbv beta end.
  nm E s1. rewrite s_of_r in E by auto. subst s1.
  nm E s2. rewrite s_of_r in E by auto. subst s2.
  nm E s3. rewrite s_of_r in E by auto. subst s3.
  (* h += m *)
  word0 d0 h0 c0. word d1 h1 c1. word d2 h2 c2. word d3 h3 c3.
  nm E4 h4. rewrite (w32_small c3), w32_small in E4 by lia.
  assert (Sum : h0 + W * h1 + W ^ 2 * h2 + W ^ 3 * h3 + W ^ 4 * h4 =
    a0 + W * a1 + W ^ 2 * a2 + W ^ 3 * a3 + W ^ 4 * a4 + (m0 + W * m1 + W ^ 2 * m2 + W ^ 3 * m3) + pad * W ^ 4) by lia.
  assert (B4 : 0 <= h4 <= 6) by lia.
  change (lval (mkL a0 a1 a2 a3 a4)) with (a0 + W * a1 + W ^ 2 * a2 + W ^ 3 * a3 + W ^ 4 * a4). rewrite <- Sum. clear Sum.
  repeat match goal with H : d0 = _ |- _ => clear H | H : d1 = _ |- _ => clear H | H : d2 = _ |- _ => clear H | H : d3 = _ |- _ => clear H end.
  clear E4.
  (* multiplication *)
  assert (Bh0 : 0 <= h0 <= 4294967295) by lia.
  assert (Bh1 : 0 <= h1 <= 4294967295) by lia.
  assert (Bh2 : 0 <= h2 <= 4294967295) by lia.
  assert (Bh3 : 0 <= h3 <= 4294967295) by lia.
  assert (Br0 : 0 <= r0 <= 335544315) by lia.
  assert (Bt1 : 0 <= 4 * t1 <= 335544315) by lia. assert (Bf1 : 0 <= 5 * t1 <= 335544315) by lia.
  assert (Bt2 : 0 <= 4 * t2 <= 335544315) by lia. assert (Bf2 : 0 <= 5 * t2 <= 335544315) by lia.
  assert (Bt3 : 0 <= 4 * t3 <= 335544315) by lia. assert (Bf3 : 0 <= 5 * t3 <= 335544315) by lia.
  clear - Bh0 Bh1 Bh2 Bh3 B4 Br0 Bt1 Bt2 Bt3 Bf1 Bf2 Bf3.
  pose proof (mul_le_bound h4 r0 6 335544315 B4 Br0) as N0. pose proof (mul_le_bound h4 (5 * t1) 6 335544315 B4 Bf1) as N1.
  pose proof (mul_le_bound h4 (5 * t2) 6 335544315 B4 Bf2) as N2. pose proof (mul_le_bound h4 (5 * t3) 6 335544315 B4 Bf3) as N3.
  rewrite (w32_small (h4 * (5 * t1))) by (clear - N1; lia). rewrite (w32_small (h4 * (5 * t2))) by (clear - N2; lia).
  rewrite (w32_small (h4 * (5 * t3))) by (clear - N3; lia).
  pose proof (fun a b Ha Hb => mul_le_bound a b 4294967295 335544315 Ha Hb) as M.
  nm F0 e0. destruct (sum4 _ _ _ _ (M h0 r0 Bh0 Br0) (M h1 (5 * t3) Bh1 Bf3) (M h2 (5 * t2) Bh2 Bf2) (M h3 (5 * t1) Bh3 Bf1)) as [F U0].
  rewrite F in F0. rewrite <- F0 in U0. clear F.
  nm F1 e1. destruct (sum5 _ _ _ _ _ (M h0 (4 * t1) Bh0 Bt1) (M h1 r0 Bh1 Br0) (M h2 (5 * t3) Bh2 Bf3) (M h3 (5 * t2) Bh3 Bf2) N1) as [F U1].
  rewrite F in F1. rewrite <- F1 in U1. clear F.
  nm F2 e2. destruct (sum5 _ _ _ _ _ (M h0 (4 * t2) Bh0 Bt2) (M h1 (4 * t1) Bh1 Bt1) (M h2 r0 Bh2 Br0) (M h3 (5 * t3) Bh3 Bf3) N2) as [F U2].
  rewrite F in F2. rewrite <- F2 in U2. clear F.
  nm F3 e3. destruct (sum5 _ _ _ _ _ (M h0 (4 * t3) Bh0 Bt3) (M h1 (4 * t2) Bh1 Bt2) (M h2 (4 * t1) Bh2 Bt1) (M h3 r0 Bh3 Br0) N3) as [F U3].
  rewrite F in F3. rewrite <- F3 in U3. clear F.
  nm F4 g4. rewrite w32_small in F4 by (clear - N0; lia). assert (U4 : 0 <= g4 <= 6 * 335544315) by (rewrite F4; exact N0).
  clear M N0 N1 N2 N3.
  match goal with |- block_post ?T _ => assert (Main : exists k, e0 + W * e1 + W ^ 2 * e2 + W ^ 3 * e3 + W ^ 4 * g4 = T - k * P1305) end.
  { exists (h1 * t3 + h2 * t2 + h3 * t1 + W * (h2 * t3 + h3 * t2 + h4 * t1) + W ^ 2 * (h3 * t3 + h4 * t2) + W ^ 3 * (h4 * t3)).
    subst. unfold P1305, qval. cbn [q0 q1 q2 q3]. change (2 ^ 130) with (4 * W ^ 4). ring. }
  destruct Main as (k & Main).
  match goal with |- block_post ?T _ => set (TT := T) in * end. clearbody TT. clear - Main U0 U1 U2 U3 U4.
  destruct (halves e0 ltac:(lia)) as (x0 & k0 & L & S' & V & X0 & K0). rewrite L, S'. clear L S'. inl.
  word u1 x1 k1. word u2 x2 k2. word u3 x3 k3. clear L L0 L1 S S0 S1.
  nm E4 x4. rewrite (w32_small k3), w32_small in E4 by lia.
  assert (X4 : 0 <= x4 < 3400000000) by lia.
  assert (Val : x0 + W * x1 + W ^ 2 * x2 + W ^ 3 * x3 + W ^ 4 * x4 = TT - k * P1305) by (rewrite <- Main; lia).
  clear - Val X0 X4 H H1 H3. 
  assert (Q : exists q t, x4 = 4 * q + t /\ 0 <= t < 4 /\ Z.shiftr x4 2 = q /\ Z.land x4 4294967292 = 4 * q /\ Z.land x4 3 = t).
  { exists (x4 / 4), (x4 mod 4). pose proof (Z.div_mod x4 4 ltac:(lia)). pose proof (Z.mod_pos_bound x4 4 ltac:(lia)).
    split; [lia|]. split; [lia|]. split; [rewrite Z.shiftr_div_pow2 by lia; reflexivity|]. split.
    - change 4294967292 with (Z.shiftl (Z.ones 30) 2). apply Z.bits_inj'. intros i Hi. rewrite Z.land_spec. rewrite (Z.mul_comm 4), <- (Z.shiftl_mul_pow2 _ 2), !Z.shiftl_spec by lia.
      destruct (Z.ltb_spec i 2).
      + rewrite !(Z.testbit_neg_r _ (i - 2)) by lia. apply andb_false_r.
      + change 4 with (2 ^ 2). rewrite <- Z.shiftr_div_pow2, Z.shiftr_spec by lia. replace (i - 2 + 2) with i by lia.
        destruct (Z.ltb_spec (i - 2) 30).
        * rewrite Z.ones_spec_low by lia. apply andb_true_r.
        * rewrite Z.ones_spec_high by lia. rewrite (testbit_above 32 x4 i) by lia. reflexivity.
    - change 3 with (Z.ones 2). rewrite Z.land_ones by lia. reflexivity. }
  destruct Q as (q & t & -> & Ht & -> & -> & ->).
  nm E c. rewrite w32_small in E by lia.
  inl.
  nm E0 y0. assert (Y0 : exists b, (b = 0 \/ b = 1) /\ y0 = x0 + c - W * b /\ 0 <= y0 < W /\ ctc y0 c = b).
  { pose proof (w32_bound (x0 + c)) as Y. rewrite <- E0 in Y. destruct (Z.ltb_spec (x0 + c) W).
    - rewrite w32_small in E0 by lia. exists 0. rewrite ctc_spec by lia. destruct (Z.ltb_spec y0 c); lia.
    - assert (y0 = x0 + c - W) by (rewrite E0; unfold w32; symmetry; apply Z.mod_unique with 1; lia).
      exists 1. rewrite ctc_spec by lia. destruct (Z.ltb_spec y0 c); lia. }
  clear E0. destruct Y0 as (b0 & Bb0 & Y0 & Yb0 & ->). inl.
  assert (Carry : forall x b, 0 <= x < W -> b = 0 \/ b = 1 ->
    exists b', (b' = 0 \/ b' = 1) /\ w32 (x + b) = x + b - W * b' /\ 0 <= w32 (x + b) < W /\ ctc (w32 (x + b)) b = b').
  { intros x b Hx Hb. pose proof (w32_bound (x + b)) as Y. rewrite ctc_spec by lia. destruct (Z.ltb_spec (x + b) W).
    - rewrite w32_small in * by lia. exists 0. destruct (Z.ltb_spec (x + b) b); lia.
    - assert (w32 (x + b) = x + b - W) by (unfold w32; symmetry; apply Z.mod_unique with 1; lia).
      exists 1. destruct (Z.ltb_spec (w32 (x + b)) b); lia. }
  destruct (Carry x1 b0 H Bb0) as (b1 & Bb1 & Y1 & Yb1 & C1).
  nm E0 y1. rewrite C1. inl.
  destruct (Carry x2 b1 H1 Bb1) as (b2 & Bb2 & Y2 & Yb2 & C2).
  nm E1 y2. rewrite C2. inl.
  destruct (Carry x3 b2 H3 Bb2) as (b3 & Bb3 & Y3 & Yb3 & C3).
  nm E2 y3. rewrite C3. inl.
  rewrite w32_small by lia. split.
  - constructor; cbn [l0 l1 l2 l3 l4]; lia.
  - exists (k + q). unfold lval. cbn [l0 l1 l2 l3 l4]. unfold P1305 in *. change (2 ^ 130) with (4 * W ^ 4) in *. lia.
Qed.

(** ** The whole loop and the final reduction *)
Definition pstep (R : Z) (a : Z) (b : list Z) : Z := ((a + le_val (b ++ [1])) * R) mod P1305.

Lemma le_val_one : forall b, length b = 16%nat -> le_val (b ++ [1]) = le_val b + W ^ 4.
Proof. intros b H. rewrite le_val_app, H. Transparent le_val. cbn [le_val]. Opaque le_val. change (256 ^ Z.of_nat 16) with (W ^ 4). lia. Qed.

Lemma block_mod : forall h r input pad T, block_post ((lval h + le_val (firstn 16 input) + pad * W ^ 4) * qval r) T ->
  hok T /\ lval T mod P1305 = ((lval h mod P1305 + (le_val (firstn 16 input) + pad * W ^ 4)) * qval r) mod P1305.
Proof.
  intros h r input pad T [Hk (k & E)]. split; auto. rewrite E.
  replace ((lval h + le_val (firstn 16 input) + pad * W ^ 4) * qval r - k * P1305) with
    ((lval h + le_val (firstn 16 input) + pad * W ^ 4) * qval r + (- k) * P1305) by ring.
  rewrite Z.mod_add by discriminate. rewrite <- (Z.mul_mod_idemp_l (lval h mod P1305 + _)) by discriminate.
  rewrite Z.add_mod_idemp_l by discriminate. rewrite Z.mul_mod_idemp_l by discriminate. f_equal. f_equal. lia.
Qed.

Lemma hash_blocks_spec : forall fuel h r input len, hok h -> rok r -> bytes input -> (len <= length input)%nat -> (len <= fuel)%nat ->
  hok (hash_blocks fuel h r input len 1) /\
  lval (hash_blocks fuel h r input len 1) mod P1305 = fold_left (pstep (qval r)) (blocks 16 (firstn len input)) (lval h mod P1305).
Proof.
  induction fuel; intros h r input len Hh Hr Hb Hl Hf.
  { assert (len = 0)%nat by lia. subst. cbn [hash_blocks firstn]. rewrite blocks_nil by lia. auto. }
  cbn [hash_blocks]. destruct (Nat.leb_spec 16 len).
  - pose proof (hash_block_spec h r input 1 Hh Hr Hb ltac:(lia) ltac:(lia)) as P. apply block_mod in P. destruct P as [P1 P2].
    destruct (IHfuel (hash_block h r input 1) r (skipn 16 input) (len - 16)%nat) as [I1 I2]; auto.
    { apply bytes_skipn; auto. } { rewrite skipn_length. lia. } { lia. }
    split; auto. rewrite I2, P2.
    replace (firstn len input) with (firstn 16 input ++ firstn (len - 16) (skipn 16 input)).
    2:{ rewrite <- firstn_add. f_equal. lia. }
    rewrite blocks_app_block by (try rewrite firstn_length; lia). cbn [fold_left]. f_equal. unfold pstep.
    rewrite le_val_one by (rewrite firstn_length; lia). do 3 f_equal.
  - rewrite blocks_small by (rewrite firstn_length; lia). auto.
Qed.
Lemma hash_block16_spec : forall h r input pad, hok h -> rok r -> bytes input -> length input = 16%nat -> pad = 0 \/ pad = 1 ->
  hok (hash_blocks 16 h r input 16 pad) /\
  lval (hash_blocks 16 h r input 16 pad) mod P1305 = ((lval h mod P1305 + (le_val input + pad * W ^ 4)) * qval r) mod P1305.
Proof.
  intros h r input pad Hh Hr Hb Hl Hp.
  assert (E : hash_blocks 16 h r input 16 pad = hash_block h r input pad) by reflexivity. rewrite E.
  pose proof (hash_block_spec h r input pad Hh Hr Hb ltac:(lia) Hp) as P. apply block_mod in P. rewrite firstn_all2 in P by lia. exact P.
Qed.

Record nok (n : quad) : Prop := { nk0 : 0 <= q0 n < W; nk1 : 0 <= q1 n < W; nk2 : 0 <= q2 n < W; nk3 : 0 <= q3 n < W }.

Lemma mask_sel : forall b x y, b = 0 \/ b = 1 -> 0 <= x < W -> 0 <= y < W ->
  Z.lor (Z.land x (Z.lxor (w32 (0 - b)) 4294967295)) (Z.land y (w32 (0 - b))) = if b =? 0 then x else y.
Proof.
  intros b x y [->| ->] Hx Hy.
  - change (w32 (0 - 0)) with 0. rewrite Z.lxor_0_l, Z.land_0_r, Z.lor_0_r. change 4294967295 with (Z.ones 32). rewrite Z.land_ones by lia. apply Z.mod_small. exact Hx.
  - change (w32 (0 - 1)) with (Z.ones 32). change 4294967295 with (Z.ones 32). rewrite Z.lxor_nilpotent, Z.land_0_r, Z.lor_0_l, Z.land_ones by lia.
    apply Z.mod_small. exact Hy.
Qed.
Lemma tag_bytes : forall a b c d, 0 <= a < W -> 0 <= b < W -> 0 <= c < W -> 0 <= d < W ->
  le_bytes 4 a ++ le_bytes 4 b ++ le_bytes 4 c ++ le_bytes 4 d = le_bytes 16 (a + W * b + W ^ 2 * c + W ^ 3 * d).
Proof.
  intros a b c d Ha Hb Hc Hd. apply le_val_inj; try apply le_bytes_bytes.
  - rewrite !bytes_app. repeat split; apply le_bytes_bytes.
  - rewrite !app_length, !le_bytes_length. reflexivity.
  - rewrite !le_val_app, !le_val_bytes_mod, !le_bytes_length. change (256 ^ Z.of_nat 4) with W. change (256 ^ Z.of_nat 16) with (W ^ 4).
    rewrite (Z.mod_small a), (Z.mod_small b), (Z.mod_small c), (Z.mod_small d) by lia.
    rewrite Z.mod_small by lia. ring.
Qed.

Definition is_tag (R x : list Z) : Prop := x = R.
Lemma hash_final_spec : forall h n size, hok h -> nok n ->
  hash_final h n size = firstn size (le_bytes 16 ((lval h mod P1305 + qval n) mod 2 ^ 128)).
Proof.
  intros [h0 h1 h2 h3 h4] [n0 n1 n2 n3] size [H0 H1 H2 H3 H4] [N0 N1 N2 N3]. cbn [l0 l1 l2 l3 l4 q0 q1 q2 q3] in *.
  match goal with |- _ = ?R => set (RR := R); change (is_tag RR (hash_final {| l0 := h0; l1 := h1; l2 := h2; l3 := h3; l4 := h4 |} {| q0 := n0; q1 := n1; q2 := n2; q3 := n3 |} size)) end.
  cbv beta iota delta [hash_final l0 l1 l2 l3 l4 q0 q1 q2 q3].
  word0 t0 g0 c0. word t1 g1 c1. word t2 g2 c2. word t3 g3 c3.
  nm E4 g4. rewrite (w32_small c3), w32_small in E4 by lia.
  assert (Q : exists b, Z.shiftr g4 2 = b /\ (b = 0 /\ g4 < 4 \/ b = 1 /\ 4 <= g4)).
  { exists (g4 / 4). split; [rewrite Z.shiftr_div_pow2 by lia; reflexivity|].
    destruct (Z.ltb_spec g4 4); [left; split; auto; apply Z.div_small; lia|right; split; auto].
    symmetry. apply Z.div_unique with (g4 - 4); lia. }
  destruct Q as (b & Eb & Hb). rewrite Eb.
  do 10 inl. rewrite !mask_sel by lia.
  assert (Red : exists v0 v1 v2 v3, (if b =? 0 then h0 else g0) = v0 /\ (if b =? 0 then h1 else g1) = v1 /\
    (if b =? 0 then h2 else g2) = v2 /\ (if b =? 0 then h3 else g3) = v3 /\
    0 <= v0 < W /\ 0 <= v1 < W /\ 0 <= v2 < W /\ 0 <= v3 < W /\
    exists z, lval (mkL h0 h1 h2 h3 h4) mod P1305 = v0 + W * v1 + W ^ 2 * v2 + W ^ 3 * v3 + W ^ 4 * z).
  { unfold lval. cbn [l0 l1 l2 l3 l4]. unfold P1305. change (2 ^ 130) with (4 * W ^ 4). destruct Hb as [[-> Hb]|[-> Hb]]; cbn [Z.eqb].
    - exists h0, h1, h2, h3. repeat (split; [reflexivity || lia|]). exists h4. apply Z.mod_small. lia.
    - exists g0, g1, g2, g3. repeat (split; [reflexivity || lia|]). exists (g4 - 4). symmetry. apply Z.mod_unique with 1; lia. }
  destruct Red as (v0 & v1 & v2 & v3 & -> & -> & -> & -> & V0' & V1' & V2' & V3' & z & Ez).
  clear - V0' V1' V2' V3' Ez N0 N1 N2 N3.
  word0 t0 y0 c0. word t1 y1 c1. word t2 y2 c2. word t3 y3 c3.
  unfold is_tag. subst RR. rewrite tag_bytes by lia. do 2 f_equal. rewrite Ez. unfold qval. cbn [q0 q1 q2 q3]. change (2 ^ 128) with (W ^ 4).
  apply Z.mod_unique with (z + c3); lia.
Qed.

(** ** Keys *)
Lemma land_split : forall n a b c d, 0 <= n -> 0 <= a < 2 ^ n -> 0 <= c < 2 ^ n ->
  Z.land (a + 2 ^ n * b) (c + 2 ^ n * d) = Z.land a c + 2 ^ n * Z.land b d.
Proof.
  intros n a b c d Hn Ha Hc. assert (Hp : 0 < 2 ^ n) by (apply Z.pow_pos_nonneg; lia).
  pose proof (Z.div_mod (Z.land (a + 2 ^ n * b) (c + 2 ^ n * d)) (2 ^ n) ltac:(lia)) as D. rewrite D. rewrite Z.add_comm. f_equal.
  - rewrite <- !Z.land_ones by lia. 
    replace (Z.land (Z.land (a + 2 ^ n * b) (c + 2 ^ n * d)) (Z.ones n)) with
      (Z.land (Z.land (a + 2 ^ n * b) (Z.ones n)) (Z.land (c + 2 ^ n * d) (Z.ones n))).
    + rewrite !Z.land_ones by lia. rewrite !(Z.mul_comm (2 ^ n)), !Z.mod_add, !Z.mod_small by lia. reflexivity.
    + apply Z.bits_inj'. intros i Hi. rewrite !Z.land_spec. 
      destruct (Z.testbit (a + 2 ^ n * b) i), (Z.testbit (c + 2 ^ n * d) i), (Z.testbit (Z.ones n) i); reflexivity.
  - f_equal. rewrite <- !Z.shiftr_div_pow2, Z.shiftr_land, !Z.shiftr_div_pow2 by lia.
    rewrite !(Z.mul_comm (2 ^ n)), !Z.div_add, !(Z.div_small) by lia. reflexivity.
Qed.
Lemma land_mult4 : forall x, 0 <= x -> exists t, Z.land x 268435452 = 4 * t /\ 0 <= t < 67108864.
Proof.
  intros x Hx. exists (Z.land (x / 4) 67108863).
  pose proof (Z.div_mod x 4 ltac:(lia)) as D. pose proof (Z.mod_pos_bound x 4 ltac:(lia)).
  split.
  - rewrite D at 1. replace (4 * (x / 4) + x mod 4) with (x mod 4 + 2 ^ 2 * (x / 4)) by lia.
    change 268435452 with (0 + 2 ^ 2 * 67108863). rewrite land_split by lia. rewrite Z.land_0_r. reflexivity.
  - change 67108863 with (Z.ones 26). rewrite Z.land_ones by lia. apply Z.mod_pos_bound. lia.
Qed.
Lemma clamp_words_ok : forall k, bytes k -> rok (clamp_words k).
Proof.
  intros k Hk. constructor; cbn [clamp_words q0 q1 q2 q3].
  - change 268435455 with (Z.ones 28). rewrite Z.land_ones by lia. apply Z.mod_pos_bound. lia.
  - apply land_mult4, getw_bound; auto.
  - apply land_mult4, getw_bound; auto.
  - apply land_mult4, getw_bound; auto.
Qed.
Lemma get_quad_ok : forall k, bytes k -> nok (get_quad k).
Proof. intros k Hk. constructor; apply getw_bound; auto. Qed.
Lemma clamp_words_val : forall k, bytes k -> (16 <= length k)%nat -> qval (clamp_words k) = clamp (le_val (firstn 16 k)).
Proof.
  intros k Hk Hl. rewrite getw_16 by auto. unfold clamp, clamp_words, get_quad, qval. cbn [q0 q1 q2 q3].
  pose proof (getw_bound k 0 Hk). pose proof (getw_bound k 4 Hk). pose proof (getw_bound k 8 Hk). pose proof (getw_bound k 12 Hk).
  replace (getw k 0 + W * getw k 4 + W ^ 2 * getw k 8 + W ^ 3 * getw k 12) with
    (getw k 0 + 2 ^ 32 * (getw k 4 + 2 ^ 32 * (getw k 8 + 2 ^ 32 * getw k 12))) by (change (2 ^ 32) with W; ring).
  change 0x0ffffffc0ffffffc0ffffffc0fffffff with (268435455 + 2 ^ 32 * (268435452 + 2 ^ 32 * (268435452 + 2 ^ 32 * 268435452))).
  rewrite !land_split by (change (2 ^ 32) with W; lia). change (2 ^ 32) with W. ring.
Qed.

(** ** The object *)
Definition accum (R : quad) (m : list Z) : Z := fold_left (pstep (qval R)) (blocks 16 m) 0.

Record prep (s : poly) (R N : quad) (m : list Z) : Prop := {
  pr_r : po_r s = R; pr_n : po_n s = N; pr_rok : rok R; pr_nok : nok N; pr_hok : hok (po_h s);
  pr_val : lval (po_h s) mod P1305 = accum R m;
  pr_idx : po_idx s = length (rest 16 m);
  pr_acc : firstn (po_idx s) (po_acc s) = rest 16 m;
  pr_len : length (po_acc s) = 16%nat;
  pr_bytes : bytes (po_acc s) }.

Lemma accum_app : forall R m d, accum R (m ++ d) = fold_left (pstep (qval R)) (blocks 16 (rest 16 m ++ d)) (accum R m).
Proof. intros. unfold accum. rewrite blocks_app, fold_left_app by lia. reflexivity. Qed.

Lemma bytes_write : forall o d l, bytes d -> bytes l -> bytes (write o d l).
Proof. intros. unfold write. rewrite !bytes_app. auto using bytes_firstn, bytes_skipn. Qed.

Lemma po_tail : forall e h acc R N m input, rok R -> nok N -> hok h -> lval h mod P1305 = accum R m -> (length m mod 16 = 0)%nat ->
  length acc = 16%nat -> bytes acc -> bytes input ->
  prep (let rem := (length input mod 16)%nat in
      let len := (length input - rem)%nat in
      let h2 := if Nat.leb 16 len then hash_blocks len h R input len 1 else h in
      let input2 := if Nat.leb 16 len then skipn len input else input in
      let acc2 := if Nat.eqb rem 0 then acc else write 0 (firstn rem input2) acc in
      mkP e h2 R N acc2 rem) R N (m ++ input).
Proof.
  intros e h acc R N m input HR HN Hh Hv Hm Ha Hba Hbi.
  set (rem := (length input mod 16)%nat). set (len := (length input - rem)%nat).
  pose proof (Nat.mod_upper_bound (length input) 16 ltac:(lia)) as Hr1. pose proof (Nat.mod_le (length input) 16 ltac:(lia)) as Hr2. fold rem in Hr1, Hr2.
  assert (Hrm : rest 16 m = []) by (apply rest_mult; auto).
  assert (Hrest : rest 16 (m ++ input) = skipn len input).
  { rewrite rest_app, Hrm by lia. cbn [app]. unfold rest. f_equal. unfold len, rem.
    pose proof (Nat.div_mod (length input) 16 ltac:(lia)). lia. }
  assert (Hlr : length (skipn len input) = rem) by (rewrite skipn_length; unfold len; lia).
  assert (Hacc : accum R (m ++ input) = fold_left (pstep (qval R)) (blocks 16 (firstn len input)) (accum R m)).
  { rewrite accum_app, Hrm. cbn [app]. f_equal. rewrite <- (firstn_skipn len input) at 1.
    rewrite blocks_app_mult; [|lia|].
    - rewrite (blocks_small 16 (skipn len input)) by lia. apply app_nil_r.
    - rewrite firstn_length. replace (Nat.min len (length input)) with len by (unfold len; lia). unfold len, rem.
      pose proof (Nat.div_mod (length input) 16 ltac:(lia)). replace (length input - length input mod 16)%nat with (length input / 16 * 16)%nat by lia.
      apply Nat.mod_mul. lia. }
  assert (Hin2 : (if Nat.leb 16 len then skipn len input else input) = skipn len input).
  { destruct (Nat.leb_spec 16 len); auto. assert (len = 0)%nat.
    { pose proof (Nat.div_mod (length input) 16 ltac:(lia)). unfold len, rem in *. lia. }
    rewrite H0. reflexivity. }
  assert (Hh2 : hok (if Nat.leb 16 len then hash_blocks len h R input len 1 else h) /\
     lval (if Nat.leb 16 len then hash_blocks len h R input len 1 else h) mod P1305 = accum R (m ++ input)).
  { destruct (Nat.leb_spec 16 len).
    - rewrite Hacc, <- Hv. apply hash_blocks_spec; auto. unfold len; lia.
    - split; auto. rewrite Hacc, blocks_small by (rewrite firstn_length; lia). exact Hv. }
  destruct Hh2 as [X1 X2].
  cbv zeta. fold len. fold rem. rewrite Hin2.
  assert (Hf : firstn rem (skipn len input) = skipn len input) by (apply firstn_all2; lia). rewrite Hf.
  destruct (Nat.eqb_spec rem 0) as [Z0|Z0].
  - constructor; cbn [po_r po_n po_h po_acc po_idx]; auto.
    + rewrite Hrest. lia.
    + rewrite Hrest, Z0. cbn [firstn]. symmetry. apply length_zero_iff_nil. lia.
  - constructor; cbn [po_r po_n po_h po_acc po_idx]; auto.
    + rewrite Hrest. lia.
    + rewrite Hrest. change rem with (0 + rem)%nat. rewrite <- Hlr at 1. rewrite write_firstn by lia. reflexivity.
    + rewrite write_length; auto. lia.
    + apply bytes_write; auto. apply bytes_skipn; auto.
Qed.

Lemma po_update_spec : forall s R N m d, prep s R N m -> bytes d -> prep (po_update s d) R N (m ++ d).
Proof.
  intros s R N m d [Er En HR HN Hh Hv Hi Ha Hl Hb] Hd. unfold po_update.
  destruct (Nat.eqb_spec (length d) 0) as [Z0|Z0].
  { apply length_zero_iff_nil in Z0. subst d. rewrite app_nil_r. constructor; auto. }
  rewrite Er, En. pose proof (rest_lt 16 m ltac:(lia)) as Hlt.
  destruct (Nat.eqb_spec (po_idx s) 0) as [I0|I0].
  - apply po_tail; auto. rewrite <- rest_length by lia. lia.
  - destruct (Nat.leb_spec (16 - po_idx s) (length d)).
    + set (t := firstn (16 - po_idx s) d). 
      assert (Ht : length t = (16 - po_idx s)%nat) by (unfold t; rewrite firstn_length; lia).
      assert (Ew : write (po_idx s) t (po_acc s) = rest 16 m ++ t) by (rewrite write_all by lia; rewrite Ha; reflexivity).
      replace (m ++ d) with ((m ++ t) ++ skipn (16 - po_idx s) d) by (unfold t; rewrite <- app_assoc, firstn_skipn; reflexivity).
      assert (Hbt : bytes (rest 16 m ++ t)).
      { apply bytes_app. split; [rewrite <- Ha; apply bytes_firstn; auto|apply bytes_firstn; auto]. }
      assert (Hlt' : length (rest 16 m ++ t) = 16%nat) by (rewrite app_length; lia).
      destruct (hash_block16_spec (po_h s) R (rest 16 m ++ t) 1 Hh HR Hbt Hlt' ltac:(lia)) as [X1 X2].
      rewrite Ew. apply po_tail; auto.
      * rewrite X2, Hv, accum_app. rewrite <- (app_nil_r (rest 16 m ++ t)), blocks_app_block, blocks_nil by lia. cbn [fold_left].
        rewrite app_nil_r. unfold pstep. rewrite le_val_one by auto. do 3 f_equal.
      * rewrite app_length, Ht, Hi, rest_length by lia. rewrite <- rest_length in * by lia.
        pose proof (Nat.div_mod (length m) 16 ltac:(lia)) as D. rewrite rest_length in * by lia.
        replace (length m + (16 - length m mod 16))%nat with ((length m / 16 + 1) * 16)%nat by lia. apply Nat.mod_mul. lia.
      * apply bytes_skipn; auto.
    + assert (Hr : rest 16 (m ++ d) = rest 16 m ++ d) by (rewrite rest_app by lia; apply rest_small; rewrite app_length; lia).
      constructor; cbn [po_r po_n po_h po_acc po_idx]; auto.
      * rewrite accum_app, blocks_small; [exact Hv|rewrite app_length; lia].
      * rewrite Hr, app_length. lia.
      * rewrite Hr, write_firstn by lia. rewrite Ha. reflexivity.
      * rewrite write_length; lia.
      * apply bytes_write; auto.
Qed.

Lemma prep_zero : forall s R N, po_r s = R -> po_n s = N -> rok R -> nok N -> length (po_acc s) = 16%nat -> bytes (po_acc s) ->
  prep (po_restart s) R N [].
Proof.
  intros s R N Er En HR HN Hl Hb. constructor; cbn [po_restart po_r po_n po_h po_acc po_idx]; auto.
  constructor; cbn; lia.
Qed.
Lemma prep_restart : forall s R N m, prep s R N m -> prep (po_restart s) R N [].
Proof. intros s R N m [Er En HR HN Hh Hv Hi Ha Hl Hb]. apply prep_zero; auto. Qed.

Lemma poly_pieces : forall R m, poly_acc (qval R) (pieces m) =
  match rest 16 m with [] => accum R m | l => pstep (qval R) (accum R m) l end.
Proof.
  intros. unfold poly_acc, pieces. rewrite fold_left_app. fold (pstep (qval R)). fold (accum R m).
  destruct (rest 16 m); reflexivity.
Qed.

Lemma po_final_spec : forall s R N m size, prep s R N m -> (size <= 16)%nat ->
  snd (po_final s size) = Some (firstn size (le_bytes 16 ((poly_acc (qval R) (pieces m) + qval N) mod 2 ^ 128))) /\
  prep (fst (po_final s size)) R N [].
Proof.
  intros s R N m size Hp Hs. pose proof Hp as [Er En HR HN Hh Hv Hi Ha Hl Hb]. unfold po_final.
  rewrite (proj2 (Nat.ltb_ge _ _)) by auto. rewrite poly_pieces, Er, En. pose proof (rest_lt 16 m ltac:(lia)) as Hlt.
  destruct (Nat.eqb_spec (po_idx s) 0) as [I0|I0].
  - assert (Hr : rest 16 m = []) by (apply length_zero_iff_nil; lia). rewrite Hr. cbn [fst snd]. split.
    + rewrite hash_final_spec, Hv by auto. reflexivity.
    + apply prep_zero; auto.
  - set (l := rest 16 m) in *. set (acc := write (po_idx s) (1 :: repeat 0 (16 - po_idx s - 1)) (po_acc s)).
    assert (Ew : acc = l ++ 1 :: repeat 0 (16 - length l - 1)).
    { unfold acc. rewrite write_all by (cbn [length]; rewrite repeat_length; lia). rewrite Ha, Hi. reflexivity. }
    assert (Hla : length acc = 16%nat) by (rewrite Ew, app_length; cbn [length]; rewrite repeat_length; lia).
    assert (Hbl : bytes l) by (rewrite <- Ha; apply bytes_firstn; auto).
    assert (Hba : bytes acc).
    { rewrite Ew. apply bytes_app. split; auto. constructor; [unfold byte; lia|apply bytes_repeat0]. }
    destruct (hash_block16_spec (po_h s) R acc 0 Hh HR Hba Hla ltac:(lia)) as [X1 X2].
    assert (Hlv : le_val acc = le_val (l ++ [1])).
    { rewrite Ew. replace (l ++ 1 :: repeat 0 (16 - length l - 1)) with ((l ++ [1]) ++ repeat 0 (16 - length l - 1)) by (rewrite <- app_assoc; reflexivity).
      rewrite le_val_app. enough (le_val (repeat 0 (16 - length l - 1)) = 0) as -> by lia.
      generalize (16 - length l - 1)%nat. intros z. Transparent le_val. induction z; cbn [repeat le_val]; auto. rewrite IHz. reflexivity. Opaque le_val. }
    cbn [fst snd]. split.
    + rewrite hash_final_spec by auto. rewrite X2, Hv, Hlv. do 2 f_equal. f_equal. f_equal. f_equal.
      destruct l as [|z l'] eqn:El; [cbn in Hi; lia|]. unfold pstep. do 2 f_equal. lia.
    + apply prep_zero; auto.
Qed.

(** ** Histories *)
Definition tag_ok (R N : quad) (k s : list Z) : Prop := qval R = clamp (le_val k) /\ qval N = le_val s.

Lemma final_step : forall s R N m size, prep s R N m ->
  (let '(s', o) := po_final s size in (s', match o with Some t => MOTag t | None => MOInvalid end)) =
  if Nat.leb size 16 then (fst (po_final s size), MOTag (firstn size (le_bytes 16 ((poly_acc (qval R) (pieces m) + qval N) mod 2 ^ 128)))) else (s, MOInvalid).
Proof.
  intros s R N m size Hp. destruct (Nat.leb_spec size 16).
  - destruct (po_final_spec s R N m size Hp H) as [F1 _]. destruct (po_final s size) as [s' o]. cbn [fst snd] in *. subst o. reflexivity.
  - unfold po_final. rewrite (proj2 (Nat.ltb_lt _ _)) by auto. reflexivity.
Qed.

Definition mop_okb (op : mop) : Prop := match op with MUpdate d | MSetKey d => bytes d | _ => True end.
Lemma pt_run_spec : forall ops s R N k m, prep s R N m -> tag_ok R N (firstn 16 k) (skipn 16 k) -> Forall mop_okb ops ->
  pt_run s ops = spec_ptrun (k, m) ops.
Proof.
  induction ops as [|op ops IH]; intros s R N k m Hp [T1 T2] Ho; [reflexivity|]. inversion Ho as [|? ? Ho1 Ho2]; subst.
  cbn [pt_run spec_ptrun]. destruct op as [d|n| |k']; cbn [pt_step spec_ptstep].
  - f_equal. apply IH with R N; auto; [apply po_update_spec; auto|split; auto].
  - rewrite (final_step s R N m n Hp). destruct (Nat.leb_spec n 16).
    + unfold poly1305_tls, poly1305_spec. rewrite <- T1, <- T2. f_equal. apply IH with R N; auto; [|split; auto].
      apply (po_final_spec s R N m n); auto.
    + f_equal. apply IH with R N; auto. split; auto.
  - f_equal. apply IH with R N; auto; [eapply prep_restart; eauto|split; auto].
  - unfold pt_setkey. destruct (Nat.eqb_spec (length k') 32).
    + f_equal. cbn [mop_okb] in Ho1. apply IH with (clamp_words k') (get_quad (skipn 16 k')); auto.
      * destruct Hp. apply prep_zero; auto; [apply clamp_words_ok; auto|apply get_quad_ok, bytes_skipn; auto].
      * split; [apply clamp_words_val; auto; lia|]. rewrite <- getw_16 by (rewrite skipn_length; lia). rewrite firstn_all2; auto. rewrite skipn_length. lia.
    + f_equal. apply IH with R N; auto. split; auto.
Qed.

Definition pop_okb (op : pop) : Prop :=
  match op with PUpdate d => bytes d | PSetKey k iv => bytes k /\ (iv = [] \/ length iv = 16%nat) | PResync n => length n = 16%nat | _ => True end.
Lemma po_run_spec : forall E ops s R N k sv m, (forall k b, length b = 16%nat -> length (E k b) = 16%nat /\ bytes (E k b)) ->
  prep s R N m -> po_e s = E (firstn 16 k) -> tag_ok R N (skipn 16 k) sv -> Forall pop_okb ops ->
  po_run E s ops = spec_porun E (k, sv, m) ops.
Proof.
  intros E ops s R N k sv m HE. revert s R N k sv m.
  assert (HN : forall k n, length n = 16%nat -> nok (get_quad (E k n)) /\ qval (get_quad (E k n)) = le_val (E k n)).
  { intros k n Hn. destruct (HE k n Hn) as [L B]. split; [apply get_quad_ok; auto|]. rewrite <- getw_16 by lia. rewrite firstn_all2 by lia. reflexivity. }
  induction ops as [|op ops IH]; intros s R N k sv m Hp He [T1 T2] Ho; [reflexivity|]. inversion Ho as [|? ? Ho1 Ho2]; subst.
  cbn [po_run spec_porun]. destruct op as [d|n| |k' iv|nonce]; cbn [po_step spec_postep].
  - f_equal. apply IH with R N; auto; [apply po_update_spec; auto| |split; auto].
    unfold po_update. destruct (Nat.eqb (length d) 0), (Nat.eqb (po_idx s) 0), (Nat.leb (16 - po_idx s) (length d)); auto.
  - rewrite (final_step s R N m n Hp). destruct (Nat.leb_spec n 16).
    + unfold poly1305_spec. rewrite <- T1, <- T2. f_equal. apply IH with R N; auto; [| |split; auto].
      * apply (po_final_spec s R N m n); auto.
      * unfold po_final. destruct (Nat.ltb 16 n); exact He.
    + f_equal. apply IH with R N; auto. split; auto.
  - f_equal. apply IH with R N; auto; [eapply prep_restart; eauto|split; auto].
  - unfold po_setkey. destruct (Nat.eqb_spec (length k') 32).
    + f_equal. cbn [pop_okb] in Ho1. destruct Ho1 as [Hk Hiv]. destruct Hp.
      assert (HR' : rok (clamp_words (skipn 16 k')) /\ qval (clamp_words (skipn 16 k')) = clamp (le_val (skipn 16 k'))).
      { split; [apply clamp_words_ok, bytes_skipn; auto|]. rewrite clamp_words_val by (try apply bytes_skipn; auto; rewrite skipn_length; lia).
        rewrite firstn_all2; auto. rewrite skipn_length; lia. }
      destruct HR' as [HR1 HR2].
      destruct iv as [|i0 iv'].
      * cbn [length Nat.eqb]. apply IH with (clamp_words (skipn 16 k')) N; auto; [|split; auto].
        apply prep_zero; auto.
      * destruct Hiv as [Hiv|Hiv]; [discriminate|]. cbn [length Nat.eqb]. destruct (HN (firstn 16 k') (i0 :: iv') Hiv) as [HN1 HN2].
        apply IH with (clamp_words (skipn 16 k')) (get_quad (E (firstn 16 k') (i0 :: iv'))); auto; [|split; auto].
        apply prep_zero; auto.
    + f_equal. apply IH with R N; auto. split; auto.
  - f_equal. cbn [pop_okb] in Ho1. destruct (HN (firstn 16 k) nonce Ho1) as [HN1 HN2].
    apply IH with R (get_quad (E (firstn 16 k) nonce)); auto; [|split; auto].
    unfold po_resync. rewrite He. destruct Hp. constructor; cbn [po_r po_n po_h po_acc po_idx]; auto.
Qed.
