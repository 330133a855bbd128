(** Proofs about ModularArithmetic and MontgomeryRepresentation. *)
From Coq Require Import ZArith List Bool Arith Lia Znumtheory Zpow_facts.
From Verif Require Import Base WordsSpec WordsModel WordsProofs WordsRecProofs WordsAsymProofs WordsInvProofs WordsAlmostProofs IntegerModel IntegerSpec IntegerProofs IntegerBitProofs IntegerDivProofs ModSpec ModModel IntegerInvProofs.
Import ListNotations.
Local Open Scope Z_scope.

(** ** Congruences *)
Definition cong (m x y : Z) : Prop := (m | x - y).
Lemma cong_refl m x : cong m x x. Proof. exists 0. lia. Qed.
Lemma cong_sym m x y : cong m x y -> cong m y x. Proof. intros [q H]. exists (- q). lia. Qed.
Lemma cong_trans m x y z : cong m x y -> cong m y z -> cong m x z. Proof. intros [q H] [p G]. exists (q + p). lia. Qed.
Lemma cong_add m x y x' y' : cong m x x' -> cong m y y' -> cong m (x + y) (x' + y'). Proof. intros [q H] [p G]. exists (q + p). lia. Qed.
Lemma cong_sub m x y x' y' : cong m x x' -> cong m y y' -> cong m (x - y) (x' - y'). Proof. intros [q H] [p G]. exists (q - p). lia. Qed.
Lemma cong_mul m x y x' y' : cong m x x' -> cong m y y' -> cong m (x * y) (x' * y').
Proof. intros [q H] [p G]. exists (q * y + x' * p). replace (x * y - x' * y') with ((x - x') * y + x' * (y - y')) by ring. rewrite H, G. ring. Qed.
Lemma cong_mod m x : m <> 0 -> cong m (x mod m) x. Proof. intros H. exists (- (x / m)). pose proof (Z.div_mod x m H). lia. Qed.
Lemma cong_eq m x y : 0 < m -> cong m x y -> x mod m = y mod m.
Proof. intros Hm [q H]. replace x with (y + q * m) by lia. apply Z.mod_add. lia. Qed.
Lemma cong_of m x y : m <> 0 -> x mod m = y mod m -> cong m x y.
Proof. intros Hm H. apply cong_trans with (x mod m); [apply cong_sym, cong_mod; auto|]. rewrite H. apply cong_mod; auto. Qed.
Lemma cong_small m x y : cong m x y -> 0 <= x < m -> x = y mod m.
Proof. intros H L. rewrite <- (cong_eq m x y) by (auto; lia). rewrite Z.mod_small; auto. Qed.
Lemma cong_cancel m c x y : Z.gcd m c = 1 -> cong m (c * x) (c * y) -> cong m x y.
Proof. intros G H. unfold cong in *. apply (Z.gauss m c); auto. replace (c * (x - y)) with (c * x - c * y) by ring. auto. Qed.
Lemma cong_gcd m x y : 0 < m -> cong m x y -> Z.gcd x m = Z.gcd y m.
Proof. intros Hm H. rewrite (Z.gcd_comm x), (Z.gcd_comm y). rewrite <- (Z.gcd_mod x), <- (Z.gcd_mod y) by lia. rewrite (cong_eq m x y) by auto. reflexivity. Qed.
Lemma unit_gcd x m r : 1 < m -> (x * r) mod m = 1 -> Z.gcd x m = 1.
Proof.
  intros Hm H. pose proof (Z.div_mod (x * r) m ltac:(lia)) as D. rewrite H in D. assert (B : (Z.gcd x m | 1)). { replace 1 with (x * r - m * (x * r / m)) by lia. apply Z.divide_sub_r; apply Z.divide_mul_l; [apply Z.gcd_divide_l|apply Z.gcd_divide_r]. }
  apply Z.divide_1_r in B. pose proof (Z.gcd_nonneg x m). lia.
Qed.

Section Mod.
Variable w : Z.
Hypothesis Hwb : word_bits w.
Local Instance Hbig : bigw w := word_bits_big w Hwb.
Notation B := (base w).
Notation V := (wval w).
Notation W := (words w).
Notation P := (P w).
Notation is_int := (is_int w).

Definition ma_ok (ma : modarith) (vm : Z) : Prop :=
  is_int (mod_ ma) vm /\ 1 < vm /\ pow2_size (len_ ma) /\ (length (reg (mod_ ma)) <= len_ ma)%nat.
Lemma make_ok m vm : is_int m vm -> 1 < vm -> ma_ok (make_mod m) vm.
Proof.
  intros H L. split; [apply (copy_int w); auto|]. split; auto. cbn. destruct H as [(H1 & H2 & H3) _]. split; auto. rewrite firstn_length. lia.
Qed.
Section Ring.
Variables (ma : modarith) (vm : Z).
Hypothesis Hma : ma_ok ma vm.
Notation m := (mod_ ma).
Notation n := (length (reg (mod_ ma))).
(** A reduced element in a register no longer than the modulus's. *)
Definition elem (a : integer) (va : Z) : Prop := is_int a va /\ 0 <= va < vm /\ (length (reg a) <= n)%nat.

Lemma Vm : V (reg m) = vm. Proof. apply (nonneg_V w Hwb m vm); [apply Hma|destruct Hma; lia]. Qed.
Lemma Wm : W (reg m). Proof. apply Hma. Qed.
Lemma Pm : pow2_size n. Proof. apply Hma. Qed.
Lemma result_int r : W r -> (length r <= len_ ma)%nat -> is_int (in_result ma r) (V r).
Proof. intros H L. unfold in_result. apply pos_int; [apply (W_store w); auto; apply (W_repeat0 w)|rewrite firstn_store; rewrite repeat_length; [apply Hma|auto]|apply (V_store0 w)]. Qed.
Lemma copy_elem a va : is_int a va -> 0 <= va < vm -> elem (copy a) va.
Proof.
  intros H L. split; [apply (copy_int w); auto|]. split; auto. rewrite (copy_len w) by apply H. apply roundup_le; [apply Pm|].
  etransitivity; [apply (wc_le_V w Hwb a m)|destruct (wc_spec w (reg m) Wm) as (C & _); exact C]; [apply H|apply Hma|]. rewrite Vm, (nonneg_V w Hwb a va H) by lia. lia.
Qed.
Lemma same_size_eq a b : same_size a b = true -> length (reg a) = length (reg b).
Proof. apply Nat.eqb_eq. Qed.
Lemma cmp_ge x y : ((match x ?= y with Lt => -1 | Eq => 0 | Gt => 1 end) >=? 0) = (y <=? x).
Proof. destruct (Z.compare_spec x y), (Z.leb_spec y x); cbn; auto; lia. Qed.

Lemma reduce_once x : 0 <= x < 2 * vm -> (if vm <=? x then x - vm else x) = x mod vm.
Proof. intros H. destruct (Z.leb_spec vm x); [|rewrite Z.mod_small; lia]. apply Z.mod_unique_pos with 1; lia. Qed.
Lemma add_words_spec a b va vb : W a -> W b -> length a = n -> length b = n -> V a = va -> V b = vb -> 0 <= va < vm -> 0 <= vb < vm ->
  W (add_words w a b (reg m)) /\ length (add_words w a b (reg m)) = n /\ V (add_words w a b (reg m)) = (va + vb) mod vm.
Proof.
  intros WA WB LA LB VA VB Ra Rb. unfold add_words. destruct (w_add_spec w a b WA WB ltac:(lia)) as (s1 & s2 & s3 & s4). destruct (w_add w a b) as [r c]. cbn [fst snd] in *. rewrite LA in *.
  rewrite (w_cmp_full' w) by (auto using Wm). rewrite cmp_ge, Vm. pose proof (V_bound w _ s1) as BR. rewrite s2 in BR. pose proof (V_bound w _ Wm) as BM. rewrite Vm in BM. rewrite <- reduce_once by lia.
  destruct (w_sub_spec w r (reg m) s1 Wm ltac:(lia)) as (t1 & t2 & t3 & t4). rewrite s2, Vm in *. pose proof (V_bound w _ t1) as BT. rewrite t2 in BT. set (d := fst (w_sub w r (reg m))) in *. set (bo := snd (w_sub w r (reg m))) in *. clearbody d bo.
  destruct (Z.eqb_spec c 0) as [C|C]; cbn [negb orb].
  - rewrite C in s4. assert (VR : V r = va + vb) by lia. rewrite VR in *. destruct (Z.leb_spec vm (va + vb)); [|split; auto; split; auto; lia]. split; auto. split; auto. assert (bo = 0 \/ bo = 1) as [E|E] by lia; rewrite E in *; lia.
  - assert (c = 1) by lia. subst c. split; auto. split; auto. assert (bo = 0 \/ bo = 1) as [E|E] by lia; rewrite E in *; destruct (Z.leb_spec vm (va + vb)); lia.
Qed.
Lemma sub_words_spec a b va vb : W a -> W b -> length a = n -> length b = n -> V a = va -> V b = vb -> 0 <= va < vm -> 0 <= vb < vm ->
  W (sub_words w a b (reg m)) /\ length (sub_words w a b (reg m)) = n /\ V (sub_words w a b (reg m)) = (va - vb) mod vm.
Proof.
  intros WA WB LA LB VA VB Ra Rb. unfold sub_words. destruct (w_sub_spec w a b WA WB ltac:(lia)) as (s1 & s2 & s3 & s4). destruct (w_sub w a b) as [r c]. cbn [fst snd] in *. rewrite LA in *.
  pose proof (V_bound w _ s1) as BR. rewrite s2 in BR. pose proof (V_bound w _ Wm) as BM. rewrite Vm in BM. destruct (Z.eqb_spec c 0) as [C|C]; cbn [negb].
  - rewrite C in s4. split; auto. split; auto. rewrite Z.mod_small; lia.
  - assert (c = 1) by lia. subst c. destruct (w_add_spec w r (reg m) s1 Wm ltac:(lia)) as (t1 & t2 & t3 & t4). rewrite s2, Vm in *. pose proof (V_bound w _ t1) as BT. rewrite t2 in BT. set (d := fst (w_add w r (reg m))) in *. set (bo := snd (w_add w r (reg m))) in *. clearbody d bo.
    split; auto. split; auto. apply Z.mod_unique_pos with (-1); [|]; assert (bo = 0 \/ bo = 1) as [E|E] by lia; rewrite E in *; lia.
Qed.

Lemma elem_V a va : is_int a va -> 0 <= va < vm -> W (reg a) /\ V (reg a) = va.
Proof. intros H L. split; [apply H|apply (nonneg_V w Hwb a va H); lia]. Qed.
Lemma neg_false a va : is_int a va -> 0 <= va -> neg a = false.
Proof. intros H L. rewrite (is_int_neg w a va H). apply Z.ltb_ge. auto. Qed.
Lemma ma_add_int a b va vb : is_int a va -> is_int b vb -> 0 <= va < vm -> 0 <= vb < vm -> is_int (ma_add w ma a b) ((va + vb) mod vm).
Proof.
  intros Ha Hb Ra Rb. unfold ma_add. destruct (same_size a m && same_size b m) eqn:E.
  - apply andb_true_iff in E. destruct E as [E1 E2]. apply same_size_eq in E1, E2. destruct (elem_V a va Ha Ra) as [A1 A2]. destruct (elem_V b vb Hb Rb) as [B1 B2].
    destruct (add_words_spec (reg a) (reg b) va vb A1 B1 E1 E2 A2 B2 Ra Rb) as (s1 & s2 & s3). rewrite <- s3. apply result_int; auto. rewrite s2. apply Hma.
  - pose proof (copy_int w _ _ (plus_int w _ _ _ _ Ha Hb)) as Hs. rewrite (compare_int w _ _ _ _ Hs (proj1 Hma)), cmp_ge, <- reduce_once by lia. destruct (Z.leb_spec vm (va + vb)); auto. apply (minus_eq_int w); auto. apply Hma.
Qed.
Lemma ma_accumulate_int a b va vb : is_int a va -> is_int b vb -> 0 <= va < vm -> 0 <= vb < vm -> is_int (ma_accumulate w ma a b) ((va + vb) mod vm).
Proof.
  intros Ha Hb Ra Rb. unfold ma_accumulate. destruct (same_size a m && same_size b m) eqn:E.
  - apply andb_true_iff in E. destruct E as [E1 E2]. apply same_size_eq in E1, E2. destruct (elem_V a va Ha Ra) as [A1 A2]. destruct (elem_V b vb Hb Rb) as [B1 B2].
    destruct (add_words_spec (reg a) (reg b) va vb A1 B1 E1 E2 A2 B2 Ra Rb) as (s1 & s2 & s3). rewrite <- s3, (neg_false a va Ha) by lia. apply pos_int; auto. rewrite s2. apply Pm.
  - pose proof (plus_eq_int w _ _ _ _ Ha Hb) as Hs. rewrite (compare_int w _ _ _ _ Hs (proj1 Hma)), cmp_ge, <- reduce_once by lia. destruct (Z.leb_spec vm (va + vb)); auto. apply (minus_eq_int w); auto. apply Hma.
Qed.
Lemma unborrow va vb : 0 <= va < vm -> 0 <= vb < vm -> (if va - vb <? 0 then va - vb + vm else va - vb) = (va - vb) mod vm.
Proof. intros. destruct (Z.ltb_spec (va - vb) 0); [|rewrite Z.mod_small; lia]. apply Z.mod_unique_pos with (-1); lia. Qed.
Lemma ma_subtract_int a b va vb : is_int a va -> is_int b vb -> 0 <= va < vm -> 0 <= vb < vm -> is_int (ma_subtract w ma a b) ((va - vb) mod vm).
Proof.
  intros Ha Hb Ra Rb. unfold ma_subtract. destruct (same_size a m && same_size b m) eqn:E.
  - apply andb_true_iff in E. destruct E as [E1 E2]. apply same_size_eq in E1, E2. destruct (elem_V a va Ha Ra) as [A1 A2]. destruct (elem_V b vb Hb Rb) as [B1 B2].
    destruct (sub_words_spec (reg a) (reg b) va vb A1 B1 E1 E2 A2 B2 Ra Rb) as (s1 & s2 & s3). rewrite <- s3. apply result_int; auto. rewrite s2. apply Hma.
  - pose proof (copy_int w _ _ (minus_int w _ _ _ _ Ha Hb)) as Hs. rewrite (is_int_neg w _ _ Hs), <- unborrow by lia. destruct (Z.ltb_spec (va - vb) 0); auto. apply (plus_eq_int w); auto. apply Hma.
Qed.
Lemma ma_reduce_int a b va vb : is_int a va -> is_int b vb -> 0 <= va < vm -> 0 <= vb < vm -> is_int (ma_reduce w ma a b) ((va - vb) mod vm).
Proof.
  intros Ha Hb Ra Rb. unfold ma_reduce. destruct (same_size a m && same_size b m) eqn:E.
  - apply andb_true_iff in E. destruct E as [E1 E2]. apply same_size_eq in E1, E2. destruct (elem_V a va Ha Ra) as [A1 A2]. destruct (elem_V b vb Hb Rb) as [B1 B2].
    destruct (sub_words_spec (reg a) (reg b) va vb A1 B1 E1 E2 A2 B2 Ra Rb) as (s1 & s2 & s3). rewrite <- s3, (neg_false a va Ha) by lia. apply pos_int; auto. rewrite s2. apply Pm.
  - pose proof (minus_eq_int w _ _ _ _ Ha Hb) as Hs. rewrite (is_int_neg w _ _ Hs), <- unborrow by lia. destruct (Z.ltb_spec (va - vb) 0); auto. apply (plus_eq_int w); auto. apply Hma.
Qed.
Lemma ma_inverse_int a va : elem a va -> exists r, ma_inverse w ma a = ROk r /\ is_int r ((- va) mod vm).
Proof.
  intros (Ha & Ra & La). unfold ma_inverse. rewrite (is_zero_int w a va Ha). destruct (Z.eqb_spec va 0) as [E|E]. { subst va. exists a. split; auto. }
  destruct (Nat.ltb_spec n (length (reg a))); [lia|]. destruct (elem_V a va Ha Ra) as [A1 A2]. pose proof Wm as WM. pose proof (V_bound w _ WM) as BM. rewrite Vm in BM.
  set (k := length (reg a)) in *. destruct (w_sub_spec w (firstn k (reg m)) (reg a) (W_firstn w _ _ WM) A1) as (s1 & s2 & s3 & s4). { rewrite firstn_length. unfold k in *. lia. }
  destruct (w_sub w (firstn k (reg m)) (reg a)) as [lo c]. cbn [fst snd] in *. rewrite firstn_length, Nat.min_l in s2, s4 by lia. pose proof (V_bound w _ s1) as BL. rewrite s2 in BL.
  pose proof (V_firstn_skipn w k (reg m) ltac:(lia)) as SP. rewrite Vm in SP. rewrite A2 in s4. pose proof (P_pos w k) as PK.
  assert (HI : W (skipn k (reg m))) by (apply W_skipn; auto). pose proof (V_bound w _ HI) as BH. assert (LH : length (skipn k (reg m)) = (n - k)%nat) by apply skipn_length.
  set (hi := skipn k (reg m)) in *. clearbody hi. eexists. split; [reflexivity|].
  assert (G : W (lo ++ (if negb (c =? 0) then fst (w_dec w hi 1) else hi)) /\ length (lo ++ (if negb (c =? 0) then fst (w_dec w hi 1) else hi)) = n /\ V (lo ++ (if negb (c =? 0) then fst (w_dec w hi 1) else hi)) = vm - va).
  { destruct (Z.eqb_spec c 0) as [C|C]; cbn [negb].
    - subst c. split; [apply W_app; auto|]. split; [rewrite app_length; lia|]. rewrite V_app, s2. lia.
    - assert (c = 1) by lia. subst c. assert (NE : hi <> []). { intros Q. rewrite Q, V_nil in *. nia. }
      pose proof (B_big w) as HB. change (2 ^ 32) with 4294967296 in HB. destruct (w_dec_spec w hi 1 HI NE ltac:(lia)) as (t1 & t2 & t3 & t4). pose proof (V_bound w _ t1) as BT. rewrite t2 in BT. set (d := fst (w_dec w hi 1)) in *. set (bo := snd (w_dec w hi 1)) in *. clearbody d bo.
      split; [apply W_app; auto|]. split; [rewrite app_length; lia|]. rewrite V_app, s2. assert (HP : 1 <= V hi) by nia. assert (bo = 0 \/ bo = 1) as [E1|E1] by lia; rewrite E1 in *; [|lia]. rewrite Z.mul_0_r, Z.sub_0_r in t4. rewrite t4. lia. }
  destruct G as (g1 & g2 & g3). replace ((- va) mod vm) with (vm - va); [|apply Z.mod_unique_pos with (-1); lia]. rewrite <- g3. apply result_int; auto. rewrite g2. apply Hma.
Qed.
Lemma ma_half_int a va : is_int a va -> 0 <= va < vm -> vm mod 2 = 1 -> exists vr, is_int (ma_half w ma a) vr /\ 0 <= vr < vm /\ (2 * vr) mod vm = va.
Proof.
  intros Ha Ra O. unfold ma_half. destruct (same_size a m) eqn:E.
  - apply same_size_eq in E. destruct (elem_V a va Ha Ra) as [A1 A2]. pose proof (pow2_ge2 _ Pm). destruct (div_pow2_mod_spec w 1 (reg a) (reg m) A1 Wm E ltac:(lia) ltac:(rewrite Vm; auto) ltac:(rewrite Vm; lia)) as (s1 & s2 & s3 & q & s4).
    rewrite Vm in *. exists (V (div_pow2_mod w 1 (reg a) (reg m))). split; [apply result_int; auto; rewrite s2; apply Hma|]. pose proof (V_bound w _ s1). split; [lia|]. change (2 ^ Z.of_nat 1) with 2 in s4. symmetry. apply Z.mod_unique_pos with q; auto. lia.
  - rewrite (odd_V w Hwb a va Ha). destruct (Z.odd va) eqn:OV; cbn [negb].
    + pose proof (copy_int w _ _ (shr_int w _ _ 1 (plus_int w _ _ _ _ Ha (proj1 Hma)))) as H. change (2 ^ Z.of_nat 1) with 2 in H. rewrite Z.quot_div_nonneg in H by lia. eexists. split; [exact H|].
      apply odd_mod in OV. assert (D : va + vm = 2 * ((va + vm) / 2)). { pose proof (Z.div_mod (va + vm) 2 ltac:(lia)) as D. rewrite Z.add_mod, OV, O in D by lia. change ((1 + 1) mod 2) with 0 in D. lia. } split; [lia|]. rewrite <- D. symmetry. apply Z.mod_unique_pos with 1; lia.
    + pose proof (copy_int w _ _ (shr_int w _ _ 1 (copy_int w _ _ Ha))) as H. change (2 ^ Z.of_nat 1) with 2 in H. rewrite Z.quot_div_nonneg in H by lia. eexists. split; [exact H|].
      assert (D : va = 2 * (va / 2)). { pose proof (Z.div_mod va 2 ltac:(lia)) as D. rewrite (Zmod_odd va), OV in D. lia. } split; [lia|]. rewrite <- D. apply Z.mod_small; auto.
Qed.
Lemma ma_multiply_int a b va vb : is_int a va -> is_int b vb -> exists r, ma_multiply w ma a b = ROk r /\ elem r ((va * vb) mod vm).
Proof.
  intros Ha Hb. destruct Hma as (H1 & H2 & _). destruct (modulo_int w _ m _ vm Hwb (times_int w _ _ _ _ Ha Hb) H1 ltac:(lia)) as (r & E & Hr). unfold ma_multiply. rewrite E. exists (copy r). split; auto. rewrite Z.abs_eq in Hr by lia. apply copy_elem; auto. apply Z.mod_pos_bound. lia.
Qed.
Lemma ma_square_int a va : is_int a va -> exists r, ma_square w ma a = ROk r /\ elem r ((va * va) mod vm).
Proof.
  intros Ha. destruct Hma as (H1 & H2 & _). destruct (modulo_int w _ m _ vm Hwb (squared_int w _ _ Ha) H1 ltac:(lia)) as (r & E & Hr). unfold ma_square. rewrite E. exists (copy r). split; auto. rewrite Z.abs_eq in Hr by lia. apply copy_elem; auto. apply Z.mod_pos_bound. lia.
Qed.
Lemma inverse_of_range x r : inverse_of x vm r -> 0 <= r < vm.
Proof. destruct Hma as (_ & L & _). intros [H1 H2]. destruct (Z.eq_dec (Z.gcd x vm) 1) as [E|E]; [apply H1 in E; lia|apply H2 in E; lia]. Qed.
Lemma ma_mult_inverse_int a va : is_int a va -> (0 <= va < vm -> (length (reg a) <= 2 * n)%nat) -> exists r vr, ma_mult_inverse w ma a = ROk r /\ elem r vr /\ inverse_of va vm vr.
Proof.
  intros Ha La. destruct Hma as (H1 & H2 & _). destruct (inverse_mod_int w Hwb a m va vm Ha H1 H2 La) as (r & vr & E & Hr & I). unfold ma_mult_inverse. rewrite E. exists (copy r), vr. split; auto. split; auto. apply copy_elem; auto. apply (inverse_of_range va); auto.
Qed.

(** An expression evaluated with ModularArithmetic. *)
Lemma inverse_unique x y r : cong vm x y -> (y * r) mod vm = 1 -> forall s, inverse_of x vm s -> cong vm s r.
Proof.
  intros C E s [I _]. destruct Hma as (_ & L & _). assert (G : Z.gcd x vm = 1) by (rewrite (cong_gcd vm x y) by (auto; lia); apply (unit_gcd _ _ r); auto). destruct (I G) as [_ J].
  apply (cong_cancel vm x). { rewrite Z.gcd_comm. auto. } apply cong_of; [lia|]. rewrite J. symmetry. rewrite <- E. apply cong_eq; [lia|]. apply cong_mul; auto using cong_refl.
Qed.
Theorem ma_eval_int e v : sem is_int vm e v -> exists r, ma_eval w ma e = ROk r /\ elem r (v mod vm).
Proof.
  destruct Hma as (H1 & H2 & H3 & H4). assert (NZ : vm <> 0) by lia. assert (MP : forall x, 0 <= x mod vm < vm) by (intros; apply Z.mod_pos_bound; lia).
  induction 1 as [a v H| |a b x y _ IHa _ IHb|a b x y _ IHa _ IHb|a x _ IHa|a b x y _ IHa _ IHb|a x _ IHa|a x r _ IHa E]; cbn [ma_eval].
  - destruct (modulo_int w a m v vm Hwb H H1 NZ) as (r & E & Hr). rewrite Z.abs_eq in Hr by lia. exists r. split; auto. split; auto. split; auto. apply (modulo_len w Hwb a m r (proj1 H) (proj1 H1)); auto. rewrite (proj2 H1). auto.
  - exists int_one. rewrite Z.mod_1_l by auto. split; auto. split; [apply (one_int w)|]. split; [lia|]. apply pow2_ge2, Pm.
  - destruct IHa as (r & -> & Hr & Rr & Lr). destruct IHb as (s & -> & Hs & Rs & Ls). cbn [rbind]. eexists. split; [reflexivity|]. rewrite Z.add_mod by lia. apply copy_elem; auto. apply ma_add_int; auto.
  - destruct IHa as (r & -> & Hr & Rr & Lr). destruct IHb as (s & -> & Hs & Rs & Ls). cbn [rbind]. eexists. split; [reflexivity|]. rewrite Zminus_mod. apply copy_elem; auto. apply ma_subtract_int; auto.
  - destruct IHa as (r & -> & Hr). cbn [rbind]. destruct (ma_inverse_int r _ Hr) as (s & E & Hs). rewrite E. eexists. split; [reflexivity|]. replace ((- x) mod vm) with ((- (x mod vm)) mod vm); [apply copy_elem; auto|]. apply cong_eq; [lia|]. replace (- x) with (0 - x) by lia. replace (- (x mod vm)) with (0 - x mod vm) by lia. apply cong_sub; auto using cong_refl, cong_mod.
  - destruct IHa as (r & -> & Hr & Rr & Lr). destruct IHb as (s & -> & Hs & Rs & Ls). cbn [rbind]. destruct (ma_multiply_int r s _ _ Hr Hs) as (t & E & Ht & Rt & Lt). rewrite E. eexists. split; [reflexivity|]. rewrite Z.mul_mod by lia. apply copy_elem; auto.
  - destruct IHa as (r & -> & Hr & Rr & Lr). cbn [rbind]. destruct (ma_square_int r _ Hr) as (t & E & Ht & Rt & Lt). rewrite E. eexists. split; [reflexivity|]. rewrite Z.mul_mod by lia. apply copy_elem; auto.
  - destruct IHa as (a' & -> & Hr & Rr & Lr). cbn [rbind]. destruct (ma_mult_inverse_int a' _ Hr ltac:(lia)) as (t & vt & Et & (Ht & Rt & Lt) & I). rewrite Et. eexists. split; [reflexivity|]. rewrite <- (cong_small vm vt r); [apply copy_elem; auto| |auto].
    apply (inverse_unique (x mod vm) x r); auto. apply cong_mod; auto.
Qed.
End Ring.

(** ** Montgomery representation *)
Definition mont_ok (mo : montgomery) (vm : Z) : Prop :=
  let n := length (reg (mod_ (arith_ mo))) in
  ma_ok (arith_ mo) vm /\ vm mod 2 = 1 /\ W (inv_ mo) /\ length (inv_ mo) = n /\ exists t, V (inv_ mo) * vm = 1 + P n * t.
Lemma at0_odd l : W l -> (0 < length l)%nat -> at_ l 0 mod 2 = V l mod 2.
Proof.
  intros H L. destruct l as [|x l]; [cbn in L; lia|]. unfold at_. cbn [nth]. rewrite V_cons. pose proof (Hw w). assert (E : B = 2 * 2 ^ (w - 1)). { unfold base. rewrite <- Z.pow_succ_r by lia. f_equal. lia. } rewrite E.
  replace (x + 2 * 2 ^ (w - 1) * V l) with (x + (2 ^ (w - 1) * V l) * 2) by ring. rewrite Z.mod_add; lia.
Qed.
Lemma make_mont_int m vm : is_int m vm -> 1 < vm -> (vm mod 2 = 1 /\ exists mo, make_mont w m = ROk mo /\ arith_ mo = make_mod m /\ mont_ok mo vm) \/ (vm mod 2 = 0 /\ make_mont w m = RThrow).
Proof.
  intros Hm L. pose proof (make_ok m vm Hm L) as Hok. unfold make_mont. rewrite (odd_V w Hwb _ vm (proj1 Hok)). destruct (Z.odd vm) eqn:O; cbn [negb]; [left|right; split; auto; rewrite Zmod_odd, O; auto].
  apply odd_mod in O. split; auto. eexists. split; [reflexivity|]. split; auto. unfold mont_ok. cbn [arith_ inv_]. pose proof (Wm _ _ Hok) as WM. pose proof (Vm _ _ Hok) as VM. destruct (Pm _ _ Hok) as (k & Hk & Lk).
  destruct (w_inv_spec w k (reg (mod_ (make_mod m))) Hk WM Lk) as (s1 & s2 & t & s3). { rewrite at0_odd; auto. rewrite VM; auto. rewrite Lk. pose proof (Nat.pow_nonzero 2 k). lia. }
  split; auto. split; auto. split; auto. split; [lia|]. exists t. rewrite Lk, <- VM. auto.
Qed.
Section Mont.
Variables (mo : montgomery) (vm : Z).
Hypothesis Hmo : mont_ok mo vm.
Notation ma := (arith_ mo).
Notation m := (mod_ (arith_ mo)).
Notation n := (length (reg (mod_ (arith_ mo)))).
Notation R := (P (length (reg (mod_ (arith_ mo))))).
Notation elem := (elem ma vm).
Lemma okA : ma_ok ma vm. Proof. apply Hmo. Qed.
Lemma vm_big : 1 < vm. Proof. apply okA. Qed.
Lemma R_nb : R = 2 ^ (w * Z.of_nat n).
Proof. apply (P_pow2 w). Qed.
Lemma R_coprime : Z.gcd vm R = 1.
Proof. rewrite R_nb. apply odd_coprime_pow; [apply Hmo|]. pose proof (Hw w). nia. Qed.

Lemma finish_spec t : W t -> (length t <= 2 * n)%nat -> V t < vm * R ->
  exists r, mont_reduce w (t ++ repeat 0 (2 * n - length t)) (reg m) (inv_ mo) = r /\ W r /\ length r = n /\ 0 <= V r < vm /\ cong vm (V r * R) (V t).
Proof.
  intros WT LT HV. destruct Hmo as (O1 & O2 & O3 & O4 & O5). destruct (Pm _ _ O1) as (k & Hk & Lk). pose proof (Vm _ _ O1) as VM.
  destruct (mont_reduce_spec w k (t ++ repeat 0 (2 * n - length t)) (reg m) (inv_ mo) Hk) as (s1 & s2 & s3 & q & s4); auto.
  { apply W_app. split; auto. apply (W_repeat0 w). } { apply (Wm _ _ O1). } { rewrite app_length, repeat_length. lia. } { lia. } { rewrite V_app, V_repeat0, VM, <- Lk. lia. } { rewrite VM, <- Lk. auto. }
  eexists. split; [reflexivity|]. split; auto. split; [lia|]. rewrite VM in *. pose proof (V_bound w _ s1). split; [lia|]. exists q. rewrite <- Lk in s4. rewrite s4, V_app, V_repeat0. lia.
Qed.
Lemma mont_finish_int t : W t -> (length t <= 2 * n)%nat -> V t < vm * R -> exists r vr, mont_finish w mo t = ROk r /\ is_int r vr /\ 0 <= vr < vm /\ cong vm (vr * R) (V t).
Proof.
  intros WT LT HV. unfold mont_finish. destruct (Nat.ltb_spec (2 * n) (length t)); [lia|]. destruct (finish_spec t WT LT HV) as (r & -> & F1 & F2 & F3 & F4). eexists _, (V r). split; [reflexivity|]. split; auto. apply (result_int _ _ okA); auto. rewrite F2. apply okA.
Qed.
Lemma pow2_sizes i j : (1 <= i)%nat -> (i <= j)%nat -> (2 ^ j = 2 ^ i * 2 ^ (j - i))%nat.
Proof. intros. rewrite <- Nat.pow_add_r. f_equal. lia. Qed.
Lemma asym_ok same a b va vb : is_int a va -> is_int b vb -> 0 <= va -> 0 <= vb -> (same = true -> a = b) ->
  W (w_asym w same (reg a) (reg b)) /\ length (w_asym w same (reg a) (reg b)) = (length (reg a) + length (reg b))%nat /\ V (w_asym w same (reg a) (reg b)) = va * vb.
Proof.
  intros Ha Hb Pa Pb S. rewrite <- (nonneg_V w Hwb a va Ha Pa), <- (nonneg_V w Hwb b vb Hb Pb). destruct Ha as [(A1 & (i & Hi & Li) & _) _]. destruct Hb as [(B1 & (j & Hj & Lj) & _) _].
  destruct (Nat.leb_spec i j).
  - apply (w_asym_spec w i (2 ^ (j - i))); auto. { pose proof (Nat.pow_nonzero 2 (j - i)). lia. } { intros E. rewrite (S E). auto. } left. split; auto. rewrite Lj. apply pow2_sizes; auto.
  - apply (w_asym_spec w j (2 ^ (i - j))); auto. { pose proof (Nat.pow_nonzero 2 (i - j)). lia. } { intros E. rewrite (S E). auto. } right. split; auto. rewrite Li. apply pow2_sizes; auto. lia.
Qed.
Lemma vm_R : vm < R.
Proof. rewrite <- (Vm _ _ okA). pose proof (V_bound w _ (Wm _ _ okA)). lia. Qed.
Lemma mont_multiply_int same a b va vb : elem a va -> elem b vb -> (same = true -> a = b) -> exists r vr, mont_multiply w mo same a b = ROk r /\ is_int r vr /\ 0 <= vr < vm /\ cong vm (vr * R) (va * vb).
Proof.
  intros (Ha & Ra & La) (Hb & Rb & Lb) S. destruct (asym_ok same a b va vb Ha Hb ltac:(lia) ltac:(lia) S) as (s1 & s2 & s3). rewrite <- s3. apply mont_finish_int; auto; [lia|]. rewrite s3. pose proof vm_R. nia.
Qed.
Lemma mont_square_int a va : elem a va -> exists r vr, mont_square w mo a = ROk r /\ is_int r vr /\ 0 <= vr < vm /\ cong vm (vr * R) (va * va).
Proof.
  intros (Ha & Ra & La). rewrite <- (nonneg_V w Hwb a va Ha) by lia. assert (VA : V (reg a) = va) by (apply (nonneg_V w Hwb); auto; lia). destruct Ha as [(A1 & (k & Hk & Lk) & _) _]. destruct (w_squ_spec w k (reg a) Hk A1 Lk) as (s1 & s2 & s3). rewrite <- s3. apply mont_finish_int; auto; [lia|]. rewrite s3, VA. pose proof vm_R. nia.
Qed.
Lemma mont_out_int a va : elem a va -> exists r vr, mont_convert_out w mo a = ROk r /\ is_int r vr /\ 0 <= vr < vm /\ cong vm (vr * R) va.
Proof.
  intros (Ha & Ra & La). assert (VA : V (reg a) = va) by (apply (nonneg_V w Hwb); auto; lia). rewrite <- VA. apply mont_finish_int; [apply Ha|lia|]. rewrite VA. pose proof vm_R. pose proof vm_big. nia.
Qed.
Lemma ai_bound A VR k q : 0 <= k -> VR <= vm -> A * VR = 2 ^ k + vm * q -> VR < vm.
Proof.
  intros K0 C1 C3. pose proof vm_big. assert (NE : VR <> vm); [|lia]. intros Q. rewrite Q in C3. assert (D : (vm | 2 ^ k)). { exists (A - q). lia. } pose proof (odd_coprime_pow vm k ltac:(apply Hmo) K0) as GG. apply Z.divide_gcd_iff in D; lia.
Qed.
Lemma mont_inverse_int a va x : elem a va -> cong vm va (x * R) -> exists r vr, mont_inverse w mo a = ROk r /\ is_int r vr /\ 0 <= vr < vm /\ (Z.gcd x vm = 1 -> cong vm (x * vr) R) /\ (Z.gcd x vm <> 1 -> vr = 0).
Proof.
  intros (Ha & Ra & La) HC. assert (VA : V (reg a) = va) by (apply (nonneg_V w Hwb); auto; lia). pose proof vm_big as VB. pose proof vm_R as VR'. unfold mont_inverse. destruct (Nat.ltb_spec (2 * n) (length (reg a))); [lia|].
  destruct (finish_spec (reg a) (proj1 (proj1 Ha)) ltac:(lia) ltac:(rewrite VA; nia)) as (r0 & -> & F1 & F2 & F3 & F4). rewrite VA in F4.
  assert (CX : cong vm (V r0) x). { apply (cong_cancel vm R); [apply R_coprime|]. rewrite !(Z.mul_comm R). apply cong_trans with va; auto. }
  pose proof (Wm _ _ okA) as WM. pose proof (Vm _ _ okA) as VM. pose proof (pow2_ge2 _ (Pm _ _ okA)) as L2. destruct (pow2_even _ (Pm _ _ okA)) as [PE _]. assert (OD : vm mod 2 = 1) by apply Hmo.
  destruct (almost_inverse_spec w r0 (reg m) F1 WM) as (Q & k & E & K0 & WQ & LQ & C1 & C2).
  { rewrite Nat.even_spec. exists (n / 2)%nat. pose proof (Nat.div_mod n 2 ltac:(lia)). lia. } { auto. } { lia. } { rewrite VM; auto. } { lia. } { lia. }
  rewrite E, VM in *. rewrite (cong_gcd vm (V r0) x) in C1, C2 by (auto; lia). pose proof (V_bound w _ WQ) as BQ. pose proof (Hw w) as Hww. set (nb := w * Z.of_nat n) in *. assert (NB : 0 <= nb) by (unfold nb; nia).
  assert (RN : R = 2 ^ nb) by apply R_nb.
  assert (OKR : forall r, W r -> length r = n -> is_int (in_result ma r) (V r)) by (intros r r1 r2; apply (result_int _ _ okA); auto; rewrite r2; apply okA).
  destruct (Z.eq_dec (Z.gcd x vm) 1) as [G|G].
  - destruct (C1 G) as [C3 [q C4]]. pose proof (ai_bound _ _ _ _ K0 C3 C4) as QL. assert (CQ : cong vm (x * V Q) (2 ^ k)). { apply cong_trans with (V r0 * V Q); [apply cong_mul; [apply cong_sym; auto|apply cong_refl]|]. exists q. lia. }
    rewrite Z.gtb_ltb. destruct (Z.ltb_spec nb k) as [KL|KL].
    + destruct (div_pow2_mod_spec w (Z.to_nat (k - nb)) Q (reg m) WQ WM LQ ltac:(lia) ltac:(rewrite VM; auto) ltac:(lia)) as (D1 & D2 & D3 & q' & D4). rewrite Z2Nat.id in D4 by lia. set (r := div_pow2_mod w (Z.to_nat (k - nb)) Q (reg m)) in *. clearbody r. rewrite VM in *. pose proof (V_bound w _ D1).
      exists (in_result ma r), (V r). split; auto. split; auto. split; [lia|]. split; [|congruence]. intros _. apply (cong_cancel vm (2 ^ (k - nb))); [apply odd_coprime_pow; auto; lia|]. rewrite RN, <- Z.pow_add_r by lia. replace (k - nb + nb) with k by lia.
      apply cong_trans with (x * V Q); auto. replace (2 ^ (k - nb) * (x * V r)) with (x * (V r * 2 ^ (k - nb))) by ring. apply cong_mul; [apply cong_refl|]. rewrite D4. exists q'. lia.
    + destruct (mul_pow2_mod_spec w (Z.to_nat (nb - k)) Q (reg m) WQ WM LQ ltac:(lia)) as (D1 & D2 & D3). rewrite Z2Nat.id in D3 by lia. set (r := mul_pow2_mod w (Z.to_nat (nb - k)) Q (reg m)) in *. clearbody r. rewrite VM in *.
      exists (in_result ma r), (V r). split; auto. split; auto. split; [rewrite D3; apply Z.mod_pos_bound; lia|]. split; [|congruence]. intros _. rewrite D3. apply cong_trans with (x * (V Q * 2 ^ (nb - k))); [apply cong_mul; [apply cong_refl|apply cong_mod; lia]|].
      rewrite RN. replace nb with (k + (nb - k)) at 2 by lia. rewrite Z.pow_add_r by lia. rewrite Z.mul_assoc. apply cong_mul; auto using cong_refl.
  - destruct (C2 G) as [-> ->]. destruct (Z.gtb_spec 0 nb); [lia|]. destruct (mul_pow2_mod_spec w (Z.to_nat (nb - 0)) (repeat 0 n) (reg m) WQ WM LQ ltac:(rewrite V_repeat0; lia)) as (D1 & D2 & D3). rewrite V_repeat0, Z.mul_0_l, Z.mod_0_l in D3 by lia.
    eexists _, 0. split; [reflexivity|]. split; [|split; [lia|split; congruence]]. pose proof (OKR _ D1 D2) as K. rewrite D3 in K. exact K.
Qed.
Lemma nb_R : 2 ^ Z.of_nat (Z.to_nat w * n) = R.
Proof. pose proof (Hw w). rewrite R_nb, Nat2Z.inj_mul, Z2Nat.id by lia. reflexivity. Qed.
Theorem mont_eval_int e v : sem is_int vm e v -> exists r vr, mont_eval w mo e = ROk r /\ elem r vr /\ cong vm vr (v * R).
Proof.
  pose proof okA as OK. pose proof OK as (H1 & H2 & H3 & H4). assert (NZ : vm <> 0) by lia. assert (MP : forall x, 0 <= x mod vm < vm) by (intros; apply Z.mod_pos_bound; lia).
  induction 1 as [a v H| |a b x y _ IHa _ IHb|a b x y _ IHa _ IHb|a x _ IHa|a b x y _ IHa _ IHb|a x _ IHa|a x r _ IHa E]; cbn [mont_eval].
  - unfold mont_convert_in. pose proof (shl_int w _ _ (Z.to_nat w * n) (copy_int w _ _ H)) as HS. destruct (modulo_int w _ m _ vm Hwb HS H1 NZ) as (r & E & Hr). rewrite Z.abs_eq, nb_R in Hr by lia. exists r, ((v * R) mod vm). split; auto. split; [|apply cong_mod; auto]. split; auto. split; auto.
    apply (modulo_len w Hwb _ m r (proj1 HS) (proj1 H1)); auto. rewrite (proj2 H1). auto.
  - unfold mont_identity. destruct (modulo_int w _ m _ vm Hwb (power2_int w (Z.to_nat w * n)) H1 NZ) as (r & E & Hr). rewrite Z.abs_eq, nb_R in Hr by lia. rewrite E. exists (copy r), (R mod vm). split; auto. split; [apply copy_elem; auto|]. rewrite Z.mul_1_l. apply cong_mod; auto.
  - destruct IHa as (r & vr & -> & (Hr & Rr & Lr) & Cr). destruct IHb as (s & vs & -> & (Hs & Rs & Ls) & Cs). cbn [rbind]. eexists _, ((vr + vs) mod vm). split; [reflexivity|]. split; [apply copy_elem; auto; apply ma_add_int; auto|]. eapply cong_trans; [apply cong_mod; auto|]. rewrite Z.mul_add_distr_r. apply cong_add; auto.
  - destruct IHa as (r & vr & -> & (Hr & Rr & Lr) & Cr). destruct IHb as (s & vs & -> & (Hs & Rs & Ls) & Cs). cbn [rbind]. eexists _, ((vr - vs) mod vm). split; [reflexivity|]. split; [apply copy_elem; auto; apply ma_subtract_int; auto|]. eapply cong_trans; [apply cong_mod; auto|]. rewrite Z.mul_sub_distr_r. apply cong_sub; auto.
  - destruct IHa as (r & vr & -> & Hr & Cr). cbn [rbind]. destruct (ma_inverse_int ma vm OK r _ Hr) as (s & E & Hs). rewrite E. eexists _, ((- vr) mod vm). split; [reflexivity|]. split; [apply copy_elem; auto|]. eapply cong_trans; [apply cong_mod; auto|]. replace (- vr) with (0 - vr) by lia. replace (- x * R) with (0 - x * R) by ring. apply cong_sub; auto using cong_refl.
  - destruct IHa as (r & vr & -> & Hr & Cr). destruct IHb as (s & vs & -> & Hs & Cs). cbn [rbind]. destruct (mont_multiply_int false r s _ _ Hr Hs ltac:(discriminate)) as (t & vt & E & Ht & Rt & Ct). rewrite E. eexists _, vt. split; [reflexivity|]. split; [apply copy_elem; auto|].
    apply (cong_cancel vm R); [apply R_coprime|]. rewrite (Z.mul_comm R vt). eapply cong_trans; [exact Ct|]. replace (R * (x * y * R)) with (x * R * (y * R)) by ring. apply cong_mul; auto.
  - destruct IHa as (r & vr & -> & Hr & Cr). cbn [rbind]. destruct (mont_square_int r _ Hr) as (t & vt & E & Ht & Rt & Ct). rewrite E. eexists _, vt. split; [reflexivity|]. split; [apply copy_elem; auto|].
    apply (cong_cancel vm R); [apply R_coprime|]. rewrite (Z.mul_comm R vt). eapply cong_trans; [exact Ct|]. replace (R * (x * x * R)) with (x * R * (x * R)) by ring. apply cong_mul; auto.
  - destruct IHa as (a' & va & -> & Hr & Cr). cbn [rbind]. destruct (mont_inverse_int a' va x Hr Cr) as (t & vt & Et & Ht & Rt & I1 & I2). rewrite Et. eexists _, vt. split; [reflexivity|]. split; [apply copy_elem; auto|]. assert (G : Z.gcd x vm = 1) by (apply (unit_gcd _ _ r); auto). specialize (I1 G).
    apply (cong_cancel vm x); [rewrite Z.gcd_comm; auto|]. eapply cong_trans; [exact I1|]. rewrite Z.mul_assoc. replace R with (1 * R) at 1 by ring. apply cong_mul; [|apply cong_refl]. apply cong_of; auto. rewrite E. apply Z.mod_1_l. auto.
Qed.
Theorem mont_eval_out e v : sem is_int vm e v -> exists r, rbind (mont_eval w mo e) (fun a => mont_convert_out w mo a) = ROk r /\ is_int r (v mod vm).
Proof.
  intros S. destruct (mont_eval_int e v S) as (r & vr & E & Hr & Cr). rewrite E. cbn [rbind]. destruct (mont_out_int r vr Hr) as (t & vt & Et & Ht & Rt & Ct). exists t. split; auto. rewrite <- (cong_small vm vt v); auto. apply (cong_cancel vm R); [apply R_coprime|]. rewrite !(Z.mul_comm R). eapply cong_trans; eauto.
Qed.
End Mont.
Theorem mont_compute_int m vm e v : is_int m vm -> 1 < vm -> vm mod 2 = 1 -> sem is_int vm e v -> exists r, mont_compute w m e = ROk r /\ is_int r (v mod vm).
Proof.
  intros Hm L O S. unfold mont_compute. destruct (make_mont_int m vm Hm L) as [(_ & mo & E & _ & Hok)|[E _]]; [|lia]. rewrite E. cbn [rbind]. apply (mont_eval_out mo vm); auto.
Qed.
End Mod.
