(** Proofs about windowed exponentiation: the windows add up to the exponent, the buckets to the multiple. *)
From Coq Require Import ZArith List Bool Arith Lia Permutation.
From Verif Require Import Base WordsModel WordsSpec WordsProofs IntegerModel IntegerSpec IntegerProofs IntegerBitProofs IntegerDivProofs IntegerInvProofs AlgebraModel AlgebraSpec.
Import ListNotations.
Local Open Scope Z_scope.

Section Slider.
Variable w : Z.
Hypothesis Hwb : word_bits w.
Local Instance Hbig : bigw w := word_bits_big w Hwb.
Notation is_int := (is_int w).

Lemma modulo_pow2 e v k : is_int e v -> 0 <= v -> (k < 32)%nat -> modulo_word w e (2 ^ Z.of_nat k) = ROk (v mod 2 ^ Z.of_nat k).
Proof.
  intros H L K. assert (W32 : 32 <= w) by (apply (Hw w)).
  assert (Hd : 0 < 2 ^ Z.of_nat k < base w). { unfold base. split; [lia|]. apply Z.pow_lt_mono_r; lia. }
  assert (Hp : 2 ^ Z.of_nat k = 2 ^ Z.log2 (2 ^ Z.of_nat k)) by (rewrite Z.log2_pow2 by lia; auto).
  unfold modulo_word. destruct (Z.eqb_spec (2 ^ Z.of_nat k) 0); [lia|]. rewrite (proj2 (pow2_test (2 ^ Z.of_nat k) ltac:(lia)) Hp). cbn [negb].
  rewrite (pow2_mod w) by (try apply H; auto). rewrite (nonneg_V w Hwb e v H L). rewrite (is_int_neg w e v H). destruct (Z.ltb_spec v 0); [lia|]. reflexivity.
Qed.

(** the value still to come, and its position *)
Definition pend (s : slider) (X : Z) : Z := if s_first s then X else X / 2 ^ Z.of_nat (s_size s).
Definition pbase (s : slider) : nat := if s_first s then s_begin s else (s_begin s + s_size s)%nat.
Definition digit (s : slider) : Z := if s_negate s then - s_window s else s_window s.

Lemma skip_spec e X : is_int e X -> 0 <= X -> forall fuel len k, X < 2 ^ Z.of_nat len -> (len <= fuel + k)%nat ->
  match skip_zeros w fuel e len k with
  | None => X / 2 ^ Z.of_nat k = 0
  | Some j => (k <= j)%nat /\ (X / 2 ^ Z.of_nat j) mod 2 = 1 /\ X / 2 ^ Z.of_nat k = X / 2 ^ Z.of_nat j * 2 ^ Z.of_nat (j - k)
  end.
Proof.
  intros H L. induction fuel; intros len k B K; cbn [skip_zeros]; rewrite (get_bit_int w e X k H), (Z.abs_eq X L).
  - destruct (Z.testbit X (Z.of_nat k)) eqn:Et.
    + split; [lia|]. rewrite Z.testbit_true in Et by lia. split; [exact Et|]. rewrite Nat.sub_diag. cbn. lia.
    + destruct (Nat.leb_spec len k); apply Z.div_small; split; auto; eapply Z.lt_le_trans; [apply B| |apply B|]; apply Z.pow_le_mono_r; lia.
  - destruct (Z.testbit X (Z.of_nat k)) eqn:Et.
    + split; [lia|]. rewrite Z.testbit_true in Et by lia. split; [exact Et|]. rewrite Nat.sub_diag. cbn. lia.
    + destruct (Nat.leb_spec len k).
      * apply Z.div_small; split; auto; eapply Z.lt_le_trans; [apply B|]; apply Z.pow_le_mono_r; lia.
      * specialize (IHfuel len (S k) B ltac:(lia)).
        assert (E : X / 2 ^ Z.of_nat k = 2 * (X / 2 ^ Z.of_nat (S k))).
        { apply Z.testbit_false in Et; [|lia]. replace (Z.of_nat (S k)) with (Z.of_nat k + 1) by lia. rewrite Z.pow_add_r by lia. change (2 ^ 1) with 2. rewrite <- Z.div_div by lia.
          pose proof (Z.div_mod (X / 2 ^ Z.of_nat k) 2 ltac:(lia)). lia. }
        destruct (skip_zeros w fuel e len (S k)) as [j|].
        -- destruct IHfuel as (A & C & D). split; [lia|]. split; [exact C|]. rewrite E, D. replace (j - k)%nat with (S (j - S k)) by lia.
           replace (Z.of_nat (S (j - S k))) with (Z.of_nat (j - S k) + 1) by lia. rewrite Z.pow_add_r by lia. change (2 ^ 1) with 2. lia.
        -- lia.
Qed.

Definition sl_ok (s : slider) (X : Z) : Prop := is_int (s_exp s) X /\ 0 <= X /\ (1 <= s_size s <= 7)%nat.
(** what one call finds *)
Lemma find_next_spec s X : sl_ok s X -> s_done s = false ->
  let s' := find_next w s in let Y := pend s X in
  s_size s' = s_size s /\ s_fast s' = s_fast s /\ s_first s' = false /\
  ((Y = 0 /\ s_done s' = true) \/
   (0 < Y /\ s_done s' = false /\ exists X', sl_ok s' X' /\ (pbase s <= s_begin s')%nat /\
      Y * 2 ^ Z.of_nat (pbase s) = digit s' * 2 ^ Z.of_nat (s_begin s') + pend s' X' * 2 ^ Z.of_nat (pbase s') /\
      s_window s' mod 2 = 1 /\ 0 < s_window s' < 2 ^ Z.of_nat (s_size s) /\ (s_negate s' = true -> s_fast s = true) /\
      forall L, Y * 2 ^ Z.of_nat (pbase s) <= 2 ^ Z.of_nat L -> (s_begin s' <= L)%nat /\ pend s' X' * 2 ^ Z.of_nat (pbase s') <= 2 ^ Z.of_nat L)).
Proof.
  intros (H1 & H2 & H3) Hd. unfold find_next.
  set (len := (word_count (s_exp s) * Z.to_nat w)%nat). set (k0 := (if s_first s then 0 else s_size s)%nat).
  assert (B : X < 2 ^ Z.of_nat len).
  { pose proof (wc_spec w (reg (s_exp s)) ltac:(apply H1)) as C. cbv zeta in C. pose proof (nonneg_V w Hwb _ _ H1 H2) as EV.
    destruct C as (_ & _ & C & _). unfold len, word_count. rewrite EV in C. unfold P in C. rewrite Nat2Z.inj_mul. rewrite Z2Nat.id by (pose proof (Hw w); lia).
    rewrite Z.mul_comm, Z.pow_mul_r by (pose proof (Hw w); lia). fold (base w). exact C. }
  pose proof (skip_spec (s_exp s) X H1 H2 len len k0 B ltac:(lia)) as Sk.
  assert (EY : pend s X = X / 2 ^ Z.of_nat k0). { unfold pend, k0. destruct (s_first s); [cbn; rewrite Z.div_1_r|]; auto. }
  destruct (skip_zeros w len (s_exp s) len k0) as [j|].
  2:{ cbn. repeat split; auto. left. rewrite EY. auto. }
  destruct Sk as (S1 & S2 & S3). set (O := X / 2 ^ Z.of_nat j) in *.
  assert (O0 : 0 <= O) by (unfold O; apply Z.div_pos; lia). assert (O1 : 0 < O). { destruct (Z.eq_dec O 0) as [e|]; [rewrite e in S2; discriminate|lia]. }
  assert (HO : is_int (shr w (s_exp s) j) O). { pose proof (shr_int w _ _ j H1) as G. rewrite Z.quot_div_nonneg in G by lia. exact G. }
  rewrite (modulo_pow2 _ _ (s_size s) HO O0 ltac:(lia)). rewrite (get_bit_int w _ _ (s_size s) HO), (Z.abs_eq O O0).
  set (ws := s_size s) in *. set (M := 2 ^ Z.of_nat ws) in *.
  assert (HM : exists M2, M = 2 * M2 /\ 0 < M2). { exists (2 ^ Z.of_nat (ws - 1)). split; [|lia]. unfold M. rewrite <- Z.pow_succ_r by lia. f_equal. lia. }
  destruct HM as (M2 & HM & M2p). pose proof (Z.div_mod O M ltac:(lia)) as DM. pose proof (Z.mod_pos_bound O M ltac:(lia)) as MB.
  assert (Od : (O mod M) mod 2 = 1). { rewrite HM. rewrite Z.rem_mul_r by lia. rewrite Z.mul_comm, Z.mod_add by lia. rewrite Z.mod_mod by lia. exact S2. }
  assert (PB : (pbase s + (j - k0) = s_begin s + j)%nat). { unfold pbase, k0. fold ws. unfold k0 in S1. destruct (s_first s); fold ws in S1; lia. }
  assert (EP : pend s X * 2 ^ Z.of_nat (pbase s) = O * 2 ^ Z.of_nat (s_begin s + j)).
  { rewrite EY, S3. rewrite <- PB, Nat2Z.inj_add, Z.pow_add_r by lia. lia. }
  assert (Yp : 0 < pend s X). { rewrite EY, S3. apply Z.mul_pos_pos; lia. }
  assert (PM : 2 ^ Z.of_nat (s_begin s + j + ws) = 2 ^ Z.of_nat (s_begin s + j) * M). { unfold M. rewrite (Nat2Z.inj_add (s_begin s + j) ws), Z.pow_add_r by lia. reflexivity. }
  set (p := 2 ^ Z.of_nat (s_begin s + j)) in *. assert (Pp : 0 < p) by (unfold p; lia).
  assert (BL : forall L, pend s X * 2 ^ Z.of_nat (pbase s) <= 2 ^ Z.of_nat L -> (s_begin s + j <= L)%nat).
  { intros L HL. rewrite EP in HL. destruct (le_lt_dec (s_begin s + j) L); auto. exfalso. assert (2 ^ Z.of_nat L < p) by (apply Z.pow_lt_mono_r; lia). nia. }
  clear S3 EY. generalize dependent (pend s X). intros Y EP Yp BL. generalize dependent (pbase s). intros R PB EP BL.
  destruct (s_fast s && Z.testbit O (Z.of_nat ws)) eqn:En; cbn -[Z.mul Z.add Z.sub Z.pow Z.div Z.modulo Nat.add].
  - apply andb_prop in En. destruct En as [En Eb]. repeat split; auto. right. split; [exact Yp|]. split; [exact Hd|].
    assert (E1 : is_int (shl w (copy int_one) ws) M). { pose proof (shl_int w _ _ ws (copy_int w _ _ (one_int w))) as G. rewrite Z.mul_1_l in G. exact G. }
    exists (O + M). assert (ED : (O + M) / M = O / M + 1) by (replace (O + M) with (O + 1 * M) by lia; apply Z.div_add; lia).
    unfold sl_ok, pend, pbase, digit; cbn -[Z.mul Z.add Z.sub Z.pow Z.div Z.modulo Nat.add]. fold M ws. fold p. rewrite ED, PM.
    assert (Mo : (O / M) mod 2 = 1) by (apply Z.testbit_true; auto; lia).
    split; [split; [apply (plus_eq_int w); auto|split; [lia|auto]]|]. split; [lia|]. split; [rewrite EP; nia|].
    split. { replace (M - O mod M) with (- (O mod M) + M2 * 2) by lia. rewrite Z.mod_add by lia. rewrite Z.mod_opp_l_nz by lia. rewrite Od. reflexivity. }
    assert (O mod M <> 0) by (intros e; rewrite e in Od; discriminate). split; [lia|]. split; [auto|].
    intros L HL. pose proof (BL L HL) as HB. split; [exact HB|]. rewrite EP in HL.
    assert (GE : (s_begin s + j + ws <= L)%nat).
    { destruct (le_lt_dec (s_begin s + j + ws) L); auto. exfalso. assert (A : 2 ^ Z.of_nat L <= p * M2).
      { assert (2 ^ Z.of_nat (s_begin s + j + ws) = 2 * (p * M2)) by (rewrite PM; nia).
        assert (2 ^ Z.of_nat (s_begin s + j + ws) = 2 * 2 ^ Z.of_nat (s_begin s + j + ws - 1)). { rewrite <- Z.pow_succ_r by lia. f_equal. lia. }
        assert (2 ^ Z.of_nat L <= 2 ^ Z.of_nat (s_begin s + j + ws - 1)) by (apply Z.pow_le_mono_r; lia). lia. }
      assert (O / M <> 0) by (intros e; rewrite e in Mo; discriminate). assert (0 <= O / M) by (apply Z.div_pos; lia). nia. }
    assert (EL : 2 ^ Z.of_nat L = p * M * 2 ^ Z.of_nat (L - (s_begin s + j + ws))). { rewrite <- PM, <- Z.pow_add_r by lia. f_equal. lia. }
    rewrite EL in *. set (q := 2 ^ Z.of_nat (L - (s_begin s + j + ws))) in *. assert (HL2 : O <= M * q) by nia. assert (O / M < q).
    { assert (O / M <= q) by nia. destruct (Z.eq_dec (O / M) q) as [e|]; [|lia]. nia. } nia.
  - repeat split; auto. right. split; [exact Yp|]. split; [exact Hd|]. exists O.
    unfold sl_ok, pend, pbase, digit; cbn -[Z.mul Z.add Z.sub Z.pow Z.div Z.modulo Nat.add]. fold M ws. fold p. rewrite PM.
    split; [split; [exact HO|split; [lia|auto]]|]. split; [lia|]. split; [rewrite EP; nia|]. split; [exact Od|].
    assert (O mod M <> 0) by (intros e; rewrite e in Od; discriminate). split; [lia|]. split; [discriminate|].
    intros L HL. split; [apply BL; auto|]. rewrite EP in HL. assert (0 <= O / M) by (apply Z.div_pos; lia). nia.
Qed.
End Slider.

Fixpoint sigma (n : nat) (f : nat -> Z) : Z := match n with O => 0 | S k => sigma k f + f k end.
Lemma sigma_ext n f g : (forall i, (i < n)%nat -> f i = g i) -> sigma n f = sigma n g.
Proof. induction n; cbn; intros H; auto. rewrite IHn by (intros; apply H; lia). rewrite H by lia. auto. Qed.
Lemma sigma_upd n f k d : (k < n)%nat -> sigma n (fun j => if (j =? k)%nat then f j + d else f j) = sigma n f + d.
Proof.
  induction n; intros L; [lia|]. cbn. destruct (Nat.eq_dec k n) as [->|N].
  - rewrite Nat.eqb_refl. rewrite (sigma_ext n _ f); [lia|]. intros i Hi. destruct (Nat.eqb_spec i n); [lia|auto].
  - rewrite IHn by lia. destruct (Nat.eqb_spec n k); [lia|]. lia.
Qed.
Lemma sigma_zero n : sigma n (fun _ => 0) = 0. Proof. induction n; cbn; lia. Qed.
Lemma sigma_nonneg n f : (forall i, (i < n)%nat -> 0 <= f i) -> 0 <= sigma n f.
Proof. induction n; cbn; intros H; [lia|]. pose proof (H n ltac:(lia)). assert (0 <= sigma n f) by (apply IHn; intros; apply H; lia). lia. Qed.
Lemma sigma_head n f : sigma (S n) f = f 0%nat + sigma n (fun i => f (S i)).
Proof. induction n; [cbn; lia|]. change (sigma (S (S n)) f) with (sigma (S n) f + f (S n)). rewrite IHn. cbn. lia. Qed.

Section Group.
Variables (w : Z) (T A : Type) (rep repb : T -> A -> Prop) (op : A -> A -> A) (e : A) (opp : A -> A).
Variables (add : T -> T -> T) (dbl neg asg : T -> T) (zero dflt : T) (fast : bool).
Hypothesis Hwb : word_bits w.
Hypothesis Hm : monoid op e.
Hypothesis Hi : fast = true -> inverses op e opp.
Hypothesis Himp : implements rep op e opp add dbl neg asg zero fast.
(** The base of a scalar multiplication need only be a weaker representative. *)
Hypothesis Hsub : forall x a, rep x a -> repb x a.
Hypothesis Hbadd : forall x y a b, rep x a -> repb y b -> rep (add x y) (op a b).
Hypothesis Hbdbl : forall x a, repb x a -> repb (dbl x) (op a a).
Hypothesis Hbneg : fast = true -> forall x a, repb x a -> repb (neg x) (opp a).
Hypothesis Hbasg : forall x a, repb x a -> repb (asg x) a.
Local Instance HbigG : bigw w := word_bits_big w Hwb.
Notation is_int := (is_int w).
Notation mul := (multiple op e).
Notation accumulate := (accumulate T add asg).
Notation elt := (elt T dflt).

Lemma op_assoc a b c : op a (op b c) = op (op a b) c. Proof. apply Hm. Qed.
Lemma op_comm a b : op a b = op b a. Proof. apply Hm. Qed.
Lemma op_e_l a : op e a = a. Proof. apply Hm. Qed.
Lemma op_e_r a : op a e = a. Proof. rewrite op_comm. apply op_e_l. Qed.
Lemma op_swap a b c d : op (op a b) (op c d) = op (op a c) (op b d).
Proof. rewrite <- !op_assoc. f_equal. rewrite !op_assoc. f_equal. apply op_comm. Qed.
Lemma op_cancel : fast = true -> forall a b c, op a b = op a c -> b = c.
Proof. intros F a b c H. assert (op (opp a) (op a b) = op (opp a) (op a c)) by congruence. rewrite !op_assoc, (op_comm (opp a) a), (Hi F), !op_e_l in H0. auto. Qed.

(** multiples by integers of any sign *)
Definition zmul (z : Z) (a : A) : A := if z <? 0 then opp (mul (- z) a) else mul z a.
Definition okz (z : Z) : Prop := fast = true \/ 0 <= z.
Lemma iter_add n m a : Nat.iter (n + m) (op a) e = op (Nat.iter n (op a) e) (Nat.iter m (op a) e).
Proof. induction n; [cbn; rewrite op_e_l; auto|]. change (op a (Nat.iter (n + m) (op a) e) = op (op a (Nat.iter n (op a) e)) (Nat.iter m (op a) e)). rewrite IHn. apply op_assoc. Qed.
Lemma mul_add x y a : 0 <= x -> 0 <= y -> mul (x + y) a = op (mul x a) (mul y a).
Proof. intros. unfold multiple. rewrite Z2Nat.inj_add by auto. apply iter_add. Qed.
Lemma mul_0 a : mul 0 a = e. Proof. reflexivity. Qed.
Lemma mul_1 a : mul 1 a = a. Proof. cbn. apply op_e_r. Qed.
Lemma zmul_pos z a : 0 <= z -> zmul z a = mul z a. Proof. intros H. unfold zmul. destruct (Z.ltb_spec z 0); [lia|auto]. Qed.
Lemma zmul_neg z a : fast = true -> z <= 0 -> op (mul (- z) a) (zmul z a) = e.
Proof. intros F H. unfold zmul. destruct (Z.ltb_spec z 0); [apply Hi; auto|]. replace z with 0 by lia. cbn. apply op_e_l. Qed.
Lemma zmul_succ z a : fast = true -> zmul (z + 1) a = op a (zmul z a).
Proof.
  intros F. destruct (Z_lt_le_dec z 0) as [L|L].
  - apply (op_cancel F (mul (- z) a)). transitivity a.
    + replace (- z) with (1 + - (z + 1)) at 1 by lia. rewrite mul_add by lia. rewrite mul_1, <- op_assoc, zmul_neg by (auto; lia). apply op_e_r.
    + rewrite op_assoc, (op_comm _ a), <- op_assoc, zmul_neg by (auto; lia). rewrite op_e_r. auto.
  - rewrite !zmul_pos by lia. rewrite Z.add_comm, mul_add, mul_1 by lia. auto.
Qed.
Lemma zmul_add_fast : fast = true -> forall x y a, zmul (x + y) a = op (zmul x a) (zmul y a).
Proof.
  intros F x y a. revert x. apply Z.peano_ind.
  - rewrite Z.add_0_l. change (zmul 0 a) with e. rewrite op_e_l. auto.
  - intros x I. unfold Z.succ. replace (x + 1 + y) with (x + y + 1) by lia. rewrite !zmul_succ by auto. rewrite I. apply op_assoc.
  - intros x I. apply (op_cancel F a). rewrite op_assoc, <- !zmul_succ by auto. replace (Z.pred x + y + 1) with (x + y) by lia. replace (Z.pred x + 1) with x by lia. auto.
Qed.
Lemma zmul_add x y a : okz x -> okz y -> zmul (x + y) a = op (zmul x a) (zmul y a).
Proof. intros [F|X] [F'|Y]; try (apply zmul_add_fast; auto; fail). rewrite !zmul_pos by lia. apply mul_add; auto. Qed.
Lemma zmul_opp x a : fast = true -> opp (zmul x a) = zmul (- x) a.
Proof. intros F. apply (op_cancel F (zmul x a)). rewrite (Hi F), <- zmul_add_fast by auto. replace (x + - x) with 0 by lia. reflexivity. Qed.
Lemma okz_add x y : okz x -> okz y -> okz (x + y). Proof. unfold okz. intros [?|?] [?|?]; auto. right. lia. Qed.
Lemma rep_acc x y a b : rep x a -> rep y b -> rep (accumulate x y) (op a b).
Proof. intros. apply (impl_asg _ _ _ _ _ _ _ _ _ _ Himp). apply (impl_add _ _ _ _ _ _ _ _ _ _ Himp); auto. Qed.
Lemma rep_accz x y u v a : okz u -> okz v -> rep x (zmul u a) -> rep y (zmul v a) -> rep (accumulate x y) (zmul (u + v) a).
Proof. intros. rewrite zmul_add by auto. apply rep_acc; auto. Qed.

Lemma rep_accb x y u v a : okz u -> okz v -> rep x (zmul u a) -> repb y (zmul v a) -> rep (accumulate x y) (zmul (u + v) a).
Proof. intros. rewrite zmul_add by auto. apply (impl_asg _ _ _ _ _ _ _ _ _ _ Himp). auto. Qed.

(** the buckets *)
Definition bucks (b : list T) (c : nat -> Z) (a : A) : Prop := forall j, (j < length b)%nat -> okz (c j) /\ rep (elt b j) (zmul (c j) a).
Definition total (n : nat) (c : nat -> Z) : Z := sigma n (fun j => (2 * Z.of_nat j + 1) * c j).
(** the suffix sums of the coefficients *)
Definition tail (n j : nat) (c : nat -> Z) : Z := sigma (n - j) (fun i => c (j + i)%nat).
Lemma tail_step n j c : (j < n)%nat -> tail n j c = c j + tail n (S j) c.
Proof. intros L. unfold tail. replace (n - j)%nat with (S (n - S j)) by lia. rewrite sigma_head. rewrite Nat.add_0_r. f_equal. apply sigma_ext. intros. f_equal. lia. Qed.
Lemma tail_nil n c : tail n n c = 0. Proof. unfold tail. rewrite Nat.sub_diag. auto. Qed.
Lemma okz_tail b c a j : bucks b c a -> okz (tail (length b) j c).
Proof.
  intros H. destruct (Bool.bool_dec fast true) as [F|F]; [left; auto|]. right. unfold tail. apply sigma_nonneg. intros i Hi'. destruct (H (j + i)%nat ltac:(lia)) as [[?|?] _]; [congruence|auto].
Qed.
(** the sum of the suffix sums from [j] on *)
Definition tails (n j : nat) (c : nat -> Z) : Z := sigma (n - j) (fun i => tail n (j + i) c).
Lemma tails_step n j c : (j < n)%nat -> tails n j c = tail n j c + tails n (S j) c.
Proof. intros L. unfold tails. replace (n - j)%nat with (S (n - S j)) by lia. rewrite sigma_head. rewrite Nat.add_0_r. f_equal. apply sigma_ext. intros. f_equal. lia. Qed.
Lemma okz_tails b c a j : bucks b c a -> okz (tails (length b) j c).
Proof.
  intros H. destruct (Bool.bool_dec fast true) as [F|F]; [left; auto|]. right. unfold tails. apply sigma_nonneg. intros i Hi'. destruct (okz_tail b c a (j + i) H) as [?|?]; [congruence|auto].
Qed.
Lemma collapse_spec b c a : bucks b c a -> forall j acc r, (j + 1 < length b)%nat ->
  rep acc (zmul (tail (length b) (S j) c) a) -> rep r (zmul (tails (length b) (S j) c) a) ->
  let '(acc, r) := collapse T add asg dflt j b acc r in rep acc (zmul (tail (length b) 1 c) a) /\ rep r (zmul (tails (length b) 1 c) a).
Proof.
  intros H. induction j; intros acc r L Ha Hr; cbn [collapse]; [auto|].
  destruct (H (S j) ltac:(lia)) as [O1 R1].
  assert (X : rep (accumulate (elt b (S j)) acc) (zmul (tail (length b) (S j) c) a)).
  { rewrite tail_step by lia. apply rep_accz; auto. apply (okz_tail b c a); auto. }
  apply IHj; [lia|exact X|]. rewrite tails_step, Z.add_comm by lia. apply rep_accz; auto; [apply (okz_tails b c a)|apply (okz_tail b c a)]; auto.
Qed.
Lemma total_tails n c : (0 < n)%nat -> total n c = 2 * tails n 1 c + tail n 0 c.
Proof.
  intros L. assert (G : forall k, (k <= n)%nat -> sigma k (fun i => (2 * Z.of_nat (n - k + i) + 1) * c (n - k + i)%nat) = 2 * tails n (S (n - k)) c + tail n (n - k) c + 2 * Z.of_nat (n - k) * tail n (n - k) c).
  { induction k; intros K.
    - cbn [sigma]. rewrite Nat.sub_0_r, tail_nil. unfold tails. replace (n - S n)%nat with 0%nat by lia. cbn [sigma]. lia.
    - rewrite sigma_head. rewrite Nat.add_0_r. rewrite (sigma_ext k _ (fun i => (2 * Z.of_nat (n - k + i) + 1) * c (n - k + i)%nat)) by (intros; replace (n - S k + S i)%nat with (n - k + i)%nat by lia; auto).
      rewrite IHk by lia. rewrite (tail_step n (n - S k)) by lia. replace (S (n - S k)) with (n - k)%nat by lia.
      destruct k as [|k]. { rewrite Nat.sub_0_r, tail_nil. unfold tails. replace (n - S n)%nat with 0%nat by lia. rewrite Nat.sub_diag. cbn [sigma]. lia. }
      rewrite (tails_step n (n - S k)) by lia. rewrite (tail_step n (n - S k)) by lia. replace (Z.of_nat (n - S k)) with (Z.of_nat (n - S (S k)) + 1) by lia. nia. }
  specialize (G n ltac:(lia)). rewrite Nat.sub_diag in G. unfold total. cbn [Nat.add] in G. rewrite G. lia.
Qed.
Lemma finish_spec b c a : (0 < length b)%nat -> bucks b c a -> rep (finish T add dbl asg dflt b) (zmul (total (length b) c) a).
Proof.
  intros L H. unfold finish. set (n := length b) in *. destruct (H (n - 1)%nat ltac:(unfold n in *; lia)) as [O1 R1].
  destruct (Nat.ltb_spec 1 n).
  - assert (T1 : tail n (n - 1) c = c (n - 1)%nat). { rewrite tail_step by lia. replace (S (n - 1)) with n by lia. rewrite tail_nil. lia. }
    assert (T2 : tails n (n - 1) c = c (n - 1)%nat). { rewrite tails_step by lia. rewrite T1. unfold tails. replace (n - S (n - 1))%nat with 0%nat by lia. cbn. lia. }
    pose proof (collapse_spec b c a H (n - 2) (elt b (n - 1)) (asg (elt b (n - 1))) ltac:(unfold n in *; lia)) as C. fold n in C. replace (S (n - 2)) with (n - 1)%nat in C by lia.
    rewrite T1, T2 in C. specialize (C R1 (impl_asg _ _ _ _ _ _ _ _ _ _ Himp _ _ R1)). destruct (collapse T add asg dflt (n - 2) b (elt b (n - 1)) (asg (elt b (n - 1)))) as [acc r]. destruct C as [C1 C2].
    apply (impl_asg _ _ _ _ _ _ _ _ _ _ Himp). rewrite total_tails, tail_step by lia. replace (2 * tails n 1 c) with (tails n 1 c + tails n 1 c) by lia.
    destruct (H 0%nat ltac:(unfold n in *; lia)) as [O0 R0]. pose proof (okz_tail b c a 1 H) as K1. pose proof (okz_tails b c a 1 H) as K2. fold n in K1, K2.
    rewrite !zmul_add by (try apply okz_add; auto). rewrite <- (zmul_add (c 0%nat)) by auto.
    apply (impl_add _ _ _ _ _ _ _ _ _ _ Himp); [apply (impl_dbl _ _ _ _ _ _ _ _ _ _ Himp); auto|]. apply rep_accz; auto.
  - replace (n - 1)%nat with 0%nat in * by lia. apply (impl_asg _ _ _ _ _ _ _ _ _ _ Himp). unfold total. replace n with 1%nat by lia. cbn [sigma]. replace (0 + (2 * Z.of_nat 0 + 1) * c 0%nat) with (c 0%nat) by lia. auto.
Qed.

(** one exponent of the scan: [v] is its value, [L] bounds the positions *)
Definition visit_ok (L : nat) (a : A) (pos : nat) (v : Z) (sb : slider * list T) : Prop :=
  let '(s, b) := sb in exists c, bucks b c a /\ (0 < length b)%nat /\
  ((s_done s = true /\ total (length b) c = v) \/
   (s_done s = false /\ s_fast s = fast /\ s_first s = false /\ length b = (2 ^ (s_size s - 1))%nat /\ (pos <= s_begin s <= L)%nat /\
    s_window s mod 2 = 1 /\ 0 < s_window s < 2 ^ Z.of_nat (s_size s) /\ (s_negate s = true -> fast = true) /\
    exists X, sl_ok w s X /\ total (length b) c + digit s * 2 ^ Z.of_nat (s_begin s) + pend s X * 2 ^ Z.of_nat (pbase s) = v /\
    pend s X * 2 ^ Z.of_nat (pbase s) <= 2 ^ Z.of_nat L)).
Lemma visit_spec L a pos v g sb : repb g (zmul (2 ^ Z.of_nat pos) a) -> visit_ok L a pos v sb -> visit_ok L a (S pos) v (visit w T add neg asg dflt pos g sb).
Proof.
  intros Hg. destruct sb as [s b]. intros (c & Hb & Hl & [[D E]|(D & F & Fi & Lb & Po & Od & Wi & Ne & X & SX & E & Bd)]); unfold visit.
  - rewrite D. exists c. auto.
  - rewrite D. cbn [negb andb]. destruct (Nat.eqb_spec pos (s_begin s)) as [Ep|Np]; cbn [negb andb].
    2:{ exists c. split; auto. split; auto. right. repeat (split; auto); try lia. exists X. auto. }
    set (k := Z.to_nat (s_window s / 2)). set (d := if s_negate s then - 2 ^ Z.of_nat pos else 2 ^ Z.of_nat pos).
    destruct SX as (SX1 & SX2 & SX3). assert (Ek : s_window s = 2 * Z.of_nat k + 1). { unfold k. rewrite Z2Nat.id by (apply Z.div_pos; lia). pose proof (Z.div_mod (s_window s) 2 ltac:(lia)). lia. }
    assert (Hk : (k < length b)%nat). { rewrite Lb. apply Nat2Z.inj_lt. rewrite Nat2Z.inj_pow. change (Z.of_nat 2) with 2. assert (2 ^ Z.of_nat (s_size s) = 2 * 2 ^ Z.of_nat (s_size s - 1)) by (rewrite <- Z.pow_succ_r by lia; f_equal; lia). lia. }
    assert (Rd : repb (if s_negate s then neg g else g) (zmul d a)).
    { unfold d. destruct (s_negate s); auto. rewrite <- zmul_opp by auto. apply Hbneg; auto. }
    assert (Od' : okz d). { unfold d, okz. destruct (s_negate s); auto. right. lia. }
    pose (c' := fun j => if (j =? k)%nat then c j + d else c j).
    assert (Tot : total (length b) c' = total (length b) c + digit s * 2 ^ Z.of_nat (s_begin s)).
    { unfold total, c'. transitivity (sigma (length b) (fun j => if (j =? k)%nat then (2 * Z.of_nat j + 1) * c j + (2 * Z.of_nat k + 1) * d else (2 * Z.of_nat j + 1) * c j)).
      - apply sigma_ext. intros i _. destruct (Nat.eqb_spec i k) as [->|]; lia.
      - rewrite sigma_upd by auto. f_equal. rewrite <- Ek, <- Ep. unfold d, digit. destruct (s_negate s); lia. }
    assert (Hb' : bucks (upd k (accumulate (elt b k) (if s_negate s then neg g else g)) b) c' a).
    { intros j Hj. rewrite upd_length in Hj. destruct (Hb j Hj) as [O1 R1]. unfold c', elt. destruct (Nat.eqb_spec j k) as [->|N].
      - split; [apply okz_add; auto|]. rewrite upd_nth_eq by auto. apply rep_accb; auto.
      - split; auto. rewrite upd_nth_neq by auto. auto. }
    pose proof (find_next_spec w Hwb s X (conj SX1 (conj SX2 SX3)) D) as (N1 & N2 & N3 & N4). rewrite <- Tot in E.
    exists c'. rewrite upd_length. split; [exact Hb'|]. split; auto. destruct N4 as [[Y0 Dn]|(Y1 & Dn & X' & SX' & Pb & Ev & O' & W' & Ng & Lm)].
    + left. split; auto. rewrite Y0 in E. lia.
    + right. split; auto. split; [congruence|]. split; auto. split; [rewrite N1; auto|]. destruct (Lm L Bd) as [Lm1 Lm2]. unfold pbase in Pb. rewrite Fi in Pb. split; [lia|].
      split; auto. split; [rewrite N1; auto|]. split; [rewrite F in Ng; auto|]. exists X'. split; auto. split; [|auto]. rewrite Ev in E. lia.
Qed.
Lemma window_size_range n : (1 <= window_size n <= 7)%nat. Proof. unfold window_size. repeat match goal with |- context [if ?x then _ else _] => destruct x end; lia. Qed.
Lemma start_ok L a x v : is_int x v -> 0 <= v <= 2 ^ Z.of_nat L -> visit_ok L a 0 v (start w T zero fast x).
Proof.
  intros Hx Hv. unfold start. set (s0 := make_slider w x fast). assert (S0 : sl_ok w s0 v). { split; [apply (copy_int w); auto|]. split; [lia|]. apply window_size_range. }
  pose proof (find_next_spec w Hwb s0 v S0 eq_refl) as (N1 & N2 & N3 & N4). exists (fun _ => 0).
  assert (Z0 : forall n, total n (fun _ => 0) = 0). { intros n. unfold total. rewrite (sigma_ext n _ (fun _ => 0)) by (intros; lia). apply sigma_zero. }
  assert (P0 : pend s0 v * 2 ^ Z.of_nat (pbase s0) = v) by (cbn; lia).
  split; [|split].
  - intros j Hj. rewrite repeat_length in Hj. split; [right; lia|]. unfold elt, AlgebraModel.elt. rewrite nth_repeat_lt by auto. apply (impl_zero _ _ _ _ _ _ _ _ _ _ Himp).
  - rewrite repeat_length. pose proof (Nat.pow_nonzero 2 (s_size (find_next w s0) - 1)). lia.
  - rewrite repeat_length, Z0. destruct N4 as [[Y0 Dn]|(Y1 & Dn & X' & SX' & Pb & Ev & O' & W' & Ng & Lm)].
    + left. split; [auto|cbn in Y0; lia].
    + right. split; auto. split; auto. split; auto. split; auto. destruct (Lm L ltac:(lia)) as [Lm1 Lm2]. split; [lia|]. split; auto. split; [rewrite N1; auto|]. split; auto.
      exists X'. split; auto. split; [|auto]. lia.
Qed.
Lemma scan_spec L a : forall fuel pos g l vs, (L < fuel + pos)%nat -> repb g (zmul (2 ^ Z.of_nat pos) a) -> Forall2 (visit_ok L a pos) vs l -> (fuel <> 0)%nat ->
  exists l', scan w T add dbl neg asg dflt fuel pos g l = Some l' /\ Forall2 (fun v sb => exists c, bucks (snd sb) c a /\ (0 < length (snd sb))%nat /\ total (length (snd sb)) c = v) vs l'.
Proof.
  induction fuel; intros pos g l vs Hf Hg H Nz; [lia|]. cbn [scan]. set (l1 := map (visit w T add neg asg dflt pos g) l).
  assert (H1 : Forall2 (visit_ok L a (S pos)) vs l1). { unfold l1. clear -Hg H Hwb Hm Hi Himp Hsub Hbadd Hbdbl Hbneg Hbasg. induction H; cbn; constructor; auto. apply visit_spec; auto. }
  destruct (existsb (fun sb => negb (s_done (fst sb))) l1) eqn:Ex.
  - apply existsb_exists in Ex. destruct Ex as ([s b] & In1 & Dn). cbn in Dn. apply negb_true_iff in Dn.
    assert (LP : (S pos <= L)%nat). { clear -H1 In1 Dn. induction H1; [contradiction|]. destruct In1 as [->|In1]; auto. destruct H as (c & _ & _ & [[D _]|(_ & _ & _ & _ & P & _)]); [congruence|lia]. }
    apply IHfuel; auto; try lia. apply Hbasg. replace (Z.of_nat (S pos)) with (Z.of_nat pos + 1) by lia. rewrite Z.pow_add_r by lia. change (2 ^ 1) with 2. replace (2 ^ Z.of_nat pos * 2) with (2 ^ Z.of_nat pos + 2 ^ Z.of_nat pos) by lia.
    rewrite zmul_add by (right; lia). apply Hbdbl; auto.
  - exists l1. split; auto. assert (Ad : forall sb, In sb l1 -> s_done (fst sb) = true).
    { intros sb I. destruct (s_done (fst sb)) eqn:E; auto. assert (existsb (fun sb => negb (s_done (fst sb))) l1 = true) by (apply existsb_exists; exists sb; rewrite E; auto). congruence. }
    clear -H1 Ad. induction H1; constructor; [|apply IHForall2; intros; apply Ad; right; auto]. destruct y as [s b]. pose proof (Ad (s, b) ltac:(left; auto)) as D. cbn in D. destruct H as (c & Hb & Hl & [[_ E]|(D' & _)]); [|congruence]. exists c. auto.
Qed.
Theorem simultaneous_spec fuel base a es vs : repb base a -> Forall2 is_int es vs -> Forall (fun v => 0 <= v <= 2 ^ Z.of_nat fuel) vs ->
  exists rs, simultaneous w T add dbl neg asg zero dflt fast (S fuel) base es = Some rs /\ Forall2 rep rs (map (fun v => mul v a) vs).
Proof.
  intros Hb He Hv. unfold simultaneous.
  assert (S0 : Forall2 (visit_ok fuel a 0) vs (map (start w T zero fast) es)).
  { clear Hb. induction He; cbn; constructor; inversion Hv; subst; auto. apply start_ok; auto. }
  destruct (scan_spec fuel a (S fuel) 0 (asg base) (map (start w T zero fast) es) vs ltac:(lia)) as (l' & E & F); auto.
  { apply Hbasg. change (2 ^ Z.of_nat 0) with 1. rewrite zmul_pos, mul_1 by lia. auto. }
  rewrite E. cbn [option_map]. eexists. split; [reflexivity|]. clear -F Hv Hm Hi Himp. induction F; cbn; constructor; inversion Hv; subst; auto.
  destruct H as (c & Hb & Hl & Et). pose proof (finish_spec (snd y) c a Hl Hb) as R. rewrite Et, zmul_pos in R by lia. exact R.
Qed.
Theorem scalar_spec fuel base a x v : repb base a -> is_int x v -> 0 <= v <= 2 ^ Z.of_nat fuel ->
  exists r, scalar_multiply w T add dbl neg asg zero dflt fast (S fuel) base x = Some r /\ rep r (mul v a).
Proof.
  intros Hb Hx Hv. destruct (simultaneous_spec fuel base a [x] [v]) as (rs & E & F); auto. cbn in F. inversion F as [|r ? rs' ? Hr Ht]; subst. unfold scalar_multiply. rewrite E. exists r. auto.
Qed.

(** the table of two bases *)
Section Two.
Variables (a b : A).
Definition comb (i j : Z) : A := op (mul i a) (mul j b).
Lemma comb_add i j k l : 0 <= i -> 0 <= j -> 0 <= k -> 0 <= l -> comb (i + k) (j + l) = op (comb i j) (comb k l).
Proof. intros. unfold comb. rewrite !mul_add by auto. apply op_swap. Qed.
Definition sexec (t : list (option (Z * Z))) (i : entry) : list (option (Z * Z)) :=
  match i with
  | Dbl k i => upd k (option_map (fun p => (2 * fst p, 2 * snd p)) (nth i t None)) t
  | Add k i j => upd k (match nth i t None, nth j t None with Some p, Some q => Some (fst p + fst q, snd p + snd q) | _, _ => None end) t
  end.
Definition tab_ok (st : list (option (Z * Z))) (t : list T) : Prop :=
  length st = length t /\ forall k i j, nth k st None = Some (i, j) -> 0 <= i /\ 0 <= j /\ rep (elt t k) (comb i j).
Lemma tab_put st t k o r : tab_ok st t -> (forall i j, o = Some (i, j) -> 0 <= i /\ 0 <= j /\ rep r (comb i j)) -> tab_ok (upd k o st) (upd k r t).
Proof.
  intros [L H] Ho. split; [rewrite !upd_length; auto|]. intros k' i j E. unfold elt, AlgebraModel.elt. destruct (Nat.eq_dec k k') as [<-|N].
  - destruct (le_lt_dec (length st) k). { rewrite nth_overflow in E by (rewrite upd_length; auto). discriminate. } rewrite upd_nth_eq in E by auto. rewrite upd_nth_eq by lia. auto.
  - rewrite upd_nth_neq in E by auto. rewrite upd_nth_neq by auto. apply H; auto.
Qed.
Lemma exec_ok st t i : tab_ok st t -> tab_ok (sexec st i) (exec T add dbl asg dflt t i).
Proof.
  intros H. destruct i as [k i|k i j]; cbn [sexec exec]; apply tab_put; auto; intros x y E.
  - destruct (nth i st None) as [[p q]|] eqn:En; [|discriminate]. apply H in En. destruct En as (P1 & Q1 & R). cbn [option_map fst snd] in E. assert (Ex : x = 2 * p) by congruence. assert (Ey : y = 2 * q) by congruence. subst x y.
    split; [lia|]. split; [lia|]. apply (impl_asg _ _ _ _ _ _ _ _ _ _ Himp). replace (2 * p) with (p + p) by lia. replace (2 * q) with (q + q) by lia. rewrite comb_add by auto. apply (impl_dbl _ _ _ _ _ _ _ _ _ _ Himp); auto.
  - destruct (nth i st None) as [[p q]|] eqn:En; [|discriminate]. destruct (nth j st None) as [[p' q']|] eqn:En'; [|discriminate]. apply H in En. apply H in En'. destruct En as (P1 & Q1 & R). destruct En' as (P2 & Q2 & R').
    cbn [fst snd] in E. assert (Ex : x = p + p') by congruence. assert (Ey : y = q + q') by congruence. subst x y. split; [lia|]. split; [lia|]. apply (impl_asg _ _ _ _ _ _ _ _ _ _ Himp). rewrite comb_add by auto. apply (impl_add _ _ _ _ _ _ _ _ _ _ Himp); auto.
Qed.
Lemma execs_ok l : forall st t, tab_ok st t -> tab_ok (fold_left sexec l st) (fold_left (exec T add dbl asg dflt) l t).
Proof. induction l; cbn; intros; auto. apply IHl. apply exec_ok. auto. Qed.
Definition stable (v : nat) : list (option (Z * Z)) := let n := (2 ^ v)%nat in fold_left sexec (table_prog v) (upd n (Some (0, 1)) (upd 1 (Some (1, 0)) (repeat None (n * n)))).
Lemma table_ok v x y : rep x a -> rep y b -> tab_ok (stable v) (table T add dbl asg dflt v x y).
Proof.
  intros Hx Hy. unfold stable, table. cbv zeta. apply execs_ok. apply tab_put.
  - apply tab_put.
    + split; [rewrite !repeat_length; auto|]. intros k i j E. exfalso. destruct (le_lt_dec (2 ^ v * 2 ^ v) k); [rewrite nth_overflow in E by (rewrite repeat_length; auto)|rewrite nth_repeat_lt in E by auto]; discriminate.
    + intros i j E. injection E as <- <-. split; [lia|]. split; [lia|]. apply (impl_asg _ _ _ _ _ _ _ _ _ _ Himp). unfold comb. rewrite mul_1, mul_0, op_e_r. auto.
  - intros i j E. injection E as <- <-. split; [lia|]. split; [lia|]. apply (impl_asg _ _ _ _ _ _ _ _ _ _ Himp). unfold comb. rewrite mul_1, mul_0, op_e_l. auto.
Qed.
Definition stable_check (v : nat) : bool :=
  let n := (2 ^ v)%nat in
  forallb (fun j => forallb (fun i => if Nat.odd i || Nat.odd j then match nth (j * n + i) (stable v) None with Some (p, q) => (p =? Z.of_nat i) && (q =? Z.of_nat j) | None => false end else true) (seq 0 n)) (seq 0 n).
Lemma stable_ok v : (1 <= v <= 3)%nat -> stable_check v = true.
Proof. intros H. assert (V : (v = 1 \/ v = 2 \/ v = 3)%nat) by lia. destruct V as [V|[V|V]]; subst v; vm_compute; reflexivity. Qed.
Lemma table_entry v x y p1 p2 : (1 <= v <= 3)%nat -> rep x a -> rep y b -> 0 <= p1 < 2 ^ Z.of_nat v -> 0 <= p2 < 2 ^ Z.of_nat v -> p1 mod 2 = 1 \/ p2 mod 2 = 1 ->
  rep (elt (table T add dbl asg dflt v x y) (Z.to_nat (Z.shiftl p2 (Z.of_nat v) + p1))) (comb p1 p2).
Proof.
  intros V Hx Hy H1 H2 Od. destruct (table_ok v x y Hx Hy) as [_ H]. apply H. clear H. pose proof (stable_ok v V) as C. unfold stable_check in C. set (n := (2 ^ v)%nat) in *.
  assert (En : Z.of_nat n = 2 ^ Z.of_nat v) by (unfold n; rewrite Nat2Z.inj_pow; auto).
  rewrite forallb_forall in C. specialize (C (Z.to_nat p2) ltac:(apply in_seq; lia)). rewrite forallb_forall in C. specialize (C (Z.to_nat p1) ltac:(apply in_seq; lia)).
  assert (OD : forall z, 0 <= z -> z mod 2 = 1 -> Nat.odd (Z.to_nat z) = true). { intros z Z0 Z1. apply Nat.odd_spec. exists (Z.to_nat (z / 2)). pose proof (Z.div_mod z 2 ltac:(lia)). assert (0 <= z / 2) by (apply Z.div_pos; lia). lia. }
  assert (E : Nat.odd (Z.to_nat p1) || Nat.odd (Z.to_nat p2) = true). { destruct Od as [O1|O1]; [rewrite (OD p1) by (auto; lia); auto|rewrite (OD p2) by (auto; lia); apply orb_true_r]. }
  rewrite E in C. rewrite Z.shiftl_mul_pow2 by lia. rewrite <- En. replace (Z.to_nat (p2 * Z.of_nat n + p1)) with (Z.to_nat p2 * n + Z.to_nat p1)%nat by lia.
  destruct (nth (Z.to_nat p2 * n + Z.to_nat p1) (stable v) None) as [[p q]|]; [|discriminate]. apply andb_prop in C. destruct C as [C1 C2]. apply Z.eqb_eq in C1, C2. rewrite Z2Nat.id in C1, C2 by lia. congruence.
Qed.

Lemma halve_spec : forall fuel p1 p2 before after, 0 <= p1 < 2 ^ Z.of_nat fuel -> 0 <= p2 < 2 ^ Z.of_nat fuel -> p1 <> 0 \/ p2 <> 0 ->
  exists t q1 q2, halve fuel p1 p2 before after = (q1, q2, (before - t)%nat, (after + t)%nat) /\ 0 <= q1 /\ 0 <= q2 /\ p1 = q1 * 2 ^ Z.of_nat t /\ p2 = q2 * 2 ^ Z.of_nat t /\ (q1 mod 2 = 1 \/ q2 mod 2 = 1).
Proof.
  induction fuel; intros p1 p2 before after H1 H2 Nz; [cbn in *; lia|]. cbn [halve].
  assert (E0 : negb (p1 =? 0) || negb (p2 =? 0) = true). { destruct (Z.eqb_spec p1 0); destruct (Z.eqb_spec p2 0); auto; lia. } rewrite E0. cbn [andb].
  destruct (Z.even p1 && Z.even p2) eqn:Ev.
  - apply andb_prop in Ev. destruct Ev as [E1 E2]. apply Z.even_spec in E1, E2. destruct E1 as [h1 ->]. destruct E2 as [h2 ->].
    replace (Z.of_nat (S fuel)) with (Z.of_nat fuel + 1) in H1, H2 by lia. rewrite Z.pow_add_r in H1, H2 by lia. change (2 ^ 1) with 2 in H1, H2.
    replace (2 * h1 / 2) with h1 by (rewrite Z.mul_comm, Z.div_mul; lia). replace (2 * h2 / 2) with h2 by (rewrite Z.mul_comm, Z.div_mul; lia).
    destruct (IHfuel h1 h2 (before - 1)%nat (S after) ltac:(lia) ltac:(lia) ltac:(lia)) as (t & q1 & q2 & E & Q1 & Q2 & P1 & P2 & Od). exists (S t), q1, q2. rewrite E.
    split; [f_equal; [f_equal|]; lia|]. repeat split; auto; replace (Z.of_nat (S t)) with (Z.of_nat t + 1) by lia; rewrite Z.pow_add_r by lia; change (2 ^ 1) with 2; lia.
  - exists 0%nat, p1, p2. rewrite Nat.sub_0_r, Nat.add_0_r. change (2 ^ Z.of_nat 0) with 1. repeat split; auto; try lia.
    apply andb_false_iff in Ev. rewrite <- !Z.negb_odd in Ev. rewrite !Zmod_odd. destruct Ev as [Ev|Ev]; apply negb_false_iff in Ev; rewrite Ev; auto.
Qed.
Lemma halve_zero fuel before after : halve fuel 0 0 before after = (0, 0, before, after). Proof. destruct fuel; reflexivity. Qed.
Lemma doubles_spec n : forall r i j, 0 <= i -> 0 <= j -> rep r (comb i j) -> rep (doubles T dbl asg n r) (comb (i * 2 ^ Z.of_nat n) (j * 2 ^ Z.of_nat n)).
Proof.
  induction n; intros r i j H1 H2 R; cbn [doubles]; [change (2 ^ Z.of_nat 0) with 1; rewrite !Z.mul_1_r; auto|].
  replace (Z.of_nat (S n)) with (1 + Z.of_nat n) by lia. rewrite Z.pow_add_r by lia. change (2 ^ 1) with 2. rewrite !Z.mul_assoc. apply IHn; try lia.
  apply (impl_asg _ _ _ _ _ _ _ _ _ _ Himp). replace (i * 2) with (i + i) by lia. replace (j * 2) with (j + j) by lia. rewrite comb_add by auto. apply (impl_dbl _ _ _ _ _ _ _ _ _ _ Himp); auto.
Qed.
Lemma bit_step v i : 0 <= v -> v / 2 ^ Z.of_nat i = 2 * (v / 2 ^ Z.of_nat (S i)) + b2z (Z.testbit v (Z.of_nat i)).
Proof.
  intros L. replace (Z.of_nat (S i)) with (Z.of_nat i + 1) by lia. rewrite Z.pow_add_r by lia. change (2 ^ 1) with 2. rewrite <- Z.div_div by lia. rewrite Z.testbit_odd, Z.shiftr_div_pow2 by lia.
  pose proof (Z.div_mod (v / 2 ^ Z.of_nat i) 2 ltac:(lia)) as D. rewrite Zmod_odd in D. unfold b2z. destruct (Z.odd (v / 2 ^ Z.of_nat i)); lia.
Qed.

Definition part (v : Z) (i prev : nat) (p : Z) : Prop := 0 <= p < 2 ^ Z.of_nat (prev - i) /\ v / 2 ^ Z.of_nat i = v / 2 ^ Z.of_nat prev * 2 ^ Z.of_nat (prev - i) + p.
Lemma part_step v i prev p : 0 <= v -> (S i <= prev)%nat -> part v (S i) prev p -> part v i prev (2 * p + b2z (Z.testbit v (Z.of_nat i))).
Proof.
  intros L K [P1 P2]. unfold part. rewrite bit_step by auto. rewrite P2. replace (Z.of_nat (prev - i)) with (Z.of_nat (prev - S i) + 1) by lia. rewrite Z.pow_add_r by lia. change (2 ^ 1) with 2.
  split; [|lia]. unfold b2z. destruct (Z.testbit v (Z.of_nat i)); lia.
Qed.
Lemma cascade_loop_spec k x y e1 e2 v1 v2 : (1 <= k <= 3)%nat -> rep x a -> rep y b -> is_int e1 v1 -> is_int e2 v2 -> 0 <= v1 -> 0 <= v2 ->
  forall i p1 p2 prev res, 2 * p1 < 2 ^ Z.of_nat k -> 2 * p2 < 2 ^ Z.of_nat k -> 0 <= p1 -> 0 <= p2 ->
  match res with
  | None => (0 < i)%nat /\ p1 = v1 / 2 ^ Z.of_nat i /\ p2 = v2 / 2 ^ Z.of_nat i /\ (v1 / 2 ^ Z.of_nat (i - 1) <> 0 \/ v2 / 2 ^ Z.of_nat (i - 1) <> 0)
  | Some r => (i <= prev)%nat /\ (i = 0 -> prev = 0)%nat /\ rep r (comb (v1 / 2 ^ Z.of_nat prev) (v2 / 2 ^ Z.of_nat prev)) /\ part v1 i prev p1 /\ part v2 i prev p2
  end -> rep (cascade_loop w T add dbl asg dflt i k (table T add dbl asg dflt k x y) e1 e2 p1 p2 prev res) (comb v1 v2).
Proof.
  intros Hk Hx Hy H1 H2 L1 L2. set (t := table T add dbl asg dflt k x y). set (M := 2 ^ Z.of_nat k).
  induction i; intros p1 p2 prev res B1 B2 N1 N2 I.
  - cbn [cascade_loop]. destruct res as [r|]; [|lia]. destruct I as (_ & Z0 & R & _). rewrite (Z0 eq_refl) in R. change (2 ^ Z.of_nat 0) with 1 in R. rewrite !Z.div_1_r in R. auto.
  - cbn [cascade_loop]. rewrite (get_bit_int w e1 v1 i H1), (get_bit_int w e2 v2 i H2), (Z.abs_eq v1 L1), (Z.abs_eq v2 L2).
    set (r1 := 2 * p1 + b2z (Z.testbit v1 (Z.of_nat i))). set (r2 := 2 * p2 + b2z (Z.testbit v2 (Z.of_nat i))). fold M.
    assert (R1 : 0 <= r1 < M). { destruct (Nat.eq_dec k 0); [lia|]. assert (EM : M = 2 * 2 ^ Z.of_nat (k - 1)). { unfold M. rewrite <- Z.pow_succ_r by lia. f_equal. lia. } unfold r1, b2z. destruct (Z.testbit v1 (Z.of_nat i)); lia. }
    assert (R2 : 0 <= r2 < M). { destruct (Nat.eq_dec k 0); [lia|]. assert (EM : M = 2 * 2 ^ Z.of_nat (k - 1)). { unfold M. rewrite <- Z.pow_succ_r by lia. f_equal. lia. } unfold r2, b2z. destruct (Z.testbit v2 (Z.of_nat i)); lia. }
    assert (V1 : res = None -> r1 = v1 / 2 ^ Z.of_nat i). { intros ->. destruct I as (_ & -> & _). symmetry. apply bit_step; auto. }
    assert (V2 : res = None -> r2 = v2 / 2 ^ Z.of_nat i). { intros ->. destruct I as (_ & _ & -> & _). symmetry. apply bit_step; auto. }
    assert (Q0 : 0 <= v1 / 2 ^ Z.of_nat prev /\ 0 <= v2 / 2 ^ Z.of_nat prev) by (split; apply Z.div_pos; lia).
    destruct ((i =? 0)%nat || (2 * r1 >=? M) || (2 * r2 >=? M)) eqn:Fl.
    + assert (G : let '(q1, q2, before, after) := halve k r1 r2 (prev - i) 0 in
        rep (doubles T dbl asg after match res with None => asg (elt t (Z.to_nat (Z.shiftl q2 (Z.of_nat k) + q1)))
          | Some r => let r := doubles T dbl asg before r in if negb (q1 =? 0) || negb (q2 =? 0) then accumulate r (elt t (Z.to_nat (Z.shiftl q2 (Z.of_nat k) + q1))) else r end) (comb (v1 / 2 ^ Z.of_nat i) (v2 / 2 ^ Z.of_nat i))).
      { assert (D : (r1 <> 0 \/ r2 <> 0) \/ (r1 = 0 /\ r2 = 0)) by lia. destruct D as [D|[Z1 Z2]].
        - destruct (halve_spec k r1 r2 (prev - i) 0 R1 R2 D) as (h & q1 & q2 & E & Q1 & Q2 & P1 & P2 & Od). rewrite E. rewrite Nat.add_0_l. assert (Hp : 1 <= 2 ^ Z.of_nat h) by lia.
          assert (TE : rep (elt t (Z.to_nat (Z.shiftl q2 (Z.of_nat k) + q1))) (comb q1 q2)) by (apply table_entry; auto; fold M; nia).
          destruct res as [r|].
          + destruct I as (I1 & I2 & I3 & I4 & I5). assert (NZ : negb (q1 =? 0) || negb (q2 =? 0) = true). { destruct (Z.eqb_spec q1 0); destruct (Z.eqb_spec q2 0); auto. subst. destruct Od; discriminate. } rewrite NZ.
            apply part_step in I4; [|auto|lia]. apply part_step in I5; [|auto|lia]. fold r1 in I4. fold r2 in I5. destruct I4 as [I4 I4']. destruct I5 as [I5 I5'].
            assert (Hh : (h <= prev - i)%nat). { destruct (le_lt_dec h (prev - i)); auto. exfalso. assert (2 ^ Z.of_nat (prev - i) <= 2 ^ Z.of_nat h) by (apply Z.pow_le_mono_r; lia). nia. }
            assert (EX : 2 ^ Z.of_nat (prev - i) = 2 ^ Z.of_nat (prev - i - h) * 2 ^ Z.of_nat h) by (rewrite <- Z.pow_add_r by lia; f_equal; lia).
            rewrite I4', I5', P1, P2, EX, !Z.mul_assoc, <- !Z.mul_add_distr_r.
            assert (0 < 2 ^ Z.of_nat (prev - i - h)) by lia. apply doubles_spec; try nia. rewrite comb_add by nia. apply rep_acc; auto. apply doubles_spec; auto; apply Q0.
          + rewrite <- V1, <- V2 by auto. rewrite P1, P2. apply doubles_spec; auto. apply (impl_asg _ _ _ _ _ _ _ _ _ _ Himp). auto.
        - rewrite Z1, Z2, halve_zero. cbn [doubles]. destruct res as [r|].
          + cbn [Z.eqb negb orb]. destruct I as (I1 & I2 & I3 & I4 & I5). apply part_step in I4; [|auto|lia]. apply part_step in I5; [|auto|lia]. fold r1 in I4. fold r2 in I5. destruct I4 as [I4 I4']. destruct I5 as [I5 I5'].
            rewrite I4', I5', Z1, Z2, !Z.add_0_r. apply doubles_spec; auto; apply Q0.
          + exfalso. rewrite V1 in Z1 by auto. rewrite V2 in Z2 by auto. destruct I as (_ & _ & _ & I). replace (S i - 1)%nat with i in I by lia. lia. }
      destruct (halve k r1 r2 (prev - i) 0) as [[[q1 q2] before] after]. apply IHi; try (unfold M; lia). split; [lia|]. split; [lia|]. split; [exact G|].
      unfold part. rewrite Nat.sub_diag. change (2 ^ Z.of_nat 0) with 1. lia.
    + apply orb_false_iff in Fl. destruct Fl as [Fl F3]. apply orb_false_iff in Fl. destruct Fl as [F1 F2]. apply Nat.eqb_neq in F1. rewrite Z.geb_leb in F2, F3. apply Z.leb_gt in F2, F3.
      apply IHi; try lia. destruct res as [r|].
      * destruct I as (I1 & I2 & I3 & I4 & I5). split; [lia|]. split; [lia|]. split; auto. split; apply part_step; auto; lia.
      * split; [lia|]. split; [auto|]. split; [auto|]. destruct I as (_ & _ & _ & I). replace (S i - 1)%nat with i in I by lia.
        replace i with (S (i - 1)) in I at 1 2 by lia. pose proof (bit_step v1 (i - 1) L1) as S1. pose proof (bit_step v2 (i - 1) L2) as S2.
        assert (0 <= v1 / 2 ^ Z.of_nat (S (i - 1))) by (apply Z.div_pos; lia). assert (0 <= v2 / 2 ^ Z.of_nat (S (i - 1))) by (apply Z.div_pos; lia).
        assert (0 <= b2z (Z.testbit v1 (Z.of_nat (i - 1))) /\ 0 <= b2z (Z.testbit v2 (Z.of_nat (i - 1)))) by (unfold b2z; destruct (Z.testbit v1 (Z.of_nat (i - 1))), (Z.testbit v2 (Z.of_nat (i - 1))); lia). lia.
Qed.
Lemma log_div v n : v <> 0 -> 0 <= v -> Z.of_nat n = Z.log2 v + 1 -> v / 2 ^ Z.of_nat (n - 1) <> 0 /\ v / 2 ^ Z.of_nat n = 0.
Proof.
  intros N L E. pose proof (Z.log2_spec v ltac:(lia)) as S. unfold Z.succ in S. rewrite <- E in S. replace (Z.log2 v) with (Z.of_nat (n - 1)) in S by (pose proof (Z.log2_nonneg v); lia). split.
  - assert (1 <= v / 2 ^ Z.of_nat (n - 1)) by (apply Z.div_le_lower_bound; lia). lia.
  - apply Z.div_small. lia.
Qed.
Theorem cascade_spec x y e1 e2 v1 v2 : rep x a -> rep y b -> is_int e1 v1 -> is_int e2 v2 -> 0 <= v1 -> 0 <= v2 ->
  rep (cascade w T add dbl asg zero dflt x e1 y e2) (op (mul v1 a) (mul v2 b)).
Proof.
  intros Hx Hy H1 H2 L1 L2. unfold cascade. pose proof (bit_count_int w e1 v1 Hwb H1) as B1. pose proof (bit_count_int w e2 v2 Hwb H2) as B2. set (len := Nat.max (bit_count w e1) (bit_count w e2)).
  rewrite !Z.abs_eq in * by auto. pose proof (Z.log2_nonneg v1). pose proof (Z.log2_nonneg v2).
  destruct (Nat.eqb_spec len 0) as [E|N].
  - destruct (Z.eqb_spec v1 0); [|lia]. destruct (Z.eqb_spec v2 0); [|lia]. subst v1 v2. rewrite !mul_0, op_e_l. apply (impl_zero _ _ _ _ _ _ _ _ _ _ Himp).
  - assert (SM : forall v m, 0 <= v -> Z.of_nat m = (if v =? 0 then 0 else Z.log2 v + 1) -> (m <= len)%nat -> v / 2 ^ Z.of_nat len = 0).
    { intros v m Lv Em Lm. apply Z.div_small. split; auto. destruct (Z.eqb_spec v 0) as [->|]; [lia|]. eapply Z.lt_le_trans; [apply (proj2 (Z.log2_spec v ltac:(lia)))|]. apply Z.pow_le_mono_r; lia. }
    apply (cascade_loop_spec _ x y e1 e2 v1 v2); auto; try lia; try (destruct (len <=? 46)%nat; [|destruct (len <=? 260)%nat]; cbn; lia).
    split; [lia|]. rewrite (SM v1 (bit_count w e1)), (SM v2 (bit_count w e2)) by (auto; lia). split; auto. split; auto.
    destruct (le_lt_dec (bit_count w e2) (bit_count w e1)).
    + left. replace len with (bit_count w e1) by lia. destruct (Z.eqb_spec v1 0); [lia|]. apply (log_div v1); auto.
    + right. replace len with (bit_count w e2) by lia. destruct (Z.eqb_spec v2 0); [lia|]. apply (log_div v2); auto.
Qed.
End Two.

(** many pairs *)
Lemma mul_op n a b : mul n (op a b) = op (mul n a) (mul n b).
Proof. unfold multiple. induction (Z.to_nat n) as [|k I]; [cbn; rewrite op_e_l; auto|]. change (op (op a b) (Nat.iter k (op (op a b)) e) = op (op a (Nat.iter k (op a) e)) (op b (Nat.iter k (op b) e))). rewrite I. apply op_swap. Qed.
Lemma mul_mul n m a : 0 <= n -> 0 <= m -> mul n (mul m a) = mul (n * m) a.
Proof.
  intros Hn Hm'. rewrite <- (Z2Nat.id n Hn). induction (Z.to_nat n) as [|k I]; [reflexivity|].
  replace (Z.of_nat (S k) * m) with (m + Z.of_nat k * m) by lia. rewrite mul_add by lia. rewrite <- I. replace (Z.of_nat (S k)) with (1 + Z.of_nat k) by lia. rewrite mul_add, mul_1 by lia. auto.
Qed.
Notation combination := (combination op e).
Lemma combination_cons p l : combination (p :: l) = op (mul (snd p) (fst p)) (combination l). Proof. reflexivity. Qed.
Lemma combination_perm l l' : Permutation l l' -> combination l = combination l'.
Proof. induction 1; rewrite ?combination_cons; auto; try congruence. rewrite !op_assoc. f_equal. apply op_comm. Qed.
Lemma combination_app l l' : combination (l ++ l') = op (combination l) (combination l').
Proof. induction l; [cbn; rewrite op_e_l; auto|]. cbn [app]. rewrite !combination_cons, IHl. apply op_assoc. Qed.
Lemma combination_zero l : Forall (fun q => snd q = 0) l -> combination l = e.
Proof. induction 1; auto. rewrite combination_cons, H, IHForall. apply op_e_l. Qed.
Definition pair_ok (p : T * integer) (q : A * Z) : Prop := rep (fst p) (fst q) /\ is_int (snd p) (snd q) /\ 0 <= snd q.
Lemma sum_perm l l' : Permutation l l' -> fold_right Z.add 0 l = fold_right Z.add 0 l'. Proof. induction 1; cbn; lia. Qed.
Lemma sum_app l l' : fold_right Z.add 0 (l ++ l') = fold_right Z.add 0 l + fold_right Z.add 0 l'. Proof. induction l; cbn; lia. Qed.
Lemma split3 {X} (l : list X) : (2 <= length l)%nat -> exists p m q, l = p :: m ++ [q].
Proof. intros H. destruct l as [|p l]; [cbn in H; lia|]. destruct (destruct_list (rev l)) as [(q & m & E)|E]. - exists p, (rev m), q. f_equal. rewrite <- (rev_involutive l), E. reflexivity. - rewrite <- (rev_involutive l), E in H. cbn in H. lia. Qed.
Lemma le_pair (p q : T * integer) v r : is_int (snd p) v -> is_int (snd q) r -> ival w (snd p) <= ival w (snd q) -> v <= r. Proof. intros [_ E] [_ F]. rewrite E, F. auto. Qed.
Variable heap : pairs T -> pairs T.
Hypothesis Hheap : heaps w heap.
Notation scalar := (scalar_multiply w T add dbl neg asg zero dflt fast).
Lemma general_loop_spec f2 : forall fuel l q, (2 <= length l)%nat -> Forall2 pair_ok l q -> Forall (fun p => snd p <= 2 ^ Z.of_nat f2) q -> fold_right Z.add 0 (map snd q) < Z.of_nat fuel ->
  exists r, general_loop w T add dbl neg asg zero dflt fast heap fuel (S f2) (heap l) = Some r /\ rep r (combination q).
Proof.
  induction fuel; intros l q Len H Hb Hf.
  { exfalso. clear -H Hf. assert (0 <= fold_right Z.add 0 (map snd q)); [|lia]. clear Hf. induction H; cbn; [lia|]. destruct H as (_ & _ & ?). lia. }
  destruct (Hheap l) as (Pm & Hz & Hbb). assert (Lh : (2 <= length (heap l))%nat) by (rewrite (Permutation_length Pm); auto). destruct (split3 _ Lh) as (p & mid & z & E). rewrite E in *.
  destruct (Permutation_Forall2 (Permutation_sym Pm) H) as (q' & Pq & F). inversion F as [|p0 qp ? q1 Fp F1 E1 E2]; subst q'. clear E1 p0. apply Forall2_app_inv_l in F1. destruct F1 as (qm & qz & Fm & Fz & ->). inversion Fz as [|z0 qz' ? ? Fz1 Fz2 E1 E3]; subst qz. inversion Fz2; subst. clear Fz Fz2.
  rename qz' into qz. destruct Fp as (Rp & Ip & Np). destruct Fz1 as (Rz & Iz & Nz). cbn [general_loop hd]. replace (last (p :: mid ++ [z]) (dflt, int_zero)) with z by (rewrite app_comm_cons, last_last; auto).
  rewrite (is_zero_int w _ _ Ip). assert (Hb' : Forall (fun p => snd p <= 2 ^ Z.of_nat f2) (qp :: qm ++ [qz])) by (eapply Permutation_Forall; eauto).
  inversion Hb' as [|? ? Bp Hb1]; subst. apply Forall_app in Hb1. destruct Hb1 as [Bm Bz]. inversion Bz as [|? ? Bz1 _]; subst. rewrite (combination_perm _ _ Pq).
  specialize (Hz (p :: mid) z eq_refl). specialize (Hbb p mid z eq_refl).
  destruct (Z.eqb_spec (snd qp) 0) as [E0|N0].
  - destruct (scalar_spec f2 (fst z) (fst qz) (snd z) (snd qz) (Hsub _ _ Rz) Iz (conj Nz Bz1)) as (r & Er & Rr). exists r. split; auto.
    change (qp :: qm ++ [qz]) with ((qp :: qm) ++ [qz]). rewrite combination_app, !combination_cons. change (combination []) with e. rewrite op_e_r. rewrite (combination_zero qm).
    + rewrite E0. rewrite op_e_r. change (mul 0 (fst qp)) with e. rewrite op_e_l. auto.
    + clear -Fm Hbb Ip E0. induction Fm as [|m q mid qm M Fm I]; constructor.
      * inversion Hbb; subst. destruct M as (_ & Im & Nm). pose proof (le_pair m p _ _ Im Ip H1). lia.
      * apply I. inversion Hbb; auto.
  - destruct (divide_int w (snd z) (snd p) (snd qz) (snd qp) Hwb Iz Ip N0) as (r & qq & vr & vq & Ed & Hr & Hq & Ev & Br). rewrite Ed. rewrite Z.abs_eq in Br by auto.
    assert (Qn : 0 <= vq) by nia. assert (Ql : vq <= snd qz) by nia. inversion Hz as [|? ? Zp _]; subst. pose proof (le_pair p z _ _ Ip Iz Zp) as Lpz.
    assert (Sc : exists s, (if compare qq int_one =? 0 then Some (fst z) else scalar (S f2) (fst z) qq) = Some s /\ rep s (mul vq (fst qz))).
    { rewrite (compare_int w _ _ _ _ Hq (one_int w)). destruct (vq ?= 1) eqn:C; cbn [Z.eqb].
      - apply Z.compare_eq in C. subst vq. exists (fst z). rewrite mul_1. auto.
      - apply (scalar_spec f2); auto. lia.
      - apply (scalar_spec f2); auto. lia. }
    destruct Sc as (s & -> & Rs). cbn [tl]. rewrite removelast_last.
    assert (F' : Forall2 pair_ok ((accumulate (fst p) s, snd p) :: mid ++ [(fst z, r)]) ((op (fst qp) (mul vq (fst qz)), snd qp) :: qm ++ [(fst qz, vr)])).
    { constructor; [split; [apply rep_acc; auto|auto]|]. apply Forall2_app; auto. constructor; [|constructor]. split; auto. split; auto. cbn. lia. }
    assert (L' : (2 <= length ((accumulate (fst p) s, snd p) :: mid ++ [(fst z, r)]))%nat) by (cbn [length]; rewrite app_length; cbn [length]; lia).
    destruct (IHfuel _ _ L' F') as (x & Ex & Rx).
    + constructor; [auto|]. apply Forall_app. split; auto. constructor; [cbn; lia|constructor].
    + assert (Sm : fold_right Z.add 0 (map snd q) = fold_right Z.add 0 (map snd (qp :: qm ++ [qz]))) by (apply sum_perm, Permutation_map; auto).
      rewrite Sm in Hf. cbn [map fold_right snd] in *. rewrite map_app, sum_app in *. cbn [map fold_right snd] in *. nia.
    + exists x. split; auto. replace (combination (qp :: qm ++ [qz])) with (combination ((op (fst qp) (mul vq (fst qz)), snd qp) :: qm ++ [(fst qz, vr)])); auto.
      rewrite !combination_cons, !combination_app, !combination_cons. change (combination []) with e. cbn [fst snd]. rewrite !op_e_r.
      rewrite mul_op, mul_mul by auto. rewrite Ev, mul_add by (try apply Z.mul_nonneg_nonneg; lia). rewrite (Z.mul_comm (snd qp) vq). set (u := mul (snd qp) (fst qp)). set (v := mul (vq * snd qp) (fst qz)). set (x1 := combination qm). set (y := mul vr (fst qz)).
      rewrite <- op_assoc. f_equal. rewrite (op_comm v), <- !op_assoc. f_equal. apply op_comm.
Qed.
Theorem general_spec f2 fuel l q : l <> [] -> Forall2 pair_ok l q -> Forall (fun p => snd p <= 2 ^ Z.of_nat f2) q -> fold_right Z.add 0 (map snd q) < Z.of_nat fuel ->
  exists r, general w T add dbl neg asg zero dflt fast heap fuel (S f2) l = Some r /\ rep r (combination q).
Proof.
  intros N H Hb Hf. destruct l as [|[x e1] [|[y e2] [|z l]]]; [congruence| | |].
  - inversion H as [|? q1 ? ? P1 P2]; subst. inversion P2; subst. destruct P1 as (R1 & I1 & N1). inversion Hb; subst. unfold general. destruct (scalar_spec f2 x (fst q1) e1 (snd q1)) as (r & E & R); auto. exists r. split; auto. rewrite combination_cons. change (combination []) with e. rewrite op_e_r. auto.
  - inversion H as [|? q1 ? ? P1 P2]; subst. inversion P2 as [|? q2 ? ? P3 P4]; subst. inversion P4; subst. destruct P1 as (R1 & I1 & N1). destruct P3 as (R2 & I2 & N2). unfold general. eexists. split; [reflexivity|]. rewrite !combination_cons. change (combination []) with e. rewrite op_e_r. apply cascade_spec; auto.
  - unfold general. apply general_loop_spec; auto. cbn. lia.
Qed.
End Group.
