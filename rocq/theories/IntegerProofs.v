(** Proofs about the class Integer: representation, comparison, addition, subtraction. *)
From Coq Require Import ZArith List Bool Arith Lia.
From Verif Require Import Base WordsSpec WordsModel WordsProofs WordsRecProofs WordsAsymProofs IntegerModel IntegerSpec.
Import ListNotations.
Local Open Scope Z_scope.

Global Instance word_bits_big w : word_bits w -> bigw w.
Proof. unfold bigw, word_bits. lia. Qed.

Lemma log2_up_pow2 n : (1 < n)%nat -> (2 ^ (Nat.log2_up n) >= n)%nat.
Proof. intros H. pose proof (Nat.log2_up_spec n H). lia. Qed.
Lemma roundup_spec n : pow2_size (roundup n) /\ (n <= roundup n)%nat /\ forall m, pow2_size m -> (n <= m)%nat -> (roundup n <= m)%nat.
Proof.
  assert (K : forall k, (1 <= k)%nat -> pow2_size (2 ^ k)) by (intros; exists k; auto).
  assert (Q : forall k j m, pow2_size m -> (2 ^ k < m)%nat -> j = S k -> (2 ^ j <= m)%nat). { intros k j m (i & Hi & ->) L ->. apply Nat.pow_le_mono_r; [lia|]. apply Nat.pow_lt_mono_r_iff in L; lia. }
  assert (M2 : forall m, pow2_size m -> (2 <= m)%nat). { intros m (i & Hi & ->). change 2%nat with (2 ^ 1)%nat at 1. apply Nat.pow_le_mono_r; lia. }
  unfold roundup. destruct (Nat.leb_spec n 8) as [L|L].
  - assert (C : (n <= 2 \/ (3 <= n <= 4) \/ (5 <= n <= 8))%nat) by lia. destruct C as [C|[C|C]].
    + assert (E : nth n [2; 2; 2; 4; 4; 8; 8; 8; 8]%nat 0%nat = 2%nat) by (destruct n as [|[|[|]]]; try reflexivity; lia). rewrite E. split; [apply (K 1%nat); lia|]. split; [lia|]. auto.
    + assert (E : nth n [2; 2; 2; 4; 4; 8; 8; 8; 8]%nat 0%nat = 4%nat) by (destruct n as [|[|[|[|[|]]]]]; try reflexivity; lia). rewrite E. split; [apply (K 2%nat); lia|]. split; [lia|]. intros. apply (Q 1%nat 2%nat); auto. cbn; lia.
    + assert (E : nth n [2; 2; 2; 4; 4; 8; 8; 8; 8]%nat 0%nat = 8%nat) by (destruct n as [|[|[|[|[|[|[|[|[|]]]]]]]]]; try reflexivity; lia). rewrite E. split; [apply (K 3%nat); lia|]. split; [lia|]. intros. apply (Q 2%nat 3%nat); auto. cbn; lia.
  - destruct (Nat.leb_spec n 16). { split; [apply (K 4%nat); lia|]. split; [lia|]. intros. apply (Q 3%nat 4%nat); auto. cbn; lia. }
    destruct (Nat.leb_spec n 32). { split; [apply (K 5%nat); lia|]. split; [lia|]. intros. apply (Q 4%nat 5%nat); auto. cbn; lia. }
    destruct (Nat.leb_spec n 64). { split; [apply (K 6%nat); lia|]. split; [lia|]. intros. apply (Q 5%nat 6%nat); auto. cbn; lia. }
    pose proof (Nat.log2_up_spec n ltac:(lia)) as [S1 S2]. assert (H3 : (1 <= Nat.log2_up n)%nat) by (destruct (Nat.log2_up n); cbn in S2; lia). split; [apply K; auto|]. split; auto.
    intros m Hm Lm. apply (Q (Nat.pred (Nat.log2_up n))); auto; lia.
Qed.
Lemma roundup_pow n : pow2_size (roundup n). Proof. apply roundup_spec. Qed.
Lemma roundup_ge n : (n <= roundup n)%nat. Proof. apply roundup_spec. Qed.
Lemma roundup_le n m : pow2_size m -> (n <= m)%nat -> (roundup n <= m)%nat. Proof. apply roundup_spec. Qed.
Lemma pow2_ge2 m : pow2_size m -> (2 <= m)%nat.
Proof. intros (i & Hi & ->). change 2%nat with (2 ^ 1)%nat at 1. apply Nat.pow_le_mono_r; lia. Qed.
Lemma roundup_id m : pow2_size m -> roundup m = m.
Proof. intros H. pose proof (roundup_ge m). pose proof (roundup_le m m H ltac:(lia)). lia. Qed.
Lemma pow2_double m : pow2_size m -> pow2_size (2 * m).
Proof. intros (i & Hi & ->). exists (S i). split; [lia|]. reflexivity. Qed.
Lemma pow2_even m : pow2_size m -> (m mod 2 = 0 /\ 2 * (m / 2) = m)%nat.
Proof. intros (i & Hi & ->). destruct i; [lia|]. cbn [Nat.pow]. rewrite (Nat.mul_comm 2). rewrite Nat.mod_mul, Nat.div_mul by lia. lia. Qed.

Section Int.
Variable w : Z.
Context {Hbig : bigw w}.
Notation B := (base w).
Notation V := (wval w).
Notation W := (words w).
Notation P := (P w).

Lemma firstn_store (d x : list Z) : (length x <= length d)%nat -> length (store d x) = length d.
Proof. intros H. unfold store. rewrite app_length, skipn_length. lia. Qed.
Lemma W_store d x : W d -> W x -> W (store d x).
Proof. intros. unfold store. apply W_app. split; auto. apply W_skipn. auto. Qed.
Lemma store_zero n x : store (repeat 0 n) x = x ++ repeat 0 (n - length x).
Proof. unfold store. f_equal. generalize (length x) as k. clear. induction n; intros [|k]; cbn; auto. Qed.
Lemma V_store0 n x : V (store (repeat 0 n) x) = V x.
Proof. rewrite store_zero, V_app, V_repeat0. lia. Qed.
Lemma V_store_zero d x : V (skipn (length x) d) = 0 -> V (store d x) = V x.
Proof. intros H. unfold store. rewrite V_app, H. lia. Qed.
Lemma W_grow l n : W l -> W (clean_grow l n).
Proof. intros. apply W_app. split; auto. apply (W_repeat0 w). Qed.
Lemma V_grow l n : V (clean_grow l n) = V l.
Proof. unfold clean_grow. rewrite V_app, V_repeat0. lia. Qed.
Lemma grow_len l n : length (clean_grow l n) = Nat.max (length l) n.
Proof. unfold clean_grow. rewrite app_length, repeat_length. lia. Qed.

(** The number of words in use. *)
Lemma wc_spec X : W X -> let n := count_words X (length X) in
  (n <= length X)%nat /\ V (firstn n X) = V X /\ V X < P n /\ (n <> 0%nat -> P (n - 1) <= V X) /\ (n = 0%nat <-> V X = 0) /\ skipn n X = repeat 0 (length X - n).
Proof.
  intros HX n. destruct (count_words_spec w (length X) X ltac:(lia)) as (C1 & C2 & C3). fold n in C1, C2, C3. rewrite firstn_all in C2.
  pose proof (V_bound w _ (W_firstn w n X HX)) as Bn. rewrite firstn_length, Nat.min_l in Bn by auto.
  assert (LB : n <> 0%nat -> P (n - 1) <= V X). { intros Hn. specialize (C3 Hn). rewrite C2. destruct n as [|n']; [lia|]. replace (S n' - 1)%nat with n' in * by lia. rewrite V_firstn_S by lia.
    pose proof (V_bound w _ (W_firstn w n' X HX)). pose proof (W_at w X n' HX). pose proof (P_pos w n'). nia. }
  split; auto. split; auto. split; [lia|]. split; auto. split.
  - split; intros E; [rewrite C2, E; reflexivity|]. destruct (Nat.eq_dec n 0) as [|N]; auto. specialize (LB N). pose proof (P_pos w (n - 1)). lia.
  - pose proof (V_firstn_skipn w n X C1) as S. assert (Z0 : V (skipn n X) = 0) by (pose proof (P_pos w n); pose proof (V_bound w _ (W_skipn w n X HX)); nia). pose proof (V_zero w _ (W_skipn w n X HX) Z0) as Q. rewrite skipn_length in Q. auto.
Qed.
Lemma V_fits n l : W l -> V l < P n -> V (firstn n l) = V l /\ V (skipn n l) = 0.
Proof.
  intros H E. destruct (Nat.leb_spec (length l) n) as [L|L]. { rewrite firstn_all2, skipn_all2 by auto. auto. }
  pose proof (V_firstn_skipn w n l ltac:(lia)) as S. pose proof (V_bound w _ (W_firstn w n l H)) as B1. pose proof (V_bound w _ (W_skipn w n l H)) as B2. pose proof (P_pos w n).
  assert (Z0 : V (skipn n l) = 0) by nia. split; [lia|auto].
Qed.
(** Any larger count of words also holds the value. *)
Lemma V_firstn_ge X n : W X -> (count_words X (length X) <= n)%nat -> V (firstn n X) = V X /\ V (skipn n X) = 0.
Proof. intros HX H. destruct (wc_spec X HX) as (_ & _ & C3 & _). apply V_fits; auto. pose proof (P_mono w _ _ H). lia. Qed.
Lemma wc_le X n : W X -> V X < P n -> (count_words X (length X) <= n)%nat.
Proof.
  intros HX H. destruct (wc_spec X HX) as (_ & _ & _ & C4 & _). destruct (Nat.leb_spec (count_words X (length X)) n) as [|L]; auto.
  specialize (C4 ltac:(lia)). pose proof (P_mono w n (count_words X (length X) - 1) ltac:(lia)). lia.
Qed.

Notation valid := (valid w).
Notation ival := (ival w).
Notation is_int := (is_int w).

Lemma valid_len x : valid x -> (2 <= length (reg x))%nat.
Proof. intros (_ & H & _). apply pow2_ge2; auto. Qed.
Lemma mk_int (s : bool) r v : W r -> pow2_size (length r) -> (if s then -1 else 1) * V r = v -> (s = true -> v <> 0) -> is_int (mkInt s r) v.
Proof. intros HW HL HV HS. split; [split; [auto|split; [auto|]]|auto]. cbn [neg reg]. intros E H. apply (HS E). rewrite H in HV. destruct s; lia. Qed.
Lemma pos_int r v : W r -> pow2_size (length r) -> V r = v -> is_int (mkInt false r) v.
Proof. intros. apply mk_int; auto. lia. discriminate. Qed.
Lemma pow2_2 : pow2_size 2. Proof. exists 1%nat. auto. Qed.
Lemma small_W x : 0 <= x < 2 ^ 32 -> W [x; 0].
Proof. intros H. pose proof (B_big w). apply W_cons. split; [lia|]. apply W_cons. split; [lia|apply W_nil]. Qed.
Lemma zero_int : is_int int_zero 0.
Proof. apply pos_int; [apply small_W; lia|apply pow2_2|]. rewrite !V_cons, V_nil. lia. Qed.
Lemma one_int : is_int int_one 1.
Proof. apply pos_int; [apply small_W; lia|apply pow2_2|]. rewrite !V_cons, V_nil. lia. Qed.
Lemma ival_abs x : valid x -> Z.abs (ival x) = V (reg x).
Proof. intros (H & _). pose proof (V_bound w _ H). unfold IntegerSpec.ival. destruct (neg x); lia. Qed.
Lemma ival_neg x : valid x -> neg x = (ival x <? 0).
Proof. intros (H & _ & H2). pose proof (V_bound w _ H). unfold IntegerSpec.ival. destruct (neg x); [specialize (H2 eq_refl)|]; symmetry; [apply Z.ltb_lt|apply Z.ltb_ge]; lia. Qed.

Lemma copy_int x v : is_int x v -> is_int (copy x) v.
Proof.
  intros [(H1 & H2 & H3) HV]. pose proof (roundup_spec (word_count x)) as (R1 & R2 & R3). destruct (wc_spec (reg x) H1) as (C1 & _). fold (word_count x) in C1. specialize (R3 _ H2 C1).
  destruct (V_firstn_ge (reg x) (roundup (word_count x)) H1 R2) as [E _]. unfold copy. unfold IntegerSpec.ival in HV.
  split; [split; [|split]|]; unfold IntegerSpec.ival; cbn [neg reg]; [apply W_firstn; auto|rewrite firstn_length, Nat.min_l by auto; auto|rewrite E; auto|rewrite E; auto].
Qed.
Lemma assign_int n x v : is_int x v -> is_int (assign n x) v.
Proof. intros H. unfold assign. destruct (_ || _); auto. apply copy_int. auto. Qed.
Lemma copy_len x : valid x -> length (reg (copy x)) = roundup (word_count x).
Proof. intros (H1 & H2 & _). unfold copy. cbn [reg]. rewrite firstn_length. destruct (wc_spec (reg x) H1) as (C1 & _). fold (word_count x) in C1. pose proof (roundup_le _ _ H2 C1). lia. Qed.
Lemma of_word_int v n : 0 <= v < B -> is_int (of_word v n) v.
Proof.
  intros H. pose proof (roundup_pow n) as R. pose proof (pow2_ge2 _ R). apply pos_int; [apply W_cons; split; auto; apply (W_repeat0 w)| |rewrite V_cons, V_repeat0; lia].
  cbn [length]. rewrite repeat_length. replace (S (roundup n - 1)) with (roundup n) by lia. auto.
Qed.
Lemma is_zero_int x v : is_int x v -> is_zero x = (v =? 0).
Proof.
  intros [(H1 & H2 & H3) <-]. destruct (wc_spec (reg x) H1) as (_ & _ & _ & _ & C5 & _). unfold is_zero, word_count, IntegerSpec.ival. pose proof (V_bound w _ H1).
  destruct (neg x). { specialize (H3 eq_refl). symmetry. apply Z.eqb_neq. lia. }
  destruct (Nat.eqb_spec (count_words (reg x) (length (reg x))) 0) as [E|E].
  - apply C5 in E. pose proof (V_zero w _ H1 E) as Q. rewrite Q at 1. unfold at_. rewrite nth_repeat. rewrite E. reflexivity.
  - rewrite andb_false_r. symmetry. apply Z.eqb_neq. intros Q. apply E. apply C5. lia.
Qed.
Lemma negate_int x v : is_int x v -> is_int (negate x) (- v).
Proof.
  intros H. unfold negate. rewrite (is_zero_int x v H). destruct (Z.eqb_spec v 0) as [->|E]; cbn [negb]; auto.
  destruct H as [(H1 & H2 & H3) HV]. apply mk_int; auto; [|intros; lia]. unfold IntegerSpec.ival in HV. rewrite <- HV. destruct (neg x); cbn [negb]; lia.
Qed.
Lemma opp_int x v : is_int x v -> is_int (int_opp x) (- v).
Proof. intros. apply negate_int, copy_int. auto. Qed.
Lemma abs_int x v : is_int x v -> is_int (int_abs x) (Z.abs v).
Proof. intros H. apply copy_int in H. destruct H as [H HV]. rewrite <- HV, ival_abs by auto. destruct H as (H1 & H2 & H3). apply pos_int; auto. Qed.

Lemma pos_compare_int x t : valid x -> valid t -> positive_compare x t = match V (reg x) ?= V (reg t) with Lt => -1 | Eq => 0 | Gt => 1 end.
Proof.
  intros (H1 & H2 & _) (T1 & T2 & _). unfold positive_compare, word_count. destruct (wc_spec (reg x) H1) as (C1 & C2 & C3 & C4 & C5 & C6). destruct (wc_spec (reg t) T1) as (D1 & D2 & D3 & D4 & D5 & D6).
  set (n := count_words (reg x) _) in *. set (m := count_words (reg t) _) in *. destruct (Nat.eqb_spec n m) as [E|E]; cbn [negb].
  - rewrite w_cmp_spec with (w := w); auto; [|lia]. rewrite C2. rewrite E, D2. reflexivity.
  - destruct (Nat.ltb_spec m n) as [L|L].
    + specialize (C4 ltac:(lia)). pose proof (P_mono w m (n - 1) ltac:(lia)). rewrite (proj2 (Z.compare_gt_iff _ _)); [reflexivity|lia].
    + specialize (D4 ltac:(lia)). pose proof (P_mono w n (m - 1) ltac:(lia)). rewrite (proj2 (Z.compare_lt_iff _ _)); [reflexivity|lia].
Qed.
Lemma compare_int x t a b : is_int x a -> is_int t b -> compare x t = match a ?= b with Lt => -1 | Eq => 0 | Gt => 1 end.
Proof.
  intros [H <-] [T <-]. unfold compare. rewrite pos_compare_int by auto. destruct H as (H1 & H2 & H3), T as (T1 & T2 & T3). unfold IntegerSpec.ival. pose proof (V_bound w _ H1). pose proof (V_bound w _ T1).
  destruct (neg x); [specialize (H3 eq_refl)|]; (destruct (neg t); [specialize (T3 eq_refl)|]); cbn [negb].
  - destruct (Z.compare_spec (V (reg x)) (V (reg t))), (Z.compare_spec (-1 * V (reg x)) (-1 * V (reg t))); lia.
  - destruct (Z.compare_spec (-1 * V (reg x)) (1 * V (reg t))); lia.
  - destruct (Z.compare_spec (1 * V (reg x)) (-1 * V (reg t))); lia.
  - rewrite !Z.mul_1_l. reflexivity.
Qed.

(** ** Addition and subtraction *)
Lemma carry_grow r c : W r -> pow2_size (length r) -> 0 <= c <= 1 ->
  let r2 := if negb (c =? 0) then let r' := clean_grow r (2 * length r) in upd (length r' / 2) 1 r' else r in
  W r2 /\ pow2_size (length r2) /\ V r2 = V r + P (length r) * c.
Proof.
  intros HW HL Hc. pose proof (pow2_ge2 _ HL). destruct (Z.eqb_spec c 0) as [->|E]; cbn [negb]; cbv zeta. { split; auto. split; auto. lia. }
  replace c with 1 by lia. rewrite grow_len. replace (Nat.max (length r) (2 * length r)) with (length r * 2)%nat by lia. rewrite Nat.div_mul by lia.
  split; [apply W_upd; [apply W_grow; auto|pose proof (B_big w); lia]|]. rewrite upd_len, grow_len. replace (Nat.max (length r) (2 * length r)) with (2 * length r)%nat by lia. split; [apply pow2_double; auto|].
  rewrite V_upd by (rewrite grow_len; lia). rewrite V_grow. unfold clean_grow. rewrite at_app2 by lia. unfold at_. rewrite nth_repeat. lia.
Qed.
Lemma zeros_after d n : W d -> V d < P n -> V (skipn n d) = 0.
Proof. intros. apply V_fits; auto. Qed.
Lemma nonnil (l : list Z) : (0 < length l)%nat -> l <> [].
Proof. destruct l; cbn; [lia|discriminate]. Qed.
(** The destination is large enough and holds zeros above the operands. *)
Lemma positive_add_spec d a b : W d -> W a -> W b -> pow2_size (length d) -> length d = Nat.max (length a) (length b) ->
  let r := positive_add w d a b in W r /\ pow2_size (length r) /\ V r = V a + V b.
Proof.
  intros Wd Wa Wb HL Ld. unfold positive_add. pose proof (B_big w) as HB. change (2 ^ 32) with 4294967296 in HB.
  assert (G : forall x y n, W x -> W y -> (n <= length x)%nat -> length y = n -> (n < length x)%nat -> 
     let x1 := fst (w_add w (firstn n x) y) in let c1 := snd (w_add w (firstn n x) y) in let y1 := fst (w_inc w (skipn n x) c1) in let c2 := snd (w_inc w (skipn n x) c1) in
     W (x1 ++ y1) /\ length (x1 ++ y1) = length x /\ 0 <= c2 <= 1 /\ V (x1 ++ y1) + P (length x) * c2 = V x + V y).
  { intros x y n Wx Wy L1 L2 L3. destruct (w_add_spec w (firstn n x) y (W_firstn w n x Wx) Wy ltac:(rewrite firstn_length; lia)) as (a1 & a2 & a3 & a4). cbv zeta. set (x1 := fst (w_add w (firstn n x) y)) in *. set (c1 := snd (w_add w (firstn n x) y)) in *.
    destruct (w_inc_spec w (skipn n x) c1 (W_skipn w n x Wx) ltac:(apply nonnil; rewrite skipn_length; lia) ltac:(lia)) as (b1 & b2 & b3 & b4). rewrite skipn_length in b2, b4. rewrite firstn_length, Nat.min_l in a2, a4 by lia.
    split; [apply W_app; auto|]. split; [rewrite app_length; lia|]. split; auto. rewrite V_app, a2, (V_firstn_skipn w n x) by lia. replace (length x) with (n + (length x - n))%nat at 1 by lia. rewrite P_add. nia. }
  destruct (Nat.ltb_spec (length b) (length a)) as [L|L]; [|destruct (Nat.eqb_spec (length a) (length b)) as [E|E]].
  - specialize (G a b (length b) Wa Wb ltac:(lia) eq_refl L). cbv zeta in G. destruct (w_add w (firstn (length b) a) b) as [x c]. cbn [fst snd] in G. destruct (w_inc w (skipn (length b) a) c) as [y c2]. cbn [fst snd] in G. destruct G as (g1 & g2 & g3 & g4).
    assert (SE : store d (x ++ y) = x ++ y) by (unfold store; rewrite skipn_all2, app_nil_r by lia; auto). rewrite SE.
    destruct (carry_grow (x ++ y) c2 g1 ltac:(rewrite g2; replace (length a) with (length d) by lia; auto) g3) as (h1 & h2 & h3). split; [exact h1|]. split; [exact h2|]. etransitivity; [exact h3|]. rewrite g2. exact g4.
  - destruct (w_add_spec w a b Wa Wb E) as (a1 & a2 & a3 & a4). destruct (w_add w a b) as [x c]. cbn [fst snd] in *.
    assert (SE : store d x = x) by (unfold store; rewrite skipn_all2, app_nil_r by lia; auto). rewrite SE.
    destruct (carry_grow x c a1 ltac:(rewrite a2; replace (length a) with (length d) by lia; auto) a3) as (h1 & h2 & h3). split; [exact h1|]. split; [exact h2|]. etransitivity; [exact h3|]. rewrite a2. exact a4.
  - specialize (G b a (length a) Wb Wa ltac:(lia) eq_refl ltac:(lia)). cbv zeta in G.
    assert (CO : w_add w a (firstn (length a) b) = w_add w (firstn (length a) b) a).
    { pose proof (W_firstn w (length a) b Wb) as Wf. assert (Lf : length (firstn (length a) b) = length a) by (rewrite firstn_length; lia). destruct (w_add_spec w a (firstn (length a) b) Wa Wf ltac:(lia)) as (a1 & a2 & a3 & a4). destruct (w_add_spec w (firstn (length a) b) a Wf Wa ltac:(lia)) as (b1 & b2 & b3 & b4).
      rewrite Lf in *. pose proof (V_bound w _ a1) as q1. pose proof (V_bound w _ b1) as q2. rewrite a2 in q1. rewrite b2 in q2. pose proof (P_pos w (length a)).
      destruct (w_add w a _) as [x c], (w_add w _ a) as [y e]. cbn [fst snd] in *. assert (c = e) by nia. subst e. f_equal. apply (V_inj w); auto; [lia|]. nia. }
    rewrite CO. destruct (w_add w (firstn (length a) b) a) as [x c]. cbn [fst snd] in G. destruct (w_inc w (skipn (length a) b) c) as [y c2]. cbn [fst snd] in G. destruct G as (g1 & g2 & g3 & g4).
    assert (SE : store d (x ++ y) = x ++ y) by (unfold store; rewrite skipn_all2, app_nil_r by lia; auto). rewrite SE.
    destruct (carry_grow (x ++ y) c2 g1 ltac:(rewrite g2; replace (length b) with (length d) by lia; auto) g3) as (h1 & h2 & h3). split; [exact h1|]. split; [exact h2|]. etransitivity; [exact h3|]. rewrite g2. lia.
Qed.

Lemma even_up_spec n L : (n <= L)%nat -> (L mod 2 = 0)%nat -> (n <= even_up n <= L /\ even_up n <= n + 1 /\ even_up n mod 2 = 0)%nat.
Proof. unfold even_up. intros H E. pose proof (Nat.div_mod n 2 ltac:(lia)). pose proof (Nat.mod_upper_bound n 2 ltac:(lia)). pose proof (Nat.div_mod L 2 ltac:(lia)).
  assert (Q : (n mod 2 = 0 \/ n mod 2 = 1)%nat) by lia. destruct Q as [Q|Q]; rewrite Q in *.
  - rewrite Nat.add_0_r, Q. lia.
  - split; [lia|]. split; [lia|]. rewrite Nat.add_mod, Q by lia. reflexivity. Qed.

Lemma even_lt m n : (m mod 2 = 0 -> n mod 2 = 0 -> m < n -> m + 2 <= n)%nat.
Proof. intros A C H. pose proof (Nat.div_mod m 2 ltac:(lia)). pose proof (Nat.div_mod n 2 ltac:(lia)). lia. Qed.
(** a is longer: the difference is positive. *)
Lemma sub_long a b n m : W a -> W b -> (m < n)%nat -> (n <= length a)%nat -> (m <= length b)%nat -> V a < P n -> V b < P m -> V b <= V a ->
  let x := fst (w_sub w (firstn m a) (firstn m b)) in let c := snd (w_sub w (firstn m a) (firstn m b)) in
  let y := fst (w_dec w (sub_ m (n - m) a) c) in W (x ++ y) /\ length (x ++ y) = n /\ V (x ++ y) = V a - V b.
Proof.
  intros Wa Wb L1 L2 L3 Ha Hb Hle. destruct (V_fits n a Wa Ha) as [A1 _]. destruct (V_fits m b Wb Hb) as [B1 _]. pose proof (B_big w) as HB. change (2 ^ 32) with 4294967296 in HB.
  destruct (w_sub_spec w (firstn m a) (firstn m b) (W_firstn w m a Wa) (W_firstn w m b Wb) ltac:(rewrite !firstn_length; lia)) as (s1 & s2 & s3 & s4). cbv zeta. set (x := fst (w_sub w _ _)) in *. set (c := snd (w_sub w _ _)) in *.
  assert (Ls : length (sub_ m (n - m) a) = (n - m)%nat) by (unfold sub_; rewrite firstn_length, skipn_length; lia). assert (Ws : W (sub_ m (n - m) a)) by (apply W_firstn, W_skipn; auto).
  destruct (w_dec_spec w (sub_ m (n - m) a) c Ws ltac:(apply nonnil; lia) ltac:(lia)) as (d1 & d2 & d3 & d4). set (y := fst (w_dec w _ _)) in *. set (e := snd (w_dec w _ _)) in *. rewrite Ls in *. rewrite firstn_length, Nat.min_l in s2, s4 by lia.
  assert (SP : V (firstn n a) = V (firstn m a) + P m * V (sub_ m (n - m) a)). { rewrite (V_firstn_skipn w m (firstn n a)) by (rewrite firstn_length; lia). rewrite firstn_firstn, Nat.min_l by lia. rewrite skipn_firstn_comm. reflexivity. }
  pose proof (V_bound w _ d1) as By. rewrite d2 in By. pose proof (V_bound w _ s1) as Bx. rewrite s2 in Bx. pose proof (P_pos w m). pose proof (P_pos w (n - m)).
  split; [apply W_app; auto|]. split; [rewrite app_length; lia|]. rewrite V_app, s2.
  assert (T : V x + P m * V y - P m * P (n - m) * e = V a - V b) by nia.
  assert (E0 : e = 0). { clearbody x y c e. assert (P m * (V y + 1) <= P m * P (n - m)) by (apply Z.mul_le_mono_nonneg_l; lia). destruct (Z.eq_dec e 1) as [->|]; lia. }
  rewrite E0 in T. lia.
Qed.
Lemma positive_sub_spec d a b : W d -> W a -> W b -> pow2_size (length d) -> pow2_size (length a) -> pow2_size (length b) -> (length a <= length d)%nat -> (length b <= length d)%nat -> V d <= Z.max (V a) (V b) ->
  is_int (positive_sub w d a b) (V a - V b) /\ length (reg (positive_sub w d a b)) = length d.
Proof.
  intros Wd Wa Wb Hd Ha Hb La Lb HV. unfold positive_sub. destruct (wc_spec a Wa) as (A1 & A2 & A3 & A4 & _). destruct (wc_spec b Wb) as (B1 & B2 & B3 & B4 & _). set (na := count_words a _) in *. set (nb := count_words b _) in *.
  destruct (even_up_spec na (length a) A1 (proj1 (pow2_even _ Ha))) as (E1 & E2 & E3). destruct (even_up_spec nb (length b) B1 (proj1 (pow2_even _ Hb))) as (F1 & F2 & F3). set (n := even_up na) in *. set (m := even_up nb) in *.
  assert (An : V a < P n) by (pose proof (P_mono w na n ltac:(lia)); lia). assert (Bm : V b < P m) by (pose proof (P_mono w nb m ltac:(lia)); lia).
  assert (Fin : forall s x k v, W x -> length x = k -> (k <= length d)%nat -> V d < P k -> V x = v -> (s = true -> v <> 0) -> is_int (mkInt s (store d x)) ((if s then -1 else 1) * v) /\ length (reg (mkInt s (store d x))) = length d).
  { intros s x k v Wx Lx Lk Vd Vx Hs. assert (LS : length (store d x) = length d) by (apply firstn_store; lia). split; [|auto]. apply mk_int; [apply W_store; auto|rewrite LS; auto| |destruct s; intros; [specialize (Hs eq_refl)|]; lia].
    rewrite V_store_zero, Vx; [reflexivity|]. rewrite Lx. apply zeros_after; auto. }
  destruct (Nat.ltb_spec m n) as [L|L]; [|destruct (Nat.eqb_spec n m) as [E|E]].
  - assert (Hle : V b <= V a). { pose proof (even_lt m n F3 E3 L). pose proof (P_mono w nb (na - 1) ltac:(lia)). specialize (A4 ltac:(lia)). lia. }
    pose proof (sub_long a b n m Wa Wb L ltac:(lia) ltac:(lia) An Bm Hle) as G. cbv zeta in G. destruct (w_sub w (firstn m a) (firstn m b)) as [x c]. cbn [fst snd] in G. destruct (w_dec w (sub_ m (n - m) a) c) as [y e]. cbn [fst] in G. destruct G as (g1 & g2 & g3).
    destruct (Fin false (x ++ y) n (V a - V b) g1 g2 ltac:(lia) ltac:(lia) g3 ltac:(discriminate)) as [f1 f2]. rewrite Z.mul_1_l in f1. auto.
  - subst m. rewrite w_cmp_spec with (w := w); auto; [|lia|lia]. destruct (V_fits n a Wa An) as [A5 _]. destruct (V_fits n b Wb) as [B5 _]; [rewrite E; auto|]. rewrite A5, B5. rewrite Z.geb_leb.
    assert (Pn : Z.max (V a) (V b) < P n) by (rewrite <- E in Bm; lia).
    assert (LL : length (firstn n a) = length (firstn n b)) by (rewrite !firstn_length; lia).
    destruct (Z.compare_spec (V a) (V b)) as [Q|Q|Q]; cbn [Z.leb Z.compare].
    + destruct (w_sub_spec w (firstn n a) (firstn n b) (W_firstn w n a Wa) (W_firstn w n b Wb) LL) as (s1 & s2 & _). destruct (w_sub_exact w (firstn n a) (firstn n b) (W_firstn w n a Wa) (W_firstn w n b Wb) LL ltac:(lia)) as (s3 & _).
      rewrite firstn_length, Nat.min_l in s2 by lia. destruct (Fin false (fst (w_sub w (firstn n a) (firstn n b))) n (V a - V b) s1 s2 ltac:(lia) ltac:(lia) ltac:(lia) ltac:(discriminate)) as [f1 f2]. rewrite Z.mul_1_l in f1. auto.
    + symmetry in LL. destruct (w_sub_spec w (firstn n b) (firstn n a) (W_firstn w n b Wb) (W_firstn w n a Wa) LL) as (s1 & s2 & _). destruct (w_sub_exact w (firstn n b) (firstn n a) (W_firstn w n b Wb) (W_firstn w n a Wa) LL ltac:(lia)) as (s3 & _).
      rewrite firstn_length, Nat.min_l in s2 by lia. destruct (Fin true (fst (w_sub w (firstn n b) (firstn n a))) n (V b - V a) s1 s2 ltac:(lia) ltac:(lia) ltac:(lia) ltac:(lia)) as [f1 f2]. replace (V a - V b) with (-1 * (V b - V a)) by ring. auto.
    + destruct (w_sub_spec w (firstn n a) (firstn n b) (W_firstn w n a Wa) (W_firstn w n b Wb) LL) as (s1 & s2 & _). destruct (w_sub_exact w (firstn n a) (firstn n b) (W_firstn w n a Wa) (W_firstn w n b Wb) LL ltac:(lia)) as (s3 & _).
      rewrite firstn_length, Nat.min_l in s2 by lia. destruct (Fin false (fst (w_sub w (firstn n a) (firstn n b))) n (V a - V b) s1 s2 ltac:(lia) ltac:(lia) ltac:(lia) ltac:(discriminate)) as [f1 f2]. rewrite Z.mul_1_l in f1. auto.
  - assert (Hlt : V a < V b). { pose proof (even_lt n m E3 F3 ltac:(lia)). pose proof (P_mono w na (nb - 1) ltac:(lia)). specialize (B4 ltac:(lia)). lia. }
    pose proof (sub_long b a m n Wb Wa ltac:(lia) ltac:(lia) ltac:(lia) Bm An ltac:(lia)) as G. cbv zeta in G. destruct (w_sub w (firstn n b) (firstn n a)) as [x c]. cbn [fst snd] in G. destruct (w_dec w (sub_ n (m - n) b) c) as [y e]. cbn [fst] in G. destruct G as (g1 & g2 & g3).
    destruct (Fin true (x ++ y) m (V b - V a) g1 g2 ltac:(lia) ltac:(lia) g3 ltac:(lia)) as [f1 f2]. replace (V a - V b) with (-1 * (V b - V a)) by ring. auto.
Qed.
Lemma pow2_max a b : pow2_size a -> pow2_size b -> pow2_size (Nat.max a b).
Proof. intros. destruct (Nat.max_spec a b) as [[_ ->]|[_ ->]]; auto. Qed.
Lemma dest_ok a b : valid a -> valid b -> let d := reg (of_word 0 (Nat.max (length (reg a)) (length (reg b)))) in W d /\ pow2_size (length d) /\ length d = Nat.max (length (reg a)) (length (reg b)) /\ V d = 0.
Proof.
  intros (A1 & A2 & _) (B1 & B2 & _) d. pose proof (pow2_max _ _ A2 B2) as M. assert (R : roundup (Nat.max (length (reg a)) (length (reg b))) = Nat.max (length (reg a)) (length (reg b))) by (apply roundup_id; auto).
  pose proof (pow2_ge2 _ M). assert (L : length d = Nat.max (length (reg a)) (length (reg b))) by (unfold d, of_word; cbn [reg length]; rewrite repeat_length, R; lia).
  destruct (of_word_int 0 (Nat.max (length (reg a)) (length (reg b)))) as [(V1 & V2 & V3) V4]; [pose proof (B_pos w); lia|]. split; [exact V1|]. split; [exact V2|]. split; [exact L|]. unfold IntegerSpec.ival in V4. cbn [neg of_word] in V4. fold d in V4. lia.
Qed.
Lemma plus_into_spec d x b vx vb : is_int x vx -> is_int b vb -> W d -> pow2_size (length d) -> length d = Nat.max (length (reg x)) (length (reg b)) -> V d <= Z.max (V (reg x)) (V (reg b)) ->
  is_int (plus_into w d x b) (vx + vb).
Proof.
  intros [(X1 & X2 & X3) <-] [(Y1 & Y2 & Y3) <-] Wd Hd Ld Vd. unfold plus_into, IntegerSpec.ival. pose proof (V_bound w _ X1). pose proof (V_bound w _ Y1).
  pose proof (positive_add_spec d (reg x) (reg b) Wd X1 Y1 Hd Ld) as (p1 & p2 & p3).
  destruct (neg x), (neg b); cbn [negb].
  - specialize (X3 eq_refl). apply mk_int; auto; [lia|intros; lia].
  - replace (-1 * V (reg x) + 1 * V (reg b)) with (V (reg b) - V (reg x)) by ring. apply positive_sub_spec; auto; lia.
  - replace (1 * V (reg x) + -1 * V (reg b)) with (V (reg x) - V (reg b)) by ring. apply positive_sub_spec; auto; lia.
  - apply pos_int; auto. lia.
Qed.
Lemma minus_into_spec d x b vx vb : is_int x vx -> is_int b vb -> W d -> pow2_size (length d) -> length d = Nat.max (length (reg x)) (length (reg b)) -> V d <= Z.max (V (reg x)) (V (reg b)) ->
  is_int (minus_into w d x b) (vx - vb).
Proof.
  intros [(X1 & X2 & X3) <-] [(Y1 & Y2 & Y3) <-] Wd Hd Ld Vd. unfold minus_into, IntegerSpec.ival. pose proof (V_bound w _ X1). pose proof (V_bound w _ Y1).
  pose proof (positive_add_spec d (reg x) (reg b) Wd X1 Y1 Hd Ld) as (p1 & p2 & p3).
  destruct (neg x), (neg b); cbn [negb].
  - replace (-1 * V (reg x) - -1 * V (reg b)) with (V (reg b) - V (reg x)) by ring. apply positive_sub_spec; auto; lia.
  - specialize (X3 eq_refl). apply mk_int; auto; [lia|intros; lia].
  - apply pos_int; auto. lia.
  - replace (1 * V (reg x) - 1 * V (reg b)) with (V (reg x) - V (reg b)) by ring. apply positive_sub_spec; auto; lia.
Qed.
Lemma plus_int x b vx vb : is_int x vx -> is_int b vb -> is_int (plus w x b) (vx + vb).
Proof. intros X Y. destruct (dest_ok x b (proj1 X) (proj1 Y)) as (D1 & D2 & D3 & D4). apply plus_into_spec; auto. pose proof (V_bound w _ (proj1 (proj1 X))). lia. Qed.
Lemma minus_int x b vx vb : is_int x vx -> is_int b vb -> is_int (minus w x b) (vx - vb).
Proof. intros X Y. destruct (dest_ok x b (proj1 X) (proj1 Y)) as (D1 & D2 & D3 & D4). apply minus_into_spec; auto. pose proof (V_bound w _ (proj1 (proj1 X))). lia. Qed.
Lemma grow_int x n v : is_int x v -> pow2_size n -> is_int (mkInt (neg x) (clean_grow (reg x) n)) v.
Proof. intros [(X1 & X2 & X3) <-] Hn. apply mk_int; [apply W_grow; auto|rewrite grow_len; apply pow2_max; auto|rewrite V_grow; reflexivity|]. intros E. specialize (X3 E). unfold IntegerSpec.ival. destruct (neg x); lia. Qed.
Lemma plus_eq_int x b vx vb : is_int x vx -> is_int b vb -> is_int (plus_eq w x b) (vx + vb).
Proof.
  intros X Y. pose proof (grow_int x (length (reg b)) vx X (proj1 (proj2 (proj1 Y)))) as G. unfold plus_eq. apply plus_into_spec; auto; cbn [reg].
  - apply G. - apply (proj1 (proj2 (proj1 G))). - rewrite grow_len. lia. - lia.
Qed.
Lemma minus_eq_int x b vx vb : is_int x vx -> is_int b vb -> is_int (minus_eq w x b) (vx - vb).
Proof.
  intros X Y. pose proof (grow_int x (length (reg b)) vx X (proj1 (proj2 (proj1 Y)))) as G. unfold minus_eq. apply minus_into_spec; auto; cbn [reg].
  - apply G. - apply (proj1 (proj2 (proj1 G))). - rewrite grow_len. lia. - lia.
Qed.
Lemma inc_mag_spec r : W r -> pow2_size (length r) -> W (inc_mag w r) /\ pow2_size (length (inc_mag w r)) /\ V (inc_mag w r) = V r + 1.
Proof.
  intros Wr Hr. pose proof (pow2_ge2 _ Hr). pose proof (B_big w). unfold inc_mag. destruct (w_inc_spec w r 1 Wr ltac:(apply nonnil; lia) ltac:(lia)) as (a1 & a2 & a3 & a4). destruct (w_inc w r 1) as [x c]. cbn [fst snd] in *.
  destruct (carry_grow x c a1 ltac:(rewrite a2; auto) a3) as (h1 & h2 & h3). split; [exact h1|]. split; [exact h2|]. etransitivity; [exact h3|]. rewrite a2. exact a4.
Qed.
Lemma incr_int x v : is_int x v -> is_int (incr w x) (v + 1).
Proof.
  intros [(X1 & X2 & X3) <-]. unfold incr, IntegerSpec.ival. pose proof (V_bound w _ X1). pose proof (pow2_ge2 _ X2). pose proof (B_big w). destruct (inc_mag_spec (reg x) X1 X2) as (i1 & i2 & i3).
  destruct (neg x); cbn [negb]; [|apply pos_int; auto; lia]. specialize (X3 eq_refl).
  destruct (w_dec_spec w (reg x) 1 X1 ltac:(apply nonnil; lia) ltac:(lia)) as (d1 & d2 & d3 & d4). set (y := fst (w_dec w (reg x) 1)) in *. assert (VY : V y = V (reg x) - 1). { pose proof (V_bound w _ d1) as Q. rewrite d2 in Q. pose proof (P_pos w (length (reg x))). assert (E : snd (w_dec w (reg x) 1) = 0 \/ snd (w_dec w (reg x) 1) = 1) by lia. destruct E as [E|E]; rewrite E in d4; lia. }
  unfold word_count. cbn [reg]. destruct (wc_spec y d1) as (_ & _ & _ & _ & C5 & _). destruct (Nat.eqb_spec (count_words y (length y)) 0) as [E|E].
  - apply C5 in E. replace (-1 * V (reg x) + 1) with 0 by lia. apply assign_int, zero_int.
  - assert (V y <> 0) by (intros Q; apply E, C5; auto). apply mk_int; auto; [rewrite d2; auto|lia|intros; lia].
Qed.
Lemma decr_int x v : is_int x v -> is_int (decr w x) (v - 1).
Proof.
  intros [(X1 & X2 & X3) <-]. unfold decr, IntegerSpec.ival. pose proof (V_bound w _ X1). pose proof (pow2_ge2 _ X2). pose proof (B_big w). destruct (inc_mag_spec (reg x) X1 X2) as (i1 & i2 & i3).
  destruct (neg x). { specialize (X3 eq_refl). apply mk_int; auto; [lia|intros; lia]. }
  destruct (w_dec_spec w (reg x) 1 X1 ltac:(apply nonnil; lia) ltac:(lia)) as (d1 & d2 & d3 & d4). destruct (w_dec w (reg x) 1) as [y c]. cbn [fst snd] in *. pose proof (V_bound w _ d1) as Q. rewrite d2 in Q. pose proof (P_pos w (length (reg x))).
  destruct (Z.eqb_spec c 0) as [E|E]; cbn [negb].
  - apply pos_int; auto; [rewrite d2; auto|]. rewrite E in d4. lia.
  - assert (c = 1) as -> by lia. replace (1 * V (reg x) - 1) with (-1) by lia. apply assign_int. apply (opp_int int_one 1 one_int).
Qed.
End Int.
