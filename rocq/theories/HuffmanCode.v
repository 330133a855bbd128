(** HuffmanCode: the canonical code as a division of [0, 2^32) into tiles, and
    the computation of the codes in both initializers. *)
From Coq Require Import ZArith List Bool Lia Arith Permutation Sorted.
From Verif Require Import Base BitioModel HuffmanModel HuffmanSpec.
Import ListNotations.
Open Scope Z_scope.

(** * Sums *)
Lemma zsum_app : forall a b, zsum (a ++ b) = zsum a + zsum b.
Proof. unfold zsum. induction a as [|x a IH]; intros b; cbn; [reflexivity|]. rewrite IH. lia. Qed.

Lemma zsum_map_add : forall {A} (f g : A -> Z) l,
  zsum (map (fun x => f x + g x) l) = zsum (map f l) + zsum (map g l).
Proof. unfold zsum. induction l as [|x l IH]; cbn; [reflexivity|]. rewrite IH. lia. Qed.

Lemma zsum_map_mul : forall {A} (f : A -> Z) c l, zsum (map (fun x => f x * c) l) = zsum (map f l) * c.
Proof. unfold zsum. induction l as [|x l IH]; cbn; [reflexivity|]. rewrite IH. lia. Qed.

Lemma zsum_map_ext : forall {A} (f g : A -> Z) l, (forall x, In x l -> f x = g x) ->
  zsum (map f l) = zsum (map g l).
Proof. intros. f_equal. apply map_ext_in. assumption. Qed.

Lemma zsum_map_le : forall {A} (f g : A -> Z) l, (forall x, In x l -> f x <= g x) ->
  zsum (map f l) <= zsum (map g l).
Proof.
  unfold zsum. induction l as [|x l IH]; intros H; cbn; [lia|].
  pose proof (H x (or_introl eq_refl)). assert (forall y, In y l -> f y <= g y) by (intros; apply H; right; auto).
  specialize (IH H1). lia.
Qed.

Lemma zsum_map_zero : forall {A} (f : A -> Z) l, (forall x, In x l -> f x = 0) -> zsum (map f l) = 0.
Proof.
  unfold zsum. induction l as [|x l IH]; intros H; cbn; [lia|].
  rewrite (H x (or_introl eq_refl)), IH; [lia|]. intros. apply H. right; auto.
Qed.

Lemma zsum_nonneg : forall {A} (f : A -> Z) l, (forall x, In x l -> 0 <= f x) -> 0 <= zsum (map f l).
Proof.
  intros A f l H. rewrite <- (zsum_map_zero (fun _ : A => 0) l) by auto. apply zsum_map_le. auto.
Qed.

Lemma zsum_one : forall (f : nat -> Z) i a n, (a <= i < a + n)%nat ->
  zsum (map (fun k => if (k =? i)%nat then f k else 0) (seq a n)) = f i.
Proof.
  intros f i a n. revert a. induction n as [|n IH]; intros a H; [lia|].
  cbn [seq map]. unfold zsum in *. cbn [fold_right].
  destruct (Nat.eqb_spec a i) as [->|N].
  - fold (zsum (map (fun k => if (k =? i)%nat then f k else 0) (seq (S i) n))).
    rewrite zsum_map_zero; [lia|]. intros x Hx. apply in_seq in Hx.
    destruct (Nat.eqb_spec x i); [lia|reflexivity].
  - rewrite IH by lia. lia.
Qed.

Lemma map_nth_seq : forall {A B} (f : A -> B) (d : A) l, map f l = map (fun j => f (nth j l d)) (seq 0 (length l)).
Proof.
  intros A B f d l. induction l as [|x l IH]; [reflexivity|].
  cbn [length seq map nth]. f_equal. rewrite IH, <- seq_shift, map_map. reflexivity.
Qed.

(** * Tiles *)
Section Code.
Variable lens : list nat.
Notation n := (length lens).
Notation len := (fun i => nth i lens O).

Definition tile_start (i : nat) : Z :=
  zsum (map (fun j => if before (len j) j (len i) i then weight (len j) else 0) (seq 0 n)).

Lemma weight_nonneg : forall l, 0 <= weight l.
Proof. intros l. unfold weight. destruct (l =? 0)%nat; [lia|]. apply Z.pow_nonneg. lia. Qed.

Lemma weight_pos : forall l, (0 < l <= 32)%nat -> 0 < weight l.
Proof. intros l H. unfold weight. destruct (Nat.eqb_spec l 0); [lia|]. apply Z.pow_pos_nonneg; lia. Qed.

Lemma tile_start_code : forall i, (len i <= 32)%nat ->
  tile_start i = code_value lens i * 2 ^ (32 - Z.of_nat (len i)).
Proof.
  intros i H. unfold tile_start, code_value. cbv zeta. rewrite <- zsum_map_mul. apply zsum_map_ext.
  intros j _. unfold before, weight. destruct (Nat.eqb_spec (len j) 0); cbn [negb andb]; [lia|].
  destruct (Nat.ltb_spec (len j) (len i)); cbn [orb].
  - rewrite <- Z.pow_add_r by lia. f_equal. lia.
  - destruct (Nat.eqb_spec (len j) (len i)); cbn [andb]; [|lia].
    destruct (j <? i)%nat; [|lia]. rewrite <- Z.pow_add_r by lia. f_equal. lia.
Qed.

Lemma tile_before : forall i j, (i < n)%nat -> before (len i) i (len j) j = true ->
  tile_start i + weight (len i) <= tile_start j.
Proof.
  intros i j Hi Hb. unfold tile_start at 1.
  rewrite <- (zsum_one (fun k => weight (len k)) i 0 n) by lia.
  rewrite <- zsum_map_add. apply zsum_map_le. intros k _.
  unfold before in *. pose proof (weight_nonneg (len k)).
  destruct (Nat.eqb_spec k i) as [->|].
  - replace (i <? i)%nat with false by (symmetry; apply Nat.ltb_irrefl).
    replace (len i <? len i)%nat with false by (symmetry; apply Nat.ltb_irrefl).
    rewrite Hb. rewrite andb_false_r, andb_false_r. lia.
  - destruct (Nat.eqb_spec (len k) 0); cbn [negb andb]; [lia|].
    apply andb_true_iff in Hb as [_ Hb]. apply orb_true_iff in Hb.
    rewrite andb_true_iff, Nat.ltb_lt, Nat.eqb_eq, Nat.ltb_lt in Hb.
    destruct (Nat.ltb_spec (len k) (len i)); destruct (Nat.ltb_spec (len k) (len j));
      destruct (Nat.eqb_spec (len k) (len i)); destruct (Nat.eqb_spec (len k) (len j));
      destruct (Nat.ltb_spec k i); destruct (Nat.ltb_spec k j); cbn; lia.
Qed.

Lemma tile_total : forall i, (i < n)%nat -> tile_start i + weight (len i) <= zsum (map weight lens).
Proof.
  intros i Hi. unfold tile_start.
  rewrite (map_nth_seq weight O lens).
  rewrite <- (zsum_one (fun k => weight (len k)) i 0 n) by lia.
  rewrite <- zsum_map_add. apply zsum_map_le. intros k _. pose proof (weight_nonneg (len k)).
  destruct (Nat.eqb_spec k i) as [->|]; [|destruct (before _ _ _ _); lia].
  unfold before.
  replace (i <? i)%nat with false by (symmetry; apply Nat.ltb_irrefl).
  replace (len i <? len i)%nat with false by (symmetry; apply Nat.ltb_irrefl).
  rewrite andb_false_r, andb_false_r. lia.
Qed.

Lemma before_total : forall i j, i <> j -> len i <> O -> len j <> O ->
  before (len i) i (len j) j = true \/ before (len j) j (len i) i = true.
Proof.
  intros i j Hij Hi Hj. unfold before.
  destruct (Nat.eqb_spec (len i) 0); [lia|]. destruct (Nat.eqb_spec (len j) 0); [lia|]. cbn [negb andb].
  destruct (Nat.ltb_spec (len i) (len j)); destruct (Nat.ltb_spec (len j) (len i)); auto.
  rewrite (proj2 (Nat.eqb_eq (len i) (len j))), (proj2 (Nat.eqb_eq (len j) (len i))) by lia.
  destruct (Nat.ltb_spec i j); destruct (Nat.ltb_spec j i); cbn; auto. lia.
Qed.

Lemma tile_nonneg : forall i, 0 <= tile_start i.
Proof. intros. apply zsum_nonneg. intros j _. pose proof (weight_nonneg (len j)). destruct (before _ _ _ _); lia. Qed.

(** * The starting codes *)
Definition cnt (l : nat) (ls : list nat) : Z := zsum (map (fun x => if (x =? l)%nat then 1 else 0) ls).
Definition start (l : nat) : Z :=
  zsum (map (fun l' => if negb (l' =? 0)%nat && (l' <? l)%nat then 2 ^ (Z.of_nat l - Z.of_nat l') else 0) lens).

Lemma cnt_range : forall l ls, 0 <= cnt l ls <= Z.of_nat (length ls).
Proof.
  intros l ls. unfold cnt, zsum. induction ls as [|x ls IH]; cbn [map fold_right length]; [lia|].
  destruct (x =? l)%nat; lia.
Qed.

Lemma bl_count_acc : forall ls t l, Forall (fun x => (x < length t)%nat) ls -> (l < length t)%nat ->
  nth l (fold_left (fun t l => upd l (nth l t 0 + 1) t) ls t) 0 = nth l t 0 + cnt l ls.
Proof.
  induction ls as [|x ls IH]; intros t l HF Hl; cbn [fold_left].
  - unfold cnt. cbn. lia.
  - rewrite IH.
    + unfold cnt, zsum. cbn [map fold_right]. destruct (Nat.eqb_spec x l) as [->|N].
      * rewrite upd_nth_eq by lia. lia.
      * rewrite upd_nth_neq by lia. lia.
    + rewrite upd_length. apply (Forall_inv_tail HF).
    + rewrite upd_length. lia.
Qed.

Lemma max_bits_bound : forall ls x, In x ls -> (x <= max_bits ls)%nat.
Proof. unfold max_bits. induction ls as [|y ls IH]; intros x []; cbn; [subst; lia|]. specialize (IH x H). lia. Qed.

Lemma max_bits_in : forall ls, (0 < max_bits ls)%nat -> In (max_bits ls) ls.
Proof.
  unfold max_bits. induction ls as [|y ls IH]; cbn; [lia|]. intros H.
  destruct (Nat.max_spec y (fold_right Nat.max 0%nat ls)) as [[A B]|[A B]]; rewrite B in *; auto.
Qed.

Lemma bl_count_spec : forall l, nth l (bl_count lens) 0 = cnt l lens.
Proof.
  intros l. unfold bl_count.
  assert (HF : Forall (fun x => (x < length (repeat 0%Z (max_bits lens + 1)))%nat) lens).
  { apply Forall_forall. intros x Hx. apply max_bits_bound in Hx. rewrite repeat_length. lia. }
  destruct (Nat.lt_ge_cases l (max_bits lens + 1)).
  - rewrite bl_count_acc; auto; [|rewrite repeat_length; lia]. rewrite nth_repeat. lia.
  - rewrite nth_overflow.
    + symmetry. apply zsum_map_zero. intros x Hx. apply max_bits_bound in Hx.
      destruct (Nat.eqb_spec x l); [lia|reflexivity].
    + assert (L : forall ls t, length (fold_left (fun t l => upd l (nth l t 0 + 1) t) ls t) = length t).
      { induction ls as [|x ls IH]; intros t; cbn; auto. rewrite IH. apply upd_length. }
      rewrite L, repeat_length. lia.
Qed.

Lemma start_1 : start 1 = 0.
Proof. apply zsum_map_zero. intros x _. destruct x; reflexivity. Qed.

Lemma start_S : forall l, (0 < l)%nat -> start (S l) = 2 * (start l + cnt l lens).
Proof.
  intros l Hl. unfold start, cnt. rewrite <- zsum_map_add. rewrite Z.mul_comm, <- zsum_map_mul.
  apply zsum_map_ext. intros x _.
  destruct (Nat.eqb_spec x 0); cbn [negb andb].
  - destruct (Nat.eqb_spec x l); lia.
  - destruct (Nat.ltb_spec x (S l)); destruct (Nat.ltb_spec x l); destruct (Nat.eqb_spec x l); try lia.
    + rewrite Z.add_0_r. replace (Z.of_nat (S l) - Z.of_nat x) with (Z.succ (Z.of_nat l - Z.of_nat x)) by lia.
      rewrite Z.pow_succ_r by lia. lia.
    + subst. replace (Z.of_nat (S l) - Z.of_nat l) with 1 by lia. reflexivity.
Qed.

Lemma start_nonneg : forall l, 0 <= start l.
Proof.
  intros l. apply zsum_nonneg. intros x _. destruct (negb (x =? 0)%nat && (x <? l)%nat) eqn:E; [|lia].
  apply Z.pow_nonneg. lia.
Qed.

(** Kraft's sum up to length [l]. *)
Lemma start_kraft : forall l, (0 < l <= 32)%nat ->
  (start l + cnt l lens) * 2 ^ (32 - Z.of_nat l)
  = zsum (map (fun x => if (x <=? l)%nat then weight x else 0) lens).
Proof.
  intros l Hl. unfold start, cnt. rewrite <- zsum_map_add, <- zsum_map_mul. apply zsum_map_ext.
  intros x _. unfold weight. destruct (Nat.eqb_spec x 0); cbn [negb andb].
  - destruct (Nat.eqb_spec x l); [lia|]. destruct (x <=? l)%nat; lia.
  - destruct (Nat.ltb_spec x l); destruct (Nat.eqb_spec x l); destruct (Nat.leb_spec x l); try lia.
    + rewrite Z.add_0_r, <- Z.pow_add_r by lia. f_equal. lia.
    + subst. lia.
Qed.

Lemma code_value_split : forall i, (i < n)%nat -> code_value lens i = start (len i) + cnt (len i) (firstn i lens) \/ len i = O.
Proof.
  intros i Hi. destruct (Nat.eq_dec (len i) O) as [|N]; [right; assumption|left].
  unfold code_value, start, cnt. cbv zeta.
  rewrite (map_nth_seq (fun l' => if negb (l' =? 0)%nat && (l' <? len i)%nat then _ else 0) O lens).
  rewrite (map_nth_seq (fun x => if (x =? len i)%nat then 1 else 0) O (firstn i lens)).
  rewrite firstn_length_le by lia.
  assert (E : zsum (map (fun j => if (nth j (firstn i lens) O =? len i)%nat then 1 else 0) (seq 0 i))
            = zsum (map (fun j => if (j <? i)%nat && (len j =? len i)%nat then 1 else 0) (seq 0 n))).
  { replace n with (i + (n - i))%nat by lia. rewrite seq_app, map_app, zsum_app.
    rewrite (zsum_map_zero _ (seq (0 + i) (n - i))), Z.add_0_r.
    - apply zsum_map_ext. intros j Hj. apply in_seq in Hj.
      rewrite (proj2 (Nat.ltb_lt j i)) by lia. cbn [andb].
      replace (nth j (firstn i lens) O) with (len j); [reflexivity|].
      rewrite <- (firstn_skipn i lens) at 1. rewrite app_nth1; [reflexivity|]. rewrite firstn_length_le; lia.
    - intros j Hj. apply in_seq in Hj. rewrite (proj2 (Nat.ltb_ge j i)) by lia. reflexivity. }
  rewrite E, <- zsum_map_add. apply zsum_map_ext. intros j _. unfold before.
  destruct (Nat.eqb_spec (len j) 0); cbn [negb andb].
  - destruct (Nat.eqb_spec (len j) (len i)); [lia|]. rewrite andb_false_r. reflexivity.
  - destruct (Nat.ltb_spec (len j) (len i)); destruct (Nat.eqb_spec (len j) (len i)); try lia;
      destruct (j <? i)%nat; cbn [andb orb]; try lia.
    rewrite e. replace (Z.of_nat (len i) - Z.of_nat (len i)) with 0 by lia. reflexivity.
Qed.

(** * nextCode *)
Definition next_ok (next : list Z) (pre : list nat) : Prop :=
  (max_bits lens < length next)%nat /\
  forall l, (0 < l <= max_bits lens)%nat -> nth l next 0 = (start l + cnt l pre) mod 2 ^ 32.

Lemma cnt_app : forall l a b, cnt l (a ++ b) = cnt l a + cnt l b.
Proof. intros. unfold cnt. rewrite map_app. apply zsum_app. Qed.

Lemma next_ok_step : forall next pre x, next_ok next pre -> (0 < x <= max_bits lens)%nat ->
  next_ok (upd x ((nth x next 0 + 1) mod 2 ^ 32) next) (pre ++ [x]).
Proof.
  intros next pre x [H1 H2] Hx. split; [rewrite upd_length; exact H1|].
  intros l Hl. rewrite cnt_app. unfold cnt at 2, zsum. cbn [map fold_right].
  destruct (Nat.eqb_spec x l) as [->|N].
  - rewrite upd_nth_eq by lia. rewrite H2 by lia. rewrite Zplus_mod_idemp_l. f_equal. lia.
  - rewrite upd_nth_neq by lia. rewrite H2 by lia. f_equal. lia.
Qed.

Lemma next_ok_zero : forall next pre, next_ok next pre -> next_ok next (pre ++ [O]).
Proof.
  intros next pre [H1 H2]. split; auto. intros l Hl. rewrite H2 by auto. rewrite cnt_app.
  unfold cnt at 3, zsum. cbn [map fold_right]. destruct (Nat.eqb_spec 0 l); [lia|]. f_equal. lia.
Qed.

Definition row (i : nat) : list info :=
  if (len i =? 0)%nat then [] else [mkinfo (normalize (code_value lens i mod 2 ^ 32) (len i)) (len i) i].

Lemma next_code_value : forall next pre x suf, lens = pre ++ x :: suf -> next_ok next pre -> x <> O ->
  nth x next 0 = code_value lens (length pre) mod 2 ^ 32 /\ len (length pre) = x.
Proof.
  intros next pre x suf E [H1 H2] Hx.
  assert (LX : len (length pre) = x) by (rewrite E, app_nth2, Nat.sub_diag by lia; reflexivity).
  split; auto.
  assert (HI : In x lens) by (rewrite E; apply in_or_app; right; left; reflexivity).
  rewrite H2 by (pose proof (max_bits_bound lens x HI); lia).
  destruct (code_value_split (length pre)) as [C|C]; [rewrite E, app_length; cbn; lia| |congruence].
  rewrite C, LX. f_equal. f_equal. f_equal. rewrite E. rewrite firstn_app_exact. reflexivity.
Qed.

Lemma dec_rows_spec : forall suf pre next, lens = pre ++ suf -> next_ok next pre ->
  dec_rows next (length pre) suf = flat_map row (seq (length pre) (length suf)).
Proof.
  induction suf as [|x suf IH]; intros pre next E H; [reflexivity|].
  assert (LX : len (length pre) = x) by (rewrite E, app_nth2, Nat.sub_diag by lia; reflexivity).
  assert (E' : lens = (pre ++ [x]) ++ suf) by (rewrite <- app_assoc; exact E).
  cbn [length seq flat_map]. unfold row at 1. rewrite LX.
  pose proof (IH (pre ++ [x])) as IH'. rewrite app_length, Nat.add_1_r in IH'. cbn [length] in IH'.
  destruct x as [|x]; cbn [dec_rows Nat.eqb app].
  - apply IH'; auto. apply next_ok_zero. exact H.
  - destruct (next_code_value next pre (S x) suf E H ltac:(lia)) as [C _]. rewrite C. f_equal.
    rewrite <- C. apply IH'; auto. apply next_ok_step; auto.
    assert (HI : In (S x) lens) by (rewrite E; apply in_or_app; right; left; reflexivity).
    pose proof (max_bits_bound lens _ HI). lia.
Qed.

Definition enc_row (i : nat) : Z * nat :=
  if (len i =? 0)%nat then (0, O)
  else (Z.shiftr (bit_reverse32 (code_value lens i mod 2 ^ 32)) (Z.of_nat (32 - len i)), len i).

Lemma enc_rows_spec : forall suf pre next, lens = pre ++ suf -> next_ok next pre ->
  enc_rows next suf = map enc_row (seq (length pre) (length suf)).
Proof.
  induction suf as [|x suf IH]; intros pre next E H; [reflexivity|].
  assert (LX : len (length pre) = x) by (rewrite E, app_nth2, Nat.sub_diag by lia; reflexivity).
  assert (E' : lens = (pre ++ [x]) ++ suf) by (rewrite <- app_assoc; exact E).
  cbn [length seq map]. unfold enc_row at 1. rewrite LX.
  pose proof (IH (pre ++ [x])) as IH'. rewrite app_length, Nat.add_1_r in IH'. cbn [length] in IH'.
  destruct x as [|x]; cbn [enc_rows Nat.eqb].
  - f_equal. apply IH'; auto. apply next_ok_zero. exact H.
  - destruct (next_code_value next pre (S x) suf E H ltac:(lia)) as [C _]. rewrite C. f_equal.
    rewrite <- C. apply IH'; auto. apply next_ok_step; auto.
    assert (HI : In (S x) lens) by (rewrite E; apply in_or_app; right; left; reflexivity).
    pose proof (max_bits_bound lens _ HI). lia.
Qed.

(** The two loops that compute the starting codes. *)
Lemma dec_starts_some : forall k i L, (2 <= i)%nat -> Z.of_nat n < 2 ^ 32 -> start (i - 1) < 2 ^ 32 ->
  dec_starts (bl_count lens) (start (i - 1)) i k = Some L ->
  L = map start (seq i k) /\ forall l, (i <= l < i + k)%nat -> start l < 2 ^ 32.
Proof.
  induction k as [|k IH]; intros i L Hi Hn Hs E; cbn [dec_starts] in E.
  - injection E as <-. split; [reflexivity|lia].
  - rewrite bl_count_spec in E. pose proof (start_nonneg (i - 1)). pose proof (cnt_range (i - 1) lens).
    remember (start (i - 1) + cnt (i - 1) lens) as s eqn:SE.
    assert (ES : start i = 2 * s) by (replace i with (S (i - 1)) by lia; rewrite start_S by lia; rewrite SE; do 3 f_equal; lia).
    assert (NW : s mod 2 ^ 32 = s).
    { destruct (Z.lt_ge_cases s (2 ^ 32)); [apply Z.mod_small; lia|]. exfalso.
      assert (MM : s mod 2 ^ 32 = s - 2 ^ 32) by (symmetry; apply Z.mod_unique with 1; lia). rewrite MM in E.
      destruct (Z.gtb_spec (start (i - 1)) (s - 2 ^ 32)); [discriminate|lia]. }
    rewrite NW in E. destruct (Z.gtb_spec (start (i - 1)) s); [discriminate|].
    rewrite Z.shiftl_mul_pow2 in E by lia. change (2 ^ 1) with 2 in E.
    pose proof (Z.mod_pos_bound s (2 ^ 32) ltac:(lia)).
    assert (NW2 : (s * 2) mod 2 ^ 32 = start i).
    { rewrite ES. destruct (Z.lt_ge_cases (s * 2) (2 ^ 32)); [rewrite Z.mod_small; lia|]. exfalso.
      assert (MM : (s * 2) mod 2 ^ 32 = s * 2 - 2 ^ 32) by (symmetry; apply Z.mod_unique with 1; lia). rewrite MM in E.
      destruct (Z.gtb_spec s (s * 2 - 2 ^ 32)); [discriminate|lia]. }
    rewrite NW2 in E. destruct (Z.gtb_spec s (start i)); [discriminate|].
    assert (SI : start i < 2 ^ 32) by (rewrite <- NW2; apply Z.mod_pos_bound; lia).
    destruct (dec_starts (bl_count lens) (start i) (S i) k) as [L'|] eqn:E'; [|discriminate].
    injection E as <-. replace i with (S i - 1)%nat in E' at 1 by lia.
    destruct (IH (S i) L' ltac:(lia) Hn ltac:(replace (S i - 1)%nat with i by lia; exact SI) E') as [-> IH2].
    split; [reflexivity|]. intros l Hl. destruct (Nat.eq_dec l i) as [->|]; [exact SI|]. apply IH2. lia.
Qed.

Lemma dec_starts_ok : forall k i, (2 <= i)%nat ->
  (forall l, (i <= l < i + k)%nat -> start l < 2 ^ 32) ->
  dec_starts (bl_count lens) (start (i - 1)) i k = Some (map start (seq i k)).
Proof.
  induction k as [|k IH]; intros i Hi HS; [reflexivity|].
  cbn [dec_starts seq map]. rewrite bl_count_spec. pose proof (start_nonneg (i - 1)). pose proof (cnt_range (i - 1) lens).
  remember (start (i - 1) + cnt (i - 1) lens) as s eqn:SE.
  assert (ES : start i = 2 * s) by (replace i with (S (i - 1)) by lia; rewrite start_S by lia; rewrite SE; do 3 f_equal; lia).
  pose proof (HS i ltac:(lia)).
  rewrite (Z.mod_small s) by lia. destruct (Z.gtb_spec (start (i - 1)) s); [lia|].
  rewrite Z.shiftl_mul_pow2 by lia. change (2 ^ 1) with 2. replace (s * 2) with (start i) by lia.
  rewrite Z.mod_small by lia. destruct (Z.gtb_spec s (start i)); [lia|].
  pose proof (IH (S i) ltac:(lia) ltac:(intros; apply HS; lia)) as R.
  replace (S i - 1)%nat with i in R by lia. rewrite R. reflexivity.
Qed.

Lemma enc_starts_ok : forall k i, (2 <= i)%nat ->
  (forall l, (i <= l < i + k)%nat -> start l < 2 ^ 32) ->
  enc_starts (bl_count lens) (start (i - 1)) i k = map start (seq i k).
Proof.
  induction k as [|k IH]; intros i Hi HS; [reflexivity|].
  cbn [enc_starts seq map]. rewrite bl_count_spec. pose proof (start_nonneg (i - 1)). pose proof (cnt_range (i - 1) lens).
  remember (start (i - 1) + cnt (i - 1) lens) as s eqn:SE.
  assert (ES : start i = 2 * s) by (replace i with (S (i - 1)) by lia; rewrite start_S by lia; rewrite SE; do 3 f_equal; lia).
  pose proof (HS i ltac:(lia)).
  rewrite (Z.mod_small s) by lia.
  rewrite Z.shiftl_mul_pow2 by lia. change (2 ^ 1) with 2. replace (s * 2) with (start i) by lia.
  rewrite Z.mod_small by lia.
  pose proof (IH (S i) ltac:(lia) ltac:(intros; apply HS; lia)) as R.
  replace (S i - 1)%nat with i in R by lia. rewrite R. reflexivity.
Qed.

Lemma next_ok_init : (0 < max_bits lens)%nat ->
  (forall l, (2 <= l < 2 + (max_bits lens - 1))%nat -> start l < 2 ^ 32) ->
  next_ok (next_code (map start (seq 2 (max_bits lens - 1)))) [].
Proof.
  intros Hm HS. unfold next_ok, next_code. split; [cbn [length]; rewrite map_length, seq_length; lia|].
  intros l Hl. unfold cnt, zsum. cbn [map fold_right]. rewrite Z.add_0_r.
  destruct l as [|[|l]]; [lia| |].
  - cbn [nth]. rewrite start_1. reflexivity.
  - cbn [nth]. rewrite nth_indep with (d' := start 0) by (rewrite map_length, seq_length; lia).
    rewrite map_nth, seq_nth by lia. pose proof (start_nonneg (2 + l)).
    symmetry. apply Z.mod_small. split; auto. apply HS. lia.
Qed.

(** With Kraft's equality nothing overflows. *)
Lemma complete_start : complete lens -> forall l, (0 < l <= max_bits lens)%nat ->
  start l + cnt l lens <= 2 ^ Z.of_nat l /\ start l < 2 ^ 32.
Proof.
  intros [HF HK] l Hl.
  assert (M32 : (max_bits lens <= 32)%nat).
  { rewrite Forall_forall in HF. apply HF. apply max_bits_in. lia. }
  assert (A : start l + cnt l lens <= 2 ^ Z.of_nat l).
  { pose proof (start_kraft l ltac:(lia)) as K.
    assert (L : zsum (map (fun x => if (x <=? l)%nat then weight x else 0) lens) <= 2 ^ 32).
    { rewrite <- HK. apply zsum_map_le. intros x _. pose proof (weight_nonneg x). destruct (x <=? l)%nat; lia. }
    rewrite <- K in L. replace 32 with (Z.of_nat l + (32 - Z.of_nat l)) in L at 2 by lia.
    rewrite Z.pow_add_r in L by lia. apply Z.mul_le_mono_pos_r in L; auto. apply Z.pow_pos_nonneg; lia. }
  split; [exact A|].
  pose proof (cnt_range l lens).
  destruct (Nat.eq_dec l 32) as [->|].
  - assert (max_bits lens = 32%nat) by lia.
    assert (I : In 32%nat lens) by (rewrite <- H0; apply max_bits_in; lia).
    apply in_split in I as (p & q & E).
    assert (0 < cnt 32 lens).
    { rewrite E, cnt_app. pose proof (cnt_range 32 p). pose proof (cnt_range 32 q).
      change (32%nat :: q) with ([32%nat] ++ q). rewrite cnt_app. change (cnt 32 [32%nat]) with 1. lia. }
    change (2 ^ 32) with (2 ^ Z.of_nat 32). lia.
  - assert (2 ^ Z.of_nat l < 2 ^ 32) by (apply Z.pow_lt_mono_r; lia). lia.
Qed.

Lemma code_value_range : complete lens -> forall i, len i <> O -> 0 <= code_value lens i < 2 ^ Z.of_nat (len i).
Proof.
  intros [HF HK] i Hi.
  assert (Hin : (i < n)%nat) by (destruct (Nat.lt_ge_cases i n); auto; rewrite nth_overflow in Hi by auto; lia).
  assert (L32 : (len i <= 32)%nat) by (rewrite Forall_forall in HF; apply HF, nth_In; auto).
  pose proof (tile_total i Hin) as T. pose proof (tile_nonneg i) as T0. rewrite HK, tile_start_code in T by auto. rewrite tile_start_code in T0 by auto.
  unfold weight in T. destruct (Nat.eqb_spec (len i) 0); [lia|].
  cbv beta in *. clear HF. set (l := nth i lens O) in *. clearbody l.
  assert (P : 0 < 2 ^ (32 - Z.of_nat l)) by (apply Z.pow_pos_nonneg; lia).
  assert (Q : 2 ^ 32 = 2 ^ Z.of_nat l * 2 ^ (32 - Z.of_nat l)) by (rewrite <- Z.pow_add_r by lia; f_equal; lia).
  nia.
Qed.
End Code.
