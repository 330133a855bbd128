(** HuffmanTable: the sorted table tiles [0, 2^32); looking up a code through
    the cache finds its tile. *)
From Coq Require Import ZArith List Bool Lia Arith Permutation Sorted.
From Verif Require Import Base BitioModel BitioSpec BitioProofs BitioStream HuffmanModel HuffmanSpec HuffmanCode.
Import ListNotations.
Open Scope Z_scope.

Definition size (r : info) : Z := weight (i_len r).

(** [l] covers [lo, hi) without gaps. *)
Fixpoint tile (lo : Z) (l : list info) (hi : Z) : Prop :=
  match l with
  | [] => lo = hi
  | r :: l => i_code r = lo /\ 0 < size r /\ tile (lo + size r) l hi
  end.
Definition holds (r : info) (v : Z) : Prop := i_code r <= v < i_code r + size r.

(** * Sorting *)
Lemma insert_perm : forall x l, Permutation (insert x l) (x :: l).
Proof.
  intros x l. induction l as [|y l IH]; cbn; auto.
  destruct (i_code x <? i_code y); auto. rewrite IH. apply perm_swap.
Qed.

Lemma sort_perm : forall l, Permutation (sort_rows l) l.
Proof. unfold sort_rows. induction l as [|x l IH]; cbn; auto. rewrite insert_perm. auto. Qed.

Definition ile (a b : info) : Prop := i_code a <= i_code b.

Lemma insert_sorted : forall x l, StronglySorted ile l -> StronglySorted ile (insert x l).
Proof.
  intros x l. induction l as [|y l IH]; intros H; cbn.
  - constructor; constructor.
  - inversion H; subst. destruct (Z.ltb_spec (i_code x) (i_code y)).
    + constructor; auto. constructor; [unfold ile; lia|].
      rewrite Forall_forall in *. intros z Hz. specialize (H3 z Hz). unfold ile in *. lia.
    + constructor; auto. rewrite Forall_forall in *. intros z Hz.
      apply (Permutation_in _ (insert_perm x l)) in Hz. destruct Hz as [<-|Hz]; [unfold ile; lia|auto].
Qed.

Lemma sort_sorted : forall l, StronglySorted ile (sort_rows l).
Proof. unfold sort_rows. induction l as [|x l IH]; cbn; [constructor|]. apply insert_sorted. exact IH. Qed.

Fixpoint chain (lo : Z) (l : list info) (hi : Z) : Prop :=
  match l with
  | [] => lo <= hi
  | r :: l => lo <= i_code r /\ chain (i_code r + size r) l hi
  end.

Lemma chain_of : forall l lo hi, lo <= hi ->
  (forall r, In r l -> lo <= i_code r /\ i_code r + size r <= hi /\ 0 < size r) ->
  (forall a b, In a l -> In b l -> a <> b -> i_code a + size a <= i_code b \/ i_code b + size b <= i_code a) ->
  NoDup l -> StronglySorted ile l -> chain lo l hi.
Proof.
  induction l as [|r l IH]; intros lo hi H0 HR HD HN HS; cbn; auto.
  inversion HN; subst. inversion HS; subst.
  destruct (HR r (or_introl eq_refl)) as (A & B & C). split; auto.
  apply IH; auto; [| intros a b Ha Hb; apply HD; right; auto].
  intros s Hs. destruct (HR s (or_intror Hs)) as (A' & B' & C'). split; auto.
  assert (r <> s) by congruence. rewrite Forall_forall in H5. specialize (H5 s Hs). unfold ile in H5.
  destruct (HD r s (or_introl eq_refl) (or_intror Hs) H); lia.
Qed.

Lemma chain_sum : forall l lo hi, chain lo l hi -> zsum (map size l) <= hi - lo.
Proof.
  induction l as [|r l IH]; intros lo hi H; cbn [chain map] in *; unfold zsum in *; cbn [fold_right]; [lia|].
  destruct H as [H1 H2]. apply IH in H2. lia.
Qed.

Lemma chain_tile : forall l lo hi, chain lo l hi -> (forall r, In r l -> 0 < size r) ->
  zsum (map size l) = hi - lo -> tile lo l hi.
Proof.
  induction l as [|r l IH]; intros lo hi H HP HZ; cbn [chain tile map] in *; unfold zsum in *; cbn [fold_right] in HZ; [lia|].
  destruct H as [H1 H2]. pose proof (chain_sum _ _ _ H2) as S1. unfold zsum in S1.
  assert (E : i_code r = lo) by lia. rewrite E in *. split; auto. split; [apply HP; left; auto|].
  apply IH; auto; [|lia]. intros. apply HP. right. auto.
Qed.

(** * Looking up *)
Lemma tile_le : forall l lo hi, tile lo l hi -> lo <= hi.
Proof. induction l as [|r l IH]; intros lo hi H; cbn in H; [lia|]. destruct H as (_ & A & B). apply IH in B. lia. Qed.

Lemma tile_app : forall a b lo hi, tile lo (a ++ b) hi <-> exists m, tile lo a m /\ tile m b hi.
Proof.
  induction a as [|r a IH]; intros b lo hi; cbn [app tile].
  - split; [intros H; exists lo; auto|intros (m & -> & H); auto].
  - rewrite IH. split.
    + intros (A & B & m & C & D). exists m. auto.
    + intros (m & (A & B & C) & D). split; auto. split; auto. exists m. auto.
Qed.

Lemma upper_bound_tile : forall l lo hi v, tile lo l hi -> lo <= v < hi ->
  exists a r b, l = a ++ r :: b /\ holds r v /\ upper_bound l v = S (length a).
Proof.
  induction l as [|r l IH]; intros lo hi v H Hv; cbn [tile] in H; [lia|].
  destruct H as (A & B & C). cbn [upper_bound]. destruct (Z.ltb_spec v (i_code r)); [lia|].
  destruct (Z.lt_ge_cases v (lo + size r)).
  - exists [], r, l. split; auto. split; [unfold holds; lia|].
    destruct l as [|s l]; cbn [upper_bound length]; auto. destruct C as (C & _). rewrite C.
    destruct (Z.ltb_spec v (lo + size r)); [reflexivity|lia].
  - destruct (IH _ _ v C ltac:(lia)) as (a & s & b & -> & D & E).
    exists (r :: a), s, b. split; [reflexivity|]. split; [exact D|]. rewrite E. reflexivity.
Qed.

Lemma holds_unique : forall l lo hi a b v, tile lo l hi -> In a l -> In b l -> holds a v -> holds b v -> a = b.
Proof.
  intros l lo hi a b v HT Ha Hb Va Vb.
  apply in_split in Ha as (p & q & ->).
  apply tile_app in HT as (m & T1 & T2). cbn [tile] in T2. destruct T2 as (E & P & T2).
  assert (OUT : forall l lo hi s, tile lo l hi -> In s l -> lo <= i_code s /\ i_code s + size s <= hi).
  { clear. induction l as [|r l IH]; intros lo hi s H []; cbn [tile] in H; destruct H as (A & B & C).
    - subst r. apply tile_le in C. lia.
    - destruct (IH _ _ s C H0). lia. }
  apply in_app_or in Hb as [Hb|[Hb|Hb]]; auto; unfold holds in *.
  - destruct (OUT _ _ _ _ T1 Hb). lia.
  - destruct (OUT _ _ _ _ T2 Hb). lia.
Qed.

(** Equal tiles from [lo] on, up to [bound]. *)
Lemma tile_block : forall k l lo hi len v, tile lo l hi -> lo <= v < hi ->
  (forall r, In r l -> i_code r <= v -> i_len r = len) -> 0 < weight len ->
  k = Z.to_nat ((v - lo) / weight len) ->
  exists r, nth_error l k = Some r /\ holds r v.
Proof.
  induction k as [|k IH]; intros l lo hi len v HT Hv HL HW HK.
  - destruct l as [|r l]; cbn [tile] in HT; [lia|]. destruct HT as (A & B & C).
    exists r. split; auto. unfold holds. rewrite A. split; [lia|].
    assert (EL : i_len r = len) by (apply HL; [left; auto|lia]). unfold size. rewrite EL.
    assert (D : (v - lo) / weight len = 0).
    { assert (0 <= (v - lo) / weight len) by (apply Z.div_pos; lia). lia. }
    apply Z.div_small_iff in D; lia.
  - destruct l as [|r l]; cbn [tile] in HT; [lia|]. destruct HT as (A & B & C).
    assert (EL : i_len r = len) by (apply HL; [left; auto|lia]).
    assert (ES : size r = weight len) by (unfold size; rewrite EL; reflexivity).
    assert (GE : weight len <= v - lo).
    { destruct (Z.lt_ge_cases (v - lo) (weight len)); auto. rewrite Z.div_small in HK by lia. discriminate. }
    rewrite ES in C. cbn [nth_error].
    apply (IH l (lo + weight len) hi len v C); auto; try lia.
    + intros s Hs. apply HL. right. auto.
    + replace (v - (lo + weight len)) with (v - lo + (-1) * weight len) by lia.
      rewrite Z.div_add by lia. lia.
Qed.

(** * The cache *)
Section Cache.
Variable rows : list info.
Variable cb : nat.
Hypothesis HT : tile 0 rows (2 ^ 32).
Hypothesis HL : forall r, In r rows -> (0 < i_len r <= 32)%nat.
Hypothesis HA : forall r, In r rows -> exists q, i_code r = q * size r.
Hypothesis HM : forall a b, In a rows -> In b rows -> i_code a <= i_code b -> (i_len a <= i_len b)%nat.
Hypothesis HC : (0 < cb <= 9)%nat.

Notation step := (2 ^ (32 - Z.of_nat cb)).

Lemma step_pos : 0 < step.
Proof. apply Z.pow_pos_nonneg; lia. Qed.

Lemma mask_value : forall m cache, ncache_mask (mkdec m cb rows cache) = 2 ^ 32 - step.
Proof.
  intros m cache. unfold ncache_mask, normalize. cbn [d_cbits].
  rewrite Z.shiftl_1_l, Z.shiftl_mul_pow2 by lia.
  replace (Z.of_nat (32 - cb)) with (32 - Z.of_nat cb) by lia.
  rewrite Z.mul_sub_distr_r, <- Z.pow_add_r by lia.
  replace (Z.of_nat cb + (32 - Z.of_nat cb)) with 32 by lia. rewrite Z.mul_1_l.
  pose proof step_pos. assert (step < 2 ^ 32) by (apply Z.pow_lt_mono_r; lia).
  apply Z.mod_small. lia.
Qed.

Lemma land_mask : forall v, 0 <= v < 2 ^ 32 -> Z.land v (2 ^ 32 - step) = v / step * step.
Proof.
  intros v Hv. apply Z.bits_inj'. intros k Hk.
  assert (E : 2 ^ 32 - step = Z.shiftl (2 ^ Z.of_nat cb - 1) (32 - Z.of_nat cb)).
  { rewrite Z.shiftl_mul_pow2 by lia. rewrite Z.mul_sub_distr_r, <- Z.pow_add_r by lia.
    replace (Z.of_nat cb + (32 - Z.of_nat cb)) with 32 by lia. lia. }
  rewrite E, Z.land_spec, Z.shiftl_spec by lia.
  rewrite <- Z.shiftl_mul_pow2, <- Z.shiftr_div_pow2, Z.shiftl_spec by lia.
  destruct (Z.lt_ge_cases k (32 - Z.of_nat cb)).
  - rewrite !Z.testbit_neg_r with (n := k - (32 - Z.of_nat cb)) by lia. apply andb_false_r.
  - rewrite Z.shiftr_spec by lia. replace (k - (32 - Z.of_nat cb) + (32 - Z.of_nat cb)) with k by lia.
    replace (2 ^ Z.of_nat cb - 1) with (Z.ones (Z.of_nat cb)) by (rewrite Z.ones_equiv; lia).
    replace (Z.testbit (Z.ones (Z.of_nat cb)) (k - (32 - Z.of_nat cb))) with (k <? 32).
    + destruct (Z.ltb_spec k 32); [apply andb_true_r|]. rewrite andb_false_r. symmetry. apply (testbit_above 32); lia.
    + destruct (Z.ltb_spec k 32); symmetry; [apply Z.ones_spec_low|apply Z.ones_spec_high]; lia.
Qed.

(** Two multiples of a size less than it apart. *)
Lemma same_multiple : forall s a b, 0 < s -> a * s <= b * s < a * s + s -> a = b.
Proof. intros s a b H1 H2. nia. Qed.

Lemma weight_split : forall l, (cb < l <= 32)%nat -> step = 2 ^ (Z.of_nat l - Z.of_nat cb) * weight l.
Proof.
  intros l H. unfold weight. destruct (Nat.eqb_spec l 0); [lia|]. rewrite <- Z.pow_add_r by lia. f_equal. lia.
Qed.
Lemma weight_split' : forall l, (0 < l <= cb)%nat -> weight l = 2 ^ (Z.of_nat cb - Z.of_nat l) * step.
Proof.
  intros l H. unfold weight. destruct (Nat.eqb_spec l 0); [lia|]. rewrite <- Z.pow_add_r by lia. f_equal. lia.
Qed.

Definition good_entry (nc : Z) (e : entry) : Prop := forall v, nc * step <= v < nc * step + step ->
  match e with
  | EEmpty => True
  | EValue x l => exists r, In r rows /\ holds r v /\ i_value r = x /\ i_len r = l
  | EBlock b l => (cb < l <= 32)%nat /\ exists r, nth_error rows (b + Z.to_nat ((v - nc * step) / weight l)) = Some r /\ holds r v
  | ERange b z => exists k r, upper_bound (firstn (z - b) (skipn b rows)) v = S k /\ nth_error rows (b + k) = Some r /\ holds r v
  end.

Lemma in_holds : forall a r b, rows = a ++ r :: b -> In r rows.
Proof. intros a r b E. rewrite E. apply in_or_app. right. left. reflexivity. Qed.

Lemma fill_good : forall m cache v, 0 <= v < 2 ^ 32 ->
  exists e, fill_entry (mkdec m cb rows cache) v = Some e /\ e <> EEmpty /\ good_entry (v / step) e.
Proof.
  intros m cache v Hv. pose proof step_pos as SP.
  unfold fill_entry. rewrite mask_value. cbn [d_rows d_cbits]. rewrite land_mask by auto.
  set (q := v / step). set (nc := q * step).
  assert (STEP : step < 2 ^ 32) by (apply Z.pow_lt_mono_r; lia).
  assert (HQ : 0 <= q) by (apply Z.div_pos; lia).
  assert (HNC : 0 <= nc /\ nc + step <= 2 ^ 32).
  { split; [unfold nc; nia|]. assert (q < 2 ^ Z.of_nat cb).
    { apply Z.div_lt_upper_bound; auto. rewrite <- Z.pow_add_r by lia. replace (32 - Z.of_nat cb + Z.of_nat cb) with 32 by lia. lia. }
    replace (2 ^ 32) with (2 ^ Z.of_nat cb * step) by (rewrite <- Z.pow_add_r by lia; f_equal; lia). unfold nc. nia. }
  destruct (upper_bound_tile rows 0 (2 ^ 32) nc HT ltac:(lia)) as (a & r & b & ER & HR & EU).
  rewrite EU. assert (NR : nth (length a) rows dummy = r) by (rewrite ER, app_nth2, Nat.sub_diag by lia; reflexivity).
  rewrite NR. assert (IR : In r rows) by (eapply in_holds; eauto).
  pose proof (HL r IR) as LR. destruct (HA r IR) as (c & AR).
  assert (SR : 0 < size r) by (apply weight_pos; lia).
  destruct (Nat.leb_spec (i_len r) cb) as [LE|GT].
  - eexists. split; [reflexivity|]. split; [discriminate|].
    intros u Hu. exists r. split; auto. split; auto. fold nc in Hu.
    unfold holds in *. rewrite AR in *.
    assert (W : size r = 2 ^ (Z.of_nat cb - Z.of_nat (i_len r)) * step) by (apply weight_split'; lia).
    assert (WP : 0 < 2 ^ (Z.of_nat cb - Z.of_nat (i_len r))) by (apply Z.pow_pos_nonneg; lia).
    set (w := 2 ^ (Z.of_nat cb - Z.of_nat (i_len r))) in *.
    assert (X : q + 1 <= c * w + w).
    { unfold nc in HR. rewrite W in HR. assert (q * step < (c * w + w) * step) by nia. apply Z.mul_lt_mono_pos_r in H; lia. }
    unfold nc in *. rewrite W in *. nia.
  - (* the tile starts at nc *)
    assert (W : step = 2 ^ (Z.of_nat (i_len r) - Z.of_nat cb) * size r) by (apply weight_split; lia).
    assert (ENC : i_code r = nc).
    { unfold holds in HR. rewrite AR in *. unfold nc in *. rewrite W in *.
      rewrite Z.mul_assoc in *. f_equal. apply (same_multiple (size r)); auto. }
    assert (LAST : (nc + (2 ^ 32 - 1 - (2 ^ 32 - step))) mod 2 ^ 32 = nc + step - 1).
    { rewrite Z.mod_small by lia. lia. }
    rewrite LAST.
    destruct (upper_bound_tile rows 0 (2 ^ 32) (nc + step - 1) HT ltac:(lia)) as (a2 & r2 & b2 & ER2 & HR2 & EU2).
    rewrite EU2. assert (NR2 : nth (length a2) rows dummy = r2) by (rewrite ER2, app_nth2, Nat.sub_diag by lia; reflexivity).
    rewrite NR2. assert (IR2 : In r2 rows) by (eapply in_holds; eauto).
    assert (TS : tile nc (r :: b) (2 ^ 32)).
    { rewrite ER in HT. apply tile_app in HT as (mm & T1 & T2).
      assert (mm = nc) by (cbn [tile] in T2; destruct T2; lia). subst mm. exact T2. }
    assert (SK : skipn (length a) rows = r :: b) by (rewrite ER; apply skipn_app_exact).
    destruct (Nat.eqb_spec (i_len r) (i_len r2)) as [EQ|NE].
    + eexists. split; [reflexivity|]. split; [discriminate|].
      intros u Hu. fold nc in Hu. fold nc. split; [lia|].
      assert (HB : forall s, In s (r :: b) -> i_code s <= u -> i_len s = i_len r).
      { intros s Hs Hu'. assert (IS : In s rows) by (rewrite ER; apply in_or_app; right; exact Hs).
        assert (i_code r <= i_code s).
        { clear - TS Hs ENC. rewrite ENC. assert (OUT : forall l lo hi s, tile lo l hi -> In s l -> lo <= i_code s).
          { clear. induction l as [|x l IH]; intros lo hi s H []; cbn [tile] in H; destruct H as (A & B & C).
            - subst x. lia.
            - specialize (IH _ _ s C H0). lia. }
          eapply OUT; eauto. }
        pose proof (HM r s IR IS H).
        assert (i_len s <= i_len r2)%nat; [|lia].
        unfold holds in HR2. destruct (Z.le_gt_cases (i_code s) (i_code r2)) as [C|C]; [apply HM; auto|].
        (* s starts inside r2's tile: impossible unless equal *)
        exfalso.
        assert (HS1 : holds s (i_code s)) by (unfold holds; pose proof (weight_pos (i_len s) (HL s IS)); unfold size; lia).
        assert (HS2 : holds r2 (i_code s)) by (unfold holds; lia).
        assert (s = r2) by exact (holds_unique rows 0 (2 ^ 32) s r2 (i_code s) HT IS IR2 HS1 HS2). subst s. lia. }
      assert (WP : 0 < weight (i_len r)) by exact SR.
      destruct (tile_block _ (r :: b) nc (2 ^ 32) (i_len r) u TS ltac:(lia) HB WP eq_refl) as (s & NS & HS).
      exists s. split; auto. rewrite <- SK in NS. rewrite <- NS. rewrite <- (firstn_skipn (length a) rows) at 1.
      rewrite nth_error_app2 by (rewrite firstn_length; lia). f_equal. rewrite firstn_length.
      rewrite Nat.min_l by (rewrite ER, app_length; lia). lia.
    + eexists. split; [reflexivity|]. split; [discriminate|].
      intros u Hu. fold nc in Hu.
      (* the part of the table from r to r2 *)
      assert (LE12 : (length a <= length a2)%nat).
      { destruct (Nat.le_gt_cases (length a) (length a2)); auto. exfalso.
        assert (i_code r2 < i_code r).
        { assert (In2 : In r2 a).
          { rewrite <- NR2, ER, app_nth1 by auto. apply nth_In. auto. }
          rewrite ER in HT. apply tile_app in HT as (mm & T1 & T2).
          cbn [tile] in T2. destruct T2 as (T2 & _ & _).
          assert (OUT : forall l lo hi s, tile lo l hi -> In s l -> i_code s < hi).
          { clear. induction l as [|x l IH]; intros lo hi s H []; cbn [tile] in H; destruct H as (A & B & C).
            - subst x. apply tile_le in C. lia.
            - eauto. }
          pose proof (OUT _ _ _ _ T1 In2). lia. }
        unfold holds in HR2.
        assert (HX2 : holds r2 nc) by (unfold holds; lia).
        assert (r = r2) by exact (holds_unique rows 0 (2 ^ 32) r r2 nc HT IR IR2 HR HX2). congruence. }
      set (k0 := (S (length a2) - length a)%nat).
      set (sub := firstn k0 (r :: b)).
      assert (E2 : rows = firstn (S (length a2)) rows ++ skipn (S (length a2)) rows) by (symmetry; apply firstn_skipn).
      assert (F2 : firstn (S (length a2)) rows = a ++ sub).
      { unfold sub, k0. rewrite ER at 1. rewrite firstn_app. rewrite firstn_all2 by lia. reflexivity. }
      assert (TS2 : exists hi, tile nc sub hi /\ nc + step - 1 < hi).
      { pose proof HT as HT'. rewrite ER2 in HT'.
        replace (a2 ++ r2 :: b2) with ((a2 ++ [r2]) ++ b2) in HT' by (rewrite <- app_assoc; reflexivity).
        apply tile_app in HT' as (hi & T1 & T2). exists hi.
        assert (FF : a2 ++ [r2] = a ++ sub).
        { rewrite <- F2, ER2. replace (a2 ++ r2 :: b2) with ((a2 ++ [r2]) ++ b2) by (rewrite <- app_assoc; reflexivity).
          replace (S (length a2)) with (length (a2 ++ [r2])) by (rewrite app_length; cbn; lia).
          rewrite firstn_app_exact. reflexivity. }
        rewrite FF in T1. split.
        - apply tile_app in T1 as (mm & U1 & U2).
          assert (SUBNE : exists t, sub = r :: t).
          { unfold sub, k0. destruct (S (length a2) - length a)%nat eqn:EK; [lia|]. cbn. eauto. }
          destruct SUBNE as (t & ES). rewrite ES in U2 |- *. cbn [tile] in U2 |- *.
          destruct U2 as (U2 & U3 & U4). rewrite <- ENC. rewrite U2 in *. auto.
        - rewrite <- FF in T1. apply tile_app in T1 as (mm & U1 & U2). cbn [tile] in U2.
          destruct U2 as (U2 & _ & U3). unfold holds in HR2. lia. }
      destruct TS2 as (hi & TS2 & HH).
      destruct (upper_bound_tile sub nc hi u TS2 ltac:(lia)) as (p & s & p' & ES & HS & EUS).
      exists (length p), s. rewrite SK. fold k0. fold sub. split; [exact EUS|]. split; auto.
      rewrite E2, F2, <- app_assoc, nth_error_app2 by lia.
      replace (length a + length p - length a)%nat with (length p) by lia.
      rewrite ES, <- app_assoc, nth_error_app2, Nat.sub_diag by lia. reflexivity.
Qed.

(** What the cache remembers is what was looked up. *)
Definition cache_ok (cache : list entry) : Prop :=
  length cache = (2 ^ cb)%nat /\
  forall x e, nth_error cache x = Some e -> e = EEmpty \/ good_entry (bit_reverse32 (Z.of_nat x) / step) e.

Lemma cache_index : forall code, 0 <= code < 2 ^ 32 ->
  let x := Z.to_nat (Z.land code (Z.shiftl 1 (Z.of_nat cb) - 1)) in
  (x < 2 ^ cb)%nat /\ bit_reverse32 (Z.of_nat x) / step = bit_reverse32 code / step.
Proof.
  intros code Hc x.
  assert (E : Z.of_nat x = code mod 2 ^ Z.of_nat cb).
  { unfold x. rewrite Z.shiftl_1_l, <- Z.land_ones, Z.ones_equiv by lia.
    rewrite Z2Nat.id; [reflexivity|]. apply Z.land_nonneg. lia. }
  assert (P : 0 < 2 ^ Z.of_nat cb) by (apply Z.pow_pos_nonneg; lia).
  pose proof (Z.mod_pos_bound code _ P) as B.
  split.
  - apply Nat2Z.inj_lt. rewrite E, Nat2Z.inj_pow. apply B.
  - assert (X32 : 0 <= Z.of_nat x < 2 ^ 32).
    { rewrite E. split; [lia|]. assert (2 ^ Z.of_nat cb <= 2 ^ 32) by (apply Z.pow_le_mono_r; lia). lia. }
    rewrite <- !Z.shiftr_div_pow2 by lia. apply Z.bits_inj'. intros k Hk. rewrite !Z.shiftr_spec by lia.
    destruct (Z.lt_ge_cases (k + (32 - Z.of_nat cb)) 32).
    + rewrite !bit_reverse_spec by lia. rewrite E. apply Z.mod_pow2_bits_low. lia.
    + rewrite !(testbit_above 32) by (try lia; apply bit_reverse_range; auto). reflexivity.
Qed.

Lemma block_index : forall v l, 0 <= v < 2 ^ 32 -> (cb < l <= 32)%nat ->
  Z.shiftr (Z.shiftl v (Z.of_nat cb) mod 2 ^ 32) (Z.of_nat (32 - (l - cb)))
  = (v - v / step * step) / weight l.
Proof.
  intros v l Hv Hl. unfold weight. destruct (Nat.eqb_spec l 0); [lia|].
  rewrite Z.shiftl_mul_pow2, Z.shiftr_div_pow2 by lia.
  replace (2 ^ 32) with (step * 2 ^ Z.of_nat cb) by (rewrite <- Z.pow_add_r by lia; f_equal; lia).
  pose proof step_pos as SP. assert (P : 0 < 2 ^ Z.of_nat cb) by (apply Z.pow_pos_nonneg; lia).
  rewrite Z.mul_mod_distr_r by lia.
  replace (Z.of_nat (32 - (l - cb))) with ((32 - Z.of_nat l) + Z.of_nat cb) by lia.
  rewrite Z.pow_add_r by lia. rewrite Z.div_mul_cancel_r by (try lia; apply Z.pow_nonzero; lia).
  f_equal. rewrite Z.mod_eq by lia. lia.
Qed.

Lemma decode_spec : forall m cache code, cache_ok cache -> 0 <= code < 2 ^ 32 ->
  exists cache' r, decode (mkdec m cb rows cache) code = Some (mkdec m cb rows cache', i_value r, i_len r)
    /\ cache_ok cache' /\ In r rows /\ holds r (bit_reverse32 code).
Proof.
  intros m cache code [CL CO] Hc.
  destruct (cache_index code Hc) as [HX HQ]. cbv zeta in HX, HQ.
  pose proof (bit_reverse_range code Hc) as HV.
  pose proof step_pos as SP.
  unfold decode. cbn [d_cbits d_cache d_rows d_max].
  set (x := Z.to_nat (Z.land code (Z.shiftl 1 (Z.of_nat cb) - 1))) in *.
  set (v := bit_reverse32 code) in *.
  assert (HVQ : v / step * step <= v < v / step * step + step).
  { pose proof (Z.div_mod v step ltac:(lia)). pose proof (Z.mod_pos_bound v step SP). lia. }
  destruct (nth_error cache x) as [e|] eqn:EX; [|apply nth_error_None in EX; lia].
  assert (GO : forall e cache', e <> EEmpty -> good_entry (v / step) e -> cache_ok cache' ->
    exists cache'' r,
    (let row := fun i => match nth_error rows i with
                 | Some r => Some (mkdec m cb rows cache', i_value r, i_len r)
                 | None => None end in
    match e with
    | EEmpty => None
    | EValue v l => Some (mkdec m cb rows cache', v, l)
    | EBlock b l =>
      row (b + Z.to_nat (Z.shiftr (Z.shiftl v (Z.of_nat cb) mod 2 ^ 32)
                                  (Z.of_nat (32 - (l - cb)))))%nat
    | ERange b z =>
      match upper_bound (firstn (z - b) (skipn b rows)) v with
      | O => None
      | S k => row (b + k)%nat
      end
    end) = Some (mkdec m cb rows cache'', i_value r, i_len r)
    /\ cache_ok cache'' /\ In r rows /\ holds r v).
  { intros e' cache' NE GE CO'. specialize (GE v HVQ). exists cache'. cbv zeta. destruct e' as [|val l|b l|b z].
    - congruence.
    - destruct GE as (r & G1 & G2 & <- & <-). exists r. auto.
    - destruct GE as (GL & r & G1 & G2). exists r. rewrite block_index by auto. rewrite G1.
      split; auto. split; auto. split; auto. eapply nth_error_In; eauto.
    - destruct GE as (k & r & G0 & G1 & G2). exists r. rewrite G0, G1.
      split; auto. split; auto. split; auto. eapply nth_error_In; eauto. }
  destruct e as [|val l|b l|b z].
  - destruct (fill_good m cache v HV) as (e & FE & NE & GE). rewrite FE. apply GO; auto.
    split; [rewrite upd_length; auto|].
    intros y e' Hy. destruct (Nat.eq_dec x y) as [->|N].
    + right. assert (nth_error (upd y e cache) y = Some e).
      { rewrite nth_error_nth' with (d := EEmpty) by (rewrite upd_length; lia). rewrite upd_nth_eq by lia. reflexivity. }
      rewrite H in Hy. injection Hy as <-. rewrite HQ. exact GE.
    + apply (CO y). rewrite <- Hy.
      destruct (Nat.lt_ge_cases y (length cache)).
      * rewrite !nth_error_nth' with (d := EEmpty) by (rewrite ?upd_length; lia). rewrite upd_nth_neq by lia. reflexivity.
      * rewrite !(proj2 (nth_error_None _ _)); auto. rewrite upd_length. lia.
  - apply (GO (EValue val l) cache); [discriminate| |split; auto]. destruct (CO x _ EX) as [|G]; [discriminate|]. rewrite HQ in G. exact G.
  - apply (GO (EBlock b l) cache); [discriminate| |split; auto]. destruct (CO x _ EX) as [|G]; [discriminate|]. rewrite HQ in G. exact G.
  - apply (GO (ERange b z) cache); [discriminate| |split; auto]. destruct (CO x _ EX) as [|G]; [discriminate|]. rewrite HQ in G. exact G.
Qed.
End Cache.
