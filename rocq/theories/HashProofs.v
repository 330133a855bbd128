(** Lemmas about the iterated hash model. *)
From Coq Require Import ZArith List Lia Bool Arith.
From Verif Require Import Base Blocks HashModel HashSpec.
Import ListNotations.
Local Open Scope Z_scope.

Lemma blocks_concat_map_rev : forall W l, W <> 0%nat -> (length l mod W = 0)%nat ->
  blocks W (byte_reverse W l) = map (@rev Z) (blocks W l).
Proof.
  intros W l HW Hl. unfold byte_reverse. apply blocks_concat; auto.
  pose proof (blocks_forall W l HW) as HF. induction HF; cbn [map]; constructor; auto. rewrite rev_length; auto.
Qed.

Lemma byte_reverse_length : forall W l, W <> 0%nat -> (length l mod W = 0)%nat -> length (byte_reverse W l) = length l.
Proof.
  intros W l HW Hl. unfold byte_reverse.
  rewrite (length_concat_blocks W).
  - rewrite map_length, blocks_count by auto. pose proof (Nat.div_mod (length l) W HW). lia.
  - pose proof (blocks_forall W l HW) as HF. induction HF; cbn [map]; constructor; auto. rewrite rev_length; auto.
Qed.

Section Alg.
  Variable a : hashalg.
  Hypothesis Hok : ok_alg a.
  Let B := ha_B a.
  Let W := ha_W a.
  Let M := ha_M a.

  Definition blkstep (st blk : list Z) : list Z := ha_compress a st (spec_words a blk).

  Lemma W_cases : W = 4%nat \/ W = 8%nat.
  Proof. apply Hok. Qed.
  Lemma W_pos : W <> 0%nat.
  Proof. destruct W_cases; lia. Qed.
  Lemma B_pow : exists k, B = (2 ^ k)%nat /\ (k < 32)%nat.
  Proof. apply Hok. Qed.
  Lemma B_big : (2 * W < B)%nat.
  Proof. apply Hok. Qed.
  Lemma B_pos : B <> 0%nat.
  Proof. pose proof B_big. lia. Qed.
  Lemma N_eq : ha_N a = 8 * Z.of_nat W.
  Proof. reflexivity. Qed.
  Lemma N_ge : 32 <= ha_N a.
  Proof. rewrite N_eq. destruct W_cases as [E|E]; rewrite E; cbn; lia. Qed.
  Lemma M_pos : 0 < M.
  Proof. unfold M, ha_M. pose proof N_ge. apply Z.pow_pos_nonneg; lia. Qed.
  Lemma M_256 : M = 256 ^ Z.of_nat W.
  Proof. unfold M, ha_M. rewrite N_eq, Z.pow_mul_r by lia. reflexivity. Qed.

  Lemma pow_nat_Z : forall k, Z.of_nat (2 ^ k) = 2 ^ Z.of_nat k.
  Proof.
    induction k as [|k IHk]; [reflexivity|]. rewrite Nat.pow_succ_r', Nat2Z.inj_mul, IHk, (Nat2Z.inj_succ k), Z.pow_succ_r by lia. reflexivity.
  Qed.

  Lemma B_mod_W : (B mod W = 0)%nat.
  Proof.
    destruct B_pow as (k & Hk & _). pose proof B_big.
    assert (exists j, B = (8 * 2 ^ j)%nat).
    { destruct k as [|[|[|k]]]; try (rewrite Hk in H; cbn in H; destruct W_cases; lia).
      exists k. rewrite Hk, !Nat.pow_succ_r'. lia. }
    destruct H0 as (j & ->). destruct W_cases as [->| ->].
    - replace (8 * 2 ^ j)%nat with ((2 * 2 ^ j) * 4)%nat by lia. apply Nat.mod_mul. lia.
    - rewrite Nat.mul_comm. apply Nat.mod_mul. lia.
  Qed.

  Lemma ih_one_spec : forall st data blk, length blk = B -> length data = B ->
    fst (ih_one a st data blk) = blkstep st blk /\ length (snd (ih_one a st data blk)) = B.
  Proof.
    intros st data blk Hb Hd. unfold ih_one, blkstep, spec_words.
    assert (Hm : (length blk mod W = 0)%nat) by (rewrite Hb; apply B_mod_W).
    destruct (ha_big a); cbn [fst snd].
    - split; [|rewrite byte_reverse_length; auto using W_pos].
      f_equal. unfold words_le. rewrite blocks_concat_map_rev by (auto using W_pos).
      rewrite map_map. apply map_ext. intros. symmetry. apply be_val_rev.
    - auto.
  Qed.

  Lemma ih_hashblock_spec : forall st data, length data = B ->
    fst (ih_hashblock a st data) = blkstep st data /\ length (snd (ih_hashblock a st data)) = B.
  Proof. intros. apply ih_one_spec; auto. Qed.

  Lemma ih_multiple_spec : forall fuel st data input, length data = B -> (B <= length input)%nat -> (length input <= fuel)%nat ->
    exists d', ih_multiple fuel a st data input = (fold_left blkstep (blocks B input) st, d', rest B input) /\ length d' = B.
  Proof.
    pose proof B_pos as HB.
    induction fuel; intros st data input Hd Hi Hf; [lia|]. cbn [ih_multiple]. fold B.
    destruct (ih_one a st data (firstn B input)) as [st1 d1] eqn:E1.
    assert (length (firstn B input) = B) by (rewrite firstn_length; lia).
    pose proof (ih_one_spec st data _ H Hd) as [X1 X2]. rewrite E1 in X1, X2. cbn [fst snd] in X1, X2.
    rewrite (blocks_cons B input), (rest_cons B input) by auto. cbn [fold_left].
    assert (length (skipn B input) = (length input - B)%nat) by apply skipn_length.
    destruct (Nat.leb_spec B (length (skipn B input))).
    - rewrite <- X1. apply IHfuel; auto. lia.
    - rewrite (blocks_small B (skipn B input)), (rest_small B (skipn B input)) by auto. exists d1. subst st1. auto.
  Qed.

  Lemma ih_unaligned_spec : forall fuel st data input, length data = B -> (B <= length input)%nat -> (length input <= fuel)%nat ->
    exists d', ih_unaligned fuel a st data input = (fold_left blkstep (blocks B input) st, d', rest B input) /\ length d' = B.
  Proof.
    pose proof B_pos as HB.
    induction fuel; intros st data input Hd Hi Hf; [lia|]. cbn [ih_unaligned]. fold B.
    assert (length (firstn B input) = B) by (rewrite firstn_length; lia).
    rewrite write_0 by congruence.
    destruct (ih_hashblock a st (firstn B input)) as [st1 d1] eqn:E1.
    pose proof (ih_hashblock_spec st _ H) as [X1 X2]. rewrite E1 in X1, X2. cbn [fst snd] in X1, X2.
    rewrite (blocks_cons B input), (rest_cons B input) by auto. cbn [fold_left].
    assert (length (skipn B input) = (length input - B)%nat) by apply skipn_length.
    destruct (Nat.leb_spec B (length (skipn B input))).
    - rewrite <- X1. apply IHfuel; auto. lia.
    - rewrite (blocks_small B (skipn B input)), (rest_small B (skipn B input)) by auto. exists d1. subst st1. auto.
  Qed.

  Lemma ih_bulk_spec : forall al st data input, length data = B ->
    exists d', ih_bulk a al st data input = (fold_left blkstep (blocks B input) st, d') /\ length d' = B /\
      firstn (length (rest B input)) d' = rest B input.
  Proof.
    intros al st data input Hd. unfold ih_bulk. fold B. pose proof B_pos as HB.
    assert (G : exists d', (if Nat.leb B (length input) then
      if al then ih_multiple (length input) a st data input else ih_unaligned (length input) a st data input
      else (st, data, input)) = (fold_left blkstep (blocks B input) st, d', rest B input) /\ length d' = B).
    { destruct (Nat.leb_spec B (length input)).
      - destruct al; [apply ih_multiple_spec|apply ih_unaligned_spec]; auto.
      - rewrite blocks_small, rest_small by auto. exists data. auto. }
    destruct G as (d' & -> & Hd'). eexists. split; [reflexivity|].
    pose proof (rest_lt B input HB).
    split; [rewrite write_length; lia|]. change (length (rest B input)) with (0 + length (rest B input))%nat at 1.
    rewrite write_firstn by lia. reflexivity.
  Qed.

  (** The object [h] has absorbed the message [m]. *)
  Notation len := blen.
  Record hrep (h : ihash) (m : list Z) : Prop := {
    hr_lt : len m < M * M;
    hr_lo : ih_lo h = len m mod M;
    hr_hi : ih_hi h = len m / M;
    hr_st : ih_state h = fold_left blkstep (blocks B m) (ha_iv a);
    hr_dl : length (ih_data h) = B;
    hr_d : firstn (length (rest B m)) (ih_data h) = rest B m
  }.

  Lemma hrep_num : forall h m, hrep h m -> ih_num a h = length (rest B m).
  Proof.
    intros h m H. pose proof B_pos. rewrite rest_length by auto. unfold ih_num. fold B.
    destruct B_pow as (k & Hk & Hk2). rewrite Hk, pow_nat_Z.
    replace (2 ^ Z.of_nat k - 1) with (Z.ones (Z.of_nat k)) by (rewrite Z.ones_equiv; lia).
    rewrite Z.land_ones by lia. rewrite (hr_lo _ _ H).
    unfold M, ha_M. pose proof N_ge.
    replace (ha_N a) with ((ha_N a - Z.of_nat k) + Z.of_nat k) by lia.
    rewrite Z.pow_add_r by lia. rewrite (Z.mul_comm (2 ^ (_))). 
    rewrite Z.rem_mul_r by (try apply Z.pow_nonzero; try apply Z.pow_pos_nonneg; lia).
    rewrite Z.mul_comm, Z_mod_plus_full, Z.mod_mod by (apply Z.pow_nonzero; lia).
    unfold blen. rewrite <- pow_nat_Z, <- Nat2Z.inj_mod, Nat2Z.id. reflexivity.
  Qed.

  Lemma hrep_new : hrep (ih_new a) [].
  Proof.
    pose proof B_pos. pose proof M_pos. constructor; cbn [ih_new ih_lo ih_hi ih_state ih_data].
    - cbn. nia.
    - symmetry. apply Z.mod_0_l. lia.
    - symmetry. apply Z.div_0_l. lia.
    - rewrite blocks_nil by auto. reflexivity.
    - apply repeat_length.
    - rewrite rest_nil by auto. reflexivity.
  Qed.
  Lemma hrep_restart : forall h, length (ih_data h) = B -> hrep (ih_restart a h) [].
  Proof.
    intros h Hd. pose proof B_pos. pose proof M_pos. constructor; cbn [ih_restart ih_lo ih_hi ih_state ih_data].
    - cbn. nia.
    - symmetry. apply Z.mod_0_l. lia.
    - symmetry. apply Z.div_0_l. lia.
    - rewrite blocks_nil by auto. reflexivity.
    - exact Hd.
    - rewrite rest_nil by auto. reflexivity.
  Qed.

  (** The counter: [n] bytes already counted, [k] new ones. *)
  Lemma ih_count_spec : forall h m k, hrep h m -> 0 <= k < 2 ^ 63 ->
    ih_count a h k = ((len m + k) mod M, ((len m + k) / M) mod M, (len m + k <? M * M)).
  Proof.
    intros h m k H Hk. unfold ih_count. fold M. rewrite (hr_lo _ _ H), (hr_hi _ _ H).
    pose proof M_pos as HM. pose proof (hr_lt _ _ H) as Hlt.
    set (n := len m) in *. assert (Hn : 0 <= n) by (subst n; unfold blen; lia).
    assert (Elo : (n mod M + k) mod M = (n + k) mod M) by (apply Z.add_mod_idemp_l; lia).
    rewrite Elo.
    assert (Hq : 0 <= n / M < M) by (split; [apply Z.div_pos; lia|apply Z.div_lt_upper_bound; lia]).
    assert (Dn := Z.div_mod n M ltac:(lia)). assert (Dk := Z.div_mod k M ltac:(lia)).
    assert (Bn := Z.mod_pos_bound n M HM). assert (Bk := Z.mod_pos_bound k M HM).
    assert (Hkq : 0 <= k / M /\ (k / M + 1 < M)).
    { split; [apply Z.div_pos; lia|].
      assert (M = 2 ^ 32 \/ M = 2 ^ 64) as [E|E].
      { unfold M, ha_M. rewrite N_eq. destruct W_cases as [->| ->]; [left|right]; reflexivity. }
      - assert (k / M < 2 ^ 31) by (apply Z.div_lt_upper_bound; rewrite ?E; lia). lia.
      - rewrite Z.div_small by (rewrite E; lia). lia. }
    (* carry *)
    set (c := (n mod M + k mod M) / M).
    assert (Hc : c = 0 \/ c = 1).
    { subst c. destruct (Z.lt_ge_cases (n mod M + k mod M) M).
      - left. apply Z.div_small. lia.
      - right. symmetry. apply Z.div_unique with (n mod M + k mod M - M); lia. }
    assert (Dc := Z.div_mod (n mod M + k mod M) M ltac:(lia)). fold c in Dc.
    assert (Hsum : (n + k) / M = n / M + k / M + c /\ (n + k) mod M = (n mod M + k mod M) mod M).
    { assert (Bs := Z.mod_pos_bound (n mod M + k mod M) M HM). split.
      - symmetry. apply Z.div_unique with ((n mod M + k mod M) mod M); [lia|nia].
      - symmetry. apply Z.mod_unique with (n / M + k / M + c); [lia|nia]. }
    destruct Hsum as [S1 S2].
    assert (Hcarry : ((n + k) mod M <? n mod M) = (c =? 1)).
    { rewrite S2. destruct Hc as [Hc|Hc]; rewrite Hc in *.
      - cbn. apply Z.ltb_ge. lia.
      - cbn. apply Z.ltb_lt. lia. }
    rewrite Hcarry.
    assert (Ehi : ((if c =? 1 then (n / M + 1) mod M else n / M) + k / M) mod M = ((n + k) / M) mod M).
    { rewrite S1. destruct Hc as [-> | ->]; cbn [Z.eqb Pos.eqb].
      - f_equal. lia.
      - rewrite Z.add_mod_idemp_l by lia. f_equal. lia. }
    rewrite Ehi. f_equal.
    assert (E2 : k / 2 ^ (2 * ha_N a) = 0).
    { apply Z.div_small. split; [lia|]. eapply Z.lt_le_trans; [apply Hk|]. apply Z.pow_le_mono_r; [lia|]. pose proof N_ge. lia. }
    rewrite E2. cbn [Z.eqb negb]. rewrite orb_false_r.
    (* decision *)
    assert (Hd : (n + k <? M * M) = ((n + k) / M <? M)).
    { destruct (Z.ltb_spec ((n + k) / M) M), (Z.ltb_spec (n + k) (M * M)); auto; exfalso.
      - assert (M <= (n + k) / M) by (apply Z.div_le_lower_bound; lia). lia.
      - assert ((n + k) / M < M) by (apply Z.div_lt_upper_bound; lia). lia. }
    rewrite Hd, S1.
    destruct (Z.ltb_spec (n / M + k / M + c) M).
    - rewrite Z.mod_small by lia. rewrite (proj2 (Z.ltb_ge _ _)) by lia. reflexivity.
    - replace (n / M + k / M + c) with ((n / M + k / M + c - M) + 1 * M) by lia.
      rewrite Z_mod_plus_full, Z.mod_small by lia. rewrite (proj2 (Z.ltb_lt _ _)) by lia. reflexivity.
  Qed.

  Lemma len_app : forall x y, len (x ++ y) = len x + len y.
  Proof. intros. unfold blen. rewrite app_length. lia. Qed.

  Lemma ih_update_spec : forall h m al d, hrep h m -> len d < 2 ^ 63 ->
    (len (m ++ d) < M * M /\ exists h', ih_update a h al d = (h', true) /\ hrep h' (m ++ d)) \/
    (M * M <= len (m ++ d) /\ exists h', ih_update a h al d = (h', false)).
  Proof.
    intros h m al d H Hd. unfold ih_update. pose proof B_pos as HB.
    destruct (Nat.eqb_spec (length d) 0) as [E|E].
    { left. assert (d = []) by (destruct d; auto; discriminate). subst d. rewrite app_nil_r. split; [apply (hr_lt _ _ H)|eauto]. }
    fold (len d). rewrite (ih_count_spec h m) by (auto; unfold blen in *; lia).
    rewrite <- len_app. destruct (Z.ltb_spec (len (m ++ d)) (M * M)) as [L|L]; [left|right; eauto].
    split; auto. rewrite (hrep_num h m H). fold B.
    assert (Hhi : (len (m ++ d) / M) mod M = len (m ++ d) / M).
    { pose proof M_pos. apply Z.mod_small. split; [apply Z.div_pos; unfold blen; lia|apply Z.div_lt_upper_bound; lia]. }
    rewrite Hhi. pose proof (rest_lt B m HB) as Hr.
    destruct (Nat.eqb_spec (length (rest B m)) 0) as [Z0|Z0]; cbn [negb].
    - destruct (ih_bulk_spec al (ih_state h) (ih_data h) d (hr_dl _ _ H)) as (d' & -> & D1 & D2).
      eexists. split; [reflexivity|].
      assert (Hre : rest B m = []) by (destruct (rest B m); auto; discriminate).
      constructor; cbn [ih_lo ih_hi ih_state ih_data]; auto.
      + rewrite blocks_app, Hre, fold_left_app, (hr_st _ _ H) by auto. reflexivity.
      + rewrite rest_app, Hre by auto. exact D2.
    - destruct (Nat.leb_spec B (length (rest B m) + length d)) as [G|G].
      + set (r := rest B m) in *. set (k := (B - length r)%nat) in *.
        assert (Hfk : length (firstn k d) = k) by (rewrite firstn_length; lia).
        rewrite write_all by (rewrite (hr_dl _ _ H), Hfk; lia).
        pose proof (hr_d _ _ H) as Hrd. fold r in Hrd. rewrite Hrd.
        assert (Hbl : length (r ++ firstn k d) = B) by (rewrite app_length, Hfk; lia).
        destruct (ih_hashblock a (ih_state h) (r ++ firstn k d)) as [st2 d2] eqn:E2.
        pose proof (ih_hashblock_spec (ih_state h) _ Hbl) as [X1 X2]. rewrite E2 in X1, X2. cbn [fst snd] in X1, X2.
        destruct (ih_bulk_spec al st2 d2 (skipn k d) X2) as (d' & -> & D1 & D2).
        eexists. split; [reflexivity|].
        assert (Hcut : r ++ d = (r ++ firstn k d) ++ skipn k d) by (rewrite <- app_assoc, firstn_skipn; auto).
        constructor; cbn [ih_lo ih_hi ih_state ih_data]; auto.
        * rewrite blocks_app by auto. fold r. rewrite Hcut, blocks_app_block by auto.
          rewrite fold_left_app. cbn [fold_left]. rewrite <- (hr_st _ _ H), X1. reflexivity.
        * rewrite rest_app by auto. fold r. rewrite Hcut, rest_app_block by auto. exact D2.
      + eexists. split; [reflexivity|].
        assert (Hs : (length (rest B m ++ d) < B)%nat) by (rewrite app_length; lia).
        constructor; cbn [ih_lo ih_hi ih_state ih_data]; auto.
        * rewrite blocks_app, (blocks_small B (rest B m ++ d)), app_nil_r by auto. apply (hr_st _ _ H).
        * rewrite write_length; [apply (hr_dl _ _ H)|rewrite (hr_dl _ _ H); lia].
        * rewrite rest_app by auto. rewrite (rest_small B (rest B m ++ d)) by auto.
          rewrite app_length. rewrite write_firstn by (rewrite (hr_dl _ _ H); lia).
          rewrite (hr_d _ _ H). reflexivity.
  Qed.

  Lemma hrep_store : forall h m d, hrep h m -> (length d <= ih_space a h)%nat ->
    hrep (ih_store a h d) m /\ firstn (length (rest B m) + length d) (ih_data (ih_store a h d)) = rest B m ++ d.
  Proof.
    intros h m d H Hd. pose proof B_pos as HB. pose proof (rest_lt B m HB). unfold ih_space in Hd. fold B in Hd.
    rewrite (hrep_num h m H) in Hd. unfold ih_store. rewrite (hrep_num h m H).
    destruct H. split; [constructor|]; cbn [ih_lo ih_hi ih_state ih_data]; auto.
    - rewrite write_length; auto. lia.
    - rewrite write_firstn_le by lia. auto.
    - rewrite write_firstn by lia. congruence.
  Qed.

  Lemma ih_inplace_spec : forall h m d, hrep h m -> (length d <= ih_space a h)%nat ->
    (len (m ++ d) < M * M /\ exists h', ih_update_inplace a (ih_store a h d) (length d) = (h', true) /\ hrep h' (m ++ d)) \/
    (M * M <= len (m ++ d) /\ exists h', ih_update_inplace a (ih_store a h d) (length d) = (h', false)).
  Proof.
    intros h m d H Hd. pose proof B_pos as HB.
    destruct (hrep_store h m d H Hd) as [H1 Hdata]. set (h1 := ih_store a h d) in *. clearbody h1.
    unfold ih_update_inplace. pose proof (rest_lt B m HB) as Hr.
    assert (Hd' : (length (rest B m) + length d <= B)%nat).
    { unfold ih_space in Hd. fold B in Hd. rewrite (hrep_num h m H) in Hd. lia. }
    assert (HB32 : (Z.of_nat B <= 2 ^ 32)).
    { destruct B_pow as (k & -> & Hk). rewrite pow_nat_Z. apply Z.pow_le_mono_r; lia. }
    destruct (Nat.eqb_spec (length d) 0) as [E|E].
    { left. assert (d = []) by (destruct d; auto; discriminate). subst d. rewrite app_nil_r. split; [apply (hr_lt _ _ H)|eauto]. }
    rewrite (ih_count_spec h1 m) by (auto; lia). fold (len d).
    rewrite <- len_app. destruct (Z.ltb_spec (len (m ++ d)) (M * M)) as [L|L]; [left|right; eauto].
    split; auto. rewrite (hrep_num h1 m H1). fold B.
    assert (Hhi : (len (m ++ d) / M) mod M = len (m ++ d) / M).
    { pose proof M_pos. apply Z.mod_small. split; [apply Z.div_pos; unfold blen; lia|apply Z.div_lt_upper_bound; lia]. }
    rewrite Hhi.
    destruct (Nat.leb_spec B (length (rest B m) + length d)) as [G|G].
    - assert (Hbl : ih_data h1 = rest B m ++ d).
      { rewrite <- Hdata. symmetry. apply firstn_all2. rewrite (hr_dl _ _ H1). lia. }
      destruct (ih_hashblock a (ih_state h1) (ih_data h1)) as [st2 d2] eqn:E2.
      pose proof (ih_hashblock_spec (ih_state h1) _ (hr_dl _ _ H1)) as [X1 X2]. rewrite E2 in X1, X2. cbn [fst snd] in X1, X2.
      eexists. split; [reflexivity|].
      assert (Hlen : length (rest B m ++ d) = B) by (rewrite app_length; lia).
      constructor; cbn [ih_lo ih_hi ih_state ih_data]; auto.
      + rewrite blocks_app by auto. rewrite <- (app_nil_r (rest B m ++ d)), blocks_app_block by auto.
        rewrite blocks_nil by auto. rewrite fold_left_app. cbn [fold_left]. rewrite <- (hr_st _ _ H1), X1, Hbl. reflexivity.
      + rewrite rest_app by auto. rewrite <- (app_nil_r (rest B m ++ d)), rest_app_block, rest_nil by auto. reflexivity.
    - eexists. split; [reflexivity|].
      assert (Hs : (length (rest B m ++ d) < B)%nat) by (rewrite app_length; lia).
      constructor; cbn [ih_lo ih_hi ih_state ih_data]; auto.
      + rewrite blocks_app, (blocks_small B (rest B m ++ d)), app_nil_r by auto. apply (hr_st _ _ H1).
      + apply (hr_dl _ _ H1).
      + rewrite rest_app by auto. rewrite (rest_small B (rest B m ++ d)) by auto. rewrite app_length. exact Hdata.
  Qed.

  (** * Finalisation *)

  Lemma put_word_length : forall x, length (put_word a x) = W.
  Proof. intros. unfold put_word. destruct (ha_big a); rewrite ?rev_length, le_bytes_length; reflexivity. Qed.
  Lemma put_word_spec : forall x, put_word a x = spec_bytes a x.
  Proof. intros. unfold put_word, spec_bytes, be_bytes. reflexivity. Qed.

  Definition field (n : Z) : list Z := if ha_big a then be_bytes (2 * W) (8 * n) else le_bytes (2 * W) (8 * n).

  Lemma le_bytes_mod : forall n v, le_bytes n (v mod 256 ^ Z.of_nat n) = le_bytes n v.
  Proof.
    intros. apply le_val_inj; try apply le_bytes_bytes.
    - rewrite !le_bytes_length; auto.
    - rewrite !le_val_bytes_mod. apply Z.mod_mod. apply Z.pow_nonzero; lia.
  Qed.

  Lemma bits_spec : forall h m, hrep h m ->
    ih_bitlo a h = (8 * len m) mod M /\ ih_bithi a h = (8 * len m / M) mod M.
  Proof.
    intros h m H. unfold ih_bitlo, ih_bithi. fold M. rewrite (hr_lo _ _ H), (hr_hi _ _ H).
    pose proof M_pos as HM. set (n := len m). assert (Hn : 0 <= n) by (unfold n, blen; lia).
    rewrite !Z.shiftl_mul_pow2 by lia. change (2 ^ 3) with 8. rewrite Z.shiftr_div_pow2 by (pose proof N_ge; lia).
    split. { rewrite Z.mul_mod_idemp_l by lia. f_equal. lia. }
    rewrite Z.add_mod_idemp_r by lia. f_equal.
    assert (HM8 : M = 8 * 2 ^ (ha_N a - 3)).
    { unfold M, ha_M. pose proof N_ge. change 8 with (2 ^ 3). rewrite <- Z.pow_add_r by lia. f_equal. lia. }
    set (P := 2 ^ (ha_N a - 3)) in *. assert (0 < P) by (unfold P; pose proof N_ge; apply Z.pow_pos_nonneg; lia).
    assert (D := Z.div_mod n M ltac:(lia)). assert (Bn := Z.mod_pos_bound n M HM).
    assert (Dl := Z.div_mod (n mod M) P ltac:(lia)). assert (Bl := Z.mod_pos_bound (n mod M) P H0).
    apply Z.div_unique with (8 * ((n mod M) mod P)); [lia|]. nia.
  Qed.

  Lemma le_field : forall n, le_bytes W ((8 * n) mod M) ++ le_bytes W ((8 * n / M) mod M) = le_bytes (2 * W) (8 * n).
  Proof.
    intros. replace (2 * W)%nat with (W + W)%nat by lia. rewrite le_bytes_app, <- M_256. rewrite M_256 at 1 3.
    rewrite !le_bytes_mod. reflexivity.
  Qed.

  (** The two words written at the end of the block are the length field. *)
  Lemma field_spec : forall h m d, hrep h m -> length d = B ->
    let order := if ha_big a then 1%nat else 0%nat in
    let n := (B / W)%nat in
    write ((n - 1 - order) * W) (put_word a (ih_bithi a h)) (write ((n - 2 + order) * W) (put_word a (ih_bitlo a h)) d)
    = firstn (B - 2 * W) d ++ field (len m).
  Proof.
    intros h m d H Hd order n. destruct (bits_spec h m H) as [-> ->].
    assert (HnW : (n * W = B)%nat).
    { unfold n. pose proof (Nat.div_mod B W W_pos). rewrite B_mod_W in H0. lia. }
    pose proof B_big. pose proof W_pos.
    assert (Hn2 : (2 < n)%nat) by nia.
    set (lo := (8 * len m) mod M). set (hi := (8 * len m / M) mod M).
    assert (Hsk : forall k, (k <= n)%nat -> ((n - k) * W = B - k * W)%nat) by (intros; nia).
    unfold order. destruct (ha_big a) eqn:Eb.
    - replace (n - 2 + 1)%nat with (n - 1)%nat by lia. replace (n - 1 - 1)%nat with (n - 2)%nat by lia.
      rewrite !Hsk by lia. 
      assert (L1 : length (put_word a lo) = W) by apply put_word_length.
      assert (L2 : length (put_word a hi) = W) by apply put_word_length.
      rewrite (write_all (B - 1 * W)) by (rewrite L1; lia).
      unfold write. rewrite L2. rewrite firstn_app_le by (rewrite firstn_length; lia).
      rewrite firstn_firstn, Nat.min_l by lia.
      rewrite skipn_app_ge by (rewrite firstn_length; lia). rewrite firstn_length.
      replace (B - 2 * W + W - Nat.min (B - 1 * W) (length d))%nat with 0%nat by lia. cbn [skipn].
      f_equal. unfold field, put_word. rewrite Eb. unfold be_bytes. rewrite <- rev_app_distr. f_equal. apply le_field.
    - replace (n - 2 + 0)%nat with (n - 2)%nat by lia. replace (n - 1 - 0)%nat with (n - 1)%nat by lia.
      rewrite !Hsk by lia.
      assert (L1 : length (put_word a lo) = W) by apply put_word_length.
      assert (L2 : length (put_word a hi) = W) by apply put_word_length.
      rewrite (write_all (B - 1 * W)).
      2:{ rewrite write_length by (rewrite L1; lia). rewrite L2. lia. }
      replace (B - 1 * W)%nat with (B - 2 * W + length (put_word a lo))%nat by (rewrite L1; lia).
      rewrite write_firstn by (rewrite L1; lia). rewrite <- app_assoc. f_equal.
      unfold field, put_word. rewrite Eb. apply le_field.
  Qed.

  Lemma field_length : forall n, length (field n) = (2 * W)%nat.
  Proof. intros. unfold field. destruct (ha_big a); [apply be_bytes_length|apply le_bytes_length]. Qed.

  Lemma pad_small : forall m, (S (length (rest B m)) <= B - 2 * W)%nat ->
    blocks B (pad a m) = blocks B m ++ [rest B m ++ [128] ++ repeat 0 (B - 2 * W - S (length (rest B m))) ++ field (len m)].
  Proof.
    intros m H. pose proof B_pos as HB. pose proof B_big. unfold pad. fold W. fold (field (Z.of_nat (length m))). fold (len m).
    assert (Hz : pad_zeros a (length m) = (B - 2 * W - S (length (rest B m)))%nat).
    { unfold pad_zeros. fold W B. rewrite rest_length in * by auto. set (r := (length m mod B)%nat) in *.
      assert (Hr : ((length m + 1 + 2 * W) mod B = (r + 1 + 2 * W) mod B)%nat).
      { rewrite <- !Nat.add_assoc. unfold r. rewrite Nat.add_mod_idemp_l by auto. reflexivity. }
      rewrite Hr. destruct (Nat.eq_dec (r + 1 + 2 * W) B) as [E|E].
      - rewrite E, Nat.mod_same by auto. lia.
      - rewrite Nat.mod_small by lia. destruct (r + 1 + 2 * W)%nat eqn:Q; [lia|]. lia. }
    rewrite Hz. rewrite blocks_app by auto. f_equal.
    rewrite <- (app_nil_r (rest B m ++ _)). rewrite blocks_app_block; auto.
    - rewrite blocks_nil, app_nil_r by auto. reflexivity.
    - rewrite !app_length, repeat_length, field_length. cbn [length]. lia.
  Qed.

  Lemma pad_large : forall m, (B - 2 * W < S (length (rest B m)))%nat ->
    blocks B (pad a m) = blocks B m ++ [rest B m ++ [128] ++ repeat 0 (B - S (length (rest B m))); repeat 0 (B - 2 * W) ++ field (len m)].
  Proof.
    intros m H. pose proof B_pos as HB. pose proof B_big. unfold pad. fold W. fold (field (Z.of_nat (length m))). fold (len m).
    pose proof (rest_lt B m HB) as Hlt.
    assert (Hz : pad_zeros a (length m) = ((B - S (length (rest B m))) + (B - 2 * W))%nat).
    { unfold pad_zeros. fold W B. rewrite rest_length in * by auto. set (r := (length m mod B)%nat) in *.
      assert (Hr : ((length m + 1 + 2 * W) mod B = (r + 1 + 2 * W) mod B)%nat).
      { rewrite <- !Nat.add_assoc. unfold r. rewrite Nat.add_mod_idemp_l by auto. reflexivity. }
      rewrite Hr. rewrite mod_minus by lia. rewrite Nat.mod_small by lia.
      destruct (r + 1 + 2 * W - B)%nat eqn:Q; lia. }
    rewrite Hz, repeat_app_add. rewrite blocks_app by auto. f_equal.
    replace (rest B m ++ [128] ++ (repeat 0 (B - S (length (rest B m))) ++ repeat 0 (B - 2 * W)) ++ field (len m))
      with ((rest B m ++ [128] ++ repeat 0 (B - S (length (rest B m)))) ++ (repeat 0 (B - 2 * W) ++ field (len m)) ++ [])
      by (rewrite app_nil_r, <- !app_assoc; reflexivity).
    rewrite blocks_app_block; auto.
    - rewrite blocks_app_block, blocks_nil; auto. rewrite app_length, repeat_length, field_length. lia.
    - rewrite !app_length, repeat_length. cbn [length]. lia.
  Qed.

  Lemma firstn_flat_words : forall l n, firstn (n * W) (flat_map (put_word a) l) = flat_map (put_word a) (firstn n l).
  Proof.
    induction l; intros n; [destruct n; cbn; rewrite ?firstn_nil; reflexivity|].
    destruct n; [reflexivity|]. cbn [flat_map firstn]. rewrite <- IHl.
    change (S n * W)%nat with (W + n * W)%nat. rewrite firstn_app_ge by (rewrite put_word_length; lia).
    rewrite put_word_length. do 2 f_equal. lia.
  Qed.

  Lemma ih_final_spec : forall h m al n, hrep h m -> (n <= ha_dsize a)%nat ->
    snd (ih_final a h al n) = Some (firstn n (md_hash a m)) /\ hrep (fst (ih_final a h al n)) [].
  Proof.
    intros h m al n H Hn. unfold ih_final. rewrite (proj2 (Nat.ltb_ge _ _)) by lia. fold B W.
    pose proof B_pos as HB. pose proof B_big as HBW. pose proof (hr_dl _ _ H) as Hdl.
    pose proof (rest_lt B m HB) as Hlt.
    (* state and data before the last compression *)
    assert (G : exists st1 d1, ih_pad a h (B - 2 * W) = (st1, d1) /\ length d1 = B /\
      fold_left blkstep (blocks B (pad a m)) (ha_iv a) = blkstep st1 (firstn (B - 2 * W) d1 ++ field (len m))).
    { unfold ih_pad. rewrite (hrep_num h m H). fold B.
      assert (L1 : length (write (length (rest B m)) [128] (ih_data h)) = B).
      { rewrite write_length by (cbn [length]; lia). auto. }
      assert (F1 : firstn (S (length (rest B m))) (write (length (rest B m)) [128] (ih_data h)) = rest B m ++ [128]).
      { replace (S (length (rest B m))) with (length (rest B m) + length [128%Z])%nat by (cbn [length]; lia).
        rewrite write_firstn by (cbn [length]; lia). rewrite (hr_d _ _ H). reflexivity. }
      set (d0 := write (length (rest B m)) [128] (ih_data h)) in *.
      destruct (Nat.leb_spec (S (length (rest B m))) (B - 2 * W)) as [Ls|Ls].
      - do 2 eexists. split; [reflexivity|]. split; [rewrite write_length; rewrite ?repeat_length; lia|].
        rewrite pad_small by auto. rewrite fold_left_app. cbn [fold_left]. rewrite <- (hr_st _ _ H). f_equal.
        set (z := (B - 2 * W - S (length (rest B m)))%nat).
        replace (B - 2 * W)%nat with (S (length (rest B m)) + length (repeat 0%Z z))%nat by (rewrite repeat_length; lia).
        rewrite write_firstn by (rewrite repeat_length; lia). rewrite F1, <- !app_assoc. reflexivity.
      - set (d1 := write (S (length (rest B m))) (repeat 0 (B - S (length (rest B m)))) d0).
        assert (Ed1 : d1 = rest B m ++ [128] ++ repeat 0 (B - S (length (rest B m)))).
        { unfold d1. rewrite write_all by (rewrite repeat_length; lia). rewrite F1, <- app_assoc. reflexivity. }
        assert (Ld1 : length d1 = B) by (unfold d1; rewrite write_length; rewrite ?repeat_length; lia).
        destruct (ih_hashblock a (ih_state h) d1) as [st3 d3] eqn:E3.
        pose proof (ih_hashblock_spec (ih_state h) _ Ld1) as [X1 X2]. rewrite E3 in X1, X2. cbn [fst snd] in X1, X2.
        do 2 eexists. split; [reflexivity|]. split; [rewrite write_length; rewrite ?repeat_length; lia|].
        rewrite pad_large by auto. rewrite fold_left_app. cbn [fold_left]. rewrite <- (hr_st _ _ H), <- Ed1, <- X1.
        f_equal. f_equal.
        replace (B - 2 * W)%nat with (0 + length (repeat 0%Z (B - 2 * W)))%nat at 2 by (rewrite repeat_length; lia).
        rewrite write_firstn by (rewrite repeat_length; lia). reflexivity. }
    destruct G as (st1 & d1 & Ep & Ld1 & Est). rewrite Ep.
    rewrite (field_spec h m d1 H Ld1).
    assert (Lb : length (firstn (B - 2 * W) d1 ++ field (len m)) = B).
    { rewrite app_length, firstn_length, field_length. lia. }
    destruct (ih_hashblock a st1 (firstn (B - 2 * W) d1 ++ field (len m))) as [st4 d4] eqn:E4.
    pose proof (ih_hashblock_spec st1 _ Lb) as [X1 X2]. rewrite E4 in X1, X2. cbn [fst snd] in X1, X2. 
    cbn [fst snd]. split; [|apply hrep_restart; cbn; auto].
    f_equal.
    assert (Emd : md_iterate a (pad a m) = st4) by (rewrite X1; exact Est).
    assert (Ls4 : length st4 = length (ha_iv a)) by (rewrite X1; unfold blkstep; apply Hok).
    unfold md_hash, md_output. rewrite Emd.
    assert (Eflat : flat_map (spec_bytes a) st4 = flat_map (put_word a) st4) by (apply flat_map_ext; intros; symmetry; apply put_word_spec).
    rewrite Eflat, firstn_firstn, Nat.min_l by lia.
    destruct (al && Nat.eqb (n mod W) 0) eqn:Ea.
    - apply andb_true_iff in Ea. destruct Ea as [_ Ea]. apply Nat.eqb_eq in Ea.
      pose proof (Nat.div_mod n W W_pos) as Dn. rewrite <- firstn_flat_words. f_equal. lia.
    - assert (Hds : (ha_dsize a mod W = 0)%nat) by apply Hok.
      pose proof (Nat.div_mod (ha_dsize a) W W_pos) as Dd.
      rewrite <- firstn_flat_words, firstn_firstn. f_equal. lia.
  Qed.

  Lemma md_hash_length : forall m, length (md_hash a m) = ha_dsize a.
  Proof.
    intros. unfold md_hash, md_output. rewrite firstn_length.
    assert (forall l, length (flat_map (spec_bytes a) l) = (W * length l)%nat).
    { induction l; cbn [flat_map length]; [lia|]. rewrite app_length, <- put_word_spec, put_word_length, IHl. lia. }
    rewrite H.
    assert (length (md_iterate a (pad a m)) = length (ha_iv a)).
    { unfold md_iterate. destruct (blocks (ha_B a) (pad a m)) as [|b bs _] using rev_ind; [reflexivity|].
      rewrite fold_left_app. cbn [fold_left]. apply Hok. }
    rewrite H0. destruct Hok as (_ & _ & _ & _ & _ & Hds). fold W in Hds. lia.
  Qed.

  Lemma hrep_space : forall h m, hrep h m -> ih_space a h = bsize_space B m.
  Proof. intros. unfold ih_space, bsize_space. rewrite (hrep_num h m H), rest_length by apply B_pos. reflexivity. Qed.

  Lemma ih_step_spec : forall h m op, hrep h m -> op_bytes op < 2 ^ 63 ->
    snd (ih_step a h op) = snd (spec_hstep (md_hash a) B (ha_dsize a) (M * M) m op) /\
    (snd (ih_step a h op) <> OTooLong -> hrep (fst (ih_step a h op)) (fst (spec_hstep (md_hash a) B (ha_dsize a) (M * M) m op))).
  Proof.
    intros h m op H H63. destruct op as [al d|d|d|al n|]; cbn [ih_step spec_hstep op_bytes] in *; unfold spec_absorb.
    - destruct (ih_update_spec h m al d H H63) as [(L & h' & -> & R)|(L & h' & ->)]; cbn [fst snd].
      + rewrite (proj2 (Z.ltb_lt _ _)) by auto. auto.
      + rewrite (proj2 (Z.ltb_ge _ _)) by auto. split; congruence.
    - rewrite (hrep_space h m H).
      destruct (ih_inplace_spec h m (firstn (bsize_space B m) d) H) as [(L & h' & -> & R)|(L & h' & ->)]; cbn [fst snd].
      { rewrite (hrep_space h m H), firstn_length. lia. }
      + rewrite (proj2 (Z.ltb_lt _ _)) by auto. auto.
      + rewrite (proj2 (Z.ltb_ge _ _)) by auto. split; congruence.
    - split; auto. intros _. cbn [fst]. apply hrep_store; auto. rewrite firstn_length. lia.
    - destruct (Nat.leb_spec n (ha_dsize a)).
      + destruct (ih_final_spec h m al n H H0) as [X1 X2]. destruct (ih_final a h al n) as [h' o]. cbn in *. subst o. auto.
      + unfold ih_final. rewrite (proj2 (Nat.ltb_lt _ _)) by lia. auto.
    - split; auto. intros _. apply hrep_restart. apply (hr_dl _ _ H).
  Qed.

  Lemma ih_run_spec : forall ops h m, hrep h m -> objects ops ->
    upto_refusal (ih_run a h ops) = upto_refusal (spec_hrun (md_hash a) B (ha_dsize a) (M * M) m ops).
  Proof.
    induction ops as [|op ops IH]; intros h m H Hin; [reflexivity|]. cbn [ih_run spec_hrun].
    destruct (ih_step_spec h m op H) as [X1 X2]; [apply Hin; left; auto|].
    destruct (ih_step a h op) as [h' o]. destruct (spec_hstep (md_hash a) B (ha_dsize a) (M * M) m op) as [m' o'] eqn:E.
    cbn [fst snd] in X1, X2. subst o'.
    destruct o; cbn [upto_refusal]; auto; f_equal; apply IH; try (apply X2; discriminate); intros x Hx; apply Hin; right; auto.
  Qed.

  (** Whatever happened before, the buffer stays a buffer of one block. *)
  Definition wf (h : ihash) : Prop := length (ih_data h) = B /\ 0 <= ih_lo h.
  Lemma num_lt : forall h, 0 <= ih_lo h -> (ih_num a h < B)%nat.
  Proof.
    intros h H. unfold ih_num. fold B. destruct B_pow as (k & Hk & Hk2). rewrite Hk, pow_nat_Z.
    replace (2 ^ Z.of_nat k - 1) with (Z.ones (Z.of_nat k)) by (rewrite Z.ones_equiv; lia).
    rewrite Z.land_ones by lia. pose proof (Z.mod_pos_bound (ih_lo h) (2 ^ Z.of_nat k) ltac:(apply Z.pow_pos_nonneg; lia)).
    pose proof (pow_nat_Z k). lia.
  Qed.
  Lemma hrep_wf : forall h m, hrep h m -> wf h.
  Proof. intros h m H. split; [apply (hr_dl _ _ H)|]. rewrite (hr_lo _ _ H). apply Z.mod_pos_bound, M_pos. Qed.
  Lemma count_lo : forall h k lo hi ok, ih_count a h k = (lo, hi, ok) -> 0 <= lo.
  Proof. intros h k lo hi ok E. unfold ih_count in E. injection E as <- _ _. apply Z.mod_pos_bound, M_pos. Qed.
  Lemma wf_hashblock : forall st d st' d', length d = B -> ih_hashblock a st d = (st', d') -> length d' = B.
  Proof. intros st d st' d' H E. pose proof (ih_hashblock_spec st d H) as [_ X]. rewrite E in X. exact X. Qed.
  Lemma wf_update : forall h al d, wf h -> wf (fst (ih_update a h al d)).
  Proof.
    intros h al d [H1 H2]. unfold ih_update. destruct (Nat.eqb (length d) 0); [split; auto|].
    destruct (ih_count a h (Z.of_nat (length d))) as [[lo hi] ok] eqn:Ec. apply count_lo in Ec.
    pose proof (num_lt h H2) as Hn. fold B.
    destruct ok; [|split; auto]. destruct (Nat.eqb (ih_num a h) 0); cbn [negb].
    - destruct (ih_bulk_spec al (ih_state h) (ih_data h) d H1) as (d' & -> & D1 & _). split; auto.
    - destruct (Nat.leb_spec B (ih_num a h + length d)).
      + destruct (ih_hashblock a (ih_state h) (write (ih_num a h) (firstn (B - ih_num a h) d) (ih_data h))) as [st2 d2] eqn:E2.
        assert (X : length d2 = B).
        { eapply wf_hashblock; [|exact E2]. rewrite write_length; auto. rewrite firstn_length. lia. }
        destruct (ih_bulk_spec al st2 d2 (skipn (B - ih_num a h) d) X) as (d' & -> & D1 & _). split; auto.
      + split; auto. cbn. rewrite write_length; auto. lia.
  Qed.
  Lemma wf_store : forall h d, wf h -> wf (ih_store a h (firstn (ih_space a h) d)).
  Proof.
    intros h d [H1 H2]. pose proof (num_lt h H2). split; auto. cbn. rewrite write_length; auto.
    rewrite firstn_length. unfold ih_space. fold B. lia.
  Qed.
  Lemma wf_inplace : forall h n, wf h -> wf (fst (ih_update_inplace a h n)).
  Proof.
    intros h n [H1 H2]. unfold ih_update_inplace. destruct (Nat.eqb n 0); [split; auto|].
    destruct (ih_count a h (Z.of_nat n)) as [[lo hi] ok] eqn:Ec. apply count_lo in Ec.
    destruct ok; [|split; auto]. destruct (Nat.leb (ha_B a) (ih_num a h + n)); [|split; auto].
    destruct (ih_hashblock a (ih_state h) (ih_data h)) as [st2 d2] eqn:E2. split; auto. eapply wf_hashblock; eauto.
  Qed.
  Lemma wf_final_restart : forall h al n, wf h -> (n <= ha_dsize a)%nat -> hrep (fst (ih_final a h al n)) [].
  Proof.
    intros h al n [H1 H2] Hn. unfold ih_final. rewrite (proj2 (Nat.ltb_ge _ _)) by auto. fold B W.
    pose proof (num_lt h H2) as Hnum. pose proof B_big. pose proof W_pos.
    assert (HnW : (B / W * W = B)%nat).
    { pose proof (Nat.div_mod B W W_pos) as X. rewrite B_mod_W in X. lia. }
    assert (Hn2 : (2 < B / W)%nat) by nia.
    destruct (ih_pad a h (B - 2 * W)) as [st1 d1] eqn:Ep.
    assert (L1 : length d1 = B).
    { unfold ih_pad in Ep. fold B in Ep. set (x := ih_num a h) in *.
      assert (Ld : length (write x [128] (ih_data h)) = B) by (rewrite write_length; auto; cbn [length]; lia).
      destruct (Nat.leb_spec (S x) (B - 2 * W)).
      - injection Ep as _ <-. rewrite write_length; auto. rewrite repeat_length. lia.
      - assert (Ld2 : length (write (S x) (repeat 0 (B - S x)) (write x [128] (ih_data h))) = B)
          by (rewrite write_length; auto; rewrite repeat_length; lia).
        destruct (ih_hashblock a (ih_state h) (write (S x) (repeat 0 (B - S x)) (write x [128] (ih_data h)))) as [st3 d3] eqn:E3.
        apply wf_hashblock in E3; auto. injection Ep as _ <-. rewrite write_length; auto. rewrite repeat_length. lia. }
    match goal with |- context [ih_hashblock a st1 ?X] => destruct (ih_hashblock a st1 X) as [st4 d4] eqn:E4; assert (LX : length X = B) end.
    { assert (Hlo : forall k, (k < B / W)%nat -> (k * W + W <= B)%nat) by (intros k Hk; nia).
      assert (HA : forall k x d, (k < B / W)%nat -> length d = B -> length (write (k * W) (put_word a x) d) = B).
      { intros k x d Hk Hd. rewrite write_length; auto. rewrite put_word_length. specialize (Hlo k Hk). lia. }
      destruct (ha_big a); apply HA; try lia; apply HA; auto; lia. }
    apply wf_hashblock in E4; auto. cbn [fst]. apply hrep_restart. exact E4.
  Qed.
  Lemma wf_step : forall h op, wf h -> wf (fst (ih_step a h op)).
  Proof.
    intros h op H. destruct op as [al d|d|d|al n|]; cbn [ih_step].
    - pose proof (wf_update h al d H). destruct (ih_update a h al d); auto.
    - pose proof (wf_inplace _ (length (firstn (ih_space a h) d)) (wf_store h d H)).
      destruct (ih_update_inplace a _ _); auto.
    - apply wf_store; auto.
    - destruct (Nat.le_gt_cases n (ha_dsize a)).
      + pose proof (wf_final_restart h al n H H0) as X. apply hrep_wf in X. destruct (ih_final a h al n); auto.
      + unfold ih_final. rewrite (proj2 (Nat.ltb_lt _ _)) by auto. auto.
    - destruct H. split; auto. cbn. lia.
  Qed.
  Lemma wf_exec : forall ops h, wf h -> wf (ih_exec a h ops).
  Proof. induction ops; intros h H; [exact H|]. unfold ih_exec. cbn [fold_left]. apply IHops. apply wf_step; auto. Qed.

  Lemma restart_fresh : forall h op ops, wf h -> (op = HRestart \/ exists al n, op = HFinal al n /\ (n <= ha_dsize a)%nat) ->
    objects ops -> upto_refusal (ih_run a (fst (ih_step a h op)) ops) = upto_refusal (ih_run a (ih_new a) ops).
  Proof.
    intros h op ops H Hop Ho. rewrite (ih_run_spec ops (ih_new a) [] hrep_new Ho). apply ih_run_spec; auto.
    destruct Hop as [-> | (al & n & -> & Hn)]; cbn [ih_step].
    - apply hrep_restart, H.
    - pose proof (wf_final_restart h al n H Hn). destruct (ih_final a h al n). auto.
  Qed.

  (** * Padding *)
  Lemma padded_pad : forall m, padded a m (pad a m).
  Proof.
    intros m. pose proof B_pos as HB. exists (pad_zeros a (length m)). split; [reflexivity|]. fold B.
    unfold pad. fold W (field (Z.of_nat (length m))). rewrite !app_length, repeat_length, field_length. cbn [length].
    unfold pad_zeros. fold B W. set (t := (length m + 1 + 2 * W)%nat).
    pose proof (Nat.mod_upper_bound t B HB) as Hu. pose proof (Nat.div_mod t B HB) as Hd.
    destruct (t mod B)%nat as [|r] eqn:Er.
    - split; [|lia]. replace (length m + (1 + (0 + 2 * W)))%nat with t by (unfold t; lia). auto.
    - split; [|lia]. replace (length m + (1 + (B - S r + 2 * W)))%nat with ((t / B + 1) * B)%nat by (unfold t in *; nia).
      apply Nat.mod_mul; auto.
  Qed.
  Lemma padded_unique : forall m p q, padded a m p -> padded a m q -> p = q.
  Proof.
    intros m p q (z1 & -> & L1 & B1) (z2 & -> & L2 & B2).
    fold B W (field (Z.of_nat (length m))) in L1, L2 |- *. fold B in B1, B2.
    rewrite !app_length, repeat_length, field_length in L1, L2. cbn [length] in L1, L2.
    pose proof B_pos as HB.
    assert (z1 = z2); [|subst; auto].
    apply Nat.mod_divides in L1; auto. apply Nat.mod_divides in L2; auto. destruct L1 as (x & L1). destruct L2 as (y & L2).
    assert (x = y) by (destruct (Nat.lt_trichotomy x y) as [C|[C|C]]; auto; exfalso; nia). subst. lia.
  Qed.

  (** * Feeding *)
  Lemma spec_feed : forall ops m m' rest, feed B m ops = Some m' -> blen m' < M * M ->
    spec_hrun (md_hash a) B (ha_dsize a) (M * M) m (ops ++ rest) =
    repeat ODone (length ops) ++ spec_hrun (md_hash a) B (ha_dsize a) (M * M) m' rest.
  Proof.
    induction ops as [|op ops IH]; intros m m' rest0 Hf Hl; cbn [feed] in Hf; [injection Hf as ->; reflexivity|].
    assert (Hmono : forall x y l, feed B (x ++ y) l = Some m' -> blen (x ++ y) <= blen m').
    { intros x y l. generalize (x ++ y). induction l as [|o l IHl]; intros w Hw; cbn [feed] in Hw; [injection Hw as ->; lia|].
      destruct o; try discriminate; apply IHl in Hw; unfold blen in *; rewrite ?app_length in Hw; lia. }
    destruct op; try discriminate; cbn [app spec_hrun spec_hstep length repeat]; unfold spec_absorb.
    - rewrite (proj2 (Z.ltb_lt _ _)) by (specialize (Hmono _ _ _ Hf); lia). f_equal. apply IH; auto.
    - rewrite (proj2 (Z.ltb_lt _ _)) by (specialize (Hmono _ _ _ Hf); lia). f_equal. apply IH; auto.
    - f_equal. apply IH; auto.
  Qed.

  Lemma ih_implements : implements (ih_obj a) hrep (md_hash a) (fun m => len m < M * M /\ len m < 2 ^ 63).
  Proof.
    constructor.
    - intros x y [H1 H2]. rewrite len_app in *. unfold blen in *. lia.
    - intros s m d H [H1 H2]. cbn [ih_obj ho_update].
      destruct (ih_update_spec s m true d H) as [(L & h' & E & R)|(L & _)].
      + rewrite len_app in H2. unfold blen in *. lia.
      + rewrite E. eauto.
      + lia.
    - intros s m n H Hn. cbn [ih_obj ho_final ho_dsize] in *. destruct (ih_final_spec s m true n H Hn) as [X1 X2].
      destruct (ih_final a s true n) as [h' o]. cbn in *. subst o. auto.
    - intros s m H. cbn. apply hrep_restart. apply (hr_dl _ _ H).
    - intros. apply md_hash_length.
  Qed.
End Alg.

(** * HMAC over any object that implements a hash function *)
Section HM.
  Context {S : Type} (o : hobj S) (rep : S -> list Z -> Prop) (hash : list Z -> list Z) (ok : list Z -> Prop).
  Hypothesis Himp : implements o rep hash ok.
  Hypothesis HB : ho_bsize o <> 0%nat.

  (** [h] holds key [k] and has absorbed [m]. *)
  Definition mrep (h : hmac S) (k m : list Z) : Prop :=
    hm_ipad h = xor_with 54 (hmac_key hash (ho_bsize o) k) /\
    hm_opad h = xor_with 92 (hmac_key hash (ho_bsize o) k) /\
    if hm_keyed h then rep (hm_hash h) (hm_ipad h ++ m) else m = [] /\ rep (hm_hash h) [].

  Definition mac_ok (k m : list Z) : Prop :=
    ok k /\ ok (xor_with 54 (hmac_key hash (ho_bsize o) k) ++ m) /\
    ok (xor_with 92 (hmac_key hash (ho_bsize o) k) ++ hash (xor_with 54 (hmac_key hash (ho_bsize o) k) ++ m)).

  Lemma hm_restart_spec : forall h k m, mrep h k m -> mrep (hm_restart o h) k [] /\ hm_keyed (hm_restart o h) = false.
  Proof.
    intros h k m (H1 & H2 & H3). unfold hm_restart. destruct (hm_keyed h) eqn:E.
    - split; [|reflexivity]. split; [|split]; auto. cbn. split; auto. eapply (imp_restart _ _ _ _ Himp); eauto.
    - destruct H3 as [-> H3]. split; [|auto]. split; [|split]; auto. rewrite E. auto.
  Qed.

  Lemma hm_setkey_spec : forall h k, hm_keyed h = false -> rep (hm_hash h) [] -> ok k ->
    exists h', hm_setkey o h k = Some h' /\ mrep h' k [].
  Proof.
    intros h k Hk Hr Hok. unfold hm_setkey, hm_restart. rewrite Hk. rewrite (proj2 (Nat.eqb_neq _ _)) by auto.
    destruct (Nat.leb_spec (length k) (ho_bsize o)) as [L|L].
    - eexists. split; [reflexivity|]. rewrite Hk. unfold mrep, hmac_key. rewrite (proj2 (Nat.leb_le _ _)) by auto. cbn. auto.
    - destruct (imp_update _ _ _ _ Himp _ [] k Hr Hok) as (s' & -> & R).
      destruct (imp_final _ _ _ _ Himp s' k (ho_dsize o) R (Nat.le_refl _)) as [F1 F2].
      destruct (ho_final o s' (ho_dsize o)) as [s2 kk]. cbn [fst snd] in F1, F2.
      eexists. split; [reflexivity|]. rewrite Hk.
      assert (Ek : kk = hash k) by (rewrite F2; apply firstn_all2; rewrite (imp_length _ _ _ _ Himp); auto).
      unfold mrep, hmac_key. rewrite (proj2 (Nat.leb_gt _ _)) by auto. rewrite <- Ek. cbn. auto.
  Qed.

  Lemma hm_setkey_again : forall h k m k', mrep h k m -> ok k' -> exists h', hm_setkey o h k' = Some h' /\ mrep h' k' [].
  Proof.
    intros h k m k' H Hok. destruct (hm_restart_spec h k m H) as [H1 H2].
    assert (hm_setkey o h k' = hm_setkey o (hm_restart o h) k').
    { unfold hm_setkey. replace (hm_restart o (hm_restart o h)) with (hm_restart o h); auto.
      unfold hm_restart at 2. rewrite H2. reflexivity. }
    rewrite H0. apply hm_setkey_spec; auto. destruct H1 as (_ & _ & H1). rewrite H2 in H1. apply H1.
  Qed.

  Lemma hm_ensure_spec : forall h k m, mrep h k m -> ok (xor_with 54 (hmac_key hash (ho_bsize o) k) ++ m) ->
    exists h', hm_ensure o h = Some h' /\ mrep h' k m /\ hm_keyed h' = true.
  Proof.
    intros h k m H Hok. unfold hm_ensure. destruct (hm_keyed h) eqn:E; [eauto|].
    destruct H as (H1 & H2 & H3). rewrite E in H3. destruct H3 as [-> H3]. unfold hm_keyinner.
    rewrite app_nil_r in Hok. rewrite <- H1 in Hok.
    destruct (imp_update _ _ _ _ Himp _ [] (hm_ipad h) H3) as (s' & -> & R); auto.
    eexists. split; [reflexivity|]. split; [|reflexivity]. split; [|split]; auto. cbn. rewrite app_nil_r. exact R.
  Qed.

  Lemma hm_step_spec : forall h k m op, mrep h k m ->
    (match op with MUpdate d => mac_ok k (m ++ d) | MFinal _ => mac_ok k m | MRestart => True | MSetKey k' => ok k' end) ->
    exists h', hm_step o h op = Some (h', snd (spec_mstep (hmac_spec hash (ho_bsize o)) (ho_dsize o) (k, m) op)) /\
      mrep h' (fst (fst (spec_mstep (hmac_spec hash (ho_bsize o)) (ho_dsize o) (k, m) op)))
              (snd (fst (spec_mstep (hmac_spec hash (ho_bsize o)) (ho_dsize o) (k, m) op))).
  Proof.
    intros h k m op H Hop. destruct op as [d|n| |k']; cbn [hm_step spec_mstep].
    - destruct Hop as (O1 & O2 & O3). unfold hm_update.
      destruct (hm_ensure_spec h k m H) as (h1 & -> & (G1 & G2 & G3) & G4).
      { rewrite app_assoc in O2. eapply (imp_prefix _ _ _ _ Himp); eauto. }
      rewrite G4 in G3.
      destruct (imp_update _ _ _ _ Himp _ _ d G3) as (s' & -> & R). { rewrite G1, <- app_assoc. auto. }
      eexists. split; [reflexivity|]. cbn. split; [|split]; auto. cbn. rewrite G4, app_assoc. auto.
    - destruct Hop as (O1 & O2 & O3). unfold hm_final.
      destruct (Nat.leb_spec n (ho_dsize o)).
      2:{ rewrite (proj2 (Nat.ltb_lt _ _)) by auto. eexists. split; [reflexivity|]. exact H. }
      rewrite (proj2 (Nat.ltb_ge _ _)) by auto.
      destruct (hm_ensure_spec h k m H O2) as (h1 & -> & (G1 & G2 & G3) & G4). rewrite G4 in G3.
      destruct (imp_final _ _ _ _ Himp _ _ (ho_dsize o) G3 (Nat.le_refl _)) as [F1 F2].
      destruct (ho_final o (hm_hash h1) (ho_dsize o)) as [s1 inner]. cbn [fst snd] in F1, F2.
      assert (Ei : inner = hash (xor_with 54 (hmac_key hash (ho_bsize o) k) ++ m)).
      { rewrite F2, G1. apply firstn_all2. rewrite (imp_length _ _ _ _ Himp). auto. }
      destruct (imp_update _ _ _ _ Himp _ [] (hm_opad h1) F1) as (s2 & -> & R2).
      { rewrite G2. eapply (imp_prefix _ _ _ _ Himp). exact O3. }
      destruct (imp_update _ _ _ _ Himp _ _ inner R2) as (s3 & -> & R3). { rewrite G2, Ei. exact O3. }
      destruct (imp_final _ _ _ _ Himp _ _ n R3 H0) as [L1 L2]. destruct (ho_final o s3 n) as [s4 mac]. cbn [fst snd] in L1, L2.
      eexists. split.
      { cbn [snd]. rewrite L2. unfold hmac_spec. rewrite G2, Ei. reflexivity. }
      cbn. split; [|split]; auto. cbn. auto.
    - eexists. split; [reflexivity|]. cbn. apply (hm_restart_spec h k m H).
    - destruct (hm_setkey_again h k m k' H Hop) as (h' & -> & R). eauto.
  Qed.

  (** Every key and message of the history is within the range the hash accepts. *)
  Fixpoint hist_ok (k m : list Z) (ops : list mop) : Prop :=
    match ops with
    | [] => True
    | MUpdate d :: r => mac_ok k (m ++ d) /\ hist_ok k (m ++ d) r
    | MFinal n :: r => mac_ok k m /\ hist_ok k (if Nat.leb n (ho_dsize o) then [] else m) r
    | MRestart :: r => hist_ok k [] r
    | MSetKey k' :: r => ok k' /\ hist_ok k' [] r
    end.
  Lemma hm_run_spec : forall ops h k m, mrep h k m -> hist_ok k m ops ->
    hm_run o h ops = Some (spec_mrun (hmac_spec hash (ho_bsize o)) (ho_dsize o) (k, m) ops).
  Proof.
    induction ops as [|op ops IH]; intros h k m H Hok; [reflexivity|]. cbn [hm_run spec_mrun].
    destruct (hm_step_spec h k m op H) as (h' & E & R).
    { destruct op; cbn in Hok; intuition. }
    rewrite E. destruct (spec_mstep (hmac_spec hash (ho_bsize o)) (ho_dsize o) (k, m) op) as [[k' m'] x] eqn:Es.
    cbn [fst snd] in R |- *. rewrite (IH h' k' m' R); auto.
    destruct op; cbn in Es, Hok; try destruct (Nat.leb size (ho_dsize o)); inversion Es; subst; intuition.
  Qed.
End HM.

(** * Comparison of buffers *)
Lemma lor_zero : forall x y, 0 <= x -> 0 <= y -> (Z.lor x y = 0 <-> x = 0 /\ y = 0).
Proof. intros. apply Z.lor_eq_0_iff. Qed.

Lemma vb_words_spec : forall fuel buf mask count acc, bytes buf -> bytes mask -> (count <= length buf)%nat -> (count <= length mask)%nat ->
  0 <= acc < 2 ^ 64 -> (count <= fuel)%nat ->
  let '(acc', buf', mask', c) := vb_words fuel buf mask count acc in
  0 <= acc' < 2 ^ 64 /\ (c < 8)%nat /\ (c <= count)%nat /\ buf' = skipn (count - c) buf /\ mask' = skipn (count - c) mask /\
  (acc' = 0 <-> acc = 0 /\ firstn (count - c) buf = firstn (count - c) mask).
Proof.
  induction fuel; intros buf mask count acc Hb Hm Lb Lm Ha Hf; cbn [vb_words].
  { assert (count = 0)%nat by lia. subst. cbn [Nat.sub skipn firstn]. repeat split; auto; try lia; tauto. }
  destruct (Nat.leb_spec 8 count).
  2:{ replace (count - count)%nat with 0%nat by lia. cbn [skipn firstn]. repeat split; auto; try lia; tauto. }
  set (x := le_val (firstn 8 buf)). set (y := le_val (firstn 8 mask)).
  assert (Hlb : length (firstn 8 buf) = 8%nat) by (rewrite firstn_length; lia).
  assert (Hlm : length (firstn 8 mask) = 8%nat) by (rewrite firstn_length; lia).
  pose proof (le_val_bounds (firstn 8 buf) (bytes_firstn _ _ Hb)) as Bx. rewrite Hlb in Bx. fold x in Bx.
  pose proof (le_val_bounds (firstn 8 mask) (bytes_firstn _ _ Hm)) as By. rewrite Hlm in By. fold y in By.
  change (256 ^ Z.of_nat 8) with (2 ^ 64) in Bx, By.
  pose proof (lxor_range 64 x y ltac:(lia) Bx By) as Bxy.
  pose proof (lor_range 64 acc (Z.lxor x y) ltac:(lia) Ha Bxy) as Bacc.
  specialize (IHfuel (skipn 8 buf) (skipn 8 mask) (count - 8)%nat (Z.lor acc (Z.lxor x y)) (bytes_skipn _ _ Hb) (bytes_skipn _ _ Hm)).
  rewrite !skipn_length in IHfuel. specialize (IHfuel ltac:(lia) ltac:(lia) Bacc ltac:(lia)).
  destruct (vb_words fuel (skipn 8 buf) (skipn 8 mask) (count - 8) (Z.lor acc (Z.lxor x y))) as [[[acc' buf'] mask'] c].
  destruct IHfuel as (I1 & I2 & I3 & I4 & I5 & I6).
  replace (count - c)%nat with (8 + (count - 8 - c))%nat by lia.
  rewrite !skipn_skipn_add in I4, I5. rewrite Nat.add_comm in I4, I5.
  repeat split; try tauto; try lia; auto.
  - apply I6 in H0. destruct H0 as [H0 _]. apply Z.lor_eq_0_iff in H0. tauto.
  - apply I6 in H0. destruct H0 as [H0 H1]. apply Z.lor_eq_0_iff in H0. destruct H0 as [_ H0]. apply Z.lxor_eq in H0.
    rewrite !firstn_add, H1. f_equal. apply le_val_inj; auto using bytes_firstn. congruence.
  - intros [E1 E2]. apply I6. rewrite !firstn_add in E2. apply app_inj_length in E2; [|congruence]. destruct E2 as [E2 E3].
    split; auto. subst acc. unfold x, y. rewrite E2, Z.lxor_nilpotent. reflexivity.
Qed.

Lemma vb_tail_spec : forall n buf mask acc, bytes buf -> bytes mask -> (n <= length buf)%nat -> (n <= length mask)%nat ->
  (vb_tail n buf mask acc = 0 <-> acc = 0 /\ firstn n buf = firstn n mask).
Proof.
  induction n; intros buf mask acc Hb Hm Lb Lm; [cbn; tauto|].
  destruct buf as [|b buf]; [cbn in Lb; lia|]. destruct mask as [|m mask]; [cbn in Lm; lia|].
  cbn [vb_tail firstn]. inversion Hb; inversion Hm; subst. cbn [length] in Lb, Lm.
  rewrite IHn by (auto; lia). rewrite Z.lor_eq_0_iff, Z.lxor_eq_0_iff.
  split; [intros [[-> ->] ->]; auto|intros [-> E]; inversion E; auto].
Qed.

Lemma shiftr_zero_iff : forall x n, 0 <= n -> 0 <= x -> (Z.shiftr x n = 0 <-> x < 2 ^ n).
Proof.
  intros x n Hn Hx. rewrite Z.shiftr_div_pow2 by auto. assert (0 < 2 ^ n) by (apply Z.pow_pos_nonneg; lia).
  split; intros H0.
  - apply Z.div_small_iff in H0; lia.
  - apply Z.div_small; lia.
Qed.

(** The folding of a 64-bit accumulator loses no bit. *)
Lemma fold_acc : forall x, 0 <= x < 2 ^ 64 ->
  let a0 := Z.lor (Z.shiftr x 32) (Z.land x (2 ^ 32 - 1)) in
  (Z.lor (Z.lor (Z.lor (b8 a0) (b8 (Z.shiftr a0 8))) (b8 (Z.shiftr a0 16))) (b8 (Z.shiftr a0 24)) = 0 <-> x = 0).
Proof.
  intros x Hx a0. split; [|intros ->; reflexivity]. intros E.
  rewrite !Z.lor_eq_0_iff in E. destruct E as [[[E0 E1] E2] E3].
  assert (Ba : 0 <= a0 < 2 ^ 32).
  { unfold a0. apply lor_range; [lia| |]. { apply shiftr_range; lia. }
    change (2 ^ 32 - 1) with (Z.ones 32). rewrite Z.land_ones by lia. apply Z.mod_pos_bound. lia. }
  assert (Ha : a0 = 0).
  { unfold b8 in *. rewrite !land_255 in *. rewrite !Z.shiftr_div_pow2 in * by lia.
    change (2 ^ 8) with 256 in *. change (2 ^ 16) with (256 * 256) in *. change (2 ^ 24) with (256 * 256 * 256) in *.
    rewrite <- !Z.div_div in * by lia.
    assert (D0 := Z.div_mod a0 256 ltac:(lia)). assert (D1 := Z.div_mod (a0 / 256) 256 ltac:(lia)).
    assert (D2 := Z.div_mod (a0 / 256 / 256) 256 ltac:(lia)). assert (D3 := Z.div_mod (a0 / 256 / 256 / 256) 256 ltac:(lia)).
    assert (a0 / 256 / 256 / 256 / 256 = 0).
    { rewrite !Z.div_div by lia. apply Z.div_small. cbn in *. lia. }
    lia. }
  unfold a0 in Ha. apply Z.lor_eq_0_iff in Ha. destruct Ha as [H1 H2].
  apply shiftr_zero_iff in H1; try lia. change (2 ^ 32 - 1) with (Z.ones 32) in H2. rewrite Z.land_ones in H2 by lia.
  rewrite Z.mod_small in H2; lia.
Qed.

Lemma verify_bufs_spec : forall buf mask n, bytes buf -> bytes mask -> (n <= length buf)%nat -> (n <= length mask)%nat ->
  (verify_bufs buf mask n = true <-> firstn n buf = firstn n mask).
Proof.
  intros buf mask n Hb Hm Lb Lm. unfold verify_bufs.
  pose proof (vb_words_spec n buf mask n 0 Hb Hm Lb Lm ltac:(lia) (Nat.le_refl _)) as H.
  destruct (vb_words n buf mask n 0) as [[[acc buf'] mask'] c]. destruct H as (I1 & I2 & I3 & -> & -> & I6).
  rewrite Z.eqb_eq. rewrite vb_tail_spec; try (apply bytes_skipn; auto); try (rewrite skipn_length; lia).
  rewrite (fold_acc acc I1), I6. replace n with ((n - c) + c)%nat at 5 6 by lia. rewrite !firstn_add.
  split.
  - intros [[_ E1] E2]. congruence.
  - intros E. apply app_inj_length in E; [tauto|]. rewrite !firstn_length. lia.
Qed.
