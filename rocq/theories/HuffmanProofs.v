(** HuffmanProofs: the decoder and the encoder on bit strings. *)
From Coq Require Import ZArith List Bool Lia Arith Permutation Sorted.
From Verif Require Import Base BitioModel BitioSpec BitioProofs BitioStream HuffmanModel HuffmanSpec HuffmanCode HuffmanTable.
Import ListNotations.
Open Scope Z_scope.

Lemma zsum_perm : forall {A} (f : A -> Z) l l', Permutation l l' -> zsum (map f l) = zsum (map f l').
Proof. unfold zsum. induction 1; cbn; try lia. Qed.

Section One.
Variable lens : list nat.
Notation n := (length lens).
Notation len := (fun i => nth i lens O).
Hypothesis HK : complete lens.

Lemma coded_lt : forall i, coded lens i -> (i < n)%nat.
Proof. intros i H. unfold coded in H. destruct (Nat.lt_ge_cases i n); auto. rewrite nth_overflow in H by auto. lia. Qed.

Lemma coded_len : forall i, coded lens i -> (0 < nth i lens O <= 32)%nat.
Proof.
  intros i H. pose proof (coded_lt i H). destruct HK as [HF _]. rewrite Forall_forall in HF.
  pose proof (HF _ (nth_In lens O H0)). unfold coded in H. lia.
Qed.

Lemma max_le : (max_bits lens <= 32)%nat.
Proof.
  destruct (Nat.eq_dec (max_bits lens) 0); [lia|]. destruct HK as [HF _]. rewrite Forall_forall in HF.
  apply HF. apply max_bits_in. lia.
Qed.

Lemma max_pos : (0 < max_bits lens)%nat.
Proof.
  destruct (Nat.eq_dec (max_bits lens) 0) as [E|]; [|lia]. destruct HK as [_ HS].
  rewrite zsum_map_zero in HS; [discriminate|]. intros x Hx. apply max_bits_bound in Hx.
  replace x with O by lia. reflexivity.
Qed.

Lemma len_max : forall i, (nth i lens O <= max_bits lens)%nat.
Proof.
  intros i. destruct (Nat.lt_ge_cases i n); [apply max_bits_bound, nth_In; auto|rewrite nth_overflow by auto; lia].
Qed.

Definition the_row (i : nat) : info := mkinfo (tile_start lens i) (nth i lens O) i.

Lemma row_coded : forall i, coded lens i -> row lens i = [the_row i].
Proof.
  intros i H. unfold row, the_row. destruct (Nat.eqb_spec (nth i lens O) 0); [contradiction|]. f_equal. f_equal.
  pose proof (coded_len i H). pose proof (code_value_range lens HK i H) as R.
  assert (P : 2 ^ Z.of_nat (nth i lens O) <= 2 ^ 32) by (apply Z.pow_le_mono_r; lia).
  rewrite Z.mod_small by lia. unfold normalize. rewrite Z.shiftl_mul_pow2 by lia.
  rewrite tile_start_code by lia. replace (Z.of_nat (32 - nth i lens O)) with (32 - Z.of_nat (nth i lens O)) by lia.
  apply Z.mod_small.
  assert (Q : 0 < 2 ^ (32 - Z.of_nat (nth i lens O))) by (apply Z.pow_pos_nonneg; lia).
  replace (2 ^ 32) with (2 ^ Z.of_nat (nth i lens O) * 2 ^ (32 - Z.of_nat (nth i lens O))) by (rewrite <- Z.pow_add_r by lia; f_equal; lia).
  nia.
Qed.

Lemma row_uncoded : forall i, ~ coded lens i -> row lens i = [].
Proof. intros i H. unfold row. destruct (Nat.eqb_spec (nth i lens O) 0); [reflexivity|contradiction]. Qed.

Definition coded_dec : forall i, {coded lens i} + {~ coded lens i}.
Proof. intros i. unfold coded. destruct (Nat.eq_dec (nth i lens O) 0); [right|left]; auto. Defined.

Definition rows0 : list info := flat_map (row lens) (seq 0 n).

Lemma in_rows0 : forall r, In r rows0 <-> exists i, coded lens i /\ r = the_row i.
Proof.
  intros r. unfold rows0. rewrite in_flat_map. split.
  - intros (i & Hi & Hr). destruct (coded_dec i) as [C|C].
    + rewrite row_coded in Hr by auto. destruct Hr as [<-|[]]. eauto.
    + rewrite row_uncoded in Hr by auto. destruct Hr.
  - intros (i & C & ->). exists i. split; [apply in_seq; pose proof (coded_lt i C); lia|].
    rewrite row_coded by auto. left. reflexivity.
Qed.

Lemma rows0_nodup : NoDup rows0.
Proof.
  unfold rows0. generalize 0%nat at 1. generalize n at 1.
  intros k. induction k as [|k IH]; intros a; cbn [seq flat_map]; [constructor|].
  destruct (coded_dec a) as [C|C].
  - rewrite row_coded by auto. cbn [app]. constructor; auto. intros H. apply in_flat_map in H as (i & Hi & Hr).
    apply in_seq in Hi. destruct (coded_dec i) as [C'|C'].
    + rewrite row_coded in Hr by auto. destruct Hr as [E|[]]. apply (f_equal i_value) in E. cbn in E. lia.
    + rewrite row_uncoded in Hr by auto. destruct Hr.
  - rewrite row_uncoded by auto. apply IH.
Qed.

Lemma rows0_sum : zsum (map size rows0) = 2 ^ 32.
Proof.
  destruct HK as [_ HS]. rewrite <- HS, (map_nth_seq weight O lens). unfold rows0.
  generalize (seq 0 n). induction l as [|i l IH]; [reflexivity|].
  cbn [flat_map map]. rewrite map_app, zsum_app, IH. unfold zsum at 3. cbn [fold_right]. fold (zsum (map (fun j => weight (nth j lens O)) l)).
  f_equal. destruct (coded_dec i) as [C|C].
  - rewrite row_coded by auto. unfold zsum, size. cbn. lia.
  - rewrite row_uncoded by auto. unfold coded in C. destruct (Nat.eq_dec (nth i lens O) 0) as [E|]; [|contradiction].
    rewrite E. reflexivity.
Qed.

Definition rows : list info := sort_rows rows0.

Lemma in_rows : forall r, In r rows <-> exists i, coded lens i /\ r = the_row i.
Proof.
  intros r. rewrite <- in_rows0. split; intros H;
    [apply (Permutation_in _ (sort_perm rows0)) | apply (Permutation_in _ (Permutation_sym (sort_perm rows0)))]; exact H.
Qed.

Lemma rows_disjoint : forall a b, In a rows -> In b rows -> a <> b ->
  i_code a + size a <= i_code b \/ i_code b + size b <= i_code a.
Proof.
  intros a b Ha Hb N. apply in_rows in Ha as (i & Ci & ->). apply in_rows in Hb as (j & Cj & ->).
  unfold the_row, size. cbn [i_code i_len].
  assert (i <> j) by congruence.
  destruct (before_total lens i j H Ci Cj) as [B|B]; [left|right]; apply tile_before; auto using coded_lt.
Qed.

Lemma rows_tile : tile 0 rows (2 ^ 32).
Proof.
  assert (P : forall r, In r rows -> 0 < size r).
  { intros r Hr. apply in_rows in Hr as (i & Ci & ->). apply weight_pos. cbn. apply coded_len. exact Ci. }
  apply chain_tile; auto.
  - apply chain_of.
    + lia.
    + intros r Hr. split; [|split; auto]; apply in_rows in Hr as (i & Ci & ->); unfold the_row, size; cbn [i_code i_len].
      * apply tile_nonneg.
      * destruct HK as [_ HS]. rewrite <- HS. apply tile_total. apply coded_lt. exact Ci.
    + exact rows_disjoint.
    + apply (Permutation_NoDup (Permutation_sym (sort_perm rows0))). apply rows0_nodup.
    + apply sort_sorted.
  - unfold rows. rewrite (zsum_perm size _ _ (sort_perm rows0)), rows0_sum. lia.
Qed.

Lemma rows_len : forall r, In r rows -> (0 < i_len r <= 32)%nat.
Proof. intros r Hr. apply in_rows in Hr as (i & Ci & ->). apply coded_len. exact Ci. Qed.

Lemma rows_aligned : forall r, In r rows -> exists q, i_code r = q * size r.
Proof.
  intros r Hr. apply in_rows in Hr as (i & Ci & ->). exists (code_value lens i).
  unfold the_row, size. cbn [i_code i_len]. pose proof (coded_len i Ci). rewrite tile_start_code by lia.
  unfold weight. destruct (Nat.eqb_spec (nth i lens O) 0); [lia|reflexivity].
Qed.

Lemma rows_mono : forall a b, In a rows -> In b rows -> i_code a <= i_code b -> (i_len a <= i_len b)%nat.
Proof.
  intros a b Ha Hb L. apply in_rows in Ha as (i & Ci & ->). apply in_rows in Hb as (j & Cj & ->).
  unfold the_row in *. cbn [i_code i_len] in *.
  destruct (Nat.le_gt_cases (nth i lens O) (nth j lens O)) as [|G]; auto. exfalso.
  assert (B : before (nth j lens O) j (nth i lens O) i = true).
  { unfold before. pose proof (coded_len j Cj). destruct (Nat.eqb_spec (nth j lens O) 0); [lia|].
    rewrite (proj2 (Nat.ltb_lt _ _) G). reflexivity. }
  pose proof (tile_before lens j i (coded_lt j Cj) B). cbv beta in H.
  pose proof (weight_pos (nth j lens O) (coded_len j Cj)). lia.
Qed.

Notation cb := (Nat.min 9 (max_bits lens)).
Lemma cb_range : (0 < cb <= 9)%nat.
Proof. pose proof max_pos. lia. Qed.

Definition dec_ok (d : decoder) : Prop :=
  exists cache, d = mkdec (max_bits lens) cb rows cache /\ cache_ok rows cb cache.

Lemma kraft_at_max : start lens (max_bits lens) + cnt (max_bits lens) lens = 2 ^ Z.of_nat (max_bits lens).
Proof.
  pose proof max_le. pose proof max_pos.
  pose proof (start_kraft lens (max_bits lens) ltac:(lia)) as K.
  assert (E : zsum (map (fun x => if (x <=? max_bits lens)%nat then weight x else 0) lens) = 2 ^ 32).
  { destruct HK as [_ HS]. rewrite <- HS. apply zsum_map_ext. intros x Hx. apply max_bits_bound in Hx.
    rewrite (proj2 (Nat.leb_le _ _) Hx). reflexivity. }
  rewrite E in K. replace 32 with (Z.of_nat (max_bits lens) + (32 - Z.of_nat (max_bits lens))) in K at 2 by lia.
  rewrite Z.pow_add_r in K by lia. apply Z.mul_reg_r in K; auto. apply Z.pow_nonzero; lia.
Qed.

Lemma last_starts : forall m, (0 < m)%nat -> last (map (start lens) (seq 2 (m - 1))) 0 = start lens m.
Proof.
  intros m Hm. destruct m as [|[|m]]; [lia|cbn [Nat.sub seq map last]; symmetry; apply start_1|].
  replace (S (S m) - 1)%nat with (S m) by lia. rewrite seq_S, map_app. cbn [map]. rewrite last_last. f_equal.
Qed.

Lemma dec_init_ok : exists d, dec_init lens = Some d /\ dec_ok d.
Proof.
  pose proof max_le as ML. pose proof max_pos as MP.
  unfold dec_init. destruct lens as [|x t] eqn:EL; [cbn in MP; lia|]. rewrite <- EL in *.
  destruct (Nat.ltb_spec 32 (max_bits lens)); [lia|]. destruct (Nat.eqb_spec (max_bits lens) 0); [lia|].
  assert (HS : forall l, (2 <= l < 2 + (max_bits lens - 1))%nat -> start lens l < 2 ^ 32).
  { intros l Hl. apply (complete_start lens HK). lia. }
  pose proof (dec_starts_ok lens (max_bits lens - 1) 2 ltac:(lia) HS) as DS.
  change (2 - 1)%nat with 1%nat in DS. rewrite start_1 in DS. rewrite DS. cbv zeta.
  rewrite last_starts by lia. rewrite bl_count_spec.
  pose proof kraft_at_max as KM. pose proof (start_nonneg lens (max_bits lens)). pose proof (cnt_range (max_bits lens) lens).
  assert (P : 2 ^ Z.of_nat (max_bits lens) <= 2 ^ 32) by (apply Z.pow_le_mono_r; lia).
  assert (Q : 2 ^ 32 < 2 ^ 64) by reflexivity.
  rewrite Z.mod_small by lia.
  destruct (Z.gtb_spec (start lens (max_bits lens)) (2 ^ Z.of_nat (max_bits lens) - cnt (max_bits lens) lens)); [lia|].
  destruct (Z.ltb_spec (start lens (max_bits lens)) (2 ^ Z.of_nat (max_bits lens) - cnt (max_bits lens) lens)); [lia|].
  rewrite andb_false_r. eexists. split; [reflexivity|].
  exists (repeat EEmpty (2 ^ cb)). split.
  - f_equal. unfold rows, rows0. f_equal.
    apply (dec_rows_spec lens lens [] _ eq_refl). apply next_ok_init; auto.
  - split; [apply repeat_length|]. intros y e He. left. apply nth_error_In in He. apply repeat_spec in He. exact He.
Qed.

(** * Codewords *)
Lemma bits_lsbs : forall l c, (0 < l <= 32)%nat -> 0 <= c < 2 ^ 32 ->
  bits l (bit_reverse32 c / 2 ^ (32 - Z.of_nat l)) = lsbs l c.
Proof.
  intros l c Hl Hc. apply (nth_ext _ _ false false); rewrite bits_length, ?lsbs_length; auto.
  intros k Hk. rewrite bits_nth, lsbs_nth by auto. rewrite <- Z.shiftr_div_pow2, Z.shiftr_spec by lia.
  rewrite bit_reverse_spec by lia. f_equal. lia.
Qed.

Lemma holds_codeword : forall i c, coded lens i -> 0 <= c < 2 ^ 32 ->
  holds (the_row i) (bit_reverse32 c) <-> lsbs (nth i lens O) c = codeword lens i.
Proof.
  intros i c Ci Hc. pose proof (coded_len i Ci) as L. pose proof (code_value_range lens HK i Ci) as R.
  pose proof (bit_reverse_range c Hc) as V.
  assert (P : 0 < 2 ^ (32 - Z.of_nat (nth i lens O))) by (apply Z.pow_pos_nonneg; lia).
  unfold codeword. rewrite <- bits_lsbs by auto.
  unfold holds, the_row, size. cbn [i_code i_len]. rewrite tile_start_code by lia.
  unfold weight. destruct (Nat.eqb_spec (nth i lens O) 0); [lia|].
  set (w := 2 ^ (32 - Z.of_nat (nth i lens O))) in *. set (v := bit_reverse32 c) in *.
  cbv beta in R. split.
  - intros H. f_equal. symmetry. apply Z.div_unique with (v - code_value lens i * w); lia.
  - intros H. apply bits_inj in H; auto.
    + pose proof (Z.div_mod v w ltac:(lia)). pose proof (Z.mod_pos_bound v w P). rewrite <- H. lia.
    + split; [apply Z.div_pos; lia|]. apply Z.div_lt_upper_bound; [lia|].
      unfold w. rewrite <- Z.pow_add_r by lia. replace (32 - Z.of_nat (nth i lens O) + Z.of_nat (nth i lens O)) with 32 by lia. lia.
Qed.

Lemma codeword_length : forall i, length (codeword lens i) = nth i lens O.
Proof. intros. apply bits_length. Qed.

Lemma decode_bits : forall d c, dec_ok d -> 0 <= c < 2 ^ 32 ->
  exists d' i, decode d c = Some (d', i, nth i lens O) /\ dec_ok d' /\ coded lens i
    /\ lsbs (nth i lens O) c = codeword lens i
    /\ forall j, coded lens j -> lsbs (nth j lens O) c = codeword lens j -> j = i.
Proof.
  intros d c (cache & -> & CO) Hc.
  destruct (decode_spec rows cb rows_tile rows_len rows_aligned rows_mono cb_range (max_bits lens) cache c CO Hc)
    as (cache' & r & D & CO' & IR & HR).
  pose proof IR as IR'. apply in_rows in IR' as (i & Ci & ->).
  exists (mkdec (max_bits lens) cb rows cache'), i. split; [exact D|]. split; [exists cache'; auto|]. split; auto.
  split; [apply holds_codeword; auto|].
  intros j Cj Hj. apply holds_codeword in Hj; auto.
  assert (E : the_row j = the_row i).
  { apply (holds_unique rows 0 (2 ^ 32) _ _ (bit_reverse32 c) rows_tile); auto. apply in_rows. eauto. }
  apply (f_equal i_value) in E. exact E.
Qed.

(** Every bit string of 32 bits starts with exactly one codeword. *)
Lemma lsbs_firstn : forall l m c, (l <= m)%nat -> firstn l (lsbs m c) = lsbs l c.
Proof.
  intros l m c H. replace m with (l + (m - l))%nat by lia. rewrite lsbs_app.
  rewrite <- (lsbs_length l c) at 1. apply firstn_app_exact.
Qed.

Lemma low32 : forall l b, (l <= 32)%nat -> lsbs l (b mod 2 ^ 32) = lsbs l b.
Proof. intros l b H. apply lsbs_ext. intros k Hk. apply Z.mod_pow2_bits_low. lia. Qed.

Lemma starts_with_len : forall s i, starts_with s (codeword lens i) -> (nth i lens O <= length s)%nat.
Proof. intros s i (t & ->). rewrite app_length, codeword_length. lia. Qed.

Lemma decode_symbol_spec : forall d r, dec_ok d -> rok r ->
  exists d' r' res, decode_symbol d r = Some (d', r', res) /\ dec_ok d' /\ rok r' /\
  match res with
  | Some i => coded lens i /\ rbits r = codeword lens i ++ rbits r'
  | None => rbits r' = rbits r /\ forall i, coded lens i -> ~ starts_with (rbits r) (codeword lens i)
  end.
Proof.
  intros d r HD HR. unfold decode_symbol.
  assert (DM : d_max d = max_bits lens) by (destruct HD as (cache & -> & _); reflexivity). rewrite DM.
  pose proof max_le as ML.
  pose proof (fill_buffer_spec r (max_bits lens) HR ML) as F.
  destruct (fill_buffer r (max_bits lens)) as [r1 ok]. cbn [fst]. destruct F as (F1 & F2 & F3).
  destruct (decode_bits d (r_buf r1 mod 2 ^ 32) HD ltac:(apply Z.mod_pos_bound; reflexivity))
    as (d' & i & D & HD' & Ci & Wi & U).
  rewrite D. pose proof (coded_len i Ci) as Li. pose proof (len_max i) as Mi.
  assert (FIT : forall j, coded lens j -> starts_with (rbits r1) (codeword lens j) ->
     (nth j lens O <= r_cnt r1)%nat /\ lsbs (nth j lens O) (r_buf r1 mod 2 ^ 32) = codeword lens j).
  { intros j Cj SJ. pose proof (starts_with_len _ _ SJ) as SL. pose proof (len_max j) as Mj. pose proof (coded_len j Cj) as Lj.
    assert (LC : (nth j lens O <= r_cnt r1)%nat).
    { destruct ok; [lia|]. destruct F3 as [F3 F4]. unfold rbits in SL. rewrite F4 in SL. cbn in SL.
      rewrite app_nil_r, lsbs_length in SL. exact SL. }
    split; auto. destruct SJ as (t & SJ). rewrite low32 by lia. rewrite <- (rbits_buf r1 _ F1 LC), SJ.
    rewrite <- (codeword_length j) at 1. apply firstn_app_exact. }
  destruct (Nat.ltb_spec (r_cnt r1) (nth i lens O)) as [LT|GE].
  - exists d', r1, None. split; [reflexivity|]. split; auto. split; auto. split; auto.
    rewrite <- F2. intros j Cj SJ. destruct (FIT j Cj SJ) as [A B]. rewrite (U j Cj B) in A. lia.
  - destruct (skip_bits_spec r1 (nth i lens O) F1 GE) as [S1 S2].
    exists d', (skip_bits r1 (nth i lens O)), (Some i). split; [reflexivity|]. split; auto. split; auto. split; auto.
    rewrite S2, <- F2. rewrite <- (firstn_skipn (nth i lens O) (rbits r1)) at 1. f_equal.
    rewrite (rbits_buf r1 _ F1 GE). rewrite low32 in Wi by lia. exact Wi.
Qed.

(** No codeword is a prefix of another. *)
Lemma codeword_prefix_free : forall i j s t, coded lens i -> coded lens j ->
  codeword lens i ++ s = codeword lens j ++ t -> i = j.
Proof.
  intros i j s t Ci Cj E.
  set (b := firstn 32 (codeword lens i ++ s) ++ repeat false 32).
  assert (LB : (32 <= length b)%nat) by (unfold b; rewrite app_length, repeat_length; lia).
  set (b32 := firstn 32 b).
  assert (L32 : length b32 = 32%nat) by (unfold b32; rewrite firstn_length; lia).
  assert (PRE : forall k u, coded lens k -> codeword lens i ++ s = codeword lens k ++ u -> firstn (nth k lens O) b32 = codeword lens k).
  { intros k u Ck Eq. unfold b32, b. rewrite Eq. pose proof (coded_len k Ck).
    rewrite firstn_firstn, Nat.min_l by lia. rewrite firstn_app, firstn_firstn, Nat.min_l by lia.
    rewrite <- (codeword_length k) at 1. rewrite firstn_app_exact.
    replace (nth k lens O - length (firstn 32 (codeword lens k ++ u)))%nat with O; [cbn; apply app_nil_r|].
    rewrite firstn_length, app_length, codeword_length. lia. }
  assert (C32 : 0 <= lsbs_val b32 < 2 ^ 32) by (rewrite <- (Nat2Z.id 32) in L32; pose proof (lsbs_val_range b32); rewrite L32 in H; exact H).
  assert (LS : lsbs 32 (lsbs_val b32) = b32) by (rewrite <- L32; apply lsbs_lsbs_val).
  assert (BW : forall k, coded lens k -> firstn (nth k lens O) b32 = codeword lens k -> lsbs (nth k lens O) (lsbs_val b32) = codeword lens k).
  { intros k Ck H. pose proof (coded_len k Ck). rewrite <- H. rewrite <- (lsbs_firstn (nth k lens O) 32) by lia. rewrite LS. reflexivity. }
  pose proof (BW i Ci (PRE i s Ci eq_refl)) as Bi. pose proof (BW j Cj (PRE j t Cj E)) as Bj.
  apply holds_codeword in Bi; auto. apply holds_codeword in Bj; auto.
  assert (X : the_row i = the_row j).
  { apply (holds_unique rows 0 (2 ^ 32) _ _ (bit_reverse32 (lsbs_val b32)) rows_tile); auto; apply in_rows; eauto. }
  apply (f_equal i_value) in X. exact X.
Qed.

(** * The encoder *)
Lemma enc_init_ok : forall i, coded lens i ->
  snd (nth i (enc_init lens) (0, O)) = nth i lens O
  /\ 0 <= fst (nth i (enc_init lens) (0, O)) < 2 ^ Z.of_nat (nth i lens O)
  /\ lsbs (nth i lens O) (fst (nth i (enc_init lens) (0, O))) = codeword lens i.
Proof.
  intros i Ci. pose proof (coded_lt i Ci) as LT. pose proof (coded_len i Ci) as L.
  pose proof (code_value_range lens HK i Ci) as R.
  unfold enc_init. pose proof max_pos. destruct (Nat.eqb_spec (max_bits lens) 0); [lia|].
  assert (HS : forall l, (2 <= l < 2 + (max_bits lens - 1))%nat -> start lens l < 2 ^ 32).
  { intros l Hl. apply (complete_start lens HK). lia. }
  pose proof (enc_starts_ok lens (max_bits lens - 1) 2 ltac:(lia) HS) as DS.
  change (2 - 1)%nat with 1%nat in DS. rewrite start_1 in DS. rewrite DS.
  rewrite (enc_rows_spec lens lens [] _ eq_refl) by (apply next_ok_init; auto).
  cbn [length]. rewrite nth_indep with (d' := enc_row lens 0) by (rewrite map_length, seq_length; auto).
  rewrite map_nth, seq_nth by auto. cbn [Nat.add]. unfold enc_row.
  destruct (Nat.eqb_spec (nth i lens O) 0); [lia|]. cbn [fst snd]. split; auto.
  cbv beta in R.
  assert (P : 2 ^ Z.of_nat (nth i lens O) <= 2 ^ 32) by (apply Z.pow_le_mono_r; lia).
  rewrite Z.mod_small by lia. pose proof (bit_reverse_range (code_value lens i) ltac:(lia)) as V.
  split.
  - apply shiftr_range; try lia. replace (Z.of_nat (nth i lens O) + Z.of_nat (32 - nth i lens O)) with 32 by lia. exact V.
  - apply (nth_ext _ _ false false); rewrite lsbs_length, ?codeword_length; auto.
    intros k Hk. unfold codeword. rewrite lsbs_nth, bits_nth by auto. rewrite Z.shiftr_spec by lia.
    rewrite bit_reverse_spec by lia. f_equal. lia.
Qed.

Lemma encode_symbol_spec : forall w i, wok w -> coded lens i ->
  wok (encode_symbol (enc_init lens) w i)
  /\ wbits (encode_symbol (enc_init lens) w i) = wbits w ++ codeword lens i.
Proof.
  intros w i HW Ci. destruct (enc_init_ok i Ci) as (E1 & E2 & E3). pose proof (coded_len i Ci).
  unfold encode_symbol. rewrite E1.
  destruct (put_bits_spec w _ _ HW (proj2 H) E2) as [A B]. rewrite E3 in B. auto.
Qed.
End One.

(** * Which lengths are accepted *)
Lemma dec_init_accepts : forall lens, Z.of_nat (length lens) < 2 ^ 32 ->
  (2 <= max_bits lens)%nat -> dec_init lens <> None -> complete lens.
Proof.
  intros lens HN HM H. unfold dec_init in H.
  destruct lens as [|x t] eqn:EL; [congruence|]. rewrite <- EL in *.
  destruct (Nat.ltb_spec 32 (max_bits lens)); [congruence|]. destruct (Nat.eqb_spec (max_bits lens) 0); [lia|].
  destruct (dec_starts (bl_count lens) 0 2 (max_bits lens - 1)) as [L|] eqn:ES; [|congruence].
  rewrite <- (start_1 lens) in ES. change 1%nat with (2 - 1)%nat in ES at 1.
  destruct (dec_starts_some lens (max_bits lens - 1) 2 L ltac:(lia) HN) as [-> HS].
  { change (2 - 1)%nat with 1%nat. rewrite start_1. lia. }
  { exact ES. }
  cbv zeta in H. rewrite last_starts, bl_count_spec in H by lia.
  pose proof (HS (max_bits lens) ltac:(lia)) as S32. pose proof (start_nonneg lens (max_bits lens)) as S0.
  pose proof (cnt_range (max_bits lens) lens) as CR.
  set (m := max_bits lens) in *. set (s := start lens m) in *. set (c := cnt m lens) in *.
  assert (P : 0 < 2 ^ Z.of_nat m <= 2 ^ 32) by (split; [apply Z.pow_pos_nonneg; lia|apply Z.pow_le_mono_r; lia]).
  destruct (Nat.eqb_spec m 1); [lia|]. cbn [negb andb] in H.
  assert (EQ : s = 2 ^ Z.of_nat m - c).
  { destruct (Z.le_gt_cases c (2 ^ Z.of_nat m)).
    - rewrite Z.mod_small in H by lia.
      destruct (Z.gtb_spec s (2 ^ Z.of_nat m - c)); [congruence|].
      destruct (Z.ltb_spec s (2 ^ Z.of_nat m - c)); [congruence|]. lia.
    - replace ((2 ^ Z.of_nat m - c) mod 2 ^ 64) with (2 ^ Z.of_nat m - c + 2 ^ 64) in H by (apply Z.mod_unique with (-1); lia).
      destruct (Z.gtb_spec s (2 ^ Z.of_nat m - c + 2 ^ 64)); [congruence|].
      destruct (Z.ltb_spec s (2 ^ Z.of_nat m - c + 2 ^ 64)); [congruence|]. lia. }
  split.
  - apply Forall_forall. intros y Hy. apply max_bits_bound in Hy. fold m in Hy. lia.
  - pose proof (start_kraft lens m ltac:(lia)) as K. fold s c in K. rewrite EQ in K.
    replace (2 ^ Z.of_nat m - c + c) with (2 ^ Z.of_nat m) in K by lia.
    rewrite <- Z.pow_add_r in K by lia. replace (Z.of_nat m + (32 - Z.of_nat m)) with 32 in K by lia.
    rewrite K. apply zsum_map_ext. intros y Hy. apply max_bits_bound in Hy. fold m in Hy.
    rewrite (proj2 (Nat.leb_le _ _) Hy). reflexivity.
Qed.

(** * A decoder in use *)
Lemma decoder_of_ok : forall lens d, complete lens -> decoder_of lens d -> dec_ok lens d.
Proof.
  intros lens d HK H. induction H as [d H|d r d' r' res H IH HR D].
  - destruct (dec_init_ok lens HK) as (d' & E & OK). rewrite E in H. injection H as <-. exact OK.
  - destruct (decode_symbol_spec lens HK d r IH HR) as (d1 & r1 & res1 & D1 & OK & _).
    rewrite D1 in D. injection D as <- <- <-. exact OK.
Qed.

(** * One code of one bit *)
Lemma one_max : forall lens i, one_code lens i -> max_bits lens = 1%nat.
Proof.
  intros lens i [H1 H2].
  assert (L : (i < length lens)%nat) by (destruct (Nat.lt_ge_cases i (length lens)); auto; rewrite nth_overflow in H1 by auto; discriminate).
  pose proof (max_bits_bound lens _ (nth_In lens O L)) as B. rewrite H1 in B.
  pose proof (max_bits_in lens ltac:(lia)) as I. apply (In_nth _ _ O) in I as (j & Hj & E).
  destruct (Nat.eq_dec j i) as [->|N]; [lia|]. rewrite (H2 j N) in E. lia.
Qed.

Lemma one_rows : forall lens i, one_code lens i -> dec_rows [0; 0] 0 lens = [mkinfo 0 1 i].
Proof.
  intros lens i H. pose proof (one_max lens i H) as M. destruct H as [H1 H2].
  assert (L : (i < length lens)%nat) by (destruct (Nat.lt_ge_cases i (length lens)); auto; rewrite nth_overflow in H1 by auto; discriminate).
  assert (G : forall t k next, nth 1 next 0 = 0 -> (forall j, (j < length t)%nat -> nth j t O = nth (k + j) lens O) ->
    (k <= i < k + length t)%nat -> dec_rows next k t = [mkinfo 0 1 i]).
  { induction t as [|x t IH]; intros k next HN HT HI; [cbn in HI; lia|].
    assert (HT' : forall j, (j < length t)%nat -> nth j t O = nth (S k + j) lens O).
    { intros j Hj. specialize (HT (S j)). cbn [length nth] in HT. rewrite HT by lia. f_equal. lia. }
    pose proof (HT O) as HX. cbn [length nth] in HX. rewrite Nat.add_0_r in HX. specialize (HX ltac:(lia)).
    cbn [length] in HI. destruct (Nat.eq_dec k i) as [->|N].
    - rewrite H1 in HX. subst x. cbn [dec_rows]. rewrite HN. f_equal.
      assert (Z0 : forall t' next' k', (forall j, (j < length t')%nat -> nth j t' O = O) -> dec_rows next' k' t' = []).
      { induction t' as [|y t' IH']; intros next' k' HZ; [reflexivity|].
        pose proof (HZ O) as HY. cbn [length nth] in HY. rewrite (HY ltac:(lia)). cbn [dec_rows].
        apply IH'. intros j Hj. apply (HZ (S j)). cbn [length]. lia. }
      apply Z0. intros j Hj. rewrite HT' by auto. apply H2. lia.
    - rewrite (H2 k N) in HX. subst x. cbn [dec_rows]. apply IH; auto. lia. }
  apply G; auto. lia.
Qed.

Lemma one_init : forall lens i, one_code lens i ->
  dec_init lens = Some (mkdec 1 1 [mkinfo 0 1 i] (repeat EEmpty 2)).
Proof.
  intros lens i H. pose proof (one_max lens i H) as M. pose proof (one_rows lens i H) as R.
  assert (C : cnt 1 lens = 1).
  { destruct H as [H1 H2]. unfold cnt. rewrite (map_nth_seq (fun x => if (x =? 1)%nat then 1 else 0) O lens).
    assert (L : (i < length lens)%nat) by (destruct (Nat.lt_ge_cases i (length lens)); auto; rewrite nth_overflow in H1 by auto; discriminate).
    rewrite (zsum_map_ext _ (fun j => if (j =? i)%nat then 1 else 0)).
    - rewrite (zsum_one (fun _ => 1) i 0 (length lens)) by lia. reflexivity.
    - intros j _. destruct (Nat.eqb_spec j i) as [->|N]; [rewrite H1|rewrite (H2 j N)]; reflexivity. }
  unfold dec_init. destruct lens as [|x t] eqn:EL; [cbn in M; discriminate|]. rewrite <- EL in *.
  rewrite M. cbn [Nat.ltb Nat.leb Nat.eqb Nat.sub dec_starts next_code]. change (next_code []) with [0; 0]. rewrite R. cbv zeta.
  rewrite bl_count_spec, C. reflexivity.
Qed.

Lemma one_decode : forall i c cache, 0 <= c < 2 ^ 32 -> length cache = 2%nat -> (forall e, In e cache -> e = EEmpty \/ e = EValue i 1) ->
  exists cache', decode (mkdec 1 1 [mkinfo 0 1 i] cache) c = Some (mkdec 1 1 [mkinfo 0 1 i] cache', i, 1%nat)
  /\ length cache' = 2%nat /\ (forall e, In e cache' -> e = EEmpty \/ e = EValue i 1).
Proof.
  intros i c cache Hc HL HE. unfold decode. cbn [d_cbits d_cache d_rows d_max].
  change (Z.shiftl 1 (Z.of_nat 1) - 1) with (Z.ones 1). rewrite Z.land_ones by lia. change (2 ^ 1) with 2.
  pose proof (Z.mod_pos_bound c 2 ltac:(lia)) as MB. set (x := Z.to_nat (c mod 2)).
  assert (HX : (x < length cache)%nat) by (unfold x; lia).
  destruct (nth_error cache x) as [e|] eqn:E; [|apply nth_error_None in E; lia].
  pose proof (HE e (nth_error_In _ _ E)) as [-> | ->].
  - pose proof (bit_reverse_range c Hc) as B.
    assert (F : fill_entry (mkdec 1 1 [mkinfo 0 1 i] cache) (bit_reverse32 c) = Some (EValue i 1)).
    { unfold fill_entry. cbn [d_rows d_cbits upper_bound i_code].
      assert (N : 0 <= Z.land (bit_reverse32 c) (ncache_mask (mkdec 1 1 [mkinfo 0 1 i] cache))) by (apply Z.land_nonneg; lia).
      destruct (Z.ltb_spec (Z.land (bit_reverse32 c) (ncache_mask (mkdec 1 1 [mkinfo 0 1 i] cache))) 0); [lia|]. reflexivity. }
    rewrite F. eexists. split; [reflexivity|]. split; [rewrite upd_length; auto|].
    intros e He. apply In_nth with (d := EEmpty) in He as (k & Hk & <-). rewrite upd_length in Hk.
    destruct (Nat.eq_dec k x) as [->|]; [rewrite upd_nth_eq by auto; auto|].
    rewrite upd_nth_neq by auto. apply HE. apply nth_In. auto.
  - eexists. split; [reflexivity|]. auto.
Qed.

Definition one_ok (i : nat) (d : decoder) : Prop :=
  exists cache, d = mkdec 1 1 [mkinfo 0 1 i] cache /\ length cache = 2%nat
    /\ (forall e, In e cache -> e = EEmpty \/ e = EValue i 1).

Lemma one_symbol : forall i d r, one_ok i d -> rok r ->
  exists d' r' res, decode_symbol d r = Some (d', r', res) /\ one_ok i d' /\ rok r' /\
  match res with
  | Some v => v = i /\ exists b, rbits r = b :: rbits r'
  | None => rbits r' = rbits r /\ rbits r = []
  end.
Proof.
  intros i d r (cache & -> & HL & HE) HR. unfold decode_symbol. cbn [d_max].
  pose proof (fill_buffer_spec r 1 HR ltac:(lia)) as F.
  destruct (fill_buffer r 1) as [r1 ok]. cbn [fst]. destruct F as (F1 & F2 & F3).
  destruct (one_decode i (r_buf r1 mod 2 ^ 32) cache ltac:(apply Z.mod_pos_bound; reflexivity) HL HE) as (cache' & D & HL' & HE').
  rewrite D. destruct (Nat.ltb_spec (r_cnt r1) 1) as [LT|GE].
  - do 3 eexists. split; [reflexivity|]. split; [exists cache'; auto|]. split; auto. split; auto.
    destruct ok; [lia|]. destruct F3 as [_ F4]. rewrite <- F2. unfold rbits. rewrite F4. replace (r_cnt r1) with O by lia. reflexivity.
  - destruct (skip_bits_spec r1 1 F1 GE) as [S1 S2]. do 3 eexists. split; [reflexivity|]. split; [exists cache'; auto|].
    split; auto. split; auto. rewrite S2, <- F2. pose proof (rbits_buf r1 1 F1 GE) as RB.
    destruct (rbits r1) as [|b t]; [cbn in RB; discriminate|]. exists b. reflexivity.
Qed.

Lemma decoder_of_one : forall lens i d, one_code lens i -> decoder_of lens d -> one_ok i d.
Proof.
  intros lens i d HO H. induction H as [d H|d r d' r' res H IH HR D].
  - rewrite (one_init lens i HO) in H. injection H as <-. exists (repeat EEmpty 2). split; [reflexivity|]. split; [reflexivity|].
    intros e He. apply repeat_spec in He. auto.
  - destruct (one_symbol i d r IH HR) as (d1 & r1 & res1 & D1 & OK & _).
    rewrite D1 in D. injection D as <- <- <-. exact OK.
Qed.

(** * Round trip *)
Lemma encode_all_spec : forall lens l w, complete lens -> wok w -> Forall (coded lens) l ->
  wok (encode_all (enc_init lens) w l)
  /\ wbits (encode_all (enc_init lens) w l) = wbits w ++ flat_map (codeword lens) l.
Proof.
  intros lens l. induction l as [|i l IH]; intros w HK HW HF; [cbn; rewrite app_nil_r; auto|].
  inversion HF; subst. destruct (encode_symbol_spec lens HK w i HW H1) as [A B].
  destruct (IH _ HK A H2) as [C D]. cbn [encode_all fold_left flat_map]. split; [exact C|].
  unfold encode_all in D. rewrite D, B, <- app_assoc. reflexivity.
Qed.

Lemma decode_all_spec : forall lens l d r s, complete lens -> dec_ok lens d -> rok r -> Forall (coded lens) l ->
  rbits r = flat_map (codeword lens) l ++ s ->
  exists d' r', decode_all d r (length l) = Some (d', r', l) /\ dec_ok lens d' /\ rok r' /\ rbits r' = s.
Proof.
  intros lens l. induction l as [|i l IH]; intros d r s HK HD HR HF E; cbn [decode_all length].
  - exists d, r. auto.
  - inversion HF; subst. destruct (decode_symbol_spec lens HK d r HD HR) as (d1 & r1 & res & D & OK & R1 & S).
    rewrite D. cbn [flat_map] in E. rewrite <- app_assoc in E. destruct res as [v|].
    + destruct S as [Cv S]. assert (v = i) as -> by (apply (codeword_prefix_free lens HK v i (rbits r1) (flat_map (codeword lens) l ++ s)); auto; congruence).
      rewrite E in S. apply app_inv_head in S.
      destruct (IH d1 r1 s HK OK R1 H2 (eq_sym S)) as (d2 & r2 & A & B). rewrite A. eauto.
    + destruct S as [_ S]. exfalso. apply (S i H1). eexists. exact E.
Qed.
