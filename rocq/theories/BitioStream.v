(** BitioStream: the reader and the writer as streams of bits. *)
From Coq Require Import ZArith List Bool Lia.
From Verif Require Import Base BitioModel BitioSpec.
Import ListNotations.
Open Scope Z_scope.

(** * Bit strings *)
Lemma lsbs_length : forall n v, length (lsbs n v) = n.
Proof. induction n; intros; cbn; auto. Qed.

Lemma lsbs_nth : forall n v i, (i < n)%nat -> nth i (lsbs n v) false = Z.testbit v (Z.of_nat i).
Proof.
  induction n as [|n IH]; intros v i H; [lia|]. destruct i as [|i]; cbn [lsbs nth].
  - symmetry. apply Z.bit0_odd.
  - rewrite IH by lia. rewrite Z.div2_spec, Z.shiftr_spec by lia. f_equal. lia.
Qed.

Lemma lsbs_app : forall a b v, lsbs (a + b) v = lsbs a v ++ lsbs b (Z.shiftr v (Z.of_nat a)).
Proof.
  induction a as [|a IH]; intros b v; [reflexivity|].
  cbn [Nat.add lsbs app]. rewrite IH. f_equal. f_equal. f_equal.
  rewrite Z.div2_spec, Z.shiftr_shiftr by lia. f_equal. lia.
Qed.

Lemma lsbs_ext : forall n a b, (forall k, 0 <= k < Z.of_nat n -> Z.testbit a k = Z.testbit b k) -> lsbs n a = lsbs n b.
Proof.
  intros n a b H. apply (nth_ext _ _ false false); rewrite !lsbs_length; auto.
  intros i Hi. rewrite !lsbs_nth by auto. apply H. lia.
Qed.

Lemma lsbs_val_range : forall l, 0 <= lsbs_val l < 2 ^ Z.of_nat (length l).
Proof.
  induction l as [|b l IH]; [cbn; lia|]. cbn [lsbs_val length]. rewrite Nat2Z.inj_succ, Z.pow_succ_r by lia.
  destruct b; cbn [Z.b2z]; lia.
Qed.

Lemma lsbs_val_lsbs : forall n v, lsbs_val (lsbs n v) = v mod 2 ^ Z.of_nat n.
Proof.
  induction n as [|n IH]; intros v.
  - cbn. rewrite Z.mod_1_r. reflexivity.
  - cbn [lsbs lsbs_val]. rewrite IH. rewrite Nat2Z.inj_succ, Z.pow_succ_r by lia.
    rewrite Z.rem_mul_r by (try lia; apply Z.pow_nonzero; lia).
    rewrite Zmod_odd, Z.div2_div. f_equal.
Qed.

Lemma lsbs_lsbs_val : forall l, lsbs (length l) (lsbs_val l) = l.
Proof.
  induction l as [|b l IH]; [reflexivity|]. cbn [length lsbs lsbs_val].
  f_equal.
  - rewrite Z.odd_add_mul_2. destruct b; reflexivity.
  - rewrite Z.div2_div. replace ((Z.b2z b + 2 * lsbs_val l) / 2) with (lsbs_val l); auto.
    destruct b; cbn [Z.b2z]; [|rewrite Z.add_0_l, Z.mul_comm, Z.div_mul; lia].
    rewrite Z.add_comm, Z.mul_comm, Z.div_add_l by lia. cbn. lia.
Qed.

Lemma stream_app : forall a b, stream (a ++ b) = stream a ++ stream b.
Proof. intros. apply flat_map_app. Qed.

Lemma stream_length : forall l, length (stream l) = (8 * length l)%nat.
Proof. induction l as [|x l IH]; cbn [stream flat_map]; auto. rewrite app_length, lsbs_length. fold (stream l). cbn [length]. lia. Qed.

(** * The reader *)
Lemma lor_shift_range : forall buf b cnt, 0 <= buf < 2 ^ Z.of_nat cnt -> byte b -> (cnt <= 56)%nat ->
  Z.shiftl b (Z.of_nat cnt) mod 2 ^ 64 = Z.shiftl b (Z.of_nat cnt)
  /\ 0 <= Z.lor buf (Z.shiftl b (Z.of_nat cnt)) < 2 ^ Z.of_nat (cnt + 8)
  /\ lsbs (cnt + 8) (Z.lor buf (Z.shiftl b (Z.of_nat cnt))) = lsbs cnt buf ++ lsbs 8 b.
Proof.
  intros buf b cnt Hb Hbb Hc. unfold byte in Hbb.
  assert (P : 2 ^ Z.of_nat (cnt + 8) = 2 ^ Z.of_nat cnt * 256) by (rewrite Nat2Z.inj_add, Z.pow_add_r by lia; reflexivity).
  assert (P0 : 0 < 2 ^ Z.of_nat cnt) by (apply Z.pow_pos_nonneg; lia).
  assert (R : 0 <= Z.shiftl b (Z.of_nat cnt) < 2 ^ Z.of_nat (cnt + 8)) by (rewrite Z.shiftl_mul_pow2 by lia; nia).
  assert (P1 : 2 ^ Z.of_nat (cnt + 8) <= 2 ^ 64) by (apply Z.pow_le_mono_r; lia).
  split; [apply Z.mod_small; lia|]. split; [apply lor_range; lia|].
  rewrite lsbs_app. f_equal.
  - apply lsbs_ext. intros k Hk. rewrite Z.lor_spec, Z.shiftl_spec_low by lia. apply orb_false_r.
  - apply lsbs_ext. intros k Hk. rewrite Z.shiftr_spec, Z.lor_spec, Z.shiftl_spec by lia.
    rewrite (testbit_above (Z.of_nat cnt) buf) by lia. cbn [orb]. f_equal. lia.
Qed.

Lemma fill_loop_spec : forall rest buf cnt len,
  0 <= buf < 2 ^ Z.of_nat cnt -> (cnt <= 39)%nat -> (len <= 32)%nat -> bytes rest ->
  let (r, ok) := fill_loop rest buf cnt len in
  rok r /\ rbits r = lsbs cnt buf ++ stream rest
  /\ (if ok then (len <= r_cnt r)%nat else (r_cnt r < len)%nat /\ r_rest r = []).
Proof.
  induction rest as [|b rest IH]; intros buf cnt len Hb Hc Hl Hr; cbn [fill_loop].
  - destruct (Nat.ltb_spec cnt len); (split; [split; [|split]; cbn; auto|split; [reflexivity|cbn; auto]]).
  - destruct (Nat.ltb_spec cnt len).
    + inversion Hr; subst.
      destruct (lor_shift_range buf b cnt Hb ltac:(assumption) ltac:(lia)) as (E1 & E2 & E3). rewrite E1.
      pose proof (IH _ (cnt + 8)%nat len E2 ltac:(lia) Hl ltac:(assumption)) as R.
      destruct (fill_loop rest _ (cnt + 8) len) as [r ok]. destruct R as (R1 & R2 & R3).
      split; auto. split; auto. rewrite R2, E3. cbn [stream flat_map]. rewrite <- app_assoc. reflexivity.
    + split; [split; [|split]; cbn; auto|]. split; [reflexivity|]. cbn; auto.
Qed.

Lemma fill_buffer_spec : forall r len, rok r -> (len <= 32)%nat ->
  let (r', ok) := fill_buffer r len in
  rok r' /\ rbits r' = rbits r
  /\ (if ok then (len <= r_cnt r')%nat else (r_cnt r' < len)%nat /\ r_rest r' = []).
Proof. intros r len (H1 & H2 & H3) Hl. apply fill_loop_spec; auto. Qed.

Lemma skip_bits_spec : forall r n, rok r -> (n <= r_cnt r)%nat ->
  rok (skip_bits r n) /\ rbits (skip_bits r n) = skipn n (rbits r).
Proof.
  intros r n (H1 & H2 & H3) Hn. unfold skip_bits, rok, rbits. cbn. split; [split; [|split]|]; auto; try lia.
  - apply shiftr_range; try lia. replace (Z.of_nat (r_cnt r - n) + Z.of_nat n) with (Z.of_nat (r_cnt r)) by lia. exact H1.
  - replace (r_cnt r) with (n + (r_cnt r - n))%nat at 2 by lia. rewrite lsbs_app, <- app_assoc.
    rewrite skipn_app, skipn_all2, lsbs_length, Nat.sub_diag by (rewrite lsbs_length; lia). reflexivity.
Qed.

Lemma rbits_buf : forall r n, rok r -> (n <= r_cnt r)%nat -> firstn n (rbits r) = lsbs n (r_buf r).
Proof.
  intros r n (H1 & H2 & H3) Hn. unfold rbits.
  replace (r_cnt r) with (n + (r_cnt r - n))%nat by lia. rewrite lsbs_app, <- app_assoc.
  rewrite <- (lsbs_length n (r_buf r)) at 1. apply firstn_app_exact.
Qed.

Lemma get_bits_spec : forall r n, rok r -> (n <= 32)%nat -> (n <= length (rbits r))%nat ->
  exists r', get_bits r n = (r', lsbs_val (firstn n (rbits r))) /\ rok r' /\ rbits r' = skipn n (rbits r).
Proof.
  intros r n H Hn Hl. unfold get_bits, peek_bits.
  pose proof (fill_buffer_spec r n H Hn) as F. destruct (fill_buffer r n) as [r1 ok]. destruct F as (F1 & F2 & F3).
  cbn [fst].
  assert (C : (n <= r_cnt r1)%nat).
  { destruct ok; auto. destruct F3 as [F3 F4]. rewrite <- F2 in Hl. unfold rbits in Hl. rewrite F4 in Hl.
    cbn in Hl. rewrite app_nil_r, lsbs_length in Hl. lia. }
  destruct (skip_bits_spec r1 n F1 C) as [S1 S2]. exists (skip_bits r1 n).
  rewrite F2 in S2. split; [|auto]. f_equal.
  rewrite <- F2, (rbits_buf r1 n F1 C), lsbs_val_lsbs, Z.shiftl_1_l, <- Z.land_ones by lia.
  rewrite Z.ones_equiv. f_equal.
Qed.

Lemma fill_buffer_ok : forall r n, rok r -> (n <= 32)%nat ->
  snd (fill_buffer r n) = (n <=? length (rbits r))%nat.
Proof.
  intros r n H Hn. pose proof (fill_buffer_spec r n H Hn) as F.
  destruct (fill_buffer r n) as [r1 ok]. destruct F as (F1 & F2 & F3). cbn. rewrite <- F2.
  unfold rbits. rewrite app_length, lsbs_length.
  destruct ok; symmetry.
  - apply Nat.leb_le. lia.
  - destruct F3 as [F3 F4]. apply Nat.leb_gt. rewrite F4. cbn. lia.
Qed.

(** * The writer *)
Lemma put_loop_spec : forall fuel buf cnt pend sent, (cnt <= 8 * fuel + 7)%nat ->
  0 <= buf < 2 ^ Z.of_nat cnt -> bytes (sent ++ pend) ->
  match put_loop fuel buf cnt pend sent with
  | (buf', cnt', pend', sent') =>
      0 <= buf' < 2 ^ Z.of_nat cnt' /\ (cnt' < 8)%nat /\ bytes (sent' ++ pend')
      /\ stream (sent' ++ pend') ++ lsbs cnt' buf' = stream (sent ++ pend) ++ lsbs cnt buf
  end.
Proof.
  induction fuel as [|fuel IH]; intros buf cnt pend sent Hf Hb HB; cbn [put_loop].
  - split; auto. split; [lia|]. auto.
  - destruct (Nat.leb_spec 8 cnt) as [H|H]; [|split; auto].
    assert (HR : 0 <= Z.shiftr buf 8 < 2 ^ Z.of_nat (cnt - 8)).
    { apply shiftr_range; try lia. replace (Z.of_nat (cnt - 8) + 8) with (Z.of_nat cnt) by lia. exact Hb. }
    assert (HL : stream (sent ++ pend ++ [buf mod 256]) ++ lsbs (cnt - 8) (Z.shiftr buf 8) = stream (sent ++ pend) ++ lsbs cnt buf).
    { rewrite app_assoc, stream_app, <- app_assoc. f_equal.
      replace cnt with (8 + (cnt - 8))%nat at 2 by lia. rewrite lsbs_app.
      change (stream [buf mod 256]) with (lsbs 8 (buf mod 256) ++ []). rewrite app_nil_r. f_equal.
      apply lsbs_ext. intros k Hk. change 256 with (2 ^ 8). apply Z.mod_pow2_bits_low. lia. }
    assert (HBB : bytes (sent ++ pend ++ [buf mod 256])).
    { rewrite app_assoc. apply bytes_app. split; auto. constructor; [|constructor]. unfold byte. apply Z.mod_pos_bound. lia. }
    destruct (Nat.eqb_spec (length (pend ++ [buf mod 256])) 256).
    + pose proof (IH (Z.shiftr buf 8) (cnt - 8)%nat [] (sent ++ pend ++ [buf mod 256]) ltac:(lia) HR) as R.
      rewrite app_nil_r in R. specialize (R HBB). rewrite HL in R. exact R.
    + pose proof (IH (Z.shiftr buf 8) (cnt - 8)%nat (pend ++ [buf mod 256]) sent ltac:(lia) HR HBB) as R.
      rewrite HL in R. exact R.
Qed.

Lemma put_bits_spec : forall w v n, wok w -> (n <= 32)%nat -> 0 <= v < 2 ^ Z.of_nat n ->
  wok (put_bits w v n) /\ wbits (put_bits w v n) = wbits w ++ lsbs n v.
Proof.
  intros w v n (H0 & H1 & H2 & H3) Hn Hv. unfold put_bits. rewrite H0.
  set (c := w_cnt w) in *. 
  assert (P : 2 ^ Z.of_nat (c + n) = 2 ^ Z.of_nat c * 2 ^ Z.of_nat n) by (rewrite Nat2Z.inj_add, Z.pow_add_r by lia; reflexivity).
  assert (P0 : 0 < 2 ^ Z.of_nat c) by (apply Z.pow_pos_nonneg; lia).
  assert (R : 0 <= Z.shiftl v (Z.of_nat c) < 2 ^ Z.of_nat (c + n)) by (rewrite Z.shiftl_mul_pow2 by lia; nia).
  assert (P1 : 2 ^ Z.of_nat (c + n) <= 2 ^ 64) by (apply Z.pow_le_mono_r; lia).
  assert (P2 : 2 ^ Z.of_nat c <= 2 ^ Z.of_nat (c + n)) by (apply Z.pow_le_mono_r; lia).
  rewrite Z.mod_small by lia.
  assert (B : 0 <= Z.lor (w_buf w) (Z.shiftl v (Z.of_nat c)) < 2 ^ Z.of_nat (c + n)) by (apply lor_range; lia).
  pose proof (put_loop_spec (c + n) _ (c + n)%nat (w_pend w) (w_sent w) ltac:(lia) B H3) as L.
  destruct (put_loop (c + n) _ (c + n) (w_pend w) (w_sent w)) as [[[buf' cnt'] pend'] sent'].
  destruct L as (L1 & L2 & L3 & L4). unfold wok, wbits. cbn [w_counting w_buf w_cnt w_sent w_pend].
  split; [auto|]. rewrite L4, <- app_assoc. f_equal. fold c.
  rewrite lsbs_app. f_equal.
  - apply lsbs_ext. intros k Hk. rewrite Z.lor_spec, Z.shiftl_spec_low by lia. apply orb_false_r.
  - apply lsbs_ext. intros k Hk. rewrite Z.shiftr_spec, Z.lor_spec, Z.shiftl_spec by lia.
    rewrite (testbit_above (Z.of_nat c) (w_buf w)) by lia. cbn [orb]. f_equal. lia.
Qed.

Lemma flush_bits_spec : forall w, wok w ->
  wok (flush_bits w) /\ w_pend (flush_bits w) = [] /\ w_cnt (flush_bits w) = O
  /\ exists k, (k < 8)%nat /\ stream (w_sent (flush_bits w)) = wbits w ++ repeat false k.
Proof.
  intros w (H0 & H1 & H2 & H3). unfold flush_bits. rewrite H0.
  destruct (Nat.ltb_spec 0 (w_cnt w)); unfold wok, wbits; cbn [w_counting w_buf w_cnt w_sent w_pend].
  - assert (HB : byte (w_buf w mod 256)) by (unfold byte; apply Z.mod_pos_bound; lia).
    split; [|split; [|split]]; auto.
    + split; auto. split; [cbn; lia|]. split; [lia|]. rewrite app_nil_r. apply bytes_app. split; auto. constructor; auto.
    + exists (8 - w_cnt w)%nat. split; [lia|]. rewrite stream_app, <- app_assoc. f_equal.
      change (stream [w_buf w mod 256]) with (lsbs 8 (w_buf w mod 256) ++ []). rewrite app_nil_r.
      replace 8%nat with (w_cnt w + (8 - w_cnt w))%nat at 1 by lia. rewrite lsbs_app. f_equal.
      * apply lsbs_ext. intros k Hk. change 256 with (2 ^ 8). apply Z.mod_pow2_bits_low. lia.
      * apply (nth_ext _ _ false false); rewrite lsbs_length, ?repeat_length; auto.
        intros i Hi. rewrite lsbs_nth, nth_repeat by auto. rewrite Z.shiftr_spec by lia.
        change 256 with (2 ^ 8). rewrite Z.mod_pow2_bits_low by lia.
        apply (testbit_above (Z.of_nat (w_cnt w))); lia.
  - assert (w_cnt w = O) by lia. split; [|split; [|split]]; auto.
    + split; auto. split; auto. split; auto. rewrite app_nil_r. auto.
    + exists O. split; [lia|]. rewrite H4. cbn. rewrite !app_nil_r. reflexivity.
Qed.

Lemma writer_new_ok : wok writer_new /\ wbits writer_new = [].
Proof. split; [|reflexivity]. split; auto. cbn. split; [lia|]. split; [lia|constructor]. Qed.
