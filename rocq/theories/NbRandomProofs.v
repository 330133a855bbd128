(** Proofs about random integers and the sizes of registers. *)
From Coq Require Import ZArith Znumtheory List Bool Arith Lia.
From Verif Require Import Base WordsModel WordsSpec WordsProofs WordsLongDivProofs AsnProofs IntegerModel IntegerSpec IntegerProofs IntegerBitProofs IntegerDivProofs IntegerCodecProofs IntegerInvProofs
  ModModel ModSpec ModProofs AlgebraModel NbModel NbSpec NbProofs NbRootProofs.
Import ListNotations.
Local Open Scope Z_scope.

Section Nb.
Variable w : Z.
Hypothesis Hwb : word_bits w.
Local Instance Hbig : bigw w := word_bits_big w Hwb.
Notation is_int := (is_int w).
Notation valid := (valid w).
Notation V := (wval w).

(** ** Sizes *)
Lemma decode_len l z vz : bytes l -> is_int z vz -> be_val l <= Z.abs vz -> (length (reg (decode w false l)) <= length (reg z))%nat.
Proof.
  intros H Hz L. pose proof (decode_u w Hwb l H) as D. unfold decode in *. cbn [andb] in *. destruct (strip_spec 0 l H) as (s1 & s2 & s3 & s4 & _). set (t := strip 0 l) in *.
  destruct (fill_spec w Hwb t (repeat 0 (roundup (bytes_to_words w (length t)))) (W_repeat0 w _) s1) as (f1 & f2 & f3).
  { rewrite repeat_length. apply (btw_room w Hwb). } { rewrite V_repeat0. apply Z.mod_0_l. apply Z.pow_nonzero; lia. }
  cbn [reg]. rewrite f2, repeat_length. destruct Hz as [(Z1 & Z2 & Z3) Ez]. apply roundup_le; auto.
  destruct (Nat.eq_dec (length t) 0) as [T0|T0]. { rewrite T0. pose proof (pow2_ge2 _ Z2). destruct (ws_spec w Hwb) as [_ E]. unfold bytes_to_words. rewrite Nat.div_small by lia. lia. }
  assert (B : 256 ^ Z.of_nat (length t - 1) <= be_val l). { rewrite <- s4 by auto. destruct t as [|x r] eqn:Et; [cbn in T0; lia|]. replace (length (x :: r) - 1)%nat with (length r) by (cbn [length]; lia). apply be_val_lead; auto. apply s3. discriminate. }
  assert (AZ : Z.abs vz = V (reg z)) by (rewrite <- Ez; apply (ival_abs w); split; auto). pose proof (V_bound w _ Z1) as VB. rewrite (P_256 w Hwb) in VB.
  assert (LT : 256 ^ Z.of_nat (length t - 1) < 256 ^ Z.of_nat (Z.to_nat w / 8 * length (reg z))) by lia. apply Z.pow_lt_mono_r_iff in LT; [|lia|lia]. destruct (ws_spec w Hwb) as [_ E]. set (ws := (Z.to_nat w / 8)%nat) in *.
  unfold bytes_to_words. fold ws. apply Nat.lt_succ_r. apply Nat.div_lt_upper_bound; [lia|]. nia.
Qed.
Lemma plus_eq_len x b vx vb : is_int x vx -> is_int b vb -> 0 <= vx -> 0 <= vb -> (length (reg (plus_eq w x b)) <= 2 * Nat.max (length (reg x)) (length (reg b)))%nat.
Proof.
  intros Hx Hb X B. unfold plus_eq, plus_into. rewrite (is_int_neg w _ _ Hb). cbn [neg reg]. rewrite (is_int_neg w _ _ Hx). destruct (Z.ltb_spec vx 0); [lia|]. destruct (Z.ltb_spec vb 0); [lia|]. cbn [negb reg].
  assert (L : length (clean_grow (reg x) (length (reg b))) = Nat.max (length (reg x)) (length (reg b))) by (unfold clean_grow; rewrite app_length, repeat_length; lia).
  rewrite <- L. apply (positive_add_len w Hwb); [|apply Hb|rewrite L; lia]. unfold clean_grow. apply (W_app w). split; [apply Hx|apply (W_repeat0 w)].
Qed.
Lemma quotient_len a b va vb q : is_int a va -> is_int b vb -> 0 <= va -> 0 < vb -> va < vb * vb -> divided_by w a b = ROk q -> (length (reg q) <= 2 * length (reg b))%nat.
Proof.
  intros [Ha Ea] [Hb Eb] A B L E. pose proof (ival_abs w a Ha) as AA. pose proof (ival_abs w b Hb) as AB. rewrite Ea in AA. rewrite Eb in AB. pose proof Ha as (A1 & A2 & _). pose proof Hb as (B1 & B2 & _).
  assert (NA : neg a = false) by (rewrite (is_int_neg w a va (conj Ha Ea)); apply Z.ltb_ge; lia). assert (NB : neg b = false) by (rewrite (is_int_neg w b vb (conj Hb Eb)); apply Z.ltb_ge; lia).
  unfold divided_by, divide in E. rewrite NA, NB in E. unfold positive_divide, word_count in E. pose proof (pow2_ge2 _ B2).
  destruct (wc_spec w (reg a) A1) as (C1 & C2 & C3 & C4 & C5 & C6). destruct (wc_spec w (reg b) B1) as (D1 & D2 & D3 & D4 & D5 & D6). set (n0 := count_words (reg a) _) in *. set (m0 := count_words (reg b) _) in *. pose proof (V_bound w _ A1). pose proof (V_bound w _ B1).
  destruct (Nat.eqb_spec m0 0) as [M|M]; [discriminate|]. destruct (Nat.ltb_spec n0 m0) as [LL|LL]; [cbn in E; injection E as <-; cbn; lia|].
  destruct (even_up_spec n0 (length (reg a)) C1 (proj1 (pow2_even _ A2))) as (E1 & E2 & E3). destruct (even_up_spec m0 (length (reg b)) D1 (proj1 (pow2_even _ B2))) as (F1 & F2 & F3). set (n := even_up n0) in *. set (m := even_up m0) in *.
  assert (NM : (m <= n)%nat). { destruct (le_lt_dec m n); auto. pose proof (even_lt n m E3 F3 ltac:(lia)). lia. }
  pose proof (Nat.div_mod n 2 ltac:(lia)) as N2. pose proof (Nat.div_mod m 2 ltac:(lia)) as M2. rewrite E3, Nat.add_0_r in N2. rewrite F3, Nat.add_0_r in M2.
  destruct (count_words_spec w (length (reg b)) (reg b) ltac:(lia)) as (_ & _ & D7). fold m0 in D7. specialize (D7 M).
  destruct (w_divide_spec w 3 (m / 2) (n / 2) (firstn n (reg a)) (firstn m (reg b)) Hwb ltac:(lia) (W_firstn w _ _ A1) (W_firstn w _ _ B1)) as (R & Q & S1 & S2 & S3 & S4 & S5 & S6 & S7).
  { rewrite firstn_length; lia. } { rewrite firstn_length; lia. } { lia. }
  { rewrite !at_firstn by lia. rewrite <- M2. assert (T : m0 = m \/ (m0 - 1 = m - 2)%nat) by lia. destruct T as [T|T]; [left; rewrite <- T; auto|right; rewrite <- T; auto]. }
  rewrite S1 in E. cbn [rbind snd] in E. injection E as <-. cbn [reg]. rewrite <- N2, <- M2 in S5. rewrite firstn_store; rewrite repeat_length; [|rewrite S5; apply roundup_ge]. apply roundup_le; [apply pow2_double; auto|].
  assert (NN : (n0 <= 2 * m0)%nat). { apply (wc_le w); auto. replace (2 * m0)%nat with (m0 + m0)%nat by lia. rewrite P_add. pose proof (V_bound w _ B1). nia. }
  assert (m0 <= m)%nat by lia. pose proof (even_lt n0 m0). lia.
Qed.

(** ** Randomize *)
Lemma draw_bits nbits b : bytes b -> length b = S (nbits / 8) -> is_int (randomize_bits w nbits b) (draw nbits b).
Proof.
  intros H L. unfold randomize_bits, draw. destruct b as [|x t]; [discriminate|]. cbn [length] in L. apply Nat.succ_inj in L. inversion H as [|? ? Hx Ht]; subst.
  assert (E : be_val (x :: t) mod 2 ^ Z.of_nat nbits = be_val (x mod 2 ^ Z.of_nat (nbits mod 8) :: t)).
  { rewrite !be_val_cons. pose proof (be_val_bounds t Ht) as B. rewrite L in *. pose proof (Nat.div_mod nbits 8 ltac:(lia)) as D.
    assert (EP : 2 ^ Z.of_nat nbits = 256 ^ Z.of_nat (nbits / 8) * 2 ^ Z.of_nat (nbits mod 8)). { rewrite D at 1. rewrite Nat2Z.inj_add, Z.pow_add_r, Nat2Z.inj_mul, Z.pow_mul_r by lia. reflexivity. }
    set (M := 256 ^ Z.of_nat (nbits / 8)) in *. set (k := 2 ^ Z.of_nat (nbits mod 8)) in *. assert (0 < M) by (apply Z.pow_pos_nonneg; lia). assert (0 < k) by (apply Z.pow_pos_nonneg; lia). rewrite EP, Z.rem_mul_r by lia.
    rewrite (Z.add_comm (x * M)), Z.mod_add, Z.div_add, Z.div_small, Z.mod_small by lia. rewrite Z.add_0_l. ring. }
  rewrite E. apply (decode_u w Hwb). constructor; auto. unfold byte in *. pose proof (Nat.mod_upper_bound nbits 8 ltac:(lia)).
  assert (0 < 2 ^ Z.of_nat (nbits mod 8) <= 2 ^ 8) by (split; [apply Z.pow_pos_nonneg; lia|apply Z.pow_le_mono_r; lia]). pose proof (Z.mod_pos_bound x (2 ^ Z.of_nat (nbits mod 8)) ltac:(lia)). change (2 ^ 8) with 256 in *. lia.
Qed.
Lemma bits_len nbits b z vz : bytes b -> length b = S (nbits / 8) -> is_int z vz -> draw nbits b <= Z.abs vz -> (length (reg (randomize_bits w nbits b)) <= length (reg z))%nat.
Proof.
  intros H L Hz D. pose proof (draw_bits nbits b H L) as I. unfold randomize_bits in *. set (l := match b with [] => [] | _ => _ end) in *.
  assert (Hl : bytes l). { unfold l. destruct H as [|x t Hx Ht]; [constructor|]. constructor; auto. unfold byte in *. pose proof (Nat.mod_upper_bound nbits 8 ltac:(lia)).
    assert (0 < 2 ^ Z.of_nat (nbits mod 8) <= 2 ^ 8) by (split; [apply Z.pow_pos_nonneg; lia|apply Z.pow_le_mono_r; lia]). pose proof (Z.mod_pos_bound x (2 ^ Z.of_nat (nbits mod 8)) ltac:(lia)). change (2 ^ 8) with 256 in *. lia. }
  apply (decode_len l z vz Hl Hz). pose proof (decode_u w Hwb l Hl) as I2. destruct I as [_ I]. destruct I2 as [_ I2]. rewrite <- I2, I. auto.
Qed.
Lemma bit_count_length x v : is_int x v -> 0 <= v -> bit_count w x = bit_length v.
Proof. intros H P. pose proof (bit_count_int w x v Hwb H) as B. rewrite Z.abs_eq in B by auto. unfold bit_length. destruct (v =? 0); lia. Qed.
Lemma randomize_loop_exact range vr nbits : is_int range vr -> forall blocks, blocks_of (S (nbits / 8)) blocks ->
  (Forall (fun b => vr < draw nbits b) blocks /\ randomize_loop w range nbits blocks = RStuck) \/
  exists pre b post, blocks = pre ++ b :: post /\ Forall (fun b => vr < draw nbits b) pre /\ draw nbits b <= vr /\ randomize_loop w range nbits blocks = ROk (randomize_bits w nbits b, post).
Proof.
  intros Hr. induction blocks as [|b rest IH]; intros F; [left; split; auto|]. inversion F as [|? ? [F1 F2] F3]; subst. cbn [randomize_loop]. pose proof (draw_bits nbits b F2 F1) as Hb. rewrite (cmp_gt w Hwb _ _ _ _ Hb Hr).
  destruct (Z.ltb_spec vr (draw nbits b)).
  - destruct (IH F3) as [[G E]|(pre & c & post & -> & G & L & E)]; [left; split; auto|right]. exists (b :: pre), c, post. split; auto.
  - right. exists [], b, rest. auto.
Qed.
Theorem randomize_exact lo hi vl vh blocks : is_int lo vl -> is_int hi vh -> vl <= vh -> blocks_of (S (bit_length (vh - vl) / 8)) blocks ->
  let bits := bit_length (vh - vl) in
  (Forall (fun b => vh - vl < draw bits b) blocks /\ randomize w lo hi blocks = RStuck) \/
  exists pre b post r, blocks = pre ++ b :: post /\ Forall (fun b => vh - vl < draw bits b) pre /\ draw bits b <= vh - vl /\ randomize w lo hi blocks = ROk (r, post) /\ is_int r (vl + draw bits b) /\
    (0 <= vl -> forall z vz, is_int z vz -> vh - vl <= vz -> (length (reg r) <= 2 * Nat.max (length (reg z)) (length (reg lo)))%nat).
Proof.
  intros Hl Hh L F bits. unfold randomize. rewrite (cmp_gt w Hwb _ _ _ _ Hl Hh). destruct (Z.ltb_spec vh vl); [lia|]. pose proof (minus_int w _ _ _ _ Hh Hl) as Hr. rewrite (bit_count_length _ _ Hr ltac:(lia)). fold bits in F |- *.
  destruct (randomize_loop_exact _ _ bits Hr blocks F) as [[G E]|(pre & b & post & Eb & G & D & E)]; rewrite E; [left; auto|right]. cbn [rbind fst snd]. exists pre, b, post, (plus_eq w (randomize_bits w bits b) lo). split; auto. split; auto. split; auto. split; auto.
  unfold blocks_of in F. rewrite Eb, Forall_app in F. destruct F as [_ F]. inversion F as [|? ? [F1 F2] F3]; subst. pose proof (draw_bits bits b F2 F1) as Hb. split; [rewrite Z.add_comm; apply (plus_eq_int w); auto|].
  intros L0 z vz Hz Lz. assert (D0 : 0 <= draw bits b) by (apply Z.mod_pos_bound; apply Z.pow_pos_nonneg; lia). pose proof (plus_eq_len _ _ _ _ Hb Hl D0 L0) as P. pose proof (bits_len bits b z vz F2 F1 Hz ltac:(lia)). lia.
Qed.
(** Every number of [bits] bits comes from the same number of blocks. *)
Theorem draw_uniform bits v : 0 <= v < 2 ^ Z.of_nat bits -> forall b, (bytes b /\ length b = S (bits / 8)) ->
  (draw bits b = v <-> exists k, 0 <= k < 2 ^ (8 * Z.of_nat (S (bits / 8)) - Z.of_nat bits) /\ b = be_bytes (S (bits / 8)) (k * 2 ^ Z.of_nat bits + v)).
Proof.
  intros R b [Hb Lb]. set (n := S (bits / 8)) in *. set (M := 2 ^ Z.of_nat bits) in *. assert (0 < M) by (apply Z.pow_pos_nonneg; lia).
  assert (LE : Z.of_nat bits <= 8 * Z.of_nat n). { pose proof (Nat.div_mod bits 8 ltac:(lia)). pose proof (Nat.mod_upper_bound bits 8 ltac:(lia)). unfold n. lia. }
  assert (EP : 256 ^ Z.of_nat n = 2 ^ (8 * Z.of_nat n - Z.of_nat bits) * M). { unfold M. rewrite <- Z.pow_add_r by lia. change 256 with (2 ^ 8). rewrite <- Z.pow_mul_r by lia. f_equal. ring. }
  set (K := 2 ^ (8 * Z.of_nat n - Z.of_nat bits)) in *. pose proof (be_val_bounds b Hb) as B. rewrite Lb in B. split.
  - intros <-. exists (be_val b / M). split; [split; [apply Z.div_pos; lia|apply Z.div_lt_upper_bound; lia]|]. unfold draw. fold M. rewrite (Z.mul_comm _ M), <- Z.div_mod by lia. rewrite <- Lb. symmetry. apply be_bytes_val. auto.
  - intros (k & Rk & ->). unfold draw. rewrite be_val_be_bytes by nia. fold M. rewrite Z.add_comm, Z.mod_add by lia. apply Z.mod_small. auto.
Qed.
End Nb.
