(** Proofs about Integer::Decode, Encode and MinEncodedSize. *)
From Coq Require Import ZArith List Lia Bool Arith.
From Verif Require Import Base AsnModel AsnProofs WordsModel WordsSpec WordsProofs IntegerModel IntegerSpec IntegerProofs IntegerBitProofs.
Import ListNotations.
Local Open Scope Z_scope.

Lemma be_val_cons b l : be_val (b :: l) = b * 256 ^ Z.of_nat (length l) + be_val l.
Proof. change (b :: l) with ([b] ++ l). rewrite be_val_app. f_equal. Qed.
Lemma p256 n : 0 < 256 ^ Z.of_nat n. Proof. apply Z.pow_pos_nonneg; lia. Qed.
Lemma p256_S n : 256 ^ Z.of_nat (S n) = 256 ^ Z.of_nat n * 256.
Proof. rewrite Nat2Z.inj_succ, Z.pow_succ_r by lia. ring. Qed.
Lemma p256_2 n : 256 ^ Z.of_nat n = 2 ^ (8 * Z.of_nat n).
Proof. change 256 with (2 ^ 8). rewrite <- Z.pow_mul_r by lia. reflexivity. Qed.
Lemma be_bytes_S n v : be_bytes (S n) v = (v / 256 ^ Z.of_nat n) mod 256 :: be_bytes n v.
Proof.
  unfold be_bytes. replace (S n) with (n + 1)%nat by lia. rewrite le_bytes_app, rev_app_distr. reflexivity.
Qed.
Lemma be_bytes_mod n v v' : v mod 256 ^ Z.of_nat n = v' mod 256 ^ Z.of_nat n -> be_bytes n v = be_bytes n v'.
Proof. intros E. apply be_val_inj; try apply be_bytes_bytes; [rewrite !be_bytes_length; auto|]. rewrite !be_val_bytes_mod. auto. Qed.

Section Int.
Variable w : Z.
Hypothesis Hwb : word_bits w.
Notation B := (base w).
Notation V := (wval w).
Notation W := (words w).
Notation P := (WordsProofs.P w).
Notation valid := (IntegerSpec.valid w).
Notation ival := (IntegerSpec.ival w).
Notation is_int := (IntegerSpec.is_int w).
Notation wn := (Z.to_nat w).
Notation ws := (wn / 8)%nat.
Local Instance Hbig : bigw w := word_bits_big w Hwb.

Lemma ws_spec : w = 8 * Z.of_nat ws /\ (1 <= ws)%nat.
Proof. destruct Hwb as [-> | ->]; split; try reflexivity; apply Nat.leb_le; reflexivity. Qed.
Lemma P_256 n : P n = 256 ^ Z.of_nat (ws * n).
Proof. destruct ws_spec as [E _]. rewrite (P_pow2 w), p256_2. f_equal. rewrite Nat2Z.inj_mul. rewrite E at 1. ring. Qed.
Lemma put_byte_spec k b r : W r -> (k < ws * length r)%nat -> 0 <= b < 256 -> (V r / 256 ^ Z.of_nat k) mod 256 = 0 ->
  W (put_byte w k b r) /\ length (put_byte w k b r) = length r /\ V (put_byte w k b r) = V r + b * 256 ^ Z.of_nat k.
Proof.
  intros Wr Hk Hb Z0. unfold put_byte. destruct ws_spec as [E1 E2]. pose proof (Nat.div_mod k ws ltac:(lia)) as DM. pose proof (Nat.mod_upper_bound k ws ltac:(lia)) as MB. assert (Hi : (k / ws < length r)%nat) by (apply Nat.div_lt_upper_bound; lia).
  set (i := (k / ws)%nat) in *. set (j := (k mod ws)%nat) in *. clearbody i j. pose proof (W_at w r i Wr) as A. rewrite Z.shiftl_mul_pow2 by lia. set (s := Z.of_nat j * 8). assert (Hs : 0 <= s /\ s + 8 <= w) by (unfold s; lia). pose proof (p2 s ltac:(lia)) as PS.
  assert (SB : 0 <= b * 2 ^ s < B). { split; [lia|]. apply Z.lt_le_trans with (2 ^ 8 * 2 ^ s); [apply Z.mul_lt_mono_pos_r; lia|]. unfold base. rewrite <- Z.pow_add_r by lia. apply Z.pow_le_mono_r; lia. }
  rewrite wd_small by auto.
  assert (PK : 256 ^ Z.of_nat k = P i * 2 ^ s). { rewrite P_256, !p256_2. rewrite <- Z.pow_add_r by lia. f_equal. unfold s. lia. }
  assert (LA : Z.land (at_ r i) (b * 2 ^ s) = 0).
  { apply Z.bits_inj'. intros t Ht. rewrite Z.land_spec, Z.bits_0. destruct (Z.ltb_spec t s) as [T1|T1]. { rewrite Z.mul_pow2_bits_low by lia. apply andb_false_r. }
    rewrite Z.mul_pow2_bits by lia. destruct (Z.ltb_spec t (s + 8)) as [T2|T2].
    - assert (Q : Z.testbit (V r) (8 * Z.of_nat k + (t - s)) = false). { assert (X : Z.testbit ((V r / 256 ^ Z.of_nat k) mod 256) (t - s) = false) by (rewrite Z0; apply Z.bits_0). change 256 with (2 ^ 8) in X at 2. rewrite Z.mod_pow2_bits_low in X by lia. rewrite p256_2, Z.div_pow2_bits in X by lia. rewrite <- X. f_equal. lia. }
      rewrite (at_testbit w) by (auto; lia). replace (w * Z.of_nat i + t) with (8 * Z.of_nat k + (t - s)); [rewrite Q; reflexivity|]. unfold s in *. clear - DM E1. rewrite E1. nia.
    - rewrite (testbit_above 8 b (t - s)) by lia. apply andb_false_r. }
  assert (LO : Z.lor (at_ r i) (b * 2 ^ s) = at_ r i + b * 2 ^ s) by (rewrite Z.add_nocarry_lxor, Z.lxor_lor by auto; reflexivity).
  assert (LR : 0 <= Z.lor (at_ r i) (b * 2 ^ s) < B) by (apply (lor_w w); auto).
  split; [apply W_upd; auto|]. split; [apply upd_len|]. rewrite V_upd, LO, PK by auto. ring.
Qed.
Lemma fill_spec : forall l r, W r -> bytes l -> (length l <= ws * length r)%nat -> V r mod 256 ^ Z.of_nat (length l) = 0 ->
  W (fill w l r) /\ length (fill w l r) = length r /\ V (fill w l r) = V r + be_val l.
Proof.
  induction l as [|b l IH]; intros r Wr Hl HL Z0; cbn [fill]. { split; auto. split; auto. change (be_val []) with 0. lia. }
  cbn [length] in *. inversion Hl as [|? ? Hb Hl']; subst. unfold byte in Hb. pose proof (p256 (length l)) as PP. rewrite p256_S in Z0.
  assert (Q1 : V r mod 256 ^ Z.of_nat (length l) = 0 /\ (V r / 256 ^ Z.of_nat (length l)) mod 256 = 0).
  { rewrite Z.rem_mul_r in Z0 by lia. pose proof (Z.mod_pos_bound (V r) _ PP). pose proof (Z.mod_pos_bound (V r / 256 ^ Z.of_nat (length l)) 256 ltac:(lia)). nia. }
  destruct Q1 as [Q1 Q2]. destruct (put_byte_spec (length l) b r Wr ltac:(lia) Hb Q2) as (p1 & p2 & p3). destruct (IH (put_byte w (length l) b r) p1 Hl') as (f1 & f2 & f3); [rewrite p2; lia|rewrite p3, Z_mod_plus_full; auto|].
  split; auto. split; [lia|]. rewrite f3, p3, be_val_cons. ring.
Qed.
Lemma fill_ff_spec : forall n k r, W r -> (k + n <= ws * length r)%nat -> V r < 256 ^ Z.of_nat k ->
  W (fill_ff w k n r) /\ length (fill_ff w k n r) = length r /\ V (fill_ff w k n r) = V r + (256 ^ Z.of_nat (k + n) - 256 ^ Z.of_nat k).
Proof.
  induction n; intros k r Wr HL Vr; cbn [fill_ff]. { split; auto. split; auto. rewrite Nat.add_0_r. lia. }
  pose proof (V_bound w _ Wr) as BR. destruct (put_byte_spec k 255 r Wr ltac:(lia) ltac:(lia)) as (p1 & p2 & p3). { rewrite Z.div_small by lia. reflexivity. }
  destruct (IHn (S k) (put_byte w k 255 r) p1) as (f1 & f2 & f3); [rewrite p2; lia|rewrite p3, p256_S; lia|]. split; auto. split; [lia|]. rewrite f3, p3. replace (S k + n)%nat with (k + S n)%nat by lia. rewrite p256_S. ring.
Qed.
Lemma strip_spec b : forall l, bytes l -> bytes (strip b l) /\ (length (strip b l) <= length l)%nat /\ (strip b l <> [] -> hd 0 (strip b l) <> b) /\ (b = 0 -> be_val (strip b l) = be_val l) /\
  (b = 255 -> be_val (strip b l) - 256 ^ Z.of_nat (length (strip b l)) = be_val l - 256 ^ Z.of_nat (length l)).
Proof.
  induction l as [|x l IH]; intros H; cbn [strip]. { repeat split; auto. }
  inversion H; subst. destruct (Z.eqb_spec x b) as [->|N].
  - destruct (IH ltac:(auto)) as (a1 & a2 & a3 & a4 & a5). split; auto. split; [cbn [length]; lia|]. split; auto. rewrite be_val_cons. cbn [length]. rewrite p256_S. split; intros E; [rewrite a4 by auto; subst; lia|]. rewrite a5 by auto. subst b. lia.
  - split; auto.
Qed.
Lemma btw_room n : (n <= ws * roundup (bytes_to_words w n))%nat.
Proof.
  destruct ws_spec as [_ E]. pose proof (roundup_ge (bytes_to_words w n)) as R. assert (n <= ws * bytes_to_words w n)%nat; [|nia]. unfold bytes_to_words. pose proof (Nat.div_mod (n + ws - 1) ws ltac:(lia)). pose proof (Nat.mod_upper_bound (n + ws - 1) ws ltac:(lia)). lia.
Qed.
Lemma decode_u l : bytes l -> is_int (decode w false l) (be_val l).
Proof.
  intros H. unfold decode. cbn [andb]. destruct (strip_spec 0 l H) as (s1 & s2 & s3 & s4 & _). set (t := strip 0 l) in *. set (L := roundup (bytes_to_words w (length t))).
  destruct (fill_spec t (repeat 0 L) (W_repeat0 w L) s1) as (f1 & f2 & f3). { rewrite repeat_length. apply btw_room. } { rewrite V_repeat0. apply Z.mod_0_l. pose proof (p256 (length t)). lia. }
  rewrite repeat_length in f2. apply pos_int; auto; [rewrite f2; apply roundup_pow|]. rewrite f3, V_repeat0, s4 by auto. lia.
Qed.
Lemma hd_sign l : bytes l -> l <> [] -> negb (Z.land (hd 0 l) 128 =? 0) = (2 * be_val l >=? 256 ^ Z.of_nat (length l)).
Proof.
  intros H N. destruct l as [|b l]; [congruence|]. inversion H as [|? ? Hb Hl]; subst. unfold byte in Hb. cbn [hd length]. rewrite be_val_cons, p256_S. pose proof (be_val_bounds l Hl) as BB. pose proof (p256 (length l)). rewrite Z.geb_leb.
  assert (E : negb (Z.land b 128 =? 0) = (128 <=? b)). { change 128 with (2 ^ 7) at 1. assert (G : Z.land b (2 ^ 7) = if Z.testbit b 7 then 2 ^ 7 else 0). { apply Z.bits_inj'. intros k Hk. rewrite Z.land_spec, Z.pow2_bits_eqb by lia. destruct (Z.eqb_spec 7 k) as [<-|]; [destruct (Z.testbit b 7) eqn:T; cbn; auto|]. rewrite andb_false_r. destruct (Z.testbit b 7); [rewrite Z.pow2_bits_false by lia|rewrite Z.bits_0]; auto. }
    rewrite G. rewrite Z.testbit_eqb by lia. change (2 ^ 7) with 128. destruct (Z.leb_spec 128 b). - replace (b / 128) with 1; [reflexivity|]. apply Z.div_unique_pos with (b - 128); lia. - rewrite Z.div_small by lia. reflexivity. }
  rewrite E. destruct (Z.leb_spec 128 b), (Z.leb_spec (256 ^ Z.of_nat (length l) * 256) (2 * (b * 256 ^ Z.of_nat (length l) + be_val l))); auto; nia.
Qed.
Lemma decode_s l : bytes l -> l <> [] -> let v := if 2 * be_val l >=? 256 ^ Z.of_nat (length l) then be_val l - 256 ^ Z.of_nat (length l) else be_val l in ~ full_register w v -> is_int (decode w true l) v.
Proof.
  intros H N v NF. unfold decode. cbn [andb]. rewrite hd_sign by auto. unfold v in *. clear v. destruct (2 * be_val l >=? 256 ^ Z.of_nat (length l)) eqn:SG; [|apply decode_u; auto].
  destruct (strip_spec 255 l H) as (s1 & s2 & s3 & _ & s5). specialize (s5 eq_refl). rewrite <- s5 in NF |- *. clear s5 SG. set (t := strip 255 l) in *. set (L := roundup (bytes_to_words w (length t))). pose proof (btw_room (length t)) as RM. fold L in RM.
  destruct (fill_spec t (repeat 0 L) (W_repeat0 w L) s1) as (f1 & f2 & f3). { rewrite repeat_length. auto. } { rewrite V_repeat0. apply Z.mod_0_l. pose proof (p256 (length t)). lia. }
  rewrite repeat_length in f2. rewrite V_repeat0, Z.add_0_l in f3. set (r := fill w t (repeat 0 L)) in *. clearbody r. pose proof (be_val_bounds t s1) as BT.
  assert (HL : pow2_size L) by apply roundup_pow. assert (L2 : (2 <= L)%nat) by (apply pow2_ge2; auto).
  destruct (fill_ff_spec (length r * ws - length t) (length t) r f1 ltac:(lia) ltac:(lia)) as (g1 & g2 & g3). replace (length t + (length r * ws - length t))%nat with (ws * L)%nat in g3 by lia. rewrite <- P_256 in g3. set (r' := fill_ff _ _ _ _) in *. clearbody r'.
  destruct (w_twos_spec w r' g1 ltac:(apply nonnil; lia)) as (h1 & h2 & h3). set (r2 := w_twos w r') in *. clearbody r2. replace (length r') with L in * by lia. rewrite g3, f3 in h3.
  pose proof (P_pos w L) as PL. assert (LE : 256 ^ Z.of_nat (length t) <= P L) by (rewrite P_256; apply Z.pow_le_mono_r; lia).
  assert (NE : 256 ^ Z.of_nat (length t) - be_val t <> P L). { intros Q. apply NF. exists L. split; auto. change ((2 ^ w) ^ Z.of_nat L) with (P L). lia. }
  replace (- (be_val t + (P L - 256 ^ Z.of_nat (length t)))) with (256 ^ Z.of_nat (length t) - be_val t + (-1) * P L) in h3 by ring. rewrite Z_mod_plus_full, Z.mod_small in h3 by lia.
  apply mk_int; auto; [rewrite h2; auto|rewrite h3; ring|intros; lia].
Qed.

(** ** Encode *)
Lemma encode_u_spec x v n : is_int x v -> encode_u w n x = be_bytes n (Z.abs v).
Proof. intros H. induction n; cbn [encode_u]; [reflexivity|]. rewrite be_bytes_S, IHn. f_equal. apply (get_byte_int w); auto. Qed.
Lemma encode_unsigned x v n : is_int x v -> encode w false n x = be_bytes n (Z.abs v).
Proof. intros H. unfold encode. cbn [negb orb]. apply encode_u_spec. auto. Qed.
Lemma encode_signed x v n : is_int x v -> encode w true n x = be_bytes n v.
Proof.
  intros H. unfold encode. assert (HN : neg x = (v <? 0)) by (destruct H as [H <-]; apply (ival_neg w); auto). rewrite HN. destruct (Z.ltb_spec v 0) as [L|L]; cbn [negb orb].
  - set (m := Nat.max (byte_count w x) n). pose proof (plus_int w _ _ _ _ (power2_int w (8 * m)) H) as HP. rewrite (encode_u_spec _ _ n HP). rewrite Nat2Z.inj_mul. change (Z.of_nat 8) with 8. rewrite <- p256_2. destruct (byte_count_int w x v Hwb H) as [_ BC]. destruct (BC ltac:(lia)) as [B1 B2]. 
    assert (256 ^ Z.of_nat (byte_count w x) <= 256 ^ Z.of_nat m) by (apply Z.pow_le_mono_r; lia). rewrite Z.abs_eq by lia. apply be_bytes_mod.
    replace (256 ^ Z.of_nat m + v) with (v + 256 ^ (Z.of_nat m - Z.of_nat n) * 256 ^ Z.of_nat n); [apply Z_mod_plus_full|]. rewrite <- Z.pow_add_r by lia. replace (Z.of_nat m - Z.of_nat n + Z.of_nat n) with (Z.of_nat m) by lia. ring.
  - rewrite (encode_u_spec _ _ n H), Z.abs_eq by lia. reflexivity.
Qed.

(** ** MinEncodedSize *)
Lemma fits_mono (signed : bool) n m v : (n <= m)%nat -> fits signed n v -> fits signed m v.
Proof. intros H. assert (256 ^ Z.of_nat n <= 256 ^ Z.of_nat m) by (apply Z.pow_le_mono_r; lia). unfold fits. destruct signed; lia. Qed.
Lemma min_size_spec (signed : bool) x v : is_int x v -> (signed = false -> 0 <= v) ->
  let n := min_encoded_size w signed x in (1 <= n)%nat /\ fits signed n v /\ forall m, (1 <= m)%nat -> fits signed m v -> (n <= m)%nat.
Proof.
  intros H HS. unfold min_encoded_size. assert (HN : neg x = (v <? 0)) by (destruct H as [Hv <-]; apply (ival_neg w); auto). destruct (byte_count_int w x v Hwb H) as [BC0 BC1]. set (bc := byte_count w x) in *. clearbody bc.
  assert (LEAST : forall n, (forall k, (1 <= k)%nat -> fits signed k v -> (n <= k)%nat) <-> (forall k, (1 <= k)%nat -> (S k <= n)%nat -> ~ fits signed k v)).
  { intros n. split; [intros A k K1 K2 K3; specialize (A k K1 K3); lia|]. intros A k K1 K3. destruct (le_lt_dec n k); auto. destruct (A k K1 l K3). }
  set (n := Nat.max 1 bc). pose proof (p256 n) as Pn.
  assert (NB : Z.abs v < 256 ^ Z.of_nat n /\ forall k, (1 <= k)%nat -> (S k <= n)%nat -> 256 ^ Z.of_nat k <= Z.abs v).
  { destruct (Z.eq_dec v 0) as [->|V0]; [specialize (BC0 eq_refl); split; [rewrite Z.abs_0; auto|intros; lia]|]. destruct (BC1 V0) as [b1 b2]. replace n with bc by lia. split; [lia|]. intros k K1 K2. apply Z.le_trans with (256 ^ (Z.of_nat bc - 1)); [apply Z.pow_le_mono_r; lia|lia]. }
  destruct NB as [N1 N2]. destruct signed; cbn [negb andb].
  2: { specialize (HS eq_refl). rewrite Z.abs_eq in * by lia. split; [lia|]. split; [unfold fits; lia|]. apply LEAST. intros k K1 K2 K3. specialize (N2 k K1 K2). unfold fits in K3. lia. }
  rewrite HN. destruct (Z.ltb_spec v 0) as [L|L]; cbn [negb andb].
  - pose proof (opp_int w _ _ (power2_int w (n * 8 - 1))) as HO. rewrite (compare_int w _ _ _ _ H HO).
    assert (PE : 256 ^ Z.of_nat n = 2 * 2 ^ Z.of_nat (n * 8 - 1)) by (rewrite p256_2, <- Z.pow_succ_r by lia; f_equal; lia).
    assert (LB : forall k, (1 <= k)%nat -> (S k <= n)%nat -> ~ fits true k v) by (intros k K1 K2 K3; specialize (N2 k K1 K2); unfold fits in K3; pose proof (p256 k); lia).
    destruct (Z.compare_spec v (- 2 ^ Z.of_nat (n * 8 - 1))) as [C|C|C]; cbn [Z.ltb Z.compare].
    + split; [lia|]. split; [unfold fits; lia|]. apply LEAST. auto.
    + split; [lia|]. split; [unfold fits; rewrite p256_S; lia|]. apply LEAST. intros k K1 K2. destruct (Nat.eq_dec k n) as [->|]; [unfold fits; lia|]. apply LB; auto; lia.
    + split; [lia|]. split; [unfold fits; lia|]. apply LEAST. auto.
  - rewrite (get_byte_int w _ _ _ Hwb H). rewrite Z.abs_eq in * by lia.
    assert (TB : negb (Z.land ((v / 256 ^ Z.of_nat (n - 1)) mod 256) 128 =? 0) = (2 * v >=? 256 ^ Z.of_nat n)).
    { pose proof (hd_sign (be_bytes n v) (be_bytes_bytes n v)) as HH. rewrite be_val_be_bytes, be_bytes_length in HH by lia. rewrite <- HH. 2: { intros Q. apply (f_equal (@length Z)) in Q. rewrite be_bytes_length in Q. cbn [length] in Q. unfold n in Q. lia. } assert (NS : n = S (n - 1)) by lia. rewrite NS at 2. rewrite be_bytes_S. reflexivity. }
    rewrite TB. rewrite Z.geb_leb. destruct (Z.leb_spec (256 ^ Z.of_nat n) (2 * v)) as [C|C].
    + split; [lia|]. split; [unfold fits; rewrite p256_S; lia|]. apply LEAST. intros k K1 K2 K3. destruct (Nat.eq_dec k n) as [->|]; [unfold fits in K3; lia|]. specialize (N2 k K1 ltac:(lia)). unfold fits in K3. lia.
    + split; [lia|]. split; [unfold fits; lia|]. apply LEAST. intros k K1 K2 K3. specialize (N2 k K1 K2). unfold fits in K3. pose proof (p256 k). lia.
Qed.
End Int.
