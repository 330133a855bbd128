(** Proofs about the checksum models. *)
From Coq Require Import ZArith List Bool Arith Lia.
From Verif Require Import Base HashModel ChecksumModel ChecksumSpec.
Import ListNotations.
Local Open Scope Z_scope.

(** ** Adler-32 *)
Lemma sum_bytes_app : forall a b, sum_bytes (a ++ b) = sum_bytes a + sum_bytes b.
Proof. induction a; intros; cbn [app sum_bytes]; [lia|rewrite IHa; lia]. Qed.
Lemma adler_s1_snoc : forall m b, adler_s1 (m ++ [b]) = adler_s1 m + b.
Proof. intros. unfold adler_s1. rewrite sum_bytes_app. cbn [sum_bytes]. lia. Qed.
Lemma sum_s1_app : forall n m d, (n <= length m)%nat -> sum_s1 n (m ++ d) = sum_s1 n m.
Proof.
  induction n as [|n IH]; intros m d H; cbn [sum_s1]; [reflexivity|]. rewrite IH by lia. do 2 f_equal.
  apply firstn_app_le. lia.
Qed.
Lemma adler_s2_snoc : forall m b, adler_s2 (m ++ [b]) = adler_s2 m + adler_s1 (m ++ [b]).
Proof.
  intros. unfold adler_s2. rewrite app_length. cbn [length]. rewrite Nat.add_1_r. cbn [sum_s1]. rewrite sum_s1_app by lia.
  do 2 f_equal. apply firstn_all2. rewrite app_length. cbn [length]. lia.
Qed.

Notation BASE := 65521.
(** [s] holds the sums of [m] modulo the base. *)
Definition adc (s : Z * Z) (m : list Z) : Prop := fst s mod BASE = adler_s1 m mod BASE /\ snd s mod BASE = adler_s2 m mod BASE.

Lemma mod_congr_add : forall a b c d n, n <> 0 -> a mod n = b mod n -> c mod n = d mod n -> (a + c) mod n = (b + d) mod n.
Proof. intros. rewrite Z.add_mod, H0, H1, <- Z.add_mod by auto. reflexivity. Qed.

Lemma ad_fold : forall u d s m, 2 ^ 32 <= u -> bytes d -> adc s m -> 0 <= fst s -> 0 <= snd s ->
  fst s + 255 * Z.of_nat (length d) < 2 ^ 32 ->
  snd s + Z.of_nat (length d) * (fst s + 255 * Z.of_nat (length d)) < 2 ^ 32 ->
  let s' := fold_left (ad_add u) d s in
  adc s' (m ++ d) /\ fst s <= fst s' <= fst s + 255 * Z.of_nat (length d) /\
  0 <= snd s' <= snd s + Z.of_nat (length d) * (fst s + 255 * Z.of_nat (length d)).
Proof.
  intros u d s m Hu. revert s m. induction d as [|b d IH]; intros s m Hd Hc H0 H1 H2 H3.
  - cbn [fold_left length]. cbv zeta. rewrite app_nil_r. split; auto. split; lia.
  - inversion Hd as [|? ? Hb Hd']; subst. unfold byte in Hb. cbn [fold_left]. cbn [length] in H2, H3. rewrite Nat2Z.inj_succ in H2, H3.
    set (n := Z.of_nat (length d)) in *. assert (Hn : 0 <= n) by (unfold n; lia).
    assert (E : ad_add u s b = (fst s + b, snd s + (fst s + b))).
    { unfold ad_add. rewrite !(Z.mod_small (fst s + b)) by lia. f_equal. apply Z.mod_small. nia. }
    rewrite E.
    destruct (IH (fst s + b, snd s + (fst s + b)) (m ++ [b])) as (I1 & I2 & I3); cbn [fst snd]; auto.
    + destruct Hc as [C1 C2]. split; cbn [fst snd].
      * rewrite adler_s1_snoc. apply mod_congr_add; auto. discriminate.
      * rewrite adler_s2_snoc. apply mod_congr_add; auto; [discriminate|]. rewrite adler_s1_snoc. apply mod_congr_add; auto. discriminate.
    + lia.
    + lia.
    + fold n. lia.
    + fold n. nia.
    + cbn [fst snd] in *. rewrite <- app_assoc in I1. cbn [app] in I1. fold n in I2, I3. split; auto. cbn [length]. rewrite Nat2Z.inj_succ. fold n. split; [lia|nia].
Qed.

Lemma adc_sub : forall s1 s2 m, adc (s1, s2) m -> adc (if BASE <=? s1 then s1 - BASE else s1, s2) m.
Proof.
  intros s1 s2 m [C1 C2]. split; auto. cbn [fst snd] in *. destruct (BASE <=? s1); auto.
  rewrite <- C1. replace (s1 - BASE) with (s1 + (-1) * BASE) by ring. apply Z.mod_add. discriminate.
Qed.
Lemma adc_mod : forall s1 s2 m, adc (s1, s2) m -> adc (s1, s2 mod BASE) m.
Proof. intros s1 s2 m [C1 C2]. split; auto. cbn [fst snd] in *. rewrite Z.mod_mod by discriminate. auto. Qed.

(** Groups of eight until the next reduction of s2. *)
Definition left_ (len : nat) : Z := if Z.of_nat len mod 0x8000 =? 0 then 4096 else (Z.of_nat len mod 0x8000) / 8.

Lemma ad_main_spec : forall u fuel s m input, 2 ^ 32 <= u -> bytes input -> adc s m -> (length input mod 8 = 0)%nat -> (length input <= fuel)%nat ->
  0 <= fst s < BASE -> 0 <= snd s <= BASE + (4096 - left_ (length input)) * (8 * (BASE + 2040)) -> (length input = 0%nat -> snd s < BASE) ->
  let s' := ad_main fuel u s input in adc s' (m ++ input) /\ 0 <= fst s' < BASE /\ 0 <= snd s' < BASE.
Proof.
  intros u fuel. induction fuel as [|f IH]; intros s m input Hu Hb Hc Hm Hf H1 H2 H3; cbn [ad_main].
  { assert (length input = 0%nat) by lia. pose proof H as H'. apply length_zero_iff_nil in H. subst. rewrite app_nil_r. cbv zeta. split; auto. specialize (H3 H'). split; lia. }
  destruct (Nat.ltb_spec 0 (length input)) as [Hp|Hp].
  - assert (Hl8 : (8 <= length input)%nat).
    { pose proof (Nat.div_mod (length input) 8 ltac:(lia)). lia. }
    assert (Lf : length (firstn 8 input) = 8%nat) by (rewrite firstn_length; lia).
    set (len := length input) in *.
    assert (Hlr : 1 <= left_ len <= 4096).
    { unfold left_. pose proof (Z.mod_pos_bound (Z.of_nat len) 0x8000 ltac:(lia)). destruct (Z.eqb_spec (Z.of_nat len mod 0x8000) 0); [lia|].
      assert ((Z.of_nat len mod 0x8000) mod 8 = 0).
      { rewrite <- (Znumtheory.Zmod_div_mod 8 0x8000) by (try lia; exists 4096; reflexivity). change 8 with (Z.of_nat 8). rewrite <- Nat2Z.inj_mod, Hm. reflexivity. }
      pose proof (Z.div_mod (Z.of_nat len mod 0x8000) 8 ltac:(lia)). lia. }
    destruct (ad_fold u (firstn 8 input) s m Hu ltac:(apply bytes_firstn; auto) Hc ltac:(lia) ltac:(lia)) as (I1 & I2 & I3).
    { rewrite Lf. change (2 ^ 32) with 4294967296. lia. } { rewrite Lf. change (2 ^ 32) with 4294967296. lia. }
    rewrite Lf in I2, I3. destruct (fold_left (ad_add u) (firstn 8 input) s) as [s1 s2]. cbn [fst snd] in *.
    assert (Hls : length (skipn 8 input) = (len - 8)%nat) by (rewrite skipn_length; reflexivity). 
    assert (Hm' : ((len - 8) mod 8 = 0)%nat).
    { pose proof (Nat.div_mod len 8 ltac:(lia)). replace (len - 8)%nat with ((len / 8 - 1) * 8)%nat by lia. apply Nat.mod_mul. lia. }
    replace (m ++ input) with ((m ++ firstn 8 input) ++ skipn 8 input) by (rewrite <- app_assoc, firstn_skipn; reflexivity).
    apply IH; auto.
    + apply bytes_skipn; auto.
    + destruct (Z.of_nat (length (skipn 8 input)) mod 0x8000 =? 0).
      * apply adc_sub, adc_mod; auto.
      * apply adc_sub; auto.
    + rewrite Hls. exact Hm'.
    + rewrite Hls. lia.
    + cbn [fst]. destruct (Z.leb_spec BASE s1); lia.
    + cbn [snd]. rewrite Hls. unfold left_. destruct (Z.eqb_spec (Z.of_nat (len - 8) mod 0x8000) 0) as [Z0|Z0].
      * pose proof (Z.mod_pos_bound s2 BASE ltac:(lia)). lia.
      * assert (Hst : left_ len = 1 + (Z.of_nat (len - 8) mod 0x8000) / 8).
        { unfold left_. rewrite Nat2Z.inj_sub in * by lia. change (Z.of_nat 8) with 8 in *. set (L := Z.of_nat len) in *.
          assert (Lm : (L - 8) mod 8 = 0).
          { replace (L - 8) with (Z.of_nat (len - 8)) by (unfold L; lia). change 8 with (Z.of_nat 8). rewrite <- Nat2Z.inj_mod, Hm'. reflexivity. }
          assert (Rm : ((L - 8) mod 0x8000) mod 8 = 0) by (rewrite <- (Znumtheory.Zmod_div_mod 8 0x8000) by (try lia; exists 4096; reflexivity); exact Lm).
          pose proof (Z.mod_pos_bound (L - 8) 0x8000 ltac:(lia)) as Rb.
          pose proof (Z.div_mod (L - 8) 0x8000 ltac:(lia)) as D. set (r := (L - 8) mod 0x8000) in *.
          pose proof (Z.div_mod r 8 ltac:(lia)) as Dr. 
          destruct (Z.eq_dec r 32760) as [Er|Er].
          - assert (EL : L mod 0x8000 = 0). { replace L with ((1 + (L - 8) / 0x8000) * 0x8000) by lia. apply Z.mod_mul. lia. }
            rewrite EL, Er. reflexivity.
          - assert (EL : L mod 0x8000 = r + 8). { symmetry. apply Z.mod_unique with ((L - 8) / 0x8000); lia. }
            rewrite EL. destruct (Z.eqb_spec (r + 8) 0); [lia|]. replace (r + 8) with (r + 1 * 8) by ring. rewrite Z.div_add by lia. lia. }
        lia.
    + rewrite Hls. intros E. cbn [snd]. rewrite E. cbn. apply Z.mod_pos_bound. lia.
  - assert (E : length input = 0%nat) by lia. pose proof E as E'. apply length_zero_iff_nil in E. subst. rewrite app_nil_r. cbv zeta. split; auto. specialize (H3 E'). split; lia.
Qed.

Lemma ad_head_spec : forall u input s, exists d, input = d ++ snd (ad_head u s input) /\ fst (ad_head u s input) = fold_left (ad_add u) d s /\
  length d = (length input mod 8)%nat.
Proof.
  induction input as [|b input IH]; intros s.
  { exists []. repeat split. }
  cbn [ad_head]. destruct (Nat.eqb_spec (length (b :: input) mod 8) 0) as [E|E].
  - exists []. rewrite E. repeat split.
  - destruct (IH (ad_add u s b)) as (d & I1 & I2 & I3). exists (b :: d). cbn [app fold_left]. rewrite <- I1. repeat split; auto.
    cbn [length] in *. rewrite I3. pose proof (Nat.div_mod (length input) 8 ltac:(lia)). pose proof (Nat.mod_upper_bound (length input) 8 ltac:(lia)).
    pose proof (Nat.div_mod (S (length input)) 8 ltac:(lia)). pose proof (Nat.mod_upper_bound (S (length input)) 8 ltac:(lia)). lia.
Qed.

Definition adrep (a : adler) (m : list Z) : Prop := ad_s1 a = adler_s1 m mod BASE /\ ad_s2 a = adler_s2 m mod BASE.
Lemma ad_update_spec : forall u a m d, 2 ^ 32 <= u -> bytes d -> adrep a m -> adrep (ad_update u a d) (m ++ d).
Proof.
  intros u a m d Hu Hd [A1 A2]. unfold ad_update.
  pose proof (Z.mod_pos_bound (adler_s1 m) BASE ltac:(lia)) as B1. pose proof (Z.mod_pos_bound (adler_s2 m) BASE ltac:(lia)) as B2.
  assert (C0 : adc (ad_s1 a, ad_s2 a) m) by (split; cbn [fst snd]; rewrite ?A1, ?A2; apply Z.mod_mod; lia).
  assert (Fin : forall s m' input, adc s m' -> bytes input -> (length input mod 8 = 0)%nat -> 0 <= fst s < BASE -> 0 <= snd s < BASE ->
    m' ++ input = m ++ d -> adrep (let '(s1, s2) := ad_main (length input) u s input in mkA (s1 mod 2 ^ 16) (s2 mod 2 ^ 16)) (m ++ d)).
  { intros s m' input Hc Hb Hm H1 H2 <-.
    destruct (ad_main_spec u (length input) s m' input Hu Hb Hc Hm ltac:(lia) H1) as (I1 & I2 & I3); auto; try lia.
    - unfold left_. pose proof (Z.mod_pos_bound (Z.of_nat (length input)) 0x8000 ltac:(lia)).
      destruct (Z.eqb_spec (Z.of_nat (length input) mod 0x8000) 0); [lia|].
      pose proof (Z.div_lt_upper_bound (Z.of_nat (length input) mod 0x8000) 8 4097 ltac:(lia) ltac:(lia)). lia.
    - destruct (ad_main (length input) u s input) as [s1 s2]. cbn [fst snd] in *. destruct I1 as [J1 J2]. cbn [fst snd] in *.
      split; cbn [ad_s1 ad_s2]; rewrite Z.mod_small by (change (2 ^ 16) with 65536; lia); rewrite <- ?J1, <- ?J2; symmetry; apply Z.mod_small; lia. }
  destruct (Nat.eqb_spec (length d mod 8) 0) as [E|E].
  - apply Fin with m; auto; cbn [fst snd]; rewrite ?A1, ?A2; auto.
  - destruct (ad_head_spec u d (ad_s1 a, ad_s2 a)) as (h & I1 & I2 & I3).
    destruct (ad_head u (ad_s1 a, ad_s2 a) d) as [[s1 s2] input]. cbn [fst snd] in I1, I2.
    pose proof (Nat.mod_upper_bound (length d) 8 ltac:(lia)) as Hu8.
    assert (Hbh : bytes h /\ bytes input) by (apply bytes_app; rewrite <- I1; auto). destruct Hbh as [Hbh Hbi].
    destruct (ad_fold u h (ad_s1 a, ad_s2 a) m Hu Hbh C0) as (J1 & J2 & J3); cbn [fst snd]; try (rewrite ?A1, ?A2; lia).
    { rewrite A1, A2. change (2 ^ 32) with 4294967296. assert (Z.of_nat (length h) <= 7) by lia. nia. }
    rewrite <- I2 in *. cbn [fst snd] in *.
    apply Fin with (m ++ h); auto.
    + apply adc_sub, adc_mod; auto.
    + assert (length d = (length h + length input)%nat) by (rewrite I1, app_length; reflexivity).
      pose proof (Nat.div_mod (length d) 8 ltac:(lia)). rewrite <- I3 in *. replace (length input) with (length d / 8 * 8)%nat by lia. apply Nat.mod_mul. lia.
    + cbn [fst]. destruct (Z.leb_spec BASE s1); lia.
    + cbn [snd]. apply Z.mod_pos_bound. lia.
    + rewrite <- app_assoc, <- I1. reflexivity.
Qed.
Lemma ad_final_spec : forall a m n, adrep a m -> (n <= 4)%nat -> ad_final a n = (ad_reset, Some (firstn n (adler_spec m))).
Proof.
  intros a m n [A1 A2] Hn. unfold ad_final. rewrite (proj2 (Nat.ltb_ge _ _)) by auto. do 3 f_equal.
  pose proof (Z.mod_pos_bound (adler_s1 m) BASE ltac:(lia)) as B1. pose proof (Z.mod_pos_bound (adler_s2 m) BASE ltac:(lia)) as B2.
  unfold adler_spec. rewrite <- A1, <- A2 in *. set (s1 := ad_s1 a) in *. set (s2 := ad_s2 a) in *.
  apply be_val_inj.
  - repeat constructor; apply Z.mod_pos_bound; lia.
  - apply be_bytes_bytes.
  - rewrite be_bytes_length. reflexivity.
  - rewrite be_val_be_bytes by (change (256 ^ Z.of_nat 4) with 4294967296; lia).
    unfold be_val. cbn [fold_left]. rewrite !Z.shiftr_div_pow2 by lia. change (2 ^ 8) with 256.
    assert (Q : forall x, 0 <= x < BASE -> (x / 256) mod 256 * 256 + x mod 256 = x).
    { intros x Hx. rewrite (Z.mod_small (x / 256)). { pose proof (Z.div_mod x 256 ltac:(lia)). lia. }
      split; [apply Z.div_pos; lia|apply Z.div_lt_upper_bound; lia]. }
    pose proof (Q s1 B1). pose proof (Q s2 B2). lia.
Qed.
Lemma adrep_reset : adrep ad_reset [].
Proof. split; reflexivity. Qed.
Lemma adler_run_spec : forall u ops a m, 2 ^ 32 <= u -> Forall cop_ok ops -> adrep a m ->
  ck_run (fun s _ d => ad_update u s d) ad_final a ops = spec_crun adler_spec m ops.
Proof.
  intros u ops a m Hu. revert a m. induction ops as [|op ops IH]; intros a m Ho Hr; [reflexivity|]. inversion Ho as [|? ? H1 H2]; subst.
  cbn [ck_run spec_crun]. destruct op as [ad d|n|]; cbn [ck_step spec_cstep].
  - f_equal. apply IH; auto. apply ad_update_spec; auto. apply H1.
  - destruct (Nat.leb_spec n 4).
    + rewrite (ad_final_spec a m) by auto. f_equal. apply IH; auto. apply adrep_reset.
    + unfold ad_final. rewrite (proj2 (Nat.ltb_lt _ _)) by auto. f_equal. apply IH; auto.
  - rewrite (ad_final_spec a m) by (auto; lia). cbn [fst]. f_equal. apply IH; auto. apply adrep_reset.
Qed.

(** ** CRC *)
Lemma iter_S : forall n (f : Z -> Z) x, Nat.iter (S n) f x = f (Nat.iter n f x).
Proof. reflexivity. Qed.
Lemma iter_S' : forall n (f : Z -> Z) x, Nat.iter (S n) f x = Nat.iter n f (f x).
Proof. induction n; intros; [reflexivity|]. rewrite iter_S, IHn, <- iter_S. reflexivity. Qed.

Section CrcProofs.
  Variable P : Z.
  Variable tab : list Z.
  Hypothesis HP : 0 <= P < 2 ^ 32.
  Hypothesis Htab : forall i, (i < 256)%nat -> nth i tab 0 = Nat.iter 8 (lfsr P) (Z.of_nat i).

  Lemma lfsr_lxor : forall a b, lfsr P (Z.lxor a b) = Z.lxor (lfsr P a) (lfsr P b).
  Proof.
    intros a b. unfold lfsr. 
    assert (O : Z.odd (Z.lxor a b) = xorb (Z.odd a) (Z.odd b)) by (rewrite <- !Z.bit0_odd; apply Z.lxor_spec).
    assert (D : Z.lxor a b / 2 = Z.lxor (a / 2) (b / 2)).
    { rewrite <- !Z.div2_div, !Z.div2_spec. apply Z.shiftr_lxor. }
    rewrite O, D. destruct (Z.odd a), (Z.odd b); cbn [xorb]; apply Z.bits_inj'; intros i Hi; rewrite !Z.lxor_spec;
    destruct (Z.testbit (a / 2) i), (Z.testbit (b / 2) i), (Z.testbit P i); reflexivity.
  Qed.
  Lemma iter_lxor : forall n a b, Nat.iter n (lfsr P) (Z.lxor a b) = Z.lxor (Nat.iter n (lfsr P) a) (Nat.iter n (lfsr P) b).
  Proof. induction n; intros; [reflexivity|]. rewrite !iter_S, IHn. apply lfsr_lxor. Qed.
  Lemma iter_shift : forall n a, Nat.iter n (lfsr P) (2 ^ Z.of_nat n * a) = a.
  Proof.
    induction n as [|n IH]; intros a. { cbn [Nat.iter nat_rect]. lia. }
    rewrite Nat2Z.inj_succ, Z.pow_succ_r by lia. replace (2 * 2 ^ Z.of_nat n * a) with (2 ^ Z.of_nat n * (2 * a)) by ring.
    rewrite iter_S, IH. unfold lfsr. rewrite Z.odd_mul. cbn [Z.odd andb].
    rewrite Z.mul_comm, Z.div_mul by lia. reflexivity.
  Qed.
  Definition l8 := Nat.iter 8 (lfsr P).
  Lemma split_low : forall c, 0 <= c -> c = Z.lxor (Z.land c 255) (2 ^ 8 * Z.shiftr c 8).
  Proof.
    intros c Hc. rewrite (Z.mul_comm (2 ^ 8)), <- Z.shiftl_mul_pow2 by lia.
    apply Z.bits_inj'. intros i Hi. rewrite Z.lxor_spec, Z.land_spec, Z.shiftl_spec by lia. change 255 with (Z.ones 8).
    destruct (Z.ltb_spec i 8).
    - rewrite Z.ones_spec_low, andb_true_r, (Z.testbit_neg_r _ (i - 8)), xorb_false_r by lia. reflexivity.
    - rewrite Z.ones_spec_high, andb_false_r, Z.shiftr_spec by lia. replace (i - 8 + 8) with i by lia. destruct (Z.testbit c i); reflexivity.
  Qed.
  Lemma low_nat : forall c, 0 <= Z.land c 255 < 256.
  Proof. intros. rewrite land_255. apply Z.mod_pos_bound. lia. Qed.
  Lemma crc_shift_spec : forall c, 0 <= c -> crc_shift tab c = l8 c.
  Proof.
    intros c Hc. unfold crc_shift. pose proof (low_nat c). rewrite Htab by lia. rewrite Z2Nat.id by lia.
    rewrite (split_low c Hc) at 3. unfold l8. rewrite iter_lxor. f_equal. change (2 ^ 8) with (2 ^ Z.of_nat 8). rewrite iter_shift. reflexivity.
  Qed.
  Lemma crc_byte_spec : forall c b, 0 <= c -> byte b -> crc_byte tab c b = lfsr_byte P c b.
  Proof.
    intros c b Hc Hb. unfold crc_byte, lfsr_byte. pose proof (low_nat c) as L.
    pose proof (lxor_range 8 (Z.land c 255) b ltac:(lia) L Hb) as X.
    rewrite Htab by (change (2 ^ 8) with 256 in X; lia). rewrite Z2Nat.id by lia.
    rewrite (split_low c Hc) at 3. rewrite (Z.lxor_comm (Z.land c 255) (2 ^ 8 * _)), Z.lxor_assoc, (Z.lxor_comm _ (Z.shiftr c 8)), (iter_lxor _ (2 ^ 8 * _)).
    f_equal. change (2 ^ 8) with (2 ^ Z.of_nat 8). rewrite iter_shift. reflexivity.
  Qed.
  Lemma lfsr_range : forall c, 0 <= c < 2 ^ 32 -> 0 <= lfsr P c < 2 ^ 32.
  Proof.
    intros c Hc. assert (0 <= c / 2 < 2 ^ 32). { split; [apply Z.div_pos; lia|apply Z.div_lt_upper_bound; lia]. }
    unfold lfsr. destruct (Z.odd c); auto. apply lxor_range; lia.
  Qed.
  Lemma iter_range : forall n c, 0 <= c < 2 ^ 32 -> 0 <= Nat.iter n (lfsr P) c < 2 ^ 32.
  Proof. induction n; intros; [auto|]. rewrite iter_S. apply lfsr_range. apply IHn; auto. Qed.
  Lemma lfsr_byte_range : forall c b, 0 <= c < 2 ^ 32 -> byte b -> 0 <= lfsr_byte P c b < 2 ^ 32.
  Proof. intros c b Hc Hb. apply iter_range. apply lxor_range; try lia. unfold byte in Hb. change (2 ^ 32) with 4294967296. lia. Qed.
  Lemma bytes_fold : forall d c, 0 <= c < 2 ^ 32 -> bytes d ->
    fold_left (crc_byte tab) d c = fold_left (lfsr_byte P) d c /\ 0 <= fold_left (lfsr_byte P) d c < 2 ^ 32.
  Proof.
    induction d as [|b d IH]; intros c Hc Hd; [auto|]. inversion Hd; subst. cbn [fold_left]. rewrite crc_byte_spec by (auto; lia).
    apply IH; auto. apply lfsr_byte_range; auto.
  Qed.
  (** xor of a whole word, then shifts, is the same as byte after byte. *)
  Lemma shifts_bytes : forall d c, 0 <= c < 2 ^ 32 -> bytes d -> (length d <= 4)%nat ->
    Nat.iter (length d) (crc_shift tab) (Z.lxor c (le_val d)) = fold_left (lfsr_byte P) d c.
  Proof.
    induction d as [|b d IH]; intros c Hc Hd Hl. { cbn. apply Z.lxor_0_r. }
    inversion Hd as [|? ? Hb Hd']; subst. cbn [length] in *.
    assert (Hr : 0 <= le_val d < 2 ^ 24).
    { pose proof (le_val_bounds d Hd') as B. split; [lia|]. eapply Z.lt_le_trans; [apply B|]. change (2 ^ 24) with (256 ^ 3). apply Z.pow_le_mono_r; lia. }
    assert (Ev : le_val (b :: d) = Z.lxor b (2 ^ 8 * le_val d)).
    { cbn [le_val]. unfold byte in Hb. rewrite (split_low (b + 256 * le_val d)) by lia. f_equal.
      - rewrite land_255, Z.mul_comm, Z.mod_add, Z.mod_small by lia. reflexivity.
      - f_equal. rewrite Z.shiftr_div_pow2, Z.mul_comm by lia. change (2 ^ 8) with 256. rewrite Z.div_add, Z.div_small by lia. lia. }
    rewrite Ev, <- Z.lxor_assoc.
    assert (Hx : 0 <= Z.lxor (Z.lxor c b) (2 ^ 8 * le_val d)).
    { apply Z.lxor_nonneg. unfold byte in Hb. assert (0 <= Z.lxor c b) by (apply Z.lxor_nonneg; lia). lia. }
    rewrite iter_S', crc_shift_spec by auto. unfold l8. rewrite iter_lxor. change (2 ^ 8) with (2 ^ Z.of_nat 8). rewrite iter_shift.
    cbn [fold_left]. fold (lfsr_byte P c b). apply IH; auto; try lia. apply lfsr_byte_range; auto.
  Qed.
  Lemma crc_words_spec : forall fuel c s, 0 <= c < 2 ^ 32 -> bytes s ->
    let '(c', s') := crc_words tab fuel c s in fold_left (crc_byte tab) s' c' = fold_left (lfsr_byte P) s c /\ bytes s'.
  Proof.
    induction fuel as [|f IH]; intros c s Hc Hs; cbn [crc_words].
    { split; auto. apply bytes_fold; auto. }
    destruct (Nat.leb_spec 4 (length s)).
    - assert (Lf : length (firstn 4 s) = 4%nat) by (rewrite firstn_length; lia).
      pose proof (shifts_bytes (firstn 4 s) c Hc ltac:(apply bytes_firstn; auto) ltac:(lia)) as X. rewrite Lf in X. cbn [Nat.iter nat_rect] in X.
      rewrite X. destruct (bytes_fold (firstn 4 s) c Hc ltac:(apply bytes_firstn; auto)) as [_ R].
      specialize (IH _ (skipn 4 s) R ltac:(apply bytes_skipn; auto)). destruct (crc_words tab f _ (skipn 4 s)) as [c' s'].
      rewrite <- fold_left_app, firstn_skipn in IH. exact IH.
    - split; auto. apply bytes_fold; auto.
  Qed.
  Lemma crc_update_spec : forall c a d, 0 <= c < 2 ^ 32 -> bytes d -> crc_update tab c a d = fold_left (lfsr_byte P) d c.
  Proof.
    intros c a d Hc Hd. unfold crc_update. set (k := ((4 - a) mod 4)%nat).
    destruct (bytes_fold (firstn k d) c Hc ltac:(apply bytes_firstn; auto)) as [-> R].
    pose proof (crc_words_spec (length d) _ (skipn k d) R ltac:(apply bytes_skipn; auto)) as X.
    destruct (crc_words tab (length d) _ (skipn k d)) as [c' s']. destruct X as [-> _]. rewrite <- fold_left_app, firstn_skipn. reflexivity.
  Qed.
  Lemma crc_run_spec : forall ops c m, Forall cop_ok ops -> bytes m -> c = fold_left (lfsr_byte P) m 0xffffffff ->
    ck_run (crc_update tab) crc_final c ops = spec_crun (crc_spec P) m ops.
  Proof.
    induction ops as [|op ops IH]; intros c m Ho Hm Hr; [reflexivity|]. inversion Ho as [|? ? H1 H2]; subst.
    assert (R : 0 <= fold_left (lfsr_byte P) m 0xffffffff < 2 ^ 32) by (apply bytes_fold; auto; lia).
    cbn [ck_run spec_crun]. destruct op as [ad d|n|]; cbn [ck_step spec_cstep].
    - f_equal. destruct H1. apply IH; auto. { apply bytes_app; auto. } rewrite crc_update_spec, fold_left_app by auto. reflexivity.
    - unfold crc_final. destruct (Nat.leb_spec n 4).
      + rewrite (proj2 (Nat.ltb_ge _ _)) by auto. f_equal. apply IH; auto. constructor.
      + rewrite (proj2 (Nat.ltb_lt _ _)) by auto. f_equal. apply IH; auto.
    - f_equal. apply IH; auto. constructor.
  Qed.
End CrcProofs.

Lemma tab_check : forall P tab, forallb (fun i => nth i tab 0 =? Nat.iter 8 (lfsr P) (Z.of_nat i)) (seq 0 256) = true ->
  forall i, (i < 256)%nat -> nth i tab 0 = Nat.iter 8 (lfsr P) (Z.of_nat i).
Proof. intros P tab H i Hi. rewrite forallb_forall in H. apply Z.eqb_eq. apply (H i). apply in_seq. lia. Qed.
Lemma crc32_tab_ok : forall i, (i < 256)%nat -> nth i crc32_tab 0 = Nat.iter 8 (lfsr POLY_CRC32) (Z.of_nat i).
Proof. apply tab_check. vm_compute. reflexivity. Qed.
Lemma crc32c_tab_ok : forall i, (i < 256)%nat -> nth i crc32c_tab 0 = Nat.iter 8 (lfsr POLY_CRC32C) (Z.of_nat i).
Proof. apply tab_check. vm_compute. reflexivity. Qed.
