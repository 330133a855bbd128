(** Lemmas for Rijndael: tables, words as four bytes, rounds. *)
From Coq Require Import ZArith List Bool Arith Lia Ring.
From Verif Require Import Base CipherModel CipherSpec CipherProofs AesModel AesSpec.
From Verif Require Gf2Proofs.
Import ListNotations.
Local Open Scope Z_scope.

Ltac xor_solve := apply Z.bits_inj'; intros; rewrite ?Z.lxor_spec, ?Z.bits_0; ring.

(* ------------------------------------------------------------------ *)
(** ** Checks over all bytes *)

Lemma all_bytes : forall P : Z -> bool, forallb P (map Z.of_nat (seq 0 256)) = true ->
  forall x, byte x -> P x = true.
Proof.
  intros P H x Hx. rewrite forallb_forall in H. apply H. unfold byte in Hx.
  rewrite in_map_iff. exists (Z.to_nat x). split; [lia|]. apply in_seq. lia.
Qed.
Ltac by_table P := let H := fresh in
  assert (H : forallb P (map Z.of_nat (seq 0 256)) = true) by (vm_compute; reflexivity);
  intros x Hx; pose proof (all_bytes _ H x Hx) as E; cbv beta in E.

Lemma sbox_se : forall x, byte x -> sbox x = se x.
Proof. by_table (fun x => sbox x =? se x). apply Z.eqb_eq. auto. Qed.
Lemma sd_se : forall x, byte x -> sd (se x) = x.
Proof. by_table (fun x => sd (se x) =? x). apply Z.eqb_eq. auto. Qed.
Lemma se_sd : forall x, byte x -> se (sd x) = x.
Proof. by_table (fun x => se (sd x) =? x). apply Z.eqb_eq. auto. Qed.
Lemma se_byte : forall x, byte x -> byte (se x).
Proof. by_table (fun x => (0 <=? se x) && (se x <? 256)). unfold byte. lia. Qed.
Lemma sd_byte : forall x, byte x -> byte (sd x).
Proof. by_table (fun x => (0 <=? sd x) && (sd x <? 256)). unfold byte. lia. Qed.
Lemma sbox_byte : forall x, byte x -> byte (sbox x).
Proof. intros. rewrite sbox_se by auto. apply se_byte. auto. Qed.
Lemma inv_sbox_sd : forall x, byte x -> inv_sbox x = sd x.
Proof.
  intros x Hx. unfold inv_sbox. destruct find as [b|] eqn:F.
  - apply find_some in F. destruct F as [I E]. apply Z.eqb_eq in E.
    assert (byte b). { apply in_map_iff in I. destruct I as (n & <- & I). apply in_seq in I. unfold byte. lia. }
    rewrite sbox_se in E by auto. rewrite <- E. symmetry. apply sd_se. auto.
  - pose proof (sd_byte x Hx) as Hb.
    pose proof (find_none _ _ F (sd x)) as N. cbv beta in N. rewrite sbox_se, se_sd, Z.eqb_refl in N by auto.
    discriminate N. apply in_map_iff. exists (Z.to_nat (sd x)). unfold byte in Hb. split; [lia|]. apply in_seq. lia.
Qed.
Lemma inv_sbox_byte : forall x, byte x -> byte (inv_sbox x).
Proof. intros. rewrite inv_sbox_sd by auto. apply sd_byte. auto. Qed.
Lemma inv_sbox_sbox : forall x, byte x -> inv_sbox (sbox x) = x.
Proof. intros. rewrite inv_sbox_sd by (apply sbox_byte; auto). rewrite sbox_se by auto. apply sd_se. auto. Qed.
Lemma sbox_inv_sbox : forall x, byte x -> sbox (inv_sbox x) = x.
Proof. intros. rewrite inv_sbox_sd by auto. rewrite sbox_se by (apply sd_byte; auto). apply se_sd. auto. Qed.

Lemma xtime_byte : forall x, byte x -> byte (xtime x).
Proof. by_table (fun x => (0 <=? xtime x) && (xtime x <? 256)). unfold byte. lia. Qed.
Lemma f2_xtime : forall x, byte x -> f2 x = xtime x.
Proof. by_table (fun x => f2 x =? xtime x). apply Z.eqb_eq. auto. Qed.
Lemma f4_xtime : forall x, byte x -> f4 x = xtime (xtime x).
Proof. by_table (fun x => f4 x =? xtime (xtime x)). apply Z.eqb_eq. auto. Qed.
Lemma f8_xtime : forall x, byte x -> f8 x = xtime (xtime (xtime x)).
Proof. by_table (fun x => f8 x =? xtime (xtime (xtime x))). apply Z.eqb_eq. auto. Qed.

Lemma xtime_lxor : forall a b, xtime (Z.lxor a b) = Z.lxor (xtime a) (xtime b).
Proof.
  intros. unfold xtime. rewrite Z.lxor_spec, <- Gf2Proofs.lxor_double.
  destruct (Z.testbit a 7), (Z.testbit b 7); cbn [xorb]; xor_solve.
Qed.

Ltac gm := intros; unfold gmul; cbn -[xtime Z.lxor]; rewrite ?Z.lxor_0_l, ?Z.lxor_0_r.
Lemma gmul_1 : forall x, gmul x 1 = x. Proof. gm. reflexivity. Qed.
Lemma gmul_2 : forall x, gmul x 2 = xtime x. Proof. gm. reflexivity. Qed.
Lemma gmul_3 : forall x, gmul x 3 = Z.lxor x (xtime x). Proof. gm. reflexivity. Qed.
Lemma gmul_9 : forall x, gmul x 9 = Z.lxor x (xtime (xtime (xtime x))). Proof. gm. reflexivity. Qed.
Lemma gmul_11 : forall x, gmul x 11 = Z.lxor x (Z.lxor (xtime x) (xtime (xtime (xtime x)))). Proof. gm. reflexivity. Qed.
Lemma gmul_13 : forall x, gmul x 13 = Z.lxor x (Z.lxor (xtime (xtime x)) (xtime (xtime (xtime x)))). Proof. gm. reflexivity. Qed.
Lemma gmul_14 : forall x, gmul x 14 = Z.lxor (xtime x) (Z.lxor (xtime (xtime x)) (xtime (xtime (xtime x)))). Proof. gm. reflexivity. Qed.

Ltac gexp := rewrite ?gmul_1, ?gmul_2, ?gmul_3, ?gmul_9, ?gmul_11, ?gmul_13, ?gmul_14, ?xtime_lxor.

Create HintDb aes.
#[export] Hint Resolve lxor_byte sbox_byte inv_sbox_byte xtime_byte se_byte sd_byte : aes.
Lemma byte_0 : byte 0. Proof. unfold byte; lia. Qed.
#[export] Hint Resolve byte_0 : aes.

(* ------------------------------------------------------------------ *)
(** ** A word of four bytes *)

Definition w4 (a b c d : Z) : Z := be_val [a; b; c; d].
Lemma w4_eq : forall a b c d, w4 a b c d = ((a * 256 + b) * 256 + c) * 256 + d.
Proof. intros. unfold w4, be_val. cbn [fold_left]. lia. Qed.
Lemma le_w4 : forall a b c d, le_val [a; b; c; d] = w4 d c b a.
Proof. intros. rewrite w4_eq. cbn [le_val]. lia. Qed.

Lemma testbit_cat : forall A b n, byte b -> 0 <= n ->
  Z.testbit (A * 256 + b) n = if n <? 8 then Z.testbit b n else Z.testbit A (n - 8).
Proof.
  intros A b n Hb Hn. unfold byte in Hb. destruct (Z.ltb_spec n 8).
  - rewrite <- (Z.mod_pow2_bits_low (A * 256 + b) 8 n) by lia.
    change (2 ^ 8) with 256. replace ((A * 256 + b) mod 256) with b; auto.
    rewrite Z.add_comm, Z.mod_add by lia. symmetry. apply Z.mod_small. lia.
  - replace n with (n - 8 + 8) at 1 by lia. rewrite <- Z.div_pow2_bits by lia. change (2 ^ 8) with 256.
    replace ((A * 256 + b) / 256) with A; auto. rewrite Z.div_add_l by lia. rewrite Z.div_small by lia. lia.
Qed.
Lemma lxor_cat : forall A B a b, byte a -> byte b ->
  Z.lxor (A * 256 + a) (B * 256 + b) = Z.lxor A B * 256 + Z.lxor a b.
Proof.
  intros. apply Z.bits_inj'. intros n Hn. rewrite Z.lxor_spec, !testbit_cat by (auto with aes).
  destruct (n <? 8); rewrite Z.lxor_spec; reflexivity.
Qed.
Lemma w4_lxor : forall a b c d a' b' c' d', byte b -> byte c -> byte d -> byte b' -> byte c' -> byte d' ->
  Z.lxor (w4 a b c d) (w4 a' b' c' d') = w4 (Z.lxor a a') (Z.lxor b b') (Z.lxor c c') (Z.lxor d d').
Proof. intros. rewrite !w4_eq, !lxor_cat by auto. reflexivity. Qed.

Section Fields.
  Variables a b c d : Z.
  Hypothesis (Ha : byte a) (Hb : byte b) (Hc : byte c) (Hd : byte d).
  Lemma land_255 : forall x, Z.land x 255 = x mod 256.
  Proof. intros. change 255 with (Z.ones 8). rewrite Z.land_ones by lia. reflexivity. Qed.
  Lemma w4_sh1 : Z.shiftr (w4 a b c d) 8 = (a * 256 + b) * 256 + c.
  Proof. rewrite w4_eq, Z.shiftr_div_pow2 by lia. unfold byte in *. change (2 ^ 8) with 256. Z.div_mod_to_equations. lia. Qed.
  Lemma w4_sh2 : Z.shiftr (w4 a b c d) 16 = a * 256 + b.
  Proof. rewrite w4_eq, Z.shiftr_div_pow2 by lia. unfold byte in *. change (2 ^ 16) with 65536. Z.div_mod_to_equations. lia. Qed.
  Lemma w4_sh3 : Z.shiftr (w4 a b c d) 24 = a.
  Proof. rewrite w4_eq, Z.shiftr_div_pow2 by lia. unfold byte in *. change (2 ^ 24) with 16777216. Z.div_mod_to_equations. lia. Qed.
  Lemma cat_mod : forall A x, byte x -> (A * 256 + x) mod 256 = x.
  Proof. intros A x Hx. unfold byte in Hx. rewrite Z.add_comm, Z.mod_add by lia. apply Z.mod_small. lia. Qed.
  Lemma w4_b0 : Z.land (w4 a b c d) 255 = d.
  Proof. rewrite land_255, w4_eq. apply cat_mod. auto. Qed.
  Lemma w4_b1 : Z.land (Z.shiftr (w4 a b c d) 8) 255 = c.
  Proof. rewrite land_255, w4_sh1. apply cat_mod. auto. Qed.
  Lemma w4_b2 : Z.land (Z.shiftr (Z.shiftr (w4 a b c d) 8) 8) 255 = b.
  Proof. rewrite Z.shiftr_shiftr by lia. change (8 + 8) with 16. rewrite land_255, w4_sh2. apply cat_mod. auto. Qed.
  Lemma w4_b3 : Z.shiftr (Z.shiftr (Z.shiftr (w4 a b c d) 8) 8) 8 = a.
  Proof. rewrite !Z.shiftr_shiftr by lia. change (8 + 8 + 8) with 24. apply w4_sh3. Qed.
  Lemma getbyte_0 : getbyte (w4 a b c d) 0 = d.
  Proof. unfold getbyte. change (8 * 0) with 0. rewrite Z.shiftr_0_r. apply w4_b0. Qed.
  Lemma getbyte_1 : getbyte (w4 a b c d) 1 = c.
  Proof. unfold getbyte. change (8 * 1) with 8. apply w4_b1. Qed.
  Lemma getbyte_2 : getbyte (w4 a b c d) 2 = b.
  Proof. unfold getbyte. change (8 * 2) with 16. rewrite land_255, w4_sh2. apply cat_mod. auto. Qed.
  Lemma getbyte_3 : getbyte (w4 a b c d) 3 = a.
  Proof. unfold getbyte. change (8 * 3) with 24. rewrite land_255, w4_sh3. unfold byte in Ha. apply Z.mod_small. lia. Qed.
  Lemma w4_shifts : Z.lxor (Z.lxor (Z.lxor (Z.shiftl a 24) (Z.shiftl b 16)) (Z.shiftl c 8)) d = w4 a b c d.
  Proof.
    rewrite !Z.shiftl_mul_pow2 by lia. change (2 ^ 8) with 256. change (2 ^ 16) with 65536. change (2 ^ 24) with 16777216.
    rewrite w4_eq.
    replace (a * 16777216) with ((a * 65536) * 256 + 0) by lia. replace (b * 65536) with ((b * 256) * 256 + 0) by lia.
    rewrite lxor_cat by auto with aes. replace (c * 256) with (c * 256 + 0) by lia. rewrite lxor_cat by auto with aes.
    replace d with (0 * 256 + d) at 1 by lia. rewrite lxor_cat by auto with aes. rewrite !Z.lxor_0_l, Z.lxor_0_r.
    replace (a * 65536) with ((a * 256) * 256 + 0) by lia. replace (b * 256) with (b * 256 + 0) at 1 by lia.
    rewrite lxor_cat by auto with aes. replace c with (0 * 256 + c) at 1 by lia. rewrite lxor_cat by auto with aes.
    replace (a * 256) with (a * 256 + 0) by lia. replace b with (0 * 256 + b) at 1 by lia. rewrite lxor_cat by auto with aes.
    rewrite !Z.lxor_0_l, !Z.lxor_0_r. lia.
  Qed.
End Fields.

(* ------------------------------------------------------------------ *)
(** ** The tables *)

Definition t_at (T : list Z) (j : Z) (x : Z) : Z := nth (Z.to_nat (j * 256 + x)) T 0.
Lemma te_table : forall x, byte x ->
  (t_at Te 0 x = w4 (xtime (sbox x)) (sbox x) (sbox x) (Z.lxor (xtime (sbox x)) (sbox x)) /\
   t_at Te 1 x = w4 (Z.lxor (xtime (sbox x)) (sbox x)) (xtime (sbox x)) (sbox x) (sbox x)) /\
  (t_at Te 2 x = w4 (sbox x) (Z.lxor (xtime (sbox x)) (sbox x)) (xtime (sbox x)) (sbox x) /\
   t_at Te 3 x = w4 (sbox x) (sbox x) (Z.lxor (xtime (sbox x)) (sbox x)) (xtime (sbox x))).
Proof.
  intros x Hx. rewrite sbox_se by auto. revert x Hx.
  by_table (fun x => let s := se x in let t := xtime s in let u := Z.lxor t s in
    ((t_at Te 0 x =? w4 t s s u) && (t_at Te 1 x =? w4 u t s s)) && ((t_at Te 2 x =? w4 s u t s) && (t_at Te 3 x =? w4 s s u t))).
  cbv zeta in E. rewrite !andb_true_iff, !Z.eqb_eq in E. auto.
Qed.
Definition m9 x := gmul x 9. Definition mb x := gmul x 11. Definition md x := gmul x 13. Definition me x := gmul x 14.
Lemma td_table : forall x, byte x -> let s := sd x in
  (t_at Td 0 x = w4 (me s) (m9 s) (md s) (mb s) /\ t_at Td 1 x = w4 (mb s) (me s) (m9 s) (md s)) /\
  (t_at Td 2 x = w4 (md s) (mb s) (me s) (m9 s) /\ t_at Td 3 x = w4 (m9 s) (md s) (mb s) (me s)).
Proof.
  by_table (fun x => let s := sd x in
    ((t_at Td 0 x =? w4 (me s) (m9 s) (md s) (mb s)) && (t_at Td 1 x =? w4 (mb s) (me s) (m9 s) (md s))) &&
    ((t_at Td 2 x =? w4 (md s) (mb s) (me s) (m9 s)) && (t_at Td 3 x =? w4 (m9 s) (md s) (mb s) (me s)))).
  cbv zeta in E. rewrite !andb_true_iff, !Z.eqb_eq in E. auto.
Qed.

(** A rotated entry of the first quarter is the entry of a later quarter. *)
Lemma tf_te : forall x, byte x ->
  (tl_f Te 0 x = t_at Te 3 x /\ tl_f Te 1 x = t_at Te 2 x) /\ (tl_f Te 2 x = t_at Te 1 x /\ tl_f Te 3 x = t_at Te 0 x).
Proof.
  by_table (fun x => ((tl_f Te 0 x =? t_at Te 3 x) && (tl_f Te 1 x =? t_at Te 2 x)) &&
                     ((tl_f Te 2 x =? t_at Te 1 x) && (tl_f Te 3 x =? t_at Te 0 x))).
  rewrite !andb_true_iff, !Z.eqb_eq in E. auto.
Qed.
Lemma tf_td : forall x, byte x ->
  (tl_f Td 0 x = t_at Td 3 x /\ tl_f Td 1 x = t_at Td 2 x) /\ (tl_f Td 2 x = t_at Td 1 x /\ tl_f Td 3 x = t_at Td 0 x).
Proof.
  by_table (fun x => ((tl_f Td 0 x =? t_at Td 3 x) && (tl_f Td 1 x =? t_at Td 2 x)) &&
                     ((tl_f Td 2 x =? t_at Td 1 x) && (tl_f Td 3 x =? t_at Td 0 x))).
  rewrite !andb_true_iff, !Z.eqb_eq in E. auto.
Qed.
Lemma last_e_sbox : forall x, byte x -> last_e x = sbox x.
Proof. intros x Hx. rewrite sbox_se by auto. revert x Hx. by_table (fun x => last_e x =? se x). apply Z.eqb_eq. auto. Qed.

Lemma quarter_m_at : forall T a b c d A B C D, byte a -> byte b -> byte c -> byte d ->
  quarter_m T (w4 a b c d) A B C D =
  (Z.lxor A (t_at T 3 d), Z.lxor B (t_at T 2 c), Z.lxor C (t_at T 1 b), Z.lxor D (t_at T 0 a)).
Proof.
  intros. unfold quarter_m, quarter. cbv zeta. rewrite w4_b0, w4_b1, w4_b2, w4_b3 by auto. reflexivity.
Qed.
Lemma quarter_f_te : forall a b c d A B C D, byte a -> byte b -> byte c -> byte d ->
  quarter_f Te (w4 d c b a) A B C D = quarter_m Te (w4 a b c d) A B C D.
Proof.
  intros. rewrite quarter_m_at by auto. unfold quarter_f, quarter. cbv zeta.
  rewrite w4_b0, w4_b1, w4_b2, w4_b3 by auto.
  destruct (tf_te a) as [_ [_ ->]]; auto. destruct (tf_te b) as [_ [-> _]]; auto.
  destruct (tf_te c) as [[_ ->] _]; auto. destruct (tf_te d) as [[-> _] _]; auto.
Qed.
Lemma quarter_f_td : forall a b c d A B C D, byte a -> byte b -> byte c -> byte d ->
  quarter_f Td (w4 d c b a) A B C D = quarter_m Td (w4 a b c d) A B C D.
Proof.
  intros. rewrite quarter_m_at by auto. unfold quarter_f, quarter. cbv zeta.
  rewrite w4_b0, w4_b1, w4_b2, w4_b3 by auto.
  destruct (tf_td a) as [_ [_ ->]]; auto. destruct (tf_td b) as [_ [-> _]]; auto.
  destruct (tf_td c) as [[_ ->] _]; auto. destruct (tf_td d) as [[-> _] _]; auto.
Qed.

Lemma te0 : forall x, byte x -> t_at Te 0 x = w4 (xtime (sbox x)) (sbox x) (sbox x) (Z.lxor (xtime (sbox x)) (sbox x)).
Proof. intros x Hx. apply (te_table x Hx). Qed.
Lemma te1 : forall x, byte x -> t_at Te 1 x = w4 (Z.lxor (xtime (sbox x)) (sbox x)) (xtime (sbox x)) (sbox x) (sbox x).
Proof. intros x Hx. apply (te_table x Hx). Qed.
Lemma te2 : forall x, byte x -> t_at Te 2 x = w4 (sbox x) (Z.lxor (xtime (sbox x)) (sbox x)) (xtime (sbox x)) (sbox x).
Proof. intros x Hx. apply (te_table x Hx). Qed.
Lemma te3 : forall x, byte x -> t_at Te 3 x = w4 (sbox x) (sbox x) (Z.lxor (xtime (sbox x)) (sbox x)) (xtime (sbox x)).
Proof. intros x Hx. apply (te_table x Hx). Qed.
Lemma td0 : forall x, byte x -> t_at Td 0 x = w4 (me (inv_sbox x)) (m9 (inv_sbox x)) (md (inv_sbox x)) (mb (inv_sbox x)).
Proof. intros x Hx. rewrite inv_sbox_sd by auto. apply (td_table x Hx). Qed.
Lemma td1 : forall x, byte x -> t_at Td 1 x = w4 (mb (inv_sbox x)) (me (inv_sbox x)) (m9 (inv_sbox x)) (md (inv_sbox x)).
Proof. intros x Hx. rewrite inv_sbox_sd by auto. apply (td_table x Hx). Qed.
Lemma td2 : forall x, byte x -> t_at Td 2 x = w4 (md (inv_sbox x)) (mb (inv_sbox x)) (me (inv_sbox x)) (m9 (inv_sbox x)).
Proof. intros x Hx. rewrite inv_sbox_sd by auto. apply (td_table x Hx). Qed.
Lemma td3 : forall x, byte x -> t_at Td 3 x = w4 (m9 (inv_sbox x)) (md (inv_sbox x)) (mb (inv_sbox x)) (me (inv_sbox x)).
Proof. intros x Hx. rewrite inv_sbox_sd by auto. apply (td_table x Hx). Qed.
Lemma m9_byte : forall x, byte x -> byte (m9 x). Proof. intros. unfold m9. gexp. auto 10 with aes. Qed.
Lemma mb_byte : forall x, byte x -> byte (mb x). Proof. intros. unfold mb. gexp. auto 10 with aes. Qed.
Lemma md_byte : forall x, byte x -> byte (md x). Proof. intros. unfold md. gexp. auto 10 with aes. Qed.
Lemma me_byte : forall x, byte x -> byte (me x). Proof. intros. unfold me. gexp. auto 10 with aes. Qed.
#[export] Hint Resolve m9_byte mb_byte md_byte me_byte : aes.

(* ------------------------------------------------------------------ *)
(** ** Blocks of sixteen bytes and the rounds *)

Definition blk (s : list Z) : Prop := bytes s /\ length s = 16%nat.
(** The four words of a block in big-endian and little-endian order. *)
Definition WB (s : list Z) : list Z := get_block true 4 4 s.
Definition WL (s : list Z) : list Z := get_block false 4 4 s.
Definition W (s : list Z) : st4 := four (WB s) 0.

Ltac explode s H :=
  let L := fresh in let B := fresh in
  destruct H as [B L];
  do 16 (destruct s as [|? s]; [discriminate L|]); destruct s; [|discriminate L]; clear L;
  repeat match goal with B : bytes (_ :: _) |- _ => inversion B; subst; clear B end;
  repeat match goal with B : Forall _ (_ :: _) |- _ => inversion B; subst; clear B end;
  repeat match goal with B : Forall _ [] |- _ => clear B end.

Lemma W_w4 : forall a b c d e f g h i j k l m n o p,
  W [a; b; c; d; e; f; g; h; i; j; k; l; m; n; o; p] = (w4 a b c d, w4 e f g h, w4 i j k l, w4 m n o p).
Proof. reflexivity. Qed.

Definition R_enc (k s : list Z) : list Z := add_round_key k (mix_columns (shift_rows (sub_bytes s))).
Definition R_dec (k s : list Z) : list Z := add_round_key k (inv_mix_columns (inv_sub_bytes (inv_shift_rows s))).

Lemma w4_cong : forall a b c d a' b' c' d', a = a' -> b = b' -> c = c' -> d = d' -> w4 a b c d = w4 a' b' c' d'.
Proof. intros. subst. reflexivity. Qed.
Lemma st_cong : forall a b c d a' b' c' d' : Z, a = a' -> b = b' -> c = c' -> d = d' -> (a, b, c, d) = (a', b', c', d').
Proof. intros. subst. reflexivity. Qed.

Ltac flat := cbv [add_round_key mix_columns inv_mix_columns mix_with shift_rows inv_shift_rows sub_bytes inv_sub_bytes
    row col at_rc map seq nth Nat.add Nat.mul Nat.sub Nat.modulo Nat.div Nat.divmod fst snd fold_right xorl].

Lemma round_e_spec : forall k s, blk k -> blk s -> round_e (quarter_m Te) (W k) (W s) = W (R_enc k s).
Proof.
  intros k s Hk Hs. explode k Hk. explode s Hs. unfold R_enc. flat. rewrite !W_w4. unfold round_e.
  rewrite !quarter_m_at by assumption. rewrite !te0, !te1, !te2, !te3 by assumption.
  apply st_cong; rewrite !w4_lxor by auto 7 with aes; apply w4_cong; gexp; xor_solve.
Qed.
Lemma round_d_spec : forall k s, blk k -> blk s -> round_d (quarter_m Td) (W k) (W s) = W (R_dec k s).
Proof.
  intros k s Hk Hs. explode k Hk. explode s Hs. unfold R_dec. flat. rewrite !W_w4. unfold round_d.
  rewrite !quarter_m_at by assumption. rewrite !td0, !td1, !td2, !td3 by assumption.
  apply st_cong; rewrite !w4_lxor by auto 7 with aes; apply w4_cong; unfold m9, mb, md, me; xor_solve.
Qed.
