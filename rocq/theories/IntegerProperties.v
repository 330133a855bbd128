(** C35-C40, C42, C70-C73: the class Integer. [w] is the number of bits of a word, 32 or 64. [is_int w x a] says that the object
    [x] is well formed and stands for the integer [a]. *)
From Coq Require Import ZArith List Bool Arith Lia Znumtheory.
From Verif Require Import Base AsnModel AsnSpec AsnProofs AsnKeyProofs AsnProperties WordsSpec WordsModel WordsProofs WordsRecProofs WordsAsymProofs IntegerModel IntegerSpec IntegerProofs
  IntegerBitProofs IntegerDivProofs IntegerCodecProofs ModSpec ModModel IntegerInvProofs ModProofs.
Import ListNotations.
Local Open Scope Z_scope.

(** Objects used in the examples: a small number in a long register, (2^400 + v) - 2^400. *)
Definition small (v : Z) : integer := mkInt false [v; 0].
Definition long_ (v : Z) : integer := minus 64 (plus 64 (power2 64 400) (small v)) (power2 64 400).

(** A test for the objects written out in the examples. *)
Lemma lit w x a k : forallb (fun d => (0 <=? d) && (d <? 2 ^ w)) (reg x) = true -> length (reg x) = (2 ^ k)%nat -> (1 <= k)%nat -> neg x && (ival w x =? 0) = false -> ival w x = a -> is_int w x a.
Proof.
  intros H1 H2 H3 H4 H5. split; auto. split; [|split].
  - apply Forall_forall. intros d Hd. rewrite forallb_forall in H1. specialize (H1 d Hd). apply andb_prop in H1. rewrite Z.leb_le, Z.ltb_lt in H1. auto.
  - exists k. auto.
  - intros E. rewrite E in H4. cbn [andb] in H4. apply Z.eqb_neq in H4. unfold ival in H4. rewrite E in H4. lia.
Qed.
Ltac lit k := apply (lit _ _ _ k); [vm_compute; reflexivity|reflexivity|lia|vm_compute; reflexivity|vm_compute; reflexivity].

(* ------------------------------------------------------------------------- C35 *)
Theorem C35_add_sub : forall w x y a b, word_bits w -> is_int w x a -> is_int w y b ->
  is_int w (plus w x y) (a + b) /\ is_int w (minus w x y) (a - b) /\ is_int w (plus_eq w x y) (a + b) /\ is_int w (minus_eq w x y) (a - b).
Proof. intros w x y a b Hw X Y. pose proof (word_bits_big w Hw) as Hb. split; [apply (plus_int w); auto|]. split; [apply (minus_int w); auto|]. split; [apply (plus_eq_int w)|apply (minus_eq_int w)]; auto. Qed.
Theorem C35_unary : forall w x a, word_bits w -> is_int w x a ->
  is_int w (int_opp x) (- a) /\ is_int w (negate x) (- a) /\ is_int w (int_abs x) (Z.abs a) /\ is_int w (incr w x) (a + 1) /\ is_int w (decr w x) (a - 1) /\ is_int w (copy x) a /\ forall n, is_int w (assign n x) a.
Proof.
  intros w x a Hw X. pose proof (word_bits_big w Hw) as Hb. split; [apply (opp_int w); auto|]. split; [apply (negate_int w); auto|]. split; [apply (abs_int w); auto|]. split; [apply (incr_int w); auto|]. split; [apply (decr_int w); auto|]. split; [apply (copy_int w); auto|]. intros. apply (assign_int w); auto.
Qed.
Theorem C35_compare : forall w x y a b, word_bits w -> is_int w x a -> is_int w y b ->
  compare x y = match a ?= b with Lt => -1 | Eq => 0 | Gt => 1 end /\ is_zero x = (a =? 0) /\ neg x = (a <? 0) /\ is_positive x = (0 <? a).
Proof. intros w x y a b Hw X Y. pose proof (word_bits_big w Hw) as Hb. split; [apply (compare_int w); auto|]. split; [apply (is_zero_int w); auto|]. split; [apply (is_int_neg w); auto|]. apply (is_positive_int w); auto. Qed.
Theorem C35_constructors : forall w, word_bits w ->
  is_int w int_zero 0 /\ is_int w int_one 1 /\ (forall v n, 0 <= v < 2 ^ w -> is_int w (of_word v n) v) /\ (forall e, is_int w (power2 w e) (2 ^ Z.of_nat e)) /\
  (forall v, - 2 ^ 63 < v < 2 ^ 63 -> is_int w (of_long w v) v) /\ (forall (s : bool) v, 0 <= v < 2 ^ 64 -> (s = true -> v <> 0) -> is_int w (of_lword w s v) (if s then - v else v)).
Proof.
  intros w Hw. pose proof (word_bits_big w Hw) as Hb. split; [apply (zero_int w)|]. split; [apply (one_int w)|]. split; [intros; apply (of_word_int w); auto|]. split; [apply (power2_int w)|].
  assert (TWO : forall v, 0 <= v < 2 ^ 64 -> words w [wd w v; wd w (Z.shiftr v w)] /\ wval w [wd w v; wd w (Z.shiftr v w)] = v).
  { intros v Hv. pose proof (B_pos w) as HB. split. { apply W_cons. split; [apply (wd_range w)|]. apply W_cons. split; [apply (wd_range w)|apply W_nil]. }
    rewrite !V_cons, V_nil. unfold wd, base in *. assert (W0 : 0 <= w) by (destruct Hw; lia). rewrite Z.shiftr_div_pow2 by auto. assert (QS : 0 <= v / 2 ^ w < 2 ^ w). { split; [apply Z.div_pos; lia|]. apply Z.div_lt_upper_bound; [lia|]. rewrite <- Z.pow_add_r by lia. apply Z.lt_le_trans with (2 ^ 64); [lia|]. apply Z.pow_le_mono_r; destruct Hw; lia. }
    rewrite (Z.mod_small (v / 2 ^ w)) by auto. pose proof (Z.div_mod v (2 ^ w) ltac:(lia)). lia. }
  split.
  - intros v Hv. assert (2 ^ 63 < 2 ^ 64) by (apply Z.pow_lt_mono_r; lia). unfold of_long. rewrite Z.geb_leb. destruct (Z.leb_spec 0 v).
    + destruct (TWO v ltac:(lia)) as [T1 T2]. apply (pos_int w); auto. apply pow2_2.
    + destruct (TWO (- v) ltac:(lia)) as [T1 T2]. apply (mk_int w); auto; [apply pow2_2|rewrite T2; lia|intros; lia].
  - intros s v Hv Hs. destruct (TWO v ltac:(lia)) as [T1 T2]. unfold of_lword. apply (mk_int w); auto; [apply pow2_2|rewrite T2; destruct s; lia|intros E; specialize (Hs E); destruct s; lia].
Qed.
(** Integer(Integer::NEGATIVE, 0) is not zero to the comparison operators. *)
Theorem C35_negative_zero_refuted : ival 64 (of_lword 64 true 0) = 0 /\ compare (of_lword 64 true 0) int_zero = -1 /\ is_zero (of_lword 64 true 0) = false.
Proof. repeat split; vm_compute; reflexivity. Qed.
Example C35_example : let x := mkInt true [5; 0] in let y := mkInt false [2 ^ 64 - 1; 2 ^ 64 - 1] in
  is_int 64 x (-5) /\ is_int 64 y (2 ^ 128 - 1) /\ plus 64 y int_one = mkInt false [0; 0; 1; 0] /\ compare (plus 64 x y) (power2 64 128) = -1 /\ minus 64 x y = mkInt true [4; 0; 1; 0].
Proof.
  cbv zeta. split; [lit 1%nat|]. split; [lit 1%nat|]. repeat split; vm_compute; reflexivity.
Qed.

(* ------------------------------------------------------------------------- C36 *)
Theorem C36_product : forall w x y a b, word_bits w -> is_int w x a -> is_int w y b -> is_int w (times w x y) (a * b) /\ is_int w (squared w x) (a * a).
Proof. intros w x y a b Hw X Y. pose proof (word_bits_big w Hw) as Hb. split; [apply (times_int w)|apply (squared_int w)]; auto. Qed.
(** The word-level routines, for every supported length: [rec_mul] is RecursiveMultiply, [w_squ] Square, [w_asym] AsymmetricMultiply. *)
Theorem C36_words : forall w k q X Y, word_bits w -> (1 <= k)%nat -> (1 <= q)%nat -> words w X -> words w Y -> length X = (2 ^ k)%nat ->
  (length Y = (2 ^ k)%nat -> words w (w_mul w X Y) /\ length (w_mul w X Y) = (2 * 2 ^ k)%nat /\ wval w (w_mul w X Y) = wval w X * wval w Y) /\
  (words w (w_squ w X) /\ length (w_squ w X) = (2 * 2 ^ k)%nat /\ wval w (w_squ w X) = wval w X * wval w X) /\
  (length Y = (2 ^ k * q)%nat -> words w (w_asym w false X Y) /\ length (w_asym w false X Y) = (length X + length Y)%nat /\ wval w (w_asym w false X Y) = wval w X * wval w Y).
Proof.
  intros w k q X Y Hw Hk Hq WX WY LX. pose proof (word_bits_big w Hw) as Hb. split; [|split].
  - intros LY. apply (w_mul_spec w k); auto.
  - apply (w_squ_spec w k); auto.
  - intros LY. apply (w_asym_spec w k q); auto. discriminate.
Qed.
Example C36_example : times 64 (mkInt true [2 ^ 64 - 1; 2 ^ 64 - 1]) (small 3) = mkInt true [2 ^ 64 - 3; 2 ^ 64 - 1; 2; 0] /\ (2 ^ 128 - 1) * 3 = 2 ^ 64 - 3 + 2 ^ 64 * (2 ^ 64 - 1) + 2 ^ 128 * 2.
Proof. split; vm_compute; reflexivity. Qed.

(* ------------------------------------------------------------------------- C37 *)
Theorem C37_divide : forall w x y a b, word_bits w -> is_int w x a -> is_int w y b -> b <> 0 ->
  exists r q vr vq, divide w x y = ROk (r, q) /\ is_int w r vr /\ is_int w q vq /\ a = vq * b + vr /\ 0 <= vr < Z.abs b.
Proof. intros w x y a b Hw X Y N. pose proof (word_bits_big w Hw) as Hb. apply divide_int; auto. Qed.
Theorem C37_divide_by_zero : forall w x y a, word_bits w -> is_int w x a -> is_int w y 0 -> divide w x y = RDivideByZero /\ modulo_word w x 0 = RDivideByZero /\ divide_word w x 0 = RDivideByZero.
Proof. intros w x y a Hw X Y. pose proof (word_bits_big w Hw) as Hb. split; [apply (divide_zero w x y a); auto|split; reflexivity]. Qed.
Theorem C37_operators : forall w x y a b, word_bits w -> is_int w x a -> is_int w y b -> b <> 0 ->
  (exists r, modulo w x y = ROk r /\ is_int w r (a mod Z.abs b)) /\ (exists q, divided_by w x y = ROk q /\ is_int w q (Z.sgn b * (a / Z.abs b))).
Proof. intros w x y a b Hw X Y N. pose proof (word_bits_big w Hw) as Hb. split; [apply (modulo_int w)|apply (divided_by_int w)]; auto. Qed.
Theorem C37_power_of_two : forall w x a n, word_bits w -> is_int w x a -> is_int w (fst (divide_pow2 w x n)) (a mod 2 ^ Z.of_nat n) /\ is_int w (snd (divide_pow2 w x n)) (a / 2 ^ Z.of_nat n).
Proof. intros w x a n Hw X. pose proof (word_bits_big w Hw) as Hb. apply (divide_pow2_int w); auto. Qed.
(** Division by one word, where the code is right: divisors that are not powers of two, or a dividend that is not negative. *)
Theorem C37_word_partial : forall w x a d, word_bits w -> is_int w x a -> 0 < d < 2 ^ w -> (d <> 2 ^ Z.log2 d \/ 0 <= a) ->
  exists q, divide_word w x d = ROk (a mod d, q) /\ is_int w q (a / d).
Proof.
  intros w x a d Hw X Hd C. pose proof (word_bits_big w Hw) as Hb. destruct (Z.eq_dec d (2 ^ Z.log2 d)) as [E|E]; [|apply (divide_word_gen w); auto]. destruct C as [C|C]; [congruence|].
  destruct (divide_word_pow2 w x a d Hw X Hd E) as (q & E1 & Hq). rewrite Z.abs_eq in E1 by auto. rewrite Z.quot_div_nonneg in Hq by lia. eauto.
Qed.
Theorem C37_word_modulo : forall w x a d, word_bits w -> is_int w x a -> 0 < d < 2 ^ w -> Z.of_nat (length (reg x)) <= 2 ^ w -> modulo_word w x d = ROk (a mod d).
Proof. intros w x a d Hw X D L. pose proof (word_bits_big w Hw) as Hb. apply modulo_word_int; auto. Qed.
(** A negative dividend and a divisor that is a power of two: the quotient is rounded towards zero and the remainder has the
    wrong sign, so that dividend = quotient * divisor + remainder fails. Here -3 = (-1) * 2 + 1. *)
Theorem C37_word_refuted : forall w x a d, word_bits w -> is_int w x a -> 0 < d < 2 ^ w -> d = 2 ^ Z.log2 d -> a < 0 -> a mod d <> 0 ->
  exists r q vq, divide_word w x d = ROk (r, q) /\ is_int w q vq /\ a <> vq * d + r.
Proof.
  intros w x a d Hw X Hd E N M. pose proof (word_bits_big w Hw) as Hb. destruct (divide_word_pow2 w x a d Hw X Hd E) as (q & E1 & Hq). exists (Z.abs a mod d), q, (Z.quot a d). split; auto. split; auto.
  pose proof (Z.mod_pos_bound (Z.abs a) d ltac:(lia)) as MB. rewrite Z.abs_neq in * by lia. pose proof (Z.quot_rem' a d) as QR. assert (RM : Z.rem a d = - ((- a) mod d)) by (rewrite <- (Z.opp_involutive a) at 1; rewrite Z.rem_opp_l, Z.rem_mod_nonneg by lia; reflexivity).
  intros Q. assert (Z0 : (- a) mod d = 0) by lia. apply M. apply Z.mod_opp_l_z in Z0; [|lia]. rewrite Z.opp_involutive in Z0. auto.
Qed.
Example C37_example :
  divide 64 (mkInt true [7; 0]) (mkInt false [2; 0]) = ROk (mkInt false [1; 0], mkInt true [4; 0]) /\ divide 64 (mkInt true [7; 0]) (mkInt true [2; 0]) = ROk (mkInt false [1; 0], mkInt false [4; 0]) /\
  divide_word 64 (mkInt true [3; 0]) 2 = ROk (1, mkInt true [1; 0]) /\ divide_word 64 (mkInt true [5; 0]) 3 = ROk (1, mkInt true [2; 0]).
Proof. repeat split; vm_compute; reflexivity. Qed.

(* ------------------------------------------------------------------------- C38 *)
Theorem C38_shifts : forall w x a n, word_bits w -> is_int w x a ->
  is_int w (shl w x n) (a * 2 ^ Z.of_nat n) /\ is_int w (shr w x n) (Z.quot a (2 ^ Z.of_nat n)).
Proof. intros w x a n Hw X. pose proof (word_bits_big w Hw) as Hb. split; [apply (shl_int w)|apply (shr_int w)]; auto. Qed.
Theorem C38_read : forall w x a n, word_bits w -> is_int w x a ->
  get_bit w x n = Z.testbit (Z.abs a) (Z.of_nat n) /\ get_byte w x n = (Z.abs a / 256 ^ Z.of_nat n) mod 256.
Proof. intros w x a n Hw X. pose proof (word_bits_big w Hw) as Hb. split; [apply (get_bit_int w)|apply (get_byte_int w)]; auto. Qed.
Theorem C38_counts : forall w x a, word_bits w -> is_int w x a ->
  Z.of_nat (bit_count w x) = (if a =? 0 then 0 else Z.log2 (Z.abs a) + 1) /\
  (a = 0 -> byte_count w x = 0%nat) /\ (a <> 0 -> 256 ^ (Z.of_nat (byte_count w x) - 1) <= Z.abs a < 256 ^ Z.of_nat (byte_count w x)).
Proof.
  intros w x a Hw X. pose proof (word_bits_big w Hw) as Hb. split; [apply (bit_count_int w); auto|]. destruct (byte_count_int w x a Hw X) as [H1 H2]. split; [intros E; specialize (H1 E); lia|]. intros E. apply H2. auto.
Qed.
Theorem C38_set_bit : forall w x a n, word_bits w -> is_int w x a ->
  is_int w (set_bit w x n true) ((if a <? 0 then -1 else 1) * Z.setbit (Z.abs a) (Z.of_nat n)).
Proof. intros w x a n Hw X. pose proof (word_bits_big w Hw) as Hb. apply (set_bit_int w); auto. Qed.
(** Clearing a bit, unless it is the only bit of a negative number. *)
Theorem C38_clear_bit_partial : forall w x a n, word_bits w -> is_int w x a -> (a < 0 -> Z.abs a <> 2 ^ Z.of_nat n) ->
  is_int w (set_bit w x n false) ((if a <? 0 then -1 else 1) * Z.clearbit (Z.abs a) (Z.of_nat n)).
Proof. intros w x a n Hw X N. pose proof (word_bits_big w Hw) as Hb. apply (clear_bit_int w); auto. Qed.
(** Clearing the only bit of a negative number leaves a negative zero. *)
Theorem C38_clear_bit_refuted : let x := set_bit 64 (mkInt true [8; 0]) 3 false in x = mkInt true [0; 0] /\ compare x int_zero = -1.
Proof. split; vm_compute; reflexivity. Qed.
Theorem C38_logic : forall w x y a b, word_bits w -> is_int w x a -> is_int w y b ->
  is_int w (int_and x y) (Z.land (Z.abs a) (Z.abs b)) /\ is_int w (int_or x y) (Z.lor (Z.abs a) (Z.abs b)) /\ is_int w (int_xor x y) (Z.lxor (Z.abs a) (Z.abs b)).
Proof. intros w x y a b Hw X Y. pose proof (word_bits_big w Hw) as Hb. split; [apply (and_int w)|split; [apply (or_int w)|apply (xor_int w)]]; auto. Qed.
Example C38_example : shl 64 (mkInt true [5; 0]) 65 = mkInt true [0; 10; 0; 0] /\ shr 64 (mkInt true [5; 0]) 1 = mkInt true [2; 0] /\ bit_count 64 (mkInt true [0; 1]) = 65%nat /\
  int_xor (mkInt false [6; 0]) (mkInt true [0; 0; 1; 0]) = mkInt false [6; 0; 1; 0] /\ get_byte 64 (mkInt true [2 ^ 63; 0]) 7 = 128.
Proof. repeat split; vm_compute; reflexivity. Qed.

(* ------------------------------------------------------------------------- C39 *)
(** What Encode writes: the big-endian digits of the value, in two's complement for a signed encoding. *)
Theorem C39_encode : forall w x a n, word_bits w -> is_int w x a ->
  encode w false n x = be_bytes n (Z.abs a) /\ encode w true n x = be_bytes n a.
Proof. intros w x a n Hw X. pose proof (word_bits_big w Hw) as Hb. split; [apply (encode_unsigned w); auto|apply (encode_signed w); auto]. Qed.
(** What Decode reads, for any string of bytes: any number of leading sign bytes is accepted. *)
Theorem C39_decode_unsigned : forall w l, word_bits w -> bytes l -> is_int w (decode w false l) (be_val l).
Proof. intros. apply decode_u; auto. Qed.
Theorem C39_decode_signed_partial : forall w l, word_bits w -> bytes l -> l <> [] ->
  let v := if 2 * be_val l >=? 256 ^ Z.of_nat (length l) then be_val l - 256 ^ Z.of_nat (length l) else be_val l in
  ~ full_register w v -> is_int w (decode w true l) v.
Proof. intros. apply decode_s; auto. Qed.
(** The round trip, for every length the value fits in, except for signed encodings of minus the weight of a register. *)
Theorem C39_round_trip_partial : forall w (signed : bool) x a n, word_bits w -> is_int w x a -> (1 <= n)%nat -> fits signed n a -> (signed = true -> ~ full_register w a) ->
  is_int w (decode w signed (encode w signed n x)) a.
Proof.
  intros w signed x a n Hw X N F NF. pose proof (word_bits_big w Hw) as Hb. destruct signed.
  - unfold fits in F. rewrite (encode_signed w Hw x a n X). pose proof (p256 n) as Pn. assert (NE : be_bytes n a <> []). { intros Q. apply (f_equal (@length Z)) in Q. rewrite be_bytes_length in Q. cbn [length] in Q. lia. }
    pose proof (decode_s w Hw (be_bytes n a) (be_bytes_bytes n a) NE) as D. cbv zeta in D. rewrite be_bytes_length in D. rewrite be_val_bytes_mod in D.
    assert (E : (if 2 * (a mod 256 ^ Z.of_nat n) >=? 256 ^ Z.of_nat n then a mod 256 ^ Z.of_nat n - 256 ^ Z.of_nat n else a mod 256 ^ Z.of_nat n) = a).
    { rewrite Z.geb_leb. destruct (Z.ltb_spec a 0). - replace (a mod 256 ^ Z.of_nat n) with (a + 256 ^ Z.of_nat n) by (apply Z.mod_unique_pos with (-1); lia). destruct (Z.leb_spec (256 ^ Z.of_nat n) (2 * (a + 256 ^ Z.of_nat n))); lia. - rewrite Z.mod_small by lia. destruct (Z.leb_spec (256 ^ Z.of_nat n) (2 * a)); lia. }
    rewrite E in D. apply D. auto.
  - unfold fits in F. rewrite (encode_unsigned w Hw x a n X), Z.abs_eq by lia. pose proof (decode_u w Hw (be_bytes n a) (be_bytes_bytes n a)) as D. rewrite be_val_be_bytes in D by lia. auto.
Qed.
Theorem C39_min_size : forall w (signed : bool) x a, word_bits w -> is_int w x a -> (signed = false -> 0 <= a) ->
  let n := min_encoded_size w signed x in (1 <= n)%nat /\ fits signed n a /\ forall m, (1 <= m)%nat -> fits signed m a -> (n <= m)%nat.
Proof. intros. apply min_size_spec; auto. Qed.
(** -2^128 is encoded in 17 bytes and decoded to a negative zero (64-bit words); -2^64 likewise with 32-bit words. *)
Theorem C39_round_trip_refuted :
  let x := mkInt true [0; 0; 1; 0] in is_int 64 x (- 2 ^ 128) /\ encode 64 true (min_encoded_size 64 true x) x = 255 :: repeat 0 16 /\ decode 64 true (255 :: repeat 0 16) = mkInt true [0; 0] /\
  compare (decode 64 true (255 :: repeat 0 16)) x <> 0.
Proof.
  cbv zeta. split; [lit 2%nat|]. repeat split; vm_compute; auto; discriminate.
Qed.
Example C39_example : encode 64 true 3 (mkInt true [1; 0]) = [255; 255; 255] /\ decode 64 true [255; 255; 255] = mkInt true [1; 0] /\ min_encoded_size 64 true (small 128) = 2%nat /\ min_encoded_size 64 true (mkInt true [128; 0]) = 1%nat /\
  decode 64 false [0; 1; 0] = small 256 /\ ~ full_register 64 (- 2 ^ 64).
Proof.
  repeat split; try (vm_compute; reflexivity). intros (n & (k & Hk & ->) & E). assert (L : (2 <= 2 ^ k)%nat) by (apply (Nat.pow_le_mono_r 2 1 k); lia). pose proof (Z.pow_le_mono_r (2 ^ 64) 2 (Z.of_nat (2 ^ k)) ltac:(lia) ltac:(lia)) as Q. change ((2 ^ 64) ^ 2) with (2 ^ 128) in Q. assert (2 ^ 64 < 2 ^ 128) by (apply Z.pow_lt_mono_r; lia). lia.
Qed.

(* ------------------------------------------------------------------------- C40 *)
(** Any computation carried out in Montgomery representation, for any odd modulus greater than 1, yields after ConvertOut the value
    of the same computation on integers modulo the modulus. *)
Theorem C40_montgomery : forall w m vm e v, word_bits w -> is_int w m vm -> 1 < vm -> vm mod 2 = 1 -> sem (is_int w) vm e v ->
  exists r, mont_compute w m e = ROk r /\ is_int w r (v mod vm).
Proof. intros. apply mont_compute_int; auto. Qed.
(** In particular one product. *)
Theorem C40_product : forall w m vm a b va vb, word_bits w -> is_int w m vm -> 1 < vm -> vm mod 2 = 1 -> is_int w a va -> is_int w b vb ->
  exists mo, make_mont w m = ROk mo /\ exists x y z r, mont_convert_in w mo a = ROk x /\ mont_convert_in w mo b = ROk y /\ mont_multiply w mo false x y = ROk z /\ mont_convert_out w mo (copy z) = ROk r /\ is_int w r ((va * vb) mod vm).
Proof.
  intros w m vm a b va vb Hw Hm L O A B. pose proof (word_bits_big w Hw) as Hb. destruct (make_mont_int w Hw m vm Hm L) as [(_ & mo & E & _ & Hok)|[E _]]; [|lia]. exists mo. split; auto.
  destruct (mont_eval_out w Hw mo vm Hok (EMul (EIn a) (EIn b)) (va * vb)) as (r & Er & Hr). { constructor; constructor; auto. }
  cbn [mont_eval] in Er. destruct (mont_convert_in w mo a) as [x| | | |]; try discriminate. cbn [rbind] in Er. destruct (mont_convert_in w mo b) as [y| | | |]; try discriminate. cbn [rbind] in Er. unfold rmap in Er. destruct (mont_multiply w mo false x y) as [z| | | |] eqn:Ez; try discriminate. cbn [rbind] in Er.
  exists x, y, z, r. auto.
Qed.
Theorem C40_even_modulus : forall w m vm, word_bits w -> is_int w m vm -> 1 < vm -> vm mod 2 = 0 -> make_mont w m = RThrow.
Proof. intros w m vm Hw Hm L O. pose proof (word_bits_big w Hw) as Hb. destruct (make_mont_int w Hw m vm Hm L) as [(E & _)|[_ E]]; auto. lia. Qed.
(** modarith.h:293-294 allows the reference a call returns to be an argument of the next. If the modulus object has a register
    longer than it needs, that reference has too, and Multiply writes past its work space. *)
Theorem C40_reference_refuted :
  let m := long_ 1000003 in is_int 64 m 1000003 /\ exists mo a r, make_mont 64 m = ROk mo /\ mont_convert_in 64 mo (small 2) = ROk a /\ mont_multiply 64 mo false a a = ROk r /\ mont_multiply 64 mo false a r = RMemory.
Proof.
  cbv zeta. split; [lit 3%nat|].
  pose (ok := fun (A : Type) (d : A) (r : res A) => match r with ROk a => a | _ => d end).
  pose (mo := ok _ (mkMont (make_mod int_zero) []) (make_mont 64 (long_ 1000003))). pose (a := ok _ int_zero (mont_convert_in 64 mo (small 2))).
  exists mo, a, (ok _ int_zero (mont_multiply 64 mo false a a)). repeat split; vm_compute; reflexivity.
Qed.
Example C40_example : mont_compute 64 (small 1000003) (EMul (ESub (EIn (small 3)) (EIn (small 5))) (EInv (ESqr (EIn (small 7))))) = ROk (small 367348) /\ ((3 - 5) * 816329) mod 1000003 = 367348 /\ (7 * 7 * 816329) mod 1000003 = 1.
Proof. repeat split; vm_compute; reflexivity. Qed.

(* ------------------------------------------------------------------------- C42 *)
(** The greatest common divisor; [fuel] bounds the number of division steps, and any bound that is large enough will do. *)
Theorem C42_gcd_partial : forall w x y a b, word_bits w -> is_int w x a -> is_int w y b ->
  exists fuel0, forall fuel, (fuel0 <= fuel)%nat -> exists r vr, int_gcd w fuel x y = ROk r /\ is_int w r vr /\ Z.abs vr = Z.gcd a b /\ (0 <= a -> 0 <= b -> vr = Z.gcd a b /\ relatively_prime w fuel x y = ROk (Z.gcd a b =? 1) /\ (a <> 0 -> exists l, int_lcm w fuel x y = ROk l /\ is_int w l (Z.lcm a b))).
Proof.
  intros w x y a b Hw X Y. pose proof (word_bits_big w Hw) as Hb. exists (S (Z.to_nat (Z.abs a))). intros fuel Hf.
  destruct (int_gcd_int w Hw x y a b fuel X Y Hf) as (r & vr & E & Hr & A & NN). exists r, vr. split; auto. split; auto. split; auto.
  intros Ha Hb'. specialize (NN Ha Hb'). assert (EV : vr = Z.gcd a b) by (rewrite Z.abs_eq in A by auto; auto). split; auto. split.
  - unfold relatively_prime. rewrite E. cbn [rbind]. rewrite (compare_int w r int_one vr 1 Hr (one_int w)). rewrite EV. f_equal. destruct (Z.compare_spec (Z.gcd a b) 1); destruct (Z.eqb_spec (Z.gcd a b) 1); try reflexivity; lia.
  - intros N. unfold int_lcm. rewrite E. cbn [rbind]. assert (G : Z.gcd a b <> 0) by (intros Q; apply Z.gcd_eq_0_l in Q; auto). rewrite EV in *. destruct (divided_by_int w x r a (Z.gcd a b) Hw X Hr G) as (q & Eq & Hq). rewrite Eq. cbn [rbind]. eexists. split; [reflexivity|].
    pose proof (Z.gcd_nonneg a b). rewrite Z.sgn_pos, Z.abs_eq, Z.mul_1_l in Hq by lia. pose proof (times_int w q y _ b Hq Y) as T. unfold Z.lcm. destruct (Z.gcd_divide_l a b) as [u Hu]. destruct (Z.gcd_divide_r a b) as [t Ht].
    replace (Z.abs (a * (b / Z.gcd a b))) with (a / Z.gcd a b * b); auto.
    rewrite Z.abs_eq. { rewrite Hu at 1. rewrite Z.div_mul by auto. rewrite Ht at 2. rewrite Z.div_mul by auto. rewrite Hu, Ht at 1. ring. } apply Z.mul_nonneg_nonneg; auto. apply Z.div_pos; lia.
Qed.
(** Of negative numbers Gcd may return a negative number, and RelativelyPrime(-1, 5) is false. *)
Theorem C42_gcd_refuted : let x := mkInt true [1; 0] in is_int 64 x (-1) /\ int_gcd 64 100 x (small 5) = ROk (mkInt true [1; 0]) /\ Z.gcd (-1) 5 = 1 /\ relatively_prime 64 100 x (small 5) = ROk false.
Proof. cbv zeta. split; [lit 1%nat|]. repeat split; vm_compute; reflexivity. Qed.
(** The inverse modulo any modulus greater than 1, even or odd: the inverse, or 0 when there is none. The number may be negative or exceed
    the modulus; if it does not, its register must not be more than twice as long as the modulus's. *)
Theorem C42_inverse_partial : forall w x m vx vm, word_bits w -> is_int w x vx -> is_int w m vm -> 1 < vm -> (0 <= vx < vm -> (length (reg x) <= 2 * length (reg m))%nat) ->
  exists r vr, inverse_mod w x m = ROk r /\ is_int w r vr /\ inverse_of vx vm vr.
Proof. intros. apply inverse_mod_int; auto. Qed.
(** Without that condition the work space is overrun: 5 in a register of 8 words, modulo 7. *)
Theorem C42_inverse_refuted : is_int 64 (long_ 5) 5 /\ inverse_mod 64 (long_ 5) (small 7) = RMemory.
Proof. split; [lit 3%nat|vm_compute; reflexivity]. Qed.
Theorem C42_inverse_word : forall w x vx m, word_bits w -> is_int w x vx -> 1 < m < 2 ^ w -> Z.of_nat (length (reg x)) <= 2 ^ w ->
  exists fuel0, forall fuel, (fuel0 <= fuel)%nat -> exists r, inverse_word w fuel x m = ROk r /\ inverse_of vx m r.
Proof. intros w x vx m Hw X M L. exists (S (Z.to_nat m)). intros fuel Hf. apply inverse_word_int; auto. Qed.
Example C42_example : inverse_mod 64 (mkInt true [3; 0]) (small 20) = ROk (small 13) /\ (-3 * 13) mod 20 = 1 /\ inverse_mod 64 (small 6) (small 20) = ROk (small 0) /\
  inverse_word 64 100 (small 3) 20 = ROk 7 /\ int_gcd 64 100 (small 48) (small 36) = ROk (small 12) /\ int_lcm 64 100 (small 48) (small 36) = ROk (mkInt false [144; 0; 0; 0]).
Proof. repeat split; vm_compute; reflexivity. Qed.

(* ------------------------------------------------------------------------- C70 *)
(** DEREncode writes the DER encoding, and BERDecode reads it back, exactly that many bytes of it, whatever follows and wherever it stands.
    [b] is the uninitialised byte. The number must not be minus the weight of a register (see C39). *)
Theorem C70_der : forall w x a, word_bits w -> is_int w x a -> let c := encode w true (min_encoded_size w true x) x in
  der_integer_contents a c /\ (len c < 2 ^ 64 -> der_object INTEGER c (int_der w x)).
Proof.
  intros w x a Hw X c. pose proof (word_bits_big w Hw) as Hb. destruct (min_size_spec w Hw true x a X ltac:(discriminate)) as (H1 & H2 & H3). split.
  - unfold der_integer_contents. unfold c. rewrite (encode_signed w Hw x a _ X), be_bytes_length. split; auto. split; [intros Q; apply (f_equal (@length Z)) in Q; rewrite be_bytes_length in Q; cbn [length] in Q; lia|]. auto.
  - intros L. unfold int_der. fold c. apply der_string_is; auto.
Qed.
Theorem C70_round_trip_partial : forall w b x a, word_bits w -> is_int w x a -> ~ full_register w a -> len (encode w true (min_encoded_size w true x) x) < 2 ^ 64 ->
  exists y, is_int w y a /\ reads_back (int_ber w b) y (int_der w x) /\ refuses_prefixes (int_ber w b) (int_der w x).
Proof.
  intros w b x a Hw X NF L. pose proof (word_bits_big w Hw) as Hb. set (c := encode w true (min_encoded_size w true x) x) in *. destruct (min_size_spec w Hw true x a X ltac:(discriminate)) as (H1 & H2 & _).
  exists (decode w true c). split. { apply (C39_round_trip_partial w true x a _ Hw X H1 H2). auto. } split.
  - apply (C32_nested integer INTEGER (int_contents w b) (decode w true c) c L). intros s H O V. unfold int_contents. cbn [s_frames enter].
    pose proof (enter_bound s _ c H O V eq_refl) as Bd. rewrite enter_count, Z.min_l by auto. rewrite Z.ltb_irrefl.
    rewrite (getn_app _ c [] O) by (rewrite app_nil_r; auto). rewrite enter_skip, Z.sub_diag.
    assert (NE : c <> []). { intros Q. apply (f_equal (@length Z)) in Q. unfold c in Q. rewrite (encode_signed w Hw x a _ X), be_bytes_length in Q. cbn [length] in Q. lia. }
    destruct c; [congruence|reflexivity].
  - apply (C34_nested integer INTEGER (int_contents w b) c L). intros s v s' H E. unfold int_contents in E. destruct (s_frames s) as [|[l|] fr] eqn:Fr; try discriminate. destruct (Z.ltb_spec (s_count s) l); [discriminate|].
    unfold s_getn in E. inversion E; subst. exists (Z.min l (s_count s)). split; auto. destruct H as [H _]. rewrite Fr in H. apply Forall_inv in H. cbn in H. lia.
Qed.
(** Any contents are accepted, minimal or not, and mean their two's complement value. *)
Theorem C70_any_contents_partial : forall w b c, word_bits w -> bytes c -> c <> [] -> len c < 2 ^ 64 ->
  let v := if 2 * be_val c >=? 256 ^ len c then be_val c - 256 ^ len c else be_val c in ~ full_register w v -> exists y, is_int w y v /\ reads_back (int_ber w b) y (der_wrap INTEGER c).
Proof.
  intros w b c Hw Hc NE L v NF. exists (decode w true c). split; [apply (decode_s w Hw); auto|].
  apply (C32_nested integer INTEGER (int_contents w b) (decode w true c) c L). intros s H O V. unfold int_contents. cbn [s_frames enter].
  pose proof (enter_bound s _ c H O V eq_refl) as Bd. rewrite enter_count, Z.min_l by auto. rewrite Z.ltb_irrefl. rewrite (getn_app _ c [] O) by (rewrite app_nil_r; auto). rewrite enter_skip, Z.sub_diag. destruct c; [congruence|reflexivity].
Qed.
(** An INTEGER without contents, which X.690 forbids, is accepted, and its value depends on an uninitialised byte. *)
Theorem C70_empty_contents_refuted : exists s, visible s = [2; 0] /\
  option_map (fun p => ival 64 (fst p)) (int_ber 64 0 s) = Some 0 /\ option_map (fun p => ival 64 (fst p)) (int_ber 64 128 s) = Some (-1).
Proof. exists (mkSrc [2; 0] []). repeat split; vm_compute; reflexivity. Qed.
(** The octet-string form has a length of the caller's choice. *)
Theorem C70_octet_string : forall w x a n, word_bits w -> is_int w x a -> fits false n a -> Z.of_nat n < 2 ^ 64 ->
  der_object OCTET_STRING (be_bytes n a) (int_der_octets w n x) /\ exists y, is_int w y a /\ reads_back (int_ber_octets w (Z.of_nat n)) y (int_der_octets w n x) /\ refuses_prefixes (int_ber_octets w (Z.of_nat n)) (int_der_octets w n x).
Proof.
  intros w x a n Hw X F L. unfold fits in F. unfold int_der_octets. rewrite (encode_unsigned w Hw x a n X), Z.abs_eq by lia. set (c := be_bytes n a). assert (Lc : len c = Z.of_nat n) by (unfold len, c; rewrite be_bytes_length; auto). rewrite <- Lc in *. split; [apply der_string_is; auto|].
  exists (decode w false c). split. { pose proof (decode_u w Hw c (be_bytes_bytes n a)) as D. unfold c in D at 2. rewrite be_val_be_bytes in D by (rewrite Lc in F; auto). auto. } split.
  - apply (C32_nested integer OCTET_STRING (octets_contents w (len c)) (decode w false c) c L). intros s H O V. unfold octets_contents. cbn [s_frames enter]. rewrite Z.eqb_refl. cbn [negb].
    pose proof (enter_bound s _ c H O V eq_refl) as Bd. rewrite enter_count, Z.min_l by auto. rewrite Z.ltb_irrefl. rewrite (getn_app _ c [] O) by (rewrite app_nil_r; auto). rewrite enter_skip, Z.sub_diag. reflexivity.
  - apply (C34_nested integer OCTET_STRING (octets_contents w (len c)) c L). intros s v s' H E. unfold octets_contents in E. destruct (s_frames s) as [|[l|] fr] eqn:Fr; try discriminate. destruct (Z.eqb_spec l (len c)) as [->|]; [|discriminate]. cbn [negb] in E. destruct (Z.ltb_spec (s_count s) (len c)); [discriminate|].
    unfold s_getn in E. inversion E; subst. exists (Z.min (len c) (s_count s)). split; auto. pose proof (len_nonneg c). lia.
Qed.
(** An octet string of any other length than the one asked for is refused. *)
Theorem C70_octet_string_length : forall w n c s rest, src_ok s -> len c < 2 ^ 64 -> len c <> n -> visible s = der_wrap OCTET_STRING c ++ rest -> int_ber_octets w n s = None.
Proof.
  intros w n c s rest H L N V. destruct (len_wrap OCTET_STRING c L) as (le & B & E). rewrite E in V. assert (V' : visible s = OCTET_STRING :: le ++ c ++ rest) by (rewrite V; cbn [app]; rewrite <- app_assoc; auto).
  destruct (open_reads OCTET_STRING le c rest s H B L V') as (O & _). unfold int_ber_octets. rewrite O. cbn [bind1]. unfold octets_contents. cbn [s_frames enter]. destruct (Z.eqb_spec (len c) n); [congruence|]. reflexivity.
Qed.
Example C70_example : int_der 64 (small 128) = [2; 2; 0; 128] /\ int_der 64 (mkInt true [128; 0]) = [2; 1; 128] /\ int_ber 64 0 (mkSrc [2; 2; 255; 127; 7] []) = Some (mkInt true [129; 0], mkSrc [7] []) /\ int_ber 64 0 (mkSrc [2; 2; 255] []) = None /\
  int_der_octets 64 4 (small 258) = [4; 4; 0; 0; 1; 2] /\ der_integer_contents (-128) [128].
Proof.
  repeat split; try (vm_compute; reflexivity); try (vm_compute; discriminate). intros m Hm _. auto.
Qed.

(* ------------------------------------------------------------------------- C71 *)
Theorem C71_square_root : forall w x a, word_bits w -> is_int w x a ->
  exists fuel0, forall fuel, (fuel0 <= fuel)%nat -> exists r vr, square_root w fuel x = ROk r /\ is_int w r vr /\ 0 <= vr /\ (0 <= a -> vr * vr <= a < (vr + 1) * (vr + 1)) /\ (a < 0 -> vr = 0).
Proof.
  intros w x a Hw X. destruct (square_root_int w Hw x a X) as (f0 & H). exists f0. intros fuel Hf. destruct (H fuel Hf) as (r & E & Hr). exists r, (if a <=? 0 then 0 else Z.sqrt a). split; auto. split; auto.
  destruct (Z.leb_spec a 0). - split; [lia|]. split; lia. - split; [apply Z.sqrt_nonneg|]. split; [|lia]. intros _. pose proof (Z.sqrt_spec a ltac:(lia)) as S. unfold Z.succ in S. auto.
Qed.
Example C71_example : square_root 64 100 (small 1000003) = ROk (mkInt false [1000; 0; 0; 0]) \/ square_root 64 100 (small 1000003) = ROk (small 1000).
Proof. vm_compute. auto. Qed.

(* ------------------------------------------------------------------------- C72 *)
(** OpenPGP's form (RFC 4880, 3.2): two bytes for the number of bits, then the number in as few bytes as possible. *)
Theorem C72_openpgp_partial : forall w x a rest, word_bits w -> is_int w x a -> 0 <= a -> let n := if a =? 0 then 0 else Z.log2 a + 1 in n <= 65535 ->
  pgp_encode w x = be_bytes 2 n ++ be_bytes (Z.to_nat ((n + 7) / 8)) a /\ exists y, pgp_decode w (pgp_encode w x ++ rest) = ROk y /\ is_int w y a.
Proof.
  intros w x a rest Hw X R n Rn'. pose proof (word_bits_big w Hw) as Hb. pose proof (bit_count_int w x a Hw X) as BC. rewrite Z.abs_eq in BC by lia. fold n in BC.
  assert (Rn : 0 <= n <= 65535). { split; auto. unfold n. destruct (Z.eqb_spec a 0); [lia|]. pose proof (Z.log2_nonneg a). lia. }
  assert (F : a < 256 ^ Z.of_nat (Z.to_nat ((n + 7) / 8))).
  { rewrite Z2Nat.id by (apply Z.div_pos; lia). change 256 with (2 ^ 8). rewrite <- Z.pow_mul_r by (try apply Z.div_pos; lia). apply Z.lt_le_trans with (2 ^ n). - unfold n. destruct (Z.eqb_spec a 0); [subst; vm_compute; reflexivity|]. pose proof (Z.log2_spec a ltac:(lia)) as S. unfold Z.succ in S. lia.
    - apply Z.pow_le_mono_r; [lia|]. pose proof (Z.div_mod (n + 7) 8 ltac:(lia)). pose proof (Z.mod_pos_bound (n + 7) 8 ltac:(lia)). lia. }
  assert (EN : pgp_encode w x = be_bytes 2 n ++ be_bytes (Z.to_nat ((n + 7) / 8)) a).
  { unfold pgp_encode. rewrite Nat.mod_small by lia. rewrite BC, (encode_unsigned w Hw x a _ X), Z.abs_eq by lia. f_equal. f_equal. rewrite <- BC. replace (Z.of_nat (bit_count w x) + 7) with (Z.of_nat (bit_count w x + 7)) by lia. change 8 with (Z.of_nat 8) at 1. rewrite <- Nat2Z.inj_div. lia. }
  split; auto. rewrite EN. set (k := Z.to_nat ((n + 7) / 8)) in *. exists (decode w false (be_bytes k a)). split.
  - unfold pgp_decode. rewrite <- app_assoc. rewrite app_length, be_bytes_length. replace (2 + _ <? 2)%nat with false by (symmetry; apply Nat.ltb_ge; lia).
    rewrite firstn_app, skipn_app, be_bytes_length, Nat.sub_diag, firstn_O, app_nil_r. rewrite firstn_all2 by (rewrite be_bytes_length; lia). rewrite (skipn_all2 (be_bytes 2 n)) by (rewrite be_bytes_length; lia). rewrite skipn_O, app_nil_l.
    rewrite be_val_be_bytes by (change (256 ^ Z.of_nat 2) with 65536; lia). assert (K : ((Z.to_nat n + 7) / 8)%nat = k). { unfold k. rewrite <- BC. rewrite Nat2Z.id. replace (Z.of_nat (bit_count w x) + 7) with (Z.of_nat (bit_count w x + 7)) by lia. change 8 with (Z.of_nat 8). rewrite <- Nat2Z.inj_div. lia. }
    rewrite K. rewrite app_length, be_bytes_length. replace (k + _ <? k)%nat with false by (symmetry; apply Nat.ltb_ge; lia). rewrite firstn_app, be_bytes_length, Nat.sub_diag, firstn_O, app_nil_r. rewrite firstn_all2 by (rewrite be_bytes_length; lia). reflexivity.
  - pose proof (decode_u w Hw (be_bytes k a) (be_bytes_bytes k a)) as D. rewrite be_val_be_bytes in D by lia. auto.
Qed.
(** A proper prefix of an encoding is refused. *)
Theorem C72_truncated_refused : forall w x a p missing, word_bits w -> is_int w x a -> 0 <= a -> (if a =? 0 then 0 else Z.log2 a + 1) <= 65535 -> p ++ missing = pgp_encode w x -> missing <> [] -> pgp_decode w p = RThrow.
Proof.
  intros w x a p missing Hw X R Rn E NE. destruct (C72_openpgp_partial w x a [] Hw X R Rn) as (EN & _). cbv zeta in EN. set (n := if a =? 0 then 0 else Z.log2 a + 1) in *. rewrite EN in E. clear EN. assert (R0 : 0 <= n). { unfold n. destruct (Z.eqb_spec a 0); [lia|]. pose proof (Z.log2_nonneg a). lia. } clearbody n.
  assert (LM : (0 < length missing)%nat) by (destruct missing; [congruence|cbn; lia]). pose proof (f_equal (@length Z) E) as LE. rewrite !app_length, !be_bytes_length in LE.
  unfold pgp_decode. destruct (Nat.ltb_spec (length p) 2) as [|L2]; auto.
  assert (F : firstn 2 p = be_bytes 2 n). { pose proof (f_equal (firstn 2) E) as F. rewrite !firstn_app in F. replace (2 - length p)%nat with 0%nat in F by lia. rewrite be_bytes_length, Nat.sub_diag, !firstn_O, !app_nil_r in F. rewrite (firstn_all2 (be_bytes 2 n)) in F by (rewrite be_bytes_length; lia). auto. }
  rewrite F, be_val_be_bytes by (change (256 ^ Z.of_nat 2) with 65536; lia). rewrite skipn_length.
  replace ((Z.to_nat n + 7) / 8)%nat with (Z.to_nat ((n + 7) / 8)). 2:{ rewrite <- (Z2Nat.id n) at 1 by lia. replace (Z.of_nat (Z.to_nat n) + 7) with (Z.of_nat (Z.to_nat n + 7)) by lia. change 8 with (Z.of_nat 8) at 1. rewrite <- Nat2Z.inj_div. lia. }
  replace (length p - 2 <? Z.to_nat ((n + 7) / 8))%nat with true; auto. symmetry. apply Nat.ltb_lt. lia.
Qed.
(** A number of 2^16 bits is written as zero, and the sign is lost. *)
Theorem C72_openpgp_refuted : pgp_encode 64 (power2 64 (Z.to_nat 65535)) = [0; 0] /\ pgp_encode 64 (mkInt true [5; 0]) = pgp_encode 64 (small 5).
Proof. split; vm_compute; reflexivity. Qed.
Example C72_example : pgp_encode 64 (small 511) = [0; 9; 1; 255] /\ pgp_decode 64 [0; 9; 1; 255; 7] = ROk (small 511) /\ pgp_decode 64 [0; 9; 1] = RThrow.
Proof. repeat split; vm_compute; reflexivity. Qed.

(* ------------------------------------------------------------------------- C73 *)
(** Any computation with the operations of ModularArithmetic, on elements given as any Integers. *)
Theorem C73_ring : forall w m vm e v, word_bits w -> is_int w m vm -> 1 < vm -> sem (is_int w) vm e v ->
  exists r, ma_eval w (make_mod m) e = ROk r /\ is_int w r (v mod vm).
Proof. intros w m vm e v Hw M L S. destruct (ma_eval_int w Hw (make_mod m) vm (make_ok w Hw m vm M L) e v S) as (r & E & R & _). eauto. Qed.
(** One operation at a time, for arguments in the ring. *)
Theorem C73_operations : forall w m vm a b va vb, word_bits w -> is_int w m vm -> 1 < vm -> is_int w a va -> is_int w b vb -> 0 <= va < vm -> 0 <= vb < vm -> let ma := make_mod m in
  is_int w (ma_add w ma a b) ((va + vb) mod vm) /\ is_int w (ma_accumulate w ma a b) ((va + vb) mod vm) /\ is_int w (ma_subtract w ma a b) ((va - vb) mod vm) /\ is_int w (ma_reduce w ma a b) ((va - vb) mod vm) /\
  (exists r, ma_multiply w ma a b = ROk r /\ is_int w r ((va * vb) mod vm)) /\ (exists r, ma_square w ma a = ROk r /\ is_int w r ((va * va) mod vm)) /\
  (vm mod 2 = 1 -> exists vr, is_int w (ma_half w ma a) vr /\ 0 <= vr < vm /\ (2 * vr) mod vm = va).
Proof.
  intros w m vm a b va vb Hw M L A B RA RB ma. pose proof (make_ok w Hw m vm M L) as K. fold ma in K. split; [apply ma_add_int; auto|]. split; [apply ma_accumulate_int; auto|]. split; [apply ma_subtract_int; auto|]. split; [apply ma_reduce_int; auto|].
  split. { destruct (ma_multiply_int w Hw ma vm K a b va vb A B) as (r & E & R & _). eauto. } split. { destruct (ma_square_int w Hw ma vm K a va A) as (r & E & R & _). eauto. } intros O. apply ma_half_int; auto.
Qed.
Example C73_example : let ma := make_mod (small 1000) in ma_add 64 ma (small 700) (small 400) = small 100 /\ ma_subtract 64 ma (small 300) (small 400) = small 900 /\
  ma_eval 64 ma (EMul (EIn (small 1234)) (EInv (EIn (small 7)))) = ROk (small 462) /\ (7 * 143) mod 1000 = 1 /\ (1234 * 143) mod 1000 = 462 /\ ma_half 64 (make_mod (small 1001)) (small 7) = small 504.
Proof. repeat split; vm_compute; reflexivity. Qed.

Print Assumptions C35_add_sub. Print Assumptions C36_product. Print Assumptions C36_words. Print Assumptions C37_divide. Print Assumptions C37_operators. Print Assumptions C37_word_modulo. Print Assumptions C38_set_bit. Print Assumptions C38_logic.
Print Assumptions C39_round_trip_partial. Print Assumptions C39_min_size. Print Assumptions C40_montgomery. Print Assumptions C42_gcd_partial. Print Assumptions C42_inverse_partial. Print Assumptions C42_inverse_word.
Print Assumptions C70_round_trip_partial. Print Assumptions C70_octet_string. Print Assumptions C71_square_root. Print Assumptions C72_openpgp_partial. Print Assumptions C73_ring. Print Assumptions C73_operations.
