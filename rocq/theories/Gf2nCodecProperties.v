(** C98, continued: the bytes of a polynomial, its encoding and decoding. *)
From Coq Require Import ZArith List Lia Bool Arith.
From Verif Require Import Base WordsSpec WordsModel WordsProofs IntegerModel IntegerProofs IntegerCodecProofs Gf2nModel Gf2nProofs Gf2nCodecModel Gf2nCodecProofs.
Import ListNotations.
Local Open Scope Z_scope.

(** GetByte n holds the coefficients of x^(8n) to x^(8n+7). *)
Theorem C98_get_byte w a n : word_bits w -> words w a ->
  forall k, 0 <= k -> Z.testbit (pm_get_byte w a n) k = (k <? 8) && Z.testbit (wval w a) (8 * Z.of_nat n + k).
Proof.
  intros Hw Ha k Hk. pose proof (word_bits_big w Hw). rewrite get_byte_spec by auto. rewrite p256_2. change 256 with (2 ^ 8). destruct (Z.ltb_spec k 8).
  - rewrite Z.mod_pow2_bits_low, Z.div_pow2_bits by lia. cbn [andb]. f_equal. lia.
  - rewrite Z.mod_pow2_bits_high by lia. reflexivity.
Qed.
Example C98_get_byte_case : pm_get_byte 32 [305419896; 171] 4 = 171 /\ pm_get_byte 32 [305419896; 171] 2 = 52 /\ pm_get_byte 32 [305419896; 171] 8 = 0.
Proof. repeat split. Qed.

(** SetByte n v sets the coefficients of x^(8n) to x^(8n+7) to the bits of v and leaves the others alone. *)
Theorem C98_set_byte w a n v : word_bits w -> words w a -> 0 <= v < 256 ->
  words w (pm_set_byte w a n v) /\
  forall k, 0 <= k -> Z.testbit (wval w (pm_set_byte w a n v)) k =
    if (8 * Z.of_nat n <=? k) && (k <? 8 * Z.of_nat n + 8) then Z.testbit v (k - 8 * Z.of_nat n) else Z.testbit (wval w a) k.
Proof. intros Hw Ha Hv. pose proof (word_bits_big w Hw). apply set_byte_spec; auto. Qed.
Example C98_set_byte_case : pm_set_byte 32 [305419896] 5 255 = [305419896; 65280] /\ pm_set_byte 32 [305419896] 1 0 = [305397880].
Proof. split; reflexivity. Qed.

(** Encode writes the low bytes of the polynomial, most significant first, padded with zeros. *)
Theorem C98_encode w a n : word_bits w -> words w a -> pm_encode w n a = be_bytes n (wval w a).
Proof. intros Hw Ha. pose proof (word_bits_big w Hw). apply encode_spec; auto. Qed.
Example C98_encode_case : pm_encode 32 6 [305419896; 171] = [0; 171; 18; 52; 86; 120] /\ pm_encode 32 2 [305419896; 171] = [86; 120].
Proof. split; reflexivity. Qed.

(** Decode reads that many bytes from the source, no more, as the coefficients; a source too short is refused. *)
Theorem C98_decode w bt n : word_bits w -> bytes bt ->
  if (length bt <? n)%nat then pm_decode w bt n = RThrow
  else exists a, pm_decode w bt n = ROk (a, skipn n bt) /\ words w a /\ wval w a = be_val (firstn n bt).
Proof.
  intros Hw Hb. pose proof (word_bits_big w Hw). destruct (Nat.ltb_spec (length bt) n) as [L|L].
  - unfold pm_decode. rewrite (proj2 (Nat.ltb_lt _ _) L). reflexivity.
  - apply decode_spec; auto.
Qed.
Example C98_decode_case : pm_decode 32 [0; 171; 18; 52; 86; 120; 9] 6 = ROk ([305419896; 171], [9]) /\ pm_decode 32 [1] 2 = RThrow.
Proof. split; reflexivity. Qed.

(** A polynomial of fewer than 8n coefficients survives Encode to n bytes and Decode. *)
Theorem C98_encode_decode w a n : word_bits w -> words w a -> wval w a < 2 ^ (8 * Z.of_nat n) ->
  exists b, pm_decode w (pm_encode w n a) n = ROk (b, []) /\ words w b /\ wval w b = wval w a.
Proof.
  intros Hw Ha L. pose proof (word_bits_big w Hw). pose proof (V_bound w a Ha). rewrite C98_encode by auto. destruct (decode_spec w Hw (be_bytes n (wval w a)) n) as (b & E & Hb & Vb); [apply be_bytes_bytes|rewrite be_bytes_length; lia|].
  exists b. rewrite E, skipn_all2 by (rewrite be_bytes_length; lia). split; auto. split; auto. rewrite Vb, firstn_all2 by (rewrite be_bytes_length; lia). apply be_val_be_bytes. rewrite p256_2. lia.
Qed.
Example C98_encode_decode_case : pm_decode 32 (pm_encode 32 5 [305419896; 171; 0]) 5 = ROk ([305419896; 171], []).
Proof. reflexivity. Qed.

Print Assumptions C98_get_byte.
Print Assumptions C98_set_byte.
Print Assumptions C98_encode.
Print Assumptions C98_decode.
Print Assumptions C98_encode_decode.
