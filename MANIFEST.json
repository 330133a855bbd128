{
 "claims": [
  {
   "property": "C01",
   "status": "proved",
   "theorems": [
    "C01_codec_round_trip",
    "C01_standard_codecs_round_trip",
    "C01_custom_alphabet_round_trip",
    "C01_literal_tables"
   ],
   "note": "Round trip through encoder, grouper, arbitrary re-chunking and decoder; instances for all standard tables and for every custom alphabet of distinct bytes. Attached transformation assumed non-blocking."
  },
  {
   "property": "C02",
   "status": "proved",
   "theorems": [
    "C02_encoder_chunking_independent",
    "C02_decoder_chunking_independent",
    "C02_grouper_chunking_independent"
   ],
   "note": "Encoder, decoder and Grouper; histories of any number of messages."
  },
  {
   "property": "C03",
   "status": "proved",
   "theorems": [
    "C03_decoder_ignores_foreign_characters"
   ],
   "note": "For any lookup table and decoder state."
  },
  {
   "property": "C04",
   "status": "proved",
   "theorems": [
    "C04_encoder_computes_positional_encoding",
    "C04_decoder_computes_recut",
    "C04_encoded_length"
   ],
   "note": "Bit-string specification in CodecSpec.v; decoder specification and length bounds included."
  },
  {
   "property": "C05",
   "status": "proved",
   "theorems": [
    "C05_grouper_spec",
    "C05_grouper_removable"
   ],
   "note": "Index characterisation of separators; removability."
  },
  {
   "property": "C06",
   "status": "proved",
   "theorems": [
    "C06_bytequeue_is_fifo",
    "C06_node_size_unobservable",
    "C06_nodesize_zero_refuted"
   ],
   "note": "All histories of two interacting queues. NodeSize 0 given explicitly makes Put hang: C06_nodesize_zero_refuted. operator= to itself is not modelled."
  },
  {
   "property": "C07",
   "status": "proved",
   "theorems": [
    "C07_observers_agree",
    "C07_equality_decides",
    "C07_walker_reads_content",
    "C07_walker_max_retrievable_refuted"
   ],
   "note": "Queue and Walker observers. Walker::MaxRetrievable is inherited and wrong: C07_walker_max_retrievable_refuted."
  },
  {
   "property": "C08",
   "status": "proved",
   "theorems": [
    "C08_message_boundaries",
    "C08_copyrange_default_limit_refuted"
   ],
   "note": "Message boundaries over all histories; CopyRangeTo2 with its default limit reads over the boundary: C08_copyrange_default_limit_refuted."
  },
  {
   "property": "C09",
   "status": "partial",
   "theorems": [
    "C09_series_count_refuted",
    "C09_series_counts_partial",
    "C09_swap_refuted",
    "C09_swap_messages_partial"
   ],
   "note": "The property as stated fails on the code (C09_series_count_refuted, C09_swap_refuted). Proved: counts for histories of non-empty series, and content after swap."
  },
  {
   "property": "C10",
   "status": "proved",
   "theorems": [
    "C10_history",
    "C10_digest_independent_of_chunking"
   ],
   "note": "Histories of Update, TruncatedFinal, Restart, CreateUpdateSpace on the iterated-hash buffer machine over an abstract compression function, both word sizes and byte orders."
  },
  {
   "property": "C11",
   "status": "proved",
   "theorems": [
    "C11_padding_exists_and_is_unique",
    "C11_digest_is_merkle_damgard"
   ],
   "note": "Padding characterised independently (unique block-aligned extension), digest equals the Merkle-Damgard fold."
  },
  {
   "property": "C12",
   "status": "proved",
   "theorems": [
    "C12_hash_restarts_cleanly",
    "C12_hmac_restarts_cleanly",
    "C12_cmac_restarts_cleanly",
    "C12_cbcmac_restarts_cleanly"
   ],
   "note": "Iterated hashes, HMAC, CMAC, CBC-MAC: what follows a Final or Restart does not depend on what came before."
  },
  {
   "property": "C13",
   "status": "partial",
   "theorems": [
    "C13_refusal_partial",
    "C13_true_bit_length",
    "C13_long_messages_wrap_refuted"
   ],
   "note": "With N-bit count words, messages of 2^(2N) bytes or more are refused and the true bit length is hashed below 2^(2N) bits. Missing because false of the code: refusal of lengths from 2^(2N)/8 to 2^(2N) bytes, which are hashed with a wrapped length (C13_long_messages_wrap_refuted)."
  },
  {
   "property": "C14",
   "status": "proved",
   "theorems": [
    "C14_hmac_generic",
    "C14_iterated_hash_implements_its_digest",
    "C14_hmac_is_rfc2104"
   ],
   "note": "HMAC over any object that implements a hash function; instance for iterated hashes."
  },
  {
   "property": "C15",
   "status": "proved",
   "theorems": [
    "C15_cmac_history",
    "C15_cmac_of_chunks"
   ],
   "note": "Histories of Update, TruncatedFinal, Restart and SetKey for every cipher with one of the five block sizes the code supports. AdvancedProcessBlocks is the portable loop."
  },
  {
   "property": "C16",
   "status": "proved",
   "theorems": [
    "C16_cbcmac_history",
    "C16_zero_padding_collides"
   ],
   "note": "As C15; C16_zero_padding_collides states what the zero padding costs."
  },
  {
   "property": "C17",
   "status": "proved",
   "theorems": [
    "C17_poly1305_tls_history",
    "C17_poly1305_tls_of_chunks",
    "C17_poly1305_history"
   ],
   "note": "Poly1305TLS and Poly1305<T> (any block cipher): every history of Update, TruncatedFinal, Restart, SetKey and Resynchronize; limbs with explicit 32- and 64-bit wrap. Poly1305<T>::Resynchronize does not restart the message: part of the history specification and shown in C17_resync_example."
  },
  {
   "property": "C18",
   "status": "proved",
   "theorems": [
    "C18_verify_bufs_equal_iff",
    "C18_truncated_verify"
   ],
   "note": "VerifyBufsEqual with its word and byte strides, TruncatedVerify on any implemented hash."
  },
  {
   "property": "C19",
   "status": "proved",
   "theorems": [
    "C19_adler32_history",
    "C19_adler32_of_chunks"
   ],
   "note": "All histories and chunkings, for any unsigned long of at least 32 bits."
  },
  {
   "property": "C20",
   "status": "proved",
   "theorems": [
    "C20_ecb_history",
    "C20_cbc_encrypt_history",
    "C20_cbc_decrypt_history",
    "C20_ecb_round_trip",
    "C20_cbc_round_trip"
   ],
   "note": "Any sequence of ProcessData calls, each in place or on non-overlapping buffers, in a byte memory; ECB and CBC, both directions, and the round trips for independent splits. AdvancedProcessBlocks is the portable loop."
  },
  {
   "property": "C21",
   "status": "proved",
   "theorems": [
    "C21_cts_encrypt",
    "C21_cts_round_trip",
    "C21_stolen_iv_round_trip",
    "C21_short_refused",
    "C21_in_place_refuted"
   ],
   "note": "Whole message = CBC calls then ProcessLastBlock on non-overlapping buffers; CBC-CS3 specification; stolen IV. In place, ProcessLastBlock is wrong: C21_in_place_refuted."
  },
  {
   "property": "C22",
   "status": "proved",
   "theorems": [
    "C22_cfb_history",
    "C22_cfb_round_trip",
    "C22_cfb_objects_round_trip",
    "C22_additive_round_trip",
    "C22_ofb_round_trip",
    "C22_ctr_round_trip"
   ],
   "note": "CFB for every feedback size with resynchronization; OFB, CTR and any additive policy that satisfies the policy laws."
  },
  {
   "property": "C23",
   "status": "proved",
   "theorems": [
    "C23_additive_history",
    "C23_ofb_history",
    "C23_ctr_history"
   ],
   "note": "Any policy satisfying policy_law, with instances for OFB and CTR; histories of ProcessData, GenerateBlock, Seek, Resynchronize."
  },
  {
   "property": "C24",
   "status": "proved",
   "theorems": [
    "C24_seek",
    "C24_ctr_seek",
    "C24_seek_is_discard"
   ],
   "note": "Generic over seekable policies, with CTR instance."
  },
  {
   "property": "C25",
   "status": "proved",
   "theorems": [
    "C25_ctr_blocks",
    "C25_increment",
    "C25_seek_iteration"
   ],
   "note": "Keystream blocks through OperateKeystream with its 256-boundary batching; increment and seek as big-endian arithmetic."
  },
  {
   "property": "C26",
   "status": "proved",
   "theorems": [
    "C26_resynchronize",
    "C26_cfb_resynchronize",
    "C26_refused_iv_refuted"
   ],
   "note": "Additive ciphers (any policy) and CFB. A refused IV is not without effect: C26_refused_iv_refuted."
  },
  {
   "property": "C27",
   "status": "proved",
   "theorems": [
    "C27_history",
    "C27_messages",
    "C27_intact"
   ],
   "note": "Every first, block and last size, any history of Put, PutModifiable and Flush, compared with a queue-free specification; FirstPut and LastPut get exactly determined bytes, NextPut gets the bytes between in block multiples (its pieces may depend on the split, their concatenation does not)."
  },
  {
   "property": "C28",
   "status": "proved",
   "theorems": [
    "C28_padded_round_trip",
    "C28_no_padding_round_trip",
    "C28_no_padding_refuses",
    "C28_zeros_round_trip",
    "C28_special_last_round_trip",
    "C28_ecb_pair",
    "C28_cbc_pair",
    "C28_cts_pair",
    "C28_cbc_padded",
    "C28_zeros_with_stealing_refuted"
   ],
   "note": "Any pair of transformations that satisfies cipher_pair, any split on both sides, any sequence of messages; instances ECB, CBC, CBC-CTS. ZEROS_PADDING with ciphertext stealing fails on messages of at most one block: C28_zeros_with_stealing_refuted."
  },
  {
   "property": "C29",
   "status": "proved",
   "theorems": [
    "C29_accepts_iff_valid"
   ],
   "note": "Exact characterisation of what is accepted, after any history, for PKCS, ONE_AND_ZEROS and W3C padding."
  },
  {
   "property": "C30",
   "status": "partial",
   "theorems": [
    "C30_at_end",
    "C30_at_begin",
    "C30_hash_filter",
    "C30_hash_then_verify",
    "C30_short_stream_refuted",
    "C30_after_exception_refuted"
   ],
   "note": "HASH_AT_END: any history of messages, including short ones and after exceptions. HASH_AT_BEGIN: streams that contain a digest, up to the first exception. Missing because false of the code: HASH_AT_BEGIN on shorter streams and after an exception (C30_short_stream_refuted, C30_after_exception_refuted)."
  },
  {
   "property": "C31",
   "status": "proved",
   "theorems": [
    "C31_encoding_is_der",
    "C31_encoding_is_shortest",
    "C31_round_trip",
    "C31_round_trip_size_t",
    "C31_accepts_exactly_ber"
   ],
   "note": "Every length below 2^64, in any nesting of open decoders; the decoder accepts exactly the definite BER lengths below 2^64."
  },
  {
   "property": "C32",
   "status": "proved",
   "theorems": [
    "C32_null",
    "C32_octet_string",
    "C32_text_string",
    "C32_date",
    "C32_bit_string",
    "C32_unsigned",
    "C32_boolean",
    "C32_nested",
    "C32_unread_contents_refused",
    "C32_documents"
   ],
   "note": "Each primitive in any context, and documents of any nesting. BOOLEAN true is read back as 255, whatever non-zero word was written."
  },
  {
   "property": "C33",
   "status": "partial",
   "theorems": [
    "C33_round_trip_partial",
    "C33_round_trip_refuted"
   ],
   "note": "Proved for second arcs below 40, against X.690 subidentifiers. Missing because false of the code: second arcs of 40 and above under arc 2 (C33_round_trip_refuted)."
  },
  {
   "property": "C34",
   "status": "proved",
   "theorems": [
    "C34_strings",
    "C34_null",
    "C34_bit_string",
    "C34_unsigned",
    "C34_oid",
    "C34_length",
    "C34_nested",
    "C34_strings_present",
    "C34_unsigned_present",
    "C34_oid_present"
   ],
   "note": "Prefixes cut by the end of the input or of any enclosing object; also: whatever is accepted is present in full."
  },
  {
   "property": "C35",
   "status": "proved",
   "theorems": [
    "C35_add_sub",
    "C35_unary",
    "C35_compare",
    "C35_constructors",
    "C35_negative_zero_refuted"
   ],
   "note": "Word sizes 32 and 64, registers of any size a constructor or operation leaves, through the word-level loops. Integer(NEGATIVE, 0) is a negative zero that compares unequal to zero: C35_negative_zero_refuted."
  },
  {
   "property": "C36",
   "status": "proved",
   "theorems": [
    "C36_product",
    "C36_words"
   ],
   "note": "Integer::Times and Squared, and the word-level Karatsuba multiplication, squaring and asymmetric multiplication for every supported length."
  },
  {
   "property": "C37",
   "status": "partial",
   "theorems": [
    "C37_divide",
    "C37_divide_by_zero",
    "C37_operators",
    "C37_power_of_two",
    "C37_word_partial",
    "C37_word_modulo",
    "C37_word_refuted"
   ],
   "note": "Divide, operator%, operator/, DivideByPowerOf2 and Modulo(word) for all operands. Missing because false of the code: Divide by a word that is a power of two of a negative dividend (C37_word_refuted)."
  },
  {
   "property": "C38",
   "status": "partial",
   "theorems": [
    "C38_shifts",
    "C38_read",
    "C38_counts",
    "C38_set_bit",
    "C38_clear_bit_partial",
    "C38_clear_bit_refuted",
    "C38_logic"
   ],
   "note": "All operations on all integers. Missing because false of the code: clearing the only bit of a negative number, which leaves a negative zero (C38_clear_bit_refuted)."
  },
  {
   "property": "C39",
   "status": "partial",
   "theorems": [
    "C39_encode",
    "C39_decode_unsigned",
    "C39_decode_signed_partial",
    "C39_round_trip_partial",
    "C39_min_size",
    "C39_round_trip_refuted"
   ],
   "note": "Encode, Decode and MinEncodedSize for every length. Missing because false of the code: signed decoding of minus the weight of a whole register, e.g. -2^128 (C39_round_trip_refuted)."
  },
  {
   "property": "C40",
   "status": "proved",
   "theorems": [
    "C40_montgomery",
    "C40_product",
    "C40_even_modulus",
    "C40_reference_refuted"
   ],
   "note": "Any expression of ring operations (sum, difference, negation, product, square, inverse) through word-level Montgomery arithmetic, for every odd modulus; even moduli throw. Feeding the returned reference of an oversized modulus object back in overruns the work space: C40_reference_refuted."
  },
  {
   "property": "C41",
   "status": "proved",
   "theorems": [
    "C41_simultaneous",
    "C41_scalar_multiply",
    "C41_cascade",
    "C41_general_cascade",
    "C41_simultaneous_exponentiate",
    "C41_a_exp_b_mod_c",
    "C41_cascade_exponentiate",
    "C41_unreduced_base_refuted",
    "C41_montgomery"
   ],
   "note": "Any group (any commutative monoid without fast inversion), any number of exponents or pairs, through the sliding windows and tables; modular and Montgomery exponentiation as instances. CascadeExponentiate of ModularArithmetic with an even modulus returns an unreduced base as it is: C41_unreduced_base_refuted."
  },
  {
   "property": "C42",
   "status": "partial",
   "theorems": [
    "C42_gcd_partial",
    "C42_gcd_refuted",
    "C42_inverse_partial",
    "C42_inverse_refuted",
    "C42_inverse_word"
   ],
   "note": "Gcd up to sign, exact for non-negative arguments, RelativelyPrime and LCM; inverses modulo Integers (odd and even) and words. Missing because false of the code: the sign of Gcd for negative arguments (C42_gcd_refuted), and operands in registers more than twice as long as the modulus's (C42_inverse_refuted)."
  },
  {
   "property": "C43",
   "status": "proved",
   "theorems": [
    "C43_crt",
    "C43_modular_root",
    "C43_modular_root_of"
   ],
   "note": "CRT for all coprime moduli, with uniqueness; ModularRoot from CRT exponents and from the public exponent (operands in registers at most twice as long as the modulus's, as InverseMod requires)."
  },
  {
   "property": "C44",
   "status": "proved",
   "theorems": [
    "C44_jacobi"
   ],
   "note": "Against the definition by Legendre symbols over the prime factors, for every odd positive b; quadratic reciprocity is proved here."
  },
  {
   "property": "C45",
   "status": "proved",
   "theorems": [
    "C45_validate",
    "C45_inverts",
    "C45_decrypts",
    "C45_fault_detected",
    "C45_iso"
   ],
   "note": "Word-level arithmetic with blinding and CRT, any random blocks; Validate level 1 is exactly the PKCS #1 equations; faults in the CRT computation are caught; ISO variant. Primality of the factors is a hypothesis (Validate level 2 tests it)."
  },
  {
   "property": "C46",
   "status": "proved",
   "theorems": [
    "C46_round_trip"
   ],
   "note": "For every message not longer than MaxUnpaddedLength with blocks of at least two full bytes; a generator without enough usable words is the only way to stop it."
  },
  {
   "property": "C47",
   "status": "partial",
   "theorems": [
    "C47_accepted_partial",
    "C47_non_empty",
    "C47_well_formed_refuted"
   ],
   "note": "Exact acceptance condition. The claim holds for non-empty messages (C47_non_empty) and fails for the empty one: C47_well_formed_refuted."
  },
  {
   "property": "C48",
   "status": "proved",
   "theorems": [
    "C48_round_trip",
    "C48_accepted",
    "C48_label",
    "C48_short_block_refuted"
   ],
   "note": "Any hash and mask generating function; exact acceptance; wrong label rejected. With keys shorter than two hashes Pad and Unpad leave the buffer: C48_short_block_refuted."
  },
  {
   "property": "C49",
   "status": "partial",
   "theorems": [
    "C49_round_trip_partial",
    "C49_round_trip_refuted",
    "C49_accepted"
   ],
   "note": "Exact acceptance and round trip for any hash and mask function when no least pad is asked for or the first byte is full; with a least pad and a partial first byte the claim fails: C49_round_trip_refuted."
  },
  {
   "property": "C50",
   "status": "proved",
   "theorems": [
    "C50_round_trip",
    "C50_one_call"
   ],
   "note": "GCM, CCM, EAX and ChaCha20Poly1305, after any earlier history of both objects and with any pieces on both sides."
  },
  {
   "property": "C51",
   "status": "proved",
   "theorems": [
    "C51_pieces",
    "C51_gcm_standard",
    "C51_gcm_standard_12",
    "C51_gcm_counter_refuted",
    "C51_gcm_counter_loop"
   ],
   "note": "Any pieces. GCM's first counter is a 128-bit increment of J0 where the standard has a 32-bit one: same stream for 12-byte IVs, another for some others (C51_gcm_counter_refuted)."
  },
  {
   "property": "C52",
   "status": "proved",
   "theorems": [
    "C52_histories",
    "C52_no_iv",
    "C52_refused_calls",
    "C52_header_after_message_refuted",
    "C52_header_after_message",
    "C52_eax_restart_refuted",
    "C52_restart"
   ],
   "note": "Every history of calls. Header data after message data are not refused by the call that brings them, but no tag can be had afterwards (C52_header_after_message, _refuted); EAX does not restart in the middle of a message (C52_eax_restart_refuted)."
  },
  {
   "property": "C53",
   "status": "proved",
   "theorems": [
    "C53_verify",
    "C53_sender",
    "C53_ccm_unannounced_refuted"
   ],
   "note": "Exact acceptance, for tags of any length up to the full one. CCM without announced lengths is refuted (C53_ccm_unannounced_refuted)."
  },
  {
   "property": "C54",
   "status": "partial",
   "theorems": [
    "C54_padding_removed",
    "C54_one_piece",
    "C54_no_bad_split",
    "C54_split_refuted",
    "C54_message_end_refuted",
    "C54_overread_refuted"
   ],
   "note": "Proved for every split that does not put the 01 of the padding as the first non-zero byte of a piece after something that already looks padded (in particular for one piece, and for every message that does not itself end like padding). The full claim is false of the code: C54_split_refuted, and C54_message_end_refuted and C54_overread_refuted for the end of a message."
  },
  {
   "property": "C55",
   "status": "partial",
   "theorems": [
    "C55_secret_recovered",
    "C55_unpadded_secret_recovered",
    "C55_new_object_idle",
    "C55_shares",
    "C55_information_recovered_partial",
    "C55_unpadded_information_recovered",
    "C55_information_node_refuted",
    "C55_second_message_refuted"
   ],
   "note": "SecretSharing and SecretRecovery are proved end to end for every message, pieces, random bytes, threshold and set of shares. InformationDispersal and InformationRecovery are proved where the last 4t bytes come in one piece and the object is new or its last message filled the channels evenly; the full claim is false of the code there: C55_information_node_refuted, C55_second_message_refuted."
  },
  {
   "property": "C56",
   "status": "proved",
   "theorems": [
    "C56_multiply_is_product_mod_f",
    "C56_ring",
    "C56_inverse",
    "C56_no_zero_divisors",
    "C56_divide",
    "C56_inverse_any_modulus"
   ],
   "note": "Both compiled forms of Multiply, every modulus; inverses for the default modulus, and for any other modulus wherever an inverse exists. RandomElement is not modelled."
  },
  {
   "property": "C57",
   "status": "partial",
   "theorems": [
    "C57_rijndael",
    "C57_tea",
    "C57_xtea",
    "C57_rc5",
    "C57_rc6",
    "C57_speck64",
    "C57_speck128",
    "C57_simon64",
    "C57_simon128",
    "C57_threefish256",
    "C57_threefish512",
    "C57_threefish1024",
    "C57_btea_partial",
    "C57_btea_mask_refuted",
    "C57_btea_one_word_refuted",
    "C57_des",
    "C57_des_ede2",
    "C57_des_ede3",
    "C57_des_xex3",
    "C57_xex3_in_place_refuted"
   ],
   "note": "TEA, XTEA, RC5, RC6, SPECK, SIMON and Threefish: both objects are inverse permutations for every key, round count and tweak, and masks are applied. BTEA: inverse for blocks of two words or more, but it ignores the mask and is not inverse on one-word blocks (refuted, with witnesses). Rijndael, DES, DES-EDE2, DES-EDE3 and DES-XEX3 likewise. DES-XEX3 gives a wrong answer when the mask is the output buffer, as when CTR or CFB works in place (refuted: the data is overwritten before it is read). Missing: only what is refuted."
  },
  {
   "property": "C58",
   "status": "proved",
   "theorems": [
    "C58_exact",
    "C58_in_range",
    "C58_wraps",
    "C58_uniform"
   ],
   "note": "Exact rejection sampling, in range, uniform over the words of the generator."
  },
  {
   "property": "C59",
   "status": "partial",
   "theorems": [
    "C59_step_partial",
    "C59_bytes",
    "C59_recurrence_refuted",
    "C59_zero_seed_refuted"
   ],
   "note": "The exact step of the code; the recurrence of the claim fails (unsigned arithmetic): C59_recurrence_refuted, C59_zero_seed_refuted."
  },
  {
   "property": "C60",
   "status": "partial",
   "theorems": [
    "C60_content",
    "C60_no_crash",
    "C60_after_exception",
    "C60_destructor",
    "C60_mark_leaves_elements",
    "C60_new_exception_refuted",
    "C60_swap_refuted"
   ],
   "note": "Proved for every history of New, CleanNew, Grow, CleanGrow, resize, Assign, Append, SetMark and writes, with AllocatorWithCleanup and FixedSizeAllocatorWithCleanup, whatever fresh memory holds and whichever allocations fail, up to the first exception of a call that does not keep the old elements. Refuted, with witnesses: after such an exception (New, CleanNew, Assign with AllocatorWithCleanup) the block points to freed memory, and swap of two fixed-size blocks does not exchange their contents."
  },
  {
   "property": "C61",
   "status": "proved",
   "theorems": [
    "C61_complete_is_accepted",
    "C61_only_complete_is_accepted",
    "C61_prefix_free",
    "C61_decode",
    "C61_decode_one_code",
    "C61_encode",
    "C61_roundtrip",
    "C61_no_codeword_refuted",
    "C61_oversubscribed_refuted"
   ],
   "note": "For every set of lengths with Kraft's equality: accepted, prefix-free, every decoder state reads exactly the next codeword, and what the encoder writes is read back. Two theorems refute what the code does for codes of one bit only: the bit that is no codeword is read as a symbol, and three codes of one bit are accepted."
  },
  {
   "property": "C62",
   "status": "proved",
   "theorems": [
    "C62_length",
    "C62_distance"
   ],
   "note": "For every length 3 to 258 and distance 1 to 32768, against the tables of RFC 1951; with C93 also that these symbols are what a decoder reads back."
  },
  {
   "property": "C63",
   "status": "partial",
   "theorems": [
    "C63_window",
    "C63_deflate_windows",
    "C63_window_256_refuted"
   ],
   "note": "The window (OutputByte, OutputString, OutputPast, FlushOutput) for every sequence of requests and every window size of at least 257 bytes; refuted for the 256-byte window a zlib header can ask for. The decoding of the stream into requests is C92."
  },
  {
   "property": "C64",
   "status": "partial",
   "theorems": [
    "C64_routing",
    "C64_retry",
    "C64_after_refusal_refuted"
   ],
   "note": "Proved for every history of route changes and messages when no destination refuses, and for refusals followed by a retry of the same message. Refuted, with a witness, for a different message after a refusal."
  },
  {
   "property": "C65",
   "status": "proved",
   "theorems": [
    "C65_iterated_hashes",
    "C65_pbkdf2",
    "C65_hkdf",
    "C65_too_long",
    "C65_hkdf_prefix",
    "C65_hkdf_null_salt_refuted"
   ],
   "note": "Over any hash object that implements a hash function, in particular the iterated hashes of C10; the timer is an oracle. The remark in hkdf.h that a null salt differs from an empty one is refuted."
  },
  {
   "property": "C66",
   "status": "proved",
   "theorems": [
    "C66_equality_filter_decides",
    "C66_second_series_refuted",
    "C66_unterminated_message_refuted"
   ],
   "note": "One complete series per channel, any interleaving. Two refutations show the limits."
  },
  {
   "property": "C67",
   "status": "proved",
   "theorems": [
    "C67_crc32_history",
    "C67_crc32c_history",
    "C67_crc_detects_bursts"
   ],
   "note": "Both table-driven implementations with word stride and alignment prologue; burst detection as a corollary of the refinement."
  },
  {
   "property": "C68",
   "status": "proved",
   "theorems": [
    "C68_x509_round_trip",
    "C68_pkcs8_round_trip",
    "C68_truncated_refused",
    "C68_other_algorithm_refused"
   ],
   "note": "Generic in the parameter and key codecs of the derived class; truncation refused whatever they do, provided they only read."
  },
  {
   "property": "C69",
   "status": "proved",
   "theorems": [
    "C69_reencode",
    "C69_der_unchanged",
    "C69_inside_definite_refuted"
   ],
   "note": "Trees of definite and indefinite objects. Definite contents are copied as they are: C69_inside_definite_refuted."
  },
  {
   "property": "C70",
   "status": "partial",
   "theorems": [
    "C70_der",
    "C70_round_trip_partial",
    "C70_any_contents_partial",
    "C70_empty_contents_refuted",
    "C70_octet_string",
    "C70_octet_string_length"
   ],
   "note": "DER and octet-string codecs of Integer in any context of open decoders; truncation refused. Missing because false of the code: minus the weight of a register (C39_round_trip_refuted); empty contents read an uninitialised byte (C70_empty_contents_refuted)."
  },
  {
   "property": "C71",
   "status": "proved",
   "theorems": [
    "C71_square_root"
   ],
   "note": "Every integer; the Newton iteration terminates."
  },
  {
   "property": "C72",
   "status": "partial",
   "theorems": [
    "C72_openpgp_partial",
    "C72_truncated_refused",
    "C72_openpgp_refuted"
   ],
   "note": "Non-negative numbers of fewer than 2^16 bits. Missing because false of the code: longer numbers and negative ones (C72_openpgp_refuted)."
  },
  {
   "property": "C73",
   "status": "proved",
   "theorems": [
    "C73_ring",
    "C73_operations"
   ],
   "note": "Any expression of ring operations, and each operation of ModularArithmetic."
  },
  {
   "property": "C74",
   "status": "proved",
   "theorems": [
    "C74_prime_passes",
    "C74_rabin_miller",
    "C74_exact"
   ],
   "note": "Every prime passes with every base in range; Rabin-Miller for any random blocks; exact conditions on odd numbers."
  },
  {
   "property": "C75",
   "status": "proved",
   "theorems": [
    "C75_square_root",
    "C75_no_root_refuted"
   ],
   "note": "Tonelli-Shanks and the p = 3 mod 4 case, with termination. For non-squares the result is 0 if p = 1 mod 4, but not if p = 3 mod 4: C75_no_root_refuted."
  },
  {
   "property": "C76",
   "status": "proved",
   "theorems": [
    "C76_quadratic"
   ],
   "note": "Complete solution set for every odd prime (leading coefficient in a register no longer than the modulus's)."
  },
  {
   "property": "C77",
   "status": "partial",
   "theorems": [
    "C77_initialize_partial",
    "C77_not_terminating_refuted",
    "C77_valid_key_refuted"
   ],
   "note": "Whenever Initialize returns, the factors and the other numbers are right. It does not always return: C77_not_terminating_refuted (d e = 1) and C77_valid_key_refuted (small factor met before a splitting base)."
  },
  {
   "property": "C78",
   "status": "proved",
   "theorems": [
    "C78_lucas"
   ],
   "note": "Through Montgomery arithmetic, for every odd modulus."
  },
  {
   "property": "C79",
   "status": "proved",
   "theorems": [
    "C79_randomize",
    "C79_uniform",
    "C79_empty_range"
   ],
   "note": "Exact rejection sampling on the blocks of the generator, and equal numbers of blocks for every value."
  },
  {
   "property": "C80",
   "status": "proved",
   "theorems": [
    "C80_public",
    "C80_private"
   ],
   "note": "Public and private keys with non-negative numbers, in any context of open decoders; truncation refused."
  },
  {
   "property": "C81",
   "status": "proved",
   "theorems": [
    "C81_generate"
   ],
   "note": "From the choice of primes on; the search for primes is not modelled. Keys with d mod p-1 = 1 or d mod q-1 = 1 satisfy the equations but are refused by Validate."
  },
  {
   "property": "C82",
   "status": "proved",
   "theorems": [
    "C82_permutation",
    "C82_each_once"
   ],
   "note": "Any choices of the generator; each permutation from exactly one sequence of choices."
  },
  {
   "property": "C83",
   "status": "proved",
   "theorems": [
    "C83_generate",
    "C83_constructor"
   ],
   "note": "Any block function, for the deterministic time vector (the clock is not modelled)."
  },
  {
   "property": "C84",
   "status": "proved",
   "theorems": [
    "C84_mgf1",
    "C84_kdf2",
    "C84_prefix"
   ],
   "note": "Any hash function, any length, with the counter wrapping at 2^32."
  },
  {
   "property": "C85",
   "status": "proved",
   "theorems": [
    "C85_pkcs",
    "C85_oaep",
    "C85_refused",
    "C85_oaep_sound"
   ],
   "note": "With the word-level RSA of C45; the only failure is a generator whose blocks never give a usable blinding."
  },
  {
   "property": "C86",
   "status": "proved",
   "theorems": [
    "C86_pkcs_sign_verify",
    "C86_pkcs_accepted",
    "C86_pss_sign_recover",
    "C86_pss_accepted",
    "C86_one_encoding_refuted"
   ],
   "note": "PKCS #1 v1.5 and PSS/PSSR, with exact acceptance; the length of a signature is not checked (C86_one_encoding_refuted). PSSR with a least pad needs a bit length divisible by 8, see C49."
  },
  {
   "property": "C87",
   "status": "proved",
   "theorems": [
    "C87_representative",
    "C87_accepted",
    "C87_unique"
   ],
   "note": "Exact acceptance and uniqueness."
  },
  {
   "property": "C88",
   "status": "proved",
   "theorems": [
    "C88_pbkdf1",
    "C88_pkcs12"
   ],
   "note": "Same scope as C65; the Integer addition of PKCS #12 is taken as addition modulo 256^v."
  },
  {
   "property": "C89",
   "status": "proved",
   "theorems": [
    "C89_fewer_shares_say_nothing",
    "C89_threshold_shares_settle"
   ],
   "note": "Per 32-bit word; that the random words are uniform and independent is a matter of the generator."
  },
  {
   "property": "C90",
   "status": "proved",
   "theorems": [
    "C90_bulk_interpolation",
    "C90_interpolant_exists"
   ],
   "note": "Over GF2_32; the general field version is in InterpProofs."
  },
  {
   "property": "C91",
   "status": "proved",
   "theorems": [
    "C91_aes_encrypt",
    "C91_aes_decrypt",
    "C91_aes_sbox"
   ],
   "note": "Encryption and decryption objects answer FIPS-197 Cipher and InvCipher for every key of 16, 24 or 32 bytes and every block and mask; portable code path."
  },
  {
   "property": "C92",
   "status": "partial",
   "theorems": [
    "C92_only_deflated_streams",
    "C92_deflated_streams_are_decoded",
    "C92_pieces_do_not_matter",
    "C92_end_of_input_refuted",
    "C92_table_bound_refuted",
    "C92_truncated_header_refuted"
   ],
   "note": "Proved for every input, division into pieces and window: what comes out is the data of a stream of the format (incomplete sets of one-bit codes included, see C61) and the rest of the input; every stream with at least three bytes after it is decoded. Refuted with witnesses: a valid stream at the very end of the input can be refused, a header with 288 and 32 codes writes past the table of 318 lengths, and a header cut off inside the code length code makes the bit count wrap."
  },
  {
   "property": "C93",
   "status": "partial",
   "theorems": [
    "C93_messages_are_deflated",
    "C93_round_trip",
    "C93_nothing_after_refuted"
   ],
   "note": "Proved for every run: each message is put out as one stream of the format for the window size, holding exactly its data, and Inflator returns the data when at least three bytes follow (as the zlib and gzip trailers do). Refuted without a trailer: an empty message at level 0 is refused by Inflator (C93_nothing_after_refuted); for the other streams without a trailer the round trip through Inflator is not proved. With the trailers of zlib and gzip the round trip is complete: C95_round_trip, C96_round_trip."
  },
  {
   "property": "C94",
   "status": "proved",
   "theorems": [
    "C94_code_lengths"
   ],
   "note": "For every list of non-negative counts; their sums wrap at 2^32 as in the code, the Kraft sum does not (limits up to 30 in the code; 7 and 15 are the ones used)."
  },
  {
   "property": "C95",
   "status": "partial",
   "theorems": [
    "C95_only_zlib_streams_partial",
    "C95_zlib_streams_are_decoded_partial",
    "C95_round_trip",
    "C95_window_256_refuted",
    "C95_window_bound_refuted"
   ],
   "note": "Soundness and completeness for every input whose header asks for 512 bytes of window or more, and the round trip for every run of ZlibCompressor (proved whole). Refuted with witnesses: a 256-byte window makes OutputPast read outside it, and windows above 2^15 are accepted."
  },
  {
   "property": "C96",
   "status": "partial",
   "theorems": [
    "C96_only_gzip_members",
    "C96_gzip_members_are_decoded_partial",
    "C96_round_trip",
    "C96_header_crc_refuted",
    "C96_long_header_refuted",
    "C96_zero_byte_in_name_refuted",
    "C96_reserved_bits_refuted"
   ],
   "note": "Soundness for every input and the round trip for every run of Gzip whose strings hold no zero byte and fit in the header limit (proved whole); completeness for headers of at most 1024 bytes without CRC16. Refuted with witnesses: longer headers in pieces, headers with a CRC16, names with a zero byte; the reserved flag bits are not checked."
  },
  {
   "property": "C97",
   "status": "proved",
   "theorems": [
    "C97_des",
    "C97_ede2",
    "C97_ede3",
    "C97_check_parity",
    "C97_correct_parity",
    "C97_parity_is_ignored"
   ],
   "note": "For every key and block: bits numbered as in the standard, tables of the standard, both directions; parity functions and independence from the parity bits."
  },
  {
   "property": "C98",
   "status": "partial",
   "theorems": [
    "C98_get_byte",
    "C98_set_byte",
    "C98_encode",
    "C98_decode",
    "C98_encode_decode",
    "C98_gcd",
    "C98_inverse_mod_partial",
    "C98_inverse_mod_unreduced_refuted",
    "C98_inverse_mod_zero",
    "C98_read",
    "C98_set_bit",
    "C98_constructors",
    "C98_xor_and",
    "C98_shift_left",
    "C98_shift_right_partial",
    "C98_shift_right_memory_refuted",
    "C98_times_partial",
    "C98_times_memory_refuted",
    "C98_squared",
    "C98_divide",
    "C98_divide_by_zero"
   ],
   "note": "Proved for every polynomial, register length and content of fresh memory: reading and setting coefficients and bytes, Encode and Decode, degree, comparison, constructors, sum, coefficientwise product, left shift, square, division with remainder (and its uniqueness), greatest common divisor, and the inverse modulo a polynomial of at least the same degree. The product needs the left operand's register to be no longer than the product's, as it is when its top word is not zero; the right shift needs a register of at least n / WORD_BITS words. Both conditions are necessary: without them memory outside the register is accessed (C98_times_memory_refuted, with a remainder the class computed, and C98_shift_right_memory_refuted). InverseMod of a polynomial of higher degree than the modulus returns zero although it has an inverse (C98_inverse_mod_unreduced_refuted)."
  },
  {
   "property": "C99",
   "status": "partial",
   "theorems": [
    "C99_reduced_partial",
    "C99_square_partial",
    "C99_square_zero_memory_refuted",
    "C99_multiply"
   ],
   "note": "Multiply is proved for all field elements and Square and Reduced for all polynomials, except that an empty register is excluded for Square and Reduced when t0 - t1 is WORD_BITS or more: there PolynomialMod2::Zero() makes Reduced read b[size_t(-1)] (C99_square_zero_memory_refuted). The third exponent is 0, as the constructor asserts."
  },
  {
   "property": "C100",
   "status": "proved",
   "theorems": [
    "C100_add",
    "C100_double",
    "C100_inverse",
    "C100_sum_unique",
    "C100_add_commutes"
   ],
   "note": "For every field with 1 + 1 <> 0 given by its operations. The specification is geometric (a line meeting the curve in three points counted with multiplicity) and proved to determine the sum. Associativity of the group and the projective multiplication routines are outside the property."
  },
  {
   "property": "C101",
   "status": "proved",
   "theorems": [
    "C101_add",
    "C101_double",
    "C101_inverse",
    "C101_sum_unique",
    "C101_add_commutes"
   ],
   "note": "For every field with 1 + 1 = 0 given by its operations; that the geometric specification determines the sum, and hence independence of the order, for every such field of more than two elements. Associativity of the group, encoding and VerifyPoint are outside the property."
  },
  {
   "property": "C102",
   "status": "proved",
   "theorems": [
    "C102_projective_doubling",
    "C102_doubled_unique",
    "C102_parallel_invert"
   ],
   "note": "For every field with 1 + 1 <> 0 given by its operations, with Half an operation whose double is its argument and the inverse of zero being zero, as MultiplicativeInverse of ModularArithmetic returns. The windows and the accumulation of SimultaneousMultiply are outside the property."
  },
  {
   "property": "C103",
   "status": "partial",
   "theorems": [
    "C103_round_trip_partial",
    "C103_round_trip_refuted",
    "C103_decode_compressed",
    "C103_decode_range_refuted",
    "C103_verify"
   ],
   "note": "Round trip for every point except those with y = 0 in compressed form, for which it is refuted for every curve: Jacobi gives 0 and DecodePoint returns false. Soundness of compressed decoding and VerifyPoint are whole; that x is reduced after decoding is refuted with a witness. Jacobi, ModularSquareRoot and IsPrime enter through their contracts (C44, C75, C74)."
  }
 ]
}