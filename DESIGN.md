# Design

Model of weidai11/cryptopp (source text in /repo, never built or run) in Coq 8.16.1.

## Conventions

* Bytes and machine words are `Z` with range invariants (`Forall byte`), every operation that can
  wrap in C++ is written with an explicit `mod 2^w`.
* Byte strings are `list Z`; lengths and positions are `nat` (or `Z` where they may be large).
* A C++ exception, or undefined behaviour, is a separate outcome (`None` or a constructor).
* Each area `X` has `XModel.v` (definitions only; each cites the lines it models), a small
  specification that does not use the model's helpers (`XSpec.v`, or at the top of the properties
  file when it is a few lines), `XProofs.v` (lemmas) and `XProperties.v` (the theorems named in
  MANIFEST.json, with a concrete example beside each).
* Parameters such as the block cipher, the compression function or the random stream are
  universally quantified arguments of the theorems, never axioms.
* When the code as written violates a property there is a theorem with the suffix `_refuted`
  giving a witness, and where possible a theorem describing the part that does hold.

## Trusted base

Coq's kernel (and coqchk), the fidelity of the hand translation of C++ to Gallina (every definition
cites the lines it was read from), and the axioms printed by `Print Assumptions` (listed at the end of this file).
Compilers, SIMD and assembly paths are outside the model: the portable C++ path is modelled.

## Plan per property

* **C01 BaseN codecs round-trip**: `Codec`: encoder/decoder state machines, byte by byte; proved through the bit-string specification of C04.
* **C02 Codec output does not depend on how input is chunked**: `Codec`: fold over chunks equals fold over the concatenation.
* **C03 Decoders ignore characters outside the alphabet**: `Codec`: foreign bytes leave the decoder state unchanged.
* **C04 BaseN encoders compute the positional encoding of the bit string**: `Codec`: independent bit-list specification; invariant relating partial block to processed bits.
* **C05 Grouper inserts separators exactly between full groups**: `Codec`: Grouper machine against a list specification.
* **C06 ByteQueue is a FIFO of bytes**: `Queue`: node list with head/tail indexes; refinement to `list byte` over operation histories.
* **C07 ByteQueue size and content observers agree with the content**: `Queue`: observers computed on the node list, proved equal to those of the abstract list.
* **C08 MessageQueue preserves message boundaries**: `Queue`: MessageQueue = ByteQueue + deque of lengths; refinement to a list of messages.
* **C09 MessageQueue series accounting and swap**: `Queue`: expected to fail on the code as written; refutation with a witness history.
* **C10 Iterated hash digests do not depend on chunking**: `IterHash`: buffer + counter machine over an abstract compression function; invariant over updates.
* **C11 Iterated hash padding is Merkle-Damgard strengthening**: `IterHash`: specification of padded message; refinement.
* **C12 Hash objects restart cleanly**: `IterHash`, `Hmac`, `Cmac`: state after Final equals the initial state (observationally).
* **C13 Over-long messages are rejected, not silently wrapped**: `IterHash`: two-word counter arithmetic; theorem for lengths below the bit bound and witness above it.
* **C14 HMAC is the RFC 2104 construction**: `Hmac` over an abstract chunk-invariant hash.
* **C15 CMAC is SP 800-38B and chunk independent**: `Cmac` over an abstract block permutation.
* **C16 CBC-MAC is chunk independent**: `Cmac` file, CBC-MAC part.
* **C17 Poly1305 limb arithmetic is exact**: `Poly1305`: limbs as Z with explicit mod 2^32 / 2^64; value invariant.
* **C18 Tag verification accepts exactly the right tag**: `Verify`: xor-accumulate loop with word and byte strides; iff equality.
* **C19 Adler-32 deferred reduction is exact**: `Adler`: the loop with its two reduction rules, 32-bit wrap explicit.
* **C20 ECB and CBC round-trip**: `Modes`: over an abstract block permutation with inverse.
* **C21 CBC ciphertext stealing round-trips**: `Modes`: last-block functions, list-level.
* **C22 CFB, OFB and CTR round-trip under any chunking**: `Stream`: buffer-of-leftover-keystream machine; refinement to xor with a stream.
* **C23 Stream cipher keystream does not depend on chunking**: `Stream`: same refinement.
* **C24 Seek is equivalent to discarding keystream**: `Stream`: seek state equals the state after discarding.
* **C25 CTR counter is a big-endian integer with full carry**: `Ctr`: byte array counter, 256-boundary batching; big-endian value lemma.
* **C26 Resynchronize forgets the past**: `Stream` for additive and CFB ciphers; `Eax` refutation.
* **C27 FilterWithBufferedInput delivers the stream intact under any chunking**: `BufFilter`: queue + three sizes; the trace of callbacks compared with a specification of the whole input.
* **C28 Block paddings round-trip through StreamTransformationFilter**: `Padding`: LastPut for each scheme.
* **C29 Malformed padding is rejected**: `Padding`: iff characterisation.
* **C30 HashVerificationFilter accepts exactly valid messages**: `BufFilter` instance; iff for streams at least as long as a digest, refutation for shorter ones.
* **C31 DER length round-trip**: `Asn`: byte-list readers/writers.
* **C32 DER/BER primitive round-trips**: `Asn`.
* **C33 OBJECT IDENTIFIER round-trip**: `Asn`: theorem on the domain where it holds, refutation outside.
* **C34 BER decoders reject truncated input**: `Asn`: prefix lemma for each decoder.
* **C35 Integer addition, subtraction and comparison are exact**: `Words`, `Integer`: word vectors, value function; sign-magnitude wrapper refined to Z.
* **C36 Integer multiplication is exact**: `WordsMul`, `WordsRec`, `WordsAsym`: recursion on size with explicit borrow/carry.
* **C37 Integer division is Euclidean**: `WordsDiv`, `IntegerDiv`: schoolbook division with the quotient estimate.
* **C38 Integer bit operations and shifts agree with arithmetic**: `IntegerBit`.
* **C39 Integer encode/decode round-trip**: `IntegerCodec`.
* **C40 Montgomery arithmetic represents modular arithmetic**: `Mod`: expressions evaluated through the Montgomery representation.
* **C41 Windowed exponentiation computes the power**: `Algebra`: any class whose operations compute in a commutative monoid (a group if inversion is fast). The windows of an exponent add up to it, the buckets to the multiple; the two-base table is checked symbolically; the heap algorithms are any function with their effect. Instances: residues and Montgomery residues, giving a_exp_b_mod_c.
* **C42 Gcd and modular inverse**: `IntegerInv`: Euclid's loop, the almost-inverse algorithm and its even-modulus recursion.
* **C43 CRT recombination**: `Nb`: values through the Integer theorems, uniqueness by coprimality; Fermat's little theorem for ModularRoot.
* **C44 Jacobi symbol**: `NumberTheory`, `Reciprocity`: Gauss's lemma, Eisenstein's lattice count and reciprocity over Z, then the loop invariant.
* **C45 RSA inverts**: `Rsa`: the number-theoretic functions on Integer objects; random numbers are the blocks the generator returns.
* **C46 PKCS #1 v1.5 encryption padding round-trips**: `PkPad`.
* **C47 PKCS #1 v1.5 unpadding accepts only well-formed blocks**: `PkPad`: expected to fail (no separator accepted); refutation and the exact acceptance condition.
* **C48 OAEP round-trips**: `PkPad`.
* **C49 PSSR round-trips**: `PkPad`.
* **C50 AEAD decrypts what it encrypted**: `Aead`: the framework of authenc.cpp with its virtual functions as a record, the four modes as instances; the round trip follows from the refinement of C52.
* **C51 AEAD tags do not depend on chunking**: `Aead`: from the refinement of C52; GCM's counter against SP 800-38D, with a refutation for the IVs where the library departs from it.
* **C52 AEAD state machine rejects out-of-order use**: `Aead`: an ideal object that remembers IV, header and message; every history of calls is shown to return what the ideal object says. Header data after message data are not refused (refutation).
* **C53 AEAD verification accepts exactly the computed tag**: `Aead`: from the refinement of C52; refutation for CCM without announced lengths.
* **C54 PaddingRemover inverts the padding under any chunking**: `Ida`: invariant over the pieces; exact characterisation of the splits that go wrong, with refutations for those and for the end of a message.
* **C55 Secret sharing recovers the secret**: `Interp`/`Ida`: RawIDA with its queues, modelled call by call; an invariant ties the buffered words to the streams, so any interleaving and chunking gives the values of the interpolating polynomials; SecretSharing, SecretRecovery, InformationDispersal and InformationRecovery on top. Refutations for InformationRecovery across a node boundary and for a second dispersed message.
* **C56 GF(2^32) arithmetic is a field**: `Gf2`/`Gf32`: polynomials over GF(2) as integers, product and congruence as the specification; Multiply (both compiled forms) is the product modulo x^32 + modulus for every modulus. x + 1 has order 2^32 - 1 (five computed powers and the primes of 2^32 - 1), so all non-zero words are its powers and have inverses; the Euclid loop is proved with its degree invariant, so no shift loses a bit.
* **C57 Block ciphers are permutations**: `CipherModel` (TEA, XTEA, BTEA, RC5, RC6, SPECK-64/128, SIMON-64/128, Threefish-256/512/1024, from key setup to ProcessAndXorBlock), `AesModel` and `DesModel`; `CipherSpec.block_cipher` says both objects answer on every block, each undoes the other, and a mask is exclusive-ored to the result. Proof: each round is undone by the matching decryption round, induction over the rounds; Threefish by a symbolic checker proved sound. BTEA ignores the mask and fails on one-word blocks: `_refuted` theorems.
* **C58 GenerateWord32 stays in range**: `Rng`.
* **C59 LC_RNG follows its recurrence**: `Rng`: expected to fail (unsigned arithmetic); refutation.
* **C60 SecBlock resizing preserves content**: `SecBlock`: a block in a small memory (heap blocks that can be freed, the fixed array), arbitrary fresh content and arbitrary failing allocations; invariant "the pointer is good and the only live one", each operation against what its documentation allows; refutations for exceptions of the non-preserving calls and for swap.
* **C61 Huffman coding round-trips**: `Huffman`.
* **C62 Deflate length and distance symbols round-trip**: `DeflateMatch`: the tables of MatchFound against those of RFC 1951 in `InflateSpec`, for every length and distance.
* **C63 Inflator never reads outside its window**: `Window`: the circular window refines the history list of RFC 1951 for every sequence of requests; refutation for the 256-byte window.
* **C64 Channel routing delivers to exactly the configured routes**: `Channel`: multimap and default routes against the history of calls (count of routes added and not removed), with the resumable iterator for destinations that refuse; refutation for a different message after a refusal.
* **C65 Key derivation follows its specification**: `Kdf`: the loops over an abstract hash object and the HMAC of C14, against RFC 8018 and RFC 5869; the timer is an oracle.
* **C88 PBKDF1 and PKCS #12 derivation follow their specification**: `Kdf`.
* **C89 Fewer shares than the threshold say nothing**: `Ida`: existence and uniqueness of the interpolating polynomial give a bijection between random words and share values for each secret.
* **C90 Bulk polynomial interpolation**: `Interp`: the product tree over an abstract field, then GF2_32.
* **C91 Rijndael is the Advanced Encryption Standard**: `AesSpec` writes FIPS-197 from the standard (S-box by inversion in GF(2^8) and the affine map, ShiftRows, MixColumns, KeyExpansion on byte lists). Proof: a 32-bit word is four bytes, the T-table entries are MixColumns columns (checked for all 256 bytes), one code round is one standard round by exclusive-or algebra, the in-place key expansion fills the standard's words, and the decryption keys are the reversed InvMixColumns keys (equivalent inverse cipher).
* **C92 Inflator decodes exactly the deflate format**: `Inflate*`: the format of RFC 1951 as a relation on bit strings (`InflateSpec`); soundness and completeness of the state machine by an invariant that says what the bits still to come must be, carried over every Put.
* **C93 Deflator round-trips**: `Deflate*`: an invariant of Deflator that ties m_byteBuffer to the whole input, the hash chains to equal hashes, the pending match to equal bytes and the pending block to the bytes of the input it stands for; what is written so far is a sequence of blocks of `InflateSpec`; composed with C92.
* **C94 Generated Huffman codes are complete and short enough**: `DeflateTree`: the tree has Kraft sum one; clamping and the adjustment loop keep the weighted sum.
* **C95 zlib streams round-trip and are checked**: `Wrap*`: the state machine of Inflator with its header and tail hooks over any header and tail parser that does not look past its end (`WrapProofs`), on top of the invariant of C92; the parsers against RFC 1950 (`WrapSpec`, `WrapFormat`); composed with C93.
* **C96 gzip members round-trip and are checked**: the same with the header and trailer of RFC 1952.
* **C97 DES and triple DES are FIPS 46-3**: `DesModel` (key setup to ProcessAndXorBlock on 32-bit words); `DesSpec` is the standard on lists of bits with its tables. Proof: IPERM and FPERM move bits along routes that are computed and compared with IP and its inverse; a word of a round holds a half rotated by one bit; each entry of the merged tables is P of one S-box output (all 512 checked); the sub-keys are selections of key bits compared with the schedule; then induction over the rounds. C57 for DES follows from the Feistel inverse on bits.
* **C98 PolynomialMod2 is arithmetic over GF(2)[x]**: `Gf2nModel` (the register as a list of words, fresh words of Grow arbitrary, accesses outside the register an outcome of their own); the specification is the value of the words (`WordsSpec.wval`) with `Z.lxor` as the sum and `pmul` of `Gf2Spec` as the product. Proof: each operation on words is turned into one on numbers; the loops of Times and Divide by the invariants of Horner's rule and of long division. Gcd and InverseMod (`Gf2nGcdModel`) by the invariants of the Euclidean algorithm; that InverseMod stays inside its registers by an invariant on their lengths. Bytes, Encode and Decode (`Gf2nCodecModel`): bit by bit, and by the invariant of `Integer::Decode` that the bytes still to come are zero. Refuted: product of an operand with leading zero words, large right shifts, InverseMod of an unreduced polynomial.
* **C99 GF2NT multiplies and squares modulo a trinomial**: `Gf2ntModel` (array indexes are integers, an access outside the array an outcome of its own); the specification is congruence of polynomials (`pcong` of `Gf2Spec`) modulo 2^t0 + 2^t1 + 1 and a value below 2^t0. Proof: the words below the current one stay congruent to the operand (x^t0 = x^t1 + 1 for one word at a time); Multiply by the invariant of Horner's rule. Refuted: squaring the zero with an empty register.
* **C100 ECP adds points by chord and tangent**: `EcModel` over any field given by its operations, with the references the functions return (to an argument, to a constant or to the member they overwrite) explicit; `EcSpec` defines the sum by the line that meets the curve in three points counted with multiplicity. Proof: the difference of the two cubics is linear and has two roots (a double root for the tangent); the specification is shown to have exactly one sum.
* **C101 EC2N adds points by chord and tangent**: `Ec2nModel` over any field of characteristic two given by its operations, with the points and references of `EcModel`; `Ec2nSpec` defines the sum on y^2 + x y = x^3 + a x^2 + b by the line that meets the curve in three points counted with multiplicity. Proof: as for C100, with polynomial identities normalised over coefficients modulo two.
* **C102 Projective doubling and simultaneous inversion in ECP scalar multiplication are exact**: `EcProjModel` models ProjectiveDoubling and ParallelInvert over the field of `EcModel`; `EcProjSpec` says which point projective coordinates stand for and what 2^n P is, by the sum of `EcSpec`. Proof: an invariant that keeps the product of the two cached values equal to a Z^4, by induction on the number of doublings; induction on the batch in pairs.
* **C103 ECP points round-trip through their encodings**: `EcCodecModel` models EncodePoint, DecodePoint from an array and VerifyPoint on integer values; `EcCodecSpec` states the curve modulo p and the contracts of Jacobi and ModularSquareRoot. Proof: two roots of a square modulo a prime differ in sign, and of two non-zero ones exactly one has each parity. Refuted for compressed points with y = 0.
* **C66 EqualityComparisonFilter decides equality**: `EqFilter`: two MessageQueues; invariant "common prefix removed, at most one queue non-empty".
* **C67 CRC-32 and CRC-32C are the bit-serial CRCs**: `Checksum`: table entries by computation, linearity of the shift register for the word stride.
* **C68 X.509 and PKCS#8 key containers round-trip**: `Asn`: the two template methods over abstract parameter and key codecs.
* **C69 DERReencode turns indefinite lengths into minimal definite ones**: `Asn`: mutual recursion of DERReencode on sources with open frames, against an inductive type of BER objects.
* **C70 Integer DER encoding round-trips**: `IntegerCodec` with the nesting theorems of `Asn`.
* **C71 Integer square root is exact**: `IntegerInv`: Newton iteration, decreasing and never below the root.
* **C72 OpenPGP integers round-trip**: `IntegerCodec`.
* **C73 ModularArithmetic is the ring of residues**: `Mod`: each operation, and expressions by induction.
* **C74 Probable-prime tests never reject a prime**: `Nb`: Fermat and square roots of one modulo a prime; the loop decides the strong condition.
* **C75 Modular square roots**: `Nb`: Tonelli-Shanks with the order of b as measure; Euler's criterion.
* **C76 Modular quadratic equations**: `Nb`: completing the square.
* **C77 RSA key from n, e and d**: `Rsa`: a square root of one other than 1 and -1 splits n.
* **C78 Lucas sequences**: `Nb`: the pair (V_k, V_k+1) as loop invariant in Montgomery form.
* **C79 Random integers are uniform**: `Nb`: exact rejection, preimages of each value counted.
* **C80 RSA key encodings round-trip**: `Rsa` with the nesting theorems of `Asn`.
* **C81 RSA key generation satisfies the key equations**: `Rsa`: from the primes on.
* **C82 Shuffle permutes**: `Rng`: the choices are the words the generator returns.
* **C83 X9.17 generator output**: `Rng`: the cipher is a parameter.
* **C84 MGF1 and KDF2 are the counter constructions**: `PkPad`.
* **C85 RSA encryption schemes round-trip**: `PkPad` (`PkTfProofs`): padding over the word-level RSA of `Rsa`.
* **C86 RSA signature schemes sign and verify**: `PkPad` (`PkTfProofs`).
* **C87 PKCS #1 v1.5 signature representatives are unique**: `PkPad`.

## What is modelled

| Area | Code | Left out |
|---|---|---|
| `Codec` | basecode.cpp, hex/base32/base64 tables, Grouper | attachments that block |
| `Queue` | queue.cpp (ByteQueue, Walker), mqueue.cpp (MessageQueue) | self-assignment, allocation failure |
| `EqFilter` | mqueue.cpp EqualityComparisonFilter | throwIfNotEqual, third channels |
| `Hash` | iterhash.h/.cpp (IteratedHashBase), hmac.cpp, misc.cpp VerifyBufsEqual, cryptlib.cpp TruncatedVerify | the compression functions (parameters), SIMD multi-block hashing |
| `Mac` | cmac.cpp, cbcmac.cpp, cryptlib.cpp AdvancedProcessBlocks for BT_XorInput | block ciphers (parameters), ciphers overriding AdvancedProcessBlocks |
| `Poly1305` | poly1305.cpp (portable 32-bit code), both classes | the block cipher (parameter), 64-bit and SIMD variants |
| `Mem`, `Modes` | cryptlib.cpp AdvancedProcessBlocks (portable loop) on a byte memory, modes.cpp (ECB, CBC, CBC-CTS, CFB, OFB, CTR), strciphr.cpp (AdditiveCipherTemplate, CFB_CipherTemplate), misc.h counters | the block cipher (parameter), buffer alignment requests except as a free flag, overlapping but unequal buffers |
| `Filter` | filters.cpp: FilterWithBufferedInput and its BlockQueue, StreamTransformationFilter (all paddings), HashFilter, HashVerificationFilter | attached-transformation back pressure (blocking = true), channels, IsLastBlockSpecial authenticated ciphers, allocation failure |
| `Asn` | asn.cpp, asn.h: lengths, NULL, OCTET/BIT/text strings, dates, unsigned words, OIDs, BERGeneralDecoder and DERGeneralEncoder, DERReencode, BERDecodePeekLength, X509PublicKey and PKCS8PrivateKey | EncodedObjectFilter (its constructor is not defined), Skip through decoders, memory growth; sources are byte lists with the stack of open decoders |
| `Words` | integer.cpp word routines (portable C++): Add, Subtract, Increment, Compare, Karatsuba multiplication and squaring, bottom/top products, AsymmetricMultiply, Divide, MontgomeryReduce, AlmostInverse, RecursiveInverseModPower2, shifts | assembly and intrinsics |
| `Integer` | integer.cpp, integer.h: constructors, assignment, arithmetic, comparison, bits, division, codecs, SquareRoot, InverseMod | text input and output, Randomize and prime generation, aliased arguments except where the code tests for them, wrap of size_t and of unsigned counts, allocation failure |
| `Mod` | ModularArithmetic and MontgomeryRepresentation, Gcd, RelativelyPrime, LCM | DER of the modulus |
| `Algebra` | algebra.cpp: ScalarMultiply, SimultaneousMultiply, CascadeScalarMultiply, GeneralCascadeMultiplication, WindowSlider; exponentiation of ModularArithmetic and MontgomeryRepresentation; a_exp_b_mod_c | negative exponents (debug assertion only); std heap algorithms are a parameter; overflow of unsigned bit positions |
| `Nb` | nbtheory.cpp: CRT, ModularRoot, Jacobi, Fermat, strong and Rabin-Miller tests, ModularSquareRoot, SolveModularQuadraticEquation, Lucas; Integer::Randomize in a range | small-prime sieve, IsPrime, Lucas probable-prime tests, prime generation, discrete-log helpers |
| `Rsa` | rsa.cpp: Validate levels 0 and 1, ApplyFunction, CalculateInverse, the ISO variants, Initialize(n,e,d), GenerateRandom after the choice of primes, key codecs | VerifyPrime, the search for primes, FIPS self tests, name/value pairs |
| `Rng` | cryptlib.cpp GenerateWord32, cryptlib.h Shuffle, rng.cpp LC_RNG and X917RNG | operating system generators, RandomPool, X917RNG with the clock |
| `PkPad` | pkcspad.cpp, oaep.cpp, pssr.cpp, P1363_MGF1KDF2_Common, TF_EncryptorBase, TF_DecryptorBase, TF_SignerBase, TF_VerifierBase over RSA | hash functions (parameters), EMSA2, signatures over other functions, constant-time behaviour |
| `Aead` | authenc.cpp (all but SetKey's parameters), gcm.cpp, ccm.cpp, eax.cpp, chachapoly.cpp, EncryptAndAuthenticate and DecryptAndVerify of cryptlib.cpp | the block cipher, the GHASH product and the ChaCha block function are parameters; aliasing of buffers; SSE/NEON paths; the CTR object inside a mode is its position in the keystream, which C22 and C25 justify |
| `Kdf` | pwdbased.h, hkdf.h DeriveKey of all four classes | scrypt.cpp, NameValuePairs overloads, MSVC branches; counts above 2^32 |
| `Gf32` | gf2_32.cpp, gf2_32.h, all of GF2_32 except RandomElement | |
| `Interp` | polynomi.cpp:514-561 | the three bulk interpolation templates over any field, and over GF2_32. Not the interpolation templates before them. |
| `Ida` | ida.cpp, ida.h, mqueue.h | RawIDA, SecretSharing, SecretRecovery, InformationDispersal, InformationRecovery, PaddingRemover, blocking calls only. The ByteQueues below are lists (C01-C05), and how one cuts its bytes into pieces is a parameter; channel names are numbers; Flush is not modelled. |
| `Cipher*` | tea.cpp, rc5.cpp, rc6.cpp, speck.cpp, simon.cpp, threefish.cpp (portable code) | SIMD AdvancedProcessBlocks, other ciphers |
| `Aes*` | rijndael.cpp, rdtables.cpp: key schedule, tables, Enc/Dec ProcessAndXorBlock (portable, little endian, no unaligned access) | AES-NI, SSE2, ARM, POWER paths, big-endian hosts |
| `SecBlock` | secblock.h: StandardReallocate, AllocatorWithCleanup, FixedSizeAllocatorWithCleanup, SecBlock (one object; swap for two) | alignment, NullAllocator, element types other than integers, size_t overflow in CheckSize (an allocation that may fail), operators that return copies |
| `Window` | zinflate.cpp: OutputByte, OutputString, OutputPast, FlushOutput | decoding of the stream |
| `Channel` | channels.cpp: ChannelSwitch, routes and Put/MessageEnd routing | wait objects, MessageSeriesEnd propagation arguments, ChannelCreatePutSpace |
| `Bitio`, `Huffman` | zinflate.cpp LowFirstBitReader, HuffmanDecoder; zdeflate.cpp LowFirstBitWriter, HuffmanEncoder; misc.h BitReverse | whole, with the lookup cache; std::sort is an insertion sort | C61 |
| `Inflate` | zinflate.cpp Inflator: Put2, ProcessInput, DecodeHeader, DecodeBody | whole but for the repeat option, AutoSignalPropagation and the stream hooks; the pieces of the input queue are one; reads and writes outside a buffer are the result `Wild` | C92 |
| `Deflate` | zdeflate.cpp HuffmanEncoder::GenerateCodeLengths, Deflator | whole but for the stream hooks (empty in Deflator) and non-blocking mode (refused); std::sort is an insertion sort, so the order among equal counts is fixed; m_head and m_prev hold naturals (positions stay below 65535); the counts of a block do not wrap | C62, C93, C94 |
| `Wrap` | zlib.cpp, gzip.cpp, and ProcessInput/Put2 of zinflate.cpp with the hooks | whole but for the repeat option, SetComment/SetFilename encoding checks and IsolatedInitialize; the checksum is taken of the whole message (C67: pieces do not matter) | C95, C96 |
| `Des` | des.cpp, dessp.cpp: RawDES, DES, DES_EDE2, DES_EDE3, DES_XEX3, parity functions | whole; the two key words of an iteration are a pair; DES_XEX3 with its mask equal to its output buffer is a separate case of the model | C57, C97 |
| `Gf2n` | gf2n.cpp: PolynomialMod2 constructors (not Randomize, Pentanomial), SetBit, GetByte, SetByte, Encode, Decode, GetCoefficient, BitCount, Xor, And, Times, Squared, Divide, DividedBy, Modulo, shifts, Equals, operator!, Gcd, InverseMod; algebra.cpp: AbstractEuclideanDomain::Gcd, QuotientRing::MultiplicativeInverse | counters unbounded (degrees below 2^31); operands at different addresses; a BufferedTransformation is the list of its bytes; DEREncodeAsOctetString and BERDecodeAsOctetString, Parity, IsIrreducible, GF2NP, GF2NPP not modelled | C98 |
| `Gf2nt` | gf2n.cpp: GF2NT::Reduced, Multiply; gf2n.h: GF2NT::Square | degrees unbounded; third exponent 0; the returned reference is the value; MultiplicativeInverse and GF2NT233's carry-less multiplication not modelled | C99 |
| `Ec` | ecp.cpp: ECP::Identity, Equal, Inverse, Add, Double; ecpoint.h: ECPPoint | the field is any type with the operations ECP calls (ModularArithmetic is C73); the Montgomery representation, encoding of points, VerifyPoint, ScalarMultiply and SimultaneousMultiply not modelled here | C100 |
| `Ec2n` | ec2n.cpp: EC2N::Identity, Equal, Inverse, Add, Double | the field is any type with the operations EC2N calls; encoding of points, VerifyPoint and the precomputation not modelled | C101 |
| `EcProj` | ecp.cpp: ProjectiveDoubling (constructor, Double), ParallelInvert | field as in `Ec`, with Half; vectors and iterators are lists; the rest of SimultaneousMultiply not modelled | C102 |
| `EcCodec` | ecp.cpp: ECP::EncodePoint, DecodePoint (array), VerifyPoint; ecp.h: EncodedPointSize | integers are values; Jacobi, ModularSquareRoot and IsPrime are parameters with their contracts; the content of P after a refusal and the DER wrappers not modelled | C103 |
| `Checksum` | adler32.cpp, crc.cpp (portable, little endian) | SSE4.2/ARM CRC instructions, big-endian hosts |

## Axioms

Every theorem so far prints "Closed under the global context".  coqchk additionally lists fields of the
standard library's `Coq.ssr.ssrunder.Under_rel` (`Over_rel`, `Under_rel_from_rel`, `over_rel`,
`over_rel_done`, `Under_rel`, `Under_relE`, `under_rel_done`), because that module is loaded with the
library; no theorem here depends on them.
