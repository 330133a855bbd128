{"id": "C01", "title": "BaseN codecs round-trip", "statement": "Encoding any byte string with HexEncoder, Base32Encoder, Base32HexEncoder, Base64Encoder or Base64URLEncoder and feeding the text to the matching decoder returns exactly the original bytes, with or without padding and with or without inserted separators or line breaks.", "quantifier": "every byte string of every length, every alphabet whose characters are distinct bytes, every log2 base from 1 to 7, padding on or off, every grouping size and separator outside the alphabet", "why_tests_cant": "The set of inputs is infinite; a test fixes a handful of strings and a handful of ways of cutting them.", "anchors": ["basecode.cpp:BaseN_Encoder::Put2", "basecode.cpp:BaseN_Decoder::Put2", "hex.cpp", "base32.cpp", "base64.cpp"]}
{"id": "C02", "title": "Codec output does not depend on how input is chunked", "statement": "The concatenated output of a BaseN encoder, a BaseN decoder or a Grouper after any sequence of Put calls followed by a message end depends only on the concatenation of the inputs.", "quantifier": "every list of chunks (including empty chunks) and every parameter setting", "why_tests_cant": "The number of ways to split a stream is exponential in its length.", "anchors": ["basecode.cpp:BaseN_Encoder::Put2", "basecode.cpp:BaseN_Decoder::Put2", "basecode.cpp:Grouper::Put2"]}
{"id": "C03", "title": "Decoders ignore characters outside the alphabet", "statement": "Inserting or removing characters that are not in the decoding alphabet anywhere in the text never changes the decoded bytes.", "quantifier": "every text and every placement of foreign characters", "why_tests_cant": "The set of inputs is infinite; a test fixes a handful of strings and a handful of ways of cutting them.", "anchors": ["basecode.cpp:BaseN_Decoder::Put2", "basecode.cpp:BaseN_Decoder::InitializeDecodingLookupArray"]}
{"id": "C04", "title": "BaseN encoders compute the positional encoding of the bit string", "statement": "The encoder's output is the alphabet applied to the message's bits, most significant first, cut into groups of log2base bits, the last group filled with zero bits, then padded with the pad character up to a whole block when padding is enabled.", "quantifier": "every byte string, every log2 base 1..7, every padding choice", "why_tests_cant": "The set of inputs is infinite; a test fixes a handful of strings and a handful of ways of cutting them.", "anchors": ["basecode.cpp:BaseN_Encoder::Put2"]}
{"id": "C05", "title": "Grouper inserts separators exactly between full groups", "statement": "Removing the separators a Grouper inserted gives back its input; separators occur exactly between consecutive full groups and never at the end, where only the terminator is appended.", "quantifier": "every input, group size, separator and terminator", "why_tests_cant": "The set of inputs is infinite; a test fixes a handful of strings and a handful of ways of cutting them.", "anchors": ["basecode.cpp:Grouper::Put2"]}
{"id": "C06", "title": "ByteQueue is a FIFO of bytes", "statement": "After any history of Put, Get, Peek, Skip, Unget, Clear, LazyPut and transfer calls the bytes retrieved are exactly the bytes inserted, in order, and independent of the node size.", "quantifier": "every history of operations, every node size, every byte", "why_tests_cant": "The state depends on an unbounded history and on where node boundaries fall.", "anchors": ["queue.cpp:ByteQueue::Put2", "queue.cpp:ByteQueue::TransferTo2", "queue.cpp:ByteQueue::Unget", "queue.cpp:ByteQueue::CopyRangeTo2"]}
{"id": "C07", "title": "ByteQueue size and content observers agree with the content", "statement": "CurrentSize, MaxRetrievable, AnyRetrievable, IsEmpty, operator[], operator== and Peek all report the same byte string that Get would return.", "quantifier": "every reachable queue", "why_tests_cant": "The observers walk the node list and the lazy string separately, so agreement must hold in every reachable state.", "anchors": ["queue.cpp:ByteQueue::CurrentSize", "queue.cpp:ByteQueue::operator[]", "queue.cpp:ByteQueue::operator=="]}
{"id": "C08", "title": "MessageQueue preserves message boundaries", "statement": "Data put between message ends comes out as the same messages in the same order; Get and TransferTo never return bytes past the end of the current message; NumberOfMessages counts the complete unread messages.", "quantifier": "every history of Put, MessageEnd, Get, TransferTo and GetNextMessage", "why_tests_cant": "Boundaries depend on the whole history.", "anchors": ["mqueue.cpp:MessageQueue::TransferTo2", "mqueue.cpp:MessageQueue::GetNextMessage", "mqueue.h:MessageQueue::Put2"]}
{"id": "C09", "title": "MessageQueue series accounting and swap", "statement": "NumberOfMessagesInThisSeries counts the unread messages of the current series, and swap exchanges the whole observable state of two queues.", "quantifier": "every history", "why_tests_cant": "Depends on the history of consumed messages.", "anchors": ["mqueue.cpp:MessageQueue::GetNextMessage", "mqueue.cpp:MessageQueue::swap", "mqueue.h:MessageQueue::NumberOfMessagesInThisSeries"]}
{"id": "C10", "title": "Iterated hash digests do not depend on chunking", "statement": "For every hash built on the iterated hash base the digest of a message is the same for every way of splitting it over Update calls.", "quantifier": "every compression function, block size, message and split", "why_tests_cant": "Exponentially many splits and unbounded messages.", "anchors": ["iterhash.cpp:IteratedHashBase::Update", "iterhash.cpp:IteratedHashBase::TruncatedFinal"]}
{"id": "C11", "title": "Iterated hash padding is Merkle-Damgard strengthening", "statement": "The digest is the compression function folded over the message followed by a one bit, the least number of zero bits, and the message bit length, in the documented byte order, for every message whose bit length fits the length field.", "quantifier": "every message, block size and word size", "why_tests_cant": "The set of inputs is infinite; a test fixes a handful of strings and a handful of ways of cutting them.", "anchors": ["iterhash.cpp:IteratedHashBase::PadLastBlock", "iterhash.cpp:IteratedHashBase::TruncatedFinal"]}
{"id": "C12", "title": "Hash objects restart cleanly", "statement": "After Final, TruncatedFinal or Restart a hash or MAC object behaves exactly like a freshly constructed one, whatever was hashed before.", "quantifier": "every history of Update, Final and Restart calls", "why_tests_cant": "Depends on every earlier history.", "anchors": ["iterhash.cpp:IteratedHashBase::Restart", "hmac.cpp:HMAC_Base::Restart", "cmac.cpp:CMAC_Base::TruncatedFinal"]}
{"id": "C13", "title": "Over-long messages are rejected, not silently wrapped", "statement": "A hash either encodes the true bit length of the message or reports HashInputTooLong.", "quantifier": "every message length", "why_tests_cant": "Lengths near 2^64 cannot be executed.", "anchors": ["iterhash.cpp:IteratedHashBase::Update", "iterhash.h:IteratedHashBase::GetBitCountHi"]}
{"id": "C14", "title": "HMAC is the RFC 2104 construction", "statement": "HMAC of a message under a key equals H((K xor opad) || H((K xor ipad) || m)) with K the zero-filled key or its hash when longer than a block, for every split of the message over Update calls and every number of messages processed with the same key.", "quantifier": "every key, message, split and history", "why_tests_cant": "The set of inputs is infinite; a test fixes a handful of strings and a handful of ways of cutting them.", "anchors": ["hmac.cpp:HMAC_Base::UncheckedSetKey", "hmac.cpp:HMAC_Base::KeyInnerHash", "hmac.cpp:HMAC_Base::TruncatedFinal"]}
{"id": "C15", "title": "CMAC is SP 800-38B and chunk independent", "statement": "CMAC computes the CBC chain with the last block masked by the doubled subkey (complete block) or padded and masked by the twice doubled subkey, for every split over Update calls.", "quantifier": "every block cipher, key, message and split", "why_tests_cant": "The set of inputs is infinite; a test fixes a handful of strings and a handful of ways of cutting them.", "anchors": ["cmac.cpp:CMAC_Base::Update", "cmac.cpp:CMAC_Base::TruncatedFinal", "cmac.cpp:MulU"]}
{"id": "C16", "title": "CBC-MAC is chunk independent", "statement": "CBC_MAC computes the CBC chain over the zero-padded message for every split over Update calls.", "quantifier": "every block cipher, message and split", "why_tests_cant": "The set of inputs is infinite; a test fixes a handful of strings and a handful of ways of cutting them.", "anchors": ["cbcmac.cpp:CBC_MAC_Base::Update", "cbcmac.cpp:CBC_MAC_Base::TruncatedFinal"]}
{"id": "C17", "title": "Poly1305 limb arithmetic is exact", "statement": "The 32-bit limb code computes the polynomial evaluation modulo 2^130-5, with the final reduction and addition of the nonce modulo 2^128, without losing a carry.", "quantifier": "every key, every message, every reachable accumulator", "why_tests_cant": "Carry paths that occur with probability about 2^-32 are not hit by tests.", "anchors": ["poly1305.cpp:Poly1305_HashBlocks", "poly1305.cpp:Poly1305_HashFinal"]}
{"id": "C18", "title": "Tag verification accepts exactly the right tag", "statement": "Verify and TruncatedVerify return true exactly when the supplied bytes equal the (truncated) digest, and the comparison inspects every byte.", "quantifier": "every digest, candidate and length", "why_tests_cant": "All 2^(8n) candidates would have to be tried.", "anchors": ["cryptlib.cpp:HashTransformation::TruncatedVerify", "misc.cpp:VerifyBufsEqual"]}
{"id": "C19", "title": "Adler-32 deferred reduction is exact", "statement": "Adler32 with its delayed modulo operations returns the RFC 1950 checksum for every message and every split.", "quantifier": "every message and split", "why_tests_cant": "The worst case needs adversarial data of tens of kilobytes in the right split.", "anchors": ["adler32.cpp:Adler32::Update"]}
{"id": "C20", "title": "ECB and CBC round-trip", "statement": "Decrypting the ciphertext of any whole number of blocks returns the plaintext, for every IV and however either side splits the data into block multiples.", "quantifier": "every invertible block cipher, IV, plaintext and split", "why_tests_cant": "The set of inputs is infinite; a test fixes a handful of strings and a handful of ways of cutting them.", "anchors": ["modes.cpp:CBC_Encryption::ProcessData", "modes.cpp:CBC_Decryption::ProcessData", "modes.cpp:ECB_OneWay::ProcessData"]}
{"id": "C21", "title": "CBC ciphertext stealing round-trips", "statement": "CBC_CTS decrypts what CBC_CTS encrypted for every message longer than the minimum, with and without a stolen IV, and the ciphertext is exactly as long as the message.", "quantifier": "every length, cipher, IV and message", "why_tests_cant": "Residual lengths and the stolen IV path give infinitely many cases.", "anchors": ["modes.cpp:CBC_CTS_Encryption::ProcessLastBlock", "modes.cpp:CBC_CTS_Decryption::ProcessLastBlock"]}
{"id": "C22", "title": "CFB, OFB and CTR round-trip under any chunking", "statement": "Decryption with the same key and IV returns the plaintext however encryption and decryption calls split the stream.", "quantifier": "every block cipher, IV, message, feedback size and pair of splits", "why_tests_cant": "Exponentially many pairs of splits.", "anchors": ["strciphr.cpp:AdditiveCipherTemplate::ProcessData", "strciphr.cpp:CFB_CipherTemplate::ProcessData", "modes.cpp:CTR_ModePolicy::OperateKeystream"]}
{"id": "C23", "title": "Stream cipher keystream does not depend on chunking", "statement": "The keystream consumed by a sequence of ProcessData and GenerateBlock calls is the prefix of one fixed sequence, whatever the call lengths.", "quantifier": "every keystream policy and every list of call lengths", "why_tests_cant": "Exponentially many splits.", "anchors": ["strciphr.cpp:AdditiveCipherTemplate::ProcessData", "strciphr.cpp:AdditiveCipherTemplate::GenerateBlock"]}
{"id": "C24", "title": "Seek is equivalent to discarding keystream", "statement": "After Seek(n) the next output is the keystream from byte n, from any prior state.", "quantifier": "every position and prior history", "why_tests_cant": "Positions range over 2^64 values.", "anchors": ["strciphr.cpp:AdditiveCipherTemplate::Seek", "modes.cpp:CTR_ModePolicy::SeekToIteration"]}
{"id": "C25", "title": "CTR counter is a big-endian integer with full carry", "statement": "The i-th keystream block is the encryption of IV plus i modulo 2^(8 blocksize), for every IV, including those whose low bytes overflow.", "quantifier": "every IV and block index", "why_tests_cant": "The carry out of several bytes needs special IVs or 2^32 blocks.", "anchors": ["modes.cpp:CTR_ModePolicy::OperateKeystream", "modes.cpp:CTR_ModePolicy::IncrementCounterBy256", "misc.h:IncrementCounterByOne"]}
{"id": "C26", "title": "Resynchronize forgets the past", "statement": "After Resynchronize(iv) a stream cipher behaves exactly as a freshly keyed object with that IV.", "quantifier": "every history and IV", "why_tests_cant": "Depends on every earlier history.", "anchors": ["strciphr.cpp:AdditiveCipherTemplate::Resynchronize", "strciphr.cpp:CFB_CipherTemplate::Resynchronize", "eax.cpp:EAX_Base::Resync"]}
{"id": "C27", "title": "FilterWithBufferedInput delivers the stream intact under any chunking", "statement": "The data handed to FirstPut, NextPut and LastPut, concatenated, is the input stream; FirstPut gets exactly the first firstSize bytes, LastPut gets the last bytes, and the pieces do not depend on how the input was split.", "quantifier": "every first, block and last size, every input and split", "why_tests_cant": "Exponentially many splits over three interacting sizes.", "anchors": ["filters.cpp:FilterWithBufferedInput::PutMaybeModifiable", "filters.cpp:FilterWithBufferedInput::BlockQueue"]}
{"id": "C28", "title": "Block paddings round-trip through StreamTransformationFilter", "statement": "For PKCS, W3C and ONE_AND_ZEROS padding (and NO_PADDING / ZEROS_PADDING on their documented domains) decryption removes exactly what encryption added.", "quantifier": "every message length and block size, every padding scheme", "why_tests_cant": "The set of inputs is infinite; a test fixes a handful of strings and a handful of ways of cutting them.", "anchors": ["filters.cpp:StreamTransformationFilter::LastPut", "filters.h:BlockPaddingSchemeDef"]}
{"id": "C29", "title": "Malformed padding is rejected", "statement": "Decryption with PKCS or ONE_AND_ZEROS padding throws InvalidCiphertext for every final block that is not a valid padding.", "quantifier": "every final block", "why_tests_cant": "256^blocksize final blocks.", "anchors": ["filters.cpp:StreamTransformationFilter::LastPut"]}
{"id": "C30", "title": "HashVerificationFilter accepts exactly valid messages", "statement": "With any placement of the digest, GetLastResult is true, and no exception is thrown, exactly when the digest in the stream is the digest of the message in the stream, for every message, including streams too short to contain a digest.", "quantifier": "every message, digest, flag combination and history of messages", "why_tests_cant": "Short messages after long ones form an unbounded family of histories.", "anchors": ["filters.cpp:HashVerificationFilter::FirstPut", "filters.cpp:HashVerificationFilter::LastPut"]}
{"id": "C31", "title": "DER length round-trip", "statement": "BERLengthDecode returns the length DERLengthEncode wrote and consumes exactly its bytes, and the encoding is minimal.", "quantifier": "every length below 2^64 and every trailing data", "why_tests_cant": "The set of inputs is infinite; a test fixes a handful of strings and a handful of ways of cutting them.", "anchors": ["asn.cpp:DERLengthEncode", "asn.cpp:BERLengthDecode"]}
{"id": "C32", "title": "DER/BER primitive round-trips", "statement": "Octet strings, bit strings, nulls, booleans, unsigned words, text strings and dates decode to the value that was encoded, leaving trailing data untouched.", "quantifier": "every value and trailing data", "why_tests_cant": "The set of inputs is infinite; a test fixes a handful of strings and a handful of ways of cutting them.", "anchors": ["asn.cpp:DEREncodeOctetString", "asn.cpp:BERDecodeOctetString", "asn.cpp:DEREncodeBitString", "asn.cpp:BERDecodeBitString", "asn.h:DEREncodeUnsigned", "asn.h:BERDecodeUnsigned"]}
{"id": "C33", "title": "OBJECT IDENTIFIER round-trip", "statement": "BERDecode(DEREncode(oid)) returns oid for every valid object identifier.", "quantifier": "every valid OID (first arc 0..2, second arc below 40 unless the first is 2)", "why_tests_cant": "Infinitely many OIDs; the ones in the library's tables all have small second arcs.", "anchors": ["asn.cpp:OID::DEREncode", "asn.cpp:OID::BERDecode"]}
{"id": "C34", "title": "BER decoders reject truncated input", "statement": "Decoding a proper prefix of an encoding throws instead of returning a value.", "quantifier": "every encoding and every proper prefix", "why_tests_cant": "Every prefix of every encoding.", "anchors": ["asn.cpp:BERDecodeOctetString", "asn.cpp:BERLengthDecode", "asn.cpp:OID::BERDecode"]}
{"id": "C35", "title": "Integer addition, subtraction and comparison are exact", "statement": "Integer +, -, unary -, ++, --, Compare and the relational operators agree with the mathematical integers for all sizes and sign combinations.", "quantifier": "all pairs of integers", "why_tests_cant": "Unbounded sizes; carries across words are rare.", "anchors": ["integer.cpp:Integer::Plus", "integer.cpp:Integer::Minus", "integer.cpp:Baseline_Add", "integer.cpp:Integer::Compare"]}
{"id": "C36", "title": "Integer multiplication is exact", "statement": "The Karatsuba recursion, the squaring variant and the asymmetric multiplication return the exact product.", "quantifier": "all pairs of word vectors of the supported sizes", "why_tests_cant": "Carry and sign handling in the middle term depends on rare data.", "anchors": ["integer.cpp:RecursiveMultiply", "integer.cpp:RecursiveSquare", "integer.cpp:AsymmetricMultiply"]}
{"id": "C37", "title": "Integer division is Euclidean", "statement": "Divide returns q and r with a = q*d + r and 0 <= r < |d| for every dividend and every non-zero divisor, and throws on zero.", "quantifier": "all pairs of integers", "why_tests_cant": "The quotient-estimate correction steps occur with probability about 2^-64.", "anchors": ["integer.cpp:Integer::Divide", "integer.cpp:Divide", "integer.cpp:SubatomicDivide"]}
{"id": "C38", "title": "Integer bit operations and shifts agree with arithmetic", "statement": "<<, >>, GetBit, SetBit, GetByte, BitCount, And, Or and Xor agree with arithmetic on the absolute value.", "quantifier": "all integers and shift counts", "why_tests_cant": "The set of inputs is infinite; a test fixes a handful of strings and a handful of ways of cutting them.", "anchors": ["integer.cpp:Integer::operator<<=", "integer.cpp:Integer::operator>>=", "integer.cpp:Integer::BitCount"]}
{"id": "C39", "title": "Integer encode/decode round-trip", "statement": "Decode(Encode(x)) returns x for signed and unsigned encodings of every length at least MinEncodedSize, and MinEncodedSize is the least such length.", "quantifier": "all integers and lengths", "why_tests_cant": "The set of inputs is infinite; a test fixes a handful of strings and a handful of ways of cutting them.", "anchors": ["integer.cpp:Integer::Encode", "integer.cpp:Integer::Decode", "integer.cpp:Integer::MinEncodedSize"]}
{"id": "C40", "title": "Montgomery arithmetic represents modular arithmetic", "statement": "ConvertOut(Multiply(ConvertIn a, ConvertIn b)) = a*b mod m for every odd modulus.", "quantifier": "all odd moduli and residues", "why_tests_cant": "The final conditional subtraction is needed only for rare operands.", "anchors": ["integer.cpp:MontgomeryReduce", "integer.cpp:MontgomeryRepresentation::Multiply"]}
{"id": "C41", "title": "Windowed exponentiation computes the power", "statement": "ScalarMultiply, SimultaneousMultiply, CascadeScalarMultiply and their exponentiation forms return the true multiples in any abelian group, with and without fast negation.", "quantifier": "all groups, bases and non-negative exponents", "why_tests_cant": "Unbounded exponents; window boundaries depend on the bits.", "anchors": ["algebra.cpp:AbstractGroup::SimultaneousMultiply", "algebra.cpp:WindowSlider::FindNextWindow", "algebra.cpp:AbstractGroup::CascadeScalarMultiply"]}
{"id": "C42", "title": "Gcd and modular inverse", "statement": "Gcd returns the greatest common divisor; InverseMod returns the inverse when it exists and zero exactly when it does not.", "quantifier": "all pairs of integers", "why_tests_cant": "The set of inputs is infinite; a test fixes a handful of strings and a handful of ways of cutting them.", "anchors": ["algebra.cpp:AbstractEuclideanDomain::Gcd", "algebra.cpp:QuotientRing::MultiplicativeInverse", "integer.cpp:Integer::InverseMod"]}
{"id": "C43", "title": "CRT recombination", "statement": "CRT(xp,p,xq,q,u) returns the unique residue modulo p*q congruent to xp and xq, for coprime p and q with u = p^-1 mod q.", "quantifier": "all coprime moduli", "why_tests_cant": "The set of inputs is infinite; a test fixes a handful of strings and a handful of ways of cutting them.", "anchors": ["nbtheory.cpp:CRT"]}
{"id": "C44", "title": "Jacobi symbol", "statement": "Jacobi(a,b) obeys the defining laws of the Jacobi symbol for every odd positive b.", "quantifier": "all a and odd b", "why_tests_cant": "The set of inputs is infinite; a test fixes a handful of strings and a handful of ways of cutting them.", "anchors": ["nbtheory.cpp:Jacobi"]}
{"id": "C45", "title": "RSA inverts", "statement": "RSA private-key application inverts the public-key application for every message representative, for CRT and plain exponents, and a fault is detected.", "quantifier": "all keys satisfying the key equation, all messages and blinding values", "why_tests_cant": "The set of inputs is infinite; a test fixes a handful of strings and a handful of ways of cutting them.", "anchors": ["rsa.cpp:InvertibleRSAFunction::CalculateInverse", "rsa.cpp:RSAFunction::ApplyFunction"]}
{"id": "C46", "title": "PKCS #1 v1.5 encryption padding round-trips", "statement": "Unpad(Pad(m)) = m for every message not longer than MaxUnpaddedLength and every random padding.", "quantifier": "all messages, block lengths and random strings", "why_tests_cant": "The set of inputs is infinite; a test fixes a handful of strings and a handful of ways of cutting them.", "anchors": ["pkcspad.cpp:PKCS_EncryptionPaddingScheme::Pad", "pkcspad.cpp:PKCS_EncryptionPaddingScheme::Unpad"]}
{"id": "C47", "title": "PKCS #1 v1.5 unpadding accepts only well-formed blocks", "statement": "Unpad accepts a block only if it has the form 02 || at least eight non-zero bytes || 00 || message.", "quantifier": "every block", "why_tests_cant": "256^n blocks.", "anchors": ["pkcspad.cpp:PKCS_EncryptionPaddingScheme::Unpad"]}
{"id": "C48", "title": "OAEP round-trips", "statement": "Unpad(Pad(m)) = m for every message, label and seed, and any change of label is rejected unless the hashes collide.", "quantifier": "all messages, labels, seeds, hash and mask functions", "why_tests_cant": "The set of inputs is infinite; a test fixes a handful of strings and a handful of ways of cutting them.", "anchors": ["oaep.cpp:OAEP_Base::Pad", "oaep.cpp:OAEP_Base::Unpad"]}
{"id": "C49", "title": "PSSR round-trips", "statement": "RecoverMessageFromRepresentative accepts every representative ComputeMessageRepresentative makes and returns the recoverable message.", "quantifier": "all messages, salts and bit lengths", "why_tests_cant": "The set of inputs is infinite; a test fixes a handful of strings and a handful of ways of cutting them.", "anchors": ["pssr.cpp:PSSR_MEM_Base::ComputeMessageRepresentative", "pssr.cpp:PSSR_MEM_Base::RecoverMessageFromRepresentative"]}
{"id": "C50", "title": "AEAD decrypts what it encrypted", "statement": "For GCM, CCM, EAX and ChaCha20Poly1305 DecryptAndVerify on the output of EncryptAndAuthenticate returns true and the plaintext.", "quantifier": "all keys, IVs, headers, messages and splits of header and message", "why_tests_cant": "The set of inputs is infinite; a test fixes a handful of strings and a handful of ways of cutting them.", "anchors": ["authenc.cpp:AuthenticatedSymmetricCipherBase", "gcm.cpp", "ccm.cpp", "eax.cpp", "chachapoly.cpp"]}
{"id": "C51", "title": "AEAD tags do not depend on chunking", "statement": "Header, message and footer may be supplied in any pieces without changing ciphertext or tag.", "quantifier": "all splits", "why_tests_cant": "Exponentially many splits.", "anchors": ["authenc.cpp:AuthenticatedSymmetricCipherBase::AuthenticateData", "authenc.cpp:AuthenticatedSymmetricCipherBase::ProcessData"]}
{"id": "C52", "title": "AEAD state machine rejects out-of-order use", "statement": "Header data after message data, processing before an IV is set, and reuse after Final without a new IV are rejected with BadState and leave ciphertext and tag of earlier calls unaffected.", "quantifier": "every sequence of API calls", "why_tests_cant": "Unbounded call sequences.", "anchors": ["authenc.cpp:AuthenticatedSymmetricCipherBase::Update", "authenc.cpp:AuthenticatedSymmetricCipherBase::ProcessData", "authenc.cpp:AuthenticatedSymmetricCipherBase::TruncatedFinal"]}
{"id": "C53", "title": "AEAD verification accepts exactly the computed tag", "statement": "Verification of a message succeeds exactly when the supplied tag equals the tag the sender would compute for that IV, header and ciphertext.", "quantifier": "all tags and messages", "why_tests_cant": "2^128 tags.", "anchors": ["cryptlib.cpp:AuthenticatedSymmetricCipher::DecryptAndVerify", "authenc.cpp"]}
{"id": "C54", "title": "PaddingRemover inverts the padding under any chunking", "statement": "PaddingRemover outputs the message that was followed by a 01 byte and zero bytes, however the padded stream is split and whatever messages went before.", "quantifier": "every message, padding length, split and history", "why_tests_cant": "Depends on where chunk boundaries fall relative to 01 bytes.", "anchors": ["ida.cpp:PaddingRemover::Put2"]}
{"id": "C55", "title": "Secret sharing recovers the secret", "statement": "Any threshold number of distinct shares reconstructs the secret exactly.", "quantifier": "all secrets, thresholds, share sets and random strings", "why_tests_cant": "The set of inputs is infinite; a test fixes a handful of strings and a handful of ways of cutting them.", "anchors": ["ida.cpp:RawIDA::ProcessInputQueues", "ida.cpp:SecretSharing::Put2", "polynomi.cpp:PrepareBulkPolynomialInterpolation"]}
{"id": "C56", "title": "GF(2^32) arithmetic is a field", "statement": "GF2_32 multiplication is commutative, associative and distributive and MultiplicativeInverse returns inverses of all non-zero elements.", "quantifier": "all pairs of 32-bit elements", "why_tests_cant": "2^64 pairs.", "anchors": ["gf2_32.cpp:GF2_32::Multiply", "gf2_32.cpp:GF2_32::MultiplicativeInverse"]}
{"id": "C57", "title": "Block ciphers are permutations", "statement": "ProcessBlock of the decryption object inverts ProcessBlock of the encryption object with the same key, for every key and block.", "quantifier": "all keys and blocks (and round counts where variable)", "why_tests_cant": "2^128 blocks times 2^128 keys.", "anchors": ["tea.cpp", "speck.cpp", "simon.cpp", "des.cpp", "rc5.cpp", "rc6.cpp", "rijndael.cpp", "threefish.cpp"]}
{"id": "C58", "title": "GenerateWord32 stays in range", "statement": "GenerateWord32(min,max) returns a value in [min,max] whenever it returns, and returns min when min = max.", "quantifier": "all ranges and random streams", "why_tests_cant": "The set of inputs is infinite; a test fixes a handful of strings and a handful of ways of cutting them.", "anchors": ["cryptlib.cpp:RandomNumberGenerator::GenerateWord32"]}
{"id": "C59", "title": "LC_RNG follows its recurrence", "statement": "LC_RNG's state follows seed' = a*seed mod (2^31-1).", "quantifier": "all seeds and all generation lengths", "why_tests_cant": "2^31 seeds and unbounded histories.", "anchors": ["rng.cpp:LC_RNG::GenerateBlock"]}
{"id": "C60", "title": "SecBlock resizing preserves content", "statement": "resize, Grow, CleanGrow and assignment keep the common prefix, zero-fill where documented and give the requested size.", "quantifier": "every history of size changes", "why_tests_cant": "Unbounded histories.", "anchors": ["secblock.h:SecBlock::Grow", "secblock.h:SecBlock::CleanGrow", "secblock.h:SecBlock::resize", "secblock.h:StandardReallocate"]}
{"id": "C61", "title": "Huffman coding round-trips", "statement": "For every set of code lengths that satisfies Kraft's equality, the decoder built from the lengths recovers every symbol sequence the encoder built from the same lengths wrote.", "quantifier": "all complete code-length vectors and symbol sequences", "why_tests_cant": "The set of inputs is infinite; a test fixes a handful of strings and a handful of ways of cutting them.", "anchors": ["zdeflate.cpp:HuffmanEncoder::Initialize", "zinflate.cpp:HuffmanDecoder::Initialize", "zinflate.cpp:HuffmanDecoder::Decode"]}
{"id": "C62", "title": "Deflate length and distance symbols round-trip", "statement": "Every match length 3..258 and distance 1..32768 is reconstructed from the symbol and extra bits the compressor emits.", "quantifier": "every length and distance", "why_tests_cant": "The composition with the bit stream is unbounded.", "anchors": ["zdeflate.cpp:Deflator::MatchFound", "zinflate.cpp:Inflator::DecodeBody"]}
{"id": "C63", "title": "Inflator never reads outside its window", "statement": "A back reference either copies the bytes that were output distance positions earlier or throws; memory outside the window is never read, and output equals the history semantics.", "quantifier": "every compressed stream", "why_tests_cant": "Adversarial inputs are unbounded.", "anchors": ["zinflate.cpp:Inflator::OutputPast", "zinflate.cpp:Inflator::OutputByte"]}
{"id": "C64", "title": "Channel routing delivers to exactly the configured routes", "statement": "ChannelSwitch sends each message to every route added for its channel, or to the default routes when there is none, and to nobody else.", "quantifier": "every sequence of route changes and messages", "why_tests_cant": "Unbounded histories.", "anchors": ["channels.cpp:ChannelSwitch::ChannelPut2", "channels.cpp:ChannelSwitch::AddRoute", "channels.cpp:ChannelSwitch::RemoveRoute"]}
{"id": "C65", "title": "Key derivation follows its specification", "statement": "PBKDF2 and HKDF return the bytes of their specification, truncated to the requested length, for every length.", "quantifier": "all passwords, salts, iteration counts and lengths", "why_tests_cant": "The set of inputs is infinite; a test fixes a handful of strings and a handful of ways of cutting them.", "anchors": ["pwdbased.h:PKCS5_PBKDF2_HMAC::DeriveKey", "hkdf.h:HKDF::DeriveKey"]}
{"id": "C66", "title": "EqualityComparisonFilter decides equality of the two channels", "statement": "An EqualityComparisonFilter fed with one complete series on each of its two channels outputs exactly one byte: 1 if both channels carried the same bytes with the same message boundaries, 0 otherwise, however the two streams are interleaved and chunked. (Holds for one series per channel; refuted for a second series and for series ended inside a message.)", "quantifier": "every interleaved history of Put/MessageEnd/SeriesEnd calls on the two channels, every chunking", "why_tests_cant": "the number of interleavings and chunkings is unbounded; the outcome depends on queue state at each comparison", "anchors": ["mqueue.cpp:EqualityComparisonFilter::ChannelPut2", "mqueue.cpp:EqualityComparisonFilter::ChannelMessageSeriesEnd"]}
{"id": "C67", "title": "CRC-32 and CRC-32C are the bit-serial CRCs", "statement": "CRC32 and CRC32C return the checksum of the reflected polynomials 0xEDB88320 and 0x82F63B78 for every message, split and buffer alignment, and detect every change confined to four consecutive bytes.", "quantifier": "every message, split, alignment and call history", "why_tests_cant": "Table entries, word strides and alignment prologue combine in unboundedly many ways.", "anchors": ["crc.cpp:CRC32::Update", "crc.cpp:CRC32C::Update", "crc.h:CRC32::UpdateByte"]}
{"id": "C68", "title": "X.509 and PKCS#8 key containers round-trip", "statement": "DER-encoding a public key as SubjectPublicKeyInfo or a private key as PrivateKeyInfo and decoding it returns the algorithm parameters, the key and the optional attributes, for every key type whose own parameter and key codecs round-trip; a container cut short is refused.", "quantifier": "every algorithm OID with second arc below 40, parameter and key codec, key, attributes, trailing data and truncation", "why_tests_cant": "Ranges over every key type a user may derive and every truncation point.", "anchors": ["asn.cpp:X509PublicKey::BERDecode", "asn.cpp:X509PublicKey::DEREncode", "asn.cpp:PKCS8PrivateKey::BERDecode", "asn.cpp:PKCS8PrivateKey::DEREncode"]}
{"id": "C69", "title": "DERReencode turns indefinite lengths into minimal definite ones", "statement": "DERReencode writes the object it reads with every indefinite length, down to the first definite object on each path, replaced by the minimal definite length, copies definite contents verbatim, and consumes exactly the object. (Contents of definite objects are not re-encoded, so the result need not be DER.)", "quantifier": "every BER object of any nesting and any trailing data", "why_tests_cant": "Objects nest without bound.", "anchors": ["asn.cpp:DERReencode", "asn.cpp:BERGeneralDecoder"]}
{"id": "C70", "title": "Integer DER encoding round-trips", "statement": "DEREncode writes the DER encoding of the integer and BERDecode reads exactly it back, whatever follows, and refuses it cut short; the octet-string forms do the same at the chosen length.", "quantifier": "all integers, contexts and truncations", "why_tests_cant": "The set of inputs is infinite; a test fixes a handful of strings and a handful of ways of cutting them.", "anchors": ["integer.cpp:Integer::DEREncode", "integer.cpp:Integer::BERDecode", "integer.cpp:Integer::DEREncodeAsOctetString", "integer.cpp:Integer::BERDecodeAsOctetString"]}
{"id": "C71", "title": "Integer square root is exact", "statement": "SquareRoot returns the largest integer whose square does not exceed the argument, 0 for negative arguments, and terminates.", "quantifier": "all integers", "why_tests_cant": "The Newton iteration runs an input-dependent number of steps over unbounded sizes.", "anchors": ["integer.cpp:Integer::SquareRoot"]}
{"id": "C72", "title": "OpenPGP integers round-trip", "statement": "OpenPGPEncode writes the bit count and the minimal magnitude bytes and OpenPGPDecode reads them back.", "quantifier": "all integers", "why_tests_cant": "The set of inputs is infinite; a test fixes a handful of strings and a handful of ways of cutting them.", "anchors": ["integer.cpp:Integer::OpenPGPEncode", "integer.cpp:Integer::OpenPGPDecode"]}
{"id": "C73", "title": "ModularArithmetic is the ring of residues", "statement": "Add, Accumulate, Subtract, Reduce, Inverse, Multiply, Square, Half, MultiplicativeInverse and any expression built from them return the residue of the same expression on integers.", "quantifier": "all moduli greater than one, elements and expressions", "why_tests_cant": "Carries at word boundaries and the conditional correction are rare.", "anchors": ["integer.cpp:ModularArithmetic::Add", "integer.cpp:ModularArithmetic::Subtract", "integer.cpp:ModularArithmetic::Half", "integer.cpp:ModularArithmetic::Inverse"]}
{"id": "C74", "title": "Probable-prime tests never reject a prime", "statement": "IsFermatProbablePrime, IsStrongProbablePrime and RabinMillerTest return true for every prime and every base or random choice, and on odd numbers decide exactly Fermat's and Miller's conditions.", "quantifier": "all primes, bases and random blocks", "why_tests_cant": "The set of inputs is infinite; a test fixes a handful of strings and a handful of ways of cutting them.", "anchors": ["nbtheory.cpp:IsFermatProbablePrime", "nbtheory.cpp:IsStrongProbablePrime", "nbtheory.cpp:RabinMillerTest"]}
{"id": "C75", "title": "Modular square roots", "statement": "ModularSquareRoot(a,p) terminates and returns a root of a modulo every odd prime p whenever a is a square.", "quantifier": "all odd primes and all integers", "why_tests_cant": "The set of inputs is infinite; a test fixes a handful of strings and a handful of ways of cutting them.", "anchors": ["nbtheory.cpp:ModularSquareRoot"]}
{"id": "C76", "title": "Modular quadratic equations", "statement": "SolveModularQuadraticEquation returns the complete set of solutions, or reports that there is none.", "quantifier": "all odd primes and coefficients with a nonzero leading one", "why_tests_cant": "The set of inputs is infinite; a test fixes a handful of strings and a handful of ways of cutting them.", "anchors": ["nbtheory.cpp:SolveModularQuadraticEquation"]}
{"id": "C77", "title": "RSA key from n, e and d", "statement": "InvertibleRSAFunction::Initialize(n,e,d) recovers the factors of n and computes the other private numbers.", "quantifier": "all odd n, e, d with a product above one", "why_tests_cant": "The search runs over an input-dependent number of bases.", "anchors": ["rsa.cpp:InvertibleRSAFunction::Initialize"]}
{"id": "C78", "title": "Lucas sequences", "statement": "Lucas(e,p,n) is the e-th term of the Lucas sequence V(p,1) modulo n.", "quantifier": "all exponents, parameters and odd moduli", "why_tests_cant": "The set of inputs is infinite; a test fixes a handful of strings and a handful of ways of cutting them.", "anchors": ["nbtheory.cpp:Lucas"]}
{"id": "C79", "title": "Random integers are uniform", "statement": "Randomize(rng,min,max) is rejection sampling: it returns min plus the first draw that does not exceed max-min, where every number of that many bits comes from equally many blocks of generator output; an empty range throws.", "quantifier": "all ranges and all generator outputs", "why_tests_cant": "Uniformity is a statement about all outputs of the generator.", "anchors": ["integer.cpp:Integer::Randomize"]}
{"id": "C80", "title": "RSA key encodings round-trip", "statement": "BERDecodePublicKey and BERDecodePrivateKey read back the numbers DEREncodePublicKey and DEREncodePrivateKey wrote, whatever follows, and refuse every proper prefix.", "quantifier": "all keys, contexts and truncations", "why_tests_cant": "The set of inputs is infinite; a test fixes a handful of strings and a handful of ways of cutting them.", "anchors": ["rsa.cpp:RSAFunction::DEREncodePublicKey", "rsa.cpp:InvertibleRSAFunction::BERDecodePrivateKey"]}
{"id": "C81", "title": "RSA key generation satisfies the key equations", "statement": "From primes that pass the selector, GenerateRandom derives a private key that satisfies the equations of PKCS #1; equal primes are rejected.", "quantifier": "all primes and public exponents", "why_tests_cant": "The set of inputs is infinite; a test fixes a handful of strings and a handful of ways of cutting them.", "anchors": ["rsa.cpp:InvertibleRSAFunction::GenerateRandom"]}
{"id": "C82", "title": "Shuffle permutes", "statement": "RandomNumberGenerator::Shuffle leaves a permutation of the elements, and for every permutation there is exactly one sequence of choices that gives it.", "quantifier": "all sequences and all generator outputs", "why_tests_cant": "The set of inputs is infinite; a test fixes a handful of strings and a handful of ways of cutting them.", "anchors": ["cryptlib.h:RandomNumberGenerator::Shuffle"]}
{"id": "C83", "title": "X9.17 generator output", "statement": "With a deterministic time vector each request puts out the next blocks of ANSI X9.17, cut to the length asked for, and leaves the state at the following block; two equal successive blocks make it throw.", "quantifier": "all ciphers, seeds, time vectors and request lengths", "why_tests_cant": "The set of inputs is infinite; a test fixes a handful of strings and a handful of ways of cutting them.", "anchors": ["rng.cpp:X917RNG::GenerateIntoBufferedTransformation"]}
{"id": "C84", "title": "MGF1 and KDF2 are the counter constructions", "statement": "P1363_MGF1 and P1363_KDF2 produce the concatenated hashes of the input with the 32-bit counter (and parameters), cut to length.", "quantifier": "all inputs, lengths and hash functions", "why_tests_cant": "The set of inputs is infinite; a test fixes a handful of strings and a handful of ways of cutting them.", "anchors": ["pubkey.cpp:P1363_MGF1KDF2_Common"]}
{"id": "C85", "title": "RSA encryption schemes round-trip", "statement": "Decrypt(Encrypt(m)) = m for RSAES with PKCS #1 v1.5 and OAEP, for every key, message, label and random bytes; too long messages and ciphertexts of another length throw.", "quantifier": "all keys, messages, labels and random outputs", "why_tests_cant": "The set of inputs is infinite; a test fixes a handful of strings and a handful of ways of cutting them.", "anchors": ["pubkey.h:TF_DecryptorBase", "pubkey.cpp:TF_DecryptorBase::Decrypt", "pubkey.cpp:TF_EncryptorBase::Encrypt"]}
{"id": "C86", "title": "RSA signature schemes sign and verify", "statement": "Every signature made with PKCS #1 v1.5, PSS or PSSR verifies (or gives the recoverable message back), and a signature is accepted exactly if its power is an encoding of the message.", "quantifier": "all keys, messages, salts and signatures", "why_tests_cant": "The set of inputs is infinite; a test fixes a handful of strings and a handful of ways of cutting them.", "anchors": ["pubkey.cpp:TF_SignerBase::SignAndRestart", "pubkey.cpp:TF_VerifierBase::VerifyAndRestart", "pubkey.cpp:TF_VerifierBase::RecoverAndRestart"]}
{"id": "C87", "title": "PKCS #1 v1.5 signature representatives are unique", "statement": "The representative of a message is the one block the standard prescribes, and verification accepts that block and no other.", "quantifier": "all blocks, messages and hash functions", "why_tests_cant": "256^n blocks.", "anchors": ["pkcspad.cpp:PKCS1v15_SignatureMessageEncodingMethod::ComputeMessageRepresentative", "pubkey.cpp:PK_DeterministicSignatureMessageEncodingMethod::VerifyMessageRepresentative"]}
{"id": "C88", "title": "PBKDF1 and PKCS #12 derivation follow their specification", "statement": "PKCS5_PBKDF1 and PKCS12_PBKDF return the bytes of RFC 8018 and RFC 7292 for the number of iterations they report, which is the number asked for unless a time limit was set.", "quantifier": "all passwords, salts, purposes, iteration counts, lengths and timings", "why_tests_cant": "The inputs and the readings of the clock are unbounded.", "anchors": ["pwdbased.h:PKCS5_PBKDF1::DeriveKey", "pwdbased.h:PKCS12_PBKDF::DeriveKey"]}
{"id": "C89", "title": "Fewer shares than the threshold say nothing", "statement": "For every secret word and every value of t-1 shares there is exactly one choice of the random words that gives those shares, so the shares are independent of the secret; t shares determine it.", "quantifier": "all thresholds, share numbers, secrets and share values", "why_tests_cant": "Independence is a statement about all 2^(32(t-1)) random choices.", "anchors": ["ida.cpp:SecretSharing::Put2", "ida.cpp:RawIDA::ProcessInputQueues", "ida.cpp:RawIDA::ComputeV"]}
{"id": "C90", "title": "Bulk polynomial interpolation", "statement": "PrepareBulkPolynomialInterpolation, PrepareBulkPolynomialInterpolationAt and BulkPolynomialInterpolateAt return the value at a new position of the polynomial of least degree through the given points.", "quantifier": "all point sets of distinct positions, values and new positions", "why_tests_cant": "The set of inputs is infinite; a test fixes a handful of strings and a handful of ways of cutting them.", "anchors": ["polynomi.cpp:PrepareBulkPolynomialInterpolation", "polynomi.cpp:PrepareBulkPolynomialInterpolationAt", "polynomi.cpp:BulkPolynomialInterpolateAt"]}
{"id": "C91", "title": "Rijndael is the Advanced Encryption Standard", "statement": "For every key of 16, 24 or 32 bytes and every 16-byte block, ProcessBlock of the encryption object is the Cipher of FIPS-197 and ProcessBlock of the decryption object is its InvCipher; ProcessAndXorBlock adds the mask.", "quantifier": "all keys, blocks and masks", "why_tests_cant": "Known-answer tests cover a few hundred of 2^384 key and block pairs; table lookups can be wrong at one entry.", "anchors": ["rijndael.cpp:Rijndael::Base::UncheckedSetKey", "rijndael.cpp:Rijndael::Enc::ProcessAndXorBlock", "rijndael.cpp:Rijndael::Dec::ProcessAndXorBlock", "rdtables.cpp"]}
{"id": "C92", "title": "Inflator decodes exactly the deflate format", "statement": "What Inflator puts out is the data of the RFC 1951 stream at the front of its input followed by the bytes after that stream, and every stream of the format with a trailer is decoded to its data, however the input is cut into Put calls; no input makes it touch memory outside its buffers.", "quantifier": "all inputs, all divisions of them into Put calls, all window sizes of at least 257 bytes and contents of the window memory", "why_tests_cant": "Inputs and their divisions are unbounded; malformed inputs reach states no corpus has.", "anchors": ["zinflate.cpp:Inflator::Put2", "zinflate.cpp:Inflator::ProcessInput", "zinflate.cpp:Inflator::DecodeHeader", "zinflate.cpp:Inflator::DecodeBody"]}
{"id": "C93", "title": "Deflator round-trips", "statement": "Whatever the data, the Put calls it comes in, the flushes and changes of the compression level between them, the level, the window size and the automatic detection of incompressible data, every message of every run comes out as an RFC 1951 stream that holds exactly the data of the message, and Inflator gives the data back.", "quantifier": "all data, divisions into Put calls, flushes, level changes, levels 0-9, window sizes 2^9 to 2^15, message sequences and initial memory contents", "why_tests_cant": "The choice of matches and block kinds depends on the whole history; inputs are unbounded.", "anchors": ["zdeflate.cpp:Deflator::Put2", "zdeflate.cpp:Deflator::IsolatedFlush", "zdeflate.cpp:Deflator::SetDeflateLevel", "zdeflate.cpp:Deflator::EncodeBlock", "zdeflate.cpp:Deflator::LongestMatch"]}
{"id": "C94", "title": "Generated Huffman codes are complete and short enough", "statement": "For every list of symbol counts the generated code lengths give a code to exactly the symbols that occur, none longer than the limit, and together they form a complete prefix code (or the one-bit code of a single symbol).", "quantifier": "all lists of counts with at most 2^limit symbols, all limits 1 to 32", "why_tests_cant": "Length-limiting only acts on very uneven (Fibonacci-like) counts, and the adjustment loop could go wrong at any of them.", "anchors": ["zdeflate.cpp:HuffmanEncoder::GenerateCodeLengths"]}
{"id": "C95", "title": "zlib streams round-trip and are checked", "statement": "What ZlibDecompressor puts out is the data of an RFC 1950 stream at the front of its input, with the right checksum; every such stream is decoded whatever follows it; and what ZlibCompressor writes for each message is such a stream, from which ZlibDecompressor gives the data back, however the data and the stream are cut into Put calls.", "quantifier": "all inputs, all divisions into Put calls, flushes, level changes, levels, window sizes, message sequences and window memory", "why_tests_cant": "Inputs and their divisions are unbounded.", "anchors": ["zlib.cpp:ZlibCompressor", "zlib.cpp:ZlibDecompressor", "zinflate.cpp:Inflator::ProcessInput"]}
{"id": "C96", "title": "gzip members round-trip and are checked", "statement": "What Gunzip puts out is the data of an RFC 1952 member at the front of its input, with the right CRC and length, and the time, name and comment it reports are those of the header; every member is decoded whatever follows it; and what Gzip writes for each message is such a member with the time, name and comment set for that message and no other, from which Gunzip gives all of it back.", "quantifier": "all inputs, all divisions into Put calls, all sequences of messages with their settings", "why_tests_cant": "Inputs, header fields and their divisions are unbounded.", "anchors": ["gzip.cpp:Gzip", "gzip.cpp:Gunzip", "zinflate.cpp:Inflator::ProcessInput"]}
{"id": "C97", "title": "DES and triple DES are FIPS 46-3", "statement": "DES, DES_EDE2 and DES_EDE3 compute the functions of FIPS 46-3 (permutations, S-boxes and key schedule numbered and tabulated as in the standard) in both directions; CheckKeyParityBits tells whether every key byte has odd parity, CorrectKeyParityBits changes only parity bits and makes them right, and DES does not depend on them.", "quantifier": "all keys and blocks", "why_tests_cant": "2^56 keys times 2^64 blocks; the code works on rotated halves, merged S-box and P tables and a precomputed rotation schedule, so an error in one table entry shows for few inputs.", "anchors": ["des.cpp:RawDES::RawSetKey", "des.cpp:RawDES::RawProcessBlock", "des.cpp:IPERM", "des.cpp:FPERM", "des.cpp:DES::Base", "des.cpp:DES_EDE2::Base", "des.cpp:DES_EDE3::Base", "des.cpp:DES::CorrectKeyParityBits", "dessp.cpp:RawDES::Spbox"]}
{"id": "C98", "title": "PolynomialMod2 is arithmetic over GF(2)[x]", "statement": "The operations of PolynomialMod2 (coefficients, bytes, encoding, degree, comparison, sum, shifts, product, square, quotient and remainder, greatest common divisor, inverse) give the polynomials over GF(2) they are named after, whatever the number of words the operands hold and whatever uninitialised memory contains, and touch no memory outside their registers.", "quantifier": "all polynomials, all register lengths with leading zero words, all shift counts, 32- and 64-bit words", "why_tests_cant": "Register lengths and degrees are unbounded, and results of the class itself carry leading zero words.", "anchors": ["gf2n.cpp:PolynomialMod2::Times", "gf2n.cpp:PolynomialMod2::Divide", "gf2n.cpp:PolynomialMod2::operator<<=", "gf2n.cpp:PolynomialMod2::operator>>=", "gf2n.cpp:PolynomialMod2::Squared", "gf2n.cpp:PolynomialMod2::Gcd", "gf2n.cpp:PolynomialMod2::InverseMod", "gf2n.cpp:PolynomialMod2::Encode", "gf2n.cpp:PolynomialMod2::Decode", "algebra.cpp:QuotientRing::MultiplicativeInverse"]}
{"id": "C99", "title": "GF2NT multiplies and squares in the field modulo a trinomial", "statement": "For every trinomial x^t0 + x^t1 + 1, GF2NT::Multiply of two field elements and GF2NT::Square of an element return the polynomial of degree below t0 congruent to the product and the square modulo the trinomial, whatever the number of words the operands hold, and touch no memory outside their arrays.", "quantifier": "all degrees t0 > t1 > 0, all elements and register lengths, 32- and 64-bit words", "why_tests_cant": "Degrees and register lengths are unbounded, the folding of the words takes a different path for each position of t0 and t1 inside a word, and zero can be held in an empty register.", "anchors": ["gf2n.cpp:GF2NT::Multiply", "gf2n.cpp:GF2NT::Reduced", "gf2n.h:GF2NT::Square"]}
{"id": "C100", "title": "ECP adds points by chord and tangent", "statement": "For every curve y^2 = x^3 + a x + b over a field of odd characteristic and all points on it, ECP::Add, Double and Inverse return the sum, the double and the negative of their arguments in the group of the curve, always again a point of the curve, independent of the order of the arguments, and also when an argument is a reference returned by an earlier call on the same object.", "quantifier": "all fields of odd characteristic, all curves, all pairs of points including infinity, equal and opposite points, all aliasing of the arguments with the object's result", "why_tests_cant": "There are as many pairs of points as there are curves; the special cases (equal, opposite, order two) and aliased arguments are rarely hit by test vectors.", "anchors": ["ecp.cpp:ECP::Add", "ecp.cpp:ECP::Double", "ecp.cpp:ECP::Inverse", "ecp.cpp:ECP::Equal"]}
{"id": "C101", "title": "EC2N adds points by chord and tangent", "statement": "For every curve y^2 + x y = x^3 + a x^2 + b over a field of characteristic two and all points on it, EC2N::Add, Double and Inverse return the sum, the double and the negative of their arguments in the group of the curve, always again a point of the curve, independent of the order of the arguments, and also when an argument is a reference returned by an earlier call on the same object.", "quantifier": "all fields of characteristic two, all curves, all pairs of points including infinity, equal and opposite points, all aliasing of the arguments with the object's result", "why_tests_cant": "There are as many pairs of points as there are curves; the special cases (equal, opposite, x = 0) and aliased arguments are rarely hit by test vectors.", "anchors": ["ec2n.cpp:EC2N::Add", "ec2n.cpp:EC2N::Double", "ec2n.cpp:EC2N::Inverse", "ec2n.cpp:EC2N::Equal"]}
{"id": "C102", "title": "Projective doubling and simultaneous inversion in ECP scalar multiplication are exact", "statement": "In ECP::ScalarMultiply and SimultaneousMultiply, the n-th doubling of the base point held in projective coordinates stands for 2^n times that point, also when the point is infinity or has even order, and the conversion back to affine coordinates inverts every Z coordinate of the batch, whatever zeros it contains.", "quantifier": "all fields of odd characteristic, all curves and points, every number of doublings, batches of every length and content", "why_tests_cant": "The number of doublings and the batch length are unbounded; zeros in a batch and points of even order do not occur in test vectors of prime-order curves.", "anchors": ["ecp.cpp:ProjectiveDoubling", "ecp.cpp:ParallelInvert", "ecp.cpp:ECP::SimultaneousMultiply"]}
{"id": "C103", "title": "ECP points round-trip through their encodings", "statement": "For every curve over a prime field and every point on it, ECP::DecodePoint of ECP::EncodePoint gives the point back, compressed or not; every point decoded from a compressed encoding satisfies the curve equation with the parity asked for; and VerifyPoint accepts exactly infinity and the points of the curve with reduced coordinates.", "quantifier": "all odd primes, all curves, all points including infinity and points of order two, all byte strings for decoding", "why_tests_cant": "There are too many points to enumerate; points with y = 0 and unreduced x coordinates do not occur in test vectors.", "anchors": ["ecp.cpp:ECP::EncodePoint", "ecp.cpp:ECP::DecodePoint", "ecp.cpp:ECP::VerifyPoint"]}
