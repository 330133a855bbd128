(** Model of the padding of public key messages: PKCS #1 v1.5 (pkcspad.cpp), OAEP (oaep.cpp), PSS and PSSR (pssr.cpp), the mask generation function and the key
    derivation of pubkey.cpp, and the trapdoor function schemes of pubkey.cpp on top of RSA.

    Simplifications: a hash is a function on byte strings, with the length of its values; what was given to a hash object before is [msg]. Buffers are byte strings;
    an access outside one is [RMemory], also where the C++ offset wraps around to a huge size_t. What a fresh buffer holds is an argument. Random bytes are arguments,
    or the list of words of RngModel. CRYPTOPP_ASSERT is compiled out. Lengths are unbounded except where said. *)
From Coq Require Import ZArith List Bool Arith.
From Verif Require Import Base AsnModel IntegerModel RsaModel RngModel.
Import ListNotations.
Local Open Scope Z_scope.

Definition blen (l : list Z) : Z := Z.of_nat (length l).
(** Reading [n] bytes at [off], one byte, and writing, inside a buffer. *)
Definition rd (buf : list Z) (off n : Z) : res (list Z) :=
  if (0 <=? off) && (0 <=? n) && (off + n <=? blen buf) then ROk (firstn (Z.to_nat n) (skipn (Z.to_nat off) buf)) else RMemory.
Definition rd1 (buf : list Z) (off : Z) : res Z := rbind (rd buf off 1) (fun l => ROk (hd 0 l)).
Definition wr (buf : list Z) (off : Z) (l : list Z) : res (list Z) :=
  if (0 <=? off) && (off + blen l <=? blen buf) then ROk (firstn (Z.to_nat off) buf ++ l ++ skipn (Z.to_nat (off + blen l)) buf) else RMemory.
(** memset of [n] bytes. *)
Definition fill (buf : list Z) (off : Z) (b n : Z) : res (list Z) := if 0 <=? n then wr buf off (repeat b (Z.to_nat n)) else RMemory.
(** xorbuf(buf+off, l, n). *)
Definition xr (buf : list Z) (off : Z) (l : list Z) : res (list Z) := rbind (rd buf off (blen l)) (fun o => wr buf off (xorl o l)).
(** misc.h:1301-1305, SaturatingSubtract; misc.h:1145, BitsToBytes. *)
Definition sat_sub (a b : Z) : Z := if a >? b then a - b else 0.
Definition bits_to_bytes (n : Z) : Z := (n + 7) / 8.
(** Whether a block of [bits] bits starts with a partial byte: pkcspad.cpp:71, oaep.cpp:24. *)
Definition lead (bits : Z) : Z := if bits mod 8 =? 0 then 0 else 1.

(* ------------------------------------------------------------------ PKCS #1 v1.5 *)
(** pkcspad.cpp:60-63, MaxUnpaddedLength. *)
Definition pkcs_max (bits : Z) : Z := sat_sub (bits / 8) 10.
(** pkcspad.cpp:80-81: the random bytes that are not zero, from offset [i] on. *)
Fixpoint pkcs_random (n : nat) (buf : list Z) (i : Z) (words : list Z) : res (list Z * list Z) :=
  match n with
  | O => ROk (buf, words)
  | S k => rbind (generate_word32 1 255 words) (fun vw => rbind (wr buf i [fst vw mod 256]) (fun buf => pkcs_random k buf (i + 1) (snd vw)))
  end.
(** pkcspad.cpp:65-85, Pad. *)
Definition pkcs_pad (words : list Z) (input : list Z) (bits : Z) (buf : list Z) : res (list Z * list Z) :=
  rbind (if bits mod 8 =? 0 then ROk buf else wr buf 0 [0]) (fun buf =>
  let p := lead bits in
  let n := bits / 8 in
  rbind (wr buf p [2]) (fun buf =>
  rbind (if n - blen input - 1 <? 0 then RMemory else pkcs_random (Z.to_nat (n - blen input - 2)) buf (p + 1) words) (fun bw =>
  rbind (wr (fst bw) (p + n - blen input - 1) [0]) (fun buf =>
  rbind (wr buf (p + n - blen input) input) (fun buf => ROk (buf, snd bw)))))).
(** pkcspad.cpp:106-107: while (i<n && block[i++]); the final i. [l] are the bytes from i to n. *)
Fixpoint pkcs_skip (l : list Z) (i : Z) : Z :=
  match l with [] => i | b :: t => if b =? 0 then i + 1 else pkcs_skip t (i + 1) end.
(** pkcspad.cpp:87-118, Unpad: [None] is an invalid DecodingResult. *)
Definition pkcs_unpad (block : list Z) (bits : Z) : res (option (list Z)) :=
  rbind (if bits mod 8 =? 0 then ROk false else rbind (rd1 block 0) (fun b => ROk (negb (b =? 0)))) (fun invalid =>
  let p := lead bits in
  let n := bits / 8 in
  rbind (rd1 block p) (fun b =>
  let invalid := negb (b =? 2) || invalid in
  rbind (rd block (p + 1) (Z.max 0 (n - 1))) (fun l =>
  let i := pkcs_skip l 1 in
  let outlen := n - i in
  let invalid := (outlen >? pkcs_max bits) || invalid in
  if invalid then ROk None else rbind (rd block (p + i) outlen) (fun m => ROk (Some m))))).

(** pkcspad.h:95, MinRepresentativeBitLength. *)
Definition pkcs_sig_min (idlen hlen : Z) : Z := 8 * (hlen + idlen + 10).
(** pkcspad.cpp:126-157, PKCS1v15_SignatureMessageEncodingMethod::ComputeMessageRepresentative. *)
Definition pkcs_sig_representative (H : list Z -> list Z) (hlen : Z) (hid msg : list Z) (bits : Z) (buf : list Z) : res (list Z) :=
  rbind (if bits mod 8 =? 0 then ROk buf else wr buf 0 [0]) (fun buf =>
  let p := lead bits in
  let n := bits / 8 in
  rbind (wr buf p [1]) (fun buf =>
  let digest := p + n - hlen in
  let id := digest - blen hid in
  let sep := id - 1 in
  rbind (fill buf (p + 1) 255 (sep - (p + 1))) (fun buf =>
  rbind (wr buf sep [0]) (fun buf =>
  rbind (wr buf id hid) (fun buf => wr buf digest (H msg)))))).

(* ------------------------------------------------------------------ MGF1 and KDF2 *)
(** pubkey.cpp:18-24: the loop of P1363_MGF1KDF2_Common; [out] is what the sink has still to write over. *)
Fixpoint mgf_loop (H : list Z -> list Z) (mask : bool) (input params : list Z) (fuel : nat) (counter : Z) (out : list Z) : res (list Z) :=
  match out, fuel with
  | [], _ => ROk []
  | _, O => RStuck
  | _, S k =>
      let d := H (input ++ be_bytes 4 counter ++ params) in
      let n := Nat.min (length d) (length out) in
      let o := if mask then xorl (firstn n out) (firstn n d) else firstn n d in
      rbind (mgf_loop H mask input params k ((counter + 1) mod 2 ^ 32) (skipn n out)) (fun r => ROk (o ++ r))
  end.
(** pubkey.cpp:13-25, P1363_MGF1KDF2_Common. *)
Definition mgf_kdf (H : list Z -> list Z) (out input params : list Z) (mask : bool) (start : Z) : res (list Z) := mgf_loop H mask input params (length out) start out.
(** pubkey.h:734-737, P1363_MGF1::GenerateAndMask; 757-760, P1363_KDF2::DeriveKey. *)
Definition mgf1 (H : list Z -> list Z) (mask : bool) (out input : list Z) : res (list Z) := mgf_kdf H out input [] mask 0.
Definition kdf2 (H : list Z -> list Z) (out input params : list Z) : res (list Z) := mgf_kdf H out input params false 1.

Section Mgf.
(** The hash and the mask generating function: GenerateAndMask of [out] with [input]. *)
Variable H : list Z -> list Z.
Variable hlen : Z.
Variable gam : bool -> list Z -> list Z -> res (list Z).

(* ------------------------------------------------------------------ OAEP *)
(** oaep.cpp:14-17, MaxUnpaddedLength. *)
Definition oaep_max (bits : Z) : Z := sat_sub (bits / 8) (1 + 2 * hlen).
(** oaep.cpp:19-51, Pad, with the seed the generator gives. *)
Definition oaep_pad (seed label input : list Z) (bits : Z) (buf : list Z) : res (list Z) :=
  rbind (if bits mod 8 =? 0 then ROk buf else wr buf 0 [0]) (fun buf =>
  let p := lead bits in
  let n := bits / 8 in
  let dblen := n - hlen in
  let db := p + hlen in
  rbind (wr buf db (H label)) (fun buf =>
  rbind (fill buf (db + hlen) 0 (dblen - hlen - blen input - 1)) (fun buf =>
  rbind (wr buf (db + dblen - blen input - 1) [1]) (fun buf =>
  rbind (wr buf (db + dblen - blen input) input) (fun buf =>
  rbind (wr buf p seed) (fun buf =>
  rbind (rd buf db dblen) (fun d => rbind (rd buf p hlen) (fun s => rbind (gam true d s) (fun d => rbind (wr buf db d) (fun buf =>
  rbind (rd buf p hlen) (fun s => rbind (rd buf db dblen) (fun d => rbind (gam true s d) (fun s => wr buf p s))))))))))))).
(** std::find and FindIfNot of misc.h:3190: the index in [l] of the first byte equal to, or different from, [v]; the length if there is none. *)
Fixpoint find_byte (v : Z) (l : list Z) : nat := match l with [] => O | b :: t => if b =? v then O else S (find_byte v t) end.
Fixpoint find_not (v : Z) (l : list Z) : nat := match l with [] => O | b :: t => if b =? v then S (find_not v t) else O end.
(** oaep.cpp:53-97, Unpad. A data block shorter than a hash makes the ranges of std::find run backwards, and one that is not there at all makes dbLen wrap around. *)
Definition oaep_unpad (block label : list Z) (bits : Z) : res (option (list Z)) :=
  rbind (if bits mod 8 =? 0 then ROk false else rbind (rd1 block 0) (fun b => ROk (negb (b =? 0)))) (fun invalid =>
  let p := lead bits in
  let n := bits / 8 in
  let dblen := n - hlen in
  let invalid := (n <? 2 * hlen + 1) || invalid in
  rbind (rd block p n) (fun t =>
  rbind (rd t 0 hlen) (fun s => rbind (rd t hlen dblen) (fun d => rbind (gam true s d) (fun s => rbind (gam true d s) (fun d =>
  rbind (rd d hlen (dblen - hlen)) (fun rest =>
  let m := find_byte 1 rest in
  let invalid := (m =? length rest)%nat || invalid in
  let invalid := negb (find_not 0 (firstn m rest) =? m)%nat || invalid in
  rbind (rd d 0 hlen) (fun ph =>
  let invalid := negb (list_eqb ph (H label)) || invalid in
  if invalid then ROk None else ROk (Some (skipn (S m) rest)))))))))).

(* ------------------------------------------------------------------ PSSR *)
(** pssr.h:73-80: the parameters of a PSSR_MEM for the hash: whether recovery is allowed, the length of the salt, the least length of the pad. *)
Variable recovery : bool.
Variable saltlen : Z.
Variable minpad : Z.
(** pssr.cpp:20-25, MinRepresentativeBitLength; 27-32, MaxRecoverableLength. *)
Definition pssr_min (idlen : Z) : Z := 9 + 8 * (minpad + saltlen + hlen + idlen).
Definition pssr_max (bits idlen : Z) : Z := if recovery then sat_sub bits (pssr_min idlen) / 8 else 0.
(** pssr.cpp:72-74 and 144-146: the length of the recoverable message in bits, 64 bits big-endian (size_t of 64 bits). *)
Definition pssr_c (n : Z) : list Z := be_bytes 4 (Z.shiftr n 29) ++ be_bytes 4 ((n * 8) mod 2 ^ 32).
(** pssr.cpp:49-102, ComputeMessageRepresentative, with the salt the generator gives. *)
Definition pssr_compute (salt recoverable hid msg : list Z) (bits : Z) (buf : list Z) : res (list Z) :=
  let u := blen hid + 1 in
  let n := bits_to_bytes bits in
  let h := H (pssr_c (blen recoverable) ++ recoverable ++ H msg ++ salt) in
  let hpos := n - u - hlen in
  rbind (wr buf hpos h) (fun buf =>
  rbind (rd buf 0 hpos) (fun db => rbind (rd buf hpos hlen) (fun h => rbind (gam false db h) (fun db => rbind (wr buf 0 db) (fun buf =>
  let xs := hpos - blen salt - blen recoverable - 1 in
  rbind (xr buf xs [1]) (fun buf =>
  rbind (xr buf (xs + 1) recoverable) (fun buf =>
  rbind (xr buf (xs + 1 + blen recoverable) salt) (fun buf =>
  rbind (match hid with [] => wr buf (n - 1) [188] | _ => rbind (wr buf (n - u) hid) (fun buf => wr buf (n - 1) [204]) end) (fun buf =>
  if bits mod 8 =? 0 then ROk buf else rbind (rd1 buf 0) (fun b => wr buf 0 [crop 8 b (bits mod 8)])))))))))).
(** pssr.cpp:104-161, RecoverMessageFromRepresentative, into a buffer that is there: whether the coding is valid, and the message.
    The difference compared with MinPadLen is converted to size_t. *)
Definition pssr_recover (rep hid msg : list Z) (bits : Z) : res (bool * list Z) :=
  let u := blen hid + 1 in
  let n := bits_to_bytes bits in
  let hpos := n - u - hlen in
  let digest := H msg in
  rbind (rd1 rep (n - 1)) (fun t =>
  let valid := (t =? (match hid with [] => 188 | _ => 204 end)) in
  rbind (match hid with [] => ROk valid | _ => rbind (rd rep (n - u) (blen hid)) (fun i => ROk (list_eqb i hid && valid)) end) (fun valid =>
  rbind (rd rep hpos hlen) (fun h => rbind (rd rep 0 hpos) (fun db => rbind (gam true db h) (fun db => rbind (wr rep 0 db) (fun rep =>
  rbind (if bits mod 8 =? 0 then ROk rep else rbind (rd1 rep 0) (fun b => wr rep 0 [crop 8 b (bits mod 8)])) (fun rep =>
  let saltpos := hpos - saltlen in
  rbind (rd rep 0 (saltpos - 1)) (fun pad =>
  let m := Z.of_nat (find_not 0 pad) in
  let reclen := saltpos - m - 1 in
  rbind (rd1 rep m) (fun b =>
  let ok := (b =? 1) && ((m - lead bits) mod 2 ^ 64 >=? minpad) && (reclen <=? pssr_max bits (blen hid)) in
  rbind (if ok then rd rep (m + 1) reclen else ROk []) (fun message =>
  let valid := ok && valid in
  rbind (rd rep saltpos saltlen) (fun salt =>
  let valid := list_eqb (H (pssr_c (blen message) ++ message ++ digest ++ salt)) h && valid in
  if negb recovery && valid && negb (blen message =? 0) then RThrow else ROk (valid, message)))))))))))).
(** pubkey.cpp:37-45, PK_RecoverableSignatureMessageEncodingMethod::VerifyMessageRepresentative. *)
Definition pssr_verify (rep hid msg : list Z) (bits : Z) : res bool :=
  rbind (pssr_recover rep hid msg bits) (fun vm => ROk (fst vm && (blen (snd vm) =? 0))).
End Mgf.

(** pubkey.cpp:27-35, PK_DeterministicSignatureMessageEncodingMethod::VerifyMessageRepresentative for PKCS1v15; [buf] is the fresh buffer. *)
Definition pkcs_sig_verify (H : list Z -> list Z) (hlen : Z) (rep hid msg : list Z) (bits : Z) (buf : list Z) : res bool :=
  rbind (pkcs_sig_representative H hlen hid msg bits buf) (fun r => rbind (rd rep 0 (blen r)) (fun a => ROk (list_eqb a r))).

(* ------------------------------------------------------------------ the trapdoor function schemes with RSA *)
Section Tf.
Variable w : Z.
Variable fuel : nat.
(** pubkey.h:79-82 and 230: MaxImage().ByteCount() and MaxPreimage().ByteCount(); rsa.h: both bounds are the modulus. *)
Definition tf_bytes (n : integer) : nat := byte_count w (decr w n).
(** pubkey.h:236 and 500: PaddedBlockBitLength, MessageRepresentativeBitLength. *)
Definition tf_bits (n : integer) : Z := sat_sub (Z.of_nat (bit_count w n)) 1.
Definition zeros (n : Z) : list Z := repeat 0 (Z.to_nat n).
(** pubkey.cpp:160-175, TF_EncryptorBase::Encrypt with the padding [pad] and its greatest length; SecByteBlock of size n, taken to be zero. *)
Definition tf_encrypt (max : Z -> Z) (pad : list Z -> Z -> list Z -> res (list Z)) (n e : integer) (m : list Z) : res (list Z) :=
  if blen m >? max (tf_bits n) then RThrow
  else rbind (pad m (tf_bits n) (zeros (bits_to_bytes (tf_bits n)))) (fun block =>
       rbind (apply_function w fuel n e (decode w false block)) (fun c => ROk (encode w false (tf_bytes n) c))).
(** pubkey.cpp:147-158, TF_DecryptorBase::Decrypt with Unpad. *)
Definition tf_decrypt (unpad : list Z -> Z -> res (option (list Z))) (k : rsa_private) (blocks : list (list Z)) (c : list Z) : res (option (list Z)) :=
  if negb (length c =? tf_bytes (k_n k))%nat then RThrow
  else rbind (calculate_inverse w fuel k blocks (decode w false c)) (fun x =>
       let size := bits_to_bytes (tf_bits (k_n k)) in
       let x := if Z.of_nat (byte_count w x) >? size then int_zero else x in
       unpad (encode w false (Z.to_nat size) x) (tf_bits (k_n k))).
(** pubkey.cpp:69-92, TF_SignerBase::SignAndRestart: [min] is MinRepresentativeBitLength, [rep] ComputeMessageRepresentative. *)
Definition tf_sign (min : Z) (rep : Z -> list Z -> res (list Z)) (k : rsa_private) (blocks : list (list Z)) : res (list Z) :=
  if tf_bits (k_n k) <? min then RThrow
  else rbind (rep (tf_bits (k_n k)) (zeros (bits_to_bytes (tf_bits (k_n k))))) (fun r =>
       rbind (calculate_inverse w fuel k blocks (decode w false r)) (fun s => ROk (encode w false (tf_bytes (k_n k)) s))).
(** pubkey.cpp:94-108, TF_VerifierBase::InputSignature: the representative; 110-123, VerifyAndRestart: [ver] is VerifyMessageRepresentative. *)
Definition tf_input_signature (min : Z) (n e : integer) (sig : list Z) : res (list Z) :=
  if tf_bits n <? min then RThrow
  else rbind (apply_function w fuel n e (decode w false sig)) (fun x =>
       let x := if Z.of_nat (bit_count w x) >? tf_bits n then int_zero else x in
       ROk (encode w false (Z.to_nat (bits_to_bytes (tf_bits n))) x)).
Definition tf_verify (min : Z) (ver : list Z -> Z -> res bool) (n e : integer) (sig : list Z) : res bool :=
  rbind (tf_input_signature min n e sig) (fun r => ver r (tf_bits n)).
(** pubkey.cpp:125-138, RecoverAndRestart: [rec] is RecoverMessageFromRepresentative. *)
Definition tf_recover (min : Z) (rec : list Z -> Z -> res (bool * list Z)) (n e : integer) (sig : list Z) : res (bool * list Z) :=
  rbind (tf_input_signature min n e sig) (fun r => rec r (tf_bits n)).

(** rsa.h:172-187 and pubkey.h, TF_ES and TF_SS: RSAES and RSASS with PKCS1v15, OAEP and PSSR. *)
Definition rsaes_pkcs_encrypt (words : list Z) (n e : integer) (m : list Z) : res (list Z) := tf_encrypt pkcs_max (fun m bits buf => rbind (pkcs_pad words m bits buf) (fun bw => ROk (fst bw))) n e m.
Definition rsaes_pkcs_decrypt (k : rsa_private) (blocks : list (list Z)) (c : list Z) : res (option (list Z)) := tf_decrypt pkcs_unpad k blocks c.
Definition rsaes_oaep_encrypt (H : list Z -> list Z) (hlen : Z) (seed label : list Z) (n e : integer) (m : list Z) : res (list Z) := tf_encrypt (oaep_max hlen) (fun m bits buf => oaep_pad H hlen (mgf1 H) seed label m bits buf) n e m.
Definition rsaes_oaep_decrypt (H : list Z -> list Z) (hlen : Z) (label : list Z) (k : rsa_private) (blocks : list (list Z)) (c : list Z) : res (option (list Z)) := tf_decrypt (fun b bits => oaep_unpad H hlen (mgf1 H) b label bits) k blocks c.
Definition rsass_pkcs_sign (H : list Z -> list Z) (hlen : Z) (hid msg : list Z) (k : rsa_private) (blocks : list (list Z)) : res (list Z) := tf_sign (pkcs_sig_min (blen hid) hlen) (fun bits buf => pkcs_sig_representative H hlen hid msg bits buf) k blocks.
Definition rsass_pkcs_verify (H : list Z -> list Z) (hlen : Z) (hid msg : list Z) (n e : integer) (sig : list Z) : res bool := tf_verify (pkcs_sig_min (blen hid) hlen) (fun r bits => pkcs_sig_verify H hlen r hid msg bits (zeros (bits_to_bytes bits))) n e sig.
Definition rsass_pss_sign (H : list Z -> list Z) (hlen saltlen minpad : Z) (salt recoverable hid msg : list Z) (k : rsa_private) (blocks : list (list Z)) : res (list Z) := tf_sign (pssr_min hlen saltlen minpad (blen hid)) (fun bits buf => pssr_compute H hlen (mgf1 H) salt recoverable hid msg bits buf) k blocks.
Definition rsass_pss_verify (H : list Z -> list Z) (hlen : Z) (recovery : bool) (saltlen minpad : Z) (hid msg : list Z) (n e : integer) (sig : list Z) : res bool := tf_verify (pssr_min hlen saltlen minpad (blen hid)) (fun r bits => pssr_verify H hlen (mgf1 H) recovery saltlen minpad r hid msg bits) n e sig.
Definition rsass_pss_recover (H : list Z -> list Z) (hlen : Z) (recovery : bool) (saltlen minpad : Z) (hid msg : list Z) (n e : integer) (sig : list Z) : res (bool * list Z) := tf_recover (pssr_min hlen saltlen minpad (blen hid)) (fun r bits => pssr_recover H hlen (mgf1 H) recovery saltlen minpad r hid msg bits) n e sig.
End Tf.
