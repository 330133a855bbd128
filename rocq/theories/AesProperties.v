(** Theorems about Rijndael. *)
From Coq Require Import ZArith List Bool Arith Lia.
From Verif Require Import Base CipherModel CipherSpec AesModel AesSpec AesProofs AesRunProofs AesKeyProofs AesTopProofs.
Import ListNotations.
Local Open Scope Z_scope.

(** The example of FIPS-197, appendix C.2: 192-bit key 00 01 ... 17, plaintext 00 11 ... ff. *)
Definition ex_key : list Z := map Z.of_nat (seq 0 24).
Definition ex_plain : list Z := map (fun i => 17 * Z.of_nat i) (seq 0 16).
Definition ex_cipher : list Z :=
  [0xdd; 0xa9; 0x7c; 0xa4; 0x86; 0x4c; 0xdf; 0xe0; 0x6e; 0xaf; 0x70; 0xa0; 0xec; 0x0d; 0x71; 0x91].
Lemma ex_key_ok : aes_key ex_key.
Proof. split; [|right; left; reflexivity]. repeat (apply Forall_cons; [unfold byte; lia|]). apply Forall_nil. Qed.

(* ------------------------------------------------------------------ *)
(** ** C57: Rijndael is a permutation under every key *)

Theorem C57_rijndael : forall key, aes_key key -> block_cipher 16 (aes_enc key) (aes_dec key).
Proof. exact aes_cipher. Qed.
Example C57_rijndael_example : aes_key ex_key /\
  aes_enc ex_key ex_plain None = Some ex_cipher /\ aes_dec ex_key ex_cipher None = Some ex_plain.
Proof. split; [apply ex_key_ok|]. vm_compute. split; reflexivity. Qed.

(* ------------------------------------------------------------------ *)
(** ** C91: Rijndael is the Advanced Encryption Standard

    For every key of 16, 24 or 32 bytes and every block, the encryption object answers the standard's
    Cipher of the block and the decryption object the standard's InvCipher, exclusive-ored with the mask
    if there is one. *)
Theorem C91_aes_encrypt : forall key b mask, aes_key key -> bytes b -> length b = 16%nat ->
  aes_enc key b mask = Some (match mask with None => fips197_cipher key b | Some m => xorl (fips197_cipher key b) m end).
Proof. intros key b mask HK B L. apply (aes_enc_spec key b mask HK (conj B L)). Qed.
Example C91_aes_encrypt_example : aes_key ex_key /\ bytes ex_plain /\ length ex_plain = 16%nat /\
  aes_enc ex_key ex_plain (Some (repeat 1 16)) = Some (xorl ex_cipher (repeat 1 16)).
Proof.
  split; [apply ex_key_ok|]. split; [repeat (apply Forall_cons; [unfold byte; lia|]); apply Forall_nil|].
  split; [reflexivity|]. vm_compute. reflexivity.
Qed.

Theorem C91_aes_decrypt : forall key b mask, aes_key key -> bytes b -> length b = 16%nat ->
  aes_dec key b mask = Some (match mask with None => fips197_inv_cipher key b | Some m => xorl (fips197_inv_cipher key b) m end).
Proof. intros key b mask HK B L. apply (aes_dec_spec key b mask HK (conj B L)). Qed.
Example C91_aes_decrypt_example : aes_key ex_key /\ length ex_cipher = 16%nat /\
  aes_dec ex_key ex_cipher (Some (repeat 1 16)) = Some (xorl ex_plain (repeat 1 16)).
Proof. split; [apply ex_key_ok|]. split; [reflexivity|]. vm_compute. reflexivity. Qed.

(** The substitution table really is the multiplicative inverse followed by the affine map: [ginv] is the
    inverse in GF(2^8) for the standard's multiplication, and entry x of the code's table Se is [sbox x], the affine map of the inverse of x. *)
Theorem C91_aes_sbox : forall x, byte x -> se x = sbox x /\ (x <> 0 -> gmul x (ginv x) = 1).
Proof.
  intros x Hx. split; [symmetry; apply sbox_se; auto|]. revert x Hx.
  by_table (fun x => (x =? 0) || (gmul x (ginv x) =? 1)). intros N. apply orb_true_iff in E.
  destruct E as [E|E]; apply Z.eqb_eq in E; [contradiction|auto].
Qed.
Example C91_aes_sbox_example : nth 0x53 Se 0 = 0xed /\ gmul 0x53 0xca = 1 /\ ginv 0x53 = 0xca.
Proof. vm_compute. auto. Qed.

Print Assumptions C57_rijndael.
Print Assumptions C91_aes_encrypt.
Print Assumptions C91_aes_decrypt.
Print Assumptions C91_aes_sbox.
