(** What the padding schemes of public key messages are: PKCS #1 (RFC 8017). *)
From Coq Require Import ZArith List Bool.
From Verif Require Import Base IntegerModel.
Import ListNotations.
Local Open Scope Z_scope.

(** A block for [bits] bits: bits/8 whole bytes, after a zero byte if some bits are left over. *)
Definition framed (bits : Z) (body : list Z) : list Z := (if bits mod 8 =? 0 then [] else [0]) ++ body.
Definition block_bytes (bits : Z) : Z := (bits + 7) / 8.
Definition non_zero_bytes (l : list Z) : Prop := Forall (fun b => 1 <= b < 256) l.

(** EME-PKCS1-v1_5 (RFC 8017, 7.2.1): 02 || PS || 00 || M, at least eight non-zero bytes in PS. *)
Definition pkcs_block (bits : Z) (ps m : list Z) : list Z := framed bits (2 :: ps ++ 0 :: m).
Definition pkcs_formed (bits : Z) (m block : list Z) : Prop := exists ps, block = pkcs_block bits ps m /\ non_zero_bytes ps /\ (8 <= length ps)%nat.
(** The words of a generator that give a byte of PS: all but those that end in FF. *)
Definition usable (words : list Z) : nat := length (filter (fun v => negb (v mod 256 =? 255)) words).
(** EMSA-PKCS1-v1_5 (9.2): 01 || FF ... FF || 00 || algorithm identifier || hash, at least eight bytes FF. *)
Definition pkcs_signature_block (bits : Z) (id digest block : list Z) : Prop := exists n, (8 <= n)%nat /\ block = framed bits (1 :: repeat 255 n ++ 0 :: id ++ digest) /\ Z.of_nat (length block) = block_bytes bits.

(** MGF1 (B.2.1) and KDF2 (IEEE 1363a): the hashes of the input with the counters start, start + 1, ..., cut to [n] bytes. *)
Definition counter_mask (H : list Z -> list Z) (input params : list Z) (start : Z) (n : nat) : list Z :=
  firstn n (concat (map (fun i => H (input ++ be_bytes 4 (start + Z.of_nat i) ++ params)) (seq 0 n))).
(** A mask generating function: what it writes over [out] for [input] is the mask M input (length out), or its exclusive or with [out]. *)
Definition masks_with (gam : bool -> list Z -> list Z -> res (list Z)) (M : list Z -> nat -> list Z) : Prop :=
  (forall input n, length (M input n) = n /\ bytes (M input n)) /\
  forall out input, gam false out input = ROk (M input (length out)) /\ gam true out input = ROk (xorl out (M input (length out))).
(** A hash: values of [hlen] bytes. *)
Definition hash_of (H : list Z -> list Z) (hlen : Z) : Prop := forall x, Z.of_nat (length (H x)) = hlen /\ bytes (H x).

(** EME-OAEP (7.1.1): DB = hash(label) || 00 ... 00 || 01 || M, masked with the seed, and the seed masked with the result. *)
Definition oaep_block (H : list Z -> list Z) (M : list Z -> nat -> list Z) (bits : Z) (seed label m block : list Z) : Prop :=
  exists k, let db := H label ++ repeat 0 k ++ 1 :: m in
  let masked := xorl db (M seed (length db)) in
  block = framed bits (xorl seed (M masked (length seed)) ++ masked) /\ Z.of_nat (length block) = block_bytes bits.

(** EMSA-PSS (9.1.1), with the recoverable message of PSSR (IEEE 1363a): H = hash(bit length of R in 64 bits || R || hash(M) || salt), DB = 00 ... 00 || 01 || R || salt
    masked with H, then H, the hash identifier and the trailer BC, or CC after an identifier. The bits over are cleared. *)
Definition clear_top (bits : Z) (l : list Z) : list Z := match l with [] => [] | b :: t => (if bits mod 8 =? 0 then b else b mod 2 ^ (bits mod 8)) :: t end.
Definition pss_hash (H : list Z -> list Z) (msg r salt : list Z) : list Z := H (be_bytes 8 (8 * Z.of_nat (length r)) ++ r ++ H msg ++ salt).
Definition pss_block (H : list Z -> list Z) (M : list Z -> nat -> list Z) (bits : Z) (id msg r salt : list Z) (pad : nat) (block : list Z) : Prop :=
  let h := pss_hash H msg r salt in
  let db := repeat 0 pad ++ 1 :: r ++ salt in
  block = clear_top bits (xorl db (M h (length db))) ++ h ++ id ++ [match id with [] => 188 | _ => 204 end] /\ Z.of_nat (length block) = block_bytes bits.

(** The length in octets of an RSA modulus; a block has one bit less than the modulus. *)
Definition octets (n : Z) : nat := Z.to_nat (Z.log2 n / 8 + 1).
(** A public key. *)
Definition public_key (n e : Z) : Prop := 1 < n /\ n mod 2 = 1 /\ 1 < e < n /\ e mod 2 = 1.
(** A block of [bits] bits. *)
Definition block_of (bits : Z) (block : list Z) : Prop := bytes block /\ Z.of_nat (length block) = block_bytes bits /\ be_val block < 2 ^ bits.
