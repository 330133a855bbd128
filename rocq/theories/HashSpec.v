(** What an iterated hash, HMAC and verification should compute. *)
From Coq Require Import ZArith List Bool Arith.
From Verif Require Import Base Blocks HashModel.
Import ListNotations.
Local Open Scope Z_scope.

(** A sane algorithm description: 32 or 64-bit words, block size a power of two that holds the length
    field and the first padding byte, a digest of whole words not longer than the state. *)
Definition ok_alg (a : hashalg) : Prop :=
  (ha_W a = 4 \/ ha_W a = 8)%nat /\ (exists k, ha_B a = 2 ^ k /\ k < 32)%nat /\ (2 * ha_W a < ha_B a)%nat /\
  (ha_dsize a mod ha_W a = 0)%nat /\
  (forall st d, length (ha_compress a st d) = length (ha_iv a)) /\ (ha_dsize a <= ha_W a * length (ha_iv a))%nat.

(** The padded message: the message, the byte 80 hex, the least number of zero bytes that makes the total
    a whole number of blocks, and the bit length (modulo the size of the field) in a field of two words. *)
Definition padded (a : hashalg) (m p : list Z) : Prop :=
  exists z, p = m ++ [128] ++ repeat 0 z ++
      (if ha_big a then be_bytes (2 * ha_W a) (8 * Z.of_nat (length m)) else le_bytes (2 * ha_W a) (8 * Z.of_nat (length m)))
    /\ (length p mod ha_B a = 0)%nat /\ (z < ha_B a)%nat.

(** A block of bytes as words in the byte order of the hash. *)
Definition spec_words (a : hashalg) (blk : list Z) : list Z :=
  map (if ha_big a then be_val else le_val) (blocks (ha_W a) blk).
Definition spec_bytes (a : hashalg) (w : Z) : list Z :=
  if ha_big a then be_bytes (ha_W a) w else le_bytes (ha_W a) w.

(** Merkle-Damgard iteration over a padded message. *)
Definition md_iterate (a : hashalg) (p : list Z) : list Z :=
  fold_left (fun st blk => ha_compress a st (spec_words a blk)) (blocks (ha_B a) p) (ha_iv a).
Definition md_output (a : hashalg) (p : list Z) : list Z :=
  firstn (ha_dsize a) (flat_map (spec_bytes a) (md_iterate a p)).

(** Number of zero bytes in the padding: the total of message, 1, zeros and field is a multiple of the
    block size.  ([padded_exists] and [padded_unique] in HashProofs say this is the only choice.) *)
Definition pad_zeros (a : hashalg) (n : nat) : nat :=
  let t := (n + 1 + 2 * ha_W a)%nat in (match t mod ha_B a with O => 0 | r => ha_B a - r end)%nat.
Definition pad (a : hashalg) (m : list Z) : list Z :=
  m ++ [128] ++ repeat 0 (pad_zeros a (length m)) ++
      (if ha_big a then be_bytes (2 * ha_W a) (8 * Z.of_nat (length m)) else le_bytes (2 * ha_W a) (8 * Z.of_nat (length m))).
Definition md_hash (a : hashalg) (m : list Z) : list Z := md_output a (pad a m).

(** A history of calls seen from outside: the only state is the message so far.  [hash] gives the full
    digest, [dsize] its size, [B] the block size (CreateUpdateSpace offers the rest of the current block).
    A call that would make the message [lim] bytes or longer is refused with OTooLong, and nothing is said
    about the history after that. *)
Definition bsize_space (B : nat) (m : list Z) : nat := (B - length m mod B)%nat.
Definition blen (m : list Z) : Z := Z.of_nat (length m).
Definition spec_absorb (lim : Z) (m d : list Z) : list Z * hout :=
  (m ++ d, if blen (m ++ d) <? lim then ODone else OTooLong).
Definition spec_hstep (hash : list Z -> list Z) (B dsize : nat) (lim : Z) (m : list Z) (op : hop) : list Z * hout :=
  match op with
  | HUpdate _ d => spec_absorb lim m d
  | HSpace d => spec_absorb lim m (firstn (bsize_space B m) d)
  | HScribble _ => (m, ODone)
  | HFinal _ size => if Nat.leb size dsize then ([], ODigest (firstn size (hash m))) else (m, OInvalid)
  | HRestart => ([], ODone)
  end.
Fixpoint spec_hrun (hash : list Z -> list Z) (B dsize : nat) (lim : Z) (m : list Z) (ops : list hop) : list hout :=
  match ops with
  | [] => []
  | op :: r => let '(m', o) := spec_hstep hash B dsize lim m op in o :: spec_hrun hash B dsize lim m' r
  end.
(** The answers up to and including the first refusal. *)
Fixpoint upto_refusal (l : list hout) : list hout :=
  match l with
  | [] => []
  | OTooLong :: _ => [OTooLong]
  | o :: r => o :: upto_refusal r
  end.

(** The pieces passed in one history are memory objects. *)
Definition op_bytes (op : hop) : Z :=
  match op with HUpdate _ d | HSpace d => blen d | _ => 0 end.
Definition objects (ops : list hop) : Prop := forall op, In op ops -> op_bytes op < 2 ^ 63.

(** The operations that only feed the message, and what they feed. *)
Fixpoint feed (B : nat) (m : list Z) (ops : list hop) : option (list Z) :=
  match ops with
  | [] => Some m
  | HUpdate _ d :: r => feed B (m ++ d) r
  | HSpace d :: r => feed B (m ++ firstn (bsize_space B m) d) r
  | HScribble _ :: r => feed B m r
  | _ => None
  end.

(** RFC 2104. *)
Definition xor_with (c : Z) (l : list Z) : list Z := map (fun b => Z.lxor b c) l.
Definition hmac_key (hash : list Z -> list Z) (B : nat) (key : list Z) : list Z :=
  let k := if Nat.leb (length key) B then key else hash key in k ++ repeat 0 (B - length k).
Definition hmac_spec (hash : list Z -> list Z) (B : nat) (key m : list Z) : list Z :=
  let k := hmac_key hash B key in
  hash (xor_with 92 k ++ hash (xor_with 54 k ++ m)).

(** A hash object implements the function [hash] on messages accepted by [ok]. [rep s m]: the object
    has absorbed [m]. *)
Record implements {S} (o : hobj S) (rep : S -> list Z -> Prop) (hash : list Z -> list Z) (ok : list Z -> Prop) : Prop := {
  imp_prefix : forall a b, ok (a ++ b) -> ok a;
  imp_update : forall s m d, rep s m -> ok (m ++ d) -> exists s', ho_update o s d = Some s' /\ rep s' (m ++ d);
  imp_final : forall s m n, rep s m -> (n <= ho_dsize o)%nat ->
    rep (fst (ho_final o s n)) [] /\ snd (ho_final o s n) = firstn n (hash m);
  imp_restart : forall s m, rep s m -> rep (ho_restart o s) [];
  imp_length : forall m, length (hash m) = ho_dsize o
}.

(** A history of MAC calls seen from outside: state is the key and the message so far. *)
Definition spec_mstep (mac : list Z -> list Z -> list Z) (dsize : nat) (s : list Z * list Z) (op : mop)
  : (list Z * list Z) * mout :=
  let '(k, m) := s in
  match op with
  | MUpdate d => ((k, m ++ d), MODone)
  | MFinal n => if Nat.leb n dsize then ((k, []), MOTag (firstn n (mac k m))) else (s, MOInvalid)
  | MRestart => ((k, []), MODone)
  | MSetKey k' => ((k', []), MODone)
  end.
Fixpoint spec_mrun (mac : list Z -> list Z -> list Z) (dsize : nat) (s : list Z * list Z) (ops : list mop) : list mout :=
  match ops with
  | [] => []
  | op :: r => let '(s', o) := spec_mstep mac dsize s op in o :: spec_mrun mac dsize s' r
  end.
(** All bytes passed in a history, in calls and keys. *)
Definition mop_bytes (op : mop) : nat := match op with MUpdate d | MSetKey d => length d | _ => O end.
Definition mhist_bytes (ops : list mop) : Z := fold_right (fun op s => Z.of_nat (mop_bytes op) + s) 0 ops.
