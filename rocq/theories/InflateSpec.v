(** InflateSpec: the compressed format of RFC 1951, as a relation between bit
    strings and byte strings.  It uses the bit strings of BitioSpec, the codes
    of HuffmanSpec and the back references of WindowSpec.

    [strict] is the format; without it a set of one-bit codes that is not
    complete may give any of its symbols for any bit (C61 shows that the decoder
    does that), and no limit is put on the number of codes of each kind. *)
From Coq Require Import ZArith List Bool Arith.
From Verif Require Import Base BitioSpec HuffmanSpec WindowSpec.
Import ListNotations.
Open Scope nat_scope.

(** Symbol [i] comes first in [s], and [s'] after it. *)
Definition reads (strict : bool) (lens : list nat) (s : list bool) (i : nat) (s' : list bool) : Prop :=
  coded lens i /\
  if strict then s = codeword lens i ++ s'
  else (complete lens -> s = codeword lens i ++ s') /\ (~ complete lens -> exists b, s = b :: s').

(** A usable set of codes: complete, or a single code of one bit. *)
Definition usable (strict : bool) (lens : list nat) : Prop :=
  complete lens \/
  if strict then exists i, one_code lens i
  else (exists i, coded lens i) /\ Forall (fun l => l <= 1) lens.

(** [n] bits hold the number [v] (3.1.1: least significant bit first). *)
Definition field (n v : nat) (s s' : list bool) : Prop :=
  v < 2 ^ n /\ s = lsbs n (Z.of_nat v) ++ s'.

(** "Skip any remaining bits in current partially processed byte" (3.2.3): the
    bit string is a whole number of bytes long. *)
Definition align (s : list bool) : list bool := skipn (length s mod 8) s.

(** 3.2.5: lengths and distances, first value and extra bits of each code. *)
Definition length_code (k : nat) : option (nat * nat) :=
  nth_error [(3, 0); (4, 0); (5, 0); (6, 0); (7, 0); (8, 0); (9, 0); (10, 0);
             (11, 1); (13, 1); (15, 1); (17, 1); (19, 2); (23, 2); (27, 2); (31, 2);
             (35, 3); (43, 3); (51, 3); (59, 3); (67, 4); (83, 4); (99, 4); (115, 4);
             (131, 5); (163, 5); (195, 5); (227, 5); (258, 0)] (k - 257).
Definition distance_code (k : nat) : option (Z * nat) :=
  nth_error [(1%Z, 0); (2%Z, 0); (3%Z, 0); (4%Z, 0); (5%Z, 1); (7%Z, 1); (9%Z, 2); (13%Z, 2);
             (17%Z, 3); (25%Z, 3); (33%Z, 4); (49%Z, 4); (65%Z, 5); (97%Z, 5); (129%Z, 6); (193%Z, 6);
             (257%Z, 7); (385%Z, 7); (513%Z, 8); (769%Z, 8); (1025%Z, 9); (1537%Z, 9);
             (2049%Z, 10); (3073%Z, 10); (4097%Z, 11); (6145%Z, 11); (8193%Z, 12); (12289%Z, 12);
             (16385%Z, 13); (24577%Z, 13)] k.

(** 3.2.3: a sequence of literals and pairs up to the end of the block.
    [h] is all of the output before, [h'] with the block; [W] is how far back
    a distance may go. *)
Inductive symbols (strict : bool) (W : nat) (lit dist : list nat)
  : list Z -> list bool -> list Z -> list bool -> Prop :=
| sym_end : forall h s s',
    reads strict lit s 256 s' -> symbols strict W lit dist h s h s'
| sym_literal : forall h s v s' h2 s2,
    reads strict lit s v s' -> v < 256 -> symbols strict W lit dist (h ++ [Z.of_nat v]) s' h2 s2 ->
    symbols strict W lit dist h s h2 s2
| sym_match : forall h s k s1 lstart lextra le s2 j s3 dstart dextra de s4 h2 s5,
    reads strict lit s k s1 -> 256 < k -> length_code k = Some (lstart, lextra) -> field lextra le s1 s2 ->
    reads strict dist s2 j s3 -> distance_code j = Some (dstart, dextra) -> field dextra de s3 s4 ->
    let d := Z.to_nat dstart + de in
    d <= length h -> d <= W ->
    symbols strict W lit dist (lz_copy (lstart + le) d h) s4 h2 s5 ->
    symbols strict W lit dist h s h2 s5.

(** 3.2.7: the code lengths, run-length coded with the code [cl]; [acc] are
    those before, [n] are wanted in all. *)
Inductive lengths (strict : bool) (cl : list nat) (n : nat)
  : list nat -> list bool -> list nat -> list bool -> Prop :=
| len_done : forall acc s, length acc = n -> lengths strict cl n acc s acc s
| len_one : forall acc s k s' lens s2,
    length acc < n -> reads strict cl s k s' -> k <= 15 ->
    lengths strict cl n (acc ++ [k]) s' lens s2 -> lengths strict cl n acc s lens s2
| len_copy : forall acc x s s1 e s2 lens s3,
    length (acc ++ [x]) < n -> reads strict cl s 16 s1 -> field 2 e s1 s2 ->
    lengths strict cl n ((acc ++ [x]) ++ repeat x (3 + e)) s2 lens s3 ->
    lengths strict cl n (acc ++ [x]) s lens s3
| len_zero3 : forall acc s s1 e s2 lens s3,
    length acc < n -> reads strict cl s 17 s1 -> field 3 e s1 s2 ->
    lengths strict cl n (acc ++ repeat 0 (3 + e)) s2 lens s3 -> lengths strict cl n acc s lens s3
| len_zero11 : forall acc s s1 e s2 lens s3,
    length acc < n -> reads strict cl s 18 s1 -> field 7 e s1 s2 ->
    lengths strict cl n (acc ++ repeat 0 (11 + e)) s2 lens s3 -> lengths strict cl n acc s lens s3.

(** The lengths of the code length code come in this order, the rest is 0. *)
Definition cl_order : list nat := [16; 17; 18; 0; 8; 7; 9; 6; 10; 5; 11; 4; 12; 3; 13; 2; 14; 1; 15].
Definition cl_lens (l : list nat) : list nat :=
  map (fun k => match find (fun p => fst p =? k) (combine cl_order l) with
                | Some (_, v) => v
                | None => 0
                end) (seq 0 19).

(** 3.2.7: the header of a block with dynamic codes.  A single distance code
    length of zero says that there are no distances; the code asks for 257
    literal codes then, and so does this. *)
Definition dynamic (strict : bool) (s : list bool) (lit dist : list nat) (s' : list bool) : Prop :=
  exists hlit hdist hclen s1 s2 s3 cl s4 lens,
    field 5 hlit s s1 /\ field 5 hdist s1 s2 /\ field 4 hclen s2 s3
    /\ (strict = true -> hlit <= 29)
    /\ length cl = hclen + 4 /\ Forall (fun l => l < 8) cl
    /\ s3 = flat_map (fun l => lsbs 3 (Z.of_nat l)) cl ++ s4
    /\ usable strict (cl_lens cl)
    /\ lengths strict (cl_lens cl) (hlit + 257 + hdist + 1) [] s4 lens s'
    /\ lit = firstn (hlit + 257) lens /\ dist = skipn (hlit + 257) lens
    /\ usable strict lit /\ (usable strict dist \/ dist = [0] /\ hlit = 0).

(** 3.2.6: the fixed codes. *)
Definition fixed_lit : list nat := repeat 8 144 ++ repeat 9 112 ++ repeat 7 24 ++ repeat 8 8.
Definition fixed_dist : list nat := repeat 5 32.

(** 3.2.3 and 3.2.4: the data of a block of type [t] (00 stored, 01 fixed, 10
    dynamic). *)
Inductive block (strict : bool) (W : nat) : nat -> list Z -> list bool -> list Z -> list bool -> Prop :=
| blk_stored : forall h s len data s1 s2,
    (0 <= len < 65536)%Z -> align s = lsbs 16 len ++ lsbs 16 (65535 - len) ++ s1 ->
    bytes data -> Z.of_nat (length data) = len -> s1 = stream data ++ s2 ->
    block strict W 0 h s (h ++ data) s2
| blk_fixed : forall h s h2 s2,
    symbols strict W fixed_lit fixed_dist h s h2 s2 -> block strict W 1 h s h2 s2
| blk_dynamic : forall h s lit dist s1 h2 s2,
    dynamic strict s lit dist s1 -> symbols strict W lit dist h s1 h2 s2 -> block strict W 2 h s h2 s2.

(** Blocks up to the one marked as the last; then the stream goes on with the
    next byte. *)
Inductive inflates (strict : bool) (W : nat) : list Z -> list bool -> list Z -> list bool -> Prop :=
| inf_last : forall h s t s1 s1' h2 s2,
    s = true :: s1 -> field 2 t s1 s1' -> block strict W t h s1' h2 s2 ->
    inflates strict W h s h2 (align s2)
| inf_more : forall h s t s1 s1' h2 s2 h3 s3,
    s = false :: s1 -> field 2 t s1 s1' -> block strict W t h s1' h2 s2 ->
    inflates strict W h2 s2 h3 s3 -> inflates strict W h s h3 s3.

(** The bytes [comp] are the compressed form of [data] and end with it; [rest]
    comes after it.  A distance may go back [W] bytes. *)
Definition deflated (strict : bool) (W : nat) (comp data rest : list Z) : Prop :=
  inflates strict W [] (stream comp) data (stream rest).
