(** Specification of the BaseN text encodings, independent of the implementation. *)
From Coq Require Import ZArith List Bool Arith.
Import ListNotations.
Local Open Scope Z_scope.

(** Bit number [k] (0 = most significant bit of the first digit) of a string of digits that are [w]
    bits wide; bits past the end are zero. *)
Definition stream_bit (w : nat) (l : list Z) (k : nat) : bool :=
  if Nat.ltb k (w * length l)
  then Z.testbit (nth (k / w) l 0) (Z.of_nat (w - 1 - k mod w))
  else false.

(** The number whose [w] bits, most significant first, are bits [start], [start+1], ... *)
Fixpoint bit_field (f : nat -> bool) (start w : nat) : Z :=
  match w with
  | O => 0
  | S m => (if f start then 2 ^ Z.of_nat m else 0) + bit_field f (S start) m
  end.

(** Re-cut a stream of [v]-bit digits into [count] digits of [w] bits. *)
Definition recut (v w count : nat) (l : list Z) : list Z :=
  map (fun j => bit_field (stream_bit v l) (j * w) w) (seq 0 count).

(** Number of characters: the bits of the message divided by [n], rounded up. *)
Definition enc_chars (n len : nat) : nat := ((8 * len + n - 1) / n)%nat.

(** Least number of characters that is a whole number of bytes. *)
Definition pad_block (n : nat) : nat := (8 / Nat.gcd 8 n)%nat.

(** The encoded text: the alphabet applied to the [n]-bit digits, then the pad character up to a
    multiple of [pad_block]. *)
Definition encode_spec (n : nat) (alpha : Z -> Z) (pad : option Z) (msg : list Z) : list Z :=
  let c := enc_chars n (length msg) in
  map alpha (recut 8 n c msg) ++
  match pad with
  | None => []
  | Some p => repeat p ((pad_block n - c mod pad_block n) mod pad_block n)
  end.

(** The decoded bytes: values of the characters that are in the alphabet, re-cut to whole bytes. *)
Definition values_spec (lookup : Z -> Z) (text : list Z) : list Z :=
  filter (fun v => (0 <=? v) && (v <? 256)) (map lookup text).
Definition decode_spec (n : nat) (lookup : Z -> Z) (text : list Z) : list Z :=
  let d := values_spec lookup text in recut n 8 (n * length d / 8) d.

(** Text with a separator between groups of [g] bytes (no grouping when [g = 0]): byte number [i] is
    preceded by a separator exactly when i > 0 and g divides i. *)
Definition group_spec (g : nat) (sep : list Z) (l : list Z) : list Z :=
  concat (map (fun i => (if Nat.ltb 0 i && Nat.ltb 0 g && Nat.eqb (i mod g) 0 then sep else []) ++ [nth i l 0])
              (seq 0 (length l))).

(** A history of calls that spells out the messages [ms]: each message is given as chunks, the last
    of which (possibly empty) carries the message end. *)
Definition history_of (ms : list (list (list Z) * list Z)) : list (list Z * bool) :=
  flat_map (fun m => map (fun c => (c, false)) (fst m) ++ [(snd m, true)]) ms.
Definition message_of (m : list (list Z) * list Z) : list Z := concat (fst m) ++ snd m.

(** Split an output trace at the message ends. *)
Fixpoint messages_out (acc : list Z) (tr : list (list Z * bool)) : list (list Z) :=
  match tr with
  | [] => []
  | (o, true) :: t => (acc ++ o) :: messages_out [] t
  | (o, false) :: t => messages_out (acc ++ o) t
  end.
