(** What an Integer object stands for. *)
From Coq Require Import ZArith List Bool Arith.
From Verif Require Import Base WordsSpec IntegerModel.
Import ListNotations.
Local Open Scope Z_scope.

(** The integer an object represents: sign and magnitude. *)
Definition ival (w : Z) (x : integer) : Z := (if neg x then -1 else 1) * wval w (reg x).
(** The objects every constructor and operation leaves: words in range, a register whose size is a power of two, at least two
    words, and no negative zero. *)
Definition valid (w : Z) (x : integer) : Prop :=
  words w (reg x) /\ pow2_size (length (reg x)) /\ (neg x = true -> wval w (reg x) <> 0).
(** The result is a well-formed object that represents [v]. *)
Definition is_int (w : Z) (x : integer) (v : Z) : Prop := valid w x /\ ival w x = v.

(** [v] has an encoding of [n] bytes. *)
Definition fits (signed : bool) (n : nat) (v : Z) : Prop :=
  if signed then - 256 ^ Z.of_nat n <= 2 * v < 256 ^ Z.of_nat n else 0 <= v < 256 ^ Z.of_nat n.
(** Minus the weight of a whole register: the negative numbers Decode gets wrong. *)
Definition full_register (w v : Z) : Prop := exists n, pow2_size n /\ v = - (2 ^ w) ^ Z.of_nat n.

(** X.690 8.3: the contents of an INTEGER: two's complement, in the fewest octets, at least one. *)
Definition der_integer_contents (v : Z) (c : list Z) : Prop :=
  c = be_bytes (length c) v /\ c <> [] /\ fits true (length c) v /\ forall m, (1 <= m)%nat -> fits true m v -> (length c <= m)%nat.
