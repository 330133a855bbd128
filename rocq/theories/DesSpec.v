(** DesSpec: the Data Encryption Standard, FIPS 46-3, on bit strings; bit 1 of a string is its leftmost
    bit. The tables are those of the standard. *)
From Coq Require Import ZArith List Bool Arith.
Import ListNotations.
Open Scope nat_scope.

(** The bits of a byte string, the most significant bit of each byte first. *)
Definition bits_of (s : list Z) : list bool :=
  flat_map (fun b => map (fun i => Z.testbit b (Z.of_nat (7 - i))) (seq 0 8)) s.
(** A table of bit numbers. *)
Definition select (table : list nat) (b : list bool) : list bool := map (fun i => nth (i - 1) b false) table.
Definition xor_bits (a b : list bool) : list bool := map (fun '(x, y) => xorb x y) (combine a b).
(** The number with the given bits, most significant first. *)
Definition number (b : list bool) : nat := fold_left (fun n (x : bool) => 2 * n + (if x then 1 else 0)) b 0.

Definition IP : list nat :=
  [58; 50; 42; 34; 26; 18; 10; 2; 60; 52; 44; 36; 28; 20; 12; 4;
   62; 54; 46; 38; 30; 22; 14; 6; 64; 56; 48; 40; 32; 24; 16; 8;
   57; 49; 41; 33; 25; 17; 9; 1; 59; 51; 43; 35; 27; 19; 11; 3;
   61; 53; 45; 37; 29; 21; 13; 5; 63; 55; 47; 39; 31; 23; 15; 7]%nat.
Definition IP_inverse : list nat :=
  [40; 8; 48; 16; 56; 24; 64; 32; 39; 7; 47; 15; 55; 23; 63; 31;
   38; 6; 46; 14; 54; 22; 62; 30; 37; 5; 45; 13; 53; 21; 61; 29;
   36; 4; 44; 12; 52; 20; 60; 28; 35; 3; 43; 11; 51; 19; 59; 27;
   34; 2; 42; 10; 50; 18; 58; 26; 33; 1; 41; 9; 49; 17; 57; 25]%nat.
Definition E_table : list nat :=
  [32; 1; 2; 3; 4; 5; 4; 5; 6; 7; 8; 9;
   8; 9; 10; 11; 12; 13; 12; 13; 14; 15; 16; 17;
   16; 17; 18; 19; 20; 21; 20; 21; 22; 23; 24; 25;
   24; 25; 26; 27; 28; 29; 28; 29; 30; 31; 32; 1]%nat.
Definition P_table : list nat :=
  [16; 7; 20; 21; 29; 12; 28; 17; 1; 15; 23; 26; 5; 18; 31; 10;
   2; 8; 24; 14; 32; 27; 3; 9; 19; 13; 30; 6; 22; 11; 4; 25]%nat.
Definition S_boxes : list (list nat) := [
  [14; 4; 13; 1; 2; 15; 11; 8; 3; 10; 6; 12; 5; 9; 0; 7;
   0; 15; 7; 4; 14; 2; 13; 1; 10; 6; 12; 11; 9; 5; 3; 8;
   4; 1; 14; 8; 13; 6; 2; 11; 15; 12; 9; 7; 3; 10; 5; 0;
   15; 12; 8; 2; 4; 9; 1; 7; 5; 11; 3; 14; 10; 0; 6; 13];
  [15; 1; 8; 14; 6; 11; 3; 4; 9; 7; 2; 13; 12; 0; 5; 10;
   3; 13; 4; 7; 15; 2; 8; 14; 12; 0; 1; 10; 6; 9; 11; 5;
   0; 14; 7; 11; 10; 4; 13; 1; 5; 8; 12; 6; 9; 3; 2; 15;
   13; 8; 10; 1; 3; 15; 4; 2; 11; 6; 7; 12; 0; 5; 14; 9];
  [10; 0; 9; 14; 6; 3; 15; 5; 1; 13; 12; 7; 11; 4; 2; 8;
   13; 7; 0; 9; 3; 4; 6; 10; 2; 8; 5; 14; 12; 11; 15; 1;
   13; 6; 4; 9; 8; 15; 3; 0; 11; 1; 2; 12; 5; 10; 14; 7;
   1; 10; 13; 0; 6; 9; 8; 7; 4; 15; 14; 3; 11; 5; 2; 12];
  [7; 13; 14; 3; 0; 6; 9; 10; 1; 2; 8; 5; 11; 12; 4; 15;
   13; 8; 11; 5; 6; 15; 0; 3; 4; 7; 2; 12; 1; 10; 14; 9;
   10; 6; 9; 0; 12; 11; 7; 13; 15; 1; 3; 14; 5; 2; 8; 4;
   3; 15; 0; 6; 10; 1; 13; 8; 9; 4; 5; 11; 12; 7; 2; 14];
  [2; 12; 4; 1; 7; 10; 11; 6; 8; 5; 3; 15; 13; 0; 14; 9;
   14; 11; 2; 12; 4; 7; 13; 1; 5; 0; 15; 10; 3; 9; 8; 6;
   4; 2; 1; 11; 10; 13; 7; 8; 15; 9; 12; 5; 6; 3; 0; 14;
   11; 8; 12; 7; 1; 14; 2; 13; 6; 15; 0; 9; 10; 4; 5; 3];
  [12; 1; 10; 15; 9; 2; 6; 8; 0; 13; 3; 4; 14; 7; 5; 11;
   10; 15; 4; 2; 7; 12; 9; 5; 6; 1; 13; 14; 0; 11; 3; 8;
   9; 14; 15; 5; 2; 8; 12; 3; 7; 0; 4; 10; 1; 13; 11; 6;
   4; 3; 2; 12; 9; 5; 15; 10; 11; 14; 1; 7; 6; 0; 8; 13];
  [4; 11; 2; 14; 15; 0; 8; 13; 3; 12; 9; 7; 5; 10; 6; 1;
   13; 0; 11; 7; 4; 9; 1; 10; 14; 3; 5; 12; 2; 15; 8; 6;
   1; 4; 11; 13; 12; 3; 7; 14; 10; 15; 6; 8; 0; 5; 9; 2;
   6; 11; 13; 8; 1; 4; 10; 7; 9; 5; 0; 15; 14; 2; 3; 12];
  [13; 2; 8; 4; 6; 15; 11; 1; 10; 9; 3; 14; 5; 0; 12; 7;
   1; 15; 13; 8; 10; 3; 7; 4; 12; 5; 6; 11; 0; 14; 9; 2;
   7; 11; 4; 1; 9; 12; 14; 2; 0; 6; 10; 13; 15; 3; 5; 8;
   2; 1; 14; 7; 4; 10; 8; 13; 15; 12; 9; 0; 3; 5; 6; 11]].
Definition PC_1 : list nat :=
  [57; 49; 41; 33; 25; 17; 9; 1; 58; 50; 42; 34; 26; 18;
   10; 2; 59; 51; 43; 35; 27; 19; 11; 3; 60; 52; 44; 36;
   63; 55; 47; 39; 31; 23; 15; 7; 62; 54; 46; 38; 30; 22;
   14; 6; 61; 53; 45; 37; 29; 21; 13; 5; 28; 20; 12; 4]%nat.
Definition PC_2 : list nat :=
  [14; 17; 11; 24; 1; 5; 3; 28; 15; 6; 21; 10;
   23; 19; 12; 4; 26; 8; 16; 7; 27; 20; 13; 2;
   41; 52; 31; 37; 47; 55; 30; 40; 51; 45; 33; 48;
   44; 49; 39; 56; 34; 53; 46; 42; 50; 36; 29; 32]%nat.
(** The number of left shifts of each iteration. *)
Definition shifts : list nat := [1; 1; 2; 2; 2; 2; 2; 2; 1; 2; 2; 2; 2; 2; 2; 1].

(** Four bits of S-box [i]: the first and the last bit of the six give the row, the
    others the column. *)
Definition four_bits (n : nat) : list bool := map (fun i => Nat.testbit n (3 - i)) (seq 0 4).
Definition S_box (i : nat) (b : list bool) : list bool :=
  let row := number [nth 0 b false; nth 5 b false] in
  let col := number (firstn 4 (skipn 1 b)) in
  four_bits (nth (16 * row + col) (nth i S_boxes []) 0).
(** The function f of a half block and 48 bits of key. *)
Definition f (r k : list bool) : list bool :=
  let x := xor_bits (select E_table r) k in
  select P_table (flat_map (fun i => S_box i (firstn 6 (skipn (6 * i) x))) (seq 0 8)).

(** The key schedule KS: halves shifted left, then 48 bits are chosen. *)
Definition shift_left (n : nat) (b : list bool) : list bool := skipn n b ++ firstn n b.
Fixpoint schedule (l : list nat) (c d : list bool) : list (list bool) :=
  match l with
  | [] => []
  | n :: l => let c := shift_left n c in let d := shift_left n d in select PC_2 (c ++ d) :: schedule l c d
  end.
Definition KS (key : list bool) : list (list bool) :=
  let cd := select PC_1 key in schedule shifts (firstn 28 cd) (skipn 28 cd).

(** Sixteen iterations, the halves exchanged at the end, between the initial
    permutation and its inverse. *)
Definition iteration (lr : list bool * list bool) (k : list bool) : list bool * list bool :=
  (snd lr, xor_bits (fst lr) (f (snd lr) k)).
Definition cipher (keys : list (list bool)) (b : list bool) : list bool :=
  let b := select IP b in
  let '(l, r) := fold_left iteration keys (firstn 32 b, skipn 32 b) in
  select IP_inverse (r ++ l).
Definition DES_encrypt (key b : list bool) : list bool := cipher (KS key) b.
Definition DES_decrypt (key b : list bool) : list bool := cipher (rev (KS key)) b.
(** The triple algorithm (TDEA). *)
Definition TDEA_encrypt (k1 k2 k3 b : list bool) : list bool := DES_encrypt k3 (DES_decrypt k2 (DES_encrypt k1 b)).
Definition TDEA_decrypt (k1 k2 k3 b : list bool) : list bool := DES_decrypt k1 (DES_encrypt k2 (DES_decrypt k3 b)).

(** Parity: a key byte is right when the number of its bits that are 1 is odd. *)
Definition odd_parity (b : Z) : Prop := Nat.odd (length (filter (fun x : bool => x) (bits_of [b]))) = true.
