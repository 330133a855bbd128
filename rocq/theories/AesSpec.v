(** FIPS-197, the Advanced Encryption Standard, written from the standard. The state is the list of 16
    bytes in input order: row r, column c is at r + 4c (figure 3 of the standard). *)
From Coq Require Import ZArith List Bool Arith.
From Verif Require Import Base.
Import ListNotations.
Local Open Scope Z_scope.

(** 4.2.1: multiplication by x in GF(2^8); 4.2: multiplication of two bytes. *)
Definition xtime (a : Z) : Z := if Z.testbit a 7 then Z.lxor (2 * a) 0x11b else 2 * a.
Fixpoint gmul_bits (n : nat) (a b : Z) : Z :=
  match n with
  | O => 0
  | S m => Z.lxor (if Z.testbit b 0 then a else 0) (gmul_bits m (xtime a) (Z.div2 b))
  end.
Definition gmul (a b : Z) : Z := gmul_bits 8 a b.
(** The multiplicative inverse, a^254; 0 is mapped to itself. *)
Definition gsq (a : Z) : Z := gmul a a.
Definition ginv (a : Z) : Z :=
  let a2 := gsq a in let a4 := gsq a2 in let a8 := gsq a4 in let a16 := gsq a8 in
  let a32 := gsq a16 in let a64 := gsq a32 in let a128 := gsq a64 in
  gmul a128 (gmul a64 (gmul a32 (gmul a16 (gmul a8 (gmul a4 a2))))).
(** 5.1.1: bit i of the result is b_i + b_(i+4) + b_(i+5) + b_(i+6) + b_(i+7) + c_i, indices modulo 8. *)
Definition affine (b : Z) : Z :=
  fold_right (fun i acc =>
    Z.lxor acc (Z.b2z (fold_right xorb (Z.testbit 0x63 i)
      (map (fun k => Z.testbit b ((i + k) mod 8)) [0; 4; 5; 6; 7])) * 2 ^ i)) 0 [0; 1; 2; 3; 4; 5; 6; 7].
Definition sbox (a : Z) : Z := affine (ginv a).
Definition inv_sbox (a : Z) : Z :=
  match find (fun b => sbox b =? a) (map Z.of_nat (seq 0 256)) with Some b => b | None => 0 end.

Definition row (i : nat) : nat := Nat.modulo i 4.
Definition col (i : nat) : nat := Nat.div i 4.
Definition at_rc (s : list Z) (r c : nat) : Z := nth (r + 4 * c) s 0.

(** 5.1.1 SubBytes, 5.3.2 InvSubBytes *)
Definition sub_bytes (s : list Z) : list Z := map sbox s.
Definition inv_sub_bytes (s : list Z) : list Z := map inv_sbox s.
(** 5.1.2 ShiftRows, 5.3.1 InvShiftRows *)
Definition shift_rows (s : list Z) : list Z :=
  map (fun i => at_rc s (row i) ((col i + row i) mod 4)) (seq 0 16).
Definition inv_shift_rows (s : list Z) : list Z :=
  map (fun i => at_rc s (row i) ((col i + 4 - row i) mod 4)) (seq 0 16).
(** 5.1.3 MixColumns, 5.3.3 InvMixColumns: row r of the product with the circulant matrix *)
Definition mix_with (m : list Z) (s : list Z) : list Z :=
  map (fun i => fold_right Z.lxor 0
    (map (fun k => gmul (at_rc s k (col i)) (nth ((k + 4 - row i) mod 4) m 0)) [0; 1; 2; 3]%nat)) (seq 0 16).
Definition mix_columns (s : list Z) : list Z := mix_with [2; 3; 1; 1] s.
Definition inv_mix_columns (s : list Z) : list Z := mix_with [14; 11; 13; 9] s.
(** 5.1.4 AddRoundKey *)
Definition add_round_key (k s : list Z) : list Z := xorl s k.

(** 5.1 Cipher and 5.3 InvCipher for the list of round keys, 16 bytes each *)
Definition cipher (ks : list (list Z)) (s : list Z) : list Z :=
  let s := add_round_key (hd [] ks) s in
  let s := fold_left (fun s k => add_round_key k (mix_columns (shift_rows (sub_bytes s)))) (removelast (tl ks)) s in
  add_round_key (last ks []) (shift_rows (sub_bytes s)).
Definition inv_cipher (ks : list (list Z)) (s : list Z) : list Z :=
  let s := add_round_key (last ks []) s in
  let s := fold_left (fun s k => inv_mix_columns (add_round_key k (inv_sub_bytes (inv_shift_rows s))))
             (rev (removelast (tl ks))) s in
  add_round_key (hd [] ks) (inv_sub_bytes (inv_shift_rows s)).

(** 5.2 KeyExpansion, words as lists of four bytes. Rcon[i] = [x^(i-1), 0, 0, 0]. *)
Definition rot_word (w : list Z) : list Z := tl w ++ [hd 0 w].
Definition sub_word (w : list Z) : list Z := map sbox w.
Definition rcon_word (i : nat) : list Z := [Nat.iter (i - 1) xtime 1; 0; 0; 0].
Definition next_word (nk i : nat) (w : list (list Z)) : list Z :=
  let temp := nth (i - 1) w [] in
  let temp :=
    if (i mod nk =? 0)%nat then xorl (sub_word (rot_word temp)) (rcon_word (i / nk))
    else if ((6 <? nk) && (i mod nk =? 4))%nat%bool then sub_word temp
    else temp in
  xorl (nth (i - nk) w []) temp.
Fixpoint groups (n k : nat) (s : list Z) : list (list Z) :=
  match k with O => [] | S m => firstn n s :: groups n m (skipn n s) end.
Definition key_expansion (key : list Z) : list (list Z) :=
  let nk := Nat.div (length key) 4 in
  fold_left (fun w i => w ++ [next_word nk i w]) (seq nk (4 * (nk + 7) - nk)) (groups 4 nk key).
(** the round keys: four words each *)
Definition round_keys (key : list Z) : list (list Z) :=
  groups 16 (Nat.div (length key) 4 + 7) (concat (key_expansion key)).

Definition aes_key (key : list Z) : Prop :=
  bytes key /\ (length key = 16%nat \/ length key = 24%nat \/ length key = 32%nat).
Definition fips197_cipher (key block : list Z) : list Z := cipher (round_keys key) block.
Definition fips197_inv_cipher (key block : list Z) : list Z := inv_cipher (round_keys key) block.
