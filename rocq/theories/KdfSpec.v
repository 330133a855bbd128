(** PBKDF1 and PBKDF2 (RFC 8018), HKDF (RFC 5869) and the derivation function of PKCS #12 (RFC 7292, appendix B.2). *)
From Coq Require Import ZArith List Bool Arith.
From Verif Require Import Base Blocks HashModel HashSpec.
Import ListNotations.
Local Open Scope Z_scope.

Definition ceil_div (n d : nat) : nat := ((n + d - 1) / d)%nat.
(** The first [len] bytes of block 1, block 2, ..., of [d] bytes each. *)
Definition from_blocks (len d : nat) (block : nat -> list Z) : list Z := firstn len (concat (map block (seq 1 (ceil_div len d)))).

Definition pbkdf1_spec (hash : list Z -> list Z) (secret salt : list Z) (c len : nat) : list Z :=
  firstn len (Nat.iter c hash (secret ++ salt)).

(** U_1 = PRF (salt || INT i), U_(j+1) = PRF U_j; T_i is the sum of U_1 .. U_c. *)
Definition pbkdf2_u (prf : list Z -> list Z) (salt : list Z) (i j : nat) : list Z :=
  Nat.iter j prf (salt ++ be_bytes 4 (Z.of_nat i)).
Definition pbkdf2_t (prf : list Z -> list Z) (salt : list Z) (c i : nat) : list Z :=
  fold_left (fun acc j => xorl acc (pbkdf2_u prf salt i j)) (seq 2 (c - 1)) (pbkdf2_u prf salt i 1).
Definition pbkdf2_spec (prf : list Z -> list Z) (hlen : nat) (salt : list Z) (c len : nat) : list Z :=
  from_blocks len hlen (pbkdf2_t prf salt c).

Fixpoint hkdf_t (prf : list Z -> list Z) (info : list Z) (i : nat) : list Z :=
  match i with
  | O => []
  | S k => prf (hkdf_t prf info k ++ info ++ [Z.of_nat (S k)])
  end.
Definition hkdf_spec (mac : list Z -> list Z -> list Z) (hlen : nat) (secret salt info : list Z) (len : nat) : list Z :=
  from_blocks len hlen (hkdf_t (mac (mac salt secret)) info).

(** [x] repeated, cut to [n] bytes. *)
Definition cycle (x : list Z) (n : nat) : list Z := firstn n (concat (repeat x n)).
Definition p12_stretch (v : nat) (x : list Z) : list Z := cycle x (v * ceil_div (length x) v).
(** I after [i] blocks; A_i. *)
Fixpoint p12_i (hash : list Z -> list Z) (v c : nat) (D I0 : list Z) (i : nat) : list Z :=
  match i with
  | O => I0
  | S k =>
    let I := p12_i hash v c D I0 k in
    let B := cycle (Nat.iter c hash (D ++ I)) v in
    concat (map (fun Ij => be_bytes v ((be_val Ij + be_val B + 1) mod 256 ^ Z.of_nat v)) (blocks v I))
  end.
Definition p12_a (hash : list Z -> list Z) (v c : nat) (D I0 : list Z) (i : nat) : list Z :=
  Nat.iter c hash (D ++ p12_i hash v c D I0 (i - 1)).
Definition pkcs12_spec (hash : list Z -> list Z) (v hlen : nat) (purpose : Z) (secret salt : list Z) (c len : nat) : list Z :=
  from_blocks len hlen (p12_a hash v c (repeat purpose v) (p12_stretch v salt ++ p12_stretch v secret)).

(** A hash object fit for deriving keys: it implements [hash] for all messages below [limit] bytes, and its sizes are not 0. *)
Record kdf_hash {T} (o : hobj T) (rep : T -> list Z -> Prop) (hash : list Z -> list Z) (limit : Z) : Prop := {
  kh_imp : exists ok, implements o rep hash ok /\ forall m, Z.of_nat (length m) < limit -> ok m;
  kh_bs : ho_bsize o <> 0%nat;
  kh_ds : ho_dsize o <> 0%nat
}.
(** The count the caller asked for: 0 counts as 1. *)
Definition count (iterations : nat) : nat := Nat.max 1 iterations.
(** The clock of the loops: it stops at [k] iterations at the latest. Without a time limit, the count asked for is the stop. *)
Definition kdf_stops (timed : bool) (clock : nat -> bool) (iterations k : nat) : Prop :=
  (count iterations <= k)%nat /\ (timed = true -> (k mod 128 = 0)%nat /\ clock k = false).
