(** What an RSA key and the random numbers it uses are. *)
From Coq Require Import ZArith Znumtheory List.
From Verif Require Import Base WordsModel IntegerModel IntegerSpec RsaModel NbSpec.
Import ListNotations.
Local Open Scope Z_scope.

(** The numbers a private key holds. *)
Record rsa_numbers := mkNum { n_ : Z; e_ : Z; d_ : Z; p_ : Z; q_ : Z; dp_ : Z; dq_ : Z; u_ : Z }.
Definition holds (w : Z) (k : rsa_private) (m : rsa_numbers) : Prop :=
  is_int w (k_n k) (n_ m) /\ is_int w (k_e k) (e_ m) /\ is_int w (k_d k) (d_ m) /\ is_int w (k_p k) (p_ m) /\ is_int w (k_q k) (q_ m) /\
  is_int w (k_dp k) (dp_ m) /\ is_int w (k_dq k) (dq_ m) /\ is_int w (k_u k) (u_ m).
(** PKCS #1, 3.2: the equations between them (q inverse modulo p is u), and the bounds a key must keep. *)
Definition rsa_equations (m : rsa_numbers) : Prop :=
  n_ m = p_ m * q_ m /\ (1 < p_ m /\ p_ m mod 2 = 1) /\ (1 < q_ m /\ q_ m mod 2 = 1) /\ 1 < e_ m < n_ m /\ 1 < d_ m < n_ m /\
  (e_ m * d_ m) mod Z.lcm (p_ m - 1) (q_ m - 1) = 1 /\ dp_ m = d_ m mod (p_ m - 1) /\ dq_ m = d_ m mod (q_ m - 1) /\ 1 < dp_ m /\ 1 < dq_ m /\
  0 < u_ m < p_ m /\ (u_ m * q_ m) mod p_ m = 1.
(** A key: in addition the factors are prime. *)
Definition rsa_key (m : rsa_numbers) : Prop := prime (p_ m) /\ prime (q_ m) /\ rsa_equations m.

(** Blocks from which a blinding value modulo [n] is drawn, and a block that gives one. *)
Definition blinding_blocks (n : Z) (blocks : list (list Z)) : Prop := blocks_of (S (bit_length (n - 2) / 8)) blocks.
Definition blinds (n : Z) (b : list Z) : Prop := draw (bit_length (n - 2)) b <= n - 2 /\ Z.gcd (1 + draw (bit_length (n - 2)) b) n = 1.
