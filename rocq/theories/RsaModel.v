(** Model of the RSA trapdoor function of rsa.cpp, in exact Integer objects.

    Simplifications: CRYPTOPP_ASSERT is compiled out; the objects a ModularArithmetic method returns by reference are copies; the random number generator is the
    list of blocks it returns; [fuel] bounds the rounds of a loop, and a run that exceeds it, or that asks for more blocks than there are, is [RStuck];
    VerifyPrime, called by Validate from level 2 on, is not modelled; nor are the search for primes and the FIPS self tests of GenerateRandom. *)
From Coq Require Import ZArith List Bool Arith.
From Verif Require Import Base AsnModel WordsModel IntegerModel ModModel AlgebraModel NbModel.
Import ListNotations.
Local Open Scope Z_scope.

(** rsa.h:57 and 137: the key. *)
Record rsa_private := mkRsa { k_n : integer; k_e : integer; k_d : integer; k_p : integer; k_q : integer; k_dp : integer; k_dq : integer; k_u : integer }.

Section Rsa.
Variable w : Z.
Definition gt_ (a b : integer) : bool := compare a b >? 0.
Definition lt_ (a b : integer) : bool := compare a b <? 0.
Definition eq_ (a b : integer) : bool := compare a b =? 0.
Definition is_odd (x : integer) : bool := get_bit w x 0.

(** rsa.cpp:76-86, RSAFunction::Validate, the same at every level. *)
Definition validate_public (n e : integer) : bool := gt_ n int_one && is_odd n && (gt_ e int_one && is_odd e && lt_ e n).
(** rsa.cpp:260-294, InvertibleRSAFunction::Validate: the part all levels have, the part from level 1 on. *)
Definition validate_0 (k : rsa_private) : bool :=
  validate_public (k_n k) (k_e k) &&
  (gt_ (k_p k) int_one && is_odd (k_p k) && lt_ (k_p k) (k_n k)) && (gt_ (k_q k) int_one && is_odd (k_q k) && lt_ (k_q k) (k_n k)) &&
  (gt_ (k_d k) int_one && is_odd (k_d k) && lt_ (k_d k) (k_n k)) && (gt_ (k_dp k) int_one && is_odd (k_dp k) && lt_ (k_dp k) (k_p k)) &&
  (gt_ (k_dq k) int_one && is_odd (k_dq k) && lt_ (k_dq k) (k_q k)) && (is_positive (k_u k) && lt_ (k_u k) (k_p k)).
Definition and_then (pass : bool) (c : res bool) : res bool := if pass then c else ROk false.
Definition validate_1 (fuel : nat) (k : rsa_private) : res bool :=
  and_then (validate_0 k)
    (and_then (eq_ (times w (k_p k) (k_q k)) (k_n k))
      (rbind (int_lcm w fuel (minus w (k_p k) int_one) (minus w (k_q k) int_one)) (fun l =>
       rbind (modulo w (times w (k_e k) (k_d k)) l) (fun t =>
       and_then (eq_ t int_one)
         (rbind (modulo w (k_d k) (minus w (k_p k) int_one)) (fun dp => rbind (modulo w (k_d k) (minus w (k_q k) int_one)) (fun dq =>
          and_then (eq_ (k_dp k) dp && eq_ (k_dq k) dq)
            (rbind (modulo w (times w (k_u k) (k_q k)) (k_p k)) (fun t => ROk (eq_ t int_one)))))))))).

(** rsa.cpp:70-74, ApplyFunction; cryptlib.h:2432-2433 and 2498, DoQuickSanityCheck throws unless the key passes Validate at level 0. *)
Definition apply_function (fuel : nat) (n e x : integer) : res integer :=
  if validate_public n e then of_option (a_exp_b_mod_c w fuel x e n) else RThrow.

(** rsa.cpp:243-246: the blinding value and its inverse. *)
Fixpoint blinding (rounds : nat) (modn : modarith) (n : integer) (blocks : list (list Z)) : res (integer * integer * list (list Z)) :=
  match rounds with
  | O => RStuck
  | S k => rbind (randomize w int_one (minus w n int_one) blocks) (fun rb =>
           rbind (ma_mult_inverse w modn (fst rb)) (fun rinv => if is_zero rinv then blinding k modn n (snd rb) else ROk (fst rb, rinv, snd rb)))
  end.
(** rsa.cpp:238-258, CalculateInverse, whatever computes the root in line 251. *)
Definition calculate_inverse_by (root : integer -> res integer) (fuel : nat) (k : rsa_private) (blocks : list (list Z)) (x : integer) : res integer :=
  if validate_0 k then
    let modn := make_mod (k_n k) in
    rbind (blinding (S (length blocks)) modn (k_n k) blocks) (fun b => let r := fst (fst b) in let rinv := snd (fst b) in
    rbind (of_option (exponentiate w fuel modn r (k_e k))) (fun re =>
    rbind (ma_multiply w modn re x) (fun re =>
    rbind (root re) (fun y =>
    rbind (ma_multiply w modn y rinv) (fun y =>
    rbind (of_option (exponentiate w fuel modn y (k_e k))) (fun c => if negb (eq_ c x) then RThrow else ROk y))))))
  else RThrow.
Definition calculate_inverse (fuel : nat) (k : rsa_private) (blocks : list (list Z)) (x : integer) : res integer :=
  calculate_inverse_by (fun a => modular_root w fuel a (k_dq k) (k_dp k) (k_q k) (k_p k) (k_u k)) fuel k blocks x.

(** rsa.cpp:321-325, RSAFunction_ISO::ApplyFunction; 327-331, InvertibleRSAFunction_ISO::CalculateInverse; misc.h:657-660, STDMIN. *)
Definition apply_function_iso (fuel : nat) (n e x : integer) : res integer :=
  rbind (apply_function fuel n e x) (fun t => rbind (modulo_word w t 16) (fun m => ROk (if m =? 12 then t else minus w n t))).
Definition calculate_inverse_iso (fuel : nat) (k : rsa_private) (blocks : list (list Z)) (x : integer) : res integer :=
  rbind (calculate_inverse fuel k blocks x) (fun t => let u := minus w (k_n k) t in ROk (if lt_ u t then u else t)).

(** rsa.cpp:135-150, the loop of GenerateRandom once the primes are chosen: the key, or [None] when they are rejected. *)
Definition generate_from (fuel : nat) (e p q : integer) : res (option rsa_private) :=
  rbind (int_lcm w fuel (minus w p int_one) (minus w q int_one)) (fun l =>
  rbind (inverse_mod w e l) (fun d =>
  rbind (modulo w d (minus w p int_one)) (fun dp => rbind (modulo w d (minus w q int_one)) (fun dq =>
  rbind (inverse_mod w q p) (fun u => ROk (if is_zero u then None else Some (mkRsa (times w p q) e d p q dp dq u))))))).

(** rsa.cpp:186-203: squares [a] until its square is one, at most [s] times; [None] when [a] is n-1. *)
Fixpoint split_loop (fuel : nat) (modn : modarith) (n a : integer) (j s : nat) : res (option integer) :=
  match fuel with
  | O => RStuck
  | S f =>
    if eq_ a (minus w n int_one) then ROk None
    else rbind (ma_square w modn a) (fun b =>
      if eq_ b int_one then ROk (Some a)
      else if (S j =? s)%nat then RThrow else split_loop f modn n b (S j) s)
  end.
(** rsa.cpp:177-205: the bases 2, 3, ... *)
Fixpoint base_loop (rounds fuel : nat) (modn : modarith) (n r i : integer) (s : nat) : res integer :=
  match rounds with
  | O => RStuck
  | S k =>
    rbind (of_option (exponentiate w fuel modn i r)) (fun a =>
    if eq_ a int_one then base_loop k fuel modn n r (incr w i) s
    else rbind (split_loop fuel modn n a 0 s) (fun o =>
      match o with Some a => ROk a | None => base_loop k fuel modn n r (incr w i) s end))
  end.
(** rsa.cpp:159-205, Initialize(n, e, d). *)
Definition initialize (fuel : nat) (n e d : integer) : res rsa_private :=
  if negb (is_odd n) || negb (is_odd e) || negb (is_odd d) then RThrow
  else rbind (halve_even w fuel (decr w (times w d e)) 0) (fun rs =>
    let modn := make_mod n in
    rbind (base_loop fuel fuel modn n (fst rs) (lit w 2) (snd rs)) (fun a =>
    rbind (int_gcd w fuel (minus w a int_one) n) (fun p => rbind (divided_by w n p) (fun q =>
    rbind (modulo w d (minus w p int_one)) (fun dp => rbind (modulo w d (minus w q int_one)) (fun dq =>
    rbind (inverse_mod w q p) (fun u => ROk (mkRsa n e d p q dp dq u)))))))).

(** rsa.cpp:54-68: the public key in DER; 207-236: the private key. *)
Definition public_enc (k : integer * integer) : list Z := der_wrap SEQUENCE (int_der w (fst k) ++ int_der w (snd k)).
Definition public_dec (b : Z) (s : src) : option ((integer * integer) * src) :=
  bind1 (ber_open SEQUENCE s) (fun s => bind (int_ber w b s) (fun n s => bind (int_ber w b s) (fun e s => bind1 (ber_close s) (fun s => Some ((n, e), s))))).
Definition private_enc (k : rsa_private) : list Z :=
  der_wrap SEQUENCE (der_unsigned 4 INTEGER 0 ++ int_der w (k_n k) ++ int_der w (k_e k) ++ int_der w (k_d k) ++ int_der w (k_p k) ++ int_der w (k_q k) ++
                     int_der w (k_dp k) ++ int_der w (k_dq k) ++ int_der w (k_u k)).
Definition private_dec (sz b : Z) (s : src) : option (rsa_private * src) :=
  bind1 (ber_open SEQUENCE s) (fun s => bind (ber_unsigned sz 4 INTEGER 0 0 s) (fun _ s =>
  bind (int_ber w b s) (fun n s => bind (int_ber w b s) (fun e s => bind (int_ber w b s) (fun d s => bind (int_ber w b s) (fun p s => bind (int_ber w b s) (fun q s =>
  bind (int_ber w b s) (fun dp s => bind (int_ber w b s) (fun dq s => bind (int_ber w b s) (fun u s =>
  bind1 (ber_close s) (fun s => Some (mkRsa n e d p q dp dq u, s)))))))))))).
End Rsa.
