(** BitioSpec: bit strings in the order of RFC 1951, 3.1.1: the bits of a byte
    come least significant first. *)
From Coq Require Import ZArith List Bool.
From Verif Require Import Base.
Import ListNotations.

(** The [n] low bits of [v], least significant first, and the number they
    stand for. *)
Fixpoint lsbs (n : nat) (v : Z) : list bool :=
  match n with
  | O => []
  | S n => Z.odd v :: lsbs n (Z.div2 v)
  end.

Fixpoint lsbs_val (l : list bool) : Z :=
  match l with
  | [] => 0
  | b :: l => Z.b2z b + 2 * lsbs_val l
  end%Z.

(** A byte string as a bit string. *)
Definition stream (l : list Z) : list bool := flat_map (lsbs 8) l.

(** The bits a reader has still to give, and those a writer was given. *)
From Verif Require Import BitioModel.
Definition rbits (r : reader) : list bool := lsbs (r_cnt r) (r_buf r) ++ stream (r_rest r).
Definition wbits (w : writer) : list bool :=
  stream (w_sent w ++ w_pend w) ++ lsbs (w_cnt w) (w_buf w).

(** What every reader and writer satisfies when no more than 32 bits are asked
    for, or given, at a time. *)
Definition rok (r : reader) : Prop :=
  (0 <= r_buf r < 2 ^ Z.of_nat (r_cnt r))%Z /\ (r_cnt r <= 39)%nat /\ bytes (r_rest r).
Definition wok (w : writer) : Prop :=
  w_counting w = false /\ (0 <= w_buf w < 2 ^ Z.of_nat (w_cnt w))%Z /\ (w_cnt w < 8)%nat
  /\ bytes (w_sent w ++ w_pend w).
