(** Word-level arithmetic of integer.cpp and words.h.

    A word array is a [list Z] of digits, least significant first; [w] is WORD_BITS (32 or 64 in the library's builds).
    Simplifications: an array passed by pointer is passed by value and the arrays a function writes are returned, so the
    caller-supplied work space T is not represented except where a function reads back what it wrote there; loops that are
    unrolled by two words in the source take one word per step here; the portable C++ forms of the carry macros are
    modelled (integer.cpp:201-255), not the inline assembly, SSE2 or MASM ones. *)
From Coq Require Import ZArith List Bool Arith.
From Verif Require Import Base AsnModel.
Import ListNotations.
Local Open Scope Z_scope.

(** One instruction of the unrolled column multiplications, integer.cpp:1181-1206 and 1365-1373. *)
Inductive cstep :=
| MSave (k i j : nat) (* Mul_SaveAcc(k, i, j) *)
| MAcc (i j : nat)    (* Mul_Acc(i, j) *)
| MEnd (k i : nat)    (* Mul_End(k, i) *)
| BSave (k i j : nat) (* Bot_SaveAcc(k, i, j) *)
| BAcc (i j : nat)    (* Bot_Acc(i, j) *)
| TAcc (i j : nat)    (* Top_Acc(i, j) *)
| TSave0 (i j : nat)  (* Top_SaveAcc0(i, j) *)
| TSave1 (i j : nat). (* Top_SaveAcc1(i, j) *)

(** One instruction of the unrolled squarings, integer.cpp:1221-1267. *)
Inductive sstep :=
| SSave (k i j : nat) (* Squ_SaveAcc(k, i, j) *)
| SAcc (i j : nat)    (* Squ_Acc(i, j) *)
| SDiag (i : nat)     (* Squ_Diag(i) *)
| SNonDiag.           (* Squ_NonDiag *)

(** integer.cpp:987-990. *)
Definition mul_2 : list cstep :=
  [MSave 0 0 1; MAcc 1 0; MEnd 1 1]%nat.
(** integer.cpp:992-999. *)
Definition mul_4 : list cstep :=
  [MSave 0 0 1; MAcc 1 0; MSave 1 0 2; MAcc 1 1; MAcc 2 0; MSave 2 0 3; MAcc 1 2; MAcc 2 1; MAcc 3 0; MSave 3 1 3; MAcc 2 2; MAcc 3 1; MSave 4 2 3;
   MAcc 3 2; MEnd 5 3]%nat.
(** integer.cpp:1001-1016. *)
Definition mul_8 : list cstep :=
  [MSave 0 0 1; MAcc 1 0; MSave 1 0 2; MAcc 1 1; MAcc 2 0; MSave 2 0 3; MAcc 1 2; MAcc 2 1; MAcc 3 0; MSave 3 0 4; MAcc 1 3; MAcc 2 2; MAcc 3 1;
   MAcc 4 0; MSave 4 0 5; MAcc 1 4; MAcc 2 3; MAcc 3 2; MAcc 4 1; MAcc 5 0; MSave 5 0 6; MAcc 1 5; MAcc 2 4; MAcc 3 3; MAcc 4 2; MAcc 5 1; MAcc 6 0;
   MSave 6 0 7; MAcc 1 6; MAcc 2 5; MAcc 3 4; MAcc 4 3; MAcc 5 2; MAcc 6 1; MAcc 7 0; MSave 7 1 7; MAcc 2 6; MAcc 3 5; MAcc 4 4; MAcc 5 3; MAcc 6 2;
   MAcc 7 1; MSave 8 2 7; MAcc 3 6; MAcc 4 5; MAcc 5 4; MAcc 6 3; MAcc 7 2; MSave 9 3 7; MAcc 4 6; MAcc 5 5; MAcc 6 4; MAcc 7 3; MSave 10 4 7; MAcc 5 6;
   MAcc 6 5; MAcc 7 4; MSave 11 5 7; MAcc 6 6; MAcc 7 5; MSave 12 6 7; MAcc 7 6; MEnd 13 7]%nat.
(** integer.cpp:1018-1049. *)
Definition mul_16 : list cstep :=
  [MSave 0 0 1; MAcc 1 0; MSave 1 0 2; MAcc 1 1; MAcc 2 0; MSave 2 0 3; MAcc 1 2; MAcc 2 1; MAcc 3 0; MSave 3 0 4; MAcc 1 3; MAcc 2 2; MAcc 3 1;
   MAcc 4 0; MSave 4 0 5; MAcc 1 4; MAcc 2 3; MAcc 3 2; MAcc 4 1; MAcc 5 0; MSave 5 0 6; MAcc 1 5; MAcc 2 4; MAcc 3 3; MAcc 4 2; MAcc 5 1; MAcc 6 0;
   MSave 6 0 7; MAcc 1 6; MAcc 2 5; MAcc 3 4; MAcc 4 3; MAcc 5 2; MAcc 6 1; MAcc 7 0; MSave 7 0 8; MAcc 1 7; MAcc 2 6; MAcc 3 5; MAcc 4 4; MAcc 5 3;
   MAcc 6 2; MAcc 7 1; MAcc 8 0; MSave 8 0 9; MAcc 1 8; MAcc 2 7; MAcc 3 6; MAcc 4 5; MAcc 5 4; MAcc 6 3; MAcc 7 2; MAcc 8 1; MAcc 9 0; MSave 9 0 10;
   MAcc 1 9; MAcc 2 8; MAcc 3 7; MAcc 4 6; MAcc 5 5; MAcc 6 4; MAcc 7 3; MAcc 8 2; MAcc 9 1; MAcc 10 0; MSave 10 0 11; MAcc 1 10; MAcc 2 9; MAcc 3 8;
   MAcc 4 7; MAcc 5 6; MAcc 6 5; MAcc 7 4; MAcc 8 3; MAcc 9 2; MAcc 10 1; MAcc 11 0; MSave 11 0 12; MAcc 1 11; MAcc 2 10; MAcc 3 9; MAcc 4 8; MAcc 5 7;
   MAcc 6 6; MAcc 7 5; MAcc 8 4; MAcc 9 3; MAcc 10 2; MAcc 11 1; MAcc 12 0; MSave 12 0 13; MAcc 1 12; MAcc 2 11; MAcc 3 10; MAcc 4 9; MAcc 5 8; MAcc 6 7;
   MAcc 7 6; MAcc 8 5; MAcc 9 4; MAcc 10 3; MAcc 11 2; MAcc 12 1; MAcc 13 0; MSave 13 0 14; MAcc 1 13; MAcc 2 12; MAcc 3 11; MAcc 4 10; MAcc 5 9;
   MAcc 6 8; MAcc 7 7; MAcc 8 6; MAcc 9 5; MAcc 10 4; MAcc 11 3; MAcc 12 2; MAcc 13 1; MAcc 14 0; MSave 14 0 15; MAcc 1 14; MAcc 2 13; MAcc 3 12;
   MAcc 4 11; MAcc 5 10; MAcc 6 9; MAcc 7 8; MAcc 8 7; MAcc 9 6; MAcc 10 5; MAcc 11 4; MAcc 12 3; MAcc 13 2; MAcc 14 1; MAcc 15 0; MSave 15 1 15;
   MAcc 2 14; MAcc 3 13; MAcc 4 12; MAcc 5 11; MAcc 6 10; MAcc 7 9; MAcc 8 8; MAcc 9 7; MAcc 10 6; MAcc 11 5; MAcc 12 4; MAcc 13 3; MAcc 14 2; MAcc 15 1;
   MSave 16 2 15; MAcc 3 14; MAcc 4 13; MAcc 5 12; MAcc 6 11; MAcc 7 10; MAcc 8 9; MAcc 9 8; MAcc 10 7; MAcc 11 6; MAcc 12 5; MAcc 13 4; MAcc 14 3;
   MAcc 15 2; MSave 17 3 15; MAcc 4 14; MAcc 5 13; MAcc 6 12; MAcc 7 11; MAcc 8 10; MAcc 9 9; MAcc 10 8; MAcc 11 7; MAcc 12 6; MAcc 13 5; MAcc 14 4;
   MAcc 15 3; MSave 18 4 15; MAcc 5 14; MAcc 6 13; MAcc 7 12; MAcc 8 11; MAcc 9 10; MAcc 10 9; MAcc 11 8; MAcc 12 7; MAcc 13 6; MAcc 14 5; MAcc 15 4;
   MSave 19 5 15; MAcc 6 14; MAcc 7 13; MAcc 8 12; MAcc 9 11; MAcc 10 10; MAcc 11 9; MAcc 12 8; MAcc 13 7; MAcc 14 6; MAcc 15 5; MSave 20 6 15;
   MAcc 7 14; MAcc 8 13; MAcc 9 12; MAcc 10 11; MAcc 11 10; MAcc 12 9; MAcc 13 8; MAcc 14 7; MAcc 15 6; MSave 21 7 15; MAcc 8 14; MAcc 9 13; MAcc 10 12;
   MAcc 11 11; MAcc 12 10; MAcc 13 9; MAcc 14 8; MAcc 15 7; MSave 22 8 15; MAcc 9 14; MAcc 10 13; MAcc 11 12; MAcc 12 11; MAcc 13 10; MAcc 14 9;
   MAcc 15 8; MSave 23 9 15; MAcc 10 14; MAcc 11 13; MAcc 12 12; MAcc 13 11; MAcc 14 10; MAcc 15 9; MSave 24 10 15; MAcc 11 14; MAcc 12 13; MAcc 13 12;
   MAcc 14 11; MAcc 15 10; MSave 25 11 15; MAcc 12 14; MAcc 13 13; MAcc 14 12; MAcc 15 11; MSave 26 12 15; MAcc 13 14; MAcc 14 13; MAcc 15 12;
   MSave 27 13 15; MAcc 14 14; MAcc 15 13; MSave 28 14 15; MAcc 15 14; MEnd 29 15]%nat.
(** integer.cpp:1051-1053. *)
Definition squ_2 : list sstep :=
  []%nat.
(** integer.cpp:1055-1061. *)
Definition squ_4 : list sstep :=
  [SSave 1 0 2; SDiag 1; SSave 2 0 3; SAcc 1 2; SNonDiag; SSave 3 1 3; SDiag 2; SSave 4 2 3; SNonDiag]%nat.
(** integer.cpp:1063-1077. *)
Definition squ_8 : list sstep :=
  [SSave 1 0 2; SDiag 1; SSave 2 0 3; SAcc 1 2; SNonDiag; SSave 3 0 4; SAcc 1 3; SDiag 2; SSave 4 0 5; SAcc 1 4; SAcc 2 3; SNonDiag; SSave 5 0 6;
   SAcc 1 5; SAcc 2 4; SDiag 3; SSave 6 0 7; SAcc 1 6; SAcc 2 5; SAcc 3 4; SNonDiag; SSave 7 1 7; SAcc 2 6; SAcc 3 5; SDiag 4; SSave 8 2 7; SAcc 3 6;
   SAcc 4 5; SNonDiag; SSave 9 3 7; SAcc 4 6; SDiag 5; SSave 10 4 7; SAcc 5 6; SNonDiag; SSave 11 5 7; SDiag 6; SSave 12 6 7; SNonDiag]%nat.
(** integer.cpp:1079-1109. *)
Definition squ_16 : list sstep :=
  [SSave 1 0 2; SDiag 1; SSave 2 0 3; SAcc 1 2; SNonDiag; SSave 3 0 4; SAcc 1 3; SDiag 2; SSave 4 0 5; SAcc 1 4; SAcc 2 3; SNonDiag; SSave 5 0 6;
   SAcc 1 5; SAcc 2 4; SDiag 3; SSave 6 0 7; SAcc 1 6; SAcc 2 5; SAcc 3 4; SNonDiag; SSave 7 0 8; SAcc 1 7; SAcc 2 6; SAcc 3 5; SDiag 4; SSave 8 0 9;
   SAcc 1 8; SAcc 2 7; SAcc 3 6; SAcc 4 5; SNonDiag; SSave 9 0 10; SAcc 1 9; SAcc 2 8; SAcc 3 7; SAcc 4 6; SDiag 5; SSave 10 0 11; SAcc 1 10; SAcc 2 9;
   SAcc 3 8; SAcc 4 7; SAcc 5 6; SNonDiag; SSave 11 0 12; SAcc 1 11; SAcc 2 10; SAcc 3 9; SAcc 4 8; SAcc 5 7; SDiag 6; SSave 12 0 13; SAcc 1 12;
   SAcc 2 11; SAcc 3 10; SAcc 4 9; SAcc 5 8; SAcc 6 7; SNonDiag; SSave 13 0 14; SAcc 1 13; SAcc 2 12; SAcc 3 11; SAcc 4 10; SAcc 5 9; SAcc 6 8; SDiag 7;
   SSave 14 0 15; SAcc 1 14; SAcc 2 13; SAcc 3 12; SAcc 4 11; SAcc 5 10; SAcc 6 9; SAcc 7 8; SNonDiag; SSave 15 1 15; SAcc 2 14; SAcc 3 13; SAcc 4 12;
   SAcc 5 11; SAcc 6 10; SAcc 7 9; SDiag 8; SSave 16 2 15; SAcc 3 14; SAcc 4 13; SAcc 5 12; SAcc 6 11; SAcc 7 10; SAcc 8 9; SNonDiag; SSave 17 3 15;
   SAcc 4 14; SAcc 5 13; SAcc 6 12; SAcc 7 11; SAcc 8 10; SDiag 9; SSave 18 4 15; SAcc 5 14; SAcc 6 13; SAcc 7 12; SAcc 8 11; SAcc 9 10; SNonDiag;
   SSave 19 5 15; SAcc 6 14; SAcc 7 13; SAcc 8 12; SAcc 9 11; SDiag 10; SSave 20 6 15; SAcc 7 14; SAcc 8 13; SAcc 9 12; SAcc 10 11; SNonDiag;
   SSave 21 7 15; SAcc 8 14; SAcc 9 13; SAcc 10 12; SDiag 11; SSave 22 8 15; SAcc 9 14; SAcc 10 13; SAcc 11 12; SNonDiag; SSave 23 9 15; SAcc 10 14;
   SAcc 11 13; SDiag 12; SSave 24 10 15; SAcc 11 14; SAcc 12 13; SNonDiag; SSave 25 11 15; SAcc 12 14; SDiag 13; SSave 26 12 15; SAcc 13 14; SNonDiag;
   SSave 27 13 15; SDiag 14; SSave 28 14 15; SNonDiag]%nat.
(** integer.cpp:1111-1114. *)
Definition bot_2 : list cstep :=
  [BSave 0 0 1; BAcc 1 0]%nat.
(** integer.cpp:1116-1121. *)
Definition bot_4 : list cstep :=
  [MSave 0 0 1; MAcc 1 0; MSave 1 2 0; MAcc 1 1; MAcc 0 2; BSave 2 0 3; BAcc 1 2; BAcc 2 1; BAcc 3 0]%nat.
(** integer.cpp:1123-1132. *)
Definition bot_8 : list cstep :=
  [MSave 0 0 1; MAcc 1 0; MSave 1 0 2; MAcc 1 1; MAcc 2 0; MSave 2 0 3; MAcc 1 2; MAcc 2 1; MAcc 3 0; MSave 3 0 4; MAcc 1 3; MAcc 2 2; MAcc 3 1;
   MAcc 4 0; MSave 4 0 5; MAcc 1 4; MAcc 2 3; MAcc 3 2; MAcc 4 1; MAcc 5 0; MSave 5 0 6; MAcc 1 5; MAcc 2 4; MAcc 3 3; MAcc 4 2; MAcc 5 1; MAcc 6 0;
   BSave 6 0 7; BAcc 1 6; BAcc 2 5; BAcc 3 4; BAcc 4 3; BAcc 5 2; BAcc 6 1; BAcc 7 0]%nat.
(** integer.cpp:1134-1151. *)
Definition bot_16 : list cstep :=
  [MSave 0 0 1; MAcc 1 0; MSave 1 0 2; MAcc 1 1; MAcc 2 0; MSave 2 0 3; MAcc 1 2; MAcc 2 1; MAcc 3 0; MSave 3 0 4; MAcc 1 3; MAcc 2 2; MAcc 3 1;
   MAcc 4 0; MSave 4 0 5; MAcc 1 4; MAcc 2 3; MAcc 3 2; MAcc 4 1; MAcc 5 0; MSave 5 0 6; MAcc 1 5; MAcc 2 4; MAcc 3 3; MAcc 4 2; MAcc 5 1; MAcc 6 0;
   MSave 6 0 7; MAcc 1 6; MAcc 2 5; MAcc 3 4; MAcc 4 3; MAcc 5 2; MAcc 6 1; MAcc 7 0; MSave 7 0 8; MAcc 1 7; MAcc 2 6; MAcc 3 5; MAcc 4 4; MAcc 5 3;
   MAcc 6 2; MAcc 7 1; MAcc 8 0; MSave 8 0 9; MAcc 1 8; MAcc 2 7; MAcc 3 6; MAcc 4 5; MAcc 5 4; MAcc 6 3; MAcc 7 2; MAcc 8 1; MAcc 9 0; MSave 9 0 10;
   MAcc 1 9; MAcc 2 8; MAcc 3 7; MAcc 4 6; MAcc 5 5; MAcc 6 4; MAcc 7 3; MAcc 8 2; MAcc 9 1; MAcc 10 0; MSave 10 0 11; MAcc 1 10; MAcc 2 9; MAcc 3 8;
   MAcc 4 7; MAcc 5 6; MAcc 6 5; MAcc 7 4; MAcc 8 3; MAcc 9 2; MAcc 10 1; MAcc 11 0; MSave 11 0 12; MAcc 1 11; MAcc 2 10; MAcc 3 9; MAcc 4 8; MAcc 5 7;
   MAcc 6 6; MAcc 7 5; MAcc 8 4; MAcc 9 3; MAcc 10 2; MAcc 11 1; MAcc 12 0; MSave 12 0 13; MAcc 1 12; MAcc 2 11; MAcc 3 10; MAcc 4 9; MAcc 5 8; MAcc 6 7;
   MAcc 7 6; MAcc 8 5; MAcc 9 4; MAcc 10 3; MAcc 11 2; MAcc 12 1; MAcc 13 0; MSave 13 0 14; MAcc 1 13; MAcc 2 12; MAcc 3 11; MAcc 4 10; MAcc 5 9;
   MAcc 6 8; MAcc 7 7; MAcc 8 6; MAcc 9 5; MAcc 10 4; MAcc 11 3; MAcc 12 2; MAcc 13 1; MAcc 14 0; BSave 14 0 15; BAcc 1 14; BAcc 2 13; BAcc 3 12;
   BAcc 4 11; BAcc 5 10; BAcc 6 9; BAcc 7 8; BAcc 8 7; BAcc 9 6; BAcc 10 5; BAcc 11 4; BAcc 12 3; BAcc 13 2; BAcc 14 1; BAcc 15 0]%nat.
(** integer.cpp:1385-1397. *)
Definition top_4 : list cstep :=
  [TAcc 1 1; TAcc 2 0; TSave0 0 3; MAcc 1 2; MAcc 2 1; MAcc 3 0; TSave1 1 3; MAcc 2 2; MAcc 3 1; MSave 0 2 3; MAcc 3 2; MEnd 1 3]%nat.
(** integer.cpp:1399-1415. *)
Definition top_8 : list cstep :=
  [TAcc 1 5; TAcc 2 4; TAcc 3 3; TAcc 4 2; TAcc 5 1; TAcc 6 0; TSave0 0 7; MAcc 1 6; MAcc 2 5; MAcc 3 4; MAcc 4 3; MAcc 5 2; MAcc 6 1; MAcc 7 0;
   TSave1 1 7; MAcc 2 6; MAcc 3 5; MAcc 4 4; MAcc 5 3; MAcc 6 2; MAcc 7 1; MSave 0 2 7; MAcc 3 6; MAcc 4 5; MAcc 5 4; MAcc 6 3; MAcc 7 2; MSave 1 3 7;
   MAcc 4 6; MAcc 5 5; MAcc 6 4; MAcc 7 3; MSave 2 4 7; MAcc 5 6; MAcc 6 5; MAcc 7 4; MSave 3 5 7; MAcc 6 6; MAcc 7 5; MSave 4 6 7; MAcc 7 6; MEnd 5 7]%nat.
(** integer.cpp:1444-1468. *)
Definition top_16 : list cstep :=
  [TAcc 1 13; TAcc 2 12; TAcc 3 11; TAcc 4 10; TAcc 5 9; TAcc 6 8; TAcc 7 7; TAcc 8 6; TAcc 9 5; TAcc 10 4; TAcc 11 3; TAcc 12 2; TAcc 13 1; TAcc 14 0;
   TSave0 0 15; MAcc 1 14; MAcc 2 13; MAcc 3 12; MAcc 4 11; MAcc 5 10; MAcc 6 9; MAcc 7 8; MAcc 8 7; MAcc 9 6; MAcc 10 5; MAcc 11 4; MAcc 12 3;
   MAcc 13 2; MAcc 14 1; MAcc 15 0; TSave1 1 15; MAcc 2 14; MAcc 3 13; MAcc 4 12; MAcc 5 11; MAcc 6 10; MAcc 7 9; MAcc 8 8; MAcc 9 7; MAcc 10 6;
   MAcc 11 5; MAcc 12 4; MAcc 13 3; MAcc 14 2; MAcc 15 1; MSave 0 2 15; MAcc 3 14; MAcc 4 13; MAcc 5 12; MAcc 6 11; MAcc 7 10; MAcc 8 9; MAcc 9 8;
   MAcc 10 7; MAcc 11 6; MAcc 12 5; MAcc 13 4; MAcc 14 3; MAcc 15 2; MSave 1 3 15; MAcc 4 14; MAcc 5 13; MAcc 6 12; MAcc 7 11; MAcc 8 10; MAcc 9 9;
   MAcc 10 8; MAcc 11 7; MAcc 12 6; MAcc 13 5; MAcc 14 4; MAcc 15 3; MSave 2 4 15; MAcc 5 14; MAcc 6 13; MAcc 7 12; MAcc 8 11; MAcc 9 10; MAcc 10 9;
   MAcc 11 8; MAcc 12 7; MAcc 13 6; MAcc 14 5; MAcc 15 4; MSave 3 5 15; MAcc 6 14; MAcc 7 13; MAcc 8 12; MAcc 9 11; MAcc 10 10; MAcc 11 9; MAcc 12 8;
   MAcc 13 7; MAcc 14 6; MAcc 15 5; MSave 4 6 15; MAcc 7 14; MAcc 8 13; MAcc 9 12; MAcc 10 11; MAcc 11 10; MAcc 12 9; MAcc 13 8; MAcc 14 7; MAcc 15 6;
   MSave 5 7 15; MAcc 8 14; MAcc 9 13; MAcc 10 12; MAcc 11 11; MAcc 12 10; MAcc 13 9; MAcc 14 8; MAcc 15 7; MSave 6 8 15; MAcc 9 14; MAcc 10 13;
   MAcc 11 12; MAcc 12 11; MAcc 13 10; MAcc 14 9; MAcc 15 8; MSave 7 9 15; MAcc 10 14; MAcc 11 13; MAcc 12 12; MAcc 13 11; MAcc 14 10; MAcc 15 9;
   MSave 8 10 15; MAcc 11 14; MAcc 12 13; MAcc 13 12; MAcc 14 11; MAcc 15 10; MSave 9 11 15; MAcc 12 14; MAcc 13 13; MAcc 14 12; MAcc 15 11;
   MSave 10 12 15; MAcc 13 14; MAcc 14 13; MAcc 15 12; MSave 11 13 15; MAcc 14 14; MAcc 15 13; MSave 12 14 15; MAcc 15 14; MEnd 13 15]%nat.

Section Words.
Variable w : Z.

(** The number of values of a word. *)
Definition base : Z := 2 ^ w.
(** Truncation to a word. *)
Definition wd (x : Z) : Z := x mod base.
(** The value of a C comparison. *)
Definition b2z (b : bool) : Z := if b then 1 else 0.
Definition at_ (l : list Z) (i : nat) : Z := nth i l 0.

(** integer.cpp:144-153, Compare on the low [n] words. *)
Fixpoint w_cmp (A B : list Z) (n : nat) : Z :=
  match n with
  | O => 0
  | S k => if at_ A k >? at_ B k then 1 else if at_ A k <? at_ B k then -1 else w_cmp A B k
  end.

(** integer.cpp:162-165, the carry loop of Increment. *)
Fixpoint inc_loop (A : list Z) : list Z * Z :=
  match A with
  | [] => ([], 1)
  | x :: r => let y := wd (x + 1) in if y =? 0 then let '(r', c) := inc_loop r in (y :: r', c) else (y :: r, 0)
  end.
(** integer.cpp:155-166, Increment; the array is not empty. *)
Definition w_inc (A : list Z) (b : Z) : list Z * Z :=
  match A with
  | [] => ([], 0)
  | t :: r => let s := wd (t + b) in if s >=? t then (s :: r, 0) else let '(r', c) := inc_loop r in (s :: r', c)
  end.

(** integer.cpp:175-178, the borrow loop of Decrement. *)
Fixpoint dec_loop (A : list Z) : list Z * Z :=
  match A with
  | [] => ([], 1)
  | x :: r => let y := wd (x - 1) in if x =? 0 then let '(r', c) := dec_loop r in (y :: r', c) else (y :: r, 0)
  end.
(** integer.cpp:168-179, Decrement; the array is not empty. *)
Definition w_dec (A : list Z) (b : Z) : list Z * Z :=
  match A with
  | [] => ([], 0)
  | t :: r => let s := wd (t - b) in if s <=? t then (s :: r, 0) else let '(r', c) := dec_loop r in (s :: r', c)
  end.

(** integer.cpp:181-186, TwosComplement. *)
Definition w_twos (A : list Z) : list Z := map (fun x => base - 1 - x) (fst (w_dec A 1)).

(** integer.cpp:188-199, AtomicInverseModPower2; the loop doubles [i] from 3 while [i] < WORD_BITS. *)
Fixpoint inv_loop (fuel : nat) (i R A : Z) : Z :=
  match fuel with O => R | S k => if i <? w then inv_loop k (i * 2) (wd (R * wd (2 - wd (R * A)))) A else R end.
Definition atomic_inverse (A : Z) : Z := inv_loop (Z.to_nat w) 3 (A mod 8) A.

(** integer.cpp:240 and 935-949, AddWithCarry and Baseline_Add: the sum and the carry out. *)
Fixpoint add_loop (u1 : Z) (A B : list Z) : list Z * Z :=
  match A, B with
  | a :: A', b :: B' =>
      let t := wd (a + b) in
      let u0 := wd (t + u1) in
      let '(C, c) := add_loop (b2z (t <? a) + b2z (u0 <? t)) A' B' in
      (u0 :: C, c)
  | _, _ => ([], u1)
  end.
Definition w_add (A B : list Z) : list Z * Z := add_loop 0 A B.

(** integer.cpp:241 and 951-965, SubtractWithBorrow and Baseline_Sub: the difference and the borrow out. *)
Fixpoint sub_loop (u1 : Z) (A B : list Z) : list Z * Z :=
  match A, B with
  | a :: A', b :: B' =>
      let t := wd (a - b) in
      let u0 := wd (t - u1) in
      let '(C, c) := sub_loop (b2z (t >? a) + b2z (u0 >? t)) A' B' in
      (u0 :: C, c)
  | _, _ => ([], u1)
  end.
Definition w_sub (A B : list Z) : list Z * Z := sub_loop 0 A B.

(** integer.cpp:205 and 269, Add2WordsBy1 and Acc2WordsBy1: the two-word sum [(d1, d0) + x]. *)
Definition acc2by1 (d0 d1 x : Z) : Z * Z := let a0 := wd (d0 + x) in (a0, wd (d1 + b2z (a0 <? x))).
(** integer.cpp:238, Acc2WordsBy2. *)
Definition acc2by2 (a0 a1 b0 b1 : Z) : Z * Z := let a0' := wd (a0 + b0) in (a0', wd (wd (a1 + b2z (a0' <? b0)) + b1)).
(** integer.cpp:233, MultiplyWords: low and high words of the product. *)
Definition mulwords (a b : Z) : Z * Z := (wd (a * b), (a * b) / base).
(** integer.cpp:266, MulAcc. *)
Definition mulacc (c d0 d1 a b : Z) : Z * Z * Z :=
  let '(p0, p1) := mulwords a b in
  let '(p0, p1) := acc2by1 p0 p1 c in
  let '(d0, d1) := acc2by1 d0 d1 p1 in
  (p0, d0, d1).
(** integer.cpp:235, Double3Words. *)
Definition double3 (c d0 d1 : Z) : Z * Z * Z :=
  (wd (c * 2), wd (2 * d0 + Z.shiftr c (w - 1)), wd (2 * d1 + Z.shiftr d0 (w - 1))).
(** integer.cpp:272, Acc3WordsBy2: (c, e) after accumulating. *)
Definition acc3by2 (c d0 d1 e0 e1 : Z) : Z * Z * Z :=
  let '(e0, e1) := acc2by1 e0 e1 c in
  let c := e0 in
  let '(e0, e1) := acc2by1 d0 d1 e1 in
  (c, e0, e1).

(** integer.cpp:968-984, LinearMultiply. *)
Fixpoint lin_loop (carry : Z) (A : list Z) (B : Z) : list Z * Z :=
  match A with
  | [] => ([], carry)
  | a :: A' => let '(p0, p1) := mulwords a B in
               let '(p0, p1) := acc2by1 p0 p1 carry in
               let '(C, c) := lin_loop p1 A' B in (p0 :: C, c)
  end.
Definition linear_multiply (A : list Z) (B : Z) : list Z * Z := lin_loop 0 A B.

(** The accumulators of a column multiplication: R, c, d0, d1. *)
Definition cstate : Type := list Z * Z * Z * Z.
(** integer.cpp:1189-1219 and 1365-1373; [L] is the top word of the lower half (Top_SaveAcc1 only). *)
Definition cexec (A B : list Z) (L : Z) (s : cstate) (i : cstep) : cstate :=
  let '(R, c, d0, d1) := s in
  match i with
  | MAcc i j => let '(c, d0, d1) := mulacc c d0 d1 (at_ A i) (at_ B j) in (R, c, d0, d1)
  | MSave k i j => let '(c', d0', d1') := mulacc d0 d1 0 (at_ A i) (at_ B j) in (upd k c R, c', d0', d1')
  | MEnd k i => let '(p0, p1) := mulwords (at_ A i) (at_ B i) in
                let '(p0, p1) := acc2by2 p0 p1 d0 d1 in
                (upd (k + 2) p1 (upd (k + 1) p0 (upd k c R)), c, d0, d1)
  | BSave k i j => (upd k c R, wd (d0 + at_ A i * at_ B j), d0, d1)
  | BAcc i j => (R, wd (c + at_ A i * at_ B j), d0, d1)
  | TAcc i j => let '(p0, p1) := mulwords (at_ A i) (at_ B j) in
                let '(d0, d1) := acc2by1 d0 d1 p1 in (R, c, d0, d1)
  | TSave0 i j => let '(c', d0', d1') := mulacc d0 d1 0 (at_ A i) (at_ B j) in (R, c', d0', d1')
  | TSave1 i j => let '(d0, d1) := acc2by1 d0 d1 (b2z (L <? c)) in
                  let '(c', d0', d1') := mulacc d0 d1 0 (at_ A i) (at_ B j) in (R, c', d0', d1')
  end.
Definition cR (s : cstate) : list Z := fst (fst (fst s)).
Definition cc (s : cstate) : Z := snd (fst (fst s)).

(** integer.cpp:1181-1187, Mul_Begin. *)
Definition mul_begin (n : nat) (A B : list Z) : cstate := let '(p0, p1) := mulwords (at_ A 0) (at_ B 0) in (repeat 0 n, p0, p1, 0).
(** integer.cpp:1270-1295 and 1418-1425, Baseline_Multiply2/4/8/16. *)
Definition run_mul (n : nat) (l : list cstep) (A B : list Z) : list Z := cR (fold_left (cexec A B 0) l (mul_begin (2 * n) A B)).
(** integer.cpp:1218 (Bot_End), 1321-1351 and 1435-1442, Baseline_MultiplyBottom2/4/8/16. *)
Definition run_bot (n : nat) (l : list cstep) (A B : list Z) : list Z :=
  let s := fold_left (cexec A B 0) l (mul_begin n A B) in upd (n - 1) (cc s) (cR s).
(** integer.cpp:1353-1358 (Top_Begin), 1385-1414 and 1444-1466, Baseline_MultiplyTop4/8/16. *)
Definition run_top (n : nat) (l : list cstep) (A B : list Z) (L : Z) : list Z :=
  let '(p0, p1) := mulwords (at_ A 0) (at_ B (n - 2)) in cR (fold_left (cexec A B L) l (repeat 0 n, 0, p1, 0)).

(** The accumulators of a squaring: R, c, d0, d1, e0, e1. *)
Definition qstate : Type := list Z * Z * Z * Z * Z * Z.
(** integer.cpp:1236-1255. *)
Definition sexec (A : list Z) (s : qstate) (i : sstep) : qstate :=
  let '(R, c, d0, d1, e0, e1) := s in
  match i with
  | SSave k i j => let '(c, e0, e1) := acc3by2 c d0 d1 e0 e1 in
                   let '(p0, p1) := mulwords (at_ A i) (at_ A j) in (upd k c R, p0, p1, 0, e0, e1)
  | SAcc i j => let '(c, d0, d1) := mulacc c d0 d1 (at_ A i) (at_ A j) in (R, c, d0, d1, e0, e1)
  | SDiag i => let '(c, d0, d1) := double3 c d0 d1 in
               let '(c, d0, d1) := mulacc c d0 d1 (at_ A i) (at_ A i) in (R, c, d0, d1, e0, e1)
  | SNonDiag => let '(c, d0, d1) := double3 c d0 d1 in (R, c, d0, d1, e0, e1)
  end.
(** integer.cpp:1221-1234 (Squ_Begin), 1257-1264 (Squ_End), 1297-1319 and 1427-1433, Baseline_Square2/4/8/16. *)
Definition run_squ (n : nat) (l : list sstep) (A : list Z) : list Z :=
  let '(p0, p1) := mulwords (at_ A 0) (at_ A 0) in
  let R := upd 0 p0 (repeat 0 (2 * n)) in
  let e0 := p1 in
  let '(p0, p1) := mulwords (at_ A 0) (at_ A 1) in
  let '(c, d0, d1) := double3 p0 p1 0 in
  let '(R, c, d0, d1, e0, e1) := fold_left (sexec A) l (R, c, d0, d1, e0, 0) in
  let '(c, e0, e1) := acc3by2 c d0 d1 e0 e1 in
  let R := upd (2 * n - 3) c R in
  let '(p0, p1) := mulwords (at_ A (n - 1)) (at_ A (n - 1)) in
  let '(p0, p1) := acc2by2 p0 p1 e0 e1 in
  upd (2 * n - 1) p1 (upd (2 * n - 2) p0 R).

(** integer.cpp:2161 and 2167-2227, s_recursionLimit and the tables indexed by N/4 without SSE2; an entry that is not set is a null
    pointer, for which the empty array stands. *)
Definition p_mul (i : nat) (A B : list Z) : list Z :=
  match i with 0 => run_mul 2 mul_2 A B | 1 => run_mul 4 mul_4 A B | 2 => run_mul 8 mul_8 A B | 4 => run_mul 16 mul_16 A B | _ => [] end%nat.
Definition p_squ (i : nat) (A : list Z) : list Z :=
  match i with 0 => run_squ 2 squ_2 A | 1 => run_squ 4 squ_4 A | 2 => run_squ 8 squ_8 A | 4 => run_squ 16 squ_16 A | _ => [] end%nat.
Definition p_bot (i : nat) (A B : list Z) : list Z :=
  match i with 0 => run_bot 2 bot_2 A B | 1 => run_bot 4 bot_4 A B | 2 => run_bot 8 bot_8 A B | 4 => run_bot 16 bot_16 A B | _ => [] end%nat.
(** integer.cpp:1376-1383 for the first entry, Baseline_MultiplyTop2. *)
Definition p_top (i : nat) (A B : list Z) (L : Z) : list Z :=
  match i with 0 => skipn 2 (run_mul 2 mul_2 A B) | 1 => run_top 4 top_4 A B L | 2 => run_top 8 top_8 A B L | 4 => run_top 16 top_16 A B L | _ => [] end%nat.

Definition lo (n : nat) (l : list Z) : list Z := firstn n l.
Definition hi (n : nat) (l : list Z) : list Z := skipn n l.

(** integer.cpp:2279-2283 and 2370-2374: |X0 - X1| and whether X0 > X1 (the source's offset is 0 then, and N2 otherwise). *)
Definition abs_diff (n2 : nat) (X : list Z) : list Z * bool :=
  let first := w_cmp (lo n2 X) (hi n2 X) n2 >? 0 in
  (fst (if first then w_sub (lo n2 X) (hi n2 X) else w_sub (hi n2 X) (lo n2 X)), first).

(** integer.cpp:2270-2305, RecursiveMultiply. [fuel] bounds the recursion depth; the empty array when it runs out. *)
Fixpoint rec_mul (fuel : nat) (A B : list Z) : list Z :=
  let N := length A in
  if (N <=? 16)%nat then p_mul (N / 4) A B
  else match fuel with
  | O => []
  | S f =>
    let n2 := (N / 2)%nat in
    let '(r0, an2) := abs_diff n2 A in
    let '(r1, bn2) := abs_diff n2 B in
    let r23 := rec_mul f (hi n2 A) (hi n2 B) in
    let t := rec_mul f r0 r1 in
    let r01 := rec_mul f (lo n2 A) (lo n2 B) in
    let r0 := lo n2 r01 in let r1 := hi n2 r01 in
    let r2 := lo n2 r23 in let r3 := hi n2 r23 in
    let '(r2, c2) := w_add r2 r1 in
    let c3 := c2 in
    let '(r1, k) := w_add r2 r0 in
    let c2 := c2 + k in
    let '(r2, k) := w_add r2 r3 in
    let c3 := c3 + k in
    let '(r12, c3) := if Bool.eqb an2 bn2
                      then let '(x, k) := w_sub (r1 ++ r2) t in (x, c3 - k)
                      else let '(x, k) := w_add (r1 ++ r2) t in (x, c3 + k) in
    let r1 := lo n2 r12 in let r2 := hi n2 r12 in
    let '(r2, k) := w_inc r2 (wd c2) in
    let c3 := c3 + k in
    r0 ++ r1 ++ r2 ++ fst (w_inc r3 (wd c3))
  end.
(** The depth never exceeds the number of words. *)
Definition w_mul (A B : list Z) : list Z := rec_mul (length A) A B.

(** integer.cpp:2312-2329, RecursiveSquare. *)
Fixpoint rec_squ (fuel : nat) (A : list Z) : list Z :=
  let N := length A in
  if (N <=? 16)%nat then p_squ (N / 4) A
  else match fuel with
  | O => []
  | S f =>
    let n2 := (N / 2)%nat in
    let r01 := rec_squ f (lo n2 A) in
    let r23 := rec_squ f (hi n2 A) in
    let t := rec_mul f (lo n2 A) (hi n2 A) in
    let '(r12, c1) := w_add (hi n2 r01 ++ lo n2 r23) t in
    let '(r12, c2) := w_add r12 t in
    lo n2 r01 ++ r12 ++ fst (w_inc (hi n2 r23) (wd (c1 + c2)))
  end.
Definition w_squ (A : list Z) : list Z := rec_squ (length A) A.

(** integer.cpp:2337-2353, RecursiveMultiplyBottom. *)
Fixpoint rec_bot (fuel : nat) (A B : list Z) : list Z :=
  let N := length A in
  if (N <=? 16)%nat then p_bot (N / 4) A B
  else match fuel with
  | O => []
  | S f =>
    let n2 := (N / 2)%nat in
    let r := rec_mul f (lo n2 A) (lo n2 B) in
    let r1 := fst (w_add (hi n2 r) (rec_bot f (hi n2 A) (lo n2 B))) in
    let r1 := fst (w_add r1 (rec_bot f (lo n2 A) (hi n2 B))) in
    lo n2 r ++ r1
  end.
Definition w_bot (A B : list Z) : list Z := rec_bot (length A) A B.

(** integer.cpp:2361-2408, MultiplyTop. *)
Definition w_top (L A B : list Z) : list Z :=
  let N := length A in
  if (N <=? 16)%nat then p_top (N / 4) A B (at_ L (N - 1))
  else
    let n2 := (N / 2)%nat in
    let '(r0, an2) := abs_diff n2 A in
    let '(r1, bn2) := abs_diff n2 B in
    let t := w_mul r0 r1 in
    let r := w_mul (hi n2 A) (hi n2 B) in
    let t0 := lo n2 t in let t1 := hi n2 t in
    let r0 := lo n2 r in let r1 := hi n2 r in
    let '(t2, c2) := w_sub (hi n2 L) (lo n2 L) in
    let '(t2, c2, c3, c) :=
      if Bool.eqb an2 bn2
      then let '(t2, k) := w_add t2 t0 in
           let c := b2z (w_cmp t2 r0 n2 =? -1) in
           let '(t2, k') := w_sub t2 t1 in (t2, c2 - k, c - k', c)
      else let '(t2, k) := w_sub t2 t0 in
           let c := b2z (w_cmp t2 r0 n2 =? -1) in
           let '(t2, k') := w_add t2 t1 in (t2, c2 + k, c + k', c) in
    let c2 := c2 + c in
    let '(t2, c3) := if c2 >=? 0 then let '(t2, k) := w_inc t2 (wd c2) in (t2, c3 + k)
                     else let '(t2, k) := w_dec t2 (wd (- c2)) in (t2, c3 - k) in
    let '(r0, k) := w_add t2 r1 in
    r0 ++ fst (w_inc r1 (wd (c3 + k))).

(** Store [x] at offset [k] of an array (a pointer into it passed as output). *)
Definition put (k : nat) (x R : list Z) : list Z := firstn k R ++ x ++ skipn (k + length x) R.
(** [n] words at offset [k]. *)
Definition sub_ (k n : nat) (A : list Z) : list Z := firstn n (skipn k A).

(** integer.cpp:2461-2462 and similar: for (i = from; i < NB; i += 2*NA) Multiply(X+off+i, T, A, B+i, NA). *)
Fixpoint mul_every (fuel i NB off : nat) (A B X : list Z) : list Z :=
  match fuel with
  | O => X
  | S f => if (i <? NB)%nat
           then mul_every f (i + 2 * length A) NB off A B (put (off + i) (w_mul A (sub_ i (length A) B)) X)
           else X
  end.
(** integer.cpp:2430-2481, AsymmetricMultiply; [same] tells whether the two pointers are equal. R and T start with arbitrary
    contents in the source; they are zero here. The scratch use of T[0..2*NA) by Multiply is not represented. *)
Definition w_asym (same : bool) (A B : list Z) : list Z :=
  if (length A =? length B)%nat then if same then w_squ A else w_mul A B
  else
    let '(A, B) := if (length B <? length A)%nat then (B, A) else (A, B) in
    let NA := length A in let NB := length B in
    if (NA =? 2)%nat && (at_ A 1 =? 0) then
      if at_ A 0 =? 0 then repeat 0 (NB + 2)
      else if at_ A 0 =? 1 then B ++ [0; 0]
      else let '(C, c) := linear_multiply B (at_ A 0) in C ++ [c; 0]
    else
      let R := repeat 0 (NA + NB) in let T := repeat 0 (NA + NB) in
      let '(R, T) :=
        if (Nat.even (NB / NA))
        then let R := put 0 (w_mul A (sub_ 0 NA B)) R in
             let T := put (2 * NA) (sub_ NA NA R) T in
             let T := mul_every NB (2 * NA) NB NA A B T in
             (mul_every NB NA NB 0 A B R, T)
        else (mul_every NB 0 NB 0 A B R, mul_every NB NA NB NA A B T) in
      let '(s, c) := w_add (sub_ NA (NB - NA) R) (sub_ (2 * NA) (NB - NA) T) in
      let R := put NA s R in
      if c =? 0 then R else put NB (fst (w_inc (sub_ NB NA R) 1)) R.

(** integer.cpp:2497-2521, RecursiveInverseModPower2. *)
Fixpoint rec_inv (fuel : nat) (A : list Z) : list Z :=
  let N := length A in
  if (N =? 2)%nat then
    let T := [atomic_inverse (at_ A 0); 0] in
    let t2 := p_bot 0 T A in
    let t2 := w_twos t2 in
    let t2 := fst (w_inc t2 2) in
    p_bot 0 T t2
  else match fuel with
  | O => []
  | S f =>
    let n2 := (N / 2)%nat in
    let r0 := rec_inv f (lo n2 A) in
    let t0 := 1 :: repeat 0 (n2 - 1) in
    let r1 := w_top t0 r0 (lo n2 A) in
    let t0 := w_bot r0 (hi n2 A) in
    let t0 := fst (w_add r1 t0) in
    let t0 := w_twos t0 in
    r0 ++ w_bot r0 t0
  end.
Definition w_inv (A : list Z) : list Z := rec_inv (length A) A.

(** integer.cpp:2529-2542, MontgomeryReduce; X has twice the words of M. *)
Definition mont_reduce (X M U : list Z) : list Z :=
  let N := length M in
  let R := w_bot (lo N X) U in
  let T := w_top (lo N X) R M in
  let '(T, borrow) := w_sub (hi N X) T in
  let '(T', carry) := w_add T M in
  if borrow =? 0 then T else T'.

(** words.h:150-162, ShiftWordsLeftByBits. *)
Fixpoint shl_loop (carry s : Z) (r : list Z) : list Z * Z :=
  match r with
  | [] => ([], carry)
  | u :: r' => let '(x, c) := shl_loop (Z.shiftr u (w - s)) s r' in (Z.lor (wd (Z.shiftl u s)) carry :: x, c)
  end.
Definition shl_bits (r : list Z) (s : Z) : list Z * Z := if s =? 0 then (r, 0) else shl_loop 0 s r.
(** words.h:173-185, ShiftWordsRightByBits (from the top word down). *)
Fixpoint shr_loop (s : Z) (r : list Z) : list Z * Z :=
  match r with
  | [] => ([], 0)
  | u :: r' => let '(x, carry) := shr_loop s r' in (Z.lor (Z.shiftr u s) carry :: x, wd (Z.shiftl u (w - s)))
  end.
Definition shr_bits (r : list Z) (s : Z) : list Z := if s =? 0 then r else fst (shr_loop s r).
(** words.h:196-205, ShiftWordsLeftByWords on the low [n] words. *)
Definition shl_words (r : list Z) (n k : nat) : list Z := let k := Nat.min k n in repeat 0 k ++ firstn (n - k) r ++ skipn n r.
(** words.h:215-224, ShiftWordsRightByWords on the low [n] words. *)
Definition shr_words (r : list Z) (n k : nat) : list Z := let k := Nat.min k n in sub_ k (n - k) r ++ repeat 0 k ++ skipn n r.

(** words.h:21-26, CountWords. *)
Fixpoint count_words (X : list Z) (n : nat) : nat :=
  match n with O => O | S k => if at_ X k =? 0 then count_words X k else n end.
(** integer.cpp:2830-2835, EvenWordCount. *)
Fixpoint even_word_count (fuel : nat) (X : list Z) (n : nat) : nat :=
  match fuel with
  | O => n
  | S f => if (0 <? n)%nat && (at_ X (n - 2) =? 0) && (at_ X (n - 1) =? 0) then even_word_count f X (n - 2) else n
  end.

(** A double word difference and its halves; the high half of a DWord used as a borrow. integer.cpp:362-376, 407-409. *)
Definition dw (x : Z) : Z := x mod (base * base).
Definition lowh (x : Z) : Z := x mod base.
Definition highh (x : Z) : Z := x / base.
Definition as_borrow (x : Z) : Z := wd (0 - highh x).

(** integer.cpp:503-512, the correction loop of DivideThreeWordsByTwo. None: more iterations than [fuel]. *)
Fixpoint d32_fix (fuel : nat) (a0 a1 a2 B0 B1 Q : Z) : option (Z * Z * Z * Z) :=
  if negb (a2 =? 0) || (a1 >? B1) || ((a1 =? B1) && (a0 >=? B0))
  then match fuel with
       | O => None
       | S f => let u := dw (a0 - B0) in
                let a0' := lowh u in
                let u := dw (dw (a1 - B1) - as_borrow u) in
                d32_fix f a0' (lowh u) (wd (a2 + highh u)) B0 B1 (wd (Q + 1))
       end
  else Some (a0, a1, a2, Q).
(** integer.cpp:475-515, DivideThreeWordsByTwo: the three words left in A, and the quotient. *)
Definition d32 (fuel : nat) (a0 a1 a2 B0 B1 : Z) : option (Z * Z * Z * Z) :=
  let pre := wd (B1 + 1) =? 0 in
  let Q := if (B1 >? 0) && negb pre then wd ((a2 * base + a1) / wd (B1 + 1))
           else if pre then a2
           else wd ((a1 * base + a0) / B0) in
  let p := B0 * Q in
  let u := dw (a0 - lowh p) in
  let a0 := lowh u in
  let u := dw (dw (dw (a1 - highh p) - as_borrow u) - B1 * Q) in
  d32_fix fuel a0 (lowh u) (wd (a2 + highh u)) B0 B1 Q.
(** integer.cpp:518-539 and 2730-2748, DivideFourWordsByTwo and AtomicDivide: the two-word quotient of A[0..4) by B[0..2). *)
Definition atomic_divide (fuel : nat) (A B : list Z) : option (Z * Z) :=
  if (at_ B 0 =? 0) && (at_ B 1 =? 0) then Some (at_ A 2, at_ A 3)
  else match d32 fuel (at_ A 1) (at_ A 2) (at_ A 3) (at_ B 0) (at_ B 1) with
  | None => None
  | Some (t1, t2, _, Q1) =>
    match d32 fuel (at_ A 0) t1 t2 (at_ B 0) (at_ B 1) with None => None | Some (_, _, _, Q0) => Some (Q0, Q1) end
  end.

(** integer.cpp:2760-2766, the loop of CorrectQuotientEstimate; R has one word more than B. *)
Fixpoint correct_loop (fuel : nat) (R B : list Z) (q0 q1 : Z) : option (list Z * Z * Z) :=
  let N := length B in
  if negb (at_ R N =? 0) || (w_cmp R B N >=? 0)
  then match fuel with
       | O => None
       | S f => let '(x, k) := w_sub (lo N R) B in
                let R := upd N (wd (at_ R N - k)) (x ++ hi N R) in
                let q0 := wd (q0 + 1) in
                correct_loop f R B q0 (wd (q1 + b2z (q0 =? 0)))
       end
  else Some (R, q0, q1).
(** integer.cpp:2751-2767, CorrectQuotientEstimate; R has two words more than B. *)
Definition correct_estimate (fuel : nat) (R B : list Z) (q0 q1 : Z) : option (list Z * Z * Z) :=
  let T := w_asym false [q0; q1] B in
  let '(R, borrow) := w_sub R T in
  correct_loop fuel R B q0 q1.

(** integer.cpp:2804-2808, the first quotient digit of Divide. [TA] has NA+2 words. *)
Fixpoint first_loop (fuel : nat) (TA TB : list Z) (NA : nat) (q : Z) : option (list Z * Z) :=
  let NB := length TB in
  let top := sub_ (NA - NB) NB TA in
  if negb (at_ TA NA =? 0) || (w_cmp top TB NB >=? 0)
  then match fuel with
       | O => None
       | S f => let '(x, k) := w_sub top TB in
                first_loop f (upd NA (wd (at_ TA NA - k)) (put (NA - NB) x TA)) TB NA (wd (q + 1))
       end
  else Some (TA, q).
(** integer.cpp:2817-2822, reducing TA two words at a time; i counts down to NB. *)
Fixpoint div_loop (fuel k i : nat) (TA TB BT Q : list Z) : option (list Z * list Z) :=
  let NB := length TB in
  match k with
  | O => Some (TA, Q)
  | S k' =>
    if (NB <=? i)%nat then
      match atomic_divide fuel (sub_ (i - 2) 4 TA) BT with
      | None => None
      | Some (q0, q1) =>
        match correct_estimate fuel (sub_ (i - NB) (NB + 2) TA) TB q0 q1 with
        | None => None
        | Some (R, q0, q1) => div_loop fuel k' (i - 2) (put (i - NB) R TA) TB BT (put (i - NB) [q0; q1] Q)
        end
      end
    else Some (TA, Q)
  end.
(** integer.cpp:2775-2828, Divide: remainder (NB words) and quotient (NA-NB+2 words). The quotient array starts at zero, as the callers
    pass it. [fuel] bounds each correction loop. *)
Definition w_divide (fuel : nat) (A B : list Z) : option (list Z * list Z) :=
  let NA := length A in let NB := length B in
  let shiftWords := if at_ B (NB - 1) =? 0 then 1%nat else 0%nat in
  let TB := repeat 0 shiftWords ++ firstn (NB - shiftWords) B in
  let shiftBits := w - bit_precision w (at_ TB (NB - 1)) in
  let TB := fst (shl_bits TB shiftBits) in
  let TA := put shiftWords A (repeat 0 (NA + 2)) in
  let TA := fst (shl_bits TA shiftBits) in
  let Q := repeat 0 (NA - NB + 2) in
  let start :=
    if (at_ TA (NA + 1) =? 0) && (at_ TA NA <=? 1)
    then match first_loop fuel TA TB NA 0 with None => None | Some (TA, q) => Some (TA, upd (NA - NB) q Q, NA) end
    else Some (TA, Q, NA + 2)%nat in
  match start with
  | None => None
  | Some (TA, Q, NA) =>
    let bt0 := wd (at_ TB (NB - 2) + 1) in
    let BT := [bt0; wd (at_ TB (NB - 1) + b2z (bt0 =? 0))] in
    match div_loop fuel NA (NA - 2) TA TB BT Q with
    | None => None
    | Some (TA, Q) => Some (shr_bits (sub_ shiftWords NB TA) shiftBits, Q)
    end
  end.

(** integer.cpp:2918-2934, DivideByPower2Mod. *)
Fixpoint div_pow2_mod (k : nat) (R M : list Z) : list Z :=
  match k with
  | O => R
  | S j =>
    let N := length R in
    if at_ R 0 mod 2 =? 0 then div_pow2_mod j (shr_bits R 1) M
    else let '(R, carry) := w_add R M in
         let R := shr_bits R 1 in
         div_pow2_mod j (upd (N - 1) (wd (at_ R (N - 1) + wd (Z.shiftl carry (w - 1)))) R) M
  end.
(** integer.cpp:2939-2946, MultiplyByPower2Mod. *)
Fixpoint mul_pow2_mod (k : nat) (R M : list Z) : list Z :=
  match k with
  | O => R
  | S j =>
    let '(R, c) := shl_bits R 1 in
    let R := if negb (c =? 0) || (w_cmp R M (length R) >=? 0) then fst (w_sub R M) else R in
    mul_pow2_mod j R M
  end.
(** misc.h:1072-1119, TrailingZeros of a non-zero word (the builtin, bit scan or table all count trailing zero bits). *)
Fixpoint tz_loop (fuel : nat) (v : Z) : Z :=
  match fuel with O => 0 | S f => if v mod 2 =? 0 then 1 + tz_loop f (v / 2) else 0 end.
Definition trailing_zeros (v : Z) : Z := tz_loop (Z.to_nat w) v.

(** integer.cpp:2864-2879, while (!t). [Some None]: f is zero, there is no inverse; [None]: out of fuel. *)
Fixpoint ai_words (fuel : nat) (f c : list Z) (fgLen bcLen : nat) (k : Z) : option (option (list Z * list Z * nat * Z)) :=
  if at_ f 0 =? 0 then
    if (even_word_count fgLen f fgLen =? 0)%nat then Some None
    else match fuel with
    | O => None
    | S n => let f := shr_words f fgLen 1 in
             let bcLen := if at_ c (bcLen - 1) =? 0 then bcLen else (bcLen + 2)%nat in
             ai_words n f (shl_words c bcLen 1) fgLen bcLen (k + w)
    end
  else Some (Some (f, c, bcLen, k)).
(** integer.cpp:2861-2911, the main loop; None: out of fuel. The array [c] has N words, a store past its end (which only ever adds zero) is dropped. *)
Fixpoint ai_loop (fuel : nat) (M b c f g : list Z) (bcLen fgLen : nat) (k : Z) (s : bool) : option (list Z * Z) :=
  match fuel with
  | O => None
  | S n =>
    match ai_words fgLen f c fgLen bcLen k with
    | None => None
    | Some None => Some (repeat 0 (length M), 0)
    | Some (Some (f, c, bcLen, k)) =>
      let i := trailing_zeros (at_ f 0) in
      let t := Z.shiftr (at_ f 0) i in
      let k := k + i in
      if (t =? 1) && (at_ f 1 =? 0) && (even_word_count fgLen (skipn 2 f) (fgLen - 2) =? 0)%nat
      then Some (if s then fst (w_sub M b) else b, k)
      else
        let f := shr_bits (firstn fgLen f) i ++ skipn fgLen f in
        let '(x, t) := shl_bits (firstn bcLen c) i in
        let c := x ++ skipn bcLen c in
        let c := upd bcLen (wd (at_ c bcLen + t)) c in
        let bcLen := if t =? 0 then bcLen else (bcLen + 2)%nat in
        let swap := w_cmp f g fgLen =? -1 in
        let '(f, g) := if swap then (g, f) else (f, g) in
        let '(b, c) := if swap then (c, b) else (b, c) in
        let s := xorb s swap in
        let fgLen := if Z.lor (at_ f (fgLen - 2)) (at_ f (fgLen - 1)) =? 0 then (fgLen - 2)%nat else fgLen in
        let f := fst (w_sub (firstn fgLen f) (firstn fgLen g)) ++ skipn fgLen f in
        let '(x, t) := w_add (firstn bcLen b) (firstn bcLen c) in
        let b := x ++ skipn bcLen b in
        let b := upd bcLen (wd (at_ b bcLen + t)) b in
        let bcLen := if t =? 0 then bcLen else (bcLen + 2)%nat in
        ai_loop n M b c f g bcLen fgLen k s
    end
  end.
(** integer.cpp:2843-2912, AlmostInverse. *)
Definition almost_inverse (A M : list Z) : option (list Z * Z) :=
  let N := length M in
  ai_loop (2 * N * Z.to_nat w + 2) M (1 :: repeat 0 (N - 1)) (repeat 0 N) (A ++ repeat 0 (N - length A)) M 2 (even_word_count N M N) 0 false.
End Words.
