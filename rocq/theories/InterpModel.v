(** Bulk interpolation: the three templates at the end of polynomi.cpp, over any ring with inverses. *)
From Coq Require Import ZArith List Arith.
From Verif Require Import Base Gf32Model.
Import ListNotations.

Section Ring.
  Variable F : Type.
  Variables (zero one : F) (add sub mul : F -> F -> F) (inv : F -> F).
  Definition at_ (l : list F) (i : nat) : F := nth i l zero.
  (** array update; an index past the end leaves the list as it is *)
  Fixpoint put_ (l : list F) (i : nat) (v : F) : list F :=
    match l, i with
    | [], _ => []
    | _ :: r, O => v :: r
    | a :: r, S k => a :: put_ r k v
    end.
  (** polynomi.cpp:514-525, PrepareBulkPolynomialInterpolation *)
  Definition prep_w (x : list F) (n : nat) : list F :=
    map (fun i => inv (fold_left (fun t j => if Nat.eqb i j then t else mul t (sub (at_ x i) (at_ x j))) (seq 0 n) one)) (seq 0 n).
  (** polynomi.cpp:535-536: the leaves a[n-1 .. 2n-2]; the first n-1 entries of the new vector are zero *)
  Definition prep_leaves (pos : F) (x : list F) (n : nat) : list F := repeat zero (n - 1) ++ map (fun i => sub pos (at_ x i)) (seq 0 n).
  (** polynomi.cpp:538-539: for (i=n-1; i>1; i--); [k] is i - 1 *)
  Fixpoint prep_up (k : nat) (a : list F) : list F :=
    match k with
    | O => a
    | S j => prep_up j (put_ a k (mul (at_ a (2 * (k + 1))) (at_ a (2 * (k + 1) - 1))))
    end.
  (** polynomi.cpp:543-548, one turn of the loop: swap and multiply *)
  Definition prep_down1 (a : list F) (i : nat) : list F :=
    let l := at_ a (2 * i + 1) in let r := at_ a (2 * i + 2) in
    let a := put_ (put_ a (2 * i + 1) r) (2 * i + 2) l in
    let a := put_ a (2 * i + 1) (mul (at_ a i) (at_ a (2 * i + 1))) in
    put_ a (2 * i + 2) (mul (at_ a i) (at_ a (2 * i + 2))).
  (** polynomi.cpp:527-552, PrepareBulkPolynomialInterpolationAt *)
  Definition prep_at (pos : F) (x w : list F) (n : nat) : list F :=
    let a := put_ (prep_up (n - 2) (prep_leaves pos x n)) 0 one in
    let a := fold_left prep_down1 (seq 0 (n - 1)) a in
    map (fun i => mul (at_ a (n - 1 + i)) (at_ w i)) (seq 0 n).
  (** polynomi.cpp:554-561, BulkPolynomialInterpolateAt *)
  Definition bulk_at (y v : list F) (n : nat) : F := fold_left (fun r i => add r (mul (at_ y i) (at_ v i))) (seq 0 n) zero.
End Ring.
(** The ring GF2_32 of ida.h; MultiplicativeInverse is proved to return (C56), so its fuel is hidden here. *)
Definition gf_inverse (a : Z) : Z := match gf_inv gf_modulus a with Some v => v | None => 0%Z end.
Definition gf_prep_w := prep_w Z 0%Z 1%Z gf_add (gf_mul gf_modulus) gf_inverse.
Definition gf_prep_at := prep_at Z 0%Z 1%Z gf_add (gf_mul gf_modulus).
Definition gf_bulk_at := bulk_at Z 0%Z gf_add (gf_mul gf_modulus).
