(** Specification of scalar multiplication in a commutative group or monoid, and of what an implementation of it has to provide. *)
From Coq Require Import ZArith List Bool Permutation.
From Verif Require Import IntegerModel IntegerSpec.
Import ListNotations.
Local Open Scope Z_scope.

(** A commutative monoid. *)
Definition monoid {A} (op : A -> A -> A) (e : A) : Prop :=
  (forall a b c, op a (op b c) = op (op a b) c) /\ (forall a b, op a b = op b a) /\ (forall a, op e a = a).
(** [opp] gives inverses. *)
Definition inverses {A} (op : A -> A -> A) (e : A) (opp : A -> A) : Prop := forall a, op a (opp a) = e.
(** The multiple: [a] added up [n] times. *)
Definition multiple {A} (op : A -> A -> A) (e : A) (n : Z) (a : A) : A := Nat.iter (Z.to_nat n) (op a) e.

(** Objects of type [T] stand for elements of the monoid, [rep x a], and the operations of the class compute on them. An inverse is only asked of
    a class that says that inversion is fast; [asg x] is the object [x] is assigned to. *)
Record implements {T A} (rep : T -> A -> Prop) (op : A -> A -> A) (e : A) (opp : A -> A)
    (add : T -> T -> T) (dbl neg asg : T -> T) (zero : T) (fast : bool) : Prop := {
  impl_add : forall x y a b, rep x a -> rep y b -> rep (add x y) (op a b);
  impl_dbl : forall x a, rep x a -> rep (dbl x) (op a a);
  impl_neg : fast = true -> forall x a, rep x a -> rep (neg x) (opp a);
  impl_asg : forall x a, rep x a -> rep (asg x) a;
  impl_zero : rep zero e }.

(** What std::make_heap or std::push_heap followed by std::pop_heap leaves: the same pairs, the largest exponent last and the next largest first. *)
Definition heaps {T} (w : Z) (h : list (T * integer) -> list (T * integer)) : Prop :=
  forall l, Permutation (h l) l /\
    (forall front z, h l = front ++ [z] -> Forall (fun p => ival w (snd p) <= ival w (snd z)) front) /\
    (forall b mid z, h l = b :: mid ++ [z] -> Forall (fun p => ival w (snd p) <= ival w (snd b)) mid).

(** The sum of the multiples of pairs of an element and a number. *)
Definition combination {A} (op : A -> A -> A) (e : A) (l : list (A * Z)) : A :=
  fold_right (fun p s => op (multiple op e (snd p) (fst p)) s) e l.
