(** Specification of arithmetic modulo an integer. *)
From Coq Require Import ZArith Bool.
From Verif Require Import IntegerModel.
Local Open Scope Z_scope.

(** [r] is what an inverse of [x] modulo [m] has to be: the inverse between 0 and [m], or 0 when there is none. *)
Definition inverse_of (x m r : Z) : Prop := (Z.gcd x m = 1 -> 0 < r < m /\ (x * r) mod m = 1) /\ (Z.gcd x m <> 1 -> r = 0).

(** A computation in the ring of integers modulo [m], on given Integer objects. *)
Inductive expr :=
| EIn (a : integer)            (* an element brought into the ring *)
| EOne                         (* the multiplicative identity *)
| EAdd (a b : expr) | ESub (a b : expr) | ENeg (a : expr)
| EMul (a b : expr) | ESqr (a : expr)
| EInv (a : expr).             (* the multiplicative inverse *)

(** [v] is a value of the computation, up to multiples of [m]; an inverse has one only if it exists. *)
Section Sem.
Variable val : integer -> Z -> Prop.
Variable m : Z.
Inductive sem : expr -> Z -> Prop :=
| sem_in a v : val a v -> sem (EIn a) v
| sem_one : sem EOne 1
| sem_add a b x y : sem a x -> sem b y -> sem (EAdd a b) (x + y)
| sem_sub a b x y : sem a x -> sem b y -> sem (ESub a b) (x - y)
| sem_neg a x : sem a x -> sem (ENeg a) (- x)
| sem_mul a b x y : sem a x -> sem b y -> sem (EMul a b) (x * y)
| sem_sqr a x : sem a x -> sem (ESqr a) (x * x)
| sem_inv a x r : sem a x -> (x * r) mod m = 1 -> sem (EInv a) r.
End Sem.
