(** What a user of a block cipher object relies on, for any cipher. *)
From Coq Require Import ZArith List.
From Verif Require Import Base.
Import ListNotations.
Local Open Scope Z_scope.

(** A block function: block and optional mask in, block out ([None]: no answer, the call does not end
    or is not possible). *)
Definition block_fun : Type := list Z -> option (list Z) -> option (list Z).

(** [undoes n E D]: [E] maps every block of [n] bytes to a block of [n] bytes, and [D] maps it back. *)
Definition undoes (n : nat) (E D : block_fun) : Prop :=
  forall b, bytes b -> length b = n ->
    exists c, E b None = Some c /\ bytes c /\ length c = n /\ D c None = Some b.

(** With a mask the answer is the answer without one, exclusive-ored with the mask. *)
Definition masks (n : nat) (E : block_fun) : Prop :=
  forall b m c, bytes b -> length b = n -> E b None = Some c -> E b (Some m) = Some (xorl c m).

(** The two directions of a block cipher with [n]-byte blocks under one key. *)
Definition block_cipher (n : nat) (E D : block_fun) : Prop :=
  undoes n E D /\ undoes n D E /\ masks n E /\ masks n D.
