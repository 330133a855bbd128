(** WindowSpec: what a back reference means (RFC 1951, section 3.2.3: "move
    backwards distance bytes in the output stream, and copy length bytes from
    this position to the output stream"), in terms of the whole output so far
    and without any window. *)
From Coq Require Import ZArith List Arith Bool.
From Verif Require Import Base WindowModel.
Import ListNotations.

(** Copy [n] bytes, one after the other, each from [d] positions before the
    end of the output so far. *)
Fixpoint lz_copy (n d : nat) (h : list Z) : list Z :=
  match n with
  | O => h
  | S n => lz_copy n d (h ++ [nth (length h - d) h 0%Z])
  end.

(** The output after a sequence of requests, [None] when a reference goes
    back further than the output, or further than [size] bytes. *)
Definition hist1 (size : nat) (h : list Z) (o : wop) : option (list Z) :=
  match o with
  | OpByte b => Some (h ++ [b])
  | OpString s => Some (h ++ s)
  | OpPast l d => if (d <=? length h) && (d <=? size) then Some (lz_copy l d h) else None
  | OpFlush => Some h
  end.

Fixpoint hist (size : nat) (h : list Z) (l : list wop) : option (list Z) :=
  match l with
  | [] => Some h
  | o :: l => match hist1 size h o with Some h => hist size h l | None => None end
  end.

(** References as the decoder makes them: the distance is at least one, and
    the length is at most [m] (258 in deflate). *)
Definition wop_ok (m : nat) (o : wop) : Prop :=
  match o with
  | OpPast l d => 1 <= d /\ l <= m
  | _ => True
  end.
