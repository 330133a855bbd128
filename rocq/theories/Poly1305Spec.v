(** Poly1305 as RFC 8439 section 2.5 states it. *)
From Coq Require Import ZArith List Bool Arith.
From Verif Require Import Base Blocks HashModel Poly1305Model.
Import ListNotations.
Local Open Scope Z_scope.

Definition P1305 : Z := 2 ^ 130 - 5.
Definition clamp (r : Z) : Z := Z.land r 0x0ffffffc0ffffffc0ffffffc0fffffff.
(** The message in 16-byte pieces, the last one possibly shorter. *)
Definition pieces (m : list Z) : list (list Z) :=
  blocks 16 m ++ match rest 16 m with [] => [] | l => [l] end.
Definition poly_acc (r : Z) (ps : list (list Z)) : Z :=
  fold_left (fun a b => ((a + le_val (b ++ [1])) * r) mod P1305) ps 0.
(** [rkey], [s]: 16 bytes each. *)
Definition poly1305_spec (rkey s m : list Z) : list Z :=
  le_bytes 16 ((poly_acc (clamp (le_val rkey)) (pieces m) + le_val s) mod 2 ^ 128).

(** Poly1305TLS: the key is r followed by s. *)
Definition poly1305_tls (key m : list Z) : list Z := poly1305_spec (firstn 16 key) (skipn 16 key) m.
(** Keys of the wrong length are refused. *)
Definition spec_ptstep (s : list Z * list Z) (op : mop) : (list Z * list Z) * mout :=
  let '(k, m) := s in
  match op with
  | MUpdate d => ((k, m ++ d), MODone)
  | MFinal n => if Nat.leb n 16 then ((k, []), MOTag (firstn n (poly1305_tls k m))) else (s, MOInvalid)
  | MRestart => ((k, []), MODone)
  | MSetKey k' => if Nat.eqb (length k') 32 then ((k', []), MODone) else (s, MOInvalid)
  end.
Fixpoint spec_ptrun (s : list Z * list Z) (ops : list mop) : list mout :=
  match ops with [] => [] | op :: r => let '(s', o) := spec_ptstep s op in o :: spec_ptrun s' r end.

(** Poly1305<T>, Bernstein's form: the key is a cipher key followed by r; s is the encrypted nonce.  The
    state is the key, s and the message so far. *)
Definition spec_postep (E : list Z -> list Z -> list Z) (st : list Z * list Z * list Z) (op : pop)
  : (list Z * list Z * list Z) * mout :=
  let '(k, s, m) := st in
  match op with
  | PUpdate d => ((k, s, m ++ d), MODone)
  | PFinal n => if Nat.leb n 16 then ((k, s, []), MOTag (firstn n (poly1305_spec (skipn 16 k) s m))) else (st, MOInvalid)
  | PRestart => ((k, s, []), MODone)
  | PSetKey k' iv =>
    if Nat.eqb (length k') 32 then ((k', match iv with [] => s | _ => E (firstn 16 k') iv end, []), MODone) else (st, MOInvalid)
  | PResync nonce => ((k, E (firstn 16 k) nonce, m), MODone)
  end.
Fixpoint spec_porun (E : list Z -> list Z -> list Z) (st : list Z * list Z * list Z) (ops : list pop) : list mout :=
  match ops with [] => [] | op :: r => let '(s', o) := spec_postep E st op in o :: spec_porun E s' r end.
