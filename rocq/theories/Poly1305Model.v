(** Model of Poly1305 (poly1305.cpp, poly1305.h): the 32-bit limb code shared by Poly1305<T> and
    Poly1305TLS, and both classes around it.  The block cipher of Poly1305<T> is a parameter. *)
From Coq Require Import ZArith List Bool Arith.
From Verif Require Import Base Blocks HashModel.
Import ListNotations.
Local Open Scope Z_scope.

(** word32 and word64 truncation *)
Definition w32 (x : Z) : Z := x mod 2 ^ 32.
Definition w64 (x : Z) : Z := x mod 2 ^ 64.
(** misc.h GetWord<word32>(false, LITTLE_ENDIAN_ORDER, p + i) *)
Definition getw (p : list Z) (i : nat) : Z := le_val (firstn 4 (skipn i p)).

Record limbs := mkL { l0 : Z; l1 : Z; l2 : Z; l3 : Z; l4 : Z }.
Record quad := mkQ { q0 : Z; q1 : Z; q2 : Z; q3 : Z }.

(** poly1305.cpp:34-37 *)
Definition ctc (a b : Z) : Z := Z.shiftr (Z.lxor a (Z.lor (Z.lxor a b) (Z.lxor (w32 (a - b)) b))) 31.

(** poly1305.cpp:46-105, s1..s3 included: one turn of the while loop of Poly1305_HashBlocks. *)
Definition hash_block (h : limbs) (r : quad) (input : list Z) (padbit : Z) : limbs :=
  let r0 := q0 r in let r1 := q1 r in let r2 := q2 r in let r3 := q3 r in
  let s1 := w32 (r1 + Z.shiftr r1 2) in
  let s2 := w32 (r2 + Z.shiftr r2 2) in
  let s3 := w32 (r3 + Z.shiftr r3 2) in
  (* h += m[i] *)
  let d0 := w64 (l0 h + getw input 0) in let h0 := w32 d0 in
  let d1 := w64 (l1 h + Z.shiftr d0 32 + getw input 4) in let h1 := w32 d1 in
  let d2 := w64 (l2 h + Z.shiftr d1 32 + getw input 8) in let h2 := w32 d2 in
  let d3 := w64 (l3 h + Z.shiftr d2 32 + getw input 12) in let h3 := w32 d3 in
  let h4 := w32 (l4 h + (w32 (Z.shiftr d3 32) + padbit)) in
  (* h *= r "%" p *)
  let d0 := w64 (h0 * r0 + h1 * s3 + h2 * s2 + h3 * s1) in
  let d1 := w64 (h0 * r1 + h1 * r0 + h2 * s3 + h3 * s2 + w32 (h4 * s1)) in
  let d2 := w64 (h0 * r2 + h1 * r1 + h2 * r0 + h3 * s3 + w32 (h4 * s2)) in
  let d3 := w64 (h0 * r3 + h1 * r2 + h2 * r1 + h3 * r0 + w32 (h4 * s3)) in
  let h4 := w32 (h4 * r0) in
  (* a) *)
  let h0 := w32 d0 in
  let d1 := w64 (d1 + Z.shiftr d0 32) in let h1 := w32 d1 in
  let d2 := w64 (d2 + Z.shiftr d1 32) in let h2 := w32 d2 in
  let d3 := w64 (d3 + Z.shiftr d2 32) in let h3 := w32 d3 in
  let h4 := w32 (h4 + w32 (Z.shiftr d3 32)) in
  (* b) *)
  let c := w32 (Z.shiftr h4 2 + Z.land h4 4294967292) in
  let h4 := Z.land h4 3 in
  let h0 := w32 (h0 + c) in
  let c := ctc h0 c in let h1 := w32 (h1 + c) in
  let c := ctc h1 c in let h2 := w32 (h2 + c) in
  let c := ctc h2 c in let h3 := w32 (h3 + c) in
  let h4 := w32 (h4 + ctc h3 c) in
  mkL h0 h1 h2 h3 h4.

(** poly1305.cpp:39-109 *)
Fixpoint hash_blocks (fuel : nat) (h : limbs) (r : quad) (input : list Z) (length : nat) (padbit : Z) : limbs :=
  match fuel with
  | O => h
  | S f => if Nat.leb 16 length then hash_blocks f (hash_block h r input padbit) r (skipn 16 input) (length - 16) padbit else h
  end.

(** poly1305.cpp:111-161 *)
Definition hash_final (h : limbs) (n : quad) (size : nat) : list Z :=
  let t := w64 (l0 h + 5) in let g0 := w32 t in
  let t := w64 (l1 h + Z.shiftr t 32) in let g1 := w32 t in
  let t := w64 (l2 h + Z.shiftr t 32) in let g2 := w32 t in
  let t := w64 (l3 h + Z.shiftr t 32) in let g3 := w32 t in
  let g4 := w32 (l4 h + w32 (Z.shiftr t 32)) in
  let mask := w32 (0 - Z.shiftr g4 2) in
  let g0 := Z.land g0 mask in let g1 := Z.land g1 mask in
  let g2 := Z.land g2 mask in let g3 := Z.land g3 mask in
  let mask := Z.lxor mask 4294967295 in
  let h0 := Z.lor (Z.land (l0 h) mask) g0 in let h1 := Z.lor (Z.land (l1 h) mask) g1 in
  let h2 := Z.lor (Z.land (l2 h) mask) g2 in let h3 := Z.lor (Z.land (l3 h) mask) g3 in
  let t := w64 (h0 + q0 n) in let h0 := w32 t in
  let t := w64 (h1 + Z.shiftr t 32 + q1 n) in let h1 := w32 t in
  let t := w64 (h2 + Z.shiftr t 32 + q2 n) in let h2 := w32 t in
  let t := w64 (h3 + Z.shiftr t 32 + q3 n) in let h3 := w32 t in
  firstn size (le_bytes 4 h0 ++ le_bytes 4 h1 ++ le_bytes 4 h2 ++ le_bytes 4 h3).

(** poly1305.h:75-87 and 184-190: m_h, m_r, m_n, m_acc, m_idx and, for Poly1305<T>, the keyed cipher.
    m_used is written but read by an assertion only; it is left out. *)
Record poly := mkP { po_e : list Z -> list Z; po_h : limbs; po_r : quad; po_n : quad; po_acc : list Z; po_idx : nat }.

(** poly1305.cpp:306-311, 394-398 *)
Definition po_restart (s : poly) : poly := mkP (po_e s) (mkL 0 0 0 0 0) (po_r s) (po_n s) (po_acc s) 0.

(** poly1305.cpp:199-203, 320-324: the clamped key words *)
Definition clamp_words (key : list Z) : quad :=
  mkQ (Z.land (getw key 0) 268435455) (Z.land (getw key 4) 268435452)
      (Z.land (getw key 8) 268435452) (Z.land (getw key 12) 268435452).
Definition get_quad (p : list Z) : quad := mkQ (getw p 0) (getw p 4) (getw p 8) (getw p 12).

(** poly1305.cpp:218-256, 335-372 *)
Definition po_update (s : poly) (input : list Z) : poly :=
  if Nat.eqb (length input) 0 then s
  else
    let num := po_idx s in
    let tail h acc input :=
      let rem := (length input mod 16)%nat in
      let len := (length input - rem)%nat in
      let h2 := if Nat.leb 16 len then hash_blocks len h (po_r s) input len 1 else h in
      let input2 := if Nat.leb 16 len then skipn len input else input in
      let acc2 := if Nat.eqb rem 0 then acc else write 0 (firstn rem input2) acc in
      mkP (po_e s) h2 (po_r s) (po_n s) acc2 rem in
    if Nat.eqb num 0 then tail (po_h s) (po_acc s) input
    else
      let rem := (16 - num)%nat in
      if Nat.leb rem (length input) then
        let acc := write num (firstn rem input) (po_acc s) in
        tail (hash_blocks 16 (po_h s) (po_r s) acc 16 1) acc (skipn rem input)
      else mkP (po_e s) (po_h s) (po_r s) (po_n s) (write num input (po_acc s)) (num + length input).

(** poly1305.cpp:258-280, 374-392; [None]: InvalidArgument. *)
Definition po_final (s : poly) (size : nat) : poly * option (list Z) :=
  if Nat.ltb 16 size then (s, None)
  else
    let num := po_idx s in
    let acc := if Nat.eqb num 0 then po_acc s else write num (1 :: repeat 0 (16 - num - 1)) (po_acc s) in
    let h := if Nat.eqb num 0 then po_h s else hash_blocks 16 (po_h s) (po_r s) acc 16 0 in
    (po_restart (mkP (po_e s) h (po_r s) (po_n s) acc num), Some (hash_final h (po_n s) size)).

(** poly1305.cpp:282-298.  The nonce is read for 16 bytes whatever its length says. *)
Definition po_resync (s : poly) (nonce : list Z) : poly :=
  mkP (po_e s) (po_h s) (po_r s) (get_quad (po_e s nonce)) (po_acc s) (po_idx s).

(** Calls: SetKey with an optional IV parameter (empty: none), Resynchronize, and the usual ones. *)
Inductive pop := PUpdate (d : list Z) | PFinal (n : nat) | PRestart | PSetKey (k iv : list Z) | PResync (nonce : list Z).

Section Bernstein.
  Variable E : list Z -> list Z -> list Z.
  (** poly1305.cpp:189-216; FixedKeyLength<32> refuses other lengths in SetKey (cryptlib.cpp:58-62). *)
  Definition po_setkey (s : poly) (key iv : list Z) : option poly :=
    if Nat.eqb (length key) 32 then
      let s1 := mkP (E (firstn 16 key)) (po_h s) (clamp_words (skipn 16 key)) (po_n s) (po_acc s) (po_idx s) in
      let s2 := if Nat.eqb (length iv) 0 then s1 else po_resync s1 iv in
      Some (po_restart s2)
    else None.
  Definition po_step (s : poly) (op : pop) : poly * mout :=
    match op with
    | PUpdate d => (po_update s d, MODone)
    | PFinal n => let '(s', o) := po_final s n in (s', match o with Some t => MOTag t | None => MOInvalid end)
    | PRestart => (po_restart s, MODone)
    | PSetKey k iv => match po_setkey s k iv with Some s' => (s', MODone) | None => (s, MOInvalid) end
    | PResync nonce => (po_resync s nonce, MODone)
    end.
  Fixpoint po_run (s : poly) (ops : list pop) : list mout :=
    match ops with
    | [] => []
    | op :: r => let '(s', o) := po_step s op in o :: po_run s' r
    end.
End Bernstein.

(** poly1305.cpp:315-333: Poly1305TLS::SetKey *)
Definition pt_setkey (s : poly) (key : list Z) : option poly :=
  if Nat.eqb (length key) 32 then
    Some (po_restart (mkP (po_e s) (po_h s) (clamp_words key) (get_quad (skipn 16 key)) (po_acc s) (po_idx s)))
  else None.
Definition pt_step (s : poly) (op : mop) : poly * mout :=
  match op with
  | MUpdate d => (po_update s d, MODone)
  | MFinal n => let '(s', o) := po_final s n in (s', match o with Some t => MOTag t | None => MOInvalid end)
  | MRestart => (po_restart s, MODone)
  | MSetKey k => match pt_setkey s k with Some s' => (s', MODone) | None => (s, MOInvalid) end
  end.
Fixpoint pt_run (s : poly) (ops : list mop) : list mout :=
  match ops with
  | [] => []
  | op :: r => let '(s', o) := pt_step s op in o :: pt_run s' r
  end.
