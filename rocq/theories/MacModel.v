(** Model of CMAC (cmac.cpp, cmac.h) and CBC-MAC (cbcmac.cpp, cbcmac.h).  The block cipher is a parameter:
    [E key block]; its block size [B] is even and at least 8 for CMAC. *)
From Coq Require Import ZArith List Bool Arith.
From Verif Require Import Base Blocks HashModel.
Import ListNotations.
Local Open Scope Z_scope.

(** misc.h xorbuf(buf + pos, d, |d|). *)
Definition xor_at (pos : nat) (d buf : list Z) : list Z :=
  write pos (xorl (firstn (length d) (skipn pos buf)) d) buf.

(** cryptlib.cpp:141-188: AdvancedProcessBlocks(reg, input, reg, len, BT_DontIncrementInOutPointers |
    BT_XorInput): the while loop; input and output pointers stay, the xor pointer advances.
    Returns the register and the number of bytes left over.  Ciphers with their own version of this
    function are assumed to agree with it. *)
Fixpoint apb_xor (fuel : nat) (e : list Z -> list Z) (B : nat) (reg input : list Z) (len : nat) : list Z * nat :=
  match fuel with
  | O => (reg, len)
  | S f => if Nat.leb B len then apb_xor f e B (e (xorl (firstn B input) reg)) (skipn B input) (len - B) else (reg, len)
  end.

(* ---------------------------------------------------------------- CMAC *)

(** cmac.cpp:14-22: the loop of MulU, two bytes at a time from the end of the array (the list here is the
    array reversed).  Byte arithmetic is modulo 256. *)
Fixpoint mulu_loop (rk : list Z) (carry : Z) : list Z * Z :=
  match rk with
  | b0 :: b1 :: r =>
    let carry2 := Z.shiftr b0 7 in
    let b0' := (b0 + (b0 + carry)) mod 256 in
    let carry' := Z.shiftr b1 7 in
    let b1' := (b1 + (b1 + carry2)) mod 256 in
    let '(r', c) := mulu_loop r carry' in (b0' :: b1' :: r', c)
  | _ => (rk, carry)
  end.
(** k[i] ^= v *)
Definition xor_byte (i : nat) (v : Z) (k : list Z) : list Z := upd i (Z.lxor (nth i k 0) v) k.
(** cmac.cpp:14-69; other lengths only assert. *)
Definition mulu (k : list Z) : list Z :=
  let '(rk, carry) := mulu_loop (rev k) 0 in
  let k1 := rev rk in
  if Z.eqb carry 0 then k1
  else if Nat.eqb (length k) 8 then xor_byte 7 27 k1
  else if Nat.eqb (length k) 16 then xor_byte 15 135 k1
  else if Nat.eqb (length k) 32 then xor_byte 31 37 (xor_byte 30 4 k1)
  else if Nat.eqb (length k) 64 then xor_byte 63 37 (xor_byte 62 1 k1)
  else if Nat.eqb (length k) 128 then xor_byte 127 67 (xor_byte 126 0 (xor_byte 125 8 k1))
  else k1.

(** cmac.h:47-48: the keyed cipher, the three blocks of m_reg, m_counter. *)
Record cmac := mkCM { cm_e : list Z -> list Z; cm_reg : list Z; cm_k1 : list Z; cm_k2 : list Z; cm_counter : nat }.

Section Macs.
  Variable E : list Z -> list Z -> list Z.
  Variable B : nat.

  (** cmac.cpp:77-90 *)
  Definition cm_setkey (key : list Z) : cmac :=
    let e := E key in
    let k1 := mulu (e (repeat 0 B)) in
    mkCM e (repeat 0 B) k1 (mulu k1) 0.

  (** cmac.cpp:92-132 *)
  Definition cm_update (s : cmac) (input : list Z) : cmac :=
    if Nat.eqb (length input) 0 then s
    else
      let '(reg1, input1, c1) :=
        if Nat.ltb 0 (cm_counter s) then
          let len := Nat.min (B - cm_counter s) (length input) in
          let reg := xor_at (cm_counter s) (firstn len input) (cm_reg s) in
          let inp := skipn len input in
          let c := (cm_counter s + len)%nat in
          if Nat.eqb c B && Nat.ltb 0 (length inp) then (cm_e s reg, inp, 0%nat) else (reg, inp, c)
        else (cm_reg s, input, cm_counter s) in
      let '(reg2, input2) :=
        if Nat.ltb B (length input1) then
          let '(reg, lo) := apb_xor (length input1) (cm_e s) B reg1 input1 (length input1 - 1) in
          (reg, skipn (length input1 - (1 + lo)) input1)
        else (reg1, input1) in
      if Nat.ltb 0 (length input2) then
        mkCM (cm_e s) (xor_at c1 input2 reg2) (cm_k1 s) (cm_k2 s) (c1 + length input2)
      else mkCM (cm_e s) reg2 (cm_k1 s) (cm_k2 s) c1.

  (** cmac.cpp:134-155; [None]: InvalidArgument. *)
  Definition cm_final (s : cmac) (size : nat) : cmac * option (list Z) :=
    if Nat.ltb B size then (s, None)
    else
      let reg :=
        if Nat.ltb (cm_counter s) B then
          let r := xor_byte (cm_counter s) 128 (cm_reg s) in fst (apb_xor B (cm_e s) B r (cm_k2 s) B)
        else fst (apb_xor B (cm_e s) B (cm_reg s) (cm_k1 s) B) in
      (mkCM (cm_e s) (repeat 0 B) (cm_k1 s) (cm_k2 s) 0, Some (firstn size reg)).

  (** Restart is HashTransformation::Restart (cryptlib.h:1187): TruncatedFinal(NULL, 0). *)
  Definition cm_step (s : cmac) (op : mop) : cmac * mout :=
    match op with
    | MUpdate d => (cm_update s d, MODone)
    | MFinal n => let '(s', o) := cm_final s n in (s', match o with Some t => MOTag t | None => MOInvalid end)
    | MRestart => (fst (cm_final s 0), MODone)
    | MSetKey k => (cm_setkey k, MODone)
    end.
  Fixpoint cm_run (s : cmac) (ops : list mop) : list mout :=
    match ops with
    | [] => []
    | op :: r => let '(s', o) := cm_step s op in o :: cm_run s' r
    end.

  (* -------------------------------------------------------------- CBC-MAC *)

  (** cbcmac.h: the cipher, m_reg, m_counter *)
  Record cbcmac := mkCB { cb_e : list Z -> list Z; cb_reg : list Z; cb_counter : nat }.

  (** cbcmac.cpp:9-14 *)
  Definition cb_setkey (key : list Z) : cbcmac := mkCB (E key) (repeat 0 B) 0.

  (** cbcmac.cpp:57-61 *)
  Definition cb_process (s : cbcmac) : cbcmac := mkCB (cb_e s) (cb_e s (cb_reg s)) 0.
  (** cbcmac.cpp:22-24, 39-41: one byte *)
  Definition cb_byte (s : cbcmac) (b : Z) : cbcmac :=
    let s1 := mkCB (cb_e s) (xor_byte (cb_counter s) b (cb_reg s)) (S (cb_counter s)) in
    if Nat.eqb (cb_counter s1) B then cb_process s1 else s1.
  (** cbcmac.cpp:20-26 *)
  Fixpoint cb_fill (s : cbcmac) (input : list Z) : cbcmac * list Z :=
    match input with
    | [] => (s, [])
    | b :: r => if Nat.eqb (cb_counter s) 0 then (s, input) else cb_fill (cb_byte s b) r
    end.
  (** cbcmac.cpp:16-43 *)
  Definition cb_update (s : cbcmac) (input : list Z) : cbcmac :=
    let '(s1, input1) := cb_fill s input in
    let '(s2, input2) :=
      if Nat.leb B (length input1) then
        let '(reg, lo) := apb_xor (length input1) (cb_e s1) B (cb_reg s1) input1 (length input1) in
        (mkCB (cb_e s1) reg (cb_counter s1), skipn (length input1 - lo) input1)
      else (s1, input1) in
    fold_left cb_byte input2 s2.
  (** cbcmac.cpp:45-55 *)
  Definition cb_final (s : cbcmac) (size : nat) : cbcmac * option (list Z) :=
    if Nat.ltb B size then (s, None)
    else
      let s1 := if Nat.eqb (cb_counter s) 0 then s else cb_process s in
      (mkCB (cb_e s1) (repeat 0 B) (cb_counter s1), Some (firstn size (cb_reg s1))).

  Definition cb_step (s : cbcmac) (op : mop) : cbcmac * mout :=
    match op with
    | MUpdate d => (cb_update s d, MODone)
    | MFinal n => let '(s', o) := cb_final s n in (s', match o with Some t => MOTag t | None => MOInvalid end)
    | MRestart => (fst (cb_final s 0), MODone)
    | MSetKey k => (cb_setkey k, MODone)
    end.
  Fixpoint cb_run (s : cbcmac) (ops : list mop) : list mout :=
    match ops with
    | [] => []
    | op :: r => let '(s', o) := cb_step s op in o :: cb_run s' r
    end.
End Macs.
