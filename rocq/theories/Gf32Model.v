(** The field GF(2^32): class GF2_32, gf2_32.cpp and gf2_32.h. A word32 is a Z below 2^32. *)
From Coq Require Import ZArith List Bool.
Import ListNotations.
Local Open Scope Z_scope.

(** x << 1 on a word32 *)
Definition gf_shl (a : Z) : Z := (2 * a) mod 2 ^ 32.
(** gf2_32.cpp:9-23: the table of the four values 0, m_modulus and a << 1 with and without the reduction of its own top bit. *)
Definition gf_table (m a : Z) : list Z :=
  if negb (Z.land a 2147483648 =? 0)
  then [0; m; Z.lxor m (gf_shl a); gf_shl a]
  else [0; m; gf_shl a; Z.lxor m (gf_shl a)].
Definition gf_at (t : list Z) (i : Z) : Z := nth (Z.to_nat i) t 0.
(** gf2_32.cpp:39-40: the loop for i = n-1 downto 0. *)
Fixpoint gf_mul_loop (t : list Z) (b : Z) (n : nat) (r : Z) : Z :=
  match n with
  | O => r
  | S i => gf_mul_loop t b i (Z.lxor (gf_shl r) (gf_at t (Z.land (Z.shiftr b (Z.of_nat i)) 2 + Z.shiftr r 31)))
  end.
(** gf2_32.cpp:9-44, GF2_32::Multiply, the branch without fast rotates (lines 36-43). *)
Definition gf_mul (m a b : Z) : Z :=
  let t := gf_table m a in
  let r := gf_mul_loop t b 30 (gf_at t (Z.land (Z.shiftr b 30) 2)) in
  if negb (Z.land b 1 =? 0) then Z.lxor r a else r.
(** misc.h rotlConstant<1> and rotrConstant<30> on a word32 *)
Definition gf_rotl1 (b : Z) : Z := Z.lor ((b * 2) mod 2 ^ 32) (Z.shiftr b 31).
Definition gf_rotr30 (b : Z) : Z := Z.lor (Z.shiftr b 30) ((b * 4) mod 2 ^ 32).
(** gf2_32.cpp:29-33: the loop of the branch with fast rotates; it also returns b. *)
Fixpoint gf_rot_loop (t : list Z) (b : Z) (n : nat) (r : Z) : Z * Z :=
  match n with
  | O => (r, b)
  | S i => let b := gf_rotl1 b in gf_rot_loop t b i (Z.lxor (gf_shl r) (gf_at t (Z.land b 2 + Z.shiftr r 31)))
  end.
(** gf2_32.cpp:9-44, GF2_32::Multiply, the branch with fast rotates (lines 25-35). *)
Definition gf_mul_rot (m a b : Z) : Z :=
  let t := gf_table m a in
  let b := gf_rotr30 b in
  let '(r, b) := gf_rot_loop t b 30 (gf_at t (Z.land b 2)) in
  if negb (Z.land b 1 =? 0) then Z.lxor r a else r.

(** gf2_32.cpp:57-61: shift g2 and v2 until the top bit of g2 is set. [None] when fuel runs out. *)
Fixpoint gf_norm (fuel : nat) (g2 v2 : Z) : option (Z * Z) :=
  match fuel with
  | O => None
  | S k => if negb (Z.land g2 2147483648 =? 0) then Some (g2, v2) else gf_norm k (gf_shl g2) (gf_shl v2)
  end.
(** gf2_32.cpp:85-90: shift g2 and v2 until g0 ^ g2 < g2. [None] when fuel runs out. *)
Fixpoint gf_align (fuel : nat) (g0 g2 v2 : Z) : option (Z * Z) :=
  match fuel with
  | O => None
  | S k => if g2 <=? Z.lxor g0 g2 then gf_align k g0 (gf_shl g2) (gf_shl v2) else Some (g2, v2)
  end.
(** gf2_32.cpp:69-95: the main loop. [None] when fuel runs out. *)
Fixpoint gf_inv_loop (fuel : nat) (g0 v0 g1 v1 : Z) : option Z :=
  match fuel with
  | O => None
  | S k =>
      if g0 =? 1 then Some v0 else
      let '(g0, v0, g1, v1, g2, v2) :=
        if (g1 <? g0) || ((Z.lxor g0 g1 <? g0) && (Z.lxor g0 g1 <? g1))
        then (g0, v0, g1, v1, g1, v1)
        else (g1, v1, g0, v0, g0, v0) in
      match gf_align 33 g0 g2 v2 with
      | None => None
      | Some (g2, v2) => gf_inv_loop k (Z.lxor g0 g2) (Z.lxor v0 v2) g1 v1
      end
  end.
(** gf2_32.cpp:46-97, GF2_32::MultiplicativeInverse. [None] when fuel runs out: the fuel is 33 shifts and 64 rounds. *)
Definition gf_inv (m a : Z) : option Z :=
  if a <=? 1 then Some a else
  match gf_norm 33 a 1 with
  | None => None
  | Some (g2, v2) => gf_inv_loop 64 (Z.lxor m (gf_shl g2)) (Z.lxor 0 (gf_shl v2)) a 1
  end.
(** gf2_32.h:19, the default modulus; gf2_32.h:26-63, the other operations *)
Definition gf_modulus : Z := 141.
Definition gf_add (a b : Z) : Z := Z.lxor a b.
Definition gf_divide (m a b : Z) : option Z := match gf_inv m b with Some v => Some (gf_mul m a v) | None => None end.
