(** The checksums as RFC 1950 (Adler-32) and ISO 3309 / RFC 3720 (CRC) define them. *)
From Coq Require Import ZArith List Bool Arith.
From Verif Require Import Base HashModel ChecksumModel.
Import ListNotations.
Local Open Scope Z_scope.

(** RFC 1950: s1 is 1 plus the sum of all bytes, s2 the sum of all s1 values, both modulo 65521; the
    checksum is s2 * 65536 + s1, most significant byte first. *)
Fixpoint sum_bytes (m : list Z) : Z := match m with [] => 0 | b :: r => b + sum_bytes r end.
Definition adler_s1 (m : list Z) : Z := 1 + sum_bytes m.
Fixpoint sum_s1 (n : nat) (m : list Z) : Z :=
  match n with O => 0 | S k => sum_s1 k m + adler_s1 (firstn (S k) m) end.
Definition adler_s2 (m : list Z) : Z := sum_s1 (length m) m.
Definition adler_spec (m : list Z) : list Z := be_bytes 4 (adler_s2 m mod 65521 * 65536 + adler_s1 m mod 65521).

(** One bit of the reflected shift register with polynomial [P]. *)
Definition lfsr (P c : Z) : Z := if Z.odd c then Z.lxor (c / 2) P else c / 2.
Definition lfsr_byte (P c b : Z) : Z := Nat.iter 8 (lfsr P) (Z.lxor c b).
Definition crc_spec (P : Z) (m : list Z) : list Z := le_bytes 4 (Z.lxor (fold_left (lfsr_byte P) m 0xffffffff) 0xffffffff).
Definition POLY_CRC32 : Z := 0xEDB88320.
Definition POLY_CRC32C : Z := 0x82F63B78.

(** Histories: [m] is what was fed since the last digest or restart. *)
Definition spec_cstep (digest : list Z -> list Z) (m : list Z) (op : cop) : list Z * mout :=
  match op with
  | CUpdate _ d => (m ++ d, MODone)
  | CFinal n => if Nat.leb n 4 then ([], MOTag (firstn n (digest m))) else (m, MOInvalid)
  | CRestart => ([], MODone)
  end.
Fixpoint spec_crun (digest : list Z -> list Z) (m : list Z) (ops : list cop) : list mout :=
  match ops with [] => [] | op :: r => let '(m', o) := spec_cstep digest m op in o :: spec_crun digest m' r end.
Definition cop_ok (op : cop) : Prop := match op with CUpdate a d => (a < 4)%nat /\ bytes d | _ => True end.
